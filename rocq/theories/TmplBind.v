(** Proofs about templates: arguments of hypertags. *)
From Coq Require Import List NArith ZArith Bool Lia Arith String.
From Verif Require Import PyStr PyStrFacts Html Indent IndentSpec PyDict Structs StructsSpec StructsFacts Value Dom DomSpec DomFacts Ast Machine Eval Translate Analyse
  MachineFacts RenderFacts ScopeSpec ScopeFacts BindFacts PageSpec PageRender PageTree PageRun OperSpec TmplSpec TmplLines TmplRender TmplTree TmplParse TmplExpr TmplTag TmplScope TmplRun.
Notation tree := DomSpec.tree.
Notation root := DomSpec.root.
Import ListNotations.
Local Open Scope list_scope.
Local Open Scope nat_scope.
Notation agrees := TmplExpr.agrees.
Notation given := TmplSpec.given.

(** ** Dictionaries *)
Lemma get_dget n (r : store) : get n r = dget str_eqb n r.
Proof. induction r as [|[y v] r IH]; cbn [get dget]; [reflexivity|]. destruct (str_eqb n y); [reflexivity|exact IH]. Qed.
Lemma dget_dset n y v (r : store) : dget str_eqb n (dset str_eqb y v r) = if str_eqb n y then Some v else dget str_eqb n r.
Proof.
  induction r as [|[z w] r IH]; cbn [dset dget]; [reflexivity|]. destruct (str_eqb y z) eqn:E.
  - apply str_eqb_eq in E. subst z. cbn [dget]. destruct (str_eqb n y); reflexivity.
  - cbn [dget]. rewrite IH. destruct (str_eqb n z) eqn:E1; [|reflexivity]. apply str_eqb_eq in E1. subst z.
    destruct (str_eqb n y) eqn:E2; [|reflexivity]. apply str_eqb_eq in E2. subst y. rewrite str_eqb_refl in E. discriminate.
Qed.
Lemma dset_dom y v (r : store) : incl (map fst (dset str_eqb y v r)) (y :: map fst r).
Proof.
  induction r as [|[z w] r IH]; cbn [dset map fst]; [apply incl_refl|]. destruct (str_eqb y z) eqn:E; cbn [map fst].
  - apply str_eqb_eq in E. subst z. apply incl_tl, incl_refl.
  - intros k [<-|I]; [right; left; reflexivity|]. destruct (IH k I) as [<-|J]; [left; reflexivity|right; right; exact J].
Qed.
Lemma dget_none_not n (r : store) : ~ In n (map fst r) -> dget str_eqb n r = None.
Proof.
  induction r as [|[y v] r IH]; intros H; [reflexivity|]. cbn [dget]. destruct (str_eqb n y) eqn:E.
  - apply str_eqb_eq in E. subst y. destruct H. left. reflexivity.
  - apply IH. intros I. apply H. right. exact I.
Qed.
Lemma get_sets l : forall r n, NoDup (map fst l) ->
  get n (fold_left (fun r (a : str * val) => set (fst a) (snd a) r) l r) = match dget str_eqb n l with Some v => Some v | None => get n r end.
Proof.
  induction l as [|[y v] l IH]; intros r n N; [reflexivity|]. cbn [map fst] in N. inversion N as [|? ? N1 N2]; subst. cbn [fold_left dget fst snd]. rewrite (IH _ _ N2), get_set.
  destruct (str_eqb n y) eqn:E; [|reflexivity]. apply str_eqb_eq in E. subst y. rewrite (dget_none_not n l N1). reflexivity.
Qed.
Lemma eqb_neq n y : n <> y -> str_eqb n y = false.
Proof. intros H. destruct (str_eqb n y) eqn:E; [|reflexivity]. apply str_eqb_eq in E. contradiction. Qed.

Lemma firstn_incl {A} n (l : list A) : incl (firstn n l) l.
Proof. intros x I. rewrite <- (firstn_skipn n l). apply in_or_app. left. exact I. Qed.

(** ** Parameters *)
Section Bind.
Context {W : Type}.
Variables (P : prims W) (Q : py).
Variable ex : hyper -> val -> list val -> list (str * val) -> nat -> M W (list nid).
Variable s : nat.
Notation sees := (sees (W := W) s).
Notation SE := str_eqb.

(** A parameter after analysis: its default value is that of the given expression. *)
Definition fits (c : ctx) (p : str * option given) (f : str * option expr * slot) : Prop :=
  fst (fst f) = fst p /\
  match snd p, snd (fst f) with
  | None, None => True
  | Some g, Some e => forall m r, sees c r m -> tells (inst_given Q r g) (eval P ex s e m) m
  | _, _ => False
  end.

Lemma fits_names c ps rs : Forall2 (fits c) ps rs -> map (fun a : str * option expr * slot => fst (fst a)) rs = map fst ps.
Proof. intros H. induction H as [|p f ps rs [E _] H IH]; [reflexivity|]. cbn [map]. rewrite E, IH. reflexivity. Qed.

Lemma defaults_run c r0 m : sees c r0 m -> forall ps rs, Forall2 (fits c) ps rs -> NoDup (map fst ps) -> forall kw bound a, NoDup (map fst bound) ->
  (forall n, In n (map fst ps) -> dget SE n bound = get n kw) -> bind_params Q r0 ps [] kw = Is a ->
  exists full, add_defaults P ex s rs bound m = (Done full, m) /\ NoDup (map fst full) /\ (forall n, In n (map fst ps) -> dget SE n full = get n a) /\
    (forall n, ~ In n (map fst ps) -> dget SE n full = dget SE n bound) /\ incl (map fst full) (map fst bound ++ map fst ps) /\ map fst a = map fst ps.
Proof.
  intros Se ps rs F. induction F as [|[n d] [[n' e] x] ps rs [E1 E2] F IH]; intros N kw bound a Nb Hk Ha.
  - injection Ha as <-. exists bound. split; [reflexivity|]. split; [exact Nb|]. split; [intros n []|]. split; [reflexivity|]. split; [cbn; rewrite app_nil_r; apply incl_refl|reflexivity].
  - cbn [fst snd] in E1, E2. subst n'. cbn [map fst] in N. inversion N as [|? ? N1 N2]; subst. cbn [bind_params] in Ha. oinv Ha v Ev. oinv Ha a1 Ea. injection Ha as <-.
    assert (Hn : dget SE n bound = get n kw) by (apply Hk; left; reflexivity).
    assert (Go : exists bound', (if dmem SE n bound then ret bound else match e with None => exc TypeError | Some e => v <* eval P ex s e ;; ret (dset SE n v bound) end) m = (Done bound', m) /\
      NoDup (map fst bound') /\ dget SE n bound' = Some v /\ (forall k, k <> n -> dget SE k bound' = dget SE k bound) /\ incl (map fst bound') (n :: map fst bound)).
    { unfold dmem. rewrite Hn. destruct (get n kw) as [w|] eqn:G.
      - injection Ev as ->. exists bound. split; [reflexivity|]. split; [exact Nb|]. split; [exact Hn|]. split; [reflexivity|]. apply incl_tl, incl_refl.
      - destruct d as [g|]; [|discriminate]. destruct e as [e|]; [|destruct E2]. exists (dset SE n v bound). split; [rewrite (run_bind _ _ _ _ _ (tells_is _ _ _ _ (E2 m r0 Se) Ev)); reflexivity|].
        split; [apply (nodup_dset SE str_eqb_eq), Nb|]. split; [rewrite dget_dset, str_eqb_refl; reflexivity|]. split; [|apply dset_dom].
        intros k K. rewrite dget_dset, (eqb_neq _ _ K). reflexivity. }
    destruct Go as (bound' & Eg & Nb' & Gn & Go & Gi).
    destruct (IH N2 kw bound' a1 Nb') as (full & Ef & Nf & F1 & F2 & F3 & F4); [|exact Ea|].
    { intros k K. rewrite Go; [apply Hk; right; exact K|]. intros ->. exact (N1 K). }
    exists full. split; [|split; [exact Nf|split; [|split; [|split]]]].
    + unfold add_defaults. cbn [mfold]. rewrite (run_bind _ _ _ _ _ Eg). exact Ef.
    + intros k [<-|K].
      * rewrite F2 by exact N1. cbn [get]. rewrite str_eqb_refl. exact Gn.
      * rewrite (F1 k K). cbn [get]. rewrite eqb_neq; [reflexivity|]. intros ->. exact (N1 K).
    + intros k K. rewrite F2 by (intros J; apply K; right; exact J). apply Go. intros ->. apply K. left. reflexivity.
    + intros k K. apply F3 in K. apply in_app_or in K. apply in_or_app. destruct K as [K|K]; [|right; right; exact K]. apply Gi in K. destruct K as [<-|K]; [right; left; reflexivity|left; exact K].
    + cbn [map fst]. rewrite F4. reflexivity.
Qed.

Lemma bind_run c r0 m : sees c r0 m -> forall ps rs, Forall2 (fits c) ps rs -> NoDup (map fst ps) -> forall pos kw bound a, NoDup (map fst bound) ->
  (forall n, In n (map fst ps) -> dget SE n bound = get n kw) -> bind_params Q r0 ps pos kw = Is a ->
  List.length pos <= List.length ps /\ existsb (fun n => dmem SE n bound) (firstn (List.length pos) (map fst ps)) = false /\
  exists full, add_defaults P ex s rs (bound ++ combine (map fst ps) pos) m = (Done full, m) /\ NoDup (map fst full) /\ (forall n, In n (map fst ps) -> dget SE n full = get n a) /\
    (forall n, ~ In n (map fst ps) -> dget SE n full = dget SE n bound) /\ incl (map fst full) (map fst bound ++ map fst ps) /\ map fst a = map fst ps.
Proof.
  intros Se ps rs F. induction F as [|[n d] [[n' e] x] ps rs [E1 E2] F IH]; intros N pos kw bound a Nb Hk Ha.
  - cbn [bind_params] in Ha. destruct pos; [|discriminate]. split; [cbn; lia|]. split; [reflexivity|]. cbn [map combine]. rewrite app_nil_r.
    exact (defaults_run c r0 m Se [] [] (Forall2_nil _) N kw bound a Nb Hk Ha).
  - destruct pos as [|v pos].
    { split; [cbn; lia|]. split; [reflexivity|]. cbn [combine map]. rewrite app_nil_r.
      exact (defaults_run c r0 m Se ((n, d) :: ps) ((n', e, x) :: rs) (Forall2_cons _ _ (conj E1 E2) F) N kw bound a Nb Hk Ha). }
    cbn [fst snd] in E1. subst n'. cbn [map fst] in N. inversion N as [|? ? N1 N2]; subst. cbn [bind_params] in Ha. destruct (get n kw) eqn:G; [discriminate|]. oinv Ha a1 Ea. injection Ha as <-.
    assert (Hn : dget SE n bound = None) by (rewrite <- G; apply Hk; left; reflexivity).
    assert (Nn : ~ In n (map fst bound)). { intros J. apply dmem_In in J. unfold dmem in J. rewrite Hn in J. discriminate. }
    assert (Gb : forall k, k <> n -> dget SE k (bound ++ [(n, v)]) = dget SE k bound).
    { intros k K. rewrite dget_app. cbn [dget]. rewrite (eqb_neq _ _ K). destruct (dget SE k bound); reflexivity. }
    destruct (IH N2 pos kw (bound ++ [(n, v)]) a1) as (L & Ex & full & Ef & Nf & F1 & F2 & F3 & F4); [| |exact Ea|].
    { rewrite map_app. apply NoDup_app'; [exact Nb|repeat constructor; intros []|]. intros k K [<-|[]]. exact (Nn K). }
    { intros k K. rewrite Gb; [apply Hk; right; exact K|]. intros ->. exact (N1 K). }
    split; [cbn [List.length]; lia|]. split.
    { cbn [List.length firstn map fst existsb]. assert (Dn : dmem SE n bound = false) by (unfold dmem; rewrite Hn; reflexivity). rewrite Dn. cbn [orb]. destruct (existsb _ _) eqn:E in |- *; [|reflexivity].
      apply existsb_exists in E. destruct E as (k & K1 & K2). assert (X : existsb (fun n1 => dmem SE n1 (bound ++ [(n, v)])) (firstn (List.length pos) (map fst ps)) = true).
      { apply existsb_exists. exists k. split; [exact K1|]. rewrite dmem_app, K2. reflexivity. } congruence. }
    exists full. split; [|split; [exact Nf|split; [|split; [|split]]]].
    + unfold add_defaults. cbn [mfold map combine fst]. rewrite (run_bind _ _ m (bound ++ (n, v) :: combine (map fst ps) pos) m).
      * replace (bound ++ (n, v) :: combine (map fst ps) pos) with ((bound ++ [(n, v)]) ++ combine (map fst ps) pos) by (rewrite <- app_assoc; reflexivity). exact Ef.
      * unfold dmem. rewrite dget_app, Hn. cbn [dget]. rewrite str_eqb_refl. reflexivity.
    + intros k [<-|K].
      * cbn [fst]. rewrite F2 by exact N1. rewrite dget_app, Hn. cbn [dget get]. rewrite str_eqb_refl. reflexivity.
      * rewrite (F1 k K). cbn [get]. rewrite eqb_neq; [reflexivity|]. intros ->. exact (N1 K).
    + intros k K. rewrite F2 by (intros J; apply K; right; exact J). apply Gb. intros ->. apply K. left. reflexivity.
    + intros k K. apply F3 in K. rewrite map_app in K. apply in_app_or in K. apply in_or_app. destruct K as [K|K]; [|right; right; exact K].
      apply in_app_or in K. destruct K as [K|[<-|[]]]; [left; exact K|right; left; reflexivity].
    + cbn [map fst]. rewrite F4. reflexivity.
Qed.

Lemma defaults_fail c r0 m : sees c r0 m -> forall ps rs, Forall2 (fits c) ps rs -> NoDup (map fst ps) -> forall kw bound,
  (forall n, In n (map fst ps) -> dget SE n bound = get n kw) -> bind_params Q r0 ps [] kw = Raises -> stuck (add_defaults P ex s rs bound m) m.
Proof.
  intros Se ps rs F. induction F as [|[n d] [[n' e] x] ps rs [E1 E2] F IH]; intros N kw bound Hk Ha; [discriminate|].
  cbn [fst snd] in E1, E2. subst n'. cbn [map fst] in N. inversion N as [|? ? N1 N2]; subst. cbn [bind_params] in Ha. unfold add_defaults. cbn [mfold].
  assert (Hn : dget SE n bound = get n kw) by (apply Hk; left; reflexivity). unfold dmem. rewrite Hn. destruct (get n kw) as [w|] eqn:G.
  - cbn [oseq] in Ha. orai Ha a Ea; [|discriminate]. rewrite (run_bind _ _ m bound m eq_refl). apply (IH N2 kw bound); [|exact Ha]. intros k K. apply Hk. right. exact K.
  - destruct d as [g|]; [|destruct e as [e|]; [destruct E2|apply stuck_bind; eexists; reflexivity]]. destruct e as [e|]; [|destruct E2]. orai Ha v Ev.
    + apply stuck_bind, stuck_bind. exact (tells_stuck _ _ _ (E2 m r0 Se) Ha).
    + orai Ha a Ea; [|discriminate]. rewrite (run_bind _ _ m (dset SE n v bound) m) by (rewrite (run_bind _ _ _ _ _ (tells_is _ _ _ _ (E2 m r0 Se) Ev)); reflexivity).
      apply (IH N2 kw); [|exact Ha]. intros k K. rewrite dget_dset, eqb_neq; [apply Hk; right; exact K|]. intros ->. exact (N1 K).
Qed.
Lemma bind_fail c r0 m : sees c r0 m -> forall ps rs, Forall2 (fits c) ps rs -> NoDup (map fst ps) -> forall pos kw bound,
  (forall n, In n (map fst ps) -> dget SE n bound = get n kw) -> bind_params Q r0 ps pos kw = Raises ->
  List.length ps < List.length pos \/ existsb (fun n => dmem SE n bound) (firstn (List.length pos) (map fst ps)) = true \/
  stuck (add_defaults P ex s rs (bound ++ combine (map fst ps) pos) m) m.
Proof.
  intros Se ps rs F. induction F as [|[n d] [[n' e] x] ps rs [E1 E2] F IH]; intros N pos kw bound Hk Ha.
  - cbn [bind_params] in Ha. destruct pos; [discriminate|]. left. cbn. lia.
  - destruct pos as [|v pos].
    { right. right. cbn [combine map]. rewrite app_nil_r. exact (defaults_fail c r0 m Se ((n, d) :: ps) ((n', e, x) :: rs) (Forall2_cons _ _ (conj E1 E2) F) N kw bound Hk Ha). }
    cbn [fst snd] in E1. subst n'. cbn [map fst] in N. inversion N as [|? ? N1 N2]; subst. cbn [bind_params] in Ha.
    assert (Hn : dget SE n bound = get n kw) by (apply Hk; left; reflexivity). destruct (get n kw) as [w|] eqn:G.
    { right. left. cbn [List.length firstn map fst existsb]. unfold dmem at 1. rewrite Hn. reflexivity. }
    orai Ha a Ea; [|discriminate].
    assert (Gb : forall k, k <> n -> dget SE k (bound ++ [(n, v)]) = dget SE k bound).
    { intros k K. rewrite dget_app. cbn [dget]. rewrite (eqb_neq _ _ K). destruct (dget SE k bound); reflexivity. }
    destruct (IH N2 pos kw (bound ++ [(n, v)])) as [L|[Ex|Fe]]; [|exact Ha| | |].
    { intros k K. rewrite Gb; [apply Hk; right; exact K|]. intros ->. exact (N1 K). }
    + left. cbn [List.length]. lia.
    + right. left. cbn [List.length firstn map fst existsb]. apply orb_true_iff. right. apply existsb_exists in Ex. destruct Ex as (k & K1 & K2). apply existsb_exists. exists k. split; [exact K1|].
      unfold dmem in *. rewrite Gb in K2; [exact K2|]. intros ->. apply N1. revert K1. apply (firstn_incl (List.length pos) (map fst ps)).
    + right. right. unfold add_defaults. cbn [mfold map combine fst]. rewrite (run_bind _ _ m (bound ++ (n, v) :: combine (map fst ps) pos) m).
      * replace (bound ++ (n, v) :: combine (map fst ps) pos) with ((bound ++ [(n, v)]) ++ combine (map fst ps) pos) by (rewrite <- app_assoc; reflexivity). exact Fe.
      * unfold dmem. rewrite dget_app, Hn. cbn [dget]. rewrite str_eqb_refl. reflexivity.
Qed.

Variable known : str -> option bool.
Variable vis : list str.
Variable hyps : list hyp.
Variable sl : str -> slot.
Variable hid : list slot.
Notation scope := (scope (W := W) known vis hyps sl hid).
Notation kept := (kept (W := W) s).

Lemma transfer_run own outer c a hd is : scope own outer c a -> forall full r m,
  (forall n, In n (map fst full) -> exists i, slot_of hd n = Some i /\ holds c n i /\ In i is) -> live s m -> sees c r m ->
  exists m', miter (set_attr s hd) full m = (Done tt, m') /\ m_heap m' = m_heap m /\
    sees c (fold_left (fun r (a : str * val) => set (fst a) (snd a) r) full r) m' /\ kept is m m'.
Proof.
  intros Sc. induction full as [|[n v] full IH]; intros r m H L Se.
  - exists m. split; [reflexivity|]. split; [reflexivity|]. split; [exact Se|]. apply (kept_incl s []); [apply kept_refl, L|intros z []].
  - destruct (H n (or_introl eq_refl)) as (i & E & Hi & Ii). destruct (set_fine known s vis hyps sl hid _ _ _ _ n i v r m Sc Hi L Se) as (m1 & E1 & Hh1 & Se1 & K1).
    destruct (IH (set n v r) m1 (fun k K => H k (or_intror K)) (proj1 K1) Se1) as (m2 & E2 & Hh2 & Se2 & K2). exists m2. split; [|split; [congruence|split; [exact Se2|]]].
    + cbn [miter]. rewrite (run_bind _ _ m tt m1); [exact E2|]. unfold set_attr. cbn [fst snd]. rewrite E. exact E1.
    + apply (kept_incl s ([i] ++ is)); [exact (kept_trans K1 K2)|]. apply incl_app; [intros z [<-|[]]; exact Ii|apply incl_refl].
Qed.

(** The values of the parameters, and of the body, are put in their slots. *)
Section Append.
Variables (own outer : list str) (c1 c3 : ctx) (a3 : mach W) (hd : hdef) (ps : list (str * option given)) (rs : list (str * option expr * slot)) (is : list slot).
Variables (r0 : store) (pos : list val) (kw : store) (m : mach W).
Hypothesis Sc : scope own outer c3 a3.
Hypothesis Hrs : h_regul hd = rs.
Hypothesis F : Forall2 (fits c1) ps rs.
Hypothesis N : NoDup (map fst ps).
Hypothesis Hs : forall n, In n (map fst ps) -> exists e i, In (n, e, i) rs /\ holds c3 n i /\ In i is.
Hypothesis Hx : match h_body hd with None => True | Some (x, _) => ~ In x (map fst ps) end.
Hypothesis Nk : NoDup (map fst kw).
Hypothesis L : live s m.
Hypothesis Se1 : sees c1 r0 m.
Hypothesis Se3 : sees c3 r0 m.

Lemma kw_in : forallb (fun a => existsb (SE (fst a)) (map fst ps)) kw = true -> forall n, In n (map fst kw) -> In n (map fst ps).
Proof.
  intros Hk n I. rewrite forallb_forall in Hk. apply in_map_iff in I. destruct I as ([y v] & <- & I). specialize (Hk _ I). cbn [fst] in *. apply existsb_exists in Hk.
  destruct Hk as (z & Z & Ez). apply str_eqb_eq in Ez. subst z. exact Z.
Qed.
Lemma bind_eq : (forall n, In n (map fst kw) -> In n (map fst ps)) -> bind_attrs hd pos kw =
  if Nat.ltb (List.length ps) (List.length pos) then Raise TypeError else bind_go kw (map fst ps) pos kw [].
Proof.
  intros Kin. pose proof (fits_names _ _ _ F) as Nm. unfold bind_attrs. rewrite Hrs. cbv zeta. rewrite Nm, map_length. destruct (Nat.ltb (List.length ps) (List.length pos)); [reflexivity|].
  replace (match h_body hd with Some (n, _) => dmem SE n kw | None => false end) with false.
  2:{ destruct (h_body hd) as [[x i]|]; [|reflexivity]. symmetry. destruct (dmem SE x kw) eqn:E; [|reflexivity]. apply dmem_In in E. destruct (Hx (Kin _ E)). }
  replace (negb _) with false; [reflexivity|]. symmetry. apply negb_false_iff, forallb_forall. intros nv I. apply existsb_exists. exists (fst nv). split; [|apply str_eqb_refl].
  apply in_or_app. right. apply Kin, in_map, I.
Qed.
Lemma append_pre a : params Q r0 ps pos kw = Is a -> exists dom full m1,
  bind_attrs hd pos kw = Ok (kw ++ combine (map fst ps) pos, dom) /\ add_defaults P ex s rs (kw ++ combine (map fst ps) pos) m = (Done full, m) /\
  miter (set_attr s hd) full m = (Done tt, m1) /\ m_heap m1 = m_heap m /\ sees c3 (a ++ r0) m1 /\ kept is m m1 /\ map fst a = map fst ps.
Proof.
  intros Hp. unfold params in Hp. destruct (forallb _ kw) eqn:Hk in Hp; [|discriminate]. pose proof (kw_in Hk) as Kin.
  destruct (bind_run c1 r0 m Se1 ps rs F N pos kw kw a Nk) as (Lp & Ex & full & Ef & Nf & F1 & F2 & F3 & F4); [intros n _; symmetry; apply get_dget|exact Hp|].
  pose proof (fits_names _ _ _ F) as Nm.
  assert (Eb : bind_attrs hd pos kw = Ok (kw ++ combine (map fst ps) pos, dupdate SE (dupdate SE [] (combine (map fst ps) pos)) kw)).
  { rewrite (bind_eq Kin). replace (Nat.ltb (List.length ps) (List.length pos)) with false by (symmetry; apply Nat.ltb_ge; exact Lp). rewrite bind_go_spec by exact N. rewrite Ex. reflexivity. }
  assert (Fin : forall n, In n (map fst full) -> In n (map fst ps)).
  { intros n I. apply F3 in I. apply in_app_or in I. destruct I as [I|I]; [exact (Kin n I)|exact I]. }
  destruct (transfer_run own outer c3 a3 hd is Sc full r0 m) as (m1 & E1 & Hh1 & Sf & K1).
  { intros n I. destruct (Hs n (Fin n I)) as (e & i & J & Hi & Ii). exists i. split; [|split; assumption]. apply (slot_of_in hd n e i); [rewrite Hrs, Nm; exact N|rewrite Hrs; exact J]. }
  { exact L. } { exact Se3. }
  eexists _, full, m1. split; [exact Eb|]. split; [exact Ef|]. split; [exact E1|]. split; [exact Hh1|]. split; [|split; [exact K1|exact F4]].
  intros n v G. apply Sf. rewrite get_sets by exact Nf. assert (Ga : get n (a ++ r0) = match get n a with Some v => Some v | None => get n r0 end).
  { clear. induction a as [|[y w] a IH]; [reflexivity|]. cbn [app get]. destruct (SE n y); [reflexivity|exact IH]. }
  rewrite Ga in G. destruct (in_dec (list_eq_dec N.eq_dec) n (map fst ps)) as [I|I].
  - rewrite (F1 n I). destruct (get n a) as [w|]; [exact G|exact G].
  - rewrite F2 by exact I. rewrite (dget_none_not n kw) by (intros J; exact (I (Kin n J))). destruct (get n a) as [w|] eqn:Gn; [|exact G]. apply get_dom in Gn. rewrite F4 in Gn. contradiction.
Qed.
Lemma append_fail body : params Q r0 ps pos kw = Raises -> stuck (append_attrs P ex hd body pos kw s m) m.
Proof.
  intros Hp. unfold params in Hp. unfold append_attrs. destruct (forallb _ kw) eqn:Hk in Hp.
  - pose proof (kw_in Hk) as Kin. rewrite (bind_eq Kin).
    destruct (bind_fail c1 r0 m Se1 ps rs F N pos kw kw) as [Lp|[Ex|Fe]]; [intros n _; symmetry; apply get_dget|exact Hp| | |].
    + replace (Nat.ltb (List.length ps) (List.length pos)) with true by (symmetry; apply Nat.ltb_lt; exact Lp). apply stuck_bind. eexists. reflexivity.
    + destruct (Nat.ltb (List.length ps) (List.length pos)); [apply stuck_bind; eexists; reflexivity|]. rewrite bind_go_spec by exact N. rewrite Ex. apply stuck_bind. eexists. reflexivity.
    + destruct (Nat.ltb (List.length ps) (List.length pos)); [apply stuck_bind; eexists; reflexivity|]. rewrite bind_go_spec by exact N.
      destruct (existsb _ _); [apply stuck_bind; eexists; reflexivity|]. eapply stuck_then; [reflexivity|]. cbn iota beta. rewrite Hrs. apply stuck_bind, Fe.
  - apply stuck_bind. pose proof (fits_names _ _ _ F) as Nm. unfold bind_attrs. rewrite Hrs. cbv zeta. rewrite Nm.
    destruct (Nat.ltb (List.length (map fst ps)) (List.length pos)); [eexists; reflexivity|].
    destruct (match h_body hd with Some (n, _) => dmem SE n kw | None => false end) eqn:Eb; [eexists; reflexivity|].
    match goal with |- context [negb ?x] => destruct x eqn:Ex end; [|eexists; reflexivity]. exfalso. rewrite forallb_forall in Ex. assert (forallb (fun a => existsb (SE (fst a)) (map fst ps)) kw = true); [|congruence].
    apply forallb_forall. intros nv I. specialize (Ex nv I). apply existsb_exists in Ex. destruct Ex as (z & Z & Ez). apply str_eqb_eq in Ez. subst z. apply existsb_exists. exists (fst nv). split; [|apply str_eqb_refl].
    apply in_app_or in Z. destruct Z as [Z|Z]; [|exact Z]. exfalso. destruct (h_body hd) as [[x i]|]; [|destruct Z]. destruct Z as [->|[]].
    assert (dmem SE (fst nv) kw = true) by (apply dmem_In, in_map, I). congruence.
Qed.

Lemma append_run bn a tb :
  match bn with None => h_body hd = None /\ tb = [] | Some x => exists i, h_body hd = Some (x, i) /\ holds c3 x i /\ ~ In x (map fst r0) /\ In i is end ->
  params Q r0 ps pos kw = Is a ->
  exists dom m', append_attrs P ex hd (VDom (map root tb)) pos kw s m = (Done dom, m') /\ m_heap m' = m_heap m /\
    sees c3 (a ++ r0) m' /\ (forall x, bn = Some x -> sees c3 [(x, VDom (map root tb))] m') /\ kept is m m' /\ map fst a = map fst ps.
Proof.
  intros Hb Hp. destruct (append_pre a Hp) as (dom & full & m1 & Eb & Ef & E1 & Hh1 & Sa & K1 & F4). exists dom.
  assert (Go : exists m2, (match h_body hd with Some (_, x) => set_slot s x (VDom (map root tb)) | None => b <* truth P (VDom (map root tb)) ;; if (b : bool) then exc VoidTag else ret tt end) m1 = (Done tt, m2) /\
    m_heap m2 = m_heap m1 /\ sees c3 (a ++ r0) m2 /\ (forall x, bn = Some x -> sees c3 [(x, VDom (map root tb))] m2) /\ kept is m1 m2).
  { destruct bn as [x|].
    - destruct Hb as (i & Eh & Hi & Nr & Ii). rewrite Eh in Hx |- *. destruct (set_fine known s vis hyps sl hid _ _ _ _ x i (VDom (map root tb)) (a ++ r0) m1 Sc Hi (proj1 K1) Sa) as (m2 & E2 & Hh2 & Se2 & K2).
      exists m2. split; [exact E2|]. split; [exact Hh2|]. split; [|split].
      + intros n v G. apply Se2. rewrite get_set, eqb_neq; [exact G|]. intros ->. apply get_dom in G. rewrite map_app, F4 in G. apply in_app_or in G. tauto.
      + intros y [= <-] n v G. cbn [get] in G. destruct (SE n x) eqn:E; [|discriminate]. injection G as <-. apply Se2. rewrite get_set, E. reflexivity.
      + apply (kept_incl s [i]); [exact K2|]. intros z [<-|[]]. exact Ii.
    - destruct Hb as [-> ->]. exists m1. split; [reflexivity|]. split; [reflexivity|]. split; [exact Sa|]. split; [discriminate|]. apply (kept_incl s []); [apply kept_refl, (proj1 K1)|intros z []]. }
  destruct Go as (m2 & E2 & Hh2 & Se2 & Sb & K2). exists m2. split; [|split; [congruence|split; [exact Se2|split; [exact Sb|split; [|exact F4]]]]].
  - unfold append_attrs. rewrite Eb. unfold mbind at 1. cbn [of_result]. unfold ret at 1. rewrite Hrs. rewrite (run_bind _ _ _ _ _ Ef), (run_bind _ _ _ _ _ E1), (run_bind _ _ _ _ _ E2). reflexivity.
  - apply (kept_incl s (is ++ is)); [exact (kept_trans K1 K2)|]. apply incl_app; apply incl_refl.
Qed.
Lemma append_void a tb : h_body hd = None -> tb <> [] -> params Q r0 ps pos kw = Is a -> exists m1, stuck (append_attrs P ex hd (VDom (map root tb)) pos kw s m) m1 /\ m_heap m1 = m_heap m /\ kept is m m1.
Proof.
  intros Hb Ht Hp. destruct (append_pre a Hp) as (dom & full & m1 & Eb & Ef & E1 & Hh1 & _ & K1 & _). exists m1. split; [|split; [exact Hh1|exact K1]]. unfold append_attrs. rewrite Eb. eapply stuck_then; [reflexivity|]. cbn iota beta. rewrite Hrs.
  apply (stuck_then _ _ _ _ _ _ Ef), (stuck_then _ _ _ _ _ _ E1), stuck_bind. rewrite Hb. destruct tb as [|t tb]; [contradiction Ht; reflexivity|]. eexists. reflexivity.
Qed.
End Append.
End Bind.
