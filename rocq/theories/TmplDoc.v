(** From the text of a template to its HTML. *)
From Coq Require Import List NArith ZArith Bool Lia Arith String.
From Verif Require Import PyStr PyStrFacts Html PyDict Structs StructsSpec StructsFacts Value Dom DomSpec DomFacts Ast Grammar Syntax Machine Eval Translate Analyse MachineFacts ScopeFacts
  LocalFacts RenderFacts RuntimeSpec ExportFacts PageSpec PageRender PageTree PageRun PageDoc OperSpec TmplSpec TmplParse TmplExpr TmplRender TmplTree TmplTag TmplScope TmplRun TmplDef TmplImport FrameFacts Runtime.
Import ListNotations.
Local Open Scope string_scope.
Local Open Scope list_scope.
Local Open Scope nat_scope.
Notation tree := DomSpec.tree.
Notation root := DomSpec.root.

(** ** Globals *)
Lemma combine_slots {A} d (l : list (str * A)) : forall n,
  combine (map fst l) (map (fun x => {| sl_id := x; sl_depth := d |}) (seq n (List.length l))) =
  map (fun a => (fst (fst a), {| sl_id := snd a; sl_depth := d |})) (combine l (seq n (List.length l))).
Proof. induction l as [|[y v] l IH]; intros n; [reflexivity|]. cbn [map List.length seq combine fst snd]. rewrite IH. reflexivity. Qed.
Lemma combine_vals {A} (l : list (str * A)) : forall n,
  combine (seq n (List.length l)) (map snd l) = map (fun a => (snd a, snd (fst a))) (combine l (seq n (List.length l))).
Proof. induction l as [|[y v] l IH]; intros n; [reflexivity|]. cbn [map List.length seq combine fst snd]. rewrite IH. reflexivity. Qed.
Lemma combine_fst {A B} (l : list A) : forall l' : list B, List.length l = List.length l' -> map fst (combine l l') = l.
Proof. induction l as [|x l IH]; intros [|y l'] E; try discriminate; [reflexivity|]. cbn. f_equal. apply IH. cbn in E. lia. Qed.
Lemma find_slot {A} d (L : list ((str * A) * nat)) y v : dget str_eqb y (map fst L) = Some v ->
  exists x, find y (map (fun a => (fst (fst a), {| sl_id := snd a; sl_depth := d |})) L) = Some {| sl_id := x; sl_depth := d |} /\ In ((y, v), x) L.
Proof.
  induction L as [|[[z w] x] L IH]; cbn [map dget fst snd]; [discriminate|]. destruct (str_eqb y z) eqn:E.
  - intros [= ->]. apply str_eqb_eq in E. subst z. exists x. split; [cbn [find]; destruct (list_eq_dec N.eq_dec y y); [reflexivity|contradiction]|left; reflexivity].
  - intros H. destruct (IH H) as (x0 & F & I). exists x0. split; [cbn [find]; destruct (list_eq_dec N.eq_dec y z) as [->|]; [rewrite str_eqb_refl in E; discriminate|exact F]|right; exact I].
Qed.
Lemma global_slot d n (l : list (str * val)) y v : dget str_eqb y (rev l) = Some v ->
  exists x, find y (rev (combine (map fst l) (map (fun x => {| sl_id := x; sl_depth := d |}) (seq n (List.length l))))) = Some {| sl_id := x; sl_depth := d |} /\
    In (x, v) (combine (seq n (List.length l)) (map snd l)).
Proof.
  intros H. rewrite combine_slots, combine_vals, <- map_rev. destruct (find_slot d (rev (combine l (seq n (List.length l)))) y v) as (x & F & I).
  { rewrite map_rev, combine_fst by (rewrite seq_length; reflexivity). exact H. }
  exists x. split; [exact F|]. apply in_map_iff. exists ((y, v), x). split; [reflexivity|]. apply in_rev. exact I.
Qed.
Lemma get_some n r : In n (map fst r) -> exists v, get n r = Some v.
Proof.
  induction r as [|[y v] r IH]; [intros []|]. cbn [map fst get]. destruct (str_eqb n y) eqn:E; [intros _; exists v; reflexivity|].
  intros [<-|I]; [rewrite str_eqb_refl in E; discriminate|exact (IH I)].
Qed.

Lemma set_values_defs {W : Type} s (l : list (slot * val)) : forall (m m' : mach W) u, miter (set_value s) l m = (Done u, m') -> m_defs m' = m_defs m.
Proof.
  induction l as [|[x v] l IH]; intros m m' u E; [injection E as _ <-; reflexivity|]. cbn [miter] in E. unfold mbind, set_value at 1, set_slot in E. cbn [fst snd] in E. apply IH in E. rewrite E. reflexivity.
Qed.
Lemma meanings_names Q b lim vis ds : map fst (meanings Q b lim vis ds) = rev (defined ds).
Proof.
  unfold meanings. assert (H : forall D, map fst (fold_left (learn Q b lim vis) ds D) = rev (defined ds) ++ map fst D).
  { unfold defined. induction ds as [|[m n bn ps w kids|m h x tl] ds IH]; intros D; [reflexivity| |apply IH]. cbn [fold_left flat_map app rev learn]. rewrite IH, <- app_assoc. reflexivity. }
  rewrite H, app_nil_r. reflexivity.
Qed.

Section Doc.
Context {W : Type}.
Variables (P : prims W) (Q : py).
Hypothesis AG : agrees P Q.
Hypothesis escaping : p_escape P = Some html_escape.
Variable import_module : str -> M W module.
Variable context : list (str * val).
Variable known : str -> option bool.
Variable tag_of : str -> tag.
Hypothesis kinds : forall n v, known n = Some v -> t_name (tag_of n) = n /\ t_kind (tag_of n) = KMarkup v HTML.
Variables (b : str) (lim : nat).

(** What the caches must satisfy; the depth of expansion imported hypertags need. *)
Variable Jr : caches -> Prop.
Variable L : nat.
Hypothesis Lim : lim <= L.
Notation offered := (offered P import_module known tag_of Jr L).

(** The symbols of a script, from the machine [m] to [m']. *)
Definition offers (q : nat) (m m' : mach W) (s : nat) (out : list (str * val)) (n : str) (f : meaning) : Prop :=
  exists h o hd, dget str_eqb (TAG n) out = Some (VHyper h) /\ at_home o m' /\ proper o /\
    (forall x, In x hd -> m_next m <= x < m_next m') /\ (forall s x v, In (s, x, v) (ho_vals o) -> m_next m <= x < m_next m' /\ ~ In x hd) /\
    forall k, q <= k -> acts P known tag_of k (HImp h s) o hd f.

Lemma grows_others s ws (m a m' : mach W) : grows m a -> others s ws a m' -> ~ live s m -> (forall x, In x ws -> m_next m <= x) -> m_defs m' = m_defs a -> m_next m' = m_next a -> grows m m'.
Proof.
  intros (G1 & [nd G2] & G3) O Ns Ws Ed En. split; [lia|]. split; [exists nd; congruence|]. intros s' Lv. destruct (G3 s' Lv) as (L1 & I1 & V1).
  destruct (O s') as (O1 & O2 & O3); [intros ->; contradiction|]. split; [exact (O1 L1)|]. split; [congruence|]. intros x X. rewrite O3, V1; [reflexivity|exact X|]. intros J. apply Ws in J. lia.
Qed.
Lemma others_wide s ws ws' (m m' : mach W) : incl ws ws' -> others s ws m m' -> others s ws' m m'.
Proof. intros J O s' N. destruct (O s' N) as (O1 & O2 & O3). split; [exact O1|]. split; [exact O2|]. intros x X. apply O3. intros Y. exact (X (J x Y)). Qed.
Lemma grows_state (m : mach W) x : grows m (with_states m (m_states m ++ [x])).
Proof.
  split; [apply le_n|]. split; [exists []; rewrite app_nil_r; reflexivity|]. intros s Lv. unfold live, ind_of, slot_value, state_at in *. cbn [m_states with_states]. rewrite app_length, app_nth1 by exact Lv.
  split; [cbn; lia|]. auto.
Qed.
Lemma meanings_on_names G vis ds : map fst (meanings_on Q b lim G vis ds) = rev (defined ds) ++ map fst G.
Proof.
  unfold meanings_on. revert G. unfold defined. induction ds as [|[m n bn ps w kids|m h x tl] ds IH]; intros G; [reflexivity| |apply IH]. cbn [fold_left flat_map app rev learn]. rewrite IH, <- app_assoc. reflexivity.
Qed.
Lemma some_name {A B} (l : list (A * B)) n : In n (map fst l) -> exists f, In (n, f) l.
Proof. intros H. apply in_map_iff in H. destruct H as ([x f] & <- & H). exists f. exact H. Qed.

(** A script whose import fails. *)
Lemma amap_fails {A B : Type} (f : A -> AM (W := W) B) l1 x l2 c (m : mach W) r1 c1 m1 : amap f l1 c m = (Done (r1, c1), m1) -> fails (f x c1 m1) -> fails (amap f (l1 ++ x :: l2) c m).
Proof.
  intros E F. revert c m r1 E. induction l1 as [|a l1 IH]; intros c m r1 E.
  - injection E as _ <- <-. destruct F as (e & z & F). cbn [app amap]. exists e, z. unfold abind, mbind. rewrite F. reflexivity.
  - cbn [app amap] in *. apply abind_inv in E. destruct E as (y & c3 & m3 & Ey & E). apply abind_inv in E. destruct E as (ys & c4 & m4 & Eys & E).
    apply aret_inv in E. destruct E as (_ & -> & ->). rewrite (abind_done _ _ _ _ _ _ _ Ey). destruct (IH c3 m3 ys Eys) as (e & z & K). exists e, z. unfold abind, mbind. rewrite K. reflexivity.
Qed.
Theorem translate_book_fails imps path ns rest n globals (m : mach W) :
  Forall (fun i => Forall (fun nf => offered (fst i) (fst nf) (snd nf)) (snd i)) imps -> NoDup (map fst (flat_map snd imps)) ->
  (forall y, In y (map fst (flat_map snd imps)) -> known y = None) -> Jr (m_rt m) ->
  (forall y v, known y = Some v -> dget str_eqb (TAG y) (rev globals) = Some (VTag (tag_of y))) ->
  ns <> [] -> (forall a, Jr (m_rt a) -> fails (import_module path a)) ->
  fails (translate import_module context P n globals (map (fun i => raw_import (fst i, map fst (snd i))) imps ++ raw_import (path, ns) :: rest) m).
Proof.
  intros Hof Hnd Hnk HJ HT Hns Hf.
  destruct (pushes_entries globals new_ctx m inv_empty) as (c0 & E0 & I0 & A0 & R0 & C0 & _).
  set (ins := combine _ _) in E0. set (m0 := with_next m _) in E0.
  assert (Get : forall y v, dget str_eqb y (rev globals) = Some v -> exists x, c_get c0 y = Some x).
  { intros y v H. destruct (global_slot (c_regular new_ctx) (m_next m) globals y v H) as (x & F & I). exists {| sl_id := x; sl_depth := c_regular new_ctx |}.
    rewrite c_get_find by exact I0. rewrite A0, find_app. unfold slots. rewrite F. reflexivity. }
  destruct (globals_steps globals new_ctx m _ _ _ inv_empty fit_new E0) as (ext0 & nd0 & St0).
  set (sl := fun y => match c_get c0 y with Some x => sl_id x | None => 0 end).
  assert (Sl : forall y x, c_get c0 y = Some x -> sl_id x = sl y) by (intros y x E; unfold sl; rewrite E; reflexivity).
  assert (Sc : scope (W := W) known [] [] sl [] [] [] c0 m0).
  { split; [exact I0|exact (keyed_step _ _ _ _ _ _ _ St0 (keyed_empty m))|intros y []|intros y []| |intros y []|intros y i _ []|split; intros x []|exact (step_fit _ _ _ _ _ _ _ St0 fit_new)].
    intros y [[v K]|[]]. destruct (Get _ _ (HT y v K)) as (x & E). exists x. split; [exact E|exact (Sl _ _ E)]. }
  assert (Ct : c_control c0 = 0) by (rewrite C0; reflexivity).
  pose proof (brought_none P known tag_of [] Jr L c0 m0 sl Sc Ct HJ) as Br0.
  destruct (import_blocks P import_module context known tag_of [] Jr L c0 m0 sl imps _ _ _ _ _ _ Br0 Hof) as (bl & sets & ci & a & hyps0 & sl0 & hid0 & Ei & _ & Br & _); [intros y I; split; [exact (Hnk y I)|intros []]|exact Hnd|].
  destruct ns as [|y ns]; [congruence|]. clear Hns.
  assert (F : fails (an_item import_module context (raw_import (path, y :: ns)) ci a)).
  { destruct (Hf a (br_rt _ _ _ _ _ _ _ _ _ _ _ _ _ _ _ Br)) as (e & z & Ef). unfold raw_import. cbn [an_item fst snd].
    set (c2 := if c_prolog ci && true then end_prolog ci else ci). rewrite (abind_done _ _ ci a tt c2 a eq_refl).
    assert (C2 : c_control c2 = 0) by (unfold c2; destruct (c_prolog ci && true); exact (br_ctl _ _ _ _ _ _ _ _ _ _ _ _ _ _ _ Br)).
    exists e, z. unfold abind at 1. unfold mbind at 1. cbn [an_block].
    rewrite (abind_done _ _ c2 a tt c2 a); [|unfold aread, mbind; rewrite C2; reflexivity].
    cbn [map amap]. unfold abind at 1. unfold mbind at 1. unfold abind at 1. unfold mbind at 1. unfold an_import at 1, import_item at 1. unfold abind at 1, alift. unfold mbind at 1. unfold mbind at 1. rewrite Ef. reflexivity. }
  apply fails_bind. rewrite document_split. apply (fails_then _ _ _ _ _ E0). cbn [fst snd]. apply fails_bind.
  exact (amap_fails _ _ _ rest _ _ _ _ _ Ei F).
Qed.

Theorem translate_book imps ds doc k dis is n globals r (m : mach W) : Forall2 (raw_def b) ds dis -> Forall2 (raw b) doc is ->
  Forall (fun i => Forall (fun nf => offered (fst i) (fst nf) (snd nf)) (snd i)) imps -> NoDup (map fst (flat_map snd imps)) ->
  (forall y, In y (map fst (flat_map snd imps)) -> known y = None) -> Jr (m_rt m) ->
  wfd b known (map fst r) (rev (map fst (flat_map snd imps))) ds -> wfts b known (rev (defined ds) ++ rev (map fst (flat_map snd imps))) None [] (map fst r) doc -> List.length (defined ds) + L <= n ->
  (forall y v, known y = Some v -> dget str_eqb (TAG y) (rev globals) = Some (VTag (tag_of y))) ->
  (forall y v, get y r = Some v -> dget str_eqb (VAR y) (rev globals) = Some v) ->
  let D := meanings_on Q b lim (rev (flat_map snd imps)) (map fst r) ds in
  let i0 := insts (inst Q b lim D None) doc r in
  let tr := translate import_module context P n globals (map (fun i => raw_import (fst i, map fst (snd i))) imps ++ dis ++ is ++ margin_items k) m in
  (forall es r', i0 = Is (es, r') ->
    exists i out s m', tr = (Done (i, out, s), m') /\
      dom_render (p_ren P) (depth_bound (m_heap m')) (m_heap m') [i] = Done (elems_html (void known) (gaps ds ++ es) k) /\
      grows m m' /\ Jr (m_rt m') /\ forall y f, In (y, f) D -> offers (List.length (defined ds) + L) m m' s out y (fun _ => f r')) /\
  (i0 = Raises -> fails tr).
Proof.
  intros Hrd Hr Hof Hnd Hnk HJ Hwd Hw Ln HT HV D i0 tr. set (given := flat_map snd imps) in *.
  destruct (pushes_entries globals new_ctx m inv_empty) as (c0 & E0 & I0 & A0 & R0 & C0 & _).
  set (ins := combine _ _) in E0. set (m0 := with_next m _) in E0. set (vis := map fst r) in *.
  assert (Get : forall y v, dget str_eqb y (rev globals) = Some v -> exists x, c_get c0 y = Some x /\ sl_depth x = c_regular c0 /\ In (sl_id x, v) ins).
  { intros y v H. destruct (global_slot (c_regular new_ctx) (m_next m) globals y v H) as (x & F & I). exists {| sl_id := x; sl_depth := c_regular new_ctx |}. split; [|split; [|exact I]].
    - rewrite c_get_find by exact I0. rewrite A0, find_app. unfold slots. rewrite F. reflexivity.
    - rewrite R0. reflexivity. }
  assert (Low0 : forall y i, In (y, i) (entries c0) -> m_next m <= sl_id i).
  { intros y i I. rewrite A0 in I. change (entries new_ctx) with (@nil (str * sinfo)) in I. rewrite app_nil_r in I. apply in_rev, in_combine_r in I. unfold slots in I. apply in_map_iff in I. destruct I as (x & <- & I). apply in_seq in I. cbn. lia. }
  assert (N0 : m_next m <= m_next m0) by (unfold m0; cbn; lia).
  assert (InsLow : forall x, In x (map fst ins) -> m_next m <= x < m_next m0).
  { unfold ins. rewrite combine_keys by (rewrite seq_length, map_length; reflexivity). intros x I. apply in_seq in I. unfold m0. cbn. lia. }
  destruct (globals_steps globals new_ctx m _ _ _ inv_empty fit_new E0) as (ext0 & nd0 & St0).
  set (sl := fun y => match c_get c0 y with Some x => sl_id x | None => 0 end).
  assert (Sl : forall y x, c_get c0 y = Some x -> sl_id x = sl y) by (intros y x E; unfold sl; rewrite E; reflexivity).
  assert (Gv : forall y, In y vis -> exists x, c_get c0 (VAR y) = Some x /\ sl_depth x = c_regular c0).
  { intros y I. destruct (get_some y r I) as (v & G). destruct (Get _ _ (HV y v G)) as (x & E & Dp & _). exists x. auto. }
  assert (Sc : scope (W := W) known vis [] sl [] vis [] c0 m0).
  { split; [exact I0|exact (keyed_step _ _ _ _ _ _ _ St0 (keyed_empty m))|exact Gv|intros y []| | |intros y i _ []|split; intros x []|exact (step_fit _ _ _ _ _ _ _ St0 fit_new)].
    - intros y [[v K]|[]]. destruct (Get _ _ (HT y v K)) as (x & E & _). exists x. split; [exact E|exact (Sl _ _ E)].
    - intros y I. rewrite app_nil_r. split; [exact I|]. destruct (Gv y I) as (x & E & _). exists x. split; [exact E|exact (Sl _ _ E)]. }
  assert (Ct : c_control c0 = 0) by (rewrite C0; reflexivity).
  (* imports *)
  pose proof (brought_none P known tag_of vis Jr L c0 m0 sl Sc Ct HJ) as Br0.
  destruct (import_blocks P import_module context known tag_of vis Jr L c0 m0 sl imps _ _ _ _ _ _ Br0 Hof) as (bl & sets & ci & a & hyps0 & sl0 & hid0 & Ei & Sa & Br & Mi); [intros y I; split; [exact (Hnk y I)|intros []]|exact Hnd|].
  cbn [map app] in Br, Mi. rewrite app_nil_r in Mi. fold given in Mi.
  set (s := List.length (m_states a)).
  assert (Ns : forall h, In h hyps0 -> ~ In s (ho_states (snd (snd h)))).
  { intros h I J. destruct (br_home _ _ _ _ _ _ _ _ _ _ _ _ _ _ _ Br h I) as [(H1 & _) _]. destruct (H1 s J) as [Lv _]. unfold live, s in Lv. lia. }
  assert (BH0 : forall k, L <= k -> Forall (behaves P (expand_n P k) known tag_of s vis hyps0 sl0 hid0) hyps0).
  { intros q Lq. apply Forall_forall. intros [[y f] [h o]] I. destruct (br_acts _ _ _ _ _ _ _ _ _ _ _ _ _ _ _ Br y f h o I) as (hd & J & Ac). exact (acts_behaves P known tag_of q s vis hyps0 sl0 hid0 y f h o hd I J (Ac q Lq)). }
  assert (Hy0 : map hyp_name hyps0 = rev (map fst given)) by (rewrite hyp_names, Mi, map_rev; reflexivity).
  rewrite <- Hy0 in Hwd.
  destruct (defs_fine P Q AG escaping no_import context known tag_of s b lim vis ds L dis hyps0 sl0 hid0 ci a Hrd Hwd (br_scope _ _ _ _ _ _ _ _ _ _ _ _ _ _ _ Br) (br_ctl _ _ _ _ _ _ _ _ _ _ _ _ _ _ _ Br) Lim BH0)
    as (dis' & c1 & m1 & hyps & sl' & hid' & nd & Ed & Sc1 & Ct1 & Mn & Md & BH & Nx1 & Lo1 & Lh1 & Us1 & (xd & Xd & Xdi) & Rund).
  rewrite Mi in Mn. change (fold_left _ ds (rev given)) with D in Mn.
  assert (Hy : map hyp_name hyps = rev (defined ds) ++ rev (map fst given)) by (rewrite hyp_names, Mn; unfold D; rewrite meanings_on_names, map_rev; reflexivity).
  rewrite <- Hy in Hw. unfold i0. rewrite <- Mn.
  assert (U0 : uses_all doc = 0) by exact (uses_all_none _ _ _ _ _ _ Hw).
  assert (Nm : named b None []) by (intros y Y; discriminate).
  destruct (doc_fine P Q AG escaping (expand_n P n) n lim ltac:(lia) known tag_of s b no_import context vis hyps sl' hid' None (BH n Ln) doc [] vis is Hr Hw Nm ltac:(lia) c1 m1 Sc1) as (l' & c2 & m2 & ext & ws & E1 & St & Fr & Sc2 & Ww & Run).
  destruct (items_calm context _ _ _ _ _ Ed) as (_ & Cs1 & Cr1). destruct (items_calm context _ _ _ _ _ E1) as (_ & Cs2 & Cr2).
  assert (Nx2 : m_next m1 <= m_next m2) by exact (st_next _ _ _ _ _ _ _ St).
  assert (Dm1 : m_defs m2 = m_defs m1) by (rewrite (st_defs _ _ _ _ _ _ _ St), app_nil_r; reflexivity).
  assert (NxA : m_next m0 <= m_next a) by exact (proj1 (br_grows _ _ _ _ _ _ _ _ _ _ _ _ _ _ _ Br)).
  (* slots are new *)
  assert (LowE : forall y i, In (y, i) (entries c1) -> m_next m <= sl_id i).
  { intros y i I. destruct (Lo1 y i I) as [J|J]; [|lia]. destruct (br_low _ _ _ _ _ _ _ _ _ _ _ _ _ _ _ Br y i J) as [K|K]; [exact (Low0 y i K)|lia]. }
  assert (LowH : forall x, In x hid' -> m_next m <= x < m_next m2).
  { intros x I. split; [|pose proof (proj1 (sc_low _ _ _ _ _ _ _ _ _ Sc1) x (in_or_app _ _ _ (or_introl I))); lia].
    destruct (Lh1 x I) as [J|J]; [|lia]. pose proof (br_hid _ _ _ _ _ _ _ _ _ _ _ _ _ _ _ Br x (in_or_app _ _ _ (or_introl J))). lia. }
  assert (LowU : forall h, In h hyps -> proper (snd (snd h)) /\ forall s x v, In (s, x, v) (ho_vals (snd (snd h))) -> m_next m <= x < m_next m2 /\ ~ In x hid').
  { intros h I. destruct (Us1 h I) as [J|J].
    - split; [exact (proj2 (br_home _ _ _ _ _ _ _ _ _ _ _ _ _ _ _ Br h J))|]. intros s' x v V.
      assert (U : In x (used hyps)) by (apply in_flat_map; exists h; split; [exact I|]; apply in_map_iff; exists (s', x, v); auto).
      assert (U' : In x (used hyps0)) by (apply in_flat_map; exists h; split; [exact J|]; apply in_map_iff; exists (s', x, v); auto).
      destruct (sc_low _ _ _ _ _ _ _ _ _ Sc1) as [S1 S2]. split; [|intros K; exact (S2 x K U)].
      pose proof (S1 x (in_or_app _ _ _ (or_intror U))). pose proof (br_hid _ _ _ _ _ _ _ _ _ _ _ _ _ _ _ Br x (in_or_app _ _ _ (or_intror U'))). lia.
    - split; [intros s' x v V; rewrite J in V; destruct V|]. intros s' x v V. rewrite J in V. destruct V. }
  assert (LowW : forall x, In x ws -> m_next m <= x).
  { intros x I. destruct (Ww x I) as [J|[(y & i & _ & J & <- & _)|J]]; [lia|exact (LowE _ _ J)|exact (proj1 (LowH x J))]. }
  (* the analysed script *)
  set (items := bl ++ dis' ++ l').
  assert (E2 : amap (an_item import_module context) (map (fun i => raw_import (fst i, map fst (snd i))) imps ++ dis ++ is ++ margin_items k) c0 m0 = (Done (items ++ margin_items k, c2), m2)).
  { unfold items. rewrite <- !app_assoc. apply amap_app_done with ci a; [exact Ei|]. apply amap_app_done with c1 m1; [exact (below_items import_module context dis _ _ _ _ Ed)|].
    apply amap_app_done with c2 m2; [exact (below_items import_module context is _ _ _ _ E1)|]. apply amap_marks. unfold margin_items. destruct k; repeat constructor. }
  set (outs := map (fun yx => (fst yx, sl_id (snd yx))) (md_asdict (md_position (c_md c0)) (c_md c2))).
  assert (EA : an_document import_module context globals (map (fun i => raw_import (fst i, map fst (snd i))) imps ++ dis ++ is ++ margin_items k) m = (Done {| d_in := ins; d_items := items ++ margin_items k; d_out := outs |}, m2)).
  { rewrite document_split. unfold mbind at 1. rewrite E0. cbn [fst snd]. unfold mbind. rewrite E2. reflexivity. }
  assert (Es : s = List.length (m_states m2)) by (unfold s; congruence).
  set (m2s := with_states m2 (m_states m2 ++ [new_stt])).
  assert (TR : tr = mbind (tr_document P n s {| d_in := ins; d_items := items ++ margin_items k; d_out := outs |}) (fun q => ret (q, s)) m2s).
  { unfold tr, translate. unfold mbind at 1. rewrite EA. unfold mbind at 1. rewrite Es. reflexivity. }
  rewrite TR. clear TR.
  assert (L2 : live s m2s). { unfold live, m2s. cbn. rewrite app_length, <- Es. cbn. lia. }
  assert (In2 : ind_of s m2s = [NL]). { unfold ind_of, state_at, m2s. cbn [m_states with_states]. rewrite Es, app_nth2 by apply le_n. rewrite Nat.sub_diag. reflexivity. }
  assert (Ga2 : grows a m2s).
  { apply grows_trans with m2; [|apply grows_state]. apply grows_same; [lia|exists nd; rewrite Dm1; exact Md|congruence]. }
  assert (Gm : grows m m2s).
  { apply grows_trans with a; [|exact Ga2]. apply grows_trans with m0; [apply grows_same; [exact N0|exists []; rewrite app_nil_r; reflexivity|reflexivity]|exact (br_grows _ _ _ _ _ _ _ _ _ _ _ _ _ _ _ Br)]. }
  assert (Nl : ~ live s m).
  { assert (Gma : grows m a) by (apply grows_trans with m0; [apply grows_same; [exact N0|exists []; rewrite app_nil_r; reflexivity|reflexivity]|exact (br_grows _ _ _ _ _ _ _ _ _ _ _ _ _ _ _ Br)]).
    intros Lv. destruct Gma as (_ & _ & G). destruct (G s Lv) as (La & _). unfold live, s in La. lia. }
  destruct (set_values s ins m2s L2) as (m3 & E3 & _ & V3' & V3). destruct (set_values_ind s ins m2s L2) as (m3' & E3' & L3 & In3).
  rewrite E3 in E3'. injection E3' as <-. rewrite In2 in In3.
  destruct (sets_others s ins m2s m3 E3) as (_ & Df3 & Ot3).
  assert (ND3 : NoDup (map fst ins)). { unfold ins. rewrite combine_keys by (rewrite seq_length, map_length; reflexivity). apply seq_NoDup. }
  destruct (brought_runs P known tag_of vis Jr L c0 m0 sl hyps0 sl0 hid0 sets ci a s r m3 Br L3) as (mi & Esi & Li & Ii & Hi' & Di & Sti & Gti & Oti).
  { intros h I. split; [|exact (Ns h I)]. destruct (br_home _ _ _ _ _ _ _ _ _ _ _ _ _ _ _ Br h I) as [H1 H2].
    assert (Hu : forall s' x v, In (s', x, v) (ho_vals (snd (snd h))) -> In x (hid0 ++ used hyps0)).
    { intros s' x v V. apply in_or_app. right. apply in_flat_map. exists h. split; [exact I|]. apply in_map_iff. exists (s', x, v). auto. }
    apply (others_home s (map fst ins) _ m2s m3); [exact (Ot3 _)| |exact V3'|exact Df3|exact (Ns h I)|].
    - intros x X Y. apply in_map_iff in Y. destruct Y as ([[s' x'] v] & Ex & V). cbn [fst snd] in Ex. subst x'. apply InsLow in X. pose proof (br_hid _ _ _ _ _ _ _ _ _ _ _ _ _ _ _ Br x (Hu _ _ _ V)). lia.
    - apply (grows_home _ a); [exact Ga2| |exact H1]. intros s' x v V. split; [exact (H2 _ _ _ V)|]. exact (proj1 (sc_low _ _ _ _ _ _ _ _ _ (br_scope _ _ _ _ _ _ _ _ _ _ _ _ _ _ _ Br)) x (Hu _ _ _ V)). }
  { split; [|intros ? ? ? ? []]. intros y v K. destruct (Get _ _ (HT y v K)) as (x & E & _ & I). rewrite <- (Sl _ _ E). exact (V3 ND3 _ _ I). }
  { intros y v _ G. destruct (Get _ _ (HV y v G)) as (x & E & _ & I). rewrite <- (Sl _ _ E). exact (V3 ND3 _ _ I). }
  pose proof (Sa (expand_n P n) n s m3 mi Esi) as Ebl.
  rewrite In3 in Ii.
  destruct (Rund (expand_n P n) n r mi [NL]) as (ts0 & m3d & E0' & G0 & D0 & L0 & Ip0 & Md0 & St0' & Gt0 & Ot0); [exists []; rewrite app_nil_r, Di, Df3; unfold m2s; exact Dm1|exact Li|exact Ii|exact Sti|exact Gti|].
  assert (Rd : ready (W := W) known tag_of s hyps sl' c1 r m3d).
  { split; [exact L0|]. split; [|exact St0']. exact (gets_sees known s vis hyps sl' hid' _ _ _ _ _ _ Sc1 (incl_refl _) Gt0). }
  destruct (Run None [] r m3d [NL] Rd Ip0 eq_refl) as [Run1 Run2]; [rewrite app_nil_r; apply incl_refl|rewrite U0; apply supplied_none; exact Logic.I|].
  pose proof (mconcat_app_run _ _ _ _ _ _ _ _ Ebl E0') as Ebd. cbn [app] in Ebd.
  split.
  2:{ intros Hi. apply fails_bind. unfold tr_document. cbn [d_in d_items d_out]. apply (fails_then _ _ _ _ _ E3), fails_bind.
      pose proof (fell_fails (after_fell s _ _ _ _ _ _ _ _ _ Ebd (Run2 Hi))) as (e & z & Ez). rewrite <- app_assoc in Ez.
      destruct (stuck_concat _ _ (margin_items k) _ _ (ex_intro _ e Ez)) as [e1 E1z]. exists e1, z. exact E1z. }
  intros es r' Hi. destruct (Run1 es r' Hi) as (ts1 & m4 & E4 & G4 & D4 & Se4 & Kp4 & _).
  rewrite U0 in G4. cbn [taken] in G4. apply took_grown in G0, G4.
  pose proof (mconcat_app_run _ _ _ _ _ _ _ _ Ebd E4) as E4a. rewrite <- map_app, <- app_assoc in E4a. fold items in E4a.
  pose proof (grown_app _ _ _ _ _ G0 G4) as G4a. pose proof (draws_app _ _ _ _ _ _ _ _ D0 D4) as D4a. rewrite <- map_app in D4a.
  set (ts := ts0 ++ ts1) in *.
  assert (BM : exists ts' h', mconcat (tr_item P (expand_n P n) n s) (margin_items k) m4 = (Done (map root ts'), with_heap m4 h') /\ grown (m_heap m4) h' ts' /\ mgn [NL] k (map erase ts')).
  { unfold margin_items. destruct k as [|k'].
    - exists [], (m_heap m4). split; [rewrite with_heap_same; reflexivity|]. split; [apply grown_nil|reflexivity].
    - destruct (margin_run m4 (S k') [NL]) as (ts' & h' & E & G & Mg). exists ts', h'. split; [|split; assumption].
      cbn [mconcat tr_item]. rewrite (run_bind _ _ _ _ _ E). unfold mbind, ret. rewrite app_nil_r. reflexivity. }
  destruct BM as (ts2 & h2 & E5 & G5 & M5).
  pose proof (mconcat_app_run _ _ _ _ _ _ _ _ E4a E5) as E6. rewrite <- map_app in E6.
  pose proof (grown_app _ _ _ _ _ G4a G5) as G6.
  destruct (moved_draws known (p_ren P) tag_of [NL] [] (gaps ds ++ es) _ D4a) as (ss' & Mv & D4').
  destruct (mgn_moved [NL] [] k _ M5) as (mg' & Mm & M5').
  destruct (new_root_moved h2 (ts ++ ts2) (m_heap mi) (ss' ++ mg') G6) as (i & h3 & ts3 & E7 & R7 & S7 & N7).
  { rewrite map_app. apply Forall2_app; assumption. }
  assert (Stt : static m3 m4).
  { refine (pres_mconcat static static_refl static_trans (tr_item P (expand_n P n) n s) items _ _ _ _ E4a _); [|discriminate]. apply Forall_forall. intros x _. apply (static_all P n n). }
  assert (St3 : static m2s m3).
  { refine (pres_miter static static_refl static_trans (set_value s) ins _ _ _ _ E3 _); [|discriminate]. apply Forall_forall. intros x _. apply static_slot. }
  destruct (static_trans _ _ _ St3 Stt) as (Td & Tn & Tr & _).
  assert (Stf : stays known tag_of s hyps sl' m4) by exact (kept_stays Sc1 Ww Kp4 St0').
  assert (Gtf : gets s vis sl' r' m4) by (eapply sees_gets; eassumption).
  assert (Lf : live s m4) by exact (proj1 Kp4).
  assert (If : ind_of s m4 = [NL]) by (rewrite (proj1 (proj2 Kp4)); exact Ip0).
  eexists i, _, s, (with_heap m4 h3). split; [|split; [|split; [|split]]].
  - unfold mbind at 1. unfold tr_document. cbn [d_in d_items d_out]. unfold mbind at 1. rewrite E3. unfold mbind at 1. rewrite E6. unfold mbind at 1, lift_h.
    cbn [m_heap with_heap]. rewrite E7. reflexivity.
  - cbn [m_heap with_heap]. unfold dom_render. cbn [oconcat].
    assert (Rr : render (p_ren P) (depth_bound h3) h3 i = Done (elems_html (void known) (gaps ds ++ es) k)).
    { assert (Rs := render_srender (p_ren P) _ (depth_bound h3) h3 R7 ltac:(unfold depth_bound; apply le_S, height_heap; assumption)). cbn [DomSpec.root erase] in Rs. rewrite Rs.
      rewrite S7. exact (render_troot known (p_ren P) tag_of kinds (gaps ds ++ es) ss' k mg' D4' M5'). }
    rewrite Rr. cbn. rewrite app_nil_r. reflexivity.
  - apply (grows_others s ws m m2s); [exact Gm| |exact Nl|exact LowW|exact Td|exact Tn].
    apply (others_on s ws _ m4); [|apply others_refl; reflexivity].
    apply (others_on s ws _ m3 _ (Ot3 ws)), (others_on s ws _ mi); [exact (others_wide s [] ws _ _ (incl_nil_l _) Oti)|].
    apply (others_on s ws _ m3d); [exact (others_wide s [] ws _ _ (incl_nil_l _) Ot0)|exact (proj2 (proj2 (proj2 (proj2 Kp4))))].
  - cbn [m_rt with_heap]. rewrite Tr. unfold m2s. cbn [m_rt with_states]. rewrite Cr2, Cr1. exact (br_rt _ _ _ _ _ _ _ _ _ _ _ _ _ _ _ Br).
  - intros y f I. set (m' := with_heap m4 h3) in *. apply in_map_iff in I. destruct I as ([[y' f'] [h o]] & Ey & I). cbn [fst] in Ey. injection Ey as -> ->.
    assert (Nn : m_next m' = m_next m2) by (unfold m'; cbn [m_next with_heap]; rewrite Tn; reflexivity).
    set (ok := fun x => (m_next m <=? x) && (x <? m_next m2) && negb (existsb (Nat.eqb x) hid')).
    assert (Ok : forall z, (exists i, In (z, i) (entries c1) /\ sl_id i = sl' z) -> ok (sl' z) = true).
    { intros z (j & J & Ej). unfold ok. pose proof (LowE _ _ J). pose proof (proj1 (sc_keyed _ _ _ _ _ _ _ _ _ Sc1) _ _ J). rewrite Ej in *.
      apply andb_true_iff. split; [apply andb_true_iff; split; [apply Nat.leb_le; lia|apply Nat.ltb_lt; lia]|].
      apply negb_true_iff. destruct (existsb _ hid') eqn:X; [exfalso|reflexivity]. apply existsb_exists in X. destruct X as (x & X & Ex). apply Nat.eqb_eq in Ex. subst x.
      apply (sc_hid _ _ _ _ _ _ _ _ _ Sc1 _ _ J). rewrite Ej. apply in_or_app. left. exact X. }
    assert (En : forall z x, c_get c1 z = Some x -> sl_id x = sl' z -> exists i, In (z, i) (entries c1) /\ sl_id i = sl' z).
    { intros z x G E. exists x. rewrite c_get_find in G by exact (sc_sound Sc1). split; [exact (find_In _ _ _ G)|exact E]. }
    assert (Iy : In y (map hyp_name hyps)) by (apply in_map_iff; exists ((y, f), (h, o)); split; [reflexivity|exact I]).
    exists h, (whole s hyps m' ok), hid'. split; [|split; [|split; [|split; [|split]]]].
    + destruct (asdict_spec (c_md c2) (md_position (c_md c0))) as [NDa Fa].
      destruct (br_ext _ _ _ _ _ _ _ _ _ _ _ _ _ _ _ Br) as (xi & Xi & Xii).
      assert (Xa : entries c2 = (ext ++ xd ++ xi) ++ entries c0) by (rewrite (st_abs _ _ _ _ _ _ _ St), Xd, Xi, <- !app_assoc; reflexivity).
      set (xs := ext ++ xd ++ xi) in *.
      assert (FE : firstn (List.length (abs (c_md c2)) - md_position (c_md c0)) (abs (c_md c2)) = xs).
      { rewrite position_length. unfold entries in Xa. rewrite Xa, app_length, Nat.add_sub, firstn_app, firstn_all, Nat.sub_diag, firstn_O. apply app_nil_r. }
      rewrite FE in Fa. clear FE.
      assert (K : map fst outs = map fst (md_asdict (md_position (c_md c0)) (c_md c2))) by (unfold outs; rewrite map_map; reflexivity).
      assert (Gd : forall z, dget str_eqb z outs = option_map sl_id (find z xs)).
      { intros z. rewrite <- Fa, find_dget. unfold outs. clear. induction (md_asdict _ _) as [|[w j] l IH]; [reflexivity|]. cbn. destruct (str_eqb z w); [reflexivity|exact IH]. }
      cbn [d_out]. rewrite (dget_values import_module (slot_value (with_heap (with_heap m4 h2) h3) s) outs) by (rewrite K; exact NDa). rewrite Gd.
      assert (Ix : In (TAG y) (map fst xs)).
      { unfold xs. rewrite !map_app, !in_app_iff. right. rewrite Hy in Iy. apply in_app_or in Iy. destruct Iy as [J|J].
        - left. apply Xdi, in_map. apply in_rev. exact J.
        - right. apply Xii, in_map. rewrite Hy0. exact J. }
      destruct (sc_tags Sc2 y (or_intror Iy)) as (x & Gx & Ex). rewrite c_get_find, Xa, find_app in Gx by exact (sc_sound Sc2).
      apply NamesFacts.find_names in Ix. destruct (find (TAG y) xs) as [x'|] eqn:Fx; [|contradiction Ix; reflexivity]. injection Gx as ->. cbn [option_map]. rewrite Ex.
      exact (proj1 (proj2 Stf _ _ _ _ I)).
    + apply (whole_at known tag_of s hyps sl' m' ok); [exact Stf|exact Lf|exact If].
    + intros s' x v V. cbn [whole ho_vals ho_states] in *. apply in_app_or in V. destruct V as [V|V]; [left; symmetry; exact (proj1 (own_vals_are _ _ _ _ _ _ V))|right].
      apply in_flat_map in V. destruct V as (g & J & V). apply in_flat_map. exists g. split; [exact J|]. exact (proj1 (LowU g J) _ _ _ V).
    + intros x X. rewrite Nn. exact (LowH x X).
    + intros s' x v V. rewrite Nn. cbn [whole ho_vals] in V. apply in_app_or in V. destruct V as [V|V].
      * apply own_vals_are in V. destruct V as (_ & O & _). unfold ok in O. apply andb_true_iff in O. destruct O as [O O3]. apply andb_true_iff in O. destruct O as [O1 O2]. apply Nat.leb_le in O1. apply Nat.ltb_lt in O2.
        split; [lia|]. intros X. apply negb_true_iff in O3. assert (Et : existsb (Nat.eqb x) hid' = true) by (apply existsb_exists; exists x; split; [exact X|apply Nat.eqb_refl]). congruence.
      * apply in_flat_map in V. destruct V as (g & J & V). exact (proj2 (LowU g J) _ _ _ V).
    + intros q Lq. apply (module_acts P known tag_of q s vis hyps sl' hid' r' m' ok y f h o); [exact Stf|exact Gtf| | | |exact I|].
      * intros z v K. apply Ok. destruct (sc_tags Sc1 z (or_introl (ex_intro _ v K))) as (x & G & E). exact (En _ _ G E).
      * intros z K. apply Ok. destruct (sc_tags Sc1 z (or_intror K)) as (x & G & E). exact (En _ _ G E).
      * intros z K. apply Ok. destruct (sc_vis Sc1 z K) as (_ & x & G & E). exact (En _ _ G E).
      * exact (proj1 (Forall_forall _ _) (BH q Lq) _ I).
Qed.
End Doc.

Theorem translate_template {W : Type} (P : prims W) (Q : py) import_module context known tag_of b lim ds doc k dis is n globals r (m : mach W) : agrees P Q -> p_escape P = Some html_escape ->
  (forall n v, known n = Some v -> t_name (tag_of n) = n /\ t_kind (tag_of n) = KMarkup v HTML) -> Forall2 (raw_def b) ds dis -> Forall2 (raw b) doc is ->
  wfd b known (map fst r) [] ds -> wfts b known (rev (defined ds)) None [] (map fst r) doc -> List.length (defined ds) + lim <= n ->
  (forall y v, known y = Some v -> dget str_eqb (TAG y) (rev globals) = Some (VTag (tag_of y))) ->
  (forall y v, get y r = Some v -> dget str_eqb (VAR y) (rev globals) = Some v) ->
  let i0 := insts (inst Q b lim (meanings Q b lim (map fst r) ds) None) doc r in
  (forall es r', i0 = Is (es, r') ->
    exists i out s m', translate import_module context P n globals (dis ++ is ++ margin_items k) m = (Done (i, out, s), m') /\
      dom_render (p_ren P) (depth_bound (m_heap m')) (m_heap m') [i] = Done (elems_html (void known) (gaps ds ++ es) k)) /\
  (i0 = Raises -> fails (translate import_module context P n globals (dis ++ is ++ margin_items k) m)).
Proof.
  intros AG He HK Hrd Hr Hwd Hw Ln HT HV i0.
  destruct (translate_book P Q AG He import_module context known tag_of HK b lim (fun _ => True) lim (le_n _) [] ds doc k dis is n globals r m Hrd Hr (Forall_nil _) (NoDup_nil _) (fun _ F => match F with end) Logic.I Hwd) as [T1 T2];
    [cbn [flat_map map rev]; rewrite app_nil_r; exact Hw|exact Ln|exact HT|exact HV|].
  split; [|exact T2]. intros es r' Hi. destruct (T1 es r' Hi) as (i & out & s & m' & E & R & _). exists i, out, s, m'. auto.
Qed.

(** ** The context *)
Definition context_vars (names : list str) (vals : list val) : list (str * val) := map (fun a => (VAR (fst a), snd a)) (combine names vals).
Lemma header_bound context names vals : Forall2 (fun x v => dget str_eqb (VAR x) context = Some v) names vals ->
  bound_by context (map (fun n => IName (36%N :: n) None None) names) = Some (context_vars names vals).
Proof.
  intros H. induction H as [|x v names vals Hx H IH]; [reflexivity|]. cbn [map bound_by]. change (36%N :: x) with (VAR x). rewrite Hx, IH. reflexivity.
Qed.
Lemma translate_header (W : Type) (P : prims W) import_module context n globals names vals d (m : mach W) :
  Forall2 (fun x v => dget str_eqb (VAR x) context = Some v) names vals ->
  without_symbols (translate import_module context P n globals (raw_header names ++ d) m) =
  without_symbols (translate import_module context P n (globals ++ context_vars names vals) d m).
Proof.
  intros H. destruct names as [|x names].
  - inversion H; subst. cbn [raw_header app context_vars combine map]. rewrite app_nil_r. reflexivity.
  - unfold raw_header. cbn [app]. apply context_globals. apply header_bound. exact H.
Qed.
Lemma dget_rev_nodup (l : list (str * val)) y v : NoDup (map fst l) -> In (y, v) l -> dget str_eqb y (rev l) = Some v.
Proof.
  intros N I. assert (N' : NoDup (map fst (rev l))) by (rewrite map_rev; apply NoDup_rev, N). apply in_rev in I. exact (dget_nodup str_eqb str_eqb_eq _ _ _ N' I).
Qed.
Lemma context_get context names vals : Forall2 (fun x v => dget str_eqb (VAR x) context = Some v) names vals -> forall (globals : list (str * val)) y,
  match get y (combine names vals) with
  | Some v => dget str_eqb (VAR y) (rev (globals ++ context_vars names vals)) = Some v
  | None => dget str_eqb (VAR y) (rev (globals ++ context_vars names vals)) = dget str_eqb (VAR y) (rev globals)
  end.
Proof.
  intros H globals y. rewrite rev_app_distr, dget_app.
  assert (K : forall v, In (VAR y, v) (context_vars names vals) -> dget str_eqb (VAR y) context = Some v).
  { intros v I. unfold context_vars in I. apply in_map_iff in I. destruct I as ([z w] & [= -> ->] & I). cbn [fst snd] in *.
    revert I. induction H as [|x v0 names vals Hx H IH]; [intros []|]. cbn [combine]. intros [[= -> ->]|I]; [exact Hx|exact (IH I)]. }
  destruct (get y (combine names vals)) as [v|] eqn:G.
  - assert (I : In (VAR y, v) (context_vars names vals)).
    { unfold context_vars. apply in_map_iff. exists (y, v). split; [reflexivity|]. clear -G. revert vals G. induction names as [|x names IH]; intros [|w vals]; cbn [combine get]; try discriminate.
      destruct (str_eqb y x) eqn:E; [intros [= ->]; apply str_eqb_eq in E; subst; left; reflexivity|]. intros G. right. exact (IH _ G). }
    pose proof (K v I) as C. destruct (dget str_eqb (VAR y) (rev (context_vars names vals))) as [w|] eqn:D.
    + apply (dget_In str_eqb str_eqb_eq) in D. apply in_rev in D. pose proof (K w D) as C'. congruence.
    + exfalso. apply in_rev in I. revert D I. clear. generalize (rev (context_vars names vals)). induction l as [|[z w] l IH]; cbn [dget]; [intros _ []|].
      destruct (str_eqb (VAR y) z) eqn:E; [discriminate|]. intros D [[= -> _]|I]; [rewrite str_eqb_refl in E; discriminate|exact (IH D I)].
  - destruct (dget str_eqb (VAR y) (rev (context_vars names vals))) as [w|] eqn:D; [|reflexivity]. exfalso.
    apply (dget_In str_eqb str_eqb_eq) in D. apply in_rev in D. unfold context_vars in D. apply in_map_iff in D. destruct D as ([z x] & [= -> ->] & I). cbn [fst snd] in *.
    clear -G I. revert vals G I. induction names as [|n names IH]; intros [|w0 vals]; cbn [combine get]; try (intros _ []; fail).
    destruct (str_eqb y n) eqn:E; [discriminate|]. intros G [[= -> _]|I]; [rewrite str_eqb_refl in E; discriminate|exact (IH _ G I)].
Qed.
Lemma context_tag (globals : list (str * val)) names vals y : dget str_eqb (TAG y) (rev (globals ++ context_vars names vals)) = dget str_eqb (TAG y) (rev globals).
Proof.
  rewrite rev_app_distr, dget_app. destruct (dget str_eqb (TAG y) (rev (context_vars names vals))) as [w|] eqn:D; [|reflexivity]. exfalso.
  apply (dget_In str_eqb str_eqb_eq) in D. apply in_rev in D. unfold context_vars in D. apply in_map_iff in D. destruct D as ([z x] & E & _). discriminate.
Qed.
Lemma get_app y (a r : store) : get y (a ++ r) = match get y a with Some v => Some v | None => get y r end.
Proof. induction a as [|[z w] a IH]; [reflexivity|]. cbn [app get]. destruct (str_eqb y z); [reflexivity|exact IH]. Qed.
Lemma get_In y r v : get y r = Some v -> In (y, v) r.
Proof.
  induction r as [|[z w] r IH]; cbn [get]; [discriminate|]. destruct (str_eqb y z) eqn:E; [|intros H; right; exact (IH H)].
  intros [= ->]. apply str_eqb_eq in E. subst z. left. reflexivity.
Qed.

Section Meaning.
Context {W : Type}.
Variables (P : prims W) (Q : py) (X : lexicon).
Variables (import_module : str -> M W module) (context : list (str * val)).
Variables (known : str -> option bool) (tag_of : str -> tag) (globals : list (str * val)) (b : str) (lim : nat).

Theorem template_meaning n (m : mach W) names vals vars ds doc k : agrees P Q -> p_escape P = Some html_escape -> NoDup (map fst globals) ->
  (forall y v, known y = Some v -> In (TAG y, VTag (tag_of y)) globals) ->
  (forall y v, known y = Some v -> t_name (tag_of y) = y /\ t_kind (tag_of y) = KMarkup v HTML) ->
  (forall y v, In (y, v) vars -> In (VAR y, v) globals) ->
  Forall2 (fun x v => dget str_eqb (VAR x) context = Some v) names vals ->
  blank_text b -> plain_symbols X (script b names ds doc k) -> List.length (defined ds) + lim <= n ->
  doc <> [] -> (forall x, In x names -> id_name x = true) ->
  wfd b known (names ++ map fst vars) [] ds -> wfts b known (rev (defined ds)) None [] (names ++ map fst vars) doc ->
  let i0 := insts (inst Q b lim (meanings Q b lim (names ++ map fst vars) ds) None) doc (combine names vals ++ vars) in
  exists d, parse_script X (script b names ds doc k) = Ok d /\
    (forall es r', i0 = Is (es, r') -> exists i out s m', translate import_module context P n globals d m = (Done (i, out, s), m') /\
      dom_render (p_ren P) (depth_bound (m_heap m')) (m_heap m') [i] = Done (elems_html (void known) (gaps ds ++ es) k)) /\
    (i0 = Raises -> fails (translate import_module context P n globals d m)).
Proof.
  intros AG He ND HT HK HV HC Hb Hu Ln Hd Hn Hwd Hw i0.
  destruct (parse_template X b known _ _ names ds doc k _ Hb Hu Hd Hn Hwd Hw) as (dis & is & Ep & Hrd & Hr).
  assert (Dm : map fst (combine names vals ++ vars) = names ++ map fst vars).
  { rewrite map_app, combine_fst; [reflexivity|]. clear -HC. induction HC; [reflexivity|]. cbn. f_equal. assumption. }
  destruct (translate_template P Q import_module context known tag_of b lim ds doc k dis is n (globals ++ context_vars names vals) (combine names vals ++ vars) m AG He HK Hrd Hr) as [Tr1 Tr2].
  - rewrite Dm. exact Hwd.
  - rewrite Dm. exact Hw.
  - exact Ln.
  - intros y v K. rewrite context_tag. apply dget_rev_nodup; [exact ND|]. exact (HT y v K).
  - intros y v G. rewrite get_app in G. pose proof (context_get context names vals HC globals y) as C. destruct (get y (combine names vals)) as [w|].
    + injection G as <-. exact C.
    + rewrite C. apply dget_rev_nodup; [exact ND|]. apply HV, get_In, G.
  - rewrite Dm in Tr1, Tr2. fold i0 in Tr1, Tr2. exists (raw_header names ++ dis ++ is ++ margin_items k). split; [exact Ep|].
    assert (Eh := translate_header W P import_module context n globals names vals (dis ++ is ++ margin_items k) m HC). split.
    + intros es r' Hi. destruct (Tr1 es r' Hi) as (i & out & s & m' & Et & Er). rewrite Et in Eh. cbn [without_symbols] in Eh.
      destruct (translate import_module context P n globals (raw_header names ++ dis ++ is ++ margin_items k) m) as [[[[i' out'] s']|e|] m2] eqn:E2; try discriminate.
      injection Eh as -> -> ->. exists i, out', s, m'. auto.
    + intros Hi. destruct (Tr2 Hi) as (e & z & Et). rewrite Et in Eh. cbn [without_symbols] in Eh.
      destruct (translate import_module context P n globals (raw_header names ++ dis ++ is ++ margin_items k) m) as [[[[i' out'] s']|e'|] m2] eqn:E2; try discriminate. exists e', m2. reflexivity.
Qed.
End Meaning.

(** ** The runtime *)
Section Runtime.
Context {W : Type}.
Variables (E : env W) (P : prims W) (Q : py).

(** As for pages; the tags are written in the HTML style, and [vars] are among the built-in symbols. *)
Definition template_runtime (X : lexicon) (known : str -> option bool) (vars : store) (n k : nat) (m : mach W) : Prop :=
  agrees P Q /\ p_escape P = Some html_escape /\ (forall s, e_parse E s = parse_script X s) /\
  exists b m1, import_builtins E (run_script E P n k [] []) m = (Done b, m1) /\ NoDup (map fst b) /\
    (forall y v, known y = Some v -> exists t, In (TAG y, VTag t) b /\ t_name t = y /\ t_kind t = KMarkup v HTML) /\
    (forall y v, In (y, v) vars -> In (VAR y, v) b /\ y <> u "__file__" /\ y <> u "__package__").

Theorem render_template X known b lim names vals vars ds doc j n k tags args ctx file package (m : mach W) :
  template_runtime X known vars n k m -> called_with tags args ctx ->
  Forall2 (fun x v => dget str_eqb (VAR x) ctx = Some v) names vals ->
  blank_text b -> plain_symbols X (script b names ds doc j) -> List.length (defined ds) + lim <= n ->
  doc <> [] -> (forall x, In x names -> id_name x = true) ->
  wfd b known (names ++ map fst vars) [] ds -> wfts b known (rev (defined ds)) None [] (names ++ map fst vars) doc ->
  let i0 := insts (inst Q b lim (meanings Q b lim (names ++ map fst vars) ds) None) doc (combine names vals ++ vars) in
  (forall es r', i0 = Is (es, r') ->
    exists m', render_script E P n (S k) tags args (script b names ds doc j) file package m = (Done (elems_html (void known) (gaps ds ++ es) j), m')) /\
  (i0 = Raises -> exists e m', render_script E P n (S k) tags args (script b names ds doc j) file package m = (Exc e, m')).
Proof.
  intros (AG & He & Hp & b0 & m1 & Hb & ND & HT & HV) [Hk Hc] HC Hbl Hu Ln Hd Hn Hwd Hw i0.
  set (b1 := dset str_eqb (VAR (u "__file__")) (str_or_none file) b0). set (b2 := dset str_eqb (VAR (u "__package__")) (str_or_none package) b1).
  assert (ND2 : NoDup (map fst b2)).
  { apply (nodup_dset str_eqb str_eqb_eq), (nodup_dset str_eqb str_eqb_eq). exact ND. }
  assert (HT2 : forall y t, In (TAG y, VTag t) b0 -> In (TAG y, VTag t) b2).
  { intros y t I. apply in_dset_other; [discriminate|]. apply in_dset_other; [discriminate|exact I]. }
  assert (HV2 : forall y v, In (y, v) vars -> In (VAR y, v) b2).
  { intros y v I. destruct (HV y v I) as (J & N1 & N2). apply in_dset_other; [intros K; apply VAR_inj in K; congruence|]. apply in_dset_other; [intros K; apply VAR_inj in K; congruence|exact J]. }
  assert (Tg : forall y v, known y = Some v -> In (TAG y, VTag (find_tag b2 y)) b2).
  { intros y v K. destruct (HT y v K) as (t & I & _). apply HT2 in I. unfold find_tag. rewrite (dget_nodup str_eqb str_eqb_eq _ _ _ ND2 I). exact I. }
  assert (HK : forall y v, known y = Some v -> t_name (find_tag b2 y) = y /\ t_kind (find_tag b2 y) = KMarkup v HTML).
  { intros y v K. destruct (HT y v K) as (t & I & N & M). apply HT2 in I. unfold find_tag. rewrite (dget_nodup str_eqb str_eqb_eq _ _ _ ND2 I). split; assumption. }
  set (imp := fun path => Runtime.import_module E (run_script E P n k [] []) path {| r_file := file; r_package := package |}).
  destruct (template_meaning P Q X imp ctx known (find_tag b2) b2 b lim n m1 names vals vars ds doc j AG He ND2 Tg HK HV2 HC Hbl Hu Ln Hd Hn Hwd Hw) as (d & Ep & T1 & T2). fold i0 in T1, T2. split.
  - intros es r' Hi. destruct (T1 es r' Hi) as (i & out & s & m' & Et & Er).
    exists m'. unfold render_script. cbn [run_script]. unfold mbind at 1. rewrite (clash_free render_params) by (exact Hk || exact own_render). unfold mbind at 1. rewrite Hb. fold b1. fold b2. rewrite (clash_free module_params) by (exact Hk || exact own_module).
    unfold mbind at 1. rewrite Hp, Ep. cbn [of_result]. unfold ret at 1. rewrite (clash_free ast_params) by (exact Hk || exact own_ast). unfold mbind at 1. rewrite Hc. cbn [of_result]. unfold ret at 1.
    unfold mbind at 1. fold imp. rewrite Et. cbn [ret mod_dom]. rewrite Er. reflexivity.
  - intros Hi. destruct (T2 Hi) as (e & m' & Et).
    exists e, m'. unfold render_script. cbn [run_script]. unfold mbind at 1. rewrite (clash_free render_params) by (exact Hk || exact own_render). unfold mbind at 1. rewrite Hb. fold b1. fold b2. rewrite (clash_free module_params) by (exact Hk || exact own_module).
    unfold mbind at 1. rewrite Hp, Ep. cbn [of_result]. unfold ret at 1. rewrite (clash_free ast_params) by (exact Hk || exact own_ast). unfold mbind at 1. rewrite Hc. cbn [of_result]. unfold ret at 1.
    unfold mbind at 1. fold imp. rewrite Et. reflexivity.
Qed.
End Runtime.
