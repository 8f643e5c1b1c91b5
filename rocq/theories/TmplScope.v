(** Proofs about templates: names, slots and assignments. *)
From Coq Require Import List NArith ZArith Bool Lia Arith String.
From Verif Require Import PyStr PyStrFacts PyDict Structs StructsSpec StructsFacts Value Dom Ast Machine Eval Translate Analyse
  MachineFacts ScopeSpec ScopeFacts ExprSpec BindFacts PageTree PageRun OperSpec TmplSpec TmplParse TmplTree TmplExpr TmplTag.
Import ListNotations.
Local Open Scope list_scope.
Local Open Scope nat_scope.

(** ** Stores *)
Lemma get_set n x v r : get n (set x v r) = if str_eqb n x then Some v else get n r.
Proof.
  induction r as [|[y w] r IH]; cbn [set get]; [destruct (str_eqb n x); reflexivity|].
  destruct (str_eqb x y) eqn:E.
  - apply str_eqb_eq in E. subst y. cbn [get]. destruct (str_eqb n x); reflexivity.
  - cbn [get]. rewrite IH. destruct (str_eqb n y) eqn:E1; [|reflexivity]. apply str_eqb_eq in E1. subst y.
    destruct (str_eqb n x) eqn:E2; [|reflexivity]. apply str_eqb_eq in E2. subst x. rewrite str_eqb_refl in E. discriminate.
Qed.
Lemma set_dom x v r : incl (map fst (set x v r)) (x :: map fst r).
Proof.
  induction r as [|[y w] r IH]; cbn [set]; [cbn; apply incl_refl|]. destruct (str_eqb x y) eqn:E; cbn [map fst].
  - apply incl_tl, incl_refl.
  - intros z [<-|I]; [right; left; reflexivity|]. destruct (IH z I) as [<-|J]; [left; reflexivity|right; right; exact J].
Qed.
Lemma get_dom n r v : get n r = Some v -> In n (map fst r).
Proof.
  induction r as [|[y w] r IH]; cbn [get]; [discriminate|]. destruct (str_eqb n y) eqn:E.
  - apply str_eqb_eq in E. subst. left. reflexivity.
  - intros H. right. exact (IH H).
Qed.
Lemma keep_get r r' n v : get n (keep r r') = Some v -> get n r' = Some v /\ In n (map fst r).
Proof.
  unfold keep. induction r' as [|[y w] r' IH]; cbn [filter get]; [discriminate|]. cbn [fst].
  destruct (existsb (str_eqb y) (map fst r)) eqn:Ex.
  - cbn [get]. destruct (str_eqb n y) eqn:E; [|exact IH]. apply str_eqb_eq in E. subst y. intros [= <-]. split; [reflexivity|].
    apply existsb_exists in Ex. destruct Ex as (z & I & E). apply str_eqb_eq in E. subst z. exact I.
  - intros H. destruct (str_eqb n y) eqn:E; [|exact (IH H)]. apply str_eqb_eq in E. subst y. destruct (IH H) as [_ I].
    assert (existsb (str_eqb n) (map fst r) = true) by (apply existsb_exists; exists n; split; [exact I|apply str_eqb_refl]). congruence.
Qed.
Lemma keep_dom r r' : incl (map fst (keep r r')) (map fst r).
Proof.
  intros n I. unfold keep in I. apply in_map_iff in I. destruct I as ([y w] & <- & I). apply filter_In in I. destruct I as [_ E]. cbn [fst] in *.
  apply existsb_exists in E. destruct E as (z & I & E). apply str_eqb_eq in E. subst z. exact I.
Qed.

(** Attributes have different names. *)
Lemma set_keys x v r : NoDup (map fst r) -> NoDup (map fst (set x v r)).
Proof.
  induction r as [|[y w] r IH]; intros N; cbn [set]; [repeat constructor; intros []|]. cbn [map fst] in N. inversion N as [|? ? N1 N2]; subst.
  destruct (str_eqb x y) eqn:E; cbn [map fst]; [exact N|]. constructor; [|exact (IH N2)]. intros I. apply set_dom in I. destruct I as [<-|I]; [|exact (N1 I)].
  rewrite str_eqb_refl in E. discriminate.
Qed.
Lemma add_keys d d' a : add_attr d a = Is d' -> NoDup (map fst d) -> NoDup (map fst d').
Proof.
  unfold add_attr. destruct a as [x v]. cbn [fst snd]. intros E N. destruct (get x d) as [old|]; [|injection E as <-; apply set_keys, N].
  destruct old; try discriminate. destruct v; try discriminate. injection E as <-. apply set_keys, N.
Qed.
Lemma words_keys Q r l d d' : ofold (put_word Q r) l d = Is d' -> NoDup (map fst d) -> NoDup (map fst d').
Proof.
  apply (fold_keeps (fun d => NoDup (map fst d))). intros z z' w _ F. unfold put_word in F. oinv F x Ex. exact (add_keys _ _ _ F).
Qed.
Lemma use_keys Q r h a : inst_use Q r h = Is a -> NoDup (map fst (snd a)).
Proof.
  destruct h as [[n pos] l]. cbn [inst_use]. intros E. oinv E ps Ep. oinv E kw Ek. injection E as <-. cbn [snd]. unfold inst_attrs in Ek. oinv Ek w Ew.
  apply (fold_keeps (fun d => NoDup (map fst d)) (put_attr Q r) l) with (2 := Ek); [|exact (words_keys _ _ _ _ _ Ew (NoDup_nil _))].
  intros z z' y _ F. destruct y as [x g|ws]; cbn [put_attr] in F.
  - oinv F v Ev. exact (add_keys _ _ _ F).
  - exact (words_keys _ _ _ _ _ F).
Qed.

Lemma VAR_inj n m : VAR n = VAR m -> n = m.
Proof. intros H. injection H as H. exact H. Qed.
Lemma VAR_TAG n m : VAR n <> TAG m.
Proof. intros H. discriminate. Qed.

(** What a hypertag relies on: states of other scripts, values of slots in states, definitions. *)
Record home := { ho_states : list nat; ho_vals : list (nat * slot * val); ho_defs : list (nat * hdef) }.
Definition local (d : nat) (hd : hdef) : home := {| ho_states := []; ho_vals := []; ho_defs := [(d, hd)] |}.
Definition at_home {W} (h : home) (m : mach W) : Prop :=
  (forall s, In s (ho_states h) -> live s m /\ ind_of s m = [NL]) /\
  (forall s x v, In (s, x, v) (ho_vals h) -> slot_value m s x = Some v) /\
  (forall d hd, In (d, hd) (ho_defs h) -> nth_error (m_defs m) d = Some hd).
(** A hypertag: name and meaning; value and home. *)
Definition hyp : Type := (str * meaning) * (hyper * home).
Definition hyp_name (h : hyp) : str := fst (fst h).
Definition home_slots (h : hyp) : list slot := map (fun z => snd (fst z)) (ho_vals (snd (snd h))).
Lemma local_home {W} d hd (m : mach W) : at_home (local d hd) m <-> nth_error (m_defs m) d = Some hd.
Proof.
  split; [intros (_ & _ & H); apply H; left; reflexivity|]. intros H. split; [intros s []|]. split; [intros s x v []|]. intros d' hd' [E|[]]. injection E as <- <-. exact H.
Qed.
(** States other than [s] are as before, but for slots [ws]. *)
Definition others {W} (s : nat) (ws : list slot) (m m' : mach W) : Prop :=
  forall s', s' <> s -> (live s' m -> live s' m') /\ ind_of s' m' = ind_of s' m /\ forall x, ~ In x ws -> slot_value m' s' x = slot_value m s' x.
Lemma others_refl {W} s ws (m m' : mach W) : m_states m' = m_states m -> others s ws m m'.
Proof. intros E s' _. unfold live, ind_of, slot_value, state_at. rewrite E. auto. Qed.
Lemma put_others {W} s ws (m : mach W) x : others s ws m (put_state m s x).
Proof.
  intros s' N. unfold live, ind_of, slot_value, state_at, put_state. cbn [m_states with_states]. rewrite put_nth_length, put_nth_other by congruence. auto.
Qed.
Lemma set_others {W} s i v ws (m m' : mach W) : set_slot s i v m = (Done tt, m') -> others s ws m m'.
Proof. unfold set_slot. cbv zeta. intros [= <-]. apply put_others. Qed.
Lemma ind_others {W} s ws i (m : mach W) : others s ws m (with_ind s m i).
Proof. apply put_others. Qed.
Lemma others_on {W} s ws (m m1 m2 : mach W) : others s ws m m1 -> others s ws m1 m2 -> others s ws m m2.
Proof.
  intros O1 O2 s' Ns. destruct (O1 s' Ns) as (A1 & A2 & A3). destruct (O2 s' Ns) as (B1 & B2 & B3). split; [auto|]. split; [congruence|]. intros x N. rewrite B3, A3; auto.
Qed.
(** States with the same values. *)
Lemma others_home {W} s ws (h : home) (m m' : mach W) : others s ws m m' -> (forall x, In x ws -> ~ In x (map (fun z => snd (fst z)) (ho_vals h))) -> (forall x, ~ In x ws -> slot_value m' s x = slot_value m s x) -> m_defs m' = m_defs m -> ~ In s (ho_states h) -> at_home h m -> at_home h m'.
Proof.
  intros O F V D Ns (H1 & H2 & H3). split; [|split].
  - intros s' J. destruct (O s') as (O1 & O2 & _); [intros ->; exact (Ns J)|]. destruct (H1 s' J) as [L E]. split; [exact (O1 L)|congruence].
  - intros s' x v J. rewrite <- (H2 s' x v J). assert (Nx : ~ In x ws) by (intros Z; apply (F x Z), in_map_iff; exists (s', x, v); split; [reflexivity|exact J]).
    destruct (Nat.eq_dec s' s) as [->|N]; [exact (V x Nx)|]. exact (proj2 (proj2 (O s' N)) x Nx).
  - intros d hd J. rewrite D. exact (H3 d hd J).
Qed.

Section Scope.
Context {W : Type}.
Variables (P : prims W) (Q : py).
Hypothesis AG : agrees P Q.
Variable known : str -> option bool.
Variable tag_of : str -> tag.
Variable s : nat.
(** Variables and hypertags known everywhere, with the slots of such names; slots of definitions. *)
Variable vis : list str.
Variable hyps : list hyp.
Variable sl : str -> slot.
Variable hid : list slot.
Notation sees := (sees (W := W) s).
Notation tags_hold := (tags_hold (W := W) known tag_of s).
Notation step := (step (W := W)).

(** Slots in other scripts that hypertags rely on. *)
Definition used : list slot := flat_map home_slots hyps.
(** Names of a template in a context. *)
Definition tag_known (n : str) : Prop := (exists v, known n = Some v) \/ In n (map hyp_name hyps).
Record scope (own outer : list str) (c : ctx) (a : mach W) : Prop := {
  sc_sound : sound c;
  sc_keyed : keyed c a;
  sc_own : forall n, In n own -> exists x, c_get c (VAR n) = Some x /\ sl_depth x = c_regular c;
  sc_outer : forall n, In n outer -> exists x, c_get c (VAR n) = Some x;
  sc_tags : forall n, tag_known n -> exists x, c_get c (TAG n) = Some x /\ sl_id x = sl (TAG n);
  sc_vis : forall n, In n vis -> In n (own ++ outer) /\ exists x, c_get c (VAR n) = Some x /\ sl_id x = sl (VAR n);
  sc_hid : forall y i, In (y, i) (entries c) -> ~ In (sl_id i) (hid ++ used);
  sc_low : (forall x, In x (hid ++ used) -> x < m_next a) /\ forall x, In x hid -> ~ In x used;
  sc_fit : fit c
}.
(** New entries have other names. *)
Definition fresh_names (ext : StructsSpec.scope sinfo) (sc : list str) : Prop := forall y i, In (y, i) ext -> exists n, y = VAR n /\ ~ In n sc.
(** Slots written: new ones, those of variables not in [outer], at the level of the context or inside, or of definitions. *)
Definition writes_ok (outer : list str) (c : ctx) (a a' : mach W) (ws : list slot) : Prop :=
  forall x, In x ws -> m_next a <= x < m_next a' \/
    (exists n i, ~ In n outer /\ In (VAR n, i) (entries c) /\ sl_id i = x /\ c_regular c <= sl_depth i) \/ In x hid.
Definition kept (ws : list slot) (m m' : mach W) : Prop :=
  live s m' /\ ind_of s m' = ind_of s m /\ (forall x, ~ In x ws -> slot_value m' s x = slot_value m s x) /\ m_defs m' = m_defs m /\ others s ws m m'.
(** Tags and hypertags are in their slots. *)
Definition stays (m : mach W) : Prop :=
  (forall n v, known n = Some v -> slot_value m s (sl (TAG n)) = Some (VTag (tag_of n))) /\
  (forall n f h o, In ((n, f), (h, o)) hyps -> slot_value m s (sl (TAG n)) = Some (VHyper h) /\ at_home o m /\ ~ In s (ho_states o)).
Definition ready (c : ctx) (r : store) (m : mach W) : Prop := live s m /\ sees c r m /\ stays m.
(** Values of the variables known everywhere. *)
Definition gets (r : store) (m : mach W) : Prop := forall n v, In n vis -> get n r = Some v -> slot_value m s (sl (VAR n)) = Some v.

Lemma stays_ind m i : live s m -> stays m -> stays (with_ind s m i).
Proof.
  intros L [T1 T2]. assert (V : forall x, slot_value (with_ind s m i) s x = slot_value m s x) by (intros x; apply slot_with_ind, L). split.
  - intros n v K. rewrite V. exact (T1 n v K).
  - intros n f h o I. destruct (T2 n f h o I) as (H1 & H2 & H3). rewrite V. split; [exact H1|]. split; [|exact H3].
    exact (others_home s [] o m _ (ind_others s [] i m) (fun x z => match z with end) (fun x _ => V x) eq_refl H3 H2).
Qed.
Lemma stays_tags own outer c a m : scope own outer c a -> stays m -> tags_hold c m.
Proof. intros S [T _] n v K. destruct (sc_tags _ _ _ _ S n (or_introl (ex_intro _ v K))) as (x & G & E). exists x. split; [exact G|]. rewrite E. exact (T n v K). Qed.
Lemma sees_gets own outer c a r m : scope own outer c a -> sees c r m -> gets r m.
Proof. intros S H n v I G. destruct (H n v G) as (x & E & V). destruct (sc_vis _ _ _ _ S n I) as (_ & y & E' & <-). congruence. Qed.
Lemma gets_sees own outer c a r m : scope own outer c a -> incl (map fst r) vis -> gets r m -> sees c r m.
Proof.
  intros S D H n v G. pose proof (D n (get_dom n r v G)) as I. destruct (sc_vis _ _ _ _ S n I) as (_ & x & E & Ex). exists x. split; [exact E|]. rewrite Ex. exact (H n v I G).
Qed.

Lemma scope_resolved own outer c a : scope own outer c a -> resolved c (own ++ outer).
Proof.
  intros [S1 S2 S3 S4 S5 S6 S7 S8 S9] n I. apply in_app_or in I. destruct I as [I|I]; [|exact (S4 n I)]. destruct (S3 n I) as (x & E & _). exists x. exact E.
Qed.
Lemma scope_incl own own' outer c a : scope own outer c a -> incl own' own -> (forall n, In n vis -> In n (own' ++ outer)) -> scope own' outer c a.
Proof. intros [S1 S2 S3 S4 S5 S6 S7 S8 S9] I V. split; auto. intros n J. split; [exact (V n J)|exact (proj2 (S6 n J))]. Qed.
Lemma scope_inner own outer c a : scope own outer c a -> scope [] (own ++ outer) (enter_regular c) a.
Proof.
  intros H. pose proof (scope_resolved _ _ _ _ H) as R. destruct H as [S1 S2 S3 S4 S5 S6 S7 S8 S9]. split; auto.
  - intros n [].
  - intros y i I. apply S9 in I. cbn. lia.
Qed.
Lemma fresh_nil sc : fresh_names [] sc.
Proof. intros y i []. Qed.
Lemma fresh_incl ext sc sc' : fresh_names ext sc -> incl sc' sc -> fresh_names ext sc'.
Proof. intros H I y i J. destruct (H y i J) as (n & E & N). exists n. split; [exact E|]. intros K. apply N, I, K. Qed.
Lemma fresh_sub ext ext' sc : fresh_names ext sc -> incl ext' ext -> fresh_names ext' sc.
Proof. intros H I y i J. exact (H y i (I _ J)). Qed.
Lemma fresh_app e1 e2 sc : fresh_names e1 sc -> fresh_names e2 sc -> fresh_names (e1 ++ e2) sc.
Proof. intros H1 H2 y i J. apply in_app_or in J. destruct J as [J|J]; [exact (H1 y i J)|exact (H2 y i J)]. Qed.

Lemma step_get c a c' a' ext nd ws y : sound c -> step c a c' a' ext nd ws -> ~ In y (map fst ext) -> c_get c' y = c_get c y.
Proof.
  intros H [I1 A1 _ _ _ _ _ _ _ _ _ _] N. rewrite !c_get_find by assumption. rewrite A1, find_app. apply find_None in N. rewrite N. reflexivity.
Qed.
Lemma step_var c a c' a' ext nd ws sc n : sound c -> step c a c' a' ext nd ws -> fresh_names ext sc -> In n sc -> c_get c' (VAR n) = c_get c (VAR n).
Proof.
  intros H S F I. apply (step_get _ _ _ _ _ _ _ _ H S). intros J. apply in_map_iff in J. destruct J as ([y i] & E & J). cbn [fst] in E. subst y.
  destruct (F _ _ J) as (k & E & N). apply VAR_inj in E. subst k. exact (N I).
Qed.
Lemma step_tag c a c' a' ext nd ws sc n : sound c -> step c a c' a' ext nd ws -> fresh_names ext sc -> c_get c' (TAG n) = c_get c (TAG n).
Proof.
  intros H S F. apply (step_get _ _ _ _ _ _ _ _ H S). intros J. apply in_map_iff in J. destruct J as ([y i] & E & J). cbn [fst] in E. subst y.
  destruct (F _ _ J) as (k & E & N). symmetry in E. exact (VAR_TAG _ _ E).
Qed.
Lemma scope_step own outer c a c' a' ext ws : scope own outer c a -> step c a c' a' ext [] ws -> fresh_names ext (own ++ outer) -> scope own outer c' a'.
Proof.
  intros [S1 S2 S3 S4 S5 S6 S7 S8 S9] S F. split.
  - exact (st_inv _ _ _ _ _ _ _ S).
  - exact (keyed_step _ _ _ _ _ _ _ S S2).
  - intros n I. rewrite (step_var _ _ _ _ _ _ _ _ n S1 S F) by (apply in_or_app; left; exact I). rewrite (st_reg _ _ _ _ _ _ _ S). exact (S3 n I).
  - intros n I. rewrite (step_var _ _ _ _ _ _ _ _ n S1 S F) by (apply in_or_app; right; exact I). exact (S4 n I).
  - intros n K. rewrite (step_tag _ _ _ _ _ _ _ _ n S1 S F). exact (S5 n K).
  - intros n I. destruct (S6 n I) as [J K]. split; [exact J|]. rewrite (step_var _ _ _ _ _ _ _ _ n S1 S F J). exact K.
  - intros y i I. rewrite (st_abs _ _ _ _ _ _ _ S) in I. apply in_app_or in I. destruct I as [I|I]; [|exact (S7 y i I)].
    destruct (st_ext _ _ _ _ _ _ _ S _ _ I) as [_ B]. intros J. apply S8 in J. lia.
  - split; [|exact (proj2 S8)]. intros x I. apply S8 in I. pose proof (st_next _ _ _ _ _ _ _ S). lia.
  - exact (step_fit _ _ _ _ _ _ _ S S9).
Qed.
(** Values do not depend on the new entries. *)
Lemma sees_step c a c' a' ext nd ws sc r m : sound c -> step c a c' a' ext nd ws -> fresh_names ext sc -> incl (map fst r) sc -> sees c r m <-> sees c' r m.
Proof.
  intros H S F D. split; intros K n v G; destruct (K n v G) as (x & E & V); exists x; (split; [|exact V]);
    [rewrite (step_var _ _ _ _ _ _ _ _ n H S F); [exact E|]|rewrite (step_var _ _ _ _ _ _ _ _ n H S F) in E; [exact E|]]; apply D, (get_dom n r v G).
Qed.
Lemma ready_step c a c' a' ext nd ws sc r m : sound c -> step c a c' a' ext nd ws -> fresh_names ext sc -> incl (map fst r) sc -> ready c r m <-> ready c' r m.
Proof.
  intros H S F D. unfold ready. rewrite (sees_step _ _ _ _ _ _ _ _ r m H S F D). reflexivity.
Qed.
Lemma sees_keep c r r' m : sees c r' m -> sees c (keep r r') m.
Proof. intros H n v G. apply keep_get in G. exact (H n v (proj1 G)). Qed.

(** Writes do not change tags, nor variables of [outer]. *)
Lemma kept_entry outer own c a a' ws y i m m' : scope own outer c a -> writes_ok outer c a a' ws -> kept ws m m' -> In (y, i) (entries c) ->
  (forall n, y = VAR n -> In n outer) -> slot_value m' s (sl_id i) = slot_value m s (sl_id i).
Proof.
  intros [S1 [S2 S2'] S3 S4 S5 S6 S7 S8 S9] Ww (_ & _ & K & _) I Hy. apply K. intros J. destruct (Ww _ J) as [B|[(n & j & N & Ij & Ej & _)|B]].
  - apply S2 in I. lia.
  - symmetry in Ej. pose proof (S2' _ _ _ _ I Ij Ej) as E. exact (N (Hy n E)).
  - apply (S7 _ _ I), in_or_app. left. exact B.
Qed.
Lemma kept_home outer own c a a' ws h m m' : scope own outer c a -> writes_ok outer c a a' ws -> kept ws m m' -> In h hyps -> ~ In s (ho_states (snd (snd h))) -> at_home (snd (snd h)) m -> at_home (snd (snd h)) m'.
Proof.
  intros [S1 [S2 S2'] S3 S4 S5 S6 S7 [S8 S8'] S9] Ww (_ & _ & K & Kd & Ko) I Ns (H1 & H2 & H3). split; [|split].
  - intros s' J. destruct (Ko s') as (O1 & O2 & _); [intros ->; exact (Ns J)|]. destruct (H1 s' J) as [L E]. split; [exact (O1 L)|congruence].
  - intros s' x v J. assert (Nx : ~ In x ws).
    { assert (U : In x used) by (apply in_flat_map; exists h; split; [exact I|]; apply in_map_iff; exists (s', x, v); split; [reflexivity|exact J]).
      intros Z. destruct (Ww _ Z) as [B|[(n & j & N & Ij & Ej & _)|B]].
      - specialize (S8 x (in_or_app _ _ _ (or_intror U))). lia.
      - apply (S7 _ _ Ij). rewrite Ej. apply in_or_app. right. exact U.
      - exact (S8' x B U). }
    rewrite <- (H2 s' x v J). destruct (Nat.eq_dec s' s) as [->|N]; [exact (K x Nx)|]. exact (proj2 (proj2 (Ko s' N)) x Nx).
  - intros d hd J. rewrite Kd. exact (H3 d hd J).
Qed.
Lemma kept_stays outer own c a a' ws m m' : scope own outer c a -> writes_ok outer c a a' ws -> kept ws m m' -> stays m -> stays m'.
Proof.
  intros Sc Ww K [T1 T2].
  assert (Tg : forall n, tag_known n -> slot_value m' s (sl (TAG n)) = slot_value m s (sl (TAG n))).
  { intros n Kn. destruct (sc_tags _ _ _ _ Sc n Kn) as (x & G & <-). rewrite c_get_find in G by exact (sc_sound _ _ _ _ Sc). apply find_In in G.
    apply (kept_entry _ _ _ _ _ _ _ _ _ _ Sc Ww K G). intros n' E. symmetry in E. destruct (VAR_TAG _ _ E). }
  split.
  - intros n v Kn. rewrite Tg by (left; exists v; exact Kn). exact (T1 n v Kn).
  - intros n f h o I. destruct (T2 n f h o I) as (V & D & Ns). split; [|split; [exact (kept_home _ _ _ _ _ _ ((n, f), (h, o)) _ _ Sc Ww K I Ns D)|exact Ns]]. rewrite Tg; [exact V|].
    right. apply in_map_iff. exists ((n, f), (h, o)). split; [reflexivity|exact I].
Qed.
Lemma kept_sees outer own c a a' ws r m m' : scope own outer c a -> writes_ok outer c a a' ws -> kept ws m m' -> incl (map fst r) outer -> sees c r m -> sees c r m'.
Proof.
  intros Sc Ww K D T n v Gn. destruct (T n v Gn) as (x & E & V). exists x. split; [exact E|]. rewrite <- V.
  rewrite c_get_find in E by exact (sc_sound _ _ _ _ Sc). apply find_In in E. apply (kept_entry _ _ _ _ _ _ _ _ _ _ Sc Ww K E).
  intros n' En. apply VAR_inj in En. subst n'. apply D, (get_dom n r v Gn).
Qed.
Lemma kept_refl m : live s m -> kept [] m m.
Proof. intros L. split; [exact L|]. split; [reflexivity|]. split; [reflexivity|]. split; [reflexivity|]. apply others_refl. reflexivity. Qed.
Lemma kept_trans w1 w2 m m1 m2 : kept w1 m m1 -> kept w2 m1 m2 -> kept (w1 ++ w2) m m2.
Proof.
  intros (L1 & I1 & K1 & D1 & O1) (L2 & I2 & K2 & D2 & O2).
  assert (N1 : forall x, ~ In x (w1 ++ w2) -> ~ In x w1 /\ ~ In x w2) by (intros x N; split; intros J; apply N, in_or_app; [left|right]; exact J).
  split; [exact L2|]. split; [congruence|]. split; [|split; [congruence|]].
  - intros x N. destruct (N1 x N). rewrite K2, K1; auto.
  - intros s' Ns. destruct (O1 s' Ns) as (A1 & A2 & A3). destruct (O2 s' Ns) as (B1 & B2 & B3). split; [auto|]. split; [congruence|]. intros x N. destruct (N1 x N). rewrite B3, A3; auto.
Qed.
Lemma kept_incl w w' m m' : kept w m m' -> incl w w' -> kept w' m m'.
Proof.
  intros (L & I & K & Kd & O) J. split; [exact L|]. split; [exact I|]. split; [|split; [exact Kd|]].
  - intros x N. apply K. intros Z. apply N, J, Z.
  - intros s' Ns. destruct (O s' Ns) as (O1 & O2 & O3). split; [exact O1|]. split; [exact O2|]. intros x N. apply O3. intros Z. apply N, J, Z.
Qed.
Lemma kept_heap m h : live s m -> kept [] m (with_heap m h).
Proof. intros L. split; [exact L|]. split; [reflexivity|]. split; [reflexivity|]. split; [reflexivity|]. apply others_refl. reflexivity. Qed.
(** An exception that leaves variables and nodes as they were, but for slots [ws] and nodes [A]. *)
Definition fell {B} (A : list nid) (ws : list slot) (m : mach W) (o : out B * mach W) : Prop :=
  exists e z, o = (Exc e, z) /\ kept ws m z /\ spared A (m_heap m) (m_heap z).
Lemma fell_fails {B} A ws m (o : out B * mach W) : fell A ws m o -> fails o.
Proof. intros (e & z & E & _). exists e, z. exact E. Qed.
Lemma fell_stuck {B} A ws m (o : out B * mach W) : live s m -> stuck o m -> fell A ws m o.
Proof. intros L [e E]. exists e, m. split; [exact E|]. split; [apply (kept_incl []); [apply kept_refl, L|intros x []]|apply spared_refl]. Qed.
Lemma fell_at {B} A ws m z (o : out B * mach W) : stuck o z -> kept ws m z -> spared A (m_heap m) (m_heap z) -> fell A ws m o.
Proof. intros [e E] K S. exists e, z. auto. Qed.
Lemma fell_bind {B C} A ws (x : M W B) (f : B -> M W C) m : fell A ws m (x m) -> fell A ws m (mbind x f m).
Proof. intros (e & z & E & R). exists e, z. split; [|exact R]. unfold mbind. rewrite E. reflexivity. Qed.
Lemma fell_on {B} A A' ws m m1 (o : out B * mach W) : kept ws m m1 -> spared A (m_heap m) (m_heap m1) -> (forall i, In i A' -> i < List.length (m_heap m) -> In i A) -> fell A' ws m1 o -> fell A ws m o.
Proof.
  intros K S D (e & z & E & Kz & Sz). exists e, z. split; [exact E|]. split; [|exact (spared_trans _ _ _ _ _ S Sz D)].
  apply (kept_incl (ws ++ ws)); [exact (kept_trans _ _ _ _ _ K Kz)|apply incl_app; apply incl_refl].
Qed.
Lemma fell_then {B C} A ws (x : M W B) (f : B -> M W C) m a m1 : x m = (Done a, m1) -> kept ws m m1 -> spared A (m_heap m) (m_heap m1) -> fell A ws m1 (f a m1) -> fell A ws m (mbind x f m).
Proof. intros E K S H. unfold mbind. rewrite E. apply (fell_on A A ws m m1 _ K S); [auto|exact H]. Qed.
Lemma fell_incl {B} A ws ws' m (o : out B * mach W) : fell A ws m o -> incl ws ws' -> fell A ws' m o.
Proof. intros (e & z & E & K & S) I. exists e, z. split; [exact E|]. split; [exact (kept_incl _ _ _ _ K I)|exact S]. Qed.
Lemma fell_more {B} A A' ws m (o : out B * mach W) : fell A ws m o -> incl A A' -> fell A' ws m o.
Proof. intros (e & z & E & K & S) I. exists e, z. split; [exact E|]. split; [exact K|exact (spared_incl _ _ _ _ S I)]. Qed.
Lemma writes_nil outer c a a' : writes_ok outer c a a' [].
Proof. intros x []. Qed.
Lemma writes_trans outer c a c1 a1 a2 ext nd ws w1 w2 : step c a c1 a1 ext nd ws -> m_next a1 <= m_next a2 ->
  writes_ok outer c a a1 w1 -> writes_ok outer c1 a1 a2 w2 -> writes_ok outer c a a2 (w1 ++ w2).
Proof.
  intros S L H1 H2 x I. pose proof (st_next _ _ _ _ _ _ _ S) as L1. apply in_app_or in I. destruct I as [I|I].
  - destruct (H1 x I) as [B|B]; [left; lia|right; exact B].
  - destruct (H2 x I) as [B|[(n & i & N & J & E & Dp)|B]]; [left; lia| |right; right; exact B]. rewrite (st_abs _ _ _ _ _ _ _ S) in J. apply in_app_or in J. destruct J as [J|J].
    + left. destruct (st_ext _ _ _ _ _ _ _ S _ _ J) as [_ B]. lia.
    + right. left. exists n, i. rewrite (st_reg _ _ _ _ _ _ _ S) in Dp. auto.
Qed.
Lemma writes_incl outer outer' c a a' ws : writes_ok outer c a a' ws -> incl outer' outer -> writes_ok outer' c a a' ws.
Proof. intros H J x Ix. destruct (H x Ix) as [B|[(n & i & N & K)|B]]; [left; exact B|right; left|right; right; exact B]. exists n, i. split; [|exact K]. intros Z. apply N, J, Z. Qed.
Lemma writes_app outer c a a' w1 w2 : writes_ok outer c a a' w1 -> writes_ok outer c a a' w2 -> writes_ok outer c a a' (w1 ++ w2).
Proof. intros H1 H2 x I. apply in_app_or in I. destruct I as [I|I]; [exact (H1 x I)|exact (H2 x I)]. Qed.
Lemma writes_hid outer c a a' : writes_ok outer c a a' hid.
Proof. intros x I. right. right. exact I. Qed.

(** ** Targets *)
Notation var_of := (fun x : str => TVar x false None None).
Definition holds (c : ctx) (n : str) (x : slot) : Prop := exists i, c_get c (VAR n) = Some i /\ sl_id i = x.

Lemma var_fine x own outer c a : ~ In x outer -> scope own outer c a ->
  exists i c' a' ext, an_target (var_of x) c a = (Done (TVar x false None (Some i), c'), a') /\ step c a c' a' ext [] [] /\
    fresh_names ext (own ++ outer) /\ scope (x :: own) outer c' a' /\ writes_ok outer c a a' [i] /\ holds c' x i.
Proof.
  intros Nx S. pose proof S as [S1 S2 S3 S4 S5 S6 S7 S8 S9].
  assert (New : ~ In x own -> exists i c' a' ext, new_slot2 (VAR x) c a = (Done (i, c'), a') /\ step c a c' a' ext [] [] /\
    fresh_names ext (own ++ outer) /\ scope (x :: own) outer c' a' /\ writes_ok outer c a a' [i] /\ holds c' x i).
  { intros No. destruct (new_slot2 (VAR x) c a) as [[[i c']| |] a'] eqn:E; [|discriminate|discriminate].
    destruct (new_slot2_step _ _ _ _ _ _ S1 E) as (St & Ei & Ea). apply step_ws with (w' := []) in St; [|intros z []].
    set (e := {| sl_id := i; sl_depth := c_regular c |}) in *.
    assert (F : fresh_names [(VAR x, e); (VAR x, e)] (own ++ outer)).
    { intros y j [[= <- <-]|[[= <- <-]|[]]]; exists x; (split; [reflexivity|]); intros J; apply in_app_or in J; tauto. }
    assert (G : c_get c' (VAR x) = Some e).
    { rewrite c_get_find by exact (st_inv _ _ _ _ _ _ _ St). rewrite (st_abs _ _ _ _ _ _ _ St). cbn [app find]. destruct (list_eq_dec N.eq_dec (VAR x) (VAR x)); [reflexivity|congruence]. }
    exists i, c', a', [(VAR x, e); (VAR x, e)]. split; [reflexivity|]. split; [exact St|]. split; [exact F|]. split.
    - destruct (scope_step _ _ _ _ _ _ _ _ S St F) as [T1 T2 T3 T4 T5 T6 T7 T8 T9]. split; auto.
      + intros n [<-|J]; [|exact (T3 n J)]. exists e. split; [exact G|]. rewrite (st_reg _ _ _ _ _ _ _ St). reflexivity.
      + intros n J. destruct (T6 n J) as [J1 J2]. split; [right; exact J1|exact J2].
    - split; [|exists e; split; [exact G|reflexivity]]. intros z [<-|[]]. left. subst i a'. cbn. lia. }
  assert (Old : forall e, c_get c (VAR x) = Some e -> sl_depth e = c_regular c -> step c a c a [] [] [] /\
    fresh_names [] (own ++ outer) /\ scope (x :: own) outer c a /\ writes_ok outer c a a [sl_id e] /\ holds c x (sl_id e)).
  { intros e G D. split; [apply step_refl, S1|]. split; [apply fresh_nil|]. split.
    - split; auto.
      + intros n [<-|J]; [|exact (S3 n J)]. exists e. auto.
      + intros n J. destruct (S6 n J) as [J1 J2]. split; [right; exact J1|exact J2].
    - split; [|exists e; auto]. intros z [<-|[]]. right. left. exists x, e. split; [exact Nx|]. split; [|split; [reflexivity|lia]]. rewrite c_get_find in G by exact S1. apply find_In in G. exact G. }
  cbn [an_target]. rewrite (abind_done _ _ c a None c a eq_refl).
  destruct (c_get c (VAR x)) as [e|] eqn:G.
  - destruct (Nat.eqb_spec (sl_depth e) (c_regular c)) as [D|D].
    + exists (sl_id e), c, a, []. split; [|exact (Old e eq_refl D)]. erewrite abind_done; [reflexivity|]. rewrite G, D, Nat.eqb_refl. reflexivity.
    + destruct New as (i & c' & a' & ext & E & R).
      { intros J. destruct (S3 x J) as (e' & G' & D'). congruence. }
      exists i, c', a', ext. split; [|exact R]. erewrite abind_done; [reflexivity|]. rewrite G. apply Nat.eqb_neq in D. rewrite D. exact E.
  - destruct New as (i & c' & a' & ext & E & R).
    { intros J. destruct (S3 x J) as (e' & G' & D'). congruence. }
    exists i, c', a', ext. split; [|exact R]. erewrite abind_done; [reflexivity|]. rewrite G. exact E.
Qed.

Definition linked (n : str) (x : slot) : target := TVar n false None (Some x).
Fixpoint links (xs : list str) (is : list slot) : list target :=
  match xs, is with x :: xs, i :: is => linked x i :: links xs is | _, _ => [] end.

Lemma targets_fine xs : forall own outer c a, (forall x, In x xs -> ~ In x outer) -> scope own outer c a ->
  exists is c' a' ext, amap an_target (map var_of xs) c a = (Done (links xs is, c'), a') /\ step c a c' a' ext [] [] /\
    fresh_names ext (own ++ outer) /\ scope (xs ++ own) outer c' a' /\ writes_ok outer c a a' is /\ Forall2 (holds c') xs is.
Proof.
  induction xs as [|x xs IH]; intros own outer c a Hx S.
  - exists [], c, a, []. split; [reflexivity|]. split; [apply step_refl, (sc_sound _ _ _ _ S)|]. split; [apply fresh_nil|]. split; [exact S|].
    split; [apply writes_nil|constructor].
  - destruct (var_fine x own outer c a (Hx x (or_introl eq_refl)) S) as (i & c1 & a1 & e1 & E1 & St1 & F1 & S1 & W1 & H1).
    destruct (IH (x :: own) outer c1 a1 (fun y J => Hx y (or_intror J)) S1) as (is & c2 & a2 & e2 & E2 & St2 & F2 & S2 & W2 & H2).
    exists (i :: is), c2, a2, (e2 ++ e1). cbn [map amap]. rewrite (abind_done _ _ _ _ _ _ _ E1), (abind_done _ _ _ _ _ _ _ E2).
    split; [reflexivity|]. split; [exact (step_trans _ _ _ _ _ _ _ _ _ _ _ _ St1 St2)|]. split; [|split; [|split]].
    + apply fresh_app; [|exact F1]. apply (fresh_incl _ _ _ F2). intros z J. right. exact J.
    + apply (scope_incl _ _ _ _ _ S2).
      * intros z J. cbn in J. destruct J as [<-|J]; [apply in_or_app; right; left; reflexivity|].
        apply in_app_or in J. apply in_or_app. destruct J as [J|J]; [left; exact J|right; right; exact J].
      * intros n J. destruct (sc_vis _ _ _ _ S n J) as [K _]. apply in_app_or in K. destruct K as [K|K]; [|apply in_or_app; right; exact K].
        apply in_or_app. left. right. apply in_or_app. right. exact K.
    + apply (writes_trans outer c a c1 a1 a2 e1 [] [] [i] is St1); [exact (st_next _ _ _ _ _ _ _ St2)|exact W1|exact W2].
    + constructor; [|exact H2]. destruct H1 as (j & G & Ej). exists j. split; [|exact Ej].
      rewrite (step_var _ _ _ _ _ _ _ _ x (sc_sound _ _ _ _ S1) St2 F2); [exact G|left; reflexivity].
Qed.

(** Assigning. *)
Lemma set_fine own outer c a x i v r m : scope own outer c a -> holds c x i -> live s m -> sees c r m ->
  exists m', set_slot s i v m = (Done tt, m') /\ m_heap m' = m_heap m /\ sees c (set x v r) m' /\ kept [i] m m'.
Proof.
  intros [S1 [K1 K2] S3 S4 S5 S6 S7 S8 S9] (e & G & Ei) L S. destruct (assigned_set s i v m L) as (m' & E & A). exists m'. split; [exact E|].
  destruct (assigned_heap _ _ _ _ A) as [Hh _]. split; [exact Hh|]. pose proof A as A'. destruct A as (V & I & _ & Len & _).
  assert (V' : forall y, slot_value m' s y = if Nat.eqb y i then Some v else slot_value m s y).
  { intros y. rewrite V. cbn [last_of]. destruct (Nat.eqb y i); reflexivity. }
  split.
  - intros n w Gn. rewrite get_set in Gn. destruct (str_eqb n x) eqn:En.
    + apply str_eqb_eq in En. subst n. injection Gn as <-. exists e. split; [exact G|]. rewrite V', Ei, Nat.eqb_refl. reflexivity.
    + destruct (S n w Gn) as (e' & G' & V1). exists e'. split; [exact G'|]. rewrite V'. destruct (Nat.eqb_spec (sl_id e') i) as [D|D]; [|exact V1].
      exfalso. rewrite c_get_find in G, G' by exact S1. apply find_In in G. apply find_In in G'. subst i.
      pose proof (VAR_inj _ _ (K2 _ _ _ _ G' G D)) as Z. subst n. rewrite str_eqb_refl in En. discriminate.
  - split; [unfold live in *; lia|]. split; [exact I|]. split; [|split; [destruct A' as (_ & _ & _ & _ & Z); rewrite Z; reflexivity|exact (set_others s i v [i] m m' E)]]. intros y N. rewrite V'. destruct (Nat.eqb_spec y i) as [D|D]; [|reflexivity]. destruct N. left. congruence.
Qed.

Lemma sets_fine own outer c a : scope own outer c a -> forall xs is, Forall2 (holds c) xs is -> forall vs r m, List.length vs = List.length xs -> live s m -> sees c r m ->
  exists m', assign_all P s None (links xs is) vs m = (Done tt, m') /\ m_heap m' = m_heap m /\
    sees c (fold_left (fun r a => match a with (x, v) => set x v r end) (combine xs vs) r) m' /\ kept is m m'.
Proof.
  intros S xs is F. induction F as [|x i xs is Hx F IH]; intros vs r m E L Se.
  - destruct vs; [|discriminate]. exists m. split; [reflexivity|]. split; [reflexivity|]. split; [exact Se|apply kept_refl, L].
  - destruct vs as [|v vs]; [discriminate|]. injection E as E. destruct (set_fine _ _ _ _ x i v r m S Hx L Se) as (m1 & E1 & Hh1 & Se1 & K1).
    destruct (IH vs (set x v r) m1 E (proj1 K1) Se1) as (m2 & E2 & Hh2 & Se2 & K2). exists m2. cbn [links assign_all]. cbn [assign linked].
    split; [rewrite (run_bind _ _ _ _ _ E1); exact E2|]. split; [congruence|]. split; [exact Se2|exact (kept_trans _ _ _ _ _ K1 K2)].
Qed.

Lemma sets_dom l : forall r, incl (map fst (fold_left (fun r (a : str * val) => match a with (x, v) => set x v r end) l r)) (map fst l ++ map fst r).
Proof.
  induction l as [|[x v] l IH]; intros r; [apply incl_refl|]. cbn [fold_left map fst app]. intros n J. apply IH in J. apply in_app_or in J. destruct J as [J|J].
  - right. apply in_or_app. left. exact J.
  - apply set_dom in J. destruct J as [<-|J]; [left; reflexivity|right; apply in_or_app; right; exact J].
Qed.

Lemma unpack_fine own outer c a xs is v r r' m : scope own outer c a -> Forall2 (holds c) xs is -> live s m -> sees c r m -> unpack Q xs v r = Is r' ->
  exists m', assign P s (TTargets (links xs is)) v m = (Done tt, m') /\ m_heap m' = m_heap m /\ sees c r' m' /\ kept is m m' /\ incl (map fst r') (xs ++ map fst r).
Proof.
  intros S F L Se U. assert (Cm : forall (l : list val), incl (map fst (combine xs l)) xs).
  { intros l n J. apply in_map_iff in J. destruct J as ([y w] & <- & J). apply in_combine_l in J. exact J. }
  destruct (Nat.eq_dec (List.length xs) 1) as [E1|N1].
  - destruct F as [|x i xs is Hx F]; [discriminate|]. destruct F; [|discriminate]. injection U as <-.
    destruct (set_fine _ _ _ _ x i v r m S Hx L Se) as (m1 & E & R1 & R2 & R3). exists m1. split; [exact E|]. split; [exact R1|]. split; [exact R2|]. split; [exact R3|]. apply set_dom.
  - assert (U' : (l <: items_of Q v ;; if Nat.eqb (List.length l) (List.length xs)
      then Is (fold_left (fun r a => match a with (x, v) => set x v r end) (combine xs l) r) else Raises) = Is r').
    { destruct xs as [|x0 [|x1 xs]]; [exact U|contradiction N1; reflexivity|exact U]. }
    clear U. oinv U' l El. destruct (Nat.eqb_spec (List.length l) (List.length xs)) as [El1|]; [|discriminate]. injection U' as <-.
    rewrite assign_many.
    + rewrite (run_bind _ _ _ _ _ (iterate_done P Q AG v l m El)). destruct (sets_fine _ _ _ _ S xs is F l r m El1 L Se) as (m1 & R0 & R1 & R2 & R3).
      exists m1. split; [exact R0|]. split; [exact R1|]. split; [exact R2|]. split; [exact R3|]. intros n J. apply sets_dom in J. apply in_app_or in J. apply in_or_app.
      destruct J as [J|J]; [left; exact (Cm l n J)|right; exact J].
    + assert (Ll : List.length (links xs is) = List.length xs). { clear -F. induction F; [reflexivity|]. cbn [links List.length]. rewrite IHF. reflexivity. } lia.
Qed.

Lemma sets_fail own outer c a : scope own outer c a -> forall xs is, Forall2 (holds c) xs is -> forall vs r m, List.length vs <> List.length xs -> live s m -> sees c r m ->
  fell [] is m (assign_all P s None (links xs is) vs m).
Proof.
  intros S xs is F. induction F as [|x i xs is Hx F IH]; intros vs r m E L Se.
  - destruct vs as [|v vs]; [contradiction E; reflexivity|]. apply (fell_stuck _ _ _ _ L). eexists. reflexivity.
  - destruct vs as [|v vs]; [apply (fell_stuck _ _ _ _ L); eexists; reflexivity|]. destruct (set_fine _ _ _ _ x i v r m S Hx L Se) as (m1 & E1 & Hh1 & Se1 & K1).
    cbn [links assign_all]. cbn [assign linked]. apply (fell_then [] (i :: is) _ _ _ _ _ E1); [apply (kept_incl [i]); [exact K1|intros z [<-|[]]; left; reflexivity]|rewrite Hh1; apply spared_refl|].
    apply (fell_incl _ is); [|apply incl_tl, incl_refl]. apply (IH vs (set x v r) m1); [cbn [List.length] in E; lia|exact (proj1 K1)|exact Se1].
Qed.
Lemma unpack_fails own outer c a xs is v r m : scope own outer c a -> Forall2 (holds c) xs is -> live s m -> sees c r m -> unpack Q xs v r = Raises ->
  fell [] is m (assign P s (TTargets (links xs is)) v m).
Proof.
  intros S F L Se U. destruct (Nat.eq_dec (List.length xs) 1) as [E1|N1].
  - destruct xs as [|x [|y xs]]; [discriminate| |discriminate]. discriminate U.
  - assert (U' : (l <: items_of Q v ;; if Nat.eqb (List.length l) (List.length xs)
      then Is (fold_left (fun r a => match a with (x, v) => set x v r end) (combine xs l) r) else Raises) = Raises).
    { destruct xs as [|x0 [|x1 xs]]; [exact U|contradiction N1; reflexivity|exact U]. }
    clear U. assert (Ll : List.length (links xs is) = List.length xs). { clear -F. induction F; [reflexivity|]. cbn [links List.length]. rewrite IHF. reflexivity. }
    rewrite assign_many by lia. orai U' l El.
    + pose proof (iterate_tells P Q AG v m) as K. rewrite U' in K. apply fell_bind, (fell_stuck _ _ _ _ L). exact (tells_stuck _ _ _ K eq_refl).
    + rewrite (run_bind _ _ _ _ _ (iterate_done P Q AG v l m El)). destruct (Nat.eqb_spec (List.length l) (List.length xs)) as [El1|El1]; [discriminate|].
      exact (sets_fail _ _ _ _ S xs is F l r m El1 L Se).
Qed.

(** ** Branches and control blocks *)
Lemma branch_fine {A} (x : AM (W := W) A) c a (v : A) c1 a1 ext : sound c -> x c a = (Done (v, c1), a1) -> step c a c1 a1 ext [] [] ->
  exists c2 ext2, branch x c a = (Done (v, c2), a1) /\ step c a c2 a1 ext2 [] [] /\ incl ext2 ext.
Proof.
  intros I E S. unfold branch. rewrite (abind_done _ _ c a (md_position (c_md c)) c a eq_refl). rewrite (abind_done _ _ _ _ _ _ _ E).
  rewrite (abind_done _ _ c1 a1 (md_asdict (md_position (c_md c)) (c_md c1)) c1 a1 eq_refl).
  pose proof (st_inv _ _ _ _ _ _ _ S) as I1. pose proof (st_abs _ _ _ _ _ _ _ S) as A1.
  rewrite position_length. change (abs (c_md c)) with (entries c).
  assert (H := reset_spec (c_md c1) (List.length (entries c)) I1). unfold entries in A1.
  replace (Nat.ltb (List.length (abs (c_md c1))) (List.length (entries c))) with false in H.
  2:{ symmetry. apply Nat.ltb_ge. rewrite A1, app_length. unfold entries. lia. }
  destruct H as (d & Ed & Id & Ad).
  assert (Er : areset (W := W) (List.length (entries c)) c1 a1 = (Done (tt, with_md c1 d), a1)) by (unfold areset, mbind; rewrite Ed; reflexivity).
  rewrite (abind_done _ _ _ _ _ _ _ Er). set (syms := md_asdict (List.length (entries c)) (c_md c1)).
  rewrite (abind_done _ _ (with_md c1 d) a1 tt (with_md (with_md c1 d) (md_pushnew syms d)) a1 eq_refl).
  destruct (pushnew_spec syms d Id) as [I4 A4]. destruct (add_new_ext syms (abs d)) as (e & E5 & Inc).
  assert (Ad' : abs d = entries c).
  { rewrite Ad, A1, app_length. unfold entries. replace (List.length ext + List.length (abs (c_md c)) - List.length (abs (c_md c))) with (List.length ext) by lia.
    rewrite skipn_app, skipn_all, Nat.sub_diag. reflexivity. }
  assert (Ie : incl e ext).
  { intros z Hz. apply (asdict_incl c1 ext (entries c) I1 A1), Inc, Hz. }
  exists (with_md (with_md c1 d) (md_pushnew syms d)), e. split; [reflexivity|]. split; [|exact Ie].
  apply (step_sub c a c1 a1 ext [] []); auto. unfold entries at 1. cbn [c_md with_md]. rewrite A4, E5, Ad'. reflexivity.
Qed.
Lemma control_fine {A} (x : AM (W := W) A) c a (v : A) c1 a1 ext : x (enter_control c) a = (Done (v, c1), a1) -> step (enter_control c) a c1 a1 ext [] [] ->
  control x c a = (Done (v, leave_control c1), a1) /\ step c a (leave_control c1) a1 ext [] [].
Proof.
  intros E [I1 A1 R1 C1 H1 P1 N1 D1 G1 J1 F1 S1]. split.
  - unfold control. rewrite (abind_done _ _ c a tt (enter_control c) a eq_refl). rewrite (abind_done _ _ _ _ _ _ _ E). reflexivity.
  - split; auto. unfold leave_control. cbn in *. rewrite C1. reflexivity.
Qed.
(** Contexts that differ in counters only. *)
Lemma scope_same own outer c c' a : scope own outer c a -> c_md c' = c_md c -> c_regular c' = c_regular c -> scope own outer c' a.
Proof.
  intros [S1 S2 S3 S4 S5 S6 S7 S8 S9] M R. split; unfold sound, keyed, fit, entries, c_get in *; rewrite ?M, ?R; auto.
Qed.
Lemma sees_same c c' r m : c_md c' = c_md c -> sees c r m -> sees c' r m.
Proof. intros M S n v G. unfold c_get. rewrite M. exact (S n v G). Qed.
Lemma ready_same c c' r m : c_md c' = c_md c -> ready c r m -> ready c' r m.
Proof. intros M (L & S & T). split; [exact L|]. split; [exact (sees_same _ _ _ _ M S)|exact T]. Qed.
Lemma writes_same outer c c' a a' ws : c_md c' = c_md c -> c_regular c' = c_regular c -> writes_ok outer c a a' ws -> writes_ok outer c' a a' ws.
Proof.
  intros M R H x I. destruct (H x I) as [B|[(n & i & B)|B]]; [left; exact B|right; left|right; right; exact B]. exists n, i. unfold entries in *. rewrite M, R. exact B.
Qed.
Lemma step_same_l c c0 a c' a' ext ws : step c0 a c' a' ext [] ws -> c_md c0 = c_md c -> c_regular c0 = c_regular c -> c_control c0 = c_control c -> c_hyper c0 = c_hyper c ->
  (c_prolog c0 = true -> c_prolog c = true) -> step c a c' a' ext [] ws.
Proof.
  intros [I1 A1 R1 C1 H1 P1 N1 D1 G1 J1 F1 S1] M R C H Pp. split; auto; try congruence.
  - unfold entries in *. rewrite <- M. exact A1.
  - intros y i J. rewrite <- R. exact (G1 y i J).
  - intros x J. destruct (S1 x J) as [B|(n & i & B)]; [left; exact B|right]. exists n, i. unfold entries in *. rewrite <- M, <- R. exact B.
Qed.
End Scope.

Arguments sc_sound {W known vis hyps sl hid own outer c a} _.
Arguments sc_tags {W known vis hyps sl hid own outer c a} _.
Arguments sc_vis {W known vis hyps sl hid own outer c a} _.
Arguments scope_resolved {W known vis hyps sl hid own outer c a} _.
Arguments scope_inner {W known vis hyps sl hid own outer c a} _.
Arguments scope_step {W known vis hyps sl hid own outer c a c' a' ext ws} _ _ _.
Arguments scope_same {W known vis hyps sl hid own outer c} c' {a} _ _ _.
Arguments kept_stays {W known tag_of s vis hyps sl hid outer own c a a' ws m m'} _ _ _ _.
Arguments kept_sees {W known s vis hyps sl hid outer own c a a' ws r m m'} _ _ _ _ _.
Arguments ready_same {W known tag_of s hyps sl} c c' {r m} _ _.
Arguments kept_trans {W s w1 w2 m m1 m2} _ _.
Arguments fell_fails {W s B A ws m o} _.
Arguments fell_stuck {W s B A ws m o} _ _.
Arguments fell_at {W s B A ws m z o} _ _ _.
Arguments fell_bind {W s B C A ws x f m} _.
Arguments fell_on {W s B A} A' {ws m m1 o} _ _ _ _.
Arguments fell_then {W s B C A ws x f m a m1} _ _ _ _.
Arguments fell_incl {W s B A} ws {ws' m o} _ _.
Arguments fell_more {W s B} A {A' ws m o} _ _.
