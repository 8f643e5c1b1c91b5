(** Symbols bound by globals, context blocks and wildcard imports, and symbols exported by a script. *)
From Coq Require Import List NArith ZArith Bool Arith Lia.
From Verif Require Import PyStr PyStrFacts PyDict Value Dom Ast AstInd Structs StructsSpec StructsFacts Machine Eval Translate Analyse Paths Runtime
  RuntimeSpec ScopeSpec MachineFacts FrameFacts ScopeFacts NamesFacts LocalFacts RuntimeFacts ContextFacts.
Import ListNotations.

Section Push.
  Context {W : Type}.
  Definition slots (c : ctx) (n k : nat) : list sinfo := map (fun x => {| sl_id := x; sl_depth := c_regular c |}) (seq n k).
  Lemma pushes_entries (l : list (str * val)) : forall c (m : mach W), sound c -> exists c',
    enter_globals l c m = (Done (combine (seq (m_next m) (List.length l)) (map snd l), c'), with_next m (m_next m + List.length l)) /\
    sound c' /\ entries c' = rev (combine (map fst l) (slots c (m_next m) (List.length l))) ++ entries c /\
    c_regular c' = c_regular c /\ c_control c' = c_control c /\ c_hyper c' = c_hyper c /\ c_prolog c' = c_prolog c.
  Proof.
    induction l as [|[y v] l IH]; intros c m I.
    - exists c. cbn. rewrite Nat.add_0_r. destruct m; cbn. auto 10.
    - set (c1 := with_md c (md_push y {| sl_id := m_next m; sl_depth := c_regular c |} (c_md c))).
      assert (I1 : sound c1) by (apply inv_push, I).
      destruct (IH c1 (with_next m (S (m_next m))) I1) as (c' & E & I' & A & R & C & H & P).
      exists c'. split; [|split; [exact I'|split; [|auto]]].
      + change (enter_globals ((y, v) :: l) c m) with (mbind (enter_globals l c1) (fun r => ret ((m_next m, v) :: fst r, snd r)) (with_next m (S (m_next m)))).
        unfold mbind. rewrite E. unfold ret. cbn [fst snd List.length seq map combine]. 
f_equal. destruct m; unfold with_next; cbn. f_equal. lia.
      + rewrite A. cbn [slots List.length seq map combine fst rev]. rewrite <- app_assoc. f_equal. unfold entries, c1. cbn. apply abs_push.
  Qed.
  Lemma set_values s (l : list (slot * val)) : forall (m : mach W), s < List.length (m_states m) -> exists m',
    miter (set_value s) l m = (Done tt, m') /\ List.length (m_states m') = List.length (m_states m) /\
    (forall x, ~ In x (map fst l) -> slot_value m' s x = slot_value m s x) /\
    (NoDup (map fst l) -> forall x v, In (x, v) l -> slot_value m' s x = Some v).
  Proof.
    induction l as [|[x v] l IH]; intros m L.
    - exists m. split; [reflexivity|]. split; [reflexivity|]. split; [reflexivity|]. intros _ x v [].
    - cbn [miter]. unfold mbind. unfold set_value at 1, set_slot. cbn [fst snd].
      set (m1 := put_state m s _). assert (L1 : s < List.length (m_states m1)) by (unfold m1; cbn; rewrite put_nth_length; exact L).
      destruct (IH m1 L1) as (m' & E & L' & F & G). exists m'. split; [exact E|]. split; [rewrite L'; unfold m1; cbn; apply put_nth_length|].
      assert (V : forall y, slot_value m1 s y = if Nat.eqb y x then Some v else slot_value m s y).
      { intros y. unfold slot_value, m1. rewrite state_put_same by exact L. cbn [s_vals]. apply dget_dset, Nat.eqb_eq. }
      split.
      + intros y H. cbn in H. rewrite F by tauto. rewrite V. destruct (Nat.eqb_spec y x) as [->|N]; [|reflexivity]. exfalso. tauto.
      + intros ND y w H. inversion ND as [|? ? NI ND']; subst. destruct H as [[= <- <-]|H]; [|apply (G ND' y w H)].
        rewrite F by exact NI. rewrite V, Nat.eqb_refl. reflexivity.
  Qed.
End Push.

(** ** Wildcard imports *)
Section Wild.
  Context {W : Type}.
  Variable import_module : str -> M W module.
  Definition hidden (y : str) : Prop := nth 1 y 0%N = 95%N.
  Lemma rmap_names md (l vals : list (str * val)) :
    rmap (fun yv => let (y, v) := (yv : str * val) in v <- imported md y v ;; Ok (y, v)) l = Ok vals ->
    map fst vals = map fst l /\ forall y v, In (y, v) l -> exists v', imported md y v = Ok v' /\ In (y, v') vals.
  Proof.
    revert vals. induction l as [|[y v] l IH]; intros vals; cbn [rmap].
    - intros [= <-]. split; [reflexivity|]. intros y v [].
    - destruct (imported md y v) as [v'|e] eqn:Ev; cbn [bind]; [|discriminate].
      destruct (rmap _ l) as [vs|e]; cbn [bind]; [|discriminate]. intros [= <-]. destruct (IH vs eq_refl) as [A B].
      split; [cbn; rewrite A; reflexivity|]. intros y0 v0 [[= <- <-]|H]; [exists v'; split; [exact Ev|left; reflexivity]|].
      destruct (B _ _ H) as (w & Ew & Hw). exists w. split; [exact Ew|right; exact Hw].
  Qed.
  Lemma combine_keys {A B} (l : list A) (l' : list B) : List.length l = List.length l' -> map fst (combine l l') = l.
  Proof. revert l'. induction l as [|x l IH]; intros [|y l'] E; try discriminate; [reflexivity|]. cbn. rewrite IH; [reflexivity|]. cbn in E. lia. Qed.
  Lemma combine_values {A B C} (l : list (A * B)) : forall (xs : list C), List.length xs = List.length l -> forall y v, In (y, v) l -> 
    exists x, In (y, x) (combine (map fst l) xs) /\ In (x, v) (combine xs (map snd l)).
  Proof.
    induction l as [|[y v] l IH]; intros [|x xs] E y0 v0 H; try discriminate; [contradiction|]. cbn in *. destruct H as [[= <- <-]|H].
    - exists x. auto.
    - destruct (IH xs (eq_add_S _ _ E) y0 v0 H) as (x0 & H1 & H2). exists x0. auto.
  Qed.
  Lemma filter_keys {A} (f : str * A -> bool) l : NoDup (map fst l) -> NoDup (map fst (filter f l)).
  Proof.
    induction l as [|[y v] l IH]; [intros _; constructor|]. cbn. intros ND. inversion ND as [|? ? NI ND']; subst.
    destruct (f (y, v)); [|apply IH, ND']. cbn. constructor; [|apply IH, ND']. intros H. apply NI. apply in_map_iff in H. destruct H as ([z w] & <- & H).
    apply filter_In in H. apply in_map_iff. exists (z, w). tauto.
  Qed.
  Lemma slots_length c n k : List.length (slots c n k) = k.
  Proof. unfold slots. rewrite map_length, seq_length. reflexivity. Qed.
  Lemma In_find_rev {V} (l : list (str * V)) y v : NoDup (map fst l) -> In (y, v) l -> find y (rev l) = Some v.
  Proof.
    intros ND H. apply In_find; [|apply in_rev in H; exact H]. rewrite map_rev. apply NoDup_rev, ND.
  Qed.
  Lemma map_combine_slots {A} c n k (names : list A) : List.length names = k -> forall y x, In (y, x) (combine names (seq n k)) ->
    In (y, {| sl_id := x; sl_depth := c_regular c |}) (combine names (slots c n k)).
  Proof.
    revert n k. induction names as [|a names IH]; intros n k <- y x H; [contradiction|]. cbn in *. destruct H as [[= <- <-]|H]; [left; reflexivity|].
    right. apply (IH _ _ eq_refl), H.
  Qed.
  Lemma import_wild path o c m i' c' m' : sound c -> an_import import_module path (IWild o) c m = (Done (i', c'), m') ->
    exists md m1, import_module path m = (Done md, m1) /\ exists l, i' = IWild (Some l) /\ sound c' /\
      (NoDup (map fst (mod_symbols md)) ->
       (forall y, hidden y \/ dget str_eqb y (mod_symbols md) = None -> c_get c' y = c_get c y) /\
       (forall y v, ~ hidden y -> dget str_eqb y (mod_symbols md) = Some v ->
          exists i v', c_get c' y = Some i /\ imported md y v = Ok v' /\ In (sl_id i, v') l) /\
       NoDup (map fst l) /\ (forall x, In x (map fst l) -> m_next m1 <= x)).
  Proof.
    intros I E. unfold an_import in E. apply abind_inv in E. destruct E as (md & c0 & m1 & E1 & E).
    unfold alift, mbind in E1. destruct (import_module path m) as [[md0|e|] m0] eqn:IM; try discriminate. injection E1 as <- <- <-.
    exists md0, m0. split; [reflexivity|]. cbv zeta in E. apply abind_inv in E. destruct E as (vals & c1 & m2 & E1 & E).
    unfold aread, mbind, of_result in E1.
    match type of E1 with context [rmap ?f ?l] => destruct (rmap f l) as [vals0|e] eqn:R; [|discriminate] end. injection E1 as <- <- <-.
    apply abind_inv in E. destruct E as (l & c2 & m3 & E1 & E). apply aret_inv in E. destruct E as (-> & -> & ->).
    destruct (pushes_entries vals0 c m0 I) as (c3 & E2 & I3 & A3 & _). unfold enter_globals in E2. rewrite E2 in E1. injection E1 as <- <- <-.
    eexists. split; [reflexivity|]. split; [exact I3|]. intros ND. destruct (rmap_names _ _ _ R) as [KN KV].
    set (k := List.length vals0) in *. set (n := m_next m0) in *.
    assert (NDV : NoDup (map fst vals0)) by (rewrite KN; apply filter_keys, ND).
    assert (Lc : List.length (map fst vals0) = List.length (slots c n k)) by (rewrite slots_length, map_length; reflexivity).
    assert (NDE : NoDup (map fst (combine (map fst vals0) (slots c n k)))) by (rewrite combine_keys by exact Lc; exact NDV).
    split; [|split; [|split]].
    - intros y H. rewrite !c_get_find by assumption. rewrite A3, find_app.
      replace (find y (rev _)) with (@None sinfo); [reflexivity|]. symmetry. apply find_None. rewrite map_rev. rewrite <- in_rev. rewrite combine_keys by exact Lc.
      rewrite KN. intros Hy. apply in_map_iff in Hy. destruct Hy as ([z v] & <- & Hy). apply filter_In in Hy. destruct Hy as [Hy Hn]. cbn [fst] in *.
      destruct H as [H|H]; [unfold hidden in H; rewrite H in Hn; discriminate|]. apply (dget_nodup str_eqb str_eqb_eq _ _ _ ND) in Hy. congruence.
    - intros y v Hn Hy. assert (Hp : In (y, v) (filter (fun yv => negb (N.eqb (nth 1 (fst yv) 0%N) 95%N)) (mod_symbols md0))).
      { apply filter_In. split; [apply (dget_In str_eqb str_eqb_eq), Hy|]. cbn. unfold hidden in Hn. apply N.eqb_neq in Hn. rewrite Hn. reflexivity. }
      destruct (KV _ _ Hp) as (v' & Ev & Hv').
      destruct (combine_values vals0 (seq n k) (seq_length _ _) y v' Hv') as (x & H1 & H2).
      exists {| sl_id := x; sl_depth := c_regular c |}, v'. split; [|split; [exact Ev|exact H2]].
      rewrite c_get_find by exact I3. rewrite A3, find_app. rewrite (In_find_rev _ _ _ NDE (map_combine_slots c n k (map fst vals0) (map_length _ _) y x H1)). reflexivity.
    - rewrite combine_keys by (rewrite seq_length, map_length; reflexivity). apply seq_NoDup.
    - rewrite combine_keys by (rewrite seq_length, map_length; reflexivity). intros x Hx. apply in_seq in Hx. lia.
  Qed.
End Wild.

(** ** Exports *)
Section Exports.
  Context {W : Type}.
  Variable import_module : str -> M W module.
  Variable context : list (str * val).
  (** the names visible at the end of a script *)
  Definition at_end (globals : list (str * val)) (d : document) (m : mach W) (c : ctx) : Prop :=
    exists ins c0 m0 l m1, enter_globals globals new_ctx m = (Done (ins, c0), m0) /\
      amap (an_item import_module context) d c0 m0 = (Done (l, c), m1).
  Lemma dget_values (f : slot -> option val) (l : list (str * slot)) y : NoDup (map fst l) ->
    dget str_eqb y (flat_map (fun yx => match f (snd yx) with Some v => [(fst yx, v)] | None => [] end) l) =
    match dget str_eqb y l with Some x => f x | None => None end.
  Proof.
    assert (NI : forall (l : list (str * slot)) y, ~ In y (map fst l) -> dget str_eqb y (flat_map (fun yx => match f (snd yx) with Some v => [(fst yx, v)] | None => [] end) l) = None).
    { intros l' z. induction l' as [|[w x] l' IH]; [reflexivity|]. cbn [flat_map fst snd map]. intros H. rewrite dget_app, IH by (cbn in H; tauto).
      destruct (f x); [|reflexivity]. cbn. destruct (str_eqb z w) eqn:E; [|reflexivity]. apply str_eqb_eq in E. subst w. cbn in H. tauto. }
    induction l as [|[z x] l IH]; [reflexivity|]. cbn [map fst]. intros ND. inversion ND as [|? ? N0 ND']; subst. cbn [flat_map fst snd dget]. rewrite dget_app, (IH ND').
    destruct (str_eqb y z) eqn:E.
    - apply str_eqb_eq in E. subst z. destruct (f x) as [v|]; cbn; [rewrite (proj2 (str_eqb_eq y y) eq_refl); reflexivity|].
      rewrite <- (IH ND'). apply NI, N0.
    - destruct (f x) as [v|]; cbn; [rewrite E|]; reflexivity.
  Qed.
  Lemma values_keys (f : slot -> option val) (l : list (str * slot)) : NoDup (map fst l) ->
    NoDup (map fst (flat_map (fun yx => match f (snd yx) with Some v => [(fst yx, v)] | None => [] end) l)) /\
    incl (map fst (flat_map (fun yx => match f (snd yx) with Some v => [(fst yx, v)] | None => [] end) l)) (map fst l).
  Proof.
    induction l as [|[z x] l IH]; [split; [constructor|intros ? []]|]. cbn [map fst]. intros ND. inversion ND as [|? ? N0 ND']; subst.
    destruct (IH ND') as [A B]. cbn [flat_map fst snd]. destruct (f x); cbn.
    - split; [constructor; [intros H; apply N0, B, H|exact A]|]. intros y [<-|H]; [left; reflexivity|right; apply B, H].
    - split; [exact A|]. intros y H. right. apply B, H.
  Qed.
  Variable modules : str -> option (list str).
  Variable J : mach W -> Prop.
  Hypothesis MOD : modules_are import_module modules J.
  Hypothesis ST : steady J.
  Lemma exports_spec (P : prims W) n globals d m root symbols s m' : J m -> Forall no_for_else_item d ->
    translate import_module context P n globals d m = (Done (root, symbols, s), m') ->
    exists c, at_end globals d m c /\ NoDup (map fst symbols) /\ incl (map fst symbols) (flat_map (adds_item modules) d) /\
      (forall y, In y (map fst symbols) \/ In y (flat_map (adds_item modules) d) /\ ~ In y (map fst globals) ->
        exists i, c_get c y = Some i /\ dget str_eqb y symbols = slot_value m' s (sl_id i)).
  Proof.
    intros JM NF T. unfold translate in T. apply bind_done_inv in T. destruct T as (a & m1 & A & T).
    apply bind_done_inv in T. destruct T as (s0 & m2 & S0 & T). injection S0 as <- <-.
    apply bind_done_inv in T. destruct T as ([root0 symbols0] & m3 & T & R). injection R as -> -> <- ->.
    apply an_document_inv in A. destruct A as (ins & c0 & m0 & l & c1 & A0 & A1 & _ & _ & AO).
    unfold tr_document in T. apply bind_done_inv in T. destruct T as (t & m4 & _ & T). apply bind_done_inv in T. destruct T as (nodes & m5 & _ & T).
    apply bind_done_inv in T. destruct T as (rt & m6 & _ & T). injection T as _ <- <-. 
    exists c1. split; [exists ins, c0, m0, l, m1; split; assumption|]. rewrite AO.
    assert (S0 : sound new_ctx) by apply inv_empty.
    assert (D0 := decides_pushes J ST globals false true [] new_ctx m S0 (fun y => iff_refl _) eq_refl eq_refl JM).
    unfold enter_globals in A0. rewrite A0 in D0. destruct D0 as (_ & _ & I0 & V0 & _ & C0 & P0 & J0).
    destruct (an_items_scoped import_module context modules J MOD ST d NF true (map fst globals ++ [])) as (pro' & D).
    specialize (D c0 m0 I0 V0 (f_equal (Nat.leb 1) C0) P0 J0). rewrite A1 in D. destruct D as (_ & _ & I1 & V1 & (ext & X1 & X2) & _).
    destruct (asdict_spec (c_md c1) (List.length (entries c0))) as [ND F].
    assert (FE : firstn (List.length (abs (c_md c1)) - List.length (entries c0)) (abs (c_md c1)) = ext).
    { unfold entries in X1 at 1. rewrite X1, app_length, Nat.add_sub, firstn_app, firstn_all, Nat.sub_diag, firstn_O. apply app_nil_r. }
    rewrite FE in F. clear FE.
    set (outs := md_asdict (List.length (entries c0)) (c_md c1)) in *.
    set (outs' := map (fun yx => (fst yx, sl_id (snd yx))) outs).
    assert (K : map fst outs' = map fst outs) by (unfold outs'; rewrite map_map; reflexivity).
    assert (ND' : NoDup (map fst outs')) by (rewrite K; exact ND).
    assert (G : forall y, dget str_eqb y outs' = option_map sl_id (find y ext)).
    { intros y. rewrite <- F, find_dget. unfold outs'. clear. induction outs as [|[z i] l IH]; [reflexivity|]. cbn. destruct (str_eqb y z); [reflexivity|exact IH]. }
    destruct (values_keys (slot_value m6 (List.length (m_states m1))) outs' ND') as [NV IV].
    assert (KE : forall y, In y (map fst outs') -> In y (map fst ext)).
    { intros y H. rewrite K in H. apply find_names. rewrite <- F. apply find_names, H. }
    split; [exact NV|]. split; [intros y H; apply X2, KE, IV, H|].
    intros y H. assert (HE : In y (map fst ext)).
    { destruct H as [H|[H1 H2]]; [apply KE, IV, H|]. assert (Y : In y (map fst (entries c1))) by (apply V1, in_or_app; left; exact H1).
      rewrite X1, map_app in Y. apply in_app_or in Y. destruct Y as [Y|Y]; [exact Y|]. exfalso. apply H2. apply V0 in Y. rewrite app_nil_r in Y. exact Y. }
    apply find_names in HE. destruct (find y ext) as [i|] eqn:Fy; [|contradiction HE; reflexivity]. exists i.
    split; [rewrite c_get_find by exact I1; rewrite X1, find_app, Fy; reflexivity|].
    rewrite dget_values by exact ND'. rewrite G, Fy. reflexivity.
  Qed.
End Exports.

(** ** Context blocks *)
Section Bound.
  Context {W : Type}.
  Variable import_module : str -> M W module.
  Variable context : list (str * val).
  Lemma pushes_context l : forall g c (m : mach W), bound_by context l = Some g -> exists ins c' m' l',
    enter_globals g c m = (Done (ins, c'), m') /\ amap (an_context context) l c m = (Done (l', c'), m') /\
    forall s, miter (tr_import (W := W) s) l' = miter (set_value s) ins.
  Proof.
    induction l as [|[o|y rn o] l IH]; intros g c m B; cbn [bound_by] in B; [|discriminate|].
    - injection B as <-. exists [], c, m, []. split; [reflexivity|]. split; [reflexivity|reflexivity].
    - destruct (dget str_eqb y context) as [v|] eqn:D; [|discriminate]. destruct (bound_by context l) as [b|]; [|discriminate]. injection B as <-.
      set (z := renamed y rn). change (match rn with Some n => match y with [] => [] | a :: _ => [a] end ++ n | None => y end) with z.
      set (c1 := with_md c (md_push z {| sl_id := m_next m; sl_depth := c_regular c |} (c_md c))).
      destruct (IH b c1 (with_next m (S (m_next m))) eq_refl) as (ins & c' & m' & l' & E1 & E2 & E3).
      exists ((m_next m, v) :: ins), c', m', (IName y rn (Some (m_next m, v)) :: l'). split; [|split].
      + change (enter_globals ((z, v) :: b) c m) with (mbind (enter_globals b c1) (fun r => ret ((m_next m, v) :: fst r, snd r)) (with_next m (S (m_next m)))).
        unfold mbind. rewrite E1. reflexivity.
      + cbn [amap]. unfold abind at 1. unfold mbind at 1. cbn [an_context]. rewrite D. unfold abind at 1. unfold mbind at 1, new_slot, aret at 1, ret at 1.
        cbn [fst snd]. fold z c1. unfold abind at 1. unfold mbind. rewrite E2. reflexivity.
      + intros s. cbn [miter tr_import]. rewrite E3. reflexivity.
  Qed.
  Lemma enter_app g h c (m : mach W) : enter_globals (g ++ h) c m =
    mbind (enter_globals g c) (fun r => mbind (enter_globals h (snd r)) (fun r' => ret (fst r ++ fst r', snd r'))) m.
  Proof.
    revert c m. induction g as [|[y v] g IH]; intros c m.
    - change ([] ++ h) with h. unfold mbind. change (enter_globals [] c m) with (Done (@nil (slot * val), c), m). cbn [fst snd]. destruct (enter_globals h c m) as [[[a b]|e|] m']; reflexivity.
    - set (c1 := with_md c (md_push y {| sl_id := m_next m; sl_depth := c_regular c |} (c_md c))).
      change (enter_globals (((y, v) :: g) ++ h) c m) with (mbind (enter_globals (g ++ h) c1) (fun r => ret ((m_next m, v) :: fst r, snd r)) (with_next m (S (m_next m)))).
      unfold mbind at 1. rewrite IH. unfold mbind at 3.
      change (enter_globals ((y, v) :: g) c m) with (mbind (enter_globals g c1) (fun r => ret ((m_next m, v) :: fst r, snd r)) (with_next m (S (m_next m)))).
      unfold mbind. destruct (enter_globals g c1 _) as [[[a b]|e|] m']; [|reflexivity..]. cbn [fst snd ret].
      destruct (enter_globals h b m') as [[[a' b']|e|] m'']; reflexivity.
  Qed.
  Lemma document_split globals d (m : mach W) : an_document import_module context globals d m =
    mbind (enter_globals globals new_ctx) (fun r => mbind (amap (an_item import_module context) d (snd r)) (fun r' =>
      ret {| d_in := fst r; d_items := fst r';
             d_out := map (fun yx => (fst yx, sl_id (snd yx))) (md_asdict (md_position (c_md (snd r))) (c_md (snd r'))) |})) m.
  Proof.
    unfold an_document. unfold mbind at 1. unfold abind at 1. unfold mbind at 1. fold (enter_globals (W := W) globals). unfold mbind at 1.
    destruct (enter_globals globals new_ctx m) as [[[ins c0]|e|] m0]; [|reflexivity..]. cbn [fst snd].
    unfold abind at 1. unfold mbind at 1, aposition, ret at 1. cbn [fst snd]. unfold abind at 1. unfold mbind.
    destruct (amap _ d c0 m0) as [[[l c1]|e|] m1]; reflexivity.
  Qed.
  Lemma miter_app {A} (f : A -> M W unit) a b m : miter f (a ++ b) m = mbind (miter f a) (fun _ => miter f b) m.
  Proof. revert m. induction a as [|x a IH]; intros m; [reflexivity|]. cbn. unfold mbind. destruct (f x m) as [[u|e|] m1]; [|reflexivity..]. rewrite IH. reflexivity. Qed.
  Lemma context_globals (P : prims W) n globals md l g d m : bound_by context l = Some g ->
    without_symbols (translate import_module context P n globals (NBlock [] md (BContext l) :: d) m) =
    without_symbols (translate import_module context P n (globals ++ g) d m).
  Proof.
    intros B. destruct (pushes_entries globals new_ctx m inv_empty) as (c0 & E0 & I0 & _ & _ & _ & _ & P0).
    set (ins0 := combine _ _) in E0. set (m0 := with_next m _) in E0. destruct (pushes_context l g c0 m0 B) as (ins & c' & m' & l' & E1 & E2 & E3).
    assert (R : enter_globals (globals ++ g) new_ctx m = (Done (ins0 ++ ins, c'), m')).
    { rewrite enter_app. unfold mbind at 1. rewrite E0. cbn [fst snd]. unfold mbind. rewrite E1. reflexivity. }
    assert (L : forall d, amap (an_item import_module context) (NBlock [] md (BContext l) :: d) c0 m0 =
      mbind (amap (an_item import_module context) d c') (fun r => ret (NBlock [] md (BContext l') :: fst r, snd r)) m').
    { intros d0. cbn [amap]. unfold abind at 1. unfold mbind at 1. rewrite item_block. cbn [prolog_block negb]. rewrite andb_false_r. unfold mbind at 1.
      rewrite block_context, P0. cbn [c_prolog new_ctx]. unfold mbind at 1. rewrite E2. reflexivity. }
    assert (AL : exists f1, an_document import_module context globals (NBlock [] md (BContext l) :: d) m =
      mbind (amap (an_item import_module context) d c') (fun r => ret {| d_in := ins0; d_items := NBlock [] md (BContext l') :: fst r; d_out := f1 r |}) m').
    { eexists (fun r => _). rewrite document_split. unfold mbind at 1. rewrite E0. cbn [fst snd]. unfold mbind. rewrite L. unfold mbind.
      destruct (amap (an_item import_module context) d c' m') as [[r|e|] m1]; [|reflexivity..]. reflexivity. }
    assert (AR : exists f2, an_document import_module context (globals ++ g) d m =
      mbind (amap (an_item import_module context) d c') (fun r => ret {| d_in := ins0 ++ ins; d_items := fst r; d_out := f2 r |}) m').
    { eexists (fun r => _). rewrite document_split. unfold mbind at 1. rewrite R. cbn [fst snd]. reflexivity. }
    destruct AL as [f1 AL]. destruct AR as [f2 AR]. unfold translate. unfold mbind at 1. rewrite AL. symmetry. unfold mbind at 1. rewrite AR. symmetry.
    unfold mbind at 1. symmetry. unfold mbind at 1. symmetry. destruct (amap (an_item import_module context) d c' m') as [[[items c1]|e|] m1]; [|reflexivity..].
    cbn [fst snd]. unfold ret at 1. symmetry. unfold ret at 1. symmetry. set (o1 := f1 _). set (o2 := f2 _).
    unfold mbind at 1. symmetry. unfold mbind at 1. symmetry. set (m2 := with_states m1 _). set (s := List.length (m_states m1)).
    set (items' := NBlock [] md (BContext l') :: items).
    assert (T : forall m, mconcat (tr_item P (expand_n P n) n s) items' m = mbind (miter (set_value s) ins) (fun _ => mconcat (tr_item P (expand_n P n) n s) items) m).
    { intros m3. unfold items'. cbn [mconcat]. unfold mbind at 1. cbn [tr_item]. unfold mbind at 1. cbn [tr_static]. unfold ret at 1. cbn [tr_block].
      unfold mbind. rewrite E3. destruct (miter (set_value s) ins m3) as [[u2|e|] m4]; [|reflexivity..]. cbn [ret].
      destruct (mconcat _ items m4) as [[nodes|e|] m5]; reflexivity. }
    unfold tr_document. cbn [d_in d_items d_out]. unfold mbind at 1. unfold mbind at 1. symmetry. unfold mbind at 1. unfold mbind at 1. rewrite miter_app. unfold mbind at 1.
    symmetry. destruct (miter (set_value s) ins0 m2) as [[u1|e|] m3]; [|reflexivity..]. unfold mbind at 1. rewrite T. unfold mbind.
    destruct (miter (set_value s) ins m3) as [[u2|e|] m4]; [|reflexivity..].
    destruct (mconcat _ items m4) as [[nodes|e|] m5]; [|reflexivity..]. destruct (lift_h _ m5) as [[rt|e|] m6]; reflexivity.
  Qed.
End Bound.

(** ** make_context *)
Lemma marked_with mark c n y : (forall n, mark n = c :: n) -> marked mark n = Ok y -> y = with_mark c n.
Proof.
  intros H. destruct n as [|a r]; [discriminate|]. cbn. rewrite orb_comm. destruct (_ || _)%bool; intros [= <-]; [reflexivity|apply H].
Qed.
Lemma mark_all_last mark c l : (forall n, mark n = c :: n) -> forall t, mark_all mark l = Ok t ->
  forall y, dget str_eqb y (rev t) = last_value c y l.
Proof.
  intros H. induction l as [|[n v] l IH]; intros t E y; unfold mark_all in *; cbn [rmap] in E.
  - injection E as <-. reflexivity.
  - destruct (marked mark n) as [z|e] eqn:Z; [|discriminate]. cbn [bind] in E. destruct (rmap _ l) as [t'|e]; [|discriminate]. injection E as <-.
    cbn [rev last_value]. rewrite dget_app, (IH t' eq_refl). destruct (last_value c y l); [reflexivity|]. cbn. rewrite (marked_with _ _ _ _ H Z).
    destruct (str_eqb y (with_mark c n)) eqn:E1; destruct (str_eqb (with_mark c n) y) eqn:E2; try reflexivity.
    + apply str_eqb_eq in E1. rewrite E1, (proj2 (str_eqb_eq _ _) eq_refl) in E2. discriminate.
    + apply str_eqb_eq in E2. rewrite E2, (proj2 (str_eqb_eq _ _) eq_refl) in E1. discriminate.
Qed.
Lemma make_context_value tags vars cx : make_context tags vars = Ok cx -> forall y, dget str_eqb y cx = context_value tags vars y.
Proof.
  unfold make_context. destruct (mark_all TAG tags) as [t|e] eqn:T; [|discriminate]. destruct (mark_all VAR vars) as [v|e] eqn:V; [|discriminate].
  cbn [bind]. intros [= <-] y. rewrite (dget_dupdate str_eqb str_eqb_eq), (dget_dict_of str_eqb str_eqb_eq).
  rewrite (mark_all_last VAR 36%N _ (fun _ => eq_refl) _ V), (mark_all_last TAG 37%N _ (fun _ => eq_refl) _ T). reflexivity.
Qed.
Lemma make_context_total tags vars : (forall n v, In (n, v) (tags ++ vars) -> n <> []) -> exists cx, make_context tags vars = Ok cx.
Proof.
  intros H. assert (M : forall mark l, (forall n v, In (n, v) l -> n <> []) -> exists t, mark_all mark l = Ok t).
  { intros mark l. induction l as [|[n v] l IH]; intros K; [exists []; reflexivity|].
    destruct IH as [t T]; [intros n' v' I; apply (K n' v'); right; exact I|]. destruct n as [|c n]; [exfalso; apply (K [] v); [left; reflexivity|reflexivity]|].
    unfold mark_all in *. cbn [rmap marked bind]. rewrite T. eexists. reflexivity. }
  unfold make_context. destruct (M TAG tags) as [t ->]; [intros n v I; apply (H n v), in_or_app; left; exact I|].
  destruct (M VAR vars) as [v ->]; [intros n w I; apply (H n w), in_or_app; right; exact I|]. eexists. reflexivity.
Qed.

Lemma hidden_iff y : hidden y <-> underscored y.
Proof.
  split.
  - unfold hidden. destruct y as [|a [|b r]]; cbn; intros H; try discriminate. subst b. exists a, r. reflexivity.
  - intros (a & r & ->). reflexivity.
Qed.
Lemma wildcard_spec W (im : str -> M W module) path o c m i' c' m' : sound c ->
  an_import im path (IWild o) c m = (Done (i', c'), m') ->
  exists md m1, im path m = (Done md, m1) /\
    (NoDup (map fst (mod_symbols md)) ->
     (forall y, underscored y \/ dget str_eqb y (mod_symbols md) = None -> c_get c' y = c_get c y) /\
     (forall y v, ~ underscored y -> dget str_eqb y (mod_symbols md) = Some v ->
        exists i v', c_get c' y = Some i /\ imported md y v = Ok v' /\
          forall s mr, s < List.length (m_states mr) -> exists mr', tr_import (W := W) s i' mr = (Done tt, mr') /\ slot_value mr' s (sl_id i) = Some v')).
Proof.
  intros I E. destruct (import_wild im path o c m i' c' m' I E) as (md & m1 & IM & l & -> & I' & H). exists md, m1. split; [exact IM|]. intros ND.
  destruct (H ND) as (H1 & H2 & H3 & _). split.
  - intros y [Hy|Hy]; apply H1; [left; apply hidden_iff, Hy|right; exact Hy].
  - intros y v Hy D. rewrite <- hidden_iff in Hy. destruct (H2 y v Hy D) as (i & v' & G & V & L). exists i, v'. split; [exact G|]. split; [exact V|].
    intros s mr S. destruct (set_values s l mr S) as (mr' & R & _ & _ & K). exists mr'. split; [exact R|]. apply (K H3 _ _ L).
Qed.

(** ** Keyword arguments *)
Lemma clash_none ps (args : list (str * val)) : (forall x v, In (x, v) args -> ~ In x param_names) -> incl ps param_names -> no_clash ps args = Ok tt.
Proof.
  intros H K. unfold no_clash. destruct (existsb _ args) eqn:E0; [|reflexivity]. apply existsb_exists in E0. destruct E0 as ([x v] & Hi & E1).
  apply existsb_exists in E1. destruct E1 as (y & Hy & E1). apply str_eqb_eq in E1. cbn in E1. subst y. destruct (H x v Hi). exact (K x Hy).
Qed.
Lemma clash_free {W B} ps (args : list (str * val)) (k : unit -> M W B) m : (forall x v, In (x, v) args -> ~ In x param_names) -> incl ps param_names ->
  mbind (of_result (no_clash ps args)) k m = k tt m.
Proof. intros H K. rewrite (clash_none ps args H K). reflexivity. Qed.
Lemma own_render : incl render_params param_names.
Proof. intros x. unfold render_params, param_names. cbn [map In]. tauto. Qed.
Lemma own_module : incl module_params param_names.
Proof. intros x. unfold module_params, param_names. cbn [map In]. tauto. Qed.
Lemma own_ast : incl ast_params param_names.
Proof. intros x. unfold ast_params, param_names. cbn [map In]. tauto. Qed.
Definition args_okb (args : list (str * val)) : bool := forallb (fun nv => negb (existsb (str_eqb (fst nv)) param_names)) args.
Lemma args_okb_ok args : args_okb args = true -> forall x v, In (x, v) args -> ~ In x param_names.
Proof.
  unfold args_okb. rewrite forallb_forall. intros H x v Hi K. specialize (H _ Hi). cbn [fst] in H. apply negb_true_iff in H.
  assert (T : existsb (str_eqb x) param_names = true) by (apply existsb_exists; exists x; split; [exact K|apply str_eqb_eq; reflexivity]). congruence.
Qed.
Lemma clash_raises ps (args : list (str * val)) x v : In (x, v) args -> In x ps -> no_clash ps args = Raise TypeError.
Proof.
  intros H K. unfold no_clash. assert (T : existsb (fun nv => existsb (str_eqb (fst nv)) ps) args = true).
  { apply existsb_exists. exists (x, v). split; [exact H|]. apply existsb_exists. exists x. split; [exact K|apply str_eqb_eq; reflexivity]. }
  rewrite T. reflexivity.
Qed.
Lemma names_refused (W : Type) (E : env W) (P : prims W) n k tags args view file package (m : mach W) x v :
  In (x, v) args -> In x param_names -> forall s m', render_script E P n k tags args view file package m <> (Done s, m').
Proof.
  intros H K s m' R. unfold render_script in R. apply bind_done_inv in R. destruct R as (md & m1 & R & _). destruct k as [|k]; [discriminate R|]. cbn [run_script] in R.
  apply bind_done_inv in R. destruct R as ([] & m2 & R1 & R). apply bind_done_inv in R. destruct R as (b & m3 & _ & R). apply bind_done_inv in R. destruct R as ([] & m4 & R2 & R).
  apply bind_done_inv in R. destruct R as (d & m5 & _ & R). apply bind_done_inv in R. destruct R as ([] & m6 & R3 & _).
  assert (C : In x render_params \/ In x module_params \/ In x ast_params).
  { unfold param_names in K. unfold render_params, module_params, ast_params. cbn [map In] in *. tauto. }
  destruct C as [C|[C|C]]; [rewrite (clash_raises _ _ _ _ H C) in R1; discriminate R1|rewrite (clash_raises _ _ _ _ H C) in R2; discriminate R2|rewrite (clash_raises _ _ _ _ H C) in R3; discriminate R3].
Qed.
