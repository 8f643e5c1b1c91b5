(** Consequences for whole blocks and documents: locality, separate name spaces, nothing executed by a
    failing analysis, one slot for a name assigned in a control block. *)
From Coq Require Import List NArith ZArith Bool Arith Lia.
From Verif Require Import PyStr PyStrFacts PyDict Structs StructsSpec StructsFacts Value Dom Ast AstInd Machine Eval Translate Analyse MachineFacts
  ScopeSpec FrameFacts ScopeFacts NamesFacts.
Import ListNotations.

Section Local.
  Context {W : Type}.
  Variable import_module : str -> M W module.
  Variable context : list (str * val).
  Hypothesis IMP : import_fine import_module.

  (** assignments never write to slots of tags *)
  Lemma step_tags c m c' m' ext nd ws z i : step (W := W) c m c' m' ext nd ws -> keyed c m ->
    In (z, i) (entries c) -> (forall n, z <> var_symbol n) -> ~ In (sl_id i) ws.
  Proof.
    intros [I1 A1 R1 C1 H1 P1 N1 D1 E1 J1 F1 S1] [K1 K2] H D X. destruct (S1 _ X) as [L|(n & j & Hj & Dj & Ej)].
    - apply K1 in H. lia.
    - apply (D n). symmetry. apply (K2 _ _ _ _ Hj H Ej).
  Qed.

  (** ** Tagged blocks *)
  Lemma struct_writes c m tags y b' c' m' : sound c -> fit c -> raw_body y ->
    an_block import_module context (BStruct tags y) c m = (Done (b', c'), m') ->
    entries c' = entries c /\ sound c' /\ forall x, In x (writes_block b') -> m_next m <= x < m_next m'.
  Proof.
    intros I F RW E. cbn [an_block] in E.
    apply abind_inv in E. destruct E as (t & c0 & m0 & E0 & E). apply amod_inv in E0. destruct E0 as (-> & ->).
    apply abind_inv in E. destruct E as (p & c1 & m1 & E1 & E). apply aposition_inv in E1. destruct E1 as (-> & -> & ->).
    apply abind_inv in E. destruct E as (tags' & c2 & m2 & E2 & E). apply aread_inv in E2. destruct E2 as (_ & -> & ->).
    apply abind_inv in E. destruct E as (y' & c3 & m3 & E3 & E).
    assert (F' : fit (enter_regular c)) by (intros z i H; apply F in H; cbn; lia).
    destruct (proj1 (proj2 (an_steps import_module context IMP)) y RW _ _ _ _ _ (I : sound (enter_regular c)) F' E3) as (ext & nd & S1).
    destruct (inner_step c m c3 m3 ext nd (writes_body y') c I F (or_introl eq_refl) S1) as [K1 K2].
    apply abind_inv in E. destruct E as (t4 & c4 & m4 & E4 & E). destruct S1 as [I1 A1 R1 C1 H1 P1 N1 D1 G1 J1 F1 S1].
    destruct (areset_inv _ _ _ _ _ ext (entries c) I1 A1 E4) as (-> & I4 & A4 & B1 & B2 & B3 & B4).
    apply abind_inv in E. destruct E as (t5 & c5 & m5 & E5 & E). apply amod_inv in E5. destruct E5 as (-> & ->).
    apply aret_inv in E. destruct E as (-> & -> & ->). split; [exact A4|]. split; [exact I4|]. exact K1.
  Qed.
  Lemma struct_local c m tags y b' c' m' : sound c -> fit c -> keyed c m -> raw_body y ->
    an_block import_module context (BStruct tags y) c m = (Done (b', c'), m') ->
    (forall z, c_get c' z = c_get c z) /\
    forall (P : prims W) n loops s mr o mr' z i s0, c_get c z = Some i -> unwritten (sl_id i) (m_defs mr) ->
      tr_block P (expand_n P n) loops s b' mr = (o, mr') -> o <> Fuel ->
      slot_value mr' s0 (sl_id i) = slot_value mr s0 (sl_id i).
  Proof.
    intros I F K RW E. destruct (struct_writes _ _ _ _ _ _ _ I F RW E) as (E1 & I1 & FR). split.
    - intros z. rewrite (c_get_find c' z I1), (c_get_find c z I), E1. reflexivity.
    - intros P n loops s mr o mr' z i s0 G U T N.
      assert (H : pres (frame s0 (sl_id i)) (tr_block P (expand_n P n) loops s b')).
      { apply (proj1 (frame_all P s0 (sl_id i) n loops)). left. intros X. apply FR in X.
        rewrite (c_get_find c z I) in G. apply find_In in G. apply (proj1 K) in G. lia. }
      apply (H _ _ _ T N U).
  Qed.

  (** ** Documents *)
  Definition old_defs (m : mach W) : Prop := forall h x, In h (m_defs m) -> In x (writes_def h) -> x < m_next m.

  Lemma amap_app_inv {A B} (g : A -> AM (W := W) B) l1 : forall l2 c m r c' m', amap g (l1 ++ l2) c m = (Done (r, c'), m') ->
    exists r1 c1 m1 r2, amap g l1 c m = (Done (r1, c1), m1) /\ amap g l2 c1 m1 = (Done (r2, c'), m') /\ r = r1 ++ r2.
  Proof.
    induction l1 as [|x l1 IH]; intros l2 c m r c' m' E; cbn [app] in E; [exists [], c, m, r; split; [reflexivity|split; [exact E|reflexivity]]|].
    cbn [amap] in E. apply abind_inv in E. destruct E as (y & c1 & m1 & E1 & E). apply abind_inv in E. destruct E as (ys & c2 & m2 & E2 & E).
    apply aret_inv in E. destruct E as (-> & -> & ->). destruct (IH _ _ _ _ _ _ E2) as (r1 & c3 & m3 & r2 & A1 & A2 & ->).
    exists (y :: r1), c3, m3, r2. split; [|split; [exact A2|reflexivity]]. cbn [amap]. unfold abind at 1, mbind at 1. rewrite E1. cbn [fst snd].
    unfold abind at 1, mbind at 1. rewrite A1. reflexivity.
  Qed.
  Lemma items_steps l : Forall raw_item l -> steps_by (W := W) (flat_map writes_item) (amap (an_item import_module context) l).
  Proof. intros H. apply steps_amap. eapply Forall_impl; [|exact H]. intros i. apply (an_steps import_module context IMP). Qed.

  Definition enter_globals (globals : list (str * val)) : AM (W := W) (list (slot * val)) :=
    amap (fun yv => let (y, v) := (yv : str * val) in abind (new_slot y) (fun x => aret (x, v))) globals.
  Lemma globals_steps globals : steps_by (W := W) (flat_map (fun xv : slot * val => [fst xv])) (enter_globals globals).
  Proof.
    apply steps_amap. apply Forall_forall. intros [y v] _ c m [x w] c' m' I F E. apply abind_inv in E. destruct E as (x0 & c1 & m1 & Ex & E).
    apply aret_inv in E. destruct E as ([= -> ->] & -> & ->). eexists _, _. apply (new_slot_step _ _ _ _ _ _ I Ex).
  Qed.
  Lemma an_document_inv globals d m a m' : an_document import_module context globals d m = (Done a, m') ->
    exists ins c0 m0 l c1, enter_globals globals new_ctx m = (Done (ins, c0), m0) /\
      amap (an_item import_module context) d c0 m0 = (Done (l, c1), m') /\ d_in a = ins /\ d_items a = l /\
      d_out a = map (fun yx => (fst yx, sl_id (snd yx))) (md_asdict (List.length (entries c0)) (c_md c1)).
  Proof.
    intros E. apply bind_done_inv in E. destruct E as ([a' c'] & m1 & E & E'). injection E' as <- <-.
    apply abind_inv in E. destruct E as (ins & c0 & m0 & E0 & E). apply abind_inv in E. destruct E as (p & c1 & m2 & E1 & E).
    apply aposition_inv in E1. destruct E1 as (-> & -> & ->). apply abind_inv in E. destruct E as (l & c2 & m3 & E2 & E).
    apply abind_inv in E. destruct E as (outs & c3 & m4 & E3 & E). apply aasdict_inv in E3. destruct E3 as (-> & -> & ->).
    apply aret_inv in E. destruct E as (-> & -> & ->). exists ins, c0, m0, l, c2. cbn. auto.
  Qed.
  Lemma sound_new : sound new_ctx.
  Proof. apply inv_empty. Qed.
  Lemma fit_new : fit new_ctx.
  Proof. intros y i []. Qed.
  Lemma document_contexts globals d1 d2 m a m' : Forall raw_item (d1 ++ d2) -> old_defs m ->
    an_document import_module context globals (d1 ++ d2) m = (Done a, m') ->
    exists ins c0 m0 l1 c1 m1 l2 c2,
      enter_globals globals new_ctx m = (Done (ins, c0), m0) /\
      amap (an_item import_module context) d1 c0 m0 = (Done (l1, c1), m1) /\
      amap (an_item import_module context) d2 c1 m1 = (Done (l2, c2), m') /\ d_items a = l1 ++ l2 /\
      sound c1 /\ fit c1 /\ keyed c1 m1 /\ c_regular c1 = 0 /\ (forall z i, c_get c1 z = Some i -> unwritten (sl_id i) (m_defs m')).
  Proof.
    intros RW OD E. apply an_document_inv in E. destruct E as (ins & c0 & m0 & l & c2 & E0 & E & _ & -> & _).
    destruct (globals_steps globals _ _ _ _ _ sound_new fit_new E0) as (x0 & d0 & S0).
    destruct (amap_app_inv _ _ _ _ _ _ _ _ E) as (l1 & c1 & m1 & l2 & E1 & E2 & ->). apply Forall_app in RW. destruct RW as [RW1 RW2].
    assert (F0 := step_fit _ _ _ _ _ _ _ S0 fit_new).
    destruct (items_steps d1 RW1 _ _ _ _ _ (st_inv _ _ _ _ _ _ _ S0) F0 E1) as (x1 & n1 & S1).
    assert (S01 := step_trans _ _ _ _ _ _ _ _ _ _ _ _ S0 S1).
    assert (F1 := step_fit _ _ _ _ _ _ _ S01 fit_new).
    destruct (items_steps d2 RW2 _ _ _ _ _ (st_inv _ _ _ _ _ _ _ S1) F1 E2) as (x2 & n2 & S2).
    exists ins, c0, m0, l1, c1, m1, l2, c2. do 4 (split; [first [eassumption|reflexivity]|]).
    split; [apply (st_inv _ _ _ _ _ _ _ S1)|]. split; [exact F1|]. split; [apply (keyed_step _ _ _ _ _ _ _ S01 (keyed_empty m))|].
    split; [exact (st_reg _ _ _ _ _ _ _ S01)|].
    intros z i G h Hh Hx. rewrite (c_get_find c1 z (st_inv _ _ _ _ _ _ _ S1)) in G. apply find_In in G.
    rewrite (st_abs _ _ _ _ _ _ _ S01) in G. rewrite app_nil_r in G.
    rewrite (st_defs _ _ _ _ _ _ _ S2), (st_defs _ _ _ _ _ _ _ S01) in Hh. apply in_app_or in Hh. destruct Hh as [Hh|Hh].
    - apply in_app_or in Hh. destruct Hh as [Hh|Hh].
      + specialize (OD _ _ Hh Hx). destruct (st_ext _ _ _ _ _ _ _ S01 _ _ G) as [_ L]. lia.
      + apply (proj2 (st_nd _ _ _ _ _ _ _ S01 _ _ Hh Hx) z i G). reflexivity.
    - destruct (st_nd _ _ _ _ _ _ _ S2 _ _ Hh Hx) as [L _]. destruct (st_ext _ _ _ _ _ _ _ S01 _ _ G) as [_ L']. lia.
  Qed.
  Lemma document_local globals d1 mg md tags y d2 m a m' : Forall raw_item (d1 ++ NBlock mg md (BStruct tags y) :: d2) -> old_defs m ->
    an_document import_module context globals (d1 ++ NBlock mg md (BStruct tags y) :: d2) m = (Done a, m') ->
    exists ins c0 m0 l1 c1 m1 b c2 m2 l2,
      enter_globals globals new_ctx m = (Done (ins, c0), m0) /\
      amap (an_item import_module context) d1 c0 m0 = (Done (l1, c1), m1) /\
      an_item import_module context (NBlock mg md (BStruct tags y)) c1 m1 = (Done (b, c2), m2) /\
      d_items a = l1 ++ b :: l2 /\ (forall z, c_get c2 z = c_get c1 z) /\
      forall (P : prims W) n loops s mr o mr' z i s0, m_defs mr = m_defs m' -> c_get c1 z = Some i ->
        tr_item P (expand_n P n) loops s b mr = (o, mr') -> o <> Fuel ->
        slot_value mr' s0 (sl_id i) = slot_value mr s0 (sl_id i).
  Proof.
    intros RW OD E. destruct (document_contexts _ _ _ _ _ _ RW OD E) as (ins & c0 & m0 & l1 & c1 & m1 & l2 & c2 & E0 & E1 & E2 & EI & I & F & K & RZ & U).
    cbn [amap] in E2. apply abind_inv in E2. destruct E2 as (b & c3 & m3 & E2 & E3). apply abind_inv in E3. destruct E3 as (bs & c4 & m4 & E3 & E4).
    apply aret_inv in E4. destruct E4 as (-> & -> & ->). exists ins, c0, m0, l1, c1, m1, b, c3, m3, bs.
    do 4 (split; [first [eassumption|reflexivity]|]). assert (EB := E2). cbn [an_item] in EB. apply abind_inv in EB. destruct EB as (t & c5 & m5 & E5 & EB).
    apply amod_inv in E5. destruct E5 as (-> & ->). apply abind_inv in EB. destruct EB as (b1 & c6 & m6 & E6 & EB).
    apply aret_inv in EB. destruct EB as (-> & -> & ->).
    assert (RB : raw_body y) by (apply Forall_app in RW; destruct RW as [_ RW]; inversion RW; assumption).
    set (c' := if c_prolog c1 && negb (prolog_block (BStruct tags y)) then end_prolog c1 else c1) in E6.
    assert (SM : c_md c' = c_md c1 /\ c_regular c' = c_regular c1) by (unfold c'; destruct (c_prolog c1 && _); split; reflexivity).
    destruct SM as [SM SR].
    assert (I' : sound c') by (unfold sound; rewrite SM; exact I).
    assert (F' : fit c') by (unfold fit, entries; rewrite SM, SR; exact F).
    assert (K' : keyed c' m1) by (unfold keyed, entries; rewrite SM; exact K).
    assert (G' : forall z, c_get c' z = c_get c1 z) by (intros z; unfold c_get; rewrite SM; reflexivity).
    destruct (struct_local c' m1 tags y b1 c6 m6 I' F' K' RB E6) as [L1 L2]. split; [intros z; rewrite L1; apply G'|].
    intros P n loops s mr o mr' z i s0 D G T N.
    assert (H : pres (frame s0 (sl_id i)) (tr_item P (expand_n P n) loops s (NBlock mg md b1))).
    { apply (proj2 (proj2 (frame_all P s0 (sl_id i) n loops))). left. intros X.
      destruct (struct_writes _ _ _ _ _ _ _ I' F' RB E6) as (_ & _ & FR). apply FR in X.
      rewrite (c_get_find c1 z I) in G. apply find_In in G. apply (proj1 K) in G. lia. }
    specialize (H _ _ _ T N). apply H. rewrite D. apply (U z), G.
  Qed.

  (** ** Tags and variables *)
  Lemma tags_kept c m b b' c' m' : sound c -> fit c -> keyed c m -> raw_block b ->
    an_block import_module context b c m = (Done (b', c'), m') ->
    forall (P : prims W) n loops s mr o mr' k i s0, c_get c (tag_symbol k) = Some i -> unwritten (sl_id i) (m_defs mr) ->
      tr_block P (expand_n P n) loops s b' mr = (o, mr') -> o <> Fuel ->
      slot_value mr' s0 (sl_id i) = slot_value mr s0 (sl_id i).
  Proof.
    intros I F K RW E P n loops s mr o mr' k i s0 G U T N.
    destruct (proj1 (an_steps import_module context IMP) b RW _ _ _ _ _ I F E) as (ext & nd & S1).
    assert (H : pres (frame s0 (sl_id i)) (tr_block P (expand_n P n) loops s b')).
    { apply (proj1 (frame_all P s0 (sl_id i) n loops)). left. rewrite (c_get_find c _ I) in G. apply find_In in G.
      apply (step_tags _ _ _ _ _ _ _ _ _ S1 K G). intros q Q. discriminate. }
    apply (H _ _ _ T N U).
  Qed.
  Lemma variables_kept c m d n ab ar y b' c' m' : sound c -> fit c -> keyed c m -> raw_body y ->
    an_block import_module context (BDef d n ab ar y) c m = (Done (b', c'), m') ->
    forall (P : prims W) expand loops s mr o mr' z i s0, c_get c z = Some i ->
      tr_block P expand loops s b' mr = (o, mr') ->
      slot_value mr' s0 (sl_id i) = slot_value mr s0 (sl_id i).
  Proof.
    intros I F K RW E P expand loops s mr o mr' z i s0 G T. cbn [an_block] in E.
    apply abind_inv in E. destruct E as (t0 & c0 & m0 & E0 & E). apply aread_inv in E0. destruct E0 as (_ & -> & ->).
    apply abind_inv in E. destruct E as (t1 & c0 & m0 & E0 & E). apply amod_inv in E0. destruct E0 as (-> & ->).
    apply abind_inv in E. destruct E as (t2 & c0 & m0 & E0 & E). apply amod_inv in E0. destruct E0 as (-> & ->).
    apply abind_inv in E. destruct E as (p & c1 & m1 & E1 & E). apply aposition_inv in E1. destruct E1 as (-> & -> & ->).
    apply abind_inv in E. destruct E as (dfl & c1 & m1 & E1 & E). apply aread_inv in E1. destruct E1 as (_ & -> & ->).
    set (k := Ctx (c_md c) (c_regular c) (c_control c) (S (c_hyper c)) (c_prolog c)) in *.
    change (enter_hyper (enter_regular c)) with (enter_regular k) in *.
    assert (F' : fit (enter_regular k)) by (intros w j H; apply F in H; cbn; lia).
    assert (I' : sound (enter_regular k)) by exact I.
    apply abind_inv in E. destruct E as (ab' & c2 & m2 & E2 & E).
    assert (S2 : exists e2 d2 w2, step (enter_regular k) m c2 m2 e2 d2 w2).
    { destruct ab as [[bn bx]|].
      - apply abind_inv in E2. destruct E2 as (x & c2' & m2' & E2 & E2'). apply aret_inv in E2'. destruct E2' as (-> & -> & ->).
        eexists _, _, _. apply (new_slot2_step _ _ _ _ _ _ I' E2).
      - apply aret_inv in E2. destruct E2 as (-> & -> & ->). exists [], [], []. apply step_refl, I'. }
    destruct S2 as (e2 & d2 & w2 & S2).
    apply abind_inv in E. destruct E as (regul & c3 & m3 & E3 & E).
    destruct (attrs_steps dfl _ _ _ _ _ (st_inv _ _ _ _ _ _ _ S2) (step_fit _ _ _ _ _ _ _ S2 F') E3) as (e3 & d3 & S3).
    assert (S23 := step_trans _ _ _ _ _ _ _ _ _ _ _ _ S2 S3).
    apply abind_inv in E. destruct E as (y' & c4 & m4 & E4 & E).
    destruct (proj1 (proj2 (an_steps import_module context IMP)) y RW _ _ _ _ _ (st_inv _ _ _ _ _ _ _ S23) (step_fit _ _ _ _ _ _ _ S23 F') E4) as (e4 & d4 & S4).
    assert (S1 := step_trans _ _ _ _ _ _ _ _ _ _ _ _ S23 S4).
    apply abind_inv in E. destruct E as (t5 & c5 & m5 & E5 & E).
    destruct (areset_inv _ _ _ _ _ _ (entries c) (st_inv _ _ _ _ _ _ _ S1) (st_abs _ _ _ _ _ _ _ S1) E5) as (-> & _).
    apply abind_inv in E. destruct E as (t6 & c6 & m6 & E6 & E). apply amod_inv in E6. destruct E6 as (-> & ->).
    apply abind_inv in E. destruct E as (t7 & c7 & m7 & E7 & E). apply amod_inv in E7. destruct E7 as (-> & ->).
    apply abind_inv in E. destruct E as (dn & c8 & m8 & E8 & E). injection E8 as <- <- <-.
    apply abind_inv in E. destruct E as (x & c9 & m9 & E9 & E). apply aret_inv in E. destruct E as (-> & -> & ->). cbn [tr_block] in T.
    injection E9 as <- <- <-. cbn [m_next with_defs] in T. unfold mbind, set_slot, ret in T. injection T as <- <-.
    apply slot_put. left. cbn [s_vals]. rewrite (dget_dset Nat.eqb Nat.eqb_eq).
    destruct (Nat.eqb_spec (sl_id i) (m_next m4)) as [Q|]; [|reflexivity].
    rewrite (c_get_find c z I) in G. apply find_In in G. apply (proj1 K) in G. assert (L := st_next _ _ _ _ _ _ _ S1). lia.
  Qed.
End Local.

(** ** Names other than those a block adds *)
Section Symbols.
  Context {W : Type}.
  Variable import_module : str -> M W module.
  Variable context : list (str * val).
  Variable modules : str -> option (list str).
  Variable J : mach W -> Prop.
  Hypothesis MOD : modules_are import_module modules J.
  Hypothesis ST : steady J.

  Lemma symbols_kept c m b b' c' m' : J m -> sound c -> no_for_else b -> (only_prolog b = false -> c_prolog c = false) ->
    an_block import_module context b c m = (Done (b', c'), m') ->
    forall z, ~ In z (adds modules b) -> c_get c' z = c_get c z.
  Proof.
    intros JM I NF PF E z Z.
    assert (D := proj1 (an_scoped import_module context modules J MOD ST) b NF (Nat.leb 1 (c_control c)) (c_prolog c) (map fst (entries c)) PF
                   c m I (fun y => iff_refl _) eq_refl eq_refl JM).
    rewrite E in D. destruct D as (_ & _ & I' & _ & (ext & A & Inc) & _).
    rewrite (c_get_find c' z I'), (c_get_find c z I), A, find_app. destruct (find z ext) as [i|] eqn:G; [|reflexivity].
    apply find_In in G. apply (in_map fst) in G. apply Inc in G. contradiction.
  Qed.
End Symbols.

(** ** What analysis never changes, provided that imports do not change it *)
Section Along.
  Context {W : Type}.
  Variable R : mach W -> mach W -> Prop.
  Hypothesis R_refl : forall m, R m m.
  Hypothesis R_trans : forall a b c, R a b -> R b c -> R a c.
  Hypothesis R_next : forall m k, R m (with_next m k).
  Hypothesis R_defs : forall m k, R m (with_defs m k).
  Variable import_module : str -> M W module.
  Variable context : list (str * val).
  Hypothesis IMPR : forall p, pres R (import_module p).

  Definition quiet {A} (x : AM (W := W) A) : Prop := forall c, pres R (x c).
  Lemma quiet_bind {A B} (x : AM A) (f : A -> AM B) : quiet x -> (forall a, quiet (f a)) -> quiet (abind x f).
  Proof. intros X F c. apply (pres_bind R R_trans); [apply X|]. intros [a c1]. apply F. Qed.
  Lemma quiet_ret {A} (a : A) : quiet (aret a).
  Proof. intros c. apply pres_ret, R_refl. Qed.
  Lemma quiet_read {A} (f : ctx -> result A) : quiet (aread f).
  Proof. intros c. apply (pres_bind R R_trans); [apply pres_of_result, R_refl|]. intros a. apply pres_ret, R_refl. Qed.
  Lemma quiet_mod f : quiet (amod f).
  Proof. intros c. apply pres_ret, R_refl. Qed.
  Lemma quiet_map {A B} (g : A -> AM B) l : Forall (fun x => quiet (g x)) l -> quiet (amap g l).
  Proof.
    intros H. induction H as [|x l Hx _ IH]; [apply quiet_ret|]. cbn [amap]. apply quiet_bind; [exact Hx|]. intros y.
    apply quiet_bind; [exact IH|]. intros ys. apply quiet_ret.
  Qed.
  Lemma quiet_slot y : quiet (new_slot y).
  Proof. intros c m o m' [= <- <-] _. apply R_next. Qed.
  Lemma quiet_slot2 y : quiet (new_slot2 y).
  Proof. apply quiet_bind; [apply quiet_slot|]. intros x c. apply pres_ret, R_refl. Qed.
  Lemma quiet_position : quiet aposition.
  Proof. intros c. apply pres_ret, R_refl. Qed.
  Lemma quiet_asdict p : quiet (aasdict p).
  Proof. intros c. apply pres_ret, R_refl. Qed.
  Lemma quiet_reset p : quiet (areset p).
  Proof. intros c. apply (pres_bind R R_trans); [apply pres_of_result, R_refl|]. intros d. apply pres_ret, R_refl. Qed.
  Lemma quiet_def h : quiet (new_def h).
  Proof. intros c m o m' [= <- <-] _. apply R_defs. Qed.
  Lemma quiet_target t : quiet (an_target t).
  Proof.
    induction t as [n rd r w|l IH] using target_ind'; cbn [an_target].
    - apply quiet_bind; [apply quiet_read|]. intros r'. apply quiet_bind; [|intros w'; apply quiet_ret]. intros c.
      destruct (c_get c (VAR n)) as [i|]; [destruct (Nat.eqb _ _); [apply pres_ret, R_refl|]|]; apply quiet_slot2.
    - apply quiet_bind; [apply quiet_map, IH|]. intros l'. apply quiet_ret.
  Qed.
  Lemma quiet_branch {A} (x : AM A) : quiet x -> quiet (branch x).
  Proof.
    intros X. unfold branch. apply quiet_bind; [apply quiet_position|]. intros p. apply quiet_bind; [exact X|]. intros a.
    apply quiet_bind; [apply quiet_asdict|]. intros d. apply quiet_bind; [apply quiet_reset|]. intros _. apply quiet_bind; [apply quiet_mod|]. intros _. apply quiet_ret.
  Qed.
  Lemma quiet_control {A} (x : AM A) : quiet x -> quiet (control x).
  Proof.
    intros X. unfold control. apply quiet_bind; [apply quiet_mod|]. intros p. apply quiet_bind; [exact X|]. intros a.
    apply quiet_bind; [apply quiet_mod|]. intros _. apply quiet_ret.
  Qed.
  Lemma quiet_import p i : quiet (an_import import_module p i).
  Proof.
    unfold an_import. apply quiet_bind.
    - intros c. apply (pres_bind R R_trans); [apply IMPR|]. intros a. apply pres_ret, R_refl.
    - intros md. destruct i as [sl|y rn sl].
      + apply quiet_bind; [apply quiet_read|]. intros vs. apply quiet_bind; [|intros l; apply quiet_ret]. apply quiet_map, Forall_forall.
        intros [y v] _. apply quiet_bind; [apply quiet_slot|]. intros x. apply quiet_ret.
      + destruct (dget str_eqb y (mod_symbols md)); [|apply quiet_read]. apply quiet_bind; [apply quiet_read|]. intros w.
        apply quiet_bind; [apply quiet_slot|]. intros x. apply quiet_ret.
  Qed.
  Lemma quiet_context i : quiet (an_context context i).
  Proof.
    destruct i as [sl|y rn sl]; [apply quiet_read|]. cbn [an_context]. destruct (dget str_eqb y context); [|apply quiet_read].
    apply quiet_bind; [apply quiet_slot|]. intros x. apply quiet_ret.
  Qed.
  Ltac qb := apply quiet_bind; [first [apply quiet_read|apply quiet_mod|apply quiet_position|apply quiet_reset|apply quiet_def|apply quiet_slot|apply quiet_slot2|apply quiet_target]|intros ?].
  Lemma quiet_all :
    (forall b, quiet (an_block import_module context b)) /\ (forall y, quiet (an_body import_module context y)) /\
    (forall i, quiet (an_item import_module context i)).
  Proof.
    assert (OPT : forall o, on_opt (fun y => quiet (an_body import_module context y)) o ->
      quiet (match o with Some y => abind (an_body import_module context y) (fun y => aret (Some y)) | None => aret None end)).
    { intros [y|] H; [|apply quiet_ret]. apply quiet_bind; [exact H|]. intros a. apply quiet_ret. }
    assert (OPTB : forall o, on_opt (fun y => quiet (an_body import_module context y)) o ->
      quiet (match o with Some y => abind (branch (an_body import_module context y)) (fun y => aret (Some y)) | None => aret None end)).
    { intros [y|] H; [|apply quiet_ret]. apply quiet_bind; [apply quiet_branch, H|]. intros a. apply quiet_ret. }
    assert (CL : forall t (o : option body), on_opt (fun y => quiet (an_body import_module context y)) o ->
      quiet (branch (abind (aread (fun c => an_expr c t)) (fun t =>
        abind (match o with Some y => abind (an_body import_module context y) (fun y => aret (Some y)) | None => aret None end) (fun y => aret (t, y)))))).
    { intros t o H. apply quiet_branch. qb. apply quiet_bind; [apply OPT, H|]. intros y. apply quiet_ret. }
    apply block_body_item_ind; intros; cbn [an_block an_body an_item].
    - qb. apply quiet_ret.
    - apply quiet_ret.
    - qb. apply quiet_ret.
    - qb. qb. qb. apply quiet_bind; [assumption|]. intros y'. qb. qb. apply quiet_ret.
    - qb. qb. qb. qb. qb. apply quiet_bind.
      { destruct ab as [[bn bx]|]; [qb|]; apply quiet_ret. }
      intros ab'. apply quiet_bind.
      { apply quiet_map, Forall_forall. intros x _. qb. apply quiet_ret. }
      intros regul. apply quiet_bind; [assumption|]. intros y'. qb. qb. qb. qb. qb. apply quiet_ret.
    - qb. apply quiet_bind; [|intros l'; apply quiet_ret]. apply quiet_map, Forall_forall. intros i _. apply quiet_import.
    - qb. apply quiet_bind; [|intros l'; apply quiet_ret]. apply quiet_map, Forall_forall. intros i _. apply quiet_context.
    - apply quiet_bind; [|intros l'; apply quiet_ret]. apply quiet_control, quiet_map. eapply Forall_impl; [|eassumption]. intros y Hy. apply quiet_branch, Hy.
    - apply quiet_bind; [|intros l'; apply quiet_ret]. apply quiet_control. apply quiet_bind.
      + apply quiet_map. eapply Forall_impl; [|eassumption]. intros [t y] Hy. apply CL, Hy.
      + intros cs. apply quiet_bind; [apply OPTB; assumption|]. intros e. apply quiet_ret.
    - apply quiet_bind; [|intros l'; apply quiet_ret]. apply quiet_control. apply quiet_bind; [apply CL; assumption|].
      intros ty. apply quiet_bind; [apply OPTB; assumption|]. intros e. apply quiet_ret.
    - apply quiet_bind.
      + apply quiet_control. qb. qb. destruct y as [y|].
        * apply quiet_bind; [assumption|]. intros y'. apply quiet_ret.
        * destruct els as [z|]; [|apply quiet_ret]. apply quiet_bind; [assumption|]. intros y'. apply quiet_ret.
      + intros [[[e' ts'] y'] els']. apply quiet_ret.
    - qb. apply quiet_ret.
    - qb. qb. apply quiet_ret.
    - apply quiet_ret.
    - apply quiet_bind; [apply quiet_map; assumption|]. intros l'. apply quiet_ret.
    - apply quiet_bind; [assumption|]. intros l'. apply quiet_ret.
    - destruct o as [y|]; [|apply quiet_ret]. apply quiet_bind; [assumption|]. intros l'. apply quiet_ret.
    - qb. apply quiet_ret.
    - apply quiet_ret.
    - apply quiet_ret.
    - apply quiet_ret.
    - qb. apply quiet_bind; [assumption|]. intros l'. apply quiet_ret.
  Qed.
  Lemma along_document globals d : pres R (an_document import_module context globals d).
  Proof.
    apply (pres_bind R R_trans); [|intros a; apply pres_ret, R_refl].
    assert (Q : quiet (abind (amap (fun yv => let (y, v) := (yv : str * val) in abind (new_slot y) (fun x => aret (x, v))) globals) (fun ins =>
      abind aposition (fun p => abind (amap (an_item import_module context) d) (fun l => abind (aasdict p) (fun outs =>
        aret {| d_in := ins; d_items := l; d_out := map (fun yx => (fst yx, sl_id (snd yx))) outs |})))))); [|apply Q].
    apply quiet_bind; [apply quiet_map, Forall_forall; intros [y v] _; qb; apply quiet_ret|]. intros ins. qb. apply quiet_bind.
    - apply quiet_map, Forall_forall. intros i _. apply quiet_all.
    - intros l. apply quiet_bind; [apply quiet_asdict|]. intros outs. apply quiet_ret.
  Qed.
End Along.

(** ** Nothing is executed during analysis *)
Section Quiet.
  Context {W : Type}.
  Definition idle (m m' : mach W) : Prop := m_heap m' = m_heap m /\ m_states m' = m_states m /\ m_world m' = m_world m.
  Variable import_module : str -> M W module.
  Variable context : list (str * val).
  Hypothesis IDLE : forall p, pres idle (import_module p).

  Lemma idle_refl m : idle m m.
  Proof. repeat split. Qed.
  Lemma idle_trans a b c : idle a b -> idle b c -> idle a c.
  Proof. intros (A1 & A2 & A3) (B1 & B2 & B3). repeat split; congruence. Qed.
  Lemma quiet_document globals d : pres idle (an_document import_module context globals d).
  Proof. apply (along_document idle idle_refl idle_trans); [intros m k; repeat split|intros m k; repeat split|exact IDLE]. Qed.
End Quiet.

Section Undefined.
  Context {W : Type}.
  Variable import_module : str -> M W module.
  Variable context : list (str * val).
  Lemma document_imports globals d : pres (imports_only import_module) (an_document import_module context globals d).
  Proof.
    apply (along_document (imports_only import_module)).
    - intros m. apply io_none.
    - intros a b c H K. induction K as [m|m m1 k _ IH|m m1 l _ IH|m m1 m2 p o _ IH E N]; [exact H|apply io_next, IH, H|apply io_defs, IH, H|].
      eapply io_import; [apply IH, H|exact E|exact N].
    - intros m k. apply io_next, io_none.
    - intros m l. apply io_defs, io_none.
    - intros p m o m' E N. eapply io_import; [apply io_none|exact E|exact N].
  Qed.
  Variable modules : str -> option (list str).
  Variable J : mach W -> Prop.
  Hypothesis MOD : modules_are import_module modules J.
  Hypothesis ST : steady J.
  Lemma undefined_static (P : prims W) n globals d m : J m -> Forall no_for_else_item d ->
    ~ scoped_items modules (map fst context) true (map fst globals) d ->
    exists e m', translate import_module context P n globals d m = (Exc e, m') /\
      an_document import_module context globals d m = (Exc e, m').
  Proof.
    intros JM NF NS. assert (H := an_document_scoped import_module context modules J MOD ST globals d m JM NF).
    unfold translate, mbind at 1. destruct (an_document import_module context globals d m) as [[a|e|] m'] eqn:E; [tauto| |contradiction].
    exists e, m'. split; reflexivity.
  Qed.
  Lemma undefined_imports (P : prims W) n globals d m : J m -> Forall no_for_else_item d ->
    ~ scoped_items modules (map fst context) true (map fst globals) d ->
    exists e m', translate import_module context P n globals d m = (Exc e, m') /\ imports_only import_module m m'.
  Proof.
    intros JM NF NS. destruct (undefined_static P n globals d m JM NF NS) as (e & m' & T & D). exists e, m'. split; [exact T|].
    apply (document_imports globals d m (Exc e) m' D). discriminate.
  Qed.
  Lemma undefined_idle (P : prims W) n globals d m : (forall p, pres idle (import_module p)) -> J m -> Forall no_for_else_item d ->
    ~ scoped_items modules (map fst context) true (map fst globals) d ->
    exists e m', translate import_module context P n globals d m = (Exc e, m') /\ idle m m'.
  Proof.
    intros IDLE JM NF NS. destruct (undefined_static P n globals d m JM NF NS) as (e & m' & T & D). exists e, m'. split; [exact T|].
    apply (quiet_document import_module context IDLE globals d m (Exc e) m' D). discriminate.
  Qed.
End Undefined.

Lemma no_tag_added ts k : ~ In (tag_symbol k) (adds_target ts).
Proof.
  induction ts as [n rd r w|l IH] using target_ind'; cbn.
  - intros [Q|[]]. discriminate.
  - intros H. apply in_flat_map in H. destruct H as (t & Ht & H). rewrite Forall_forall in IH. apply (IH t Ht H).
Qed.

Lemma marks_differ n k : TAG n <> VAR k /\ TAG n = tag_symbol n /\ VAR k = var_symbol k.
Proof. split; [|split; reflexivity]. change (tag_symbol n <> var_symbol k). discriminate. Qed.
Lemma no_variable_added (modules : str -> option (list str)) d n ab ar y k : ~ In (var_symbol k) (adds modules (BDef d n ab ar y)).
Proof. intros [Q|[]]. discriminate. Qed.
