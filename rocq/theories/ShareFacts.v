(** Variables assigned in control blocks: one slot for all assignments to a name, the one seen after the
    block. *)
From Coq Require Import List NArith ZArith Bool Arith Lia.
From Verif Require Import PyStr PyStrFacts PyDict Structs StructsSpec StructsFacts Value Dom Ast AstInd Machine Eval Translate Analyse MachineFacts
  ScopeSpec FrameFacts ScopeFacts NamesFacts LocalFacts.
Import ListNotations.

Lemma binds_writes :
  (forall b, incl (map snd (binds b)) (writes_block b)) /\ (forall y, incl (map snd (binds_body y)) (writes_body y)) /\
  (forall i, incl (map snd (binds_item i)) (writes_item i)).
Proof.
  assert (T : forall t, incl (map snd (binds_target t)) (writes_target t)).
  { induction t as [n rd r w|l IH] using target_ind'; cbn.
    - destruct w; cbn; apply incl_refl.
    - intros x H. apply in_map_iff in H. destruct H as ([n y] & <- & H). apply in_flat_map in H. destruct H as (t & Ht & H).
      apply in_flat_map. exists t. split; [exact Ht|]. rewrite Forall_forall in IH. apply (IH t Ht). apply (in_map snd) in H. exact H. }
  assert (FM : forall A (f : A -> list (str * slot)) (g : A -> list slot) l, Forall (fun x => incl (map snd (f x)) (g x)) l -> incl (map snd (flat_map f l)) (flat_map g l)).
  { intros A f g l H x Hx. apply in_map_iff in Hx. destruct Hx as ([n y] & <- & Hx). apply in_flat_map in Hx. destruct Hx as (t & Ht & Hx).
    apply in_flat_map. exists t. split; [exact Ht|]. rewrite Forall_forall in H. apply (H t Ht). apply (in_map snd) in Hx. exact Hx. }
  assert (AP : forall (a b : list (str * slot)) c d, incl (map snd a) c -> incl (map snd b) d -> incl (map snd (a ++ b)) (c ++ d)).
  { intros a b c d H1 H2. rewrite map_app. apply incl_app; [apply incl_appl, H1|apply incl_appr, H2]. }
  assert (OP : forall o : option body, on_opt (fun y => incl (map snd (binds_body y)) (writes_body y)) o ->
     incl (map snd (match o with Some y => binds_body y | None => [] end)) (match o with Some y => writes_body y | None => [] end)).
  { intros [y|] H; [exact H|intros x []]. }
  apply block_body_item_ind; intros; cbn [binds binds_body binds_item writes_block writes_body writes_item map]; try (intros x []).
  - apply FM. assumption.
  - apply AP; [|apply OP; assumption]. apply FM. eapply Forall_impl; [|eassumption]. intros cy. apply OP.
  - apply AP; apply OP; assumption.
  - apply AP; [apply T|]. apply AP; apply OP; assumption.
  - apply T.
  - apply FM. assumption.
  - assumption.
  - destruct o as [y|]; [assumption|intros x []].
  - assumption.
Qed.

Section Share.
  Context {W : Type}.
  Variable import_module : str -> M W module.
  Variable context : list (str * val).
  Hypothesis IMP : import_fine import_module.
  Variable n : str.

  (** the variable, if there is one, belongs to the current block *)
  Definition settled (c : ctx) : Prop := forall i, c_get c (var_symbol n) = Some i -> sl_depth i = c_regular c.
  Definition live (c : ctx) : Prop := sound c /\ fit c /\ 1 <= c_control c /\ c_prolog c = false /\ settled c.
  Definition agree (c c' : ctx) (l : list (str * slot)) : Prop :=
    (exists ext, entries c' = ext ++ entries c) /\ c_regular c' = c_regular c /\ c_control c' = c_control c /\
    (forall i, c_get c (var_symbol n) = Some i -> c_get c' (var_symbol n) = Some i) /\
    (forall x, In (n, x) l -> exists i, c_get c' (var_symbol n) = Some i /\ sl_id i = x).
  Lemma agree_refl c : agree c c [].
  Proof. split; [exists []; reflexivity|]. repeat split; auto. intros x []. Qed.
  Lemma agree_trans c c1 c2 l1 l2 : agree c c1 l1 -> agree c1 c2 l2 -> agree c c2 (l1 ++ l2).
  Proof.
    intros ((e1 & A1) & R1 & C1 & K1 & B1) ((e2 & A2) & R2 & C2 & K2 & B2). split; [exists (e2 ++ e1); rewrite A2, A1, app_assoc; reflexivity|].
    split; [congruence|]. split; [congruence|]. split; [auto|]. intros x H. apply in_app_or in H. destruct H as [H|H]; [|apply B2, H].
    destruct (B1 _ H) as (i & G & X). exists i. split; [apply K2, G|exact X].
  Qed.
  Definition joins {A} (f : A -> list (str * slot)) (x : AM (W := W) A) : Prop :=
    forall c m a c' m', live c -> x c m = (Done (a, c'), m') -> agree c c' (f a) /\ live c'.

  Lemma live_step c m c' m' e d w : step (W := W) c m c' m' e d w -> live c -> agree c c' [] -> live c'.
  Proof.
    intros S1 (I & F & C & P & H) (_ & _ & _ & K & _). split; [apply (st_inv _ _ _ _ _ _ _ S1)|]. split; [apply (step_fit _ _ _ _ _ _ _ S1 F)|].
    split; [rewrite (st_ctl _ _ _ _ _ _ _ S1); exact C|]. split.
    - destruct (c_prolog c') eqn:Q; [|reflexivity]. rewrite <- P. symmetry. apply (st_pro _ _ _ _ _ _ _ S1 Q).
    - intros i G. rewrite (st_reg _ _ _ _ _ _ _ S1). destruct (c_get c (var_symbol n)) as [j|] eqn:E.
      + rewrite (K j eq_refl) in G. injection G as <-. apply H, E.
      + rewrite (c_get_find c _ I) in E. rewrite (c_get_find c' _ (st_inv _ _ _ _ _ _ _ S1)), (st_abs _ _ _ _ _ _ _ S1), find_app, E in G.
        destruct (find (var_symbol n) e) as [k|] eqn:Q; [|discriminate]. injection G as <-. apply find_In in Q.
        apply (st_ext _ _ _ _ _ _ _ S1 _ _ Q).
  Qed.
  Lemma agree_nil c c' l : agree c c' l -> agree c c' [].
  Proof. intros (A1 & A2 & A3 & A4 & _). do 4 (split; [assumption|]). intros x []. Qed.
  Lemma joins_ret {A} (f : A -> list (str * slot)) a : f a = [] -> joins f (aret a).
  Proof. intros E c m b c' m' L H. apply aret_inv in H. destruct H as (-> & -> & ->). rewrite E. split; [apply agree_refl|exact L]. Qed.
  Lemma joins_map {A B} (f : B -> list (str * slot)) (g : A -> AM B) l : Forall (fun x => joins f (g x)) l -> joins (flat_map f) (amap g l).
  Proof.
    intros H. induction H as [|x l Hx _ IH]; [apply joins_ret; reflexivity|]. intros c m r c' m' L E. cbn [amap] in E.
    apply abind_inv in E. destruct E as (y & c1 & m1 & E1 & E). apply abind_inv in E. destruct E as (ys & c2 & m2 & E2 & E).
    apply aret_inv in E. destruct E as (-> & -> & ->). destruct (Hx _ _ _ _ _ L E1) as [A1 L1]. destruct (IH _ _ _ _ _ L1 E2) as [A2 L2].
    split; [apply (agree_trans _ _ _ _ _ A1 A2)|exact L2].
  Qed.
  Lemma joins_target t : joins binds_target (an_target t).
  Proof.
    induction t as [k rd r w|l IH] using target_ind'.
    - intros c m a c' m' L E. assert (E0 := E). cbn [an_target] in E. destruct L as (I & F & C & P & H).
      apply abind_inv in E. destruct E as (rr & c1 & m1 & E1 & E). apply aread_inv in E1. destruct E1 as (_ & -> & ->).
      apply abind_inv in E. destruct E as (x & c2 & m2 & E2 & E). apply aret_inv in E. destruct E as (-> & -> & ->). cbn [binds_target].
      destruct (an_target_steps _ _ _ _ _ _ I F E0) as (e & d & S1).
      cut (agree c c2 [(k, x)]).
      { intros A1. split; [exact A1|]. apply (live_step _ _ _ _ _ _ _ S1); [split; auto|apply (agree_nil _ _ _ A1)]. }
      split; [exists e; apply (st_abs _ _ _ _ _ _ _ S1)|]. split; [apply (st_reg _ _ _ _ _ _ _ S1)|]. split; [apply (st_ctl _ _ _ _ _ _ _ S1)|].
      assert (NEW : forall m0, new_slot2 (VAR k) c m0 = (Done (x, c2), m2) -> (c_get c (VAR k) = None \/ k <> n) ->
        (forall i, c_get c (var_symbol n) = Some i -> c_get c2 (var_symbol n) = Some i) /\
        (forall y, In (n, y) [(k, x)] -> exists i, c_get c2 (var_symbol n) = Some i /\ sl_id i = y)).
      { intros m0 N NO. destruct (new_slot2_step _ _ _ _ _ _ I N) as (S2 & _ & _).
        assert (G : forall z, c_get c2 z = if list_eq_dec N.eq_dec z (VAR k) then Some {| sl_id := x; sl_depth := c_regular c |} else c_get c z).
        { intros z. rewrite (c_get_find c2 z (st_inv _ _ _ _ _ _ _ S2)), (st_abs _ _ _ _ _ _ _ S2), (c_get_find c z I). cbn [StructsSpec.find app].
          destruct (list_eq_dec N.eq_dec z (VAR k)); reflexivity. }
        split.
        - intros i Gi. rewrite G. destruct (list_eq_dec N.eq_dec (var_symbol n) (VAR k)) as [D|D]; [|exact Gi].
          injection D as D. destruct NO as [NO|NO]; [|congruence]. change (c_get c (var_symbol k) = None) in NO. subst k. congruence.
        - intros y [[= -> ->]|[]]. rewrite G. destruct (list_eq_dec N.eq_dec (var_symbol n) (VAR n)) as [_|D]; [|contradiction D; reflexivity].
          eexists. split; [reflexivity|reflexivity]. }
      destruct (c_get c (VAR k)) as [i|] eqn:G; [|apply (NEW m E2); auto].
      destruct (Nat.eqb_spec (sl_depth i) (c_regular c)) as [D|D].
      + injection E2 as <- <- <-. split; [auto|]. intros y [[= -> <-]|[]]. exists i. auto.
      + apply (NEW m E2). right. intros ->. apply D, H, G.
    - intros c m a c' m' L E. cbn [an_target] in E. apply abind_inv in E. destruct E as (l' & c1 & m1 & E1 & E).
      apply aret_inv in E. destruct E as (-> & -> & ->). cbn [binds_target]. apply (joins_map _ _ _ IH _ _ _ _ _ L E1).
  Qed.
  Lemma joins_branch {A} (f : A -> list (str * slot)) x : joins f x -> joins f (branch x).
  Proof.
    intros X c m a c' m' L E. unfold branch in E.
    apply abind_inv in E. destruct E as (p & c0 & m0 & E0 & E). apply aposition_inv in E0. destruct E0 as (-> & -> & ->).
    apply abind_inv in E. destruct E as (a1 & c1 & m1 & E1 & E). destruct (X _ _ _ _ _ L E1) as [((ext & A1) & R1 & C1 & K1 & B1) (I1 & F1 & L1 & P1 & H1)].
    apply abind_inv in E. destruct E as (syms & c2 & m2 & E2 & E). apply aasdict_inv in E2. destruct E2 as (-> & -> & ->).
    apply abind_inv in E. destruct E as (t & c3 & m3 & E3 & E).
    destruct (areset_inv _ _ _ _ _ ext (entries c) I1 A1 E3) as (-> & I3 & A3 & R3 & C3 & H3 & P3).
    apply abind_inv in E. destruct E as (t4 & c4 & m4 & E4 & E). apply amod_inv in E4. destruct E4 as (-> & ->).
    apply aret_inv in E. destruct E as (-> & -> & ->).
    set (syms := md_asdict (List.length (entries c)) (c_md c1)) in *.
    destruct (pushnew_spec syms (c_md c3) I3) as [I4 A4].
    destruct (add_new_ext syms (abs (c_md c3))) as (e & E5 & Inc).
    destruct (asdict_spec (c_md c1) (List.length (entries c))) as [ND FD]. fold syms in ND, FD. destruct L as (I & F & C & P & H).
    assert (FE : forall z, StructsSpec.find z syms = StructsSpec.find z ext).
    { intros z. rewrite FD. unfold entries in A1. rewrite A1, app_length. unfold entries.
      replace (List.length ext + List.length (abs (c_md c)) - List.length (abs (c_md c))) with (List.length ext) by lia.
      rewrite firstn_app, firstn_all, Nat.sub_diag, firstn_O, app_nil_r. reflexivity. }
    assert (IN : incl e ext).
    { intros z Hz. apply (asdict_incl c1 ext (entries c) I1 A1), Inc, Hz. }
    set (c' := with_md c3 (md_pushnew syms (c_md c3))).
    assert (EN : entries c' = e ++ entries c) by (unfold entries at 1, c'; cbn; rewrite A4, E5; unfold entries in A3; rewrite A3; reflexivity).
    assert (G : c_get c' (var_symbol n) = match c_get c (var_symbol n) with Some i => Some i | None => c_get c1 (var_symbol n) end).
    { change (c_get c' (var_symbol n)) with (md_get (var_symbol n) (md_pushnew syms (c_md c3))). rewrite (get_find _ _ I4), A4, (find_add_new syms ND).
      change (abs (c_md c3)) with (entries c3). rewrite A3, <- (c_get_find c _ I). destruct (c_get c (var_symbol n)) eqn:Gc; [reflexivity|].
      rewrite FE, (c_get_find c1 _ I1), A1, find_app, <- (c_get_find c _ I), Gc. destruct (StructsSpec.find _ ext); reflexivity. }
    assert (G' : forall i, c_get c1 (var_symbol n) = Some i -> c_get c' (var_symbol n) = Some i).
    { intros i Gi. rewrite G. destruct (c_get c (var_symbol n)) as [j|]; [|exact Gi]. rewrite <- Gi. symmetry. apply K1. reflexivity. }
    split.
    - split; [exists e; exact EN|]. split; [unfold c'; cbn; congruence|]. split; [unfold c'; cbn; congruence|]. split.
      + intros i Gi. apply G', K1, Gi.
      + intros z Hz. destruct (B1 _ Hz) as (i & Gi & Q). exists i. split; [apply G', Gi|exact Q].
    - split; [exact I4|]. split.
      + intros z i Hz. rewrite EN in Hz. unfold c'. cbn. rewrite R3. apply (F1 z). rewrite A1. apply in_app_or in Hz. apply in_or_app.
        destruct Hz as [Hz|Hz]; [left; apply IN, Hz|right; exact Hz].
      + split; [unfold c'; cbn; lia|]. split; [unfold c'; cbn; congruence|]. intros i Gi. unfold c'. cbn. rewrite R3.
        rewrite G in Gi. destruct (c_get c (var_symbol n)) as [j|] eqn:Gc; [|apply H1, Gi]. injection Gi as <-. rewrite R1. apply H, Gc.
  Qed.
  (** entering a control block *)
  Definition live_control (c : ctx) : Prop := sound c /\ fit c /\ c_prolog c = false /\ settled c.
  Definition joins_from {A} (f : A -> list (str * slot)) (x : AM (W := W) A) : Prop :=
    forall c m a c' m', live_control c -> x c m = (Done (a, c'), m') -> agree c c' (f a) /\ live_control c' /\ c_control c' = c_control c.
  Lemma joins_control {A} (f : A -> list (str * slot)) x : joins f x -> joins_from f (control x).
  Proof.
    intros X c m a c' m' (I & F & P & H) E. unfold control in E. apply abind_inv in E. destruct E as (t & c0 & m0 & E0 & E).
    apply amod_inv in E0. destruct E0 as (-> & ->). apply abind_inv in E. destruct E as (a1 & c1 & m1 & E1 & E).
    assert (L : live (enter_control c)) by (split; [exact I|split; [exact F|split; [cbn; lia|split; [exact P|exact H]]]]).
    destruct (X _ _ _ _ _ L E1) as [(A1 & R1 & C1 & K1 & B1) (I1 & F1 & L1 & P1 & H1)].
    apply abind_inv in E. destruct E as (t2 & c2 & m2 & E2 & E). apply amod_inv in E2. destruct E2 as (-> & ->).
    apply aret_inv in E. destruct E as (-> & -> & ->). split; [|split; [|cbn in C1 |- *; lia]].
    - split; [exact A1|]. split; [exact R1|]. split; [cbn in C1 |- *; lia|]. split; [exact K1|exact B1].
    - exact (conj I1 (conj F1 (conj P1 H1))).
  Qed.
  Lemma joins_from_joins {A} (f : A -> list (str * slot)) x : joins_from f x -> joins f x.
  Proof.
    intros X c m a c' m' (I & F & C & P & H) E. destruct (X c m a c' m' (conj I (conj F (conj P H))) E) as (A1 & (I1 & F1 & P1 & H1) & CC).
    split; [exact A1|]. split; [exact I1|]. split; [exact F1|]. split; [lia|]. exact (conj P1 H1).
  Qed.

  Definition is_control (b : block) : bool := match b with BTry _ | BIf _ _ | BWhile _ _ _ | BFor _ _ _ _ => true | _ => false end.
  Lemma shared_all :
    (forall b, raw_block b -> joins binds (an_block import_module context b) /\
       (is_control b = true -> joins_from binds (an_block import_module context b))) /\
    (forall y, raw_body y -> joins binds_body (an_body import_module context y)) /\
    (forall i, raw_item i -> joins binds_item (an_item import_module context i)).
  Proof.
    set (b_opt := fun o : option body => match o with Some y => binds_body y | None => [] end).
    set (b_clause := fun cy : expr * option body => match snd cy with Some y => binds_body y | None => [] end).
    assert (OPT : forall o, on_opt (fun y => joins binds_body (an_body import_module context y)) o ->
      joins b_opt (match o with Some y => abind (an_body import_module context y) (fun y => aret (Some y)) | None => aret None end)).
    { intros [y|] H; [|apply joins_ret; reflexivity]. intros c m a c' m' L E. apply abind_inv in E. destruct E as (y1 & c1 & m1 & E1 & E).
      apply aret_inv in E. destruct E as (-> & -> & ->). apply (H _ _ _ _ _ L E1). }
    assert (OPTB : forall o, on_opt (fun y => joins binds_body (an_body import_module context y)) o ->
      joins b_opt (match o with Some y => abind (branch (an_body import_module context y)) (fun y => aret (Some y)) | None => aret None end)).
    { intros [y|] H; [|apply joins_ret; reflexivity]. intros c m a c' m' L E. apply abind_inv in E. destruct E as (y1 & c1 & m1 & E1 & E).
      apply aret_inv in E. destruct E as (-> & -> & ->). apply (joins_branch _ _ H _ _ _ _ _ L E1). }
    assert (CL : forall t (o : option body), on_opt (fun y => joins binds_body (an_body import_module context y)) o ->
      joins b_clause (branch (abind (aread (fun c => an_expr c t)) (fun t =>
        abind (match o with Some y => abind (an_body import_module context y) (fun y => aret (Some y)) | None => aret None end) (fun y => aret (t, y)))))).
    { intros t o H. apply joins_branch. intros c m a c' m' L E.
      apply abind_inv in E. destruct E as (t1 & c1 & m1 & E1 & E). apply aread_inv in E1. destruct E1 as (_ & -> & ->).
      apply abind_inv in E. destruct E as (y1 & c2 & m2 & E2 & E). apply aret_inv in E. destruct E as (-> & -> & ->).
      apply (OPT o H _ _ _ _ _ L E2). }
    assert (NOTHING : forall A (f : ctx -> result A) (g : A -> block), (forall a, binds (g a) = []) ->
      joins binds (abind (aread f) (fun a => aret (W := W) (g a)))).
    { intros A f g G c m a c' m' L E. apply abind_inv in E. destruct E as (t1 & c1 & m1 & E1 & E). apply aread_inv in E1. destruct E1 as (_ & -> & ->).
      apply aret_inv in E. destruct E as (-> & -> & ->). rewrite G. split; [apply agree_refl|exact L]. }
    assert (RO : forall o, on_opt (fun y => raw_body y -> joins binds_body (an_body import_module context y)) o ->
      match o with Some y => raw_body y | None => True end -> on_opt (fun y => joins binds_body (an_body import_module context y)) o).
    { intros [y|] H K; cbn in *; auto. }
    assert (BOTH : forall b, is_control b = true -> joins_from binds (an_block import_module context b) ->
      joins binds (an_block import_module context b) /\ (is_control b = true -> joins_from binds (an_block import_module context b))).
    { intros b _ H. split; [apply joins_from_joins, H|auto]. }
    assert (PLAIN : forall b, is_control b = false -> joins binds (an_block import_module context b) ->
      joins binds (an_block import_module context b) /\ (is_control b = true -> joins_from binds (an_block import_module context b))).
    { intros b N H. split; [exact H|congruence]. }
    apply block_body_item_ind.
    - intros lead l _. apply PLAIN; [reflexivity|]. apply NOTHING. reflexivity.
    - intros _. apply PLAIN; [reflexivity|]. apply joins_ret. reflexivity.
    - intros e _. apply PLAIN; [reflexivity|]. apply NOTHING. reflexivity.
    - intros tags y _ RW. apply PLAIN; [reflexivity|]. intros c m a c' m' L E. assert (L0 := L). destruct L0 as (I & F & C & P & H).
      destruct (struct_writes import_module context IMP _ _ _ _ _ _ _ I F RW E) as (E1 & I1 & _).
      destruct (proj1 (an_steps import_module context IMP) (BStruct tags y) RW _ _ _ _ _ I F E) as (e & d & S1).
      assert (A1 : agree c c' []).
      { split; [exists []; exact E1|]. split; [apply (st_reg _ _ _ _ _ _ _ S1)|]. split; [apply (st_ctl _ _ _ _ _ _ _ S1)|].
        split; [|intros x []]. intros i G. rewrite (c_get_find c' _ I1), E1, <- (c_get_find c _ I). exact G. }
      assert (BN : binds a = []).
      { cbn [an_block] in E. apply abind_inv in E. destruct E as (? & ? & ? & _ & E). apply abind_inv in E. destruct E as (? & ? & ? & _ & E).
        apply abind_inv in E. destruct E as (? & ? & ? & _ & E). apply abind_inv in E. destruct E as (? & ? & ? & _ & E).
        apply abind_inv in E. destruct E as (? & ? & ? & _ & E). apply abind_inv in E. destruct E as (? & ? & ? & _ & E).
        apply aret_inv in E. destruct E as (-> & _). reflexivity. }
      rewrite BN. split; [exact A1|]. apply (live_step _ _ _ _ _ _ _ S1 L A1).
    - intros d k ab ar y _ RW. apply PLAIN; [reflexivity|]. intros c m a c' m' (I & F & C & P & H) E. cbn [an_block] in E.
      apply abind_inv in E. destruct E as (t & c0 & m0 & E0 & E). apply aread_inv in E0. destruct E0 as (E0 & _).
      destruct (c_control c); [lia|discriminate].
    - intros p l RW. apply PLAIN; [reflexivity|]. intros c m a c' m' (I & F & C & P & H) E. cbn [an_block] in E.
      apply abind_inv in E. destruct E as (t & c0 & m0 & E0 & E). apply aread_inv in E0. destruct E0 as (E0 & _).
      destruct (c_control c); [lia|discriminate].
    - intros l RW. apply PLAIN; [reflexivity|]. intros c m a c' m' (I & F & C & P & H) E. cbn [an_block] in E.
      apply abind_inv in E. destruct E as (t & c0 & m0 & E0 & E). apply aread_inv in E0. destruct E0 as (E0 & _).
      rewrite P in E0. discriminate.
    - intros l H RW. apply BOTH; [reflexivity|]. cbn [an_block raw_block] in *. apply (Forall_use _ _ _ H) in RW.
      intros c m a c' m' L E. apply abind_inv in E. destruct E as (ys & c1 & m1 & E1 & E).
      apply aret_inv in E. destruct E as (-> & -> & ->). cbn [binds].
      refine (joins_control _ _ _ _ _ _ _ _ L E1). apply joins_map. eapply Forall_impl; [|exact RW]. intros y Hy. apply joins_branch, Hy.
    - intros l els H He [RW RE]. apply BOTH; [reflexivity|]. intros c m a c' m' L E. cbn [an_block] in E. apply (RO _ He) in RE.
      apply abind_inv in E. destruct E as (r & c1 & m1 & E1 & E). apply aret_inv in E. destruct E as (-> & -> & ->).
      refine (joins_control (fun r => flat_map b_clause (fst r) ++ b_opt (snd r)) _ _ _ _ _ _ _ L E1). clear - H RW RE CL OPTB RO.
      intros c m a c' m' L E. apply abind_inv in E. destruct E as (cs & c1 & m1 & E1 & E).
      apply abind_inv in E. destruct E as (els' & c2 & m2 & E2 & E). apply aret_inv in E. destruct E as (-> & -> & ->).
      assert (S1 : agree c c1 (flat_map b_clause cs) /\ live c1).
      { refine (joins_map b_clause _ l _ _ _ _ _ _ L E1). apply (Forall_use (fun cy => match snd cy with Some y => raw_body y | None => True end)); [|exact RW].
        eapply Forall_impl; [|exact H]. intros [t y] Hy RY. apply CL, RO; assumption. }
      destruct S1 as [A1 L1]. destruct (OPTB els RE _ _ _ _ _ L1 E2) as [A2 L2]. split; [apply (agree_trans _ _ _ _ _ A1 A2)|exact L2].
    - intros t y els Hy He [RY RE]. apply BOTH; [reflexivity|]. intros c m a c' m' L E. cbn [an_block] in E. apply (RO _ He) in RE. apply (RO _ Hy) in RY.
      apply abind_inv in E. destruct E as (r & c1 & m1 & E1 & E). apply aret_inv in E. destruct E as (-> & -> & ->).
      refine (joins_control (fun r => b_opt (snd (fst r)) ++ b_opt (snd r)) _ _ _ _ _ _ _ L E1). clear - RY RE CL OPTB.
      intros c m a c' m' L E. apply abind_inv in E. destruct E as (ty & c1 & m1 & E1 & E).
      apply abind_inv in E. destruct E as (els' & c2 & m2 & E2 & E). apply aret_inv in E. destruct E as (-> & -> & ->).
      destruct (CL t y RY _ _ _ _ _ L E1) as [A1 L1]. destruct (OPTB els RE _ _ _ _ _ L1 E2) as [A2 L2].
      split; [apply (agree_trans _ _ _ _ _ A1 A2)|exact L2].
    - intros ts e y els Hy He [RY RE]. apply BOTH; [reflexivity|]. intros c m a c' m' L E. cbn [an_block] in E.
      apply abind_inv in E. destruct E as ([[[e1 ts1] y1] els1] & c1 & m1 & E1 & E). apply aret_inv in E. destruct E as (-> & -> & ->).
      refine (joins_control (fun r : expr * target * option body * option body => let '(e, ts, y, els) := r in binds_target ts ++ b_opt y ++ b_opt els) _ _ _ _ _ _ _ L E1).
      clear - RY RE Hy He. intros c m a c' m' L E. apply abind_inv in E. destruct E as (e1 & c0 & m0 & E0 & E). apply aread_inv in E0. destruct E0 as (_ & -> & ->).
      apply abind_inv in E. destruct E as (ts1 & c1 & m1 & E1 & E). destruct (joins_target _ _ _ _ _ _ L E1) as [A1 L1]. destruct y as [y|].
      + apply abind_inv in E. destruct E as (y1 & c2 & m2 & E2 & E). apply aret_inv in E. destruct E as (-> & -> & ->).
        destruct (Hy RY _ _ _ _ _ L1 E2) as [A2 L2].
        assert (X : b_opt els = []).
        { destruct els as [z|]; [|reflexivity]. destruct RE as [_ RE]. assert (Q := proj1 (proj2 binds_writes) z). cbn. rewrite RE in Q.
          destruct (binds_body z) as [|[k x] r]; [reflexivity|]. destruct (Q x (or_introl eq_refl)). }
        rewrite X, app_nil_r. split; [apply (agree_trans _ _ _ _ _ A1 A2)|exact L2].
      + destruct els as [z|].
        * apply abind_inv in E. destruct E as (y1 & c2 & m2 & E2 & E). apply aret_inv in E. destruct E as (-> & -> & ->).
          destruct (He (proj1 RE) _ _ _ _ _ L1 E2) as [A2 L2]. split; [apply (agree_trans _ _ _ _ _ A1 A2)|exact L2].
        * apply aret_inv in E. destruct E as (-> & -> & ->). cbn. rewrite app_nil_r. split; [exact A1|exact L1].
    - intros e _. apply PLAIN; [reflexivity|]. apply NOTHING. reflexivity.
    - intros ts o e _. apply PLAIN; [reflexivity|]. intros c m a c' m' L E. cbn [an_block] in E.
      apply abind_inv in E. destruct E as (e1 & c0 & m0 & E0 & E). apply aread_inv in E0. destruct E0 as (_ & -> & ->).
      apply abind_inv in E. destruct E as (ts1 & c1 & m1 & E1 & E). apply aret_inv in E. destruct E as (-> & -> & ->). cbn [binds].
      apply (joins_target _ _ _ _ _ _ L E1).
    - intros _. apply PLAIN; [reflexivity|]. apply joins_ret. reflexivity.
    - intros l H RW c m a c' m' L E. cbn [an_body raw_body] in *. apply (Forall_use _ _ _ H) in RW. apply abind_inv in E. destruct E as (l' & c1 & m1 & E1 & E).
      apply aret_inv in E. destruct E as (-> & -> & ->). cbn [binds_body]. apply (joins_map _ _ _ RW _ _ _ _ _ L E1).
    - intros b H RW c m a c' m' L E. cbn [an_body] in E. apply abind_inv in E. destruct E as (l' & c1 & m1 & E1 & E).
      apply aret_inv in E. destruct E as (-> & -> & ->). cbn [binds_body]. apply (proj1 (H RW) _ _ _ _ _ L E1).
    - intros [y|] H RW; [|apply joins_ret; reflexivity]. intros c m a c' m' L E; cbn [an_body] in E.
      apply abind_inv in E. destruct E as (l' & c1 & m1 & E1 & E).
      apply aret_inv in E. destruct E as (-> & -> & ->). cbn [binds_body]. apply (H RW _ _ _ _ _ L E1).
    - intros l _ c m a c' m' L E. cbn [an_item] in E. apply abind_inv in E. destruct E as (l' & c1 & m1 & E1 & E).
      apply aread_inv in E1. destruct E1 as (_ & -> & ->). apply aret_inv in E. destruct E as (-> & -> & ->). split; [apply agree_refl|exact L].
    - intros ch _. apply joins_ret. reflexivity.
    - intros ch _. apply joins_ret. reflexivity.
    - intros ch _. apply joins_ret. reflexivity.
    - intros mg md b Hb RW c m a c' m' L E. cbn [an_item] in E. apply abind_inv in E. destruct E as (t & c0 & m0 & E0 & E).
      apply amod_inv in E0. destruct E0 as (-> & ->). apply abind_inv in E. destruct E as (b1 & c1 & m1 & E1 & E).
      apply aret_inv in E. destruct E as (-> & -> & ->). cbn [binds_item]. destruct L as (I & F & C & P & H). rewrite P in E1. cbn [andb] in E1.
      apply (proj1 (Hb RW) c m b1 c1 m1); [exact (conj I (conj F (conj C (conj P H))))|exact E1].
  Qed.

  Lemma control_shared c m b b' c' m' x : sound c -> fit c -> c_prolog c = false -> settled c -> raw_block b -> is_control b = true ->
    an_block import_module context b c m = (Done (b', c'), m') -> In (n, x) (binds b') ->
    exists i, c_get c' (var_symbol n) = Some i /\ sl_id i = x.
  Proof.
    intros I F P H RW IC E HX. destruct (proj2 (proj1 shared_all b RW) IC c m b' c' m' (conj I (conj F (conj P H))) E) as ((_ & _ & _ & _ & B) & _).
    apply B, HX.
  Qed.
End Share.

Section Documents.
  Context {W : Type}.
  Variable import_module : str -> M W module.
  Variable context : list (str * val).
  Hypothesis IMP : import_fine import_module.

  (** control blocks that are not inside of a tagged block or a definition *)
  Lemma document_shared globals d1 mg md b d2 m a m' : Forall raw_item (d1 ++ NBlock mg md b :: d2) -> old_defs m -> is_control b = true ->
    an_document import_module context globals (d1 ++ NBlock mg md b :: d2) m = (Done a, m') ->
    exists ins c0 m0 l1 c1 m1 b' c2 m2 l2,
      enter_globals globals new_ctx m = (Done (ins, c0), m0) /\
      amap (an_item import_module context) d1 c0 m0 = (Done (l1, c1), m1) /\
      an_item import_module context (NBlock mg md b) c1 m1 = (Done (b', c2), m2) /\
      d_items a = l1 ++ b' :: l2 /\
      forall n x, In (n, x) (binds_item b') -> exists i, c_get c2 (var_symbol n) = Some i /\ sl_id i = x.
  Proof.
    intros RW OD IC E. destruct (document_contexts import_module context IMP _ _ _ _ _ _ RW OD E) as (ins & c0 & m0 & l1 & c1 & m1 & l2 & c2 & E0 & E1 & E2 & EI & I & F & K & RZ & U).
    cbn [amap] in E2. apply abind_inv in E2. destruct E2 as (b' & c3 & m3 & E2 & E3). apply abind_inv in E3. destruct E3 as (bs & c4 & m4 & E3 & E4).
    apply aret_inv in E4. destruct E4 as (-> & -> & ->). exists ins, c0, m0, l1, c1, m1, b', c3, m3, bs.
    do 4 (split; [first [eassumption|reflexivity]|]). cbn [an_item] in E2. apply abind_inv in E2. destruct E2 as (t & c5 & m5 & E5 & EB).
    apply amod_inv in E5. destruct E5 as (-> & ->). apply abind_inv in EB. destruct EB as (b1 & c6 & m6 & E6 & EB).
    apply aret_inv in EB. destruct EB as (-> & -> & ->).
    assert (RB : raw_block b) by (apply Forall_app in RW; destruct RW as [_ RW]; inversion RW; assumption).
    set (c' := if c_prolog c1 && negb (prolog_block b) then end_prolog c1 else c1) in E6.
    assert (SM : c_md c' = c_md c1 /\ c_regular c' = c_regular c1 /\ c_prolog c' = false).
    { unfold c'. replace (prolog_block b) with false by (destruct b; try discriminate; reflexivity).
      destruct (c_prolog c1) eqn:Q; cbn [andb negb]; auto. }
    destruct SM as (SM & SR & SP).
    assert (I' : sound c') by (unfold sound; rewrite SM; exact I).
    assert (F' : fit c') by (unfold fit, entries; rewrite SM, SR; exact F).
    intros n x HX. apply (control_shared import_module context IMP n c' m1 b b1 c6 m6 x I' F' SP); try assumption.
    intros i G. rewrite (c_get_find c' _ I') in G. apply find_In in G. apply F' in G. rewrite SR, RZ in *. lia.
  Qed.
End Documents.
