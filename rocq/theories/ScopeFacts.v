(** Semantic analysis: slots given to names, contexts before and after. *)
From Coq Require Import List NArith ZArith Bool Arith Lia.
From Verif Require Import PyStr PyStrFacts PyDict Structs StructsSpec StructsFacts Value Dom Ast AstInd Machine Eval Translate Analyse MachineFacts ScopeSpec.
Import ListNotations.

Lemma find_In {V} n (v : V) s : find n s = Some v -> In (n, v) s.
Proof.
  induction s as [|[k w] s IH]; cbn; [discriminate|]. destruct (list_eq_dec N.eq_dec n k) as [->|].
  - intros [= ->]. left; reflexivity.
  - intros H. right. apply IH, H.
Qed.
Lemma In_find {V} n (v : V) s : NoDup (map fst s) -> In (n, v) s -> find n s = Some v.
Proof.
  induction s as [|[k w] s IH]; cbn; intros ND H; [contradiction|]. inversion ND as [|? ? Hk ND']; subst. destruct H as [H|H].
  - injection H as -> ->. destruct (list_eq_dec N.eq_dec n n); [reflexivity|contradiction].
  - destruct (list_eq_dec N.eq_dec n k) as [->|]; [|apply IH; assumption]. contradiction Hk. apply (in_map fst) in H. exact H.
Qed.
Lemma find_None {V} n (s : scope V) : find n s = None <-> ~ In n (map fst s).
Proof.
  induction s as [|[k w] s IH]; cbn; [split; [intros _ []|reflexivity]|]. destruct (list_eq_dec N.eq_dec n k) as [->|D].
  - split; [discriminate|]. intros H. contradiction H. left; reflexivity.
  - rewrite IH. split; [intros H [E|H']; [congruence|contradiction]|]. intros H H'. apply H. right; exact H'.
Qed.
Lemma find_app {V} n (a b : scope V) : find n (a ++ b) = match find n a with Some v => Some v | None => find n b end.
Proof. induction a as [|[k w] a IH]; cbn; [reflexivity|]. destruct (list_eq_dec N.eq_dec n k); [reflexivity|exact IH]. Qed.
Lemma add_new_ext {V} (syms : list (str * V)) : forall s, exists e, add_new syms s = e ++ s /\ incl e syms.
Proof.
  induction syms as [|[n v] r IH]; intros s; cbn.
  - exists []. split; [reflexivity|intros x []].
  - destruct (find n s).
    + destruct (IH s) as (e & E & I). exists e. split; [exact E|]. intros x Hx. right. apply I, Hx.
    + destruct (IH ((n, v) :: s)) as (e & E & I). exists (e ++ [(n, v)]). split; [rewrite E, <- app_assoc; reflexivity|].
      intros x Hx. apply in_app_or in Hx. destruct Hx as [Hx|[<-|[]]]; [right; apply I, Hx|left; reflexivity].
Qed.

Section Analysis.
  Context {W : Type}.
  Variable import_module : str -> M W module.
  Variable context : list (str * val).

  Definition entries (c : ctx) : scope sinfo := abs (c_md c).
  Definition sound (c : ctx) : Prop := inv (c_md c).
  (** no deeper names than the current depth *)
  Definition fit (c : ctx) : Prop := forall y i, In (y, i) (entries c) -> sl_depth i <= c_regular c.

  Lemma c_get_find c y : sound c -> c_get c y = find y (entries c).
  Proof. intros H. apply get_find, H. Qed.

  (** What an analysis step does: [ext] are the new entries, [nd] the new definitions, [ws] slots
      written by the result. *)
  Record step (c : ctx) (m : mach W) (c' : ctx) (m' : mach W) (ext : scope sinfo) (nd : list hdef) (ws : list slot) : Prop := {
    st_inv : sound c';
    st_abs : entries c' = ext ++ entries c;
    st_reg : c_regular c' = c_regular c;
    st_ctl : c_control c' = c_control c;
    st_hyp : c_hyper c' = c_hyper c;
    st_pro : c_prolog c' = true -> c_prolog c = true;
    st_next : m_next m <= m_next m';
    st_defs : m_defs m' = m_defs m ++ nd;
    st_ext : forall y i, In (y, i) ext -> sl_depth i = c_regular c /\ m_next m <= sl_id i < m_next m';
    st_inj : forall y i y' i', In (y, i) ext -> In (y', i') ext -> sl_id i = sl_id i' -> y = y';
    st_nd : forall h x, In h nd -> In x (writes_def h) -> m_next m <= x < m_next m' /\ forall y i, In (y, i) ext -> sl_id i <> x;
    st_ws : forall x, In x ws -> m_next m <= x < m_next m' \/
              exists n i, In (var_symbol n, i) (entries c) /\ sl_depth i = c_regular c /\ sl_id i = x
  }.

  Lemma step_refl c m : sound c -> step c m c m [] [] [].
  Proof.
    intros H. split; try reflexivity; auto with arith.
    - symmetry. apply app_nil_r.
    - intros y i [].
    - intros y i y' i' [].
    - intros h x [].
    - intros x [].
  Qed.
  Lemma step_trans c m c1 m1 c2 m2 e1 e2 d1 d2 w1 w2 :
    step c m c1 m1 e1 d1 w1 -> step c1 m1 c2 m2 e2 d2 w2 -> step c m c2 m2 (e2 ++ e1) (d1 ++ d2) (w1 ++ w2).
  Proof.
    intros [I1 A1 R1 C1 H1 P1 N1 D1 E1 J1 F1 S1] [I2 A2 R2 C2 H2 P2 N2 D2 E2 J2 F2 S2]. split.
    - exact I2.
    - rewrite A2, A1, app_assoc. reflexivity.
    - congruence.
    - congruence.
    - congruence.
    - auto.
    - lia.
    - rewrite D2, D1, app_assoc. reflexivity.
    - intros y i H. apply in_app_or in H. destruct H as [H|H].
      + destruct (E2 _ _ H) as [K L]. split; [congruence|lia].
      + destruct (E1 _ _ H) as [K L]. split; [congruence|lia].
    - intros y i y' i' H H' Q. apply in_app_or in H. apply in_app_or in H'. destruct H as [H|H], H' as [H'|H'].
      + eauto.
      + destruct (E2 _ _ H) as [_ L]. destruct (E1 _ _ H') as [_ L']. lia.
      + destruct (E1 _ _ H) as [_ L]. destruct (E2 _ _ H') as [_ L']. lia.
      + eauto.
    - intros h x Hh Hx. apply in_app_or in Hh. destruct Hh as [Hh|Hh].
      + destruct (F1 _ _ Hh Hx) as [L K]. split; [lia|]. intros y i H. apply in_app_or in H. destruct H as [H|H]; [|eauto].
        destruct (E2 _ _ H) as [_ L']. lia.
      + destruct (F2 _ _ Hh Hx) as [L K]. split; [lia|]. intros y i H. apply in_app_or in H. destruct H as [H|H]; [eauto|].
        destruct (E1 _ _ H) as [_ L']. lia.
    - intros x H. apply in_app_or in H. destruct H as [H|H].
      + destruct (S1 _ H) as [L|Q]; [left; lia|right; exact Q].
      + destruct (S2 _ H) as [L|(y & i & Q & K & X)]; [left; lia|]. rewrite A1 in Q. apply in_app_or in Q. destruct Q as [Q|Q].
        * left. destruct (E1 _ _ Q) as [_ L]. lia.
        * right. exists y, i. rewrite R1 in K. auto.
  Qed.
  Lemma step_ws c m c1 m1 e d w w' : step c m c1 m1 e d w -> incl w' w -> step c m c1 m1 e d w'.
  Proof. intros [I1 A1 R1 C1 H1 P1 N1 D1 E1 J1 F1 S1] H. split; auto. Qed.
  Lemma step_sub c m c1 m1 e d w c' e' : step c m c1 m1 e d w -> sound c' -> entries c' = e' ++ entries c -> incl e' e ->
    c_regular c' = c_regular c1 -> c_control c' = c_control c1 -> c_hyper c' = c_hyper c1 -> c_prolog c' = c_prolog c1 ->
    step c m c' m1 e' d w.
  Proof.
    intros [I1 A1 R1 C1 H1 P1 N1 D1 E1 J1 F1 S1] I A S_ R C H P. split; auto; try congruence.
    - intros Q. apply P1. congruence.
    - intros y i Q. exact (E1 y i (S_ _ Q)).
    - intros y i y' i' Q Q' K. apply (J1 y i y' i'); auto.
    - intros h x Hh Hx. destruct (F1 _ _ Hh Hx) as [L K]. split; [exact L|]. intros y i Q. apply (K y i), S_, Q.
  Qed.
  Lemma step_fit c m c1 m1 e d w : step c m c1 m1 e d w -> fit c -> fit c1.
  Proof.
    intros S_ F y i H. rewrite (st_abs _ _ _ _ _ _ _ S_) in H. rewrite (st_reg _ _ _ _ _ _ _ S_). apply in_app_or in H.
    destruct H as [H|H]; [destruct (st_ext _ _ _ _ _ _ _ S_ _ _ H) as [-> _]; lia|apply F in H; exact H].
  Qed.

  (** ** Inversion of computations *)
  Lemma abind_inv {A B} (x : AM (W := W) A) (f : A -> AM B) c m r m' : abind x f c m = (Done r, m') ->
    exists a c1 m1, x c m = (Done (a, c1), m1) /\ f a c1 m1 = (Done r, m').
  Proof. intros H. apply bind_done_inv in H. destruct H as ([a c1] & m1 & E1 & E2). exists a, c1, m1. split; assumption. Qed.
  Lemma aret_inv {A} (a b : A) c c' m m' : aret (W := W) a c m = (Done (b, c'), m') -> b = a /\ c' = c /\ m' = m.
  Proof. intros [= <- <- <-]. auto. Qed.
  Lemma aread_inv {A} (f : ctx -> result A) a c c' m m' : aread (W := W) f c m = (Done (a, c'), m') -> f c = Ok a /\ c' = c /\ m' = m.
  Proof. unfold aread, mbind. destruct (f c); cbn; intros H; [injection H as <- <- <-; auto|discriminate]. Qed.
  Lemma amod_inv f (a : unit) c c' m m' : amod (W := W) f c m = (Done (a, c'), m') -> c' = f c /\ m' = m.
  Proof. intros [= _ <- <-]. auto. Qed.
  Lemma aposition_inv p c c' m m' : aposition (W := W) c m = (Done (p, c'), m') -> p = List.length (entries c) /\ c' = c /\ m' = m.
  Proof. intros [= <- <- <-]. rewrite position_length. auto. Qed.
  Lemma aasdict_inv p l c c' m m' : aasdict (W := W) p c m = (Done (l, c'), m') -> l = md_asdict p (c_md c) /\ c' = c /\ m' = m.
  Proof. intros [= <- <- <-]. auto. Qed.
  Lemma areset_inv (a : unit) c c' m m' ext base : sound c -> entries c = ext ++ base ->
    areset (W := W) (List.length base) c m = (Done (a, c'), m') ->
    m' = m /\ sound c' /\ entries c' = base /\ c_regular c' = c_regular c /\ c_control c' = c_control c /\ c_hyper c' = c_hyper c /\ c_prolog c' = c_prolog c.
  Proof.
    intros I E. unfold areset, mbind. assert (H := reset_spec (c_md c) (List.length base) I). unfold entries in E.
    destruct (Nat.ltb (List.length (abs (c_md c))) (List.length base)).
    - rewrite H. discriminate.
    - destruct H as (d & -> & I' & A). cbn. intros [= _ <- <-]. split; [reflexivity|]. split; [exact I'|]. split; [|cbn; auto].
      unfold entries. cbn. rewrite A, E, app_length. replace (List.length ext + List.length base - List.length base) with (List.length ext) by lia.
      rewrite skipn_app, skipn_all, Nat.sub_diag. reflexivity.
  Qed.
  Lemma asdict_incl c ext base : sound c -> entries c = ext ++ base -> incl (md_asdict (List.length base) (c_md c)) ext.
  Proof.
    intros I E [y i] H. destruct (asdict_spec (c_md c) (List.length base)) as [ND F]. apply find_In. 
    apply (In_find _ _ _ ND) in H. rewrite F in H. unfold entries in E. rewrite E, app_length in H.
    replace (List.length ext + List.length base - List.length base) with (List.length ext) in H by lia.
    rewrite firstn_app, firstn_all, Nat.sub_diag, firstn_O, app_nil_r in H. exact H.
  Qed.

  Lemma new_slot_step y c m x c' m' : sound c -> new_slot y c m = (Done (x, c'), m') ->
    step c m c' m' [(y, {| sl_id := x; sl_depth := c_regular c |})] [] [x] /\ x = m_next m /\ m' = with_next m (S x).
  Proof.
    intros I [= <- <- <-]. split; [|split; reflexivity]. split; cbn; auto.
    - apply inv_push, I.
    - apply abs_push.
    - symmetry. apply app_nil_r.
    - intros y' i [[= <- <-]|[]]. cbn. lia.
    - intros y1 i1 y2 i2 [[= <- <-]|[]] [[= <- <-]|[]] _. reflexivity.
    - intros h x [].
    - intros x [<-|[]]. left. lia.
  Qed.
  Lemma new_slot2_step y c m x c' m' : sound c -> new_slot2 y c m = (Done (x, c'), m') ->
    step c m c' m' [(y, {| sl_id := x; sl_depth := c_regular c |}); (y, {| sl_id := x; sl_depth := c_regular c |})] [] [x] /\
    x = m_next m /\ m' = with_next m (S x).
  Proof.
    intros I [= <- <- <-]. split; [|split; reflexivity]. split; cbn; auto.
    - apply inv_push, inv_push, I.
    - exact (eq_trans (abs_push _ _ _) (f_equal (cons _) (abs_push _ _ _))).
    - symmetry. apply app_nil_r.
    - intros y' i [[= <- <-]|[[= <- <-]|[]]]; cbn; lia.
    - intros y1 i1 y2 i2 [[= <- <-]|[[= <- <-]|[]]] [[= <- <-]|[[= <- <-]|[]]] _; reflexivity.
    - intros h x [].
    - intros x [<-|[]]. left. lia.
  Qed.

  (** a computation whose result writes slots [f] of the result *)
  Definition steps_by {A} (f : A -> list slot) (x : AM (W := W) A) : Prop :=
    forall c m a c' m', sound c -> fit c -> x c m = (Done (a, c'), m') -> exists ext nd, step c m c' m' ext nd (f a).

  Lemma steps_amap {A B} (f : B -> list slot) (g : A -> AM B) l : Forall (fun x => steps_by f (g x)) l -> steps_by (flat_map f) (amap g l).
  Proof.
    intros H. induction H as [|x l Hx _ IH]; intros c m r c' m' I F E.
    - apply aret_inv in E. destruct E as (-> & -> & ->). exists [], []. apply step_refl, I.
    - cbn in E. apply abind_inv in E. destruct E as (y & c1 & m1 & E1 & E). apply abind_inv in E. destruct E as (ys & c2 & m2 & E2 & E).
      apply aret_inv in E. destruct E as (-> & -> & ->).
      destruct (Hx _ _ _ _ _ I F E1) as (e1 & d1 & S1).
      destruct (IH _ _ _ _ _ (st_inv _ _ _ _ _ _ _ S1) (step_fit _ _ _ _ _ _ _ S1 F) E2) as (e2 & d2 & S2).
      exists (e2 ++ e1), (d1 ++ d2). apply (step_trans _ _ _ _ _ _ _ _ _ _ _ _ S1 S2).
  Qed.

  Lemma an_target_steps t : steps_by writes_target (an_target t).
  Proof.
    induction t as [n rd r w|l IH] using target_ind'; intros c m a c' m' I F E; cbn [an_target] in E.
    - apply abind_inv in E. destruct E as (rr & c1 & m1 & E1 & E). apply aread_inv in E1. destruct E1 as (_ & -> & ->).
      apply abind_inv in E. destruct E as (x & c2 & m2 & E2 & E). apply aret_inv in E. destruct E as (-> & -> & ->). cbn.
      rewrite (c_get_find c _ I) in E2. destruct (find (VAR n) (entries c)) as [i|] eqn:G.
      + destruct (Nat.eqb_spec (sl_depth i) (c_regular c)) as [D|D].
        * injection E2 as <- <- <-. exists [], []. split; try reflexivity; auto with arith.
          -- symmetry. apply app_nil_r.
          -- intros y j [].
          -- intros y j y' j' [].
          -- intros h x [].
          -- intros x [<-|[]]. right. exists n, i. split; [apply find_In, G|]. auto.
        * eexists _, _. apply (new_slot2_step _ _ _ _ _ _ I E2).
      + eexists _, _. apply (new_slot2_step _ _ _ _ _ _ I E2).
    - apply abind_inv in E. destruct E as (l' & c1 & m1 & E1 & E). apply aret_inv in E. destruct E as (-> & -> & ->). cbn.
      apply (steps_amap _ _ _ IH _ _ _ _ _ I F E1).
  Qed.

  Lemma branch_steps {A} f (x : AM A) : steps_by f x -> steps_by f (branch x).
  Proof.
    intros X c m a c' m' I F E. unfold branch in E.
    apply abind_inv in E. destruct E as (p & c0 & m0 & E0 & E). apply aposition_inv in E0. destruct E0 as (-> & -> & ->).
    apply abind_inv in E. destruct E as (a1 & c1 & m1 & E1 & E). destruct (X _ _ _ _ _ I F E1) as (ext & nd & S1).
    apply abind_inv in E. destruct E as (syms & c2 & m2 & E2 & E). apply aasdict_inv in E2. destruct E2 as (-> & -> & ->).
    apply abind_inv in E. destruct E as (t & c3 & m3 & E3 & E).
    destruct (areset_inv _ _ _ _ _ ext (entries c) (st_inv _ _ _ _ _ _ _ S1) (st_abs _ _ _ _ _ _ _ S1) E3) as (-> & I3 & A3 & K1 & K2 & K3 & K4).
    apply abind_inv in E. destruct E as (t4 & c4 & m4 & E4 & E). apply amod_inv in E4. destruct E4 as (-> & ->).
    apply aret_inv in E. destruct E as (-> & -> & ->).
    destruct (pushnew_spec (md_asdict (List.length (entries c)) (c_md c1)) (c_md c3) I3) as [I4 A4].
    destruct (add_new_ext (md_asdict (List.length (entries c)) (c_md c1)) (abs (c_md c3))) as (e & E5 & Inc).
    exists e, nd. apply (step_sub c m c1 m1 ext nd (f a1)); cbn; auto.
    - unfold entries at 1. cbn. rewrite A4, E5. unfold entries in A3. rewrite A3. reflexivity.
    - intros z Hz. apply (asdict_incl c1 ext (entries c) (st_inv _ _ _ _ _ _ _ S1) (st_abs _ _ _ _ _ _ _ S1)), Inc, Hz.
  Qed.

  (** importing a module adds slots and definitions of its own *)
  Definition import_fine : Prop := forall p m md m', import_module p m = (Done md, m') ->
    m_next m <= m_next m' /\ exists nd, m_defs m' = m_defs m ++ nd /\
      forall h x, In h nd -> In x (writes_def h) -> m_next m <= x < m_next m'.
  Hypothesis IMP : import_fine.

  Lemma step_import p c m md m' : sound c -> import_module p m = (Done md, m') -> exists nd, step c m c m' [] nd [].
  Proof.
    intros I E. destruct (IMP _ _ _ _ E) as (L & nd & D & H). exists nd. split; try reflexivity; auto.
    - intros y i [].
    - intros y i y' i' [].
    - intros h x Hh Hx. split; [apply (H h x Hh Hx)|]. intros y i [].
    - intros x [].
  Qed.
  Lemma an_import_steps path i : steps_by writes_import (an_import import_module path i).
  Proof.
    intros c m a c' m' I F E. unfold an_import in E. apply abind_inv in E. destruct E as (md & c1 & m1 & E1 & E).
    apply bind_done_inv in E1. destruct E1 as (md' & m1' & E1 & [= -> <- <-]).
    destruct (step_import _ c _ _ _ I E1) as (nd & S1). destruct i as [sl|y rn sl].
    - apply abind_inv in E. destruct E as (vals & c2 & m2 & E2 & E). apply aread_inv in E2. destruct E2 as (_ & -> & ->).
      apply abind_inv in E. destruct E as (l & c3 & m3 & E3 & E). apply aret_inv in E. destruct E as (-> & -> & ->). cbn.
      assert (G : Forall (fun yv => steps_by (fun xv : slot * val => [fst xv]) (let (y, v) := (yv : str * val) in abind (new_slot (W := W) y) (fun x => aret (x, v)))) vals).
      { apply Forall_forall. intros [y v] _ c0 m0 [x w] c0' m0' I0 F0 E0. apply abind_inv in E0. destruct E0 as (x0 & c1 & m1 & Ex & E0).
        apply aret_inv in E0. destruct E0 as ([= -> ->] & -> & ->). eexists _, _. apply (new_slot_step _ _ _ _ _ _ I0 Ex). }
      destruct (steps_amap _ _ _ G _ _ _ _ _ I F E3) as (e2 & d2 & S2). exists (e2 ++ []), (nd ++ d2).
      eapply step_ws; [apply (step_trans _ _ _ _ _ _ _ _ _ _ _ _ S1 S2)|]. cbn.
      intros x Hx. apply in_map_iff in Hx. destruct Hx as (xv & <- & Hx). apply in_flat_map. exists xv. split; [exact Hx|left; reflexivity].
    - destruct (dget str_eqb y (mod_symbols md)) as [v|]; [|apply aread_inv in E; destruct E as [E _]; discriminate].
      apply abind_inv in E. destruct E as (w & c2 & m2 & E2 & E). apply aread_inv in E2. destruct E2 as (_ & -> & ->).
      apply abind_inv in E. destruct E as (x & c3 & m3 & E3 & E). apply aret_inv in E. destruct E as (-> & -> & ->). cbn.
      destruct (new_slot_step _ _ _ _ _ _ I E3) as (S2 & _). eexists _, _. apply (step_trans _ _ _ _ _ _ _ _ _ _ _ _ S1 S2).
  Qed.
  Lemma an_context_steps i : steps_by writes_import (an_context context i).
  Proof.
    intros c m a c' m' I F E. unfold an_context in E. destruct i as [sl|y rn sl]; [apply aread_inv in E; destruct E as [E _]; discriminate|].
    destruct (dget str_eqb y context) as [v|]; [|apply aread_inv in E; destruct E as [E _]; discriminate].
    apply abind_inv in E. destruct E as (x & c3 & m3 & E3 & E). apply aret_inv in E. destruct E as (-> & -> & ->). cbn.
    destruct (new_slot_step _ _ _ _ _ _ I E3) as (S2 & _). eexists _, _. exact S2.
  Qed.

  Lemma control_steps {A} f (x : AM A) : steps_by f x -> steps_by f (control x).
  Proof.
    intros X c m a c' m' I F E. unfold control in E.
    apply abind_inv in E. destruct E as (t & c0 & m0 & E0 & E). apply amod_inv in E0. destruct E0 as (-> & ->).
    apply abind_inv in E. destruct E as (a1 & c1 & m1 & E1 & E).
    apply abind_inv in E. destruct E as (t2 & c2 & m2 & E2 & E). apply amod_inv in E2. destruct E2 as (-> & ->).
    apply aret_inv in E. destruct E as (-> & -> & ->).
    destruct (X (enter_control c) m a1 c1 m1 I F E1) as (ext & nd & [I1 A1 R1 C1 H1 P1 N1 D1 G1 J1 F1 S1]). exists ext, nd.
    split; auto. unfold leave_control. cbn in *. rewrite C1. reflexivity.
  Qed.

  (** a computation one level deeper, whose names are dropped; everything it writes is new *)
  Lemma inner_step c m c1 m1 ext nd ws k : sound c -> fit c -> k = c \/ k = Ctx (c_md c) (c_regular c) (c_control c) (S (c_hyper c)) (c_prolog c) ->
    step (enter_regular k) m c1 m1 ext nd ws ->
    (forall x, In x ws -> m_next m <= x < m_next m1) /\ (forall h x, In h nd -> In x (writes_def h) -> m_next m <= x < m_next m1).
  Proof.
    intros I F K [I1 A1 R1 C1 H1 P1 N1 D1 E1 J1 F1 S1].
    assert (KE : entries (enter_regular k) = entries c /\ c_regular (enter_regular k) = S (c_regular c)) by (destruct K as [->| ->]; split; reflexivity).
    destruct KE as [KE KR]. split.
    - intros x Hx. destruct (S1 _ Hx) as [L|(y & i & Q & D & _)]; [exact L|]. rewrite KE in Q. apply F in Q. lia.
    - intros h x Hh Hx. apply (F1 h x Hh Hx).
  Qed.

  Lemma all_of_Forall {A} (f : A -> Prop) l : all_of f l <-> Forall f l.
  Proof.
    induction l as [|x l IH]; cbn; [split; [constructor|trivial]|]. rewrite IH. split; [intros [H1 H2]; constructor; assumption|].
    intros H. inversion H; subst. split; assumption.
  Qed.
  Lemma Forall_use {A} (f g : A -> Prop) l : Forall (fun x => f x -> g x) l -> all_of f l -> Forall g l.
  Proof. intros H K. apply all_of_Forall in K. induction H; inversion K; subst; constructor; auto. Qed.

  Definition w_clause (cy : expr * option body) : list slot := match snd cy with Some y => writes_body y | None => [] end.
  Definition w_opt (o : option body) : list slot := match o with Some y => writes_body y | None => [] end.

  Lemma attrs_steps (l : list attrdef) :
    steps_by (flat_map (fun a : str * option expr * slot => [snd a]))
      (amap (W := W) (fun a => abind (new_slot2 (VAR (a_name a))) (fun x => aret (a_name a, a_default a, x))) l).
  Proof.
    apply steps_amap, Forall_forall. intros a _ c0 m0 r c0' m0' I0 F0 E0. apply abind_inv in E0. destruct E0 as (x0 & c1 & m1 & Ex & E0).
    apply aret_inv in E0. destruct E0 as (-> & -> & ->). eexists _, _. apply (new_slot2_step _ _ _ _ _ _ I0 Ex).
  Qed.
  Lemma flat_single {A} (l : list (A * slot)) : flat_map (fun a => [snd a]) l = map snd l.
  Proof. induction l as [|a l IH]; cbn; [reflexivity|]. rewrite IH. reflexivity. Qed.

  Lemma an_steps :
    (forall b, raw_block b -> steps_by writes_block (an_block import_module context b)) /\
    (forall y, raw_body y -> steps_by writes_body (an_body import_module context y)) /\
    (forall i, raw_item i -> steps_by writes_item (an_item import_module context i)).
  Proof.
    assert (OPT : forall o, on_opt (fun y => steps_by writes_body (an_body import_module context y)) o ->
      steps_by w_opt (match o with Some y => abind (an_body import_module context y) (fun y => aret (Some y)) | None => aret None end)).
    { intros [y|] H c m a c' m' I F E; cbn in H.
      - apply abind_inv in E. destruct E as (y1 & c1 & m1 & E1 & E). apply aret_inv in E. destruct E as (-> & -> & ->). apply (H _ _ _ _ _ I F E1).
      - apply aret_inv in E. destruct E as (-> & -> & ->). exists [], []. apply step_refl, I. }
    assert (OPTB : forall o, on_opt (fun y => steps_by writes_body (an_body import_module context y)) o ->
      steps_by w_opt (match o with Some y => abind (branch (an_body import_module context y)) (fun y => aret (Some y)) | None => aret None end)).
    { intros [y|] H c m a c' m' I F E; cbn in H.
      - apply abind_inv in E. destruct E as (y1 & c1 & m1 & E1 & E). apply aret_inv in E. destruct E as (-> & -> & ->).
        apply (branch_steps _ _ H _ _ _ _ _ I F E1).
      - apply aret_inv in E. destruct E as (-> & -> & ->). exists [], []. apply step_refl, I. }
    assert (CL : forall t (o : option body), on_opt (fun y => steps_by writes_body (an_body import_module context y)) o ->
      steps_by w_clause (branch (abind (aread (fun c => an_expr c t)) (fun t =>
        abind (match o with Some y => abind (an_body import_module context y) (fun y => aret (Some y)) | None => aret None end) (fun y => aret (t, y)))))).
    { intros t o H. apply branch_steps. intros c m a c' m' I F E.
      apply abind_inv in E. destruct E as (t1 & c1 & m1 & E1 & E). apply aread_inv in E1. destruct E1 as (_ & -> & ->).
      apply abind_inv in E. destruct E as (y1 & c2 & m2 & E2 & E). apply aret_inv in E. destruct E as (-> & -> & ->).
      apply (OPT o H _ _ _ _ _ I F E2). }
    assert (NOTHING : forall A (f : ctx -> result A) (g : A -> block), (forall a, writes_block (g a) = []) ->
      steps_by writes_block (abind (aread f) (fun a => aret (W := W) (g a)))).
    { intros A f g G c m a c' m' I F E. apply abind_inv in E. destruct E as (t1 & c1 & m1 & E1 & E). apply aread_inv in E1. destruct E1 as (_ & -> & ->).
      apply aret_inv in E. destruct E as (-> & -> & ->). rewrite G. exists [], []. apply step_refl, I. }
    assert (NOTHING0 : forall b, writes_block b = [] -> steps_by writes_block (aret (W := W) b)).
    { intros b G c m a c' m' I F E. apply aret_inv in E. destruct E as (-> & -> & ->). rewrite G. exists [], []. apply step_refl, I. }
    assert (RO : forall o, on_opt (fun y => raw_body y -> steps_by writes_body (an_body import_module context y)) o ->
      match o with Some y => raw_body y | None => True end -> on_opt (fun y => steps_by writes_body (an_body import_module context y)) o).
    { intros [y|] H K; cbn in *; auto. }
    apply block_body_item_ind.
    - intros lead l _. apply NOTHING. reflexivity.
    - intros _. apply NOTHING0. reflexivity.
    - intros e _. apply NOTHING. reflexivity.
    - (* tagged block *)
      intros tags y Hy RW c m a c' m' I F E. cbn [an_block] in E.
      apply abind_inv in E. destruct E as (t & c0 & m0 & E0 & E). apply amod_inv in E0. destruct E0 as (-> & ->).
      apply abind_inv in E. destruct E as (p & c1 & m1 & E1 & E). apply aposition_inv in E1. destruct E1 as (-> & -> & ->).
      apply abind_inv in E. destruct E as (tags' & c2 & m2 & E2 & E). apply aread_inv in E2. destruct E2 as (_ & -> & ->).
      apply abind_inv in E. destruct E as (y' & c3 & m3 & E3 & E).
      assert (F' : fit (enter_regular c)) by (intros z i H; apply F in H; cbn; lia).
      destruct (Hy RW _ _ _ _ _ (I : sound (enter_regular c)) F' E3) as (ext & nd & S1).
      destruct (inner_step c m c3 m3 ext nd (writes_body y') c I F (or_introl eq_refl) S1) as [K1 K2].
      apply abind_inv in E. destruct E as (t4 & c4 & m4 & E4 & E). destruct S1 as [I1 A1 R1 C1 H1 P1 N1 D1 G1 J1 F1 S1].
      destruct (areset_inv _ _ _ _ _ ext (entries c) I1 A1 E4) as (-> & I4 & A4 & B1 & B2 & B3 & B4).
      apply abind_inv in E. destruct E as (t5 & c5 & m5 & E5 & E). apply amod_inv in E5. destruct E5 as (-> & ->).
      apply aret_inv in E. destruct E as (-> & -> & ->). cbn in *. exists [], nd. split; cbn; auto; try congruence.
      + rewrite B1, R1. reflexivity.
      + intros Q. apply P1. congruence.
      + intros z i [].
      + intros z i z' i' [].
      + intros h x Hh Hx. split; [apply (K2 h x Hh Hx)|]. intros z i [].
    - (* definition *)
      intros d n ab ar y Hy RW c m a c' m' I F E. cbn [an_block] in E.
      apply abind_inv in E. destruct E as (t & c0 & m0 & E0 & E). apply aread_inv in E0. destruct E0 as (_ & -> & ->).
      apply abind_inv in E. destruct E as (t1 & c0 & m0 & E0 & E). apply amod_inv in E0. destruct E0 as (-> & ->).
      apply abind_inv in E. destruct E as (t2 & c0 & m0 & E0 & E). apply amod_inv in E0. destruct E0 as (-> & ->).
      apply abind_inv in E. destruct E as (p & c1 & m1 & E1 & E). apply aposition_inv in E1. destruct E1 as (-> & -> & ->).
      apply abind_inv in E. destruct E as (dfl & c1 & m1 & E1 & E). apply aread_inv in E1. destruct E1 as (_ & -> & ->).
      set (k := Ctx (c_md c) (c_regular c) (c_control c) (S (c_hyper c)) (c_prolog c)) in *.
      change (enter_hyper (enter_regular c)) with (enter_regular k) in *.
      assert (F' : fit (enter_regular k)) by (intros z i H; apply F in H; cbn; lia).
      assert (I' : sound (enter_regular k)) by exact I.
      apply abind_inv in E. destruct E as (ab' & c2 & m2 & E2 & E).
      assert (S2 : exists e2 d2, step (enter_regular k) m c2 m2 e2 d2 (on_some (fun nx : str * slot => [snd nx]) ab')).
      { destruct ab as [[bn bx]|].
        - apply abind_inv in E2. destruct E2 as (x & c2' & m2' & E2 & E2'). apply aret_inv in E2'. destruct E2' as (-> & -> & ->).
          eexists _, _. apply (new_slot2_step _ _ _ _ _ _ I' E2).
        - apply aret_inv in E2. destruct E2 as (-> & -> & ->). exists [], []. apply step_refl, I'. }
      destruct S2 as (e2 & d2 & S2).
      apply abind_inv in E. destruct E as (regul & c3 & m3 & E3 & E).
      destruct (attrs_steps dfl _ _ _ _ _ (st_inv _ _ _ _ _ _ _ S2) (step_fit _ _ _ _ _ _ _ S2 F') E3) as (e3 & d3 & S3).
      assert (S23 := step_trans _ _ _ _ _ _ _ _ _ _ _ _ S2 S3). 
      apply abind_inv in E. destruct E as (y' & c4 & m4 & E4 & E).
      destruct (Hy RW _ _ _ _ _ (st_inv _ _ _ _ _ _ _ S23) (step_fit _ _ _ _ _ _ _ S23 F') E4) as (e4 & d4 & S4).
      assert (S1 := step_trans _ _ _ _ _ _ _ _ _ _ _ _ S23 S4). clear S23 S2 S3 S4.
      destruct (inner_step c m c4 m4 _ _ _ k I F (or_intror eq_refl) S1) as [K1 K2].
      apply abind_inv in E. destruct E as (t5 & c5 & m5 & E5 & E). destruct S1 as [I1 A1 R1 C1 H1 P1 N1 D1 G1 J1 F1 S1].
      destruct (areset_inv _ _ _ _ _ _ (entries c) I1 A1 E5) as (-> & I5 & A5 & B1 & B2 & B3 & B4).
      apply abind_inv in E. destruct E as (t6 & c6 & m6 & E6 & E). apply amod_inv in E6. destruct E6 as (-> & ->).
      apply abind_inv in E. destruct E as (t7 & c7 & m7 & E7 & E). apply amod_inv in E7. destruct E7 as (-> & ->).
      apply abind_inv in E. destruct E as (dn & c8 & m8 & E8 & E).
      set (h := {| h_name := n; h_body := ab'; h_regul := regul; h_block := y' |}) in *.
      injection E8 as <- <- <-.
      apply abind_inv in E. destruct E as (x & c9 & m9 & E9 & E). apply aret_inv in E. destruct E as (-> & -> & ->). cbn [writes_block].
      set (nd := (d2 ++ d3) ++ d4) in *.
      assert (SD : step c m (leave_regular (leave_hyper c5)) (with_defs m4 (m_defs m4 ++ [h])) [] (nd ++ [h]) []).
      { split; cbn; auto.
        - rewrite B1, R1. reflexivity.
        - rewrite B2, C1. reflexivity.
        - rewrite B3, H1. reflexivity.
        - intros Q. apply P1. congruence.
        - rewrite D1, app_assoc. reflexivity.
        - intros z i [].
        - intros z i z' i' [].
        - intros h' x' Hh Hx. split; [|intros z i []]. apply in_app_or in Hh. destruct Hh as [Hh|[<-|[]]]; [apply (K2 h' x' Hh Hx)|].
          apply K1. unfold writes_def, h in Hx. cbn in Hx. rewrite flat_single. rewrite <- app_assoc. exact Hx.
        - intros x' []. }
      destruct (new_slot_step _ _ _ _ _ _ (st_inv _ _ _ _ _ _ _ SD) E9) as (SX & _).
      eexists _, _. apply (step_trans _ _ _ _ _ _ _ _ _ _ _ _ SD SX).
    - intros p l _ c m a c' m' I F E. cbn [an_block] in E.
      apply abind_inv in E. destruct E as (t & c0 & m0 & E0 & E). apply aread_inv in E0. destruct E0 as (_ & -> & ->).
      apply abind_inv in E. destruct E as (l' & c1 & m1 & E1 & E). apply aret_inv in E. destruct E as (-> & -> & ->). cbn.
      apply (steps_amap _ (an_import import_module p) l); [|exact I|exact F|exact E1]. apply Forall_forall. intros i _. apply an_import_steps.
    - intros l _ c m a c' m' I F E. cbn [an_block] in E.
      apply abind_inv in E. destruct E as (t & c0 & m0 & E0 & E). apply aread_inv in E0. destruct E0 as (_ & -> & ->).
      apply abind_inv in E. destruct E as (l' & c1 & m1 & E1 & E). apply aret_inv in E. destruct E as (-> & -> & ->). cbn.
      apply (steps_amap _ (an_context context) l); [|exact I|exact F|exact E1]. apply Forall_forall. intros i _. apply an_context_steps.
    - intros l H RW c m a c' m' I F E. cbn [an_block raw_block] in *. apply (Forall_use _ _ _ H) in RW. apply abind_inv in E. destruct E as (ys & c1 & m1 & E1 & E).
      apply aret_inv in E. destruct E as (-> & -> & ->). cbn.
      refine (control_steps _ _ _ _ _ _ _ _ I F E1). apply steps_amap. eapply Forall_impl; [|exact RW]. intros y Hy. apply branch_steps, Hy.
    - intros l els H He [RW RE] c m a c' m' I F E. cbn [an_block] in E. apply (RO _ He) in RE. apply abind_inv in E. destruct E as (r & c1 & m1 & E1 & E).
      apply aret_inv in E. destruct E as (-> & -> & ->). 
      refine (control_steps (fun r => flat_map w_clause (fst r) ++ w_opt (snd r)) _ _ _ _ _ _ _ I F E1). clear - H RW RE CL OPTB RO.
      intros c m a c' m' I F E. apply abind_inv in E. destruct E as (cs & c1 & m1 & E1 & E).
      apply abind_inv in E. destruct E as (els' & c2 & m2 & E2 & E). apply aret_inv in E. destruct E as (-> & -> & ->).
      assert (S1 : exists e d, step c m c1 m1 e d (flat_map w_clause cs)).
      { refine (steps_amap w_clause _ l _ _ _ _ _ _ I F E1). apply (Forall_use (fun cy => match snd cy with Some y => raw_body y | None => True end)); [|exact RW].
        eapply Forall_impl; [|exact H]. intros [t y] Hy RY. apply CL, RO; assumption. }
      destruct S1 as (e1 & d1 & S1).
      destruct (OPTB els RE _ _ _ _ _ (st_inv _ _ _ _ _ _ _ S1) (step_fit _ _ _ _ _ _ _ S1 F) E2) as (e2 & d2 & S2).
      eexists _, _. apply (step_trans _ _ _ _ _ _ _ _ _ _ _ _ S1 S2).
    - intros t y els Hy He [RY RE] c m a c' m' I F E. cbn [an_block] in E. apply (RO _ He) in RE. apply (RO _ Hy) in RY. apply abind_inv in E. destruct E as (r & c1 & m1 & E1 & E).
      apply aret_inv in E. destruct E as (-> & -> & ->). 
      refine (control_steps (fun r => w_opt (snd (fst r)) ++ w_opt (snd r)) _ _ _ _ _ _ _ I F E1). clear - RY RE CL OPTB.
      intros c m a c' m' I F E. apply abind_inv in E. destruct E as (ty & c1 & m1 & E1 & E).
      apply abind_inv in E. destruct E as (els' & c2 & m2 & E2 & E). apply aret_inv in E. destruct E as (-> & -> & ->).
      destruct (CL t y RY _ _ _ _ _ I F E1) as (e1 & d1 & S1).
      destruct (OPTB els RE _ _ _ _ _ (st_inv _ _ _ _ _ _ _ S1) (step_fit _ _ _ _ _ _ _ S1 F) E2) as (e2 & d2 & S2).
      eexists _, _. apply (step_trans _ _ _ _ _ _ _ _ _ _ _ _ S1 S2).
    - intros ts e y els Hy He [RY RE] c m a c' m' I F E. cbn [an_block] in E. apply abind_inv in E. destruct E as ([[[e1 ts1] y1] els1] & c1 & m1 & E1 & E).
      apply aret_inv in E. destruct E as (-> & -> & ->).
      refine (control_steps (fun r : expr * target * option body * option body => let '(e, ts, y, els) := r in writes_target ts ++ w_opt y ++ w_opt els) _ _ _ _ _ _ _ I F E1).
      clear - RY RE Hy He. intros c m a c' m' I F E. apply abind_inv in E. destruct E as (e1 & c0 & m0 & E0 & E). apply aread_inv in E0. destruct E0 as (_ & -> & ->).
      apply abind_inv in E. destruct E as (ts1 & c1 & m1 & E1 & E). destruct (an_target_steps _ _ _ _ _ _ I F E1) as (x1 & d1 & S1).
      assert (I1 := st_inv _ _ _ _ _ _ _ S1). assert (F1 := step_fit _ _ _ _ _ _ _ S1 F). destruct y as [y|].
      + apply abind_inv in E. destruct E as (y1 & c2 & m2 & E2 & E). apply aret_inv in E. destruct E as (-> & -> & ->).
        destruct (Hy RY _ _ _ _ _ I1 F1 E2) as (x2 & d2 & S2). eexists _, _.
        assert (X : w_opt els = []) by (destruct els as [z|]; [exact (proj2 RE)|reflexivity]). rewrite X, app_nil_r.
        apply (step_trans _ _ _ _ _ _ _ _ _ _ _ _ S1 S2).
      + destruct els as [z|].
        * apply abind_inv in E. destruct E as (y1 & c2 & m2 & E2 & E). apply aret_inv in E. destruct E as (-> & -> & ->).
          destruct (He (proj1 RE) _ _ _ _ _ I1 F1 E2) as (x2 & d2 & S2). eexists _, _. apply (step_trans _ _ _ _ _ _ _ _ _ _ _ _ S1 S2).
        * apply aret_inv in E. destruct E as (-> & -> & ->). exists x1, d1. cbn. rewrite app_nil_r. exact S1.
    - intros e _. apply NOTHING. reflexivity.
    - intros ts o e _ c m a c' m' I F E. cbn [an_block] in E.
      apply abind_inv in E. destruct E as (e1 & c0 & m0 & E0 & E). apply aread_inv in E0. destruct E0 as (_ & -> & ->).
      apply abind_inv in E. destruct E as (ts1 & c1 & m1 & E1 & E). apply aret_inv in E. destruct E as (-> & -> & ->). cbn.
      apply (an_target_steps _ _ _ _ _ _ I F E1).
    - intros _. apply NOTHING0. reflexivity.
    - intros l H RW c m a c' m' I F E. cbn [an_body raw_body] in *. apply (Forall_use _ _ _ H) in RW. apply abind_inv in E. destruct E as (l' & c1 & m1 & E1 & E).
      apply aret_inv in E. destruct E as (-> & -> & ->). cbn. apply (steps_amap _ _ _ RW _ _ _ _ _ I F E1).
    - intros b H RW c m a c' m' I F E. cbn [an_body] in E. apply abind_inv in E. destruct E as (l' & c1 & m1 & E1 & E).
      apply aret_inv in E. destruct E as (-> & -> & ->). cbn. apply (H RW _ _ _ _ _ I F E1).
    - intros [y|] H RW c m a c' m' I F E; cbn [an_body] in E.
      + apply abind_inv in E. destruct E as (l' & c1 & m1 & E1 & E).
        apply aret_inv in E. destruct E as (-> & -> & ->). cbn. apply (H RW _ _ _ _ _ I F E1).
      + apply aret_inv in E. destruct E as (-> & -> & ->). exists [], []. apply step_refl, I.
    - intros l _ c m a c' m' I F E. cbn [an_item] in E. apply abind_inv in E. destruct E as (l' & c1 & m1 & E1 & E).
      apply aread_inv in E1. destruct E1 as (_ & -> & ->). apply aret_inv in E. destruct E as (-> & -> & ->). exists [], []. apply step_refl, I.
    - intros ch _ c m a c' m' I F E. apply aret_inv in E. destruct E as (-> & -> & ->). exists [], []. apply step_refl, I.
    - intros ch _ c m a c' m' I F E. apply aret_inv in E. destruct E as (-> & -> & ->). exists [], []. apply step_refl, I.
    - intros ch _ c m a c' m' I F E. apply aret_inv in E. destruct E as (-> & -> & ->). exists [], []. apply step_refl, I.
    - intros mg md b Hb RW c m a c' m' I F E. cbn [an_item] in E. apply abind_inv in E. destruct E as (t & c0 & m0 & E0 & E).
      apply amod_inv in E0. destruct E0 as (-> & ->). apply abind_inv in E. destruct E as (b1 & c1 & m1 & E1 & E).
      apply aret_inv in E. destruct E as (-> & -> & ->). cbn.
      destruct (c_prolog c && negb (prolog_block b)); [|apply (Hb RW _ _ _ _ _ I F E1)].
      destruct (Hb RW (end_prolog c) m b1 c1 m1 I F E1) as (e & d & [I1 A1 R1 C1 H1 P1 N1 D1 G1 J1 F1 S1]). exists e, d.
      split; auto. intros Q. apply P1 in Q. discriminate.
  Qed.

  (** ** Contexts reached by an analysis: every slot belongs to one symbol *)
  Definition keyed (c : ctx) (m : mach W) : Prop :=
    (forall y i, In (y, i) (entries c) -> sl_id i < m_next m) /\
    (forall y i y' i', In (y, i) (entries c) -> In (y', i') (entries c) -> sl_id i = sl_id i' -> y = y').
  Lemma keyed_empty m : keyed new_ctx m.
  Proof. split; [intros y i []|intros y i y' i' []]. Qed.
  Lemma keyed_step c m c' m' ext nd ws : step c m c' m' ext nd ws -> keyed c m -> keyed c' m'.
  Proof.
    intros [I1 A1 R1 C1 H1 P1 N1 D1 E1 J1 F1 S1] [K1 K2]. split.
    - intros y i H. rewrite A1 in H. apply in_app_or in H. destruct H as [H|H]; [apply (E1 y i H)|]. apply K1 in H. lia.
    - intros y i y' i' H H' E. rewrite A1 in H, H'. apply in_app_or in H. apply in_app_or in H'. destruct H as [H|H], H' as [H'|H'].
      + eauto.
      + destruct (E1 _ _ H) as [_ L]. apply K1 in H'. lia.
      + destruct (E1 _ _ H') as [_ L]. apply K1 in H. lia.
      + eauto.
  Qed.
End Analysis.
