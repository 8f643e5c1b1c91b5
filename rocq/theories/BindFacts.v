(** Lemmas for C04 (merging), C37 and C43: assignments to variables. *)
From Coq Require Import List NArith ZArith Bool Arith Lia.
From Verif Require Import PyStr PyStrFacts Html PyDict Value Dom Ast AstInd Machine MachineFacts Eval Translate BlockFacts ExprSpec ExprFacts.
Import ListNotations.

Section Assign.
  Context {W : Type}.
  Variable P : prims W.

  Lemma last_of_app {B} x (b b' : list (nat * B)) :
    last_of x (b ++ b') = match last_of x b' with Some v => Some v | None => last_of x b end.
  Proof.
    induction b as [|[y v] b IH]; cbn; [destruct (last_of x b'); reflexivity|]. rewrite IH.
    destruct (last_of x b'); [reflexivity|]. destruct (last_of x b); reflexivity.
  Qed.
  Lemma last_of_In {B} x (v : B) b : last_of x b = Some v -> In (x, v) b.
  Proof.
    induction b as [|[y w] b IH]; cbn; [discriminate|]. destruct (last_of x b) as [v'|].
    - intros [= ->]. right. apply IH. reflexivity.
    - destruct (Nat.eqb x y) eqn:E; [|discriminate]. apply Nat.eqb_eq in E. subst. intros [= ->]. left. reflexivity.
  Qed.
  Lemma last_of_none {B} x (b : list (nat * B)) : last_of x b = None <-> ~ In x (map fst b).
  Proof.
    induction b as [|[y w] b IH]; cbn; [tauto|]. destruct (last_of x b) as [v'|].
    - split; [discriminate|]. intros H. exfalso. apply H. right.
      destruct (in_dec Nat.eq_dec x (map fst b)) as [K|K]; [exact K|]. apply IH in K. discriminate.
    - destruct (Nat.eqb x y) eqn:E.
      + apply Nat.eqb_eq in E. subst. split; [discriminate|]. intros H. exfalso. apply H. left. reflexivity.
      + apply Nat.eqb_neq in E. split; [|reflexivity]. intros _ [H|H]; [congruence|]. apply (proj1 IH eq_refl H).
  Qed.
  Lemma last_of_nodup {B} x (v : B) b : NoDup (map fst b) -> In (x, v) b -> last_of x b = Some v.
  Proof.
    induction b as [|[y w] b IH]; cbn; intros N H; [destruct H|]. inversion N; subst. destruct H as [[= -> ->]|H].
    - destruct (last_of x b) eqn:E; [|rewrite Nat.eqb_refl; reflexivity]. apply last_of_In in E. exfalso. apply H2.
      apply (in_map fst) in E. exact E.
    - rewrite (IH H3 H). reflexivity.
  Qed.

  Lemma assigned_refl s (m : mach W) : assigned s [] m m.
  Proof.
    split; [|split; [|split; [|split]]]; try reflexivity. destruct m. reflexivity.
  Qed.
  Lemma assigned_trans s b b' (m m1 m2 : mach W) : assigned s b m m1 -> assigned s b' m1 m2 -> assigned s (b ++ b') m m2.
  Proof.
    intros (V1 & I1 & O1 & L1 & E1) (V2 & I2 & O2 & L2 & E2). split; [|split; [|split; [|split]]].
    - intros x. rewrite V2, V1, last_of_app. destruct (last_of x b'); [reflexivity|]. destruct (last_of x b); reflexivity.
    - congruence.
    - intros s' N. rewrite O2, O1 by exact N. reflexivity.
    - congruence.
    - rewrite E2, E1. reflexivity.
  Qed.
  Lemma assigned_set s x v (m : mach W) : s < List.length (m_states m) ->
    exists m', set_slot s x v m = (Done tt, m') /\ assigned s [(x, v)] m m'.
  Proof.
    intros L. eexists. split; [reflexivity|]. split; [|split; [|split; [|split]]].
    - intros y. unfold slot_value. rewrite state_put_same by exact L. cbn [s_vals].
      rewrite (dget_dset Nat.eqb Nat.eqb_eq). cbn. destruct (Nat.eqb y x); reflexivity.
    - rewrite state_put_same by exact L. reflexivity.
    - intros s' N. rewrite state_put_other by congruence. reflexivity.
    - apply put_nth_length.
    - reflexivity.
  Qed.
  Lemma assigned_heap s b (m m' : mach W) : assigned s b m m' -> m_heap m' = m_heap m /\ m_world m' = m_world m.
  Proof. intros (_ & _ & _ & _ & E). rewrite E. split; reflexivity. Qed.

  (** ** Unpacking *)
  Definition assign_all (s : nat) (err : option exn) : list target -> list val -> M W unit :=
    fix go (ts : list target) (items : list val) : M W unit :=
      match items, ts with
      | [], [] => match err with Some e => exc e | None => ret tt end
      | [], _ :: _ => match err with Some e => exc e | None => exc ValueError end
      | _ :: _, [] => exc ValueError
      | x :: items, t :: ts => _ <* assign P s t x ;; go ts items
      end.
  Lemma assign_many s ts v : List.length ts <> 1 ->
    assign P s (TTargets ts) v = (ie <* iterate P v ;; let (items, err) := (ie : list val * option exn) in assign_all s err ts items).
  Proof. destruct ts as [|t1 [|t2 ts]]; intros H; [reflexivity|contradiction H; reflexivity|reflexivity]. Qed.

  (** outcome of [x] in [m]: a success matches [ok] and makes exactly its assignments *)
  Definition agrees (s : nat) (ok : list (slot * val) -> Prop) (r : out unit * mach W) (m : mach W) : Prop :=
    match r with
    | (Done _, m') => exists b, ok b /\ assigned s b m m'
    | _ => forall b, ~ ok b
    end.
  Lemma iterate_spec : quiet_iter P -> forall v m,
    match iterate P v m with
    | (Done (l, None), m') => m' = m /\ items_in P (m_heap m) (m_world m) v l
    | (_, m') => m' = m /\ forall l, ~ items_in P (m_heap m) (m_world m) v l
    end.
  Proof.
    intros Q v m. destruct v; cbn; try (split; [reflexivity|constructor]); try (split; [reflexivity|intros l H; inversion H]).
    unfold lift_p. destruct (Q (VObj n) (m_heap m) (m_world m)) as [r E]. rewrite E, with_same_world.
    destruct r as [[l [e|]]|e|].
    - split; [reflexivity|]. intros l' H. inversion H. congruence.
    - split; [reflexivity|]. constructor. exact E.
    - split; [reflexivity|]. intros l' H. inversion H. congruence.
    - split; [reflexivity|]. intros l' H. inversion H. congruence.
  Qed.
  Lemma items_in_det h w v l l' : items_in P h w v l -> items_in P h w v l' -> l = l'.
  Proof. intros H H'. inversion H; subst; inversion H'; subst; try reflexivity. congruence. Qed.

  Lemma assign_spec : quiet_iter P -> forall s t v m, s < List.length (m_states m) ->
    agrees s (unpacks (items_in P (m_heap m) (m_world m)) t v) (assign P s t v m) m.
  Proof.
    intros Q s t. induction t as [n rd r w|ts IH] using target_ind'; intros v m L.
    - destruct w as [x|]; cbn [assign].
      + destruct (assigned_set s x v m L) as (m' & -> & A). exists [(x, v)]. split; [constructor|exact A].
      + intros b H. inversion H.
    - destruct (Nat.eq_dec (List.length ts) 1) as [E|N].
      + destruct ts as [|t1 [|t2 ts]]; try discriminate. inversion IH; subst.
        specialize (H1 v m L). cbn [assign]. unfold agrees in *. destruct (assign P s t1 v m) as [[[]|e|] m'].
        * destruct H1 as (b & U & A). exists b. split; [constructor; exact U|exact A].
        * intros b H. inversion H; subst; [apply (H1 b); assumption|]. cbn in *. congruence.
        * intros b H. inversion H; subst; [apply (H1 b); assumption|]. cbn in *. congruence.
      + rewrite (assign_many s ts v N), bind_eq. assert (I := iterate_spec Q v m).
        assert (inv : forall b, unpacks (items_in P (m_heap m) (m_world m)) (TTargets ts) v b ->
                 exists l, items_in P (m_heap m) (m_world m) v l /\ unpacks_all (items_in P (m_heap m) (m_world m)) ts l b).
        { intros b H. inversion H; subst; [contradiction N; reflexivity|]. exists l. split; assumption. }
        destruct (iterate P v m) as [[[l [e|]]|e|] m1].
        * destruct I as [-> I].
          assert (F : fst (assign_all s (Some e) ts l m) <> Done tt).
          { clear inv I IH N. revert m L l. induction ts as [|t ts IHts]; intros m L [|x l]; cbn [assign_all]; try (cbn; discriminate).
            rewrite bind_eq. destruct (assign P s t x m) as [[[]|e1|] m1] eqn:E; try (cbn; discriminate).
            apply IHts. assert (K := same_assign P s t x m _ _ E ltac:(discriminate)). destruct K as [K _]. lia. }
          unfold agrees. destruct (assign_all s (Some e) ts l m) as [[[]|e1|] m2]; [contradiction F; reflexivity| |];
            intros b H; destruct (inv b H) as (l' & I' & _); exact (I _ I').
        * destruct I as [-> I].
          assert (G : agrees s (unpacks_all (items_in P (m_heap m) (m_world m)) ts l) (assign_all s None ts l m) m).
          { clear N inv I v. revert l m L. induction IH as [|t ts Ht _ IHts]; intros [|x l] m L; cbn [assign_all].
            - exists []. split; [constructor|apply assigned_refl].
            - intros b H. inversion H.
            - intros b H. inversion H.
            - rewrite bind_eq. specialize (Ht x m L). unfold agrees in Ht |- *.
              destruct (assign P s t x m) as [[[]|e|] m1].
              + destruct Ht as (b & U & A). assert (A' := A). destruct A' as (_ & _ & _ & L1 & _).
                specialize (IHts l m1 ltac:(lia)). destruct (assigned_heap _ _ _ _ A) as [Eh Ew]. rewrite Eh, Ew in IHts.
                destruct (assign_all s None ts l m1) as [[[]|e|] m2].
                * destruct IHts as (b' & U' & A'). exists (b ++ b'). split; [constructor; assumption|eapply assigned_trans; eassumption].
                * intros b' H. inversion H; subst. eapply IHts. eassumption.
                * intros b' H. inversion H; subst. eapply IHts. eassumption.
              + intros b H. inversion H; subst. eapply Ht. eassumption.
              + intros b H. inversion H; subst. eapply Ht. eassumption. }
          unfold agrees in G |- *. destruct (assign_all s None ts l m) as [[[]|e|] m2].
          -- destruct G as (b & U & A). exists b. split; [|exact A]. apply unpacks_many with l; assumption.
          -- intros b H. destruct (inv b H) as (l' & I' & U). rewrite (items_in_det _ _ _ _ _ I' I) in U. exact (G _ U).
          -- intros b H. destruct (inv b H) as (l' & I' & U). rewrite (items_in_det _ _ _ _ _ I' I) in U. exact (G _ U).
        * destruct I as [-> I]. intros b H. destruct (inv b H) as (l' & I' & _). exact (I _ I').
        * destruct I as [-> I]. intros b H. destruct (inv b H) as (l' & I' & _). exact (I _ I').
  Qed.

  (** each value has one shape *)
  Lemma unpacks_det h w : forall t v b b', unpacks (items_in P h w) t v b -> unpacks (items_in P h w) t v b' -> b = b'.
  Proof.
    intros t. induction t as [n rd r x|ts IH] using target_ind'; intros v b b' H H'.
    - inversion H; subst. inversion H'; subst. reflexivity.
    - inversion H; subst; inversion H'; subst; cbn in *; try congruence.
      + inversion IH; subst. eapply H4; eassumption.
      + rewrite (items_in_det _ _ _ _ _ H2 H5) in *. clear H H' H1 H4 H2 H5. revert l0 b b' H3 H6.
        induction IH as [|t ts Ht _ IHts]; intros l0 b b' U U'; inversion U; subst; inversion U'; subst; [reflexivity|].
        f_equal; [eapply Ht; eassumption|eapply IHts; eassumption].
  Qed.
End Assign.

Lemma NoDup_app_both {A} (l r : list A) : NoDup l -> NoDup r -> (forall x, In x l -> ~ In x r) -> NoDup (l ++ r).
Proof.
  induction l as [|a l IH]; intros L R D; [exact R|]. inversion L; subst. cbn. constructor.
  - rewrite in_app_iff. intros [H|H]; [contradiction|]. apply (D a (or_introl eq_refl) H).
  - apply IH; [assumption|exact R|]. intros x X. apply D. right. exact X.
Qed.
Lemma NoDup_app_remove_r {A} (l r : list A) : NoDup (l ++ r) -> NoDup l.
Proof.
  induction l as [|a l IH]; intros H; [constructor|]. cbn in H. inversion H; subst. constructor; [|apply IH; assumption].
  intros X. apply H2, in_or_app. left. exact X.
Qed.

Lemma option_map_some {A B} (f : A -> B) o k : option_map f o = Some k -> exists a, o = Some a /\ f a = k.
Proof. destruct o as [a|]; intros H; [|discriminate]. injection H as <-. exists a. split; reflexivity. Qed.

Lemma combine_firstn {A B} (l : list A) (r : list B) : List.length r <= List.length l -> map fst (combine l r) = firstn (List.length r) l.
Proof. revert r. induction l as [|a l IH]; intros [|b r] H; cbn in *; try reflexivity; try lia. f_equal. apply IH. lia. Qed.
Lemma combine_nth_in {A B} (l : list A) (r : list B) j a b : nth_error l j = Some a -> nth_error r j = Some b -> In (a, b) (combine l r).
Proof.
  revert r j. induction l as [|x l IH]; intros [|y r] [|j] H H'; cbn in *; try discriminate.
  - injection H as <-. injection H' as <-. left. reflexivity.
  - right. apply (IH r j H H').
Qed.

Section Call.
  Context {W : Type}.
  Variable P : prims W.
  Variable n0 : nat.
  Notation expand := (expand_n P n0).
  Notation ev s := (eval P expand s).
  Notation SE := str_eqb.

  (** ** Binding of attributes *)
  Definition bind_go (kw : list (str * val)) : list str -> list val -> list (str * val) -> list (str * val)
    -> result (list (str * val) * list (str * val)) :=
    fix go (ns : list str) (vs : list val) (bound dom : list (str * val)) :=
      match vs, ns with
      | v :: vs, n :: ns =>
          if dmem SE n bound then Raise TypeError
          else go ns vs (dset SE n v bound) (dset SE n v dom)
      | _, _ => Ok (bound, dupdate SE dom kw)
      end.

  Lemma lookup_dget (n : str) (d : list (str * val)) : lookup n d = dget SE n d.
  Proof. induction d as [|[k v] d IH]; cbn; [reflexivity|]. rewrite IH. reflexivity. Qed.
  Lemma dset_new (n : str) (v : val) d : dmem SE n d = false -> dset SE n v d = d ++ [(n, v)].
  Proof.
    unfold dmem. induction d as [|[k w] d IH]; cbn; [reflexivity|]. destruct (SE n k); [discriminate|]. intros H. rewrite IH by exact H. reflexivity.
  Qed.
  Lemma dmem_app (n : str) (d e : list (str * val)) : dmem SE n (d ++ e) = dmem SE n d || dmem SE n e.
  Proof. unfold dmem. rewrite dget_app. destruct (dget SE n d); reflexivity. Qed.
  Lemma dmem_In (n : str) (d : list (str * val)) : dmem SE n d = true <-> In n (map fst d).
  Proof. apply (dmem_keys SE str_eqb_eq). Qed.

  Lemma bind_go_spec kw : forall ns vs bound dom, NoDup ns ->
    bind_go kw ns vs bound dom =
    if existsb (fun n => dmem SE n bound) (firstn (List.length vs) ns) then Raise TypeError
    else Ok (bound ++ combine ns vs, dupdate SE (dupdate SE dom (combine ns vs)) kw).
  Proof.
    induction ns as [|n ns IH]; intros [|v vs] bound dom N; cbn [bind_go List.length firstn existsb combine]; try (rewrite app_nil_r; reflexivity).
    inversion N as [|? ? N1 N2]; subst. destruct (dmem SE n bound) eqn:E; [reflexivity|]. cbn [orb].
    rewrite IH by exact N2. rewrite (dset_new n v bound E).
    assert (X : existsb (fun n1 => dmem SE n1 (bound ++ [(n, v)])) (firstn (List.length vs) ns) =
                existsb (fun n1 => dmem SE n1 bound) (firstn (List.length vs) ns)).
    { assert (N3 : ~ In n (firstn (List.length vs) ns)).
      { intros H. apply N1. rewrite <- (firstn_skipn (List.length vs) ns). apply in_or_app. left. exact H. }
      revert N3. generalize (firstn (List.length vs) ns). intros l. induction l as [|k l IHl]; intros H; cbn; [reflexivity|].
      rewrite IHl by (intros K; apply H; right; exact K). f_equal. rewrite dmem_app.
      unfold dmem at 2. cbn. destruct (SE k n) eqn:K; [|rewrite orb_false_r; reflexivity].
      apply str_eqb_eq in K. subst. exfalso. apply H. left. reflexivity. }
    rewrite X. clear X. set (c := existsb (fun n1 => dmem SE n1 bound) (firstn (List.length vs) ns)).
    change ((if c then Raise TypeError else Ok ((bound ++ [(n, v)]) ++ combine ns vs, dupdate SE (dupdate SE (dset SE n v dom) (combine ns vs)) kw)) =
      (if c then Raise TypeError else Ok (bound ++ (n, v) :: combine ns vs, dupdate SE (dupdate SE dom ((n, v) :: combine ns vs)) kw))).
    destruct c; [reflexivity|]. rewrite <- app_assoc. reflexivity.
  Qed.

  (** ** Defaults *)
  Notation formal := (str * option (M W val) * slot)%type.
  Notation formals s := (formals_of (ev s)).

  Lemma formals_names s l : map f_name (formals s l) = map (fun a => fst (fst a)) l.
  Proof. unfold formals_of. rewrite map_map. reflexivity. Qed.
  Lemma formals_slots s l : map f_slot (formals s l) = map snd l.
  Proof. unfold formals_of. rewrite map_map. reflexivity. Qed.

  (** [full] gives every formal attribute its value *)
  Definition gives (fs : list formal) (vs : list val) (full : list (str * val)) : Prop :=
    Forall2 (fun a v => dget SE (f_name a) full = Some v) fs vs.

  Lemma defaults_spec attrs kw s : forall l i bound m o m',
    NoDup (map (fun a => fst (fst a)) l) -> NoDup (map fst bound) ->
    (forall j a, nth_error l j = Some a -> dget SE (fst (fst a)) bound = given attrs kw (i + j) (fst (fst a))) ->
    add_defaults P expand s l bound m = (o, m') -> o <> Fuel ->
    (exists vs full, o = Done full /\ fill attrs kw i (formals s l) m vs m' /\ gives (formals s l) vs full /\
                     (forall n, ~ In n (map (fun a => fst (fst a)) l) -> dget SE n full = dget SE n bound) /\ NoDup (map fst full) /\
                     (forall n, In n (map fst full) -> In n (map fst bound) \/ In n (map (fun a => fst (fst a)) l))) \/
    (o = Exc TypeError /\ exists j a, nth_error (formals s l) j = Some a /\ snd (fst a) = None /\ given attrs kw (i + j) (f_name a) = None) \/
    (exists e, o = Exc e /\ fill_fails attrs kw i (formals s l) m e m').
  Proof.
    induction l as [|[[n d] x] l IH]; intros i bound m o m' N B G E NF.
    - cbn in E. injection E as <- <-. left. exists [], bound. cbn.
      split; [reflexivity|]. split; [constructor|]. split; [constructor|]. split; [reflexivity|]. split; [exact B|]. intros k H. left; exact H.
    - inversion N as [|? ? N1 N2]; subst. assert (G0 := G 0 (n, d, x) eq_refl). cbn [fst] in G0. rewrite Nat.add_0_r in G0.
      assert (step : forall v bound' m1,
                (forall k, dget SE k bound' = if SE k n then Some v else dget SE k bound) -> NoDup (map fst bound') ->
                (forall k, In k (map fst bound') -> In k (map fst bound) \/ k = n) ->
                add_defaults P expand s l bound' m1 = (o, m') ->
                (forall fs vs, fill attrs kw (S i) fs m1 vs m' -> fill attrs kw i ((n, option_map (ev s) d, x) :: fs) m (v :: vs) m') ->
                (forall fs e, fill_fails attrs kw (S i) fs m1 e m' -> fill_fails attrs kw i ((n, option_map (ev s) d, x) :: fs) m e m') ->
                (exists vs full, o = Done full /\ fill attrs kw i (formals s ((n, d, x) :: l)) m vs m' /\ gives (formals s ((n, d, x) :: l)) vs full /\
                     (forall k, ~ In k (map (fun a => fst (fst a)) ((n, d, x) :: l)) -> dget SE k full = dget SE k bound) /\ NoDup (map fst full) /\
                     (forall k, In k (map fst full) -> In k (map fst bound) \/ In k (map (fun a => fst (fst a)) ((n, d, x) :: l)))) \/
                (o = Exc TypeError /\ exists j a, nth_error (formals s ((n, d, x) :: l)) j = Some a /\ snd (fst a) = None /\ given attrs kw (i + j) (f_name a) = None) \/
                (exists e, o = Exc e /\ fill_fails attrs kw i (formals s ((n, d, x) :: l)) m e m')).
      { intros v bound' m1 D B' K E1 F1 F2.
        assert (G' : forall j a, nth_error l j = Some a -> dget SE (fst (fst a)) bound' = given attrs kw (S i + j) (fst (fst a))).
        { intros j a H. rewrite D. assert (Ne : SE (fst (fst a)) n = false).
          { apply str_eqb_neq. intros H1. apply N1. rewrite <- H1. apply (in_map (fun a => fst (fst a))), (nth_error_In _ _ H). }
          rewrite Ne. rewrite (G (S j) a H). f_equal. lia. }
        destruct (IH (S i) bound' m1 o m' N2 B' G' E1 NF) as [(vs & full & -> & F & Gv & Fr & ND & Ks)|[(-> & j & a & H1 & H2 & H3)|(e & -> & H)]].
        - left. exists (v :: vs), full. split; [reflexivity|]. split; [apply F1; exact F|]. split.
          + constructor; [|exact Gv]. cbn. rewrite (Fr n N1), D, str_eqb_refl. reflexivity.
          + split; [|split; [exact ND|]].
            * intros k H. cbn in H. rewrite Fr by tauto. rewrite D.
              destruct (SE k n) eqn:E2; [|reflexivity]. apply str_eqb_eq in E2. subst. tauto.
            * intros k H. cbn. destruct (Ks k H) as [H'|H']; [|tauto]. destruct (K k H') as [| ->]; tauto.
        - right; left. split; [reflexivity|]. exists (S j), a. cbn [formals_of map nth_error]. split; [exact H1|]. split; [exact H2|].
          rewrite <- H3. f_equal. lia.
        - right; right. exists e. split; [reflexivity|]. apply F2. exact H. }
      cbn [add_defaults mfold] in E. unfold add_defaults in E. cbn [mfold] in E. fold (add_defaults P expand s l) in E.
      destruct (dmem SE n bound) eqn:M.
      + rewrite bind_eq in E. cbn [ret] in E.
        unfold dmem in M. destruct (dget SE n bound) as [v|] eqn:Dn; [|discriminate].
        apply (step v bound m).
        * intros k. destruct (SE k n) eqn:E2; [|reflexivity]. apply str_eqb_eq in E2. subst. exact Dn.
        * exact B.
        * intros k H. left; exact H.
        * exact E.
        * intros fs vs H. apply fill_given; [symmetry; exact G0|exact H].
        * intros fs e H. eapply fail_given; [symmetry; exact G0|exact H].
      + assert (Dn : dget SE n bound = None) by (unfold dmem in M; destruct (dget SE n bound); [discriminate|reflexivity]).
        rewrite Dn in G0. destruct d as [d|].
        * apply bind_inv in E. destruct E as [(b1 & m1 & E1 & E2)|[(e & E & ->)|(_ & ->)]].
          -- apply bind_done_inv in E1. destruct E1 as (v & m2 & Ev & E1). injection E1 as <- <-.
             apply (step v (dset SE n v bound) m2).
             ++ intros k. apply (dget_dset SE str_eqb_eq).
             ++ apply (nodup_dset SE str_eqb_eq n v bound B).
             ++ intros k H. rewrite dset_new in H by exact M. rewrite map_app in H. apply in_app_or in H. cbn in H. intuition congruence.
             ++ exact E2.
             ++ intros fs vs H. eapply fill_default; [symmetry; exact G0|reflexivity|exact Ev|exact H].
             ++ intros fs e H. eapply fail_later; [symmetry; exact G0|reflexivity|exact Ev|exact H].
          -- apply bind_inv in E. destruct E as [(v & m2 & _ & E1)|[(e1 & Ev & [= <-])|(_ & E1)]]; [discriminate| |discriminate].
             right; right. exists e. split; [reflexivity|]. eapply fail_here; [symmetry; exact G0|reflexivity|exact Ev].
          -- contradiction NF; reflexivity.
        * cbn in E. injection E as <- <-. right; left. split; [reflexivity|]. exists 0, (n, None, x).
          split; [reflexivity|]. split; [reflexivity|]. rewrite Nat.add_0_r. symmetry. exact G0.
  Qed.

  (** ** Transfer to slots *)
  Lemma slot_of_in h nm d x : NoDup (map (fun a => fst (fst a)) (h_regul h)) -> In (nm, d, x) (h_regul h) -> slot_of h nm = Some x.
  Proof.
    unfold slot_of. generalize (h_regul h). intros l. induction l as [|[[k e] y] l IH]; intros N H; [destruct H|].
    cbn in N. inversion N as [|? ? N1 N2]; subst. cbn [find fst]. destruct H as [[= -> -> ->]|H].
    - rewrite str_eqb_refl. reflexivity.
    - destruct (SE nm k) eqn:E; [|apply IH; assumption]. apply str_eqb_eq in E. subst. exfalso. apply N1.
      apply (in_map (fun a => fst (fst a))) in H. exact H.
  Qed.
  Lemma transfer_spec h s : forall full (m : mach W), s < List.length (m_states m) ->
    (forall k, In k (map fst full) -> exists d x, In (k, d, x) (h_regul h)) ->
    NoDup (map (fun a => fst (fst a)) (h_regul h)) ->
    exists m', miter (set_attr s h) full m = (Done tt, m') /\
      assigned s (flat_map (fun nv => match slot_of h (fst nv) with Some x => [(x, snd nv)] | None => [] end) full) m m'.
  Proof.
    induction full as [|[k v] full IH]; intros m L H N.
    - exists m. split; [reflexivity|apply assigned_refl].
    - destruct (H k (or_introl eq_refl)) as (d & x & I). assert (E := slot_of_in h k d x N I).
      destruct (assigned_set s x v m L) as (m1 & E1 & A1). assert (L1 : s < List.length (m_states m1)).
      { destruct A1 as (_ & _ & _ & L1 & _). lia. }
      destruct (IH m1 L1 (fun j J => H j (or_intror J)) N) as (m2 & E2 & A2). exists m2. split.
      + cbn [miter]. rewrite bind_eq. unfold set_attr. cbn [fst snd]. rewrite E, E1. exact E2.
      + cbn [flat_map fst snd]. rewrite E. eapply assigned_trans; [exact A1|exact A2].
  Qed.

  Lemma assigned_same s b b' (m m' : mach W) : (forall x, last_of x b = last_of x b') -> assigned s b m m' -> assigned s b' m m'.
  Proof.
    intros H (V & R). split; [|exact R]. intros x. rewrite V, H. reflexivity.
  Qed.

  Lemma gives_in fs vs full : gives fs vs full -> forall x v, In (x, v) (combine (map f_slot fs) vs) ->
    exists a, In a fs /\ f_slot a = x /\ dget SE (f_name a) full = Some v.
  Proof.
    intros G. induction G as [|a v0 fs vs H _ IH]; intros x v I; cbn in I; [destruct I|].
    destruct I as [[= <- <-]|I]; [exists a; cbn; auto|]. destruct (IH x v I) as (a' & ? & ? & ?). exists a'; cbn; auto.
  Qed.
  Lemma gives_out fs vs full : gives fs vs full -> forall a v, In a fs -> dget SE (f_name a) full = Some v -> In (f_slot a, v) (combine (map f_slot fs) vs).
  Proof.
    intros G. induction G as [|a0 v0 fs vs H _ IH]; intros a v I D; [destruct I|]. cbn. destruct I as [<-|I].
    - left. congruence.
    - right. apply (IH a v I D).
  Qed.
  Lemma gives_length fs vs full : gives fs vs full -> List.length fs = List.length vs.
  Proof. intros G. induction G; cbn; [reflexivity|]. f_equal. assumption. Qed.
  Lemma map_fst_combine {A B} (l : list A) (r : list B) : List.length l = List.length r -> map fst (combine l r) = l.
  Proof. revert r. induction l as [|a l IH]; intros [|b r] H; cbn in *; try discriminate; [reflexivity|]. f_equal. apply IH. congruence. Qed.

  Lemma fill_ok attrs kw : forall i (fs : list formal) (m : mach W) vs m', fill attrs kw i fs m vs m' ->
    forall j a, nth_error fs j = Some a -> snd (fst a) = None -> given attrs kw (i + j) (f_name a) <> None.
  Proof.
    intros i fs m vs m' H. induction H; intros j b J D.
    - destruct j; discriminate.
    - destruct j as [|j]; cbn in J.
      + injection J as <-. rewrite Nat.add_0_r. congruence.
      + replace (i + S j) with (S i + j) by lia. apply (IHfill j b J D).
    - destruct j as [|j]; cbn in J.
      + injection J as <-. discriminate (eq_trans (eq_sym H0) D).
      + replace (i + S j) with (S i + j) by lia. apply (IHfill j b J D).
  Qed.

  Lemma same_fill attrs kw s : forall l i m vs m', fill attrs kw i (formals s l) m vs m' -> same_ind m m'.
  Proof.
    induction l as [|[[n d] x] l IH]; intros i m vs m' H; cbn in H; inversion H; subst.
    - apply same_refl.
    - eapply IH. eassumption.
    - destruct d as [d|]; [|discriminate]. cbn in *. match goal with X : Some _ = Some _ |- _ => injection X as <- end.
      eapply same_trans; [|eapply IH; eassumption]. eapply same_eval; [eassumption|discriminate].
  Qed.

  Lemma bind_attrs_spec h attrs kw s e : NoDup (all_names h) -> NoDup (map fst kw) ->
    match bind_attrs h attrs kw with
    | Ok (bound, dom) =>
        NoDup (map fst bound) /\ (forall k, In k (map fst bound) -> In k (map (fun a => fst (fst a)) (h_regul h))) /\
        (forall j a, nth_error (h_regul h) j = Some a -> dget SE (fst (fst a)) bound = given attrs kw j (fst (fst a))) /\
        (forall j a, nth_error (h_regul h) j = Some a -> dget SE (fst (fst a)) dom = given attrs kw j (fst (fst a))) /\
        (forall k, In k (map fst dom) -> In k (map (fun a => fst (fst a)) (h_regul h))) /\
        (forall i a, nth_error (formals s (h_regul h)) i = Some a -> i < List.length attrs -> ~ In (f_name a) (map fst kw)) /\
        List.length attrs <= List.length (h_regul h) /\
        (forall k, In k (map fst kw) -> In k (map (fun a => fst (fst a)) (h_regul h)))
    | Raise x => x = TypeError /\ misfit (formals s (h_regul h)) (has_body h) attrs kw e
    end.
  Proof.
    intros ND NK. unfold bind_attrs. set (regul := map (fun a => fst (fst a)) (h_regul h)).
    assert (NR : NoDup regul).
    { unfold all_names in ND. fold regul in ND. destruct (h_body h) as [[b x]|]; [inversion ND; assumption|exact ND]. }
    destruct (Nat.ltb (List.length regul) (List.length attrs)) eqn:E1.
    { split; [reflexivity|]. apply too_many. apply Nat.ltb_lt in E1. unfold formals_of, regul in *. rewrite map_length in *. exact E1. }
    apply Nat.ltb_ge in E1.
    destruct (match h_body h with Some (n, _) => dmem SE n kw | None => false end) eqn:E2.
    { split; [reflexivity|]. destruct (h_body h) as [[b x]|] eqn:B; [|discriminate]. apply dmem_In in E2.
      apply unknown with b; [exact E2|]. rewrite formals_names. unfold all_names in ND. rewrite B in ND. inversion ND; assumption. }
    destruct (forallb _ kw) eqn:E3; cbn [negb].
    2:{ split; [reflexivity|]. assert (X : exists nv, In nv kw /\ existsb (SE (fst nv)) (match h_body h with Some (n, _) => [n] | None => [] end ++ regul) = false).
        { clear - E3. induction kw as [|nv kw IH]; [discriminate|]. cbn in E3. apply andb_false_iff in E3. destruct E3 as [E3|E3].
          - exists nv. split; [left; reflexivity|exact E3].
          - destruct (IH E3) as (y & ? & ?). exists y. split; [right; assumption|assumption]. }
        destruct X as (nv & I & X). apply unknown with (fst nv); [apply in_map; exact I|]. rewrite formals_names. fold regul. intros K.
        assert (Y : existsb (SE (fst nv)) (match h_body h with Some (n, _) => [n] | None => [] end ++ regul) = true).
        { apply existsb_exists. exists (fst nv). split; [apply in_or_app; right; exact K|apply str_eqb_refl]. }
        congruence. }
    assert (KR : forall k, In k (map fst kw) -> In k regul).
    { intros k K. apply in_map_iff in K. destruct K as (nv & <- & K). rewrite forallb_forall in E3. specialize (E3 nv K).
      apply existsb_exists in E3. destruct E3 as (y & Y & E3). apply str_eqb_eq in E3. subst y. apply in_app_or in Y. destruct Y as [Y|Y]; [|exact Y].
      destruct (h_body h) as [[b x]|]; [|destruct Y]. destruct Y as [ ->|[]]. exfalso.
      assert (D : dmem SE (fst nv) kw = true) by (apply dmem_In, in_map, K). congruence. }
    change (match bind_go kw regul attrs kw [] with Ok (bound, dom) =>
        NoDup (map fst bound) /\ (forall k, In k (map fst bound) -> In k regul) /\
        (forall j a, nth_error (h_regul h) j = Some a -> dget SE (fst (fst a)) bound = given attrs kw j (fst (fst a))) /\
        (forall j a, nth_error (h_regul h) j = Some a -> dget SE (fst (fst a)) dom = given attrs kw j (fst (fst a))) /\
        (forall k, In k (map fst dom) -> In k regul) /\
        (forall i a, nth_error (formals s (h_regul h)) i = Some a -> i < List.length attrs -> ~ In (f_name a) (map fst kw)) /\
        List.length attrs <= List.length (h_regul h) /\ (forall k, In k (map fst kw) -> In k regul)
        | Raise x => x = TypeError /\ misfit (formals s (h_regul h)) (has_body h) attrs kw e end).
    rewrite (bind_go_spec kw regul attrs kw [] NR). destruct (existsb _ _) eqn:E4.
    { split; [reflexivity|]. apply existsb_exists in E4. destruct E4 as (k & K & D). apply dmem_In in D.
      apply In_nth_error in K. destruct K as (i & K).
      assert (Li : i < List.length attrs).
      { assert (X : i < List.length (firstn (List.length attrs) regul)) by (apply nth_error_Some; congruence).
        rewrite firstn_length in X. lia. }
      assert (K' : nth_error regul i = Some k).
      { rewrite <- (firstn_skipn (List.length attrs) regul). rewrite nth_error_app1; [exact K|]. apply nth_error_Some. congruence. }
      unfold regul in K'. rewrite <- (formals_names s), nth_error_map in K'.
      apply option_map_some in K'. destruct K' as (a & Ea & <-). apply twice with i a; assumption. }
    assert (NT : forall k, In k (firstn (List.length attrs) regul) -> ~ In k (map fst kw)).
    { intros k K D. apply dmem_In in D. assert (X : existsb (fun n => dmem SE n kw) (firstn (List.length attrs) regul) = true); [|congruence].
      apply existsb_exists. exists k. split; assumption. }
    assert (Kc : map fst (combine regul attrs) = firstn (List.length attrs) regul).
    { apply combine_firstn. exact E1. }
    assert (Nc : NoDup (map fst (combine regul attrs))).
    { rewrite Kc. rewrite <- (firstn_skipn (List.length attrs) regul) in NR. exact (NoDup_app_remove_r _ _ NR). }
    (* value of formal number j among the positional ones *)
    assert (Gc : forall j a, nth_error (h_regul h) j = Some a -> dget SE (fst (fst a)) (combine regul attrs) = nth_error attrs j).
    { intros j a J. assert (Jr : nth_error regul j = Some (fst (fst a))) by (unfold regul; rewrite nth_error_map, J; reflexivity).
      destruct (nth_error attrs j) as [v|] eqn:Ja.
      - apply (dget_nodup SE str_eqb_eq); [exact Nc|]. apply (combine_nth_in _ _ _ _ _ Jr Ja).
      - destruct (dget SE (fst (fst a)) (combine regul attrs)) eqn:D; [|reflexivity]. exfalso.
        assert (I : In (fst (fst a)) (firstn (List.length attrs) regul)).
        { rewrite <- Kc. apply (dget_In SE str_eqb_eq) in D. apply (in_map fst) in D. exact D. }
        apply In_nth_error in I. destruct I as (i & I).
        assert (Li : i < List.length attrs).
        { assert (X : i < List.length (firstn (List.length attrs) regul)) by (apply nth_error_Some; congruence). rewrite firstn_length in X. lia. }
        assert (I' : nth_error regul i = Some (fst (fst a))).
        { rewrite <- (firstn_skipn (List.length attrs) regul). rewrite nth_error_app1; [exact I|]. apply nth_error_Some. congruence. }
        apply nth_error_None in Ja. assert (i = j); [|lia].
        eapply (proj1 (NoDup_nth_error regul) NR); [apply nth_error_Some; congruence|congruence]. }
    assert (Gk : forall j a, nth_error (h_regul h) j = Some a -> nth_error attrs j <> None -> dget SE (fst (fst a)) kw = None).
    { intros j a J Ja. destruct (dget SE (fst (fst a)) kw) eqn:D; [|reflexivity]. exfalso. apply (NT (fst (fst a))).
      - rewrite <- Kc. apply (dget_keys SE str_eqb_eq). rewrite (Gc j a J). exact Ja.
      - apply (dget_In SE str_eqb_eq) in D. apply (in_map fst) in D. exact D. }
    split; [|split; [|split; [|split; [|split; [|split; [|split]]]]]].
    - rewrite map_app. apply NoDup_app_both; [exact NK|exact Nc|]. intros k K K'. rewrite Kc in K'. apply (NT k K' K).
    - intros k K. rewrite map_app in K. apply in_app_or in K. destruct K as [K|K]; [apply KR, K|].
      rewrite Kc in K. rewrite <- (firstn_skipn (List.length attrs) regul). apply in_or_app. left. exact K.
    - intros j a J. rewrite dget_app. unfold given. rewrite lookup_dget. destruct (nth_error attrs j) as [v|] eqn:Ja.
      + rewrite (Gk j a J) by congruence. rewrite (Gc j a J). exact Ja.
      + rewrite (Gc j a J), Ja. destruct (dget SE (fst (fst a)) kw); reflexivity.
    - intros j a J. rewrite (dget_dupdate SE str_eqb_eq). unfold given. rewrite lookup_dget.
      assert (R : dget SE (fst (fst a)) (rev kw) = dget SE (fst (fst a)) kw).
      { rewrite <- (dget_dict_of SE str_eqb_eq). unfold dict_of. rewrite (dupdate_new kw []) by exact NK. reflexivity. }
      rewrite R. assert (R' : dget SE (fst (fst a)) (dupdate SE [] (combine regul attrs)) = nth_error attrs j).
      { rewrite (dupdate_new (combine regul attrs) []) by exact Nc. apply (Gc j a J). }
      rewrite R'. destruct (nth_error attrs j) as [v|] eqn:Ja.
      + rewrite (Gk j a J) by congruence. reflexivity.
      + destruct (dget SE (fst (fst a)) kw); reflexivity.
    - intros k K. rewrite (dupdate_new (combine regul attrs) []) in K by exact Nc. cbn [app] in K.
      assert (K' : dget SE k (dupdate SE (combine regul attrs) kw) <> None) by (apply (dget_keys SE str_eqb_eq); exact K).
      rewrite (dget_dupdate SE str_eqb_eq) in K'. destruct (dget SE k (rev kw)) as [v|] eqn:D.
      + apply KR. apply (dget_In SE str_eqb_eq) in D. apply in_rev in D. apply (in_map fst) in D. exact D.
      + assert (I : In k (map fst (combine regul attrs))) by (apply (dget_keys SE str_eqb_eq); exact K').
        rewrite Kc in I. rewrite <- (firstn_skipn (List.length attrs) regul). apply in_or_app. left. exact I.
    - intros i a J Li. apply NT. rewrite <- Kc. assert (Jr : nth_error regul i = Some (f_name a)).
      { unfold regul. rewrite <- (formals_names s). apply map_nth_error. exact J. }
      rewrite Kc. assert (X : nth_error (firstn (List.length attrs) regul) i = Some (f_name a)).
      { rewrite <- (firstn_skipn (List.length attrs) regul) in Jr. rewrite nth_error_app1 in Jr; [exact Jr|].
        rewrite firstn_length. assert (i < List.length regul); [|lia].
        rewrite (firstn_skipn (List.length attrs) regul) in Jr. apply nth_error_Some. congruence. }
      apply (nth_error_In _ _ X).
    - unfold regul in E1. rewrite map_length in E1. exact E1.
    - exact KR.
  Qed.

  Lemma append_attrs_spec h body attrs kw s m o m' :
    NoDup (all_names h) -> NoDup (all_slots h) -> NoDup (map fst kw) -> s < List.length (m_states m) ->
    (match body with VDom _ | VNode _ => True | _ => False end) ->
    append_attrs P expand h body attrs kw s m = (o, m') -> o <> Fuel ->
    (exists dom vs m1, o = Done dom /\
       ~ misfit (formals s (h_regul h)) (has_body h) attrs kw (dom_empty body) /\
       fill attrs kw 0 (formals s (h_regul h)) m vs m1 /\
       assigned s (combine (map snd (h_regul h)) vs ++ body_binding h body) m1 m' /\
       (forall j a, nth_error (h_regul h) j = Some a -> lookup (fst (fst a)) dom = given attrs kw j (fst (fst a))) /\
       (forall k, In k (map fst dom) -> In k (map (fun a => fst (fst a)) (h_regul h)))) \/
    (exists e, o = Exc e /\
       (misfit (formals s (h_regul h)) (has_body h) attrs kw (dom_empty body) \/
        fill_fails attrs kw 0 (formals s (h_regul h)) m e m')).
  Proof.
    intros ND NS NK L BB E NF. assert (S1 := bind_attrs_spec h attrs kw s (dom_empty body) ND NK).
    unfold append_attrs in E. rewrite bind_eq in E. destruct (bind_attrs h attrs kw) as [[bound dom]|x]; cbn [of_result ret exc] in E.
    2:{ destruct S1 as [-> M]. injection E as <- <-. right. exists TypeError. split; [reflexivity|left; exact M]. }
    destruct S1 as (B1 & B2 & B3 & B4 & B5 & B6 & B7 & B8).
    assert (NR : NoDup (map (fun a => fst (fst a)) (h_regul h))).
    { unfold all_names in ND. destruct (h_body h) as [[b x]|]; [inversion ND; assumption|exact ND]. }
    assert (NSr : NoDup (map snd (h_regul h))).
    { unfold all_slots in NS. eapply NoDup_app_remove_r. exact NS. }
    apply bind_inv in E. destruct E as [(full & m1 & E1 & E)|[(e & E1 & ->)|(_ & ->)]]; [| |contradiction NF; reflexivity].
    - destruct (defaults_spec attrs kw s (h_regul h) 0 bound m (Done full) m1 NR B1 B3 E1 ltac:(discriminate))
        as [(vs & full' & [= <-] & F & G & Fr & Nf & Kf)|[(X & _)|(e & X & _)]]; [|discriminate|discriminate].
      assert (L1 : s < List.length (m_states m1)).
      { destruct (same_fill _ _ _ _ _ _ _ _ F) as [L1 _]. lia. }
      assert (Kr : forall k, In k (map fst full) -> exists d x, In (k, d, x) (h_regul h)).
      { intros k K. assert (I : In k (map (fun a => fst (fst a)) (h_regul h))) by (destruct (Kf k K) as [I|I]; [apply B2, I|exact I]).
        apply in_map_iff in I. destruct I as ([[k' d] x] & E0 & I). cbn in E0. subst k'. exists d, x. exact I. }
      destruct (transfer_spec h s full m1 L1 Kr NR) as (m2 & E2 & A2).
      rewrite bind_eq, E2 in E.
      assert (Lv : List.length (map snd (h_regul h)) = List.length vs).
      { rewrite <- (gives_length _ _ _ G). unfold formals_of. rewrite !map_length. reflexivity. }
      assert (A : assigned s (combine (map snd (h_regul h)) vs) m1 m2).
      { revert A2. apply assigned_same. intros x.
        set (b := flat_map _ full).
        assert (Inb : forall v, In (x, v) b <-> exists k d, In (k, v) full /\ In (k, d, x) (h_regul h)).
        { intros v. unfold b. rewrite in_flat_map. split.
          - intros ([k v0] & I & J). cbn [fst snd] in J. destruct (Kr k) as (d & y & K); [apply (in_map fst) in I; exact I|].
            rewrite (slot_of_in h k d y NR K) in J. destruct J as [[= -> ->]|[]]. exists k, d. split; assumption.
          - intros (k & d & I & J). exists (k, v). split; [exact I|]. cbn [fst snd]. rewrite (slot_of_in h k d x NR J). left. reflexivity. }
        assert (Inc : forall v, In (x, v) (combine (map snd (h_regul h)) vs) <-> exists k d, In (k, v) full /\ In (k, d, x) (h_regul h)).
        { intros v. rewrite <- (formals_slots s). split.
          - intros I. destruct (gives_in _ _ _ G x v I) as (a & Ia & Ex & D). unfold formals_of in Ia. apply in_map_iff in Ia.
            destruct Ia as ([[k d] y] & <- & Ia). cbn in *. subst y. exists k, d. split; [apply (dget_In SE str_eqb_eq), D|exact Ia].
          - intros (k & d & I & J). apply (gives_out _ _ _ G (k, option_map (ev s) d, x) v).
            + unfold formals_of. apply in_map_iff. exists (k, d, x). split; [reflexivity|exact J].
            + cbn. apply (dget_nodup SE str_eqb_eq); [exact Nf|exact I]. }
        assert (Nc : NoDup (map fst (combine (map snd (h_regul h)) vs))) by (rewrite map_fst_combine by exact Lv; exact NSr).
        destruct (last_of x b) as [v|] eqn:Eb.
        - apply last_of_In, Inb in Eb. symmetry. apply last_of_nodup; [exact Nc|]. apply Inc. exact Eb.
        - symmetry. destruct (last_of x (combine (map snd (h_regul h)) vs)) as [v|] eqn:Ec; [|reflexivity].
          exfalso. apply last_of_In, Inc, Inb in Ec. apply last_of_none in Eb. apply Eb. apply (in_map fst) in Ec. exact Ec. }
      assert (NM : forall em, ~ (has_body h = false /\ em = false) -> ~ misfit (formals s (h_regul h)) (has_body h) attrs kw em).
      { intros em Hb M. destruct M as [M|k K1 K2|i a J Li K|i a J D K|H1 H2].
        - unfold formals_of in M. rewrite map_length in M. lia.
        - apply K2. rewrite formals_names. apply B8, K1.
        - apply (B6 i a J Li K).
        - apply (fill_ok _ _ _ _ _ _ _ F i a J D). exact K.
        - apply Hb. split; assumption. }
      assert (L2 : s < List.length (m_states m2)).
      { destruct A as (_ & _ & _ & L2 & _). lia. }
      unfold body_binding, has_body in *. destruct (h_body h) as [[b x]|].
      + destruct (assigned_set s x body m2 L2) as (m3 & E3 & A3). rewrite bind_eq, E3 in E. injection E as <- <-.
        left. exists dom, vs, m1. split; [reflexivity|]. split; [apply NM; intros [X _]; discriminate|]. split; [exact F|].
        split; [eapply assigned_trans; eassumption|]. split; [|exact B5].
        intros j a J. rewrite lookup_dget. apply B4, J.
      + destruct body as [| | | | | | | |l|nd| | | | |]; try destruct BB.
        * destruct l as [|i0 l]; cbn in E.
          -- injection E as <- <-. left. exists dom, vs, m1. split; [reflexivity|]. split; [apply NM; intros [_ X]; discriminate|].
             split; [exact F|]. split; [rewrite app_nil_r; exact A|]. split; [|exact B5]. intros j a J. rewrite lookup_dget. apply B4, J.
          -- injection E as <- <-. right. exists VoidTag. split; [reflexivity|]. left. apply no_body; reflexivity.
        * cbn in E. injection E as <- <-. right. exists VoidTag. split; [reflexivity|]. left. apply no_body; reflexivity.
    - right. exists e. split; [reflexivity|].
      destruct (defaults_spec attrs kw s (h_regul h) 0 bound m (Exc e) m' NR B1 B3 E1 ltac:(discriminate))
        as [(vs & full' & X & _)|[(_ & j & a & J & D & K)|(e' & [= <-] & F)]]; [discriminate| |].
      + left. apply missing with j a; assumption.
      + right. exact F.
  Qed.
End Call.

Section Merge.
  Context {W : Type}.
  Variable P : prims W.
  Variable expand : hyper -> val -> list val -> list (str * val) -> nat -> M W (list nid).
  Notation ev s := (eval P expand s).
  Notation SE := str_eqb.

  Lemma firsts_snoc ns k : firsts (ns ++ [k]) = if existsb (SE k) ns then firsts ns else firsts ns ++ [k].
  Proof.
    induction ns as [|n ns IH]; [reflexivity|]. cbn [app firsts existsb]. rewrite IH.
    destruct (SE k n) eqn:E; cbn [orb].
    - apply str_eqb_eq in E. subst n. destruct (existsb (SE k) ns); [reflexivity|].
      rewrite filter_app. cbn. rewrite str_eqb_refl. cbn. rewrite app_nil_r. reflexivity.
    - destruct (existsb (SE k) ns); [reflexivity|]. rewrite filter_app. cbn.
      assert (E' : SE n k = false) by (apply str_eqb_neq; apply str_eqb_neq in E; congruence). rewrite E'. reflexivity.
  Qed.
  Lemma values_snoc (n : str) (vs : list (str * val)) k v : values_of n (vs ++ [(k, v)]) = if SE n k then values_of n vs ++ [v] else values_of n vs.
  Proof.
    unfold values_of. rewrite filter_app, map_app. cbn. destruct (SE n k); cbn; [reflexivity|rewrite app_nil_r; reflexivity].
  Qed.
  Lemma spaced_snoc ts t : ts <> [] -> spaced (ts ++ [t]) = spaced ts ++ SP :: t.
  Proof.
    induction ts as [|a ts IH]; intros H; [contradiction H; reflexivity|]. destruct ts as [|b ts]; [reflexivity|].
    change (spaced ((a :: b :: ts) ++ [t])) with (a ++ SP :: spaced ((b :: ts) ++ [t])). rewrite IH by discriminate.
    change (spaced (a :: b :: ts)) with (a ++ SP :: spaced (b :: ts)). rewrite <- app_assoc. reflexivity.
  Qed.

  Definition merged_dget (vs d : list (str * val)) : Prop :=
    map fst d = firsts (map fst vs) /\ forall n, In n (map fst vs) -> exists v, dget SE n d = Some v /\ merged_value (values_of n vs) v.

  Lemma values_none (n : str) (vs : list (str * val)) : existsb (SE n) (map fst vs) = false -> values_of n vs = [].
  Proof.
    unfold values_of. induction vs as [|[k v] vs IH]; cbn; [reflexivity|]. intros H. apply orb_false_iff in H. destruct H as [-> H]. apply IH, H.
  Qed.
  Lemma values_some (n : str) (vs : list (str * val)) : existsb (SE n) (map fst vs) = true -> values_of n vs <> [].
  Proof.
    unfold values_of. induction vs as [|[k v] vs IH]; cbn; [discriminate|]. destruct (SE n k); [discriminate|]. exact IH.
  Qed.
  Lemma in_existsb (n : str) l : In n l <-> existsb (SE n) l = true.
  Proof.
    rewrite existsb_exists. split.
    - intros H. exists n. split; [exact H|apply str_eqb_refl].
    - intros (x & H & E). apply str_eqb_eq in E. subst. exact H.
  Qed.
  Lemma firsts_In n l : In n (firsts l) <-> In n l.
  Proof.
    induction l as [|k l IH]; cbn; [tauto|]. rewrite filter_In, IH. split.
    - intros [H|[H _]]; auto.
    - intros [H|H]; [left; exact H|]. destruct (SE k n) eqn:E; [left; apply str_eqb_eq, E|right; split; [exact H|reflexivity]].
  Qed.

  (** one more attribute *)
  Lemma merge_step vs d k v : merged_dget vs d -> mergeable (vs ++ [(k, v)]) ->
    exists d', merged_dget (vs ++ [(k, v)]) d' /\
      forall m : mach W, match dget SE k d with
                | Some old => w <* merge_attr P old v ;; ret (dset SE k w d)
                | None => ret (dset SE k v d)
                end m = (Done d', m).
  Proof.
    intros [Kd Vd] Mg. destruct (existsb (SE k) (map fst vs)) eqn:E.
    - assert (I := proj2 (in_existsb k _) E). destruct (Vd k I) as (old & D & MV). rewrite D.
      assert (Lk : 2 <= List.length (values_of k (vs ++ [(k, v)]))).
      { rewrite values_snoc, str_eqb_refl, app_length. cbn. assert (X := values_some k vs E). destruct (values_of k vs); [contradiction X; reflexivity|cbn; lia]. }
      destruct (Mg k Lk) as (ts & T). assert (T0 := T). rewrite values_snoc, str_eqb_refl in T.
      destruct (rev ts) as [|t rt] eqn:R.
      { assert (ts = []) by (rewrite <- (rev_involutive ts), R; reflexivity). subst ts. destruct (values_of k vs); discriminate. }
      assert (ts = rev rt ++ [t]) by (rewrite <- (rev_involutive ts), R; reflexivity). subst ts.
      rewrite map_app in T. apply app_inj_tail in T. destruct T as [T ->].
      assert (O : old = VStr (spaced (rev rt))).
      { rewrite T in MV. inversion MV as [v0 X|ts' Lt X Y].
        - destruct (rev rt) as [|a [|b r]]; try discriminate. injection X as X. subst. reflexivity.
        - f_equal. f_equal. clear - X. revert ts' X. generalize (rev rt). induction l as [|a l IH]; intros [|b ts'] X; try discriminate; [reflexivity|].
          cbn in X. injection X as -> X. f_equal. apply IH, X. }
      subst old. exists (dset SE k (VStr (spaced (rev rt ++ [t]))) d). split.
      + split.
        * rewrite map_app. cbn [map fst]. rewrite firsts_snoc, E, <- Kd.
          assert (X := dkeys_dset SE k (VStr (spaced (rev rt ++ [t]))) d). unfold dkeys in X. rewrite X.
          unfold dmem. rewrite D. reflexivity.
        * intros n In_. rewrite (dget_dset SE str_eqb_eq). rewrite values_snoc. destruct (SE n k) eqn:En.
          -- apply str_eqb_eq in En. subst n. exists (VStr (spaced (rev rt ++ [t]))). split; [reflexivity|].
             rewrite T. change [VStr t] with (map VStr [t]). rewrite <- map_app. apply merged_more.
             rewrite T0, map_length in Lk. exact Lk.
          -- apply Vd. rewrite map_app in In_. apply in_app_or in In_. destruct In_ as [H|[H|[]]]; [exact H|]. cbn in H. subst.
             rewrite str_eqb_refl in En. discriminate.
      + intros m. unfold merge_attr, mbind, ret. cbn. f_equal. f_equal. f_equal. f_equal. rewrite spaced_snoc; [reflexivity|].
        intros X. rewrite X in T. apply (values_some k vs E). exact T.
    - assert (D : dget SE k d = None).
      { destruct (dget SE k d) eqn:D; [|reflexivity]. exfalso. apply (dget_In SE str_eqb_eq) in D. apply (in_map fst) in D. cbn in D.
        rewrite Kd in D. apply (proj1 (firsts_In _ _)), in_existsb in D. congruence. }
      rewrite D. exists (dset SE k v d). split; [|reflexivity]. split.
      + rewrite map_app. cbn [map fst]. rewrite firsts_snoc, E, <- Kd.
        assert (X := dkeys_dset SE k v d). unfold dkeys in X. rewrite X. unfold dmem. rewrite D. reflexivity.
      + intros n In_. rewrite (dget_dset SE str_eqb_eq), values_snoc. destruct (SE n k) eqn:En.
        * apply str_eqb_eq in En. subst n. exists v. split; [reflexivity|]. rewrite (values_none k vs E). constructor.
        * apply Vd. rewrite map_app in In_. apply in_app_or in In_. destruct In_ as [H|[H|[]]]; [exact H|]. cbn in H. subst.
          rewrite str_eqb_refl in En. discriminate.
  Qed.
  Lemma mergeable_prefix vs k v rest : mergeable (vs ++ (k, v) :: rest) -> mergeable (vs ++ [(k, v)]).
  Proof.
    intros H n Ln. change ((k, v) :: rest) with ([(k, v)] ++ rest) in H. rewrite app_assoc in H.
    assert (V : values_of n ((vs ++ [(k, v)]) ++ rest) = values_of n (vs ++ [(k, v)]) ++ values_of n rest).
    { unfold values_of. rewrite filter_app, map_app. reflexivity. }
    destruct (H n) as (ts & T); [rewrite V, app_length; lia|]. rewrite V in T.
    exists (firstn (List.length (values_of n (vs ++ [(k, v)]))) ts). rewrite <- firstn_map, <- T.
    rewrite firstn_app, Nat.sub_diag, firstn_all, firstn_O, app_nil_r. reflexivity.
  Qed.

  Lemma eval_named_merge s named : forall m vs m', each (map (fun ne => (fst ne, ev s (snd ne))) named) m vs m' -> mergeable vs ->
    exists d, eval_named P expand s named m = (Done d, m') /\ merged vs d.
  Proof.
    assert (X : forall m vs m', each (map (fun ne => (fst ne, ev s (snd ne))) named) m vs m' -> mergeable vs ->
      exists d, eval_named P expand s named m = (Done d, m') /\ merged_dget vs d).
    2:{ intros m vs m' H Mg. destruct (X m vs m' H Mg) as (d & E & K & V). exists d. split; [exact E|]. split; [exact K|].
        intros n I. destruct (V n I) as (v & D & Mv). exists v. rewrite lookup_dget. split; assumption. }
    unfold eval_named.
    assert (G : forall m vs m', each (map (fun ne => (fst ne, ev s (snd ne))) named) m vs m' -> forall vs0 d0, merged_dget vs0 d0 -> mergeable (vs0 ++ vs) ->
              exists d, mfold (fun d ne => let (n, e) := (ne : str * expr) in
                 v <* ev s e ;; match dget SE n d with
                 | Some old => w <* merge_attr P old v ;; ret (dset SE n w d)
                 | None => ret (dset SE n v d) end) named d0 m = (Done d, m') /\ merged_dget (vs0 ++ vs) d).
    { induction named as [|[n e] named IH]; intros m vs m' H vs0 d0 M0 Mg; inversion H; subst; try discriminate.
      - exists d0. split; [reflexivity|]. rewrite app_nil_r. exact M0.
      - cbn [map fst snd] in H0. injection H0 as -> <- <-. cbn [mfold]. rewrite bind_eq, bind_eq, H1.
        destruct (merge_step vs0 d0 n0 v M0 (mergeable_prefix _ _ _ _ Mg)) as (d' & M1 & E1). rewrite E1.
        assert (R : vs0 ++ (n0, v) :: vs1 = (vs0 ++ [(n0, v)]) ++ vs1) by (rewrite <- app_assoc; reflexivity).
        rewrite R in Mg |- *. apply (IH m1 vs1 m' H2 _ d' M1 Mg). }
    intros m vs m' H Mg. apply (G m vs m' H [] []); [|exact Mg]. split; [reflexivity|]. intros n [].
  Qed.
End Merge.

Section Statements.
  Context {W : Type}.
  Variable P : prims W.

  Lemma assign_iff : quiet_iter P -> forall s t v m, s < List.length (m_states m) ->
    (forall b, unpacks (items_in P (m_heap m) (m_world m)) t v b -> exists m', assign P s t v m = (Done tt, m') /\ assigned s b m m') /\
    (forall m', assign P s t v m = (Done tt, m') -> exists b, unpacks (items_in P (m_heap m) (m_world m)) t v b /\ assigned s b m m').
  Proof.
    intros Q s t v m L. assert (H := assign_spec P Q s t v m L). unfold agrees in H.
    destruct (assign P s t v m) as [[[]|e|] m1].
    - destruct H as (b & U & A). split.
      + intros b' U'. exists m1. split; [reflexivity|].
        rewrite (unpacks_det P (m_heap m) (m_world m) t v b' b U' U). exact A.
      + intros m' E. injection E as <-. exists b. split; assumption.
    - split; [intros b U; contradiction (H b U)|intros m' E; discriminate].
    - split; [intros b U; contradiction (H b U)|intros m' E; discriminate].
  Qed.
End Statements.
