From Coq Require Import List NArith Bool Arith Lia.
From Verif Require Import PyStr PyStrFacts PyDict Structs StructsSpec.
Import ListNotations.

Section Facts.
  Context {V : Type}.

  (** the operations of the model, over histories *)
  Definition md_step (o : op V) (m : multidict V) : result (multidict V) :=
    match o with
    | OPush n v => Ok (md_push n v m)
    | OPop => r <- md_pop m ;; Ok (snd r)
    | OReset p => md_reset p m
    | OPushAll symbols => Ok (md_pushall symbols m)
    | OPushNew symbols => Ok (md_pushnew symbols m)
    end.
  Fixpoint md_steps (os : list (op V)) (m : multidict V) : result (multidict V) :=
    match os with
    | [] => Ok m
    | o :: r => m' <- md_step o m ;; md_steps r m'
    end.

  Notation SE := str_eqb.
  Notation SEQ := str_eqb_eq.

  (** index of the newest element with a given name; stack bottom first *)
  Fixpoint latest (n : str) (st : list (str * V * option nat)) : option nat :=
    match st with
    | [] => None
    | (a, _, _) :: r => match latest n r with
                        | Some i => Some (S i)
                        | None => if SE n a then Some 0 else None
                        end
    end.

  Lemma latest_app n st a v p : latest n (st ++ [(a, v, p)]) = if SE n a then Some (List.length st) else latest n st.
  Proof.
    induction st as [|[[b w] q] st IH]; cbn; [destruct (SE n a); reflexivity|].
    rewrite IH. destruct (SE n a); [reflexivity|]. reflexivity.
  Qed.

  Inductive wf_stack : list (str * V * option nat) -> Prop :=
  | wf_nil : wf_stack []
  | wf_snoc st n v : wf_stack st -> wf_stack (st ++ [(n, v, latest n st)]).

  Definition inv (m : multidict V) : Prop :=
    wf_stack (md_stack m) /\ NoDup (dkeys (md_lookup m)) /\ forall n, dget SE n (md_lookup m) = latest n (md_stack m).

  (** abstraction *)
  Definition abs (m : multidict V) : scope V := rev (map fst (md_stack m)).

  Lemma latest_find n st : match latest n st with
    | Some i => exists v, option_map (fun x => snd (fst x)) (nth_error st i) = Some v /\ find n (rev (map fst st)) = Some v
    | None => find n (rev (map fst st)) = None end.
  Proof.
    induction st as [|[[a v] p] st IH] using rev_ind; [reflexivity|].
    rewrite latest_app, map_app, rev_app_distr. cbn.
    destruct (SE n a) eqn:E; destruct (list_eq_dec N.eq_dec n a) as [E'|E'].
    - exists v. split; [|reflexivity]. rewrite nth_error_app2 by lia. rewrite Nat.sub_diag. reflexivity.
    - apply SEQ in E. contradiction.
    - apply str_eqb_neq in E. contradiction.
    - destruct (latest n st) as [i|]; [|exact IH]. destruct IH as [w [E1 E2]]. exists w. split; [|exact E2].
      rewrite nth_error_app1; [exact E1|]. apply nth_error_Some. destruct (nth_error st i); discriminate.
  Qed.

  Lemma get_find m n : inv m -> md_get n m = find n (abs m).
  Proof.
    intros [_ [_ H]]. unfold md_get, abs. rewrite H. pose proof (latest_find n (md_stack m)) as L.
    destruct (latest n (md_stack m)) as [i|]; [|symmetry; exact L].
    destruct L as [v [E1 E2]]. rewrite E2. destruct (nth_error (md_stack m) i) as [[[? ?] ?]|]; [|discriminate]. exact E1.
  Qed.

  Lemma getitem_find m n : inv m -> md_getitem n m = match find n (abs m) with Some v => Ok v | None => Raise KeyError end.
  Proof.
    intros [_ [_ H]]. unfold md_getitem, abs. rewrite H. pose proof (latest_find n (md_stack m)) as L.
    destruct (latest n (md_stack m)) as [i|]; [|rewrite L; reflexivity].
    destruct L as [v [E1 E2]]. rewrite E2. destruct (nth_error (md_stack m) i) as [[[? ?] ?]|]; [|discriminate]. cbn in E1. congruence.
  Qed.

  Lemma contains_find m n : inv m -> md_contains n m = match find n (abs m) with Some _ => true | None => false end.
  Proof.
    intros [_ [_ H]]. unfold md_contains, dmem, abs. rewrite H. pose proof (latest_find n (md_stack m)) as L.
    destruct (latest n (md_stack m)) as [i|]; [|rewrite L; reflexivity].
    destruct L as [v [E1 E2]]. rewrite E2. reflexivity.
  Qed.

  Lemma position_length m : md_position m = List.length (abs m).
  Proof. unfold md_position, abs. rewrite rev_length, map_length. reflexivity. Qed.

  Lemma inv_empty : inv md_empty.
  Proof. split; [constructor|]. split; [constructor|reflexivity]. Qed.

  Lemma inv_push m n v : inv m -> inv (md_push n v m).
  Proof.
    intros [W [N H]]. unfold md_push. split; [|split]; cbn.
    - rewrite H. constructor. exact W.
    - apply nodup_dset; [exact SEQ|exact N].
    - intros x. rewrite (dget_dset SE SEQ), latest_app, H. reflexivity.
  Qed.

  Lemma abs_push m n v : abs (md_push n v m) = (n, v) :: abs m.
  Proof. unfold abs. cbn. rewrite map_app, rev_app_distr. reflexivity. Qed.

  Lemma wf_snoc_inv st n v p : wf_stack (st ++ [(n, v, p)]) -> wf_stack st /\ p = latest n st.
  Proof.
    inversion 1 as [E|st' n' v' W E].
    - destruct st; discriminate.
    - apply app_inj_tail in E as [-> E]. injection E as -> -> ->. auto.
  Qed.

  Lemma unlink_inv st n v p lk : NoDup (dkeys lk) -> wf_stack (st ++ [(n, v, p)]) ->
    (forall x, dget SE x lk = latest x (st ++ [(n, v, p)])) ->
    exists lk', unlink n p lk = Ok lk' /\ NoDup (dkeys lk') /\ forall x, dget SE x lk' = latest x st.
  Proof.
    intros N W H. apply wf_snoc_inv in W as [W ->]. unfold unlink.
    destruct (latest n st) as [q|] eqn:L.
    - eexists. split; [reflexivity|]. split; [apply nodup_dset; [exact SEQ|exact N]|].
      intros x. rewrite (dget_dset SE SEQ), H, latest_app. destruct (SE x n) eqn:E; [|reflexivity].
      apply SEQ in E. congruence.
    - assert (M : dmem SE n lk = true).
      { unfold dmem. rewrite H, latest_app, str_eqb_refl. reflexivity. }
      rewrite M. eexists. split; [reflexivity|]. split; [apply nodup_ddel; exact N|].
      intros x. rewrite (dget_ddel SE SEQ) by exact N. rewrite H, latest_app. destruct (SE x n) eqn:E; [|reflexivity].
      apply SEQ in E. congruence.
  Qed.

  Lemma pop_spec m : inv m ->
    match abs m with
    | [] => md_pop m = Raise IndexError
    | (n, v) :: r => exists m', md_pop m = Ok (n, v, m') /\ inv m' /\ abs m' = r
    end.
  Proof.
    destruct m as [st lk]. intros [W [N H]]. unfold abs, md_pop; cbn in *.
    destruct st as [|[[n v] p] st] using rev_ind; [reflexivity|]. clear IHst.
    rewrite map_app, !rev_app_distr. cbn.
    destruct (unlink_inv st n v p lk N W H) as [lk' [E [N' H']]]. rewrite E. cbn.
    eexists. split; [reflexivity|]. rewrite rev_involutive. split; [|reflexivity].
    split; [exact (proj1 (wf_snoc_inv _ _ _ _ W))|]. split; assumption.
  Qed.

  Lemma unlink_all_spec st1 st2 lk : NoDup (dkeys lk) -> wf_stack (st1 ++ st2) ->
    (forall x, dget SE x lk = latest x (st1 ++ st2)) ->
    exists lk', unlink_all (rev st2) lk = Ok lk' /\ wf_stack st1 /\ NoDup (dkeys lk') /\ forall x, dget SE x lk' = latest x st1.
  Proof.
    revert lk; induction st2 as [|[[n v] p] st2 IH] using rev_ind; intros lk N W H.
    - rewrite app_nil_r in *. exists lk. cbn. auto.
    - rewrite app_assoc in W, H. rewrite rev_app_distr. cbn.
      destruct (unlink_inv _ n v p lk N W H) as [lk' [E [N' H']]]. rewrite E. cbn.
      apply IH; [exact N'|exact (proj1 (wf_snoc_inv _ _ _ _ W))|exact H'].
  Qed.

  Lemma skipn_rev_eq {A} (l : list A) p : p <= List.length l -> skipn (List.length l - p) (rev l) = rev (firstn p l).
  Proof.
    intros H. rewrite <- (firstn_skipn p l) at 2. rewrite rev_app_distr.
    assert (E : List.length (rev (skipn p l)) = List.length l - p) by (rewrite rev_length, skipn_length; reflexivity).
    rewrite <- E. rewrite skipn_app, skipn_all, Nat.sub_diag. reflexivity.
  Qed.

  Lemma reset_spec m p : inv m ->
    if Nat.ltb (List.length (abs m)) p then md_reset p m = Raise (OtherError 0)
    else exists m', md_reset p m = Ok m' /\ inv m' /\ abs m' = skipn (List.length (abs m) - p) (abs m).
  Proof.
    destruct m as [st lk]. intros [W [N H]]. unfold md_reset. rewrite <- position_length. unfold md_position, abs; cbn [md_stack md_lookup] in *.
    destruct (Nat.ltb_spec (List.length st) p) as [L|L]; [reflexivity|].
    rewrite <- (firstn_skipn p st) in W, H.
    destruct (unlink_all_spec _ _ lk N W H) as [lk' [E [W' [N' H']]]]. rewrite E. cbn.
    eexists. split; [reflexivity|]. split; [split; [exact W'|split; [exact N'|exact H']]|].
    cbn. rewrite <- (map_length fst st). rewrite skipn_rev_eq by (rewrite map_length; lia). rewrite firstn_map. reflexivity.
  Qed.

  Lemma pushall_spec syms : forall m, inv m -> inv (md_pushall syms m) /\ abs (md_pushall syms m) = rev syms ++ abs m.
  Proof.
    unfold md_pushall. induction syms as [|[n v] r IH]; intros m I; cbn; [auto|].
    destruct (IH (md_push n v m) (inv_push m n v I)) as [I' A]. split; [exact I'|].
    rewrite A, abs_push, <- app_assoc. reflexivity.
  Qed.

  Lemma pushnew_spec syms : forall m, inv m -> inv (md_pushnew syms m) /\ abs (md_pushnew syms m) = add_new syms (abs m).
  Proof.
    unfold md_pushnew. induction syms as [|[n v] r IH]; intros m I; cbn; [auto|].
    rewrite contains_find by exact I. destruct (find n (abs m)).
    - apply IH; exact I.
    - destruct (IH (md_push n v m) (inv_push m n v I)) as [I' A]. split; [exact I'|]. rewrite A, abs_push. reflexivity.
  Qed.

  Lemma step_sim o m : inv m ->
    match step o (abs m) with
    | Raise e => md_step o m = Raise e
    | Ok s => exists m', md_step o m = Ok m' /\ inv m' /\ abs m' = s
    end.
  Proof.
    intros I. destruct o as [n v| |p|syms|syms]; cbn [step md_step].
    - eexists. split; [reflexivity|]. split; [apply inv_push; exact I|apply abs_push].
    - pose proof (pop_spec m I) as P. destruct (abs m) as [|[n v] r].
      + rewrite P. reflexivity.
      + destruct P as [m' [E P]]. rewrite E. cbn. eauto.
    - pose proof (reset_spec m p I) as P. destruct (Nat.ltb (List.length (abs m)) p); [exact P|exact P].
    - eexists. split; [reflexivity|]. apply pushall_spec; exact I.
    - eexists. split; [reflexivity|]. apply pushnew_spec; exact I.
  Qed.

  Lemma steps_sim os : forall m, inv m ->
    match steps os (abs m) with
    | Raise e => md_steps os m = Raise e
    | Ok s => exists m', md_steps os m = Ok m' /\ inv m' /\ abs m' = s
    end.
  Proof.
    induction os as [|o os IH]; intros m I; cbn; [eauto|].
    pose proof (step_sim o m I) as S. destruct (step o (abs m)) as [s|e]; cbn.
    - destruct S as [m' [E [I' A]]]. rewrite E. cbn. rewrite <- A. apply IH; exact I'.
    - rewrite S. reflexivity.
  Qed.

  (** asdict *)
  Lemma find_dget n (l : list (str * V)) : find n l = dget SE n l.
  Proof.
    induction l as [|[a v] l IH]; cbn; [reflexivity|].
    destruct (list_eq_dec N.eq_dec n a) as [->|E]; [rewrite str_eqb_refl; reflexivity|].
    apply str_eqb_neq in E. rewrite E. exact IH.
  Qed.

  Lemma asdict_spec m p : 
    NoDup (map fst (md_asdict p m)) /\
    forall n, find n (md_asdict p m) = find n (firstn (List.length (abs m) - p) (abs m)).
  Proof.
    split; [apply nodup_dict_of; exact SEQ|].
    intros n. rewrite !find_dget. unfold md_asdict. rewrite (dget_dict_of SE SEQ). f_equal.
    unfold abs. rewrite rev_length, map_length.
    rewrite <- (firstn_skipn p (md_stack m)) at 3. rewrite map_app, rev_app_distr.
    assert (E : List.length (rev (map fst (skipn p (md_stack m)))) = List.length (md_stack m) - p).
    { rewrite rev_length, map_length, skipn_length. reflexivity. }
    rewrite <- E. rewrite firstn_app, Nat.sub_diag. cbn. rewrite app_nil_r, firstn_all. reflexivity.
  Qed.

  Lemma find_add_new (syms : list (str * V)) : NoDup (map fst syms) -> forall (s : scope V) n,
    find n (add_new syms s) = match find n s with Some v => Some v | None => find n syms end.
  Proof.
    induction syms as [|[a v] r IH]; intros N s n; cbn.
    - destruct (find n s); reflexivity.
    - inversion N; subst. rewrite IH by assumption.
      destruct (find a s) as [w|] eqn:A; cbn.
      + destruct (find n s) eqn:B; [reflexivity|]. destruct list_eq_dec as [->|]; [congruence|reflexivity].
      + destruct list_eq_dec as [->|]; [rewrite A; reflexivity|]. destruct (find n s); reflexivity.
  Qed.
End Facts.
