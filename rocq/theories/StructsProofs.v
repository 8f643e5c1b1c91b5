(** Proofs and sample data of the theorems in PropStructs.v. *)
From Coq Require Import List NArith Bool Arith Lia String.
From Verif Require Import PyStr PyStrFacts PyDict Structs StructsSpec StructsFacts.
Import ListNotations.

Lemma c17_scope {V} (history : list (op V)) :
  match steps history [] with
  | Raise e => md_steps history md_empty = Raise e
  | Ok s => exists m, md_steps history md_empty = Ok m /\
      (forall n, md_get n m = find n s) /\
      (forall n, md_getitem n m = match find n s with Some v => Ok v | None => Raise KeyError end) /\
      (forall n, md_contains n m = match find n s with Some _ => true | None => false end) /\
      md_position m = List.length s
  end.
Proof.
  pose proof (steps_sim history md_empty inv_empty) as S. change (abs md_empty) with (@nil (str * V)) in S.
  destruct (steps history []) as [s|e]; [|exact S].
  destruct S as [m [E [I A]]]. exists m. split; [exact E|]. rewrite <- A.
  split; [intros; apply get_find; exact I|]. split; [intros; apply getitem_find; exact I|].
  split; [intros; apply contains_find; exact I|apply position_length].
Qed.

Lemma c17_pop {V} (history : list (op V)) m n v s : md_steps history md_empty = Ok m ->
  steps history [] = Ok ((n, v) :: s) -> exists m', md_pop m = Ok (n, v, m').
Proof.
  intros E S. pose proof (steps_sim history md_empty inv_empty) as P. change (abs md_empty) with (@nil (str * V)) in P.
  rewrite S in P. destruct P as [m0 [E' [I A]]]. assert (m0 = m) by congruence. subst m0.
  pose proof (pop_spec m I) as P. rewrite A in P. destruct P as [m' [P _]]. eauto.
Qed.

Lemma c17_reset_restores {V} (history later : list (op V)) m m' :
  md_steps history md_empty = Ok m ->
  Forall (fun o => match o with OPop => False | OReset p => md_position m <= p | _ => True end) later ->
  md_steps later m = Ok m' ->
  exists m'', md_reset (md_position m) m' = Ok m'' /\ forall n, md_get n m'' = md_get n m.
Proof.
  intros E F E'.
  pose proof (steps_sim history md_empty inv_empty) as P. change (abs md_empty) with (@nil (str * V)) in P.
  destruct (steps history []) as [s|e]; [|congruence]. destruct P as [m0 [E0 [I A]]].
  assert (m0 = m) by congruence. subst m0. clear E0.
  assert (K : exists top, abs m' = top ++ abs m /\ inv m').
  { clear E. assert (B : md_position m = List.length (abs m)) by apply position_length. rewrite B in F.
    remember (abs m) as base eqn:HB. assert (T : exists top, abs m = top ++ base) by (exists []; symmetry; exact HB).
    clear HB A B s. revert m I T F E'.
    induction later as [|o later IH]; intros m I [top T] F E'; cbn in E'.
    - injection E' as <-. exists top. split; assumption.
    - inversion F as [|? ? Fo Fr]; subst. pose proof (step_sim o m I) as S.
      destruct (md_step o m) as [m1|] eqn:M; [cbn in E'|discriminate].
      destruct (step o (abs m)) as [s|] eqn:SO; [|congruence].
      destruct S as [m2 [[= <-] [I1 A1]]].
      apply (IH m1 I1); [|exact Fr|exact E']. rewrite A1. rewrite T in SO.
      destruct o as [n v| |p|syms|syms]; cbn [step] in SO.
      + injection SO as <-. exists ((n, v) :: top). reflexivity.
      + destruct Fo.
      + destruct (Nat.ltb _ p) eqn:L; [discriminate|]. injection SO as <-. apply Nat.ltb_ge in L.
        rewrite app_length in L |- *.
        exists (skipn (List.length top + List.length base - p) top). rewrite skipn_app.
        replace (List.length top + List.length base - p - List.length top) with 0 by lia. reflexivity.
      + injection SO as <-. exists (rev syms ++ top). rewrite <- app_assoc. reflexivity.
      + injection SO as <-. clear - top. revert top. induction syms as [|[n v] r IHs]; intros top; cbn; [eauto|].
        destruct (find n (top ++ base)); [apply IHs|]. apply (IHs ((n, v) :: top)). }
  destruct K as [top [A' I']]. pose proof (reset_spec m' (md_position m) I') as R.
  rewrite position_length in R |- *. rewrite A', app_length in R.
  destruct (Nat.ltb_spec (List.length top + List.length (abs m)) (List.length (abs m))); [lia|].
  destruct R as [m'' [R [I'' A'']]]. exists m''. split; [exact R|].
  intros n. rewrite (get_find m'' n I''), (get_find m n I), A''.
  replace (List.length top + List.length (abs m) - List.length (abs m)) with (List.length top) by lia.
  rewrite skipn_app, skipn_all, Nat.sub_diag. reflexivity.
Qed.

Lemma c18_asdict {V} (history : list (op V)) m s p : md_steps history md_empty = Ok m -> steps history [] = Ok s ->
  NoDup (map fst (md_asdict p m)) /\
  forall n, find n (md_asdict p m) = find n (firstn (List.length s - p) s).
Proof.
  intros E S. pose proof (steps_sim history md_empty inv_empty) as P. change (abs md_empty) with (@nil (str * V)) in P.
  rewrite S in P. destruct P as [m0 [E0 [I A]]]. assert (m0 = m) by congruence. subst m0 s. apply asdict_spec.
Qed.

Lemma c18_pushnew {V} (history : list (op V)) m (symbols : list (str * V)) : md_steps history md_empty = Ok m ->
  NoDup (map fst symbols) ->
  forall n, md_get n (md_pushnew symbols m) = match md_get n m with Some v => Some v | None => find n symbols end.
Proof.
  intros E N n. pose proof (steps_sim history md_empty inv_empty) as P. change (abs md_empty) with (@nil (str * V)) in P.
  destruct (steps history []) as [s|e]; [|congruence]. destruct P as [m0 [E0 [I A]]].
  assert (m0 = m) by congruence. subst m0. destruct (pushnew_spec symbols m I) as [I' A'].
  rewrite (get_find _ n I'), (get_find _ n I), A'. apply find_add_new. exact N.
Qed.

Lemma c18_leave_block {V} (history : list (op V)) m s p : md_steps history md_empty = Ok m -> steps history [] = Ok s ->
  p <= List.length s ->
  exists m', md_reset p m = Ok m' /\
    forall n, md_get n (md_pushnew (md_asdict p m) m') =
      match find n (skipn (List.length s - p) s) with
      | Some v => Some v
      | None => find n (firstn (List.length s - p) s)
      end.
Proof.
  intros E S L. pose proof (steps_sim history md_empty inv_empty) as P. change (abs md_empty) with (@nil (str * V)) in P.
  rewrite S in P. destruct P as [m0 [E0 [I A]]]. assert (m0 = m) by congruence. subst m0 s.
  pose proof (reset_spec m p I) as R. destruct (Nat.ltb_spec (List.length (abs m)) p); [lia|].
  destruct R as [m' [R [I' A']]]. exists m'. split; [exact R|]. intros n.
  destruct (asdict_spec m p) as [ND D].
  destruct (pushnew_spec (md_asdict p m) m' I') as [I'' A''].
  rewrite (get_find _ n I''), A'', find_add_new by exact ND. rewrite A', D. reflexivity.
Qed.
