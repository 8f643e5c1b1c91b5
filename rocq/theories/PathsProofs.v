(** Proofs and sample data of the theorems in PropPaths.v. *)
From Coq Require Import List NArith Bool Arith Lia String.
From Verif Require Import PyStr PyStrFacts Paths PathsSpec PathsFacts.
Import ListNotations.

Lemma c45_join_path (sep : N) (package names : list str) (level : nat) (ext : str) (trailing : bool) :
  package <> [] -> (forall c, In c package -> ~ In sep c) -> (last package [] <> [] \/ package = [[]]) ->
  names <> [] -> (forall n, In n names -> ~ In DOT n) -> (hd [] names <> [] \/ names = [[]]) ->
  let base := join [sep] package ++ (if trailing then [sep] else []) in
  let path := repeat DOT (S level) ++ join [DOT] names in
  join_path (Some base) path sep ext =
    match resolve package level names with
    | Some cs => Ok (Some (join [sep] cs ++ ext))
    | None => Raise ImportError
    end.
Proof.
  intros H1 H2 H3 H4 H5 H6 base path. unfold join_path, path. cbn [repeat app].
  rewrite N.eqb_refl.
  assert (C : chop_sep sep base = join [sep] package).
  { unfold base. destruct trailing; [apply chop_sep_app|]. rewrite app_nil_r. apply chop_sep_join; assumption. }
  rewrite C, climb_spec; [|assumption|assumption|].
  2:{ intros r E. destruct H6 as [H6| ->]; [|discriminate E]. destruct names as [|n ns]; [congruence|]. cbn in H6.
      destruct n as [|x n]; [congruence|].
      assert (X : x = DOT) by (destruct ns; cbn in E; congruence).
      apply (H5 (x :: n)); [left; reflexivity|left; exact X]. }
  unfold resolve. destruct (Nat.ltb_spec level (List.length package)) as [L|L]; [|reflexivity].
  cbn [bind fst snd]. rewrite replace_join by assumption.
  rewrite join_app; [rewrite <- app_assoc; reflexivity| |assumption].
  intros E. apply (f_equal (@List.length _)) in E. rewrite firstn_length in E. cbn in E. lia.
Qed.

Lemma c45_every_relative_path (path : str) : startswith [DOT] path = true ->
  exists level names, path = repeat DOT (S level) ++ join [DOT] names /\ names <> [] /\
    (forall n, In n names -> ~ In DOT n) /\ (hd [] names <> [] \/ names = [[]]).
Proof.
  destruct path as [|c p]; [discriminate|]. intros E.
  apply startswith_spec in E as [r E]. injection E as -> _.
  induction p as [|c p IH].
  - exists 0%nat, [[]]. repeat split; try discriminate; [|right; reflexivity]. intros n [<-|[]] [].
  - destruct (N.eq_dec c DOT) as [->|N].
    + destruct IH as [level [names [E H]]]. exists (S level), names. cbn [repeat app] in E |- *. injection E as ->. auto.
    + exists 0%nat, (split DOT (c :: p)). split; [rewrite join_split; reflexivity|].
      split; [apply split_not_nil|]. split; [apply split_no_sep|]. left.
      destruct (split DOT p) as [|l ls] eqn:S; [exfalso; eapply split_not_nil; exact S|].
      rewrite (split_cons_other DOT c p l ls N S). discriminate.
Qed.

Lemma c45_absolute (path : str) package : startswith [DOT] path = false -> make_absolute path package = Ok (Some path).
Proof. intros H. unfold make_absolute. rewrite H. reflexivity. Qed.

Lemma c45_no_package (path : str) : startswith [DOT] path = true -> make_absolute path None = Ok None.
Proof. intros H. unfold make_absolute. rewrite H. reflexivity. Qed.

Lemma c45_empty_package_refuted : exists path abs,
  make_absolute path (Some []) = Ok (Some abs) /\ startswith [DOT] abs = true.
Proof. exists (u ".x"), (u ".x"). vm_compute. split; reflexivity. Qed.

Lemma c45_dots_only_refuted : exists path package,
  make_absolute path (Some package) <> Ok (Some package) /\ path = [DOT].
Proof. exists (u "."), (u "pkg"). vm_compute. split; [discriminate|reflexivity]. Qed.
