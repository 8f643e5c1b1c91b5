From Coq Require Import List NArith Bool Arith Lia.
From Verif Require Import PyStr PyStrFacts Paths PathsSpec BuiltinsFacts.
Import ListNotations.
Local Open Scope N_scope.

Lemma join_app_last sep (cs : list str) c : cs <> [] -> join [sep] (cs ++ [c]) = join [sep] cs ++ sep :: c.
Proof.
  induction cs as [|a cs IH]; intros H; [congruence|]. destruct cs as [|b cs]; [reflexivity|].
  change ((a :: b :: cs) ++ [c]) with (a :: (b :: cs) ++ [c]).
  rewrite (join_cons [sep] a ((b :: cs) ++ [c])) by discriminate.
  rewrite IH by discriminate. rewrite (join_cons [sep] a (b :: cs)) by discriminate.
  rewrite <- !app_assoc. reflexivity.
Qed.

Lemma join_app sep (cs ds : list str) : cs <> [] -> ds <> [] ->
  join [sep] (cs ++ ds) = join [sep] cs ++ sep :: join [sep] ds.
Proof.
  revert cs; induction ds as [|d ds IH]; intros cs H1 H2; [congruence|].
  destruct ds as [|e ds]; [apply join_app_last; exact H1|].
  change (cs ++ d :: e :: ds) with (cs ++ [d] ++ e :: ds). rewrite app_assoc, IH; [|destruct cs; discriminate|discriminate].
  rewrite join_app_last by exact H1. rewrite (join_cons [sep] d (e :: ds)) by discriminate.
  rewrite <- app_assoc. reflexivity.
Qed.

Lemma In_join sep (cs : list str) : (forall c, In c cs -> ~ In sep c) -> (In sep (join [sep] cs) <-> (1 < List.length cs)%nat).
Proof.
  intros H. destruct cs as [|a [|b cs]]; cbn [join List.length].
  - split; [intros []|lia].
  - split; [intros I; exfalso; apply (H a); [left; reflexivity|exact I]|lia].
  - split; [lia|]. intros _. apply in_or_app. right. left. reflexivity.
Qed.

Lemma rsplit1_head_join sep (cs : list str) c : cs <> [] -> ~ In sep c ->
  rsplit1_head sep (join [sep] (cs ++ [c])) = join [sep] cs.
Proof.
  intros H Hc. rewrite join_app_last by exact H. unfold rsplit1_head.
  rewrite rev_app_distr. cbn [rev]. rewrite <- app_assoc. cbn [app].
  assert (A : forall p r, ~ In sep p -> after_first sep (p ++ sep :: r) = Some r).
  { induction p as [|x p IH]; intros r Hp; cbn; [rewrite N.eqb_refl; reflexivity|].
    destruct (N.eqb_spec x sep) as [->|]; [exfalso; apply Hp; left; reflexivity|].
    apply IH. intro; apply Hp; right; assumption. }
  rewrite A by (rewrite <- in_rev; exact Hc). apply rev_involutive.
Qed.

Lemma climb_spec sep k : forall (cs : list str) rest,
  cs <> [] -> (forall c, In c cs -> ~ In sep c) -> (forall r, rest <> DOT :: r) ->
  climb sep (join [sep] cs) (repeat DOT k ++ rest) =
    if Nat.ltb k (List.length cs) then Ok (join [sep] (firstn (List.length cs - k) cs), rest)
    else Raise ImportError.
Proof.
  induction k as [|k IH]; intros cs rest Hne Hs Hr.
  - destruct (Nat.ltb_spec 0 (List.length cs)); [|destruct cs; [congruence|cbn in *; lia]].
    rewrite Nat.sub_0_r, firstn_all. cbn. destruct rest as [|c r]; [reflexivity|]. cbn.
    destruct (N.eqb_spec c DOT) as [->|]; [exfalso; exact (Hr r eq_refl)|reflexivity].
  - cbn [repeat app climb]. rewrite N.eqb_refl.
    destruct (mem sep (join [sep] cs)) eqn:M.
    + apply mem_In in M. apply In_join in M; [|exact Hs].
      destruct (exists_last Hne) as [cs' [c ->]]. rewrite app_length in *. cbn in M.
      assert (cs' <> []) by (destruct cs'; [cbn in M; lia|discriminate]).
      rewrite rsplit1_head_join; [|assumption|apply Hs; apply in_or_app; right; left; reflexivity].
      rewrite IH; [|assumption|intros; apply Hs; apply in_or_app; left; assumption|exact Hr].
      cbn [List.length].
      replace (Nat.ltb (S k) (List.length cs' + 1)) with (Nat.ltb k (List.length cs')).
      2:{ destruct (Nat.ltb_spec k (List.length cs')), (Nat.ltb_spec (S k) (List.length cs' + 1)); try reflexivity; lia. }
      destruct (Nat.ltb_spec k (List.length cs')); [|reflexivity].
      replace (List.length cs' + 1 - S k)%nat with (List.length cs' - k)%nat by lia.
      rewrite firstn_app. replace (List.length cs' - k - List.length cs')%nat with 0%nat by lia.
      cbn. rewrite app_nil_r. reflexivity.
    + apply mem_not_In in M. rewrite In_join in M by exact Hs.
      destruct (Nat.ltb_spec (S k) (List.length cs)); [lia|reflexivity].
Qed.

Lemma replace_join (sep : char) (names : list str) : names <> [] -> (forall n, In n names -> ~ In DOT n) ->
  replace [DOT] [sep] (join [DOT] names) = join [sep] names.
Proof.
  intros H Hd. rewrite replace_single. induction names as [|n ns IH]; [congruence|].
  assert (F : forall (x : str), ~ In DOT x -> flat_map (fun x => if x =? DOT then [sep] else [x]) x = x).
  { induction x as [|y x IHx]; intros I; [reflexivity|]. cbn. destruct (N.eqb_spec y DOT) as [->|]; [exfalso; apply I; left; reflexivity|].
    cbn. f_equal. apply IHx. intro; apply I; right; assumption. }
  destruct ns as [|m ns]; [cbn; apply F, Hd; left; reflexivity|].
  rewrite (join_cons [DOT] n (m :: ns)), (join_cons [sep] n (m :: ns)) by discriminate.
  rewrite !flat_map_app. rewrite F by (apply Hd; left; reflexivity).
  rewrite IH; [|discriminate|intros; apply Hd; right; assumption].
  cbn [flat_map app]. rewrite N.eqb_refl. reflexivity.
Qed.

Lemma chop_sep_app sep b : chop_sep sep (b ++ [sep]) = b.
Proof. unfold chop_sep. rewrite rev_app_distr. cbn. rewrite N.eqb_refl. apply rev_involutive. Qed.

Lemma chop_sep_join sep (cs : list str) : (forall c, In c cs -> ~ In sep c) -> (last cs [] <> [] \/ cs = [[]]) ->
  chop_sep sep (join [sep] cs) = join [sep] cs.
Proof.
  intros Hs [Hl| ->]; [|reflexivity]. unfold chop_sep.
  destruct cs as [|a cs] using rev_ind; [reflexivity|]. clear IHcs. rewrite last_last in Hl.
  destruct (exists_last Hl) as [a' [x ->]].
  assert (E : exists b, join [sep] (cs ++ [a' ++ [x]]) = b ++ [x]).
  { destruct cs as [|c cs]; [exists a'; reflexivity|]. rewrite join_app_last by discriminate.
    exists (join [sep] (c :: cs) ++ sep :: a'). rewrite <- app_assoc. reflexivity. }
  destruct E as [b ->]. rewrite rev_app_distr. cbn.
  destruct (N.eqb_spec x sep) as [->|]; [|reflexivity].
  exfalso. apply (Hs (a' ++ [sep])); apply in_or_app; right; left; reflexivity.
Qed.
