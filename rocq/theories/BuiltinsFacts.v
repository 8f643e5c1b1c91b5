From Coq Require Import List NArith ZArith Bool Arith Lia String.
From Verif Require Import PyStr PyStrFacts Indent IndentSpec IndentFacts Builtins BuiltinsSpec.
Import ListNotations.
Local Open Scope N_scope.

(** merge *)
Lemma words_from_cur cur s : cur <> [] -> words_from cur s <> [].
Proof.
  revert cur; induction s as [|c r IH]; intros cur H; cbn.
  - destruct cur; [congruence|discriminate].
  - destruct (is_space c).
    + destruct cur; [congruence|discriminate].
    + apply IH. destruct cur; discriminate.
Qed.

Lemma words_from_all_space cur s : all_space s -> words_from cur s = flush cur.
Proof.
  revert cur; induction s as [|c r IH]; intros cur H; cbn; [reflexivity|].
  apply all_space_cons in H as [Hc Hr]. rewrite Hc, IH by exact Hr.
  destruct cur; reflexivity.
Qed.

(* what sub_spaces + rstrip gives *)
Lemma rstrip_cons c s : is_space c = false -> rstrip (c :: s) = c :: rstrip s.
Proof.
  intros H. change (c :: s) with ([c] ++ s).
  destruct (rstrip_nil s) as [_ _].
  destruct (blank_dec s) as [B|B].
  - rewrite (rstrip_app_space [c] s B). rewrite (proj2 (rstrip_nil s) B).
    change [c] with ([] ++ [c]). apply rstrip_nonspace; exact H.
  - apply rstrip_app_nonblank; exact B.
Qed.

Lemma sub_spaces_blank b s : all_space s -> all_space (sub_spaces b s).
Proof.
  revert b; induction s as [|c r IH]; intros b H; cbn; [exact H|].
  apply all_space_cons in H as [Hc Hr]. rewrite Hc.
  destruct b; [apply IH; exact Hr|]. apply all_space_cons; split; [reflexivity|apply IH; exact Hr].
Qed.

Lemma sub_spaces_nonblank b s : ~ all_space s -> ~ all_space (sub_spaces b s).
Proof.
  revert b; induction s as [|c r IH]; intros b H A; cbn in A; [exact (H A)|].
  destruct (is_space c) eqn:E.
  - assert (Hr : ~ all_space r) by (intro Hr; apply H; apply all_space_cons; auto).
    destruct b; [exact (IH true Hr A)|]. apply all_space_cons in A as [_ A]. exact (IH true Hr A).
  - apply all_space_cons in A as [A _]. congruence.
Qed.

Lemma rstrip_SP s : ~ all_space s -> rstrip (SP :: s) = SP :: rstrip s.
Proof. intros H. change (SP :: s) with ([SP] ++ s). apply (rstrip_app_nonblank [SP] s H). Qed.

Lemma words_nonblank s : ~ all_space s -> words_from [] s <> [].
Proof.
  induction s as [|c r IH]; intros H; cbn; [exfalso; apply H; apply all_space_nil|].
  destruct (is_space c) eqn:E; cbn.
  - apply IH. intro A. apply H. apply all_space_cons; auto.
  - apply words_from_cur. discriminate.
Qed.

Lemma merge_core s :
  (forall cur, ~ all_space s \/ True -> (forall c, In c cur -> is_space c = false) -> cur <> [] ->
     cur ++ rstrip (sub_spaces false s) = join [SP] (words_from cur s)) /\
  (rstrip (sub_spaces true s) = join [SP] (words_from [] s)).
Proof.
  induction s as [|c r [IH1 IH2]].
  - split; [|reflexivity]. intros cur _ _ H. cbn. destruct cur; [congruence|]. cbn. rewrite app_nil_r. reflexivity.
  - split.
    + intros cur _ Hcur Hne. cbn [sub_spaces words_from]. destruct (is_space c) eqn:E.
      * destruct (blank_dec r) as [B|B].
        -- rewrite (words_from_all_space [] r B).
           rewrite (proj2 (rstrip_nil _)).
           2:{ apply all_space_cons; split; [reflexivity|apply sub_spaces_blank; exact B]. }
           destruct cur; [congruence|]. cbn. rewrite app_nil_r. reflexivity.
        -- rewrite rstrip_SP by (apply sub_spaces_nonblank; exact B).
           rewrite IH2. destruct cur as [|x cur]; [congruence|]. cbn [flush].
           change ([x :: cur] ++ words_from [] r) with ((x :: cur) :: words_from [] r).
           rewrite (join_cons [SP] (x :: cur) (words_from [] r)) by (apply words_nonblank; exact B).
           reflexivity.
      * rewrite rstrip_cons by exact E.
        rewrite <- IH1.
        -- rewrite <- app_assoc. reflexivity.
        -- auto.
        -- intros d Hd. apply in_app_or in Hd as [Hd|[<-|[]]]; auto.
        -- destruct cur; discriminate.
    + cbn [sub_spaces words_from]. destruct (is_space c) eqn:E.
      * cbn. exact IH2.
      * rewrite rstrip_cons by exact E. cbn [app].
        rewrite <- (IH1 [c]).
        -- reflexivity.
        -- auto.
        -- intros d [<-|[]]; exact E.
        -- discriminate.
Qed.

Lemma lstrip_rstrip_comm_sub s : strip (sub_spaces false s) = rstrip (sub_spaces true s).
Proof.
  unfold strip. f_equal. destruct s as [|c r]; [reflexivity|].
  cbn [sub_spaces]. destruct (is_space c) eqn:E.
  - cbn [lstrip]. change (is_space SP) with true. cbv iota.
    induction r as [|d r IH]; [reflexivity|]. cbn. destruct (is_space d) eqn:D; [exact IH|].
    cbn. rewrite D. reflexivity.
  - cbn [lstrip]. rewrite E. reflexivity.
Qed.

Lemma merge_words s : merge s = join [SP] (words s).
Proof. unfold merge, words. rewrite lstrip_rstrip_comm_sub. apply merge_core. Qed.

Lemma words_from_spec cur s : (forall c, In c cur -> is_space c = false) ->
  List.concat (words_from cur s) = cur ++ ink s /\
  Forall (fun w => w <> [] /\ forall c, In c w -> is_space c = false) (words_from cur s).
Proof.
  revert cur; induction s as [|c r IH]; intros cur H; cbn.
  - rewrite app_nil_r. destruct cur; cbn; [split; [reflexivity|constructor]|].
    rewrite app_nil_r. split; [reflexivity|]. constructor; [|constructor]. split; [discriminate|exact H].
  - destruct (is_space c) eqn:E; cbn.
    + destruct (IH []) as [A B]; [intros ? []|].
      rewrite concat_app, A. cbn.
      destruct cur; cbn; [split; [reflexivity|exact B]|].
      rewrite app_nil_r. split; [reflexivity|]. constructor; [split; [discriminate|exact H]|exact B].
    + destruct (IH (cur ++ [c])) as [A B].
      { intros d Hd. apply in_app_or in Hd as [Hd|[<-|[]]]; auto. }
      rewrite A. rewrite <- app_assoc. split; [reflexivity|exact B].
Qed.

(** words of a joined list of words *)
Lemma words_from_word cur w s : (forall c, In c w -> is_space c = false) ->
  words_from cur (w ++ s) = words_from (cur ++ w) s.
Proof.
  revert cur; induction w as [|c w IH]; intros cur H; cbn; [rewrite app_nil_r; reflexivity|].
  rewrite (H c (or_introl eq_refl)). rewrite IH by (intros; apply H; right; assumption).
  rewrite <- app_assoc. reflexivity.
Qed.

Lemma words_join ws : Forall (fun w => w <> [] /\ forall c, In c w -> is_space c = false) ws ->
  words (join [SP] ws) = ws.
Proof.
  unfold words. induction 1 as [|w ws [Hn Hw] H IH]; [reflexivity|].
  destruct ws as [|w' ws].
  - cbn [join]. rewrite <- (app_nil_r w) at 1. rewrite words_from_word by exact Hw. cbn.
    destruct w; [congruence|reflexivity].
  - rewrite (join_cons [SP] w (w' :: ws)) by discriminate. rewrite words_from_word by exact Hw.
    cbn [app]. change ([SP] ++ join [SP] (w' :: ws)) with (SP :: join [SP] (w' :: ws)).
    cbn [words_from]. change (is_space SP) with true. cbv iota. rewrite IH. destruct w; [congruence|reflexivity].
Qed.

(** inline *)
Lemma inline_lines s : inline s = join (u "&#10;") (lines s).
Proof.
  unfold inline, lines. rewrite replace_single. induction s as [|c r IH]; [reflexivity|].
  cbn [flat_map]. rewrite IH. destruct (N.eqb_spec c NL) as [->|E].
  - rewrite split_cons_sep. rewrite (join_cons _ [] (split NL r)) by apply split_not_nil. reflexivity.
  - destruct (split NL r) as [|l ls] eqn:S; [exfalso; eapply split_not_nil; exact S|].
    rewrite (split_cons_other NL c r l ls E S). destruct ls; reflexivity.
Qed.

Lemma inline_no_NL s : ~ In NL (inline s).
Proof.
  unfold inline. rewrite replace_single. intros H. apply in_flat_map in H as [x [_ H]].
  destruct (N.eqb_spec x NL) as [E|E].
  - cbn in H. unfold NL in H. intuition discriminate.
  - destruct H as [H|[]]; auto.
Qed.

(** unique *)
Lemma existsb_str_In x l : existsb (str_eqb x) l = true <-> In x l.
Proof.
  rewrite existsb_exists. split.
  - intros [y [H E]]. apply str_eqb_eq in E. congruence.
  - intros H. exists x. split; [exact H|apply str_eqb_refl].
Qed.

Lemma unique_list_keep seen before l : (forall x, In x seen <-> In x before) ->
  unique_list seen l = keep_first_after before l.
Proof.
  revert seen before; induction l as [|x r IH]; intros seen before H; cbn; [reflexivity|].
  destruct (existsb (str_eqb x) seen) eqn:E; destruct in_dec as [I|I].
  - apply IH. intros y. rewrite in_app_iff, H. cbn. split; [auto|]. intros [?|[<-|[]]]; auto.
  - apply existsb_str_In in E. apply H in E. contradiction.
  - apply H in I. apply existsb_str_In in I. congruence.
  - f_equal. apply IH. intros y. cbn. rewrite in_app_iff, H. cbn. tauto.
Qed.

Lemma keep_first_after_spec before l :
  (forall x, In x (keep_first_after before l) <-> In x l /\ ~ In x before) /\
  NoDup (keep_first_after before l).
Proof.
  revert before; induction l as [|x r IH]; intros before; cbn.
  - split; [|constructor]. tauto.
  - destruct (IH (before ++ [x])) as [A B]. destruct in_dec as [I|I].
    + split; [|exact B]. intros y. rewrite A, in_app_iff. cbn. split.
      * intros [H1 H2]. tauto.
      * intros [[<-|H1] H2]; [contradiction|]. split; [exact H1|]. intros [?|[<-|[]]]; contradiction.
    + split.
      * intros y. cbn. rewrite A, in_app_iff. cbn. split.
        -- intros [<-|[H1 H2]]; tauto.
        -- intros [[<-|H1] H2]; [auto|].
           destruct (list_eq_dec N.eq_dec x y) as [->|N]; [auto|right]. split; [exact H1|].
           intros [?|[?|[]]]; congruence.
      * constructor; [|exact B]. intros H. apply A in H as [_ H]. apply H. apply in_or_app. cbn; auto.
Qed.

Lemma unique_spec st s : unique st s =
  join [NL] (keep_first (if st then filter (fun l => negb (str_eqb l [])) (map strip (splitlines s)) else splitlines s)).
Proof. unfold unique, keep_first. rewrite (unique_list_keep [] []) by tauto. reflexivity. Qed.

(** dedent *)
Lemma blank_line_spec l : blank_line l = true <-> blank l.
Proof. unfold blank_line, blank. apply forallb_forall. Qed.

Lemma sub_indent_line b l s : ~ In NL l ->
  sub_indent b (l ++ NL :: s) =
    if b && blank_line l then sub_indent true s
    else (if b then lstrip l else l) ++ NL :: sub_indent true s.
Proof.
  revert b; induction l as [|c l IH]; intros b H.
  - destruct b; reflexivity.
  - assert (Hc : c <> NL) by (intro; subst; apply H; left; reflexivity).
    assert (Hl : ~ In NL l) by (intro; apply H; right; assumption).
    cbn [app sub_indent blank_line forallb lstrip].
    destruct b; cbn [andb].
    + destruct (is_space c) eqn:E; cbn [andb].
      * rewrite (IH true Hl). reflexivity.
      * destruct (N.eqb_spec c NL); [contradiction|]. rewrite (IH false Hl). reflexivity.
    + destruct (N.eqb_spec c NL); [contradiction|]. rewrite (IH false Hl). reflexivity.
Qed.

Lemma sub_indent_last b l : ~ In NL l -> sub_indent b l = if b then lstrip l else l.
Proof.
  revert b; induction l as [|c l IH]; intros b H; [destruct b; reflexivity|].
  assert (Hc : c <> NL) by (intro; subst; apply H; left; reflexivity).
  assert (Hl : ~ In NL l) by (intro; apply H; right; assumption).
  cbn [sub_indent lstrip]. destruct b; cbn [andb].
  - destruct (is_space c) eqn:E; [exact (IH true Hl)|].
    destruct (N.eqb_spec c NL); [contradiction|]. rewrite (IH false Hl). reflexivity.
  - destruct (N.eqb_spec c NL); [contradiction|]. rewrite (IH false Hl). reflexivity.
Qed.

Lemma dedent_lines_aux ls : ls <> [] -> (forall l, In l ls -> ~ In NL l) ->
  sub_indent true (join [NL] ls) = join [NL] (dedented ls).
Proof.
  induction ls as [|l ls IH]; intros Hne Hl; [congruence|].
  assert (H0 : ~ In NL l) by (apply Hl; left; reflexivity).
  destruct ls as [|l' ls].
  - cbn [join]. rewrite sub_indent_last by exact H0. unfold dedented. cbn.
    destruct (blank_line l) eqn:B; cbn.
    + apply blank_line_spec in B. rewrite lstrip_all_space by exact B. reflexivity.
    + change (forallb is_space l) with (blank_line l). rewrite B. reflexivity.
  - rewrite (join_cons [NL] l (l' :: ls)) by discriminate.
    change ([NL] ++ join [NL] (l' :: ls)) with (NL :: join [NL] (l' :: ls)).
    rewrite sub_indent_line by exact H0. cbn [andb].
    rewrite IH; [|discriminate|intros; apply Hl; right; assumption].
    unfold dedented. change (last (l :: l' :: ls) []) with (last (l' :: ls) []).
    cbn [filter]. fold (filter (fun l0 => negb (blank_line l0)) ls).
    change (if negb (blank_line l') then l' :: filter (fun l0 : str => negb (blank_line l0)) ls else filter (fun l0 : str => negb (blank_line l0)) ls) with
      (filter (fun l0 => negb (blank_line l0)) (l' :: ls)).
    destruct (blank_line l) eqn:B; cbn [negb]; [reflexivity|].
    cbn [map]. remember (map lstrip (filter (fun l0 => negb (blank_line l0)) (l' :: ls))) as k eqn:K.
    destruct (blank_line (last (l' :: ls) [])) eqn:BL.
    + destruct k as [|a k].
      * reflexivity.
      * cbn [app]. rewrite (join_cons [NL] (lstrip l) (a :: k ++ [[]])) by discriminate. reflexivity.
    + destruct k as [|a k].
      * exfalso. symmetry in K. apply map_eq_nil in K.
        assert (In (last (l' :: ls) []) (filter (fun l0 => negb (blank_line l0)) (l' :: ls))).
        { apply filter_In. split; [|rewrite BL; reflexivity].
          clear. revert l'. induction ls as [|x ls IH]; intros l'; [left; reflexivity|]. right. apply IH. }
        rewrite K in H. destruct H.
      * rewrite (join_cons [NL] (lstrip l) (a :: k)) by discriminate. reflexivity.
Qed.

Lemma dedent_full s : dedent true s = join [NL] (dedented (lines s)).
Proof.
  unfold dedent. rewrite <- dedent_lines_aux.
  - f_equal. symmetry. apply join_split.
  - apply split_not_nil.
  - apply split_no_sep.
Qed.

Lemma lstrip_In c l : In c (lstrip l) -> In c l.
Proof. destruct (lstrip_decomp l) as [w [E _]]. intros H. rewrite E. apply in_or_app; auto. Qed.

Lemma dedented_no_NL ls : (forall l, In l ls -> ~ In NL l) -> forall l, In l (dedented ls) -> ~ In NL l.
Proof.
  intros H l Hl. assert (K : In l (map lstrip (filter (fun l => negb (blank_line l)) ls)) \/ l = []).
  { unfold dedented in Hl. destruct (map _ _) as [|a k]; [right; destruct Hl as [<-|[]]; reflexivity|].
    destruct (blank_line _); [apply in_app_or in Hl as [?|[<-|[]]]; auto|auto]. }
  destruct K as [K| ->]; [|intros []].
  apply in_map_iff in K as [x [<- K]]. apply filter_In in K as [K _]. intros I. apply lstrip_In in I.
  exact (H x K I).
Qed.

Lemma dedented_head ls l : In l (dedented ls) -> match l with [] => True | c :: _ => is_space c = false end.
Proof.
  intros Hl. assert (K : In l (map lstrip (filter (fun l => negb (blank_line l)) ls)) \/ l = []).
  { unfold dedented in Hl. destruct (map _ _) as [|a k]; [right; destruct Hl as [<-|[]]; reflexivity|].
    destruct (blank_line _); [apply in_app_or in Hl as [?|[<-|[]]]; auto|auto]. }
  destruct K as [K| ->]; [|exact I].
  apply in_map_iff in K as [x [<- K]]. destruct (lstrip x) as [|c r] eqn:E; [exact I|].
  exact (lstrip_head x c r E).
Qed.

Lemma dedented_not_nil ls : dedented ls <> [].
Proof. unfold dedented. destruct (map _ _); [discriminate|]. destruct (blank_line _); discriminate. Qed.

Lemma dedent_full_lines s : lines (dedent true s) = dedented (lines s).
Proof.
  rewrite dedent_full. apply split_join; [apply dedented_not_nil|].
  apply dedented_no_NL. apply split_no_sep.
Qed.

Lemma sub_indent_ink b s : ink (sub_indent b s) = ink s.
Proof.
  revert b; induction s as [|c r IH]; intros b; cbn; [reflexivity|].
  destruct b; cbn; [destruct (is_space c) eqn:E; cbn|destruct (is_space c) eqn:E; cbn]; rewrite ?E; cbn; rewrite IH; reflexivity.
Qed.

(** crop *)
Lemma after_first_some c s r : after_first c s = Some r -> exists p, s = p ++ c :: r /\ ~ In c p.
Proof.
  induction s as [|x s IH]; cbn; [discriminate|]. destruct (N.eqb_spec x c) as [->|E].
  - intros [= ->]. exists []. split; [reflexivity|intros []].
  - intros H. destruct (IH H) as [p [-> Hp]]. exists (x :: p). split; [reflexivity|]. intros [?|?]; auto.
Qed.

Lemma after_first_none c s : after_first c s = None -> ~ In c s.
Proof.
  induction s as [|x s IH]; cbn; [tauto|]. destruct (N.eqb_spec x c) as [->|E]; [discriminate|].
  intros H [?|?]; [auto|]. exact (IH H H0).
Qed.

Lemma rsplit1_head_spec c s :
  (~ In c s /\ rsplit1_head c s = s) \/
  (exists tail, s = rsplit1_head c s ++ c :: tail /\ ~ In c tail).
Proof.
  unfold rsplit1_head. destruct (after_first c (rev s)) as [r|] eqn:E.
  - right. apply after_first_some in E as [p [E Hp]]. exists (rev p). split.
    + rewrite <- (rev_involutive s), E, rev_app_distr. cbn. rewrite <- app_assoc. reflexivity.
    + rewrite <- in_rev. exact Hp.
  - left. apply after_first_none in E. rewrite <- in_rev in E. auto.
Qed.

(** cycle *)
Lemma cyc_next_spec {A} (s : list A) i : s <> [] ->
  exists x, cyc_next (s, skipn (Nat.modulo i (List.length s)) s) = Some (x, (s, skipn (S (Nat.modulo i (List.length s))) s)) /\ cyclic s i = Some x.
Proof.
  intros H. unfold cyc_next, cyclic. cbn [fst snd].
  assert (L : (Nat.modulo i (List.length s) < List.length s)%nat) by (apply Nat.mod_upper_bound; destruct s; [congruence|discriminate]).
  destruct (nth_error s (Nat.modulo i (List.length s))) as [x|] eqn:E.
  - apply nth_error_split in E as [l1 [l2 [E1 E2]]]. exists x.
    assert (A1 : skipn (List.length l1) s = x :: l2) by (rewrite E1; apply skipn_app_exact).
    assert (B1 : skipn (S (List.length l1)) s = l2).
    { replace (S (List.length l1)) with (List.length (l1 ++ [x])) by (rewrite app_length; cbn; lia).
      rewrite E1. change (x :: l2) with ([x] ++ l2). rewrite app_assoc. apply skipn_app_exact. }
    rewrite <- E2. rewrite A1, B1. auto.
  - apply nth_error_None in E. lia.
Qed.

Lemma skipn_wrap {A} (s : list A) i : s <> [] ->
  forall x c, cyc_next (s, skipn (S (Nat.modulo i (List.length s))) s) = Some (x, c) ->
  cyc_next (s, skipn (Nat.modulo (S i) (List.length s)) s) = Some (x, c).
Proof.
  intros H x c. set (n := List.length s). assert (n <> 0)%nat by (destruct s; [congruence|discriminate]).
  assert (L : (i mod n < n)%nat) by (apply Nat.mod_upper_bound; assumption).
  destruct (Nat.eq_dec (S (i mod n)) n) as [E|E].
  - assert (E' : (S i mod n = 0)%nat).
    { rewrite <- Nat.add_1_l, <- Nat.add_mod_idemp_r by assumption. rewrite Nat.add_1_l, E. apply Nat.mod_same; assumption. }
    rewrite E, E'. unfold n. rewrite skipn_all. cbn. destruct s; [congruence|]. auto.
  - assert (E' : (S i mod n = S (i mod n))%nat).
    { rewrite <- Nat.add_1_l, <- Nat.add_mod_idemp_r by assumption. rewrite Nat.add_1_l. apply Nat.mod_small. lia. }
    rewrite E'. auto.
Qed.

(* state of a cycle after i steps: either of two representations at a wrap-around *)
Definition at_step {A} (s : list A) (i : nat) (c : cyc A) : Prop :=
  fst c = s /\ cyc_next c = cyc_next (s, skipn (Nat.modulo i (List.length s)) s).

Lemma at_step_next {A} (s : list A) i c : s <> [] -> at_step s i c ->
  exists x c', cyc_next c = Some (x, c') /\ cyclic s i = Some x /\ at_step s (S i) c'.
Proof.
  intros H [F N]. destruct (cyc_next_spec s i H) as [x [E X]]. rewrite N, E. exists x, (s, skipn (S (Nat.modulo i (List.length s))) s).
  split; [reflexivity|]. split; [exact X|]. split; [reflexivity|].
  destruct (cyc_next_spec s (S i) H) as [y [E2 _]].
  destruct (cyc_next (s, skipn (S (Nat.modulo i (List.length s))) s)) as [[y' c']|] eqn:E3.
  - symmetry. apply skipn_wrap; assumption.
  - unfold cyc_next in E3. cbn [fst snd] in E3. destruct (skipn (S (Nat.modulo i (List.length s))) s); [|discriminate E3]. destruct s; [exfalso; apply H; reflexivity|discriminate E3].
Qed.

Lemma zip_next_spec {A} (seqs : list (list A)) cs i : (forall s, In s seqs -> s <> []) ->
  Forall2 (fun s c => at_step s i c) seqs cs ->
  exists t cs', zip_next cs = Some (t, cs') /\ map (fun s => cyclic s i) seqs = map Some t /\
    Forall2 (fun s c => at_step s (S i) c) seqs cs'.
Proof.
  intros H F; revert H; induction F as [|s c seqs cs Hc F IH]; intros H.
  - exists [], []. cbn. auto.
  - destruct (at_step_next s i c) as [x [c' [E [X S]]]]; [apply H; left; reflexivity|exact Hc|].
    destruct IH as [t [cs' [E2 [X2 S2]]]]; [intros; apply H; right; assumption|].
    exists (x :: t), (c' :: cs'). cbn. rewrite E, E2, X, X2. auto.
Qed.

Lemma zip_take_spec {A} (seqs : list (list A)) : (forall s, In s seqs -> s <> []) -> forall k cs i,
  Forall2 (fun s c => at_step s i c) seqs cs ->
  List.length (zip_take k cs) = k /\
  forall j t, nth_error (zip_take k cs) j = Some t -> map Some t = map (fun s => cyclic s (i + j)) seqs.
Proof.
  intros H. induction k as [|k IH]; intros cs i F; cbn.
  - split; [reflexivity|]. intros [|j] t; discriminate.
  - destruct (zip_next_spec seqs cs i H F) as [t [cs' [E [X ST]]]]. rewrite E.
    destruct (IH cs' (S i) ST) as [L N]. cbn. rewrite L. split; [reflexivity|].
    intros [|j] t' E'.
    + injection E' as <-. rewrite Nat.add_0_r. auto.
    + cbn in E'. rewrite (N j t' E'). replace (S i + j)%nat with (i + S j)%nat by lia. reflexivity.
Qed.

Lemma at_step_0 {A} (s : list A) : at_step s 0 (s, s).
Proof. split; [reflexivity|]. destruct s; [reflexivity|]. rewrite Nat.mod_0_l by discriminate. reflexivity. Qed.

Lemma init_steps {A} (seqs : list (list A)) : Forall2 (fun s c => at_step s 0 c) seqs (map (fun s => (s, s)) seqs).
Proof. induction seqs; cbn; constructor; [apply at_step_0|assumption]. Qed.

Lemma zip_next_empty {A} (seqs : list (list A)) : In [] seqs -> zip_next (map (fun s => (s, s)) seqs) = None.
Proof.
  induction seqs as [|s seqs IH]; intros H; [destruct H|]. destruct H as [->|H]; [reflexivity|].
  cbn. destruct (cyc_next (s, s)) as [[x c]|]; [|reflexivity]. rewrite IH by exact H. reflexivity.
Qed.

(** changes *)
Lemma changes_from_spec {A} (neq : A -> A -> bool) l : forall p i x, nth_error l i = Some x ->
  exists y, nth_error (p :: l) i = Some y /\ nth_error (changes_from neq p l) i = Some (x, neq x y).
Proof.
  induction l as [|a l IH]; intros p [|i] x H; try discriminate; cbn in *.
  - injection H as ->. eauto.
  - apply IH; exact H.
Qed.

Lemma changes_from_fst {A} (neq : A -> A -> bool) l : forall p, map fst (changes_from neq p l) = l.
Proof. induction l as [|a l IH]; intros p; cbn; [reflexivity|]. rewrite IH. reflexivity. Qed.
