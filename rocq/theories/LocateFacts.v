(** The binary search for the line of a syntax error. *)
From Coq Require Import List NArith Bool Arith Lia.
From Verif Require Import PyStr PyStrFacts Ast PreprocessSpec PreprocessFacts Preprocess Peg Grammar Syntax SyntaxSpec GrammarFacts ParseTools.
Import ListNotations.

Lemma first_line (s : str) : (~ In NL s /\ split NL s = [s]) \/
  exists x r, s = x ++ NL :: r /\ ~ In NL x /\ split NL s = x :: split NL r.
Proof.
  induction s as [|c s IH]; [left; split; [intros []|reflexivity]|]. cbn [split].
  destruct (N.eqb_spec c NL) as [->|E].
  - right. exists [], s. split; [reflexivity|]. split; [intros []|reflexivity].
  - destruct IH as [[H ->]|(x & r & -> & H & ->)].
    + left. split; [intros [K|K]; [congruence|exact (H K)]|reflexivity].
    + right. exists (c :: x), r. split; [reflexivity|]. split; [intros [K|K]; [congruence|exact (H K)]|reflexivity].
Qed.

Lemma split_ne s : split NL s <> [].
Proof. destruct (first_line s) as [[_ ->]|(x & r & _ & _ & ->)]; discriminate. Qed.

Lemma join_cons x l : l <> [] -> join [NL] (x :: l) = x ++ NL :: join [NL] l.
Proof. destruct l; [congruence|reflexivity]. Qed.

Definition cut (k : nat) (s : str) : str := join [NL] (firstn k (split NL s)).

Lemma cut_ok k : forall s, cut_after k s (cut k s).
Proof.
  unfold cut. induction k as [|k IH]; intros s; [constructor|].
  destruct (first_line s) as [[H ->]|(x & r & -> & H & E)].
  - replace (firstn (S k) [s]) with [s] by (destruct k; reflexivity). apply cut_whole, H.
  - rewrite E. cbn [firstn]. destruct k as [|k]; [apply cut_last, H|].
    rewrite join_cons; [apply cut_line; [exact H|apply IH]|].
    intros K. apply (split_ne r). destruct (split NL r); [reflexivity|discriminate].
Qed.

Lemma first_line_unique (x x' r r' : str) : ~ In NL x -> ~ In NL x' -> x ++ NL :: r = x' ++ NL :: r' -> x = x' /\ r = r'.
Proof.
  revert x'. induction x as [|a x IH]; intros [|b x'] H K E; cbn in E; inversion E; subst; auto.
  - exfalso. apply K. left. reflexivity.
  - exfalso. apply H. left. reflexivity.
  - destruct (IH x' (fun Q => H (or_intror Q)) (fun Q => K (or_intror Q)) H2) as [-> ->]. auto.
Qed.

Lemma cut_det k s z : cut_after k s z -> z = cut k s.
Proof.
  induction 1 as [s|k s H|x r H|k x r z H _ IH].
  - reflexivity.
  - unfold cut. destruct (first_line s) as [[_ ->]|(x & r & -> & _ & _)]; [destruct k; reflexivity|].
    exfalso. apply H. apply in_or_app. right. left. reflexivity.
  - unfold cut. destruct (first_line (x ++ NL :: r)) as [[K _]|(x' & r' & E & K & ->)]; [exfalso; apply K, in_or_app; right; left; reflexivity|].
    cbn. destruct (first_line_unique _ _ _ _ H K E) as [-> _]. reflexivity.
  - subst z. unfold cut. destruct (first_line (x ++ NL :: r)) as [[K _]|(x' & r' & E & K & ->)]; [exfalso; apply K, in_or_app; right; left; reflexivity|].
    destruct (first_line_unique _ _ _ _ H K E) as [<- <-]. cbn [firstn]. rewrite join_cons; [reflexivity|].
    intros Q. apply (split_ne r). destruct (split NL r); [reflexivity|discriminate].
Qed.

Lemma split_count s : length (split NL s) = line_count s.
Proof.
  unfold line_count. induction s as [|c s IH]; [reflexivity|]. cbn [split count_occ].
  destruct (N.eqb_spec c NL) as [->|E].
  - cbn [length]. rewrite IH. destruct (N.eq_dec NL NL); congruence.
  - destruct (N.eq_dec c NL); [congruence|]. rewrite <- IH. pose proof (split_ne s). destruct (split NL s); [congruence|reflexivity].
Qed.

Lemma join_split_all s : join [NL] (split NL s) = s.
Proof.
  induction s as [|c s IH]; [reflexivity|]. cbn [split]. pose proof (split_ne s) as Hn.
  destruct (N.eqb_spec c NL) as [->|E].
  - rewrite join_cons by exact Hn. cbn. f_equal. exact IH.
  - destruct (split NL s) as [|x l]; [congruence|]. destruct l as [|z l].
    + cbn in *. congruence.
    + rewrite join_cons in * by discriminate. cbn. f_equal. exact IH.
Qed.

Lemma cut_all s : cut (length (split NL s)) s = s.
Proof. unfold cut. rewrite firstn_all. apply join_split_all. Qed.

Lemma cut_nothing s : cut 0 s = [].
Proof. reflexivity. Qed.

Lemma core_blocks_nl U y p : sane y -> peg_match (grammar U y) 62 (PRef R_core_blocks) p [NL] = PFail.
Proof.
  intros Hy. pm. pm. rewrite alt_cons, tail_blocks_nl by exact Hy. rewrite alt_cons. pm. cbn [length]. rewrite loop_step.
  replace (peg_match _ _ (PRef R_block) p [NL]) with (@PFail (tree rule)) by (vm_compute; reflexivity). reflexivity.
Qed.

Section Locate.
Variables (X : lexicon) (y : symbols).
Hypothesis Hy : sane y.

Lemma empty_valid : valid X y [].
Proof.
  unfold valid, outcome_of. replace (preprocess y []) with (Ok [NL]) by reflexivity. unfold parse_flat.
  erewrite (parse_fixed _ _ 65).
  2: cbn; lia.
  2: { pm. pm. rewrite seq_cons. pm. rewrite (core_blocks_nl _ _ _ Hy). rewrite seq_cons.
       match goal with |- context [peg_match ?g ?k (POpt (PRef R_margin)) ?p ?s] =>
         set (q := peg_match g k (POpt (PRef R_margin)) p s); vm_compute in q; subst q end.
       cbn. reflexivity. }
  eexists. reflexivity.
Qed.

Lemma locate_go_ok script : forall n good bad b,
  good < bad -> bad <= good + 1 + n -> valid X y (cut good script) -> invalid X y (cut bad script) ->
  locate_go X y (split NL script) n good bad = Ok b ->
  good < b <= bad /\ invalid X y (cut b script) /\ valid X y (cut (b - 1) script).
Proof.
  induction n as [|n IH]; intros good bad b Hl Hn Hg Hb; cbn [locate_go].
  - intros [= <-]. split; [lia|]. split; [exact Hb|]. replace (bad - 1) with good by lia. exact Hg.
  - destruct (Nat.ltb_spec (good + 1) bad) as [Hlt|Hge].
    + set (mid := Nat.div (good + bad) 2). assert (Hm : good < mid < bad).
      { unfold mid. split.
        - apply (Nat.div_le_lower_bound (good + bad) 2 (S good)); lia.
        - apply Nat.div_lt_upper_bound; lia. }
      fold (cut mid script). unfold bind. destruct (preprocess y (cut mid script)) as [flat|e] eqn:Ep; [|discriminate].
      destruct (parse_flat X y flat) as [d| |e] eqn:Ef; [| |discriminate]; intros H; apply IH in H; try lia; try assumption.
      * split; [lia|]. apply H.
      * exists d. unfold outcome_of. rewrite Ep. exact Ef.
      * split; [lia|]. apply H.
      * unfold invalid, outcome_of. rewrite Ep. exact Ef.
    + intros [= <-]. split; [lia|]. split; [exact Hb|]. replace (bad - 1) with good by lia. exact Hg.
Qed.

Lemma locate_ok script b : invalid X y script -> locate_error X y script = Ok b ->
  1 <= b <= line_count script /\ invalid X y (cut b script) /\ valid X y (cut (b - 1) script).
Proof.
  intros H E. unfold locate_error in E. apply locate_go_ok in E.
  - rewrite <- split_count. split; [lia|]. apply E.
  - pose proof (split_ne script). destruct (split NL script); [congruence|cbn; lia].
  - lia.
  - rewrite cut_nothing. apply empty_valid.
  - rewrite cut_all. exact H.
Qed.

(** The search always ends in one of the two ways: with a line, or with an error of another kind that a
    prefix of the script causes. *)
Lemma locate_go_raise script : forall n good bad e,
  locate_go X y (split NL script) n good bad = Raise e -> exists k, k < bad /\ outcome_of X y (cut k script) = Fails e.
Proof.
  induction n as [|n IH]; intros good bad e; cbn [locate_go]; [discriminate|].
  destruct (Nat.ltb_spec (good + 1) bad) as [Hlt|Hge]; [|discriminate].
  set (mid := Nat.div (good + bad) 2). assert (Hm : mid < bad) by (apply Nat.div_lt_upper_bound; lia).
  fold (cut mid script). unfold bind. destruct (preprocess y (cut mid script)) as [flat|e'] eqn:Ep.
  - destruct (parse_flat X y flat) as [d| |e'] eqn:Ef.
    + apply IH.
    + intros H. apply IH in H as (k & Hk & Q). exists k. split; [lia|exact Q].
    + intros [= <-]. exists mid. split; [exact Hm|]. unfold outcome_of. rewrite Ep. exact Ef.
  - intros [= <-]. exists mid. split; [exact Hm|]. unfold outcome_of. rewrite Ep. reflexivity.
Qed.
End Locate.

(** ** Whole scripts *)
Lemma report_error X script line text : parse_report X script = Error_near line text ->
  exists y, get_parser script = Some y /\ invalid X y script /\ locate_error X y script = Ok line /\ text = error_text script line.
Proof.
  unfold parse_report. destruct (get_parser script) as [y|]; [|discriminate]. destruct (preprocess y script) as [flat|e] eqn:Ep; [|discriminate].
  destruct (parse_flat X y flat) as [d| |e] eqn:Ef; [discriminate| |discriminate].
  destruct (locate_error X y script) as [b|e] eqn:El; [|discriminate]. intros [= <- <-].
  exists y. split; [reflexivity|]. split; [unfold invalid, outcome_of; rewrite Ep; exact Ef|]. split; [exact El|reflexivity].
Qed.

(** ** The parser never runs out of steps *)
Lemma parse_ends U y s : (exists t, parse U y s = Parsed t) \/ parse U y s = Incomplete.
Proof.
  unfold parse. pose proof (grammar_total U y (64 * S (length s)) R_document 0 s ltac:(lia)) as H.
  pose proof (document_ok U y (64 * S (length s)) 0 s) as K.
  destruct (peg_match _ _ _ 0 s) as [| |t [|c r]]; [congruence|congruence|left; eauto|right; reflexivity].
Qed.

Lemma report_located X script line text : parse_report X script = Error_near line text ->
  exists y, get_parser script = Some y /\ 1 <= line <= line_count script /\
    (forall z, cut_after line script z -> invalid X y z) /\
    (forall z, cut_after (line - 1) script z -> valid X y z).
Proof.
  intros H. apply report_error in H as (y & Hy & Hi & Hl & _). exists y. split; [exact Hy|].
  apply locate_ok in Hl as (Hr & H1 & H2); [|eapply get_parser_sane; exact Hy|exact Hi].
  split; [exact Hr|]. split; intros z Hz; apply cut_det in Hz; subst z; assumption.
Qed.

Lemma report_first X script line text y : parse_report X script = Error_near line text -> get_parser script = Some y ->
  (forall j k z z', j <= k -> cut_after j script z -> cut_after k script z' -> invalid X y z -> invalid X y z') ->
  forall j z, j < line -> cut_after j script z -> ~ invalid X y z.
Proof.
  intros H Hy Hm j z Hj Hz Hi. apply report_located in H as (y' & Hy' & Hr & _ & Hv). rewrite Hy in Hy'. injection Hy' as <-.
  specialize (Hv _ (cut_ok (line - 1) script)) as [d Hd].
  pose proof (Hm j (line - 1) z _ ltac:(lia) Hz (cut_ok (line - 1) script) Hi) as K. unfold invalid in K. congruence.
Qed.

Lemma report_ends X script : exists y, get_parser script = Some y /\
  (forall d, parse_report X script = Tree_of d -> outcome_of X y script = Good d) /\
  (forall e, parse_report X script = Error_of e -> exists k z, cut_after k script z /\ outcome_of X y z = Fails e).
Proof.
  destruct (get_parser_fresh script) as (y & Hy & _). exists y. split; [exact Hy|]. unfold parse_report, outcome_of. rewrite Hy. split.
  - intros d. destruct (preprocess y script) as [flat|e]; [|discriminate]. destruct (parse_flat X y flat); [congruence| |discriminate].
    destruct (locate_error X y script); discriminate.
  - intros e. destruct (preprocess y script) as [flat|e'] eqn:Ep.
    + destruct (parse_flat X y flat) as [d| |e'] eqn:Ef; [discriminate| |].
      * destruct (locate_error X y script) eqn:El; [discriminate|]. intros [= <-]. unfold locate_error in El.
        apply locate_go_raise in El as (k & _ & Q). exists k, (cut k script). split; [apply cut_ok|]. exact Q.
      * intros [= <-]. exists (length (split NL script)), (cut (length (split NL script)) script). split; [apply cut_ok|].
        rewrite cut_all, Ep. exact Ef.
    + intros [= <-]. exists (length (split NL script)), (cut (length (split NL script)) script). split; [apply cut_ok|].
      rewrite cut_all, Ep. reflexivity.
Qed.

(** ** The quoted line *)
Lemma line_at_nth s : forall k x, nth_error (split NL s) k = Some x -> line_at (S k) s x.
Proof.
  intros k. revert s. induction k as [|k IH]; intros s x H; destruct (first_line s) as [[Hn E]|(z & r & -> & Hn & E)]; rewrite E in H; cbn [nth_error] in H.
  - injection H as <-. constructor. exact Hn.
  - injection H as <-. constructor. exact Hn.
  - destruct k; discriminate H.
  - constructor; [exact Hn|]. apply IH, H.
Qed.

Lemma strip_quoted x : quoted x (firstn 15 (strip x) ++ (if Nat.ltb 15 (List.length (strip x)) then [46; 46; 46]%N else [])).
Proof.
  unfold strip. destruct (lstrip_decomp x) as (a & Ea & Ha). destruct (rstrip_decomp (lstrip x)) as (b & Eb & Hb).
  exists a, (rstrip (lstrip x)), b. split; [rewrite Ea at 1; rewrite Eb at 1; reflexivity|]. split.
  { intros c Hc. apply in_app_or in Hc as [Hc|Hc]; [apply Ha, Hc|apply Hb, Hc]. }
  split.
  { intros c r [E|E].
    - apply (lstrip_head x c (r ++ b)). rewrite Eb, E. reflexivity.
    - eapply rstrip_last, E. }
  set (z := rstrip (lstrip x)). destruct (Nat.ltb_spec 15 (List.length z)) as [H|H].
  - right. exists (firstn 15 z), (skipn 15 z). split; [rewrite firstn_skipn; reflexivity|]. split; [apply firstn_length_le; lia|].
    split; [|reflexivity]. intros K. apply (f_equal (@List.length _)) in K. rewrite skipn_length in K. cbn in K. lia.
  - left. split; [exact H|]. rewrite app_nil_r. apply firstn_all2. exact H.
Qed.

Lemma report_text X script line text : parse_report X script = Error_near line text ->
  exists x, line_at line script x /\ quoted x text.
Proof.
  intros H. pose proof (report_located _ _ _ _ H) as (y & _ & Hr & _). apply report_error in H as (y' & _ & _ & _ & ->).
  rewrite <- split_count in Hr. destruct line as [|k]; [lia|].
  destruct (nth_error (split NL script) k) as [x|] eqn:E; [|apply nth_error_None in E; lia].
  exists x. split; [apply line_at_nth, E|]. unfold error_text. replace (S k - 1) with k by lia.
  rewrite (nth_error_nth _ _ [] E). apply strip_quoted.
Qed.
