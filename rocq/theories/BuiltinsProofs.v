(** Proofs and sample data of the theorems in PropBuiltins.v. *)
From Coq Require Import List NArith ZArith Bool Arith Lia String.
From Verif Require Import PyStr PyStrFacts Indent IndentSpec IndentFacts Builtins BuiltinsSpec BuiltinsFacts.
Import ListNotations.

Lemma c54_crop s length end_ kill maxdrop leeway :
  let ok := (Z.of_nat (List.length end_) <= length /\ 0 <= leeway)%Z in
  (~ ok -> crop s length end_ kill maxdrop leeway = Raise AssertionError) /\
  (ok -> (Z.of_nat (List.length s) <= length + leeway)%Z ->
     crop s length end_ kill maxdrop leeway = Ok s) /\
  (ok -> (Z.of_nat (List.length s) > length + leeway)%Z ->
     exists p rest, crop s length end_ kill maxdrop leeway = Ok (p ++ end_) /\ s = p ++ rest /\ rest <> [] /\
       (Z.of_nat (List.length (p ++ end_)) <= length)%Z).
Proof.
  intros ok. unfold ok, crop. repeat split.
  - intros H. destruct (Z.leb_spec (Z.of_nat (List.length end_)) length); cbn; [|reflexivity].
    destruct (Z.leb_spec 0 leeway); cbn; [exfalso; apply H; split; assumption|reflexivity].
  - intros [A B] L. rewrite (proj2 (Z.leb_le _ _) A), (proj2 (Z.leb_le _ _) B). cbn.
    rewrite (proj2 (Z.leb_le _ _) L). reflexivity.
  - intros [A B] L. rewrite (proj2 (Z.leb_le _ _) A), (proj2 (Z.leb_le _ _) B). cbn [negb].
    destruct (Z.leb_spec (Z.of_nat (List.length s)) (length + leeway)); [lia|].
    set (n := Z.to_nat (length - Z.of_nat (List.length end_))).
    assert (Nn : (n < List.length s)%nat) by lia.
    assert (C : exists rest, s = firstn n s ++ rest /\ rest <> []).
    { exists (skipn n s). split; [symmetry; apply firstn_skipn|]. intros E.
      apply (f_equal (fun z : str => List.length z)) in E. rewrite skipn_length in E. cbn in E. lia. }
    assert (Len : List.length (firstn n s) = n) by (rewrite firstn_length; lia).
    destruct C as [rest [C NE]].
    destruct kill.
    { exists (firstn n s), rest. repeat split; auto. rewrite app_length, Len. lia. }
    destruct (Z.ltb _ _).
    { exists (firstn n s), rest. repeat split; auto. rewrite app_length, Len. lia. }
    destruct (rsplit1_head_spec SP (firstn n s)) as [[_ E]|[tail [E _]]].
    + rewrite E. exists (firstn n s), rest. repeat split; auto. rewrite app_length, Len. lia.
    + exists (rsplit1_head SP (firstn n s)), (SP :: tail ++ rest). split; [reflexivity|]. split.
      * rewrite C at 1. rewrite E at 1. rewrite <- app_assoc. reflexivity.
      * split; [discriminate|]. apply (f_equal (fun z : str => List.length z)) in E. rewrite Len, app_length in E. cbn in E.
        rewrite app_length. lia.
Qed.

Lemma c54_crop_words s length end_ maxdrop leeway :
  (Z.of_nat (List.length end_) <= length /\ 0 <= leeway)%Z -> (Z.of_nat (List.length s) > length + leeway)%Z ->
  let window := firstn (Z.to_nat (length - Z.of_nat (List.length end_))) s in
  exists p, crop s length end_ false maxdrop leeway = Ok (p ++ end_) /\
    (p = window \/ exists tail, window = p ++ SP :: tail /\ ~ In SP tail /\ (Z.of_nat (List.length (SP :: tail)) <= maxdrop)%Z) /\
    (forall q tail, window = q ++ SP :: tail -> ~ In SP tail -> (Z.of_nat (List.length (SP :: tail)) <= maxdrop)%Z -> p = q).
Proof.
  intros [A B] L window. unfold crop. rewrite (proj2 (Z.leb_le _ _) A), (proj2 (Z.leb_le _ _) B). cbn [negb].
  destruct (Z.leb_spec (Z.of_nat (List.length s)) (length + leeway)); [lia|]. fold window.
  assert (Len : Z.of_nat (List.length window) = (length - Z.of_nat (List.length end_))%Z).
  { unfold window. rewrite firstn_length. lia. }
  rewrite <- Len.
  assert (U : forall q q' t t', q ++ SP :: t = q' ++ SP :: t' -> ~ In SP t -> ~ In SP t' -> q = q' /\ t = t').
  { induction q as [|x q IH]; intros [|y q'] t t' E Ht Ht'; cbn in E.
    - injection E as ->. auto.
    - injection E as _ Et. exfalso. apply Ht. rewrite Et. apply in_or_app. right. left. reflexivity.
    - injection E as _ Et. exfalso. apply Ht'. rewrite <- Et. apply in_or_app. right. left. reflexivity.
    - injection E as -> E. destruct (IH _ _ _ E Ht Ht') as [-> ->]. auto. }
  destruct (rsplit1_head_spec SP window) as [[NI E]|[tail [E NT]]].
  - rewrite E. exists window. assert (NQ : forall q t, window <> q ++ SP :: t).
    { intros q t Q. apply NI. rewrite Q. apply in_or_app. right. left. reflexivity. }
    split; [destruct (Z.ltb _ _); reflexivity|]. split; [left; reflexivity|].
    intros q tail Q. exfalso. exact (NQ q tail Q).
  - set (h := rsplit1_head SP window) in *.
    assert (LL : (Z.of_nat (List.length window) = Z.of_nat (List.length h) + Z.of_nat (List.length (SP :: tail)))%Z).
    { rewrite E, app_length. lia. }
    destruct (Z.ltb_spec (Z.of_nat (List.length h)) (Z.of_nat (List.length window) - maxdrop)) as [Lt|Ge].
    + exists window. split; [reflexivity|]. split; [left; reflexivity|].
      intros q t Q NT' M. exfalso. rewrite E in Q. destruct (U _ _ _ _ Q NT NT') as [<- <-]. lia.
    + exists h. split; [reflexivity|]. split.
      * right. exists tail. repeat split; auto. lia.
      * intros q t Q NT' M. rewrite E in Q. destruct (U _ _ _ _ Q NT NT') as [<- _]. reflexivity.
Qed.

Lemma c54_merge s : merge s = join [SP] (words s) /\ words (merge s) = words s /\ merge (merge s) = merge s
  /\ List.concat (words s) = ink s
  /\ Forall (fun w => w <> [] /\ forall c, In c w -> is_space c = false) (words s).
Proof.
  destruct (words_from_spec [] s) as [A B]; [intros ? []|].
  assert (W : words (merge s) = words s) by (rewrite merge_words; apply words_join; exact B).
  repeat split; [apply merge_words|exact W| |exact A|exact B].
  rewrite (merge_words (merge s)), W. symmetry. apply merge_words.
Qed.

Lemma c54_inline s : inline s = join (u "&#10;") (lines s) /\ ~ In NL (inline s).
Proof. split; [apply inline_lines|apply inline_no_NL]. Qed.

Lemma c54_unique (st : bool) (s : str) :
  let ls : list str := if st then filter (fun l => negb (str_eqb l [])) (map strip (splitlines s)) else splitlines s in
  unique st s = join [NL] (keep_first ls) /\ NoDup (keep_first ls) /\ (forall l, In l (keep_first ls) <-> In l ls).
Proof.
  intros ls. split; [apply unique_spec|]. destruct (keep_first_after_spec ([] : list str) ls) as [A B].
  split; [exact B|]. intros l. rewrite (A l). cbn. tauto.
Qed.

Lemma c54_dedent s :
  lines (dedent true s) = dedented (lines s) /\
  (forall l c r, In l (lines (dedent true s)) -> l = c :: r -> is_space c = false) /\
  ink (dedent true s) = ink s.
Proof.
  split; [apply dedent_full_lines|]. split; [|apply sub_indent_ink].
  intros l c r H ->. rewrite dedent_full_lines in H. exact (dedented_head _ _ H).
Qed.

Lemma c54_dedent_blank_lines_refuted :
  exists s, lines (dedent true s) <> map lstrip (lines s).
Proof. exists (u "a" ++ NL :: NL :: u "b"). vm_compute. discriminate. Qed.

Lemma ink_app a b : ink (a ++ b) = ink a ++ ink b.
Proof. apply filter_app. Qed.
Lemma ink_blank i : blank i -> ink i = [].
Proof.
  intros B. induction i as [|c i IH]; [reflexivity|]. cbn. rewrite (B c (or_introl eq_refl)). apply IH. intros d I. apply B. right. exact I.
Qed.
Lemma ink_join ls : ink (join [NL] ls) = List.concat (map ink ls).
Proof.
  induction ls as [|l ls IH]; [reflexivity|]. destruct ls as [|l' ls]; [cbn; symmetry; apply app_nil_r|].
  change (join [NL] (l :: l' :: ls)) with (l ++ [NL] ++ join [NL] (l' :: ls)). rewrite !ink_app, IH. reflexivity.
Qed.
Lemma ink_lines s : ink s = List.concat (map ink (lines s)).
Proof. rewrite <- ink_join. unfold lines. rewrite join_split. reflexivity. Qed.
Lemma unindent_ink i l : blank i -> ink (unindent_line i l) = ink l.
Proof.
  intros B. unfold unindent_line. destruct (startswith i l) eqn:S; [|reflexivity].
  rewrite (startswith_skipn _ _ S) at 2. rewrite ink_app, (ink_blank i B). reflexivity.
Qed.

Lemma c54_dedent_common s : exists i,
  common_indent s i /\
  ((exists l, In l (lines s) /\ ~ blank l) -> forall p, common_indent s p -> is_prefix p i) /\
  lines (dedent false s) = map (unindent_line i) (lines s) /\ ink (dedent false s) = ink s.
Proof.
  exists (get_indent s). split; [apply get_indent_common|]. split; [intros H p; apply get_indent_longest, H|].
  assert (L : lines (dedent false s) = map (unindent_line (get_indent s)) (lines s)) by (apply lines_del_indent, get_indent_no_NL).
  split; [exact L|]. rewrite (ink_lines (dedent false s)), L, (ink_lines s), map_map. f_equal.
  apply map_ext. intros l. apply unindent_ink, get_indent_common.
Qed.
Lemma c55_cycle {A} mode (seqs : list (list A)) k : seqs <> [] -> (forall s, In s seqs -> s <> []) ->
  List.length (cycle mode seqs k) = cycle_length mode seqs k /\
  forall i t, nth_error (cycle mode seqs k) i = Some t -> map Some t = map (fun s => cyclic s i) seqs.
Proof.
  intros N H. unfold cycle. destruct seqs as [|s0 r] eqn:E; [congruence|]. rewrite <- E in *.
  set (n := match match mode with StopFirst => _ | StopLongest => _ | StopNever => _ end with Some l => Nat.min k l | None => k end).
  destruct (zip_take_spec seqs H n (map (fun s => (s, s)) seqs) 0 (init_steps seqs)) as [L Z].
  split; [|exact Z]. rewrite L. unfold n, cycle_length. destruct mode; rewrite ?E; reflexivity.
Qed.

Lemma c55_cycle_empty_refuted :
  exists (seqs : list (list nat)), List.length (cycle StopFirst seqs 10) <> List.length (hd [] seqs).
Proof. exists [[1;2];[]]. vm_compute. discriminate. Qed.

Lemma c55_cycle_empty {A} mode (seqs : list (list A)) k : In [] seqs -> cycle mode seqs k = [].
Proof.
  intros H. unfold cycle. destruct seqs as [|s0 r] eqn:E; [destruct H|]. rewrite <- E in *.
  set (n := match match mode with StopFirst => _ | StopLongest => _ | StopNever => _ end with Some l => Nat.min k l | None => k end).
  destruct n; cbn; [reflexivity|]. rewrite zip_next_empty by exact H. reflexivity.
Qed.

Lemma c55_changes {A} (neq : A -> A -> bool) first l :
  map fst (changes neq first l) = l /\
  (forall x, nth_error l 0 = Some x -> nth_error (changes neq first l) 0 = Some (x, first)) /\
  (forall i x y, nth_error l i = Some x -> nth_error l (S i) = Some y ->
     nth_error (changes neq first l) (S i) = Some (y, neq y x)).
Proof.
  destruct l as [|a l]; cbn.
  - split; [reflexivity|]. split; [discriminate|]. intros [|i]; discriminate.
  - rewrite changes_from_fst. split; [reflexivity|]. split.
    + intros x [= <-]. reflexivity.
    + intros i x y H1 H2. destruct (changes_from_spec neq l a i y H2) as [z [E1 E2]]. rewrite E2.
      cbn in H1. rewrite H1 in E1. injection E1 as ->. reflexivity.
Qed.
