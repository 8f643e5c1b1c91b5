(** C54 (text utilities) and C55 (cycle, changes). *)
From Coq Require Import List NArith ZArith Bool Arith Lia String.
From Verif Require Import PyStr PyStrFacts Indent IndentSpec IndentFacts Builtins BuiltinsSpec BuiltinsFacts BuiltinsProofs.
Import ListNotations.

(** crop: raises only when [length] is shorter than [end_] or [leeway] is negative; a text within
    the limit is unchanged; otherwise the result is a proper prefix of the text followed by [end_],
    not longer than [length]. *)
Theorem C54_crop s length end_ kill maxdrop leeway :
  let ok := (Z.of_nat (List.length end_) <= length /\ 0 <= leeway)%Z in
  (~ ok -> crop s length end_ kill maxdrop leeway = Raise AssertionError) /\
  (ok -> (Z.of_nat (List.length s) <= length + leeway)%Z ->
     crop s length end_ kill maxdrop leeway = Ok s) /\
  (ok -> (Z.of_nat (List.length s) > length + leeway)%Z ->
     exists p rest, crop s length end_ kill maxdrop leeway = Ok (p ++ end_) /\ s = p ++ rest /\ rest <> [] /\
       (Z.of_nat (List.length (p ++ end_)) <= length)%Z).
Proof. exact (c54_crop s length end_ kill maxdrop leeway). Qed.
Print Assumptions C54_crop.
Example C54_crop_ex : crop (u "hello big world") 12 (u "...") false 10 0 = Ok (u "hello...").
Proof. reflexivity. Qed.

(** crop keeps words whole: without [killwords] the cut is made at the last space among the first
    [length - len(end)] characters, unless there is none or more than [maxdrop] characters would
    be lost. *)
Theorem C54_crop_words s length end_ maxdrop leeway :
  (Z.of_nat (List.length end_) <= length /\ 0 <= leeway)%Z -> (Z.of_nat (List.length s) > length + leeway)%Z ->
  let window := firstn (Z.to_nat (length - Z.of_nat (List.length end_))) s in
  exists p, crop s length end_ false maxdrop leeway = Ok (p ++ end_) /\
    (p = window \/ exists tail, window = p ++ SP :: tail /\ ~ In SP tail /\ (Z.of_nat (List.length (SP :: tail)) <= maxdrop)%Z) /\
    (forall q tail, window = q ++ SP :: tail -> ~ In SP tail -> (Z.of_nat (List.length (SP :: tail)) <= maxdrop)%Z -> p = q).
Proof. exact (c54_crop_words s length end_ maxdrop leeway). Qed.
Print Assumptions C54_crop_words.
Example C54_crop_words_ex :
  crop (u "hello big world") 12 (u "...") false 2 0 = Ok (u "hello big...") /\
  crop (u "hello bigger world") 12 (u "...") false 2 0 = Ok (u "hello big...") /\
  crop (u "hello bigger world") 12 (u "...") false 4 0 = Ok (u "hello...").
Proof. repeat split; reflexivity. Qed.

(** merge: the words of the text, in order, separated by single spaces. *)
Theorem C54_merge s : merge s = join [SP] (words s) /\ words (merge s) = words s /\ merge (merge s) = merge s
  /\ List.concat (words s) = ink s
  /\ Forall (fun w => w <> [] /\ forall c, In c w -> is_space c = false) (words s).
Proof. exact (c54_merge s). Qed.
Print Assumptions C54_merge.
Example C54_merge_ex : merge (NL :: u " a  b" ++ TAB :: NL :: u "c ") = u "a b c".
Proof. reflexivity. Qed.

(** inline: lines joined with the entity of the newline; no newline is left. *)
Theorem C54_inline s : inline s = join (u "&#10;") (lines s) /\ ~ In NL (inline s).
Proof. exact (c54_inline s). Qed.
Print Assumptions C54_inline.
Example C54_inline_ex : inline (u "a" ++ NL :: u "b") = u "a&#10;b".
Proof. reflexivity. Qed.

(** unique: the first occurrence of each (stripped, non-empty) line, in order. *)
Theorem C54_unique (st : bool) (s : str) :
  let ls : list str := if st then filter (fun l => negb (str_eqb l [])) (map strip (splitlines s)) else splitlines s in
  unique st s = join [NL] (keep_first ls) /\ NoDup (keep_first ls) /\ (forall l, In l (keep_first ls) <-> In l ls).
Proof. exact (c54_unique st s). Qed.
Print Assumptions C54_unique.
Example C54_unique_ex : unique true (u "a" ++ NL :: u " b" ++ NL :: NL :: u "a " ++ NL :: u "c") = u "a" ++ NL :: u "b" ++ NL :: u "c".
Proof. reflexivity. Qed.

(** dedent(full): line-wise description; no line starts with whitespace; no visible character is
    lost. *)
Theorem C54_dedent s :
  lines (dedent true s) = dedented (lines s) /\
  (forall l c r, In l (lines (dedent true s)) -> l = c :: r -> is_space c = false) /\
  ink (dedent true s) = ink s.
Proof. exact (c54_dedent s). Qed.
Print Assumptions C54_dedent.
Example C54_dedent_ex : dedent true (u "  a " ++ NL :: u "   b") = u "a " ++ NL :: u "b".
Proof. reflexivity. Qed.

(** dedent(full) does not keep the lines: blank lines between paragraphs are removed, although the
    docstring speaks of line indentation only. *)
Theorem C54_dedent_blank_lines_refuted :
  exists s, lines (dedent true s) <> map lstrip (lines s).
Proof. exact c54_dedent_blank_lines_refuted. Qed.
Print Assumptions C54_dedent_blank_lines_refuted.

(** dedent(full=False) removes the longest common indentation from every line that has it; no visible
    character is lost. *)
Theorem C54_dedent_common s : exists i,
  common_indent s i /\
  ((exists l, In l (lines s) /\ ~ blank l) -> forall p, common_indent s p -> is_prefix p i) /\
  lines (dedent false s) = map (unindent_line i) (lines s) /\ ink (dedent false s) = ink s.
Proof. exact (c54_dedent_common s). Qed.
Print Assumptions C54_dedent_common.
Example C54_dedent_common_ex : dedent false (u "   a " ++ NL :: u " " ++ NL :: u "    b") = u "a " ++ NL :: u " " ++ NL :: u " b".
Proof. reflexivity. Qed.

(** cycle: the number of tuples is that of the selected sequence (or as many as asked for), and the
    i-th tuple holds item [i mod len] of every sequence - provided no sequence is empty. *)
Theorem C55_cycle {A} mode (seqs : list (list A)) k : seqs <> [] -> (forall s, In s seqs -> s <> []) ->
  List.length (cycle mode seqs k) = cycle_length mode seqs k /\
  forall i t, nth_error (cycle mode seqs k) i = Some t -> map Some t = map (fun s => cyclic s i) seqs.
Proof. exact (c55_cycle mode seqs k). Qed.
Print Assumptions C55_cycle.
Example C55_cycle_ex : cycle StopFirst [[1;2;3;4]; [5;6;7]] 10 = [[1;5];[2;6];[3;7];[4;5]].
Proof. reflexivity. Qed.

(** With an empty sequence other than the selected one the result is empty. *)
Theorem C55_cycle_empty_refuted :
  exists (seqs : list (list nat)), List.length (cycle StopFirst seqs 10) <> List.length (hd [] seqs).
Proof. exact c55_cycle_empty_refuted. Qed.
Print Assumptions C55_cycle_empty_refuted.
Theorem C55_cycle_empty {A} mode (seqs : list (list A)) k : In [] seqs -> cycle mode seqs k = [].
Proof. exact (c55_cycle_empty mode seqs k). Qed.
Print Assumptions C55_cycle_empty.

(** changes: same items, each with the flag "differs from the item before". *)
Theorem C55_changes {A} (neq : A -> A -> bool) first l :
  map fst (changes neq first l) = l /\
  (forall x, nth_error l 0 = Some x -> nth_error (changes neq first l) 0 = Some (x, first)) /\
  (forall i x y, nth_error l i = Some x -> nth_error l (S i) = Some y ->
     nth_error (changes neq first l) (S i) = Some (y, neq y x)).
Proof. exact (c55_changes neq first l). Qed.
Print Assumptions C55_changes.
Example C55_changes_ex : changes (fun x y => negb (Nat.eqb x y)) true [1;1;2;2;1] = [(1,true);(1,false);(2,true);(2,false);(1,true)].
Proof. reflexivity. Qed.
