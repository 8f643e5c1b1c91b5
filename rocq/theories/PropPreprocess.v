(** Properties C12-C16: the preprocessor. *)
From Coq Require Import List NArith Bool String Lia.
From Verif Require Import PyStr PyStrFacts Indent IndentSpec IndentFacts Preprocess PreprocessSpec PreprocessFacts PreprocessProofs.
Import ListNotations.
Local Open Scope N_scope.

(** ** C12 *)
Theorem C12_symbols_fresh : forall text, exists y, get_parser text = Some y /\
  NoDup (symbol_chars y) /\ forall c, In c (symbol_chars y) -> ~ In c text.
Proof. exact get_parser_fresh. Qed.
Print Assumptions C12_symbols_fresh.

(** The code points stay close to the default ones: chr() is defined for scripts of up to a million
    characters. *)
Theorem C12_symbols_bound : forall text y, get_parser text = Some y ->
  forall c, In c (symbol_chars y) -> 10088 <= c < 10092 + N.of_nat (List.length text).
Proof. exact get_parser_bound. Qed.
Print Assumptions C12_symbols_bound.

Example C12_example : get_parser (u "a" ++ [10089; 10091; 10092])
  = Some {| INDENT_S := 10088; DEDENT_S := 10090; INDENT_T := 10093; DEDENT_T := 10094 |}.
Proof. vm_compute. reflexivity. Qed.

(** Nothing prevents a symbol from being a whitespace character: a script with all the 2200 characters
    from U+2768 on makes the preprocessor use U+3000 (ideographic space) as its symbol. *)
Theorem C12_symbol_may_be_space_refuted : exists text y, get_parser text = Some y /\
  exists c, In c (symbol_chars y) /\ is_space c = true.
Proof. exact c12_symbol_may_be_space_refuted. Qed.
Print Assumptions C12_symbol_may_be_space_refuted.

(** ** C13 *)
Theorem C13_balanced : forall text y out, get_parser text = Some y ->
  preprocess y text = Ok out -> balanced y out.
Proof. exact c13_balanced. Qed.
Print Assumptions C13_balanced.
Example C13_example : preprocess default_symbols script2 =
  Ok ([NL] ++ u "if x" ++ [10088; 10088; NL] ++ u "p" ++ [10088; NL; NL] ++ u "| a" ++ [10089; NL]
      ++ u "| b" ++ [10089; 10089; NL; NL] ++ u "end").
Proof. vm_compute. reflexivity. Qed.
Example C13_example_parser : get_parser script2 = Some default_symbols.
Proof. vm_compute. reflexivity. Qed.

(** ** C14 *)

(** In general: blank lines, contents and depth are recovered, and each indentation character up to
    "space or other". *)
Theorem C14_lossless_general : forall text y out, get_parser text = Some y ->
  preprocess y text = Ok out -> decode_script y out = map norm_line (lines text).
Proof. exact c14_lossless_general. Qed.
Print Assumptions C14_lossless_general.

(** For scripts indented with spaces and tabs: every line up to trailing whitespace. *)
Theorem C14_lossless : forall text y out,
  (forall l, In l (lines text) -> ~ blank l -> forall c, In c (leading l) -> c = SP \/ c = TAB) ->
  get_parser text = Some y ->
  preprocess y text = Ok out -> decode_script y out = map rstrip (lines text).
Proof. exact c14_lossless. Qed.
Print Assumptions C14_lossless.

Theorem C14_injective : forall t1 t2 y out,
  (forall t l, t = t1 \/ t = t2 -> In l (lines t) -> ~ blank l -> forall c, In c (leading l) -> c = SP \/ c = TAB) ->
  get_parser t1 = Some y -> get_parser t2 = Some y ->
  preprocess y t1 = Ok out -> preprocess y t2 = Ok out ->
  map rstrip (lines t1) = map rstrip (lines t2).
Proof. exact c14_injective. Qed.
Print Assumptions C14_injective.

Example C14_example : decode_script default_symbols
  ([NL] ++ u "if x" ++ [10088; 10088; NL] ++ u "p" ++ [10088; NL; NL] ++ u "| a" ++ [10089; NL]
      ++ u "| b" ++ [10089; 10089; NL; NL] ++ u "end") = map rstrip (lines script2).
Proof. vm_compute. reflexivity. Qed.
Example C14_example_hyp : forall l, In l (lines script2) -> ~ blank l -> forall c, In c (leading l) -> c = SP \/ c = TAB.
Proof.
  intros l H _ c Hc. vm_compute in H.
  decompose [or] H; try contradiction; subst l; vm_compute in Hc; intuition.
Qed.

(** Other whitespace characters are not told apart from tabs: a script indented with a tab and one
    indented with a form feed become the same preprocessed text. *)
Theorem C14_other_whitespace_refuted : exists t1 t2 out,
  map rstrip (lines t1) <> map rstrip (lines t2) /\
  preprocess default_symbols t1 = Ok out /\ preprocess default_symbols t2 = Ok out.
Proof. exact c14_other_whitespace_refuted. Qed.
Print Assumptions C14_other_whitespace_refuted.

(** ** C15 *)
Theorem C15_indentation_error : forall y text e, preprocess y text = Raise e <->
  exists k, e = IndentationError (S k) /\ bad_line (lines text) k /\
            forall j, (j < k)%nat -> ~ bad_line (lines text) j.
Proof. exact preprocess_error. Qed.
Print Assumptions C15_indentation_error.

Theorem C15_accepted : forall y text, (exists out, preprocess y text = Ok out) <->
  forall k, ~ bad_line (lines text) k.
Proof. exact preprocess_ok_iff. Qed.
Print Assumptions C15_accepted.

Theorem C15_no_assertion : forall y text, preprocess y text <> Raise AssertionError /\
  preprocess y text <> Raise IndexError.
Proof. exact c15_no_assertion. Qed.
Print Assumptions C15_no_assertion.

Example C15_example : preprocess default_symbols script1 = Raise (IndentationError 5).
Proof. vm_compute. reflexivity. Qed.

(** ** C16 *)
Theorem C16_line_numbers : forall text y out, get_parser text = Some y -> preprocess y text = Ok out ->
  List.length (lines out) = S (List.length (lines text)) /\
  forall k l, nth_error (lines text) k = Some l ->
    exists s, (forall c, In c s -> In c (symbol_chars y)) /\
              nth_error (lines out) (S k) = Some (strip l ++ s).
Proof. exact c16_line_numbers. Qed.
Print Assumptions C16_line_numbers.

Example C16_example : nth_error (lines script2) 4 = Some (u "  | b  ") /\
  match preprocess default_symbols script2 with
  | Ok out => nth_error (lines out) 5 = Some (u "| b" ++ [10089; 10089])
  | Raise _ => False
  end.
Proof. split; vm_compute; reflexivity. Qed.
