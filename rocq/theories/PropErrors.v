(** C63 located errors name the place in the script. *)
From Coq Require Import List NArith ZArith Bool Arith String.
From Verif Require Import PyStr IndentSpec Preprocess PreprocessSpec PreprocessFacts Errors ErrorsSpec ErrorsFacts Peg PegSpec Grammar Syntax SyntaxSamples BalanceFacts ErrorsProofs.
Import ListNotations.
Local Open Scope list_scope.

(** ** C63 *)

(** The text of a construct of the translated script, apart from marks at its end, ends in [v]. If its marks of
    indentation are paired, then the report gives the number of the line of the script and the column right
    behind [v] in that line, both counted from 1. The place is the right one: the visible characters up to it are
    those of the translated script up to [v]; a construct within one line stands there. *)
Theorem C63_location_partial : forall y text out a f v s c,
  get_parser text = Some y -> preprocess y text = Ok out ->
  out = a ++ (f ++ v :: s) ++ c -> balanced y (f ++ v :: s) ->
  ~ In v (symbol_chars y) -> v <> NL -> (forall d, In d s -> In d (symbol_chars y)) ->
  let m := make_msg y out (List.length a) (List.length (a ++ f ++ v :: s)) in
  exists k p q,
    nth_error (lines text) k = Some (p ++ q) /\
    rep_line m = S k /\ rep_column m = Z.of_nat (S (List.length p)) /\
    (exists p0, p = p0 ++ [v]) /\ (~ In NL f -> exists p0, p = p0 ++ f ++ [v]) /\
    visible y (a ++ f ++ [v]) = visible y (List.concat (firstn k (lines text)) ++ p).
Proof. exact place. Qed.
Print Assumptions C63_location_partial.

(** So it is for every node of the syntax tree apart from the marks themselves, if raw strings and import paths
    do not run over lines of different indentation. *)
Theorem C63_nodes_partial : forall U text out t n f v s,
  (forall c, In c (symbol_chars default_symbols) -> u_digit U c = None) ->
  get_parser text = Some default_symbols -> preprocess default_symbols text = Ok out ->
  parse U default_symbols out = Parsed t ->
  (forall w, In w (nodes t) -> t_name w = Some R_string_raw \/ t_name w = Some R_path_import ->
    forall c, In c (t_text w) -> ~ In c (symbol_chars default_symbols)) ->
  In n (nodes t) -> (forall r, In r [R_indent_s; R_dedent_s; R_indent_t; R_dedent_t] -> t_name n <> Some r) ->
  t_text n = f ++ v :: s -> ~ In v (symbol_chars default_symbols) -> v <> NL ->
  (forall d, In d s -> In d (symbol_chars default_symbols)) ->
  let m := make_msg default_symbols out (t_start n) (t_start n + List.length (t_text n)) in
  exists k p q,
    nth_error (lines text) k = Some (p ++ q) /\
    rep_line m = S k /\ rep_column m = Z.of_nat (S (List.length p)) /\
    (exists p0, p = p0 ++ [v]) /\ (~ In NL f -> exists p0, p = p0 ++ f ++ [v]) /\
    visible default_symbols (firstn (t_start n) out ++ f ++ [v]) = visible default_symbols (List.concat (firstn k (lines text)) ++ p).
Proof. exact parsed_place. Qed.
Print Assumptions C63_nodes_partial.

(** Marks of indentation are paired within every node apart from the marks themselves. *)
Theorem C63_balanced : forall U, (forall c, In c (symbol_chars default_symbols) -> u_digit U c = None) ->
  forall out t, parse U default_symbols out = Parsed t ->
  (forall w, In w (nodes t) -> named is_wild w = true -> forall c, In c (t_text w) -> ~ In c (symbol_chars default_symbols)) ->
  forall n, In n (nodes t) -> named is_mark n = false -> balanced default_symbols (t_text n).
Proof. exact parse_balanced. Qed.
Print Assumptions C63_balanced.

(** The excerpt: the text of the node, or its first twenty characters and three dots. *)
Theorem C63_excerpt : forall full start stop y, start <= stop <= List.length full ->
  let x := firstn (stop - start) (skipn start full) in
  (List.length x <= 20 -> rep_text (make_msg y full start stop) = x) /\
  (20 < List.length x -> rep_text (make_msg y full start stop) = firstn 20 x ++ u "...").
Proof. exact excerpt. Qed.
Print Assumptions C63_excerpt.

(** The nodes of a script of two lines: the whole block, its inner block, the braces, the variable. *)
Example C63_example :
  map (fun x => let '(t, l, c) := x in (visible default_symbols t, l, c))
    (reports two_lines (fun r => match r with R_var_use | R_embedding_braces | R_block_struct => true | _ => false end))
  = [(u "pb|{xx}", 2, 11%Z); (u "b|{xx}", 2, 11%Z); (u "{xx}", 2, 11%Z); (u "xx", 2, 10%Z)] /\
  (forall c, In c (symbol_chars default_symbols) -> u_digit ascii_only c = None).
Proof. split; [vm_compute; reflexivity|]. intros c [<-|[<-|[<-|[<-|[]]]]]; reflexivity. Qed.

(** The column is not the one at which the construct begins: a name that begins in column 8 is reported at 10. *)
Theorem C63_begin_refuted : exists text out t n p q,
  get_parser text = Some default_symbols /\ preprocess default_symbols text = Ok out /\
  parse ascii_only default_symbols out = Parsed t /\ In n (nodes t) /\
  t_name n = Some R_var_use /\ nth_error (lines text) 1 = Some (p ++ t_text n ++ q) /\
  t_text n = u "xx" /\ ~ In 120%N (p ++ q ++ List.concat (firstn 1 (lines text))) /\
  let m := make_msg default_symbols out (t_start n) (t_start n + List.length (t_text n)) in
  rep_line m = 2 /\ rep_column m <> Z.of_nat (S (List.length p)).
Proof. exact begin_finding. Qed.
Print Assumptions C63_begin_refuted.

(** Raw strings over lines of different indentation are reported at a wrong column. *)
Theorem C63_raw_string_refuted : ~ forall text out t n f v s,
  get_parser text = Some default_symbols -> preprocess default_symbols text = Ok out ->
  parse ascii_only default_symbols out = Parsed t -> In n (nodes t) ->
  t_name n = Some R_string_raw -> t_text n = f ++ v :: s -> ~ In v (symbol_chars default_symbols) -> v <> NL ->
  (forall d, In d s -> In d (symbol_chars default_symbols)) ->
  let m := make_msg default_symbols out (t_start n) (t_start n + List.length (t_text n)) in
  exists k p q, nth_error (lines text) k = Some (p ++ q) /\
    rep_line m = S k /\ rep_column m = Z.of_nat (S (List.length p)) /\ (exists p0, p = p0 ++ [v]).
Proof. exact raw_finding. Qed.
Print Assumptions C63_raw_string_refuted.
