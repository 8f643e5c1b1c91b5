(** C49 parsing ends on every text, C50 the tree covers the text, C53 location of syntax errors. *)
From Coq Require Import List NArith Bool Arith String.
From Verif Require Import PyStr Value Ast Preprocess Peg PegSpec PegSemFacts Grammar Syntax SyntaxSpec GrammarFacts LocateFacts ParseFacts SyntaxSamples ParseProofs.
Import ListNotations.

(** ** C49 *)

Theorem C49_parsing_ends : forall U y text,
  (exists t, parse U y text = Parsed t) \/ parse U y text = Incomplete.
Proof. exact parse_ends. Qed.
Print Assumptions C49_parsing_ends.

(** Every rule of the grammar has exactly one outcome on every text, in the semantics of parsing expression
    grammars: it matches a certain prefix, or it does not match. *)
Theorem C49_rules_total : forall U y r text,
  exists o, sem (grammar U y) (PRef r) text o /\ forall o', sem (grammar U y) (PRef r) text o' -> o' = o.
Proof. exact rules_total. Qed.
Print Assumptions C49_rules_total.

(** The parser accepts a text if and only if the first rule matches the whole of it. *)
Theorem C49_accepts : forall U y text,
  (exists t, parse U y text = Parsed t) <-> sem (grammar U y) (PRef R_document) text (Some []).
Proof. exact parse_accepts. Qed.
Print Assumptions C49_accepts.

Example C49_example :
  (exists t, parse ascii_only default_symbols ([NL] ++ u "p : b x=1 | a {y+1}") = Parsed t) /\
  parse ascii_only default_symbols ([NL] ++ u "p | {x") = Incomplete.
Proof. split; [eexists; vm_compute; reflexivity|vm_compute; reflexivity]. Qed.

(** ** C50 *)

Theorem C50_leaves : forall U y text t, parse U y text = Parsed t -> List.concat (map snd (leaves t)) = text.
Proof. exact parse_leaves. Qed.
Print Assumptions C50_leaves.

(** The text of every node is found in the script at the position of the node. *)
Theorem C50_nodes : forall U y text t, parse U y text = Parsed t ->
  forall n, In n (nodes t) ->
  t_start n + List.length (t_text n) <= List.length text /\
  firstn (List.length (t_text n)) (skipn (t_start n) text) = t_text n.
Proof. exact parse_nodes. Qed.
Print Assumptions C50_nodes.

Example C50_example : match parse ascii_only default_symbols ([NL] ++ u "p | a {x}") with
                      | Parsed t => List.length (leaves t) = 42 /\ List.length (nodes t) = 87
                      | _ => False
                      end.
Proof. vm_compute. split; reflexivity. Qed.

(** ** C53 *)

(** The script cut after the reported line cannot be parsed, cut before this line it can. *)
Theorem C53_boundary : forall X script line text, parse_report X script = Error_near line text ->
  exists y, get_parser script = Some y /\ 1 <= line <= line_count script /\
    (forall z, cut_after line script z -> invalid X y z) /\
    (forall z, cut_after (line - 1) script z -> valid X y z).
Proof. exact report_located. Qed.
Print Assumptions C53_boundary.

(** The message quotes this line: all of it but the outer blanks, or its first 15 characters. *)
Theorem C53_text : forall X script line text, parse_report X script = Error_near line text ->
  exists x, line_at line script x /\ quoted x text.
Proof. exact report_text. Qed.
Print Assumptions C53_text.

(** It is the first such line, if cutting off lines never makes a script invalid, as the documentation of the
    function assumes. This is a part of the claim only: the assumption does not hold in general. *)
Theorem C53_first_partial : forall X script line text y, parse_report X script = Error_near line text -> get_parser script = Some y ->
  (forall j k z z', j <= k -> cut_after j script z -> cut_after k script z' -> invalid X y z -> invalid X y z') ->
  forall j z, j < line -> cut_after j script z -> ~ invalid X y z.
Proof. exact report_first. Qed.
Print Assumptions C53_first_partial.

(** A script with a raw string in lines 1-2 and an error in line 4: the script cut after line 1 cannot be
    parsed, but line 4 is reported. *)
Theorem C53_first_refuted : exists X script line text y j z,
  parse_report X script = Error_near line text /\ get_parser script = Some y /\
  cut_after j script z /\ invalid X y z /\ j < line.
Proof. exact c53_first_refuted. Qed.
Print Assumptions C53_first_refuted.

(** The assumption itself fails for a valid script of two lines. *)
Theorem C53_truncation_refuted : exists X script y z,
  valid X y script /\ get_parser script = Some y /\ cut_after 1 script z /\ invalid X y z.
Proof. exact c53_truncation_refuted. Qed.
Print Assumptions C53_truncation_refuted.

(** Errors of other kinds always come from some prefix of the script. *)
Theorem C53_other_errors : forall X script, exists y, get_parser script = Some y /\
  (forall d, parse_report X script = Tree_of d -> outcome_of X y script = Good d) /\
  (forall e, parse_report X script = Error_of e -> exists k z, cut_after k script z /\ outcome_of X y z = Fails e).
Proof. exact report_ends. Qed.
Print Assumptions C53_other_errors.

(** A script with a syntax error for which no line is reported, but AssertionError is raised in the search. *)
Theorem C53_reported_refuted : exists X script y,
  get_parser script = Some y /\ invalid X y script /\ parse_report X script = Error_of AssertionError.
Proof. exact c53_reported_refuted. Qed.
Print Assumptions C53_reported_refuted.

Example C53_example : demo_report ("p
) a long line with errors
p"%string) = Error_near 2 (u ") a long line w...").
Proof. vm_compute. reflexivity. Qed.
