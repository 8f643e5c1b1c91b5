(** C57 priorities of operators: from the text of an expression to its syntax tree. *)
From Coq Require Import List NArith ZArith Bool Arith String.
From Verif Require Import PyStr Value Ast Syntax PageSpec OperSpec OperProofs Ref ConfRef.
Import ListNotations.
Local Open Scope string_scope.
Local Open Scope list_scope.

(** A line of text with any expressions in braces. *)
Theorem C57_line : forall X b k s l, blank_text b -> k = Plain \/ k = Markup -> line_fine b s l ->
  line_text b s l <> [] -> rstrip (line_text b s l) = line_text b s l ->
  exists col ps, line_parts s l ps /\
    parse_script X (style_mark k ++ line_text b s l) = Ok [NBlock [] MNone (BText col [TxLine (match k with Plain => LNormal ps | _ => LMarkup ps end)])].
Proof. exact line_script. Qed.
Print Assumptions C57_line.

(** One expression. *)
Theorem C57_expression : forall X b e, blank_text b -> fine b e = true -> startswith (u "{") (text b e) = false ->
  exists col ps, parse_script X (u "| {" ++ text b e ++ u "}") = Ok [NBlock [] MNone (BText col [TxLine (LNormal ps)])] /\
    exprs ps = [root (tree e)].
Proof. exact one_expression. Qed.
Print Assumptions C57_expression.

(** No text stands for two expressions. *)
Theorem C57_unambiguous : forall b1 e1 b2 e2, blank_text b1 -> blank_text b2 -> fine b1 e1 = true -> fine b2 e2 = true ->
  text b1 e1 = text b2 e2 -> tree e1 = tree e2.
Proof. exact same_text. Qed.
Print Assumptions C57_unambiguous.

Example C57_fine : blank_text sample_blank /\ fine sample_blank sample_expr = true /\ fine sample_blank sample_expr2 = true /\
  fine sample_blank sample_expr3 = true /\ startswith (u "{") (text sample_blank sample_expr) = false /\
  startswith (u "{") (text sample_blank sample_expr2) = false /\ startswith (u "{") (text sample_blank sample_expr3) = false.
Proof. split; [exact sample_blanks|vm_compute; repeat split; reflexivity]. Qed.
Example C57_text : text sample_blank sample_expr =
  u "a or b and not not a < b in a ""x"" b : c.d(a, k=a if b) : a if - a - b * (- c) // 12 + b ** (1).x[a | b | a ^ a & a << c][(a b)](a == b) else ([], [a], ("""", a is b))".
Proof. vm_compute. reflexivity. Qed.
Example C57_text2 : text sample_blank sample_expr2 =
  u "a[:][b :][: 2][a : b : c][:: (a or b)]? + (a + b)! * {a : True, ""k"" : a if b? else {a, {None, (a if b)}}, (not a) : {}}[False].x!".
Proof. vm_compute. reflexivity. Qed.
Example C57_text3 : text sample_blank sample_expr3 =
  u """a$$\\{a + '""\x27\nb{r""\n{'""}$$'}x{{{[b]}"" r'c:\d' '\x27'.n".
Proof. vm_compute. reflexivity. Qed.
Example C57_tree : tree (XOps false va [(OSub, XOps false vb [(OMul, vc); (OMod, va)]); (OAdd, vc)]) =
  EChain false (EVar (u "a") None) [(OSub, EChain false (EVar (u "b") None) [(OMul, EVar (u "c") None); (OMod, EVar (u "a") None)]); (OAdd, EVar (u "c") None)].
Proof. reflexivity. Qed.
Example C57_run : parses (text sample_blank sample_expr) (root (tree sample_expr)).
Proof. eexists. vm_compute. reflexivity. Qed.
Example C57_run3 : parses (text sample_blank sample_expr3) (root (tree sample_expr3)).
Proof. eexists. vm_compute. reflexivity. Qed.
Example C57_run2 : parses (text sample_blank sample_expr2) (root (tree sample_expr2)).
Proof. eexists. vm_compute. reflexivity. Qed.

(** Why the conditions are needed. Names that begin with the name of a constant: Trueish is read as "True is h". *)
Theorem C57_excluded_names : exists n m, id_name n = true /\ parses n (root (EChain false (ELit (VBool true)) [(OIs, EVar m None)])).
Proof. exact name_finding. Qed.
Print Assumptions C57_excluded_names.
(** "a is nothing" is read as "a is not hing". *)
Theorem C57_excluded_is : exists n m, var_name n = true /\
  parses (text sample_blank (XOps false va [(OIs, XName n)])) (root (EChain false (EVar (u "a") None) [(OIsNot, EVar m None)])).
Proof. exact is_finding. Qed.
Print Assumptions C57_excluded_is.
(** The concatenation of a and (b, c) is read as a call. *)
Theorem C57_excluded_concat : exists e1 e2, fine sample_blank e1 = true /\ fine sample_blank e2 = true /\
  parses (text sample_blank (XCat e1 [e2])) (root (EFactor (tree e1) [TCall [(None, root (tree vb)); (None, root (tree vc))]] QNone)).
Proof. exact concat_finding. Qed.
Print Assumptions C57_excluded_concat.
(** Without blanks around it, the operator != is a syntax error: ! is a qualifier. *)
Theorem C57_excluded_tight : parse_script conf_lexicon (u "| {a!=b}") = Raise SyntaxError /\
  parses (u "a != b") (root (tree (XOps false va [(ONe, vb)]))).
Proof. exact tight_finding. Qed.
Print Assumptions C57_excluded_tight.
(** A minus sign is allowed in front of the first operand only. *)
Theorem C57_excluded_minus : parse_script conf_lexicon (u "| {a * -b}") = Raise SyntaxError /\ parse_script conf_lexicon (u "| {a + -b}") = Raise SyntaxError /\
  exists d, parse_script conf_lexicon (u "| {a * (-b)}") = Ok d.
Proof. exact minus_finding. Qed.
Print Assumptions C57_excluded_minus.
(** The set of a in braces is the text "{a}": two braces stand for one. *)
Theorem C57_excluded_brace : exists col, fine sample_blank (XSet [va]) = true /\
  parse_script conf_lexicon (u "| {" ++ text sample_blank (XSet [va]) ++ u "}") =
    Ok [NBlock [] MNone (BText col [TxLine (LNormal [PText (u " "); PText (u "{"); PText (u "a"); PText (u "}")])])].
Proof. exact brace_finding. Qed.
Print Assumptions C57_excluded_brace.
(** A qualifier after parentheses is kept twice, by the expression in them and by the operand they are. *)
Theorem C57_qualifier_twice : parses (u "(a + b)?") (root (EFactor (ERoot (tree (XOps false va [(OAdd, vb)])) QOpt) [] QOpt)).
Proof. exact twice_qual_finding. Qed.
Print Assumptions C57_qualifier_twice.
