(** C62 escape sequences in strings. *)
From Coq Require Import List NArith ZArith Bool String.
From Verif Require Import PyStr Value Ast Syntax PageSpec OperSpec OperProofs Ref ConfRef EscSpec EscProofs.
Import ListNotations.
Local Open Scope string_scope.
Local Open Scope list_scope.

(** A text between quotes stands for what its escape sequences stand for. *)
Theorem C62_decode : forall s t, decode_escapes s = Ok t <-> means s t.
Proof. exact decode_means. Qed.
Print Assumptions C62_decode.
(** The other texts are rejected. *)
Theorem C62_rejected : forall s, decode_escapes s = Raise ValueError <-> forall t, ~ means s t.
Proof. exact decode_fails. Qed.
Print Assumptions C62_rejected.
(** No text stands for two strings. *)
Theorem C62_unique : forall s t t', means s t -> means s t' -> t = t'.
Proof. exact means_one. Qed.
Print Assumptions C62_unique.
(** Every text can be written in quotes of either kind, on one line. *)
Theorem C62_written : forall q s, (forall c, In c s -> special c = false) ->
  means (str_text q s) s /\ ~ In (quot_char q) (str_text q s) /\ ~ In NL (str_text q s).
Proof. exact written. Qed.
Print Assumptions C62_written.
(** From the script to the syntax tree, the characters $ { } included. *)
Theorem C62_literal : forall X q s, exists col ps l,
  parse_script X (u "| {" ++ [quot_char q] ++ str_text q s ++ [quot_char q] ++ u "}") = Ok [NBlock [] MNone (BText col [TxLine (LNormal ps)])] /\
  exprs ps = [ERoot (EFormat (map PText l)) QNone] /\ List.concat l = s.
Proof. exact literal_script. Qed.
Print Assumptions C62_literal.

Example C62_sample : means (u "a\t\x41\u20AC\101\0\18\\n\d\x4") (u "a" ++ [9; 65; 8364; 65; 0; 1]%N ++ u "8\n\d\x4").
Proof. apply decode_means. vm_compute. reflexivity. Qed.
Example C62_sample_rejected : forall t, ~ means (u "\U00110000") t /\ ~ means (u "\u12g4") t.
Proof. intros t. split; apply decode_fails; vm_compute; reflexivity. Qed.
Example C62_sample_text : str_text Double (u "a""b\" ++ [NL] ++ u "'${") = u "a\x22b\\\n'$${{".
Proof. vm_compute. reflexivity. Qed.
Example C62_sample_special : forall c, In c (u "a""b\'") -> special c = false.
Proof. intros c I. cbn in I. repeat (destruct I as [<-|I]; [reflexivity|]). destruct I. Qed.

(** The quote that ends a string cannot be written with a backslash, as it can in Python. *)
Theorem C62_excluded_quote : exists x t, means x t /\ parse_script conf_lexicon (u "| {""" ++ x ++ u """}") = Raise SyntaxError /\
  parse_script conf_lexicon (u "| {'" ++ x ++ u "'}") = Raise SyntaxError.
Proof. exact quote_finding. Qed.
Print Assumptions C62_excluded_quote.
(** Characters by name: the name in braces is an embedded expression. *)
Theorem C62_excluded_name : exists col, parse_script conf_lexicon (u "| {""\N{DASH}""}") =
  Ok [NBlock [] MNone (BText col [TxLine (LNormal [PText (u " "); PExpr (ERoot (EFormat [PText (u "\N"); PExpr (ERoot (EVar (u "DASH") None) QNone)]) QNone)])])].
Proof. exact name_finding. Qed.
Print Assumptions C62_excluded_name.
(** A code with wrong digits is a ValueError, not a syntax error. *)
Theorem C62_digits : parse_script conf_lexicon (u "| {""\xzz""}") = Raise ValueError.
Proof. exact digits_finding. Qed.
Print Assumptions C62_digits.
