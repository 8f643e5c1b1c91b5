(** Location of errors: ParserError (src/hypertag/nifty/parsing.py 17-39, text() of nodes 194-201) and HError
    (src/hypertag/core/errors.py 5-27). Of the message only the line, the column and the excerpt are modelled,
    not the wording around them. *)
From Coq Require Import List NArith ZArith Bool.
From Verif Require Import PyStr Preprocess.
Import ListNotations.

(** str.count of one character. *)
Definition count_char (c : char) (s : str) : nat := List.length (filter (N.eqb c) s).
(** str.rfind of one character: index of the last occurrence, or -1. *)
Fixpoint rfind (c : char) (s : str) : Z :=
  match s with
  | [] => (-1)%Z
  | d :: r => if (0 <=? rfind c r)%Z then (rfind c r + 1)%Z else if N.eqb c d then 0%Z else (-1)%Z
  end.

(** What the message tells. *)
Record report := { rep_line : nat; rep_column : Z; rep_text : str }.

(** nifty/parsing.py 29-32: self.line, self.column of an error at a node with pos = (start, stop). *)
Definition error_line (full : str) (stop : nat) : nat := count_char NL (firstn stop full) + 1.
Definition error_column (full : str) (stop : nat) : Z :=
  let prefix := firstn stop full in Z.of_nat (List.length prefix) - rfind NL prefix.
(** nifty/parsing.py 194-201 with maxlen = MAXLEN = 20 (19) *)
Definition node_text (full : str) (start stop : nat) : str :=
  let last := Nat.min stop (start + 20) in
  let ret := firstn (last - start) (skipn start full) in
  if Nat.ltb last stop then ret ++ [46; 46; 46]%N else ret.

(** core/errors.py 6-27 make_msg, for an error with a node. self.line is at least 1, so it is decremented. *)
Definition make_msg (y : symbols) (full : str) (start stop : nat) : report :=
  let prefix := firstn start full in
  let indents := count_char (INDENT_S y) prefix + count_char (INDENT_T y) prefix in
  let dedents := count_char (DEDENT_S y) prefix + count_char (DEDENT_T y) prefix in
  {| rep_line := error_line full stop - 1;
     rep_column := (Z.of_nat indents - Z.of_nat dedents) + error_column full stop;
     rep_text := node_text full start stop |}.
