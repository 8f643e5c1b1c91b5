(** Specification side of C12-C16. Of the model only the record [symbols] is used. *)
From Coq Require Import List NArith Bool.
From Verif Require Import PyStr IndentSpec Preprocess.
Import ListNotations.
Local Open Scope N_scope.

Definition symbol_chars (y : symbols) : list char := [INDENT_S y; DEDENT_S y; INDENT_T y; DEDENT_T y].

(** The symbols are usable for a text. *)
Definition fresh (y : symbols) (text : str) : Prop :=
  NoDup (symbol_chars y) /\ forall c, In c (symbol_chars y) -> ~ In c text.

(** Properly nested symbols of matching kind. *)
Inductive balanced (y : symbols) : str -> Prop :=
| bal_nil : balanced y []
| bal_char c s : ~ In c (symbol_chars y) -> balanced y s -> balanced y (c :: s)
| bal_space a b : balanced y a -> balanced y b -> balanced y (INDENT_S y :: a ++ DEDENT_S y :: b)
| bal_tab a b : balanced y a -> balanced y b -> balanced y (INDENT_T y :: a ++ DEDENT_T y :: b).

(** Leading whitespace of a line. *)
Fixpoint leading (l : str) : str :=
  match l with c :: r => if is_space c then c :: leading r else [] | [] => [] end.

(** Does the line consist of whitespace only? *)
Definition blankb (l : str) : bool := forallb is_space l.

(** Indentation of the last non-blank line. *)
Definition last_indent (ls : list str) : str :=
  match filter (fun l => negb (blankb l)) (rev ls) with l :: _ => leading l | [] => [] end.

(** One of two indentations extends the other. *)
Definition compatible (a b : str) : Prop := is_prefix a b \/ is_prefix b a.

(** The k-th line (from zero) has an indentation that does not fit the previous non-blank line. *)
Definition bad_line (ls : list str) (k : nat) : Prop :=
  exists l, nth_error ls k = Some l /\ ~ blank l /\ ~ compatible (last_indent (firstn k ls)) (leading l).

Definition is_symbol (y : symbols) (c : char) : bool := mem c (symbol_chars y).

(** Decoder of preprocessed text: the current indentation follows the symbols. *)
Fixpoint dec_indent (y : symbols) (cur : str) (x : str) : str :=
  match x with
  | [] => cur
  | c :: r =>
      dec_indent y
        (if c =? INDENT_S y then cur ++ [SP] else if c =? INDENT_T y then cur ++ [TAB]
         else if (c =? DEDENT_S y) || (c =? DEDENT_T y) then removelast cur else cur) r
  end.

Fixpoint dec_lines (y : symbols) (cur : str) (xs : list str) : list str :=
  match xs with
  | [] => []
  | x :: r =>
      let content := filter (fun c => negb (is_symbol y c)) x in
      (match content with [] => [] | _ => cur ++ content end) :: dec_lines y (dec_indent y cur x) r
  end.

(** Lines of the script; the first line of the preprocessed text is artificial. *)
Definition decode_script (y : symbols) (out : str) : list str := tl (dec_lines y [] (lines out)).

(** What of a line is to be recovered: nothing of a blank line; otherwise the line without trailing
    whitespace, where each indentation character other than a space is represented by a tab. *)
Definition norm_char (c : char) : char := if c =? SP then SP else TAB.
Definition norm_line (l : str) : str :=
  if blankb l then [] else map norm_char (leading l) ++ strip l.
