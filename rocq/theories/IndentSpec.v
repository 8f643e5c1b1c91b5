(** Specification side of C07-C11: texts as lists of lines. *)
From Coq Require Import List NArith Bool.
From Verif Require Import PyStr.
Import ListNotations.
Local Open Scope N_scope.

(** Lines of a text. *)
Definition lines (t : str) : list str := split NL t.

(** All characters are whitespace. *)
Definition blank (l : str) : Prop := forall c, In c l -> is_space c = true.

Definition is_prefix (p l : str) : Prop := exists r, l = p ++ r.

(** Put [i] in front of a non-empty line. *)
Definition indent_line (i l : str) : str := match l with [] => [] | _ => i ++ l end.

(** Remove [i] from the front of a line, if it is there. *)
Definition unindent_line (i l : str) : str :=
  if startswith i l then skipn (List.length i) l else l.

(** [p] is an indentation common to all non-blank lines of [t]. *)
Definition common_indent (t p : str) : Prop :=
  blank p /\ forall l, In l (lines t) -> ~ blank l -> is_prefix p l.

(** Without its first character, if it is a space. *)
Definition drop_space (l : str) : str :=
  match l with c :: r => if c =? SP then r else l | [] => [] end.
