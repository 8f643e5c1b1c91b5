(** Specification of syntax errors: prefixes of a script. *)
From Coq Require Import List NArith Bool Arith.
From Verif Require Import PyStr Ast Preprocess Peg Grammar Syntax.
Import ListNotations.

(** The script cut after [k] lines. *)
Inductive cut_after : nat -> str -> str -> Prop :=
| cut_none s : cut_after 0 s []
| cut_whole k s : ~ In NL s -> cut_after (S k) s s
| cut_last x r : ~ In NL x -> cut_after 1 (x ++ NL :: r) x
| cut_line k x r z : ~ In NL x -> cut_after (S k) r z -> cut_after (S (S k)) (x ++ NL :: r) (x ++ NL :: z).

(** Number of lines. *)
Definition line_count (s : str) : nat := S (count_occ N.eq_dec s NL).

(** [line_at k s x]: line number [k] of the script, counted from 1. *)
Inductive line_at : nat -> str -> str -> Prop :=
| line_only s : ~ In NL s -> line_at 1 s s
| line_first x r : ~ In NL x -> line_at 1 (x ++ NL :: r) x
| line_next k x r z : ~ In NL x -> line_at k r z -> line_at (S k) (x ++ NL :: r) z.

(** What is quoted of a line: everything between the outer blanks, or its first 15 characters and three dots. *)
Definition quoted (line text : str) : Prop :=
  exists a x b, line = a ++ x ++ b /\ (forall c, In c (a ++ b) -> is_space c = true) /\
    (forall c r, x = c :: r \/ x = r ++ [c] -> is_space c = false) /\
    (List.length x <= 15 /\ text = x \/
     exists y z, x = y ++ z /\ List.length y = 15 /\ z <> [] /\ text = y ++ [46; 46; 46]%N).

(** Outcome for a text that is read with the given indentation symbols. *)
Definition outcome_of (X : lexicon) (y : symbols) (text : str) : outcome :=
  match preprocess y text with
  | Ok flat => parse_flat X y flat
  | Raise e => Fails e
  end.

Definition invalid (X : lexicon) (y : symbols) (text : str) : Prop := outcome_of X y text = Bad.
Definition valid (X : lexicon) (y : symbols) (text : str) : Prop := exists d, outcome_of X y text = Good d.
