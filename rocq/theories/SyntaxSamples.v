(** Small scripts, used in examples and witnesses only. *)
From Coq Require Import List NArith ZArith Bool String.
From Verif Require Import PyStr Value Ast Preprocess Peg Grammar Syntax SyntaxSpec.
Import ListNotations.

(** No characters outside ASCII, and all floating point numbers are one object. *)
Definition ascii_only : unicode := {| u_digit := fun _ => None; u_alnum := fun _ => false |}.
Definition demo_lexicon : lexicon := {| lx_unicode := ascii_only; lx_float := fun _ => VObj 99 |}.
Definition demo_report (s : string) : report := parse_report demo_lexicon (u s).
Definition demo_outcome (s : string) : outcome := outcome_of demo_lexicon default_symbols (u s).

(** The raw string in the first two lines is broken by cutting the script after line 1. *)
Definition two_lines : string := "$ x = r'a
b'".
Definition four_lines : string := "$ x = r'a
b'
p
)".
(** The second line raises AssertionError in the setup of a node. *)
Definition assertion_lines : string := "p
p {x}?
p
)".
