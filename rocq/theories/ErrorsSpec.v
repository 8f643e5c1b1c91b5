(** Specification side of C63. *)
From Coq Require Import List NArith Bool.
From Verif Require Import PyStr Preprocess PreprocessSpec.
Import ListNotations.

(** The characters of a text apart from whitespace and the marks of the preprocessor. *)
Definition visible (y : symbols) (s : str) : str := filter (fun c => negb (is_space c || is_symbol y c)) s.
