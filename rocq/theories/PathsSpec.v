(** Specification side of C45: import paths as lists of components. *)
From Coq Require Import List NArith Bool.
From Verif Require Import PyStr.
Import ListNotations.

(** Python's rule for relative imports: every dot after the first one removes the last component of
    the package; at least one component must remain. *)
Definition resolve (package : list str) (level : nat) (names : list str) : option (list str) :=
  if Nat.ltb level (List.length package)
  then Some (firstn (List.length package - level) package ++ names)
  else None.
