(** C05, continued: the tag %custom. *)
From Coq Require Import List NArith Bool String.
From Verif Require Import PyStr PyStrFacts Html HtmlSpec CustomProofs.
Import ListNotations.
Local Open Scope N_scope.

(** With a name of a tag it makes an element of that name: the reader sees its opening tag with the attributes, the body with the optional
    newline, and its closing tag. *)
Theorem C05_custom_read : forall name body kw s rest, valid_name name -> (forall nv, In nv kw -> valid_name (fst nv)) -> custom_expand body [name] kw = Ok s ->
  exists s1 s2, s ++ rest = 60 :: s1 /\
    read_tag s1 = Some (IOpen name (flat_map (seen HTML) kw), body ++ (if startswith [NL] body then [NL] else []) ++ 60 :: s2) /\
    read_tag s2 = Some (IClose name, rest).
Proof. exact custom_read. Qed.
Print Assumptions C05_custom_read.
Example C05_custom_example : valid_name (u "my-widget") /\ valid_name (u "id") /\
  custom_expand (u "x") [u "my-widget"] [(u "id", AOther (u "a"))] = Ok (u "<my-widget id=""a"">x</my-widget>").
Proof.
  split; [|split; [|vm_compute; reflexivity]].
  - split; [discriminate|]. apply Forall_forall. repeat constructor.
  - split; [discriminate|]. apply Forall_forall. repeat constructor.
Qed.
(** There must be one name. *)
Theorem C05_custom_one : forall body attrs kw, List.length attrs <> 1%nat -> custom_expand body attrs kw = Raise TypeError.
Proof. exact custom_one. Qed.
Print Assumptions C05_custom_one.
Example C05_custom_one_example : custom_expand (u "x") [u "a"; u "b"] [] = Raise TypeError /\ custom_expand (u "x") [] [] = Raise TypeError.
Proof. split; reflexivity. Qed.
