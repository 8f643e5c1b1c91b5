(** Specification side of C69: definitions moved to another script. *)
From Coq Require Import List NArith String.
From Verif Require Import PyStr Value PageSpec TmplSpec BookSpec.
Import ListNotations.

(** Variables assigned in a template. *)
Fixpoint writes (t : tmpl) : list str :=
  match t with
  | TLine _ _ _ | TNote _ _ _ _ | TLeaf _ _ _ | TUse _ _ _ | TBody _ _ => []
  | TNode _ _ _ kids | TBlock _ _ _ kids => flat_map writes kids
  | TIf _ cs els =>
      flat_map (fun c => match c with (_, (_, kids)) => flat_map writes kids end) cs ++
      match els with Some (_, kids) => flat_map writes kids | None => [] end
  | TFor _ xs _ _ kids => xs ++ flat_map writes kids
  | TWhile _ _ _ kids els => flat_map writes kids ++ match els with Some (_, kids) => flat_map writes kids | None => [] end
  | TTry _ alts => flat_map (fun a => match a with (_, kids) => flat_map writes kids end) alts
  | TSet _ xs _ => xs
  | TAug _ x _ _ => [x]
  end.
(** No blank lines in front. *)
Definition tight (d : def) : Prop := match d with Def m _ _ _ _ _ | DNote m _ _ _ => m = 0 end.
