(** Specification side of C70: other names of hypertags, and of their bodies. *)
From Coq Require Import List NArith Bool Arith String.
From Verif Require Import PyStr Value PageSpec TmplSpec.
Import ListNotations.

Section Rename.
(** The new names of hypertags and of bodies. *)
Variables (f g : str -> str).
Definition rename_use (h : use) : use := match h with (n, pos, a) => (f n, pos, a) end.
Fixpoint rename (t : tmpl) : tmpl :=
  match t with
  | TLine m k x => TLine m k x
  | TNote m h x tl => TNote m h x tl
  | TLeaf m c x => TLeaf m c x
  | TNode m c w kids => TNode m c w (map rename kids)
  | TIf m cs els =>
      TIf m (map (fun c => match c with (e, (w, kids)) => (e, (w, map rename kids)) end) cs)
        (match els with Some (w, kids) => Some (w, map rename kids) | None => None end)
  | TFor m xs e w kids => TFor m xs e w (map rename kids)
  | TWhile m e w kids els =>
      TWhile m e w (map rename kids) (match els with Some (w, kids) => Some (w, map rename kids) | None => None end)
  | TTry m alts => TTry m (map (fun a => match a with (w, kids) => (w, map rename kids) end) alts)
  | TSet m xs e => TSet m xs e
  | TAug m x o e => TAug m x o e
  | TUse m h c => TUse m (rename_use h) c
  | TBlock m h w kids => TBlock m (rename_use h) w (map rename kids)
  | TBody m n => TBody m (g n)
  end.
Definition rename_def (d : def) : def :=
  match d with
  | Def m n bn ps w kids => Def m (f n) (match bn with Some x => Some (g x) | None => None end) ps w (map rename kids)
  | DNote m h x tl => DNote m h x tl
  end.

(** A text of one line without expressions. *)
Definition fixed (x : para) : bool := match x with ((s, []), []) => negb (existsb (N.eqb NL) s) | _ => false end.
(** Hypertags used with any other text in the same line keep the length of their names: the column of the marker decides
    how much white space is removed in front of the other lines of the text. *)
Fixpoint steady (t : tmpl) : bool :=
  match t with
  | TLine _ _ _ | TNote _ _ _ _ | TLeaf _ _ _ | TSet _ _ _ | TAug _ _ _ _ | TBody _ _ => true
  | TNode _ _ _ kids | TFor _ _ _ _ kids | TBlock _ _ _ kids => forallb steady kids
  | TIf _ cs els =>
      forallb (fun c => match c with (_, (_, kids)) => forallb steady kids end) cs &&
      match els with Some (_, kids) => forallb steady kids | None => true end
  | TWhile _ _ _ kids els => forallb steady kids && match els with Some (_, kids) => forallb steady kids | None => true end
  | TTry _ alts => forallb (fun a => match a with (_, kids) => forallb steady kids end) alts
  | TUse _ h c => match c with Some (_, x) => fixed x || Nat.eqb (List.length (f (fst (fst h)))) (List.length (fst (fst h))) | None => true end
  end.
Definition steady_def (d : def) : bool := match d with Def _ _ _ _ _ kids => forallb steady kids | DNote _ _ _ _ => true end.
End Rename.
