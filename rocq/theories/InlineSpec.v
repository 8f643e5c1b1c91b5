(** Specification side of C71: the use of a hypertag, replaced by the contents of the definition. *)
From Coq Require Import List NArith Bool Arith String.
From Verif Require Import PyStr Value PageSpec TmplSpec MoveSpec.
Import ListNotations.

(** Parameters with the values given without names; the remaining parameters. *)
Fixpoint in_order (ps : list (str * option given)) (pos : list given) : option (list (str * given) * list (str * option given)) :=
  match pos, ps with
  | [], _ => Some ([], ps)
  | g :: pos, (p, _) :: ps => match in_order ps pos with Some (l, rest) => Some ((p, g) :: l, rest) | None => None end
  | _ :: _, [] => None
  end.
(** Values given with names. *)
Fixpoint named (a : list attr) : option (list (str * given)) :=
  match a with
  | [] => Some []
  | AVal x g :: a => match named a with Some l => Some ((x, g) :: l) | None => None end
  | AShort _ :: _ => None
  end.
Fixpoint distinct (l : list str) : bool := match l with [] => true | x :: l => negb (existsb (str_eqb x) l) && distinct l end.
(** Default values of the other parameters. *)
Fixpoint defaults (names : list str) (ps : list (str * option given)) : option (list (str * given)) :=
  match ps with
  | [] => Some []
  | (p, d) :: ps =>
      if existsb (str_eqb p) names then defaults names ps
      else match d, defaults names ps with Some g, Some l => Some ((p, g) :: l) | _, _ => None end
  end.
(** Parameters with their values, in the order of evaluation. *)
Definition fit (ps : list (str * option given)) (pos : list given) (a : list attr) : option (list (str * given)) :=
  match in_order ps pos, named a with
  | Some (l, rest), Some kw =>
      if distinct (map fst kw) && forallb (fun x => existsb (str_eqb x) (map fst rest)) (map fst kw)
      then match defaults (map fst kw) rest with Some l' => Some (l ++ kw ++ l') | None => None end
      else None
  | _, _ => None
  end.
(** More blank lines in front. *)
Definition lift (k : nat) (t : tmpl) : tmpl :=
  match t with
  | TLine m y x => TLine (k + m) y x
  | TNote m h x tl => TNote (k + m) h x tl
  | TLeaf m g c => TLeaf (k + m) g c
  | TNode m g w l => TNode (k + m) g w l
  | TIf m cs els => TIf (k + m) cs els
  | TFor m xs e w l => TFor (k + m) xs e w l
  | TWhile m e w l els => TWhile (k + m) e w l els
  | TTry m alts => TTry (k + m) alts
  | TSet m xs e => TSet (k + m) xs e
  | TAug m x o e => TAug (k + m) x o e
  | TUse m h c => TUse (k + m) h c
  | TBlock m h w l => TBlock (k + m) h w l
  | TBody m x => TBody (k + m) x
  end.
Definition lift_first (k : nat) (l : list tmpl) : list tmpl := match l with t :: l => lift k t :: l | [] => [] end.
(** One assignment per parameter, then the contents. *)
Definition assigns (l : list (str * given)) : list tmpl := map (fun a => TSet 0 [fst a] (given_expr (snd a))) l.
Definition inlined (m : nat) (l : list (str * given)) (kids : list tmpl) : list tmpl := lift_first m (assigns l ++ kids).

(** Templates in place of uses without and with a body, and of the body inside of a definition, at any depth; not in alternatives
    unless [deep]. *)
Section Replace.
Variables (uses : nat -> use -> option (list tmpl)) (blocks : nat -> use -> list tmpl -> option (list tmpl)) (inner : nat -> str -> list tmpl) (deep : bool).
Fixpoint replaced (t : tmpl) : list tmpl :=
  match t with
  | TUse m h None => match uses m h with Some l => l | None => [t] end
  | TNode m g w l => [TNode m g w (flat_map replaced l)]
  | TIf m cs els =>
      [TIf m (map (fun c => match c with (e, (w, l)) => (e, (w, flat_map replaced l)) end) cs)
         (match els with Some (w, l) => Some (w, flat_map replaced l) | None => None end)]
  | TFor m xs e w l => [TFor m xs e w (flat_map replaced l)]
  | TWhile m e w l els => [TWhile m e w (flat_map replaced l) (match els with Some (w, l) => Some (w, flat_map replaced l) | None => None end)]
  | TTry m alts => if deep then [TTry m (map (fun a => match a with (w, l) => (w, flat_map replaced l) end) alts)] else [t]
  | TBlock m h w l => match blocks m h l with Some k => k | None => [TBlock m h w (flat_map replaced l)] end
  | TBody m x => inner m x
  | t => [t]
  end.
(** The names assigned, other than in the bodies of uses that are replaced. *)
Fixpoint outer (t : tmpl) : list str :=
  match t with
  | TLine _ _ _ | TNote _ _ _ _ | TLeaf _ _ _ | TUse _ _ _ | TBody _ _ => []
  | TNode _ _ _ kids => flat_map outer kids
  | TBlock m h _ kids => match blocks m h kids with Some _ => [] | None => flat_map outer kids end
  | TIf _ cs els =>
      flat_map (fun c => match c with (_, (_, kids)) => flat_map outer kids end) cs ++
      match els with Some (_, kids) => flat_map outer kids | None => [] end
  | TFor _ xs _ _ kids => xs ++ flat_map outer kids
  | TWhile _ _ _ kids els => flat_map outer kids ++ match els with Some (_, kids) => flat_map outer kids | None => [] end
  | TTry _ alts => if deep then flat_map (fun a => match a with (_, kids) => flat_map outer kids end) alts else writes t
  | TSet _ xs _ => xs
  | TAug _ x _ _ => [x]
  end.
End Replace.
Definition no_use (m : nat) (h : use) : option (list tmpl) := None.
Definition no_block (m : nat) (h : use) (l : list tmpl) : option (list tmpl) := None.
Definition the_body (m : nat) (x : str) : list tmpl := [TBody m x].

(** Uses of the hypertag [n]. *)
Definition chosen (n : str) (ps : list (str * option given)) (kids : list tmpl) (m : nat) (h : use) : option (list tmpl) :=
  match h with
  | (y, pos, a) => if str_eqb y n then match fit ps pos a with Some l => Some (inlined m l kids) | None => None end else None
  end.
Definition expand (n : str) (ps : list (str * option given)) (kids : list tmpl) : tmpl -> list tmpl := replaced (chosen n ps kids) no_block the_body true.

(** Uses with a body that assigns no other variables than [own]: contents with the body in its place, if there is a line of output. *)
Definition with_body (kids body : list tmpl) : list tmpl := flat_map (replaced no_use no_block (fun m _ => lift_first m body) true) kids.
Definition chosen_block (own : list str) (n : str) (ps : list (str * option given)) (kids : list tmpl) (m : nat) (h : use) (body : list tmpl) : option (list tmpl) :=
  match h with
  | (y, pos, a) =>
      if str_eqb y n && match body with [] => false | _ => true end && forallb (fun x => existsb (str_eqb x) own) (flat_map writes body) && existsb contents (with_body kids body)
      then match fit ps pos a with Some l => Some (inlined m l (with_body kids body)) | None => None end else None
  end.
Definition expand_blocks (own : list str) (n : str) (ps : list (str * option given)) (kids : list tmpl) : tmpl -> list tmpl :=
  replaced no_use (chosen_block own n ps kids) the_body false.
Definition writes_outside (own : list str) (n : str) (ps : list (str * option given)) (kids : list tmpl) : tmpl -> list str := outer (chosen_block own n ps kids) false.
