(** Specification side of C72: other names of variables, of parameters and of bodies. *)
From Coq Require Import List NArith Bool Arith String.
From Verif Require Import PyStr Value PageSpec OperSpec TmplSpec RenameSpec.
Import ListNotations.

Section Names.
(** The new names. *)
Variable f : str -> str.
(** Members of objects and named arguments of functions of Python are no variables. *)
Fixpoint var_ex (e : ex) : ex :=
  match e with
  | XName n => XName (f n)
  | XText q s l => XText q s (map (fun a => match a with (e, z) => (var_ex e, z) end) l)
  | XRaw q s => XRaw q s
  | XNum d => XNum d
  | XConst c => XConst c
  | XList l => XList (map var_ex l)
  | XTuple l => XTuple (map var_ex l)
  | XSet l => XSet (map var_ex l)
  | XDict l => XDict (map (fun a => match a with (k, v) => (var_ex k, var_ex v) end) l)
  | XTail e l q => XTail (var_ex e) (map var_tail l) q
  | XOps neg e l => XOps neg (var_ex e) (map (fun a => match a with (o, e) => (o, var_ex e) end) l)
  | XPipe e l => XPipe (var_ex e) (map var_filter l)
  | XCat e l => XCat (var_ex e) (map var_ex l)
  | XNot n e => XNot n (var_ex e)
  | XAnd e l => XAnd (var_ex e) (map var_ex l)
  | XOr e l => XOr (var_ex e) (map var_ex l)
  | XIf x c y => XIf (var_ex x) (var_ex c) (match y with Some y => Some (var_ex y) | None => None end)
  end
with var_tail (t : xtail) : xtail :=
  match t with
  | XMember n => XMember n
  | XItem e => XItem (var_ex e)
  | XSlice x y z =>
      XSlice (match x with Some e => Some (var_ex e) | None => None end) (match y with Some e => Some (var_ex e) | None => None end)
        (match z with Some e => Some (var_ex e) | None => None end)
  | XCall a => XCall (map (fun a => match a with (n, e) => (n, var_ex e) end) a)
  end
with var_filter (t : xfilter) : xfilter :=
  match t with
  | XFilter g path a => XFilter (var_ex g) path (match a with Some a => Some (map (fun a => match a with (n, e) => (n, var_ex e) end) a) | None => None end)
  end.
Definition var_mixed (x : mixed) : mixed := (fst x, map (fun a => match a with (e, z) => (var_ex e, z) end) (snd x)).
Definition var_para (x : para) : para := (var_mixed (fst x), map (fun a => match a with (m, n, x) => (m, n, var_mixed x) end) (snd x)).
Definition var_word (a : sigil * word) : sigil * word := (fst a, match snd a with WText x => WText x | WExpr e => WExpr (var_ex e) end).
Definition var_given (g : given) : given := match g with GBare e => GBare (var_ex e) | GBraced e => GBraced (var_ex e) end.
(** Attributes of tags keep their names, named arguments of hypertags do not. *)
Definition var_attr (a : attr) : attr := match a with AVal n g => AVal n (var_given g) | AShort l => AShort (map var_word l) end.
Definition var_tag (g : tagx) : tagx := match g with (n, l, a) => (n, map var_word l, map var_attr a) end.
Definition var_arg (a : attr) : attr := match a with AVal n g => AVal (f n) (var_given g) | AShort l => AShort (map var_word l) end.
Definition var_use (h : use) : use := match h with (n, pos, a) => (n, map var_given pos, map var_arg a) end.
Definition var_content (c : option (style * para)) : option (style * para) := match c with Some (k, x) => Some (k, var_para x) | None => None end.
Fixpoint var_tmpl (t : tmpl) : tmpl :=
  match t with
  | TLine m k x => TLine m k (var_para x)
  | TNote m h x tl => TNote m h x tl
  | TLeaf m g c => TLeaf m (map var_tag g) (var_content c)
  | TNode m g w kids => TNode m (map var_tag g) w (map var_tmpl kids)
  | TIf m cs els =>
      TIf m (map (fun c => match c with (e, (w, kids)) => (var_ex e, (w, map var_tmpl kids)) end) cs)
        (match els with Some (w, kids) => Some (w, map var_tmpl kids) | None => None end)
  | TFor m xs e w kids => TFor m (map f xs) (var_ex e) w (map var_tmpl kids)
  | TWhile m e w kids els =>
      TWhile m (var_ex e) w (map var_tmpl kids) (match els with Some (w, kids) => Some (w, map var_tmpl kids) | None => None end)
  | TTry m alts => TTry m (map (fun a => match a with (w, kids) => (w, map var_tmpl kids) end) alts)
  | TSet m xs e => TSet m (map f xs) (var_ex e)
  | TAug m x o e => TAug m (f x) o (var_ex e)
  | TUse m h c => TUse m (var_use h) (var_content c)
  | TBlock m h w kids => TBlock m (var_use h) w (map var_tmpl kids)
  | TBody m n => TBody m (f n)
  end.
Definition var_param (p : str * option given) : str * option given := (f (fst p), match snd p with Some g => Some (var_given g) | None => None end).
Definition var_def (d : def) : def :=
  match d with
  | Def m n bn ps w kids => Def m n (match bn with Some x => Some (f x) | None => None end) (map var_param ps) w (map var_tmpl kids)
  | DNote m h x tl => DNote m h x tl
  end.

(** Where a text of several lines or with expressions follows in the same line, the length of the line up to the marker stays. *)
Variable b : str.
Fixpoint level (t : tmpl) : bool :=
  match t with
  | TLine _ _ _ | TNote _ _ _ _ | TSet _ _ _ | TAug _ _ _ _ | TBody _ _ => true
  | TLeaf _ g c => match c with Some (_, x) => fixed x || Nat.eqb (List.length (chain_text b (map var_tag g))) (List.length (chain_text b g)) | None => true end
  | TUse _ h c => match c with Some (_, x) => fixed x || Nat.eqb (List.length (use_text b (var_use h))) (List.length (use_text b h)) | None => true end
  | TNode _ _ _ kids | TFor _ _ _ _ kids | TBlock _ _ _ kids => forallb level kids
  | TIf _ cs els =>
      forallb (fun c => match c with (_, (_, kids)) => forallb level kids end) cs &&
      match els with Some (_, kids) => forallb level kids | None => true end
  | TWhile _ _ _ kids els => forallb level kids && match els with Some (_, kids) => forallb level kids | None => true end
  | TTry _ alts => forallb (fun a => match a with (_, kids) => forallb level kids end) alts
  end.
Definition level_def (d : def) : bool := match d with Def _ _ _ _ _ kids => forallb level kids | DNote _ _ _ _ => true end.
End Names.
