(** Specification of how a reader sees the HTML of a template whose texts are all plain: tags, the values of
    their attributes, and texts, as they are before escaping. *)
From Coq Require Import List NArith ZArith Bool Arith String.
From Verif Require Import PyStr Value HtmlSpec PageSpec OperSpec TmplSpec.
Import ListNotations.
Local Open Scope string_scope.
Local Open Scope list_scope.
Local Open Scope N_scope.

(** All texts are plain. *)
Inductive plain : tmpl -> Prop :=
| plain_line m x : plain (TLine m Plain x)
| plain_note m h x tl : plain (TNote m h x tl)
| plain_leaf m g c : (forall k x, c = Some (k, x) -> k = Plain) -> plain (TLeaf m g c)
| plain_node m g w kids : Forall plain kids -> plain (TNode m g w kids)
| plain_if m cs els : Forall (fun c => Forall plain (snd (snd c))) cs -> Forall plain (match els with Some y => snd y | None => [] end) ->
    plain (TIf m cs els)
| plain_for m xs e w kids : Forall plain kids -> plain (TFor m xs e w kids)
| plain_while m e w kids els : Forall plain kids -> Forall plain (match els with Some y => snd y | None => [] end) -> plain (TWhile m e w kids els)
| plain_try m alts : Forall (fun a => Forall plain (snd a)) alts -> plain (TTry m alts)
| plain_set m xs e : plain (TSet m xs e)
| plain_aug m x o e : plain (TAug m x o e)
| plain_use m h c : (forall k x, c = Some (k, x) -> k = Plain) -> plain (TUse m h c)
| plain_block m h w kids : Forall plain kids -> plain (TBlock m h w kids)
| plain_body m n : plain (TBody m n).
Definition plain_def (d : def) : Prop := match d with Def _ _ _ _ _ kids => Forall plain kids | DNote _ _ _ _ => True end.

(** The same template with markup texts, which are not escaped. *)
Fixpoint bare (t : tmpl) : tmpl :=
  match t with
  | TLine m k x => TLine m Markup x
  | TLeaf m g c => TLeaf m g (match c with Some (_, x) => Some (Markup, x) | None => None end)
  | TNode m g w kids => TNode m g w (map bare kids)
  | TIf m cs els =>
      TIf m (map (fun c => match c with (e, (w, kids)) => (e, (w, map bare kids)) end) cs)
          (match els with Some (w, kids) => Some (w, map bare kids) | None => None end)
  | TFor m xs e w kids => TFor m xs e w (map bare kids)
  | TWhile m e w kids els => TWhile m e w (map bare kids) (match els with Some (w, kids) => Some (w, map bare kids) | None => None end)
  | TTry m alts => TTry m (map (fun a => match a with (w, kids) => (w, map bare kids) end) alts)
  | TUse m h c => TUse m h (match c with Some (_, x) => Some (Markup, x) | None => None end)
  | TBlock m h w kids => TBlock m h w (map bare kids)
  | TNote _ _ _ _ | TSet _ _ _ | TAug _ _ _ _ | TBody _ _ => t
  end.
Definition bare_def (d : def) : def := match d with Def m n bn ps w kids => Def m n bn ps w (map bare kids) | DNote _ _ _ _ => d end.

Section Items.
Variable void : str -> bool.

Definition shown_attr (a : str * shown) : list rattr :=
  match snd a with
  | Flag true => [(fst a, None)]
  | Flag false => []
  | Shown x => [(fst a, Some x)]
  end.
(** Characters other than blanks. *)
Definition text_items (x : str) : list item := map IChar (filter (fun c => negb (is_space c)) x).
Fixpoint tag_items (g : list etag) (c : list item) : list item :=
  match g with
  | [] => c
  | (n, a) :: r => if void n then [IEmpty n (flat_map shown_attr a)] else IOpen n (flat_map shown_attr a) :: tag_items r c ++ [IClose n]
  end.
Fixpoint elem_items (t : elem) : list item :=
  match t with
  | EText _ x => text_items x
  | EGap _ => []
  | ELeaf _ g c => tag_items g (text_items c)
  | ENode _ g _ kids => tag_items g (flat_map elem_items kids)
  | EHyper _ kids => flat_map elem_items kids
  end.
End Items.

(** ** Comments *)

(** A comment, in lines of its own, is put into a template: in front of a block, or inside of one. *)
Inductive noted : list tmpl -> list tmpl -> Prop :=
| noted_here h x tl l : note_ok x tl -> noted l (TNote 0 h x tl :: l)
| noted_next t l l' : noted l l' -> noted (t :: l) (t :: l')
| noted_node m g w kids kids' l : noted kids kids' -> noted (TNode m g w kids :: l) (TNode m g w kids' :: l)
| noted_block m h w kids kids' l : noted kids kids' -> noted (TBlock m h w kids :: l) (TBlock m h w kids' :: l)
| noted_for m xs e w kids kids' l : noted kids kids' -> noted (TFor m xs e w kids :: l) (TFor m xs e w kids' :: l)
| noted_while m e w kids kids' els l : noted kids kids' -> noted (TWhile m e w kids els :: l) (TWhile m e w kids' els :: l)
| noted_never m e w kids w1 els els' l : noted els els' -> noted (TWhile m e w kids (Some (w1, els)) :: l) (TWhile m e w kids (Some (w1, els')) :: l)
| noted_try m a1 w kids kids' a2 l : noted kids kids' -> noted (TTry m (a1 ++ (w, kids) :: a2) :: l) (TTry m (a1 ++ (w, kids') :: a2) :: l)
| noted_branch m cs1 e w kids kids' cs2 els l : noted kids kids' ->
    noted (TIf m (cs1 ++ (e, (w, kids)) :: cs2) els :: l) (TIf m (cs1 ++ (e, (w, kids')) :: cs2) els :: l)
| noted_else m cs w kids kids' l : noted kids kids' -> noted (TIf m cs (Some (w, kids)) :: l) (TIf m cs (Some (w, kids')) :: l).
(** Any number of comments. *)
Inductive commented : list tmpl -> list tmpl -> Prop :=
| commented_none l : commented l l
| commented_more l l' l'' : noted l l' -> commented l' l'' -> commented l l''.
(** Comments inside of definitions, in front of them and behind. *)
Inductive commented_defs : list def -> list def -> Prop :=
| commented_end : commented_defs [] []
| commented_note h x tl ds ds' : note_ok x tl -> commented_defs ds ds' -> commented_defs ds (DNote 0 h x tl :: ds')
| commented_old m h x tl ds ds' : commented_defs ds ds' -> commented_defs (DNote m h x tl :: ds) (DNote m h x tl :: ds')
| commented_in m n bn ps w kids kids' ds ds' : commented kids kids' -> commented_defs ds ds' ->
    commented_defs (Def m n bn ps w kids :: ds) (Def m n bn ps w kids' :: ds').
