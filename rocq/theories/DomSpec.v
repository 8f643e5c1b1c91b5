(** Specification side of C19-C26: the DOM as a tree, positions in it, and what traversal, selection,
    pruning, alteration and rendering should give. Of the model only the data types ([info], [cell],
    [heap], [tagarg], [attrarg], [ditem], field update [with_indent]) and the attribute renderer of Html are used. *)
From Coq Require Import List NArith Bool Sorting String.
From Verif Require Import PyStr Html HtmlSpec PyDict Value Dom.
Import ListNotations.

(** A node with everything below it. *)
Inductive tree := T (i : nid) (f : info) (kids : list tree).
Definition root (t : tree) : nid := let (i, _, _) := t in i.
Definition label (t : tree) : info := let (_, f, _) := t in f.
Definition kids (t : tree) : list tree := let (_, _, k) := t in k.

(** The heap contains the tree. Nothing prevents a node from occurring in several places. *)
Inductive repr (h : heap) : tree -> Prop :=
| repr_T i f ts : nth_error h i = Some {| c_info := f; c_body := map root ts |} ->
                  Forall (repr h) ts -> repr h (T i f ts).

Fixpoint height (t : tree) : nat := let (_, _, ts) := t in S (List.list_max (map height ts)).
Definition heights (ts : list tree) : nat := List.list_max (map height ts).

(** Identities of all nodes of a tree. *)
Fixpoint ids (t : tree) : list nid := let (i, _, ts) := t in i :: flat_map ids ts.
Definition all_ids (ts : list tree) : list nid := flat_map ids ts.

(** A position: child numbers on the way from the top-level list; never empty. *)
Definition path := list nat.
Fixpoint sub (ts : list tree) (p : path) : option tree :=
  match p with
  | [] => None
  | n :: r => match nth_error ts n with
              | None => None
              | Some t => match r with [] => Some t | _ :: _ => sub (kids t) r end
              end
  end.

(** [proper_prefix p q]: the node at p is a proper ancestor of the node at q *)
Definition proper_prefix (p q : path) : Prop := exists x r, q = p ++ x :: r.
(** Both under a common position, the first one in an earlier branch. *)
Definition left_of (p q : path) : Prop :=
  exists c a p' b q', p = c ++ a :: p' /\ q = c ++ b :: q' /\ (a < b)%nat.
Definition before_pre (p q : path) : Prop := proper_prefix p q \/ left_of p q.
Definition before_post (p q : path) : Prop := proper_prefix q p \/ left_of p q.
Definition before (o : order) : path -> path -> Prop :=
  match o with Post => before_post | _ => before_pre end.

(** [p] is a position of a node, and neither it nor any of its ancestors is skipped. *)
Definition visited (skip : nid -> bool) (ts : list tree) (p : path) : Prop :=
  sub ts p <> None /\
  forall q r t, p = q ++ r -> sub ts q = Some t -> skip (root t) = false.

(** [l] lists the nodes at exactly the positions satisfying [ok], each position once, in the order. *)
Definition lists_nodes (o : order) (ts : list tree) (ok : path -> Prop) (l : list nid) : Prop :=
  exists ps : list path,
    StronglySorted (before o) ps /\
    (forall p, In p ps <-> ok p) /\
    map Some l = map (fun p => option_map root (sub ts p)) ps.

(** A node satisfies the search criteria. The [attr]/[value] pair counts together with the keyword
    criteria and replaces the one of the same name. *)
Definition criterion (attr : option str) (value : option val) (attrs : list attrarg) (a : str) (v : option val) : Prop :=
  (attr = Some a /\ v = value) \/ (attr <> Some a /\ dget str_eqb a attrs = Some v).
Definition has_tag (t : tagarg) (f : info) : Prop :=
  match t with
  | TANone => True
  | TAStr s => s <> [] /\ exists t', n_tag f = Some t' /\ t_name t' = s
  | TATag t => exists t', n_tag f = Some t' /\ t_id t' = t_id t
  end.
Definition satisfies (veq : val -> val -> bool) (t : tagarg) (attr : option str) (value : option val)
    (attrs : list attrarg) (f : info) : Prop :=
  has_tag t f /\
  forall a v, criterion attr value attrs a v ->
    exists kw w, n_kwattrs f = Some kw /\ dget str_eqb a kw = Some w /\
      match v with Some x => veq w x = true | None => True end.
(** The criteria can be tested on the node without a Python TypeError: kwattrs is a dictionary, or
    no attribute is asked for, or the tag does not match anyway. *)
Definition testable (t : tagarg) (attr : option str) (attrs : list attrarg) (f : info) : Prop :=
  n_kwattrs f <> None \/ (attr = None /\ attrs = []) \/ ~ has_tag t f.

(** A tree without identities. *)
Inductive shape := Sh (f : info) (kids : list shape).
Fixpoint erase (t : tree) : shape := let (_, f, ts) := t in Sh f (map erase ts).

(** Remove the nodes satisfying [bad], with everything below them. *)
Fixpoint prune (bad : info -> bool) (s : shape) : list shape :=
  let (f, ss) := s in if bad f then [] else [Sh f (flat_map (prune bad) ss)].

(** Bottom-up and top-down replacement of nodes by [g]; the contents of a node with [skip] is left
    alone. *)
Section Replace.
  Variable g : tree -> list tree.
  Variable skip : nid -> bool.
  (** children first, then the nodes themselves *)
  Fixpoint bottom_up (t : tree) : list tree :=
    let (i, f, ts) := t in g (T i f (if skip i then ts else flat_map bottom_up ts)).
  (** the nodes first, then the children of what they were replaced by *)
  Inductive top_down : list tree -> list tree -> Prop :=
  | td ts l l' : l = flat_map g ts -> Forall2 inside l l' -> top_down ts l'
  with inside : tree -> tree -> Prop :=
  | inside_skip t : skip (root t) = true -> inside t t
  | inside_kids i f ts ts' : skip i = false -> top_down ts ts' -> inside (T i f ts) (T i f ts').
End Replace.

(** [x] occurs in [t] *)
Inductive subtree : tree -> tree -> Prop :=
| subtree_self t : subtree t t
| subtree_kid x t i f ts : In t ts -> subtree x t -> subtree x (T i f ts).

(** A replacement that keeps, drops, unwraps or reorders: each node is replaced by disjoint parts of
    its own tree. *)
Definition selective (g : tree -> list tree) : Prop :=
  forall t, NoDup (ids t) -> Forall (fun x => subtree x t) (g t) /\ NoDup (all_ids (g t)).

(** ** Rendering by position (C26) *)

(** The value an attribute shows in markup: True and False are flags, strings are taken as they are,
    other objects as str() gives them. *)
Definition attr_value (P : rprims) (v : val) : result attrval :=
  match v with
  | VBool b => Ok (if b then ATrue else AFalse)
  | VStr s => Ok (AOther s)
  | _ => match p_str P v with Ok s => Ok (AOther s) | Raise e => Raise e end
  end.
Fixpoint attr_values (P : rprims) (kw : list (str * val)) : result (list (str * attrval)) :=
  match kw with
  | [] => Ok []
  | (n, v) :: r =>
      match attr_value P v with
      | Raise e => Raise e
      | Ok a => match attr_values P r with Ok l => Ok ((n, a) :: l) | Raise e => Raise e end
      end
  end.

(** Text of the opening and closing parts a tag puts around its body; None for tags that do not just
    wrap their body (functions) and for attributes that are refused. [nl] tells whether the body
    begins with a newline. *)
Definition wrap (P : rprims) (f : info) (nl : bool) : option (str * str) :=
  match n_tag f with
  | None => Some ([], [])
  | Some t =>
      match t_kind t with
      | KNull | KNative => Some ([], [])
      | KMarkup false m =>
          match n_attrs f, attr_values P (match n_kwattrs f with Some kw => kw | None => [] end) with
          | [], Ok a => Some (u "<" ++ open_tag m (t_name t) a ++ u ">",
                              (if nl then [NL] else []) ++ u "</" ++ t_name t ++ u ">")
          | _, _ => None
          end
      | KMarkup true m =>
          match n_attrs f, attr_values P (match n_kwattrs f with Some kw => kw | None => [] end) with
          | [], Ok a => Some (u "<" ++ open_tag m (t_name t) a ++ u " />", [])
          | _, _ => None
          end
      | KCustom =>
          match n_attrs f, attr_values P (match n_kwattrs f with Some kw => kw | None => [] end) with
          | [VStr name], Ok a => Some (u "<" ++ open_tag HTML name a ++ u ">",
                                       (if nl then [NL] else []) ++ u "</" ++ name ++ u ">")
          | _, _ => None
          end
      | KComment =>
          match n_attrs f, n_kwattrs f with
          | [], None | [], Some [] => Some (u "<!--", (if nl then [NL] else []) ++ u "-->")
          | _, _ => None
          end
      | KFun _ => None
      end
  end.

(** A void tag accepts only an empty body. *)
Definition void_tag (f : info) : bool :=
  match n_tag f with
  | Some t => match t_kind t with KMarkup true _ => true | _ => false end
  | None => false
  end.

(** A character of the output without any indentation, with the position of the node it belongs to. *)
Definition ochar := (char * path)%type.
Definition own (p : path) (s : str) : list ochar := map (fun c => (c, p)) s.

Definition starts_nl (l : list ochar) : bool :=
  match l with (c, _) :: _ => N.eqb c NL | [] => false end.

(** The unindented output of the tree at position [p]; None where rendering is refused. *)
Fixpoint raw (P : rprims) (p : path) (t : tree) : option (list ochar) :=
  let (_, f, ts) := t in
  match
    match n_kind f with
    | KText s => Some (own p s)
    | _ =>
        match (fix go (n : nat) (l : list tree) : option (list ochar) :=
                 match l with
                 | [] => Some []
                 | x :: r => match raw P (p ++ [n]) x, go (S n) r with
                             | Some a, Some b => Some (a ++ b)
                             | _, _ => None
                             end
                 end) O ts with
        | None => None
        | Some body =>
            match wrap P f (starts_nl body) with
            | None => None
            | Some (a, b) => if void_tag f && negb (match body with [] => true | _ => false end) then None
                             else Some (own p a ++ body ++ own p b)
            end
        end
    end with
  | None => None
  | Some s => Some (own p (if n_outline f then [NL] else []) ++ s)
  end.
(** The same for consecutive children number [n], [n+1]... of the node at position [p]. *)
Fixpoint raws (P : rprims) (p : path) (n : nat) (ts : list tree) : option (list ochar) :=
  match ts with
  | [] => Some []
  | x :: r => match raw P (p ++ [n]) x, raws P p (S n) r with
              | Some a, Some b => Some (a ++ b)
              | _, _ => None
              end
  end.

(** No node but the outermost one is a document root, texts have no children. *)
Fixpoint plain (t : tree) : Prop :=
  let (_, f, ts) := t in
  match n_kind f with
  | KRoot => False
  | KText _ => ts = []
  | KNode => (fix all (l : list tree) : Prop := match l with [] => True | x :: r => plain x /\ all r end) ts
  end.
(** No indentation contains a newline: all of them are relative. *)
Fixpoint relative (t : tree) : Prop :=
  let (_, f, ts) := t in
  match n_indent f with Some i => ~ In NL i | None => True end /\
  (fix all (l : list tree) : Prop := match l with [] => True | x :: r => relative x /\ all r end) ts.

(** Longest common prefix of two positions: the innermost node that contains both places. *)
Fixpoint common (p q : path) : path :=
  match p, q with
  | a :: p', b :: q' => if Nat.eqb a b then a :: common p' q' else []
  | _, _ => []
  end.

(** Indent the lines: between a newline and the first character of a line that is not empty comes
    the indentation [ind p] of the innermost node [p] containing both. *)
Fixpoint layout (ind : path -> str) (l : list ochar) : str :=
  match l with
  | [] => []
  | (c, p) :: r =>
      c :: (if N.eqb c NL then
              match r with
              | (d, q) :: _ => if N.eqb d NL then [] else ind (common p q)
              | [] => []
              end
            else []) ++ layout ind r
  end.

(** Sum of the relative indentations of the nodes on the way to position [p]. *)
Fixpoint total_indent (ts : list tree) (p : path) : str :=
  match p with
  | [] => []
  | n :: r => match nth_error ts n with
              | None => []
              | Some t => (match n_indent (label t) with Some i => i | None => [] end) ++ total_indent (kids t) r
              end
  end.

(** Absolute indentations intended for the nodes of a tree; None: an inline node. *)
Inductive ltree := L (a : option str) (lkids : list ltree).

(** Each absolute indentation is one newline followed by other characters, and extends that of the
    enclosing node. *)
Definition abs_indent (q : str) : Prop := exists r, q = NL :: r /\ ~ In NL r.
Inductive nested : str -> ltree -> Prop :=
| nested_inline p ls : Forall (nested p) ls -> nested p (L None ls)
| nested_block p r ls : abs_indent (p ++ r) -> Forall (nested (p ++ r)) ls -> nested p (L (Some (p ++ r)) ls).

(** The absolute indentation in force at a position: that of the nearest enclosing node having one. *)
Fixpoint in_force (p : str) (ls : list ltree) (pos : path) : str :=
  match pos with
  | [] => p
  | n :: r => match nth_error ls n with
              | None => p
              | Some (L a ks) => in_force (match a with Some q => q | None => p end) ks r
              end
  end.

(** Nodes carry their intended indentation: in absolute form as long as no enclosing node has an
    indentation, in relative form otherwise. [e] is the absolute indentation of the nearest enclosing
    node that has one. *)
Inductive placed : option str -> tree -> ltree -> Prop :=
| placed_inline e i f ts ls : n_indent f = None -> Forall2 (placed e) ts ls ->
    placed e (T i f ts) (L None ls)
| placed_abs i f ts ls q : n_indent f = Some q -> abs_indent q -> Forall2 (placed (Some q)) ts ls ->
    placed None (T i f ts) (L (Some q) ls)
| placed_rel p r i f ts ls : n_indent f = Some r -> ~ In NL r -> Forall2 (placed (Some (p ++ r))) ts ls ->
    placed (Some p) (T i f ts) (L (Some (p ++ r)) ls).

(** The same nodes without their indentations. *)
Fixpoint unindent (t : tree) : tree := let (i, f, ts) := t in T i (with_indent f None) (map unindent ts).

(** A root drops the newline before its first line. *)
Definition drop_newline (s : str) : str := match s with c :: r => if N.eqb c NL then r else s | [] => [] end.

(** ** Well-formed markup (C06) *)

(** The indentation of the node, if any, is made of blanks other than newlines. *)
Definition blank_indent (f : info) : Prop :=
  match n_indent f with Some i => ~ In NL i /\ forall c, In c i -> is_space c = true | None => True end.

(** A tree of elements with valid names, safe texts and blank relative indentations. *)
Inductive markup_tree (P : rprims) : tree -> Prop :=
| markup_text i f s : n_kind f = KText s -> safe_text s -> blank_indent f -> markup_tree P (T i f [])
| markup_group i f ts : (forall s, n_kind f <> KText s) -> blank_indent f ->
    (n_tag f = None \/ exists t, n_tag f = Some t /\ (t_kind t = KNull \/ t_kind t = KNative)) ->
    Forall (markup_tree P) ts -> markup_tree P (T i f ts)
| markup_elem i f ts t void m av : (forall s, n_kind f <> KText s) -> blank_indent f ->
    n_tag f = Some t -> t_kind t = KMarkup void m -> valid_name (t_name t) ->
    attr_values P (match n_kwattrs f with Some kw => kw | None => [] end) = Ok av ->
    (forall nv, In nv av -> valid_name (fst nv)) ->
    Forall (markup_tree P) ts -> markup_tree P (T i f ts).

(** What the reader should see of the tree, apart from blanks in the character data. *)
Fixpoint content (P : rprims) (t : tree) : list item :=
  let (_, f, ts) := t in
  let inner := (fix go (l : list tree) : list item := match l with [] => [] | x :: r => content P x ++ go r end) ts in
  match n_kind f with
  | KText s => filter visible (map IChar (decode s))
  | _ =>
      match n_tag f with
      | Some t =>
          match t_kind t, attr_values P (match n_kwattrs f with Some kw => kw | None => [] end) with
          | KMarkup false m, Ok av => IOpen (t_name t) (flat_map (seen m) av) :: inner ++ [IClose (t_name t)]
          | KMarkup true m, Ok av => [IEmpty (t_name t) (flat_map (seen m) av)]
          | _, _ => inner
          end
      | None => inner
      end
  end.

(** An object that is not a node occurs somewhere in a nested sequence. *)
Inductive bad_in : list ditem -> Prop :=
| bad_here r : bad_in (IBad :: r)
| bad_inside l r : bad_in l -> bad_in (ISeq l :: r)
| bad_later x r : bad_in r -> bad_in (x :: r).
