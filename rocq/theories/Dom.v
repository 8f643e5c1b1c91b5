(** Model of core/dom.py: the DOM. Nodes are mutable objects, so they live in a heap; an index in
    the heap is the identity of a node. A DOM object is the list of its nodes; the DOM object in a
    node's [body] is created by the node's constructor and belongs to that node alone, so it is
    stored inside the node. *)
From Coq Require Import List NArith ZArith Bool String.
From Verif Require Import PyStr Html Indent PyDict Value.
Import ListNotations.
Local Open Scope N_scope.

(** Node, Root, Text: core/dom.py 271, 399, 415 *)
Inductive nkind :=
| KNode
| KRoot
| KText (text : str).

(** Fields of a node other than its body: core/dom.py 274-281. [n_kwattrs = None] is the Python None. *)
Record info := {
  n_kind : nkind;
  n_tag : option tag;
  n_attrs : list val;
  n_kwattrs : option (list (str * val));
  n_outline : bool;
  n_indent : option str
}.

Record cell := { c_info : info; c_body : list nid }.
Definition heap := list cell.

(** An index outside the heap never occurs in Python; such an index stands for an empty inline node. *)
Definition no_info : info :=
  {| n_kind := KNode; n_tag := None; n_attrs := []; n_kwattrs := None; n_outline := false; n_indent := None |}.
Definition no_cell : cell := {| c_info := no_info; c_body := [] |}.
Definition cell_at (h : heap) (i : nid) : cell := nth i h no_cell.
Definition info_at (h : heap) (i : nid) : info := c_info (cell_at h i).
Definition body_at (h : heap) (i : nid) : list nid := c_body (cell_at h i).

Fixpoint upd (h : heap) (i : nid) (c : cell) : heap :=
  match h, i with
  | [], _ => []
  | _ :: r, O => c :: r
  | x :: r, S k => x :: upd r k c
  end.

Definition with_indent (f : info) (ind : option str) : info :=
  {| n_kind := n_kind f; n_tag := n_tag f; n_attrs := n_attrs f; n_kwattrs := n_kwattrs f;
     n_outline := n_outline f; n_indent := ind |}.
Definition with_outline (f : info) (o : bool) : info :=
  {| n_kind := n_kind f; n_tag := n_tag f; n_attrs := n_attrs f; n_kwattrs := n_kwattrs f;
     n_outline := o; n_indent := n_indent f |}.

(** node.indent = ind *)
Definition put_indent (h : heap) (i : nid) (ind : option str) : heap :=
  upd h i {| c_info := with_indent (info_at h i) ind; c_body := body_at h i |}.
(** node.outline = o; core/dom.py 306-307 *)
Definition set_outline (h : heap) (i : nid) (o : bool) : heap :=
  upd h i {| c_info := with_outline (info_at h i) o; c_body := body_at h i |}.
(** node.body.nodes = l *)
Definition put_body (h : heap) (i : nid) (l : list nid) : heap :=
  upd h i {| c_info := info_at h i; c_body := l |}.

(** Computations that change the heap: the heap is returned also when an exception is raised. *)
Definition hm (A : Type) := heap -> out A * heap.
Definition hret {A} (a : A) : hm A := fun h => (Done a, h).
Definition hexc {A} (e : exn) : hm A := fun h => (Exc e, h).
Definition hfuel {A} : hm A := fun h => (Fuel, h).
Definition hbind {A B} (m : hm A) (f : A -> hm B) : hm B := fun h =>
  match m h with
  | (Done a, h') => f a h'
  | (Exc e, h') => (Exc e, h')
  | (Fuel, h') => (Fuel, h')
  end.

(** for x in l: f(x) *)
Fixpoint hiter {A} (f : A -> hm unit) (l : list A) : hm unit :=
  match l with
  | [] => hret tt
  | x :: r => hbind (f x) (fun _ => hiter f r)
  end.
(** [f(x) for x in l] *)
Fixpoint hmap {A B} (f : A -> hm B) (l : list A) : hm (list B) :=
  match l with
  | [] => hret []
  | x :: r => hbind (f x) (fun y => hbind (hmap f r) (fun ys => hret (y :: ys)))
  end.

(** indent[:1] == '\n' : an absolute indentation *)
Definition absolute (ind : str) : bool := startswith [NL] ind.

(** core/dom.py 319-330 *)
Fixpoint relative_indent (fuel : nat) (p : str) (i : nid) : hm unit := fun h =>
  match fuel with
  | O => (Fuel, h)
  | S k =>
      match n_indent (info_at h i) with
      | None => hiter (relative_indent k p) (body_at h i) h
      | Some ind =>
          if absolute ind then
            if startswith p ind then (Done tt, put_indent h i (Some (skipn (List.length p) ind)))
            else (Exc AssertionError, h)
          else (Done tt, h)
      end
  end.

(** core/dom.py 309-317 and, for Text, 429-430 *)
Definition set_indent (fuel : nat) (ind : option str) (i : nid) : hm unit := fun h =>
  let h := put_indent h i ind in
  match n_kind (info_at h i), ind with
  | KText _, _ => (Done tt, h)
  | _, None => (Done tt, h)
  | _, Some p => hiter (relative_indent fuel p) (body_at h i) h
  end.

(** core/dom.py 132-134 *)
Definition dom_set_indent (fuel : nat) (ind : option str) (nodes : list nid) : hm unit :=
  hiter (set_indent fuel ind) nodes.

(** core/dom.py 284-294: Node.__init__, with the body already flattened by DOM(body); the new node's
    fields other than body and indent come from **params. *)
Definition new_node (fuel : nat) (f : info) (body : list nid) (ind : option str) : hm nid := fun h =>
  let i := List.length h in
  let h := h ++ [{| c_info := with_indent f None; c_body := body |}] in
  hbind (set_indent fuel ind i) (fun _ => hret i) h.

(** Text nodes: core/dom.py 423-424 *)
Definition text_info (t : str) : info :=
  {| n_kind := KText t; n_tag := None; n_attrs := []; n_kwattrs := None; n_outline := false; n_indent := None |}.
Definition new_text (t : str) (ind : option str) : hm nid := new_node O (text_info t) [] ind.

(** core/ast.py 408-410: the root of a document, DOM.Root(body = nodes, indent = '\n') followed by
    hroot.indent = '' *)
Definition root_info : info :=
  {| n_kind := KRoot; n_tag := None; n_attrs := []; n_kwattrs := None; n_outline := false; n_indent := None |}.
Definition new_root (fuel : nat) (body : list nid) : hm nid :=
  hbind (new_node fuel root_info body (Some [NL])) (fun i h => (Done i, put_indent h i (Some []))).

(** Items of the argument list of DOM(...): None, nodes, anything iterated over (list, DOM,
    generator; already expanded here), anything else. *)
Inductive ditem :=
| INone
| INode (n : nid)
| ISeq (l : list ditem)
| IBad.

(** core/dom.py 118-130: DOM._flatten *)
Fixpoint flatten1 (x : ditem) : result (list nid) :=
  match x with
  | INone => Ok []
  | INode n => Ok [n]
  | ISeq l =>
      (fix go (l : list ditem) : result (list nid) :=
         match l with
         | [] => Ok []
         | y :: r => a <- flatten1 y ;; b <- go r ;; Ok (a ++ b)
         end) l
  | IBad => Raise TypeError
  end.
Definition flatten (nodes : list ditem) : result (list nid) := flatten1 (ISeq nodes).

(** Python primitives used while rendering: str(v) of an object, and the functions behind
    TagFunction, which the class Tag documents as pure (core/tag.py 20-21). *)
Record rprims := {
  p_str : val -> result str;
  p_tagfun : N -> str -> list val -> list (str * val) -> result str
}.

Section Render.
  Variable P : rprims.

  (** The value as Markup._render_attr sees it: core/tag.py 119-128 *)
  Definition attrval_of (v : val) : result attrval :=
    match v with
    | VBool true => Ok ATrue
    | VBool false => Ok AFalse
    | VStr s => Ok (AOther s)
    | _ => s <- p_str P v ;; Ok (AOther s)
    end.

  Fixpoint attrvals_of (kw : list (str * val)) : result (list (str * attrval)) :=
    match kw with
    | [] => Ok []
    | (n, v) :: r => a <- attrval_of v ;; l <- attrvals_of r ;; Ok ((n, a) :: l)
    end.

  (** tag.expand(body, attrs, kwattrs); [body] is the outcome of body.render(). Errors in attributes
      come before errors in the body, as in core/tag.py 94-115 and std/html.py 62-68, 85-94. *)
  Definition expand (t : tag) (body : out str) (attrs : list val) (kw : list (str * val)) : out str :=
    match t_kind t with
    | KNull | KNative => body
    | KMarkup void m =>
        match attrs with
        | [] => a <~ out_of (attrvals_of kw) ;; b <~ body ;;
                out_of (markup_expand {| m_name := t_name t; m_void := void; m_mode := m |} b 0 a)
        | _ :: _ => Exc TypeError
        end
    | KCustom =>
        match attrs with
        | [v] => a <~ out_of (attrvals_of kw) ;;
                 match v with
                 | VStr name => b <~ body ;; out_of (custom_expand b [name] a)
                 | _ => Exc TypeError                     (* ' '.join with a non-string *)
                 end
        | _ => Exc TypeError
        end
    | KComment =>
        match attrs, kw with
        | [], [] => b <~ body ;; out_of (comment_expand b 0 [])
        | _, _ => Exc TypeError
        end
    | KFun code => b <~ body ;; out_of (p_tagfun P code b attrs kw)
    end.

  (** ''.join(f(x) for x in l) *)
  Fixpoint oconcat (f : nid -> out str) (l : list nid) : out str :=
    match l with
    | [] => Done []
    | x :: r => a <~ f x ;; b <~ oconcat f r ;; Done (a ++ b)
    end.

  (** core/dom.py 344-349 and, for Text, 432-433, given the rendering of the body *)
  Definition render_body (f : info) (body : out str) : out str :=
    match n_kind f with
    | KText t => Done t
    | _ => match n_tag f with
           | Some t => expand t body (n_attrs f) (match n_kwattrs f with Some kw => kw | None => [] end)
           | None => body
           end
    end.

  (** core/dom.py 332-342, given the rendering of the body; for Root also 402-409 with drop_line=True *)
  Definition render_node (f : info) (body : out str) : out str :=
    text <~ (b <~ render_body f body ;; Done ((if n_outline f then [NL] else []) ++ b)) ;;
    text <~ match n_indent f with
            | None => Done text
            | Some ind => if absolute ind then Exc AssertionError else Done (add_indent text ind)
            end ;;
    match n_kind f with
    | KRoot => Done (if startswith [NL] text then skipn 1 text else text)
    | _ => Done text
    end.

  (** core/dom.py 332 and 136-137 *)
  Fixpoint render (fuel : nat) (h : heap) (i : nid) : out str :=
    match fuel with
    | O => Fuel
    | S k => render_node (info_at h i) (oconcat (render k h) (body_at h i))
    end.
  Definition dom_render (fuel : nat) (h : heap) (nodes : list nid) : out str := oconcat (render fuel h) nodes.
End Render.

(** core/dom.py 364-374: Node.copy. copy(self) creates the new object first; its body is replaced by
    the copy of the body (143-149). The lists of attributes are values here, so copying them is
    invisible. *)
Fixpoint copy (fuel : nat) (i : nid) : hm nid := fun h =>
  match fuel with
  | O => (Fuel, h)
  | S k =>
      let d := List.length h in
      let h := h ++ [cell_at h i] in
      hbind (hmap (copy k) (body_at h i)) (fun l h => (Done d, put_body h d l)) h
  end.
Definition dom_copy (fuel : nat) (nodes : list nid) : hm (list nid) := hmap (copy fuel) nodes.

(** Values of the [order] argument; anything else than the two strings matches neither test. *)
Inductive order := Pre | Post | OtherOrder.

(** core/dom.py 377-389 and 154-163. [skip] is an arbitrary predicate on nodes. *)
Section Walk.
  Variable skip : nid -> bool.
  Variable ord : order.
  Fixpoint walk (fuel : nat) (h : heap) (i : nid) : out (list nid) :=
    match fuel with
    | O => Fuel
    | S k =>
        if skip i then Done []
        else
          l <~ (fix go (l : list nid) : out (list nid) :=
                  match l with
                  | [] => Done []
                  | x :: r => a <~ walk k h x ;; b <~ go r ;; Done (a ++ b)
                  end) (body_at h i) ;;
          Done ((match ord with Pre => [i] | _ => [] end) ++ l ++ (match ord with Post => [i] | _ => [] end))
    end.
  Fixpoint dom_walk (fuel : nat) (h : heap) (nodes : list nid) : out (list nid) :=
    match nodes with
    | [] => Done []
    | x :: r => a <~ walk fuel h x ;; b <~ dom_walk fuel h r ;; Done (a ++ b)
    end.
End Walk.

(** Search criteria of select() and skip() after DOM._constraint (core/dom.py 236-247):
    CTag: a Tag instance; CName: a name; CBadTag: a false value other than None ("" or 0), which
    remains in [tag] and is compared by "is" with every node's tag. *)
Inductive ctag :=
| CAny
| CTag (t : tag)
| CName (name : str)
| CBadTag.

(** The [tag] argument of select() and skip(): None, a string, a Tag *)
Inductive tagarg :=
| TANone
| TAStr (s : str)
| TATag (t : tag).

(** An attribute criterion: name, and a value unless ATTR_DEFINED *)
Definition attrarg := (str * option val)%type.

(** core/dom.py 236-247: DOM._constraint *)
Definition constraint (t : tagarg) (attr : option str) (value : option val) (attrs : list attrarg)
  : ctag * list attrarg :=
  (match t with
   | TANone => CAny
   | TAStr [] => CBadTag
   | TAStr s => CName s
   | TATag t => CTag t
   end,
   match attr with
   | None => attrs
   | Some a => dset str_eqb a value attrs
   end).

Section Test.
  (** v == w as decided by Python *)
  Variable veq : val -> val -> bool.

  (** core/dom.py 255-257 *)
  Fixpoint test_attrs (kw : option (list (str * val))) (attrs : list attrarg) : result bool :=
    match attrs with
    | [] => Ok true
    | (a, v) :: r =>
        match kw with
        | None => Raise TypeError                   (* a not in None *)
        | Some d =>
            match dget str_eqb a d with
            | None => Ok false
            | Some w => match v with
                        | Some x => if veq w x then test_attrs kw r else Ok false
                        | None => test_attrs kw r
                        end
            end
        end
    end.

  (** core/dom.py 249-259: DOM._test *)
  Definition test (f : info) (c : ctag) (attrs : list attrarg) : result bool :=
    let ok := match c with
              | CAny => true
              | CTag t => match n_tag f with Some t' => tag_is t t' | None => false end
              | CName n => match n_tag f with Some t' => str_eqb (t_name t') n | None => false end
              | CBadTag => false
              end in
    if ok then test_attrs (n_kwattrs f) attrs else Ok false.

  Fixpoint filter_test (h : heap) (c : ctag) (attrs : list attrarg) (l : list nid) : result (list nid) :=
    match l with
    | [] => Ok []
    | i :: r => b <- test (info_at h i) c attrs ;; l' <- filter_test h c attrs r ;;
                Ok (if (b : bool) then i :: l' else l')
    end.

  (** core/dom.py 191-215: DOM.select *)
  Definition select (fuel : nat) (h : heap) (nodes : list nid) (t : tagarg) (attr : option str)
      (value : option val) (attrs : list attrarg) (ord : order) : out (list nid) :=
    let (c, attrs) := constraint t attr value attrs in
    l <~ dom_walk (fun _ => false) ord fuel h nodes ;;
    out_of (filter_test h c attrs l).
End Test.

Section Alter.
  (** transform(node): runs in the current heap and returns what _flatten is applied to *)
  Variable transform : nid -> hm (list ditem).
  Variable skip : nid -> bool.
  Variable ord : order.

  (** core/dom.py 180-181 *)
  Definition replace_nodes (nodes : list nid) : hm (list nid) :=
    hbind (hmap transform nodes) (fun ls => match flatten (List.concat ls) with
                                            | Ok l => hret l
                                            | Raise e => hexc e
                                            end).

  (** core/dom.py 391-396 (Node.alter) and 165-186 (DOM.alter) *)
  Fixpoint alter (fuel : nat) (i : nid) : hm unit := fun h =>
    match fuel with
    | O => (Fuel, h)
    | S k =>
        if skip i then (Done tt, h)
        else match body_at h i with
             | [] => (Done tt, h)
             | nodes =>
                 match ord with
                 | Pre =>
                     hbind (hiter (alter k) nodes) (fun _ =>
                     hbind (replace_nodes nodes) (fun l h => (Done tt, put_body h i l))) h
                 | Post =>
                     hbind (replace_nodes nodes) (fun l h =>
                       hiter (alter k) l (put_body h i l)) h
                 | OtherOrder =>
                     hbind (replace_nodes nodes) (fun l h => (Done tt, put_body h i l)) h
                 end
             end
    end.
  Definition dom_alter (fuel : nat) (nodes : list nid) : hm (list nid) :=
    match ord with
    | Pre => hbind (hiter (alter fuel) nodes) (fun _ => replace_nodes nodes)
    | Post => hbind (replace_nodes nodes) (fun l => hbind (hiter (alter fuel) l) (fun _ => hret l))
    | OtherOrder => replace_nodes nodes
    end.
End Alter.

(** core/dom.py 218-233: DOM.skip *)
Definition skip_nodes (veq : val -> val -> bool) (fuel : nat) (nodes : list nid) (t : tagarg)
    (attr : option str) (value : option val) (attrs : list attrarg) : hm (list nid) :=
  let (c, attrs) := constraint t attr value attrs in
  let drop (i : nid) : hm (list ditem) := fun h =>
    match test veq (info_at h i) c attrs with
    | Ok true => (Done [], h)
    | Ok false => (Done [INode i], h)
    | Raise e => (Exc e, h)
    end in
  hbind (dom_copy fuel nodes) (dom_alter drop (fun _ => false) Pre fuel).

(** Contents of dom.nodes as an object: node references or nested lists. *)
Inductive nitem :=
| NNode (n : nid)
| NList (l : list nid).

(** dom[a:b]: core/dom.py 97-98 calls DOM(self.nodes[pos], _strict=False), so __init__ receives one
    positional argument and list(nodes) is a list with that one element (81-84). [a], [b] are
    non-negative. *)
Definition getslice (nodes : list nid) (a b : nat) : list nitem :=
  [NList (firstn (b - a) (skipn a nodes))].
(** dom[i] for i >= 0: core/dom.py 95-96 *)
Definition getindex (nodes : list nid) (i : nat) : result nid :=
  match nth_error nodes i with Some n => Ok n | None => Raise IndexError end.
(** len(dom): core/dom.py 91 *)
Definition dom_len (nodes : list nitem) : nat := List.length nodes.

(** Rendering of a DOM object with such contents: core/dom.py 136-137; a list has no method render *)
Fixpoint items_render (P : rprims) (fuel : nat) (h : heap) (nodes : list nitem) : out str :=
  match nodes with
  | [] => Done []
  | NNode n :: r => a <~ render P fuel h n ;; b <~ items_render P fuel h r ;; Done (a ++ b)
  | NList _ :: _ => Exc AttributeError
  end.
