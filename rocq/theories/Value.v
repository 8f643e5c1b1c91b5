(** Values handled by the interpreter, tags, and the primitives supplied by Python.
    Constructors exist for the kinds of object that the code of hypertag creates or inspects itself;
    every other Python object is [VObj n]. *)
From Coq Require Import List NArith ZArith Bool.
From Verif Require Import PyStr Html.
Import ListNotations.
Local Open Scope N_scope.

(** Outcome of a computation that may raise or exhaust the fuel of the model. [Fuel] is not an
    outcome of the Python code: it only says that the model was not given enough steps. *)
Inductive out (A : Type) :=
| Done (a : A)
| Exc (e : exn)
| Fuel.
Arguments Done {A} a.
Arguments Exc {A} e.
Arguments Fuel {A}.

Definition out_of {A} (r : result A) : out A :=
  match r with Ok a => Done a | Raise e => Exc e end.

Definition obind {A B} (r : out A) (f : A -> out B) : out B :=
  match r with Done a => f a | Exc e => Exc e | Fuel => Fuel end.
Notation "x <~ r ;; k" := (obind r (fun x => k)) (at level 61, r at next level, right associativity).

(** Index of a DOM node in the heap: the identity of a DOM.Node object. *)
Notation nid := nat (only parsing).

(** Subclasses of Tag: core/tag.py 62-70 (Null), core/ast.py 77-87 (Native), core/tag.py 78-137
    (Markup), std/html.py 50-70 (CustomTag), 81-94 (comment), core/tag.py 49-59 (TagFunction without
    the dom option; [code] names the Python function). Other Tag subclasses written by users are not
    modelled. *)
Inductive tkind :=
| KNull
| KNative
| KMarkup (void : bool) (m : mode)
| KCustom
| KComment
| KFun (code : N).

(** A Tag instance. [t_id] is the identity of the object, compared by "is". *)
Record tag := Tag { t_id : N; t_name : str; t_kind : tkind }.

Definition tag_is (a b : tag) : bool := t_id a =? t_id b.

(** Hypertags as values: core/ast.py 90-120. [HDef d] is the definition block number [d], [HImp h s]
    an ImportedHypertag wrapping [h] with the module state number [s]. *)
Inductive hyper :=
| HDef (d : nat)
| HImp (h : hyper) (s : nat).

Inductive val :=
| VNone
| VBool (b : bool)
| VInt (z : Z)
| VStr (s : str)
| VList (l : list val)
| VTuple (l : list val)
| VSet (l : list val)
| VDict (d : list (val * val))
| VDom (nodes : list nid)                  (* DOM *)
| VNode (n : nid)                          (* DOM.Node, DOM.Root, DOM.Text *)
| VTag (t : tag)                           (* external tag *)
| VHyper (h : hyper)                       (* hypertag *)
| VEmb (h : hyper) (s : nat)               (* EmbeddedHypertag: core/ast.py 122-145; [s] = state *)
| VPartial (f : val) (args : list val) (kwargs : list (str * val))     (* core/ast.py 65-74 *)
| VObj (n : N).
