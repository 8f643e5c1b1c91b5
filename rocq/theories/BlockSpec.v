(** Specification side of C28-C32 and C44: what control blocks and chains of tags do, given the
    behaviour of their parts. A part is any computation on the machine; nothing of the model but its data
    types is used, except in the last section, which names the parts of a block. *)
From Coq Require Import List NArith Bool.
From Verif Require Import PyStr Value Dom DomSpec Ast Machine Eval Translate.
Import ListNotations.

Section Control.
  Context {W : Type}.
  Notation comp A := (mach W -> out A * mach W).
  Notation nodes := (list nid).

  (** Run one after another, all of them fail. *)
  Inductive all_fail {A : Type} : list (comp A) -> mach W -> mach W -> Prop :=
  | all_fail_nil m : all_fail [] m m
  | all_fail_cons x r m e m1 m2 : x m = (Exc e, m1) -> all_fail r m1 m2 -> all_fail (x :: r) m m2.

  (** try: the first alternative that succeeds, all earlier ones having failed; nothing if there is none *)
  Inductive try_out : list (comp nodes) -> mach W -> out nodes -> mach W -> Prop :=
  | try_first bad x rest m m1 l m2 :
      all_fail bad m m1 -> x m1 = (Done l, m2) -> try_out (bad ++ x :: rest) m (Done l) m2
  | try_none xs m m1 : all_fail xs m m1 -> try_out xs m (Done []) m1.

  (** Evaluated one after another, all conditions are false. *)
  Inductive all_false : list (comp bool) -> mach W -> mach W -> Prop :=
  | all_false_nil m : all_false [] m m
  | all_false_cons c r m m1 m2 : c m = (Done false, m1) -> all_false r m1 m2 -> all_false (c :: r) m m2.

  (** if/elif/else: the body of the first clause whose condition is true, evaluated right after the
      conditions up to this one; else the last body; a failing condition ends everything. *)
  Inductive if_out (els : comp nodes) : list (comp bool * comp nodes) -> mach W -> out nodes -> mach W -> Prop :=
  | if_true pre c x post m m1 m2 o m' :
      all_false (map fst pre) m m1 -> c m1 = (Done true, m2) -> x m2 = (o, m') -> if_out els (pre ++ (c, x) :: post) m o m'
  | if_else cs m m1 o m' : all_false (map fst cs) m m1 -> els m1 = (o, m') -> if_out els cs m o m'
  | if_fail pre c x post m m1 e m' :
      all_false (map fst pre) m m1 -> c m1 = (Exc e, m') -> if_out els (pre ++ (c, x) :: post) m (Exc e) m'.

  (** The body is run once for each item, in order; the results are concatenated. *)
  Inductive rounds (step : val -> comp nodes) : list val -> mach W -> nodes -> mach W -> Prop :=
  | rounds_nil m : rounds step [] m [] m
  | rounds_cons v r m l m1 l' m2 : step v m = (Done l, m1) -> rounds step r m1 l' m2 -> rounds step (v :: r) m (l ++ l') m2.

  (** for over [items]; [err] is the exception raised by the iterator after the items, if any *)
  Inductive for_out (step : val -> comp nodes) (els : option (comp nodes)) (items : list val) (err : option exn)
    : mach W -> out nodes -> mach W -> Prop :=
  | for_items m l m' : items <> [] -> err = None -> rounds step items m l m' -> for_out step els items err m (Done l) m'
  | for_else z m o m' : items = [] -> err = None -> els = Some z -> z m = (o, m') -> for_out step els items err m o m'
  | for_nothing m : items = [] -> err = None -> els = None -> for_out step els items err m (Done []) m
  | for_fail pre v post m l m1 e m' :
      items = pre ++ v :: post -> rounds step pre m l m1 -> step v m1 = (Exc e, m') -> for_out step els items err m (Exc e) m'
  | for_iter e m l m' : err = Some e -> rounds step items m l m' -> for_out step els items err m (Exc e) m'.

  (** [n] times: the condition is true and the body succeeds *)
  Inductive while_rounds (c : comp bool) (x : comp nodes) : nat -> mach W -> nodes -> mach W -> Prop :=
  | while_rounds_O m : while_rounds c x O m [] m
  | while_rounds_S n m m1 l m2 l' m3 :
      c m = (Done true, m1) -> x m1 = (Done l, m2) -> while_rounds c x n m2 l' m3 -> while_rounds c x (S n) m (l ++ l') m3.

  (** while, after [n] full rounds *)
  Inductive while_out (c : comp bool) (x : comp nodes) (els : option (comp nodes)) (n : nat)
    : mach W -> out nodes -> mach W -> Prop :=
  | while_end m l m1 m' : n <> O -> while_rounds c x n m l m1 -> c m1 = (Done false, m') -> while_out c x els n m (Done l) m'
  | while_else z m m1 o m' : n = O -> els = Some z -> c m = (Done false, m1) -> z m1 = (o, m') -> while_out c x els n m o m'
  | while_nothing m m' : n = O -> els = None -> c m = (Done false, m') -> while_out c x els n m (Done []) m'
  | while_test m l m1 e m' : while_rounds c x n m l m1 -> c m1 = (Exc e, m') -> while_out c x els n m (Exc e) m'
  | while_body m l m1 m2 e m' :
      while_rounds c x n m l m1 -> c m1 = (Done true, m2) -> x m2 = (Exc e, m') -> while_out c x els n m (Exc e) m'.

  (** t1(t2(...tn(body))): the innermost tag is applied first. *)
  Inductive nest (apply : tagexp -> nodes -> comp nodes) : list tagexp -> nodes -> mach W -> out nodes -> mach W -> Prop :=
  | nest_nil b m : nest apply [] b m (Done b) m
  | nest_cons t ts b m l m1 o m' : nest apply ts b m (Done l) m1 -> apply t l m1 = (o, m') -> nest apply (t :: ts) b m o m'
  | nest_fail t ts b m e m' : nest apply ts b m (Exc e) m' -> nest apply (t :: ts) b m (Exc e) m'.

  (** The machines differ in the indentations of DOM nodes only. *)
  Definition bare (f : info) : info := with_indent f None.
  Definition reindented (m m' : mach W) : Prop :=
    m' = with_heap m (m_heap m') /\ List.length (m_heap m') = List.length (m_heap m) /\
    forall i, bare (info_at (m_heap m') i) = bare (info_at (m_heap m) i) /\ body_at (m_heap m') i = body_at (m_heap m) i.

  (** A block ends with its output [r] in machine [m]: the nodes stay, only their indentation may change;
      an exception passes through. The assignment of indentation may itself fail, see C29. *)
  Inductive closed (r : out nodes) (m : mach W) : out (option nodes) -> mach W -> Prop :=
  | closed_done l m' : r = Done l -> reindented m m' -> closed r m (Done (Some l)) m'
  | closed_exc e : r = Exc e -> closed r m (Exc e) m
  | closed_bad l m' : r = Done l -> reindented m m' -> closed r m (Exc AssertionError) m'.

  (** The nodes that an item of a list stands for: None for nothing, a node for itself, a DOM or a list for
      its items. *)
  Inductive inside : val -> nodes -> Prop :=
  | in_none : inside VNone []
  | in_node n : inside (VNode n) [n]
  | in_dom l : inside (VDom l) l
  | in_list vs l : inside_all vs l -> inside (VList vs) l
  with inside_all : list val -> nodes -> Prop :=
  | in_nil : inside_all [] []
  | in_cons v vs l l' : inside v l -> inside_all vs l' -> inside_all (v :: vs) (l ++ l').
  Definition is_object (v : val) : bool := match v with VObj _ => true | _ => false end.
  (** What can be embedded by an @ line: a DOM, a node, or a collection of such items. *)
  Inductive embedded : val -> nodes -> Prop :=
  | emb_dom l : embedded (VDom l) l
  | emb_node n : embedded (VNode n) [n]
  | emb_list vs l : inside_all vs l -> embedded (VList vs) l
  | emb_tuple vs l : inside_all vs l -> embedded (VTuple vs) l
  | emb_set vs l : inside_all vs l -> embedded (VSet vs) l
  | emb_keys d l : inside_all (map fst d) l -> embedded (VDict d) l
  | emb_empty : embedded (VStr []) [].

  (** One node inside another, each the only child. *)
  Fixpoint tower (fs : list (nid * info)) (body : list tree) : list tree :=
    match fs with
    | [] => body
    | (i, f) :: r => [T i f (tower r body)]
    end.
End Control.

(** The parts of blocks, as translated by the model. *)
Section Parts.
  Context {W : Type}.
  Variable P : prims W.
  Variable expand : hyper -> val -> list val -> list (str * val) -> nat -> M W (list nid).
  Variable loops : nat.
  Notation run s := (tr_body P expand loops s).

  (** the truth value of a condition; a body that may be missing *)
  Definition test s (c : expr) : M W bool := v <* eval P expand s c ;; truth P v.
  Definition opt_body s (y : option body) : M W (list nid) := match y with Some y => run s y | None => ret [] end.

  (** one round of a for loop: assign, then run the body. As the code has it, the else clause stands in for
      a missing body. *)
  Definition for_step s ts (y els : option body) (v : val) : M W (list nid) :=
    _ <* assign P s ts v ;; match y with Some y => run s y | None => opt_body s els end.

  (** the items of the sequence given by an expression, with the exception that ended the iteration *)
  Inductive items_of_expr s (e : expr) (m : mach W) : out (list val * option exn) -> mach W -> Prop :=
  | items_value v m1 o m2 : eval P expand s e m = (Done v, m1) -> iterate P v m1 = (o, m2) -> items_of_expr s e m o m2
  | items_exc x m1 : eval P expand s e m = (Exc x, m1) -> items_of_expr s e m (Exc x) m1.

  (** a tag bound to an external tag, whose attributes can be evaluated without side effects *)
  Definition plain_tag s (m : mach W) (t : tagexp) (f : info) : Prop :=
    match t with
    | XNull => f = node_info null_tag [] None
    | XTag _ sl un nm => exists x tg attrs kw, sl = Some x /\ slot_value m s x = Some (VTag tg) /\ f = node_info tg attrs (Some kw) /\
        forall h, mmap (eval P expand s) un (with_heap m h) = (Done attrs, with_heap m h) /\
                  eval_named P expand s nm (with_heap m h) = (Done kw, with_heap m h)
    end.
End Parts.
