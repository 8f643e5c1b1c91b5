(** The state in which scripts are analysed and translated, and the Python operations supplied from
    outside. *)
From Coq Require Import List NArith ZArith Bool.
From Verif Require Import PyStr Html Indent PyDict Value Dom Ast.
Import ListNotations.

(** State: core/structs.py 355-393. [s_vals] is the dict of slots and values. *)
Record stt := { s_vals : list (slot * val); s_indent : str }.
(** State(): core/structs.py 363-368 *)
Definition new_stt : stt := {| s_vals := []; s_indent := [NL] |}.

(** A hypertag definition after analysis: the fields of an xblock_def node, core/ast.py 553-592.
    [h_body] is attr_body, [h_regul] attr_regul with names, defaults and slots. *)
Record hdef := {
  h_name : str;
  h_body : option (str * slot);
  h_regul : list (str * option expr * slot);
  h_block : body
}.

(** Module: core/runtime.py 57-122. [mod_state] and [mod_dom] are present in Hypertag modules. *)
Record module := {
  mod_symbols : list (str * val);
  mod_state : option nat;
  mod_dom : option nid;
  mod_file : option str;
  mod_package : option str
}.

(** Caches of the runtime: core/runtime.py 138-142 for each of the two standard loaders (a PyLoader
    caches None as well, 144-157) and 309-310. *)
Record caches := {
  rt_hy : list (str * module);
  rt_py : list (str * option module);
  rt_builtins : option (list (str * val))
}.

(** [m_defs]: all xblock_def nodes analysed so far; [m_next]: number of Slot objects created so far.
    [m_world]: everything outside, as seen by Python functions called from scripts. *)
Record mach (W : Type) := Mach {
  m_heap : heap;
  m_states : list stt;
  m_defs : list hdef;
  m_next : slot;
  m_rt : caches;
  m_world : W
}.
Arguments Mach {W}.
Arguments m_heap {W} m.
Arguments m_states {W} m.
Arguments m_defs {W} m.
Arguments m_next {W} m.
Arguments m_rt {W} m.
Arguments m_world {W} m.

(** A Python operation: it sees the DOM nodes and may change the outside world, but not the state of
    translation. Python code that alters DOM nodes or calls back an EmbeddedHypertag during a call made
    from a script is not modelled. *)
Definition prim (W A : Type) := heap -> W -> out A * W.

Record prims (W : Type) := {
  p_ren : rprims;
  p_escape : option (str -> str);                         (* runtime.escape: core/runtime.py 316-318 *)
  p_truth : val -> prim W bool;                           (* bool(v) *)
  p_text : val -> prim W str;                             (* six.text_type(v) *)
  p_binop : binop -> val -> val -> prim W val;
  p_iadd : val -> val -> prim W val;                      (* x += y *)
  p_neg : val -> prim W val;                              (* -x *)
  p_getattr : val -> str -> prim W val;
  p_getitem : val -> val -> prim W val;                   (* x[i] *)
  p_getslice : val -> val -> val -> val -> prim W val;    (* x[slice(a, b, c)] *)
  p_call : val -> list val -> list (str * val) -> prim W val;
  p_iter : val -> prim W (list val * option exn);         (* items, and the exception that ended them *)
  p_mkset : list val -> prim W val;
  p_mkdict : list (val * val) -> prim W val
}.
Arguments p_ren {W} p.
Arguments p_escape {W} p.
Arguments p_truth {W} p.
Arguments p_text {W} p.
Arguments p_binop {W} p.
Arguments p_iadd {W} p.
Arguments p_neg {W} p.
Arguments p_getattr {W} p.
Arguments p_getitem {W} p.
Arguments p_getslice {W} p.
Arguments p_call {W} p.
Arguments p_iter {W} p.
Arguments p_mkset {W} p.
Arguments p_mkdict {W} p.

(** Computations; the machine survives an exception. *)
Definition M (W A : Type) := mach W -> out A * mach W.

Section Monad.
  Context {W : Type}.

  Definition ret {A} (a : A) : M W A := fun m => (Done a, m).
  Definition exc {A} (e : exn) : M W A := fun m => (Exc e, m).
  Definition nofuel {A} : M W A := fun m => (Fuel, m).
  Definition mbind {A B} (x : M W A) (f : A -> M W B) : M W B := fun m =>
    match x m with
    | (Done a, m') => f a m'
    | (Exc e, m') => (Exc e, m')
    | (Fuel, m') => (Fuel, m')
    end.
  Definition of_result {A} (r : result A) : M W A :=
    match r with Ok a => ret a | Raise e => exc e end.

  Section Loops.
    Context {A B : Type}.

    (** [f(x) for x in l] *)
    Definition mmap (f : A -> M W B) : list A -> M W (list B) :=
      fix go (l : list A) : M W (list B) :=
        match l with
        | [] => ret []
        | x :: r => mbind (f x) (fun y => mbind (go r) (fun ys => ret (y :: ys)))
        end.
    (** for x in l: f(x) *)
    Definition miter (f : A -> M W unit) : list A -> M W unit :=
      fix go (l : list A) : M W unit :=
        match l with
        | [] => ret tt
        | x :: r => mbind (f x) (fun _ => go r)
        end.
    (** for x in l: acc = f(acc, x) *)
    Definition mfold (f : B -> A -> M W B) : list A -> B -> M W B :=
      fix go (l : list A) (acc : B) : M W B :=
        match l with
        | [] => ret acc
        | x :: r => mbind (f acc x) (fun acc => go r acc)
        end.
    (** f(x1) + f(x2) + ... for lists or strings *)
    Definition mconcat (f : A -> M W (list B)) : list A -> M W (list B) :=
      fix go (l : list A) : M W (list B) :=
        match l with
        | [] => ret []
        | x :: r => mbind (f x) (fun y => mbind (go r) (fun ys => ret (y ++ ys)))
        end.
  End Loops.

  Definition with_heap (m : mach W) (h : heap) : mach W :=
    Mach h (m_states m) (m_defs m) (m_next m) (m_rt m) (m_world m).
  Definition with_states (m : mach W) (l : list stt) : mach W :=
    Mach (m_heap m) l (m_defs m) (m_next m) (m_rt m) (m_world m).
  Definition with_defs (m : mach W) (l : list hdef) : mach W :=
    Mach (m_heap m) (m_states m) l (m_next m) (m_rt m) (m_world m).
  Definition with_next (m : mach W) (n : nat) : mach W :=
    Mach (m_heap m) (m_states m) (m_defs m) n (m_rt m) (m_world m).
  Definition with_rt (m : mach W) (c : caches) : mach W :=
    Mach (m_heap m) (m_states m) (m_defs m) (m_next m) c (m_world m).
  Definition with_world (m : mach W) (w : W) : mach W :=
    Mach (m_heap m) (m_states m) (m_defs m) (m_next m) (m_rt m) w.

  Definition lift_p {A} (f : prim W A) : M W A := fun m =>
    let (o, w) := f (m_heap m) (m_world m) in (o, with_world m w).
  Definition lift_h {A} (f : hm A) : M W A := fun m =>
    let (o, h) := f (m_heap m) in (o, with_heap m h).

  (** Operations on DOM nodes with a bound on the depth of the tree that is always sufficient: nodes
      are created after the nodes of their bodies. *)
  Definition depth_bound (h : heap) : nat := S (List.length h).
  (** dom.set_indent(indent) *)
  Definition do_set_indent (ind : str) (nodes : list nid) : M W unit :=
    lift_h (fun h => dom_set_indent (depth_bound h) (Some ind) nodes h).
  (** DOM.Node(body, indent, ...) *)
  Definition do_node (f : info) (body : list nid) (ind : option str) : M W nid :=
    lift_h (fun h => new_node (depth_bound h) f body ind h).
  (** DOM.Text(text, indent) *)
  Definition do_text (t : str) (ind : option str) : M W nid := lift_h (new_text t ind).
  (** node.set_outline(o) *)
  Definition do_outline (o : bool) (i : nid) : M W unit := lift_h (fun h => (Done tt, set_outline h i o)).

  (** A State object; an index out of range never occurs. *)
  Definition state_at (m : mach W) (s : nat) : stt := nth s (m_states m) new_stt.
  Fixpoint put_nth {A} (l : list A) (i : nat) (x : A) : list A :=
    match l, i with
    | [], _ => []
    | _ :: r, O => x :: r
    | y :: r, S k => y :: put_nth r k x
    end.
  Definition put_state (m : mach W) (s : nat) (x : stt) : mach W :=
    with_states m (put_nth (m_states m) s x).

  (** state.indentation *)
  Definition get_ind (s : nat) : M W str := fun m => (Done (s_indent (state_at m s)), m).
  Definition set_ind (s : nat) (ind : str) : M W unit := fun m =>
    (Done tt, put_state m s {| s_vals := s_vals (state_at m s); s_indent := ind |}).

  (** state[slot] : core/structs.py 373-374, 446-448 *)
  Definition slot_value (m : mach W) (s : nat) (x : slot) : option val :=
    dget Nat.eqb x (s_vals (state_at m s)).
  Definition get_slot (s : nat) (x : slot) : M W val := fun m =>
    match slot_value m s x with Some v => (Done v, m) | None => (Exc KeyError, m) end.
  (** state[slot] = value : core/structs.py 376-378, 443-444 *)
  Definition set_slot (s : nat) (x : slot) (v : val) : M W unit := fun m =>
    let st := state_at m s in
    (Done tt, put_state m s {| s_vals := dset Nat.eqb x v (s_vals st); s_indent := s_indent st |}).

  (** state.indent(c), state.dedent(c): core/structs.py 388-393 *)
  Definition indent_by (s : nat) (c : char) : M W unit :=
    mbind (get_ind s) (fun ind => set_ind s (ind ++ [c])).
  Definition dedent_by (s : nat) (c : char) : M W unit :=
    mbind (get_ind s) (fun ind =>
      match rev ind with
      | [] => exc IndexError
      | x :: r => if N.eqb x c then set_ind s (rev r) else exc AssertionError
      end).

  (** indent = state.indentation; try: ... finally: state.indentation = indent *)
  Definition restoring {A} (s : nat) (x : M W A) : M W A := fun m =>
    let ind := s_indent (state_at m s) in
    match x m with
    | (Fuel, m') => (Fuel, m')
    | (o, m') => (o, snd (set_ind s ind m'))
    end.
End Monad.
Notation "x <* r ;; k" := (mbind r (fun x => k)) (at level 61, r at next level, right associativity).
