(** Specification side of C04 (merging), C37 and C39-C43: what qualifiers, operators, pipelines,
    assignments and calls of hypertags do, given the behaviour of their parts. A part is any
    computation on the machine. *)
From Coq Require Import List NArith Bool Arith.
From Verif Require Import PyStr Value Dom Ast Machine.
Import ListNotations.

Section Spec.
  Context {W : Type}.
  Notation comp A := (mach W -> out A * mach W).

  (** [x], then [f] on its value; the first failure ends everything *)
  Definition seq {A B} (x : comp A) (f : A -> comp B) : comp B := fun m =>
    match x m with
    | (Done a, m1) => f a m1
    | (Exc e, m1) => (Exc e, m1)
    | (Fuel, m1) => (Fuel, m1)
    end.

  (** Truth tests of objects change nothing in the outside world; they do not fail. *)
  Definition quiet_truth (P : prims W) : Prop := forall v h w, exists r, p_truth P v h w = (r, w).
  Definition sound_truth (P : prims W) : Prop := forall v h w, exists b, p_truth P v h w = (Done b, w).

  Section Logic.
    Variable tr : val -> comp bool.               (* bool(v) *)

    (** ** C39 *)

    (** [q] applied to an expression with outcome [r]; [m] is the machine afterwards *)
    Inductive qual_out (m : mach W) : qual -> out val -> out val -> Prop :=
    | qual_true q v : tr v m = (Done true, m) -> qual_out m q (Done v) (Done v)
    | qual_none v : tr v m = (Done false, m) -> qual_out m QNone (Done v) (Done v)
    | qual_opt v : tr v m = (Done false, m) -> qual_out m QOpt (Done v) (Done (VStr []))
    | qual_opt_exc e : qual_out m QOpt (Exc e) (Done (VStr []))
    | qual_req v : tr v m = (Done false, m) -> qual_out m QReq (Done v) (Exc FalseValue)
    | qual_exc q e : q <> QOpt -> qual_out m q (Exc e) (Exc e).

    (** ** C40 *)

    (** Evaluated one after another, all operands are true ([b] = true) or all are false. *)
    Inductive all_are (b : bool) : list (comp val) -> mach W -> mach W -> Prop :=
    | all_are_nil m : all_are b [] m m
    | all_are_cons x r m v m1 m2 : x m = (Done v, m1) -> tr v m1 = (Done b, m1) -> all_are b r m1 m2 -> all_are b (x :: r) m m2.

    (** A chain of and ([stop] = false) or or ([stop] = true): the operand that decides is the first one
        with truth value [stop], or the last one. Later operands are not evaluated. *)
    Inductive logic_out (stop : bool) : list (comp val) -> mach W -> out val -> mach W -> Prop :=
    | logic_value pre x post m m1 v m2 :
        all_are (negb stop) pre m m1 -> x m1 = (Done v, m2) -> (post = [] \/ tr v m2 = (Done stop, m2)) ->
        logic_out stop (pre ++ x :: post) m (Done v) m2
    | logic_exc pre x post m m1 e m2 :
        all_are (negb stop) pre m m1 -> x m1 = (Exc e, m2) -> logic_out stop (pre ++ x :: post) m (Exc e) m2
    | logic_bool pre x post m m1 v e m2 :
        all_are (negb stop) pre m m1 -> x m1 = (Done v, m2) -> post <> [] -> tr v m2 = (Exc e, m2) ->
        logic_out stop (pre ++ x :: post) m (Exc e) m2.

    (** ** C41 *)

    Variable apply : binop -> val -> val -> comp val.          (* x op y *)
    Definition operation (x : comp val) (o : binop) (y : comp val) : comp val := seq x (fun v => seq y (fun w => apply o v w)).

    (** ((x o1 y1) o2 y2) ... *)
    Fixpoint left_assoc (x : comp val) (ops : list (binop * comp val)) : comp val :=
      match ops with
      | [] => x
      | (o, y) :: r => left_assoc (operation x o y) r
      end.
    (** x o1 (y1 o2 (y2 ...)) *)
    Fixpoint right_assoc (x : comp val) (ops : list (binop * comp val)) : comp val :=
      match ops with
      | [] => x
      | (o, y) :: r => operation x o (right_assoc y r)
      end.
    (** x o1 y1 and y1 o2 y2 and ..., each operand evaluated once and the chain ending at the first false
        comparison *)
    Fixpoint compare_from (v : val) (ops : list (binop * comp val)) : comp val :=
      match ops with
      | [] => fun m => (Done v, m)
      | (o, y) :: r =>
          seq y (fun w => seq (apply o v w) (fun c =>
            match r with
            | [] => fun m => (Done c, m)
            | _ => seq (tr c) (fun b : bool => if b then compare_from w r else fun m => (Done c, m))
            end))
      end.
    Definition compare (x : comp val) (ops : list (binop * comp val)) : comp val := seq x (fun v => compare_from v ops).

    Definition is_comparison (o : binop) : bool :=
      match o with OLt | OGt | OEq | OGe | OLe | ONe | OIs | OIsNot | OIn | ONotIn => true | _ => false end.
    Definition is_power (o : binop) : bool := match o with OPow => true | _ => false end.

    (** Chains of operators of equal precedence in Python *)
    Definition python_chain (x : comp val) (ops : list (binop * comp val)) : comp val :=
      if forallb (fun oy => is_power (fst oy)) ops then right_assoc x ops
      else if forallb (fun oy => is_comparison (fst oy)) ops then compare x ops
      else left_assoc x ops.
  End Logic.

  (** ** C42: x:f1(a1):f2(a2)... as ...f2(f1(x, a1), a2)...; a filter is given by the computation of its
      function and the computation of its arguments. *)
  Section Pipe.
    Variable call : val -> list val -> list (str * val) -> comp val.

    Fixpoint positional (items : list (option str * val)) : list val :=
      match items with
      | [] => []
      | (None, v) :: r => v :: positional r
      | (Some _, _) :: r => positional r
      end.
    Fixpoint keywords (items : list (option str * val)) : list (str * val) :=
      match items with
      | [] => []
      | (None, _) :: r => keywords r
      | (Some n, v) :: r => (n, v) :: keywords r
      end.
    Fixpoint pipe (x : comp val) (filters : list (comp val * comp (list (option str * val)))) : comp val :=
      match filters with
      | [] => x
      | (f, args) :: r =>
          pipe (seq x (fun v => seq f (fun g => seq args (fun a => call g (v :: positional a) (keywords a))))) r
      end.
  End Pipe.

  (** ** C43 *)
  Section Unpack.
    Variable items : val -> list val -> Prop.      (* the items of a sequence *)

    (** [unpacks t v b]: the value [v] has the shape of the target [t]; [b] lists the variables of [t] with
        the corresponding items. *)
    Inductive unpacks : target -> val -> list (slot * val) -> Prop :=
    | unpacks_var n r a x v : unpacks (TVar n r a (Some x)) v [(x, v)]
    | unpacks_one t v b : unpacks t v b -> unpacks (TTargets [t]) v b
    | unpacks_many ts v l b : List.length ts <> 1 -> items v l -> unpacks_all ts l b -> unpacks (TTargets ts) v b
    with unpacks_all : list target -> list val -> list (slot * val) -> Prop :=
    | unpacks_nil : unpacks_all [] [] []
    | unpacks_cons t ts v l b b' : unpacks t v b -> unpacks_all ts l b' -> unpacks_all (t :: ts) (v :: l) (b ++ b').
  End Unpack.

  (** The items of a value; for objects as given by Python *)
  Inductive items_in (P : prims W) (h : heap) (w : W) : val -> list val -> Prop :=
  | in_list l : items_in P h w (VList l) l
  | in_tuple l : items_in P h w (VTuple l) l
  | in_set l : items_in P h w (VSet l) l
  | in_dict d : items_in P h w (VDict d) (map fst d)
  | in_str t : items_in P h w (VStr t) (map (fun c => VStr [c]) t)
  | in_dom l : items_in P h w (VDom l) (map VNode l)
  | in_obj n l : p_iter P (VObj n) h w = (Done (l, None), w) -> items_in P h w (VObj n) l.
  Definition quiet_iter (P : prims W) : Prop := forall v h w, exists r, p_iter P v h w = (r, w).

  (** After the assignments [b] in state [s], in this order; nothing else changes. *)
  Fixpoint last_of {B} (x : slot) (b : list (slot * B)) : option B :=
    match b with
    | [] => None
    | (y, v) :: r => match last_of x r with
                     | Some v' => Some v'
                     | None => if Nat.eqb x y then Some v else None
                     end
    end.
  Definition assigned (s : nat) (b : list (slot * val)) (m m' : mach W) : Prop :=
    (forall x, slot_value m' s x = match last_of x b with Some v => Some v | None => slot_value m s x end) /\
    s_indent (state_at m' s) = s_indent (state_at m s) /\
    (forall s', s' <> s -> state_at m' s' = state_at m s') /\
    List.length (m_states m') = List.length (m_states m) /\
    m' = with_states m (m_states m').

  (** ** C37 *)

  (** A formal attribute: name, default value, slot. *)
  Notation formal := (str * option (comp val) * slot)%type.
  Definition f_name (a : formal) : str := fst (fst a).
  Definition f_slot (a : formal) : slot := snd a.

  Fixpoint lookup {B} (n : str) (d : list (str * B)) : option B :=
    match d with
    | [] => None
    | (k, v) :: r => if str_eqb n k then Some v else lookup n r
    end.

  (** The value passed for formal attribute number [i], called [n] *)
  Definition given (attrs : list val) (kw : list (str * val)) (i : nat) (n : str) : option val :=
    match nth_error attrs i with
    | Some v => Some v
    | None => lookup n kw
    end.

  (** the formal attributes of a definition, given the evaluation of default values *)
  Definition formals_of (ev : expr -> comp val) (l : list (str * option expr * slot)) : list formal :=
    map (fun a => (fst (fst a), option_map ev (snd (fst a)), snd a)) l.
  (** the body attribute, when there is one *)
  Definition body_binding (h : hdef) (body : val) : list (slot * val) :=
    match h_body h with Some (_, x) => [(x, body)] | None => [] end.
  Definition all_slots (h : hdef) : list slot :=
    map snd (h_regul h) ++ match h_body h with Some (_, x) => [x] | None => [] end.
  Definition all_names (h : hdef) : list str :=
    match h_body h with Some (n, _) => [n] | None => [] end ++ map (fun a => fst (fst a)) (h_regul h).
  Definition dom_empty (body : val) : bool := match body with VDom [] => true | _ => false end.
  Definition has_body (h : hdef) : bool := match h_body h with Some _ => true | None => false end.

  (** A call that does not fit the definition *)
  Inductive misfit (fs : list formal) (has_body : bool) (attrs : list val) (kw : list (str * val)) (empty : bool) : Prop :=
  | too_many : List.length fs < List.length attrs -> misfit fs has_body attrs kw empty
  | unknown n : In n (map fst kw) -> ~ In n (map f_name fs) -> misfit fs has_body attrs kw empty
  | twice i a : nth_error fs i = Some a -> i < List.length attrs -> In (f_name a) (map fst kw) -> misfit fs has_body attrs kw empty
  | missing i a : nth_error fs i = Some a -> snd (fst a) = None -> given attrs kw i (f_name a) = None -> misfit fs has_body attrs kw empty
  | no_body : has_body = false -> empty = false -> misfit fs has_body attrs kw empty.

  (** The values of the formal attributes from number [i] on: those passed, and defaults of the others,
      evaluated in order *)
  Inductive fill (attrs : list val) (kw : list (str * val)) : nat -> list formal -> mach W -> list val -> mach W -> Prop :=
  | fill_nil i m : fill attrs kw i [] m [] m
  | fill_given i a fs v m vs m' :
      given attrs kw i (f_name a) = Some v -> fill attrs kw (S i) fs m vs m' -> fill attrs kw i (a :: fs) m (v :: vs) m'
  | fill_default i a fs d v m m1 vs m' :
      given attrs kw i (f_name a) = None -> snd (fst a) = Some d -> d m = (Done v, m1) ->
      fill attrs kw (S i) fs m1 vs m' -> fill attrs kw i (a :: fs) m (v :: vs) m'.
  (** a default value fails *)
  Inductive fill_fails (attrs : list val) (kw : list (str * val)) : nat -> list formal -> mach W -> exn -> mach W -> Prop :=
  | fail_given i a fs v m e m' :
      given attrs kw i (f_name a) = Some v -> fill_fails attrs kw (S i) fs m e m' -> fill_fails attrs kw i (a :: fs) m e m'
  | fail_later i a fs d v m m1 e m' :
      given attrs kw i (f_name a) = None -> snd (fst a) = Some d -> d m = (Done v, m1) ->
      fill_fails attrs kw (S i) fs m1 e m' -> fill_fails attrs kw i (a :: fs) m e m'
  | fail_here i a fs d m e m' :
      given attrs kw i (f_name a) = None -> snd (fst a) = Some d -> d m = (Exc e, m') -> fill_fails attrs kw i (a :: fs) m e m'.

  (** ** C04: attributes of a tag occurrence *)

  (** evaluated one after another *)
  Inductive each (xs : list (str * comp val)) : mach W -> list (str * val) -> mach W -> Prop :=
  | each_nil m : xs = [] -> each xs m [] m
  | each_cons n x r m v m1 vs m2 : xs = (n, x) :: r -> x m = (Done v, m1) -> each r m1 vs m2 -> each xs m ((n, v) :: vs) m2.
End Spec.

(** all values given to the name [n] *)
Definition values_of {B} (n : str) (vs : list (str * B)) : list B :=
  map snd (filter (fun kv => str_eqb n (fst kv)) vs).
(** names in order of first occurrence *)
Fixpoint firsts (ns : list str) : list str :=
  match ns with
  | [] => []
  | n :: r => n :: filter (fun k => negb (str_eqb n k)) (firsts r)
  end.
(** strings joined with a single space *)
Fixpoint spaced (l : list str) : str :=
  match l with
  | [] => []
  | [t] => t
  | t :: r => t ++ SP :: spaced r
  end.
(** the merged value: a single one as it is, several strings joined *)
Inductive merged_value : list val -> val -> Prop :=
| merged_one v : merged_value [v] v
| merged_more ts : 2 <= List.length ts -> merged_value (map VStr ts) (VStr (spaced ts)).

(** every name given more than once has string values only *)
Definition mergeable (vs : list (str * val)) : Prop :=
  forall n, 2 <= List.length (values_of n vs) -> exists ts, values_of n vs = map VStr ts.
(** one value per name, in order of the first occurrences *)
Definition merged (vs d : list (str * val)) : Prop :=
  map fst d = firsts (map fst vs) /\ forall n, In n (map fst vs) -> exists v, lookup n d = Some v /\ merged_value (values_of n vs) v.
