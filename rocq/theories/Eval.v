(** Evaluation of expressions: core/ast.py 1282-1768. *)
From Coq Require Import List NArith ZArith Bool String.
From Verif Require Import PyStr Html Indent PyDict Value Dom Ast Machine.
Import ListNotations.
Local Open Scope list_scope.

Section Eval.
  Context {W : Type}.
  Variable P : prims W.
  (** hypertag.expand(body, attrs, kwattrs, state, caller): core/ast.py 96, 110-117, 613-626 *)
  Variable expand : hyper -> val -> list val -> list (str * val) -> nat -> M W (list nid).

  (** bool(v). Classes without __bool__ and __len__ (Node, Tag, Hypertag, functions) are true; DOM:
      core/dom.py 90-91. *)
  Definition truth (v : val) : M W bool :=
    match v with
    | VNone => ret false
    | VBool b => ret b
    | VInt z => ret (negb (Z.eqb z 0))
    | VStr s => ret (match s with [] => false | _ => true end)
    | VList l | VTuple l | VSet l => ret (match l with [] => false | _ => true end)
    | VDict d => ret (match d with [] => false | _ => true end)
    | VDom l => ret (match l with [] => false | _ => true end)
    | VNode _ | VTag _ | VHyper _ | VEmb _ _ | VPartial _ _ _ => ret true
    | VObj _ => lift_p (p_truth P v)
    end.

  (** text_type(v) *)
  Definition to_text (v : val) : M W str :=
    match v with
    | VStr s => ret s
    | _ => lift_p (p_text P v)
    end.
  (** core/ast.py 60-63: STR *)
  Definition STR (v : val) : M W str :=
    match v with
    | VNone => exc NoneString
    | _ => to_text v
    end.

  (** Arguments of __call__(self, body_string = None, *attrs, **kwattrs): core/ast.py 136,
      core/tag.py 37 *)
  Definition bind_body (args : list val) (kw : list (str * val))
    : result (val * list val * list (str * val)) :=
    if dmem str_eqb (u "self") kw then Raise TypeError
    else match args with
         | a :: r => if dmem str_eqb (u "body_string") kw then Raise TypeError else Ok (a, r, kw)
         | [] => match dget str_eqb (u "body_string") kw with
                 | Some v => Ok (v, [], ddel str_eqb (u "body_string") kw)
                 | None => Ok (VNone, [], kw)
                 end
         end.

  (** core/ast.py 136-141: EmbeddedHypertag.__call__ *)
  Definition call_emb (h : hyper) (s : nat) (args : list val) (kw : list (str * val)) : M W val :=
    b <* of_result (bind_body args kw) ;;
    let '(bs, attrs, kwattrs) := b in
    body <* match bs with
            | VNone => ret (VDom [])
            | _ => t <* to_text bs ;; i <* do_text t None ;; ret (VNode i)
            end ;;
    dom <* expand h body attrs kwattrs s ;;
    _ <* do_set_indent [] dom ;;
    (fun m => match dom_render (p_ren P) (depth_bound (m_heap m)) (m_heap m) dom with
              | Done t => (Done (VStr t), m)
              | Exc e => (Exc e, m)
              | Fuel => (Fuel, m)
              end).

  (** core/tag.py 37-45: Tag.__call__ *)
  Definition call_tag (t : tag) (args : list val) (kw : list (str * val)) : M W val :=
    b <* of_result (bind_body args kw) ;;
    let '(bs, attrs, kwattrs) := b in
    text <* match bs with VNone => ret [] | _ => to_text bs end ;;
    (fun m => match Dom.expand (p_ren P) t (Done text) attrs kwattrs with
              | Done t => (Done (VStr t), m)
              | Exc e => (Exc e, m)
              | Fuel => (Fuel, m)
              end).

  (** f(args, kw); partial functions: core/ast.py 65-74 *)
  Fixpoint call_value (f : val) (args : list val) (kw : list (str * val)) : M W val :=
    match f with
    | VEmb h s => call_emb h s args kw
    | VTag t => call_tag t args kw
    | VPartial g a k =>
        match kw with
        | [] => call_value g (args ++ a) k
        | _ => exc TypeError
        end
    | _ => lift_p (p_call P f args kw)
    end.

  (** core/ast.py 1295-1309: evaluate_with_qualifier *)
  Definition qualified (q : qual) (x : M W val) : M W val := fun m =>
    match x m with
    | (Fuel, m') => (Fuel, m')
    | (Exc e, m') => match q with
                     | QOpt => (Done (VStr []), m')
                     | _ => (Exc e, m')
                     end
    | (Done v, m') =>
        (b <* truth v ;;
         if (b : bool) then ret v
         else match q with
              | QOpt => ret (VStr [])
              | QReq => exc FalseValue
              | QNone => ret v
              end) m'
    end.

  (** core/ast.py 1440-1445: _evaluate_args, given the values of arguments *)
  Definition split_args (items : list (option str * val)) : list val * list (str * val) :=
    (flat_map (fun nv => match fst nv with None => [snd nv] | Some _ => [] end) items,
     dict_of str_eqb (flat_map (fun nv => match fst nv with None => [] | Some n => [(n, snd nv)] end) items)).

  (** partial(fun, args, kwargs): core/ast.py 65-74, 1447-1452 *)
  Definition partial_of (f : val) (items : list (option str * val)) : val :=
    let (args, kwargs) := split_args items in VPartial f args kwargs.

  (** xand_test, xor_test: core/ast.py 1661-1678; [stop] is the truth value that ends the chain. The
      truth of an intermediate result is tested twice. *)
  Definition logic_step (stop : bool) (next : M W val) (res : val) (continue : val -> M W val) : M W val :=
    b <* truth res ;;
    if Bool.eqb b stop then ret res
    else b2 <* truth res ;;
         if Bool.eqb b2 stop then continue res else (r <* next ;; continue r).

  (** Evaluation in state number [s] *)
  Fixpoint eval (s : nat) (e : expr) {struct e} : M W val :=
    match e with
    | ELit v => ret v
    | EFormat ps => t <* mconcat (render_part s) ps ;; ret (VStr t)
    | EVar _ r =>
        (* 1397-1404 *)
        match r with
        | None => exc AttributeError
        | Some x => fun m => match slot_value m s x with
                             | Some v => (Done v, m)
                             | None => (Exc UnboundLocalError, m)
                             end
        end
    | ETag _ r =>
        (* 1353-1362 *)
        match r with
        | None => exc AttributeError
        | Some x => fun m => match slot_value m s x with
                             | Some (VHyper h) => (Done (VEmb h s), m)
                             | Some v => (Done v, m)
                             | None => (Exc UnboundLocalError, m)
                             end
        end
    | EList l => vs <* mmap (eval s) l ;; ret (VList vs)
    | ETuple l => vs <* mmap (eval s) l ;; ret (VTuple vs)
    | ESet l => vs <* mmap (eval s) l ;; lift_p (p_mkset P vs)
    | EDict l =>
        vs <* mmap (fun kv => let (k, v) := (kv : expr * expr) in
                              a <* eval s k ;; b <* eval s v ;; ret (a, b)) l ;;
        lift_p (p_mkdict P vs)
    | EFactor atom tails q =>
        qualified q (v <* eval s atom ;; mfold (fun v t => apply_tail s t v) tails v)
    | EChain neg head ops =>
        v <* eval s head ;;
        v <* (if neg then match v with VNone => ret VNone | _ => lift_p (p_neg P v) end else ret v) ;;
        mfold (fun v oe => let (o, e) := (oe : binop * expr) in
                           w <* eval s e ;; lift_p (p_binop P o v w)) ops v
    | ESimple o head l =>
        v <* eval s head ;;
        mfold (fun v e => w <* eval s e ;; lift_p (p_binop P o v w)) l v
    | EPipe head l =>
        v <* eval s head ;;
        mfold (fun v e => f <* eval s e ;; call_value f [v] []) l v
    | EConcat l => t <* mconcat (fun e => v <* eval s e ;; STR v) l ;; ret (VStr t)
    | ENot n e =>
        v <* eval s e ;;
        if Nat.odd n then b <* truth v ;; ret (VBool (negb b)) else ret v
    | EAnd head l =>
        v <* eval s head ;;
        (fix go (l : list expr) (res : val) : M W val :=
           match l with
           | [] => ret res
           | e :: r => logic_step false (eval s e) res (go r)
           end) l v
    | EOr head l =>
        v <* eval s head ;;
        (fix go (l : list expr) (res : val) : M W val :=
           match l with
           | [] => ret res
           | e :: r => logic_step true (eval s e) res (go r)
           end) l v
    | EIf x c y =>
        v <* eval s c ;;
        b <* truth v ;;
        if (b : bool) then eval s x
        else match y with Some y => eval s y | None => ret (VStr []) end
    | ERoot e q => qualified q (eval s e)
    end
  with apply_tail (s : nat) (t : tail) (f : val) {struct t} : M W val :=
    match t with
    | TCall args =>
        items <* mmap (fun ne => let (n, e) := (ne : option str * expr) in
                                 v <* eval s e ;; ret (n, v)) args ;;
        let (a, k) := split_args items in call_value f a k
    | TPartial args =>
        match args with
        | [] => ret f
        | _ => items <* mmap (fun ne => let (n, e) := (ne : option str * expr) in
                                        v <* eval s e ;; ret (n, v)) args ;;
               ret (partial_of f items)
        end
    | TIndex e => i <* eval s e ;; lift_p (p_getitem P f i)
    | TSlice a b c =>
        a <* match a with Some e => eval s e | None => ret VNone end ;;
        b <* match b with Some e => eval s e | None => ret VNone end ;;
        c <* match c with Some e => eval s e | None => ret VNone end ;;
        lift_p (p_getslice P f a b c)
    | TMember name => lift_p (p_getattr P f name)
    end
  with render_part (s : nat) (p : part) {struct p} : M W str :=
    match p with
    | PText t => ret t
    | PExpr e => v <* eval s e ;; STR v
    end.

  (** iter(v), with all items at once; of a dict the keys, of a string the characters, of a DOM the
      nodes (core/dom.py 92) *)
  Definition iterate (v : val) : M W (list val * option exn) :=
    match v with
    | VList l | VTuple l | VSet l => ret (l, None)
    | VDict d => ret (map fst d, None)
    | VStr s => ret (map (fun c => VStr [c]) s, None)
    | VDom l => ret (map VNode l, None)
    | VObj _ => lift_p (p_iter P v)
    | _ => exc TypeError
    end.

  (** core/ast.py 1050-1065: xtargets.assign, 1406-1408: variable.assign *)
  Fixpoint assign (s : nat) (t : target) (v : val) {struct t} : M W unit :=
    match t with
    | TVar _ _ _ w => match w with Some x => set_slot s x v | None => exc AttributeError end
    | TTargets [t1] => assign s t1 v
    | TTargets ts =>
        ie <* iterate v ;;
        let (items, err) := (ie : list val * option exn) in
        (fix go (ts : list target) (items : list val) : M W unit :=
           match items, ts with
           | [], [] => match err with Some e => exc e | None => ret tt end
           | [], _ :: _ => match err with Some e => exc e | None => exc ValueError end
           | _ :: _, [] => exc ValueError
           | x :: items, t :: ts => _ <* assign s t x ;; go ts items
           end) ts items
    end.

  (** core/ast.py 1062-1064, 1397-1404: xtargets.evaluate *)
  Definition read_target (s : nat) (t : target) : M W val :=
    match t with
    | TTargets [TVar n true r _] => eval s (EVar n r)
    | _ => exc AssertionError
    end.

  (** core/ast.py 1186-1198: xtag_expand._eval_attrs, second part. For two strings += is
      concatenation. *)
  Definition merge_attr (old v : val) : M W val :=
    x <* match v with
         | VStr t => ret (VStr (u " " ++ t))
         | _ => lift_p (p_binop P OAdd (VStr (u " ")) v)
         end ;;
    match old, x with
    | VStr a, VStr b => ret (VStr (a ++ b))
    | _, _ => lift_p (p_iadd P old x)
    end.
  Definition eval_named (s : nat) (named : list (str * expr)) : M W (list (str * val)) :=
    mfold (fun d ne => let (n, e) := (ne : str * expr) in
             v <* eval s e ;;
             match dget str_eqb n d with
             | Some old => w <* merge_attr old v ;; ret (dset str_eqb n w d)
             | None => ret (dset str_eqb n v d)
             end) named [].
End Eval.
