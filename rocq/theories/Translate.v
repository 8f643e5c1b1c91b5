(** Translation of blocks to DOM nodes: the translate() methods of core/ast.py. A DOM object returned
    by a method is the list of its nodes; it is never changed afterwards (see DomSpec for alter). *)
From Coq Require Import List NArith ZArith Bool String.
From Verif Require Import PyStr Html Indent PyDict Value Dom Ast Machine Eval.
Import ListNotations.
Local Open Scope list_scope.

(** core/tag.py 62-72: the tag of "." *)
Definition null_tag : tag := {| t_id := 0; t_name := u "null"; t_kind := KNull |}.
(** core/ast.py 588: the Native tag of definition number [d]. Odd identities are reserved for these
    tags, 0 for null_tag. *)
Definition native (d : nat) (name : str) : tag :=
  {| t_id := (2 * N.of_nat d + 1)%N; t_name := name; t_kind := KNative |}.

(** DOM.Node(tag = t, attrs = attrs, kwattrs = kwattrs): core/dom.py 274-294 *)
Definition node_info (t : tag) (attrs : list val) (kwattrs : option (list (str * val))) : info :=
  {| n_kind := KNode; n_tag := Some t; n_attrs := attrs; n_kwattrs := kwattrs;
     n_outline := false; n_indent := None |}.

(** Elements of the argument list of DOM(...): core/dom.py 118-130. Generators (VObj) inside the list
    are not modelled. *)
Fixpoint item_of (v : val) : ditem :=
  match v with
  | VNone => INone
  | VNode n => INode n
  | VDom l => ISeq (map INode l)
  | VList l => ISeq (map item_of l)
  | _ => IBad
  end.

Section Translate.
  Context {W : Type}.
  Variable P : prims W.
  Variable expand : hyper -> val -> list val -> list (str * val) -> nat -> M W (list nid).
  (** bound on the number of iterations of a while loop *)
  Variable loops : nat.

  (** core/ast.py 364: static.translate *)
  Definition tr_static (s : str) : M W (list nid) :=
    match s with [] => ret [] | _ => i <* do_text s None ;; ret [i] end.

  (** render_inline: core/ast.py 1092-1109 *)
  Definition render_line (s : nat) (l : line) : M W str :=
    match l with
    | LVerbat t => ret t
    | LMarkup ps => mconcat (render_part P expand s) ps
    | LNormal ps =>
        t <* mconcat (render_part P expand s) ps ;;
        ret (match p_escape P with Some f => f t | None => t end)
    end.

  (** render() of the children of a text block: core/ast.py 1086-1087, 365, 1821-1832 *)
  Definition render_titem (s : nat) (t : titem) : M W str :=
    match t with
    | TxLine l => ind <* get_ind s ;; r <* render_line s l ;; ret (ind ++ r)
    | TxMargin x => ret x
    | TxIndent c => _ <* indent_by s c ;; ret []
    | TxDedent c => _ <* dedent_by s c ;; ret []
    end.

  (** core/ast.py 469-500: block_text.render *)
  Definition render_text (s : nat) (lead : nat) (items : list titem) : M W str :=
    t <* restoring s (_ <* set_ind s [] ;; mconcat (render_titem s) items) ;;
    ret (text_layout lead t).

  (** core/ast.py 521-529: xblock_embed._as_sequence *)
  Definition as_sequence (v : val) : M W (list nid) :=
    match v with
    | VDom l => ret l
    | VNode n => ret [n]
    | _ => fun m =>
        match iterate P v m with
        | (Done (items, None), m') => of_result (flatten (map item_of items)) m'
        | (Done (_, Some _), m') => (Exc TypeError, m')
        | (Exc _, m') => (Exc TypeError, m')
        | (Fuel, m') => (Fuel, m')
        end
    end.

  (** core/ast.py 1166-1198: xtag_expand.translate_tag; 1200-1202: xnull.translate_tag *)
  Definition tr_tag (s : nat) (t : tagexp) (body : list nid) : M W (list nid) :=
    match t with
    | XNull => i <* do_node (node_info null_tag [] None) body None ;; ret [i]
    | XTag _ sl unnamed named =>
        attrs <* mmap (eval P expand s) unnamed ;;
        kwattrs <* eval_named P expand s named ;;
        match sl with
        | None => exc AssertionError
        | Some x =>
            v <* get_slot s x ;;
            match v with
            | VHyper h => expand h (VDom body) attrs kwattrs s
            | VTag tg => i <* do_node (node_info tg attrs (Some kwattrs)) body None ;; ret [i]
            | _ => exc NotATag
            end
        end
    end.
  (** core/ast.py 1116-1120: apply_tags *)
  Definition apply_tags (s : nat) (tags : list tagexp) (body : list nid) : M W (list nid) :=
    mfold (fun body t => tr_tag s t body) (rev tags) body.

  (** ValueSlot.set_value: core/structs.py 464-465 *)
  Definition set_value (s : nat) (xv : slot * val) : M W unit := set_slot s (fst xv) (snd xv).

  (** translate() of import items: core/ast.py 719-720, 741-742, 768-769 *)
  Definition tr_import (s : nat) (i : iitem) : M W unit :=
    match i with
    | IWild None | IName _ _ None => exc AttributeError
    | IWild (Some l) => miter (set_value s) l
    | IName _ _ (Some xv) => set_value s xv
    end.

  (** try: translate(x) except Exception: pass, for alternatives: core/ast.py 864-872 *)
  Definition or_else {A} (x y : M W A) : M W A := fun m =>
    match x m with
    | (Done a, m') => (Done a, m')
    | (Exc _, m') => y m'
    | (Fuel, m') => (Fuel, m')
    end.

  (** a block that must end with body.set_indent(state.indentation); return body:
      core/ast.py 846-849, 929-931, 970-971, 517-519, 550-551 *)
  Definition indented (s : nat) (x : M W (list nid)) : M W (list nid) :=
    l <* x ;; ind <* get_ind s ;; _ <* do_set_indent ind l ;; ret l.

  (** for value in sequence: ..., with all items at once; core/ast.py 958-963 *)
  Definition for_loop (step : val -> M W (list nid)) (items : list val) (err : option exn) : M W (list nid) :=
    l <* mconcat step items ;; match err with Some e => exc e | None => ret l end.

  (** while test: out += body; core/ast.py 919-922. The result tells if the loop was empty. *)
  Fixpoint while_loop (test : M W bool) (step : M W (list nid)) (n : nat) (empty : bool) (acc : list nid)
    : M W (bool * list nid) :=
    match n with
    | O => nofuel
    | S n => b <* test ;;
             if (b : bool) then l <* step ;; while_loop test step n false (acc ++ l)
             else ret (empty, acc)
    end.

  (** None stands for the Python None returned by blocks without output. *)
  Fixpoint tr_block (s : nat) (b : block) {struct b} : M W (option (list nid)) :=
    let some (x : M W (list nid)) : M W (option (list nid)) := l <* x ;; ret (Some l) in
    match b with
    | BText lead items =>                                       (* 466-467 *)
        some (t <* render_text s lead items ;; ind <* get_ind s ;; i <* do_text t (Some ind) ;; ret [i])
    | BComment => some (ret [])                                 (* 506 *)
    | BEmbed e => some (indented s (v <* eval P expand s e ;; as_sequence v))     (* 516-520 *)
    | BStruct tags y =>                                         (* 547-551 *)
        some (indented s (l <* tr_body s y ;; apply_tags s tags l))
    | BDef d _ _ _ _ =>                                         (* 609-611 *)
        match d with
        | Some (d, x) => _ <* set_slot s x (VHyper (HDef d)) ;; ret None
        | None => exc AttributeError
        end
    | BImport _ items | BContext items => some (_ <* miter (tr_import s) items ;; ret [])   (* 694-696 *)
    | BTry ys =>                                                (* 846-849, 864-872 *)
        some (indented s ((fix go (ys : list body) : M W (list nid) :=
                             match ys with
                             | [] => ret []
                             | y :: r => or_else (tr_body s y) (go r)
                             end) ys))
    | BIf clauses els =>                                        (* 846-849, 885-902 *)
        some (indented s ((fix go (cs : list (expr * option body)) : M W (list nid) :=
                             match cs with
                             | [] => match els with Some y => tr_body s y | None => ret [] end
                             | (c, y) :: r =>
                                 v <* eval P expand s c ;;
                                 b <* truth P v ;;
                                 if (b : bool) then match y with Some y => tr_body s y | None => ret [] end
                                 else go r
                             end) clauses))
    | BWhile c y els =>                                         (* 913-931 *)
        some (indented s (
          r <* while_loop (v <* eval P expand s c ;; truth P v)
                          (match y with Some y => tr_body s y | None => ret [] end) loops true [] ;;
          match r, els with
          | (true, _), Some z => tr_body s z
          | (_, l), _ => ret l
          end))
    | BFor ts e y els =>                                        (* 953-971 *)
        some (indented s (
          v <* eval P expand s e ;;
          ie <* iterate P v ;;
          let (items, err) := (ie : list val * option exn) in
          l <* for_loop (fun x =>
                 _ <* assign P s ts x ;;
                 match y with
                 | Some y => tr_body s y
                 | None => match els with Some z => tr_body s z | None => ret [] end
                 end) items err ;;
          match items, els with
          | [], Some z => tr_body s z
          | _, _ => ret l
          end))
    | BExpr e => _ <* eval P expand s e ;; ret None             (* 984-986 *)
    | BAssign ts o e =>                                         (* 1026-1033 *)
        v <* eval P expand s e ;;
        v <* match o with
             | Some o => cur <* read_target P expand s ts ;; lift_p (p_binop P o cur v)
             | None => ret v
             end ;;
        _ <* assign P s ts v ;;
        ret None
    | BPass => some (ret [])                                    (* 1204-1206 *)
    end
  with tr_body (s : nat) (y : body) {struct y} : M W (list nid) :=
    match y with
    | YItems l => restoring s (mconcat (tr_item s) l)           (* 1069-1078 *)
    | YBlock b => r <* tr_block s b ;; ret (match r with Some l => l | None => [] end)
    | YElse (Some y) => tr_body s y                             (* 906-908 *)
    | YElse None => exc AssertionError
    end
  with tr_item (s : nat) (i : item) {struct i} : M W (list nid) :=
    match i with
    | NLine l => t <* render_line s l ;; i <* do_text t None ;; ret [i]           (* 1084-1085 *)
    | NIndent c => _ <* indent_by s c ;; ret []                                   (* 1816-1819 *)
    | NDedent c => _ <* dedent_by s c ;; ret []                                   (* 1827-1829 *)
    | NMargin t => tr_static t
    | NBlock margin m b =>                                                        (* 449-461 *)
        mg <* tr_static margin ;;
        r <* tr_block s b ;;
        match r with
        | None | Some [] => ret mg
        | Some (i :: l) =>
            _ <* match m with MAppend => ret tt | _ => do_outline true i end ;;
            _ <* match m with MDedent => do_set_indent [] (i :: l) | _ => ret tt end ;;
            ret (mg ++ i :: l)
        end
    end.

  (** Binding of attributes: core/ast.py 628-674. *)

  (** translation of keyword names and positional values to formal attributes: 631-656. The result
      lists keyword values first, then positional ones (order of [kwattrs]), and the attributes of the
      DOM node. *)
  Definition bind_attrs (h : hdef) (attrs : list val) (kw : list (str * val))
    : result (list (str * val) * list (str * val)) :=
    let regul := map (fun a => fst (fst a)) (h_regul h) in
    let names := (match h_body h with Some (n, _) => [n] | None => [] end) ++ regul in
    if Nat.ltb (List.length regul) (List.length attrs) then Raise TypeError
    else if match h_body h with Some (n, _) => dmem str_eqb n kw | None => false end then Raise TypeError
    else if negb (forallb (fun nv => existsb (str_eqb (fst nv)) names) kw) then Raise TypeError
    else
      (fix go (ns : list str) (vs : list val) (bound dom : list (str * val))
         : result (list (str * val) * list (str * val)) :=
         match vs, ns with
         | v :: vs, n :: ns =>
             if dmem str_eqb n bound then Raise TypeError
             else go ns vs (dset str_eqb n v bound) (dset str_eqb n v dom)
         | _, _ => Ok (bound, dupdate str_eqb dom kw)
         end) regul attrs kw [].

  (** defaults: 658-662 *)
  Definition add_defaults (s : nat) (regul : list (str * option expr * slot)) (bound : list (str * val))
    : M W (list (str * val)) :=
    mfold (fun b a =>
             let '(n, dflt, _) := (a : str * option expr * slot) in
             if dmem str_eqb n b then ret b
             else match dflt with
                  | None => exc TypeError
                  | Some e => v <* eval P expand s e ;; ret (dset str_eqb n v b)
                  end) regul bound.

  (** transfer to the state: 664-666 *)
  Definition slot_of (h : hdef) (n : str) : option slot :=
    match find (fun a => str_eqb n (fst (fst a))) (h_regul h) with
    | Some (_, x) => Some x
    | None => None
    end.
  Definition set_attr (s : nat) (h : hdef) (nv : str * val) : M W unit :=
    match slot_of h (fst nv) with
    | Some x => set_slot s x (snd nv)
    | None => exc KeyError                                     (* excluded by bind_attrs *)
    end.

  (** core/ast.py 628-674: _append_attrs *)
  Definition append_attrs (h : hdef) (body : val) (attrs : list val) (kw : list (str * val)) (s : nat)
    : M W (list (str * val)) :=
    bd <* of_result (bind_attrs h attrs kw) ;;
    let (bound, dom) := (bd : list (str * val) * list (str * val)) in
    full <* add_defaults s (h_regul h) bound ;;
    _ <* miter (set_attr s h) full ;;
    _ <* match h_body h with
         | Some (_, x) => set_slot s x body
         | None => b <* truth P body ;; if (b : bool) then exc VoidTag else ret tt
         end ;;
    ret dom.

  (** core/ast.py 613-626: xblock_def.expand *)
  Definition expand_def (d : nat) (h : hdef) (body : val) (attrs : list val) (kw : list (str * val)) (s : nat)
    : M W (list nid) :=
    dom_attrs <* append_attrs h body attrs kw s ;;
    output <* tr_body s (h_block h) ;;
    ind <* get_ind s ;;
    _ <* do_set_indent ind output ;;
    _ <* match output with [] => ret tt | i :: _ => do_outline false i end ;;
    i <* do_node (node_info (native d (h_name h)) [] (Some dom_attrs)) output (Some ind) ;;
    ret [i].
End Translate.

Section Expand.
  Context {W : Type}.
  Variable P : prims W.

  (** Expansion of hypertags, up to [n] nested ones; core/ast.py 99-117 for imported hypertags. *)
  Fixpoint expand_n (n : nat) (h : hyper) (body : val) (attrs : list val) (kw : list (str * val)) (s : nat)
    : M W (list nid) :=
    match n with
    | O => nofuel
    | S k =>
        (fix go (h : hyper) (s : nat) : M W (list nid) :=
           match h with
           | HDef d => fun m =>
               match nth_error (m_defs m) d with
               | Some hd => expand_def P (expand_n k) k d hd body attrs kw s m
               | None => (Exc KeyError, m)                     (* no such definition: never occurs *)
               end
           | HImp h s => go h s
           end) h s
    end.

  (** An analysed document: core/ast.py 379-425 *)
  Record analysed := {
    d_in : list (slot * val);
    d_items : document;
    d_out : list (str * slot)
  }.

  (** core/ast.py 401-422: xdocument.translate; the root node and the exported symbols *)
  Definition tr_document (n : nat) (s : nat) (d : analysed) : M W (nid * list (str * val)) :=
    _ <* miter (set_value s) (d_in d) ;;
    nodes <* mconcat (tr_item P (expand_n n) n s) (d_items d) ;;
    root <* lift_h (fun h => new_root (depth_bound h) nodes h) ;;
    (fun m => (Done (root, flat_map (fun yx => match slot_value m s (snd yx) with
                                               | Some v => [(fst yx, v)]
                                               | None => []
                                               end) (d_out d)), m)).
End Expand.
