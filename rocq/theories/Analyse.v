(** Semantic analysis: the analyse() methods of core/ast.py, which link every name with a slot. *)
From Coq Require Import List NArith ZArith Bool String.
From Verif Require Import PyStr PyDict Structs Value Dom Ast Machine Translate.
Import ListNotations.
Local Open Scope list_scope.

(** core/grammar.py 314-331: TAG, VAR, IS_TAG *)
Definition TAG (name : str) : str := u "%" ++ name.
Definition VAR (name : str) : str := u "$" ++ name.
Definition IS_TAG (symbol : str) : bool := startswith (u "%") symbol.

(** What analysis uses of a Slot: its identity and depth, core/structs.py 409-441. *)
Record sinfo := { sl_id : slot; sl_depth : nat }.

(** Context: core/structs.py 190-208 *)
Record ctx := Ctx {
  c_md : multidict sinfo;
  c_regular : nat;
  c_control : nat;
  c_hyper : nat;
  c_prolog : bool
}.
Definition new_ctx : ctx := Ctx md_empty 0 0 0 true.
Definition c_get (c : ctx) (symbol : str) : option sinfo := md_get symbol (c_md c).
Definition with_md (c : ctx) (d : multidict sinfo) : ctx :=
  Ctx d (c_regular c) (c_control c) (c_hyper c) (c_prolog c).
Definition enter_regular (c : ctx) : ctx := Ctx (c_md c) (S (c_regular c)) (c_control c) (c_hyper c) (c_prolog c).
Definition leave_regular (c : ctx) : ctx := Ctx (c_md c) (pred (c_regular c)) (c_control c) (c_hyper c) (c_prolog c).
Definition enter_control (c : ctx) : ctx := Ctx (c_md c) (c_regular c) (S (c_control c)) (c_hyper c) (c_prolog c).
Definition leave_control (c : ctx) : ctx := Ctx (c_md c) (c_regular c) (pred (c_control c)) (c_hyper c) (c_prolog c).
Definition enter_hyper (c : ctx) : ctx := Ctx (c_md c) (c_regular c) (c_control c) (S (c_hyper c)) (c_prolog c).
Definition leave_hyper (c : ctx) : ctx := Ctx (c_md c) (c_regular c) (c_control c) (pred (c_hyper c)) (c_prolog c).
Definition end_prolog (c : ctx) : ctx := Ctx (c_md c) (c_regular c) (c_control c) (c_hyper c) false.

(** Analysis of expressions only reads the context: core/ast.py 328-335, 1348-1351, 1384-1391. *)
Section Names.
  Variable c : ctx.

  Definition rmap {A B} (f : A -> result B) : list A -> result (list B) :=
    fix go (l : list A) : result (list B) :=
      match l with
      | [] => Ok []
      | x :: r => y <- f x ;; ys <- go r ;; Ok (y :: ys)
      end.
  Definition ropt {A} (f : A -> result A) (o : option A) : result (option A) :=
    match o with Some x => y <- f x ;; Ok (Some y) | None => Ok None end.

  Definition lookup (symbol : str) : result (option slot) :=
    match c_get c symbol with Some x => Ok (Some (sl_id x)) | None => Raise NameError end.

  Fixpoint an_expr (e : expr) : result expr :=
    match e with
    | ELit v => Ok (ELit v)
    | EFormat ps => l <- rmap an_part ps ;; Ok (EFormat l)
    | EVar n _ => r <- lookup (VAR n) ;; Ok (EVar n r)
    | ETag y _ => r <- lookup y ;; Ok (ETag y r)
    | EList l => l <- rmap an_expr l ;; Ok (EList l)
    | ETuple l => l <- rmap an_expr l ;; Ok (ETuple l)
    | ESet l => l <- rmap an_expr l ;; Ok (ESet l)
    | EDict l =>
        l <- rmap (fun kv => let (k, v) := (kv : expr * expr) in a <- an_expr k ;; b <- an_expr v ;; Ok (a, b)) l ;;
        Ok (EDict l)
    | EFactor a ts q => a <- an_expr a ;; ts <- rmap an_tail ts ;; Ok (EFactor a ts q)
    | EChain n h l =>
        h <- an_expr h ;;
        l <- rmap (fun oe => let (o, e) := (oe : binop * expr) in e <- an_expr e ;; Ok (o, e)) l ;;
        Ok (EChain n h l)
    | ESimple o h l => h <- an_expr h ;; l <- rmap an_expr l ;; Ok (ESimple o h l)
    | EPipe h l => h <- an_expr h ;; l <- rmap an_expr l ;; Ok (EPipe h l)
    | EConcat l => l <- rmap an_expr l ;; Ok (EConcat l)
    | ENot n e => e <- an_expr e ;; Ok (ENot n e)
    | EAnd h l => h <- an_expr h ;; l <- rmap an_expr l ;; Ok (EAnd h l)
    | EOr h l => h <- an_expr h ;; l <- rmap an_expr l ;; Ok (EOr h l)
    | EIf x t y =>
        x <- an_expr x ;; t <- an_expr t ;;
        y <- match y with Some y => y <- an_expr y ;; Ok (Some y) | None => Ok None end ;;
        Ok (EIf x t y)
    | ERoot e q => e <- an_expr e ;; Ok (ERoot e q)
    end
  with an_tail (t : tail) : result tail :=
    match t with
    | TCall args =>
        l <- rmap (fun ne => let (n, e) := (ne : option str * expr) in e <- an_expr e ;; Ok (n, e)) args ;;
        Ok (TCall l)
    | TPartial args =>
        l <- rmap (fun ne => let (n, e) := (ne : option str * expr) in e <- an_expr e ;; Ok (n, e)) args ;;
        Ok (TPartial l)
    | TIndex e => e <- an_expr e ;; Ok (TIndex e)
    | TSlice a b d =>
        a <- match a with Some y => y <- an_expr y ;; Ok (Some y) | None => Ok None end ;;
        b <- match b with Some y => y <- an_expr y ;; Ok (Some y) | None => Ok None end ;;
        d <- match d with Some y => y <- an_expr y ;; Ok (Some y) | None => Ok None end ;;
        Ok (TSlice a b d)
    | TMember n => Ok (TMember n)
    end
  with an_part (p : part) : result part :=
    match p with
    | PText t => Ok (PText t)
    | PExpr e => e <- an_expr e ;; Ok (PExpr e)
    end.

  Definition an_line (l : line) : result line :=
    match l with
    | LVerbat t => Ok (LVerbat t)
    | LNormal ps => ps <- rmap an_part ps ;; Ok (LNormal ps)
    | LMarkup ps => ps <- rmap an_part ps ;; Ok (LMarkup ps)
    end.
  Definition an_titem (t : titem) : result titem :=
    match t with
    | TxLine l => l <- an_line l ;; Ok (TxLine l)
    | _ => Ok t
    end.

  Definition an_named (ne : str * expr) : result (str * expr) :=
    let (n, e) := ne in e <- an_expr e ;; Ok (n, e).

  (** core/ast.py 1162-1166: xtag_expand.analyse *)
  Definition an_tag (t : tagexp) : result tagexp :=
    match t with
    | XNull => Ok XNull
    | XTag n _ unnamed named =>
        un <- rmap an_expr unnamed ;; nm <- rmap an_named named ;;
        match c_get c (TAG n) with
        | Some x => Ok (XTag n (Some (sl_id x)) un nm)
        | None => Raise UndefinedTag
        end
    end.

  (** default values of the attributes of a definition: core/ast.py 595-596 *)
  Definition an_default (a : attrdef) : result attrdef :=
    match a_default a with
    | Some e => e <- an_expr e ;; Ok {| a_name := a_name a; a_default := Some e; a_slot := a_slot a |}
    | None => Ok a
    end.
End Names.

Section Analyse.
  Context {W : Type}.
  (** runtime.import_module(path, tree.module, node): core/ast.py 698-702 *)
  Variable import_module : str -> M W module.
  (** tree.context: core/ast.py 758, 2039 *)
  Variable context : list (str * val).

  Definition AM (A : Type) := ctx -> M W (A * ctx).
  Definition aret {A} (a : A) : AM A := fun c => ret (a, c).
  Definition abind {A B} (x : AM A) (f : A -> AM B) : AM B := fun c =>
    ac <* x c ;; f (fst ac) (snd ac).
  Notation "x <+ r ;; k" := (abind r (fun x => k)) (at level 61, r at next level, right associativity).
  (** a computation that does not change the context *)
  Definition aread {A} (f : ctx -> result A) : AM A := fun c => a <* of_result (f c) ;; ret (a, c).
  Definition alift {A} (x : M W A) : AM A := fun c => a <* x ;; ret (a, c).
  Definition amod (f : ctx -> ctx) : AM unit := fun c => ret (tt, f c).

  Definition amap {A B} (f : A -> AM B) : list A -> AM (list B) :=
    fix go (l : list A) : AM (list B) :=
      match l with
      | [] => aret []
      | x :: r => abind (f x) (fun y => abind (go r) (fun ys => aret (y :: ys)))
      end.
  Definition aiter {A} (f : A -> AM unit) : list A -> AM unit :=
    fix go (l : list A) : AM unit :=
      match l with
      | [] => aret tt
      | x :: r => abind (f x) (fun _ => go r)
      end.

  (** Slot(symbol, ctx): core/structs.py 427-441 *)
  Definition new_slot (symbol : str) : AM slot := fun c m =>
    let x := m_next m in
    let c' := with_md c (md_push symbol {| sl_id := x; sl_depth := c_regular c |} (c_md c)) in
    (Done (x, c'), with_next m (S x)).
  (** Slot(symbol, ctx); ctx.push(symbol, slot): core/ast.py 1220-1223, 1397-1398 *)
  Definition new_slot2 (symbol : str) : AM slot :=
    x <+ new_slot symbol ;;
    (fun c => ret (x, with_md c (md_push symbol {| sl_id := x; sl_depth := c_regular c |} (c_md c)))).

  Definition aposition : AM nat := fun c => ret (md_position (c_md c), c).
  Definition areset (position : nat) : AM unit := fun c =>
    d <* of_result (md_reset position (c_md c)) ;; ret (tt, with_md c d).
  Definition aasdict (position : nat) : AM (list (str * sinfo)) := fun c =>
    ret (md_asdict position (c_md c), c).

  (** core/ast.py 1384-1398: variable.analyse for targets; 1043-1045: xtargets.analyse *)
  Fixpoint an_target (t : target) : AM target :=
    match t with
    | TVar n read _ _ =>
        r <+ aread (fun c => if (read : bool) then lookup c (VAR n) else Ok None) ;;
        w <+ (fun c => match c_get c (VAR n) with
                       | Some x => if Nat.eqb (sl_depth x) (c_regular c) then ret (sl_id x, c)
                                   else new_slot2 (VAR n) c
                       | None => new_slot2 (VAR n) c
                       end) ;;
        aret (TVar n read r (Some w))
    | TTargets l => l <+ amap an_target l ;; aret (TTargets l)
    end.

  (** ImportedHypertag around hypertags: core/ast.py 711-714, 735-736. The state of a Python module does
      not exist, but such a module has no hypertags. *)
  Definition imported (md : module) (symbol : str) (v : val) : result val :=
    match v with
    | VHyper h => if IS_TAG symbol
                  then match mod_state md with
                       | Some s => Ok (VHyper (HImp h s))
                       | None => Raise AttributeError
                       end
                  else Ok v
    | _ => Ok v
    end.
  (** symbol[0] + rename: core/ast.py 729, 760 *)
  Definition renamed (symbol : str) (rename : option str) : str :=
    match rename with Some n => firstn 1 symbol ++ n | None => symbol end.

  (** core/ast.py 708-716: xwild_import.analyse, 726-738: xname_import.analyse. name[1] of a symbol
      shorter than 2 characters would be an IndexError; symbols have a mark and a non-empty name. *)
  Definition an_import (path : str) (i : iitem) : AM iitem :=
    md <+ alift (import_module path) ;;
    match i with
    | IWild _ =>
        let public := filter (fun yv => negb (N.eqb (nth 1 (fst yv) 0%N) 95%N)) (mod_symbols md) in
        vals <+ aread (fun _ => rmap (fun yv => let (y, v) := (yv : str * val) in
                                                v <- imported md y v ;; Ok (y, v)) public) ;;
        l <+ amap (fun yv => let (y, v) := (yv : str * val) in x <+ new_slot y ;; aret (x, v)) vals ;;
        aret (IWild (Some l))
    | IName y rename _ =>
        match dget str_eqb y (mod_symbols md) with
        | None => aread (fun _ => Raise ImportError)
        | Some v =>
            v <+ aread (fun _ => imported md y v) ;;
            x <+ new_slot (renamed y rename) ;;
            aret (IName y rename (Some (x, v)))
        end
    end.
  (** core/ast.py 757-764: xcntx_import.analyse *)
  Definition an_context (i : iitem) : AM iitem :=
    match i with
    | IWild _ => aread (fun _ => Raise SyntaxError)               (* excluded by the grammar *)
    | IName y rename _ =>
        match dget str_eqb y context with
        | None => aread (fun _ => Raise ImportError)
        | Some v => x <+ new_slot (renamed y rename) ;; aret (IName y rename (Some (x, v)))
        end
    end.

  (** core/ast.py 799-804: analysis of one branch of a control block *)
  Definition branch {A} (x : AM A) : AM A :=
    p <+ aposition ;;
    a <+ x ;;
    symbols <+ aasdict p ;;
    _ <+ areset p ;;
    _ <+ amod (fun c => with_md c (md_pushnew symbols (c_md c))) ;;
    aret a.

  (** core/ast.py 780-783: control_block.analyse *)
  Definition control {A} (x : AM A) : AM A :=
    _ <+ amod enter_control ;; a <+ x ;; _ <+ amod leave_control ;; aret a.

  (** xblock_def nodes are numbered in the order of the end of their analysis. *)
  Definition new_def (h : hdef) : AM nat := fun c m =>
    (Done (List.length (m_defs m), c), with_defs m (m_defs m ++ [h])).

  Definition prolog_block (b : block) : bool :=
    match b with BComment | BContext _ => true | _ => false end.

  Definition aopt {A B} (f : A -> AM B) (o : option A) : AM (option B) :=
    match o with Some x => y <+ f x ;; aret (Some y) | None => aret None end.

  Fixpoint an_block (b : block) {struct b} : AM block :=
    match b with
    | BText lead items => l <+ aread (fun c => rmap (an_titem c) items) ;; aret (BText lead l)
    | BComment => aret BComment
    | BEmbed e => e <+ aread (fun c => an_expr c e) ;; aret (BEmbed e)
    | BStruct tags y =>                                             (* 540-545 *)
        _ <+ amod enter_regular ;;
        p <+ aposition ;;
        tags <+ aread (fun c => rmap (an_tag c) tags) ;;
        y <+ an_body y ;;
        _ <+ areset p ;;
        _ <+ amod leave_regular ;;
        aret (BStruct tags y)
    | BDef _ name abody aregul y =>                                 (* 588-608 *)
        _ <+ aread (fun c => if Nat.leb 1 (c_control c) then Raise SyntaxError else Ok tt) ;;
        _ <+ amod enter_regular ;;
        _ <+ amod enter_hyper ;;
        p <+ aposition ;;
        defaults <+ aread (fun c => rmap (an_default c) aregul) ;;
        ab <+ match abody with
              | Some (n, _) => x <+ new_slot2 (VAR n) ;; aret (Some (n, x))
              | None => aret None
              end ;;
        regul <+ amap (fun a => x <+ new_slot2 (VAR (a_name a)) ;; aret (a_name a, a_default a, x)) defaults ;;
        y <+ an_body y ;;
        _ <+ areset p ;;
        _ <+ amod leave_hyper ;;
        _ <+ amod leave_regular ;;
        d <+ new_def {| h_name := name; h_body := ab; h_regul := regul; h_block := y |} ;;
        x <+ new_slot (TAG name) ;;
        aret (BDef (Some (d, x)) name
                   (match ab with Some (n, x) => Some (n, Some x) | None => None end)
                   (map (fun a => let '(n, e, x) := a in {| a_name := n; a_default := e; a_slot := Some x |}) regul) y)
    | BImport path items =>                                         (* 690-692 *)
        _ <+ aread (fun c => if Nat.leb 1 (c_control c) then Raise SyntaxError else Ok tt) ;;
        l <+ amap (an_import path) items ;;
        aret (BImport path l)
    | BContext items =>                                             (* 749-751 *)
        _ <+ aread (fun c => if c_prolog c then Ok tt else Raise SyntaxError) ;;
        l <+ amap an_context items ;;
        aret (BContext l)
    | BTry ys => ys <+ control (amap (fun y => branch (an_body y)) ys) ;; aret (BTry ys)
    | BIf clauses els =>
        r <+ control (
          cs <+ amap (fun cy => let (t, y) := (cy : expr * option body) in
                       branch (t <+ aread (fun c => an_expr c t) ;;
                               y <+ match y with Some y => y <+ an_body y ;; aret (Some y) | None => aret None end ;;
                               aret (t, y))) clauses ;;
          els <+ match els with Some y => y <+ branch (an_body y) ;; aret (Some y) | None => aret None end ;;
          aret (cs, els)) ;;
        aret (BIf (fst r) (snd r))
    | BWhile t y els =>
        r <+ control (
          ty <+ branch (t <+ aread (fun c => an_expr c t) ;;
                        y <+ match y with Some y => y <+ an_body y ;; aret (Some y) | None => aret None end ;;
                        aret (t, y)) ;;
          els <+ match els with Some y => y <+ branch (an_body y) ;; aret (Some y) | None => aret None end ;;
          aret (ty, els)) ;;
        aret (BWhile (fst (fst r)) (snd (fst r)) (snd r))
    | BFor ts e y els =>                                            (* 947-950 *)
        r <+ control (
          e <+ aread (fun c => an_expr c e) ;;
          ts <+ an_target ts ;;
          match y with
          | Some y => y <+ an_body y ;; aret (e, ts, Some y, els)
          | None => match els with
                    | Some z => z <+ an_body z ;; aret (e, ts, None, Some z)
                    | None => aret (e, ts, None, None)
                    end
          end) ;;
        let '(e, ts, y, els) := r in aret (BFor ts e y els)
    | BExpr e => e <+ aread (fun c => an_expr c e) ;; aret (BExpr e)
    | BAssign ts o e =>                                             (* 1023-1025 *)
        e <+ aread (fun c => an_expr c e) ;;
        ts <+ an_target ts ;;
        aret (BAssign ts o e)
    | BPass => aret BPass
    end
  with an_body (y : body) {struct y} : AM body :=
    match y with
    | YItems l => l <+ amap an_item l ;; aret (YItems l)
    | YBlock b => b <+ an_block b ;; aret (YBlock b)
    | YElse (Some y) => y <+ an_body y ;; aret (YElse (Some y))
    | YElse None => aret (YElse None)
    end
  with an_item (i : item) {struct i} : AM item :=
    match i with
    | NLine l => l <+ aread (fun c => an_line c l) ;; aret (NLine l)
    | NBlock margin md b =>                                         (* 443-449 *)
        _ <+ amod (fun c => if c_prolog c && negb (prolog_block b) then end_prolog c else c) ;;
        b <+ an_block b ;;
        aret (NBlock margin md b)
    | _ => aret i
    end.

  (** core/ast.py 395-400: xdocument.analyse, from the empty context (2028-2033). An empty dict of globals
      is an AttributeError in Python (393); the runtime never passes one. *)
  Definition an_document (globals : list (str * val)) (d : document) : M W analysed :=
    ac <* (ins <+ amap (fun yv => let (y, v) := (yv : str * val) in x <+ new_slot y ;; aret (x, v)) globals ;;
           p <+ aposition ;;
           l <+ amap an_item d ;;
           outs <+ aasdict p ;;
           aret {| d_in := ins; d_items := l; d_out := map (fun yx => (fst yx, sl_id (snd yx))) outs |}) new_ctx ;;
    ret (fst ac).

  (** core/ast.py 2035-2048: HypertagAST.translate with given builtins; the State created is the last one
      of the machine. *)
  Definition translate (P : prims W) (n : nat) (globals : list (str * val)) (d : document)
    : M W (nid * list (str * val) * nat) :=
    a <* an_document globals d ;;
    s <* (fun m => (Done (List.length (m_states m)), with_states m (m_states m ++ [new_stt]))) ;;
    r <* tr_document P n s a ;;
    ret (r, s).
End Analyse.
