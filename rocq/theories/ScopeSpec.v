(** Specification side of C33-C36: names used and slots written by the parts of a syntax tree, and the
    scoping rules of scripts. *)
From Coq Require Import List NArith Bool Arith.
From Verif Require Import PyStr Value Dom Ast Machine.
Import ListNotations.

(** ** Slots written when a block is translated, in the state of the block *)
Fixpoint writes_target (t : target) : list slot :=
  match t with
  | TVar _ _ _ (Some x) => [x]
  | TVar _ _ _ None => []
  | TTargets l => flat_map writes_target l
  end.
Definition writes_import (i : iitem) : list slot :=
  match i with
  | IWild (Some l) => map fst l
  | IName _ _ (Some (x, _)) => [x]
  | _ => []
  end.
Definition on_some {A B} (f : A -> list B) (o : option A) : list B := match o with Some x => f x | None => [] end.
Fixpoint writes_block (b : block) : list slot :=
  match b with
  | BStruct _ y => writes_body y
  | BDef (Some (_, x)) _ _ _ _ => [x]
  | BImport _ l | BContext l => flat_map writes_import l
  | BTry ys => flat_map writes_body ys
  | BIf cs els => flat_map (fun cy => match snd cy with Some y => writes_body y | None => [] end) cs
                  ++ match els with Some y => writes_body y | None => [] end
  | BWhile _ y els => match y with Some y => writes_body y | None => [] end
                      ++ match els with Some y => writes_body y | None => [] end
  | BFor ts _ y els => writes_target ts ++ match y with Some y => writes_body y | None => [] end
                       ++ match els with Some y => writes_body y | None => [] end
  | BAssign ts _ _ => writes_target ts
  | _ => []
  end
with writes_body (y : body) : list slot :=
  match y with
  | YItems l => flat_map writes_item l
  | YBlock b => writes_block b
  | YElse (Some y) => writes_body y
  | YElse None => []
  end
with writes_item (i : item) : list slot :=
  match i with
  | NBlock _ _ b => writes_block b
  | _ => []
  end.
(** assignments in a block to variables of its surroundings: names and slots *)
Fixpoint binds_target (t : target) : list (str * slot) :=
  match t with
  | TVar n _ _ (Some x) => [(n, x)]
  | TVar _ _ _ None => []
  | TTargets l => flat_map binds_target l
  end.
Fixpoint binds (b : block) : list (str * slot) :=
  match b with
  | BTry ys => flat_map binds_body ys
  | BIf cs els => flat_map (fun cy => match snd cy with Some y => binds_body y | None => [] end) cs
                  ++ match els with Some y => binds_body y | None => [] end
  | BWhile _ y els => match y with Some y => binds_body y | None => [] end
                      ++ match els with Some y => binds_body y | None => [] end
  | BFor ts _ y els => binds_target ts ++ match y with Some y => binds_body y | None => [] end
                       ++ match els with Some y => binds_body y | None => [] end
  | BAssign ts _ _ => binds_target ts
  | _ => []                                              (* in particular a tagged block *)
  end
with binds_body (y : body) : list (str * slot) :=
  match y with
  | YItems l => flat_map binds_item l
  | YBlock b => binds b
  | YElse (Some y) => binds_body y
  | YElse None => []
  end
with binds_item (i : item) : list (str * slot) :=
  match i with
  | NBlock _ _ b => binds b
  | _ => []
  end.
(** slots written by an expansion of a hypertag *)
Definition writes_def (h : hdef) : list slot :=
  on_some (fun nx => [snd nx]) (h_body h) ++ map snd (h_regul h) ++ writes_body (h_block h).

(** no definition writes the slot *)
Definition unwritten (x : slot) (defs : list hdef) : Prop := forall h, In h defs -> ~ In x (writes_def h).

(** ** Trees as they come from the parser
    The analysis of a for loop with a body skips its else clause (core/ast.py 947-950), so what that
    clause contains stays as it was before the analysis: without slots. *)
Definition all_of {A} (f : A -> Prop) : list A -> Prop :=
  fix go (l : list A) : Prop := match l with [] => True | x :: r => f x /\ go r end.
Fixpoint raw_block (b : block) : Prop :=
  match b with
  | BStruct _ y | BDef _ _ _ _ y => raw_body y
  | BTry ys => all_of raw_body ys
  | BIf cs els => all_of (fun cy => match snd cy with Some y => raw_body y | None => True end) cs
                  /\ match els with Some y => raw_body y | None => True end
  | BWhile _ y els => match y with Some y => raw_body y | None => True end
                      /\ match els with Some y => raw_body y | None => True end
  | BFor _ _ y els => match y with Some y => raw_body y | None => True end
                      /\ match els with Some z => raw_body z /\ writes_body z = [] | None => True end
  | _ => True
  end
with raw_body (y : body) : Prop :=
  match y with
  | YItems l => all_of raw_item l
  | YBlock b => raw_block b
  | YElse (Some y) => raw_body y
  | YElse None => True
  end
with raw_item (i : item) : Prop :=
  match i with NBlock _ _ b => raw_block b | _ => True end.

(** ** Names used *)

(** marks of variables and tags in the common space of symbols *)
Definition var_symbol (n : str) : str := 36%N :: n.     (* $ *)
Definition tag_symbol (n : str) : str := 37%N :: n.     (* % *)

Fixpoint uses (e : expr) : list str :=
  match e with
  | ELit _ => []
  | EFormat ps => flat_map uses_part ps
  | EVar n _ => [var_symbol n]
  | ETag y _ => [y]
  | EList l | ETuple l | ESet l | EConcat l => flat_map uses l
  | EDict l => flat_map (fun kv => uses (fst kv) ++ uses (snd kv)) l
  | EFactor a ts _ => uses a ++ flat_map uses_tail ts
  | EChain _ h l => uses h ++ flat_map (fun oe => uses (snd oe)) l
  | ESimple _ h l | EPipe h l | EAnd h l | EOr h l => uses h ++ flat_map uses l
  | ENot _ e | ERoot e _ => uses e
  | EIf x c y => uses x ++ uses c ++ match y with Some y => uses y | None => [] end
  end
with uses_tail (t : tail) : list str :=
  match t with
  | TCall l | TPartial l => flat_map (fun ne => uses (snd ne)) l
  | TIndex e => uses e
  | TSlice a b c => match a with Some e => uses e | None => [] end
                    ++ match b with Some e => uses e | None => [] end
                    ++ match c with Some e => uses e | None => [] end
  | TMember _ => []
  end
with uses_part (p : part) : list str := match p with PText _ => [] | PExpr e => uses e end.
Definition uses_line (l : line) : list str :=
  match l with LVerbat _ => [] | LNormal ps | LMarkup ps => flat_map uses_part ps end.
Definition uses_titem (t : titem) : list str := match t with TxLine l => uses_line l | _ => [] end.
Definition uses_tag (t : tagexp) : list str :=
  match t with
  | XNull => []
  | XTag n _ un nm => tag_symbol n :: flat_map uses un ++ flat_map (fun ne => uses (snd ne)) nm
  end.

(** Every name is linked with a slot. *)
Fixpoint linked (e : expr) : Prop :=
  match e with
  | ELit _ => True
  | EFormat ps => all_of linked_part ps
  | EVar _ r | ETag _ r => r <> None
  | EList l | ETuple l | ESet l | EConcat l => all_of linked l
  | EDict l => all_of (fun kv => linked (fst kv) /\ linked (snd kv)) l
  | EFactor a ts _ => linked a /\ all_of linked_tail ts
  | EChain _ h l => linked h /\ all_of (fun oe => linked (snd oe)) l
  | ESimple _ h l | EPipe h l | EAnd h l | EOr h l => linked h /\ all_of linked l
  | ENot _ e | ERoot e _ => linked e
  | EIf x c y => linked x /\ linked c /\ match y with Some y => linked y | None => True end
  end
with linked_tail (t : tail) : Prop :=
  match t with
  | TCall l | TPartial l => all_of (fun ne => linked (snd ne)) l
  | TIndex e => linked e
  | TSlice a b c => match a with Some e => linked e | None => True end
                    /\ match b with Some e => linked e | None => True end
                    /\ match c with Some e => linked e | None => True end
  | TMember _ => True
  end
with linked_part (p : part) : Prop := match p with PText _ => True | PExpr e => linked e end.
Definition linked_line (l : line) : Prop :=
  match l with LVerbat _ => True | LNormal ps | LMarkup ps => all_of linked_part ps end.
Definition linked_titem (t : titem) : Prop := match t with TxLine l => linked_line l | _ => True end.
Definition linked_tag (t : tagexp) : Prop :=
  match t with
  | XNull => True
  | XTag _ x un nm => x <> None /\ all_of linked un /\ all_of (fun ne => linked (snd ne)) nm
  end.
Fixpoint linked_target (t : target) : Prop :=
  match t with
  | TVar _ read r w => w <> None /\ (read = true -> r <> None)
  | TTargets l => all_of linked_target l
  end.
Definition linked_import (i : iitem) : Prop := match i with IWild s => s <> None | IName _ _ s => s <> None end.
Definition linked_default (a : attrdef) : Prop := match a_default a with Some e => linked e | None => True end.
Fixpoint linked_block (b : block) : Prop :=
  match b with
  | BText _ l => all_of linked_titem l
  | BComment | BPass => True
  | BEmbed e | BExpr e => linked e
  | BStruct tags y => all_of linked_tag tags /\ linked_body y
  | BDef d _ ab ar y => d <> None /\ match ab with Some (_, x) => x <> None | None => True end
                        /\ all_of (fun a => a_slot a <> None /\ linked_default a) ar /\ linked_body y
  | BImport _ l | BContext l => all_of linked_import l
  | BTry ys => all_of linked_body ys
  | BIf cs els => all_of (fun cy => linked (fst cy) /\ match snd cy with Some y => linked_body y | None => True end) cs
                  /\ match els with Some y => linked_body y | None => True end
  | BWhile t y els => linked t /\ match y with Some y => linked_body y | None => True end
                      /\ match els with Some y => linked_body y | None => True end
  | BFor ts e y els => linked_target ts /\ linked e /\ match y with Some y => linked_body y | None => True end
                       /\ match els with Some y => linked_body y | None => True end
  | BAssign ts _ e => linked_target ts /\ linked e
  end
with linked_body (y : body) : Prop :=
  match y with
  | YItems l => all_of linked_item l
  | YBlock b => linked_block b
  | YElse (Some y) => linked_body y
  | YElse None => True
  end
with linked_item (i : item) : Prop :=
  match i with
  | NLine l => linked_line l
  | NBlock _ _ b => linked_block b
  | _ => True
  end.

(** ** Scoping rules *)
Section Scoping.
  (** the symbols of a module, if there is one under the path; names given in the dynamic context *)
  Variable modules : str -> option (list str).
  Variable given_names : list str.

  (** the name under which a symbol is imported *)
  Definition import_name (y : str) (rename : option str) : str :=
    match rename with Some n => firstn 1 y ++ n | None => y end.
  (** hidden names start with an underscore *)
  Definition public (y : str) : bool := negb (N.eqb (nth 1 y 0%N) 95%N).

  (** *** Symbols a block adds to its surroundings *)
  Fixpoint adds_target (t : target) : list str :=
    match t with
    | TVar n _ _ _ => [var_symbol n]
    | TTargets l => flat_map adds_target l
    end.
  Definition adds_import (path : str) (i : iitem) : list str :=
    match i with
    | IWild _ => match modules path with Some ys => filter public ys | None => [] end
    | IName y rn _ => [import_name y rn]
    end.
  Fixpoint adds (b : block) : list str :=
    match b with
    | BDef _ n _ _ _ => [tag_symbol n]
    | BImport path l => flat_map (adds_import path) l
    | BContext l => flat_map (adds_import []) l
    | BTry ys => flat_map adds_body ys
    | BIf cs els => flat_map (fun cy => match snd cy with Some y => adds_body y | None => [] end) cs
                    ++ match els with Some y => adds_body y | None => [] end
    | BWhile _ y els => match y with Some y => adds_body y | None => [] end
                        ++ match els with Some y => adds_body y | None => [] end
    | BFor ts _ y els => adds_target ts ++ match y with
                                           | Some y => adds_body y
                                           | None => match els with Some y => adds_body y | None => [] end
                                           end
    | BAssign ts _ _ => adds_target ts
    | _ => []                                            (* in particular a tagged block *)
    end
  with adds_body (y : body) : list str :=
    match y with
    | YItems l => flat_map adds_item l
    | YBlock b => adds b
    | YElse (Some y) => adds_body y
    | YElse None => []
    end
  with adds_item (i : item) : list str := match i with NBlock _ _ b => adds b | _ => [] end.

  (** *** Scripts whose names are defined before they are used. [E]: symbols visible, [ctl]: inside a
      control block, [prolog]: only comments and context blocks so far *)
  Definition in_order {A} (f : list str -> A -> Prop) (added : A -> list str) : list str -> list A -> Prop :=
    fix go (E : list str) (l : list A) : Prop :=
      match l with
      | [] => True
      | x :: r => f E x /\ go (added x ++ E) r
      end.
  Fixpoint scoped_target (E : list str) (t : target) : Prop :=
    match t with
    | TVar n read _ _ => read = true -> In (var_symbol n) E
    | TTargets l => in_order scoped_target adds_target E l
    end.
  Definition scoped_import (path : str) (i : iitem) : Prop :=
    exists ys, modules path = Some ys /\ match i with IWild _ => True | IName y _ _ => In y ys end.
  Definition scoped_context (i : iitem) : Prop :=
    match i with IWild _ => False | IName y _ _ => In y given_names end.
  Definition only_prolog (b : block) : bool := match b with BComment | BContext _ => true | _ => false end.

  Fixpoint scoped (ctl prolog : bool) (E : list str) (b : block) : Prop :=
    match b with
    | BText _ l => incl (flat_map uses_titem l) E
    | BComment | BPass => True
    | BEmbed e | BExpr e => incl (uses e) E
    | BStruct tags y => incl (flat_map uses_tag tags) E /\ scoped_body ctl E y
    | BDef _ _ ab ar y =>
        ctl = false /\ all_of (fun a => match a_default a with Some e => incl (uses e) E | None => True end) ar /\
        scoped_body ctl (map (fun a => var_symbol (a_name a)) ar
                         ++ match ab with Some (n, _) => [var_symbol n] | None => [] end ++ E) y
    | BImport path l => ctl = false /\ all_of (scoped_import path) l
    | BContext l => prolog = true /\ all_of scoped_context l
    | BTry ys => in_order (scoped_body true) adds_body E ys
    | BIf cs els =>
        in_order (fun E cy => incl (uses (fst cy)) E /\ match snd cy with Some y => scoped_body true E y | None => True end)
                 (fun cy => match snd cy with Some y => adds_body y | None => [] end) E cs /\
        match els with
        | Some y => scoped_body true (flat_map (fun cy => match snd cy with Some y => adds_body y | None => [] end) cs ++ E) y
        | None => True
        end
    | BWhile t y els =>
        incl (uses t) E /\ match y with Some y => scoped_body true E y | None => True end /\
        match els with
        | Some z => scoped_body true (match y with Some y => adds_body y | None => [] end ++ E) z
        | None => True
        end
    | BFor ts e y els =>
        incl (uses e) E /\ scoped_target E ts /\
        match y with Some y => scoped_body true (adds_target ts ++ E) y | None => True end /\
        match els with
        | Some z => scoped_body true (match y with Some y => adds_body y | None => [] end ++ adds_target ts ++ E) z
        | None => True
        end
    | BAssign ts _ e => incl (uses e) E /\ scoped_target E ts
    end
  with scoped_body (ctl : bool) (E : list str) (y : body) : Prop :=
    match y with
    | YItems l => in_order (scoped_item ctl false) adds_item E l
    | YBlock b => scoped ctl false E b
    | YElse (Some y) => scoped_body ctl E y
    | YElse None => True
    end
  with scoped_item (ctl prolog : bool) (E : list str) (i : item) : Prop :=
    match i with
    | NLine l => incl (uses_line l) E
    | NBlock _ _ b => scoped ctl prolog E b
    | _ => True
    end.
  Fixpoint scoped_items (prolog : bool) (E : list str) (l : list item) : Prop :=
    match l with
    | [] => True
    | i :: r => scoped_item false prolog E i /\
                scoped_items (match i with NBlock _ _ b => prolog && only_prolog b | _ => prolog end) (adds_item i ++ E) r
    end.
End Scoping.

(** no for loop has both a body and an else clause *)
Fixpoint no_for_else (b : block) : Prop :=
  match b with
  | BStruct _ y | BDef _ _ _ _ y => no_for_else_body y
  | BTry ys => all_of no_for_else_body ys
  | BIf cs els => all_of (fun cy => match snd cy with Some y => no_for_else_body y | None => True end) cs
                  /\ match els with Some y => no_for_else_body y | None => True end
  | BWhile _ y els => match y with Some y => no_for_else_body y | None => True end
                      /\ match els with Some y => no_for_else_body y | None => True end
  | BFor _ _ (Some y) els => no_for_else_body y /\ els = None
  | BFor _ _ None (Some y) => no_for_else_body y
  | _ => True
  end
with no_for_else_body (y : body) : Prop :=
  match y with
  | YItems l => all_of no_for_else_item l
  | YBlock b => no_for_else b
  | YElse (Some y) => no_for_else_body y
  | YElse None => True
  end
with no_for_else_item (i : item) : Prop := match i with NBlock _ _ b => no_for_else b | _ => True end.

(** Nothing happens but imports of modules; slots and definitions are numbered meanwhile. *)
Inductive imports_only {W} (import_module : str -> M W module) : mach W -> mach W -> Prop :=
| io_none m : imports_only import_module m m
| io_next m m1 k : imports_only import_module m m1 -> imports_only import_module m (with_next m1 k)
| io_defs m m1 l : imports_only import_module m m1 -> imports_only import_module m (with_defs m1 l)
| io_import m m1 m2 p o : imports_only import_module m m1 -> import_module p m1 = (o, m2) -> o <> Fuel ->
    imports_only import_module m m2.
