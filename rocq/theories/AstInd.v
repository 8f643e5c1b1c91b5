(** Induction over the syntax tree, with hypotheses for the elements of lists. *)
From Coq Require Import List.
From Verif Require Import PyStr Value Ast.
Import ListNotations.

Definition on_opt {A} (P : A -> Prop) (o : option A) : Prop := match o with Some x => P x | None => True end.

Section Expr.
  Variable P : expr -> Prop.
  Variable Q : tail -> Prop.
  Variable R : part -> Prop.
  Hypothesis HLit : forall v, P (ELit v).
  Hypothesis HFormat : forall l, Forall R l -> P (EFormat l).
  Hypothesis HVar : forall n r, P (EVar n r).
  Hypothesis HTag : forall y r, P (ETag y r).
  Hypothesis HList : forall l, Forall P l -> P (EList l).
  Hypothesis HTuple : forall l, Forall P l -> P (ETuple l).
  Hypothesis HSet : forall l, Forall P l -> P (ESet l).
  Hypothesis HDict : forall l, Forall (fun kv => P (fst kv) /\ P (snd kv)) l -> P (EDict l).
  Hypothesis HFactor : forall a ts q, P a -> Forall Q ts -> P (EFactor a ts q).
  Hypothesis HChain : forall n h l, P h -> Forall (fun oe => P (snd oe)) l -> P (EChain n h l).
  Hypothesis HSimple : forall o h l, P h -> Forall P l -> P (ESimple o h l).
  Hypothesis HPipe : forall h l, P h -> Forall P l -> P (EPipe h l).
  Hypothesis HConcat : forall l, Forall P l -> P (EConcat l).
  Hypothesis HNot : forall n e, P e -> P (ENot n e).
  Hypothesis HAnd : forall h l, P h -> Forall P l -> P (EAnd h l).
  Hypothesis HOr : forall h l, P h -> Forall P l -> P (EOr h l).
  Hypothesis HIf : forall x c y, P x -> P c -> on_opt P y -> P (EIf x c y).
  Hypothesis HRoot : forall e q, P e -> P (ERoot e q).
  Hypothesis HCall : forall l, Forall (fun ne => P (snd ne)) l -> Q (TCall l).
  Hypothesis HPartial : forall l, Forall (fun ne => P (snd ne)) l -> Q (TPartial l).
  Hypothesis HIndex : forall e, P e -> Q (TIndex e).
  Hypothesis HSlice : forall a b c, on_opt P a -> on_opt P b -> on_opt P c -> Q (TSlice a b c).
  Hypothesis HMember : forall n, Q (TMember n).
  Hypothesis HText : forall t, R (PText t).
  Hypothesis HExpr : forall e, P e -> R (PExpr e).

  Fixpoint expr_ind' (e : expr) : P e :=
    let all := fix all (l : list expr) : Forall P l :=
      match l with [] => Forall_nil _ | x :: r => Forall_cons x (expr_ind' x) (all r) end in
    match e with
    | ELit v => HLit v
    | EFormat l => HFormat l ((fix go (l : list part) : Forall R l :=
        match l with [] => Forall_nil _ | x :: r => Forall_cons x (part_ind' x) (go r) end) l)
    | EVar n r => HVar n r
    | ETag y r => HTag y r
    | EList l => HList l (all l)
    | ETuple l => HTuple l (all l)
    | ESet l => HSet l (all l)
    | EDict l => HDict l ((fix go (l : list (expr * expr)) : Forall (fun kv => P (fst kv) /\ P (snd kv)) l :=
        match l with
        | [] => Forall_nil _
        | (x, y) :: r => Forall_cons (x, y) (conj (expr_ind' x) (expr_ind' y)) (go r)
        end) l)
    | EFactor a ts q => HFactor a ts q (expr_ind' a) ((fix go (l : list tail) : Forall Q l :=
        match l with [] => Forall_nil _ | x :: r => Forall_cons x (tail_ind' x) (go r) end) ts)
    | EChain n h l => HChain n h l (expr_ind' h)
        ((fix go (l : list (binop * expr)) : Forall (fun oe => P (snd oe)) l :=
            match l with [] => Forall_nil _ | (o, x) :: r => Forall_cons (o, x) (expr_ind' x) (go r) end) l)
    | ESimple o h l => HSimple o h l (expr_ind' h) (all l)
    | EPipe h l => HPipe h l (expr_ind' h) (all l)
    | EConcat l => HConcat l (all l)
    | ENot n e => HNot n e (expr_ind' e)
    | EAnd h l => HAnd h l (expr_ind' h) (all l)
    | EOr h l => HOr h l (expr_ind' h) (all l)
    | EIf x c y => HIf x c y (expr_ind' x) (expr_ind' c)
        (match y return on_opt P y with Some y => expr_ind' y | None => I end)
    | ERoot e q => HRoot e q (expr_ind' e)
    end
  with tail_ind' (t : tail) : Q t :=
    let args := fix args (l : list (option str * expr)) : Forall (fun ne => P (snd ne)) l :=
      match l with [] => Forall_nil _ | (n, x) :: r => Forall_cons (n, x) (expr_ind' x) (args r) end in
    match t with
    | TCall l => HCall l (args l)
    | TPartial l => HPartial l (args l)
    | TIndex e => HIndex e (expr_ind' e)
    | TSlice a b c => HSlice a b c
        (match a return on_opt P a with Some y => expr_ind' y | None => I end)
        (match b return on_opt P b with Some y => expr_ind' y | None => I end)
        (match c return on_opt P c with Some y => expr_ind' y | None => I end)
    | TMember n => HMember n
    end
  with part_ind' (p : part) : R p :=
    match p with
    | PText t => HText t
    | PExpr e => HExpr e (expr_ind' e)
    end.

  Lemma expr_tail_part_ind : (forall e, P e) /\ (forall t, Q t) /\ (forall p, R p).
  Proof. exact (conj expr_ind' (conj tail_ind' part_ind')). Qed.
End Expr.

Section Block.
  Variable P : block -> Prop.
  Variable Q : body -> Prop.
  Variable R : item -> Prop.
  Hypothesis HText : forall lead l, P (BText lead l).
  Hypothesis HComment : P BComment.
  Hypothesis HEmbed : forall e, P (BEmbed e).
  Hypothesis HStruct : forall tags y, Q y -> P (BStruct tags y).
  Hypothesis HDef : forall d n ab ar y, Q y -> P (BDef d n ab ar y).
  Hypothesis HImport : forall p l, P (BImport p l).
  Hypothesis HContext : forall l, P (BContext l).
  Hypothesis HTry : forall l, Forall Q l -> P (BTry l).
  Hypothesis HIf : forall l els, Forall (fun cy => on_opt Q (snd cy)) l -> on_opt Q els -> P (BIf l els).
  Hypothesis HWhile : forall t y els, on_opt Q y -> on_opt Q els -> P (BWhile t y els).
  Hypothesis HFor : forall ts e y els, on_opt Q y -> on_opt Q els -> P (BFor ts e y els).
  Hypothesis HBExpr : forall e, P (BExpr e).
  Hypothesis HAssign : forall ts o e, P (BAssign ts o e).
  Hypothesis HPass : P BPass.
  Hypothesis HItems : forall l, Forall R l -> Q (YItems l).
  Hypothesis HBlock : forall b, P b -> Q (YBlock b).
  Hypothesis HElse : forall o, on_opt Q o -> Q (YElse o).
  Hypothesis HLine : forall l, R (NLine l).
  Hypothesis HIndent : forall c, R (NIndent c).
  Hypothesis HDedent : forall c, R (NDedent c).
  Hypothesis HMargin : forall s, R (NMargin s).
  Hypothesis HNBlock : forall mg m b, P b -> R (NBlock mg m b).

  Fixpoint block_ind' (b : block) : P b :=
    match b with
    | BText lead l => HText lead l
    | BComment => HComment
    | BEmbed e => HEmbed e
    | BStruct tags y => HStruct tags y (body_ind' y)
    | BDef d n ab ar y => HDef d n ab ar y (body_ind' y)
    | BImport p l => HImport p l
    | BContext l => HContext l
    | BTry l => HTry l ((fix go (l : list body) : Forall Q l :=
        match l with [] => Forall_nil _ | x :: r => Forall_cons x (body_ind' x) (go r) end) l)
    | BIf l els => HIf l els ((fix go (l : list (expr * option body)) : Forall (fun cy => on_opt Q (snd cy)) l :=
        match l with
        | [] => Forall_nil _
        | (c, y) :: r => Forall_cons (c, y) (match y return on_opt Q y with Some y => body_ind' y | None => I end) (go r)
        end) l)
        (match els return on_opt Q els with Some y => body_ind' y | None => I end)
    | BWhile t y els => HWhile t y els
        (match y return on_opt Q y with Some y => body_ind' y | None => I end)
        (match els return on_opt Q els with Some y => body_ind' y | None => I end)
    | BFor ts e y els => HFor ts e y els
        (match y return on_opt Q y with Some y => body_ind' y | None => I end)
        (match els return on_opt Q els with Some y => body_ind' y | None => I end)
    | BExpr e => HBExpr e
    | BAssign ts o e => HAssign ts o e
    | BPass => HPass
    end
  with body_ind' (y : body) : Q y :=
    match y with
    | YItems l => HItems l ((fix go (l : list item) : Forall R l :=
        match l with [] => Forall_nil _ | x :: r => Forall_cons x (item_ind' x) (go r) end) l)
    | YBlock b => HBlock b (block_ind' b)
    | YElse o => HElse o (match o return on_opt Q o with Some y => body_ind' y | None => I end)
    end
  with item_ind' (i : item) : R i :=
    match i with
    | NLine l => HLine l
    | NIndent c => HIndent c
    | NDedent c => HDedent c
    | NMargin s => HMargin s
    | NBlock mg m b => HNBlock mg m b (block_ind' b)
    end.

  Lemma block_body_item_ind : (forall b, P b) /\ (forall y, Q y) /\ (forall i, R i).
  Proof. exact (conj block_ind' (conj body_ind' item_ind')). Qed.
End Block.

Section Target.
  Variable P : target -> Prop.
  Hypothesis HVar : forall n rd r w, P (TVar n rd r w).
  Hypothesis HTargets : forall l, Forall P l -> P (TTargets l).
  Fixpoint target_ind' (t : target) : P t :=
    match t with
    | TVar n rd r w => HVar n rd r w
    | TTargets l => HTargets l ((fix go (l : list target) : Forall P l :=
        match l with [] => Forall_nil _ | x :: r => Forall_cons x (target_ind' x) (go r) end) l)
    end.
End Target.
