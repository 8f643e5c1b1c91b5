(** Proofs about templates: values of expressions after parsing and analysis. *)
From Coq Require Import List NArith ZArith Bool Arith Lia String.
From Verif Require Import PyStr PyStrFacts PyDict Structs Value Dom Ast Machine Eval Translate Analyse ExprFacts
  PageSpec OperSpec OperParse TmplSpec.
Import ListNotations.
Local Open Scope list_scope.

(** [tells x o s]: the outcome [o] is the one that [x] says, and the state is still [s]. *)
Definition tells {A S} (x : ans A) (o : out A * S) (s : S) : Prop :=
  match x with
  | Is v => o = (Done v, s)
  | Raises => exists e, o = (Exc e, s)
  | Open => True
  end.

(** Python as supplied to the model answers what [Q] says, without effects on the world. *)
Record agrees {W} (P : prims W) (Q : py) : Prop := {
  ag_truth : forall v t h w, py_truth Q v = Some t -> p_truth P v h w = (Done t, w);
  ag_text : forall v h w, tells (py_text Q v) (p_text P v h w) w;
  ag_str : forall v, match py_text Q v with
                     | Is t => p_str (p_ren P) v = Ok t
                     | Raises => exists e, p_str (p_ren P) v = Raise e
                     | Open => True
                     end;
  ag_op : forall o x y h w, tells (py_op Q o x y) (p_binop P o x y h w) w;
  ag_neg : forall x h w, tells (py_neg Q x) (p_neg P x h w) w;
  ag_member : forall x n h w, tells (py_member Q x n) (p_getattr P x n h w) w;
  ag_item : forall x i h w, tells (py_item Q x i) (p_getitem P x i h w) w;
  ag_slice : forall x i j k h w, tells (py_slice Q x i j k) (p_getslice P x i j k h w) w;
  ag_call : forall f a k h w, tells (py_call Q f a k) (p_call P f a k h w) w;
  ag_iter : forall x h w, tells (l <: py_iter Q x ;; Is (l, None)) (p_iter P x h w) w;
  ag_set : forall l h w, tells (py_set Q l) (p_mkset P l h w) w;
  ag_dict : forall l h w, tells (py_dict Q l) (p_mkdict P l h w) w
}.

Lemma oseq_some {A B} (x : ans A) (f : A -> ans B) b : oseq x f = Is b -> exists a, x = Is a /\ f a = Is b.
Proof. destruct x as [a| |]; try discriminate. intros E. exists a. split; [reflexivity|exact E]. Qed.

Lemma str_is {W} (P : prims W) Q (AG : agrees P Q) v t : py_text Q v = Is t -> p_str (p_ren P) v = Ok t.
Proof. intros E. pose proof (ag_str _ _ AG v) as H. rewrite E in H. exact H. Qed.

Lemma given_is {A} (x : option A) a : given_by x = Is a -> x = Some a.
Proof. destruct x; [intros [= ->]; reflexivity|discriminate]. Qed.

Lemma oseq_raises {A B} (x : ans A) (f : A -> ans B) : oseq x f = Raises -> x = Raises \/ exists a, x = Is a /\ f a = Raises.
Proof. destruct x as [a| |]; try discriminate; [|left; reflexivity]. intros E. right. exists a. split; [reflexivity|exact E]. Qed.

(** An exception, in any state. *)
Definition fails {A S} (o : out A * S) : Prop := exists e z, o = (Exc e, z).
Lemma tells_fails {A S} (x : ans A) (o : out A * S) z : tells x o z -> x = Raises -> fails o.
Proof. intros H ->. destruct H as [e H]. exists e, z. exact H. Qed.
Lemma fails_bind {W A B} (x : M W A) (f : A -> M W B) m : fails (x m) -> fails (mbind x f m).
Proof. intros (e & z & E). exists e, z. unfold mbind. rewrite E. reflexivity. Qed.
Lemma fails_then {W A B} (x : M W A) (f : A -> M W B) m a m1 : x m = (Done a, m1) -> fails (f a m1) -> fails (mbind x f m).
Proof. intros E H. unfold mbind. rewrite E. exact H. Qed.

(** An exception, in the same state. *)
Definition stuck {A S} (o : out A * S) (z : S) : Prop := exists e, o = (Exc e, z).
Lemma tells_stuck {A S} (x : ans A) (o : out A * S) z : tells x o z -> x = Raises -> stuck o z.
Proof. intros H ->. exact H. Qed.
Lemma stuck_bind {W A B} (x : M W A) (f : A -> M W B) m z : stuck (x m) z -> stuck (mbind x f m) z.
Proof. intros (e & E). exists e. unfold mbind. rewrite E. reflexivity. Qed.
Lemma stuck_then {W A B} (x : M W A) (f : A -> M W B) m a m1 z : x m = (Done a, m1) -> stuck (f a m1) z -> stuck (mbind x f m) z.
Proof. intros E H. unfold mbind. rewrite E. exact H. Qed.
Lemma stuck_fails {A S} (o : out A * S) z : stuck o z -> fails o.
Proof. intros [e E]. exists e, z. exact E. Qed.

(** Takes a computation apart. *)
Ltac oinv H x E := apply oseq_some in H; destruct H as [x [E H]].
Lemma oloop_keeps {A} (K : A -> Prop) test one : (forall p q, K p -> one p = Is q -> K q) -> forall n p q, K p -> oloop test one n p = Is q -> K q.
Proof.
  intros H. induction n as [|n IH]; intros p q Kp E; [discriminate|]. cbn [oloop] in E. oinv E t Et. destruct t; [|injection E as <-; exact Kp].
  oinv E p1 E1. exact (IH p1 q (H _ _ Kp E1) E).
Qed.
Ltac orai H x E := apply oseq_raises in H; destruct H as [H|[x [E H]]].

Section Expr.
Context {W : Type}.
Variables (P : prims W) (Q : py).
Hypothesis AG : agrees P Q.
Variable ex' : hyper -> val -> list val -> list (str * val) -> nat -> M W (list nid).
Variable s : nat.
Notation eval := (eval P ex' s).
Notation apply_tail := (apply_tail P ex' s).

(** ** Operations *)

Lemma bind_done {A B} (x : M W A) (f : A -> M W B) m a m' : x m = (Done a, m') -> mbind x f m = f a m'.
Proof. intros E. unfold mbind. rewrite E. reflexivity. Qed.

Lemma lift_done {A} (f : prim W A) m a : f (m_heap m) (m_world m) = (Done a, m_world m) -> lift_p f m = (Done a, m).
Proof. intros E. unfold lift_p. rewrite E. destruct m; reflexivity. Qed.

Lemma tells_is {A S} (x : ans A) (o : out A * S) z v : tells x o z -> x = Is v -> o = (Done v, z).
Proof. intros H ->. exact H. Qed.
Lemma tells_bind {A B} (x : ans A) (f : A -> ans B) (X : M W A) (F : A -> M W B) m :
  tells x (X m) m -> (forall a, x = Is a -> tells (f a) (F a m) m) -> tells (oseq x f) (mbind X F m) m.
Proof.
  intros H K. destruct x as [a| |]; cbn [oseq tells] in *; [|destruct H as [e H]; exists e; unfold mbind; rewrite H; reflexivity|exact Logic.I].
  rewrite (bind_done _ _ _ _ _ H). apply K. reflexivity.
Qed.
Lemma tells_ret {A} (a : A) m : tells (Is a) (ret (W := W) a m) m.
Proof. reflexivity. Qed.
Lemma tells_lift {A} (x : ans A) (f : prim W A) m : tells x (f (m_heap m) (m_world m)) (m_world m) -> tells x (lift_p f m) m.
Proof.
  unfold lift_p. destruct x as [a| |]; cbn [tells]; [intros ->|intros [e ->]; exists e|trivial]; destruct m; reflexivity.
Qed.
(** Loops. *)
Lemma tells_mmap {A A' B} (R : A -> A' -> Prop) (f : A -> ans B) (F : A' -> M W B) m l ts : Forall2 R l ts ->
  (forall a t, R a t -> tells (f a) (F t m) m) -> tells (omap f l) (mmap F ts m) m.
Proof.
  intros H K. induction H as [|a t l ts Ha _ IH]; [reflexivity|]. cbn [omap mmap].
  apply tells_bind; [apply K, Ha|]. intros y _. apply tells_bind; [exact IH|]. intros ys _. reflexivity.
Qed.
Lemma tells_mfold {A A' B} (R : A -> A' -> Prop) (f : B -> A -> ans B) (F : B -> A' -> M W B) m l ts : Forall2 R l ts ->
  (forall a t v, R a t -> tells (f v a) (F v t m) m) -> forall v, tells (ofold f l v) (mfold F ts v m) m.
Proof.
  intros H K. induction H as [|a t l ts Ha _ IH]; intros v; [reflexivity|]. cbn [ofold mfold].
  apply tells_bind; [apply K, Ha|]. intros y _. apply IH.
Qed.
Lemma tells_mconcat {A A' B} (R : A -> A' -> Prop) (f : A -> ans (list B)) (F : A' -> M W (list B)) m l ts : Forall2 R l ts ->
  (forall a t, R a t -> tells (f a) (F t m) m) -> tells (l <: omap f l ;; Is (List.concat l)) (mconcat F ts m) m.
Proof.
  intros H K. induction H as [|a t l ts Ha _ IH]; [reflexivity|]. cbn [omap mconcat]. specialize (K _ _ Ha).
  destruct (f a) as [y| |]; cbn [oseq tells] in *; [|destruct K as [e K]; exists e; unfold mbind; rewrite K; reflexivity|exact Logic.I].
  rewrite (bind_done _ _ _ _ _ K). destruct (omap f l) as [ys| |]; cbn [oseq tells List.concat] in *; [|destruct IH as [e IH]; exists e; unfold mbind; rewrite IH; reflexivity|exact Logic.I].
  rewrite (bind_done _ _ _ _ _ IH). reflexivity.
Qed.

Lemma truth_tells v m : tells (bool_of Q v) (truth P v m) m.
Proof.
  destruct v; cbn [bool_of truth]; try reflexivity; try (match goal with |- context [nonempty ?l] => destruct l; reflexivity end).
  destruct (py_truth Q (VObj n)) as [t|] eqn:E; [|exact Logic.I]. apply tells_lift. apply (ag_truth _ _ AG). exact E.
Qed.
Lemma truth_done v t m : bool_of Q v = Is t -> truth P v m = (Done t, m).
Proof. apply tells_is, truth_tells. Qed.
Lemma bool_never v : bool_of Q v <> Raises.
Proof. destruct v; cbn [bool_of]; try discriminate. destruct (py_truth Q (VObj n)); discriminate. Qed.

Lemma STR_tells v m : tells (text_of Q v) (STR P v m) m.
Proof.
  destruct v; cbn [text_of STR to_text]; try (apply tells_lift, (ag_text _ _ AG)); [|reflexivity]. eexists. reflexivity.
Qed.
Lemma STR_done v t m : text_of Q v = Is t -> STR P v m = (Done t, m).
Proof. apply tells_is, STR_tells. Qed.

Lemma iterate_tells v m : tells (l <: items_of Q v ;; Is (l, None)) (iterate P v m) m.
Proof.
  destruct v; cbn [items_of iterate oseq]; try reflexivity; try exact Logic.I; try (eexists; reflexivity). apply tells_lift, (ag_iter _ _ AG).
Qed.
Lemma iterate_done v l m : items_of Q v = Is l -> iterate P v m = (Done (l, None), m).
Proof. intros E. pose proof (iterate_tells v m) as H. rewrite E in H. exact H. Qed.

Lemma call_tells f a k m : tells (call Q f a k) (call_value P ex' f a k m) m.
Proof. destruct f; cbn [call call_value]; try exact Logic.I. apply tells_lift, (ag_call _ _ AG). Qed.

Lemma tested_some x v : tested Q x = Is v -> x = Is v /\ exists t, bool_of Q v = Is t.
Proof.
  unfold tested. intros H. oinv H w E. oinv H t T. injection H as <-. split; [exact E|]. exists t. exact T.
Qed.
Lemma tells_tested x o m : tells x o m -> tells (S := mach W) (tested Q x) o m.
Proof.
  unfold tested. destruct x as [v| |]; cbn [oseq]; try (intros H; exact H). intros H. pose proof (bool_never v) as N.
  destruct (bool_of Q v); [exact H|congruence|exact Logic.I].
Qed.
Lemma tells_qualified q x X m : tells x (X m) m -> tells (tested Q (qualify Q q x)) (qualified P q X m) m.
Proof.
  intros H. unfold tested, qualified. destruct x as [v| |].
  - cbn [tells] in H. rewrite H. pose proof (bool_never v) as N. pose proof (truth_tells v m) as T.
    destruct q; cbn [qualify oseq]; (destruct (bool_of Q v) as [t| |] eqn:Et; [|congruence|exact Logic.I]); cbn [oseq tells] in *; rewrite (bind_done _ _ _ _ _ T); destruct t; cbn [oseq]; try reflexivity.
    + rewrite Et. reflexivity.
    + rewrite Et. reflexivity.
    + eexists. reflexivity.
  - destruct H as [e H]. rewrite H. destruct q; cbn [qualify oseq]; [exists e; reflexivity|reflexivity|exists e; reflexivity].
  - destruct q; exact Logic.I.
Qed.
Lemma qualified_done x v t m : x m = (Done v, m) -> bool_of Q v = Is t -> qualified P QNone x m = (Done v, m).
Proof.
  intros E T. unfold qualified. rewrite E. rewrite (bind_done _ _ _ _ _ (truth_done _ _ m T)). destruct t; reflexivity.
Qed.
(** A qualifier applied twice. *)
Lemma qualify_again q x o m : tells (S := mach W) (tested Q (qualify Q q (tested Q (qualify Q q x)))) o m -> tells (tested Q (qualify Q q x)) o m.
Proof.
  unfold tested. destruct q; cbn [qualify].
  - destruct x as [v| |]; cbn [oseq]; try (intros H; exact H). pose proof (bool_never v). destruct (bool_of Q v) eqn:T; cbn [oseq]; [rewrite T; cbn [oseq]; intros H'; exact H'|congruence|intros _; exact Logic.I].
  - destruct x as [v| |]; cbn [oseq]; try (intros H; exact H). pose proof (bool_never v). destruct (bool_of Q v) as [t| |] eqn:T; cbn [oseq]; [|congruence|intros _; exact Logic.I].
    destruct t; cbn [oseq bool_of nonempty]; [rewrite T; cbn [oseq]; rewrite T; cbn [oseq]; rewrite T; cbn [oseq]|]; intros H'; exact H'.
  - destruct x as [v| |]; cbn [oseq]; try (intros H; exact H). pose proof (bool_never v). destruct (bool_of Q v) as [t| |] eqn:T; cbn [oseq]; [|congruence|intros _; exact Logic.I].
    destruct t; cbn [oseq]; [rewrite T; cbn [oseq]; rewrite T; cbn [oseq]; rewrite T; cbn [oseq]|]; intros H'; exact H'.
Qed.

(** Arguments with distinct names. *)
Lemma distinct_NoDup l : distinct l = true -> NoDup l.
Proof.
  induction l as [|x l IH]; intros H; [constructor|]. cbn [distinct] in H. apply andb_true_iff in H. destruct H as [H1 H2].
  constructor; [|apply IH; exact H2]. intros I. apply negb_true_iff in H1.
  assert (existsb (str_eqb x) l = true) as E by (apply existsb_exists; exists x; split; [exact I|apply str_eqb_refl]). congruence.
Qed.

Lemma args_done l a k : args_of l = Is (a, k) -> split_args l = (a, k).
Proof.
  unfold args_of, split_args. set (kw := flat_map _ l). destruct (distinct (map fst kw)) eqn:D; [|discriminate].
  intros [= <- <-]. f_equal.
  transitivity (dict_of str_eqb kw).
  { f_equal. }
  unfold dict_of. apply (dupdate_new kw []). apply distinct_NoDup. exact D.
Qed.

(** Equations for functions that are defined together. *)
Lemma an_factor c a ts q : an_expr c (EFactor a ts q) = (a <- an_expr c a ;; ts <- rmap (an_tail c) ts ;; Ok (EFactor a ts q)).
Proof. reflexivity. Qed.
Lemma an_call c l : an_tail c (TCall l) =
  (l <- rmap (fun ne : option str * expr => let (n, e) := ne in e <- an_expr c e ;; Ok (n, e)) l ;; Ok (TCall l)).
Proof. reflexivity. Qed.
Lemma an_partial c l : an_tail c (TPartial l) =
  (l <- rmap (fun ne : option str * expr => let (n, e) := ne in e <- an_expr c e ;; Ok (n, e)) l ;; Ok (TPartial l)).
Proof. reflexivity. Qed.
Lemma an_index c e : an_tail c (TIndex e) = (e <- an_expr c e ;; Ok (TIndex e)).
Proof. reflexivity. Qed.
Lemma an_pexpr c e : an_part c (PExpr e) = (e <- an_expr c e ;; Ok (PExpr e)).
Proof. reflexivity. Qed.
Lemma ev_factor a ts q : eval (EFactor a ts q) = qualified P q (mbind (eval a) (fun v => mfold (fun v t => apply_tail t v) ts v)).
Proof. reflexivity. Qed.
Lemma ap_call l f : apply_tail (TCall l) f =
  mbind (mmap (fun ne : option str * expr => let (n, e) := ne in mbind (eval e) (fun v => ret (n, v))) l)
    (fun items => let (a, k) := split_args items in call_value P ex' f a k).
Proof. reflexivity. Qed.
Lemma ap_partial x l f : apply_tail (TPartial (x :: l)) f =
  mbind (mmap (fun ne : option str * expr => let (n, e) := ne in mbind (eval e) (fun v => ret (n, v))) (x :: l))
    (fun items => ret (partial_of f items)).
Proof. reflexivity. Qed.
Lemma ap_index e f : apply_tail (TIndex e) f = mbind (eval e) (fun i => lift_p (p_getitem P f i)).
Proof. reflexivity. Qed.
Lemma rp_expr e : render_part P ex' s (PExpr e) = mbind (eval e) (STR P).
Proof. reflexivity. Qed.
Lemma an_slice c x y z : an_tail c (TSlice x y z) =
  (a <- match x with Some y => y <- an_expr c y ;; Ok (Some y) | None => Ok None end ;;
   b <- match y with Some y => y <- an_expr c y ;; Ok (Some y) | None => Ok None end ;;
   d <- match z with Some y => y <- an_expr c y ;; Ok (Some y) | None => Ok None end ;;
   Ok (TSlice a b d)).
Proof. reflexivity. Qed.
Lemma ap_slice x y z f : apply_tail (TSlice x y z) f =
  mbind match x with Some e => eval e | None => ret VNone end (fun a =>
  mbind match y with Some e => eval e | None => ret VNone end (fun b =>
  mbind match z with Some e => eval e | None => ret VNone end (fun c => lift_p (p_getslice P f a b c)))).
Proof. reflexivity. Qed.
Lemma den_index r e f : den_tail Q r (XItem e) f = (i <: den Q r e ;; py_item Q f i).
Proof. reflexivity. Qed.
Lemma den_slice r x y z f : den_tail Q r (XSlice x y z) f =
  (x <: match x with Some e => den Q r e | None => Is VNone end ;;
   y <: match y with Some e => den Q r e | None => Is VNone end ;;
   z <: match z with Some e => den Q r e | None => Is VNone end ;;
   py_slice Q f x y z).
Proof. reflexivity. Qed.
Lemma den_call r a f : den_tail Q r (XCall a) f =
  (l <: omap (fun a : option str * ex => let (n, e) := a in v <: den Q r e ;; Is (n, v)) a ;;
   p <: args_of l ;; call Q f (fst p) (snd p)).
Proof. reflexivity. Qed.
Lemma den_xfilter r f path a v : den_filter Q r (XFilter f path a) v =
  (f <: den Q r f ;;
   f <: ofold (fun v n => py_member Q v n) path f ;;
   f <: tested Q (Is f) ;;
   l <: match a with Some a => omap (fun a : option str * ex => let (n, e) := a in v <: den Q r e ;; Is (n, v)) a | None => Is [] end ;;
   p <: args_of l ;; call Q f (v :: fst p) (snd p)).
Proof. reflexivity. Qed.
Lemma den_tails r e l q : den Q r (XTail e l q) = tested Q (qualify Q q (v <: den Q r e ;; ofold (fun v t => den_tail Q r t v) l v)).
Proof. reflexivity. Qed.
Lemma den_pipe r e l : den Q r (XPipe e l) = tested Q (v <: den Q r e ;; ofold (fun v f => den_filter Q r f v) l v).
Proof. reflexivity. Qed.
Lemma den_dict r l : den Q r (XDict l) = tested Q
  (l <: omap (fun a : ex * ex => let (k, v) := a in k <: den Q r k ;; v <: den Q r v ;; Is (k, v)) l ;; py_dict Q l).
Proof. reflexivity. Qed.
Lemma tree_tails e l q : tree (XTail e l q) = EFactor (sub_qual tree l q e) (map tail_tree l) q.
Proof. reflexivity. Qed.
Lemma tree_pipe e l : tree (XPipe e l) = EPipe (sub tree 7 e) (map filter_tree l).
Proof. reflexivity. Qed.
Lemma tree_filter f path a : filter_tree (XFilter f path a) =
  EFactor (match path with [] => sub tree 15 f | _ => EFactor (sub tree 15 f) (map TMember path) QNone end)
    (match a with Some a => [TPartial (map (fun a : option str * ex => let (n, e) := a in (n, root (tree e))) a)] | None => [] end) QNone.
Proof. reflexivity. Qed.
Lemma tree_index e : tail_tree (XItem e) = TIndex (root (sub tree 7 e)).
Proof. reflexivity. Qed.
Lemma tree_slice x y z : tail_tree (XSlice x y z) =
  TSlice (match x with Some e => Some (root (sub tree 7 e)) | None => None end)
         (match y with Some e => Some (root (sub tree 7 e)) | None => None end)
         (match z with Some e => Some (root (sub tree 7 e)) | None => None end).
Proof. reflexivity. Qed.
Lemma tree_dict l : tree (XDict l) = EDict (map (fun a : ex * ex => let (k, v) := a in (root (sub tree 7 k), root (tree v))) l).
Proof. reflexivity. Qed.
Lemma tree_call a : tail_tree (XCall a) = TCall (map (fun a : option str * ex => let (n, e) := a in (n, root (tree e))) a).
Proof. reflexivity. Qed.

(** ** Names *)

Definition resolved (c : ctx) (l : list str) : Prop := forall n, In n l -> exists x, c_get c (VAR n) = Some x.
(** The variables of [r] have their values in the slots given by [c]. *)
Definition sees (c : ctx) (r : store) (m : mach W) : Prop := forall n v, get n r = Some v ->
  exists x, c_get c (VAR n) = Some x /\ slot_value m s (sl_id x) = Some v.

Lemma resolved_app c l l' : resolved c (l ++ l') -> resolved c l /\ resolved c l'.
Proof. intros H. split; intros n I; apply H, in_or_app; [left|right]; exact I. Qed.
Lemma resolved_each {A} c (f : A -> list str) l : resolved c (flat_map f l) -> Forall (fun a => resolved c (f a)) l.
Proof.
  intros H. apply Forall_forall. intros a I n J. apply H. apply in_flat_map. exists a. split; [exact I|exact J].
Qed.
Lemma resolved_incl c l l' : resolved c l' -> incl l l' -> resolved c l.
Proof. intros H I n J. apply H, I, J. Qed.

Section Context.
Variable b : str.
Variable c : ctx.

Definition means (e : ex) (t : expr) : Prop := forall m r, sees c r m -> tells (den Q r e) (eval t m) m.
Definition goes (x : expr) (e : ex) (t : expr) : Prop := an_expr c x = Ok t /\ means e t.

Lemma means_is e t m r v : means e t -> sees c r m -> den Q r e = Is v -> eval t m = (Done v, m).
Proof. intros H S D. exact (tells_is _ _ _ _ (H m r S) D). Qed.

Lemma den_tested r e v : den Q r e = Is v -> exists t, bool_of Q v = Is t.
Proof. destruct e; cbn [den]; intros H; apply tested_some in H; exact (proj2 H). Qed.
Lemma tested_den r e : tested Q (den Q r e) = den Q r e.
Proof.
  destruct (den Q r e) as [v| |] eqn:E; try reflexivity. destruct (den_tested r e v E) as [t T]. unfold tested. cbn [oseq]. rewrite T. reflexivity.
Qed.

Lemma goes_qual x e t q : goes x e t -> an_expr c (ERoot x q) = Ok (ERoot t q) /\
  forall m r, sees c r m -> tells (tested Q (qualify Q q (den Q r e))) (eval (ERoot t q) m) m.
Proof.
  intros [E M]. split; [cbn [an_expr]; rewrite E; reflexivity|].
  intros m r S. cbn [Eval.eval]. apply tells_qualified. apply (M m r S).
Qed.
Lemma goes_root x e t : goes x e t -> goes (root x) e (root t).
Proof.
  intros H. apply (goes_qual x e t QNone) in H. destruct H as [E M]. split; [exact E|]. intros m r S. specialize (M m r S). cbn [qualify] in M.
  rewrite tested_den in M. exact M.
Qed.
Lemma goes_sub e t p : goes (tree e) e t -> exists t', goes (sub tree p e) e t'.
Proof.
  intros H. unfold sub. destruct (prio e <? p)%nat; [|exists t; exact H]. exists (root t). apply goes_root. exact H.
Qed.

Definition fits (e : ex) : Prop := fine b e = true -> resolved c (vars e) -> exists t, goes (tree e) e t.

(** Lists of expressions. *)
Lemma list_goes (f : ex -> expr) l : Forall (fun e => exists t, goes (f e) e t) l ->
  exists ts, rmap (an_expr c) (map f l) = Ok ts /\ Forall2 means l ts.
Proof.
  induction 1 as [|e l [t [E M]] _ [ts [Es Ms]]]; [exists []; split; [reflexivity|constructor]|].
  exists (t :: ts). split; [|constructor; assumption]. cbn [map rmap]. rewrite E. cbn [bind]. rewrite Es. reflexivity.
Qed.

Lemma list_tells l ts m r : Forall2 means l ts -> sees c r m -> tells (omap (den Q r) l) (mmap eval ts m) m.
Proof. intros F S. apply (tells_mmap means); [exact F|]. intros a t M. apply (M m r S). Qed.
Lemma list_eval l ts m r vs : Forall2 means l ts -> sees c r m -> omap (den Q r) l = Is vs ->
  mmap eval ts m = (Done vs, m).
Proof. intros F S. apply tells_is, list_tells; assumption. Qed.

Definition arg_means (a : option str * ex) (t : option str * expr) : Prop := fst t = fst a /\ means (snd a) (snd t).

Lemma args_goes (l : list (option str * ex)) : Forall (fun a => fits (snd a)) l ->
  forallb (fun a : option str * ex => let (n, e) := a in match n with Some n => id_name n | None => true end && fine b e) l = true ->
  resolved c (flat_map (fun a : option str * ex => let (_, e) := a in vars e) l) ->
  exists ts, rmap (fun ne : option str * expr => let (n, e) := ne in e <- an_expr c e ;; Ok (n, e))
    (map (fun a : option str * ex => let (n, e) := a in (n, root (tree e))) l) = Ok ts /\ Forall2 arg_means l ts.
Proof.
  induction 1 as [|[n e] l F _ IH]; intros Hf Hr; [exists []; split; [reflexivity|constructor]|].
  cbn [forallb flat_map] in Hf, Hr. apply andb_true_iff in Hf. destruct Hf as [Hf1 Hf2]. apply resolved_app in Hr. destruct Hr as [Hr1 Hr2].
  apply andb_true_iff in Hf1. destruct Hf1 as [_ Hf1].
  cbn [snd] in F. destruct (F Hf1 Hr1) as [t G]. apply goes_root in G. destruct G as [E M]. destruct (IH Hf2 Hr2) as [ts [Es Ms]].
  exists ((n, root t) :: ts). split; [|constructor; [split; [reflexivity|exact M]|exact Ms]].
  cbn [map rmap]. rewrite E. cbn [bind]. rewrite Es. reflexivity.
Qed.

Lemma args_tells l ts m r : Forall2 arg_means l ts -> sees c r m ->
  tells (omap (fun a : option str * ex => let (n, e) := a in v <: den Q r e ;; Is (n, v)) l)
    (mmap (fun ne : option str * expr => let (n, e) := ne in mbind (eval e) (fun v => ret (n, v))) ts m) m.
Proof.
  intros F S. apply (tells_mmap arg_means); [exact F|]. intros [n e] [n' t] [H M]. cbn [fst snd] in *. subst n'.
  apply tells_bind; [apply (M m r S)|]. intros v _. reflexivity.
Qed.

(** Dicts. *)
Definition pair_means (a : ex * ex) (t : expr * expr) : Prop := means (fst a) (fst t) /\ means (snd a) (snd t).
Lemma pairs_goes (l : list (ex * ex)) : Forall (fun a => fits (fst a) /\ fits (snd a)) l ->
  forallb (fun a : ex * ex => let (k, v) := a in fine b k && fine b v) l = true ->
  resolved c (flat_map (fun a : ex * ex => let (k, v) := a in vars k ++ vars v) l) ->
  exists ts, rmap (fun kv : expr * expr => let (k, v) := kv in a <- an_expr c k ;; b <- an_expr c v ;; Ok (a, b))
    (map (fun a : ex * ex => let (k, v) := a in (root (sub tree 7 k), root (tree v))) l) = Ok ts /\ Forall2 pair_means l ts.
Proof.
  induction 1 as [|[k v] l [Fk Fv] _ IH]; intros Hf Hr; [exists []; split; [reflexivity|constructor]|].
  cbn [forallb flat_map fst snd] in *. apply andb_true_iff in Hf. destruct Hf as [Hf1 Hf2]. apply resolved_app in Hr. destruct Hr as [Hr1 Hr2].
  apply andb_true_iff in Hf1. destruct Hf1 as [Hk Hv]. apply resolved_app in Hr1. destruct Hr1 as [Rk Rv].
  destruct (Fk Hk Rk) as [tk0 Gk0]. destruct (goes_sub k tk0 7 Gk0) as [tk Gk]. apply goes_root in Gk. destruct Gk as [Ek Mk].
  destruct (Fv Hv Rv) as [tv Gv]. apply goes_root in Gv. destruct Gv as [Ev Mv]. destruct (IH Hf2 Hr2) as [ts [Es Ms]].
  exists ((root tk, root tv) :: ts). split; [|constructor; [split; assumption|exact Ms]].
  cbn [map rmap]. rewrite Ek. cbn [bind]. rewrite Ev. cbn [bind]. rewrite Es. reflexivity.
Qed.
Lemma pairs_tells l ts m r : Forall2 pair_means l ts -> sees c r m ->
  tells (omap (fun a : ex * ex => let (k, v) := a in k <: den Q r k ;; v <: den Q r v ;; Is (k, v)) l)
    (mmap (fun kv : expr * expr => let (k, v) := kv in mbind (eval k) (fun a => mbind (eval v) (fun b => ret (a, b)))) ts m) m.
Proof.
  intros F S. apply (tells_mmap pair_means); [exact F|]. intros [k v] [k' v'] [Hk Hv]. cbn [fst snd] in *.
  apply tells_bind; [apply (Hk m r S)|]. intros x _. apply tells_bind; [apply (Hv m r S)|]. intros z _. reflexivity.
Qed.

(** Parts of slices. *)
Definition opt_vars (x : option ex) : list str := match x with Some e => vars e | None => [] end.
Lemma opt_goes x : p_else fits x -> match x with Some e => fine b e | None => true end = true -> resolved c (opt_vars x) ->
  exists t, match (match x with Some e => Some (root (sub tree 7 e)) | None => None end) with Some y => y <- an_expr c y ;; Ok (Some y) | None => Ok None end = Ok t /\
    forall m r, sees c r m -> tells (match x with Some e => den Q r e | None => Is VNone end) (match t with Some e => eval e | None => ret VNone end m) m.
Proof.
  intros F Hf Hr. destruct x as [e|]; [|exists None; split; [reflexivity|intros; reflexivity]]. cbn [p_else opt_vars] in *.
  destruct (F Hf Hr) as [t G]. destruct (goes_sub e t 7 G) as [t2 G2]. apply goes_root in G2. destruct G2 as [E M].
  exists (Some (root t2)). split; [rewrite E; reflexivity|]. intros m r S. apply (M m r S).
Qed.

Definition tail_means (t : xtail) (t' : tail) : Prop := forall m r f, sees c r m ->
  tells (den_tail Q r t f) (apply_tail t' f m) m.
Lemma tail_goes t : p_tail fits t -> fine_tail b t = true -> resolved c (tail_vars t) ->
  exists t', an_tail c (tail_tree t) = Ok t' /\ tail_means t t'.
Proof.
  destruct t as [n|e|x y z|a]; cbn [p_tail fine_tail tail_vars]; intros F Hf Hr.
  - exists (TMember n). split; [reflexivity|]. intros m r f S. cbn [den_tail Eval.apply_tail].
    apply tells_lift. apply (ag_member _ _ AG).
  - destruct (F Hf Hr) as [t G]. destruct (goes_sub e t 7 G) as [t2 G2]. apply goes_root in G2. destruct G2 as [E M].
    exists (TIndex (root t2)). split; [rewrite tree_index, an_index, E; reflexivity|]. intros m r f S. rewrite den_index, ap_index.
    apply tells_bind; [apply (M m r S)|]. intros i _. apply tells_lift. apply (ag_item _ _ AG).
  - rewrite !andb_true_iff in Hf. destruct Hf as [[Hx Hy] Hz]. destruct F as (Fx & Fy & Fz).
    apply resolved_app in Hr. destruct Hr as [Rx Hr]. apply resolved_app in Hr. destruct Hr as [Ry Rz].
    destruct (opt_goes x Fx Hx Rx) as (tx & Ex & Mx). destruct (opt_goes y Fy Hy Ry) as (ty & Ey & My). destruct (opt_goes z Fz Hz Rz) as (tz & Ez & Mz).
    exists (TSlice tx ty tz). split; [rewrite tree_slice, an_slice, Ex; cbn [bind]; rewrite Ey; cbn [bind]; rewrite Ez; reflexivity|].
    intros m r f S. rewrite den_slice, ap_slice. apply tells_bind; [apply (Mx m r S)|]. intros vx _. apply tells_bind; [apply (My m r S)|]. intros vy _.
    apply tells_bind; [apply (Mz m r S)|]. intros vz _. apply tells_lift. apply (ag_slice _ _ AG).
  - destruct (args_goes a F Hf Hr) as [ts [E M]]. exists (TCall ts). split; [rewrite tree_call, an_call, E; reflexivity|].
    intros m r f S. rewrite den_call, ap_call. apply tells_bind; [apply (args_tells a ts m r M S)|]. intros l _.
    destruct (args_of l) as [p| |] eqn:Ep; cbn [oseq]; [|exfalso; revert Ep; unfold args_of; destruct (distinct _); discriminate|exact Logic.I].
    destruct p as [ps ks]. rewrite (args_done _ _ _ Ep). apply call_tells.
Qed.

Lemma tails_goes l : Forall (p_tail fits) l -> forallb (fine_tail b) l = true -> resolved c (flat_map tail_vars l) ->
  exists ts, rmap (an_tail c) (map tail_tree l) = Ok ts /\ Forall2 tail_means l ts.
Proof.
  induction 1 as [|t l F _ IH]; intros Hf Hr; [exists []; split; [reflexivity|constructor]|].
  cbn [forallb flat_map] in Hf, Hr. apply andb_true_iff in Hf. destruct Hf as [Hf1 Hf2]. apply resolved_app in Hr. destruct Hr as [Hr1 Hr2].
  destruct (tail_goes t F Hf1 Hr1) as [t' [E M]]. destruct (IH Hf2 Hr2) as [ts [Es Ms]].
  exists (t' :: ts). split; [|constructor; assumption]. cbn [map rmap]. rewrite E. cbn [bind]. rewrite Es. reflexivity.
Qed.
Lemma tails_tells l ts m r v : Forall2 tail_means l ts -> sees c r m ->
  tells (ofold (fun v t => den_tail Q r t v) l v) (mfold (fun v t => apply_tail t v) ts v m) m.
Proof. intros F S. apply (tells_mfold tail_means); [exact F|]. intros a t w M. apply (M m r w S). Qed.

(** Chains of operators. *)
Lemma ops_goes p (l : list (binop * ex)) : Forall (fun a => exists t, goes (sub tree p (snd a)) (snd a) t) l ->
  exists ts, rmap (fun oe : binop * expr => let (o, e) := oe in e <- an_expr c e ;; Ok (o, e))
    (map (fun a : binop * ex => let (o, e) := a in (o, sub tree p e)) l) = Ok ts /\
  Forall2 (fun a t => fst t = fst a /\ means (snd a) (snd t)) l ts.
Proof.
  induction 1 as [|[o e] l [t [E M]] _ [ts [Es Ms]]]; [exists []; split; [reflexivity|constructor]|].
  exists ((o, t) :: ts). split; [|constructor; [split; [reflexivity|exact M]|exact Ms]].
  cbn [snd] in E. cbn [map rmap]. rewrite E. cbn [bind]. rewrite Es. reflexivity.
Qed.
Lemma ops_tells (l : list (binop * ex)) ts m r v : Forall2 (fun a t => fst t = fst a /\ means (snd a) (snd t)) l ts -> sees c r m ->
  tells (ofold (fun v (a : binop * ex) => let (o, e) := a in w <: den Q r e ;; py_op Q o v w) l v)
    (mfold (fun v (oe : binop * expr) => let (o, e) := oe in mbind (eval e) (fun w => lift_p (p_binop P o v w))) ts v m) m.
Proof.
  intros F S. apply (tells_mfold _ _ _ _ _ _ F). intros [o e] [o' t] w [H M]. cbn [fst snd] in *. subst o'.
  apply tells_bind; [apply (M m r S)|]. intros x _. apply tells_lift. apply (ag_op _ _ AG).
Qed.
Lemma simple_goes o p (l : list (binop * ex)) : Forall (fun a => exists t, goes (sub tree p (snd a)) (snd a) t) l ->
  Forall (fun a => fst a = o) l ->
  exists ts, rmap (an_expr c) (map (fun a : binop * ex => let (_, e) := a in sub tree p e) l) = Ok ts /\
  Forall2 (fun a t => fst a = o /\ means (snd a) t) l ts.
Proof.
  induction 1 as [|[o' e] l [t [E M]] _ IH]; intros Ho; [exists []; split; [reflexivity|constructor]|].
  destruct (IH (Forall_inv_tail Ho)) as [ts [Es Ms]].
  exists (t :: ts). split; [|constructor; [split; [exact (Forall_inv Ho)|exact M]|exact Ms]].
  cbn [snd] in E. cbn [map rmap]. rewrite E. cbn [bind]. rewrite Es. reflexivity.
Qed.
Lemma simple_tells o (l : list (binop * ex)) ts m r v : Forall2 (fun a t => fst a = o /\ means (snd a) t) l ts -> sees c r m ->
  tells (ofold (fun v (a : binop * ex) => let (o, e) := a in w <: den Q r e ;; py_op Q o v w) l v)
    (mfold (fun v e => mbind (eval e) (fun w => lift_p (p_binop P o v w))) ts v m) m.
Proof.
  intros F S. apply (tells_mfold _ _ _ _ _ _ F). intros [o' e] t w [H M]. cbn [fst snd] in *. subst o'.
  apply tells_bind; [apply (M m r S)|]. intros x _. apply tells_lift. apply (ag_op _ _ AG).
Qed.

(** Filters. *)
Definition filter_means (f : xfilter) (t : expr) : Prop := forall m r v, sees c r m ->
  tells (den_filter Q r f v) (mbind (eval t) (fun g => call_value P ex' g [v] []) m) m.

Lemma path_an path : rmap (an_tail c) (map TMember path) = Ok (map TMember path).
Proof. induction path as [|n l IH]; [reflexivity|]. cbn [map rmap an_tail bind]. rewrite IH. reflexivity. Qed.
Lemma path_tells path f m : tells (ofold (fun v n => py_member Q v n) path f) (mfold (fun v t => apply_tail t v) (map TMember path) f m) m.
Proof.
  revert f. induction path as [|n l IH]; intros f; [reflexivity|]. cbn [ofold map mfold Eval.apply_tail].
  apply tells_bind; [apply tells_lift, (ag_member _ _ AG)|]. intros x _. apply IH.
Qed.
(** What comes after an exception, or what is open, does not count. *)
Lemma tells_more {A B} (x : ans A) (f : A -> ans B) (X : M W A) (F : A -> M W B) m :
  (forall a, x = Is a -> tells (f a) (mbind X F m) m) -> (x = Raises -> exists e, X m = (Exc e, m)) -> tells (oseq x f) (mbind X F m) m.
Proof.
  intros H K. destruct x as [a| |]; cbn [oseq]; [apply H; reflexivity| |exact Logic.I]. destruct (K eq_refl) as [e E]. exists e. unfold mbind. rewrite E. reflexivity.
Qed.
Lemma tested_is v t : bool_of Q v = Is t -> tested Q (Is v) = Is v.
Proof. intros T. unfold tested. cbn [oseq]. rewrite T. reflexivity. Qed.

Lemma filter_goes f : p_filter fits f -> fine_filter b f = true -> resolved c (filter_vars f) ->
  exists t, an_expr c (filter_tree f) = Ok t /\ filter_means f t.
Proof.
  destruct f as [f path a]. cbn [p_filter fine_filter filter_vars]. intros [F Fa] Hf Hr.
  apply andb_true_iff in Hf. destruct Hf as [Hf Hfa]. apply andb_true_iff in Hf. destruct Hf as [Hf _].
  apply resolved_app in Hr. destruct Hr as [Hr Hra].
  destruct (F Hf Hr) as [t0 G0]. destruct (goes_sub f t0 15 G0) as [t [E Me]].
  (* the function *)
  assert (exists u, an_expr c (match path with [] => sub tree 15 f | _ => EFactor (sub tree 15 f) (map TMember path) QNone end) = Ok u /\
    forall m r, sees c r m -> tells (tested Q (g <: den Q r f ;; ofold (fun v n => py_member Q v n) path g)) (eval u m) m) as (ut & Eu & Mu).
  { destruct path as [|n path].
    - exists t. split; [exact E|]. intros m r S. apply tells_tested. pose proof (Me m r S) as H. cbn [ofold]. destruct (den Q r f); exact H.
    - exists (EFactor t (map TMember (n :: path)) QNone). split.
      + rewrite an_factor, E. cbn [bind]. rewrite path_an. reflexivity.
      + intros m r S. rewrite ev_factor. apply (tells_qualified QNone). apply tells_bind; [apply (Me m r S)|]. intros g _. apply path_tells. }
  assert (K : forall m r (k : val -> ans val) (X : val -> M W val), sees c r m -> (forall g t, bool_of Q g = Is t -> tells (k g) (X g m) m) ->
    tells (f <: den Q r f ;; f <: ofold (fun v n => py_member Q v n) path f ;; f <: tested Q (Is f) ;; k f) (mbind (eval ut) X m) m).
  { intros m r k X S Hk. specialize (Mu m r S). unfold tested in Mu at 1. destruct (den Q r f) as [g0| |]; cbn [oseq] in *; [|exact (tells_bind Raises (fun _ => k VNone) _ _ _ Mu ltac:(discriminate))|exact Logic.I].
    destruct (ofold _ path g0) as [g| |]; cbn [oseq] in *; [|exact (tells_bind Raises (fun _ => k VNone) _ _ _ Mu ltac:(discriminate))|exact Logic.I].
    unfold tested. cbn [oseq]. pose proof (bool_never g). destruct (bool_of Q g) as [t'| |] eqn:T; [|congruence|exact Logic.I]. cbn [oseq] in *.
    refine (tells_bind (Is g) k _ _ _ Mu _). intros g' [= <-]. exact (Hk g t' T). }
  destruct a as [a|].
  - cbn [p_oargs] in Fa. destruct (args_goes a Fa Hfa Hra) as [ts [Et Mt]].
    exists (EFactor ut [TPartial ts] QNone). split.
    + rewrite tree_filter, an_factor, Eu. cbn [bind rmap]. rewrite an_partial, Et. reflexivity.
    + intros m r v S. rewrite den_xfilter.
      assert (Hq : forall g t, bool_of Q g = Is t -> tells (l <: omap (fun a : option str * ex => let (n, e) := a in v <: den Q r e ;; Is (n, v)) a ;; p <: args_of l ;; call Q g (v :: fst p) (snd p))
        (mbind (mbind (mfold (fun v t => apply_tail t v) [TPartial ts] g) (fun x => mbind (truth P x) (fun _ => ret x))) (fun g => call_value P ex' g [v] []) m) m).
      { intros g t' T. cbn [mfold]. destruct ts as [|t1 ts].
        - inversion Mt; subst. cbn [omap oseq args_of flat_map map distinct fst snd]. unfold mbind at 1 2 3 4. cbn. rewrite (truth_done g t' m T). apply call_tells.
        - rewrite ap_partial. pose proof (args_tells a (t1 :: ts) m r Mt S) as HA. destruct (omap _ a) as [l| |]; cbn [oseq tells] in *; [| |exact Logic.I].
          + destruct (args_of l) as [p| |] eqn:Ep; cbn [oseq]; [|exfalso; revert Ep; unfold args_of; destruct (distinct _); discriminate|exact Logic.I]. destruct p as [ps ks].
            unfold mbind at 1 2 3 4. rewrite HA. unfold partial_of. rewrite (args_done _ _ _ Ep). cbn. apply (call_tells g (v :: ps) ks m).
          + destruct HA as [e HA]. exists e. unfold mbind at 1 2 3 4. rewrite HA. reflexivity. }
      assert (Hs : forall m, mbind (eval (EFactor ut [TPartial ts] QNone)) (fun g => call_value P ex' g [v] []) m =
        mbind (eval ut) (fun g => mbind (mbind (mfold (fun v t => apply_tail t v) [TPartial ts] g) (fun x => mbind (truth P x) (fun _ => ret x))) (fun g => call_value P ex' g [v] [])) m).
      { intros m'. rewrite ev_factor. unfold qualified, mbind. destruct (eval ut m') as [[g|e|] m1]; try reflexivity.
        destruct (mfold _ [TPartial ts] g m1) as [[x|e|] m2]; try reflexivity. destruct (truth P x m2) as [[t'|e|] m3]; try reflexivity. destruct t'; reflexivity. }
      rewrite Hs. exact (K m r (fun g => l <: omap (fun a : option str * ex => let (n, e) := a in v <: den Q r e ;; Is (n, v)) a ;; p <: args_of l ;; call Q g (v :: fst p) (snd p)) _ S Hq).
  - exists (EFactor ut [] QNone). split.
    + rewrite tree_filter, an_factor, Eu. reflexivity.
    + intros m r v S. rewrite den_xfilter.
      assert (Hs : forall m, mbind (eval (EFactor ut [] QNone)) (fun g => call_value P ex' g [v] []) m =
        mbind (eval ut) (fun g => mbind (truth P g) (fun _ => call_value P ex' g [v] [])) m).
      { intros m'. rewrite ev_factor. unfold qualified, mbind. destruct (eval ut m') as [[g|e|] m1]; try reflexivity.
        cbn [mfold ret]. destruct (truth P g m1) as [[t'|e|] m3]; try reflexivity. destruct t'; reflexivity. }
      rewrite Hs. cbn [omap oseq args_of flat_map map distinct fst snd].
      apply (K m r (fun g => call Q g [v] []) _ S). intros g t' T. rewrite (bind_done _ _ _ _ _ (truth_done g t' m T)). apply call_tells.
Qed.

Lemma filters_goes l : Forall (p_filter fits) l -> forallb (fine_filter b) l = true -> resolved c (flat_map filter_vars l) ->
  exists ts, rmap (an_expr c) (map filter_tree l) = Ok ts /\ Forall2 filter_means l ts.
Proof.
  induction 1 as [|t l F _ IH]; intros Hf Hr; [exists []; split; [reflexivity|constructor]|].
  cbn [forallb flat_map] in Hf, Hr. apply andb_true_iff in Hf. destruct Hf as [Hf1 Hf2]. apply resolved_app in Hr. destruct Hr as [Hr1 Hr2].
  destruct (filter_goes t F Hf1 Hr1) as [t' [E M]]. destruct (IH Hf2 Hr2) as [ts [Es Ms]].
  exists (t' :: ts). split; [|constructor; assumption]. cbn [map rmap]. rewrite E. cbn [bind]. rewrite Es. reflexivity.
Qed.
Lemma filters_tells l ts m r v : Forall2 filter_means l ts -> sees c r m ->
  tells (ofold (fun v f => den_filter Q r f v) l v) (mfold (fun v e => mbind (eval e) (fun f => call_value P ex' f [v] [])) ts v m) m.
Proof. intros F S. apply (tells_mfold filter_means); [exact F|]. intros a t w M. apply (M m r w S). Qed.

(** Concatenation. *)
Lemma cat_tells l ts m r : Forall2 means l ts -> sees c r m ->
  tells (l <: omap (fun e => v <: den Q r e ;; text_of Q v) l ;; Is (List.concat l)) (mconcat (fun e => mbind (eval e) (fun v => STR P v)) ts m) m.
Proof.
  intros F S. apply (tells_mconcat means); [exact F|]. intros e t M. apply tells_bind; [apply (M m r S)|]. intros v _. apply STR_tells.
Qed.

(** Logic. *)
Lemma and_stops l r v : bool_of Q v = Is false ->
  ofold (fun v e => t <: bool_of Q v ;; if (t : bool) then den Q r e else Is v) l v = Is v.
Proof. intros T. induction l as [|e l IH]; [reflexivity|]. cbn [ofold]. rewrite T. cbn [oseq]. exact IH. Qed.
Lemma or_stops l r v : bool_of Q v = Is true ->
  ofold (fun v e => t <: bool_of Q v ;; if (t : bool) then Is v else den Q r e) l v = Is v.
Proof. intros T. induction l as [|e l IH]; [reflexivity|]. cbn [ofold]. rewrite T. cbn [oseq]. exact IH. Qed.
Lemma and_tells l ts m r v : Forall2 means l ts -> sees c r m ->
  tells (ofold (fun v e => t <: bool_of Q v ;; if (t : bool) then den Q r e else Is v) l v)
   ((fix go (l : list expr) (res : val) : M W val :=
     match l with [] => ret res | e :: r => logic_step P false (eval e) res (go r) end) ts v m) m.
Proof.
  intros F S. revert v. induction F as [|e t l ts M _ IH]; intros v; [reflexivity|]. cbn [ofold].
  pose proof (bool_never v) as N. destruct (bool_of Q v) as [q| |] eqn:T; [|congruence|exact Logic.I]. cbn [oseq].
  unfold logic_step at 1. rewrite (bind_done _ _ _ _ _ (truth_done v q m T)). destruct q; cbn [Bool.eqb].
  - rewrite (bind_done _ _ _ _ _ (truth_done v _ m T)). cbn [Bool.eqb]. apply tells_bind; [apply (M m r S)|]. intros x _. apply IH.
  - cbn [oseq]. rewrite (and_stops l r v T). reflexivity.
Qed.
Lemma or_tells l ts m r v : Forall2 means l ts -> sees c r m ->
  tells (ofold (fun v e => t <: bool_of Q v ;; if (t : bool) then Is v else den Q r e) l v)
   ((fix go (l : list expr) (res : val) : M W val :=
     match l with [] => ret res | e :: r => logic_step P true (eval e) res (go r) end) ts v m) m.
Proof.
  intros F S. revert v. induction F as [|e t l ts M _ IH]; intros v; [reflexivity|]. cbn [ofold].
  pose proof (bool_never v) as N. destruct (bool_of Q v) as [q| |] eqn:T; [|congruence|exact Logic.I]. cbn [oseq].
  unfold logic_step at 1. rewrite (bind_done _ _ _ _ _ (truth_done v q m T)). destruct q; cbn [Bool.eqb].
  - cbn [oseq]. rewrite (or_stops l r v T). reflexivity.
  - rewrite (bind_done _ _ _ _ _ (truth_done v _ m T)). cbn [Bool.eqb]. apply tells_bind; [apply (M m r S)|]. intros x _. apply IH.
Qed.

(** ** All expressions *)

Lemma each_sub p l : Forall fits l -> forallb (fine b) l = true -> resolved c (flat_map vars l) ->
  Forall (fun e => exists t, goes (sub tree p e) e t) l.
Proof.
  induction 1 as [|e l F _ IH]; intros Hf Hr; constructor; cbn [forallb flat_map] in Hf, Hr;
    apply andb_true_iff in Hf; destruct Hf as [Hf1 Hf2]; apply resolved_app in Hr; destruct Hr as [Hr1 Hr2].
  - destruct (F Hf1 Hr1) as [t G]. apply (goes_sub e t p G).
  - apply IH; assumption.
Qed.
Lemma each_root l : Forall fits l -> forallb (fine b) l = true -> resolved c (flat_map vars l) ->
  Forall (fun e => exists t, goes (root (tree e)) e t) l.
Proof.
  induction 1 as [|e l F _ IH]; intros Hf Hr; constructor; cbn [forallb flat_map] in Hf, Hr;
    apply andb_true_iff in Hf; destruct Hf as [Hf1 Hf2]; apply resolved_app in Hr; destruct Hr as [Hr1 Hr2].
  - destruct (F Hf1 Hr1) as [t G]. exists (root t). apply (goes_root _ e t G).
  - apply IH; assumption.
Qed.
Lemma each_subroot l : Forall fits l -> forallb (fine b) l = true -> resolved c (flat_map vars l) ->
  Forall (fun e => exists t, goes (root (sub tree 7 e)) e t) l.
Proof.
  intros F Hf Hr. pose proof (each_sub 7 l F Hf Hr) as H. revert H. apply Forall_impl. intros e [t G]. exists (root t). apply goes_root. exact G.
Qed.
Lemma fine_weak (f : ex -> bool) l : forallb (fun e => fine b e && f e) l = true -> forallb (fine b) l = true.
Proof.
  induction l as [|e l IH]; [reflexivity|]. cbn [forallb]. intros H. apply andb_true_iff in H. destruct H as [H1 H2].
  apply andb_true_iff in H1. destruct H1 as [H1 _]. rewrite H1. apply IH. exact H2.
Qed.

(** The operand in front of tails, with the qualifier that parentheses take. *)
Lemma qual_goes e l q t : goes (tree e) e t -> exists t', an_expr c (sub_qual tree l q e) = Ok t' /\
  forall m r, sees c r m -> tells (match l with [] => if (prio e <? 15)%nat then tested Q (qualify Q q (den Q r e)) else den Q r e | _ => den Q r e end) (eval t' m) m.
Proof.
  intros G. unfold sub_qual. destruct (prio e <? 15)%nat.
  - destruct l as [|x l].
    + exists (ERoot t q). apply goes_qual, G.
    + destruct (goes_root _ _ _ G) as [E M]. exists (root t). split; [exact E|exact M].
  - destruct G as [E M]. exists t. split; [exact E|]. intros m r S. destruct l; apply (M m r S).
Qed.

(** Texts with expressions in them. *)
Lemma texts_run qs ps m (o : out str * mach W) : mconcat (render_part P ex' s) ps m = o ->
  mconcat (render_part P ex' s) (map PText qs ++ ps) m = (match fst o with Done t => Done (List.concat qs ++ t) | Exc e => Exc e | Fuel => Fuel end, snd o).
Proof.
  intros <-. induction qs as [|q0 qs IH]; [cbn [map app List.concat]; destruct (mconcat _ ps m) as [[| |] m']; reflexivity|].
  cbn [map app mconcat List.concat]. cbn [render_part]. rewrite (bind_done _ _ m q0 m) by reflexivity. unfold mbind. rewrite IH.
  destruct (mconcat (render_part P ex' s) ps m) as [[t|e|] m']; cbn [fst snd]; try reflexivity. unfold ret. rewrite app_assoc. reflexivity.
Qed.
Lemma parts_go x l ps : line_parts x l ps -> (forall e z, In (e, z) l -> exists t, goes (tree e) e t) ->
  exists ps', rmap (an_part c) ps = Ok ps' /\
  forall m r, sees c r m -> tells (fill Q r (x, l)) (mconcat (render_part P ex' s) ps' m) m.
Proof.
  intros L. induction L as [qs|qs e z l ps L IH]; intros H.
  - exists (map PText qs). split; [induction qs as [|q0 qs IH]; [reflexivity|]; cbn [map rmap an_part bind]; rewrite IH; reflexivity|].
    intros m r S. unfold fill. cbn [snd fst omap oseq tells List.concat]. rewrite <- (app_nil_r (map PText qs)).
    rewrite (texts_run qs [] m (Done [], m)) by reflexivity. reflexivity.
  - destruct IH as [ps' [E M]]; [intros e' z' I; apply (H e' z'); right; exact I|].
    destruct (H e z (or_introl eq_refl)) as [t0 G0]. apply goes_root in G0. destruct G0 as [Et Mt].
    exists (map PText qs ++ PExpr (root t0) :: ps'). split.
    + clear -E Et. induction qs as [|q0 qs IH].
      * cbn [map app rmap]. rewrite an_pexpr, Et. cbn [bind]. rewrite E. reflexivity.
      * cbn [map app rmap an_part bind]. rewrite IH. reflexivity.
    + intros m r S. rewrite (texts_run _ _ _ _ eq_refl). specialize (M m r S). specialize (Mt m r S). unfold fill in *. cbn [snd fst omap mconcat] in *. rewrite rp_expr.
      unfold mbind. destruct (den Q r e) as [v| |]; cbn [oseq tells] in *; [rewrite Mt| |exact Logic.I].
      2: { destruct Mt as [k Mt]. rewrite Mt. exists k. reflexivity. }
      pose proof (STR_tells v m) as Hs. destruct (text_of Q v) as [t| |]; cbn [oseq tells] in *; [rewrite Hs| |exact Logic.I].
      2: { destruct Hs as [k Hs]. rewrite Hs. exists k. reflexivity. }
      destruct (omap _ l) as [ws| |]; cbn [oseq tells] in *; [rewrite M| |exact Logic.I].
      2: { destruct M as [k M]. rewrite M. exists k. reflexivity. }
      cbn [fst snd ret List.concat]. rewrite <- !app_assoc. reflexivity.
Qed.
Lemma runs_all x : List.concat (runs x) = x.
Proof.
  induction x as [|a x IH]; [reflexivity|]. cbn [runs]. destruct (runs x) as [|[|d w] l] eqn:E.
  - cbn [List.concat app]. rewrite <- IH. reflexivity.
  - cbn [List.concat app] in *. rewrite IH. reflexivity.
  - destruct (special a || special d); cbn [List.concat app] in *; rewrite IH; reflexivity.
Qed.
Lemma runs_parts x l : line_parts x l (map PText (runs x) ++ str_parts l).
Proof.
  revert x. induction l as [|[e z] l IH]; intros x; rewrite <- (runs_all x) at 1.
  - cbn [str_parts flat_map]. rewrite app_nil_r. constructor.
  - cbn [str_parts flat_map app]. constructor. apply IH.
Qed.

Lemma expr_goes e : fits e.
Proof.
  induction e as [n|q x l F|q x|d|k|l F|l F|l F|l F|e l q IH F|n e l IH F|e l IH F|e l IH F|n e IH|e l IH F|e l IH F|x c' y IHx IHc IHy] using ex_all;
    unfold fits; cbn [fine vars]; intros Hf Hr.
  - (* names *)
    destruct (Hr n (or_introl eq_refl)) as [x E]. exists (EVar n (Some (sl_id x))). split.
    + cbn [tree an_expr]. unfold lookup. rewrite E. reflexivity.
    + intros m r S. cbn [den]. apply tells_tested. destruct (get n r) as [v|] eqn:D; [|exact Logic.I]. destruct (S n v D) as [x' [E' V]].
      rewrite E in E'. injection E' as <-. cbn [Eval.eval given_by tells]. rewrite V. reflexivity.
  - (* strings *)
    assert (Hl : forall e z, In (e, z) l -> exists t, goes (tree e) e t).
    { intros e z I. rewrite Forall_forall in F. apply (F _ I).
      - rewrite forallb_forall in Hf. specialize (Hf _ I). cbv beta iota in Hf. rewrite !andb_true_iff in Hf. apply Hf.
      - intros k Ik. apply Hr, in_flat_map. exists (e, z). split; [exact I|exact Ik]. }
    destruct (parts_go x l _ (runs_parts x l) Hl) as [ps' [E M]]. exists (EFormat ps'). split.
    + change (tree (XText q x l)) with (EFormat (map PText (runs x) ++ str_parts l)). change (an_expr c (EFormat (map PText (runs x) ++ str_parts l))) with (k <- rmap (an_part c) (map PText (runs x) ++ str_parts l) ;; Ok (EFormat k)). rewrite E. reflexivity.
    + intros m r S. specialize (M m r S). cbn [Eval.eval].
      change (den Q r (XText q x l)) with (tested Q (k <: omap (fun a : ex * str => let (e, z) := a in v <: den Q r e ;; t <: text_of Q v ;; Is (t ++ z)) l ;; Is (VStr (x ++ List.concat k)))). apply tells_tested.
      unfold fill in M. cbn [fst snd] in M. set (Y := mconcat _ ps') in *.
      destruct (omap _ l) as [vs| |]; cbn [oseq] in *; [|destruct M as [k M]; exists k; unfold mbind; rewrite M; reflexivity|exact Logic.I].
      cbn [tells] in *. rewrite (bind_done _ _ _ _ _ M). reflexivity.
  - exists (tree (XRaw q x)). split; [reflexivity|]. intros m r S. cbn [den]. apply tells_tested. reflexivity.
  - exists (tree (XNum d)). split; [reflexivity|]. intros m r S. cbn [den]. apply tells_tested. reflexivity.
  - exists (tree (XConst k)). split; [reflexivity|]. intros m r S. cbn [den]. apply tells_tested. reflexivity.
  - (* lists *)
    destruct (list_goes _ l (each_root l F Hf Hr)) as [ts [E M]]. exists (EList ts). split; [cbn [tree an_expr]; rewrite E; reflexivity|].
    intros m r S. cbn [den Eval.eval]. apply tells_tested, tells_bind; [apply (list_tells l ts m r M S)|]. intros vs _. reflexivity.
  - apply andb_true_iff in Hf. destruct Hf as [_ Hf].
    destruct (list_goes _ l (each_root l F Hf Hr)) as [ts [E M]]. exists (ETuple ts). split; [cbn [tree an_expr]; rewrite E; reflexivity|].
    intros m r S. cbn [den Eval.eval]. apply tells_tested, tells_bind; [apply (list_tells l ts m r M S)|]. intros vs _. reflexivity.
  - (* sets *)
    apply andb_true_iff in Hf. destruct Hf as [_ Hf].
    destruct (list_goes _ l (each_subroot l F Hf Hr)) as [ts [E M]]. exists (ESet ts). split; [cbn [tree an_expr]; rewrite E; reflexivity|].
    intros m r S. cbn [den Eval.eval]. apply tells_tested, tells_bind; [apply (list_tells l ts m r M S)|]. intros vs _. apply tells_lift, (ag_set _ _ AG).
  - (* dicts *)
    destruct (pairs_goes l F Hf Hr) as [ts [E M]]. exists (EDict ts). split; [rewrite tree_dict; cbn [an_expr]; rewrite E; reflexivity|].
    intros m r S. rewrite den_dict. cbn [Eval.eval]. apply tells_tested, tells_bind; [apply (pairs_tells l ts m r M S)|]. intros vs _. apply tells_lift, (ag_dict _ _ AG).
  - (* tails *)
    apply andb_true_iff in Hf. destruct Hf as [Hf Hl]. apply andb_true_iff in Hf. destruct Hf as [Hf _].
    apply resolved_app in Hr. destruct Hr as [Hr Hrl].
    destruct (IH Hf Hr) as [t0 G0]. destruct (qual_goes e l q t0 G0) as [t [E M]]. destruct (tails_goes l F Hl Hrl) as [ts [Es Ms]].
    exists (EFactor t ts q). split; [rewrite tree_tails, an_factor, E; cbn [bind]; rewrite Es; reflexivity|].
    intros m r S. rewrite den_tails, ev_factor.
    assert (K : tells (tested Q (qualify Q q (v <: match l with [] => if (prio e <? 15)%nat then tested Q (qualify Q q (den Q r e)) else den Q r e | _ => den Q r e end ;; ofold (fun v t => den_tail Q r t v) l v)))
      (qualified P q (mbind (eval t) (fun v => mfold (fun v t => apply_tail t v) ts v)) m) m).
    { apply tells_qualified, tells_bind; [apply (M m r S)|]. intros v _. apply tails_tells; assumption. }
    destruct l as [|x l]; [|exact K]. destruct (prio e <? 15)%nat; [|exact K]. cbn [ofold] in *.
    assert (Eo : forall x : ans val, (v <: x ;; Is v) = x) by (intros [| |]; reflexivity). rewrite Eo in *.
    revert K. apply qualify_again.
  - (* operators *)
    set (p := prio (XOps n e l)) in *. apply andb_true_iff in Hf. destruct Hf as [Hf Hl]. apply andb_true_iff in Hf. destruct Hf as [Hf Hn].
    apply resolved_app in Hr. destruct Hr as [Hr Hrl].
    destruct (IH Hf Hr) as [t0 G0]. destruct (goes_sub e t0 (S p) G0) as [t [E M]].
    assert (Forall (fun a : binop * ex => exists t, goes (sub tree (S p) (snd a)) (snd a) t) l) as G.
    { apply Forall_forall. intros [o e'] I. cbn [snd]. rewrite Forall_forall in F. rewrite forallb_forall in Hl.
      specialize (Hl _ I). cbn beta iota in Hl. apply andb_true_iff in Hl. destruct Hl as [Hl _]. apply andb_true_iff in Hl. destruct Hl as [_ Hl].
      assert (resolved c (vars e')) as R by (intros k Ik; apply Hrl, in_flat_map; exists (o, e'); split; assumption).
      destruct (F _ I Hl R) as [t' G']. apply (goes_sub e' t' (S p) G'). }
    assert (forall o k, In (o, k) l -> op_prio o = p) as Hp.
    { intros o k I. rewrite forallb_forall in Hl. specialize (Hl _ I). cbn beta iota in Hl.
      apply andb_true_iff in Hl. destruct Hl as [Hl _]. apply andb_true_iff in Hl. destruct Hl as [Hl _]. apply Nat.eqb_eq. exact Hl. }
    assert (exists ts, an_expr c (EChain n (sub tree (S p) e) (map (fun a : binop * ex => let (o, e) := a in (o, sub tree (S p) e)) l)) = Ok (EChain n t ts) /\
      means (XOps n e l) (EChain n t ts)) as Chain.
    { destruct (ops_goes (S p) l G) as [ts [Es Ms]]. exists ts. split; [cbn [an_expr]; rewrite E; cbn [bind]; rewrite Es; reflexivity|].
      intros m r S. cbn [den Eval.eval]. apply tells_tested, tells_bind; [apply (M m r S)|]. intros w _. apply tells_bind.
      - destruct n; [|reflexivity]. destruct w; try exact Logic.I; apply tells_lift; apply (ag_neg _ _ AG).
      - intros w' _. apply ops_tells; assumption. }
    assert (forall o l', l = (o, l') :: tl l -> (o = OBitAnd \/ o = OBitXor \/ o = OBitOr) ->
      exists t', goes (ESimple o (sub tree (S p) e) (map (fun a : binop * ex => let (_, e) := a in sub tree (S p) e) l)) (XOps n e l) t') as Simple.
    { intros o e1 El Ho.
      assert (p = op_prio o) as Ep by (unfold p; rewrite El; reflexivity).
      assert (Forall (fun a : binop * ex => fst a = o) l) as Hos.
      { apply Forall_forall. intros [o' k'] I. cbn [fst]. specialize (Hp o' k' I). rewrite Ep in Hp.
        destruct Ho as [->|[->| ->]]; destruct o'; try discriminate Hp; reflexivity. }
      assert (n = false) as ->.
      { destruct n; [|reflexivity]. apply Nat.eqb_eq in Hn. rewrite Ep in Hn. destruct Ho as [->|[->| ->]]; discriminate Hn. }
      destruct (simple_goes o (S p) l G Hos) as [ts [Es Ms]]. exists (ESimple o t ts).
      split; [cbn [an_expr]; rewrite E; cbn [bind]; rewrite Es; reflexivity|].
      intros m r S. cbn [den Eval.eval]. apply tells_tested, tells_bind; [apply (M m r S)|]. intros w _. cbn [oseq]. apply (simple_tells o l ts m r w Ms S). }
    cbn [tree]. fold p. destruct l as [|[o e1] l]; [destruct Chain as (ts & C1 & C2); exists (EChain n t ts); split; assumption|].
    destruct o; try (destruct Chain as (ts & C1 & C2); exists (EChain n t ts); split; assumption).
    + apply (Simple _ e1 eq_refl). left. reflexivity.
    + apply (Simple _ e1 eq_refl). right. right. reflexivity.
    + apply (Simple _ e1 eq_refl). right. left. reflexivity.
  - (* pipelines *)
    apply andb_true_iff in Hf. destruct Hf as [Hf Hl]. apply andb_true_iff in Hf. destruct Hf as [Hf _].
    apply resolved_app in Hr. destruct Hr as [Hr Hrl].
    destruct (IH Hf Hr) as [t0 G0]. destruct (goes_sub e t0 7 G0) as [t [E M]]. destruct (filters_goes l F Hl Hrl) as [ts [Es Ms]].
    exists (EPipe t ts). split; [rewrite tree_pipe; cbn [an_expr]; rewrite E; cbn [bind]; rewrite Es; reflexivity|].
    intros m r S. rewrite den_pipe. cbn [Eval.eval]. apply tells_tested, tells_bind; [apply (M m r S)|]. intros w _. apply filters_tells; assumption.
  - (* concatenation *)
    apply andb_true_iff in Hf. destruct Hf as [Hf Hl]. apply andb_true_iff in Hf. destruct Hf as [Hf _]. apply fine_weak in Hl.
    assert (Forall (fun e => exists t, goes (sub tree 6 e) e t) (e :: l)) as G.
    { apply each_sub; [constructor; assumption| |exact Hr]. cbn [forallb]. rewrite Hf. exact Hl. }
    destruct (list_goes _ (e :: l) G) as [ts [E M]]. exists (EConcat ts). cbn [map] in E. split; [cbn [tree an_expr]; rewrite E; reflexivity|].
    intros m r S. pose proof (cat_tells (e :: l) ts m r M S) as K. cbn [Eval.eval].
    change (den Q r (XCat e l)) with (tested Q (l <: omap (fun e => v <: den Q r e ;; text_of Q v) (e :: l) ;; Is (VStr (List.concat l)))). apply tells_tested.
    set (X := mconcat _ ts) in *.
    destruct (omap _ (e :: l)) as [vs| |]; cbn [oseq] in *; [|destruct K as [x K]; exists x; unfold mbind; rewrite K; reflexivity|exact Logic.I].
    cbn [tells] in *. rewrite (bind_done _ _ _ _ _ K). reflexivity.
  - (* not *)
    apply andb_true_iff in Hf. destruct Hf as [_ Hf].
    destruct (IH Hf Hr) as [t0 G0]. destruct (goes_sub e t0 4 G0) as [t [E M]].
    exists (ENot n t). split; [cbn [tree an_expr]; rewrite E; reflexivity|].
    intros m r S. cbn [den Eval.eval]. apply tells_tested, tells_bind; [apply (M m r S)|]. intros w _. destruct (Nat.odd n); [|reflexivity].
    apply tells_bind; [apply truth_tells|]. intros q _. reflexivity.
  - (* and *)
    apply andb_true_iff in Hf. destruct Hf as [Hf Hl]. apply andb_true_iff in Hf. destruct Hf as [Hf _].
    apply resolved_app in Hr. destruct Hr as [Hr Hrl].
    destruct (IH Hf Hr) as [t0 G0]. destruct (goes_sub e t0 3 G0) as [t [E M]].
    destruct (list_goes _ l (each_sub 3 l F Hl Hrl)) as [ts [Es Ms]].
    exists (EAnd t ts). split; [cbn [tree an_expr]; rewrite E; cbn [bind]; rewrite Es; reflexivity|].
    intros m r S. cbn [den Eval.eval]. apply tells_tested, tells_bind; [apply (M m r S)|]. intros w _. apply (and_tells l ts m r w Ms S).
  - (* or *)
    apply andb_true_iff in Hf. destruct Hf as [Hf Hl]. apply andb_true_iff in Hf. destruct Hf as [Hf _].
    apply resolved_app in Hr. destruct Hr as [Hr Hrl].
    destruct (IH Hf Hr) as [t0 G0]. destruct (goes_sub e t0 2 G0) as [t [E M]].
    destruct (list_goes _ l (each_sub 2 l F Hl Hrl)) as [ts [Es Ms]].
    exists (EOr t ts). split; [cbn [tree an_expr]; rewrite E; cbn [bind]; rewrite Es; reflexivity|].
    intros m r S. cbn [den Eval.eval]. apply tells_tested, tells_bind; [apply (M m r S)|]. intros w _. apply (or_tells l ts m r w Ms S).
  - (* if *)
    apply andb_true_iff in Hf. destruct Hf as [Hf Hy]. apply andb_true_iff in Hf. destruct Hf as [Hx Hc].
    apply resolved_app in Hr. destruct Hr as [Rx Hr]. apply resolved_app in Hr. destruct Hr as [Rc Ry].
    destruct (IHx Hx Rx) as [t0 G0]. destruct (goes_sub x t0 1 G0) as [t [E M]].
    destruct (IHc Hc Rc) as [t1 G1]. destruct (goes_sub c' t1 1 G1) as [tc [Ec Mc]].
    destruct y as [y|].
    + destruct (IHy Hy Ry) as [ty [Ey My]]. exists (EIf t tc (Some ty)).
      split; [cbn [tree an_expr]; rewrite E; cbn [bind]; rewrite Ec; cbn [bind]; rewrite Ey; reflexivity|].
      intros m r S. cbn [den Eval.eval]. apply tells_tested, tells_bind; [apply (Mc m r S)|]. intros w _. apply tells_bind; [apply truth_tells|]. intros q _.
      destruct q; [apply (M m r S)|apply (My m r S)].
    + exists (EIf t tc None). split; [cbn [tree an_expr]; rewrite E; cbn [bind]; rewrite Ec; reflexivity|].
      intros m r S. cbn [den Eval.eval]. apply tells_tested, tells_bind; [apply (Mc m r S)|]. intros w _. apply tells_bind; [apply truth_tells|]. intros q _.
      destruct q; [apply (M m r S)|reflexivity].
Qed.

Lemma ok_goes sc e : expr_ok b sc e -> resolved c sc -> exists t, goes (tree e) e t.
Proof. intros [Hf Hv] Hr. apply (expr_goes e Hf). apply (resolved_incl c _ sc Hr Hv). Qed.

(** Lines of text. *)
Lemma parts_goes x l ps : line_parts x l ps -> (forall e z, In (e, z) l -> fine b e = true /\ resolved c (vars e)) ->
  exists ps', rmap (an_part c) ps = Ok ps' /\
  forall m r, sees c r m -> tells (fill Q r (x, l)) (mconcat (render_part P ex' s) ps' m) m.
Proof. intros L H. apply (parts_go _ _ _ L). intros e z I. destruct (H e z I) as [Hf Hr]. apply (expr_goes e Hf Hr). Qed.
Lemma parts_is x l ps' m r t : (forall m r, sees c r m -> tells (fill Q r (x, l)) (mconcat (render_part P ex' s) ps' m) m) -> sees c r m ->
  fill Q r (x, l) = Is t -> mconcat (render_part P ex' s) ps' m = (Done t, m).
Proof. intros H S D. exact (tells_is _ _ _ _ (H m r S) D). Qed.
End Context.
End Expr.
