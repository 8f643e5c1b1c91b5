(** The bounds of the model (nested expansions, iterations of while) do not influence the outcome of a
    computation that ends within them. *)
From Coq Require Import List NArith ZArith Bool Arith Lia.
From Verif Require Import PyStr Html Indent PyDict Value Dom Ast AstInd Machine Eval Translate MachineFacts.
Import ListNotations.

Section Fuel.
  Context {W : Type}.

  (** [y] gives whatever [x] gives, unless [x] runs out of fuel *)
  Definition refines {A} (x y : M W A) : Prop := forall m o m', x m = (o, m') -> o <> Fuel -> y m = (o, m').

  Lemma ref_refl {A} (x : M W A) : refines x x.
  Proof. intros m o m' E _. exact E. Qed.
  Lemma ref_nofuel {A} (y : M W A) : refines nofuel y.
  Proof. intros m o m' [= <- <-] N. contradiction N; reflexivity. Qed.
  Lemma ref_bind {A B} (x x' : M W A) (f f' : A -> M W B) : refines x x' -> (forall a, refines (f a) (f' a)) ->
    refines (mbind x f) (mbind x' f').
  Proof.
    intros X F m o m' E N. apply bind_inv in E. destruct E as [(a & m1 & E1 & E2)|[(e & E & ->)|(_ & ->)]].
    - unfold mbind. rewrite (X _ _ _ E1) by discriminate. apply (F _ _ _ _ E2 N).
    - unfold mbind. rewrite (X _ _ _ E) by discriminate. reflexivity.
    - contradiction N; reflexivity.
  Qed.
  Lemma ref_mmap {A B} (f f' : A -> M W B) l : Forall (fun x => refines (f x) (f' x)) l -> refines (mmap f l) (mmap f' l).
  Proof.
    intros H. induction H as [|x l H _ IH]; cbn; [apply ref_refl|].
    apply ref_bind; [exact H|]. intros y. apply ref_bind; [exact IH|]. intros ys. apply ref_refl.
  Qed.
  Lemma ref_mfold {A B} (f f' : B -> A -> M W B) l : Forall (fun x => forall a, refines (f a x) (f' a x)) l ->
    forall acc, refines (mfold f l acc) (mfold f' l acc).
  Proof. intros H. induction H as [|x l H _ IH]; intros acc; cbn; [apply ref_refl|]. apply ref_bind; [apply H|]. intros b. apply IH. Qed.
  Lemma ref_mconcat {A B} (f f' : A -> M W (list B)) l : Forall (fun x => refines (f x) (f' x)) l -> refines (mconcat f l) (mconcat f' l).
  Proof.
    intros H. induction H as [|x l H _ IH]; cbn; [apply ref_refl|].
    apply ref_bind; [exact H|]. intros y. apply ref_bind; [exact IH|]. intros ys. apply ref_refl.
  Qed.
  Lemma ref_or_else {A} (x x' y y' : M W A) : refines x x' -> refines y y' -> refines (or_else x y) (or_else x' y').
  Proof.
    intros X Y m o m' E N. unfold or_else in *. destruct (x m) as [[a|e|] m1] eqn:E1.
    - rewrite (X _ _ _ E1) by discriminate. exact E.
    - rewrite (X _ _ _ E1) by discriminate. apply (Y _ _ _ E N).
    - injection E as <- <-. contradiction N; reflexivity.
  Qed.
  Lemma ref_restoring {A} s (x x' : M W A) : refines x x' -> refines (restoring s x) (restoring s x').
  Proof.
    intros X m o m' E N. unfold restoring in *. destruct (x m) as [[a|e|] m1] eqn:E1.
    - rewrite (X _ _ _ E1) by discriminate. exact E.
    - rewrite (X _ _ _ E1) by discriminate. exact E.
    - injection E as <- <-. contradiction N; reflexivity.
  Qed.
  Lemma ref_while test test' step step' n : refines test test' -> refines step step' ->
    forall n' empty acc, n <= n' -> refines (while_loop test step n empty acc) (while_loop test' step' n' empty acc).
  Proof.
    intros T X. induction n as [|n IH]; intros n' empty acc L; [apply ref_nofuel|].
    destruct n' as [|n']; [lia|]. cbn. apply ref_bind; [exact T|]. intros [|]; [|apply ref_refl].
    apply ref_bind; [exact X|]. intros l. apply IH. lia.
  Qed.

  Section Step.
    Variable P : prims W.
    Variables expand expand' : hyper -> val -> list val -> list (str * val) -> nat -> M W (list nid).
    Hypothesis Rexpand : forall h v a k s, refines (expand h v a k s) (expand' h v a k s).
    Variables loops loops' : nat.
    Hypothesis Rloops : loops <= loops'.

    Ltac seq := apply ref_bind.
    Ltac all H := eapply Forall_impl; [|exact H]; cbn beta.

    Lemma ref_call_emb h s args kw : refines (call_emb P expand h s args kw) (call_emb P expand' h s args kw).
    Proof.
      unfold call_emb. seq; [apply ref_refl|]. intros [[bs attrs] k]. seq; [apply ref_refl|]. intros b.
      seq; [apply Rexpand|]. intros dom. apply ref_refl.
    Qed.
    Lemma ref_call_value f : forall args kw, refines (call_value P expand f args kw) (call_value P expand' f args kw).
    Proof.
      revert f. fix IH 1. intros f args kw. destruct f; cbn; try apply ref_refl.
      - apply ref_call_emb.
      - destruct kw; [apply IH|apply ref_refl].
    Qed.
    Lemma ref_qualified q x x' : refines x x' -> refines (qualified P q x) (qualified P q x').
    Proof.
      intros X m o m' E N. unfold qualified in *. destruct (x m) as [[a|e|] m1] eqn:E1.
      - rewrite (X _ _ _ E1) by discriminate. exact E.
      - rewrite (X _ _ _ E1) by discriminate. exact E.
      - injection E as <- <-. contradiction N; reflexivity.
    Qed.
    Lemma ref_logic stop f f' res cont cont' : refines f f' -> (forall v, refines (cont v) (cont' v)) ->
      refines (logic_step P stop f res cont) (logic_step P stop f' res cont').
    Proof.
      intros F C. unfold logic_step. seq; [apply ref_refl|]. intros b. destruct (Bool.eqb b stop); [apply ref_refl|].
      seq; [apply ref_refl|]. intros b2. destruct (Bool.eqb b2 stop); [apply C|]. seq; [exact F|]. intros r. apply C.
    Qed.

    Lemma ref_eval_all : (forall e s, refines (eval P expand s e) (eval P expand' s e)) /\
      (forall t s f, refines (apply_tail P expand s t f) (apply_tail P expand' s t f)) /\
      (forall p s, refines (render_part P expand s p) (render_part P expand' s p)).
    Proof.
      apply expr_tail_part_ind.
      - intros v s. apply ref_refl.
      - intros l H s. cbn. seq; [|intros t; apply ref_refl]. apply ref_mconcat. all H. intros p Hp. apply Hp.
      - intros n r s. apply ref_refl.
      - intros y r s. apply ref_refl.
      - intros l H s. cbn. seq; [|intros t; apply ref_refl]. apply ref_mmap. all H. intros p Hp. apply Hp.
      - intros l H s. cbn. seq; [|intros t; apply ref_refl]. apply ref_mmap. all H. intros p Hp. apply Hp.
      - intros l H s. cbn. seq; [|intros t; apply ref_refl]. apply ref_mmap. all H. intros p Hp. apply Hp.
      - intros l H s. cbn. seq; [|intros t; apply ref_refl]. apply ref_mmap. all H. intros [k v] [Hk Hv]. cbn in *.
        seq; [apply Hk|]. intros a. seq; [apply Hv|]. intros b. apply ref_refl.
      - intros a ts q Ha Hts s. cbn. apply ref_qualified. seq; [apply Ha|]. intros v. apply ref_mfold. all Hts. intros t Ht w. apply Ht.
      - intros n h l Hh Hl s. cbn. seq; [apply Hh|]. intros v. seq; [apply ref_refl|]. intros w. apply ref_mfold. all Hl.
        intros [o e] He acc. cbn in *. seq; [apply He|]. intros z. apply ref_refl.
      - intros o h l Hh Hl s. cbn. seq; [apply Hh|]. intros v. apply ref_mfold. all Hl. intros e He acc. seq; [apply He|]. intros z. apply ref_refl.
      - intros h l Hh Hl s. cbn. seq; [apply Hh|]. intros v. apply ref_mfold. all Hl. intros e He acc. seq; [apply He|]. intros z. apply ref_call_value.
      - intros l H s. cbn. seq; [|intros t; apply ref_refl]. apply ref_mconcat. all H. intros e He. seq; [apply He|]. intros v. apply ref_refl.
      - intros n e He s. cbn. seq; [apply He|]. intros v. apply ref_refl.
      - intros h l Hh Hl s. cbn. seq; [apply Hh|]. intros v. revert v. induction Hl as [|e l He _ IH]; intros v; cbn; [apply ref_refl|].
        apply ref_logic; [apply He|exact IH].
      - intros h l Hh Hl s. cbn. seq; [apply Hh|]. intros v. revert v. induction Hl as [|e l He _ IH]; intros v; cbn; [apply ref_refl|].
        apply ref_logic; [apply He|exact IH].
      - intros x c y Hx Hc Hy s. cbn. seq; [apply Hc|]. intros v. seq; [apply ref_refl|]. intros [|]; [apply Hx|].
        destruct y; [apply Hy|apply ref_refl].
      - intros e q He s. cbn. apply ref_qualified, He.
      - intros l H s f. cbn. seq.
        + apply ref_mmap. all H. intros [n e] He. cbn in *. seq; [apply He|]. intros v. apply ref_refl.
        + intros items. destruct (split_args items). apply ref_call_value.
      - intros l H s f. cbn. destruct l as [|a l]; [apply ref_refl|]. seq; [|intros items; apply ref_refl].
        apply ref_mmap. all H. intros [n e] He. cbn in *. seq; [apply He|]. intros v. apply ref_refl.
      - intros e He s f. cbn. seq; [apply He|]. intros i. apply ref_refl.
      - intros a b c Ha Hb Hc s f. cbn. seq; [destruct a; [apply Ha|apply ref_refl]|]. intros va.
        seq; [destruct b; [apply Hb|apply ref_refl]|]. intros vb.
        seq; [destruct c; [apply Hc|apply ref_refl]|]. intros vc. apply ref_refl.
      - intros n s f. apply ref_refl.
      - intros t s. apply ref_refl.
      - intros e He s. cbn. seq; [apply He|]. intros v. apply ref_refl.
    Qed.
    Definition ref_eval e s := proj1 ref_eval_all e s.

    Lemma ref_line s l : refines (render_line P expand s l) (render_line P expand' s l).
    Proof.
      destruct l; cbn; [apply ref_refl| |].
      - seq; [|intros t; apply ref_refl]. apply ref_mconcat, Forall_forall. intros p _. apply ref_eval_all.
      - apply ref_mconcat, Forall_forall. intros p _. apply ref_eval_all.
    Qed.
    Lemma ref_titem s t : refines (render_titem P expand s t) (render_titem P expand' s t).
    Proof. destruct t; cbn; try apply ref_refl. seq; [apply ref_refl|]. intros ind. seq; [apply ref_line|]. intros r. apply ref_refl. Qed.
    Lemma ref_eval_named s l : refines (eval_named P expand s l) (eval_named P expand' s l).
    Proof. unfold eval_named. apply ref_mfold, Forall_forall. intros [n e] _ d. seq; [apply ref_eval|]. intros v. apply ref_refl. Qed.
    Lemma ref_tr_tag s t body : refines (tr_tag P expand s t body) (tr_tag P expand' s t body).
    Proof.
      destruct t as [|n sl un nm]; cbn; [apply ref_refl|].
      seq; [apply ref_mmap, Forall_forall; intros e _; apply ref_eval|]. intros attrs.
      seq; [apply ref_eval_named|]. intros kw. destruct sl; [|apply ref_refl].
      seq; [apply ref_refl|]. intros v. destruct v; try apply ref_refl. apply Rexpand.
    Qed.
    Lemma ref_indented s x x' : refines x x' -> refines (indented (W := W) s x) (indented s x').
    Proof. intros X. unfold indented. seq; [exact X|]. intros l. apply ref_refl. Qed.
    Lemma ref_some x x' : refines x x' -> refines (l <* x ;; ret (W := W) (Some (A := list nid) l)) (l <* x' ;; ret (Some l)).
    Proof. intros X. seq; [exact X|]. intros l. apply ref_refl. Qed.
    Lemma ref_opt s (o : option body) : on_opt (fun y => forall s, refines (tr_body P expand loops s y) (tr_body P expand' loops' s y)) o ->
      refines (match o with Some y => tr_body P expand loops s y | None => ret [] end)
              (match o with Some y => tr_body P expand' loops' s y | None => ret [] end).
    Proof. destruct o; [intros H; apply H|intros _; apply ref_refl]. Qed.

    Lemma ref_block_all : (forall b s, refines (tr_block P expand loops s b) (tr_block P expand' loops' s b)) /\
      (forall y s, refines (tr_body P expand loops s y) (tr_body P expand' loops' s y)) /\
      (forall i s, refines (tr_item P expand loops s i) (tr_item P expand' loops' s i)).
    Proof.
      apply block_body_item_ind.
      - intros lead l s. cbn. apply ref_some. seq; [|intros t; apply ref_refl].
        unfold render_text. seq; [|intros t; apply ref_refl]. apply ref_restoring. seq; [apply ref_refl|]. intros _.
        apply ref_mconcat, Forall_forall. intros t _. apply ref_titem.
      - intros s. apply ref_refl.
      - intros e s. cbn. apply ref_some, ref_indented. seq; [apply ref_eval|]. intros v. apply ref_refl.
      - intros tags y Hy s. cbn. apply ref_some, ref_indented. seq; [apply Hy|]. intros l.
        unfold apply_tags. apply ref_mfold, Forall_forall. intros t _ b. apply ref_tr_tag.
      - intros d n ab ar y Hy s. apply ref_refl.
      - intros p l s. apply ref_refl.
      - intros l s. apply ref_refl.
      - intros l H s. cbn. apply ref_some, ref_indented. induction H as [|y l Hy _ IH]; [apply ref_refl|].
        apply ref_or_else; [apply Hy|exact IH].
      - intros l els H He s. cbn. apply ref_some, ref_indented. induction H as [|[c y] l Hy _ IH]; [apply ref_opt, He|].
        seq; [apply ref_eval|]. intros v. seq; [apply ref_refl|]. intros [|]; [apply ref_opt, Hy|exact IH].
      - intros c y els Hy He s. cbn. apply ref_some, ref_indented. seq.
        + apply ref_while; [|apply ref_opt, Hy|exact Rloops]. seq; [apply ref_eval|]. intros v. apply ref_refl.
        + intros [[|] l]; destruct els; try apply ref_refl. apply He.
      - intros ts e y els Hy He s. cbn. apply ref_some, ref_indented. seq; [apply ref_eval|]. intros v.
        seq; [apply ref_refl|]. intros [items err]. seq.
        + unfold for_loop. seq; [|intros l; apply ref_refl]. apply ref_mconcat, Forall_forall. intros x _. seq; [apply ref_refl|]. intros _.
          destruct y; [apply Hy|]. apply ref_opt, He.
        + intros l. destruct items; [destruct els; [apply He|apply ref_refl]|apply ref_refl].
      - intros e s. cbn. seq; [apply ref_eval|]. intros v. apply ref_refl.
      - intros ts o e s. cbn. seq; [apply ref_eval|]. intros v. seq; [|intros w; apply ref_refl].
        destruct o; [|apply ref_refl]. seq; [|intros c; apply ref_refl]. unfold read_target.
        destruct ts as [|[|[n [|] r w|] [|]]]; try apply ref_refl.
      - intros s. apply ref_refl.
      - intros l H s. cbn. apply ref_restoring. apply ref_mconcat. all H. intros i Hi. apply Hi.
      - intros b Hb s. cbn. seq; [apply Hb|]. intros r. apply ref_refl.
      - intros o H s. cbn. destruct o; [apply H|apply ref_refl].
      - intros l s. cbn. seq; [apply ref_line|]. intros t. apply ref_refl.
      - intros c s. apply ref_refl.
      - intros c s. apply ref_refl.
      - intros x s. apply ref_refl.
      - intros mg md b Hb s. cbn. seq; [apply ref_refl|]. intros l. seq; [apply Hb|]. intros r. apply ref_refl.
    Qed.

    Lemma ref_expand_def d h body attrs kw s :
      refines (expand_def P expand loops d h body attrs kw s) (expand_def P expand' loops' d h body attrs kw s).
    Proof.
      unfold expand_def. seq.
      - unfold append_attrs. seq; [apply ref_refl|]. intros [bound dom]. seq; [|intros full; apply ref_refl].
        unfold add_defaults. apply ref_mfold, Forall_forall. intros [[n df] x] _ b.
        destruct (dmem str_eqb n b); [apply ref_refl|]. destruct df; [|apply ref_refl]. seq; [apply ref_eval|]. intros v. apply ref_refl.
      - intros dom. seq; [apply ref_block_all|]. intros out. apply ref_refl.
    Qed.
  End Step.

  Lemma ref_expand_n (P : prims W) n : forall n' h v a k s, n <= n' -> refines (expand_n P n h v a k s) (expand_n P n' h v a k s).
  Proof.
    induction n as [|n IH]; intros n' h v a k s L; [apply ref_nofuel|]. destruct n' as [|n']; [lia|]. cbn.
    revert s. induction h as [d|h IHh s']; intros s; [|apply IHh].
    intros m o m' E N. destruct (nth_error (m_defs m) d) as [hd|]; [|exact E].
    refine (ref_expand_def P _ _ _ n n' _ _ _ _ _ _ _ m o m' E N); [|lia]. intros; apply IH; lia.
  Qed.

  Lemma ref_item (P : prims W) n n' s i : n <= n' -> refines (tr_item P (expand_n P n) n s i) (tr_item P (expand_n P n') n' s i).
  Proof. intros L. apply ref_block_all; [|exact L]. intros; apply ref_expand_n, L. Qed.
  Lemma ref_document (P : prims W) n n' s d : n <= n' -> refines (tr_document P n s d) (tr_document P n' s d).
  Proof.
    intros L. unfold tr_document. apply ref_bind; [apply ref_refl|]. intros _. apply ref_bind; [|intros l; apply ref_refl].
    apply ref_mconcat, Forall_forall. intros i _. apply ref_item, L.
  Qed.
End Fuel.
