(** Facts about computations on the machine, and relations preserved by evaluation. *)
From Coq Require Import List NArith ZArith Bool Arith Lia.
From Verif Require Import PyStr Html Indent PyDict Value Dom Ast AstInd Machine Eval Translate.
Import ListNotations.

Section Facts.
  Context {W : Type}.

  Lemma bind_inv {A B} (x : M W A) (f : A -> M W B) m o m' : (a <* x ;; f a) m = (o, m') ->
    (exists a m1, x m = (Done a, m1) /\ f a m1 = (o, m')) \/
    (exists e, x m = (Exc e, m') /\ o = Exc e) \/ (x m = (Fuel, m') /\ o = Fuel).
  Proof.
    unfold mbind. destruct (x m) as [[a|e|] m1] eqn:E; intros H.
    - left. exists a, m1. split; [reflexivity|exact H].
    - injection H as <- <-. right; left. exists e. split; reflexivity.
    - injection H as <- <-. right; right. split; reflexivity.
  Qed.
  Lemma bind_done {A B} (x : M W A) (f : A -> M W B) m a m1 : x m = (Done a, m1) -> (a <* x ;; f a) m = f a m1.
  Proof. intros E. unfold mbind. rewrite E. reflexivity. Qed.
  Lemma bind_done_inv {A B} (x : M W A) (f : A -> M W B) m b m' : (a <* x ;; f a) m = (Done b, m') ->
    exists a m1, x m = (Done a, m1) /\ f a m1 = (Done b, m').
  Proof. intros H. apply bind_inv in H. destruct H as [H|[(e & _ & H)|[_ H]]]; [exact H|discriminate|discriminate]. Qed.

  Lemma put_nth_length {A} (l : list A) : forall i x, List.length (put_nth l i x) = List.length l.
  Proof. induction l as [|a l IH]; intros [|i] x; cbn; [reflexivity..|]. rewrite IH. reflexivity. Qed.
  Lemma put_nth_same {A} (l : list A) d : forall i x, i < List.length l -> nth i (put_nth l i x) d = x.
  Proof. induction l as [|a l IH]; intros [|i] x H; cbn in *; [lia|lia|reflexivity|apply IH; lia]. Qed.
  Lemma put_nth_other {A} (l : list A) d : forall i j x, i <> j -> nth j (put_nth l i x) d = nth j l d.
  Proof. induction l as [|a l IH]; intros [|i] [|j] x H; cbn; try reflexivity; try lia. apply IH. lia. Qed.
  Lemma put_nth_out {A} (l : list A) : forall i x, List.length l <= i -> put_nth l i x = l.
  Proof. induction l as [|a l IH]; intros [|i] x H; cbn in *; try reflexivity; try lia. f_equal. apply IH. lia. Qed.

  Lemma state_put_same (m : mach W) s x : s < List.length (m_states m) -> state_at (put_state m s x) s = x.
  Proof. intros H. apply put_nth_same. exact H. Qed.
  Lemma state_put_other (m : mach W) s s' x : s <> s' -> state_at (put_state m s x) s' = state_at m s'.
  Proof. intros H. apply put_nth_other. exact H. Qed.
  Lemma state_put_out (m : mach W) s s' x : List.length (m_states m) <= s -> state_at (put_state m s x) s' = state_at m s'.
  Proof. intros H. unfold state_at, put_state. cbn. rewrite put_nth_out by exact H. reflexivity. Qed.

  (** ** Relations between the machine before and after a computation *)
  Definition pres (R : mach W -> mach W -> Prop) {A} (x : M W A) : Prop :=
    forall m o m', x m = (o, m') -> o <> Fuel -> R m m'.

  Section Pres.
    Variable R : mach W -> mach W -> Prop.
    Hypothesis Rrefl : forall m, R m m.
    Hypothesis Rtrans : forall a b c, R a b -> R b c -> R a c.

    Lemma pres_ret {A} (a : A) : pres R (ret a).
    Proof. intros m o m' [= <- <-] _. apply Rrefl. Qed.
    Lemma pres_exc {A} e : pres R (exc (A := A) e).
    Proof. intros m o m' [= <- <-] _. apply Rrefl. Qed.
    Lemma pres_nofuel {A} : pres R (nofuel (A := A)).
    Proof. intros m o m' [= <- <-] H. exfalso. apply H. reflexivity. Qed.
    Lemma pres_bind {A B} (x : M W A) (f : A -> M W B) : pres R x -> (forall a, pres R (f a)) -> pres R (mbind x f).
    Proof.
      intros X F m o m' E N. apply bind_inv in E. destruct E as [(a & m1 & E1 & E2)|[(e & E & ->)|(_ & ->)]].
      - apply Rtrans with m1; [apply (X _ _ _ E1); discriminate|apply (F _ _ _ _ E2 N)].
      - apply (X _ _ _ E); discriminate.
      - contradiction N; reflexivity.
    Qed.
    Lemma pres_of_result {A} (r : result A) : pres R (of_result r).
    Proof. destruct r; [apply pres_ret|apply pres_exc]. Qed.
    Lemma pres_read {A} (f : mach W -> out A) : pres R (fun m => (f m, m)).
    Proof. intros m o m' [= _ <-] _. apply Rrefl. Qed.
    Lemma pres_mmap {A B} (f : A -> M W B) l : Forall (fun x => pres R (f x)) l -> pres R (mmap f l).
    Proof.
      intros H. induction H as [|x l H _ IH]; cbn; [apply pres_ret|].
      apply pres_bind; [exact H|]. intros y. apply pres_bind; [exact IH|]. intros ys. apply pres_ret.
    Qed.
    Lemma pres_miter {A} (f : A -> M W unit) l : Forall (fun x => pres R (f x)) l -> pres R (miter f l).
    Proof. intros H. induction H as [|x l H _ IH]; cbn; [apply pres_ret|]. apply pres_bind; [exact H|]. intros _. exact IH. Qed.
    Lemma pres_mfold {A B} (f : B -> A -> M W B) l : Forall (fun x => forall a, pres R (f a x)) l -> forall acc, pres R (mfold f l acc).
    Proof. intros H. induction H as [|x l H _ IH]; intros acc; cbn; [apply pres_ret|]. apply pres_bind; [apply H|]. intros b. apply IH. Qed.
    Lemma pres_mconcat {A B} (f : A -> M W (list B)) l : Forall (fun x => pres R (f x)) l -> pres R (mconcat f l).
    Proof.
      intros H. induction H as [|x l H _ IH]; cbn; [apply pres_ret|].
      apply pres_bind; [exact H|]. intros y. apply pres_bind; [exact IH|]. intros ys. apply pres_ret.
    Qed.
    Lemma pres_or_else {A} (x y : M W A) : pres R x -> pres R y -> pres R (or_else x y).
    Proof.
      intros X Y m o m' E N. unfold or_else in E. destruct (x m) as [[a|e|] m1] eqn:E1.
      - injection E as <- <-. apply (X _ _ _ E1 N).
      - apply Rtrans with m1; [apply (X _ _ _ E1); discriminate|apply (Y _ _ _ E N)].
      - injection E as <- <-. contradiction N; reflexivity.
    Qed.
    Lemma pres_get_ind s : pres R (get_ind s).
    Proof. apply pres_read. Qed.
    Lemma pres_get_slot s x : pres R (get_slot s x).
    Proof. intros m o m' E _. unfold get_slot in E. destruct (slot_value m s x); injection E as <- <-; apply Rrefl. Qed.

    Hypothesis Rheap : forall m h, R m (with_heap m h).
    Hypothesis Rworld : forall m w, R m (with_world m w).

    Lemma pres_lift_p {A} (f : prim W A) : pres R (lift_p f).
    Proof. intros m o m' E _. unfold lift_p in E. destruct (f (m_heap m) (m_world m)). injection E as <- <-. apply Rworld. Qed.
    Lemma pres_lift_h {A} (f : hm A) : pres R (lift_h f).
    Proof. intros m o m' E _. unfold lift_h in E. destruct (f (m_heap m)). injection E as <- <-. apply Rheap. Qed.

    Section Eval.
      Variable P : prims W.
      Variable expand : hyper -> val -> list val -> list (str * val) -> nat -> M W (list nid).
      Hypothesis Rexpand : forall h v a k s, pres R (expand h v a k s).

      Lemma pres_truth v : pres R (truth P v).
      Proof. destruct v; cbn; try apply pres_ret. apply pres_lift_p. Qed.
      Lemma pres_to_text v : pres R (to_text P v).
      Proof. destruct v; cbn; try apply pres_ret; apply pres_lift_p. Qed.
      Lemma pres_STR v : pres R (STR P v).
      Proof. destruct v; cbn; try apply pres_ret; try apply pres_exc; apply pres_lift_p. Qed.

      Lemma pres_call_emb h s args kw : pres R (call_emb P expand h s args kw).
      Proof.
        unfold call_emb. apply pres_bind; [apply pres_of_result|]. intros [[bs attrs] k].
        apply pres_bind.
        - assert (T : pres R (t <* to_text P bs ;; i <* do_text t None ;; ret (VNode i))).
          { apply pres_bind; [apply pres_to_text|]. intros t. apply pres_bind; [apply pres_lift_h|]. intros i. apply pres_ret. }
          destruct bs; try exact T. apply pres_ret.
        - intros b. apply pres_bind; [apply Rexpand|]. intros dom. apply pres_bind; [apply pres_lift_h|]. intros _.
          intros m o m' E N. destruct (dom_render _ _ _ _); injection E as <- <-; apply Rrefl.
      Qed.
      Lemma pres_call_tag t args kw : pres R (call_tag P t args kw).
      Proof.
        unfold call_tag. apply pres_bind; [apply pres_of_result|]. intros [[bs attrs] k]. apply pres_bind.
        - destruct bs; try apply pres_to_text. apply pres_ret.
        - intros b m o m' E N. destruct (Dom.expand _ _ _ _ _); injection E as <- <-; apply Rrefl.
      Qed.
      Lemma pres_call_value f : forall args kw, pres R (call_value P expand f args kw).
      Proof.
        revert f. fix IH 1. intros f args kw. destruct f; cbn; try apply pres_lift_p.
        - apply pres_call_tag.
        - apply pres_call_emb.
        - destruct kw; [apply IH|apply pres_exc].
      Qed.
      Lemma pres_qualified q x : pres R x -> pres R (qualified P q x).
      Proof.
        intros X m o m' E N. unfold qualified in E. destruct (x m) as [[v|e|] m1] eqn:E1.
        - apply Rtrans with m1; [apply (X _ _ _ E1); discriminate|]. revert E N. apply pres_bind; [apply pres_truth|].
          intros [|]; [apply pres_ret|]. destruct q; [apply pres_ret|apply pres_ret|apply pres_exc].
        - destruct q; injection E as <- <-; apply (X _ _ _ E1); discriminate.
        - injection E as <- <-. contradiction N; reflexivity.
      Qed.

      Lemma pres_logic stop f res cont : pres R f -> (forall v, pres R (cont v)) -> pres R (logic_step P stop f res cont).
      Proof.
        intros F C. unfold logic_step. apply pres_bind; [apply pres_truth|]. intros b. destruct (Bool.eqb b stop); [apply pres_ret|].
        apply pres_bind; [apply pres_truth|]. intros b2. destruct (Bool.eqb b2 stop); [apply C|].
        apply pres_bind; [exact F|]. intros r. apply C.
      Qed.

      Lemma pres_eval_all : (forall e s, pres R (eval P expand s e)) /\
        (forall t s f, pres R (apply_tail P expand s t f)) /\ (forall p s, pres R (render_part P expand s p)).
      Proof.
        apply expr_tail_part_ind.
        - intros v s. apply pres_ret.
        - intros l H s. cbn. apply pres_bind; [|intros t; apply pres_ret]. apply pres_mconcat.
          eapply Forall_impl; [|exact H]. intros p Hp. apply Hp.
        - intros n r s. cbn. destruct r; [|apply pres_exc]. intros m o m' E _. destruct (slot_value m s n0); injection E as <- <-; apply Rrefl.
        - intros y r s. cbn. destruct r as [x|]; [|apply pres_exc]. intros m o m' E _.
          destruct (slot_value m s x) as [v|]; [destruct v|]; injection E as <- <-; apply Rrefl.
        - intros l H s. cbn. apply pres_bind; [|intros t; apply pres_ret]. apply pres_mmap. eapply Forall_impl; [|exact H]. intros p Hp. apply Hp.
        - intros l H s. cbn. apply pres_bind; [|intros t; apply pres_ret]. apply pres_mmap. eapply Forall_impl; [|exact H]. intros p Hp. apply Hp.
        - intros l H s. cbn. apply pres_bind; [|intros t; apply pres_lift_p]. apply pres_mmap. eapply Forall_impl; [|exact H]. intros p Hp. apply Hp.
        - intros l H s. cbn. apply pres_bind; [|intros t; apply pres_lift_p]. apply pres_mmap. eapply Forall_impl; [|exact H].
          intros [k v] [Hk Hv]. cbn in *. apply pres_bind; [apply Hk|]. intros a. apply pres_bind; [apply Hv|]. intros b. apply pres_ret.
        - intros a ts q Ha Hts s. cbn. apply pres_qualified. apply pres_bind; [apply Ha|]. intros v. apply pres_mfold.
          eapply Forall_impl; [|exact Hts]. intros t Ht w. apply Ht.
        - intros n h l Hh Hl s. cbn. apply pres_bind; [apply Hh|]. intros v. apply pres_bind.
          + destruct n; [|apply pres_ret]. destruct v; try apply pres_lift_p. apply pres_ret.
          + intros w. apply pres_mfold. eapply Forall_impl; [|exact Hl]. intros [o e] He acc. cbn in *.
            apply pres_bind; [apply He|]. intros z. apply pres_lift_p.
        - intros o h l Hh Hl s. cbn. apply pres_bind; [apply Hh|]. intros v. apply pres_mfold.
          eapply Forall_impl; [|exact Hl]. intros e He acc. apply pres_bind; [apply He|]. intros z. apply pres_lift_p.
        - intros h l Hh Hl s. cbn. apply pres_bind; [apply Hh|]. intros v. apply pres_mfold.
          eapply Forall_impl; [|exact Hl]. intros e He acc. apply pres_bind; [apply He|]. intros z. apply pres_call_value.
        - intros l H s. cbn. apply pres_bind; [|intros t; apply pres_ret]. apply pres_mconcat. eapply Forall_impl; [|exact H].
          intros e He. apply pres_bind; [apply He|]. intros v. apply pres_STR.
        - intros n e He s. cbn. apply pres_bind; [apply He|]. intros v. destruct (Nat.odd n); [|apply pres_ret].
          apply pres_bind; [apply pres_truth|]. intros b. apply pres_ret.
        - intros h l Hh Hl s. cbn. apply pres_bind; [apply Hh|]. intros v. revert v. induction Hl as [|e l He _ IH]; intros v; cbn; [apply pres_ret|].
          apply pres_logic; [apply He|exact IH].
        - intros h l Hh Hl s. cbn. apply pres_bind; [apply Hh|]. intros v. revert v. induction Hl as [|e l He _ IH]; intros v; cbn; [apply pres_ret|].
          apply pres_logic; [apply He|exact IH].
        - intros x c y Hx Hc Hy s. cbn. apply pres_bind; [apply Hc|]. intros v. apply pres_bind; [apply pres_truth|]. intros [|]; [apply Hx|].
          destruct y; [apply Hy|apply pres_ret].
        - intros e q He s. cbn. apply pres_qualified, He.
        - intros l H s f. cbn. apply pres_bind.
          + apply pres_mmap. eapply Forall_impl; [|exact H]. intros [n e] He. cbn in *. apply pres_bind; [apply He|]. intros v. apply pres_ret.
          + intros items. destruct (split_args items). apply pres_call_value.
        - intros l H s f. cbn. destruct l as [|a l]; [apply pres_ret|]. apply pres_bind; [|intros items; apply pres_ret].
          apply pres_mmap. eapply Forall_impl; [|exact H]. intros [n e] He. cbn in *. apply pres_bind; [apply He|]. intros v. apply pres_ret.
        - intros e He s f. cbn. apply pres_bind; [apply He|]. intros i. apply pres_lift_p.
        - intros a b c Ha Hb Hc s f. cbn. apply pres_bind; [destruct a; [apply Ha|apply pres_ret]|]. intros va.
          apply pres_bind; [destruct b; [apply Hb|apply pres_ret]|]. intros vb.
          apply pres_bind; [destruct c; [apply Hc|apply pres_ret]|]. intros vc. apply pres_lift_p.
        - intros n s f. cbn. apply pres_lift_p.
        - intros t s. apply pres_ret.
        - intros e He s. cbn. apply pres_bind; [apply He|]. intros v. apply pres_STR.
      Qed.
      Definition pres_eval e s := proj1 pres_eval_all e s.
      Definition pres_render_part p s := proj2 (proj2 pres_eval_all) p s.

      Lemma pres_iterate v : pres R (iterate P v).
      Proof. destruct v; cbn; try apply pres_ret; try apply pres_exc. apply pres_lift_p. Qed.
      Lemma pres_merge_attr a b : pres R (merge_attr P a b).
      Proof.
        unfold merge_attr. apply pres_bind; [destruct b; first [apply pres_ret|apply pres_lift_p]|].
        intros x. destruct a; try apply pres_lift_p. destruct x; try apply pres_lift_p. apply pres_ret.
      Qed.
      Lemma pres_eval_named s l : pres R (eval_named P expand s l).
      Proof.
        unfold eval_named. apply pres_mfold. apply Forall_forall. intros [n e] _ d.
        apply pres_bind; [apply pres_eval|]. intros v. destruct (dget str_eqb n d); [|apply pres_ret].
        apply pres_bind; [apply pres_merge_attr|]. intros w. apply pres_ret.
      Qed.
      Lemma pres_read_target s t : pres R (read_target P expand s t).
      Proof.
        unfold read_target. destruct t as [|[|[n [|] r w|] [|]]]; try apply pres_exc.
        apply (pres_eval (EVar n r) s).
      Qed.
      Lemma pres_render_line s l : pres R (render_line P expand s l).
      Proof.
        destruct l; cbn; [apply pres_ret| |].
        - apply pres_bind; [|intros t; apply pres_ret]. apply pres_mconcat, Forall_forall. intros p _. apply pres_render_part.
        - apply pres_mconcat, Forall_forall. intros p _. apply pres_render_part.
      Qed.
      Lemma pres_as_sequence v : pres R (as_sequence P v).
      Proof.
        assert (G : pres R (fun m => match iterate P v m with
          | (Done (items, None), m') => of_result (flatten (map item_of items)) m'
          | (Done (_, Some _), m') => (Exc TypeError, m')
          | (Exc _, m') => (Exc TypeError, m')
          | (Fuel, m') => (Fuel, m')
          end)).
        { intros m o m' E N. destruct (iterate P v m) as [[[items [e|]]|e|] m1] eqn:E1.
          - injection E as <- <-. apply (pres_iterate _ _ _ _ E1). discriminate.
          - apply Rtrans with m1; [apply (pres_iterate _ _ _ _ E1); discriminate|]. apply (pres_of_result _ _ _ _ E N).
          - injection E as <- <-. apply (pres_iterate _ _ _ _ E1). discriminate.
          - injection E as <- <-. contradiction N; reflexivity. }
        destruct v; try exact G; apply pres_ret.
      Qed.
      Lemma pres_tr_tag s t body : pres R (tr_tag P expand s t body).
      Proof.
        destruct t as [|n sl un nm]; cbn.
        - apply pres_bind; [apply pres_lift_h|]. intros i. apply pres_ret.
        - apply pres_bind; [apply pres_mmap, Forall_forall; intros e _; apply pres_eval|]. intros attrs.
          apply pres_bind; [apply pres_eval_named|]. intros kw. destruct sl; [|apply pres_exc].
          apply pres_bind; [apply pres_get_slot|]. intros v. destruct v; try apply pres_exc.
          + apply pres_bind; [apply pres_lift_h|]. intros i. apply pres_ret.
          + apply Rexpand.
      Qed.
      Lemma pres_apply_tags s tags body : pres R (apply_tags P expand s tags body).
      Proof. unfold apply_tags. apply pres_mfold, Forall_forall. intros t _ b. apply pres_tr_tag. Qed.
      Lemma pres_tr_static s : pres R (tr_static s).
      Proof. destruct s; cbn; [apply pres_ret|]. apply pres_bind; [apply pres_lift_h|]. intros i. apply pres_ret. Qed.
      Lemma pres_indented s x : pres R x -> pres R (indented s x).
      Proof.
        intros X. unfold indented. apply pres_bind; [exact X|]. intros l. apply pres_bind; [apply pres_get_ind|]. intros ind.
        apply pres_bind; [apply pres_lift_h|]. intros _. apply pres_ret.
      Qed.
      Lemma pres_for_loop step items err : (forall v, pres R (step v)) -> pres R (for_loop step items err).
      Proof.
        intros H. unfold for_loop. apply pres_bind; [apply pres_mconcat, Forall_forall; intros v _; apply H|].
        intros l. destruct err; [apply pres_exc|apply pres_ret].
      Qed.
      Lemma pres_while_loop test step n : pres R test -> pres R step -> forall empty acc, pres R (while_loop test step n empty acc).
      Proof.
        intros T X. induction n as [|n IH]; intros empty acc; cbn; [apply pres_nofuel|].
        apply pres_bind; [exact T|]. intros [|]; [|apply pres_ret]. apply pres_bind; [exact X|]. intros l. apply IH.
      Qed.
      Lemma pres_add_defaults s regul bound : pres R (add_defaults P expand s regul bound).
      Proof.
        unfold add_defaults. apply pres_mfold, Forall_forall. intros [[n d] x] _ b.
        destruct (dmem str_eqb n b); [apply pres_ret|]. destruct d; [|apply pres_exc].
        apply pres_bind; [apply pres_eval|]. intros v. apply pres_ret.
      Qed.
      (** expand_def, given the writing of attributes and the translation of the body *)
      Lemma pres_expand_def loops d h body attrs kw s :
        (forall x v, In x (map snd (h_regul h)) -> pres R (set_slot s x v)) ->
        (forall n x v, h_body h = Some (n, x) -> pres R (set_slot s x v)) ->
        pres R (tr_body P expand loops s (h_block h)) ->
        pres R (expand_def P expand loops d h body attrs kw s).
      Proof.
        intros HS HB HT. unfold expand_def. apply pres_bind.
        - unfold append_attrs. apply pres_bind; [apply pres_of_result|]. intros [bound dom].
          apply pres_bind; [apply pres_add_defaults|]. intros full. apply pres_bind.
          + apply pres_miter, Forall_forall. intros [n v] _. unfold set_attr, slot_of. cbn [fst snd].
            destruct (find _ _) as [[[n' df] x]|] eqn:F; [|apply pres_exc]. apply HS. apply find_some in F. destruct F as [F _].
            apply (in_map snd) in F. exact F.
          + intros _. apply pres_bind; [|intros _; apply pres_ret]. destruct (h_body h) as [[n x]|] eqn:E; [apply (HB n x body eq_refl)|].
            apply pres_bind; [apply pres_truth|]. intros [|]; [apply pres_exc|apply pres_ret].
        - intros dom. apply pres_bind; [exact HT|]. intros out. apply pres_bind; [apply pres_get_ind|]. intros ind.
          apply pres_bind; [apply pres_lift_h|]. intros _. apply pres_bind.
          + destruct out; [apply pres_ret|apply pres_lift_h].
          + intros _. apply pres_bind; [apply pres_lift_h|]. intros i. apply pres_ret.
      Qed.
    End Eval.
  End Pres.

  Lemma pres_impl (R R' : mach W -> mach W -> Prop) {A} (x : M W A) : (forall m m', R m m' -> R' m m') -> pres R x -> pres R' x.
  Proof. intros H X m o m' E N. apply H, (X _ _ _ E N). Qed.
End Facts.
