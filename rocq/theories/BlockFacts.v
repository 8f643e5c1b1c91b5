(** Facts about the translation of blocks: restored indentation (C28). *)
From Coq Require Import List NArith ZArith Bool Arith Lia.
From Verif Require Import PyStr Html Indent PyDict Value Dom Ast AstInd Machine Eval Translate MachineFacts.
Import ListNotations.

Section Indentation.
  Context {W : Type}.

  (** the indentation of state number [s] *)
  Definition ind_of (m : mach W) (s : nat) : str := s_indent (state_at m s).

  Definition same_ind (m m' : mach W) : Prop :=
    List.length (m_states m') = List.length (m_states m) /\ forall s, ind_of m' s = ind_of m s.
  Definition others_ind (s0 : nat) (m m' : mach W) : Prop :=
    List.length (m_states m') = List.length (m_states m) /\ forall s, s <> s0 -> ind_of m' s = ind_of m s.

  Lemma same_refl m : same_ind m m.
  Proof. split; reflexivity. Qed.
  Lemma same_trans a b c : same_ind a b -> same_ind b c -> same_ind a c.
  Proof. intros [L1 H1] [L2 H2]. split; [congruence|]. intros s. rewrite H2, H1. reflexivity. Qed.
  Lemma others_refl s0 m : others_ind s0 m m.
  Proof. split; reflexivity. Qed.
  Lemma others_trans s0 a b c : others_ind s0 a b -> others_ind s0 b c -> others_ind s0 a c.
  Proof. intros [L1 H1] [L2 H2]. split; [congruence|]. intros s N. rewrite H2, H1 by exact N. reflexivity. Qed.
  Lemma same_others s0 m m' : same_ind m m' -> others_ind s0 m m'.
  Proof. intros [L H]. split; [exact L|]. intros s _. apply H. Qed.
  Lemma same_heap (m : mach W) h : same_ind m (with_heap m h).
  Proof. split; reflexivity. Qed.
  Lemma same_world (m : mach W) w : same_ind m (with_world m w).
  Proof. split; reflexivity. Qed.
  Lemma others_heap s0 (m : mach W) h : others_ind s0 m (with_heap m h).
  Proof. split; reflexivity. Qed.
  Lemma others_world s0 (m : mach W) w : others_ind s0 m (with_world m w).
  Proof. split; reflexivity. Qed.

  Lemma same_set_slot s x v : pres same_ind (set_slot (W := W) s x v).
  Proof.
    intros m o m' [= <- <-] _. split; [apply put_nth_length|]. intros s'. unfold ind_of.
    destruct (Nat.eq_dec s s') as [<-|N]; [|rewrite state_put_other by exact N; reflexivity].
    destruct (Nat.lt_ge_cases s (List.length (m_states m))) as [L|G].
    - rewrite state_put_same by exact L. reflexivity.
    - rewrite state_put_out by exact G. reflexivity.
  Qed.
  Lemma others_set_ind s ind : pres (others_ind s) (set_ind (W := W) s ind).
  Proof.
    intros m o m' [= <- <-] _. split; [apply put_nth_length|]. intros s' N. unfold ind_of.
    rewrite state_put_other by congruence. reflexivity.
  Qed.
  Lemma restoring_same {A} s (x : M W A) : pres (others_ind s) x -> pres same_ind (restoring s x).
  Proof.
    intros X m o m' E N. unfold restoring in E.
    assert (G : forall o1 m1, x m = (o1, m1) -> o1 <> Fuel -> same_ind m (snd (set_ind s (s_indent (state_at m s)) m1))).
    { intros o1 m1 E1 N1. destruct (X _ _ _ E1 N1) as [L H]. cbn. split; [cbn; rewrite put_nth_length; exact L|].
      intros s'. unfold ind_of. destruct (Nat.eq_dec s s') as [<-|D].
      - destruct (Nat.lt_ge_cases s (List.length (m_states m1))) as [K|K].
        + rewrite state_put_same by exact K. reflexivity.
        + rewrite state_put_out by exact K. unfold state_at. rewrite !nth_overflow by lia. reflexivity.
      - rewrite state_put_other by exact D. apply H. congruence. }
    destruct (x m) as [[a|e|] m1] eqn:E1; injection E as <- <-; [apply (G _ _ eq_refl); discriminate..|].
    contradiction N; reflexivity.
  Qed.

  Section Blocks.
    Variable P : prims W.
    Variable expand : hyper -> val -> list val -> list (str * val) -> nat -> M W (list nid).
    Variable loops : nat.
    Hypothesis Rexpand : forall h v a k s, pres same_ind (expand h v a k s).

    Ltac S_ := first [exact same_refl|exact same_trans|exact same_heap|exact same_world|exact Rexpand].
    Ltac seq := apply (pres_bind same_ind same_trans).

    Lemma others_indent_by s c : pres (others_ind s) (indent_by (W := W) s c).
    Proof. apply pres_bind; [exact (others_trans s)|apply pres_get_ind; exact (others_refl s)|]. intros ind. apply others_set_ind. Qed.
    Lemma others_dedent_by s c : pres (others_ind s) (dedent_by (W := W) s c).
    Proof.
      apply pres_bind; [exact (others_trans s)|apply pres_get_ind; exact (others_refl s)|]. intros ind.
      destruct (rev ind); [apply pres_exc, others_refl|]. destruct (N.eqb _ _); [apply others_set_ind|apply pres_exc, others_refl].
    Qed.
    Lemma same_then {A} s (x : M W A) : pres same_ind x -> pres (others_ind s) x.
    Proof. apply pres_impl, same_others. Qed.

    Lemma others_titem s t : pres (others_ind s) (render_titem P expand s t).
    Proof.
      destruct t as [l|x|c|c]; cbn.
      - apply same_then. seq; [apply pres_get_ind; S_|]. intros ind. seq; [apply pres_render_line; S_|]. intros r. apply pres_ret; S_.
      - apply pres_ret, others_refl.
      - apply pres_bind; [exact (others_trans s)|apply others_indent_by|]. intros _. apply pres_ret, others_refl.
      - apply pres_bind; [exact (others_trans s)|apply others_dedent_by|]. intros _. apply pres_ret, others_refl.
    Qed.

    Lemma same_assign s t : forall v, pres same_ind (assign P s t v).
    Proof.
      induction t as [n rd r w|l IH] using target_ind'; intros v; cbn.
      - destruct w; [apply same_set_slot|apply pres_exc; S_].
      - destruct l as [|t1 l].
        + seq; [apply pres_iterate; S_|]. intros [items err]. destruct items; [destruct err; [apply pres_exc; S_|apply pres_ret; S_]|apply pres_exc; S_].
        + inversion IH as [|? ? H1 H2]; subst. destruct l as [|t2 l]; [apply H1|].
          seq; [apply pres_iterate; S_|]. intros [items err]. revert items.
          set (go := fix go (ts : list target) (items : list val) {struct ts} : M W unit := _).
          assert (G : forall ts, Forall (fun t => forall v, pres same_ind (assign P s t v)) ts -> forall items, pres same_ind (go ts items)).
          { intros ts H. induction H as [|t ts Ht _ IHt]; intros items; destruct items as [|x items]; cbn.
            - destruct err; [apply pres_exc; S_|apply pres_ret; S_].
            - apply pres_exc; S_.
            - destruct err; apply pres_exc; S_.
            - seq; [apply Ht|]. intros _. apply IHt. }
          intros items. apply (G (t1 :: t2 :: l)). exact IH.
    Qed.

    Lemma same_tr_import s i : pres same_ind (tr_import (W := W) s i).
    Proof.
      destruct i as [[l|]|y rn [xv|]]; cbn; try (apply pres_exc; S_).
      - apply pres_miter; [S_..|]. apply Forall_forall. intros xv _. apply same_set_slot.
      - apply same_set_slot.
    Qed.

    Lemma same_indented s x : pres same_ind x -> pres same_ind (indented s x).
    Proof. intros X. apply pres_indented; [S_..|exact X]. Qed.
    Lemma same_some x : pres same_ind x -> pres same_ind (l <* x ;; ret (W := W) (Some (A := list nid) l)).
    Proof. intros X. seq; [exact X|]. intros l. apply pres_ret; S_. Qed.
    Lemma same_opt s (o : option body) : on_opt (fun y => forall s, pres same_ind (tr_body P expand loops s y)) o ->
      pres same_ind (match o with Some y => tr_body P expand loops s y | None => ret [] end).
    Proof. destruct o; [intros H; apply H|intros _; apply pres_ret; S_]. Qed.

    Lemma same_block_all : (forall b s, pres same_ind (tr_block P expand loops s b)) /\
      (forall y s, pres same_ind (tr_body P expand loops s y)) /\
      (forall i s, pres (others_ind s) (tr_item P expand loops s i)).
    Proof.
      apply block_body_item_ind.
      - intros lead l s. cbn. apply same_some. seq.
        + unfold render_text. seq; [|intros t; apply pres_ret; S_]. apply restoring_same.
          apply pres_bind; [exact (others_trans s)|apply others_set_ind|]. intros _.
          apply pres_mconcat; [exact (others_refl s)|exact (others_trans s)|]. apply Forall_forall. intros t _. apply others_titem.
        + intros t. seq; [apply pres_get_ind; S_|]. intros ind. seq; [apply pres_lift_h; S_|]. intros i. apply pres_ret; S_.
      - intros s. cbn. apply same_some, pres_ret; S_.
      - intros e s. cbn. apply same_some, same_indented. seq; [apply pres_eval; S_|]. intros v. apply pres_as_sequence; S_.
      - intros tags y Hy s. cbn. apply same_some, same_indented. seq; [apply Hy|]. intros l. apply pres_apply_tags; S_.
      - intros d n ab ar y Hy s. cbn. destruct d as [[d x]|]; [|apply pres_exc; S_]. seq; [apply same_set_slot|]. intros _. apply pres_ret; S_.
      - intros p l s. cbn. apply same_some. seq; [|intros _; apply pres_ret; S_]. apply pres_miter; [S_..|]. apply Forall_forall. intros i _. apply same_tr_import.
      - intros l s. cbn. apply same_some. seq; [|intros _; apply pres_ret; S_]. apply pres_miter; [S_..|]. apply Forall_forall. intros i _. apply same_tr_import.
      - intros l H s. cbn. apply same_some, same_indented. induction H as [|y l Hy _ IH]; [apply pres_ret; S_|].
        apply pres_or_else; [S_|apply Hy|exact IH].
      - intros l els H He s. cbn. apply same_some, same_indented. induction H as [|[c y] l Hy _ IH]; [apply same_opt, He|].
        seq; [apply pres_eval; S_|]. intros v. seq; [apply pres_truth; S_|]. intros [|]; [apply same_opt, Hy|exact IH].
      - intros c y els Hy He s. cbn. apply same_some, same_indented. seq.
        + apply pres_while_loop; [S_..| |apply same_opt, Hy]. seq; [apply pres_eval; S_|]. intros v. apply pres_truth; S_.
        + intros [[|] l]; destruct els; try (apply pres_ret; S_). apply He.
      - intros ts e y els Hy He s. cbn. apply same_some, same_indented. seq; [apply pres_eval; S_|]. intros v.
        seq; [apply pres_iterate; S_|]. intros [items err]. seq.
        + apply pres_for_loop; [S_..|]. intros x. seq; [apply same_assign|]. intros _. destruct y; [apply Hy|]. apply same_opt, He.
        + intros l. destruct items; [destruct els; [apply He|apply pres_ret; S_]|apply pres_ret; S_].
      - intros e s. cbn. seq; [apply pres_eval; S_|]. intros v. apply pres_ret; S_.
      - intros ts o e s. cbn. seq; [apply pres_eval; S_|]. intros v. seq.
        + destruct o; [|apply pres_ret; S_]. seq; [apply pres_read_target; S_|]. intros c. apply pres_lift_p; S_.
        + intros w. seq; [apply same_assign|]. intros _. apply pres_ret; S_.
      - intros s. cbn. apply same_some, pres_ret; S_.
      - intros l H s. cbn. apply restoring_same. apply pres_mconcat; [exact (others_refl s)|exact (others_trans s)|].
        eapply Forall_impl; [|exact H]. intros i Hi. apply Hi.
      - intros b Hb s. cbn. seq; [apply Hb|]. intros r. apply pres_ret; S_.
      - intros o H s. cbn. destruct o; [apply H|apply pres_exc; S_].
      - intros l s. cbn. apply same_then. seq; [apply pres_render_line; S_|]. intros t. seq; [apply pres_lift_h; S_|]. intros i. apply pres_ret; S_.
      - intros c s. cbn. apply pres_bind; [exact (others_trans s)|apply others_indent_by|]. intros _. apply pres_ret, others_refl.
      - intros c s. cbn. apply pres_bind; [exact (others_trans s)|apply others_dedent_by|]. intros _. apply pres_ret, others_refl.
      - intros x s. cbn. apply same_then, pres_tr_static; S_.
      - intros mg md b Hb s. cbn. apply same_then. seq; [apply pres_tr_static; S_|]. intros l. seq; [apply Hb|]. intros [[|i r]|]; try (apply pres_ret; S_).
        seq; [destruct md; first [apply pres_ret; S_|apply pres_lift_h; S_]|]. intros _.
        seq; [destruct md; first [apply pres_ret; S_|apply pres_lift_h; S_]|]. intros _. apply pres_ret; S_.
    Qed.

    Lemma same_expand_def d h body attrs kw s : pres same_ind (expand_def P expand loops d h body attrs kw s).
    Proof.
      apply pres_expand_def; [S_..| | |].
      - intros x v _. apply same_set_slot.
      - intros n x v _. apply same_set_slot.
      - apply same_block_all.
    Qed.
  End Blocks.

  Lemma same_expand_n (P : prims W) n : forall h v a k s, pres same_ind (expand_n P n h v a k s).
  Proof.
    induction n as [|n IH]; intros h v a k s; [apply pres_nofuel|]. cbn.
    revert s. induction h as [d|h IHh s']; intros s; [|apply IHh].
    intros m o m' E N. destruct (nth_error (m_defs m) d) as [hd|]; [|injection E as <- <-; apply same_refl].
    exact (same_expand_def P _ n IH _ _ _ _ _ _ m o m' E N).
  Qed.

  Lemma same_block (P : prims W) n loops s b : pres same_ind (tr_block P (expand_n P n) loops s b).
  Proof. apply same_block_all. intros; apply same_expand_n. Qed.
  Lemma same_body (P : prims W) n loops s y : pres same_ind (tr_body P (expand_n P n) loops s y).
  Proof. apply same_block_all. intros; apply same_expand_n. Qed.
  Lemma same_item (P : prims W) n loops s i : pres (others_ind s) (tr_item P (expand_n P n) loops s i).
  Proof. apply same_block_all. intros; apply same_expand_n. Qed.
  Lemma same_eval (P : prims W) n s e : pres same_ind (eval P (expand_n P n) s e).
  Proof.
    apply pres_eval; [exact same_refl|exact same_trans|exact same_heap|exact same_world|]. intros; apply same_expand_n.
  Qed.
End Indentation.
