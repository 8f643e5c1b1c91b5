(** Translation of a block changes only slots that the block or a hypertag writes. *)
From Coq Require Import List NArith ZArith Bool Arith Lia.
From Verif Require Import PyStr Html Indent PyDict Value Dom Ast AstInd Machine Eval Translate MachineFacts ScopeSpec.
Import ListNotations.

Section Frame.
  Context {W : Type}.
  Section Rel.
    Variable R : mach W -> mach W -> Prop.
    Hypothesis Rrefl : forall m, R m m.
    Hypothesis Rtrans : forall a b c, R a b -> R b c -> R a c.
    Hypothesis Rheap : forall m h, R m (with_heap m h).
    Hypothesis Rworld : forall m w, R m (with_world m w).
    Hypothesis Rind : forall s ind, pres R (set_ind s ind).
    Variable P : prims W.
    Variable expand : hyper -> val -> list val -> list (str * val) -> nat -> M W (list nid).
    Variable loops : nat.
    Hypothesis Rexpand : forall h v a k s, pres R (expand h v a k s).

    Ltac S_ := first [exact Rrefl|exact Rtrans|exact Rheap|exact Rworld|exact Rexpand].
    Ltac seq := apply (pres_bind R Rtrans).
    Notation may s l := (forall x v, In x l -> pres R (set_slot s x v)).

    Lemma pres_indent_by s c : pres R (indent_by s c).
    Proof. seq; [apply pres_get_ind; S_|]. intros ind. apply Rind. Qed.
    Lemma pres_dedent_by s c : pres R (dedent_by s c).
    Proof.
      seq; [apply pres_get_ind; S_|]. intros ind. destruct (rev ind); [apply pres_exc; S_|].
      destruct (N.eqb _ _); [apply Rind|apply pres_exc; S_].
    Qed.
    Lemma pres_restoring {A} s (x : M W A) : pres R x -> pres R (restoring s x).
    Proof.
      intros X m o m' E N. unfold restoring in E. destruct (x m) as [[a|e|] m1] eqn:E1; injection E as <- <-.
      - apply Rtrans with m1; [apply (X _ _ _ E1); discriminate|]. apply (Rind s _ m1 (Done tt) _ eq_refl). discriminate.
      - apply Rtrans with m1; [apply (X _ _ _ E1); discriminate|]. apply (Rind s _ m1 (Done tt) _ eq_refl). discriminate.
      - contradiction N; reflexivity.
    Qed.
    Lemma pres_titem s t : pres R (render_titem P expand s t).
    Proof.
      destruct t as [l|x|c|c]; cbn.
      - seq; [apply pres_get_ind; S_|]. intros ind. seq; [apply pres_render_line; S_|]. intros r. apply pres_ret; S_.
      - apply pres_ret; S_.
      - seq; [apply pres_indent_by|]. intros _. apply pres_ret; S_.
      - seq; [apply pres_dedent_by|]. intros _. apply pres_ret; S_.
    Qed.
    Lemma pres_assign s t : may s (writes_target t) -> forall v, pres R (assign P s t v).
    Proof.
      induction t as [n rd r w|l IH] using target_ind'; intros H v; cbn.
      - destruct w as [x|]; [apply H; left; reflexivity|apply pres_exc; S_].
      - cbn in H. destruct l as [|t1 l].
        + seq; [apply pres_iterate; S_|]. intros [items err]. destruct items; [destruct err; [apply pres_exc; S_|apply pres_ret; S_]|apply pres_exc; S_].
        + destruct l as [|t2 l].
          { inversion IH as [|? ? H1 H2]; subst. apply H1. intros x w Hx. apply H. cbn. rewrite app_nil_r. exact Hx. }
          seq; [apply pres_iterate; S_|]. intros [items err]. revert items.
          set (go := fix go (ts : list target) (items : list val) {struct ts} : M W unit := _).
          assert (G : forall ts, Forall (fun t => forall v, pres R (assign P s t v)) ts -> forall items, pres R (go ts items)).
          { intros ts Hts. induction Hts as [|t ts Ht _ IHt]; intros items; destruct items as [|x items]; cbn.
            - destruct err; [apply pres_exc; S_|apply pres_ret; S_].
            - apply pres_exc; S_.
            - destruct err; apply pres_exc; S_.
            - seq; [apply Ht|]. intros _. apply IHt. }
          intros items. apply (G (t1 :: t2 :: l)). rewrite Forall_forall in IH |- *. intros t Ht w. apply IH; [exact Ht|].
          intros x z Hx. apply H. apply in_flat_map. exists t. split; assumption.
    Qed.
    Lemma pres_tr_import s i : may s (writes_import i) -> pres R (tr_import s i).
    Proof.
      intros H. destruct i as [[l|]|y rn [[x v]|]]; cbn in *; try (apply pres_exc; S_).
      - apply pres_miter; [S_..|]. apply Forall_forall. intros [x v] Hx. apply H. apply (in_map fst) in Hx. exact Hx.
      - apply H. left; reflexivity.
    Qed.
    Lemma pres_some (x : M W (list nid)) : pres R x -> pres R (l <* x ;; ret (Some l)).
    Proof. intros X. seq; [exact X|]. intros l. apply pres_ret; S_. Qed.
    Lemma pres_ind s x : pres R x -> pres R (indented s x).
    Proof. intros X. apply pres_indented; [S_..|exact X]. Qed.

    Lemma pres_block_all :
      (forall b s, may s (writes_block b) -> pres R (tr_block P expand loops s b)) /\
      (forall y s, may s (writes_body y) -> pres R (tr_body P expand loops s y)) /\
      (forall i s, may s (writes_item i) -> pres R (tr_item P expand loops s i)).
    Proof.
      assert (OPT : forall o, on_opt (fun y => forall s, may s (writes_body y) -> pres R (tr_body P expand loops s y)) o ->
        forall s, may s (match o with Some y => writes_body y | None => [] end) ->
        pres R (match o with Some y => tr_body P expand loops s y | None => ret [] end)).
      { intros [y|] H s Hs; [apply H, Hs|apply pres_ret; S_]. }
      apply block_body_item_ind.
      - intros lead l s H. cbn. apply pres_some. seq.
        + unfold render_text. seq; [|intros t; apply pres_ret; S_]. apply pres_restoring.
          seq; [apply Rind|]. intros _. apply pres_mconcat; [S_..|]. apply Forall_forall. intros t _. apply pres_titem.
        + intros t. seq; [apply pres_get_ind; S_|]. intros ind. seq; [apply pres_lift_h; S_|]. intros i. apply pres_ret; S_.
      - intros s H. cbn. apply pres_some, pres_ret; S_.
      - intros e s H. cbn. apply pres_some, pres_ind. seq; [apply pres_eval; S_|]. intros v. apply pres_as_sequence; S_.
      - intros tags y Hy s H. cbn in *. apply pres_some, pres_ind. seq; [apply Hy, H|]. intros l. apply pres_apply_tags; S_.
      - intros d n ab ar y Hy s H. cbn in *. destruct d as [[d x]|]; [|apply pres_exc; S_].
        seq; [apply H; left; reflexivity|]. intros _. apply pres_ret; S_.
      - intros p l s H. cbn in *. apply pres_some. seq; [|intros _; apply pres_ret; S_]. apply pres_miter; [S_..|].
        apply Forall_forall. intros i Hi. apply pres_tr_import. intros x v Hx. apply H, in_flat_map. exists i. split; assumption.
      - intros l s H. cbn in *. apply pres_some. seq; [|intros _; apply pres_ret; S_]. apply pres_miter; [S_..|].
        apply Forall_forall. intros i Hi. apply pres_tr_import. intros x v Hx. apply H, in_flat_map. exists i. split; assumption.
      - intros l Hl s H. cbn in *. apply pres_some, pres_ind. induction Hl as [|y l Hy _ IH]; [apply pres_ret; S_|].
        cbn in H. apply pres_or_else; [S_|apply Hy|apply IH].
        + intros x v Hx. apply H, in_or_app. left; exact Hx.
        + intros x v Hx. apply H, in_or_app. right; exact Hx.
      - intros l els Hl He s H. cbn in *. apply pres_some, pres_ind. induction Hl as [|[c y] l Hy _ IH].
        + apply OPT; [exact He|exact H].
        + cbn in H, Hy. seq; [apply pres_eval; S_|]. intros v. seq; [apply pres_truth; S_|]. intros [|].
          * apply OPT; [exact Hy|]. intros x w Hx. apply H, in_or_app. left. apply in_or_app. left. exact Hx.
          * apply IH. intros x w Hx. apply H. rewrite <- app_assoc. apply in_or_app. right. exact Hx.
      - intros c y els Hy He s H. cbn in *. apply pres_some, pres_ind. seq.
        + apply pres_while_loop; [S_..| |].
          * seq; [apply pres_eval; S_|]. intros v. apply pres_truth; S_.
          * apply OPT; [exact Hy|]. intros x w Hx. apply H, in_or_app. left. exact Hx.
        + intros [[|] l]; destruct els as [z|]; try (apply pres_ret; S_). apply He. intros x w Hx. apply H, in_or_app. right. exact Hx.
      - intros ts e y els Hy He s H. cbn in *. apply pres_some, pres_ind. seq; [apply pres_eval; S_|]. intros v.
        assert (HE : may s (match els with Some y => writes_body y | None => [] end)).
        { intros x w Hx. apply H, in_or_app. right. apply in_or_app. right. exact Hx. }
        seq; [apply pres_iterate; S_|]. intros [items err]. seq.
        + apply pres_for_loop; [S_..|]. intros x. seq.
          * apply pres_assign. intros z w Hz. apply H, in_or_app. left. exact Hz.
          * intros _. destruct y as [y|]; [|apply OPT; [exact He|exact HE]].
            apply Hy. intros z w Hz. apply H, in_or_app. right. apply in_or_app. left. exact Hz.
        + intros l. destruct items; [|apply pres_ret; S_]. destruct els as [z|]; [apply He, HE|apply pres_ret; S_].
      - intros e s H. cbn. seq; [apply pres_eval; S_|]. intros v. apply pres_ret; S_.
      - intros ts o e s H. cbn in *. seq; [apply pres_eval; S_|]. intros v. seq.
        + destruct o; [|apply pres_ret; S_]. seq; [apply pres_read_target; S_|]. intros c. apply pres_lift_p; S_.
        + intros w. seq; [apply pres_assign, H|]. intros _. apply pres_ret; S_.
      - intros s H. cbn. apply pres_some, pres_ret; S_.
      - intros l Hl s H. cbn in *. apply pres_restoring. apply pres_mconcat; [S_..|].
        rewrite Forall_forall in Hl |- *. intros i Hi. apply Hl; [exact Hi|]. intros x v Hx. apply H, in_flat_map. exists i. split; assumption.
      - intros b Hb s H. cbn in *. seq; [apply Hb, H|]. intros r. apply pres_ret; S_.
      - intros o Ho s H. cbn in *. destruct o; [apply Ho, H|apply pres_exc; S_].
      - intros l s H. cbn. seq; [apply pres_render_line; S_|]. intros t. seq; [apply pres_lift_h; S_|]. intros i. apply pres_ret; S_.
      - intros c s H. cbn. seq; [apply pres_indent_by|]. intros _. apply pres_ret; S_.
      - intros c s H. cbn. seq; [apply pres_dedent_by|]. intros _. apply pres_ret; S_.
      - intros x s H. cbn. apply pres_tr_static; S_.
      - intros mg md b Hb s H. cbn in *. seq; [apply pres_tr_static; S_|]. intros l. seq; [apply Hb, H|]. intros [[|i r]|]; try (apply pres_ret; S_).
        seq; [destruct md; first [apply pres_ret; S_|apply pres_lift_h; S_]|]. intros _.
        seq; [destruct md; first [apply pres_ret; S_|apply pres_lift_h; S_]|]. intros _. apply pres_ret; S_.
    Qed.
    Lemma pres_expand_def_writes d h body attrs kw s : may s (writes_def h) ->
      pres R (expand_def P expand loops d h body attrs kw s).
    Proof.
      intros H. apply pres_expand_def; [S_..| | |].
      - intros x v Hx. apply H. apply in_or_app. right. apply in_or_app. left. exact Hx.
      - intros n x v E. apply H. apply in_or_app. left. rewrite E. left. reflexivity.
      - apply pres_block_all. intros x v Hx. apply H. apply in_or_app. right. apply in_or_app. right. exact Hx.
    Qed.
  End Rel.

  (** ** Slots *)
  Definition frame (s0 : nat) (x0 : slot) (m m' : mach W) : Prop :=
    unwritten x0 (m_defs m) -> m_defs m' = m_defs m /\ slot_value m' s0 x0 = slot_value m s0 x0.
  Lemma frame_refl s0 x0 m : frame s0 x0 m m.
  Proof. split; reflexivity. Qed.
  Lemma frame_trans s0 x0 a b c : frame s0 x0 a b -> frame s0 x0 b c -> frame s0 x0 a c.
  Proof. intros H1 H2 U. destruct (H1 U) as [D1 V1]. rewrite <- D1 in U. destruct (H2 U) as [D2 V2]. split; congruence. Qed.
  Lemma frame_heap s0 x0 (m : mach W) h : frame s0 x0 m (with_heap m h).
  Proof. split; reflexivity. Qed.
  Lemma frame_world s0 x0 (m : mach W) w : frame s0 x0 m (with_world m w).
  Proof. split; reflexivity. Qed.
  Lemma slot_put m s st s0 x0 : dget Nat.eqb x0 (s_vals st) = dget Nat.eqb x0 (s_vals (state_at m s)) \/ s <> s0 ->
    slot_value (W := W) (put_state m s st) s0 x0 = slot_value m s0 x0.
  Proof.
    intros H. unfold slot_value. destruct (Nat.eq_dec s s0) as [<-|N]; [|rewrite state_put_other by exact N; reflexivity].
    destruct H as [H|H]; [|contradiction H; reflexivity].
    destruct (Nat.lt_ge_cases s (List.length (m_states m))) as [L|G].
    - rewrite state_put_same by exact L. exact H.
    - rewrite state_put_out by exact G. reflexivity.
  Qed.
  Lemma frame_ind s0 x0 s ind : pres (frame s0 x0) (set_ind s ind).
  Proof. intros m o m' [= <- <-] _ _. split; [reflexivity|]. apply slot_put. left. reflexivity. Qed.
  Lemma frame_slot s0 x0 s x v : x <> x0 \/ s <> s0 -> pres (frame s0 x0) (set_slot s x v).
  Proof.
    intros H m o m' [= <- <-] _ _. split; [reflexivity|]. apply slot_put. destruct H as [H|H]; [left|right; exact H].
    cbn. rewrite (dget_dset Nat.eqb Nat.eqb_eq). destruct (Nat.eqb_spec x0 x) as [->|]; [contradiction H; reflexivity|reflexivity].
  Qed.

  Variable P : prims W.
  Lemma frame_expand s0 x0 n : forall h v a k s, pres (frame s0 x0) (expand_n P n h v a k s).
  Proof.
    induction n as [|n IH]; intros h v a k s; [apply pres_nofuel|]. cbn.
    revert s. induction h as [d|h IHh s']; intros s; [|apply IHh].
    intros m o m' E N. destruct (nth_error (m_defs m) d) as [hd|] eqn:D; [|injection E as <- <-; apply frame_refl].
    intros U. assert (X : ~ In x0 (writes_def hd)) by (apply U, (nth_error_In _ _ D)).
    refine (pres_expand_def_writes (frame s0 x0) (frame_refl s0 x0) (frame_trans s0 x0) (frame_heap s0 x0) (frame_world s0 x0)
              (frame_ind s0 x0) P (expand_n P n) n IH d hd v a k s _ m o m' E N U).
    intros x w Hx. apply frame_slot. left. intros ->. contradiction.
  Qed.
  Lemma frame_eval s0 x0 n s e : pres (frame s0 x0) (eval P (expand_n P n) s e).
  Proof.
    apply pres_eval; [apply frame_refl|apply frame_trans|apply frame_heap|apply frame_world|]. intros; apply frame_expand.
  Qed.
  Lemma frame_all s0 x0 n loops :
    (forall b s, ~ In x0 (writes_block b) \/ s <> s0 -> pres (frame s0 x0) (tr_block P (expand_n P n) loops s b)) /\
    (forall y s, ~ In x0 (writes_body y) \/ s <> s0 -> pres (frame s0 x0) (tr_body P (expand_n P n) loops s y)) /\
    (forall i s, ~ In x0 (writes_item i) \/ s <> s0 -> pres (frame s0 x0) (tr_item P (expand_n P n) loops s i)).
  Proof.
    destruct (pres_block_all (frame s0 x0) (frame_refl s0 x0) (frame_trans s0 x0) (frame_heap s0 x0) (frame_world s0 x0)
              (frame_ind s0 x0) P (expand_n P n) loops (frame_expand s0 x0 n)) as (B & Y & I).
    split; [|split]; intros z s H.
    - apply B. intros x v Hx. apply frame_slot. destruct H as [H|H]; [left|right; exact H]. intros ->. contradiction.
    - apply Y. intros x v Hx. apply frame_slot. destruct H as [H|H]; [left|right; exact H]. intros ->. contradiction.
    - apply I. intros x v Hx. apply frame_slot. destruct H as [H|H]; [left|right; exact H]. intros ->. contradiction.
  Qed.

  (** ** What translation never changes: definitions, counter of slots, caches *)
  Definition static (m m' : mach W) : Prop :=
    m_defs m' = m_defs m /\ m_next m' = m_next m /\ m_rt m' = m_rt m /\ List.length (m_states m') = List.length (m_states m).
  Lemma static_refl m : static m m.
  Proof. repeat split. Qed.
  Lemma static_trans a b c : static a b -> static b c -> static a c.
  Proof. intros (A & B & C & D) (A' & B' & C' & D'). repeat split; congruence. Qed.
  Lemma static_heap (m : mach W) h : static m (with_heap m h).
  Proof. repeat split. Qed.
  Lemma static_world (m : mach W) w : static m (with_world m w).
  Proof. repeat split. Qed.
  Lemma static_ind s ind : pres static (set_ind s ind).
  Proof. intros m o m' [= <- <-] _. repeat split. apply put_nth_length. Qed.
  Lemma static_slot s x v : pres static (set_slot s x v).
  Proof. intros m o m' [= <- <-] _. repeat split. apply put_nth_length. Qed.
  Lemma static_expand n : forall h v a k s, pres static (expand_n P n h v a k s).
  Proof.
    induction n as [|n IH]; intros h v a k s; [apply pres_nofuel|]. cbn.
    revert s. induction h as [d|h IHh s']; intros s; [|apply IHh].
    intros m o m' E N. destruct (nth_error (m_defs m) d) as [hd|] eqn:D; [|injection E as <- <-; apply static_refl].
    refine (pres_expand_def_writes static static_refl static_trans static_heap static_world static_ind P (expand_n P n) n IH d hd v a k s _ m o m' E N).
    intros; apply static_slot.
  Qed.
  Lemma static_all n loops :
    (forall b s, pres static (tr_block P (expand_n P n) loops s b)) /\
    (forall y s, pres static (tr_body P (expand_n P n) loops s y)) /\
    (forall i s, pres static (tr_item P (expand_n P n) loops s i)).
  Proof.
    destruct (pres_block_all static static_refl static_trans static_heap static_world static_ind P (expand_n P n) loops (static_expand n)) as (B & Y & I).
    split; [|split]; intros z s; [apply B|apply Y|apply I]; intros; apply static_slot.
  Qed.
End Frame.
