(** The matcher implements the big-step semantics, which is deterministic; trees cover their texts. *)
From Coq Require Import List NArith Bool Arith Lia.
From Verif Require Import PyStr Peg PegSpec PegFacts.
Import ListNotations.

Section Sound.
Context {rule : Type}.
Variable G : rule -> peg rule.
Notation sem := (sem G).

Definition sound (e : peg rule) (s : str) {A} (o : pout A) : Prop :=
  match o with
  | PFuel => True
  | PFail => sem e s None
  | POk _ r => sem e s (Some r)
  end.

Section Step.
Variable M : peg rule -> nat -> str -> pout (tree rule).
Hypothesis HG : forall e pos s, good pos s (M e pos s).
Hypothesis HM : forall e pos s, sound e s (M e pos s).

Lemma seq_sound l : forall pos s, sound (PSeq l) s (seq_match M l pos s).
Proof.
  induction l as [|e l IH]; intros pos s; cbn [seq_match]; [constructor|].
  pose proof (HM e pos s) as H. destruct (M e pos s) as [| |t s1]; cbn in *; [exact Logic.I|apply sem_seq_no, H|].
  specialize (IH (pos + length (t_text t)) s1). destruct (seq_match M l _ s1); cbn in *; auto; eapply sem_seq_cons; eauto.
Qed.

Lemma alt_sound l : forall pos s, sound (PAlt l) s (alt_match M l pos s).
Proof.
  induction l as [|e l IH]; intros pos s; cbn [alt_match]; [constructor|].
  pose proof (HM e pos s) as H. destruct (M e pos s) as [| |t s1]; cbn in *; [exact Logic.I| |apply sem_alt_first, H].
  specialize (IH pos s). destruct (alt_match M l pos s); cbn in *; auto; apply sem_alt_next; auto.
Qed.

Lemma loop_sound keep n : forall e pos s,
  match loop_match M keep n e pos s with
  | PFuel => True
  | PFail => False
  | POk ts r => sem (PStar e) s (Some r) /\ (ts = [] -> keep = true -> sem e s None) /\
                (ts <> [] -> exists r1, sem e s (Some r1) /\ sem (PStar e) r1 (Some r))
  end.
Proof.
  induction n as [|n IH]; intros e pos s; cbn [loop_match]; [exact Logic.I|].
  pose proof (HM e pos s) as H. pose proof (HG e pos s) as Hg. destruct (M e pos s) as [| |t s1]; cbn in *; [exact Logic.I| |].
  - split; [apply sem_star_no, H|]. split; [auto|congruence].
  - destruct Hg as [Hg _]. destruct (t_text t) as [|c x] eqn:Et.
    + cbn in Hg. subst s1. assert (S : sem (PStar e) s (Some s)) by (apply sem_star_empty, H).
      split; [exact S|]. split; [intros E ->; discriminate E|]. intros _. eauto.
    + specialize (IH e (pos + length (c :: x)) s1). destruct (loop_match M keep n e _ s1) as [| |ts r]; auto.
      destruct IH as (S & _ & _). split; [|split; [discriminate|intros _; eauto]].
      eapply sem_star_more; [exact H| |exact S]. intros E. apply (f_equal (@length N)) in Hg. rewrite app_length, <- E in Hg. cbn in Hg. lia.
Qed.
End Step.

Theorem match_sound : forall fuel e pos s, sound e s (peg_match G fuel e pos s).
Proof.
  induction fuel as [|k IH]; intros e pos s; cbn [peg_match]; [exact Logic.I|].
  pose proof (match_good G k) as HG.
  destruct e as [l|x|r|l|l|e1|e1|e1|e1].
  - destruct (startswith l s) eqn:E; cbn.
    + apply startswith_app in E. rewrite E at 1. constructor.
    + constructor. intros r ->. clear -E. induction l as [|c l IHl]; [discriminate|]. cbn in E. rewrite N.eqb_refl in E. auto.
  - destruct (rx_match x s) eqn:E; cbn; constructor; exact E.
  - specialize (IH (G r) pos s). destruct (peg_match G k (G r) pos s) as [| |[? ? ? ?] s1]; cbn in *; [exact Logic.I|constructor; exact IH|constructor; exact IH].
  - pose proof (seq_sound _ IH l pos s) as H. destruct (seq_match _ l pos s); cbn in *; auto.
  - pose proof (alt_sound _ IH l pos s) as H. destruct (alt_match _ l pos s); cbn in *; auto.
  - specialize (IH e1 pos s). destruct (peg_match G k e1 pos s); cbn in *; [exact Logic.I|apply sem_not_no, IH|eapply sem_not, IH].
  - specialize (IH e1 pos s). destruct (peg_match G k e1 pos s); cbn in *; [exact Logic.I|apply sem_opt_no, IH|apply sem_opt, IH].
  - pose proof (loop_sound _ HG IH false (S (length s)) e1 pos s) as H. destruct (loop_match _ false _ e1 pos s); cbn in *; auto; [contradiction|apply H].
  - pose proof (loop_sound _ HG IH true (S (length s)) e1 pos s) as H. destruct (loop_match _ true _ e1 pos s) as [| |[|t ts] r]; cbn in *; auto; [contradiction| |].
    + apply sem_plus_no. apply H; reflexivity.
    + destruct H as (_ & _ & H). destruct H as (r1 & H1 & H2); [discriminate|]. eapply sem_plus; eauto.
Qed.

Theorem sem_det e s o o' : sem e s o -> sem e s o' -> o = o'.
Proof.
  intros H. revert o'. induction H; intros o' H'; inversion H'; subst; clear H'; try congruence; auto;
    repeat match goal with
           | IH : forall o', sem ?e ?s o' -> Some _ = o', K : sem ?e ?s None |- _ => specialize (IH _ K); discriminate IH
           | IH : forall o', sem ?e ?s o' -> None = o', K : sem ?e ?s (Some _) |- _ => specialize (IH _ K); discriminate IH
           | IH : forall o', sem ?e ?s o' -> Some _ = o', K : sem ?e ?s (Some _) |- _ => specialize (IH _ K); injection IH as IH; subst
           end; auto; try congruence.
  - match goal with K : _ ++ _ = _ ++ _ |- _ => apply app_inv_head in K; congruence end.
  - exfalso. eapply H0. reflexivity.
  - exfalso. eapply H. reflexivity.
Qed.
End Sound.

(** ** Trees *)
Section Cover.
Context {rule : Type}.

Lemma texts_cons (t : tree rule) l : texts (t :: l) = t_text t ++ texts l.
Proof. reflexivity. Qed.

Lemma leaves_text (t : tree rule) : forall p, tiled p t -> concat (map snd (leaves t)) = t_text t.
Proof.
  induction t as [n p x l IH] using tree_ind'. intros p0 H. destruct l as [|t l].
  - cbn. apply app_nil_r.
  - change (leaves (Tree n p x (t :: l))) with (flat_map leaves (t :: l)).
    inversion H; subst; clear H. cbn [t_text]. remember (t :: l) as l0. clear Heql0 t l.
    match goal with K : tiled_list _ _ |- _ => revert K end. generalize p.
    induction l0 as [|t l0 IHl]; intros q K; [reflexivity|]. inversion K; subst. inversion IH; subst.
    cbn [flat_map]. rewrite map_app, concat_app, texts_cons. f_equal; eauto.
Qed.

(** Every node is a slice of the text. *)
Definition slice (full : str) (p n : nat) : str := firstn n (skipn p full).

Lemma slice_mid (a x b : str) : slice (a ++ x ++ b) (length a) (length x) = x.
Proof. unfold slice. rewrite skipn_app, skipn_all, Nat.sub_diag. cbn. rewrite firstn_app, Nat.sub_diag, firstn_all. cbn. apply app_nil_r. Qed.

Lemma nodes_slices (t : tree rule) : forall a b, tiled (length a) t ->
  Forall (fun n => slice (a ++ t_text t ++ b) (t_start n) (length (t_text n)) = t_text n /\
                   length a <= t_start n /\ t_start n + length (t_text n) <= length a + length (t_text t)) (nodes t).
Proof.
  induction t as [n p x l IH] using tree_ind'. intros a b H. cbn [nodes]. constructor.
  - inversion H; subst; cbn [t_start t_text]; (split; [apply slice_mid|lia]).
  - inversion H; subst; cbn [flat_map]; [constructor|].
    match goal with K : tiled_list _ _ |- _ => revert K end. clear H.
    cbn [t_text].
    enough (E : forall pre, tiled_list (length (a ++ pre)) l -> Forall (fun n0 : tree rule => slice (a ++ (pre ++ texts l) ++ b) (t_start n0) (length (t_text n0)) = t_text n0 /\
      length a <= t_start n0 /\ t_start n0 + length (t_text n0) <= length a + length (pre ++ texts l)) (flat_map nodes l)).
    { intros K. specialize (E []). rewrite app_nil_r in E. apply E, K. }
    induction l as [|t l IHl]; intros pre K; [constructor|]. inversion K; subst. inversion IH as [|? ? Ht IHt]; subst. cbn [flat_map]. apply Forall_app. split.
    + rewrite texts_cons. specialize (Ht (a ++ pre) (texts l ++ b)). rewrite <- !app_assoc in *.
      eapply Forall_impl; [|apply Ht; assumption]. cbn beta. intros m (E1 & E2 & E3). rewrite !app_length in *. repeat split; [exact E1|lia|lia].
    + specialize (IHl IHt (pre ++ t_text t)). rewrite texts_cons. rewrite <- !app_assoc in *. apply IHl.
      rewrite app_assoc, app_length. assumption.
Qed.
End Cover.
