(** Proofs about templates: the layout of texts. *)
From Coq Require Import List NArith ZArith Bool Lia Arith String.
From Verif Require Import PyStr PyStrFacts Indent IndentSpec IndentFacts PageSpec OperSpec TmplSpec.
Import ListNotations.
Local Open Scope list_scope.

Lemma join_more x y l : join [NL] (x :: y :: l) = x ++ NL :: join [NL] (y :: l).
Proof. reflexivity. Qed.

(** ** Whitespace in front *)
Lemma blankb_ok l : forallb is_space l = true <-> blank l.
Proof. apply forallb_forall. Qed.
Lemma lead_prefix l : is_prefix (lead_space l) l.
Proof. induction l as [|c l [r IH]]; [exists []; reflexivity|]. cbn [lead_space]. destruct (is_space c); [exists r; cbn; congruence|eexists; reflexivity]. Qed.
Lemma lead_blank l : blank (lead_space l).
Proof. induction l as [|c l IH]; [intros c []|]. cbn [lead_space]. destruct (is_space c) eqn:E; [|intros d []]. intros d [<-|I]; [exact E|exact (IH d I)]. Qed.
Lemma lead_longest p l : blank p -> is_prefix p l -> is_prefix p (lead_space l).
Proof.
  revert l. induction p as [|c p IH]; intros l B [r E]; [eexists; reflexivity|]. subst l. cbn [app lead_space]. rewrite (B c (or_introl eq_refl)).
  destruct (IH (p ++ r)) as [q Eq]; [intros d I; apply B; right; exact I|exists r; reflexivity|]. exists q. cbn [app]. congruence.
Qed.
Lemma common_left x : forall y, is_prefix (common x y) x.
Proof. induction x as [|c x IH]; intros y; [exists []; reflexivity|]. destruct y as [|e y]; [eexists; reflexivity|]. cbn [common]. destruct (N.eqb_spec c e) as [->|]; [|eexists; reflexivity]. destruct (IH y) as [r E]. exists r. cbn [app]. congruence. Qed.
Lemma common_right x : forall y, is_prefix (common x y) y.
Proof. induction x as [|c x IH]; intros y; [exists y; reflexivity|]. destruct y as [|e y]; [eexists; reflexivity|]. cbn [common]. destruct (N.eqb_spec c e) as [->|]; [|eexists; reflexivity]. destruct (IH y) as [r E]. exists r. cbn [app]. congruence. Qed.
Lemma common_longest p : forall x y, is_prefix p x -> is_prefix p y -> is_prefix p (common x y).
Proof.
  induction p as [|c p IH]; intros x y [r ->] [q ->]; [eexists; reflexivity|]. cbn [app common]. rewrite N.eqb_refl.
  destruct (IH (p ++ r) (p ++ q)) as [z E]; [eexists; reflexivity|eexists; reflexivity|]. exists z. cbn [app]. congruence.
Qed.
Lemma fold_common r : forall x, (forall y, In y (x :: r) -> is_prefix (fold_left common r x) y) /\
  forall p, (forall y, In y (x :: r) -> is_prefix p y) -> is_prefix p (fold_left common r x).
Proof.
  induction r as [|z r IH]; intros x; cbn [fold_left].
  - split; [intros y [<-|[]]; exists []; rewrite app_nil_r; reflexivity|]. intros p H. apply H. left. reflexivity.
  - destruct (IH (common x z)) as [A B]. split.
    + intros y [<-|[<-|I]]; [eapply is_prefix_trans; [apply A; left; reflexivity|apply common_left]|eapply is_prefix_trans; [apply A; left; reflexivity|apply common_right]|apply A; right; exact I].
    + intros p H. apply B. intros y [<-|I]; [apply common_longest; apply H; [left; reflexivity|right; left; reflexivity]|apply H; right; right; exact I].
Qed.
Lemma prefix_antisym (p q : str) : is_prefix p q -> is_prefix q p -> p = q.
Proof.
  intros [r E] [z E2]. rewrite E2 in E. rewrite <- app_assoc in E. assert (K : z ++ r = []) by (apply (app_inv_head q); rewrite app_nil_r; congruence).
  apply app_eq_nil in K. destruct K as [-> ->]. rewrite app_nil_r in E2. exact E2.
Qed.
Lemma edge_is lead t : edge lead (lines t) = firstn (lead + 1) (get_indent t).
Proof.
  unfold edge. set (f := fun l : str => negb (forallb is_space l)).
  assert (F : forall l, In l (filter f (lines t)) <-> In l (lines t) /\ ~ blank l).
  { intros l. rewrite filter_In. unfold f. split; intros [A B]; (split; [exact A|]).
    - intros K. apply blankb_ok in K. rewrite K in B. discriminate.
    - destruct (forallb is_space l) eqn:E; [exfalso; apply B, blankb_ok, E|reflexivity]. }
  destruct (filter f (lines t)) as [|l0 r] eqn:E; cbn [map].
  - rewrite get_indent_none; [rewrite firstn_nil; reflexivity|]. intros l I. destruct (blank_dec l) as [B|B]; [exact B|]. destruct (proj2 (F l) (conj I B)).
  - f_equal. destruct (fold_common (map lead_space r) (lead_space l0)) as [A B]. destruct (get_indent_common t) as [G1 G2]. apply prefix_antisym.
    + apply get_indent_longest; [exists l0; apply F; left; reflexivity|]. split.
      * assert (K : is_prefix (fold_left common (map lead_space r) (lead_space l0)) (lead_space l0)) by (apply A; left; reflexivity). destruct K as [q K]. intros c I. apply (lead_blank l0). rewrite K. apply in_or_app. left. exact I.
      * intros l I Nb. eapply is_prefix_trans; [|apply (lead_prefix l)]. apply A. change (In (lead_space l) (map lead_space (l0 :: r))). apply in_map, F. split; assumption.
    + apply B. intros y I. change (In y (map lead_space (l0 :: r))) in I. apply in_map_iff in I. destruct I as (l & <- & I). apply F in I. apply lead_longest; [exact G1|]. apply G2; apply I.
Qed.

(** ** The model's layout *)
Lemma layout_done lead x : text_layout lead x = layout lead x.
Proof.
  unfold layout. destruct (lines_cons x) as (h & ls & El). rewrite El. set (h' := repeatc SP lead ++ h). set (out := repeatc SP lead ++ x).
  assert (Eo : lines out = h' :: ls) by (apply lines_app_head; [apply repeat_SP_no_NL|exact El]).
  unfold text_layout. fold out. rewrite <- edge_is, Eo. cbv zeta. set (s := edge lead (h' :: ls)).
  assert (Es : s = firstn (lead + 1) (get_indent out)) by (unfold s; rewrite <- Eo; apply edge_is).
  assert (Ns : ~ In NL s). { rewrite Es. intros I. apply (get_indent_no_NL out). rewrite <- (firstn_skipn (lead + 1) (get_indent out)). apply in_or_app. left. exact I. }
  rewrite (del_indent_by_lines out s h' ls Ns Eo). cbn [map]. destruct (Nat.ltb_spec (List.length s) lead) as [H|H]; [|reflexivity].
  assert (Hn : forall l, In l (h' :: ls) -> ~ In NL l) by (intros l I; apply (lines_no_NL out); rewrite Eo; exact I).
  apply layout_cut; [exact H| |].
  - unfold unindent_line. destruct (startswith s h'); [rewrite skipn_length|]; unfold h'; rewrite app_length, repeat_length'; lia.
  - intros l [<-|I]; [apply unindent_no_NL, Hn; left; reflexivity|]. apply in_map_iff in I. destruct I as (l' & <- & I). apply unindent_no_NL, Hn. right. exact I.
Qed.
