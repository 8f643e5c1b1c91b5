(** The modifier [<] in front of a block with any number of nodes. *)
From Coq Require Import List NArith Bool Lia Arith.
From Verif Require Import PyStr Dom DomFacts Value Ast Machine Translate.
Import ListNotations.
Local Open Scope nat_scope.

Notation at_margin h i := (n_indent (info_at h i) = Some []).

Lemma info_upd_same h i c : i < List.length h -> info_at (upd h i c) i = c_info c.
Proof. intros H. unfold info_at, cell_at. rewrite (nth_error_nth _ _ _ (upd_same h i c H)). reflexivity. Qed.
Lemma info_upd_other h i j c : i <> j -> info_at (upd h i c) j = info_at h j.
Proof.
  intros H. unfold info_at, cell_at. f_equal. pose proof (upd_other h i j c H) as E. destruct (nth_error h j) as [x|] eqn:Ex.
  - rewrite (nth_error_nth _ _ _ E), (nth_error_nth _ _ _ Ex). reflexivity.
  - apply nth_error_None in E. apply nth_error_None in Ex. rewrite !nth_overflow by assumption. reflexivity.
Qed.
Lemma put_indent_margin h i j x : at_margin h i -> j < List.length h -> (j = i -> x = Some []) -> at_margin (put_indent h j x) i.
Proof.
  intros H L E. unfold put_indent. destruct (Nat.eq_dec j i) as [->|N].
  - rewrite info_upd_same by exact L. rewrite (E eq_refl). reflexivity.
  - rewrite info_upd_other by exact N. exact H.
Qed.
Lemma hiter_keeps {A} (R : heap -> heap -> Prop) (f : A -> hm unit) l : (forall h, R h h) -> (forall a b c, R a b -> R b c -> R a c) ->
  (forall x h o h', f x h = (o, h') -> R h h') -> forall h o h', hiter f l h = (o, h') -> R h h'.
Proof.
  intros Rr Rt H. induction l as [|x l IH]; intros h o h' E; [injection E as <- <-; apply Rr|]. cbn [hiter] in E. unfold hbind in E. destruct (f x h) as [o1 h1] eqn:E1. apply H in E1.
  destruct o1; [exact (Rt _ _ _ E1 (IH _ _ _ E))|injection E as <- <-; exact E1|injection E as <- <-; exact E1].
Qed.
(** What is kept: the number of nodes, and the nodes at the margin. *)
Definition margins (h h' : heap) : Prop := List.length h' = List.length h /\ forall i, at_margin h i -> at_margin h' i.
Lemma margins_refl h : margins h h. Proof. split; auto. Qed.
Lemma margins_trans a b c : margins a b -> margins b c -> margins a c.
Proof. intros [H1 H2] [H3 H4]. split; [congruence|auto]. Qed.
Lemma upd_over h i c : List.length h <= i -> upd h i c = h.
Proof. revert i. induction h as [|x h IH]; intros [|i] H; cbn in *; try reflexivity; try lia. rewrite IH by lia. reflexivity. Qed.
Lemma put_margins h j x : (at_margin h j -> x = Some []) -> margins h (put_indent h j x).
Proof.
  intros E. unfold put_indent. destruct (Nat.lt_ge_cases j (List.length h)) as [L|L]; [|rewrite upd_over by exact L; apply margins_refl].
  split; [apply upd_length|]. intros i H. apply put_indent_margin; [exact H|exact L|]. intros ->. exact (E H).
Qed.
Lemma relative_margins k : forall j h o h', relative_indent k [] j h = (o, h') -> margins h h'.
Proof.
  induction k as [|k IH]; intros j h o h' E; cbn [relative_indent] in E; [injection E as <- <-; apply margins_refl|].
  destruct (n_indent (info_at h j)) as [ind|] eqn:Ei.
  - destruct (absolute ind) eqn:Ea; [|injection E as <- <-; apply margins_refl]. cbn [startswith] in E. injection E as <- <-.
    apply put_margins. intros K. rewrite Ei in K. injection K as ->. reflexivity.
  - exact (hiter_keeps margins _ _ margins_refl margins_trans (fun x h1 o1 h2 E1 => IH x h1 o1 h2 E1) _ _ _ E).
Qed.
Lemma set_margins k j h o h' : set_indent k (Some []) j h = (o, h') -> margins h h' /\ (j < List.length h -> at_margin h' j).
Proof.
  unfold set_indent. intros E. set (h0 := put_indent h j (Some [])) in *.
  assert (M0 : margins h h0) by (apply put_margins; auto).
  assert (M1 : margins h0 h').
  { destruct (n_kind (info_at h0 j)); try (injection E as <- <-; apply margins_refl);
      exact (hiter_keeps margins _ _ margins_refl margins_trans (fun x h1 o1 h2 E1 => relative_margins k x h1 o1 h2 E1) _ _ _ E). }
  split; [exact (margins_trans _ _ _ M0 M1)|]. intros L. apply (proj2 M1). unfold h0, put_indent. rewrite info_upd_same by exact L. reflexivity.
Qed.
Lemma set_all k : forall l h h', dom_set_indent k (Some []) l h = (Done tt, h') -> margins h h' /\ forall j, In j l -> j < List.length h -> at_margin h' j.
Proof.
  induction l as [|j l IH]; intros h h' E; unfold dom_set_indent in *; cbn [hiter] in E; [injection E as <-; split; [apply margins_refl|intros ? []]|].
  unfold hbind in E. destruct (set_indent k (Some []) j h) as [[[]| |] h1] eqn:E1; try discriminate. apply set_margins in E1. destruct E1 as [M1 K1]. destruct (IH _ _ E) as [M2 K2].
  split; [exact (margins_trans _ _ _ M1 M2)|]. intros i [<-|I] L; [apply (proj2 M2), K1, L|apply K2; [exact I|]]. rewrite (proj1 M1). exact L.
Qed.

Theorem dedented_nodes (W : Type) (P : prims W) ex lp s margin b (m : mach W) l m' :
  tr_item P ex lp s (NBlock margin MDedent b) m = (Done l, m') ->
  exists mg m1 r m2, tr_static margin m = (Done mg, m1) /\ tr_block P ex lp s b m1 = (Done r, m2) /\
    let nodes := match r with Some l => l | None => [] end in
    l = mg ++ nodes /\ List.length (m_heap m') = List.length (m_heap m2) /\
    forall i, In i nodes -> i < List.length (m_heap m2) -> at_margin (m_heap m') i.
Proof.
  intros E. change (tr_item P ex lp s (NBlock margin MDedent b)) with
    (mbind (tr_static margin) (fun mg => mbind (tr_block P ex lp s b) (fun r =>
      match r with
      | None | Some [] => ret mg
      | Some (i :: l) => mbind (do_outline true i) (fun _ => mbind (do_set_indent [] (i :: l)) (fun _ => ret (mg ++ i :: l)))
      end))) in E.
  unfold mbind at 1 in E. destruct (tr_static margin m) as [[mg| |] m1] eqn:E1; try discriminate.
  unfold mbind at 1 in E. destruct (tr_block P ex lp s b m1) as [[r| |] m2] eqn:E2; try discriminate. exists mg, m1, r, m2. split; [reflexivity|]. split; [exact E2|]. cbv zeta.
  destruct r as [[|i l0]|]; [unfold ret in E; injection E as <- <-; rewrite app_nil_r; split; [reflexivity|split; [reflexivity|intros ? []]]| |unfold ret in E; injection E as <- <-; rewrite app_nil_r; split; [reflexivity|split; [reflexivity|intros ? []]]].
  unfold mbind, do_outline, do_set_indent, lift_h, ret in E. cbn [m_heap with_heap] in E. set (h := set_outline (m_heap m2) i true) in *.
  assert (Lh : List.length h = List.length (m_heap m2)) by apply upd_length.
  destruct (dom_set_indent (depth_bound h) (Some []) (i :: l0) h) as [[[]| |] h'] eqn:E3; try discriminate. injection E as <- <-. apply set_all in E3. destruct E3 as [[L3 _] K3].
  split; [reflexivity|]. cbn [m_heap with_heap]. rewrite <- Lh. split; [exact L3|]. exact K3.
Qed.
