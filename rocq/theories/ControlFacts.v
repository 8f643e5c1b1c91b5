(** Control blocks and chains of tags behave as specified in BlockSpec. *)
From Coq Require Import List NArith ZArith Bool Arith Lia.
From Verif Require Import PyStr Html Indent PyDict Value Dom DomSpec DomFacts RenderFacts Ast Machine Eval Translate
  MachineFacts BlockSpec BlockFacts.
Import ListNotations.

(** ** Setting the indentation of nodes changes nothing else *)
Definition like (h h' : heap) : Prop :=
  List.length h' = List.length h /\
  forall i, bare (info_at h' i) = bare (info_at h i) /\ body_at h' i = body_at h i.
Lemma like_refl h : like h h.
Proof. split; [reflexivity|]. intros i. split; reflexivity. Qed.
Lemma like_trans a b c : like a b -> like b c -> like a c.
Proof.
  intros [L1 H1] [L2 H2]. split; [congruence|]. intros i. destruct (H1 i) as [A1 B1], (H2 i) as [A2 B2]. split; congruence.
Qed.
Lemma cell_nth_error h i c : nth_error h i = Some c -> cell_at h i = c.
Proof. intros H. unfold cell_at. apply nth_error_nth. exact H. Qed.
Lemma upd_out h i c : List.length h <= i -> upd h i c = h.
Proof. revert i. induction h as [|x h IH]; intros [|i] L; cbn in *; [reflexivity|reflexivity|lia|]. f_equal. apply IH. lia. Qed.
Lemma cell_upd_other h i j c : i <> j -> cell_at (upd h i c) j = cell_at h j.
Proof. revert i j. induction h as [|x h IH]; intros [|i] [|j] D; cbn; try reflexivity; try lia. apply IH. lia. Qed.
Lemma cell_upd_same h i c : i < List.length h -> cell_at (upd h i c) i = c.
Proof. revert i. induction h as [|x h IH]; intros [|i] L; cbn in *; try lia; [reflexivity|]. apply IH. lia. Qed.
Lemma put_indent_like h i x : like h (put_indent h i x).
Proof.
  unfold put_indent. split; [apply upd_length|]. intros j. unfold info_at, body_at.
  destruct (Nat.lt_ge_cases i (List.length h)) as [L|G]; [|rewrite upd_out by exact G; split; reflexivity].
  destruct (Nat.eq_dec i j) as [<-|D]; [|rewrite cell_upd_other by exact D; split; reflexivity].
  rewrite cell_upd_same by exact L. split; reflexivity.
Qed.

Lemma hiter_like {A} (f : A -> hm unit) l : (forall x h o h', In x l -> f x h = (o, h') -> like h h' /\ (o = Done tt \/ o = Exc AssertionError \/ o = Fuel)) ->
  forall h o h', hiter f l h = (o, h') -> like h h' /\ (o = Done tt \/ o = Exc AssertionError \/ o = Fuel).
Proof.
  induction l as [|x l IH]; intros F h o h' E.
  - injection E as <- <-. split; [apply like_refl|left; reflexivity].
  - cbn in E. unfold hbind in E. destruct (f x h) as [o1 h1] eqn:E1. destruct (F x h o1 h1 (or_introl eq_refl) E1) as [L1 K].
    destruct o1 as [[]|e|].
    + destruct (IH (fun y h o h' I => F y h o h' (or_intror I)) _ _ _ E) as [L2 K2]. split; [eapply like_trans; eassumption|exact K2].
    + injection E as <- <-. split; [exact L1|]. destruct K as [K|[K|K]]; [discriminate|right; left; exact K|discriminate].
    + injection E as <- <-. split; [exact L1|]. right; right; reflexivity.
Qed.
Lemma relative_indent_like k : forall p i h o h', relative_indent k p i h = (o, h') ->
  like h h' /\ (o = Done tt \/ o = Exc AssertionError \/ o = Fuel).
Proof.
  induction k as [|k IH]; intros p i h o h' E; cbn [relative_indent] in E; [injection E as <- <-; split; [apply like_refl|auto]|].
  destruct (n_indent (info_at h i)) as [ind|].
  - destruct (absolute ind); [destruct (startswith p ind)|]; injection E as <- <-; (split; [|auto]); [apply put_indent_like|apply like_refl..].
  - eapply hiter_like; [|exact E]. intros x g o' g' _. apply IH.
Qed.
Lemma set_indent_like k ind i h o h' : set_indent k ind i h = (o, h') -> like h h' /\ (o = Done tt \/ o = Exc AssertionError \/ o = Fuel).
Proof.
  unfold set_indent. intros E. pose proof (put_indent_like h i ind) as L0. set (h0 := put_indent h i ind) in *.
  assert (G : forall p, hiter (relative_indent k p) (body_at h0 i) h0 = (o, h') -> like h h' /\ (o = Done tt \/ o = Exc AssertionError \/ o = Fuel)).
  { intros p E1. eapply hiter_like in E1; [|intros x g o' g' _; apply relative_indent_like]. destruct E1 as [L K].
    split; [eapply like_trans; eassumption|exact K]. }
  destruct (n_kind (info_at h0 i)), ind as [p|]; try (apply (G p E)); injection E as <- <-; split; auto.
Qed.
Lemma dom_set_indent_like k ind l h o h' : dom_set_indent k ind l h = (o, h') -> like h h' /\ (o = Done tt \/ o = Exc AssertionError \/ o = Fuel).
Proof. apply hiter_like. intros x g o' g' _. apply set_indent_like. Qed.

(** Nodes with absolute indentations below [p] can be put at [p]. *)
Lemma set_indent_placed k p : abs_indent p -> forall ts ls h, Forall (repr h) ts -> NoDup (all_ids ts) -> heights ts <= k ->
  Forall2 (placed None) ts ls -> Forall (nested p) ls -> exists h', dom_set_indent k (Some p) (map root ts) h = (Done tt, h').
Proof.
  intros Ap ts. unfold dom_set_indent.
  induction ts as [|[i f us] ts IH]; intros ls h R ND F Pl Ne; [exists h; reflexivity|].
  inversion Pl as [|? l ? ls' Px Pt]; subst. inversion Ne as [|? ? Nx Nt]; subst. inversion R as [|? ? Rx Rt]; subst.
  rewrite heights_cons in F. change (all_ids (T i f us :: ts)) with (ids (T i f us) ++ all_ids ts) in ND.
  apply NoDup_app_inv in ND. destruct ND as (N1 & N2 & D). cbn [ids] in N1. inversion N1 as [|? ? Ni Nu]; subst.
  change (flat_map ids us) with (all_ids us) in *. rewrite height_T in F.
  pose proof (put_indent_repr h i f us (Some p) Rx Ni) as R1.
  apply placed_inv in Px. destruct Px as (a & ks & -> & Px). apply nested_inv in Nx.
  assert (G : exists h1, set_indent k (Some p) i h = (Done tt, h1) /\ changed (ids (T i f us)) h h1).
  { unfold set_indent. rewrite (repr_info _ _ _ _ R1), (repr_body _ _ _ _ R1).
    assert (C0 : changed (ids (T i f us)) h (put_indent h i (Some p))).
    { destruct (put_indent_changed h i (Some p)) as [C1 C2]. split; [exact C1|]. intros j J. apply C2. intros [<-|[]]. apply J. left. reflexivity. }
    assert (H : exists h1, hiter (relative_indent k p) (map root us) (put_indent h i (Some p)) = (Done tt, h1) /\ changed (all_ids us) (put_indent h i (Some p)) h1).
    { destruct a as [q|].
      - destruct Px as (Ei & Aq & Px). destruct k as [|k].
        + destruct us as [|u us]; [exists (put_indent h i (Some p)); split; [reflexivity|apply changed_refl]|lia].
        + exists (put_indent h i (Some p)). split; [|apply changed_refl]. revert R1 Px F.
          generalize (put_indent h i (Some p)) as g. clear. intros g R1 Px F. apply repr_kids in R1.
          assert (Fu : heights us <= k) by lia. clear F. revert ks Px.
          assert (X : forall n us ks, Forall (repr g) us -> Forall2 (placed (Some q)) us ks -> heights us <= n -> hiter (relative_indent n p) (map root us) g = (Done tt, g)).
          { induction n as [|n IHn]; intros vs ks Rv Pv Fv.
            - destruct vs as [|[j e vs'] vs]; [reflexivity|]. rewrite heights_cons, height_T in Fv. lia.
            - revert ks Pv. induction Rv as [|[j e vs'] vs Rj Rv IHv]; intros ks Pv; [reflexivity|].
              inversion Pv as [|? l ? ls Pj Pr]; subst. rewrite heights_cons, height_T in Fv. cbn [map root hiter]. unfold hbind.
              cbn [relative_indent]. rewrite (repr_info _ _ _ _ Rj), (repr_body _ _ _ _ Rj).
              apply placed_inv in Pj. destruct Pj as (a & ms & -> & Pj). destruct a as [b|].
              + destruct Pj as (r & -> & Ej & Nr & Pj). rewrite Ej. unfold absolute.
                assert (startswith [NL] r = false) as ->.
                { destruct r as [|c r]; [reflexivity|]. cbn [startswith]. destruct (N.eqb NL c) eqn:K; [|reflexivity].
                  apply N.eqb_eq in K. subst c. exfalso. apply Nr. left. reflexivity. }
                apply (IHv ltac:(lia) ls Pr).
              + destruct Pj as (Ej & Pj). rewrite Ej. apply repr_kids in Rj. rewrite (IHn vs' ms Rj Pj) by lia. apply (IHv ltac:(lia) ls Pr). }
          intros ks Px. apply (X (S k) us ks R1 Px). lia.
      - destruct Px as (Ei & Px).
        destruct (relatives k p us) with (ls := ks) (h := put_indent h i (Some p)) as (h1 & us' & E & _ & _ & _ & C); try assumption.
        + destruct Ap as (r & -> & _). discriminate.
        + apply Forall_forall. intros x _. apply relative_indent_spec.
        + apply repr_kids in R1. exact R1.
        + lia.
        + exists h1. split; assumption. }
    destruct H as (h1 & E & C). exists (match n_kind f with KText _ => put_indent h i (Some p) | _ => h1 end).
    destruct (n_kind (with_indent f (Some p))) eqn:Ek; cbn in Ek; rewrite Ek; (split; [first [exact E|reflexivity]|]); try exact C0.
    all: eapply (changed_trans _ (all_ids us)); [exact C0|exact C|apply incl_refl|]; intros j J; right; exact J. }
  destruct G as (h1 & E1 & C1).
  assert (Rt1 : Forall (repr h1) ts). { apply repr_frames with h; [exact Rt|]. intros j I. apply C1. intros J. exact (D j J I). }
  destruct (IH ls' h1 Rt1 N2 ltac:(lia) Pt Nt) as (h2 & E2). exists h2. cbn [map root hiter]. unfold hbind. rewrite E1. exact E2.
Qed.

Section Control.
  Context {W : Type}.
  Variable P : prims W.
  Variable expand : hyper -> val -> list val -> list (str * val) -> nat -> M W (list nid).
  Variable loops : nat.
  Notation run s := (tr_body P expand loops s).
  Notation test := (test P expand).
  Notation opt_body := (opt_body P expand loops).
  Notation for_step := (for_step P expand loops).
  Notation items_of_expr := (items_of_expr P expand).
  Notation plain_tag := (plain_tag P expand).

  Lemma do_set_indent_spec ind l (m : mach W) o m' : do_set_indent ind l m = (o, m') -> o <> Fuel ->
    reindented m m' /\ (o = Done tt \/ o = Exc AssertionError).
  Proof.
    unfold do_set_indent, lift_h. destruct (dom_set_indent (depth_bound (m_heap m)) (Some ind) l (m_heap m)) as [o1 h1] eqn:E.
    intros [= <- <-] N. apply dom_set_indent_like in E. destruct E as [[L H] K]. split.
    - split; [reflexivity|]. split; [exact L|exact H].
    - destruct K as [K|[K|K]]; auto. contradiction.
  Qed.

  (** a block made of [indented] *)
  Lemma closed_indented s x (m : mach W) o m' : (l <* indented s x ;; ret (Some l)) m = (o, m') -> o <> Fuel ->
    exists r m1, x m = (r, m1) /\ r <> Fuel /\ closed r m1 o m'.
  Proof.
    intros E N. apply bind_inv in E. destruct E as [(l & m3 & E & [= <- <-])|[(e & E & ->)|(_ & ->)]]; [| |contradiction N; reflexivity].
    - unfold indented in E. apply bind_done_inv in E. destruct E as (l1 & m1 & E1 & E). apply bind_done_inv in E. destruct E as (ind & m2 & [= <- <-] & E).
      apply bind_done_inv in E. destruct E as ([] & m4 & E4 & [= <- <-]). exists (Done l1), m1. split; [exact E1|]. split; [discriminate|].
      apply do_set_indent_spec in E4; [|discriminate]. eapply closed_done; [reflexivity|apply E4].
    - unfold indented in E. apply bind_inv in E. destruct E as [(l1 & m1 & E1 & E)|[(e1 & E1 & [= <-])|(_ & [=])]].
      + apply bind_inv in E. destruct E as [(ind & m2 & [= <- <-] & E)|[(e1 & [=] & _)|([=] & _)]].
        apply bind_inv in E. destruct E as [([] & m4 & E4 & [=])|[(e1 & E4 & [= <-])|(_ & [=])]].
        exists (Done l1), m1. split; [exact E1|]. split; [discriminate|]. apply do_set_indent_spec in E4; [|discriminate].
        destruct E4 as [R [[=]|[= ->]]]. eapply closed_bad; [reflexivity|exact R].
      + exists (Exc e), m'. split; [exact E1|]. split; [discriminate|]. apply closed_exc. reflexivity.
  Qed.

  (** embedded values *)
  Lemma inside_dec v : (exists l, flatten1 (item_of v) = Ok l /\ inside v l) \/ (flatten1 (item_of v) = Raise TypeError /\ forall l, ~ inside v l).
  Proof.
    revert v. fix go 1. intros v. destruct v as [| | | |vs|vs|vs|d|ns|n|t|h|h s|f a k|n]; try (right; split; [reflexivity|]; intros l H; inversion H; fail).
    - left. exists []. split; [reflexivity|constructor].
    - assert (K : (exists l, flatten1 (ISeq (map item_of vs)) = Ok l /\ inside_all vs l) \/ (flatten1 (ISeq (map item_of vs)) = Raise TypeError /\ forall l, ~ inside_all vs l)).
      { induction vs as [|v vs IH]; [left; exists []; split; [reflexivity|constructor]|].
        change (flatten1 (ISeq (map item_of (v :: vs)))) with (bind (flatten1 (item_of v)) (fun a => bind (flatten1 (ISeq (map item_of vs))) (fun b => Ok (a ++ b)))).
        destruct (go v) as [(l & -> & H)|(-> & H)]; [|right; split; [reflexivity|]; intros l K; inversion K; subst; eapply H; eassumption].
        cbn [bind]. destruct IH as [(l' & -> & H')|(-> & H')]; [left; exists (l ++ l'); split; [reflexivity|constructor; assumption]|].
        right. split; [reflexivity|]. intros l0 K; inversion K; subst; eapply H'; eassumption. }
      destruct K as [(l & E & H)|(E & H)]; [left; exists l; split; [exact E|constructor; exact H]|right; split; [exact E|]].
      intros l K. inversion K; subst. eapply H; eassumption.
    - left. exists ns. split; [|constructor]. cbn [item_of]. clear. induction ns as [|n ns IH]; [reflexivity|].
      change (flatten1 (ISeq (map INode (n :: ns)))) with (bind (flatten1 (ISeq (map INode ns))) (fun b => Ok (n :: b))). rewrite IH. reflexivity.
    - left. exists [n]. split; [reflexivity|constructor].
  Qed.
  Lemma inside_all_dec vs : (exists l, flatten (map item_of vs) = Ok l /\ inside_all vs l) \/ (flatten (map item_of vs) = Raise TypeError /\ forall l, ~ inside_all vs l).
  Proof.
    destruct (inside_dec (VList vs)) as [(l & E & H)|(E & H)]; cbn [item_of] in E; [left; exists l; split; [exact E|inversion H; assumption]|].
    right. split; [exact E|]. intros l K. apply (H l). constructor. exact K.
  Qed.
  Lemma as_sequence_spec v (m : mach W) : is_object v = false ->
    (exists l, embedded v l /\ as_sequence P v m = (Done l, m)) \/ ((forall l, ~ embedded v l) /\ as_sequence P v m = (Exc TypeError, m)).
  Proof.
    assert (Sq : forall vs (Q : list nid -> Prop), (forall l, inside_all vs l <-> Q l) -> iterate P v m = (Done (vs, None), m) ->
      (forall l, v <> VDom l) -> (forall n, v <> VNode n) ->
      (exists l, Q l /\ as_sequence P v m = (Done l, m)) \/ ((forall l, ~ Q l) /\ as_sequence P v m = (Exc TypeError, m))).
    { intros vs Q HQ E N1 N2. assert (Ea : as_sequence P v m = of_result (flatten (map item_of vs)) m).
      { destruct v; try (unfold as_sequence; rewrite E; reflexivity); [exfalso; eapply N1; reflexivity|exfalso; eapply N2; reflexivity]. }
      rewrite Ea. destruct (inside_all_dec vs) as [(l & -> & H)|(-> & H)]; [left; exists l; split; [apply HQ, H|reflexivity]|].
      right. split; [intros l K; apply (H l), HQ, K|reflexivity]. }
    intros O. destruct v as [| | |x|vs|vs|vs|d|ns|n|t|h|h s|f a k|n]; try discriminate O;
      try (right; split; [intros l H; inversion H|reflexivity]; fail).
    - apply (Sq (map (fun c => VStr [c]) x) (embedded (VStr x))); [|reflexivity|discriminate|discriminate].
      intros l. destruct x as [|c x]; split; intros H; inversion H; subst; try constructor. match goal with K : inside (VStr _) _ |- _ => inversion K end.
    - apply (Sq vs (embedded (VList vs))); [|reflexivity|discriminate|discriminate]. intros l. split; intros H; [constructor; exact H|inversion H; assumption].
    - apply (Sq vs (embedded (VTuple vs))); [|reflexivity|discriminate|discriminate]. intros l. split; intros H; [constructor; exact H|inversion H; assumption].
    - apply (Sq vs (embedded (VSet vs))); [|reflexivity|discriminate|discriminate]. intros l. split; intros H; [constructor; exact H|inversion H; assumption].
    - apply (Sq (map fst d) (embedded (VDict d))); [|reflexivity|discriminate|discriminate]. intros l. split; intros H; [constructor; exact H|inversion H; assumption].
    - left. exists ns. split; [constructor|reflexivity].
    - left. exists [n]. split; [constructor|reflexivity].
  Qed.
  Lemma embed_spec s e (m : mach W) o m' : tr_block P expand loops s (BEmbed e) m = (o, m') -> o <> Fuel ->
    (exists x, eval P expand s e m = (Exc x, m') /\ o = Exc x) \/
    exists v m1, eval P expand s e m = (Done v, m1) /\ (is_object v = false ->
      (exists l, embedded v l /\ closed (Done l) m1 o m') \/ ((forall l, ~ embedded v l) /\ o = Exc TypeError /\ m' = m1)).
  Proof.
    intros E N. change (tr_block P expand loops s (BEmbed e)) with (l <* indented s (v <* eval P expand s e ;; as_sequence P v) ;; ret (Some l)) in E.
    apply closed_indented in E as (r & m1 & E & Nr & C); [|exact N]. apply bind_inv in E. destruct E as [(v & m2 & E1 & E2)|[(x & E1 & ->)|(_ & ->)]]; [| |congruence].
    - right. exists v, m2. split; [exact E1|]. intros O. destruct (as_sequence_spec v m2 O) as [(l & H & K)|(H & K)]; rewrite K in E2; injection E2 as <- <-.
      + left. exists l. split; [exact H|exact C].
      + right. split; [exact H|]. inversion C as [? ? [=]|x [= <-]|? ? [=]]. subst. split; reflexivity.
    - left. exists x. inversion C as [? ? [=]|x' [= <-]|? ? [=]]. subst. split; [exact E1|reflexivity].
  Qed.

  Lemma try_go s ys : forall (m : mach W) r m1,
    (fix go (ys : list body) : M W (list nid) := match ys with [] => ret [] | y :: r => or_else (run s y) (go r) end) ys m = (r, m1) ->
    r <> Fuel -> try_out (map (run s) ys) m r m1.
  Proof.
    induction ys as [|y ys IH]; intros m r m1 E N.
    - injection E as <- <-. apply try_none. constructor.
    - unfold or_else at 1 in E. destruct (run s y m) as [[l|e|] m2] eqn:E1.
      + injection E as <- <-. apply (try_first [] _ _ m m); [constructor|exact E1].
      + apply IH in E; [|exact N]. cbn. inversion E as [bad x rest ? m9 l ? F X Q|? ? ? F]; subst.
        * apply (try_first (run s y :: bad) x rest m m9); [econstructor; eassumption|exact X].
        * apply try_none. econstructor; eassumption.
      + injection E as <- <-. contradiction N; reflexivity.
  Qed.
  Lemma block_try s ys (m : mach W) o m' : tr_block P expand loops s (BTry ys) m = (o, m') -> o <> Fuel ->
    exists r m1, try_out (map (run s) ys) m r m1 /\ closed r m1 o m'.
  Proof.
    intros E N. apply closed_indented in E; [|exact N]. destruct E as (r & m1 & E & Nr & C). exists r, m1. split; [|exact C].
    apply try_go; assumption.
  Qed.

  Lemma try_go_conv s ys : forall (m : mach W) r m1, try_out (map (run s) ys) m r m1 ->
    (fix go (ys : list body) : M W (list nid) := match ys with [] => ret [] | y :: r => or_else (run s y) (go r) end) ys m = (r, m1).
  Proof.
    induction ys as [|y ys IH]; intros m r m1 T.
    - inversion T as [bad x rest ? ? l ? F X Q|? ? ? F]; subst; [destruct bad; discriminate|]. inversion F; subst. reflexivity.
    - unfold or_else at 1. inversion T as [bad x rest ? m2 l ? F X Q|? ? ? F]; subst.
      + destruct bad as [|b bad]; cbn in Q; injection Q as -> Q.
        * inversion F; subst. rewrite X. reflexivity.
        * inversion F as [|? ? ? e m3 ? F1 F2]; subst. rewrite F1. apply IH. rewrite <- Q. apply (try_first bad x rest m3 m2); assumption.
      + inversion F as [|? ? ? e m3 ? F1 F2]; subst. rewrite F1. apply IH. apply try_none, F2.
  Qed.
  (** The chosen alternative is put in place without failure when its nodes have been made for this place. *)
  Lemma block_try_ok s ys (m : mach W) l m1 ts ls : try_out (map (run s) ys) m (Done l) m1 ->
    l = map root ts -> Forall (repr (m_heap m1)) ts -> NoDup (all_ids ts) -> Forall2 (placed None) ts ls ->
    abs_indent (s_indent (state_at m1 s)) -> Forall (nested (s_indent (state_at m1 s))) ls ->
    exists m', tr_block P expand loops s (BTry ys) m = (Done (Some l), m').
  Proof.
    intros T -> R ND Pl A Ne. apply try_go_conv in T. cbn. unfold indented.
    destruct (set_indent_placed (depth_bound (m_heap m1)) _ A ts ls (m_heap m1) R ND) as (h' & E); try assumption.
    { unfold depth_bound. apply Nat.le_trans with (List.length (all_ids ts)).
      - clear. induction ts as [|t ts IH]; [apply le_n|]. rewrite heights_cons. change (all_ids (t :: ts)) with (ids t ++ all_ids ts).
        rewrite app_length. assert (height t <= List.length (ids t)); [|lia]. clear. induction t as [i f us IH] using tree_ind'.
        rewrite height_T. cbn. apply le_n_S. change (flat_map ids us) with (all_ids us). induction IH as [|u us Hu _ IHu]; [apply le_n|].
        rewrite heights_cons. change (all_ids (u :: us)) with (ids u ++ all_ids us). rewrite app_length. lia.
      - apply le_S. rewrite <- (seq_length (List.length (m_heap m1)) 0). apply NoDup_incl_length; [exact ND|].
        intros i I. apply in_seq. split; [lia|]. apply (reprs_lt _ _ R), I. }
    exists (with_heap m1 h').
    assert (X : do_set_indent (s_indent (state_at m1 s)) (map root ts) m1 = (Done tt, with_heap m1 h')).
    { unfold do_set_indent, lift_h. rewrite E. reflexivity. }
    erewrite bind_done; [|erewrite bind_done; [|exact T]; unfold get_ind; unfold mbind at 1; erewrite bind_done; [|exact X]; reflexivity]. reflexivity.
  Qed.

  Lemma if_go s els cs : forall (m : mach W) r m1,
    (fix go (cs : list (expr * option body)) : M W (list nid) :=
       match cs with
       | [] => match els with Some y => run s y | None => ret [] end
       | (c, y) :: r => v <* eval P expand s c ;; b <* truth P v ;;
                        if (b : bool) then match y with Some y => run s y | None => ret [] end else go r
       end) cs m = (r, m1) -> r <> Fuel ->
    if_out (opt_body s els) (map (fun cy => (test s (fst cy), opt_body s (snd cy))) cs) m r m1.
  Proof.
    induction cs as [|[c y] cs IH]; intros m r m1 E N.
    - apply (if_else _ _ m m); [constructor|exact E].
    - cbn [map fst snd].
      assert (K : forall b m2, test s c m = (Done b, m2) -> (if b then opt_body s y else
        (fix go (cs : list (expr * option body)) : M W (list nid) :=
       match cs with
       | [] => match els with Some y => run s y | None => ret [] end
       | (c, y) :: r => v <* eval P expand s c ;; b <* truth P v ;;
                        if (b : bool) then match y with Some y => run s y | None => ret [] end else go r
       end) cs) m2 = (r, m1) -> if_out (opt_body s els) ((test s c, opt_body s y) :: map (fun cy => (test s (fst cy), opt_body s (snd cy))) cs) m r m1).
      { intros [|] m2 Et Eb.
        - apply (if_true _ [] _ _ _ m m m2); [constructor|exact Et|exact Eb].
        - apply IH in Eb; [|exact N]. inversion Eb as [pre c' x post ? m3 m4 ? ? F T X Q|? ? m3 ? ? F X|pre c' x post ? m3 e ? F T Q]; subst.
          + apply (if_true _ ((test s c, opt_body s y) :: pre) c' x post m m3 m4); [cbn; econstructor; eassumption|exact T|exact X].
          + apply (if_else _ _ m m3); [cbn; econstructor; eassumption|exact X].
          + apply (if_fail _ ((test s c, opt_body s y) :: pre) c' x post m m3); [cbn; econstructor; eassumption|exact T]. }
      apply bind_inv in E. destruct E as [(v & m2 & E1 & E)|[(e & E & ->)|(_ & ->)]]; [| |contradiction N; reflexivity].
      + apply bind_inv in E. destruct E as [(b & m3 & E2 & E)|[(e & E & ->)|(_ & ->)]]; [| |contradiction N; reflexivity].
        * apply (K b m3); [unfold test; erewrite bind_done; [exact E2|exact E1]|]. destruct b; exact E.
        * apply (if_fail _ [] _ _ _ m m); [constructor|]. unfold test. erewrite bind_done; [exact E|exact E1].
      + apply (if_fail _ [] _ _ _ m m); [constructor|]. unfold test, mbind. rewrite E. reflexivity.
  Qed.
  Lemma block_if s cs els (m : mach W) o m' : tr_block P expand loops s (BIf cs els) m = (o, m') -> o <> Fuel ->
    exists r m1, if_out (opt_body s els) (map (fun cy => (test s (fst cy), opt_body s (snd cy))) cs) m r m1 /\ closed r m1 o m'.
  Proof.
    intros E N. apply closed_indented in E; [|exact N]. destruct E as (r & m1 & E & Nr & C). exists r, m1. split; [|exact C].
    apply if_go; assumption.
  Qed.

  Lemma mconcat_rounds (step : val -> M W (list nid)) items : forall (m : mach W) o m', mconcat step items m = (o, m') -> o <> Fuel ->
    (exists l, o = Done l /\ rounds step items m l m') \/
    (exists pre v post l m1 e, items = pre ++ v :: post /\ rounds step pre m l m1 /\ step v m1 = (Exc e, m') /\ o = Exc e).
  Proof.
    induction items as [|v items IH]; intros m o m' E N.
    - injection E as <- <-. left. exists []. split; [reflexivity|constructor].
    - cbn in E. apply bind_inv in E. destruct E as [(l & m1 & E1 & E)|[(e & E & ->)|(_ & ->)]]; [| |contradiction N; reflexivity].
      + apply bind_inv in E. destruct E as [(l' & m2 & E2 & E)|[(e & E & ->)|(_ & ->)]]; [| |contradiction N; reflexivity].
        * injection E as <- <-. apply IH in E2; [|discriminate]. destruct E2 as [(l2 & [= <-] & R)|(p & v' & q & l2 & m3 & e & _ & _ & _ & [=])].
          left. exists (l ++ l'). split; [reflexivity|]. econstructor; eassumption.
        * apply IH in E; [|discriminate]. destruct E as [(l2 & [=] & R)|(p & v' & q & l2 & m3 & e' & -> & R & X & [= <-])].
          right. exists (v :: p), v', q, (l ++ l2), m3, e. split; [reflexivity|]. split; [econstructor; eassumption|]. split; [exact X|reflexivity].
      + right. exists [], v, items, [], m, e. split; [reflexivity|]. split; [constructor|]. split; [exact E|reflexivity].
  Qed.

  Lemma block_for s ts e y els (m : mach W) o m' : tr_block P expand loops s (BFor ts e y els) m = (o, m') -> o <> Fuel ->
    exists r m1, closed r m1 o m' /\
      ((exists x, items_of_expr s e m (Exc x) m1 /\ r = Exc x) \/
       (exists items err m0, items_of_expr s e m (Done (items, err)) m0 /\
          for_out (for_step s ts y els) (match els with Some z => Some (run s z) | None => None end) items err m0 r m1)).
  Proof.
    intros E N. apply closed_indented in E; [|exact N]. destruct E as (r & m1 & E & Nr & C). exists r, m1. split; [exact C|].
    apply bind_inv in E. destruct E as [(v & m2 & E1 & E)|[(x & E & ->)|(_ & ->)]]; [| |contradiction Nr; reflexivity].
    2: { left. exists x. split; [|reflexivity]. apply items_exc, E. }
    apply bind_inv in E. destruct E as [([items err] & m3 & E2 & E)|[(x & E & ->)|(_ & ->)]]; [| |contradiction Nr; reflexivity].
    2: { left. exists x. split; [|reflexivity]. eapply items_value; eassumption. }
    right. exists items, err, m3. split; [eapply items_value; eassumption|].
    change (fun x : val => _ <* assign P s ts x;; match y with Some y0 => run s y0 | None => match els with Some z => run s z | None => ret [] end end)
      with (for_step s ts y els) in E.
    apply bind_inv in E. destruct E as [(l & m4 & E3 & E)|[(x & E & ->)|(_ & ->)]]; [| |contradiction Nr; reflexivity].
    - unfold for_loop in E3. apply bind_done_inv in E3. destruct E3 as (l3 & m5 & E3 & E4).
      destruct err as [x|]; [discriminate|]. injection E4 as <- <-.
      apply mconcat_rounds in E3; [|discriminate]. destruct E3 as [(l4 & [= <-] & R)|(p & v' & q & l2 & m6 & e' & _ & _ & _ & [=])].
      destruct items as [|v1 items].
      + inversion R; subst. destruct els as [z|].
        * eapply for_else; [reflexivity..|exact E].
        * injection E as <- <-. apply for_nothing; reflexivity.
      + injection E as <- <-. apply for_items; [discriminate|reflexivity|exact R].
    - unfold for_loop in E. apply bind_inv in E. destruct E as [(l & m4 & E3 & E)|[(x' & E & [= <-])|(_ & [=])]].
      + destruct err as [x'|]; [|discriminate]. injection E as <- <-. apply mconcat_rounds in E3; [|discriminate].
        destruct E3 as [(l4 & [= <-] & R)|(p & v' & q & l2 & m6 & e' & _ & _ & _ & [=])]. eapply for_iter; [reflexivity|exact R].
      + apply mconcat_rounds in E; [|discriminate]. destruct E as [(l4 & [=] & R)|(p & v' & q & l2 & m6 & e' & -> & R & X & [= <-])].
        eapply for_fail; [reflexivity|exact R|exact X].
  Qed.

  (** while *)
  Lemma while_go (c : M W bool) (x : M W (list nid)) k : forall b acc (m : mach W) o m', while_loop c x k b acc m = (o, m') -> o <> Fuel ->
    exists n, n < k /\
      ((exists l m1, while_rounds c x n m l m1 /\ c m1 = (Done false, m') /\ o = Done (match n with O => b | S _ => false end, acc ++ l)) \/
       (exists l m1 e, while_rounds c x n m l m1 /\ c m1 = (Exc e, m') /\ o = Exc e) \/
       (exists l m1 m2 e, while_rounds c x n m l m1 /\ c m1 = (Done true, m2) /\ x m2 = (Exc e, m') /\ o = Exc e)).
  Proof.
    induction k as [|k IH]; intros b acc m o m' E N; [injection E as <- <-; contradiction N; reflexivity|]. cbn in E.
    apply bind_inv in E. destruct E as [([|] & m1 & E1 & E)|[(e & E & ->)|(_ & ->)]]; [| | |contradiction N; reflexivity].
    - apply bind_inv in E. destruct E as [(l & m2 & E2 & E)|[(e & E & ->)|(_ & ->)]]; [| |contradiction N; reflexivity].
      + apply IH in E; [|exact N]. destruct E as (n & L & E). exists (S n). split; [lia|].
        destruct E as [(l' & m3 & R & F & ->)|[(l' & m3 & e & R & F & ->)|(l' & m3 & m4 & e & R & F & X & ->)]].
        * left. exists (l ++ l'), m3. split; [econstructor; eassumption|]. split; [exact F|]. rewrite app_assoc. destruct n; reflexivity.
        * right; left. exists (l ++ l'), m3, e. split; [econstructor; eassumption|]. split; [exact F|reflexivity].
        * right; right. exists (l ++ l'), m3, m4, e. split; [econstructor; eassumption|]. split; [exact F|]. split; [exact X|reflexivity].
      + exists 0. split; [lia|]. right; right. exists [], m, m1, e. split; [constructor|]. split; [exact E1|]. split; [exact E|reflexivity].
    - injection E as <- <-. exists 0. split; [lia|]. left. exists [], m. split; [constructor|]. split; [exact E1|]. rewrite app_nil_r. reflexivity.
    - exists 0. split; [lia|]. right; left. exists [], m, e. split; [constructor|]. split; [exact E|reflexivity].
  Qed.
  Lemma block_while s c y els (m : mach W) o m' : tr_block P expand loops s (BWhile c y els) m = (o, m') -> o <> Fuel ->
    exists n r m1, n < loops /\ closed r m1 o m' /\
      while_out (test s c) (opt_body s y) (match els with Some z => Some (run s z) | None => None end) n m r m1.
  Proof.
    intros E N. apply closed_indented in E; [|exact N]. destruct E as (r & m1 & E & Nr & C).
    change (v <* eval P expand s c ;; truth P v) with (test s c) in E.
    change (match y with Some y0 => run s y0 | None => ret [] end) with (opt_body s y) in E.
    apply bind_inv in E. destruct E as [([e l] & m2 & E1 & E)|[(x & E & ->)|(_ & ->)]]; [| |contradiction Nr; reflexivity].
    - apply while_go in E1; [|discriminate]. destruct E1 as (n & L & [(l' & m3 & R & F & [= -> ->])|[(l' & m3 & x & _ & _ & [=])|(l' & m3 & m4 & x & _ & _ & _ & [=])]]).
      exists n, r, m1. split; [exact L|]. split; [exact C|]. cbn in E. destruct n as [|n].
      + inversion R; subst. cbn in E. destruct els as [z|].
        * eapply while_else; [reflexivity|reflexivity|exact F|exact E].
        * injection E as <- <-. apply while_nothing; [reflexivity|reflexivity|exact F].
      + assert (E' : (Done l', m2) = (r, m1)) by (destruct els; exact E). injection E' as <- <-.
        eapply while_end; [discriminate|exact R|exact F].
    - apply while_go in E; [|discriminate]. destruct E as (n & L & [(l' & m3 & R & F & [=])|[(l' & m3 & e' & R & F & [= <-])|(l' & m3 & m4 & e' & R & F & X & [= <-])]]);
      exists n, (Exc x), m1; (split; [exact L|]); (split; [exact C|]).
      + eapply while_test; eassumption.
      + eapply while_body; eassumption.
  Qed.

  (** chains of tags *)
  Lemma apply_tags_cons s t ts b : forall m : mach W, apply_tags P expand s (t :: ts) b m = (l <* apply_tags P expand s ts b ;; tr_tag P expand s t l) m.
  Proof.
    unfold apply_tags. cbn [rev]. generalize (rev ts) as rs. intros rs. revert b. induction rs as [|r rs IH]; intros b m; cbn.
    - unfold mbind. cbn. destruct (tr_tag P expand s t b m) as [[a|e|] m1]; reflexivity.
    - unfold mbind. destruct (tr_tag P expand s r b m) as [[a|e|] m1] eqn:E1; try reflexivity. rewrite IH. reflexivity.
  Qed.
  Lemma apply_tags_nest s ts : forall b (m : mach W) o m', apply_tags P expand s ts b m = (o, m') -> o <> Fuel -> nest (tr_tag P expand s) ts b m o m'.
  Proof.
    induction ts as [|t ts IH]; intros b m o m' E N.
    - injection E as <- <-. constructor.
    - rewrite apply_tags_cons in E. apply bind_inv in E. destruct E as [(l & m1 & E1 & E)|[(e & E & ->)|(_ & ->)]]; [| |contradiction N; reflexivity].
      + eapply nest_cons; [apply IH; [exact E1|discriminate]|exact E].
      + apply nest_fail, IH; [exact E|discriminate].
  Qed.
  Lemma block_struct s tags y (m : mach W) o m' : tr_block P expand loops s (BStruct tags y) m = (o, m') -> o <> Fuel ->
    exists r m1, closed r m1 o m' /\
      ((exists e, run s y m = (Exc e, m1) /\ r = Exc e) \/
       (exists l m0, run s y m = (Done l, m0) /\ nest (tr_tag P expand s) tags l m0 r m1)).
  Proof.
    intros E N. apply closed_indented in E; [|exact N]. destruct E as (r & m1 & E & Nr & C). exists r, m1. split; [exact C|].
    apply bind_inv in E. destruct E as [(l & m2 & E1 & E)|[(x & E & ->)|(_ & ->)]]; [| |contradiction Nr; reflexivity].
    - right. exists l, m2. split; [exact E1|]. apply apply_tags_nest; assumption.
    - left. exists x. split; [exact E|reflexivity].
  Qed.

  Lemma tr_plain_tag s (m : mach W) t f body h : plain_tag s m t f ->
    tr_tag P expand s t body (with_heap m h) = (Done [List.length h], with_heap m (h ++ [{| c_info := f; c_body := body |}])).
  Proof.
    assert (X : forall f, f = bare f -> do_node f body None (with_heap m h) = (Done (List.length h), with_heap m (h ++ [{| c_info := f; c_body := body |}]))).
    { clear. intros f B. unfold do_node, lift_h, new_node, hbind, set_indent, hret, with_heap. cbn [m_heap m_states m_defs m_next m_rt m_world].
      assert (E : put_indent (h ++ [{| c_info := with_indent f None; c_body := body |}]) (List.length h) None = h ++ [{| c_info := f; c_body := body |}]).
      { unfold put_indent, info_at, body_at, cell_at. rewrite app_nth2, Nat.sub_diag by apply le_n. cbn. fold (bare f). rewrite <- B.
        change (with_indent f None) with (bare f). rewrite <- B. apply upd_app_mid. }
      rewrite E. destruct (n_kind (info_at (h ++ [{| c_info := f; c_body := body |}]) (List.length h))); reflexivity. }
    destruct t as [|n sl un nm]; cbn.
    - intros ->. erewrite bind_done; [|apply X; reflexivity]. reflexivity.
    - intros (x & tg & attrs & kw & -> & Sv & -> & Ev). erewrite bind_done; [|apply Ev]. erewrite bind_done; [|apply Ev].
      assert (G : get_slot s x (with_heap m h) = (Done (VTag tg), with_heap m h)).
      { unfold get_slot. change (slot_value (with_heap m h) s x) with (slot_value m s x). rewrite Sv. reflexivity. }
      erewrite bind_done; [|exact G]. cbv beta iota. erewrite bind_done; [|apply X; reflexivity]. reflexivity.
  Qed.
  Lemma tags_tower s (m : mach W) tags fs : Forall2 (plain_tag s m) tags fs -> forall ts h, Forall (repr h) ts ->
    exists is h', apply_tags P expand s tags (map root ts) (with_heap m h) = (Done (map root (tower (combine is fs) ts)), with_heap m h') /\
      Forall (repr h') (tower (combine is fs) ts) /\ List.length is = List.length fs /\ NoDup is /\ Forall (fun i => List.length h <= i < List.length h') is /\
      exists e, h' = h ++ e.
  Proof.
    induction 1 as [|t f tags fs Pt _ IH]; intros ts h R.
    - exists [], h. split; [reflexivity|]. split; [exact R|]. split; [reflexivity|]. split; [constructor|]. split; [constructor|]. exists []. symmetry. apply app_nil_r.
    - destruct (IH ts h R) as (is & h1 & E & R1 & L & ND & Fr & e & ->).
      exists (List.length (h ++ e) :: is), ((h ++ e) ++ [{| c_info := f; c_body := map root (tower (combine is fs) ts) |}]).
      split; [|split; [|split; [|split; [|split]]]].
      + rewrite apply_tags_cons. erewrite bind_done; [|exact E]. rewrite (tr_plain_tag s m t f _ _ Pt). reflexivity.
      + cbn. constructor; [|constructor]. constructor; [|apply reprs_app, R1]. rewrite nth_error_app2, Nat.sub_diag by apply le_n. reflexivity.
      + cbn. rewrite L. reflexivity.
      + constructor; [|exact ND]. intros I. rewrite Forall_forall in Fr. specialize (Fr _ I). lia.
      + constructor; [rewrite !app_length; cbn; lia|]. eapply Forall_impl; [|exact Fr]. intros i K. rewrite (app_length (h ++ e)). cbn beta in K. lia.
      + exists (e ++ [{| c_info := f; c_body := map root (tower (combine is fs) ts) |}]). rewrite app_assoc. reflexivity.
  Qed.
End Control.
