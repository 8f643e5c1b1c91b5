(** Proofs and sample data of the theorems in PropDom.v. *)
From Coq Require Import List NArith Bool Sorting Lia Arith String.
From Verif Require Import PyStr PyStrFacts Html HtmlSpec PyDict Value Dom DomSpec DomFacts.
Import ListNotations.
Local Open Scope nat_scope.
Definition node_info (name : string) (void : bool) (kw : list (str * val)) : info :=
  {| n_kind := KNode; n_tag := Some (Tag (N.of_nat (String.length name)) (u name) (KMarkup void HTML)); n_attrs := [];
     n_kwattrs := Some kw; n_outline := false; n_indent := None |}.
Definition ex_heap : heap :=
  [ {| c_info := text_info (u "hello"); c_body := [] |};
    {| c_info := node_info "p" false [(u "class", VStr (u "x"))]; c_body := [0] |};
    {| c_info := node_info "br" true []; c_body := [] |};
    {| c_info := node_info "div" false []; c_body := [1; 2] |} ].
Definition ex_text := T 0 (text_info (u "hello")) [].
Definition ex_p := T 1 (node_info "p" false [(u "class", VStr (u "x"))]) [ex_text].
Definition ex_br := T 2 (node_info "br" true []) [].
Definition ex_div := T 3 (node_info "div" false []) [ex_p; ex_br].
Lemma ex_repr : Forall (repr ex_heap) [ex_div].
Proof. repeat constructor. Qed.
Fixpoint labels (t : tree) : list info := let (_, f, ts) := t in f :: flat_map labels ts.
Lemma labels_in f t : in_tree f t -> In f (labels t).
Proof. intros H. induction H as [|i f' ts t I H IH]; [left; reflexivity|]. right. apply in_flat_map. exists t. split; assumption. Qed.
Lemma labels_sub ts p x : sub ts p = Some x -> In (label x) (flat_map labels ts).
Proof.
  intros E. destruct (in_tree_sub (label x) p ts x E eq_refl) as (y & I & H). apply in_flat_map. exists y. split; [exact I|apply labels_in, H].
Qed.

Lemma c19_once : forall skip o ts h fuel l,
  Forall (repr h) ts -> heights ts <= fuel -> NoDup (all_ids ts) ->
  dom_walk skip o fuel h (map root ts) = Done l -> NoDup l /\ incl l (all_ids ts).
Proof.
  intros skip o ts h fuel l R F ND E.
  assert (G : forall t k, repr h t -> NoDup (ids t) -> forall m, walk skip o k h (root t) = Done m -> incl m (ids t) /\ NoDup m).
  { induction t as [i f us IH] using tree_ind'. intros k Rt Nt m Em. destruct k as [|k]; [discriminate|]. cbn [root] in Em. rewrite walk_S in Em.
    destruct (skip i); [injection Em as <-; split; [intros j []|constructor]|]. rewrite (repr_body _ _ _ _ Rt) in Em.
    destruct (dom_walk skip o k h (map root us)) as [q| |] eqn:Eq; try discriminate. cbn [obind] in Em. injection Em as <-.
    cbn [ids] in *. inversion Nt as [|? ? Ni Nu]; subst. apply repr_kids in Rt.
    assert (K : incl q (all_ids us) /\ NoDup q).
    { revert q Eq. unfold all_ids. induction us as [|x us IHu]; intros q Eq; cbn in Eq; [injection Eq as <-; split; [intros j []|constructor]|].
      inversion IH; subst. inversion Rt; subst. cbn in Nu, Ni. apply NoDup_app_inv in Nu. destruct Nu as (N1 & N2 & D). rewrite in_app_iff in Ni.
      destruct (walk skip o k h (root x)) as [a| |] eqn:Ea; try discriminate. cbn [obind] in Eq.
      destruct (dom_walk skip o k h (map root us)) as [b| |] eqn:Eb; try discriminate. cbn in Eq. injection Eq as <-.
      destruct (H1 k H3 N1 a Ea) as [A1 A2]. destruct (IHu H2 H4 ltac:(constructor; [tauto|exact N2]) ltac:(tauto) N2 b eq_refl) as [B1 B2]. split.
      - cbn. intros j J. rewrite in_app_iff in *. destruct J; [left; apply A1; assumption|right; apply B1; assumption].
      - apply NoDup_app'; [exact A2|exact B2|]. intros j J J'. apply (D j); [apply A1, J|apply B1, J']. }
    destruct K as [K1 K2]. assert (Nq : ~ In i q) by (intros J; apply Ni, K1, J). destruct o.
    - cbn [app]. rewrite app_nil_r. split; [intros j [<-|J]; [left; reflexivity|right; apply K1, J]|constructor; assumption].
    - cbn [app]. split.
      + intros j J. apply in_app_or in J. destruct J as [J|[<-|[]]]; [right; apply K1, J|left; reflexivity].
      + apply NoDup_app'; [exact K2|repeat constructor; intros []|]. intros j J [<-|[]]. exact (Nq J).
    - cbn [app]. rewrite app_nil_r. split; [intros j J; right; apply K1, J|exact K2]. }
  clear F. revert l E. unfold all_ids in *. induction ts as [|x ts IH]; intros l E; cbn in E; [injection E as <-; split; [constructor|intros j []]|].
  inversion R; subst. cbn in ND. apply NoDup_app_inv in ND. destruct ND as (N1 & N2 & D).
  destruct (walk skip o fuel h (root x)) as [a| |] eqn:Ea; try discriminate. cbn [obind] in E.
  destruct (dom_walk skip o fuel h (map root ts)) as [b| |] eqn:Eb; try discriminate. cbn in E. injection E as <-.
  destruct (G x fuel H1 N1 a Ea) as [A1 A2]. destruct (IH H2 N2 b eq_refl) as [B2 B1]. split.
  - apply NoDup_app'; [exact A2|exact B2|]. intros j J J'. apply (D j); [apply A1, J|apply B1, J'].
  - cbn. intros j J. rewrite in_app_iff in *. destruct J; [left; apply A1; assumption|right; apply B1; assumption].
Qed.

Lemma c19_other_order : forall skip ts h fuel, Forall (repr h) ts -> heights ts <= fuel ->
  dom_walk skip OtherOrder fuel h (map root ts) = Done [].
Proof.
  intros skip ts h fuel R F. destruct (dom_walk_fpos skip OtherOrder ts h fuel R F) as (l & E & M).
  rewrite fpos_other in M. destruct l; [exact E|discriminate].
Qed.

Lemma c20_select_tag : forall veq h ts t o fuel,
  o <> OtherOrder -> Forall (repr h) ts -> heights ts <= fuel ->
  exists l, select veq fuel h (map root ts) t None None [] o = Done l /\
    lists_nodes o ts (fun p => exists x, sub ts p = Some x /\ has_tag t (label x)) l.
Proof.
  intros veq h ts t o fuel O R F.
  destruct (select_lists veq h ts t None None [] o fuel O R F) as (l & E & ps & So & I & M).
  - constructor.
  - intros p x _. right; left. split; reflexivity.
  - exists l. split; [exact E|]. exists ps. split; [exact So|]. split; [|exact M]. intros p. rewrite I. unfold satisfies, criterion. cbn.
    split; intros (x & Sx & H); exists x; split; try exact Sx; [apply H|]. split; [exact H|]. intros a v [[K _]|[_ K]]; discriminate.
Qed.
Definition sveq (a b : val) : bool := match a, b with VStr x, VStr y => str_eqb x y | _, _ => false end.

Lemma c20_attr_search_refuted : exists h ts,
  Forall (repr h) ts /\ heights ts <= 3 /\
  (exists x p, sub ts p = Some x /\ satisfies sveq TANone (Some (u "class")) (Some (VStr (u "x"))) [] (label x)) /\
  select sveq 3 h (map root ts) TANone (Some (u "class")) (Some (VStr (u "x"))) [] Pre = Exc TypeError.
Proof.
  exists ex_heap, [ex_div]. split; [apply ex_repr|]. split; [cbn; lia|]. split; [|vm_compute; reflexivity].
  exists ex_p, [0; 0]. split; [reflexivity|]. split; [exact I|]. intros a v [[[= <-] ->]|[_ K]]; [|discriminate].
  eexists _, _. repeat split; reflexivity.
Qed.

Lemma c20_attr_search_fails : forall veq h ts attr value attrs o fuel p x,
  o <> OtherOrder -> Forall (repr h) ts -> heights ts <= fuel ->
  sub ts p = Some x -> n_kwattrs (label x) = None ->
  select veq fuel h (map root ts) TANone (Some attr) value attrs o = Exc TypeError.
Proof.
  intros veq h ts attr value attrs o fuel p x O R F Sx K.
  destruct (dom_walk_fpos (fun _ => false) o ts h fuel R F) as (l & E & M).
  assert (I : In p (fpos (fun _ => false) o 0 ts)). { apply (fpos_visited _ _ _ O), visited_all. congruence. }
  assert (J : In (root x) l).
  { apply (in_map (rootat ts)) in I. rewrite <- M in I. unfold rootat in I. rewrite Sx in I. cbn in I.
    apply in_map_iff in I. destruct I as (y & [= ->] & J). exact J. }
  unfold select. cbn [constraint]. rewrite E. cbn [obind].
  assert (NE : exists a v r, dset str_eqb attr value attrs = (a, v) :: r).
  { destruct attrs as [|[a v] r]; cbn; [eexists _, _, _; reflexivity|]. destruct (str_eqb attr a); eexists _, _, _; reflexivity. }
  destruct NE as (a & v & r & ->).
  assert (Lx : info_at h (root x) = label x) by (apply repr_info'; apply sub_repr with p ts; assumption).
  assert (Tb : forall f, (exists b, test veq f CAny ((a, v) :: r) = Ok b) \/ test veq f CAny ((a, v) :: r) = Raise TypeError).
  { intros f. unfold test. destruct (n_kwattrs f) as [d|]; [|right; reflexivity].
    destruct (test_attrs_some veq d ((a, v) :: r)) as (b & Eb & _). left. exists b. exact Eb. }
  assert (G : filter_test veq h CAny ((a, v) :: r) l = Raise TypeError).
  { clear M E. induction l as [|i l IH]; [destruct J|]. cbn [filter_test]. destruct J as [->|J].
    - rewrite Lx. unfold test. rewrite K. reflexivity.
    - destruct (Tb (info_at h i)) as [(b & ->)| ->]; [|reflexivity]. cbn [bind]. rewrite (IH J). reflexivity. }
  rewrite G. reflexivity.
Qed.

Lemma c21_skip : forall veq t attr value attrs ts h fuel,
  NoDup (dkeys attrs) -> Forall (repr h) ts -> heights ts <= fuel ->
  (forall p x, sub ts p = Some x -> testable t attr attrs (label x)) ->
  exists h' ts' bad,
    skip_nodes veq fuel (map root ts) t attr value attrs h = (Done (map root ts'), h') /\
    Forall (repr h') ts' /\
    (forall p x, sub ts p = Some x -> (bad (label x) = true <-> satisfies veq t attr value attrs (label x))) /\
    map erase ts' = flat_map (prune bad) (map erase ts) /\
    Forall (repr h') ts /\
    (forall i, i < List.length h -> nth_error h' i = nth_error h i) /\
    (forall i, In i (all_ids ts') -> List.length h <= i) /\ NoDup (all_ids ts').
Proof.
  intros veq t attr value attrs ts h fuel ND R F Te.
  destruct (skip_spec veq t attr value attrs ts h fuel ND R F Te) as (h' & ts' & E & R' & S' & F' & I' & N').
  exists h', ts', (testb veq t attr value attrs). repeat (split; [first [exact E|exact R'|exact S']|]).
  split. { intros p x Sx. apply testb_spec; [exact ND|exact (Te p x Sx)]. }
  split; [exact S'|]. split.
  { apply repr_frames with h; [exact R|]. intros i J. apply F'. apply (reprs_lt h ts R i J). }
  repeat split; assumption.
Qed.

Lemma c21_attr_skip_refuted : exists h ts,
  Forall (repr h) ts /\ heights ts <= 3 /\
  fst (skip_nodes sveq 3 (map root ts) TANone (Some (u "class")) (Some (VStr (u "x"))) [] h) = Exc TypeError.
Proof.
  exists ex_heap, [ex_div]. split; [apply ex_repr|]. split; [cbn; lia|vm_compute; reflexivity].
Qed.

Lemma c22_same_text : forall P ts fuel h l h', Forall (repr h) ts -> heights ts <= fuel ->
  dom_copy fuel (map root ts) h = (Done l, h') ->
  dom_render P fuel h' l = dom_render P fuel h (map root ts) /\
  dom_render P fuel h' (map root ts) = dom_render P fuel h (map root ts).
Proof.
  intros P ts fuel h l h' R F E. destruct (dom_copy_spec ts fuel h R F) as (e & ts' & E' & (R' & S' & _)).
  rewrite E in E'. injection E' as -> ->. rewrite !dom_render_srenders; try assumption.
  - rewrite S'. split; reflexivity.
  - apply reprs_app. exact R.
  - rewrite (heights_erase_eq _ _ S'). exact F.
Qed.

Lemma c22_independent : forall P ts fuel h l h' h2, Forall (repr h) ts -> heights ts <= fuel ->
  dom_copy fuel (map root ts) h = (Done l, h') ->
  ((forall i, i < List.length h -> nth_error h2 i = nth_error h' i) ->
     dom_render P fuel h2 (map root ts) = dom_render P fuel h (map root ts)) /\
  ((forall i, List.length h <= i < List.length h' -> nth_error h2 i = nth_error h' i) ->
     dom_render P fuel h2 l = dom_render P fuel h (map root ts)).
Proof.
  intros P ts fuel h l h' h2 R F E. destruct (dom_copy_spec ts fuel h R F) as (e & ts' & E' & (R' & S' & I' & _)).
  rewrite E in E'. injection E' as -> ->. split; intros H.
  - rewrite !dom_render_srenders; try assumption; [reflexivity|]. apply repr_frames with h; [exact R|].
    intros i J. apply (reprs_lt h ts R) in J. rewrite H by exact J. apply nth_error_app1, J.
  - rewrite !dom_render_srenders; try assumption; [rewrite S'; reflexivity| |rewrite (heights_erase_eq _ _ S'); exact F].
    apply repr_frames with (h ++ e); [exact R'|]. intros i J. apply H. split; [apply I', J|apply (reprs_lt _ _ R' i J)].
Qed.
Definition ex_prims : rprims := {| p_str := fun _ => Ok (u "?"); p_tagfun := fun _ b _ _ => Ok b |}.

Lemma c23_preorder_is_bottom_up : forall transform g skip,
  (forall h t, repr h t -> transform (root t) h = (Done (map INode (map root (g t))), h)) -> selective g ->
  forall ts k h, NoDup (all_ids ts) -> Forall (repr h) ts -> heights ts <= k ->
  exists h', dom_alter transform skip Pre k (map root ts) h = (Done (map root (flat_map (bottom_up g skip) ts)), h') /\
    Forall (repr h') (flat_map (bottom_up g skip) ts) /\
    (forall i, ~ In i (all_ids ts) -> nth_error h' i = nth_error h i).
Proof.
  intros transform g skip Htr Hg ts k h ND R F.
  apply (dom_alter_pre transform skip g (fun _ => True)); try assumption.
  - intros h' t R' _. apply Htr, R'.
  - rewrite Forall_forall. intros x _. split; [|exact I].
    induction x as [i f us IH] using tree_ind'. cbn. right. induction IH as [|y us Hy IH IHu]; [exact I|]. repeat split; assumption.
Qed.

Lemma c23_postorder_is_top_down : forall transform g skip,
  (forall h t, repr h t -> transform (root t) h = (Done (map INode (map root (g t))), h)) -> selective g ->
  forall ts k h, List.length (all_ids ts) <= k -> NoDup (all_ids ts) -> Forall (repr h) ts ->
  exists h' ts', dom_alter transform skip Post k (map root ts) h = (Done (map root ts'), h') /\
    Forall (repr h') ts' /\ top_down g skip ts ts' /\
    (forall i, ~ In i (all_ids ts) -> nth_error h' i = nth_error h i).
Proof.
  intros transform g skip Htr Hg ts k h F ND R.
  apply (dom_alter_post transform skip g (fun _ => True)); try assumption; [|intros; exact I].
  intros h' t R' _. apply Htr, R'.
Qed.

(** Unwrapping of the nodes that have children: each is replaced by its children. *)
Definition unwrap (t : tree) : list tree := match kids t with [] => [t] | ks => ks end.
Definition unwrap_node (i : nid) : hm (list ditem) := fun h =>
  (Done (match body_at h i with [] => [INode i] | l => map INode l end), h).
Lemma unwrap_ok : forall h t, repr h t -> unwrap_node (root t) h = (Done (map INode (map root (unwrap t))), h).
Proof.
  intros h [i f ts] R. unfold unwrap_node, unwrap. cbn [root kids]. rewrite (repr_body _ _ _ _ R). destruct ts; reflexivity.
Qed.
Lemma unwrap_selective : selective unwrap.
Proof.
  intros [i f ts] ND. unfold unwrap. cbn [kids]. destruct ts as [|x ts].
  - split; [repeat constructor|]. exact ND.
  - split; [|cbn [ids] in ND; inversion ND; assumption]. rewrite Forall_forall. intros y I. apply subtree_kid with y; [exact I|constructor].
Qed.

Lemma c23_documented_preorder_refuted : exists transform g ts h,
  (forall h t, repr h t -> transform (root t) h = (Done (map INode (map root (g t))), h)) /\ selective g /\
  Forall (repr h) ts /\ NoDup (all_ids ts) /\ heights ts <= 4 /\
  exists l h', dom_alter transform (fun _ => false) Pre 4 (map root ts) h = (Done l, h') /\
    forall ts', top_down g (fun _ => false) ts ts' -> map root ts' <> l.
Proof.
  exists unwrap_node, unwrap, [T 3 (node_info "div" false []) [ex_p]],
    (firstn 3 ex_heap ++ [{| c_info := node_info "div" false []; c_body := [1] |}]).
  split; [exact unwrap_ok|]. split; [exact unwrap_selective|]. split; [repeat constructor|].
  split; [repeat constructor; cbn; lia|]. split; [cbn; lia|]. eexists _, _. split; [vm_compute; reflexivity|].
  intros ts' H. inversion H as [a l l' El Fl]; subst. cbn in Fl. inversion Fl as [|x y m m' I1 I2]; subst. inversion I2; subst.
  inversion I1; subst; discriminate.
Qed.

Lemma c23_documented_postorder_refuted : exists transform g ts h,
  (forall h t, repr h t -> transform (root t) h = (Done (map INode (map root (g t))), h)) /\ selective g /\
  Forall (repr h) ts /\ NoDup (all_ids ts) /\ heights ts <= 4 /\
  exists l h', dom_alter transform (fun _ => false) Post 4 (map root ts) h = (Done l, h') /\
    map root (flat_map (bottom_up g (fun _ => false)) ts) <> l.
Proof.
  exists unwrap_node, unwrap, [T 3 (node_info "div" false []) [ex_p]],
    (firstn 3 ex_heap ++ [{| c_info := node_info "div" false []; c_body := [1] |}]).
  split; [exact unwrap_ok|]. split; [exact unwrap_selective|]. split; [repeat constructor|].
  split; [repeat constructor; cbn; lia|]. split; [cbn; lia|]. eexists _, _. split; [vm_compute; reflexivity|]. discriminate.
Qed.

Lemma c24_flatten :
  (forall l, flatten (map INode l) = Ok l) /\
  (forall a b x y, flatten a = Ok x -> flatten b = Ok y -> flatten (a ++ b) = Ok (x ++ y)) /\
  (forall a l b, flatten (a ++ ISeq l :: b) = flatten (a ++ l ++ b)) /\
  (forall a b, flatten (a ++ INone :: b) = flatten (a ++ b)).
Proof.
  split; [exact flatten_nodes|]. split; [|split].
  - intros a b x y A B. rewrite flatten_app, A, B. reflexivity.
  - intros a l b. rewrite !flatten_app, flatten_cons. change (flatten1 (ISeq l)) with (flatten l). reflexivity.
  - intros a b. rewrite !flatten_app, flatten_cons. cbn [flatten1 bind]. destruct (flatten a); cbn [bind]; [|reflexivity].
    destruct (flatten b); reflexivity.
Qed.

Lemma c24_bad_items : forall l, flatten l = Raise TypeError <-> bad_in l.
Proof.
  intros l. split.
  - revert l. assert (H : forall x, flatten1 x = Raise TypeError -> bad_in [x]).
    { induction x as [|n| |l IH] using ditem_ind'; try discriminate; [constructor|]. change (flatten1 (ISeq l)) with (flatten l).
      intros E. apply bad_inside. induction IH as [|x l Hx IH IHl]; [discriminate|]. apply flatten_ok in E. destruct E as [E|E].
      - specialize (Hx E). inversion Hx; subst; [constructor|apply bad_inside; assumption|inversion H0].
      - apply bad_later, IHl, E. }
    induction l as [|x l IH]; [discriminate|]. intros E. apply flatten_ok in E. destruct E as [E|E].
    + specialize (H x E). inversion H; subst; [constructor|apply bad_inside; assumption|inversion H1].
    + apply bad_later, IH, E.
  - intros B. induction B as [r|l r B IH|x r B IH]; apply flatten_ok; [left; reflexivity|left; exact IH|right; exact IH].
Qed.

Lemma c24_total : forall l, ~ bad_in l -> exists ns, flatten l = Ok ns.
Proof.
  intros l H. destruct (flatten1_dec (ISeq l)) as [E|E]; [exact E|]. exfalso. apply H. apply c24_bad_items, E.
Qed.

Lemma c24_idempotent : forall l ns, flatten l = Ok ns -> flatten (map INode ns) = Ok ns.
Proof. intros l ns _. apply flatten_nodes. Qed.

Lemma c25_index : forall nodes i n, nth_error nodes i = Some n <-> getindex nodes i = Ok n.
Proof. intros nodes i n. unfold getindex. destruct (nth_error nodes i); split; congruence. Qed.

Lemma c25_index_error : forall nodes i, List.length nodes <= i <-> getindex nodes i = Raise IndexError.
Proof.
  intros nodes i. unfold getindex. rewrite <- nth_error_None. destruct (nth_error nodes i); split; try discriminate; reflexivity.
Qed.
Lemma c25_slice_contents : forall nodes a b, exists l, getslice nodes a b = [NList l] /\ forall i n, nth_error l i = Some n <-> i < b - a /\ nth_error nodes (a + i) = Some n.
Proof.
  intros nodes a b. eexists. split; [reflexivity|]. intros i n. generalize (b - a). intros c.
  assert (E : nth_error nodes (a + i) = nth_error (skipn a nodes) i).
  { clear. revert nodes. induction a as [|a IH]; intros nodes; [reflexivity|]. destruct nodes as [|x nodes]; [destruct i; reflexivity|]. exact (IH nodes). }
  rewrite E. generalize (skipn a nodes). clear. intros l. revert c l. induction i as [|i IH]; intros [|c] [|x l]; cbn; split.
  all: try (intros H; discriminate H). all: try (intros [? H]; discriminate H). all: try (intros [H _]; inversion H; fail).
  all: try (intros H; split; [lia|exact H]). all: try (intros [_ H]; exact H).
  - intros H. apply IH in H. split; [lia|apply H].
  - intros [H K]. apply IH. split; [lia|exact K].
Qed.
Lemma c25_slice_refuted :
  (exists nodes a b, dom_len (getslice nodes a b) <> List.length (firstn (b - a) (skipn a nodes))) /\
  (forall P fuel h nodes a b, items_render P fuel h (getslice nodes a b) = Exc AttributeError) /\
  (forall nodes a b, dom_len (getslice nodes a b) = 1).
Proof.
  split; [|split; reflexivity]. exists [7; 8; 9], 0, 2. discriminate.
Qed.
