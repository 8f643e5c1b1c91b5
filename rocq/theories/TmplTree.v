(** Proofs about templates: indentation of DOM trees. *)
From Coq Require Import List NArith ZArith Bool Lia Arith String.
From Verif Require Import PyStr PyStrFacts Html Indent IndentSpec PyDict Value Dom DomSpec DomFacts Ast Machine Translate
  RenderFacts IndentFacts PageSpec PageRender PageTree PageDoc OperSpec TmplSpec TmplRender.
Notation tree := DomSpec.tree.
Notation root := DomSpec.root.
Import ListNotations.
Local Open Scope list_scope.

(** What relative_indent does: [p] is taken off the indentation of the topmost nodes that have an absolute one. *)
Inductive moved (p : str) : shape -> shape -> Prop :=
| moved_none f ks ks' : n_indent f = None -> Forall2 (moved p) ks ks' -> moved p (Sh f ks) (Sh f ks')
| moved_rel f ks d : n_indent f = Some d -> absolute d = false -> moved p (Sh f ks) (Sh f ks)
| moved_abs f ks r : n_indent f = Some (p ++ r) -> moved p (Sh f ks) (Sh (with_indent f (Some r)) ks).

(** What set_indent does. *)
Inductive placed (p : str) : shape -> shape -> Prop :=
| placed_text f x ks : Dom.n_kind f = KText x -> placed p (Sh f ks) (Sh (with_indent f (Some p)) ks)
| placed_node f ks ks' : (forall x, Dom.n_kind f <> KText x) -> Forall2 (moved p) ks ks' -> placed p (Sh f ks) (Sh (with_indent f (Some p)) ks').

Definition shifts (p : str) (k : nat) (t : tree) : Prop :=
  forall s' h, repr h t -> NoDup (ids t) -> height t <= k -> moved p (erase t) s' ->
    exists h' t', relative_indent k p (root t) h = (Done tt, h') /\ repr h' t' /\ ids t' = ids t /\ root t' = root t /\ erase t' = s' /\ changed (ids t) h h'.

Lemma heights_cons_le t ts k : heights (t :: ts) <= k -> height t <= k /\ heights ts <= k.
Proof. unfold heights. cbn [map List.list_max fold_right]. change (fold_right Nat.max 0 ?l) with (List.list_max l). lia. Qed.

Lemma move_all p k ts : Forall (shifts p k) ts -> forall ss' h, Forall (repr h) ts -> NoDup (all_ids ts) -> heights ts <= k ->
  Forall2 (moved p) (map erase ts) ss' ->
  exists h' ts', hiter (relative_indent k p) (map root ts) h = (Done tt, h') /\ Forall (repr h') ts' /\ map root ts' = map root ts /\ all_ids ts' = all_ids ts /\
    map erase ts' = ss' /\ changed (all_ids ts) h h'.
Proof.
  intros F. induction F as [|t ts Ht F IH]; intros ss' h R ND HK Hs.
  - inversion Hs; subst. exists h, []. repeat split; constructor.
  - cbn [map] in Hs. inversion Hs as [|? s' ? ss2 M1 M2]; subst. inversion R as [|? ? R1 R2]; subst. change (all_ids (t :: ts)) with (ids t ++ all_ids ts) in *.
    apply NoDup_app_inv in ND. destruct ND as (N1 & N2 & D). apply heights_cons_le in HK. destruct HK as [K1 K2].
    destruct (Ht s' h R1 N1 K1 M1) as (h1 & t' & E1 & Rt & It & Rt' & Et & C1).
    assert (R2' : Forall (repr h1) ts). { apply repr_frames with h; [exact R2|]. intros i I. apply C1. intros J. exact (D i J I). }
    destruct (IH ss2 h1 R2' N2 K2 M2) as (h2 & ts' & E2 & R3 & Ro & I3 & Er & C2).
    exists h2, (t' :: ts'). cbn [map hiter]. unfold hbind. rewrite E1, E2. split; [reflexivity|]. split.
    + constructor; [|exact R3]. apply repr_frame with h1; [exact Rt|]. intros i I. apply C2. intros J. rewrite It in I. exact (D i I J).
    + rewrite Rt', Ro, Et, Er. split; [reflexivity|]. split; [change (all_ids (t' :: ts')) with (ids t' ++ all_ids ts'); rewrite It, I3; reflexivity|].
      split; [reflexivity|]. apply (changed_trans (ids t) (all_ids ts) _ h h1 h2 C1 C2); intros i I; apply in_or_app; [left|right]; exact I.
Qed.

Lemma move_one p : absolute p = true -> forall t k, shifts p k t.
Proof.
  intros Ap t. induction t as [i f ts IH] using tree_ind'. intros k s' h R ND HK Hs. destruct k as [|k]; [rewrite height_T in HK; lia|].
  rewrite height_T in HK. cbn [relative_indent root]. rewrite (repr_info _ _ _ _ R), (repr_body _ _ _ _ R). cbn [erase] in Hs.
  pose proof ND as ND0. cbn [ids] in ND. inversion ND as [|? ? Ni Nt]; subst.
  inversion Hs as [f0 ks ks' E0 F0|f0 ks d E0 A0|f0 ks r E0]; subst; rewrite E0.
  - assert (Fk : Forall (shifts p k) ts). { apply Forall_forall. intros t It. rewrite Forall_forall in IH. apply (IH t It). }
    destruct (move_all p k ts Fk ks' h (repr_kids _ _ _ _ R) Nt (le_S_n _ _ HK) F0) as (h' & ts' & E & R2 & Ro & I2 & Er & C2).
    exists h', (T i f ts'). split; [exact E|]. split; [apply repr_put_kids with h ts; [exact R|apply C2, Ni|exact Ro|exact R2]|].
    split; [cbn [ids]; unfold all_ids in I2; rewrite I2; reflexivity|]. split; [reflexivity|]. split; [cbn [erase]; rewrite Er; reflexivity|].
    destruct C2 as [C1 C2]. split; [exact C1|]. intros j J. apply C2. intros K. apply J. right. exact K.
  - rewrite A0. exists h, (T i f ts). split; [reflexivity|]. split; [exact R|]. repeat split.
  - assert (A : absolute (p ++ r) = true). { destruct p as [|c p]; [discriminate|]. exact Ap. }
    rewrite A, PyStrFacts.startswith_app, skipn_app_exact. exists (put_indent h i (Some r)), (T i (with_indent f (Some r)) ts).
    split; [reflexivity|]. split; [apply put_indent_repr; assumption|].
    repeat split; try reflexivity; [apply upd_length|]. intros j J. apply (put_indent_changed h i (Some r)). intros [<-|[]]. apply J. left. reflexivity.
Qed.

Lemma place_one p k t : absolute p = true -> forall s' h, repr h t -> NoDup (ids t) -> height t <= S k -> placed p (erase t) s' ->
  exists h' t', set_indent k (Some p) (root t) h = (Done tt, h') /\ repr h' t' /\ ids t' = ids t /\ root t' = root t /\ erase t' = s' /\ changed (ids t) h h'.
Proof.
  intros Ap s' h R0 N HK Hs. destruct t as [i f ts]. cbn [ids] in N. inversion N as [|? ? Ni Nt]; subst. rewrite height_T in HK.
  pose proof (put_indent_repr h i f ts (Some p) R0 Ni) as R1. cbn [erase] in Hs. cbn [root].
  assert (CI : changed (ids (T i f ts)) h (put_indent h i (Some p))).
  { destruct (put_indent_changed h i (Some p)) as [C1 C2]. split; [exact C1|]. intros j J. apply C2. intros [<-|[]]. apply J. left. reflexivity. }
  inversion Hs as [f0 x ks E0|f0 ks ks' E0 F0]; subst.
  - exists (put_indent h i (Some p)), (T i (with_indent f (Some p)) ts). split; [|split; [exact R1|repeat split; apply CI]].
    unfold set_indent. rewrite (repr_info _ _ _ _ R1). cbn [with_indent Dom.n_kind]. rewrite E0. reflexivity.
  - assert (Fk : Forall (shifts p k) ts). { apply Forall_forall. intros t It. apply move_one, Ap. }
    destruct (move_all p k ts Fk ks' (put_indent h i (Some p)) (repr_kids _ _ _ _ R1) Nt (le_S_n _ _ HK) F0) as (h2 & ts' & E & R2 & Ro & I2 & Er & C2).
    exists h2, (T i (with_indent f (Some p)) ts'). split; [|split; [|split; [|split; [reflexivity|split]]]].
    + unfold set_indent. rewrite (repr_info _ _ _ _ R1), (repr_body _ _ _ _ R1). cbn [with_indent Dom.n_kind].
      destruct (Dom.n_kind f) as [| |x]; [exact E|exact E|destruct (E0 x eq_refl)].
    + apply repr_put_kids with (put_indent h i (Some p)) ts; [exact R1|apply C2, Ni|exact Ro|exact R2].
    + cbn [ids]. unfold all_ids in I2. rewrite I2. reflexivity.
    + cbn [erase]. rewrite Er. reflexivity.
    + apply (changed_trans [i] (all_ids ts) _ h (put_indent h i (Some p)) h2 (put_indent_changed _ _ _) C2).
      * intros j [<-|[]]. left. reflexivity.
      * intros j J. right. exact J.
Qed.

Lemma place_list p k ts : absolute p = true -> forall ss' h, Forall (repr h) ts -> NoDup (all_ids ts) -> heights ts <= S k ->
  Forall2 (placed p) (map erase ts) ss' ->
  exists h' ts', dom_set_indent k (Some p) (map root ts) h = (Done tt, h') /\ Forall (repr h') ts' /\ map root ts' = map root ts /\ all_ids ts' = all_ids ts /\
    map erase ts' = ss' /\ changed (all_ids ts) h h'.
Proof.
  intros Ap. unfold dom_set_indent. induction ts as [|t ts IH]; intros ss' h R ND HK Hs.
  - inversion Hs; subst. exists h, []. repeat split; constructor.
  - cbn [map] in Hs. inversion Hs as [|? s' ? ss2 M1 M2]; subst. inversion R as [|? ? R1 R2]; subst. change (all_ids (t :: ts)) with (ids t ++ all_ids ts) in *.
    apply NoDup_app_inv in ND. destruct ND as (N1 & N2 & D). apply heights_cons_le in HK. destruct HK as [K1 K2].
    destruct (place_one p k t Ap s' h R1 N1 K1 M1) as (h1 & t' & E1 & Rt & It & Rt' & Et & C1).
    assert (R2' : Forall (repr h1) ts). { apply repr_frames with h; [exact R2|]. intros i I. apply C1. intros J. exact (D i J I). }
    destruct (IH ss2 h1 R2' N2 K2 M2) as (h2 & ts' & E2 & R3 & Ro & I3 & Er & C2).
    exists h2, (t' :: ts'). cbn [map hiter]. unfold hbind. rewrite E1, E2. split; [reflexivity|]. split.
    + constructor; [|exact R3]. apply repr_frame with h1; [exact Rt|]. intros i I. apply C2. intros J. rewrite It in I. exact (D i I J).
    + rewrite Rt', Ro, Et, Er. split; [reflexivity|]. split; [change (all_ids (t' :: ts')) with (ids t' ++ all_ids ts'); rewrite It, I3; reflexivity|].
      split; [reflexivity|]. apply (changed_trans (ids t) (all_ids ts) _ h h1 h2 C1 C2); intros i I; apply in_or_app; [left|right]; exact I.
Qed.

Lemma heights_heap h ts : Forall (repr h) ts -> NoDup (all_ids ts) -> heights ts <= List.length h.
Proof.
  induction ts as [|t ts IH]; intros R N; [cbn; lia|]. inversion R; subst. change (all_ids (t :: ts)) with (ids t ++ all_ids ts) in N.
  apply NoDup_app_inv in N. destruct N as (N1 & N2 & _). pose proof (height_heap h t ltac:(assumption) N1). pose proof (IH ltac:(assumption) N2).
  unfold heights in *. cbn [map List.list_max fold_right]. change (fold_right Nat.max 0 ?l) with (List.list_max l). lia.
Qed.

(** [ts] are trees of [h'], made of new nodes and of nodes [A] of [h]; other nodes of [h] are unchanged. *)
Definition took (A : list nid) (h h' : heap) (ts : list tree) : Prop :=
  List.length h <= List.length h' /\ (forall i, i < List.length h -> ~ In i A -> nth_error h' i = nth_error h i) /\
  Forall (repr h') ts /\ NoDup (all_ids ts) /\ (forall i, In i (all_ids ts) -> List.length h <= i \/ In i A).
(** Other nodes stay as they were, whatever was built. *)
Definition spared (A : list nid) (h h' : heap) : Prop :=
  List.length h <= List.length h' /\ (forall i, i < List.length h -> ~ In i A -> nth_error h' i = nth_error h i).
Lemma took_spared A h h' ts : took A h h' ts -> spared A h h'.
Proof. intros (L & O & _). split; assumption. Qed.
Lemma spared_refl A h : spared A h h.
Proof. split; [lia|reflexivity]. Qed.
Lemma spared_trans A B h h1 h2 : spared A h h1 -> spared B h1 h2 -> (forall i, In i B -> i < List.length h -> In i A) -> spared A h h2.
Proof.
  intros [L1 O1] [L2 O2] I. split; [lia|]. intros i Hi Ni. rewrite O2, O1; [reflexivity|exact Hi|exact Ni|lia|]. intros J. exact (Ni (I i J Hi)).
Qed.
Lemma spared_incl A B h h' : spared A h h' -> incl A B -> spared B h h'.
Proof. intros [L O] I. split; [exact L|]. intros i Hi Ni. apply O; [exact Hi|]. intros J. exact (Ni (I i J)). Qed.
Lemma took_grown h h' ts : took [] h h' ts <-> grown h h' ts.
Proof.
  split; intros (L & O & R & N & I); (split; [exact L|split; [|split; [exact R|split; [exact N|]]]]).
  - intros i Hi. apply O; [exact Hi|intros []].
  - intros i Hi. destruct (I i Hi) as [|[]]. assumption.
  - intros i Hi _. apply O, Hi.
  - intros i Hi. left. apply I, Hi.
Qed.
Lemma took_incl A B h h' ts : took A h h' ts -> incl A B -> took B h h' ts.
Proof.
  intros (L & O & R & N & I) J. split; [exact L|split; [|split; [exact R|split; [exact N|]]]].
  - intros i Hi Ni. apply O; [exact Hi|]. intros K. apply Ni, J, K.
  - intros i Hi. destruct (I i Hi) as [K|K]; [left; exact K|right; apply J, K].
Qed.
Lemma grown_took A h h' ts : grown h h' ts -> took A h h' ts.
Proof. intros G. apply took_grown in G. apply (took_incl [] A _ _ _ G). intros i []. Qed.
Lemma took_app A B h h1 h2 a b : took A h h1 a -> took B h1 h2 b -> (forall i, In i B -> i < List.length h /\ ~ In i A) -> took (A ++ B) h h2 (a ++ b).
Proof.
  intros (L1 & O1 & R1 & N1 & I1) (L2 & O2 & R2 & N2 & I2) D.
  assert (Na : forall i, In i (all_ids a) -> ~ In i B).
  { intros i J K. destruct (D i K) as [K1 K2]. destruct (I1 i J) as [Z|Z]; [lia|exact (K2 Z)]. }
  split; [lia|]. split.
  { intros i Hi Ni. rewrite O2, O1; [reflexivity|exact Hi| |lia|]; intros K; apply Ni, in_or_app; [left|right]; exact K. }
  split.
  - apply Forall_app. split; [|exact R2]. apply repr_frames with h1; [exact R1|]. intros i Hi. apply O2; [apply (reprs_lt h1 a R1 i Hi)|exact (Na i Hi)].
  - rewrite all_ids_app. split.
    + apply NoDup_app'; [exact N1|exact N2|]. intros i Ha Hb. destruct (I2 i Hb) as [Z|Z]; [pose proof (reprs_lt h1 a R1 i Ha); lia|exact (Na i Ha Z)].
    + intros i Hi. apply in_app_or in Hi. destruct Hi as [Hi|Hi].
      * destruct (I1 i Hi) as [Z|Z]; [left; exact Z|right; apply in_or_app; left; exact Z].
      * destruct (I2 i Hi) as [Z|Z]; [left; lia|right; apply in_or_app; right; exact Z].
Qed.
(** The second step uses the trees of the first one. *)
Lemma took_on A h h1 h2 a b : took A h h1 a -> took (all_ids a) h1 h2 b -> took A h h2 b.
Proof.
  intros (L1 & O1 & R1 & N1 & I1) (L2 & O2 & R2 & N2 & I2). split; [lia|]. split; [|split; [exact R2|split; [exact N2|]]].
  - intros i Hi Ni. rewrite O2, O1; [reflexivity|exact Hi|exact Ni|lia|]. intros K. destruct (I1 i K) as [Z|Z]; [lia|exact (Ni Z)].
  - intros i Hi. destruct (I2 i Hi) as [Z|Z]; [left; lia|exact (I1 i Z)].
Qed.
Lemma took_after A h h1 h2 ts : spared A h h1 -> took [] h1 h2 ts -> took A h h2 ts.
Proof.
  intros [L1 O1] (L2 & O2 & R2 & N2 & I2). split; [lia|]. split; [|split; [exact R2|split; [exact N2|]]].
  - intros i Hi Ni. rewrite O2, O1; [reflexivity|exact Hi|exact Ni|lia|intros []].
  - intros i Hi. destruct (I2 i Hi) as [Z|[]]. left. lia.
Qed.
Lemma took_self h ts : Forall (repr h) ts -> NoDup (all_ids ts) -> took (all_ids ts) h h ts.
Proof. intros R N. split; [lia|]. split; [reflexivity|]. split; [exact R|]. split; [exact N|]. intros i Hi. right. exact Hi. Qed.
Lemma took_changed A h h1 h2 ts ts' : took A h h1 ts -> changed (all_ids ts) h1 h2 -> Forall (repr h2) ts' -> all_ids ts' = all_ids ts -> took A h h2 ts'.
Proof.
  intros (L1 & O1 & R1 & N1 & I1) [C1 C2] R E. split; [lia|]. split.
  - intros i Hi Ni. rewrite C2; [apply O1; assumption|]. intros J. destruct (I1 i J) as [Z|Z]; [lia|exact (Ni Z)].
  - split; [exact R|]. rewrite E. split; assumption.
Qed.
Lemma took_node A h h1 ts f : took A h h1 ts -> took A h (h1 ++ [{| c_info := f; c_body := map root ts |}]) [T (List.length h1) f ts].
Proof.
  intros (L1 & O1 & R1 & N1 & I1). split; [rewrite app_length; lia|]. split.
  - intros i Hi Ni. rewrite nth_error_app1 by lia. apply O1; assumption.
  - split; [|split].
    + constructor; [|constructor]. constructor; [|apply reprs_app, R1]. rewrite nth_error_app2 by lia. rewrite Nat.sub_diag. reflexivity.
    + cbn. rewrite app_nil_r. constructor; [|exact N1]. intros J. apply (reprs_lt h1 ts R1) in J. lia.
    + cbn. rewrite app_nil_r. intros i [<-|J]; [left; exact L1|exact (I1 i J)].
Qed.
Definition outline_tree (o : bool) (t : tree) : tree := match t with T i f ts => T i (with_outline f o) ts end.
Lemma took_outline A o h h1 t ts : took A h h1 (t :: ts) -> took A h (set_outline h1 (root t) o) (outline_tree o t :: ts).
Proof.
  intros G. assert (R := G). destruct R as (_ & _ & R & N & _). inversion R as [|? ? R0 R1]; subst. destruct t as [i f ks]. cbn [root outline_tree].
  change (all_ids (T i f ks :: ts)) with ((i :: all_ids ks) ++ all_ids ts) in N. apply NoDup_app_inv in N. destruct N as (N1 & N2 & D).
  inversion N1 as [|? ? Ni _]; subst.
  eapply took_changed; [exact G| | |].
  - split; [apply upd_length|]. intros j Hj. apply upd_other. intros ->. apply Hj. left. reflexivity.
  - unfold set_outline. rewrite (repr_info _ _ _ _ R0), (repr_body _ _ _ _ R0).
    pose proof (repr_lt _ _ R0 i (or_introl eq_refl)) as Lt. constructor.
    + constructor; [apply upd_same; exact Lt|]. apply repr_inv in R0. destruct R0 as [_ Rk]. apply repr_frames with h1; [exact Rk|]. intros j J. apply upd_other. intros ->. exact (Ni J).
    + apply repr_frames with h1; [exact R1|]. intros j J. apply upd_other. intros ->. exact (D _ (or_introl eq_refl) J).
  - reflexivity.
Qed.
(** body.set_indent(p) *)
Lemma took_place A p h h1 ts ss' : absolute p = true -> took A h h1 ts -> Forall2 (placed p) (map erase ts) ss' ->
  exists h2 ts', dom_set_indent (depth_bound h1) (Some p) (map root ts) h1 = (Done tt, h2) /\ took A h h2 ts' /\ map root ts' = map root ts /\ map erase ts' = ss'.
Proof.
  intros Ap G Hs. pose proof G as (L & O & R & N & I).
  destruct (place_list p (depth_bound h1) ts Ap ss' h1 R N) as (h2 & ts' & E & R2 & Ro & I2 & Er & C2); [|exact Hs|].
  { unfold depth_bound. pose proof (heights_heap h1 ts R N). lia. }
  exists h2, ts'. split; [exact E|]. split; [|split; assumption]. apply took_changed with h1 ts; assumption.
Qed.

Lemma new_root_moved h ts h0 kids : grown h0 h ts -> Forall2 (moved [NL]) (map erase ts) kids ->
  exists i h' ts', new_root (depth_bound h) (map root ts) h = (Done i, h') /\ repr h' (T i (with_indent root_info (Some [])) ts') /\ map erase ts' = kids /\
    NoDup (ids (T i (with_indent root_info (Some [])) ts')).
Proof.
  intros G Hs. pose proof (grown_node _ _ _ root_info G) as G1. set (i := List.length h) in *. set (h1 := h ++ _) in G1.
  pose proof G1 as (_ & _ & R & N & _). inversion R as [|? ? R0 _]; subst. unfold all_ids in N. cbn [flat_map] in N. rewrite app_nil_r in N.
  destruct (place_one [NL] (depth_bound h) (T i root_info ts) eq_refl (Sh (with_indent root_info (Some [NL])) kids) h1 R0 N) as (h2 & t' & E & R2 & I2 & Ro & Er & C2).
  { pose proof (height_heap _ _ R0 N) as HH. unfold h1 in HH. rewrite app_length in HH. cbn [List.length] in HH. unfold depth_bound. lia. }
  { cbn [erase]. constructor; [discriminate|exact Hs]. }
  destruct t' as [i' f' ts']. cbn [root] in Ro. subst i'. cbn [erase] in Er. injection Er as -> Er.
  exists i, (put_indent h2 i (Some [])), ts'. rewrite <- I2 in N. cbn [ids] in N. inversion N; subst. split; [|split; [|split]].
  - unfold new_root, hbind, new_node, hbind. change (with_indent root_info None) with root_info. fold h1. fold i. cbn [root] in E. rewrite E. reflexivity.
  - apply (put_indent_repr h2 i _ ts' (Some [])) in R2; [exact R2|assumption].
  - reflexivity.
  - exact N.
Qed.

Section Draw.
  Variable known : str -> option bool.
  Variable R : rprims.
  Variable tag_of : str -> tag.
  Notation drawn := (drawn known R tag_of).
  Notation draws := (draws known R tag_of).
  Notation chained := (chained R tag_of).
  Notation tag_node := (tag_node R tag_of).

  (** Nodes with relative indentation stay. *)
  Lemma mgn_still q p m mg : mgn q m mg -> absolute q = false -> Forall2 (moved p) mg mg.
  Proof.
    intros H A. destruct m; cbn [mgn] in H; [subst; constructor|]. destruct H as (ind & [-> | ->] & ->); constructor; [|constructor| |constructor].
    - apply moved_none; [reflexivity|constructor].
    - apply moved_rel with q; [reflexivity|exact A].
  Qed.
  Lemma draws_still p w l ss : draws w l ss -> absolute w = false -> Forall2 (moved p) ss ss.
  Proof.
    intros H A. induction H as [|w e l a r He H IH]; [constructor|]. apply Forall2_app; [|apply IH, A]. clear IH H.
    inversion He; subst; try (apply Forall2_app; [eapply mgn_still; eassumption|]); try (eapply mgn_still; eassumption);
      (constructor; [|constructor]); apply moved_rel with w; try exact A; reflexivity.
  Qed.
  Lemma chained_moved p ss ss' g s' : chained ss g s' -> Forall2 (moved p) ss ss' -> exists s2, Forall2 (moved p) s' s2 /\ chained ss' g s2.
  Proof.
    intros H M. induction H as [|t g f s' Hf H (s2 & M2 & C2)]; [exists ss'; split; [exact M|constructor]|].
    exists [Sh f s2]. split; [|constructor; assumption]. constructor; [|constructor]. apply moved_none; [|exact M2]. destruct Hf as (kw & -> & _). reflexivity.
  Qed.
  Lemma chained_still p ss g s' : chained ss g s' -> Forall2 (moved p) ss ss -> Forall2 (moved p) s' s'.
  Proof.
    intros H M. induction H as [|t g f s' Hf H IH]; [exact M|]. constructor; [|constructor]. apply moved_none; [|exact IH]. destruct Hf as (kw & -> & _). reflexivity.
  Qed.

  Lemma mgn_moved p w m mg : mgn (p ++ w) m mg -> exists mg', Forall2 (moved p) mg mg' /\ mgn w m mg'.
  Proof.
    intros H. destruct m; cbn [mgn] in *; [subst; exists []; split; [constructor|reflexivity]|]. destruct H as (ind & [-> | ->] & ->).
    - eexists. split; [|eexists; split; [left; reflexivity|reflexivity]]. constructor; [|constructor]. apply moved_none; [reflexivity|constructor].
    - eexists. split; [|eexists; split; [right; reflexivity|reflexivity]]. constructor; [|constructor].
      apply (moved_abs p (with_indent (text_info _) (Some (p ++ w))) [] w). reflexivity.
  Qed.
  Lemma unlined_moved p ss ss' : Forall2 (moved p) ss ss' -> Forall2 (moved p) (unlined ss) (unlined ss').
  Proof.
    intros H. destruct ss as [|[f ks] r]; [inversion H; constructor|]. inversion H as [|? s2 ? ? M H2]; subst. destruct s2 as [f2 k2]. constructor; [|exact H2].
    inversion M as [f0 a b E F|f0 a d E A|f0 a r0 E F]; subst.
    - apply moved_none; [exact E|assumption].
    - apply moved_rel with d; [exact E|assumption].
    - apply (moved_abs p (with_outline f false) k2 r0). exact E.
  Qed.
  Lemma unlined_still p ss : Forall2 (moved p) ss ss -> Forall2 (moved p) (unlined ss) (unlined ss).
  Proof. apply unlined_moved. Qed.
  (** The new position of a block in a tag. *)
  Lemma moved_draws p w l : forall ss, draws (p ++ w) l ss -> exists ss', Forall2 (moved p) ss ss' /\ draws w l ss'.
  Proof.
    induction l as [|e l IH]; intros ss H; inversion H as [|? ? ? a r He Hl]; subst; [exists []; split; [constructor|constructor]|].
    destruct (IH r Hl) as (r' & M & D).
    assert (X : exists a', Forall2 (moved p) a a' /\ drawn w e a').
    { inversion He as [? m x mg Hm|? m mg Hm|? m t g c v mg ss s' f Hm Hk Hg Hs Hf Hch|? m t g w0 kids mg ss s' f Hm Hk Hg Hw Hd Hf Hch|? m kids mg ss f Hm Hd Hc Hf]; subst;
        destruct (mgn_moved p w m _ Hm) as (mg' & M1 & D1).
      - eexists. split; [|constructor; exact D1]. apply Forall2_app; [exact M1|]. constructor; [|constructor].
        apply (moved_abs p (with_indent (with_outline (text_info x) true) (Some (p ++ w))) [] w). reflexivity.
      - eexists. split; [exact M1|constructor; exact D1].
      - eexists. split; [|eapply drawn_leaf; eassumption]. apply Forall2_app; [exact M1|]. constructor; [|constructor].
        apply (moved_abs p (with_indent (with_outline f true) (Some (p ++ w))) s' w). reflexivity.
      - eexists. split; [|eapply drawn_node; eassumption]. apply Forall2_app; [exact M1|]. constructor; [|constructor].
        apply (moved_abs p (with_indent (with_outline f true) (Some (p ++ w))) s' w). reflexivity.
      - eexists. split; [|eapply drawn_hyper; eassumption]. apply Forall2_app; [exact M1|]. constructor; [|constructor].
        apply (moved_abs p (with_indent (with_outline f true) (Some (p ++ w))) (unlined ss) w). reflexivity. }
    destruct X as (a' & M1 & D1). exists (a' ++ r'). split; [apply Forall2_app; assumption|constructor; assumption].
  Qed.

  Lemma mgn_placed p q m mg : mgn q m mg -> exists mg', Forall2 (placed p) mg mg' /\ mgn p m mg'.
  Proof.
    intros H. destruct m; cbn [mgn] in *; [subst; exists []; split; [constructor|reflexivity]|]. destruct H as (ind & _ & ->).
    eexists. split; [|eexists; split; [right; reflexivity|reflexivity]]. constructor; [|constructor]. exact (placed_text p (with_indent (text_info (repeatc NL (S m))) ind) _ [] eq_refl).
  Qed.
  Lemma tag_node_kind t f : tag_node t f -> forall x, Dom.n_kind f <> KText x.
  Proof. intros (kw & -> & _). discriminate. Qed.
  (** The new position of a control block. *)
  Lemma placed_draws p q l : forall ss, draws q l ss -> exists ss', Forall2 (placed p) ss ss' /\ draws p l ss'.
  Proof.
    induction l as [|e l IH]; intros ss H; inversion H as [|? ? ? a r He Hl]; subst; [exists []; split; [constructor|constructor]|].
    destruct (IH r Hl) as (r' & M & D).
    assert (X : exists a', Forall2 (placed p) a a' /\ drawn p e a').
    { inversion He as [? m x mg Hm|? m mg Hm|? m t g c v mg ss s' f Hm Hk Hg Hs Hf Hch|? m t g w0 kids mg ss s' f Hm Hk Hg Hw Hd Hf Hch|? m kids mg ss f Hm Hd Hc Hf]; subst;
        destruct (mgn_placed p q m _ Hm) as (mg' & M1 & D1).
      - eexists. split; [|constructor; exact D1]. apply Forall2_app; [exact M1|]. constructor; [|constructor].
        apply (placed_text p (with_indent (with_outline (text_info x) true) (Some q)) x []). reflexivity.
      - eexists. split; [exact M1|constructor; exact D1].
      - eexists. split; [|eapply drawn_leaf; eassumption]. apply Forall2_app; [exact M1|]. constructor; [|constructor].
        apply (placed_node p (with_indent (with_outline f true) (Some q)) s' s'); [exact (tag_node_kind _ _ Hf)|].
        apply (chained_still p ss g s' Hch). destruct Hs as [[-> _]|[_ ->]]; [constructor|]. constructor; [|constructor]. apply moved_rel with []; reflexivity.
      - eexists. split; [|eapply drawn_node; eassumption]. apply Forall2_app; [exact M1|]. constructor; [|constructor].
        apply (placed_node p (with_indent (with_outline f true) (Some q)) s' s'); [exact (tag_node_kind _ _ Hf)|].
        apply (chained_still p ss g s' Hch). apply (draws_still p w0 kids ss Hd). apply not_absolute, Hw.
      - eexists. split; [|eapply drawn_hyper; eassumption]. apply Forall2_app; [exact M1|]. constructor; [|constructor].
        apply (placed_node p (with_indent (with_outline f true) (Some q)) (unlined ss) (unlined ss)); [destruct Hf as (d & n & kw & ->); discriminate|].
        apply unlined_still, (draws_still p [] kids ss Hd). reflexivity. }
    destruct X as (a' & M1 & D1). exists (a' ++ r'). split; [apply Forall2_app; assumption|constructor; assumption].
  Qed.

  (** ** The first node *)

  (** Marks the first node as block-level. *)
  Definition outlined (ss : list shape) : list shape :=
    match ss with [] => [] | Sh f ks :: r => Sh (with_outline f true) ks :: r end.
  Lemma calm_app a b : calm_elems a -> calm_elems b -> calm_elems (a ++ b).
  Proof. intros Ha Hb. induction a as [|e a IH]; [exact Hb|]. destruct e; cbn [app calm_elems] in *; try exact Ha. destruct Ha as [-> Ha]. split; [reflexivity|exact (IH Ha)]. Qed.
  Lemma calm_outlined p l : forall ss, draws p l ss -> calm_elems l -> outlined ss = ss.
  Proof.
    induction l as [|e l IH]; intros ss H C; inversion H as [|? ? ? a r He Hl]; subst; [reflexivity|].
    inversion He as [? m x mg Hm|? m mg Hm|? m t g c v mg ss s' f Hm Hk Hg Hs Hf Hch|? m t g w0 kids mg ss s' f Hm Hk Hg Hw Hd Hf Hch|? m kids mg ss f Hm Hd Hc Hf]; subst;
      cbn [calm_elems] in C; try (subst m; cbn [mgn] in Hm; subst mg; reflexivity).
    destruct C as [-> C]. cbn [mgn] in Hm. subst a. exact (IH r Hl C).
  Qed.
  Lemma placed_outlined p ss s2 : Forall2 (placed p) (outlined ss) s2 -> exists ss', Forall2 (placed p) ss ss' /\ outlined ss' = s2.
  Proof.
    intros H. destruct ss as [|[f ks] r]; [inversion H; exists []; split; constructor|]. cbn [outlined] in H. inversion H as [|? z ? zs M H2]; subst.
    inversion M as [f0 x a E|f0 a b E F]; subst.
    - exists (Sh (with_indent f (Some p)) ks :: zs). split; [|reflexivity]. constructor; [exact (placed_text p f x ks E)|exact H2].
    - exists (Sh (with_indent f (Some p)) b :: zs). split; [|reflexivity]. constructor; [exact (placed_node p f ks b E F)|exact H2].
  Qed.
End Draw.
