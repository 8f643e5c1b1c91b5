(** Proofs about add_indent, get_indent, del_indent and text_layout. *)
From Coq Require Import List NArith Bool Lia Arith.
From Verif Require Import PyStr PyStrFacts Indent IndentSpec.
Import ListNotations.
Local Open Scope N_scope.

(** ** add_indent *)

(** [j ls] joins lines; every text is a join of its lines. *)
Lemma join_lines t : join [NL] (lines t) = t.
Proof. apply join_split. Qed.

Lemma lines_cons t : exists h ls, lines t = h :: ls.
Proof. destruct (lines t) eqn:E; [destruct (split_not_nil NL t E)|eauto]. Qed.

Lemma lines_no_NL t l : In l (lines t) -> ~ In NL l.
Proof. intros H. eapply split_no_sep; eauto. Qed.

Lemma add_indent_go_head i l r : ~ In NL l -> add_indent_go i (l ++ r) = l ++ add_indent_go i r.
Proof.
  induction l as [|c l IH]; intros H; [reflexivity|]. simpl.
  destruct (N.eqb_spec c NL) as [->|Hc]; [exfalso; apply H; left; auto|].
  rewrite IH; auto. intros Hi; apply H; right; auto.
Qed.

Lemma add_indent_go_lines i ls h : (forall l, In l (h :: ls) -> ~ In NL l) ->
  add_indent_go i (join [NL] (h :: ls)) = join [NL] (h :: map (indent_line i) ls).
Proof.
  revert h; induction ls as [|l ls IH]; intros h H.
  - simpl. rewrite <- (app_nil_r h) at 1. rewrite add_indent_go_head; [now rewrite app_nil_r|].
    apply H; left; auto.
  - rewrite join_cons by discriminate. rewrite add_indent_go_head by (apply H; left; auto).
    cbn [map]. rewrite (join_cons [NL] h (indent_line i l :: _)) by discriminate. f_equal.
    assert (IH' := IH l (fun x Hx => H x (or_intror Hx))).
    change ([NL] ++ join [NL] (l :: ls)) with (NL :: join [NL] (l :: ls)).
    cbn [add_indent_go]. rewrite N.eqb_refl.
    destruct l as [|c l].
    + destruct ls as [|l' ls]; [reflexivity|].
      cbn [indent_line].
      change (join [NL] ([] :: l' :: ls)) with (NL :: join [NL] (l' :: ls)) in *.
      cbv iota beta. rewrite N.eqb_refl. rewrite IH'. reflexivity.
    + assert (Hc : c <> NL).
      { intros ->. apply (H (NL :: l)); [right; left; auto|left; auto]. }
      assert (E : exists r, join [NL] ((c :: l) :: ls) = c :: r).
      { destruct ls; [eexists; reflexivity|]. rewrite join_cons by discriminate. eexists; reflexivity. }
      destruct E as [r E]. rewrite E in *. cbn [app].
      apply N.eqb_neq in Hc. rewrite Hc. rewrite IH'. cbn [indent_line].
      destruct ls as [|l' ls]; [simpl; now rewrite ?app_nil_r|].
      cbn [map]. rewrite (join_cons [NL] (c :: l)), (join_cons [NL] (i ++ c :: l)) by discriminate.
      now rewrite <- !app_assoc.
Qed.

Lemma add_indent_lines t i h ls : lines t = h :: ls ->
  add_indent t i = join [NL] (h :: map (indent_line i) ls).
Proof.
  intros E. unfold add_indent. destruct i as [|c i].
  - replace (map (indent_line []) ls) with ls.
    + rewrite <- E. symmetry. apply join_lines.
    + clear E. induction ls as [|[|x l] ls IH]; simpl; congruence.
  - rewrite <- (join_lines t) at 1. rewrite E. apply add_indent_go_lines.
    intros l H. eapply lines_no_NL. rewrite E. exact H.
Qed.

Lemma lines_join ls : ls <> [] -> (forall l, In l ls -> ~ In NL l) -> lines (join [NL] ls) = ls.
Proof. intros H1 H2. apply split_join; auto. Qed.

Lemma indent_line_no_NL i l : ~ In NL i -> ~ In NL l -> ~ In NL (indent_line i l).
Proof. intros Hi Hl. destruct l; [exact Hl|]. cbn [indent_line]. rewrite in_app_iff. tauto. Qed.

Lemma lines_add_indent t i h ls : ~ In NL i -> lines t = h :: ls ->
  lines (add_indent t i) = h :: map (indent_line i) ls.
Proof.
  intros Hi E. rewrite (add_indent_lines t i h ls E). apply lines_join; [discriminate|].
  intros l [<-|H].
  - eapply lines_no_NL. rewrite E. left; auto.
  - apply in_map_iff in H as [x [<- Hx]]. apply indent_line_no_NL; auto.
    eapply lines_no_NL. rewrite E. right; eauto.
Qed.

Lemma indent_line_app i1 i2 l : indent_line i1 (indent_line i2 l) = indent_line (i1 ++ i2) l.
Proof. destruct l as [|c l]; [reflexivity|]. cbn [indent_line]. destruct i2; simpl; rewrite <- ?app_assoc; auto. Qed.

Lemma add_indent_add_indent t i1 i2 : ~ In NL i2 ->
  add_indent (add_indent t i2) i1 = add_indent t (i1 ++ i2).
Proof.
  intros H. destruct (lines_cons t) as [h [ls E]].
  rewrite (add_indent_lines (add_indent t i2) i1 h (map (indent_line i2) ls)).
  - rewrite (add_indent_lines t (i1 ++ i2) h ls E). f_equal. f_equal.
    rewrite map_map. apply map_ext. intros l. apply indent_line_app.
  - now apply lines_add_indent.
Qed.

Lemma add_indent_nil t : add_indent t [] = t.
Proof. reflexivity. Qed.

Lemma add_indent_fold t is : (forall i, In i is -> ~ In NL i) ->
  fold_right (fun i t => add_indent t i) t is = add_indent t (List.concat is).
Proof.
  induction is as [|i is IH]; intros H; [reflexivity|]. simpl.
  rewrite IH by (intros; apply H; right; auto).
  apply add_indent_add_indent. clear IH.
  assert (H' : forall i0, In i0 is -> ~ In NL i0) by (intros; apply H; right; auto). clear H.
  induction is as [|j is IH]; simpl; [auto|]. rewrite in_app_iff. intros [H|H].
  - apply (H' j); auto. left; auto.
  - apply IH; auto. intros; apply H'; right; auto.
Qed.

(** ** get_indent *)

(** All heads equal to [c]. *)
Definition uniform (col : list char) : Prop := forall x, In x col -> x = hd 0 col.

Lemma fold_min_le r x : fold_left N.min r x <= x.
Proof.
  revert x; induction r as [|y r IH]; intros x; simpl; [lia|].
  specialize (IH (N.min x y)). lia.
Qed.
Lemma fold_max_ge r x : x <= fold_left N.max r x.
Proof.
  revert x; induction r as [|y r IH]; intros x; simpl; [lia|].
  specialize (IH (N.max x y)). lia.
Qed.
Lemma fold_min_in r x y : In y r -> fold_left N.min r x <= y.
Proof.
  revert x; induction r as [|z r IH]; intros x; simpl; [tauto|]. intros [->|H].
  - pose proof (fold_min_le r (N.min x y)). lia.
  - auto.
Qed.
Lemma fold_max_in r x y : In y r -> y <= fold_left N.max r x.
Proof.
  revert x; induction r as [|z r IH]; intros x; simpl; [tauto|]. intros [->|H].
  - pose proof (fold_max_ge r (N.max x y)). lia.
  - auto.
Qed.
Lemma fold_min_const r x : (forall y, In y r -> y = x) -> fold_left N.min r x = x.
Proof.
  intros H; induction r as [|y r IH]; simpl; auto. rewrite (H y) by (left; auto).
  rewrite N.min_id. apply IH. intros; apply H; right; auto.
Qed.
Lemma fold_max_const r x : (forall y, In y r -> y = x) -> fold_left N.max r x = x.
Proof.
  intros H; induction r as [|y r IH]; simpl; auto. rewrite (H y) by (left; auto).
  rewrite N.max_id. apply IH. intros; apply H; right; auto.
Qed.

Lemma min_max_uniform col : (list_min col =? list_max col) = true <-> uniform col.
Proof.
  destruct col as [|x r]; [split; [intros _ y []|reflexivity]|].
  rewrite N.eqb_eq. unfold list_min, list_max, uniform. simpl hd. split.
  - intros E y [->|H]; [reflexivity|].
    pose proof (fold_min_le r x). pose proof (fold_max_ge r x).
    pose proof (fold_min_in r x y H). pose proof (fold_max_in r x y H). lia.
  - intros H. rewrite fold_min_const, fold_max_const; auto; intros; apply H; right; auto.
Qed.

Definition col_ok (col : list char) : bool :=
  is_space (hd 0 col) && (list_min col =? list_max col).

(** Longest common whitespace prefix of the lines, at most n characters. *)
Fixpoint lcp (n : nat) (ls : list str) : str :=
  match n with
  | O => []
  | S k => let col := map (fun l => hd 0 l) ls in
           if col_ok col then hd 0 col :: lcp k (map (@tl char) ls) else []
  end.

Lemma stop_col_shift cols i :
  stop_col cols i = match stop_col cols 0 with Some j => Some (i + j)%nat | None => None end.
Proof.
  revert i; induction cols as [|c r IH]; intros i; simpl; [reflexivity|].
  destruct (_ || _); [f_equal; lia|]. rewrite IH, (IH 1%nat).
  destruct (stop_col r 0); [f_equal; lia|reflexivity].
Qed.

Lemma stop_col_lcp n : forall l0 ls, (forall l, In l (l0 :: ls) -> (n <= List.length l)%nat) ->
  match stop_col (zip_cols n (l0 :: ls)) 0 with
  | Some i => firstn i l0
  | None => firstn n l0
  end = lcp n (l0 :: ls).
Proof.
  induction n as [|n IH]; intros l0 ls H; [reflexivity|].
  cbn [zip_cols stop_col lcp]. set (col := map (fun l => hd 0 l) (l0 :: ls)).
  unfold col_ok. rewrite <- negb_andb.
  destruct (is_space (hd 0 col) && (list_min col =? list_max col)) eqn:E; cbn [negb]; [|reflexivity].
  rewrite stop_col_shift.
  assert (H' : forall l, In l (map (@tl char) (l0 :: ls)) -> (n <= List.length l)%nat).
  { intros l Hl. apply in_map_iff in Hl as [x [<- Hx]]. apply H in Hx.
    destruct x; simpl in *; lia. }
  cbn [map] in H'. specialize (IH (tl l0) (map (@tl char) ls) H').
  assert (Hl0 : (S n <= List.length l0)%nat) by (apply H; left; auto).
  destruct l0 as [|c l0]; [simpl in Hl0; lia|]. cbn [map tl] in *.
  destruct (stop_col (zip_cols n (l0 :: map (@tl char) ls)) 0) as [i|]; cbn [plus firstn hd] in *.
  - rewrite IH. reflexivity.
  - rewrite IH. reflexivity.
Qed.

Lemma col_ok_spec col x r : col = x :: r ->
  col_ok col = true <-> (is_space x = true /\ forall y, In y r -> y = x).
Proof.
  intros ->. unfold col_ok. rewrite andb_true_iff, min_max_uniform. unfold uniform. simpl hd.
  split.
  - intros [H1 H2]; split; [exact H1|]. intros y Hy; apply H2; right; auto.
  - intros [H1 H2]; split; [exact H1|]. intros y [->|Hy]; auto.
Qed.

Lemma lcp_common n : forall l0 ls, (forall l, In l (l0 :: ls) -> (n <= List.length l)%nat) ->
  blank (lcp n (l0 :: ls)) /\ forall l, In l (l0 :: ls) -> is_prefix (lcp n (l0 :: ls)) l.
Proof.
  induction n as [|n IH]; intros l0 ls H.
  - split; [intros c []|]. intros l _. exists l. reflexivity.
  - cbn [lcp map]. set (r := map (fun l => hd 0 l) ls).
    destruct (col_ok (hd 0 l0 :: r)) eqn:E.
    2:{ split; [intros c []|]. intros l _. exists l. reflexivity. }
    rewrite (col_ok_spec _ (hd 0 l0) r eq_refl) in E. destruct E as [E1 E2].
    assert (H' : forall l, In l (map (@tl char) (l0 :: ls)) -> (n <= List.length l)%nat).
    { intros l Hl. apply in_map_iff in Hl as [x [<- Hx]]. apply H in Hx.
      destruct x; simpl in *; lia. }
    cbn [map] in H'. destruct (IH (tl l0) (map (@tl char) ls) H') as [IH1 IH2].
    split.
    + intros c [<-|Hc]; [exact E1|]. apply IH1; auto.
    + intros l Hl.
      assert (Hh : hd 0 l = hd 0 l0).
      { destruct Hl as [->|Hl]; [reflexivity|]. apply E2. unfold r. apply in_map_iff; eauto. }
      destruct (IH2 (tl l)) as [q Hq].
      { change (tl l0 :: map (@tl char) ls) with (map (@tl char) (l0 :: ls)). now apply in_map. }
      assert (Hlen := H l Hl). destruct l as [|c l]; [simpl in Hlen; lia|].
      cbn [hd tl] in *. exists q. cbn [app]. rewrite <- Hq. congruence.
Qed.

Lemma lcp_longest n : forall l0 ls p, blank p -> (List.length p <= n)%nat ->
  (forall l, In l (l0 :: ls) -> is_prefix p l) -> is_prefix p (lcp n (l0 :: ls)).
Proof.
  induction n as [|n IH]; intros l0 ls p Hb Hn Hp.
  - destruct p; [|simpl in Hn; lia]. exists []. reflexivity.
  - destruct p as [|c p]; [eexists; reflexivity|]. cbn [lcp map].
    set (r := map (fun l => hd 0 l) ls).
    assert (Hh : forall l, In l (l0 :: ls) -> exists q, l = c :: p ++ q).
    { intros l Hl. destruct (Hp l Hl) as [q ->]. exists q. reflexivity. }
    assert (E0 : hd 0 l0 = c) by (destruct (Hh l0 (or_introl eq_refl)) as [q ->]; reflexivity).
    assert (E : col_ok (hd 0 l0 :: r) = true).
    { rewrite (col_ok_spec _ (hd 0 l0) r eq_refl). split.
      - rewrite E0. apply Hb; left; auto.
      - unfold r. intros y Hy. apply in_map_iff in Hy as [l [<- Hl]].
        destruct (Hh l (or_intror Hl)) as [q ->]. rewrite E0. reflexivity. }
    rewrite E. cbn [hd]. rewrite E0.
    destruct (IH (tl l0) (map (@tl char) ls) p) as [q Hq].
    + intros d Hd; apply Hb; right; auto.
    + simpl in Hn; lia.
    + intros l Hl. change (tl l0 :: map (@tl char) ls) with (map (@tl char) (l0 :: ls)) in Hl.
      apply in_map_iff in Hl as [x [<- Hx]]. destruct (Hh x Hx) as [q ->]. exists q. reflexivity.
    + exists q. cbn [app]. f_equal. exact Hq.
Qed.

Lemma min_len_le l0 ls l : In l (l0 :: ls) -> (min_len (l0 :: ls) <= List.length l)%nat.
Proof.
  unfold min_len.
  assert (A : forall r x, (fold_left Nat.min r x <= x)%nat).
  { induction r as [|y r IH]; intros x; simpl; [lia|]. specialize (IH (Nat.min x y)). lia. }
  assert (B : forall r x y, In y r -> (fold_left Nat.min r x <= y)%nat).
  { induction r as [|z r IH]; intros x y; simpl; [tauto|]. intros [->|H].
    - specialize (A r (Nat.min x y)). lia.
    - auto. }
  intros [->|H]; [apply A|]. apply B. now apply in_map.
Qed.

Lemma min_len_attained l0 ls : exists l, In l (l0 :: ls) /\ min_len (l0 :: ls) = List.length l.
Proof.
  unfold min_len.
  assert (A : forall r x, fold_left Nat.min r x = x \/ In (fold_left Nat.min r x) r).
  { induction r as [|y r IH]; intros x; simpl; [auto|].
    destruct (IH (Nat.min x y)) as [E|E]; [|auto].
    destruct (Nat.min_spec x y) as [[? M]|[? M]]; rewrite M in *; auto. }
  destruct (A (map (@List.length char) ls) (List.length l0)) as [E|E].
  - exists l0; split; [left; auto|exact E].
  - apply in_map_iff in E as [l [El Hl]]. exists l; split; [right; auto|]. congruence.
Qed.

(** blank lines *)
Lemma blank_rstrip l : blank l <-> rstrip l = [].
Proof.
  rewrite rstrip_nil. unfold all_space, blank. tauto.
Qed.

Lemma blank_dec l : {blank l} + {~ blank l}.
Proof.
  destruct (rstrip l) eqn:E; [left|right]; rewrite blank_rstrip; congruence.
Qed.

Lemma rstrip_prefix p l : blank p -> ~ blank l -> is_prefix p l <-> is_prefix p (rstrip l).
Proof.
  intros Hp Hl. destruct (rstrip_decomp l) as [w [E Hw]]. split.
  - intros [q ->].
    assert (Hq : ~ blank q).
    { intros Hq. apply Hl. intros c Hc. apply in_app_or in Hc as [?|?]; auto. }
    exists (rstrip q). apply rstrip_app_nonblank; auto.
  - intros [q Hq]. exists (q ++ w). rewrite app_assoc, <- Hq. exact E.
Qed.

Lemma filter_map_rstrip l ls : In l (filter nonempty (map rstrip ls)) <->
  exists x, In x ls /\ ~ blank x /\ l = rstrip x.
Proof.
  rewrite filter_In, in_map_iff. split.
  - intros [[x [<- Hx]] Hn]. exists x; repeat split; auto.
    rewrite blank_rstrip. destruct (rstrip x); [discriminate|congruence].
  - intros [x [Hx [Hb ->]]]. split; [eauto|].
    rewrite blank_rstrip in Hb. destruct (rstrip x); [congruence|reflexivity].
Qed.

Lemma get_indent_lcp t : get_indent t =
  let ls := filter nonempty (map rstrip (lines t)) in
  match ls with [] => [] | _ => lcp (min_len ls) ls end.
Proof.
  unfold get_indent, lines.
  destruct (filter nonempty (map rstrip (split NL t))) as [|l0 ls] eqn:E; [reflexivity|].
  cbv zeta. apply stop_col_lcp. intros l Hl. now apply min_len_le.
Qed.

Lemma get_indent_common t : common_indent t (get_indent t).
Proof.
  rewrite get_indent_lcp. cbv zeta.
  destruct (filter nonempty (map rstrip (lines t))) as [|l0 ls] eqn:E.
  - split; [intros c []|]. intros l _ _. exists l; reflexivity.
  - destruct (lcp_common (min_len (l0 :: ls)) l0 ls) as [H1 H2].
    { intros l Hl. now apply min_len_le. }
    split; [exact H1|]. intros l Hl Hb. apply rstrip_prefix; auto. apply H2.
    rewrite <- E. apply filter_map_rstrip. eauto.
Qed.

Lemma get_indent_longest t p : (exists l, In l (lines t) /\ ~ blank l) ->
  common_indent t p -> is_prefix p (get_indent t).
Proof.
  intros [l [Hl Hb]] [Hp1 Hp2]. rewrite get_indent_lcp. cbv zeta.
  assert (Hi : In (rstrip l) (filter nonempty (map rstrip (lines t)))) by (apply filter_map_rstrip; eauto).
  destruct (filter nonempty (map rstrip (lines t))) as [|l0 ls] eqn:E; [destruct Hi|].
  assert (Hall : forall x, In x (l0 :: ls) -> is_prefix p x).
  { intros x Hx. rewrite <- E in Hx. apply filter_map_rstrip in Hx as [y [Hy [Hyb ->]]].
    apply (proj1 (rstrip_prefix p y Hp1 Hyb)); auto. }
  apply lcp_longest; auto.
  destruct (min_len_attained l0 ls) as [m [Hm Em]]. destruct (Hall m Hm) as [q Hq].
  eapply Nat.le_trans; [|apply Nat.eq_le_incl; symmetry; exact Em].
  rewrite Hq, app_length. lia.
Qed.

Lemma get_indent_none t : (forall l, In l (lines t) -> blank l) -> get_indent t = [].
Proof.
  intros H. rewrite get_indent_lcp. cbv zeta.
  destruct (filter nonempty (map rstrip (lines t))) as [|l0 ls] eqn:E; [reflexivity|].
  exfalso. assert (Hi : In l0 (l0 :: ls)) by (left; auto). rewrite <- E in Hi.
  apply filter_map_rstrip in Hi as [y [Hy [Hb _]]]. apply Hb; auto.
Qed.

Lemma lines_blank_dec t : (exists l, In l (lines t) /\ ~ blank l) \/ (forall l, In l (lines t) -> blank l).
Proof.
  induction (lines t) as [|l0 ls IH]; [right; intros l H; destruct H|]. rename l0 into l.
  destruct (blank_dec l) as [Hb|Hb].
  - destruct IH as [[x [Hx Hxb]]|IH].
    + left; exists x; split; [right; auto|auto].
    + right; intros x [<-|Hx]; auto.
  - left; exists l; split; [left; auto|auto].
Qed.

Lemma get_indent_no_NL t : ~ In NL (get_indent t).
Proof.
  destruct (lines_blank_dec t) as [[l [Hl Hb]]|H].
  - destruct (get_indent_common t) as [_ H]. destruct (H l Hl Hb) as [q Hq].
    intros Hn. apply (lines_no_NL t l Hl). rewrite Hq. apply in_or_app; auto.
  - rewrite get_indent_none by assumption. intros [].
Qed.

(** ** del_indent *)

Lemma skipn_app_exact {A} (a b : list A) : skipn (List.length a) (a ++ b) = b.
Proof. rewrite skipn_app, skipn_all, Nat.sub_diag. reflexivity. Qed.

Lemma replace_head o old new l r : ~ In o l ->
  replace (o :: old) new (l ++ r) = l ++ replace (o :: old) new r.
Proof.
  induction l as [|c l IH]; intros H; [reflexivity|].
  cbn [app]. rewrite replace_unfold by discriminate.
  assert (E : startswith (o :: old) (c :: l ++ r) = false).
  { cbn [startswith]. destruct (N.eqb_spec o c) as [->|Hc]; [exfalso; apply H; left; auto|reflexivity]. }
  rewrite E, IH; [reflexivity|]. intros Hi; apply H; right; auto.
Qed.

Lemma startswith_no_NL i l r : ~ In NL i -> ~ In NL l ->
  startswith i (l ++ NL :: r) = startswith i l.
Proof.
  revert l; induction i as [|c i IH]; intros l Hi Hl; [reflexivity|].
  destruct l as [|d l]; cbn [app startswith].
  - destruct (N.eqb_spec c NL) as [->|Hc]; [exfalso; apply Hi; left; auto|reflexivity].
  - rewrite IH; auto; [intros ?; apply Hi; right; auto|intros ?; apply Hl; right; auto].
Qed.

Lemma join_tail l ls : exists r, join [NL] (l :: ls) = l ++ r /\ (r = [] \/ exists q, r = NL :: q).
Proof.
  destruct ls as [|x ls].
  - exists []. simpl. rewrite app_nil_r. auto.
  - rewrite join_cons by discriminate. eexists; split; [reflexivity|]. right. eexists; reflexivity.
Qed.

Lemma startswith_join i l ls : ~ In NL i -> ~ In NL l ->
  startswith i (join [NL] (l :: ls)) = startswith i l.
Proof.
  intros Hi Hl. destruct (join_tail l ls) as [r [-> [-> | [q ->]]]].
  - now rewrite app_nil_r.
  - now apply startswith_no_NL.
Qed.

Lemma replace_lines i h ls : ~ In NL i -> (forall l, In l (h :: ls) -> ~ In NL l) ->
  replace (NL :: i) [NL] (join [NL] (h :: ls)) = join [NL] (h :: map (unindent_line i) ls).
Proof.
  intros Hi. revert h; induction ls as [|l ls IH]; intros h H.
  - simpl. rewrite <- (app_nil_r h) at 1. rewrite replace_head; [apply app_nil_r|]. apply H; left; auto.
  - rewrite join_cons by discriminate. rewrite replace_head by (apply H; left; auto).
    cbn [map]. rewrite (join_cons [NL] h (unindent_line i l :: _)) by discriminate. f_equal.
    change ([NL] ++ join [NL] (l :: ls)) with (NL :: join [NL] (l :: ls)).
    rewrite replace_unfold by discriminate.
    cbn [startswith]. rewrite N.eqb_refl. cbn [andb].
    assert (Hl : ~ In NL l) by (apply H; right; left; auto).
    rewrite startswith_join by assumption. unfold unindent_line at 1.
    destruct (startswith i l) eqn:E.
    + f_equal. cbn [List.length skipn].
      apply startswith_spec in E as [q ->]. rewrite skipn_app_exact.
      replace (skipn (List.length i) (join [NL] ((i ++ q) :: ls))) with (join [NL] (q :: ls)).
      * apply IH. intros x [<-|Hx]; [intros Hq; apply Hl, in_or_app; auto|]. apply H; right; right; auto.
      * destruct ls as [|x ls]; [simpl; now rewrite skipn_app_exact|].
        rewrite (join_cons [NL] q), (join_cons [NL] (i ++ q)) by discriminate.
        rewrite <- app_assoc. now rewrite skipn_app_exact.
    + cbn [app]. f_equal. apply IH. intros x Hx; apply H; right; auto.
Qed.

Lemma del_indent_by_lines t i h ls : ~ In NL i -> lines t = h :: ls ->
  del_indent_by t i = join [NL] (map (unindent_line i) (h :: ls)).
Proof.
  intros Hi E. unfold del_indent_by.
  assert (Hn : forall l, In l (h :: ls) -> ~ In NL l).
  { intros l Hl. eapply lines_no_NL. rewrite E. exact Hl. }
  assert (Hh : ~ In NL h) by (apply Hn; left; auto).
  rewrite <- (join_lines t), E. rewrite startswith_join by assumption.
  cbn [map]. unfold unindent_line at 1. destruct (startswith i h) eqn:Es.
  - apply startswith_spec in Es as [q ->]. rewrite skipn_app_exact.
    replace (skipn (List.length i) (join [NL] ((i ++ q) :: ls))) with (join [NL] (q :: ls)).
    + apply replace_lines; auto. intros l [<-|Hl]; [intros Hq; apply Hh, in_or_app; auto|].
      apply Hn; right; auto.
    + destruct ls as [|x ls]; [simpl; now rewrite skipn_app_exact|].
      rewrite (join_cons [NL] q), (join_cons [NL] (i ++ q)) by discriminate.
        rewrite <- app_assoc. now rewrite skipn_app_exact.
  - apply replace_lines; auto.
Qed.

Lemma unindent_no_NL i l : ~ In NL l -> ~ In NL (unindent_line i l).
Proof.
  intros H. unfold unindent_line. destruct (startswith i l) eqn:E; [|exact H].
  apply startswith_spec in E as [q ->]. rewrite skipn_app_exact. intros Hq; apply H, in_or_app; auto.
Qed.

Lemma lines_del_indent t i : ~ In NL i -> lines (del_indent_by t i) = map (unindent_line i) (lines t).
Proof.
  intros Hi. destruct (lines_cons t) as [h [ls E]].
  rewrite (del_indent_by_lines t i h ls Hi E), E. apply lines_join; [discriminate|].
  intros l Hl. apply in_map_iff in Hl as [x [<- Hx]]. apply unindent_no_NL.
  eapply lines_no_NL. rewrite E. exact Hx.
Qed.

Lemma unindent_prefix i l : is_prefix i l -> i ++ unindent_line i l = l.
Proof.
  intros [q ->]. unfold unindent_line. rewrite startswith_app, skipn_app_exact. reflexivity.
Qed.

Lemma unindent_blank i l : blank i -> blank (unindent_line i l) <-> blank l.
Proof.
  intros Hi. unfold unindent_line. destruct (startswith i l) eqn:E; [|tauto].
  apply startswith_spec in E as [q ->]. rewrite skipn_app_exact. split.
  - intros Hq c Hc. apply in_app_or in Hc as [?|?]; auto.
  - intros Hq c Hc. apply Hq, in_or_app; auto.
Qed.

Lemma del_indent_none t : get_indent (del_indent t None) = [].
Proof.
  unfold del_indent. set (i := get_indent t).
  destruct (lines_blank_dec t) as [[l [Hl Hb]]|H].
  2:{ apply get_indent_none. intros l Hl. rewrite lines_del_indent in Hl by apply get_indent_no_NL.
      apply in_map_iff in Hl as [x [<- Hx]]. apply unindent_blank; auto. apply get_indent_common. }
  assert (Hc := get_indent_common t). fold i in Hc. destruct Hc as [Hc1 Hc2].
  set (p := get_indent (del_indent_by t i)).
  assert (Hp := get_indent_common (del_indent_by t i)). fold p in Hp. destruct Hp as [Hp1 Hp2].
  rewrite lines_del_indent in Hp2 by apply get_indent_no_NL.
  assert (Hl2 : is_prefix (i ++ p) i).
  { apply get_indent_longest; [eauto|]. split.
    - intros c Hc. apply in_app_or in Hc as [?|?]; auto.
    - intros x Hx Hxb. assert (Hxi := Hc2 x Hx Hxb).
      destruct (Hp2 (unindent_line i x)) as [q Hq].
      + now apply in_map.
      + rewrite unindent_blank by assumption. exact Hxb.
      + exists q. rewrite <- app_assoc. rewrite <- (unindent_prefix i x Hxi) at 1. now rewrite Hq. }
  destruct Hl2 as [q Hq]. apply (f_equal (@List.length _)) in Hq. rewrite !app_length in Hq.
  destruct p; [reflexivity|simpl in Hq; lia].
Qed.

Lemma del_indent_restore t l : In l (lines t) -> ~ blank l ->
  get_indent t ++ unindent_line (get_indent t) l = l.
Proof. intros Hl Hb. apply unindent_prefix. now apply get_indent_common. Qed.

(** ** layout of text blocks *)

Lemma lines_app_head p t h ls : ~ In NL p -> lines t = h :: ls -> lines (p ++ t) = (p ++ h) :: ls.
Proof. intros Hp E. unfold lines in *. now apply split_app_no_sep. Qed.

Lemma repeat_SP_no_NL n : ~ In NL (repeatc SP n).
Proof. intros H. apply repeat_spec in H. discriminate. Qed.

Lemma repeat_SP_blank n : blank (repeatc SP n).
Proof. intros c H. apply repeat_spec in H. subst. reflexivity. Qed.

Lemma repeat_length' n : List.length (repeatc SP n) = n.
Proof. apply repeat_length. Qed.

Lemma firstn_blank k (l : str) : blank l -> blank (firstn k l).
Proof.
  intros H c Hc. apply H. rewrite <- (firstn_skipn k l). apply in_or_app; auto.
Qed.

Lemma skipn_join k l ls : (k <= List.length l)%nat ->
  skipn k (join [NL] (l :: ls)) = join [NL] (skipn k l :: ls).
Proof.
  intros H. destruct ls as [|x ls]; [reflexivity|].
  rewrite (join_cons [NL] l), (join_cons [NL] (skipn k l)) by discriminate. rewrite skipn_app.
  replace (k - List.length l)%nat with 0%nat by lia. reflexivity.
Qed.

Lemma nth_join_SP k l ls : (k <= List.length l)%nat ->
  match nth_error (join [NL] (l :: ls)) k with Some c => c =? SP | None => false end =
  match nth_error l k with Some c => c =? SP | None => false end.
Proof.
  intros H. destruct (join_tail l ls) as [r [-> Hr]].
  destruct (Nat.eq_dec k (List.length l)) as [->|Hk].
  - rewrite nth_error_app2 by lia. rewrite Nat.sub_diag.
    replace (nth_error l (List.length l)) with (@None N) by (symmetry; apply nth_error_None; lia).
    destruct Hr as [->|[q ->]]; reflexivity.
  - rewrite nth_error_app1 by lia. reflexivity.
Qed.

(** The part of text_layout after the removal of [s]. *)
Lemma layout_cut lead (s x : str) ls : (List.length s < lead)%nat ->
  (lead - List.length s <= List.length x)%nat ->
  (forall l, In l (x :: ls) -> ~ In NL l) ->
  (let output := join [NL] (x :: ls) in
   let drop := (lead - List.length s)%nat in
   let drop := match nth_error output drop with
               | Some c => if c =? SP then S drop else drop
               | None => drop
               end in
   skipn drop output) = join [NL] (drop_space (skipn (lead - List.length s) x) :: ls).
Proof.
  intros H1 H2 Hn. cbv zeta. set (d := (lead - List.length s)%nat) in *.
  assert (E := nth_join_SP d x ls H2).
  assert (Ed : skipn d x = match nth_error x d with Some c => c :: skipn (S d) x | None => [] end).
  { clear. generalize d; clear d; intros d. revert x; induction d as [|d IH]; intros [|c x]; try reflexivity. apply IH. }
  destruct (nth_error (join [NL] (x :: ls)) d) as [c|] eqn:Ec.
  - destruct (c =? SP) eqn:Es.
    + destruct (nth_error x d) as [c'|] eqn:Ex; [|discriminate].
      assert (Hd : (S d <= List.length x)%nat).
      { apply nth_error_Some. congruence. }
      rewrite skipn_join by assumption. f_equal. f_equal. rewrite Ed. cbn [drop_space]. now rewrite <- E.
    + rewrite skipn_join by assumption. f_equal. f_equal.
      destruct (nth_error x d) as [c'|] eqn:Ex; rewrite Ed; cbn [drop_space]; [now rewrite <- E|reflexivity].
  - rewrite skipn_join by assumption. f_equal. f_equal.
    destruct (nth_error x d) as [c'|] eqn:Ex; rewrite Ed; cbn [drop_space]; [now rewrite <- E|reflexivity].
Qed.

Lemma prefix_firstn (p l : str) : is_prefix p l -> p = firstn (List.length p) l.
Proof.
  intros [q ->]. rewrite firstn_app, Nat.sub_diag, firstn_all. simpl. now rewrite app_nil_r.
Qed.

Lemma is_prefix_trans p q r : is_prefix p q -> is_prefix q r -> is_prefix p r.
Proof. intros [a ->] [b ->]. exists (a ++ b). now rewrite app_assoc. Qed.

Lemma firstn_prefix k (l : str) : is_prefix (firstn k l) l.
Proof. exists (skipn k l). symmetry. apply firstn_skipn. Qed.

Lemma firstn_repeat_SP k n r : (k <= n)%nat -> firstn k (repeatc SP n ++ r) = repeatc SP k.
Proof.
  revert n; induction k as [|k IH]; intros [|n] H; try reflexivity; [lia|].
  change (repeatc SP (S n)) with (SP :: repeatc SP n). cbn [app firstn].
  rewrite IH by lia. reflexivity.
Qed.

(** Removing [k] characters of the padded headline. *)
Lemma skipn_repeat_SP k n r : (k <= n)%nat -> skipn k (repeatc SP n ++ r) = repeatc SP (n - k) ++ r.
Proof.
  revert n; induction k as [|k IH]; intros [|n] H; try reflexivity; [lia|].
  change (repeatc SP (S n)) with (SP :: repeatc SP n). cbn [app skipn Nat.sub]. apply IH; lia.
Qed.

Lemma text_layout_nonblank lead body h ls : lines body = h :: ls -> ~ blank h ->
  exists k s,
    s = firstn k (repeatc SP lead ++ h) /\ List.length s = k /\ (k <= S lead)%nat /\ blank s /\
    (forall l, In l ls -> ~ blank l -> is_prefix s l) /\
    (forall p, common_indent (repeatc SP lead ++ body) p -> (List.length p <= S lead)%nat ->
               (List.length p <= k)%nat) /\
    text_layout lead body =
      join [NL] ((if Nat.ltb k lead then drop_space h else skipn (k - lead) h)
                 :: map (unindent_line s) ls).
Proof.
  intros E Hb. set (sp := repeatc SP lead). set (out := sp ++ body).
  assert (Eo : lines out = (sp ++ h) :: ls) by (apply lines_app_head; [apply repeat_SP_no_NL|exact E]).
  assert (Hb' : ~ blank (sp ++ h)).
  { intros H. apply Hb. intros c Hc. apply H, in_or_app; auto. }
  destruct (get_indent_common out) as [Hc1 Hc2].
  assert (Hg : is_prefix (get_indent out) (sp ++ h)) by (apply Hc2; auto; rewrite Eo; left; auto).
  set (s := firstn (lead + 1) (get_indent out)).
  assert (Hs : is_prefix s (sp ++ h)) by (eapply is_prefix_trans; [apply firstn_prefix|exact Hg]).
  assert (Hsl : (List.length s <= S lead)%nat) by (unfold s; rewrite firstn_length; lia).
  assert (Hsn : ~ In NL s).
  { intros H. apply (get_indent_no_NL out). rewrite <- (firstn_skipn (lead + 1)). apply in_or_app; auto. }
  exists (List.length s), s. split; [now apply prefix_firstn|].
  split; [reflexivity|]. split; [exact Hsl|]. split; [now apply firstn_blank|].
  split.
  { intros l Hl Hlb. eapply is_prefix_trans; [apply firstn_prefix|]. apply Hc2; auto.
    rewrite Eo. right; auto. }
  split.
  { intros p Hp Hpl.
    assert (Hpp : is_prefix p (get_indent out)).
    { apply get_indent_longest; auto. exists (sp ++ h). split; [rewrite Eo; left; auto|exact Hb']. }
    destruct Hpp as [q Hq]. unfold s. rewrite firstn_length, Hq, app_length. lia. }
  unfold text_layout. fold sp. fold out. cbv zeta. fold s.
  rewrite (del_indent_by_lines out s (sp ++ h) ls Hsn Eo). cbn [map].
  assert (Eu : unindent_line s (sp ++ h) = skipn (List.length s) (sp ++ h)).
  { unfold unindent_line. destruct Hs as [q Hq]. rewrite Hq, startswith_app. reflexivity. }
  rewrite Eu.
  assert (Hnl : forall l, In l (skipn (List.length s) (sp ++ h) :: map (unindent_line s) ls) -> ~ In NL l).
  { intros l [<-|Hl].
    - intros H. apply (lines_no_NL out (sp ++ h)); [rewrite Eo; left; auto|].
      rewrite <- (firstn_skipn (List.length s)). apply in_or_app; auto.
    - apply in_map_iff in Hl as [x [<- Hx]]. apply unindent_no_NL. apply (lines_no_NL out).
      rewrite Eo. right; auto. }
  destruct (Nat.ltb_spec (List.length s) lead) as [Hlt|Hge].
  - assert (Hx : skipn (List.length s) (sp ++ h) = repeatc SP (lead - List.length s) ++ h)
      by (apply skipn_repeat_SP; lia).
    rewrite Hx in *.
    assert (Hlen : (lead - List.length s <= List.length (repeatc SP (lead - List.length s) ++ h))%nat)
      by (rewrite app_length, repeat_length'; lia).
    pose proof (layout_cut lead s _ _ Hlt Hlen Hnl) as L. cbv zeta in L. rewrite L.
    f_equal. f_equal. f_equal.
    replace (skipn (lead - List.length s) (repeatc SP (lead - List.length s) ++ h)) with h; [reflexivity|].
    rewrite skipn_repeat_SP by lia. now rewrite Nat.sub_diag.
  - f_equal. f_equal. rewrite skipn_app. unfold sp at 1. rewrite skipn_all2 by (rewrite repeat_length'; lia).
    unfold sp. rewrite repeat_length'. reflexivity.
Qed.

(** One-line blocks. *)
Lemma text_layout_line lead h : ~ In NL h -> ~ blank h ->
  text_layout lead h = match h with c :: r => if is_space c then r else h | [] => [] end.
Proof.
  intros Hn Hb.
  assert (E : lines h = [h]) by (apply split_no_sep_id; exact Hn).
  destruct (text_layout_nonblank lead h h [] E Hb) as [k [s [Es [El [Hk [Hsb [_ [Hmax Ht]]]]]]]].
  rewrite Ht. cbn [map join].
  assert (Eo : lines (repeatc SP lead ++ h) = [repeatc SP lead ++ h])
    by (apply lines_app_head; [apply repeat_SP_no_NL|exact E]).
  assert (Hk1 : (lead <= k)%nat).
  { rewrite <- (repeat_length' lead) at 1. apply Hmax.
    - split; [apply repeat_SP_blank|]. intros l Hl _. rewrite Eo in Hl. destruct Hl as [<-|[]]. eexists; reflexivity.
    - rewrite repeat_length'. lia. }
  replace (Nat.ltb k lead) with false by (symmetry; apply Nat.ltb_ge; exact Hk1).
  destruct h as [|c r]; [destruct Hb; intros c []|].
  destruct (is_space c) eqn:Ec.
  - assert (Hk2 : (S lead <= k)%nat).
    { replace (S lead) with (List.length (repeatc SP lead ++ [c]))
        by (rewrite app_length, repeat_length'; simpl; lia).
      apply Hmax.
      - split.
        + intros d Hd. apply in_app_or in Hd as [Hd|[<-|[]]]; [now apply (repeat_SP_blank lead)|exact Ec].
        + intros l Hl _. rewrite Eo in Hl. destruct Hl as [<-|[]]. exists r. now rewrite <- app_assoc.
      - rewrite app_length, repeat_length'. simpl. lia. }
    replace k with (S lead) by lia. replace (S lead - lead)%nat with 1%nat by lia. reflexivity.
  - assert (Hk2 : k = lead).
    { destruct (Nat.eq_dec k lead) as [|Hne]; [assumption|]. exfalso.
      assert (Hks : k = S lead) by lia.
      assert (Hin : In c s).
      { rewrite Es, Hks. replace (S lead) with (List.length (repeatc SP lead ++ [c]))
          by (rewrite app_length, repeat_length'; simpl; lia).
        replace (repeatc SP lead ++ c :: r) with ((repeatc SP lead ++ [c]) ++ r) by (now rewrite <- app_assoc).
        rewrite firstn_app, Nat.sub_diag, firstn_all. simpl. rewrite app_nil_r. apply in_or_app; right; left; auto. }
      apply Hsb in Hin. congruence. }
    rewrite Hk2, Nat.sub_diag. reflexivity.
Qed.

Lemma text_layout_empty lead : text_layout lead [] = [].
Proof.
  unfold text_layout. rewrite app_nil_r.
  assert (E : get_indent (repeatc SP lead) = []).
  { apply get_indent_none. intros l Hl. unfold lines in Hl.
    rewrite split_no_sep_id in Hl by apply repeat_SP_no_NL. destruct Hl as [<-|[]]. apply repeat_SP_blank. }
  rewrite E, firstn_nil. cbv zeta. unfold del_indent_by. cbn [startswith List.length skipn].
  rewrite replace_single. replace (flat_map _ (repeatc SP lead)) with (repeatc SP lead).
  2:{ induction lead as [|n IH]; [reflexivity|]. change (repeatc SP (S n)) with (SP :: repeatc SP n).
      cbn [flat_map]. change (SP =? NL) with false. cbn [app]. f_equal. apply IH.
      apply get_indent_none. intros l Hl. unfold lines in Hl.
      rewrite split_no_sep_id in Hl by apply repeat_SP_no_NL. destruct Hl as [<-|[]]. apply repeat_SP_blank. }
  destruct lead as [|n]; [reflexivity|]. cbn [Nat.ltb Nat.leb]. rewrite Nat.sub_0_r.
  replace (nth_error (repeatc SP (S n)) (S n)) with (@None N)
    by (symmetry; apply nth_error_None; rewrite repeat_length'; lia).
  apply skipn_all2. rewrite repeat_length'. lia.
Qed.

Lemma drop_space_no_NL l : ~ In NL l -> ~ In NL (drop_space l).
Proof.
  destruct l as [|c l]; [auto|]. cbn [drop_space]. destruct (c =? SP); auto. intros H Hi; apply H; right; auto.
Qed.

Lemma skipn_no_NL k (l : str) : ~ In NL l -> ~ In NL (skipn k l).
Proof. intros H Hi. apply H. rewrite <- (firstn_skipn k l). apply in_or_app; auto. Qed.

Lemma text_layout_relative lead body h ls : lines body = h :: ls -> ~ blank h ->
  exists s, forall k l, nth_error ls k = Some l -> ~ blank l ->
    exists l', nth_error (lines (text_layout lead body)) (S k) = Some l' /\ l = s ++ l'.
Proof.
  intros E Hb.
  destruct (text_layout_nonblank lead body h ls E Hb) as [k0 [s [_ [_ [_ [_ [Hp [_ Ht]]]]]]]].
  exists s. intros k l Hk Hl. exists (unindent_line s l).
  assert (Hin : forall x, In x (h :: ls) -> ~ In NL x).
  { intros x Hx. eapply lines_no_NL. rewrite E. exact Hx. }
  split.
  - rewrite Ht, lines_join; [|discriminate|].
    + cbn [nth_error]. now apply map_nth_error.
    + intros x [<-|Hx].
      * destruct (Nat.ltb k0 lead); [apply drop_space_no_NL|apply skipn_no_NL]; apply Hin; left; auto.
      * apply in_map_iff in Hx as [y [<- Hy]]. apply unindent_no_NL, Hin. right; auto.
  - symmetry. apply unindent_prefix. apply Hp; auto. eapply nth_error_In; eauto.
Qed.
