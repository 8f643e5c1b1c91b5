(** Translation of the syntax trees of pages to DOM trees. *)
From Coq Require Import List NArith ZArith Bool Lia Arith String.
From Verif Require Import PyStr PyStrFacts Html HtmlFacts Indent IndentSpec IndentFacts PyDict Value Dom DomSpec DomFacts Ast Peg Grammar Syntax
  PageSpec PageFlat PageParse PageRender Machine Eval Translate MachineFacts RenderFacts.
Notation tree := DomSpec.tree.
Import ListNotations.
Local Open Scope string_scope.
Local Open Scope list_scope.
Local Open Scope nat_scope.

(** ** Heaps that grow by new trees *)
Definition grown (h h' : heap) (ts : list tree) : Prop :=
  List.length h <= List.length h' /\ (forall i, i < List.length h -> nth_error h' i = nth_error h i) /\
  Forall (repr h') ts /\ NoDup (all_ids ts) /\ (forall i, In i (all_ids ts) -> List.length h <= i).

Lemma grown_nil h : grown h h [].
Proof. repeat split; try constructor. intros i []. Qed.
Lemma all_ids_app a b : all_ids (a ++ b) = all_ids a ++ all_ids b.
Proof. apply flat_map_app. Qed.
Lemma grown_app h h1 h2 a b : grown h h1 a -> grown h1 h2 b -> grown h h2 (a ++ b).
Proof.
  intros (L1 & O1 & R1 & N1 & I1) (L2 & O2 & R2 & N2 & I2). split; [lia|]. split; [intros i Hi; rewrite O2, O1; [reflexivity|lia|lia]|]. split.
  - apply Forall_app. split; [|exact R2]. apply repr_frames with h1; [exact R1|]. intros i Hi. apply O2. apply (reprs_lt h1 a R1 i Hi).
  - rewrite all_ids_app. split.
    + apply NoDup_app'; [exact N1|exact N2|]. intros i Ia Ib. apply I2 in Ib. apply (reprs_lt h1 a R1) in Ia. lia.
    + intros i Hi. apply in_app_or in Hi. destruct Hi as [Hi|Hi]; [apply I1, Hi|]. apply I2 in Hi. lia.
Qed.
(** changes of the new trees only *)
Lemma grown_changed h h1 h2 ts ts' : grown h h1 ts -> changed (all_ids ts) h1 h2 -> Forall (repr h2) ts' -> all_ids ts' = all_ids ts -> grown h h2 ts'.
Proof.
  intros (L1 & O1 & R1 & N1 & I1) [C1 C2] R E. split; [lia|]. split.
  - intros i Hi. rewrite C2; [apply O1, Hi|]. intros J. apply I1 in J. lia.
  - split; [exact R|]. rewrite E. split; assumption.
Qed.
(** a new node around the new trees *)
Lemma grown_node h h1 ts f : grown h h1 ts ->
  grown h (h1 ++ [{| c_info := f; c_body := map root ts |}]) [T (List.length h1) f ts].
Proof.
  intros (L1 & O1 & R1 & N1 & I1). split; [rewrite app_length; lia|]. split.
  - intros i Hi. rewrite nth_error_app1 by lia. apply O1, Hi.
  - split; [|split].
    + constructor; [|constructor]. constructor; [|apply reprs_app, R1]. rewrite nth_error_app2 by lia. rewrite Nat.sub_diag. reflexivity.
    + cbn. rewrite app_nil_r. constructor; [|exact N1]. intros J. apply (reprs_lt h1 ts R1) in J. lia.
    + cbn. rewrite app_nil_r. intros i [<-|J]; [exact L1|apply I1, J].
Qed.

(** node.set_outline *)
Lemma set_outline_tree h h1 i f ts o : grown h h1 [T i f ts] ->
  grown h (set_outline h1 i o) [T i (with_outline f o) ts].
Proof.
  intros G. assert (R := G). destruct R as (_ & _ & R & N & _). inversion R as [|? ? R0 _]; subst.
  eapply grown_changed; [exact G| | |].
  - split; [apply upd_length|]. intros j Hj. apply upd_other. intros ->. apply Hj. left. reflexivity.
  - constructor; [|constructor]. unfold set_outline. rewrite (repr_info _ _ _ _ R0), (repr_body _ _ _ _ R0).
    pose proof (repr_lt _ _ R0 i (or_introl eq_refl)) as Lt. constructor; [apply upd_same; exact Lt|].
    apply repr_inv in R0. destruct R0 as [_ Rk]. apply repr_frames with h1; [exact Rk|]. intros j J. apply upd_other. intros ->.
    cbn in N. rewrite app_nil_r in N. inversion N as [|? ? Ni _]. apply Ni, J.
  - reflexivity.
Qed.

(** What relative_indent does to a node of a page: [p] is taken off its indentation. *)
Inductive shifted (p r : str) : shape -> shape -> Prop :=
| shifted_none f : n_indent f = None -> shifted p r (Sh f []) (Sh f [])
| shifted_some f ss : n_indent f = Some (p ++ r) -> shifted p r (Sh f ss) (Sh (with_indent f (Some r)) ss)
| shifted_same f ss : n_indent f = Some [] -> shifted p r (Sh f ss) (Sh f ss).

Lemma shifted_pages tag_of p r doc : Forall2 (shifted p r) (flat_map (shapes tag_of (p ++ r)) doc) (flat_map (shapes tag_of r) doc).
Proof.
  induction doc as [|t doc IH]; [constructor|]. cbn [flat_map]. apply Forall2_app; [|exact IH].
  assert (Mg : forall m, Forall2 (shifted p r) (margin_sh m) (margin_sh m)) by (intros [|m]; repeat constructor).
  destruct t as [m f k x|m x|m f n a c|m f n a w kids]; cbn [shapes]; try apply Forall2_app; try apply Mg; (constructor; [|constructor]);
    destruct f; first [exact (shifted_same p r (with_indent _ (Some [])) _ eq_refl) | exact (shifted_some p r (with_indent _ (Some (p ++ r))) _ eq_refl)].
Qed.

(** Nodes in which relative_indent changes nothing. *)
Inductive settled : shape -> Prop :=
| settled_none f : n_indent f = None -> settled (Sh f [])
| settled_some f ss d : n_indent f = Some d -> absolute d = false -> settled (Sh f ss).
Lemma settled_pages tag_of d doc : absolute d = false -> Forall settled (flat_map (shapes tag_of d) doc).
Proof.
  intros A. induction doc as [|t doc IH]; [constructor|]. cbn [flat_map]. apply Forall_app. split; [|exact IH].
  assert (Mg : forall m, Forall settled (margin_sh m)) by (intros [|m]; repeat constructor).
  destruct t as [m f k x|m x|m f n a c|m f n a w kids]; cbn [shapes]; try (apply Forall_app; split); try apply Mg; (constructor; [|constructor]);
    apply settled_some with (margin_of f d); try reflexivity; destruct f; try exact A; reflexivity.
Qed.
Lemma settled_all k p ts : forall h, Forall (repr h) ts -> Forall settled (map erase ts) -> hiter (relative_indent (S k) p) (map root ts) h = (Done tt, h).
Proof.
  induction ts as [|t ts IH]; intros h R H; [reflexivity|]. cbn [map] in *. inversion R as [|? ? R1 R2]; subst. inversion H as [|? ? H1 H2]; subst.
  cbn [hiter]. unfold hbind. destruct t as [i f kids]. cbn [root relative_indent]. rewrite (repr_info _ _ _ _ R1), (repr_body _ _ _ _ R1).
  cbn [erase] in H1. inversion H1 as [f0 E0|f0 ss d0 E0 A]; subst; rewrite E0.
  - destruct kids; [|discriminate]. cbn [map hiter]. apply (IH h R2 H2).
  - rewrite A. apply (IH h R2 H2).
Qed.
(** node.set_indent('') on a node with such contents *)
Lemma unindent_tree k h h1 i f ts : grown h h1 [T i f ts] -> Forall settled (map erase ts) ->
  exists h2, set_indent (S k) (Some []) i h1 = (Done tt, h2) /\ grown h h2 [T i (with_indent f (Some [])) ts].
Proof.
  intros G Hs. assert (R := G). destruct R as (_ & _ & R & N & _). inversion R as [|? ? R0 _]; subst. cbn in N. rewrite app_nil_r in N. inversion N as [|? ? Ni Nt]; subst.
  pose proof (put_indent_repr h1 i f ts (Some []) R0 Ni) as R1.
  exists (put_indent h1 i (Some [])). split.
  - unfold set_indent. rewrite (repr_info _ _ _ _ R1), (repr_body _ _ _ _ R1). rewrite (settled_all k [] ts _ (repr_kids _ _ _ _ R1) Hs).
    destruct (Dom.n_kind _); reflexivity.
  - apply grown_changed with h1 [T i f ts]; [exact G| | |reflexivity].
    + destruct (put_indent_changed h1 i (Some [])) as [C1 C2]. split; [exact C1|]. intros j J. apply C2. intros [<-|[]]. apply J. left. reflexivity.
    + constructor; [exact R1|constructor].
Qed.

Lemma with_indent_twice f a b : with_indent (with_indent f a) b = with_indent f b.
Proof. reflexivity. Qed.

Lemma relative_one k p r t s' h : absolute p = true -> repr h t -> NoDup (ids t) -> shifted p r (erase t) s' ->
  exists h' t', relative_indent (S k) p (root t) h = (Done tt, h') /\ repr h' t' /\ ids t' = ids t /\ root t' = root t /\ erase t' = s' /\ changed (ids t) h h'.
Proof.
  intros Ap R ND Hs. destruct t as [i f ts]. cbn [relative_indent root]. rewrite (repr_info _ _ _ _ R), (repr_body _ _ _ _ R). cbn [erase] in Hs.
  inversion Hs as [f0 E0|f0 ss E0|f0 ss E0]; subst.
  - rewrite E0. destruct ts; [|discriminate]. exists h, (T i f []). split; [reflexivity|]. split; [exact R|]. repeat split.
  - rewrite E0. assert (A : absolute (p ++ r) = true). { destruct p as [|c p]; [discriminate|]. exact Ap. }
    rewrite A, PyStrFacts.startswith_app, skipn_app_exact. exists (put_indent h i (Some r)), (T i (with_indent f (Some r)) ts).
    split; [reflexivity|]. cbn in ND. inversion ND as [|? ? Ni Nt]; subst. split; [apply put_indent_repr; assumption|].
    repeat split; try reflexivity; [apply upd_length|]. intros j J. apply (put_indent_changed h i (Some r)). intros [<-|[]]. apply J. left. reflexivity.
  - rewrite E0. exists h, (T i f ts). split; [reflexivity|]. split; [exact R|]. repeat split.
Qed.

Lemma relative_all k p r ts : absolute p = true -> forall ss' h, Forall (repr h) ts -> NoDup (all_ids ts) -> Forall2 (shifted p r) (map erase ts) ss' ->
  exists h' ts', hiter (relative_indent (S k) p) (map root ts) h = (Done tt, h') /\ Forall (repr h') ts' /\ map root ts' = map root ts /\ all_ids ts' = all_ids ts /\
    map erase ts' = ss' /\ changed (all_ids ts) h h'.
Proof.
  intros Ap. induction ts as [|t ts IH]; intros ss' h R ND Hs.
  - inversion Hs; subst. exists h, []. repeat split; constructor.
  - cbn [map] in Hs. inversion Hs as [|? s' ? ss2 H1 H2]; subst. inversion R as [|? ? R1 R2]; subst. change (all_ids (t :: ts)) with (ids t ++ all_ids ts) in *.
    apply NoDup_app_inv in ND. destruct ND as (N1 & N2 & D).
    destruct (relative_one k p r t s' h Ap R1 N1 H1) as (h1 & t' & E1 & Rt & It & Rt' & Et & C1).
    assert (R2' : Forall (repr h1) ts). { apply repr_frames with h; [exact R2|]. intros i I. apply C1. intros J. exact (D i J I). }
    destruct (IH ss2 h1 R2' N2 H2) as (h2 & ts' & E2 & R3 & Ro & I3 & Er & C2).
    exists h2, (t' :: ts'). cbn [map hiter]. unfold hbind. rewrite E1, E2. split; [reflexivity|]. split.
    + constructor; [|exact R3]. apply repr_frame with h1; [exact Rt|]. intros i I. apply C2. intros J. rewrite It in I. exact (D i I J).
    + rewrite Rt', Ro, Et, Er. split; [reflexivity|]. split; [change (all_ids (t' :: ts')) with (ids t' ++ all_ids ts'); rewrite It, I3; reflexivity|].
      split; [reflexivity|]. apply (changed_trans (ids t) (all_ids ts) _ h h1 h2 C1 C2); intros i I; apply in_or_app; [left|right]; exact I.
Qed.

(** node.set_indent(p) *)
Lemma set_indent_tree k h h1 i f ts p r ss' : absolute p = true -> grown h h1 [T i f ts] -> (forall x, Dom.n_kind f <> KText x) ->
  Forall2 (shifted p r) (map erase ts) ss' ->
  exists h2 ts', set_indent (S k) (Some p) i h1 = (Done tt, h2) /\ grown h h2 [T i (with_indent f (Some p)) ts'] /\ map erase ts' = ss'.
Proof.
  intros Ap G NT Hs. assert (R := G). destruct R as (_ & _ & R & N & _). inversion R as [|? ? R0 _]; subst. cbn in N. rewrite app_nil_r in N. inversion N as [|? ? Ni Nt]; subst.
  pose proof (put_indent_repr h1 i f ts (Some p) R0 Ni) as R1.
  destruct (relative_all k p r ts Ap ss' (put_indent h1 i (Some p)) (repr_kids _ _ _ _ R1) Nt Hs) as (h2 & ts' & E & R2 & Ro & I2 & Er & C2).
  exists h2, ts'. split.
  - unfold set_indent. rewrite (repr_info _ _ _ _ R1), (repr_body _ _ _ _ R1). cbn [with_indent Dom.n_kind].
    destruct (Dom.n_kind f) as [| |x]; [exact E|exact E|destruct (NT x eq_refl)].
  - split; [|exact Er]. apply grown_changed with h1 [T i f ts]; [exact G| | |].
    + apply (changed_trans [i] (all_ids ts) _ h1 (put_indent h1 i (Some p)) h2 (put_indent_changed _ _ _) C2).
      * intros j [<-|[]]. left. reflexivity.
      * intros j J. cbn. right. rewrite app_nil_r. exact J.
    + constructor; [|constructor]. apply repr_put_kids with (put_indent h1 i (Some p)) ts; [exact R1|apply C2, Ni|exact Ro|exact R2].
    + unfold all_ids in *. cbn [flat_map ids]. rewrite I2. reflexivity.
Qed.

Lemma put_last h c ind : put_indent (h ++ [c]) (List.length h) ind = h ++ [{| c_info := with_indent (c_info c) ind; c_body := c_body c |}].
Proof.
  unfold put_indent, info_at, body_at, cell_at. rewrite app_nth2 by apply le_n. rewrite Nat.sub_diag. cbn [nth].
  apply (upd_app_mid h c _ []).
Qed.
Lemma new_text_eq t ind h : new_text t ind h = (Done (List.length h), h ++ [{| c_info := with_indent (text_info t) ind; c_body := [] |}]).
Proof.
  unfold new_text, new_node, hbind, set_indent. rewrite put_last. cbn [c_info c_body]. unfold info_at, cell_at.
  rewrite app_nth2 by apply le_n. rewrite Nat.sub_diag. reflexivity.
Qed.
Lemma new_node_eq k f body h : new_node k f body None h = (Done (List.length h), h ++ [{| c_info := with_indent f None; c_body := body |}]).
Proof.
  unfold new_node, hbind, set_indent. rewrite put_last. cbn [c_info c_body]. destruct (Dom.n_kind _); reflexivity.
Qed.

Section Tree.
  Context {W : Type}.
  Variable P : prims W.
  Hypothesis escaping : p_escape P = Some html_escape.
  Variable ex : hyper -> val -> list val -> list (str * val) -> nat -> M W (list nid).
  Variable loops : nat.
  Variable known : str -> option bool.
  Variable tag_of : str -> tag.
  Variable sl : str -> option nat.
  Variable s : nat.

  (** ** Indentation of the state *)
  Definition with_ind (m : mach W) (ind : str) : mach W := snd (set_ind s ind m).
  Definition ind_of (m : mach W) : str := s_indent (state_at m s).
  Definition live (m : mach W) : Prop := s < List.length (m_states m).
  Lemma put_nth_twice {A} (l : list A) : forall i x y, put_nth (put_nth l i x) i y = put_nth l i y.
  Proof. induction l as [|a l IH]; intros [|i] x y; cbn; try reflexivity. rewrite IH. reflexivity. Qed.
  Lemma put_nth_id {A} (l : list A) d : forall i, put_nth l i (nth i l d) = l.
  Proof. induction l as [|a l IH]; intros [|i]; cbn; try reflexivity. rewrite IH. reflexivity. Qed.
  Lemma with_ind_live m i : live m -> live (with_ind m i).
  Proof. unfold live, with_ind, set_ind, put_state. cbn. rewrite put_nth_length. auto. Qed.
  Lemma ind_with m i : live m -> ind_of (with_ind m i) = i.
  Proof. intros L. unfold ind_of, with_ind, set_ind. cbn [snd]. rewrite state_put_same by exact L. reflexivity. Qed.
  Lemma with_ind_twice m i j : live m -> with_ind (with_ind m i) j = with_ind m j.
  Proof.
    intros L. unfold with_ind, set_ind. cbn [snd]. rewrite state_put_same by exact L. cbn [s_vals]. unfold put_state, with_states. cbn.
    rewrite put_nth_twice. reflexivity.
  Qed.
  Lemma with_ind_same m : with_ind m (ind_of m) = m.
  Proof.
    unfold with_ind, set_ind, ind_of, put_state, with_states, state_at. cbn [snd]. destruct m as [h st df nx rt w]. cbn.
    assert (E : {| s_vals := s_vals (nth s st new_stt); s_indent := s_indent (nth s st new_stt) |} = nth s st new_stt) by (destruct (nth s st new_stt); reflexivity).
    rewrite E, put_nth_id. reflexivity.
  Qed.
  Lemma with_ind_heap m i h : with_ind (with_heap m h) i = with_heap (with_ind m i) h.
  Proof. reflexivity. Qed.
  Lemma slot_with_ind m i x : live m -> slot_value (with_ind m i) s x = slot_value m s x.
  Proof. intros L. unfold slot_value, with_ind, set_ind. cbn [snd]. rewrite state_put_same by exact L. reflexivity. Qed.

  Lemma run_bind {A B} (x : M W A) (f : A -> M W B) m a m' : x m = (Done a, m') -> mbind x f m = f a m'.
  Proof. intros E. unfold mbind. rewrite E. reflexivity. Qed.

  (** ** Texts *)
  Lemma textp_run qs m : mconcat (render_part P ex s) (textp qs) m = (Done (List.concat qs), m).
  Proof.
    induction qs as [|q qs IH]; [reflexivity|]. cbn [textp map mconcat].
    rewrite (run_bind _ _ m q m eq_refl). unfold textp in IH. rewrite (run_bind _ _ m (List.concat qs) m IH). reflexivity.
  Qed.

  Lemma layout_text lead k x : ~ In NL x ->
    text_layout lead (match k with Plain => html_escape (rstrip x) | _ => rstrip x end) = text_html k x.
  Proof.
    intros Hx. assert (Hr : ~ In NL (rstrip x)) by (intros J; apply Hx, rstrip_In, J).
    assert (Hb : rstrip x <> [] -> ~ blank (rstrip x)).
    { intros NE B. apply NE. apply blank_rstrip in B. rewrite rstrip_idem in B. exact B. }
    unfold text_html, trimmed. destruct (rstrip x) as [|c r] eqn:E; [destruct k; apply text_layout_empty|].
    assert (NB : ~ blank (c :: r)) by (apply Hb; discriminate).
    destruct k; [|rewrite text_layout_line by assumption; reflexivity..].
    rewrite html_escape_chars. rewrite text_layout_line.
    - cbn [flat_map]. destruct (is_space c) eqn:Ec.
      + assert (Hc : html_char c = [c]).
        { unfold html_char. destruct (N.eqb_spec c 38) as [->|]; [discriminate|]. destruct (N.eqb_spec c 60) as [->|]; [discriminate|].
          destruct (N.eqb_spec c 62) as [->|]; [discriminate|]. reflexivity. }
        rewrite Hc. cbn [app]. rewrite Ec. reflexivity.
      + cbn [flat_map]. assert (Hc : exists d y, html_char c = d :: y /\ is_space d = false).
        { unfold html_char. destruct (c =? 38)%N; [eexists _, _; split; reflexivity|]. destruct (c =? 60)%N; [eexists _, _; split; reflexivity|].
          destruct (c =? 62)%N; [eexists _, _; split; reflexivity|]. exists c, []. split; [reflexivity|exact Ec]. }
        destruct Hc as (d & y & -> & Hd). cbn [app]. rewrite Hd. reflexivity.
    - intros J. apply in_flat_map in J. destruct J as (z & I & J). apply html_char_In in J. destruct J as [<-|[J _]]; [exact (Hr I)|apply J; reflexivity].
    - intros B. apply NB. intros z I. assert (K : exists d, In d (html_char z) /\ (is_space d = true -> is_space z = true)).
      { unfold html_char. destruct (z =? 38)%N; [exists 38%N; split; [left; reflexivity|discriminate]|]. destruct (z =? 60)%N; [exists 38%N; split; [left; reflexivity|discriminate]|].
        destruct (z =? 62)%N; [exists 38%N; split; [left; reflexivity|discriminate]|]. exists z. split; [left; reflexivity|auto]. }
      destruct K as (d & Id & Hd). apply Hd, B. apply in_flat_map. exists z. split; assumption.
  Qed.

  Lemma text_run k x l lead m : live m -> titems k (rstrip x) l -> ~ In NL x ->
    render_text P ex s lead l m = (Done (text_html k x), m).
  Proof.
    intros L Hl Hx. rewrite <- (layout_text lead k x Hx). unfold render_text.
    assert (E : mconcat (render_titem P ex s) l (with_ind m []) = (Done (match k with Plain => html_escape (rstrip x) | _ => rstrip x end), with_ind m [])).
    { assert (One : forall y z, render_line P ex s y (with_ind m []) = (Done z, with_ind m []) ->
        mconcat (render_titem P ex s) [TxLine y] (with_ind m []) = (Done z, with_ind m [])).
      { intros y z Hy. cbn [mconcat render_titem]. unfold mbind, get_ind, ret. rewrite Hy. change (s_indent (state_at (with_ind m []) s)) with (ind_of (with_ind m [])).
        rewrite ind_with by exact L. cbn [app]. rewrite app_nil_r. reflexivity. }
      destruct k; destruct Hl as [[-> ->]|[_ H]]; try reflexivity.
      - destruct H as (qs & -> & <-). apply One. cbn [render_line]. rewrite (run_bind _ _ _ _ _ (textp_run qs _)). rewrite escaping. reflexivity.
      - destruct H as (qs & -> & <-). apply One. cbn [render_line]. apply textp_run.
      - subst l. apply One. reflexivity. }
    unfold mbind at 1. unfold restoring. unfold mbind at 1. unfold set_ind at 1. change (put_state m s _) with (with_ind m []). rewrite E.
    change (snd (set_ind s (s_indent (state_at m s)) (with_ind m []))) with (with_ind (with_ind m []) (ind_of m)).
    rewrite with_ind_twice by exact L. rewrite with_ind_same. reflexivity.
  Qed.

  (** ** Attributes *)
  Lemma attrs_run a es m : Forall2 attr_expr a es -> NoDup (map fst a) -> eval_named P ex s es m = (Done (kwargs a), m).
  Proof.
    intros H. unfold eval_named.
    assert (G : forall d, NoDup (map fst d ++ map fst a) -> mfold (fun d ne => let (n, e) := (ne : str * expr) in
             v <* eval P ex s e ;;
             match dget str_eqb n d with
             | Some old => w <* merge_attr P old v ;; ret (dset str_eqb n w d)
             | None => ret (dset str_eqb n v d)
             end) es d m = (Done (d ++ kwargs a), m)); [|intros ND; apply (G [] ND)].
    induction H as [|[n0 z] [n e] a es (E1 & qs & E2 & E3) H IH]; intros d ND; [cbn; rewrite app_nil_r; reflexivity|].
    cbn [fst snd] in *. subst n e z.
    assert (Ev : eval P ex s (ERoot (EFormat (textp qs)) QNone) m = (Done (VStr (List.concat qs)), m)).
    { assert (E : eval P ex s (ERoot (EFormat (textp qs)) QNone) = qualified P QNone (t <* mconcat (render_part P ex s) (textp qs) ;; ret (VStr t))) by reflexivity.
      rewrite E. unfold qualified. rewrite (run_bind _ _ _ _ _ (textp_run qs m)). unfold ret at 1. unfold truth, ret, mbind. destruct (List.concat qs); reflexivity. }
    cbn [mfold]. rewrite (run_bind _ _ m (d ++ [(n0, VStr (List.concat qs))]) m).
    - rewrite IH; [cbn [kwargs map fst snd]; rewrite <- app_assoc; reflexivity|]. rewrite map_app, <- app_assoc. exact ND.
    - rewrite (run_bind _ _ _ _ _ Ev).
      assert (NI : ~ In n0 (map fst d)). { apply NoDup_remove_2 in ND. intros J. apply ND. apply in_or_app. left. exact J. }
      assert (Eg : forall d, ~ In n0 (map fst d) -> dget str_eqb n0 d = None /\ forall v : val, dset str_eqb n0 v d = d ++ [(n0, v)]).
      { clear. induction d as [|[y w] d IH]; intros NI; [split; reflexivity|]. cbn in NI. cbn [dget dset].
        assert (F : str_eqb n0 y = false). { destruct (str_eqb n0 y) eqn:Eq; [|reflexivity]. apply str_eqb_eq in Eq. subst. tauto. }
        assert (F' : str_eqb y n0 = false). { destruct (str_eqb y n0) eqn:Eq; [|reflexivity]. apply str_eqb_eq in Eq. subst. tauto. }
        rewrite ?F, ?F'. destruct IH as [I1 I2]; [tauto|]. split; [exact I1|]. intros v. rewrite I2. reflexivity. }
      destruct (Eg d NI) as [G1 G2]. rewrite G1, G2. reflexivity.
  Qed.

  (** ** Building trees *)
  Definition builds (x : M W (list nid)) (m : mach W) (ss : list shape) : Prop :=
    exists ts h, x m = (Done (map root ts), with_heap m h) /\ grown (m_heap m) h ts /\ map erase ts = ss.

  Lemma with_heap_same (m : mach W) : with_heap m (m_heap m) = m.
  Proof. destruct m; reflexivity. Qed.
  Lemma builds_nil m : builds (ret []) m [].
  Proof. exists [], (m_heap m). split; [rewrite with_heap_same; reflexivity|]. split; [apply grown_nil|reflexivity]. Qed.
  Lemma builds_app {A} (f : A -> M W (list nid)) x l m ss ss' : builds (f x) m ss -> (forall h, builds (mconcat f l) (with_heap m h) ss') ->
    builds (mconcat f (x :: l)) m (ss ++ ss').
  Proof.
    intros (ts & h & E & G & Es) H. destruct (H h) as (ts' & h' & E' & G' & Es'). exists (ts ++ ts'), h'. cbn [mconcat].
    rewrite (run_bind _ _ _ _ _ E), (run_bind _ _ _ _ _ E'). split; [rewrite map_app; reflexivity|]. split; [apply grown_app with h; assumption|].
    rewrite map_app, Es, Es'. reflexivity.
  Qed.

  Lemma builds_margin m k : builds (tr_static (repeatc NL k)) m (margin_sh k).
  Proof.
    destruct k as [|k]; [apply builds_nil|].
    set (f := text_info (repeatc NL (S k))).
    exists [T (List.length (m_heap m)) f []], (m_heap m ++ [{| c_info := f; c_body := [] |}]). split; [|split].
    - unfold tr_static. change (repeatc NL (S k)) with (NL :: repeatc NL k). cbn iota. unfold do_text, lift_h, mbind. rewrite new_text_eq. reflexivity.
    - apply (grown_node (m_heap m) (m_heap m) [] f (grown_nil _)).
    - reflexivity.
  Qed.

  Lemma ind_of_heap m h : ind_of (with_heap m h) = ind_of m.
  Proof. reflexivity. Qed.

  (** a text block: DOM.Text with the current indentation *)
  Lemma builds_text k x l col m : live m -> titems k (rstrip x) l -> ~ In NL x ->
    exists h, tr_block P ex loops s (BText col l) m = (Done (Some [List.length (m_heap m)]), with_heap m h) /\
      grown (m_heap m) h [T (List.length (m_heap m)) (with_indent (text_info (text_html k x)) (Some (ind_of m))) []].
  Proof.
    intros L Hl Hx. set (f := with_indent (text_info (text_html k x)) (Some (ind_of m))).
    exists (m_heap m ++ [{| c_info := f; c_body := [] |}]). split.
    - cbn [tr_block]. rewrite (run_bind _ _ m [List.length (m_heap m)] (with_heap m (m_heap m ++ [{| c_info := f; c_body := [] |}]))); [reflexivity|].
      rewrite (run_bind _ _ _ _ _ (text_run k x l col m L Hl Hx)). unfold mbind, get_ind. unfold do_text, lift_h. rewrite new_text_eq. reflexivity.
    - apply (grown_node (m_heap m) (m_heap m) [] f (grown_nil _)).
  Qed.

  Lemma absolute_ind d : absolute (NL :: d) = true.
  Proof. reflexivity. Qed.

  (** a block with one tag around the contents [y] *)
  Lemma builds_struct n a es v x y m ss ss' d r : live m -> ind_of m = NL :: d -> Forall2 attr_expr a es -> NoDup (map fst a) -> known n = Some v ->
    sl n = Some x -> slot_value m s x = Some (VTag (tag_of n)) ->
    builds (tr_body P ex loops s y) m ss -> Forall2 (shifted (NL :: d) r) ss ss' ->
    exists i ts h, tr_block P ex loops s (BStruct [XTag n (sl n) [] es] y) m = (Done (Some [i]), with_heap m h) /\
      grown (m_heap m) h [T i (with_indent (node_info (tag_of n) [] (Some (kwargs a))) (Some (NL :: d))) ts] /\ map erase ts = ss'.
  Proof.
    intros L Hi Ha ND Hk Hs Hv (ts & h & E & G & Es) Sh. set (f := node_info (tag_of n) [] (Some (kwargs a))).
    pose proof (grown_node _ _ _ f G) as G1. set (h1 := h ++ [{| c_info := f; c_body := map root ts |}]) in *. set (i := List.length h) in *.
    assert (Sh1 : Forall2 (shifted (NL :: d) r) (map erase ts) ss') by (rewrite Es; exact Sh).
    destruct (set_indent_tree (List.length h1) (m_heap m) h1 i f ts (NL :: d) r ss' eq_refl G1) as (h2 & ts' & E2 & G2 & Es2); [discriminate|exact Sh1|].
    exists i, ts', h2. split; [|split; [exact G2|exact Es2]].
    cbn [tr_block]. rewrite (run_bind _ _ m [i] (with_heap m h2)); [reflexivity|]. unfold indented.
    rewrite (run_bind _ _ m [i] (with_heap m h1)).
    - unfold mbind, get_ind. change (s_indent (state_at (with_heap m h1) s)) with (ind_of m). rewrite Hi. unfold do_set_indent, lift_h. cbn [m_heap with_heap].
      unfold dom_set_indent. cbn [hiter]. unfold hbind, depth_bound. rewrite E2. reflexivity.
    - rewrite (run_bind _ _ _ _ _ E). unfold apply_tags. cbn [rev app mfold]. rewrite (run_bind _ _ (with_heap m h) [i] (with_heap m h1)); [reflexivity|].
      unfold tr_tag. rewrite Hs. rewrite (run_bind (mmap (eval P ex s) []) _ (with_heap m h) [] (with_heap m h) eq_refl).
      rewrite (run_bind _ _ _ _ _ (attrs_run a es (with_heap m h) Ha ND)).
      assert (Eg : get_slot s x (with_heap m h) = (Done (VTag (tag_of n)), with_heap m h)).
      { unfold get_slot. change (slot_value (with_heap m h) s x) with (slot_value m s x). rewrite Hv. reflexivity. }
      rewrite (run_bind _ _ _ _ _ Eg). unfold do_node, lift_h, mbind. cbn [m_heap with_heap]. rewrite new_node_eq. reflexivity.
  Qed.

  (** the margin of a block, and its outline mark *)
  Lemma builds_block k f b m ss : (forall h0, exists i g ts h d, tr_block P ex loops s b (with_heap m h0) = (Done (Some [i]), with_heap m h) /\
      grown h0 h [T i (with_indent g (Some d)) ts] /\ n_outline g = false /\ Forall settled (map erase ts) /\
      Sh (with_indent (with_outline g (outlined f)) (Some (margin_of f d))) (map erase ts) = ss) ->
    builds (tr_item P ex loops s (NBlock (repeatc NL k) (mod_of f) b)) m (margin_sh k ++ [ss]).
  Proof.
    intros H. destruct (builds_margin m k) as (ms & h0 & E0 & G0 & S0).
    destruct (H h0) as (i0 & f0 & ts0 & h1 & d & E1 & G1 & O1 & St & S1).
    pose proof (set_outline_tree _ _ _ _ _ true G1) as G2.
    unfold builds. destruct f as [|j|j]; cbn [mod_of outlined margin_of] in *.
    - exists (ms ++ [T i0 (with_indent (with_outline f0 true) (Some d)) ts0]), (set_outline h1 i0 true). split; [|split].
      + cbn [tr_item]. rewrite (run_bind _ _ _ _ _ E0), (run_bind _ _ _ _ _ E1). cbn iota. unfold do_outline, lift_h, mbind, ret. cbn [m_heap with_heap].
        rewrite map_app. reflexivity.
      + apply grown_app with h0; assumption.
      + rewrite map_app, S0. cbn [map erase]. rewrite S1. reflexivity.
    - exists (ms ++ [T i0 (with_indent f0 (Some d)) ts0]), h1. split; [|split].
      + cbn [tr_item]. rewrite (run_bind _ _ _ _ _ E0), (run_bind _ _ _ _ _ E1). cbn iota. unfold mbind, ret. rewrite map_app. reflexivity.
      + apply grown_app with h0; assumption.
      + rewrite map_app, S0. cbn [map erase]. rewrite <- S1. do 3 f_equal. destruct f0. cbn in O1. subst. reflexivity.
    - destruct (unindent_tree (List.length (set_outline h1 i0 true)) _ _ _ _ _ G2 St) as (h2 & E2 & G3).
      exists (ms ++ [T i0 (with_indent (with_outline f0 true) (Some [])) ts0]), h2. split; [|split].
      + cbn [tr_item]. rewrite (run_bind _ _ _ _ _ E0), (run_bind _ _ _ _ _ E1). cbn iota.
        rewrite (run_bind (do_outline true i0) _ (with_heap m h1) tt (with_heap m (set_outline h1 i0 true)) eq_refl).
        assert (E3 : do_set_indent [] [i0] (with_heap m (set_outline h1 i0 true)) = (Done tt, with_heap m h2)).
        { unfold do_set_indent, lift_h. cbn [m_heap with_heap]. unfold dom_set_indent. cbn [hiter]. unfold hbind, depth_bound. rewrite E2. reflexivity. }
        rewrite (run_bind _ _ _ _ _ E3). rewrite map_app. reflexivity.
      + apply grown_app with h0; [exact G0|exact G3].
      + rewrite map_app, S0. cbn [map erase]. rewrite S1. reflexivity.
  Qed.

  (** ** Indentation marks *)
  Lemma mconcat_app_run {A B} (f : A -> M W (list B)) l1 : forall l2 m a m1 b m2, mconcat f l1 m = (Done a, m1) -> mconcat f l2 m1 = (Done b, m2) ->
    mconcat f (l1 ++ l2) m = (Done (a ++ b), m2).
  Proof.
    induction l1 as [|x l1 IH]; intros l2 m a m1 b m2 E1 E2.
    - cbn in E1. injection E1 as <- <-. exact E2.
    - cbn [app mconcat] in *. unfold mbind in E1 at 1. destruct (f x m) as [[y|e|] m3] eqn:Ex; try discriminate.
      unfold mbind in E1 at 1. destruct (mconcat f l1 m3) as [[z|e|] m4] eqn:El; try discriminate. injection E1 as <- <-.
      rewrite (run_bind _ _ _ _ _ Ex). rewrite (run_bind _ _ _ _ _ (IH l2 m3 z m4 b m2 El E2)). unfold ret. rewrite app_assoc. reflexivity.
  Qed.
  Lemma indents_run w : forall m, live m -> mconcat (tr_item P ex loops s) (map NIndent w) m = (Done [], with_ind m (ind_of m ++ w)).
  Proof.
    induction w as [|c w IH]; intros m L; [rewrite app_nil_r, with_ind_same; reflexivity|].
    cbn [map mconcat]. rewrite (run_bind _ _ m [] (with_ind m (ind_of m ++ [c])) eq_refl).
    rewrite (run_bind _ _ _ _ _ (IH _ (with_ind_live m _ L))). rewrite ind_with, with_ind_twice by exact L. rewrite <- app_assoc. reflexivity.
  Qed.
  Lemma dedents_run w : forall m i, live m -> ind_of m = i ++ rev w -> mconcat (tr_item P ex loops s) (map NDedent w) m = (Done [], with_ind m i).
  Proof.
    induction w as [|c w IH]; intros m i L Hi; [cbn in Hi; rewrite app_nil_r in Hi; rewrite <- Hi, with_ind_same; reflexivity|].
    cbn [map mconcat rev] in *. rewrite (run_bind _ _ m [] (with_ind m (i ++ rev w))).
    - rewrite (run_bind _ _ _ _ _ (IH _ i (with_ind_live m _ L) (ind_with m _ L))). rewrite with_ind_twice by exact L. reflexivity.
    - cbn [tr_item]. unfold mbind, dedent_by, mbind, get_ind. change (s_indent (state_at m s)) with (ind_of m). rewrite Hi, app_assoc, rev_app_distr. cbn [rev app].
      rewrite N.eqb_refl, rev_involutive. reflexivity.
  Qed.

  Definition slots_hold (m : mach W) : Prop := forall n v, known n = Some v -> exists x, sl n = Some x /\ slot_value m s x = Some (VTag (tag_of n)).

  Lemma builds_items kids is (m : mach W) ind : Forall2 (fun t i => forall h, builds (tr_item P ex loops s i) (with_heap m h) (shapes tag_of ind t)) kids is ->
    forall h, builds (mconcat (tr_item P ex loops s) is) (with_heap m h) (flat_map (shapes tag_of ind) kids).
  Proof.
    intros H. induction H as [|t i kids is Ht H IH]; intros h; [apply builds_nil|]. cbn [flat_map]. apply builds_app; [apply Ht|].
    intros h'. apply IH.
  Qed.

  Lemma builds_page t : forall i, like sl t i -> wf known t -> forall m d, live m -> ind_of m = NL :: d -> slots_hold m ->
    builds (tr_item P ex loops s i) m (shapes tag_of (NL :: d) t).
  Proof.
    induction t as [m0 f k x|m0 x|m0 f n a cc|m0 f n a w kids IH] using page_ind'; intros i Hl Hw m d L Hi HS; inversion Hl; subst; cbn [shapes].
    - inversion Hw; subst. apply builds_block. intros h0.
      destruct (builds_text k x l col (with_heap m h0) L) as (h & E & G); [assumption|assumption|].
      eexists _, _, _, h, _. split; [exact E|]. split; [exact G|]. rewrite ind_of_heap, Hi. split; [reflexivity|]. split; [constructor|]. reflexivity.
    - rewrite <- (app_nil_r (margin_sh m0)). destruct (builds_margin m m0) as (ms & h0 & E0 & G0 & S0).
      exists ms, h0. split; [|split; [exact G0|rewrite app_nil_r; exact S0]]. cbn [tr_item]. rewrite (run_bind _ _ _ _ _ E0). reflexivity.
    - inversion Hw as [| |? ? ? ? ? v Hn Ha Hk Hc|]; subst. apply builds_block. intros h0. destruct (HS n v Hk) as (x0 & Hx & Hv).
      assert (Body : exists ss ss', builds (tr_body P ex loops s b) (with_heap m h0) ss /\ Forall2 (shifted (NL :: d) []) ss ss' /\
        ss' = match cc with Some (k, x) => [text_sh false [] (text_html k x)] | None => [] end).
      { destruct cc as [[k x]|]; cbn [leaf_body] in *.
        - match goal with K : exists col l, _ |- _ => destruct K as (col & l & -> & Hl') end. destruct (Hc k x eq_refl) as [_ Hnx].
          destruct (builds_text k x l col (with_heap m h0) L Hl' Hnx) as (h & E & G).
          eexists _, _. split; [|split; [|reflexivity]].
          + eexists _, h. split; [|split; [exact G|reflexivity]]. cbn [tr_body]. rewrite (run_bind _ _ _ _ _ E). reflexivity.
          + cbn [map erase]. rewrite ind_of_heap, Hi. constructor; [|constructor].
            apply (shifted_some (NL :: d) [] (with_indent (text_info (text_html k x)) (Some (NL :: d))) []). rewrite app_nil_r. reflexivity.
        - subst b. exists [], []. split; [|split; [constructor|reflexivity]].
          exists [], h0. split; [|split; [apply grown_nil|reflexivity]]. cbn [tr_body mconcat]. unfold restoring, ret.
          change (snd (set_ind s (s_indent (state_at (with_heap m h0) s)) (with_heap m h0))) with (with_ind (with_heap m h0) (ind_of (with_heap m h0))).
          rewrite with_ind_same. reflexivity. }
      destruct Body as (ss & ss' & B1 & B2 & E3).
      destruct (builds_struct n a es v x0 b (with_heap m h0) ss ss' d [] L Hi ltac:(assumption) (proj1 Ha) Hk Hx Hv B1 B2) as (i & ts & h & E & G & Es).
      eexists i, _, ts, h, _. split; [exact E|]. split; [exact G|]. rewrite Es, E3. split; [reflexivity|]. split; [|reflexivity].
      destruct cc as [[k x]|]; constructor; [|constructor]. apply settled_some with []; reflexivity.
    - inversion Hw as [| | |? ? ? ? ? ? Hn Ha Hk Hw0 Hww Hk0 Hkids]; subst.
      match goal with K : Forall2 (like sl) kids is |- _ => rename K into Fl end. destruct (HS n false Hk) as (x0 & Hx & Hv).
      apply builds_block. intros h0.
      assert (Lw : live (with_ind m ((NL :: d) ++ w))) by (apply with_ind_live, L).
      assert (HSw : slots_hold (with_ind m ((NL :: d) ++ w))).
      { intros n1 v1 K. destruct (HS n1 v1 K) as (y1 & Y1 & Y2). exists y1. split; [exact Y1|]. rewrite slot_with_ind by exact L. exact Y2. }
      assert (FK : Forall2 (fun t i => forall h, builds (tr_item P ex loops s i) (with_heap (with_ind m ((NL :: d) ++ w)) h) (shapes tag_of ((NL :: d) ++ w) t)) kids is).
      { clear -IH Fl Lw HSw Hkids L. induction Fl as [|t i kids is Ht H IHk]; constructor; inversion IH; inversion Hkids; subst; [|apply IHk; assumption].
        intros h. match goal with K : forall i, like sl t i -> _ |- _ => apply (K i Ht) end; try assumption. apply (ind_with m _ L). }
      destruct (builds_items kids is _ _ FK h0) as (ts & h & E & G & Es).
      assert (B : builds (tr_body P ex loops s (YItems (map NIndent w ++ is ++ map NDedent (rev w)))) (with_heap m h0) (flat_map (shapes tag_of ((NL :: d) ++ w)) kids)).
      { exists ts, h. split; [|split; [exact G|exact Es]]. change (tr_body P ex loops s (YItems ?l)) with (restoring s (mconcat (tr_item P ex loops s) l)).
        assert (E1 := indents_run w (with_heap m h0) L). rewrite ind_of_heap, Hi in E1. change (with_ind (with_heap m h0) ((NL :: d) ++ w)) with (with_heap (with_ind m ((NL :: d) ++ w)) h0) in E1.
        assert (E3 := dedents_run (rev w) (with_heap (with_ind m ((NL :: d) ++ w)) h) (NL :: d) Lw). rewrite rev_involutive in E3. specialize (E3 (ind_with m _ L)).
        assert (EA := mconcat_app_run _ _ _ _ _ _ _ _ E1 (mconcat_app_run _ _ _ _ _ _ _ _ E E3)). unfold restoring. cbn [app] in EA. rewrite app_nil_r in EA.
        rewrite EA. f_equal.
        match goal with |- snd (set_ind s ?i ?mm) = _ => change (snd (set_ind s i mm)) with (with_ind mm i) end.
        rewrite with_ind_twice by exact Lw. change (s_indent (state_at (with_heap m h0) s)) with (ind_of m).
        change (with_heap (with_ind (with_ind m (NL :: d ++ w)) (ind_of m)) h = with_heap m h).
        rewrite with_ind_twice by exact L. rewrite with_ind_same. reflexivity. }
      destruct (builds_struct n a es false x0 _ (with_heap m h0) _ (flat_map (shapes tag_of w) kids) d w L Hi ltac:(eassumption) (proj1 Ha) Hk Hx Hv B (shifted_pages tag_of (NL :: d) w kids))
        as (i & ts' & h' & E' & G' & Es').
      eexists i, _, ts', h', _. split; [exact E'|]. split; [exact G'|]. rewrite Es'. split; [reflexivity|]. split; [|reflexivity].
      apply settled_pages. apply not_absolute, (blank_no_NL w Hww).
  Qed.
End Tree.
