(** Proofs about rendering: lines are indented by the position of their block. *)
From Coq Require Import List NArith Bool Lia Arith String.
From Verif Require Import PyStr PyStrFacts Html HtmlSpec Indent IndentFacts PyDict Value Dom DomSpec DomFacts.
Import ListNotations.
Local Open Scope nat_scope.

Definition shift (p : path) (l : list ochar) : list ochar := map (fun cq => (fst cq, p ++ snd cq)) l.

Lemma shift_app p a b : shift p (a ++ b) = shift p a ++ shift p b.
Proof. apply map_app. Qed.
Lemma shift_shift p q l : shift p (shift q l) = shift (p ++ q) l.
Proof. unfold shift. rewrite map_map. apply map_ext. intros [c r]. cbn. rewrite app_assoc. reflexivity. Qed.
Lemma shift_nil l : shift [] l = l.
Proof. unfold shift. induction l as [|[c q] l IH]; [reflexivity|]. cbn [map fst snd app]. f_equal. exact IH. Qed.
Lemma shift_own p q s : shift p (own q s) = own (p ++ q) s.
Proof. unfold shift, own. rewrite map_map. reflexivity. Qed.
Lemma starts_nl_shift p l : starts_nl (shift p l) = starts_nl l.
Proof. destruct l as [|[c q] l]; reflexivity. Qed.
Lemma own_app p a b : own p (a ++ b) = own p a ++ own p b.
Proof. apply map_app. Qed.

Section Raw.
  Variable P : rprims.

  Lemma raw_go p ts : forall n, (fix go (n : nat) (l : list tree) : option (list ochar) :=
      match l with
      | [] => Some []
      | x :: r => match raw P (p ++ [n]) x, go (S n) r with Some a, Some b => Some (a ++ b) | _, _ => None end
      end) n ts = raws P p n ts.
  Proof. induction ts as [|x ts IH]; intros n; cbn; [reflexivity|]. rewrite IH. reflexivity. Qed.

  Definition raw_body (p : path) (f : info) (ts : list tree) : option (list ochar) :=
    match n_kind f with
    | KText s => Some (own p s)
    | _ =>
        match raws P p 0 ts with
        | None => None
        | Some body =>
            match wrap P f (starts_nl body) with
            | None => None
            | Some (a, b) => if void_tag f && negb (match body with [] => true | _ => false end) then None
                             else Some (own p a ++ body ++ own p b)
            end
        end
    end.
  Lemma raw_T p i f ts : raw P p (T i f ts) =
    match raw_body p f ts with
    | None => None
    | Some s => Some (own p (if n_outline f then [NL] else []) ++ s)
    end.
  Proof. cbn [raw]. rewrite raw_go. reflexivity. Qed.

  Lemma raw_shift t : forall p, raw P p t = option_map (shift p) (raw P [] t).
  Proof.
    induction t as [i f ts IH] using tree_ind'. intros p. rewrite !raw_T.
    assert (G : forall n q, raws P (q ++ p) n ts = option_map (shift q) (raws P p n ts)).
    { clear -IH. induction IH as [|x ts Hx IH IHt]; intros n q; [reflexivity|]. cbn [raws]. rewrite <- app_assoc.
      rewrite (Hx (q ++ p ++ [n])), (Hx (p ++ [n])). rewrite IHt. destruct (raw P [] x); [|reflexivity]. cbn [option_map].
      destruct (raws P p (S n) ts); [|reflexivity]. cbn [option_map]. rewrite shift_app, shift_shift. reflexivity. }
    assert (G' : raws P p 0 ts = option_map (shift p) (raws P [] 0 ts)).
    { clear G. generalize 0. clear -IH. induction IH as [|x ts Hx IH IHt]; intros n; [reflexivity|]. cbn [raws].
      rewrite (Hx (p ++ [n])), (Hx ([] ++ [n])). rewrite IHt. destruct (raw P [] x); [|reflexivity]. cbn [option_map].
      destruct (raws P [] (S n) ts); [|reflexivity]. cbn [option_map]. rewrite shift_app, shift_shift. reflexivity. }
    unfold raw_body. destruct (n_kind f).
    - rewrite G'. destruct (raws P [] 0 ts) as [b|]; [|reflexivity]. cbn [option_map]. rewrite starts_nl_shift.
      destruct (wrap P f (starts_nl b)) as [[a c]|]; [|reflexivity].
      assert (E : match shift p b with [] => true | _ => false end = match b with [] => true | _ => false end) by (destruct b; reflexivity).
      rewrite E. destruct (void_tag f && negb match b with [] => true | _ => false end); [reflexivity|]. cbn [option_map].
      rewrite !shift_app, !shift_own, !app_nil_r. reflexivity.
    - rewrite G'. destruct (raws P [] 0 ts) as [b|]; [|reflexivity]. cbn [option_map]. rewrite starts_nl_shift.
      destruct (wrap P f (starts_nl b)) as [[a c]|]; [|reflexivity].
      assert (E : match shift p b with [] => true | _ => false end = match b with [] => true | _ => false end) by (destruct b; reflexivity).
      rewrite E. destruct (void_tag f && negb match b with [] => true | _ => false end); [reflexivity|]. cbn [option_map].
      rewrite !shift_app, !shift_own, !app_nil_r. reflexivity.
    - cbn [option_map]. rewrite shift_app, !shift_own, !app_nil_r. reflexivity.
  Qed.

  Lemma raws_cons p n x r : raws P p n (x :: r) =
    match raw P [] x, raws P p (S n) r with
    | Some a, Some b => Some (shift (p ++ [n]) a ++ b)
    | _, _ => None
    end.
  Proof. cbn [raws]. rewrite raw_shift. destruct (raw P [] x); [|reflexivity]. reflexivity. Qed.
End Raw.

(** ** Layout *)
Lemma common_app p a b : common (p ++ a) (p ++ b) = p ++ common a b.
Proof. induction p as [|n p IH]; cbn; [reflexivity|]. rewrite Nat.eqb_refl, IH. reflexivity. Qed.
Lemma common_nil_l q : common [] q = [].
Proof. reflexivity. Qed.
Lemma common_nil_r q : common q [] = [].
Proof. destruct q; reflexivity. Qed.

Lemma layout_shift ind p l : layout ind (shift p l) = layout (fun q => ind (p ++ q)) l.
Proof.
  induction l as [|[c q] l IH]; [reflexivity|]. cbn [shift map layout fst snd]. fold (shift p l). rewrite IH. f_equal. f_equal.
  destruct (N.eqb c NL); [|reflexivity]. destruct l as [|[d r] l]; [reflexivity|]. cbn [shift map fst snd].
  rewrite common_app. reflexivity.
Qed.

Lemma layout_ext ind ind' l : (forall q, ind q = ind' q) -> layout ind l = layout ind' l.
Proof.
  intros H. induction l as [|[c q] l IH]; [reflexivity|]. cbn. rewrite IH. f_equal. f_equal.
  destruct (N.eqb c NL); [|reflexivity]. destruct l as [|[d r] l]; [reflexivity|]. rewrite H. reflexivity.
Qed.

(** no indentation is due between the two parts *)
Definition no_gap (ind : path -> str) (a b : list ochar) : Prop :=
  forall c p a' d q b', a = a' ++ [(c, p)] -> b = (d, q) :: b' -> ind (common p q) = [].

Lemma layout_app ind a b : no_gap ind a b -> layout ind (a ++ b) = layout ind a ++ layout ind b.
Proof.
  intros G. induction a as [|[c p] a IH]; [reflexivity|].
  assert (G' : no_gap ind a b). { intros c' p' a' d q b' -> Eb. apply (G c' p' ((c, p) :: a') d q b'); [reflexivity|exact Eb]. }
  cbn [app layout]. rewrite (IH G'). cbn [app]. f_equal. rewrite <- app_assoc. f_equal.
  destruct (N.eqb c NL); [|reflexivity]. destruct a as [|[d q] a]; [|reflexivity]. cbn [app].
  destruct b as [|[d q] b]; [reflexivity|]. destruct (N.eqb d NL); [reflexivity|]. apply (G c p [] d q b); reflexivity.
Qed.

Lemma layout_own ind p s : ind p = [] -> layout ind (own p s) = s.
Proof.
  intros H. induction s as [|c s IH]; [reflexivity|]. cbn [own map layout]. fold (own p s). rewrite IH. f_equal.
  destruct (N.eqb c NL); [|reflexivity]. destruct s as [|d s]; [reflexivity|]. cbn [own map].
  destruct (N.eqb d NL); [reflexivity|]. assert (C : common p p = p). { rewrite <- (app_nil_r p) at 1 2. rewrite common_app. cbn. apply app_nil_r. }
  rewrite C, H. reflexivity.
Qed.

Lemma layout_head ind l : startswith [NL] (layout ind l) = starts_nl l.
Proof. destruct l as [|[c p] l]; [reflexivity|]. cbn [layout starts_nl startswith]. rewrite N.eqb_sym. destruct (N.eqb c NL); reflexivity. Qed.

Lemma layout_nil ind l : layout ind l = [] <-> l = [].
Proof. destruct l as [|[c p] l]; cbn; split; congruence. Qed.

Lemma add_indent_layout ind i l : (forall q, ~ In NL (ind q)) ->
  add_indent (layout ind l) i = layout (fun q => i ++ ind q) l.
Proof.
  intros H. destruct i as [|x i]; [cbn; apply layout_ext; reflexivity|].
  change (add_indent (layout ind l) (x :: i)) with (add_indent_go (x :: i) (layout ind l)). remember (x :: i) as j eqn:Ej. clear Ej x i.
  assert (Gi : forall a s, ~ In NL a -> add_indent_go j (a ++ s) = a ++ add_indent_go j s).
  { intros a s Na. apply add_indent_go_head. exact Na. }
  induction l as [|[c p] l IH]; [reflexivity|]. cbn [layout]. destruct (N.eqb_spec c NL) as [->|NE].
  2:{ cbn [app]. cbn [add_indent_go]. apply N.eqb_neq in NE. rewrite NE, IH. reflexivity. }
  destruct l as [|[d q] l]; [reflexivity|]. destruct (N.eqb_spec d NL) as [->|Nd].
  - cbn [app]. assert (K : forall s, add_indent_go j (NL :: NL :: s) = NL :: add_indent_go j (NL :: s)) by reflexivity.
    change (layout ind ((NL, q) :: l)) with (NL :: (if N.eqb NL NL then
              match l with (d, r) :: _ => if N.eqb d NL then [] else ind (common q r) | [] => [] end else []) ++ layout ind l) in IH |- *.
    rewrite K, IH. reflexivity.
  - assert (K : forall s, s <> [] -> hd 0%N s <> NL -> add_indent_go j (NL :: s) = NL :: j ++ add_indent_go j s).
    { intros s NEs Hs. destruct s as [|e s]; [contradiction|]. cbn in Hs. apply N.eqb_neq in Hs. cbn [add_indent_go]. rewrite N.eqb_refl, Hs. reflexivity. }
    assert (Kn : ind (common p q) ++ layout ind ((d, q) :: l) <> []). { destruct (ind (common p q)); discriminate. }
    assert (Kh : hd 0%N (ind (common p q) ++ layout ind ((d, q) :: l)) <> NL).
    { specialize (H (common p q)). destruct (ind (common p q)) as [|e s]; [exact Nd|]. cbn. intros ->. apply H. left. reflexivity. }
    change (add_indent_go j (NL :: (ind (common p q) ++ layout ind ((d, q) :: l)))
            = NL :: ((j ++ ind (common p q)) ++ layout (fun q => j ++ ind q) ((d, q) :: l))).
    rewrite (K _ Kn Kh). rewrite Gi by apply H. rewrite <- !app_assoc. f_equal. f_equal. f_equal. exact IH.
Qed.

(** ** Rendering *)
Definition own_indent (t : tree) : str := match n_indent (label t) with Some i => i | None => [] end.
Definition node_indent (t : tree) (q : path) : str := own_indent t ++ total_indent (kids t) q.

Lemma relative_T i f ts : relative (T i f ts) <-> match n_indent f with Some i => ~ In NL i | None => True end /\ Forall relative ts.
Proof.
  cbn. split; intros [H K]; split; try exact H.
  - induction ts as [|x ts IH]; constructor; [apply K|apply IH, K].
  - induction K; [exact I|split; assumption].
Qed.
Lemma plain_T i f ts : plain (T i f ts) ->
  n_kind f <> KRoot /\ match n_kind f with KText _ => ts = [] | _ => True end /\ Forall plain ts.
Proof.
  cbn. destruct (n_kind f) as [| |s]; intros H; [|destruct H|].
  - split; [discriminate|]. split; [exact I|]. induction ts as [|x ts IH]; constructor; [apply H|apply IH, H].
  - subst. split; [discriminate|]. split; [reflexivity|constructor].
Qed.

Lemma total_indent_no_NL ts q : Forall relative ts -> ~ In NL (total_indent ts q).
Proof.
  revert ts. induction q as [|n q IH]; intros ts R; [intros []|]. cbn. destruct (nth_error ts n) as [t|] eqn:E; [|intros []].
  rewrite Forall_forall in R. specialize (R t (nth_error_In _ _ E)). destruct t as [i f us]. apply relative_T in R. destruct R as [R1 R2].
  cbn [label kids]. rewrite in_app_iff. intros [J|J]; [destruct (n_indent f); [contradiction|destruct J]|]. exact (IH us R2 J).
Qed.

Section RenderRaw.
  Variable P : rprims.

  Definition renders_raw (t : tree) : Prop := forall l, plain t -> relative t -> raw P [] t = Some l ->
    srender P (erase t) = Done (layout (node_indent t) l).

  Lemma raws_no_gap ts0 k a b n : (forall m, In m a -> exists q, snd m = n :: q) -> (forall m, In m b -> exists j q, snd m = j :: q /\ n < j) ->
    k = total_indent ts0 -> no_gap k a b.
  Proof.
    intros Ha Hb -> c p a' d q b' -> ->. destruct (Ha (c, p)) as (p' & Ep); [apply in_or_app; right; left; reflexivity|].
    destruct (Hb (d, q)) as (j & q' & Eq & L); [left; reflexivity|]. cbn in Ep, Eq. subst. cbn [common].
    destruct (Nat.eqb_spec n j); [lia|]. reflexivity.
  Qed.

  Lemma raws_positions ts : forall n l m, raws P [] n ts = Some l -> In m l -> exists j q, snd m = j :: q /\ n <= j.
  Proof.
    induction ts as [|x ts IH]; intros n l m E I; [injection E as <-; destruct I|]. rewrite raws_cons in E.
    destruct (raw P [] x) as [a|]; [|discriminate]. destruct (raws P [] (S n) ts) as [b|] eqn:Eb; [|discriminate]. injection E as <-.
    apply in_app_or in I. destruct I as [I|I].
    - unfold shift in I. apply in_map_iff in I. destruct I as (y & <- & _). cbn. eexists _, _. split; [reflexivity|lia].
    - destruct (IH _ _ _ Eb I) as (j & q & E & L). exists j, q. split; [exact E|lia].
  Qed.

  Lemma raws_render ts0 : forall ts n l, Forall renders_raw ts -> Forall plain ts -> Forall relative ts ->
    (forall k x, nth_error ts k = Some x -> nth_error ts0 (n + k) = Some x) -> raws P [] n ts = Some l ->
    srenders P (map erase ts) = Done (layout (total_indent ts0) l).
  Proof.
    induction ts as [|x ts IH]; intros n l H Pl Re N E; [injection E as <-; reflexivity|]. rewrite raws_cons in E.
    destruct (raw P [] x) as [a|] eqn:Ea; [|discriminate]. destruct (raws P [] (S n) ts) as [b|] eqn:Eb; [|discriminate]. injection E as <-.
    inversion H; subst. inversion Pl; subst. inversion Re; subst. cbn [map srenders]. rewrite (H2 a) by assumption. cbn [obind].
    rewrite (IH (S n) b); try assumption.
    2:{ intros k y K. specialize (N (S k) y K). rewrite Nat.add_succ_r in N. exact N. }
    cbn [obind]. f_equal. rewrite layout_app.
    - f_equal. rewrite layout_shift. apply layout_ext. intros q. cbn [app]. specialize (N 0 x eq_refl). rewrite Nat.add_0_r in N.
      cbn [total_indent]. rewrite N. reflexivity.
    - apply raws_no_gap with (ts0 := ts0) (n := n); [| |reflexivity].
      + intros m I. unfold shift in I. apply in_map_iff in I. destruct I as (y & <- & _). eexists. reflexivity.
      + intros m I. destruct (raws_positions ts (S n) b m Eb I) as (j & q & Ej & L). exists j, q. split; [exact Ej|lia].
  Qed.

  Lemma attrvals_of_spec kw : attrvals_of P kw = attr_values P kw.
  Proof.
    induction kw as [|[n v] r IH]; cbn [attrvals_of attr_values]; [reflexivity|].
    assert (E : attrval_of P v = attr_value P v).
    { destruct v as [|b| | | | | | | | | | | | |]; try reflexivity. destruct b; reflexivity. }
    rewrite E, IH. destruct (attr_value P v); [|reflexivity]. cbn [bind]. destruct (attr_values P r); reflexivity.
  Qed.

  (** the wrapper of a tag around the body *)
  Lemma expand_wrap f nl body a b : n_kind f <> KRoot -> (forall s, n_kind f <> KText s) ->
    startswith [NL] body = nl -> wrap P f nl = Some (a, b) -> (void_tag f = true -> body = []) ->
    render_body P f (Done body) = Done (a ++ body ++ b).
  Proof.
    intros K1 K2 Hn W V. unfold render_body. destruct (n_kind f) as [| |s]; [|contradiction|destruct (K2 s); reflexivity].
    unfold wrap in W. unfold void_tag in V. destruct (n_tag f) as [t|]; [|injection W as <- <-; rewrite app_nil_r; reflexivity].
    unfold expand. rewrite ?attrvals_of_spec. destruct (t_kind t) as [| |v m| | |c] eqn:Kt; cbn [out_of obind].
    - injection W as <- <-. rewrite app_nil_r. reflexivity.
    - injection W as <- <-. rewrite app_nil_r. reflexivity.
    - remember (match n_kwattrs f with Some kw => kw | None => [] end) as kw eqn:Ekw. destruct v.
      + destruct (n_attrs f); [|discriminate]. destruct (attr_values P kw) as [av|]; [|discriminate]. injection W as <- <-.
        cbn [out_of obind]. rewrite (V eq_refl). unfold markup_expand, markup_expand'. cbn. rewrite app_nil_r. reflexivity.
      + destruct (n_attrs f); [|discriminate]. destruct (attr_values P kw) as [av|]; [|discriminate]. injection W as <- <-.
        cbn [out_of obind]. unfold markup_expand, markup_expand'. cbn [m_void m_name m_mode]. rewrite Hn. cbn [out_of]. f_equal.
        cbn [app u]. rewrite <- ?app_assoc. reflexivity.
    - remember (match n_kwattrs f with Some kw => kw | None => [] end) as kw eqn:Ekw.
      destruct (n_attrs f) as [|v [|? ?]]; [discriminate| |destruct v; discriminate].
      destruct v; try discriminate. destruct (attr_values P kw) as [av|]; [|discriminate]. injection W as <- <-.
      cbn [out_of obind]. unfold custom_expand, markup_expand'. cbn [m_void m_name m_mode]. rewrite Hn. cbn [out_of]. f_equal.
      cbn. rewrite <- ?app_assoc. reflexivity.
    - destruct (n_attrs f); [|discriminate]. destruct (n_kwattrs f) as [[|? ?]|]; try discriminate; injection W as <- <-;
        unfold comment_expand; rewrite Hn; reflexivity.
    - discriminate.
  Qed.

  Lemma render_raw t : renders_raw t.
  Proof.
    induction t as [i f ts IH] using tree_ind'. intros l Pl Re E.
    apply plain_T in Pl. destruct Pl as (NR & Lf & Pl). apply relative_T in Re. destruct Re as [Ri Re].
    rewrite raw_T in E. cbn [erase]. rewrite srender_Sh.
    assert (B : exists s, raw_body P [] f ts = Some s /\ l = own [] (if n_outline f then [NL] else []) ++ s).
    { destruct (raw_body P [] f ts); [|discriminate]. injection E as <-. eexists. split; reflexivity. }
    clear E. destruct B as (s & B & ->).
    assert (T0 : total_indent ts [] = []) by reflexivity.
    assert (R : render_body P f (srenders P (map erase ts)) = Done (layout (total_indent ts) s)).
    { unfold raw_body in B. destruct (n_kind f) as [| |x] eqn:Kf; [|contradiction|].
      - destruct (raws P [] 0 ts) as [body|] eqn:Eb; [|discriminate].
        rewrite (raws_render ts ts 0 body IH Pl Re (fun k x H => H) Eb).
        destruct (wrap P f (starts_nl body)) as [[a b]|] eqn:W; [|discriminate].
        destruct (void_tag f && negb match body with [] => true | _ => false end) eqn:V; [discriminate|]. injection B as <-.
        rewrite (expand_wrap f (starts_nl body) _ a b); try assumption.
        + f_equal. rewrite !layout_app.
          * rewrite !layout_own by exact T0. reflexivity.
          * intros c p a' d q b' _ Eb'. destruct b as [|d0 b]; [discriminate|]. cbn in Eb'. injection Eb' as -> <- _. rewrite common_nil_r. exact T0.
          * intros c p a' d q b' Ea' _. assert (I : In (c, p) (own [] a)) by (rewrite Ea'; apply in_or_app; right; left; reflexivity). unfold own in I.
            apply in_map_iff in I. destruct I as (z & [= _ <-] & _). rewrite common_nil_l. exact T0.
        + rewrite Kf. discriminate.
        + intros z Z. congruence.
        + apply layout_head.
        + intros Vt. rewrite Vt in V. cbn in V. apply negb_false_iff in V. apply layout_nil. destruct body; [reflexivity|discriminate].
      - injection B as <-. unfold render_body. rewrite Kf. rewrite layout_own by exact T0. reflexivity. }
    unfold render_node. rewrite R. cbn [obind].
    assert (L : (if n_outline f then [NL] else []) ++ layout (total_indent ts) s =
                layout (total_indent ts) (own [] (if n_outline f then [NL] else []) ++ s)).
    { rewrite layout_app; [rewrite layout_own by exact T0; reflexivity|]. intros c p a' d q b' Ea' _.
      destruct (n_outline f); [|destruct a'; discriminate]. destruct a' as [|? [|? ?]]; try discriminate. injection Ea' as _ <-.
      rewrite common_nil_l. exact T0. }
    rewrite L. unfold node_indent, own_indent. cbn [label kids].
    destruct (n_indent f) as [ind|].
    - assert (Ab : absolute ind = false).
      { unfold absolute. destruct ind as [|x ind]; [reflexivity|]. cbn [startswith]. destruct (N.eqb_spec NL x) as [<-|]; [exfalso; apply Ri; left; reflexivity|reflexivity]. }
      rewrite Ab. cbn [obind]. rewrite add_indent_layout by (intros q; apply total_indent_no_NL, Re). destruct (n_kind f); [reflexivity|contradiction|reflexivity].
    - cbn [obind]. destruct (n_kind f); [|contradiction|]; f_equal; apply layout_ext; reflexivity.
  Qed.

  Lemma renders_raws ts l : Forall plain ts -> Forall relative ts -> raws P [] 0 ts = Some l ->
    srenders P (map erase ts) = Done (layout (total_indent ts) l).
  Proof.
    intros Pl Re E. apply (raws_render ts ts 0 l); try assumption; [|intros k x H; exact H].
    rewrite Forall_forall. intros x _. apply render_raw.
  Qed.
End RenderRaw.

(** ** Placement *)
Lemma unindent_T i f ts : unindent (T i f ts) = T i (with_indent f None) (map unindent ts).
Proof. reflexivity. Qed.

Lemma with_indent_fields f x : n_kind (with_indent f x) = n_kind f /\ n_tag (with_indent f x) = n_tag f /\ n_attrs (with_indent f x) = n_attrs f /\
  n_kwattrs (with_indent f x) = n_kwattrs f /\ n_outline (with_indent f x) = n_outline f /\ n_indent (with_indent f x) = x.
Proof. repeat split. Qed.

Lemma raw_unindent P t : forall p, raw P p (unindent t) = raw P p t.
Proof.
  induction t as [i f ts IH] using tree_ind'. intros p. rewrite unindent_T, !raw_T. unfold raw_body, wrap, void_tag. cbn [with_indent n_kind n_tag n_attrs n_kwattrs n_outline].
  assert (G : forall n, raws P p n (map unindent ts) = raws P p n ts).
  { clear -IH. induction IH as [|x ts Hx IH IHt]; intros n; [reflexivity|]. cbn [map raws]. rewrite Hx, IHt. reflexivity. }
  rewrite G. reflexivity.
Qed.
Lemma raws_unindent P p ts : forall n, raws P p n (map unindent ts) = raws P p n ts.
Proof. induction ts as [|x ts IH]; intros n; [reflexivity|]. cbn [map raws]. rewrite raw_unindent, IH. reflexivity. Qed.
Lemma raws_same P p n ts ts' : map unindent ts' = map unindent ts -> raws P p n ts' = raws P p n ts.
Proof. intros E. rewrite <- raws_unindent, E. apply raws_unindent. Qed.

Lemma root_unindent t : root (unindent t) = root t.
Proof. destruct t. reflexivity. Qed.
Lemma roots_unindent ts : map root (map unindent ts) = map root ts.
Proof. rewrite map_map. apply map_ext, root_unindent. Qed.
Lemma roots_same ts ts' : map unindent ts' = map unindent ts -> map root ts' = map root ts.
Proof. intros E. rewrite <- roots_unindent, E. apply roots_unindent. Qed.
Lemma ids_unindent t : ids (unindent t) = ids t.
Proof. induction t as [i f ts IH] using tree_ind'. rewrite unindent_T. cbn. f_equal. induction IH as [|x ts Hx IH IHt]; cbn; [reflexivity|]. rewrite Hx, IHt. reflexivity. Qed.
Lemma all_ids_same ts ts' : map unindent ts' = map unindent ts -> all_ids ts' = all_ids ts.
Proof.
  assert (G : forall l, all_ids (map unindent l) = all_ids l).
  { induction l as [|x l IH]; cbn; [reflexivity|]. rewrite ids_unindent. f_equal. exact IH. }
  intros E. rewrite <- G, E. apply G.
Qed.
Lemma height_unindent t : height (unindent t) = height t.
Proof.
  induction t as [i f ts IH] using tree_ind'. rewrite unindent_T, !height_T. f_equal. unfold heights. f_equal. rewrite map_map.
  induction IH as [|x ts Hx IH IHt]; cbn; [reflexivity|]. rewrite Hx. f_equal. exact IHt.
Qed.
Lemma heights_same ts ts' : map unindent ts' = map unindent ts -> heights ts' = heights ts.
Proof.
  assert (G : forall l, heights (map unindent l) = heights l).
  { intros l. unfold heights. rewrite map_map. f_equal. apply map_ext, height_unindent. }
  intros E. rewrite <- G, E. apply G.
Qed.
Lemma plain_unindent t : plain (unindent t) <-> plain t.
Proof.
  induction t as [i f ts IH] using tree_ind'. rewrite unindent_T. cbn. destruct (n_kind f).
  - induction IH as [|x ts Hx IH IHt]; cbn; [tauto|]. rewrite Hx, IHt. tauto.
  - tauto.
  - destruct ts; cbn; split; congruence.
Qed.
Lemma plain_same ts ts' : map unindent ts' = map unindent ts -> Forall plain ts -> Forall plain ts'.
Proof.
  assert (G : forall l, Forall plain (map unindent l) <-> Forall plain l).
  { induction l as [|x l IH]; cbn; [split; constructor|]. rewrite !Forall_cons_iff, plain_unindent, IH. tauto. }
  intros E H. apply G. rewrite E. apply G, H.
Qed.

Lemma skipn_app_len {A} (p r : list A) : skipn (List.length p) (p ++ r) = r.
Proof. induction p; cbn; auto. Qed.
Lemma startswith_app p r : startswith p (p ++ r) = true.
Proof. induction p as [|c p IH]; cbn [startswith app]; [destruct r; reflexivity|]. rewrite N.eqb_refl. exact IH. Qed.
Lemma abs_indent_absolute q : abs_indent q -> absolute q = true.
Proof. intros (r & -> & _). reflexivity. Qed.

(** a heap changed only at the given nodes *)
Definition changed (l : list nid) (h h' : heap) : Prop :=
  List.length h' = List.length h /\ forall i, ~ In i l -> nth_error h' i = nth_error h i.
Lemma changed_refl l h : changed l h h.
Proof. split; auto. Qed.
Lemma changed_trans l l' l'' h h' h'' : changed l h h' -> changed l' h' h'' -> incl l l'' -> incl l' l'' -> changed l'' h h''.
Proof.
  intros [A1 A2] [B1 B2] I I'. split; [congruence|]. intros i N. rewrite B2, A2; [reflexivity| |]; intros K; apply N; [apply I|apply I']; exact K.
Qed.

Lemma put_indent_changed h i x : changed [i] h (put_indent h i x).
Proof. unfold put_indent. split; [apply upd_length|]. intros j N. apply upd_other. intros ->. apply N. left. reflexivity. Qed.

Lemma put_indent_repr h i f ts x : repr h (T i f ts) -> ~ In i (all_ids ts) -> repr (put_indent h i x) (T i (with_indent f x) ts).
Proof.
  intros R N. pose proof (repr_info _ _ _ _ R) as Ri. pose proof (repr_body _ _ _ _ R) as Rb. pose proof (repr_lt _ _ R i (or_introl eq_refl)) as Lt.
  apply repr_inv in R. destruct R as [_ Rk]. unfold put_indent. rewrite Ri, Rb. constructor.
  - apply upd_same. exact Lt.
  - apply repr_frames with h; [exact Rk|]. intros j J. apply upd_other. intros ->. contradiction.
Qed.

Lemma nested_inv p a ls : nested p (L a ls) ->
  match a with None => Forall (nested p) ls | Some q => exists r, q = p ++ r /\ abs_indent q /\ Forall (nested q) ls end.
Proof. intros H. inversion H; subst; [assumption|]. exists r. split; [reflexivity|]. split; assumption. Qed.

Lemma placed_inv e i f ts l : placed e (T i f ts) l -> exists a ls, l = L a ls /\
  match a, e with
  | None, _ => n_indent f = None /\ Forall2 (placed e) ts ls
  | Some q, None => n_indent f = Some q /\ abs_indent q /\ Forall2 (placed (Some q)) ts ls
  | Some q, Some p => exists r, q = p ++ r /\ n_indent f = Some r /\ ~ In NL r /\ Forall2 (placed (Some q)) ts ls
  end.
Proof.
  intros H. inversion H; subst; eexists _, _; (split; [reflexivity|]).
  - split; assumption.
  - split; [assumption|]. split; assumption.
  - exists r. split; [reflexivity|]. split; [assumption|]. split; assumption.
Qed.

Lemma repr_put_kids h h' i f ts ts' : repr h (T i f ts) -> nth_error h' i = nth_error h i -> map root ts' = map root ts ->
  Forall (repr h') ts' -> repr h' (T i f ts').
Proof. intros R E M K. apply repr_inv in R. destruct R as [Rc _]. constructor; [|exact K]. rewrite E, M. exact Rc. Qed.

Definition relativises (k : nat) (p : str) (t : tree) : Prop := p <> [] -> forall l h, repr h t -> NoDup (ids t) -> height t <= k ->
  placed None t l -> nested p l ->
  exists h' t', relative_indent k p (root t) h = (Done tt, h') /\ repr h' t' /\ unindent t' = unindent t /\
    placed (Some p) t' l /\ changed (ids t) h h'.

Lemma relatives k p ts : p <> [] -> Forall (relativises k p) ts -> forall ls h, Forall (repr h) ts -> NoDup (all_ids ts) -> heights ts <= k ->
  Forall2 (placed None) ts ls -> Forall (nested p) ls ->
  exists h' ts', hiter (relative_indent k p) (map root ts) h = (Done tt, h') /\ Forall (repr h') ts' /\ map unindent ts' = map unindent ts /\
    Forall2 (placed (Some p)) ts' ls /\ changed (all_ids ts) h h'.
Proof.
  intros Np. induction 1 as [|x ts Hx Ht IH]; intros ls h R ND F Pl Ne.
  - inversion Pl; subst. exists h, []. repeat split; constructor.
  - inversion Pl as [|? l ? ls' Px Pt]; subst. inversion Ne as [|? ? Nx Nt]; subst. inversion R as [|? ? Rx Rt]; subst.
    rewrite heights_cons in F. change (all_ids (x :: ts)) with (ids x ++ all_ids ts) in *.
    apply NoDup_app_inv in ND. destruct ND as (N1 & N2 & D).
    destruct (Hx Np l h Rx N1 ltac:(lia) Px Nx) as (h1 & x' & E1 & R1 & U1 & P1 & C1).
    assert (Rt1 : Forall (repr h1) ts). { apply repr_frames with h; [exact Rt|]. intros i I. apply C1. intros J. exact (D i J I). }
    destruct (IH ls' h1 Rt1 N2 ltac:(lia) Pt Nt) as (h2 & ts' & E2 & R2 & U2 & P2 & C2).
    exists h2, (x' :: ts'). cbn [map hiter]. unfold hbind. rewrite E1, E2. split; [reflexivity|]. split.
    + constructor; [|exact R2]. apply repr_frame with h1; [exact R1|]. intros i I. apply C2. intros J.
      apply (D i); [|exact J]. rewrite <- ids_unindent, <- U1, ids_unindent. exact I.
    + split; [rewrite U1, U2; reflexivity|]. split; [constructor; assumption|].
      apply (changed_trans (ids x) (all_ids ts) _ h h1 h2 C1 C2); intros i I; apply in_or_app; [left|right]; exact I.
Qed.

Lemma relative_indent_spec t : forall k p, relativises k p t.
Proof.
  induction t as [i f ts IH] using tree_ind'. intros k p Np l h R ND F Pl Ne.
  destruct k as [|k]; [rewrite height_T in F; lia|]. rewrite height_T in F. cbn [relative_indent root].
  rewrite (repr_info _ _ _ _ R), (repr_body _ _ _ _ R). cbn [ids] in ND. inversion ND as [|? ? Ni Nt]; subst.
  apply placed_inv in Pl. destruct Pl as (a & ls & -> & Pl). apply nested_inv in Ne. destruct a as [q|].
  - destruct Pl as (Ei & Aq & Pl). destruct Ne as (r & -> & _ & Ne). rewrite Ei. rewrite (abs_indent_absolute _ Aq), startswith_app, skipn_app_len.
    exists (put_indent h i (Some r)), (T i (with_indent f (Some r)) ts). split; [reflexivity|]. split; [apply put_indent_repr; assumption|].
    split; [reflexivity|]. split.
    + apply placed_rel; [reflexivity| |exact Pl]. destruct Aq as (r' & E & N). destruct p as [|c p].
      * contradiction.
      * cbn in E. injection E as -> <-. intros J. apply N. apply in_or_app. right. exact J.
    + destruct (put_indent_changed h i (Some r)) as [C1 C2]. split; [exact C1|]. intros j J. apply C2. intros [<-|[]]. apply J. left. reflexivity.
  - destruct Pl as (Ei & Pl). rewrite Ei.
    destruct (relatives k p ts) with (ls := ls) (h := h) as (h' & ts' & E & R' & U & P' & C); try assumption.
    + rewrite Forall_forall in IH |- *. intros x I. apply IH, I.
    + apply repr_kids in R. exact R.
    + lia.
    + exists h', (T i f ts'). split; [exact E|]. split.
      * apply repr_put_kids with h ts; [exact R| |apply roots_same, U|exact R']. apply C. exact Ni.
      * split; [rewrite !unindent_T, U; reflexivity|]. split; [apply placed_inline; assumption|].
        destruct C as [C1 C2]. split; [exact C1|]. intros j J. apply C2. intros K. apply J. right. exact K.
Qed.

Lemma placed_relative t : forall p l, placed (Some p) t l -> relative t.
Proof.
  induction t as [i f ts IH] using tree_ind'. intros p l Pl. apply placed_inv in Pl. destruct Pl as (a & ls & -> & Pl). apply relative_T.
  assert (G : forall q ls, Forall2 (placed (Some q)) ts ls -> Forall relative ts).
  { clear -IH. intros q ls H. induction H as [|x l ts ls Hx H IHt]; constructor; inversion IH; subst; [eauto|auto]. }
  destruct a as [q|].
  - destruct Pl as (r & -> & E & N & Pl). rewrite E. split; [exact N|]. eapply G. exact Pl.
  - destruct Pl as (E & Pl). rewrite E. split; [exact Logic.I|]. eapply G. exact Pl.
Qed.
Lemma placed_relatives p ts ls : Forall2 (placed (Some p)) ts ls -> Forall relative ts.
Proof. intros H. induction H; constructor; [eapply placed_relative; eassumption|assumption]. Qed.

Lemma Forall2_nth {A B} (R : A -> B -> Prop) l m : Forall2 R l m -> forall n,
  match nth_error l n, nth_error m n with Some a, Some b => R a b | None, None => True | _, _ => False end.
Proof. induction 1 as [|a b l m H _ IH]; intros [|n]; cbn; try exact Logic.I; [exact H|apply IH]. Qed.

Lemma placed_force pos : forall p ts ls, Forall2 (placed (Some p)) ts ls -> p ++ total_indent ts pos = in_force p ls pos.
Proof.
  induction pos as [|n pos IH]; intros p ts ls H; [apply app_nil_r|]. cbn. pose proof (Forall2_nth _ _ _ H n) as K.
  destruct (nth_error ts n) as [t|], (nth_error ls n) as [l|]; try contradiction; [|apply app_nil_r].
  destruct t as [i f us]. apply placed_inv in K. destruct K as (a & ks & -> & K). cbn [label kids]. destruct a as [q|].
  - destruct K as (r & -> & -> & _ & K). rewrite app_assoc. apply IH, K.
  - destruct K as (-> & K). cbn [app]. apply IH, K.
Qed.

Lemma new_node_spec k f ts ls q h : Forall (repr h) ts -> NoDup (all_ids ts) -> heights ts <= k ->
  Forall2 (placed None) ts ls -> abs_indent q -> Forall (nested q) ls -> (forall s, n_kind f <> KText s) ->
  exists h' ts', new_node k f (map root ts) (Some q) h = (Done (List.length h), h') /\
    repr h' (T (List.length h) (with_indent f (Some q)) ts') /\ map unindent ts' = map unindent ts /\
    Forall2 (placed (Some q)) ts' ls /\
    (forall i, i < List.length h -> ~ In i (all_ids ts) -> nth_error h' i = nth_error h i).
Proof.
  intros R ND F Pl Aq Ne NT.
  assert (Lt : forall i, In i (all_ids ts) -> i < List.length h) by (apply reprs_lt; exact R).
  set (i := List.length h) in *. unfold new_node. fold i.
  set (h0 := h ++ [{| c_info := with_indent f None; c_body := map root ts |}]).
  assert (R0 : repr h0 (T i (with_indent f None) ts)).
  { constructor; [|apply reprs_app, R]. unfold h0. rewrite nth_error_app2 by apply le_n. unfold i. rewrite Nat.sub_diag. reflexivity. }
  assert (Ni : ~ In i (all_ids ts)) by (intros J; apply Lt in J; unfold i in J; lia).
  pose proof (put_indent_repr h0 i _ ts (Some q) R0 Ni) as R1. unfold hbind, set_indent.
  rewrite (repr_info _ _ _ _ R1), (repr_body _ _ _ _ R1). 
  destruct (relatives k q ts) with (ls := ls) (h := put_indent h0 i (Some q)) as (h' & ts' & E & R' & U & P' & C).
  - destruct Aq as (r & -> & _). discriminate.
  - rewrite Forall_forall. intros x _. apply relative_indent_spec.
  - apply repr_kids in R1. exact R1.
  - exact ND.
  - exact F.
  - exact Pl.
  - exact Ne.
  - rewrite E. exists h', ts'. split; [cbn; destruct (n_kind f) as [| |s]; [reflexivity|reflexivity|destruct (NT s eq_refl)]|]. split.
    + apply repr_put_kids with (put_indent h0 i (Some q)) ts; [exact R1| |apply roots_same, U|exact R']. apply C. exact Ni.
    + split; [exact U|]. split; [exact P'|]. intros j J Nj. destruct C as [_ C]. rewrite C by exact Nj.
      destruct (put_indent_changed h0 i (Some q)) as [_ C0]. rewrite C0 by (intros [<-|[]]; unfold i in J; lia).
      unfold h0. apply nth_error_app1. exact J.
Qed.

Lemma skipn_drop s : (if startswith [NL] s then skipn 1 s else s) = drop_newline s.
Proof. destruct s as [|c s]; [reflexivity|]. cbn [startswith drop_newline]. rewrite N.eqb_sym. destruct (N.eqb c NL); reflexivity. Qed.

(** The document: DOM.Root(body, indent='\n'), then its indentation is cleared. *)
Lemma document_spec P k k' ts ls h l : Forall (repr h) ts -> NoDup (all_ids ts) -> heights ts <= k -> S (heights ts) <= k' ->
  Forall2 (placed None) ts ls -> Forall (nested [NL]) ls -> Forall plain ts -> raws P [] 0 ts = Some l ->
  exists h', new_root k (map root ts) h = (Done (List.length h), h') /\
    render P k' h' (List.length h) = Done (drop_newline (layout (fun pos => tl (in_force [NL] ls pos)) l)).
Proof.
  intros R ND F F' Pl Ne Pn E.
  assert (A : abs_indent [NL]) by (exists []; split; [reflexivity|intros []]).
  set (f := root_info).
  destruct (new_node_spec k f ts ls [NL] h R ND F Pl A Ne) as (h' & ts' & E' & R' & U & P' & C); [discriminate|].
  exists (put_indent h' (List.length h) (Some [])). split; [unfold new_root, hbind; fold f; rewrite E'; reflexivity|].
  assert (Ni : ~ In (List.length h) (all_ids ts')).
  { rewrite (all_ids_same _ _ U). intros J. apply (reprs_lt _ _ R) in J. lia. }
  pose proof (put_indent_repr h' _ _ ts' (Some []) R' Ni) as R2.
  assert (Hh : height (T (List.length h) f ts') <= k') by (rewrite height_T, (heights_same _ _ U); exact F').
  assert (Rr := render_srender P _ k' _ R2 Hh). cbn [root] in Rr. rewrite Rr. cbn [erase]. rewrite srender_Sh.
  rewrite (renders_raws P ts' l); [|apply plain_same with ts; assumption|eapply placed_relatives; exact P'|rewrite (raws_same P [] 0 ts ts' U); exact E].
  assert (K : forall s, render_node P (with_indent (with_indent f (Some [NL])) (Some [])) (Done s) = Done (drop_newline s)).
  { intros s. rewrite <- skipn_drop. reflexivity. }
  rewrite K. do 2 f_equal. apply layout_ext.
  intros pos. rewrite <- (placed_force pos [NL] ts' ls P'). reflexivity.
Qed.
