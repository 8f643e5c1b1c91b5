(** DOM trees of pages and their rendering. *)
From Coq Require Import List NArith Bool Lia Arith String.
From Verif Require Import PyStr PyStrFacts Html HtmlFacts Indent IndentSpec IndentFacts PyDict Value Dom DomSpec DomFacts Ast Machine Translate
  PageSpec PageFlat.
Import ListNotations.
Local Open Scope string_scope.
Local Open Scope list_scope.
Local Open Scope N_scope.

Definition kwargs (a : list (str * str)) : list (str * val) := map (fun nv => (fst nv, VStr (snd nv))) a.

(** The shapes of the trees of a page; [ind] is the indentation of its blocks. *)
Section Shapes.
  Variable tag_of : str -> tag.

  Definition margin_sh (m : nat) : list shape :=
    match m with O => [] | S _ => [Sh (text_info (repeatc NL m)) []] end.
  Definition text_sh (o : bool) (ind : str) (t : str) : shape := Sh (with_indent (with_outline (text_info t) o) (Some ind)) [].
  Definition tag_sh (o : bool) (n : str) (a : list (str * str)) (ind : str) (kids : list shape) : shape :=
    Sh (with_indent (with_outline (node_info (tag_of n) [] (Some (kwargs a))) o) (Some ind)) kids.
  Definition outlined (d : placement) : bool := match d with Append _ => false | _ => true end.
  Definition margin_of (d : placement) (ind : str) : str := match d with Dedent _ => [] | _ => ind end.

  Fixpoint shapes (ind : str) (t : page) : list shape :=
    match t with
    | Line m d k x => margin_sh m ++ [text_sh (outlined d) (margin_of d ind) (text_html k x)]
    | Note m x => margin_sh m
    | Leaf m d n a c => margin_sh m ++ [tag_sh (outlined d) n a (margin_of d ind) (match c with
                                                      | Some (k, x) => [text_sh false [] (text_html k x)]
                                                      | None => []
                                                      end)]
    | Node m d n a w kids => margin_sh m ++ [tag_sh (outlined d) n a (margin_of d ind) (flat_map (shapes w) kids)]
    end.
End Shapes.

(** Lines, each with a newline in front. *)
Definition nlines (ls : list str) : str := flat_map (cons NL) ls.
Lemma nlines_app a b : nlines (a ++ b) = nlines a ++ nlines b.
Proof. apply flat_map_app. Qed.
Lemma nlines_join ls : join [NL] ([] :: ls) = nlines ls.
Proof.
  induction ls as [|l ls IH]; [reflexivity|]. rewrite join_cons by discriminate. cbn [app nlines flat_map]. f_equal.
  destruct ls as [|l' ls]; [cbn; now rewrite app_nil_r|]. rewrite join_cons by discriminate. f_equal.
  rewrite join_cons in IH by discriminate. exact IH.
Qed.
Lemma nlines_tl ls : ls <> [] -> nlines ls = NL :: join [NL] ls.
Proof. intros H. rewrite <- nlines_join. rewrite join_cons by exact H. reflexivity. Qed.
Lemma nlines_blanks m : nlines (blanks m) = repeatc NL m.
Proof. unfold blanks. induction m as [|m IH]; [reflexivity|]. cbn [repeat nlines flat_map app]. unfold repeatc in *. cbn [repeat]. f_equal. exact IH. Qed.
Lemma indent_blanks d m : map (indent_line d) (blanks m) = blanks m.
Proof. unfold blanks. induction m as [|m IH]; cbn; [reflexivity|]. f_equal. exact IH. Qed.

Lemma add_indent_head h ls d : ~ In NL h -> (forall l, In l ls -> ~ In NL l) -> add_indent (h ++ nlines ls) d = h ++ nlines (map (indent_line d) ls).
Proof.
  intros Hh H.
  assert (J : forall z, h ++ nlines z = join [NL] (h :: z)).
  { intros z. destruct z as [|y z]; [cbn; now rewrite app_nil_r|]. rewrite nlines_tl by discriminate. rewrite (join_cons [NL] h (y :: z)) by discriminate. reflexivity. }
  rewrite J. rewrite (add_indent_lines _ d h ls).
  - symmetry. apply J.
  - apply lines_join; [discriminate|]. intros l [<-|I]; [exact Hh|apply H, I].
Qed.

Lemma add_indent_nlines ls d : (forall l, In l ls -> ~ In NL l) -> add_indent (nlines ls) d = nlines (map (indent_line d) ls).
Proof.
  intros H. rewrite <- nlines_join. rewrite (add_indent_lines _ d [] ls).
  - apply nlines_join.
  - apply lines_join; [discriminate|]. intros l [<-|J]; [intros []|apply H, J].
Qed.

Lemma esc_html c : esc c = html_char c.
Proof.
  unfold esc, html_char. destruct (N.eqb_spec c 38); [reflexivity|]. destruct (N.eqb_spec c 62) as [->|]; [reflexivity|].
  destruct (c =? 60); reflexivity.
Qed.
Lemma html_escape_chars t : html_escape t = flat_map html_char t.
Proof. rewrite html_escape_flat. apply flat_map_ext'. intros c. apply esc_html. Qed.
Lemma sesc_attr c : sesc c = attr_char c.
Proof.
  unfold sesc, attr_char, html_char. destruct (N.eqb_spec c 38) as [->|]; [reflexivity|]. destruct (N.eqb_spec c 62) as [->|]; [reflexivity|].
  destruct (N.eqb_spec c 60) as [->|]; [reflexivity|]. reflexivity.
Qed.
Lemma html_char_In c d : In d (html_char c) -> d = c \/ (d <> NL /\ d <> 34).
Proof.
  unfold html_char. destruct (c =? 38); [cbn; intuition (subst; right; split; discriminate)|].
  destruct (c =? 60); [cbn; intuition (subst; right; split; discriminate)|].
  destruct (c =? 62); [cbn; intuition (subst; right; split; discriminate)|]. intros [->|[]]. left. reflexivity.
Qed.
Lemma attr_char_In c d : In d (attr_char c) -> d = c \/ (d <> NL /\ d <> 34).
Proof.
  unfold attr_char. destruct (c =? 10); [cbn; intuition (subst; right; split; discriminate)|].
  destruct (c =? 13); [cbn; intuition (subst; right; split; discriminate)|].
  destruct (c =? 9); [cbn; intuition (subst; right; split; discriminate)|]. apply html_char_In.
Qed.

(** ** The lines of a page contain no newlines. *)
Lemma rstrip_In x c : In c (rstrip x) -> In c x.
Proof. destruct (rstrip_decomp x) as (y & E & _). intros H. rewrite E. apply in_or_app. left. exact H. Qed.
Lemma trimmed_In x c : In c (trimmed x) -> In c x.
Proof.
  unfold trimmed. intros H. apply rstrip_In. destruct (rstrip x) as [|d r]; [destruct H|]. destruct (is_space d); [right|]; exact H.
Qed.
Lemma text_html_no_NL k x : ~ In NL x -> ~ In NL (text_html k x).
Proof.
  intros H J. destruct k; cbn [text_html] in J; try (apply H, trimmed_In, J).
  apply in_flat_map in J. destruct J as (c & I & J). apply html_char_In in J. destruct J as [<-|[J _]]; [|apply J; reflexivity].
  apply H, trimmed_In, I.
Qed.
Lemma letter_no_NL c : letter c = true -> c <> NL.
Proof. intros H ->. discriminate. Qed.
Lemma tag_name_no_NL n : tag_name n -> ~ In NL n.
Proof.
  intros [(c & r & -> & L & R) _] [E|I]; [apply (letter_no_NL c L); exact E|]. specialize (R _ I). discriminate.
Qed.
Lemma attr_name_no_NL n : attr_name n -> ~ In NL n.
Proof.
  intros (c & r & -> & L & R) [E|I]; [apply (letter_no_NL c L); exact E|]. specialize (R _ I). discriminate.
Qed.
Lemma attr_name_ne n : attr_name n -> n <> [].
Proof. intros (c & r & -> & _). discriminate. Qed.
Lemma attr_html_no_NL a : PageSpec.attr_ok a -> ~ In NL (attr_html a).
Proof.
  intros [Hn Hv] J. unfold attr_html in J. rewrite !in_app_iff in J.
  destruct J as [J|[J|[J|[J|J]]]]; [cbn in J; intuition discriminate|apply (attr_name_no_NL _ Hn J)|cbn in J; intuition discriminate| |cbn in J; intuition discriminate].
  apply in_flat_map in J. destruct J as (c & I & J). apply attr_char_In in J. destruct J as [<-|[J _]]; [|apply J; reflexivity].
  destruct (Hv _ I) as (X & _). apply X. reflexivity.
Qed.
Lemma open_html_no_NL n a : tag_name n -> attrs_ok a -> ~ In NL (open_html n a).
Proof.
  intros Hn [_ Ha] J. unfold open_html in J. rewrite !in_app_iff in J. destruct J as [J|[J|J]]; [cbn in J; intuition discriminate|apply (tag_name_no_NL _ Hn J)|].
  apply in_flat_map in J. destruct J as (x & I & J). rewrite Forall_forall in Ha. apply (attr_html_no_NL x (Ha x I) J).
Qed.
Lemma close_html_no_NL n : tag_name n -> ~ In NL (close_html n).
Proof.
  intros Hn J. unfold close_html in J. rewrite !in_app_iff in J. destruct J as [J|[J|J]]; [cbn in J; intuition discriminate|apply (tag_name_no_NL _ Hn J)|cbn in J; intuition discriminate].
Qed.
Lemma blanks_no_NL m l : In l (blanks m) -> ~ In NL l.
Proof. unfold blanks. intros H. apply repeat_spec in H. subst. intros []. Qed.
Lemma blank_no_NL w : (forall c, In c w -> c = SP \/ c = TAB) -> ~ In NL w.
Proof. intros H J. destruct (H _ J); discriminate. Qed.

(** ** Pieces as text in a block indented by [d] *)
Definition ptx (d : str) (p : piece) : str := fst p ++ nlines (map (line_at d) (snd p)).
Lemma line_at_glue d b l x : line_at d (match l with [] => false | _ => b end, l ++ x) = line_at d (b, l) ++ x.
Proof. destruct l as [|c l]; destruct b; reflexivity || (unfold line_at; cbn [fst snd app indent_line]; rewrite <- ?app_assoc; reflexivity). Qed.
Lemma glue_lines_cons x y r q : glue_lines (x :: y :: r) q = x :: glue_lines (y :: r) q.
Proof. destruct x. reflexivity. Qed.
Lemma ptx_glue_lines d q ls : ls <> [] -> nlines (map (line_at d) (glue_lines ls q)) = nlines (map (line_at d) ls) ++ ptx d q.
Proof.
  induction ls as [|x r IH]; intros H; [destruct H; reflexivity|]. destruct r as [|y r].
  - destruct x as [b l]. cbn [glue_lines map nlines flat_map]. rewrite line_at_glue. unfold ptx. fold (nlines (map (line_at d) (snd q))).
    rewrite app_nil_r. cbn [app]. rewrite <- app_assoc. reflexivity.
  - rewrite glue_lines_cons. cbn [map nlines flat_map]. fold (nlines (map (line_at d) (glue_lines (y :: r) q))). rewrite IH by discriminate.
    cbn [map nlines flat_map app]. rewrite <- !app_assoc. cbn [app]. rewrite <- ?app_assoc. reflexivity.
Qed.
Lemma ptx_glue d p q : ptx d (glue p q) = ptx d p ++ ptx d q.
Proof.
  unfold glue. destruct p as [h [|x r]]; cbn [fst snd].
  - unfold ptx. cbn [fst snd map nlines flat_map]. rewrite app_nil_r, <- app_assoc. reflexivity.
  - unfold ptx at 1. cbn [fst snd]. rewrite ptx_glue_lines by discriminate. unfold ptx at 2. cbn [fst snd]. rewrite app_assoc. reflexivity.
Qed.
Lemma line_at_false d ls : map (line_at d) (map (pair false) ls) = ls.
Proof. rewrite map_map. cbn. apply map_id. Qed.
Lemma line_at_true d ls : map (line_at d) (map (pair true) ls) = map (indent_line d) ls.
Proof. rewrite map_map. reflexivity. Qed.
Lemma ptx_blanks d m : ptx d ([], map (pair false) (blanks m)) = nlines (blanks m).
Proof. unfold ptx. cbn [fst snd app]. rewrite line_at_false. reflexivity. Qed.
Lemma ptx_lay d m f l r : ptx d (lay m f (l :: r)) =
  nlines (blanks m) ++ (if outlined f then [NL] else []) ++ (if outlined f then indent_line (margin_of f d) l else l) ++ nlines (map (indent_line (margin_of f d)) r).
Proof.
  unfold lay. rewrite ptx_glue, ptx_blanks. f_equal. unfold ptx. destruct f; cbn [fst snd outlined margin_of app].
  - rewrite line_at_true. reflexivity.
  - rewrite line_at_true. reflexivity.
  - rewrite line_at_false. rewrite (map_ext (indent_line []) (fun l => l)) by (intros []; reflexivity). rewrite map_id.
    replace (indent_line [] l) with l by (destruct l; reflexivity). reflexivity.
Qed.
Lemma ptx_note d m : ptx d (lay m Own []) = nlines (blanks m).
Proof. unfold lay. rewrite ptx_glue, ptx_blanks. cbn. apply app_nil_r. Qed.

(** No newlines in pieces. *)
Definition flatp (p : piece) : Prop := ~ In NL (fst p) /\ forall x, In x (snd p) -> ~ In NL (snd x).
Lemma flatp_glue p q : flatp p -> flatp q -> flatp (glue p q).
Proof.
  intros [P1 P2] [Q1 Q2]. unfold glue. destruct p as [h ls]. cbn [fst snd] in *.
  assert (K : forall ls, ls <> [] -> (forall x, In x ls -> ~ In NL (snd x)) -> forall x, In x (glue_lines ls q) -> ~ In NL (snd x)).
  { induction ls0 as [|y r IH]; intros NE HL x I; [destruct NE; reflexivity|]. destruct r as [|z r].
    - destruct y as [b l]. cbn [glue_lines] in I. destruct I as [<-|I]; [|apply Q2, I]. cbn [snd]. rewrite in_app_iff. intros [J|J]; [|exact (Q1 J)].
      apply (HL (b, l)); [left; reflexivity|exact J].
    - rewrite glue_lines_cons in I. destruct I as [<-|I]; [apply HL; left; reflexivity|]. apply IH; [discriminate| |exact I]. intros y' Y. apply HL. right. exact Y. }
  destruct ls as [|y r]; split; cbn [fst snd].
  - rewrite in_app_iff. intros [J|J]; [exact (P1 J)|exact (Q1 J)].
  - exact Q2.
  - exact P1.
  - apply K; [discriminate|exact P2].
Qed.
Lemma flatp_lay m f ls : (forall l, In l ls -> ~ In NL l) -> flatp (lay m f ls).
Proof.
  intros H. unfold lay. apply flatp_glue.
  - split; [intros []|]. cbn [snd]. intros x I. apply in_map_iff in I. destruct I as (l & <- & I). apply (blanks_no_NL m l I).
  - assert (K : forall b z, (forall l, In l z -> ~ In NL l) -> forall x, In x (map (pair b) z) -> ~ In NL (snd (x : bool * str))).
    { intros b z Hz x I. apply in_map_iff in I. destruct I as (l & <- & I). apply Hz, I. }
    destruct f; [|destruct ls as [|l r]|]; split; cbn [fst snd]; try (intros []; fail); try (apply K, H).
    + apply H. left. reflexivity.
    + apply K. intros z Z. apply H. right. exact Z.
Qed.
Lemma line_at_no_NL w x : ~ In NL w -> ~ In NL (snd x) -> ~ In NL (line_at w x).
Proof. intros H I. unfold line_at. destruct (fst x); [apply indent_line_no_NL; assumption|exact I]. Qed.
Lemma tack_In ls x l : In l (tack ls x) -> In l ls \/ l = x \/ exists l', In l' ls /\ l = l' ++ x.
Proof.
  induction ls as [|y r IH]; cbn [tack]; [intros [<-|[]]; auto|]. destruct r as [|z r].
  - intros [<-|[]]. right. right. exists y. split; [left|]; reflexivity.
  - intros [<-|I]; [left; left; reflexivity|]. destruct (IH I) as [J|[J|(l' & J & E)]]; [left; right; exact J|right; left; exact J|].
    right. right. exists l'. split; [right; exact J|exact E].
Qed.
Lemma element_no_NL o c h ls : ~ In NL o -> ~ In NL c -> ~ In NL h -> (forall l, In l ls -> ~ In NL l) -> forall l, In l (element o c h ls) -> ~ In NL l.
Proof.
  intros Ho Hc Hh Hl l I.
  assert (T : In l (tack ((o ++ h) :: ls) c) -> ~ In NL l).
  { intros J.
    assert (K : forall z, In z ((o ++ h) :: ls) -> ~ In NL z).
    { intros z [<-|Z]; [|apply Hl, Z]. rewrite in_app_iff. intros [A|A]; [exact (Ho A)|exact (Hh A)]. }
    apply tack_In in J. destruct J as [J|[->|(l' & J & ->)]]; [apply K, J|exact Hc|]. rewrite in_app_iff. intros [A|A]; [exact (K l' J A)|exact (Hc A)]. }
  unfold element in I. destruct h as [|h0 h]; [|apply T, I]. destruct ls as [|l0 ls]; [apply T, I|].
  destruct I as [<-|I]; [exact Ho|]. apply in_app_or in I. destruct I as [I|[<-|[]]]; [apply Hl, I|exact Hc].
Qed.
Lemma nlines_tack l r x : exists l' r', tack (l :: r) x = l' :: r' /\ l' ++ nlines r' = l ++ nlines r ++ x.
Proof.
  revert l. induction r as [|y r IH]; intros l.
  - exists (l ++ x), []. split; [reflexivity|]. cbn. rewrite app_nil_r. reflexivity.
  - destruct (IH y) as (l' & r' & E & F). exists l, (l' :: r'). split.
    + change (tack (l :: y :: r) x) with (l :: tack (y :: r) x). rewrite E. reflexivity.
    + cbn [nlines flat_map app]. fold (nlines r'). fold (nlines r). rewrite F. rewrite <- ?app_assoc. reflexivity.
Qed.
Lemma element_text o c h ls : ~ In NL h -> exists l r, element o c h ls = l :: r /\
  l ++ nlines r = o ++ (h ++ nlines ls) ++ (if startswith [NL] (h ++ nlines ls) then [NL] else []) ++ c.
Proof.
  intros Hh. unfold element. destruct h as [|h0 h].
  - destruct ls as [|l0 ls].
    + exists ((o ++ []) ++ c), []. split; [reflexivity|]. cbn. rewrite !app_nil_r. reflexivity.
    + exists o, ((l0 :: ls) ++ [c]). split; [reflexivity|]. rewrite nlines_app. cbn [nlines flat_map app startswith]. rewrite N.eqb_refl. cbn [app].
      rewrite app_nil_r. rewrite <- !app_assoc. reflexivity.
  - destruct (nlines_tack (o ++ h0 :: h) ls c) as (l & r & E & F). exists l, r. split; [exact E|]. rewrite F.
    assert (S0 : startswith [NL] ((h0 :: h) ++ nlines ls) = false).
    { cbn [app startswith]. destruct (N.eqb_spec NL h0) as [<-|]; [|reflexivity]. destruct Hh. left. reflexivity. }
    rewrite S0. rewrite <- !app_assoc. reflexivity.
Qed.

Section Render.
  Variable known : str -> option bool.
  Local Notation void := (PageSpec.void known).

  Lemma leaf_no_NL n a c v : tag_name n -> attrs_ok a -> (forall k x, c = Some (k, x) -> v = false /\ ~ In NL x) ->
    ~ In NL (open_html n a ++ if void n then u " />" else u ">" ++ match c with Some (k, x) => text_html k x | None => [] end ++ close_html n).
  Proof.
    intros Hn Ha Hc. rewrite in_app_iff. intros [J|J]; [apply (open_html_no_NL _ _ Hn Ha J)|]. destruct (void n); [cbn in J; intuition discriminate|].
    rewrite !in_app_iff in J. destruct J as [J|[J|J]]; [cbn in J; intuition discriminate| |apply (close_html_no_NL _ Hn J)].
    destruct c as [[k x]|]; [|destruct J]. destruct (Hc k x eq_refl) as [_ X]. apply (text_html_no_NL k x X J).
  Qed.
  Lemma html_flat t : wf known t -> flatp (html void t).
  Proof.
    induction t as [m f k x|m x|m f n a c|m f n a w kids IH] using page_ind'; intros H; cbn [html]; apply flatp_lay; intros l I.
    - inversion H; subst. destruct I as [<-|[]]. apply text_html_no_NL; assumption.
    - destruct I.
    - inversion H as [| |? ? ? ? ? v Hn Ha Hk Hc|]; subst. destruct I as [<-|[]]. exact (leaf_no_NL n a c v Hn Ha Hc).
    - inversion H as [| | |? ? ? ? ? ? Hn Ha Hk Hw0 Hw Hk0 Hkids]; subst.
      assert (K : flatp (fold_right (fun t p => glue (html void t) p) ([], []) kids)).
      { clear -IH Hkids. induction IH as [|t kids Ht IH IHk]; [split; [intros []|intros y []]|]. inversion Hkids; subst. cbn [fold_right]. apply flatp_glue; [apply Ht|apply IHk]; assumption. }
      destruct K as [K1 K2]. revert I. apply element_no_NL.
      + rewrite in_app_iff. intros [J|J]; [apply (open_html_no_NL _ _ Hn Ha J)|cbn in J; intuition discriminate].
      + apply (close_html_no_NL _ Hn).
      + exact K1.
      + intros z Z. apply in_map_iff in Z. destruct Z as (y & <- & Z). apply line_at_no_NL; [apply (blank_no_NL w Hw)|apply K2, Z].
  Qed.
  Lemma htmls_flat doc : Forall (wf known) doc -> flatp (htmls void doc).
  Proof. intros H. induction H as [|t doc Ht H IH]; [split; [intros []|intros y []]|]. cbn [htmls fold_right]. apply flatp_glue; [apply html_flat, Ht|exact IH]. Qed.

  (** ** Rendering *)
  Variable R : rprims.
  Variable tag_of : str -> tag.
  Hypothesis tags : forall n v, known n = Some v -> t_name (tag_of n) = n /\ exists md, t_kind (tag_of n) = KMarkup v md.

  Lemma attrvals_kwargs a : attrvals_of R (kwargs a) = Ok (map (fun nv => (fst nv, AOther (snd nv))) a).
  Proof. induction a as [|[n v] a IH]; [reflexivity|]. cbn [kwargs map attrvals_of]. unfold kwargs in IH. rewrite IH. reflexivity. Qed.

  Lemma quoteattr_simple v : ~ In 34 v -> quoteattr v = u """" ++ flat_map attr_char v ++ u """".
  Proof.
    intros H. unfold quoteattr. rewrite sax_escape_flat. rewrite (flat_map_ext' sesc attr_char) by apply sesc_attr.
    assert (E : mem DQ (flat_map attr_char v) = false).
    { apply mem_not_In. intros J. apply in_flat_map in J. destruct J as (c & I & J). apply attr_char_In in J.
      destruct J as [<-|[_ J]]; [exact (H I)|apply J; reflexivity]. }
    rewrite E. reflexivity.
  Qed.

  Lemma open_tag_attrs mo n a : Forall PageSpec.attr_ok a ->
    open_tag mo n (map (fun nv => (fst nv, AOther (snd nv))) a) = n ++ flat_map attr_html a.
  Proof.
    intros H. unfold open_tag.
    assert (E : filter_none (map (fun nv => render_attr mo (fst nv) (snd nv)) (map (fun nv : str * str => (fst nv, AOther (snd nv))) a)) =
                map (fun nv => fst nv ++ u "=""" ++ flat_map attr_char (snd nv) ++ u """") a).
    { induction H as [|[k v] a [Hk Hv] H IH]; [reflexivity|]. cbn [map fst snd render_attr filter_none].
      assert (Q : quoteattr v = u """" ++ flat_map attr_char v ++ u """"). { apply quoteattr_simple. intros J. destruct (Hv _ J) as (_ & X & _). apply X. reflexivity. }
      rewrite Q. cbn [fst] in Hk. destruct Hk as (c & r & -> & _). cbn [app filter_none]. f_equal. exact IH. }
    rewrite E. clear E H. revert n. induction a as [|x a IH]; intros n; [cbn; now rewrite app_nil_r|].
    cbn [map flat_map]. rewrite join_cons by discriminate. f_equal. rewrite IH. unfold attr_html. rewrite <- !app_assoc. reflexivity.
  Qed.

  Lemma render_text_sh o ind t : absolute ind = false -> srender R (text_sh o ind t) = Done (add_indent ((if o then [NL] else []) ++ t) ind).
  Proof. intros H. unfold text_sh. rewrite srender_Sh. unfold render_node, render_body.
    cbn [with_indent with_outline text_info n_kind n_outline n_indent obind]. rewrite H. reflexivity. Qed.

  Lemma render_tag_sh o n a ind ss body v : known n = Some v -> attrs_ok a -> absolute ind = false -> srenders R ss = Done body -> (v = true -> body = []) ->
    srender R (tag_sh tag_of o n a ind ss) =
    Done (add_indent ((if o then [NL] else []) ++ open_html n a ++ (if v then u " />" else u ">" ++ body ++ (if startswith [NL] body then [NL] else []) ++ close_html n)) ind).
  Proof.
    intros Hk [_ Ha] Hi Hs Hv. unfold tag_sh. rewrite srender_Sh, Hs. unfold render_node, render_body.
    cbn [with_indent with_outline node_info n_kind n_tag n_attrs n_kwattrs n_outline n_indent].
    unfold expand. destruct (tags n v Hk) as (Tn & mo & Tk). rewrite Tk, Tn, attrvals_kwargs. cbn [out_of obind].
    unfold markup_expand, markup_expand'. cbn [m_void m_name m_mode]. rewrite (open_tag_attrs mo n a Ha). destruct v.
    - rewrite (Hv eq_refl). cbn [out_of obind]. rewrite Hi. cbn [obind]. do 2 f_equal; unfold open_html; cbn [app]; rewrite <- ?app_assoc; reflexivity.
    - cbn [out_of obind]. rewrite Hi. cbn [obind]. do 2 f_equal; unfold open_html, close_html; cbn [app]; rewrite <- ?app_assoc; reflexivity.
  Qed.

  Lemma srenders_app a b : forall x y, srenders R a = Done x -> srenders R b = Done y -> srenders R (a ++ b) = Done (x ++ y).
  Proof.
    induction a as [|s a IH]; intros x y Ha Hb; cbn [srenders app] in *; [injection Ha as <-; exact Hb|].
    destruct (srender R s) as [p| |]; try discriminate. cbn [obind] in *. destruct (srenders R a) as [q| |]; try discriminate. cbn [obind] in Ha.
    injection Ha as <-. rewrite (IH q y eq_refl Hb). cbn [obind]. now rewrite <- app_assoc.
  Qed.
  Lemma render_margin m : srenders R (margin_sh m) = Done (nlines (blanks m)).
  Proof. rewrite nlines_blanks. destruct m; [reflexivity|]. cbn. rewrite ?app_nil_r. reflexivity. Qed.

  Lemma not_absolute d : ~ In NL d -> absolute d = false.
  Proof.
    intros H. destruct d as [|c d]; [reflexivity|]. unfold absolute. cbn [startswith]. destruct (N.eqb_spec NL c) as [<-|]; [|reflexivity].
    destruct H. left. reflexivity.
  Qed.

  (** The text of a block of the lines [l :: r]. *)
  Lemma laid m f d l r : ~ In NL d -> (forall z, In z (l :: r) -> ~ In NL z) ->
    ptx d (lay m f (l :: r)) = nlines (blanks m) ++ add_indent ((if outlined f then [NL] else []) ++ l ++ nlines r) (margin_of f d).
  Proof.
    intros Hd H. rewrite ptx_lay. f_equal. destruct (outlined f).
    - change ([NL] ++ l ++ nlines r) with (nlines (l :: r)). rewrite add_indent_nlines by exact H. reflexivity.
    - cbn [app]. rewrite add_indent_head; [reflexivity|apply H; left; reflexivity|]. intros z Z. apply H. right. exact Z.
  Qed.
  Lemma margin_of_NL f d : ~ In NL d -> ~ In NL (margin_of f d).
  Proof. destruct f; cbn; auto. Qed.

  Lemma render_page t : wf known t -> forall d, ~ In NL d ->
    srenders R (shapes tag_of d t) = Done (ptx d (html void t)).
  Proof.
    induction t as [m f k x|m x|m f n a c|m f n a w kids IH] using page_ind'; intros H d Hd; cbn [html shapes].
    - rewrite laid by (try exact Hd; intros z [<-|[]]; inversion H; subst; apply text_html_no_NL; assumption).
      apply srenders_app; [apply render_margin|]. cbn [srenders].
      rewrite render_text_sh by (apply not_absolute, margin_of_NL, Hd). cbn [obind nlines flat_map]. rewrite !app_nil_r. reflexivity.
    - rewrite ptx_note. apply render_margin.
    - inversion H as [| |? ? ? ? ? v Hn Ha Hk Hc|]; subst.
      rewrite laid by (try exact Hd; intros z [<-|[]]; exact (leaf_no_NL n a c v Hn Ha Hc)).
      apply srenders_app; [apply render_margin|]. cbn [srenders].
      assert (B : srenders R match c with Some (k, x) => [text_sh false [] (text_html k x)] | None => [] end =
                  Done match c with Some (k, x) => text_html k x | None => [] end).
      { destruct c as [[k x]|]; [|reflexivity]. cbn [srenders]. rewrite render_text_sh by reflexivity. cbn [obind]. rewrite app_nil_r. reflexivity. }
      rewrite (render_tag_sh (outlined f) n a _ _ _ v Hk Ha (not_absolute _ (margin_of_NL f d Hd)) B); cbn [obind].
      2:{ intros ->. destruct c as [[k x]|]; [|reflexivity]. destruct (Hc k x eq_refl). discriminate. }
      rewrite app_nil_r. f_equal.
      assert (V : void n = v) by (unfold PageSpec.void; rewrite Hk; reflexivity). rewrite V.
      assert (NB : startswith [NL] match c with Some (k, x) => text_html k x | None => [] end = false).
      { destruct c as [[k x]|]; [|reflexivity]. destruct (Hc k x eq_refl) as [_ X]. apply (not_absolute (text_html k x)), text_html_no_NL, X. }
      rewrite NB. cbn [app nlines flat_map]. rewrite app_nil_r. reflexivity.
    - inversion H as [| | |? ? ? ? ? ? Hn Ha Hk Hw0 Hw Hk0 Hkids]; subst. pose proof (blank_no_NL w Hw) as Nw.
      pose proof (htmls_flat kids Hkids) as [NK1 NK2]. unfold htmls in NK1, NK2. cbv zeta. pose proof (html_flat _ H) as HF.
      assert (B : srenders R (flat_map (shapes tag_of w) kids) = Done (ptx w (fold_right (fun t p => glue (html void t) p) ([], []) kids))).
      { clear -IH Hkids Nw. induction IH as [|t kids Ht IH IHk]; [reflexivity|]. inversion Hkids; subst. cbn [flat_map fold_right]. rewrite ptx_glue.
        apply srenders_app; [apply Ht; assumption|apply IHk; assumption]. }
      set (p := fold_right (fun t p => glue (html void t) p) ([], []) kids) in *.
      assert (EN : forall l, In l (element (open_html n a ++ u ">") (close_html n) (fst p) (map (line_at w) (snd p))) -> ~ In NL l).
      { apply element_no_NL.
        + rewrite in_app_iff. intros [J|J]; [apply (open_html_no_NL _ _ Hn Ha J)|cbn in J; intuition discriminate].
        + apply (close_html_no_NL _ Hn).
        + exact NK1.
        + intros z Z. apply in_map_iff in Z. destruct Z as (y & <- & Z). apply line_at_no_NL; [exact Nw|apply NK2, Z]. }
      destruct (element_text (open_html n a ++ u ">") (close_html n) (fst p) (map (line_at w) (snd p)) NK1) as (l & r & E & F). rewrite E in EN |- *.
      rewrite laid by assumption. apply srenders_app; [apply render_margin|]. cbn [srenders].
      rewrite (render_tag_sh (outlined f) n a _ _ _ false Hk Ha (not_absolute _ (margin_of_NL f d Hd)) B) by discriminate. cbn [obind]. rewrite app_nil_r.
      rewrite F. unfold ptx. rewrite <- !app_assoc. reflexivity.
  Qed.

  Lemma render_pages doc d : Forall (wf known) doc -> ~ In NL d ->
    srenders R (flat_map (shapes tag_of d) doc) = Done (ptx d (htmls void doc)).
  Proof.
    intros H Hd. induction H as [|t doc Ht H IH]; [reflexivity|]. cbn [flat_map htmls fold_right]. rewrite ptx_glue.
    apply srenders_app; [apply render_page; assumption|exact IH].
  Qed.

  Lemma indent_line_nil l : indent_line [] l = l.
  Proof. destruct l; reflexivity. Qed.
  Lemma line_at_nil l : line_at [] l = snd l.
  Proof. unfold line_at. destruct (fst l); [apply indent_line_nil|reflexivity]. Qed.

  (** The root, with the margin at the end of the script. *)
  Lemma render_root doc k : doc <> [] -> Forall (wf known) doc ->
    srender R (Sh (with_indent root_info (Some [])) (flat_map (shapes tag_of []) doc ++ margin_sh k)) = Done (page_html void doc k).
  Proof.
    intros NE H. rewrite srender_Sh.
    assert (B : srenders R (flat_map (shapes tag_of []) doc ++ margin_sh k) = Done (ptx [] (glue (htmls void doc) ([], map (pair false) (blanks k))))).
    { rewrite ptx_glue, ptx_blanks. apply srenders_app; [|apply render_margin]. rewrite render_pages; [reflexivity|exact H|intros []]. }
    rewrite B. unfold render_node. cbn [with_indent n_kind n_tag n_outline n_indent root_info render_body obind app absolute startswith add_indent].
    assert (FL : flatp (glue (htmls void doc) ([], map (pair false) (blanks k)))).
    { apply flatp_glue; [apply htmls_flat, H|]. split; [intros []|]. cbn [snd]. intros x I. apply in_map_iff in I. destruct I as (l & <- & I). apply (blanks_no_NL k l I). }
    unfold page_html, page_text, ptx. destruct (glue (htmls void doc) ([], map (pair false) (blanks k))) as [h ls]. cbn [fst snd] in *. f_equal.
    rewrite (map_ext _ _ line_at_nil). destruct FL as [FL _]. cbn [fst] in FL. destruct h as [|c h].
    - destruct ls as [|l0 ls]; [reflexivity|]. cbn [map]. rewrite nlines_tl by discriminate. reflexivity.
    - assert (E : (c =? NL) = false). { destruct (N.eqb_spec c NL) as [->|]; [|reflexivity]. destruct FL. left. reflexivity. }
      destruct ls as [|l0 ls].
      + cbn [map nlines flat_map join]. rewrite app_nil_r. cbn [startswith]. rewrite ?E, ?(N.eqb_sym NL c), ?E. reflexivity.
      + cbn [map]. rewrite nlines_tl by discriminate. rewrite (join_cons [NL] (c :: h)) by discriminate. cbn [app startswith]. rewrite ?E, ?(N.eqb_sym NL c), ?E. reflexivity.
  Qed.
End Render.
