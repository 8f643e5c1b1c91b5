(** DOM trees of templates and their rendering. *)
From Coq Require Import List NArith Bool Lia Arith String.
From Verif Require Import PyStr PyStrFacts Html HtmlFacts Indent IndentSpec IndentFacts PyDict Value Dom DomSpec DomFacts Ast Machine Translate
  PageSpec PageRender OperSpec TmplSpec.
Import ListNotations.
Local Open Scope string_scope.
Local Open Scope list_scope.
Local Open Scope N_scope.

(** ** Elements contain no newlines. *)
Lemma quoted_attr x : quoteattr x = quoted x.
Proof.
  unfold quoteattr, quoted. rewrite sax_escape_flat. rewrite (flat_map_ext' sesc attr_char) by apply sesc_attr.
  assert (K : forall d, d = 34 \/ d = 39 -> mem d (flat_map attr_char x) = mem d x).
  { intros d D. apply eq_true_iff_eq. rewrite !mem_In, in_flat_map. split.
    - intros (c & I & J). assert (E : d = c); [|subst; exact I]. unfold attr_char, html_char in J.
      destruct (c =? 10); [cbn in J; destruct D as [-> | ->]; intuition discriminate|].
      destruct (c =? 13); [cbn in J; destruct D as [-> | ->]; intuition discriminate|].
      destruct (c =? 9); [cbn in J; destruct D as [-> | ->]; intuition discriminate|].
      destruct (c =? 38); [cbn in J; destruct D as [-> | ->]; intuition discriminate|].
      destruct (c =? 60); [cbn in J; destruct D as [-> | ->]; intuition discriminate|].
      destruct (c =? 62); [cbn in J; destruct D as [-> | ->]; intuition discriminate|]. destruct J as [J|[]]. auto.
    - intros I. exists d. split; [exact I|]. destruct D as [-> | ->]; left; reflexivity. }
  unfold DQ, SQ. rewrite !K by auto. destruct (mem 34 x); [|reflexivity]. destruct (mem 39 x); [|reflexivity].
  do 2 f_equal. rewrite replace_single, flat_map_flat_map. apply flat_map_ext'. intros c.
  unfold attr_char, html_char. destruct (N.eqb_spec c 34) as [->|N34]; [reflexivity|].
  destruct (c =? 10); [reflexivity|]. destruct (c =? 13); [reflexivity|]. destruct (c =? 9); [reflexivity|].
  destruct (c =? 38); [reflexivity|]. destruct (c =? 60); [reflexivity|]. destruct (c =? 62); [reflexivity|].
  cbn. destruct (N.eqb_spec c 34); [contradiction|reflexivity].
Qed.

Lemma attr_char_NL c : ~ In NL (attr_char c).
Proof.
  unfold attr_char. destruct (N.eqb_spec c 10) as [->|N10]; [cbn; intuition discriminate|].
  destruct (c =? 13); [cbn; intuition discriminate|]. destruct (c =? 9); [cbn; intuition discriminate|].
  intros J. apply html_char_In in J. destruct J as [J|[J _]]; [apply N10; symmetry; exact J|apply J; reflexivity].
Qed.
Lemma quoted_no_NL x : ~ In NL (quoted x).
Proof.
  assert (K : ~ In NL (flat_map attr_char x)). { rewrite in_flat_map. intros (c & _ & J). exact (attr_char_NL c J). }
  unfold quoted. destruct (mem 34 x); [destruct (mem 39 x)|]; rewrite !in_app_iff; intros [J|[J|J]]; try (cbn in J; intuition discriminate); try exact (K J).
  apply in_flat_map in J. destruct J as (c & _ & J). destruct (c =? 34); [cbn in J; intuition discriminate|exact (attr_char_NL c J)].
Qed.

Definition shown_ok (a : str * shown) : Prop := fst a <> [] /\ ~ In NL (fst a).
Definition etag_ok (t : etag) : Prop := tag_name (fst t) /\ Forall shown_ok (snd t).

Lemma shown_html_no_NL a : shown_ok a -> ~ In NL (shown_html a).
Proof.
  intros [_ H] J. unfold shown_html in J. destruct (snd a) as [[|]|x]; [|destruct J|].
  - apply in_app_or in J. destruct J as [J|J]; [cbn in J; intuition discriminate|exact (H J)].
  - rewrite !in_app_iff in J. destruct J as [J|[J|[J|J]]]; [cbn in J; intuition discriminate|exact (H J)|cbn in J; intuition discriminate|exact (quoted_no_NL x J)].
Qed.
Lemma etag_open_no_NL t : etag_ok t -> ~ In NL (etag_open t).
Proof.
  intros [Hn Ha] J. unfold etag_open in J. rewrite !in_app_iff in J. destruct J as [J|[J|J]]; [cbn in J; intuition discriminate|exact (tag_name_no_NL _ Hn J)|].
  apply in_flat_map in J. destruct J as (a & I & J). rewrite Forall_forall in Ha. exact (shown_html_no_NL a (Ha a I) J).
Qed.
Lemma in_tags_no_NL void g c : Forall etag_ok g -> ~ In NL c -> ~ In NL (in_tags void g c).
Proof.
  intros H Hc. induction H as [|t g Ht H IH]; [exact Hc|]. cbn [in_tags]. rewrite in_app_iff. intros [J|J]; [exact (etag_open_no_NL t Ht J)|].
  destruct (void (fst t)); [cbn in J; intuition discriminate|]. rewrite !in_app_iff in J.
  destruct J as [J|[J|J]]; [cbn in J; intuition discriminate|exact (IH J)|exact (close_html_no_NL _ (proj1 Ht) J)].
Qed.
Lemma opening_no_NL g : Forall etag_ok g -> ~ In NL (opening g).
Proof.
  intros H J. unfold opening in J. apply in_flat_map in J. destruct J as (t & I & J). rewrite Forall_forall in H. apply in_app_or in J.
  destruct J as [J|J]; [exact (etag_open_no_NL t (H t I) J)|cbn in J; intuition discriminate].
Qed.
Lemma closing_no_NL g : Forall etag_ok g -> ~ In NL (closing g).
Proof.
  intros H J. unfold closing in J. apply in_flat_map in J. destruct J as (t & I & J). apply in_rev in I. rewrite Forall_forall in H.
  exact (close_html_no_NL _ (proj1 (H t I)) J).
Qed.

(** ** Shapes *)
Section Draw.
  Variable known : str -> option bool.
  Variable R : rprims.
  Variable tag_of : str -> tag.
  Local Notation void := (PageSpec.void known).

  Definition av (a : str * shown) : str * attrval :=
    (fst a, match snd a with Flag true => ATrue | Flag false => AFalse | Shown x => AOther x end).
  Definition tag_node (t : etag) (f : info) : Prop :=
    exists kw, f = node_info (tag_of (fst t)) [] (Some kw) /\ attrvals_of R kw = Ok (map av (snd t)).

  (** The chain below the first tag. *)
  Inductive chained (ss : list shape) : list etag -> list shape -> Prop :=
  | chained_nil : chained ss [] ss
  | chained_cons t g f s' : tag_node t f -> chained ss g s' -> chained ss (t :: g) [Sh f s'].

  Fixpoint names_known (v : bool) (g : list etag) : Prop :=
    match g with
    | [] => False
    | [(n, _)] => exists t, known n = Some t /\ (t = true -> v = true)
    | (n, _) :: r => known n = Some false /\ names_known v r
    end.

  Definition mgn (p : str) (m : nat) (ss : list shape) : Prop :=
    match m with
    | O => ss = []
    | S _ => exists ind, (ind = None \/ ind = Some p) /\ ss = [Sh (with_indent (text_info (repeatc NL m)) ind) []]
    end.

  (** Node of a hypertag. *)
  Definition hyper_node (f : info) : Prop := exists d n kw, f = node_info (native d n) [] (Some kw).
  Definition unlined (ss : list shape) : list shape :=
    match ss with [] => [] | Sh f ks :: r => Sh (with_outline f false) ks :: r end.
  Fixpoint calm_elems (l : list elem) : Prop :=
    match l with
    | [] => True
    | EGap m :: r => m = 0%nat /\ calm_elems r
    | EText m _ :: _ | ELeaf m _ _ :: _ | ENode m _ _ _ :: _ | EHyper m _ :: _ => m = 0%nat
    end.

  Inductive drawn : str -> elem -> list shape -> Prop :=
  | drawn_text p m x mg : mgn p m mg -> drawn p (EText m x) (mg ++ [text_sh true p x])
  | drawn_gap p m mg : mgn p m mg -> drawn p (EGap m) mg
  | drawn_leaf p m t g c v mg ss s' f : mgn p m mg -> names_known v (t :: g) -> Forall etag_ok (t :: g) ->
      (ss = [] /\ c = [] \/ v = false /\ ss = [text_sh false [] c]) -> tag_node t f -> chained ss g s' ->
      drawn p (ELeaf m (t :: g) c) (mg ++ [Sh (with_indent (with_outline f true) (Some p)) s'])
  | drawn_node p m t g w kids mg ss s' f : mgn p m mg -> names_known false (t :: g) -> Forall etag_ok (t :: g) ->
      ~ In NL w -> draws w kids ss -> tag_node t f -> chained ss g s' ->
      drawn p (ENode m (t :: g) w kids) (mg ++ [Sh (with_indent (with_outline f true) (Some p)) s'])
  | drawn_hyper p m kids mg ss f : mgn p m mg -> draws [] kids ss -> calm_elems kids -> hyper_node f ->
      drawn p (EHyper m kids) (mg ++ [Sh (with_indent (with_outline f true) (Some p)) (unlined ss)])
  with draws : str -> list elem -> list shape -> Prop :=
  | draws_nil p : draws p [] []
  | draws_cons p e l a r : drawn p e a -> draws p l r -> draws p (e :: l) (a ++ r).

  Scheme drawn_ind2 := Induction for drawn Sort Prop with draws_ind2 := Induction for draws Sort Prop.

  Lemma draws_app p l1 l2 : forall s1 s2, draws p l1 s1 -> draws p l2 s2 -> draws p (l1 ++ l2) (s1 ++ s2).
  Proof.
    intros s1 s2 H1 H2. induction H1 as [|p e l a r He H1 IH]; [exact H2|]. cbn [app]. rewrite <- app_assoc. constructor; [exact He|exact (IH H2)].
  Qed.

  (** ** No newlines in the lines of elements. *)
  Lemma draws_no_NL :
    forall p l ss, draws p l ss -> forall x, In x (flat_map (ehtml void) l) -> ~ In NL x.
  Proof.
    apply (draws_ind2 (fun p e ss _ => forall x, In x (ehtml void e) -> ~ In NL x) (fun p l ss _ => forall x, In x (flat_map (ehtml void) l) -> ~ In NL x)).
    - intros p m x mg Hm y I. cbn [ehtml] in I. apply in_app_or in I. destruct I as [I|I]; [exact (blanks_no_NL _ _ I)|exact (lines_no_NL x y I)].
    - intros p m mg Hm y I. exact (blanks_no_NL _ _ I).
    - intros p m t g c v mg ss s' f Hm Hk Hg Hs Hf Hch y I. cbn [ehtml] in I. apply in_app_or in I. destruct I as [I|I]; [exact (blanks_no_NL _ _ I)|exact (lines_no_NL _ y I)].
    - intros p m t g w kids mg ss s' f Hm Hk Hg Hw Hd IH Hf Hch y I. cbn [ehtml] in I. apply in_app_or in I. destruct I as [I|I]; [exact (blanks_no_NL _ _ I)|].
      destruct (flat_map (ehtml void) kids) as [|l0 ls].
      + destruct I as [<-|[]]. apply in_tags_no_NL; [exact Hg|intros []].
      + apply in_app_or in I. destruct I as [[<-|[]]|I]; [exact (opening_no_NL _ Hg)|]. apply in_app_or in I.
        destruct I as [I|[<-|[]]]; [|exact (closing_no_NL _ Hg)]. apply in_map_iff in I. destruct I as (z & <- & Z).
        apply indent_line_no_NL; [exact Hw|exact (IH _ Z)].
    - intros p m kids mg ss f Hm Hd IH Hc Hf y I. cbn [ehtml] in I. apply in_app_or in I. destruct I as [I|I]; [exact (blanks_no_NL _ _ I)|].
      destruct (flat_map (ehtml void) kids) as [|l0 ls]; [destruct I as [<-|[]]; intros []|exact (IH _ I)].
    - intros p y [].
    - intros p e l a r He IHe Hl IHl y I. cbn [flat_map] in I. apply in_app_or in I. destruct I as [I|I]; [exact (IHe _ I)|exact (IHl _ I)].
  Qed.

  (** ** Rendering *)
  Hypothesis tags : forall n v, known n = Some v -> t_name (tag_of n) = n /\ t_kind (tag_of n) = KMarkup v HTML.

  Lemma open_tag_shown n l : Forall shown_ok l -> open_tag HTML n (map av l) = n ++ flat_map shown_html l.
  Proof.
    intros H. unfold open_tag.
    assert (E : flat_map (cons SP) (filter_none (map (fun nv => render_attr HTML (fst nv) (snd nv)) (map av l))) = flat_map shown_html l).
    { induction H as [|[k v] l [Hk Hv] H IH]; [reflexivity|]. cbn [map fst snd av flat_map]. cbn [fst] in Hk. unfold shown_html at 1. cbn [fst snd].
      destruct v as [[|]|x]; cbn [render_attr filter_none].
      - destruct k as [|c k]; [contradiction|]. cbn [flat_map]. rewrite IH. reflexivity.
      - exact IH.
      - rewrite quoted_attr. destruct k as [|c k]; [contradiction|]. cbn [flat_map app]. rewrite IH. reflexivity. }
    rewrite <- E. clear E H. generalize (filter_none (map (fun nv => render_attr HTML (fst nv) (snd nv)) (map av l))). intros ls. revert n.
    induction ls as [|x ls IH]; intros n; [cbn; now rewrite app_nil_r|]. rewrite join_cons by discriminate. cbn [flat_map]. rewrite IH. reflexivity.
  Qed.

  Definition wrap (v : bool) (t : etag) (x : str) : str :=
    etag_open t ++ if v then u " />" else u ">" ++ x ++ (if startswith [NL] x then [NL] else []) ++ close_html (fst t).
  Lemma expand_tag t f v x : tag_node t f -> Forall shown_ok (snd t) -> known (fst t) = Some v -> (v = true -> x = []) ->
    render_body R f (Done x) = Done (wrap v t x).
  Proof.
    intros (kw & -> & Ha) Hs Hk Hv. unfold render_body. cbn [node_info n_kind n_tag n_attrs n_kwattrs].
    unfold expand. destruct (tags _ _ Hk) as (Tn & Tk). rewrite Tk, Tn, Ha. cbn [out_of obind].
    unfold markup_expand, markup_expand', wrap. cbn [m_void m_name m_mode]. rewrite (open_tag_shown _ _ Hs). destruct v.
    - rewrite (Hv eq_refl). cbn [out_of obind]. unfold etag_open. rewrite <- !app_assoc. reflexivity.
    - cbn [out_of obind]. unfold etag_open, close_html. rewrite <- !app_assoc. reflexivity.
  Qed.

  Fixpoint wraps (g : list etag) (x : str) : str :=
    match g with [] => x | t :: r => wrap (void (fst t)) t (wraps r x) end.
  Lemma void_of n v : known n = Some v -> void n = v.
  Proof. intros H. unfold PageSpec.void. rewrite H. reflexivity. Qed.

  Lemma names_known_head v t g : names_known v (t :: g) ->
    exists v', known (fst t) = Some v' /\ (v' = true -> v = true /\ g = []) /\ (g <> [] -> names_known v g).
  Proof.
    destruct t as [n a]. cbn [names_known fst]. destruct g as [|t' g].
    - intros (v' & K & I). exists v'. repeat split; [exact K|apply I; assumption|congruence].
    - intros [K I]. exists false. repeat split; try discriminate; [exact K|exact (fun _ => I)].
  Qed.
  Lemma render_chain v ss g s' x : chained ss g s' -> (g <> [] -> names_known v g) -> Forall etag_ok g -> srenders R ss = Done x -> (v = true -> x = []) ->
    srenders R s' = Done (wraps g x).
  Proof.
    intros H. induction H as [|t g f s' Hf H IH]; intros Hk Hg Hs Hv; [exact Hs|].
    destruct (names_known_head _ _ _ (Hk ltac:(discriminate))) as (v' & K & Kv & Kg). inversion Hg as [|? ? Ht Hg']; subst.
    cbn [srenders wraps]. rewrite srender_Sh, (IH Kg Hg' Hs Hv), (void_of _ _ K). unfold render_node.
    rewrite (expand_tag t f v' _ Hf (proj2 Ht) K).
    - destruct Hf as (kw & -> & _). cbn [node_info n_outline n_indent n_kind obind app]. rewrite app_nil_r. reflexivity.
    - intros E. destruct (Kv E) as (E1 & ->). cbn [wraps]. exact (Hv E1).
  Qed.
  Lemma render_top v t g f ss s' x p : tag_node t f -> chained ss g s' -> names_known v (t :: g) -> Forall etag_ok (t :: g) ->
    srenders R ss = Done x -> (v = true -> x = []) -> absolute p = false ->
    srender R (Sh (with_indent (with_outline f true) (Some p)) s') = Done (add_indent (NL :: wraps (t :: g) x) p).
  Proof.
    intros Hf Hch Hk Hg Hs Hv Hp. destruct (names_known_head _ _ _ Hk) as (v' & K & Kv & Kg). inversion Hg as [|? ? Ht Hg']; subst.
    rewrite srender_Sh, (render_chain v ss g s' x Hch Kg Hg' Hs Hv). unfold render_node.
    assert (B : render_body R (with_indent (with_outline f true) (Some p)) (Done (wraps g x)) = Done (wrap v' t (wraps g x))).
    { rewrite <- (expand_tag t f v' _ Hf (proj2 Ht) K); [reflexivity|]. intros E. destruct (Kv E) as (E1 & ->). cbn [wraps]. exact (Hv E1). }
    rewrite B. destruct Hf as (kw & -> & _). cbn [with_indent with_outline node_info n_outline n_indent n_kind obind app]. rewrite Hp. cbn [obind wraps].
    rewrite (void_of _ _ K). reflexivity.
  Qed.

  Lemma wraps_start t g x : startswith [NL] (wraps (t :: g) x) = false.
  Proof. reflexivity. Qed.
  Lemma wraps_flat g x : startswith [NL] x = false -> wraps g x = in_tags void g x.
  Proof.
    intros H. induction g as [|t g IH]; [reflexivity|]. cbn [wraps in_tags]. rewrite <- IH. unfold wrap.
    assert (E : startswith [NL] (wraps g x) = false) by (destruct g; [exact H|apply wraps_start]). rewrite E. reflexivity.
  Qed.
  Lemma wraps_block t g x : startswith [NL] x = true -> names_known false (t :: g) ->
    wraps (t :: g) x = opening (t :: g) ++ x ++ [NL] ++ closing (t :: g).
  Proof.
    intros H. revert t. induction g as [|t' g IH]; intros t Hk; destruct (names_known_head _ _ _ Hk) as (v' & K & Kv & Kg).
    - cbn [wraps]. rewrite (void_of _ _ K). unfold wrap. rewrite H. destruct v'; [destruct (Kv eq_refl); discriminate|].
      unfold opening, closing. cbn [flat_map rev app]. rewrite !app_nil_r, <- !app_assoc. reflexivity.
    - cbn [wraps]. rewrite (void_of _ _ K). unfold wrap at 1. destruct v'; [destruct (Kv eq_refl); discriminate|].
      change (wrap (void (fst t')) t' (wraps g x)) with (wraps (t' :: g) x). rewrite wraps_start, (IH t' (Kg ltac:(discriminate))).
      unfold opening, closing. cbn [flat_map]. change (rev (t :: t' :: g)) with (rev (t' :: g) ++ [t]). rewrite flat_map_app. cbn [flat_map app].
      rewrite !app_nil_r, <- !app_assoc. reflexivity.
  Qed.

  Lemma repeat_lines m : repeatc NL m = nlines (blanks m).
  Proof. symmetry. apply nlines_blanks. Qed.
  Lemma render_mgn p m mg : mgn p m mg -> ~ In NL p -> srenders R mg = Done (nlines (blanks m)).
  Proof.
    intros H Hp. destruct m as [|m]; cbn [mgn] in H; [subst; reflexivity|]. destruct H as (ind & Hi & ->).
    cbn [srenders]. rewrite srender_Sh. unfold render_node, render_body. cbn [with_indent text_info n_kind n_outline n_indent obind app].
    destruct Hi as [-> | ->]; cbn [obind]; [rewrite app_nil_r, nlines_blanks; reflexivity|].
    rewrite (not_absolute p Hp). cbn [obind]. rewrite app_nil_r, repeat_lines, add_indent_nlines by apply blanks_no_NL. rewrite indent_blanks. reflexivity.
  Qed.

  Lemma one_line p x : ~ In NL x -> add_indent (NL :: x) p = nlines (map (indent_line p) [x]).
  Proof.
    intros H. assert (E : NL :: x = nlines [x]) by (cbn; now rewrite app_nil_r). rewrite E. apply add_indent_nlines. intros l [<-|[]]. exact H.
  Qed.

  Lemma nlines_lines x : NL :: x = nlines (lines x).
  Proof. rewrite <- (join_lines x) at 1. destruct (lines_cons x) as (h & ls & ->). revert h. induction ls as [|l ls IH]; intros h; [cbn; rewrite app_nil_r; reflexivity|]. change (join [NL] (h :: l :: ls)) with (h ++ NL :: join [NL] (l :: ls)). rewrite IH. reflexivity. Qed.
  Lemma many_lines p x : add_indent (NL :: x) p = nlines (map (indent_line p) (lines x)).
  Proof. rewrite nlines_lines. apply add_indent_nlines. intros l I. exact (lines_no_NL x l I). Qed.
  Lemma wraps_fence v t g c : names_known v (t :: g) -> (v = true -> c = []) -> wraps (t :: g) c = in_tags void (t :: g) (fence c).
  Proof.
    intros Hk Hv. unfold fence. destruct (startswith [NL] c) eqn:E; [|apply wraps_flat, E].
    assert (v = false) by (destruct v; [rewrite (Hv eq_refl) in E; discriminate|reflexivity]). subst v.
    assert (K : forall g, wraps g c = match g with [] => c | _ => in_tags void g (c ++ [NL]) end -> forall t, names_known false (t :: g) -> wraps (t :: g) c = in_tags void (t :: g) (c ++ [NL])).
    { intros g' IH t' K'. destruct (names_known_head _ _ _ K') as (v' & K0 & Kv & _). cbn [wraps in_tags]. rewrite (void_of _ _ K0). destruct v'; [destruct (Kv eq_refl); discriminate|].
      unfold wrap. destruct g' as [|t2 g']; [cbn [wraps in_tags]; rewrite E, <- app_assoc; reflexivity|]. rewrite wraps_start. cbv iota. cbn [app]. rewrite IH. reflexivity. }
    revert t Hk. induction g as [|t' g IH]; intros t Hk; [apply (K [] eq_refl), Hk|]. apply K; [|exact Hk]. destruct (names_known_head _ _ _ Hk) as (v' & _ & _ & Kg). apply IH, Kg. discriminate.
  Qed.

  (** The first line of a calm block drawn without a line break. *)
  Lemma calm_first p l : forall ss, draws p l ss -> calm_elems l -> ss = [] /\ flat_map (ehtml void) l = [] \/
    exists f ks r, ss = Sh (with_indent (with_outline f true) (Some p)) ks :: r /\ Dom.n_kind f <> KRoot.
  Proof.
    induction l as [|e l IH]; intros ss H C; inversion H as [|? ? ? a r He Hl]; subst; [left; split; reflexivity|].
    inversion He as [? m x mg Hm|? m mg Hm|? m t g c v mg ss s' f Hm Hk Hg Hs Hf Hch|? m t g w0 kids mg ss s' f Hm Hk Hg Hw Hd Hf Hch|? m kids mg ss f Hm Hd Hc Hf]; subst;
      cbn [calm_elems] in C; try (subst m; cbn [mgn] in Hm; subst mg; cbn [app]; right).
    - eexists (text_info x), _, _. split; [reflexivity|discriminate].
    - destruct C as [-> C]. cbn [mgn] in Hm. subst a. cbn [app]. destruct (IH r Hl C) as [[-> E]|E]; [left; split; [reflexivity|exact E]|right; exact E].
    - eexists f, _, _. split; [reflexivity|]. destruct Hf as (kw & -> & _). discriminate.
    - eexists f, _, _. split; [reflexivity|]. destruct Hf as (kw & -> & _). discriminate.
    - eexists f, _, _. split; [reflexivity|]. destruct Hf as (d & n & kw & ->). discriminate.
  Qed.
  Lemma render_unlined l ss x : draws [] l ss -> calm_elems l -> srenders R ss = Done x -> srenders R (unlined ss) = Done (tl x) /\ (x = [] \/ x = NL :: tl x).
  Proof.
    intros H C E. destruct (calm_first [] l ss H C) as [[-> _]|(f & ks & r & -> & Hf)].
    - injection E as <-. split; [reflexivity|left; reflexivity].
    - cbn [srenders unlined] in *. rewrite !srender_Sh in *. unfold render_node in *.
      cbn [with_outline with_indent n_outline n_indent Dom.n_kind absolute startswith] in *.
      change (render_body R (with_indent (with_outline f true) (Some []))) with (render_body R f) in E.
      change (render_body R (with_outline (with_indent (with_outline f true) (Some [])) false)) with (render_body R f).
      destruct (render_body R f (srenders R ks)) as [b|e|]; cbn [obind] in *; try discriminate. rewrite !add_indent_nil in *. cbn [app] in *.
      destruct (Dom.n_kind f); [|contradiction|]; cbn [obind] in *; destruct (srenders R r) as [z|e|]; cbn [obind] in *; try discriminate; injection E as <-;
        (split; [reflexivity|right; reflexivity]).
  Qed.

  Lemma render_draws : forall p l ss, draws p l ss -> ~ In NL p ->
    srenders R ss = Done (nlines (map (indent_line p) (flat_map (ehtml void) l))).
  Proof.
    apply (draws_ind2 (fun p e ss _ => ~ In NL p -> srenders R ss = Done (nlines (map (indent_line p) (ehtml void e))))
                      (fun p l ss _ => ~ In NL p -> srenders R ss = Done (nlines (map (indent_line p) (flat_map (ehtml void) l))))).
    - intros p m x mg Hm Hp. cbn [ehtml]. rewrite map_app, indent_blanks, nlines_app. apply srenders_app; [exact (render_mgn p m mg Hm Hp)|].
      cbn [srenders]. rewrite render_text_sh by (apply not_absolute, Hp). cbn [obind]. rewrite app_nil_r. f_equal. exact (many_lines p x).
    - intros p m mg Hm Hp. cbn [ehtml]. rewrite indent_blanks. exact (render_mgn p m mg Hm Hp).
    - intros p m t g c v mg ss s' f Hm Hk Hg Hs Hf Hch Hp. cbn [ehtml]. rewrite map_app, indent_blanks, nlines_app.
      apply srenders_app; [exact (render_mgn p m mg Hm Hp)|]. cbn [srenders].
      assert (B : srenders R ss = Done c).
      { destruct Hs as [[-> ->]|[_ ->]]; [reflexivity|]. cbn [srenders]. rewrite render_text_sh by reflexivity. cbn [obind]. rewrite app_nil_r. reflexivity. }
      assert (Vc : v = true -> c = []) by (intros E; destruct Hs as [[_ ->]|[E' _]]; [reflexivity|congruence]).
      rewrite (render_top v t g f ss s' c p Hf Hch Hk Hg B Vc) by (apply not_absolute, Hp).
      cbn [obind]. rewrite app_nil_r. f_equal. rewrite (wraps_fence v t g c Hk Vc). apply many_lines.
    - intros p m t g w kids mg ss s' f Hm Hk Hg Hw Hd IH Hf Hch Hp. cbn [ehtml]. rewrite map_app, indent_blanks, nlines_app.
      apply srenders_app; [exact (render_mgn p m mg Hm Hp)|]. cbn [srenders]. specialize (IH Hw). pose proof (draws_no_NL _ _ _ Hd) as NK.
      rewrite (render_top false t g f ss s' _ p Hf Hch Hk Hg IH) by (try discriminate; apply not_absolute, Hp).
      cbn [obind]. rewrite app_nil_r. f_equal. destruct (flat_map (ehtml void) kids) as [|l0 ls].
      + rewrite wraps_flat by reflexivity. apply one_line. apply in_tags_no_NL; [exact Hg|intros []].
      + rewrite wraps_block by (try exact Hk; reflexivity).
        assert (E : NL :: opening (t :: g) ++ nlines (map (indent_line w) (l0 :: ls)) ++ [NL] ++ closing (t :: g) =
                    nlines ([opening (t :: g)] ++ map (indent_line w) (l0 :: ls) ++ [closing (t :: g)])).
        { rewrite !nlines_app. cbn [nlines flat_map]. rewrite !app_nil_r. cbn [app]. rewrite <- ?app_assoc. reflexivity. }
        rewrite E. apply add_indent_nlines. intros l I. apply in_app_or in I. destruct I as [[<-|[]]|I]; [exact (opening_no_NL _ Hg)|].
        apply in_app_or in I. destruct I as [I|[<-|[]]]; [|exact (closing_no_NL _ Hg)]. apply in_map_iff in I. destruct I as (z & <- & Z).
        apply indent_line_no_NL; [exact Hw|exact (NK _ Z)].
    - intros p m kids mg ss f Hm Hd IH Hc Hf Hp. cbn [ehtml]. rewrite map_app, indent_blanks, nlines_app.
      apply srenders_app; [exact (render_mgn p m mg Hm Hp)|]. cbn [srenders]. specialize (IH (fun x => x)). pose proof (draws_no_NL _ _ _ Hd) as NK.
      destruct (render_unlined _ _ _ Hd Hc IH) as [E _]. rewrite srender_Sh, E. unfold render_node. destruct Hf as (d & n & kw & ->).
      cbn [with_indent with_outline node_info n_outline n_indent n_kind render_body n_tag expand native t_kind n_attrs n_kwattrs obind app].
      rewrite (not_absolute p Hp). cbn [obind]. rewrite app_nil_r. f_equal.
      rewrite (map_ext (indent_line []) (fun l => l)), map_id by apply indent_line_nil.
      destruct (flat_map (ehtml void) kids) as [|l0 ls].
      + cbn [nlines flat_map tl]. apply (one_line p []). intros [].
      + rewrite <- add_indent_nlines by exact NK. f_equal.
    - intros p _. reflexivity.
    - intros p e l a r He IHe Hl IHl Hp. cbn [flat_map]. rewrite map_app, nlines_app. apply srenders_app; [exact (IHe Hp)|exact (IHl Hp)].
  Qed.

  (** The root, with the margin at the end of the script. *)
  Lemma render_troot l ss k mg : draws [] l ss -> mgn [] k mg ->
    srender R (Sh (with_indent root_info (Some [])) (ss ++ mg)) = Done (elems_html void l k).
  Proof.
    intros H Hm. rewrite srender_Sh.
    assert (B : srenders R (ss ++ mg) = Done (nlines (flat_map (ehtml void) l ++ blanks k))).
    { rewrite nlines_app. apply srenders_app; [|exact (render_mgn [] k mg Hm (fun x => x))]. rewrite (render_draws [] l ss H (fun x => x)). do 2 f_equal.
      rewrite (map_ext _ (fun l => l)) by apply indent_line_nil. apply map_id. }
    rewrite B. unfold render_node. cbn [with_indent n_kind n_tag n_outline n_indent root_info render_body obind app absolute startswith add_indent].
    unfold elems_html. f_equal. destruct (flat_map (ehtml void) l ++ blanks k) as [|l0 ls]; [reflexivity|]. rewrite nlines_tl by discriminate. reflexivity.
  Qed.
End Draw.
