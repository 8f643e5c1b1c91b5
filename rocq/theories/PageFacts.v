(** Consequences of the theorem on pages: one-line texts and comments. *)
From Coq Require Import List NArith ZArith Bool Lia Arith String.
From Verif Require Import PyStr PyStrFacts PyDict Html IndentSpec Value Ast Machine Analyse Syntax Runtime RuntimeSpec PageSpec PageDoc PageRender PageFlat HtmlTags ConfRef PageSamples.
Import ListNotations.
Local Open Scope string_scope.
Local Open Scope list_scope.
Local Open Scope nat_scope.

Lemma rstrip_cons c x : rstrip x <> [] -> rstrip (c :: x) = c :: rstrip x.
Proof.
  intros H. unfold rstrip in *. cbn [rev]. destruct (rstrip_decomp x) as (w & E & A). unfold rstrip in E.
  assert (Hx : forall y z, lstrip y <> [] -> lstrip (y ++ z) = lstrip y ++ z).
  { induction y as [|d y IH]; intros z Hy; [contradiction|]. cbn [app lstrip] in *. destruct (is_space d); [apply IH, Hy|reflexivity]. }
  rewrite Hx; [rewrite rev_app_distr; reflexivity|]. intros K. apply H. rewrite K. reflexivity.
Qed.
Lemma trimmed_text y : rstrip y = y -> trimmed (SP :: y) = y.
Proof.
  intros H. unfold trimmed. destruct y as [|c y]; [reflexivity|].
  rewrite rstrip_cons, H; [reflexivity|]. rewrite H. discriminate.
Qed.

Lemma noted_html void d d' : noted d d' -> htmls void d' = htmls void d.
Proof.
  intros H. induction H as [|x d d' Hx H IH|t d d' H IH|m f n a w kids kids' d d' H IH H2 IH2]; unfold htmls in *; cbn [fold_right].
  - reflexivity.
  - rewrite IH. cbn [html]. destruct (fold_right _ _ d). reflexivity.
  - rewrite IH. reflexivity.
  - cbn [html]. rewrite IH, IH2. reflexivity.
Qed.
Lemma noted_wf known d d' : noted d d' -> Forall (wf known) d -> Forall (wf known) d'.
Proof.
  intros H. induction H as [|x d d' Hx H IH|t d d' H IH|m f n a w kids kids' d d' H IH H2 IH2]; intros Hw.
  - constructor.
  - constructor; [constructor; exact Hx|apply IH, Hw].
  - inversion Hw; subst. constructor; [assumption|apply IH; assumption].
  - inversion Hw as [|? ? Hk Hd]; subst. inversion Hk as [| | |? ? ? ? ? ? Hn Ha Hv Hw0 Hww Hne Hkids]; subst. constructor; [|apply IH2, Hd]. constructor; try assumption.
    + intros ->. apply Hne. inversion H. reflexivity.
    + apply IH, Hkids.
Qed.
Lemma noted_nonempty d d' : noted d d' -> d <> [] -> d' <> [].
Proof. intros H N. destruct H; [contradiction|discriminate..]. Qed.

Section Facts.
  Context {W : Type}.
  Variable E : env W.
  Variable P : prims W.

  Lemma one_line known k x n j tags vars ctx file package m : page_runtime E P known n j m -> called_with tags vars ctx -> ~ In NL x ->
    exists m', render_script E P n (S j) tags vars (text_src k x) file package m = (Done (text_html k x), m').
  Proof.
    intros R C H. destruct (PageDoc.render_page E P known [Line 0 Own k x] 0 n j tags vars ctx file package m R C) as (m' & K);
      [discriminate|constructor; [constructor; exact H|constructor]|]. exists m'.
    assert (K1 : script [Line 0 Own k x] 0 = text_src k x) by reflexivity.
    assert (K2 : page_html (void known) [Line 0 Own k x] 0 = text_html k x).
    { unfold page_html, page_text. cbn. destruct (text_html k x); cbn; rewrite ?app_nil_r; reflexivity. }
    rewrite K1, K2 in K. exact K.
  Qed.
  Lemma space_text k y : text_src k (SP :: y) = style_mark k ++ SP :: match k with Verbatim => y | _ => double y end.
  Proof. destruct k; reflexivity. Qed.
  Lemma no_NL_SP y : ~ In NL y -> ~ In NL (SP :: y).
  Proof. intros H [K|K]; [discriminate|exact (H K)]. Qed.

  Lemma verbatim_line known y n j tags vars ctx file package m : page_runtime E P known n j m -> called_with tags vars ctx ->
    ~ In NL y -> rstrip y = y ->
    exists m', render_script E P n (S j) tags vars (u "! " ++ y) file package m = (Done y, m').
  Proof.
    intros R C H T. destruct (one_line known Verbatim (SP :: y) n j tags vars ctx file package m R C (no_NL_SP y H)) as (m' & K).
    exists m'. rewrite space_text in K. unfold text_html in K. rewrite (trimmed_text y T) in K. exact K.
  Qed.
  Lemma plain_line known y n j tags vars ctx file package m : page_runtime E P known n j m -> called_with tags vars ctx ->
    ~ In NL y -> rstrip y = y ->
    exists m', render_script E P n (S j) tags vars (u "| " ++ double y) file package m = (Done (flat_map html_char y), m').
  Proof.
    intros R C H T. destruct (one_line known Plain (SP :: y) n j tags vars ctx file package m R C (no_NL_SP y H)) as (m' & K).
    exists m'. rewrite space_text in K. unfold text_html in K. rewrite (trimmed_text y T) in K. exact K.
  Qed.

  Lemma notes_vanish known doc doc' k n j tags vars ctx file package m : page_runtime E P known n j m -> called_with tags vars ctx ->
    doc <> [] -> Forall (wf known) doc -> noted doc doc' ->
    exists t m1 m2, render_script E P n (S j) tags vars (script doc k) file package m = (Done t, m1) /\
      render_script E P n (S j) tags vars (script doc' k) file package m = (Done t, m2).
  Proof.
    intros R C D H N. destruct (PageDoc.render_page E P known doc k n j tags vars ctx file package m R C D H) as (m1 & K1).
    destruct (PageDoc.render_page E P known doc' k n j tags vars ctx file package m R C (noted_nonempty _ _ N D) (noted_wf known _ _ N H)) as (m2 & K2).
    exists (page_html (void known) doc k), m1, m2. split; [exact K1|]. rewrite K2. unfold page_html. rewrite (noted_html _ _ _ N). reflexivity.
  Qed.
End Facts.

(** ** HTML tags can be used in pages *)
Definition name_okb (n : str) : bool :=
  match n with c :: r => letter c && forallb (fun d => letter d || digit d) r | [] => false end &&
  negb (existsb (str_eqb n) keywords) && negb (startswith (u "try") n).
Lemma name_okb_ok n : name_okb n = true -> tag_name n.
Proof.
  unfold name_okb. intros H. apply andb_prop in H. destruct H as [H H3]. apply andb_prop in H. destruct H as [H1 H2].
  split; [|split].
  - destruct n as [|c r]; [discriminate|]. apply andb_prop in H1. destruct H1 as [Hc Hr]. exists c, r. split; [reflexivity|]. split; [exact Hc|].
    rewrite forallb_forall in Hr. exact Hr.
  - intros I. assert (E : existsb (str_eqb n) keywords = true) by (apply existsb_exists; exists n; split; [exact I|apply str_eqb_refl]). rewrite E in H2. discriminate.
  - intros [r E]. rewrite E, PyStrFacts.startswith_app in H3. discriminate.
Qed.
Lemma html_names n v : html_known n = Some v -> tag_name n.
Proof.
  intros H. destruct (html_known_In n v H) as (t & I & _). apply name_okb_ok.
  assert (K : forallb (fun nt => name_okb (fst nt)) html_registry = true) by (vm_compute; reflexivity).
  rewrite forallb_forall in K. exact (K _ I).
Qed.
Lemma html_void_names n : html_known n = Some true <-> exists w, In w void_elements /\ (n = w \/ n = capitals w).
Proof.
  split.
  - intros H. destruct (html_known_In n true H) as (t & I & _ & Kd).
    assert (K : forallb (fun nt => match t_kind (snd nt) with KMarkup true _ => existsb (fun w => str_eqb (fst nt) w || str_eqb (fst nt) (capitals w)) void_elements | _ => true end) html_registry = true) by (vm_compute; reflexivity).
    rewrite forallb_forall in K. specialize (K _ I). cbn [fst snd] in K. rewrite Kd in K. apply existsb_exists in K. destruct K as (w & Iw & Ew). exists w. split; [exact Iw|].
    apply orb_prop in Ew. destruct Ew as [Ew|Ew]; apply str_eqb_eq in Ew; auto.
  - intros (w & I & Hn). assert (K : forallb (fun w => match html_known w, html_known (capitals w) with Some true, Some true => true | _, _ => false end) void_elements = true) by (vm_compute; reflexivity).
    rewrite forallb_forall in K. specialize (K _ I). cbv beta in K. destruct Hn; subst n; destruct (html_known w) as [[]|], (html_known (capitals w)) as [[]|]; congruence.
Qed.
Lemma html_capitals n v : html_known n = Some v -> html_known (capitals n) = Some v.
Proof.
  intros H. destruct (html_known_In n v H) as (t & I & _ & Kd).
  assert (K : forallb (fun nt => match t_kind (snd nt), html_known (capitals (fst nt)) with KMarkup v _, Some v' => Bool.eqb v v' | _, _ => false end) html_registry = true) by (vm_compute; reflexivity).
  rewrite forallb_forall in K. specialize (K _ I). cbn [fst snd] in K. rewrite Kd in K. destruct (html_known (capitals n)) as [v'|]; [|discriminate]. apply Bool.eqb_prop in K. subst v'. reflexivity.
Qed.

(** ** A decision procedure for the conditions on pages, for examples *)
Definition no_nlb (x : str) : bool := negb (existsb (N.eqb NL) x).
Definition attr_nameb (n : str) : bool :=
  match n with c :: r => letter c && forallb (fun d => letter d || digit d || (d =? 45)%N || (d =? 46)%N) r | [] => false end.
Definition attrb (a : str * str) : bool := attr_nameb (fst a) && forallb (fun c => negb ((c =? NL)%N || (c =? 34)%N || (c =? 92)%N)) (snd a).
Definition attrsb (l : list (str * str)) : bool := nodupb (map fst l) && forallb attrb l.
Fixpoint wfb (known : str -> option bool) (t : page) : bool :=
  match t with
  | Line _ _ _ x | Note _ x => no_nlb x
  | Leaf _ _ n a c => name_okb n && attrsb a &&
      match known n with
      | Some v => match c with Some (_, x) => negb v && no_nlb x | None => true end
      | None => false
      end
  | Node _ _ n a w kids => name_okb n && attrsb a && match known n with Some v => negb v | None => false end &&
      match w with [] => false | _ => forallb (fun c => (c =? SP)%N || (c =? TAB)%N) w end &&
      match kids with [] => false | _ => forallb (wfb known) kids end
  end.
Lemma no_nlb_ok x : no_nlb x = true -> ~ In NL x.
Proof. intros H I. unfold no_nlb in H. assert (E : existsb (N.eqb NL) x = true) by (apply existsb_exists; exists NL; split; [exact I|reflexivity]). rewrite E in H. discriminate. Qed.
Lemma attrsb_ok l : attrsb l = true -> attrs_ok l.
Proof.
  intros H. apply andb_prop in H. destruct H as [H1 H2]. split; [apply nodupb_NoDup, H1|]. rewrite forallb_forall in H2. apply Forall_forall. intros a I.
  specialize (H2 a I). apply andb_prop in H2. destruct H2 as [H2 H3]. split.
  - destruct (fst a) as [|c r]; [discriminate|]. cbn in H2. apply andb_prop in H2. destruct H2 as [Hc Hr]. exists c, r. split; [reflexivity|]. split; [exact Hc|].
    rewrite forallb_forall in Hr. exact Hr.
  - intros c Ic. rewrite forallb_forall in H3. specialize (H3 c Ic). apply negb_true_iff in H3. apply orb_false_iff in H3. destruct H3 as [H3 K3]. apply orb_false_iff in H3. destruct H3 as [K1 K2].
    apply N.eqb_neq in K1, K2, K3. auto.
Qed.
Lemma wfb_ok known t : wfb known t = true -> wf known t.
Proof.
  induction t as [m f k x|m x|m f n a c|m f n a w kids IH] using page_ind'; cbn [wfb]; intros H.
  - constructor. apply no_nlb_ok, H.
  - constructor. apply no_nlb_ok, H.
  - apply andb_prop in H. destruct H as [H H3]. apply andb_prop in H. destruct H as [H1 H2]. destruct (known n) as [v|] eqn:Ek; [|discriminate].
    apply wf_leaf with v; [apply name_okb_ok, H1|apply attrsb_ok, H2|exact Ek|]. intros k x ->. apply andb_prop in H3. destruct H3 as [K1 K2].
    split; [apply negb_true_iff, K1|apply no_nlb_ok, K2].
  - apply andb_prop in H. destruct H as [H H5]. apply andb_prop in H. destruct H as [H H4]. apply andb_prop in H. destruct H as [H H3]. apply andb_prop in H. destruct H as [H1 H2].
    destruct (known n) as [v|] eqn:Ek; [|discriminate]. apply negb_true_iff in H3. subst v.
    constructor; try assumption; [apply name_okb_ok, H1|apply attrsb_ok, H2|intros ->; discriminate| |intros ->; discriminate|].
    + destruct w; [discriminate|]. rewrite forallb_forall in H4. intros d I. specialize (H4 d I). apply orb_prop in H4. destruct H4 as [K|K]; apply N.eqb_eq in K; auto.
    + assert (H6 : forallb (wfb known) kids = true) by (destruct kids; [reflexivity|exact H5]). clear H5. induction IH as [|t kids Ht IH IHk]; constructor; cbn in H6; apply andb_prop in H6; destruct H6; auto.
Qed.
Lemma wfb_all known doc : forallb (wfb known) doc = true -> Forall (wf known) doc.
Proof. intros H. rewrite forallb_forall in H. apply Forall_forall. intros t I. apply wfb_ok, H, I. Qed.

Lemma comment_in_conditional : exists before after comment,
  (exists d, parse_script conf_lexicon (before ++ [NL] ++ after) = Ok d) /\
  comment = u "-- comment" /\ parse_script conf_lexicon (before ++ [NL] ++ comment ++ [NL] ++ after) = Raise SyntaxError.
Proof.
  exists (u "if x" ++ [NL] ++ u "    | a"), (u "else" ++ [NL] ++ u "    | b"), (u "-- comment").
  split; [eexists; vm_compute; reflexivity|]. split; [reflexivity|vm_compute; reflexivity].
Qed.
