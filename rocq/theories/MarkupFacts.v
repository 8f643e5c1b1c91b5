(** Proofs about the markup produced by rendering (C06). *)
From Coq Require Import List NArith Bool Lia Arith String.
From Verif Require Import PyStr PyStrFacts Html HtmlSpec HtmlFacts Indent IndentFacts PyDict Value Dom DomSpec DomFacts RenderFacts.
Import ListNotations.
Local Open Scope nat_scope.

(** Texts made of characters, basic references and tags without newlines inside. *)
Inductive doc : str -> list item -> Prop :=
| doc_nil : doc [] []
| doc_char c s l : c <> 60%N -> c <> 62%N -> c <> 38%N -> doc s l -> doc (c :: s) (IChar c :: l)
| doc_ref e c s l : In (e, c) [(u "&amp;", 38%N); (u "&lt;", 60%N); (u "&gt;", 62%N)] -> doc s l -> doc (e ++ s) (IChar c :: l)
| doc_tag t it s l : ~ In NL t -> (forall rest, read_tag (t ++ rest) = Some (it, rest)) -> visible it = true ->
    doc s l -> doc ((60%N :: t) ++ s) (it :: l).

Lemma doc_app s l : doc s l -> forall s' l', doc s' l' -> doc (s ++ s') (l ++ l').
Proof.
  induction 1 as [|c s l N1 N2 N3 H IH|e c s l I H IH|t it s l N R V H IH]; intros s' l' H'; cbn [app]; auto.
  - constructor; auto.
  - rewrite <- app_assoc. constructor; auto.
  - rewrite <- app_assoc. apply (doc_tag t it (s ++ s') (l ++ l')); auto.
Qed.

Lemma doc_read s l : doc s l -> forall k, List.length s <= k -> read_items k s = Some l.
Proof.
  induction 1 as [|c s l N1 N2 N3 H IH|e c s l I H IH|t it s l N R V H IH]; intros k F.
  - destruct k; reflexivity.
  - destruct k as [|k]; [cbn in F; lia|]. cbn [read_items]. apply N.eqb_neq in N1, N2, N3. rewrite N1, N2, N3, IH by (cbn in F; lia). reflexivity.
  - assert (K : forall k, List.length s <= k -> read_items (S k) (e ++ s) = Some (IChar c :: l)).
    { intros j J. destruct I as [[= <- <-]|[[= <- <-]|[[= <- <-]|[]]]].
      - change (option_map (cons (IChar 38%N)) (read_items j s) = Some (IChar 38%N :: l)). rewrite IH by lia. reflexivity.
      - change (option_map (cons (IChar 60%N)) (read_items j s) = Some (IChar 60%N :: l)). rewrite IH by lia. reflexivity.
      - change (option_map (cons (IChar 62%N)) (read_items j s) = Some (IChar 62%N :: l)). rewrite IH by lia. reflexivity. }
    rewrite app_length in F. destruct k as [|k].
    + destruct I as [[= <- <-]|[[= <- <-]|[[= <- <-]|[]]]]; cbn in F; lia.
    + apply K. destruct I as [[= <- <-]|[[= <- <-]|[[= <- <-]|[]]]]; cbn in F; lia.
  - destruct k as [|k]; [cbn in F; lia|]. cbn [app read_items N.eqb]. cbn [app List.length] in F. rewrite app_length in F.
    rewrite R. change (60 =? 60)%N with true. cbv iota. rewrite IH by lia. reflexivity.
Qed.

Lemma doc_blank i s l : (forall c, In c i -> is_space c = true) -> doc s l ->
  exists m, doc (i ++ s) (m ++ l) /\ filter visible m = [].
Proof.
  intros B H. induction i as [|c i IH]; [exists []; split; [exact H|reflexivity]|].
  destruct IH as (m & D & E); [intros d I; apply B; right; exact I|]. exists (IChar c :: m). pose proof (B c (or_introl eq_refl)) as Bc.
  split; [|cbn [filter visible]; rewrite Bc; exact E]. cbn [app].
  constructor; [| | |exact D]; intros ->; discriminate Bc.
Qed.

Lemma doc_indent i s l : ~ In NL i -> (forall c, In c i -> is_space c = true) -> doc s l ->
  exists l', doc (add_indent_go i s) l' /\ filter visible l' = filter visible l.
Proof.
  intros Ni B. induction 1 as [|c s l N1 N2 N3 H IH|e c s l I H IH|t it s l N R V H IH].
  - exists []. split; [constructor|reflexivity].
  - destruct IH as (l' & D & E). destruct (N.eqb_spec c NL) as [->|NE].
    + destruct s as [|d s].
      * exists [IChar NL]. inversion H; subst; try discriminate.
        -- split; [repeat constructor; discriminate|reflexivity].
        -- exfalso. destruct H1 as [[= <- <-]|[[= <- <-]|[[= <- <-]|[]]]]; discriminate.
      * destruct (N.eqb_spec d NL) as [->|Nd].
        -- exists (IChar NL :: l'). split; [|cbn [filter visible]; exact E].
           change (doc (NL :: add_indent_go i (NL :: s)) (IChar NL :: l')). constructor; try discriminate. exact D.
        -- destruct (doc_blank i (add_indent_go i (d :: s)) l' B D) as (m & Dm & Em). exists (IChar NL :: m ++ l').
           split; [|cbn [filter visible]; change (is_space NL) with true; cbn [negb]; rewrite filter_app, Em; exact E].
           assert (K : add_indent_go i (NL :: d :: s) = NL :: i ++ add_indent_go i (d :: s)).
           { apply N.eqb_neq in Nd. cbn [add_indent_go]. rewrite N.eqb_refl, Nd. reflexivity. }
           rewrite K. constructor; try discriminate. exact Dm.
    + exists (IChar c :: l'). split; [|cbn [filter]; rewrite E; reflexivity].
      apply N.eqb_neq in NE. cbn [add_indent_go]. rewrite NE. constructor; assumption.
  - destruct IH as (l' & D & E). exists (IChar c :: l'). split; [|cbn [filter]; rewrite E; reflexivity].
    rewrite add_indent_go_head; [constructor; assumption|].
    destruct I as [[= <- <-]|[[= <- <-]|[[= <- <-]|[]]]]; intros J; cbn in J; intuition discriminate.
  - destruct IH as (l' & D & E). exists (it :: l'). split; [|cbn [filter]; rewrite E; reflexivity].
    rewrite add_indent_go_head; [apply doc_tag; assumption|]. intros [J|J]; [discriminate|contradiction].
Qed.

Lemma doc_add_indent i s l : ~ In NL i -> (forall c, In c i -> is_space c = true) -> doc s l ->
  exists l', doc (add_indent s i) l' /\ filter visible l' = filter visible l.
Proof.
  intros Ni B H. destruct i as [|c i]; [exists l; split; [exact H|reflexivity]|].
  change (add_indent s (c :: i)) with (add_indent_go (c :: i) s). apply doc_indent; assumption.
Qed.

Lemma doc_safe : forall n s, List.length s <= n -> safe_text s -> doc s (map IChar (decode s)).
Proof.
  induction n as [|n IH]; intros s F (H1 & H2 & H3).
  - destruct s; [constructor|cbn in F; lia].
  - destruct s as [|c s]; [constructor|]. destruct (N.eq_dec c 38) as [->|NE].
    + destruct (H3 [] s eq_refl) as (e & I & r & ->).
      assert (S' : safe_text r).
      { split; [intros J; apply H1; right; apply in_or_app; right; exact J|]. split; [intros J; apply H2; right; apply in_or_app; right; exact J|].
        intros a b ->. apply (H3 (38%N :: e ++ a) b). cbn. rewrite <- app_assoc. reflexivity. }
      assert (L : List.length r <= n) by (cbn in F; rewrite app_length in F; lia). specialize (IH r L S').
      assert (Q : exists d, In (38%N :: e, d) [(u "&amp;", 38%N); (u "&lt;", 60%N); (u "&gt;", 62%N)]).
      { destruct I as [<-|[<-|[<-|[]]]]; eexists; [left|right;left|right;right;left]; reflexivity. }
      destruct Q as (d & Q). change (38%N :: e ++ r) with ((38%N :: e) ++ r). rewrite (decode_entity (38%N :: e) d r).
      * cbn [map]. constructor; assumption.
      * unfold entities. destruct Q as [Q|[Q|[Q|[]]]]; rewrite <- Q; cbn; tauto.
    + rewrite decode_plain by exact NE. cbn [map]. constructor; [intros ->; apply H1; left; reflexivity|intros ->; apply H2; left; reflexivity|exact NE|].
      apply IH; [cbn in F; lia|]. split; [intros J; apply H1; right; exact J|]. split; [intros J; apply H2; right; exact J|].
      intros a b ->. apply (H3 (c :: a) b). reflexivity.
Qed.

(** Nesting does not depend on blanks. *)
Lemma well_nested_app a b : well_nested a -> well_nested b -> well_nested (a ++ b).
Proof.
  intros Ha Hb. induction Ha as [|c r H IH|n x r H IH|n x y r Hy IHy Hr IHr]; cbn; auto; try (constructor; assumption).
  rewrite <- app_assoc. cbn. constructor; assumption.
Qed.
Lemma well_nested_insert c m : well_nested m -> forall a b, m = a ++ b -> well_nested (a ++ IChar c :: b).
Proof.
  induction 1 as [|d r H IH|n x r H IH|n x y r Hy IHy Hr IHr]; intros a b E.
  - destruct a; [|discriminate]. cbn in E. subst. repeat constructor.
  - destruct a as [|i a]; cbn in E; [subst; do 2 constructor; assumption|]. injection E as <- E. cbn. constructor. apply IH, E.
  - destruct a as [|i a]; cbn in E; [subst; do 2 constructor; assumption|]. injection E as <- E. cbn. constructor. apply IH, E.
  - destruct a as [|i a]; cbn in E; [subst; do 2 constructor; assumption|]. injection E as <- E. cbn [app].
    apply app_eq_app in E. destruct E as (z & [(E1 & E2)|(E1 & E2)]).
    + destruct z as [|i z]; cbn in E2.
      * subst b. rewrite app_nil_r in E1. subst y.
        replace (a ++ IChar c :: IClose n :: r) with ((a ++ IChar c :: []) ++ IClose n :: r) by (rewrite <- app_assoc; reflexivity).
        constructor; [|assumption]. apply (IHy a []). rewrite app_nil_r. reflexivity.
      * subst b y.
        replace (a ++ IChar c :: i :: z ++ IClose n :: r) with ((a ++ IChar c :: i :: z) ++ IClose n :: r) by (rewrite <- app_assoc; reflexivity).
        constructor; [|assumption]. apply (IHy a (i :: z)). reflexivity.
    + destruct z as [|i z]; cbn in E2.
      * subst b. rewrite app_nil_r in E1. subst a.
        replace (y ++ IChar c :: IClose n :: r) with ((y ++ IChar c :: []) ++ IClose n :: r) by (rewrite <- app_assoc; reflexivity).
        constructor; [|assumption]. apply (IHy y []). rewrite app_nil_r. reflexivity.
      * injection E2 as <- ->. subst a. rewrite <- app_assoc. cbn. constructor; [assumption|]. apply (IHr z b eq_refl).
Qed.
Lemma well_nested_visible l : forall a, well_nested (a ++ filter visible l) -> well_nested (a ++ l).
Proof.
  induction l as [|i l IH]; intros a H; [exact H|]. destruct (visible i) eqn:V.
  - cbn [filter] in H. rewrite V in H. replace (a ++ i :: l) with ((a ++ [i]) ++ l) by (rewrite <- app_assoc; reflexivity).
    apply IH. rewrite <- app_assoc. exact H.
  - cbn [filter] in H. rewrite V in H. destruct i; try discriminate. apply well_nested_insert with (a ++ l); [|reflexivity]. apply IH, H.
Qed.

(** ** Rendering *)
Lemma Ok_inj {A} (x y : A) : Ok x = Ok y -> x = y.
Proof. congruence. Qed.

Lemma markup_inv P i f ts : markup_tree P (T i f ts) ->
  (exists s, n_kind f = KText s /\ safe_text s /\ blank_indent f /\ ts = []) \/
  ((forall s, n_kind f <> KText s) /\ blank_indent f /\
   (n_tag f = None \/ exists t, n_tag f = Some t /\ (t_kind t = KNull \/ t_kind t = KNative)) /\ Forall (markup_tree P) ts) \/
  (exists t void m av, (forall s, n_kind f <> KText s) /\ blank_indent f /\
    n_tag f = Some t /\ t_kind t = KMarkup void m /\ valid_name (t_name t) /\
    attr_values P (match n_kwattrs f with Some kw => kw | None => [] end) = Ok av /\
    (forall nv, In nv av -> valid_name (fst nv)) /\ Forall (markup_tree P) ts).
Proof.
  intros H. inversion H; subst.
  - left. exists s. auto.
  - right. left. auto.
  - right. right. exists t, void, m, av. repeat (split; [assumption|]). assumption.
Qed.

Fixpoint contents (P : rprims) (l : list tree) : list item :=
  match l with [] => [] | x :: r => content P x ++ contents P r end.
Lemma content_T P i f ts : content P (T i f ts) =
  match n_kind f with
  | KText s => filter visible (map IChar (decode s))
  | _ =>
      match n_tag f with
      | Some t =>
          match t_kind t, attr_values P (match n_kwattrs f with Some kw => kw | None => [] end) with
          | KMarkup false m, Ok av => IOpen (t_name t) (flat_map (seen m) av) :: contents P ts ++ [IClose (t_name t)]
          | KMarkup true m, Ok av => [IEmpty (t_name t) (flat_map (seen m) av)]
          | _, _ => contents P ts
          end
      | None => contents P ts
      end
  end.
Proof.
  cbn [content].
  assert (E : (fix go (l : list tree) : list item := match l with [] => [] | x :: r => content P x ++ go r end) ts = contents P ts).
  { induction ts as [|x ts IH]; cbn; [reflexivity|]. rewrite IH. reflexivity. }
  rewrite E. reflexivity.
Qed.

Lemma open_tag_no_NL m name kw : valid_name name -> (forall nv, In nv kw -> valid_name (fst nv)) -> ~ In NL (open_tag m name kw).
Proof.
  intros Hn Hk I. rewrite open_tag_form in I by exact Hk.
  assert (G : forall n, valid_name n -> ~ In NL n). { intros n [_ Hc] J. apply Hc in J. discriminate. }
  apply in_app_or in I. destruct I as [I|I]; [exact (G _ Hn I)|]. apply in_flat_map in I. destruct I as (nv & K & I).
  specialize (G _ (Hk nv K)). unfold attr_text in I. destruct (snd nv).
  - destruct m.
    + destruct I as [I|I]; [discriminate|]. contradiction.
    + destruct I as [I|I]; [discriminate|]. repeat (apply in_app_or in I; destruct I as [I|I]); try contradiction; cbn in I; intuition discriminate.
  - destruct I.
  - destruct I as [I|I]; [discriminate|]. apply in_app_or in I. destruct I as [I|I]; [contradiction|]. apply in_app_or in I. destruct I as [I|I]; [cbn in I; intuition discriminate|].
    apply quoteattr_clean in I. apply I. unfold unclean. auto.
Qed.

Lemma doc_open m name kw s l : valid_name name -> (forall nv, In nv kw -> valid_name (fst nv)) -> doc s l ->
  doc (u "<" ++ open_tag m name kw ++ u ">" ++ s) (IOpen name (flat_map (seen m) kw) :: l).
Proof.
  intros Hn Hk D. replace (u "<" ++ open_tag m name kw ++ u ">" ++ s) with ((60%N :: open_tag m name kw ++ u ">") ++ s) by (cbn; rewrite <- app_assoc; reflexivity).
  apply doc_tag; [| |reflexivity|exact D].
  - intros I. apply in_app_or in I. destruct I as [I|I]; [exact (open_tag_no_NL _ _ _ Hn Hk I)|cbn in I; intuition discriminate].
  - intros rest. rewrite <- app_assoc. exact (read_tag_open m name kw false rest Hn Hk).
Qed.
Lemma doc_void m name kw s l : valid_name name -> (forall nv, In nv kw -> valid_name (fst nv)) -> doc s l ->
  doc (u "<" ++ open_tag m name kw ++ u " />" ++ s) (IEmpty name (flat_map (seen m) kw) :: l).
Proof.
  intros Hn Hk D. replace (u "<" ++ open_tag m name kw ++ u " />" ++ s) with ((60%N :: open_tag m name kw ++ u " />") ++ s) by (cbn; rewrite <- app_assoc; reflexivity).
  apply doc_tag; [| |reflexivity|exact D].
  - intros I. apply in_app_or in I. destruct I as [I|I]; [exact (open_tag_no_NL _ _ _ Hn Hk I)|cbn in I; intuition discriminate].
  - intros rest. rewrite <- app_assoc. exact (read_tag_open m name kw true rest Hn Hk).
Qed.
Lemma doc_close name s l : valid_name name -> doc s l -> doc (u "</" ++ name ++ u ">" ++ s) (IClose name :: l).
Proof.
  intros Hn D. replace (u "</" ++ name ++ u ">" ++ s) with ((60%N :: u "/" ++ name ++ u ">") ++ s) by (cbn; rewrite <- app_assoc; reflexivity).
  apply doc_tag; [| |reflexivity|exact D].
  - intros I. apply in_app_or in I. destruct I as [I|I]; [cbn in I; intuition discriminate|]. apply in_app_or in I. destruct I as [I|I]; [|cbn in I; intuition discriminate]. destruct Hn as [_ Hc]. apply Hc in I. discriminate.
  - intros rest. rewrite <- !app_assoc. exact (read_tag_close name rest Hn).
Qed.

Definition reads_well (P : rprims) (t : tree) : Prop := forall s, srender P (erase t) = Done s ->
  exists l, doc s l /\ filter visible l = content P t.

Lemma reads_all P ts : Forall (reads_well P) ts -> forall s, srenders P (map erase ts) = Done s ->
  exists l, doc s l /\ filter visible l = contents P ts.
Proof.
  induction 1 as [|x ts Hx Ht IH]; intros s E.
  - injection E as <-. exists []. split; [constructor|reflexivity].
  - cbn [map srenders] in E. destruct (srender P (erase x)) as [a|e|] eqn:Ea; try discriminate. cbn [obind] in E.
    destruct (srenders P (map erase ts)) as [b|e|] eqn:Eb; try discriminate. injection E as <-.
    destruct (Hx a Ea) as (la & Da & Va). destruct (IH b eq_refl) as (lb & Db & Vb). exists (la ++ lb).
    split; [apply doc_app; assumption|]. rewrite filter_app, Va, Vb. reflexivity.
Qed.

Lemma doc_tail c s l : c <> 60%N -> c <> 38%N -> doc (c :: s) l -> exists l', l = IChar c :: l' /\ doc s l'.
Proof.
  intros N1 N2 H. remember (c :: s) as x eqn:Ex. destruct H as [|d s' l' M1 M2 M3 H|e d s' l' I H|t it s' l' Nt R V H].
  - discriminate.
  - injection Ex as -> ->. eexists. split; [reflexivity|assumption].
  - exfalso. destruct I as [[= <- <-]|[[= <- <-]|[[= <- <-]|[]]]]; cbn in Ex; congruence.
  - cbn in Ex. congruence.
Qed.

Lemma render_node_doc P f body s : blank_indent f -> render_node P f body = Done s ->
  exists b, render_body P f body = Done b /\
    forall l, doc b l -> exists l', doc s l' /\ filter visible l' = filter visible l.
Proof.
  intros B E. unfold render_node in E. destruct (render_body P f body) as [b|e|]; try discriminate. cbn [obind] in E.
  exists b. split; [reflexivity|]. intros l D.
  assert (D0 : exists l0, doc ((if n_outline f then [NL] else []) ++ b) l0 /\ filter visible l0 = filter visible l).
  { destruct (n_outline f); [|exists l; split; [exact D|reflexivity]]. exists (IChar NL :: l). split; [|reflexivity]. constructor; try discriminate. exact D. }
  destruct D0 as (l0 & D0 & V0). unfold blank_indent in B.
  assert (D1 : exists s1 l1, match n_indent f with None => Done ((if n_outline f then [NL] else []) ++ b)
      | Some ind => if absolute ind then Exc AssertionError else Done (add_indent ((if n_outline f then [NL] else []) ++ b) ind) end = Done s1
      /\ doc s1 l1 /\ filter visible l1 = filter visible l).
  { destruct (n_indent f) as [ind|].
    - destruct (absolute ind); [discriminate|]. destruct (doc_add_indent ind _ l0 (proj1 B) (proj2 B) D0) as (l1 & D1 & V1).
      eexists _, l1. split; [reflexivity|]. split; [exact D1|congruence].
    - eexists _, l0. split; [reflexivity|]. split; assumption. }
  destruct D1 as (s1 & l1 & E1 & D1 & V1). rewrite E1 in E. cbn [obind] in E.
  destruct (n_kind f).
  - injection E as <-. exists l1. split; assumption.
  - assert (E' : s = drop_newline s1) by (rewrite <- skipn_drop; congruence). subst s. destruct s1 as [|c s1]; [exists l1; split; assumption|]. cbn [drop_newline].
    destruct (N.eqb_spec c NL) as [->|]; [|exists l1; split; assumption].
    apply doc_tail in D1; try discriminate. destruct D1 as (l2 & -> & D2). exists l2. split; [exact D2|]. rewrite <- V1. reflexivity.
  - injection E as <-. exists l1. split; assumption.
Qed.

Lemma markup_reads P t : markup_tree P t -> reads_well P t.
Proof.
  induction t as [i f ts IH] using tree_ind'. intros M s E. cbn [erase] in E. rewrite srender_Sh in E. rewrite content_T.
  apply markup_inv in M. destruct M as [(x & Kf & Sx & B & ->)|[(Kf & B & Tf & M)|(t & void & m & av & Kf & B & Tf & Kt & Hn & Ha & Hk & M)]].
  - destruct (render_node_doc _ _ _ _ B E) as (b & Eb & G). unfold render_body in Eb. rewrite Kf in Eb |- *. injection Eb as <-.
    destruct (G _ (doc_safe _ x (le_n _) Sx)) as (l' & D & V). exists l'. split; assumption.
  - destruct (render_node_doc _ _ _ _ B E) as (b & Eb & G).
    assert (R : forall s, srenders P (map erase ts) = Done s -> exists l, doc s l /\ filter visible l = contents P ts).
    { apply reads_all. rewrite Forall_forall in *. intros x I. apply IH; [exact I|apply M, I]. }
    assert (Eb' : srenders P (map erase ts) = Done b).
    { unfold render_body in Eb. destruct (n_kind f) as [| |z]; [| |destruct (Kf z eq_refl)];
        (destruct Tf as [Tf|(t & Tf & [Kt|Kt])]; rewrite Tf in Eb; [exact Eb|unfold expand in Eb; rewrite Kt in Eb; exact Eb|unfold expand in Eb; rewrite Kt in Eb; exact Eb]). }
    destruct (R b Eb') as (l & D & V). destruct (G l D) as (l' & D' & V'). exists l'. split; [exact D'|]. rewrite V', V.
    destruct (n_kind f) as [| |z]; [| |destruct (Kf z eq_refl)];
        (destruct Tf as [Tf|(t & Tf & [Kt|Kt])]; rewrite Tf; [reflexivity|rewrite Kt; reflexivity|rewrite Kt; reflexivity]).
  - destruct (render_node_doc _ _ _ _ B E) as (b & Eb & G).
    assert (R : forall s, srenders P (map erase ts) = Done s -> exists l, doc s l /\ filter visible l = contents P ts).
    { apply reads_all. rewrite Forall_forall in *. intros x I. apply IH; [exact I|apply M, I]. }
    assert (Eb' : exists body, srenders P (map erase ts) = Done body /\ n_attrs f = [] /\
              markup_expand {| m_name := t_name t; m_void := void; m_mode := m |} body 0 av = Ok b).
    { unfold render_body in Eb. assert (X : expand P t (srenders P (map erase ts)) (n_attrs f) match n_kwattrs f with Some kw => kw | None => [] end = Done b).
      { destruct (n_kind f) as [| |z]; [| |destruct (Kf z eq_refl)]; rewrite Tf in Eb; exact Eb. }
      unfold expand in X. rewrite Kt, attrvals_of_spec, Ha in X. destruct (n_attrs f); [|discriminate]. cbn [out_of obind] in X.
      destruct (srenders P (map erase ts)) as [body|e|]; try discriminate. cbn [obind] in X. exists body. split; [reflexivity|]. split; [reflexivity|].
      destruct (markup_expand _ body 0 av); [injection X as <-; reflexivity|discriminate]. }
    destruct Eb' as (body & Er & _ & Em). destruct (R body Er) as (lb & Db & Vb).
    assert (C : match n_kind f with KText s => filter visible (map IChar (decode s)) | _ =>
       match n_tag f with Some t => match t_kind t, attr_values P (match n_kwattrs f with Some kw => kw | None => [] end) with
          | KMarkup false m, Ok av => IOpen (t_name t) (flat_map (seen m) av) :: contents P ts ++ [IClose (t_name t)]
          | KMarkup true m, Ok av => [IEmpty (t_name t) (flat_map (seen m) av)] | _, _ => contents P ts end | None => contents P ts end end
        = if void then [IEmpty (t_name t) (flat_map (seen m) av)] else IOpen (t_name t) (flat_map (seen m) av) :: contents P ts ++ [IClose (t_name t)]).
    { rewrite Tf, Kt, Ha. destruct (n_kind f) as [| |z]; [| |destruct (Kf z eq_refl)]; destruct void; reflexivity. }
    rewrite C. unfold markup_expand, markup_expand' in Em. cbn [m_void m_name m_mode] in Em. destruct void.
    + destruct body as [|c body]; [|discriminate]. injection Em as Em. 
      assert (D : doc b [IEmpty (t_name t) (flat_map (seen m) av)]).
      { rewrite <- Em. pose proof (doc_void m (t_name t) av [] [] Hn Hk doc_nil) as K. rewrite app_nil_r in K. exact K. }
      destruct (G _ D) as (l' & D' & V'). exists l'. split; [exact D'|]. rewrite V'. reflexivity.
    + apply Ok_inj in Em.
      assert (D : doc b (IOpen (t_name t) (flat_map (seen m) av) :: lb ++ (if startswith [NL] body then [IChar NL] else []) ++ [IClose (t_name t)])).
      { rewrite <- Em. apply doc_open; [exact Hn|exact Hk|]. apply doc_app; [exact Db|]. apply doc_app.
        - destruct (startswith [NL] body); [|constructor]. constructor; try discriminate. constructor.
        - pose proof (doc_close (t_name t) [] [] Hn doc_nil) as K. rewrite app_nil_r in K. exact K. }
      destruct (G _ D) as (l' & D' & V'). exists l'. split; [exact D'|]. rewrite V'. cbn [filter visible]. f_equal. rewrite !filter_app, Vb. f_equal.
      destruct (startswith [NL] body); reflexivity.
Qed.

Lemma chars_nested s : well_nested (filter visible (map IChar s)).
Proof. induction s as [|c s IH]; cbn [map filter]; [constructor|]. destruct (visible (IChar c)); [constructor|]; exact IH. Qed.

Lemma content_nested P t : well_nested (content P t).
Proof.
  induction t as [i f ts IH] using tree_ind'. rewrite content_T.
  assert (C : well_nested (contents P ts)). { induction IH; cbn; [constructor|]. apply well_nested_app; assumption. }
  destruct (n_kind f); [| |apply chars_nested].
  - destruct (n_tag f) as [t|]; [|exact C]. destruct (t_kind t) as [| |[|] m| | |c]; try exact C;
      destruct (attr_values P _); try exact C; [repeat constructor|]. apply wn_elem; [exact C|constructor].
  - destruct (n_tag f) as [t|]; [|exact C]. destruct (t_kind t) as [| |[|] m| | |c]; try exact C;
      destruct (attr_values P _); try exact C; [repeat constructor|]. apply wn_elem; [exact C|constructor].
Qed.

Lemma markup_well_formed P k h t s : repr h t -> height t <= k -> markup_tree P t -> render P k h (root t) = Done s ->
  exists l, read_document s = Some l /\ well_nested l /\ filter visible l = content P t.
Proof.
  intros R F M E. rewrite (render_srender P t k h R F) in E. destruct (markup_reads P t M s E) as (l & D & V).
  exists l. split; [apply doc_read; [exact D|apply le_n]|]. split; [|exact V].
  apply (well_nested_visible l []). cbn [app]. rewrite V. apply content_nested.
Qed.
