(** From the text of a page to its HTML. *)
From Coq Require Import List NArith ZArith Bool Lia Arith String.
From Verif Require Import PyStr PyStrFacts Html HtmlFacts Indent PyDict Value Dom DomSpec DomFacts Ast Syntax
  PageSpec PageFlat PageParse PageRender Machine Eval Translate Structs StructsSpec StructsFacts Analyse MachineFacts ScopeFacts LocalFacts RenderFacts ExportFacts PageRun PageTree Runtime RuntimeSpec.
Import ListNotations.
Local Open Scope string_scope.
Local Open Scope list_scope.
Local Open Scope nat_scope.

Lemma height_ids t : height t <= List.length (ids t).
Proof.
  induction t as [i f us IH] using tree_ind'. rewrite height_T. cbn. apply le_n_S. change (flat_map ids us) with (all_ids us).
  induction IH as [|u us Hu _ IHu]; [apply le_n|]. rewrite heights_cons. change (all_ids (u :: us)) with (ids u ++ all_ids us). rewrite app_length. lia.
Qed.
Lemma height_heap h t : repr h t -> NoDup (ids t) -> height t <= List.length h.
Proof.
  intros R ND. eapply Nat.le_trans; [apply height_ids|]. rewrite <- (seq_length (List.length h) 0). apply NoDup_incl_length; [exact ND|].
  intros i I. apply in_seq. split; [lia|]. apply (repr_lt _ _ R), I.
Qed.

Section Doc.
  Context {W : Type}.

  Lemma set_values_ind s (l : list (slot * val)) : forall m : mach W, live s m -> exists m', miter (set_value s) l m = (Done tt, m') /\ live s m' /\ ind_of s m' = ind_of s m.
  Proof.
    induction l as [|[x v] l IH]; intros m L; [exists m; repeat split; exact L|].
    cbn [miter]. unfold mbind, set_value at 1, set_slot. cbn [fst snd]. set (m1 := put_state m s _).
    assert (L1 : live s m1) by (unfold live, m1; cbn; rewrite put_nth_length; exact L).
    destruct (IH m1 L1) as (m' & E & L' & I'). exists m'. split; [exact E|]. split; [exact L'|]. rewrite I'. unfold ind_of, m1. rewrite state_put_same by exact L. reflexivity.
  Qed.

  Variable P : prims W.
  Hypothesis escaping : p_escape P = Some html_escape.
  Variable import_module : str -> M W module.
  Variable context : list (str * val).
  Variable known : str -> option bool.
  Variable tag_of : str -> tag.

  (** the tags of the builtins *)
  Definition tags_are (globals : list (str * val)) : Prop := forall n v, known n = Some v -> In (TAG n, VTag (tag_of n)) globals.

  (** the root node *)
  Lemma new_root_tree h ts h0 kids : grown h0 h ts -> Forall2 (shifted [NL] []) (map erase ts) kids ->
    exists i h' ts', new_root (depth_bound h) (map root ts) h = (Done i, h') /\ repr h' (T i (with_indent root_info (Some [])) ts') /\ map erase ts' = kids /\
      NoDup (ids (T i (with_indent root_info (Some [])) ts')).
  Proof.
    intros G Hs. pose proof (grown_node _ _ _ root_info G) as G1. set (i := List.length h) in *. set (h1 := h ++ _) in G1.
    destruct (set_indent_tree (List.length h) h0 h1 i root_info ts [NL] [] kids eq_refl G1) as (h2 & ts' & E & G2 & Es); [discriminate|exact Hs|].
    exists i, (put_indent h2 i (Some [])), ts'. destruct G2 as (_ & _ & R & N & _). inversion R as [|? ? R0 _]; subst.
    unfold all_ids in N. cbn [flat_map ids] in N. rewrite app_nil_r in N. split; [|split; [|split]].
    - unfold new_root, hbind, new_node, hbind. unfold depth_bound. change (with_indent root_info None) with root_info. fold h1. change (List.length h) with i in E |- *. rewrite E. reflexivity.
    - inversion N; subst. apply (put_indent_repr h2 i _ ts' (Some [])) in R0; [exact R0|assumption].
    - reflexivity.
    - exact N.
  Qed.

  Theorem translate_page doc k is n globals (m : mach W) : doc <> [] -> Forall (wf known) doc -> Forall2 (like (fun _ => None)) doc is ->
    NoDup (map fst globals) -> tags_are globals ->
    (forall n v, known n = Some v -> t_name (tag_of n) = n /\ exists md, t_kind (tag_of n) = KMarkup v md) ->
    exists r s m', translate import_module context P n globals (is ++ match k with O => [] | S _ => [NMargin (repeatc NL k)] end) m = (Done (r, [], s), m') /\
      dom_render (p_ren P) (depth_bound (m_heap m')) (m_heap m') [r] = Done (page_html (void known) doc k).
  Proof.
    intros Hd Hw Hl ND HT HK.
    set (mg := match k with O => [] | S _ => [NMargin (repeatc NL k)] end).
    destruct (pushes_entries globals new_ctx m inv_empty) as (c0 & E0 & I0 & A0 & _).
    set (ins := combine _ _) in E0. set (m0 := with_next m _) in E0.
    assert (Get : forall y v, known y = Some v -> exists x i, md_get (TAG y) (c_md c0) = Some i /\ sl_id i = x /\ In (x, VTag (tag_of y)) ins).
    { intros y v K. destruct (combine_values globals (seq (m_next m) (List.length globals)) (seq_length _ _) _ _ (HT y v K)) as (x & J1 & J2).
      eexists x, _. split; [|split; [|exact J2]].
      - change (md_get (TAG y) (c_md c0)) with (c_get c0 (TAG y)). rewrite c_get_find by exact I0. rewrite A0, find_app.
        rewrite (In_find_rev _ (TAG y) {| sl_id := x; sl_depth := c_regular new_ctx |}); [reflexivity| |].
        + rewrite combine_keys; [exact ND|]. unfold slots. rewrite !map_length, seq_length. reflexivity.
        + apply map_combine_slots; [apply map_length|exact J1].
      - reflexivity. }
    assert (HTg : has_tags known (c_md c0)). { intros y v K. destruct (Get y v K) as (x & i & G & _). exists i. exact G. }
    (* analysis *)
    assert (FK : Forall2 (fun t i => wf known t -> forall c m, has_tags known (c_md c) -> keeps (an_item import_module context i) c m (like (slots_of (c_md c)) t)) doc is).
    { clear -Hl. induction Hl as [|t i doc is Ht H IH]; constructor; [|exact IH]. intros Hw c m HT. apply (an_page import_module context known); assumption. }
    destruct (keeps_items import_module context known doc is FK Hw c0 m0 HTg) as (is' & c1 & E1 & M1 & _ & _ & _ & L1).
    assert (E2 : amap (an_item import_module context) (is ++ mg) c0 m0 = (Done (is' ++ mg, c1), m0)).
    { apply amap_app_done with c1 m0; [exact E1|]. apply amap_marks. unfold mg. destruct k; repeat constructor. }
    assert (EA : an_document import_module context globals (is ++ mg) m = (Done {| d_in := ins; d_items := is' ++ mg; d_out := [] |}, m0)).
    { rewrite document_split. unfold mbind at 1. rewrite E0. cbn [fst snd]. unfold mbind. rewrite E2. cbn [fst snd]. rewrite M1. unfold md_asdict, md_position.
      rewrite skipn_all. reflexivity. }
    (* translation *)
    unfold translate. unfold mbind at 1. rewrite EA. unfold mbind at 1. set (s := List.length (m_states m0)). set (m2 := with_states m0 _).
    assert (L2 : live s m2). { unfold live, m2, s. cbn. rewrite app_length. cbn. lia. }
    assert (In2 : ind_of s m2 = [NL]). { unfold ind_of, state_at, m2, s. cbn [m_states with_states]. rewrite app_nth2 by apply le_n. rewrite Nat.sub_diag. reflexivity. }
    destruct (set_values s ins m2 L2) as (m3 & E3 & _ & _ & V3). destruct (set_values_ind s ins m2 L2) as (m3' & E3' & L3 & In3).
    rewrite E3 in E3'. injection E3' as <-. rewrite In2 in In3.
    assert (ND3 : NoDup (map fst ins)). { unfold ins. rewrite combine_keys by (rewrite seq_length, map_length; reflexivity). apply seq_NoDup. }
    assert (HS : slots_hold known tag_of (slots_of (c_md c0)) s m3).
    { intros y v K. destruct (Get y v K) as (x & i & G1 & G2 & G3). exists x. unfold slots_of. rewrite G1. cbn. split; [rewrite G2; reflexivity|].
      apply (V3 ND3), G3. }
    assert (FB : Forall2 (fun t i => forall h, builds (tr_item P (expand_n P n) n s i) (with_heap m3 h) (shapes tag_of [NL] t)) doc is').
    { clear -L1 Hw L3 In3 HS escaping. induction L1 as [|t i doc is Ht H IH]; constructor; inversion Hw; subst; [|apply IH; assumption].
      intros h. apply (builds_page P escaping _ n known tag_of (slots_of (c_md c0)) s t i Ht); try assumption. }
    destruct (builds_items P (expand_n P n) n tag_of s doc is' m3 [NL] FB (m_heap m3)) as (ts & h & E4 & G4 & S4). rewrite with_heap_same in E4, G4.
    assert (BM : exists ts' h', mconcat (tr_item P (expand_n P n) n s) mg (with_heap m3 h) = (Done (map root ts'), with_heap m3 h') /\ grown h h' ts' /\ map erase ts' = margin_sh k).
    { unfold mg. destruct k as [|k].
      - exists [], h. split; [reflexivity|]. split; [apply grown_nil|reflexivity].
      - destruct (builds_margin (with_heap m3 h) (S k)) as (ts' & h' & E & G & Es). exists ts', h'. split; [|split; assumption].
        cbn [mconcat tr_item]. rewrite (run_bind _ _ _ _ _ E). unfold mbind, ret. rewrite app_nil_r. reflexivity. }
    destruct BM as (ts2 & h2 & E5 & G5 & S5).
    pose proof (mconcat_app_run _ _ _ _ _ _ _ _ E4 E5) as E6. rewrite <- map_app in E6.
    pose proof (grown_app _ _ _ _ _ G4 G5) as G6.
    destruct (new_root_tree h2 (ts ++ ts2) (m_heap m3) (flat_map (shapes tag_of []) doc ++ margin_sh k)) as (r & h3 & ts3 & E7 & R7 & S7 & N7); [exact G6| |].
    { rewrite map_app, S4, S5. apply Forall2_app; [apply (shifted_pages tag_of [NL] [])|]. destruct k; repeat constructor. }
    exists r, s, (with_heap m3 h3). split.
    - unfold mbind at 1. unfold tr_document. cbn [d_in d_items d_out]. unfold mbind at 1. rewrite E3. unfold mbind at 1. rewrite E6. unfold mbind at 1, lift_h.
      cbn [m_heap with_heap]. rewrite E7. reflexivity.
    - cbn [m_heap with_heap]. unfold dom_render. cbn [oconcat].
      assert (Rr : render (p_ren P) (depth_bound h3) h3 r = Done (page_html (void known) doc k)).
      { assert (Q := render_srender (p_ren P) _ (depth_bound h3) h3 R7 ltac:(unfold depth_bound; apply le_S, height_heap; assumption)). cbn [root erase] in Q. rewrite Q.
        rewrite S7. apply (render_root known (p_ren P) tag_of HK doc k Hd Hw). }
      rewrite Rr. cbn. rewrite app_nil_r. reflexivity.
  Qed.
End Doc.

Theorem page_meaning (W : Type) (P : prims W) import_module context X known tag_of globals n (m : mach W) doc k :
  p_escape P = Some html_escape -> NoDup (map fst globals) ->
  (forall y v, known y = Some v -> In (TAG y, VTag (tag_of y)) globals) ->
  (forall y v, known y = Some v -> t_name (tag_of y) = y /\ exists md, t_kind (tag_of y) = KMarkup v md) ->
  doc <> [] -> Forall (wf known) doc ->
  exists d r s m', parse_script X (script doc k) = Ok d /\
    translate import_module context P n globals d m = (Done (r, [], s), m') /\
    dom_render (p_ren P) (depth_bound (m_heap m')) (m_heap m') [r] = Done (page_html (void known) doc k).
Proof.
  intros He ND HT HK Hd Hw. destruct (parse_page X known doc k Hd Hw) as (is & Ep & Hl).
  destruct (translate_page P He import_module context known tag_of doc k is n globals m Hd Hw Hl ND HT HK) as (r & s & m' & Et & Er).
  eexists _, r, s, m'. split; [exact Ep|]. split; assumption.
Qed.

(** ** The runtime *)
Section Runtime.
  Context {W : Type}.
  Variable E : env W.
  Variable P : prims W.

  (** The runtime parses by the grammar and escapes texts for HTML; the built-in symbols, when they have been
      imported, have all tags of [known] bound to markup tags of the same names. *)
  Definition page_runtime (known : str -> option bool) (n k : nat) (m : mach W) : Prop :=
    p_escape P = Some html_escape /\ (exists X, forall s, e_parse E s = parse_script X s) /\
    exists b m1, import_builtins E (run_script E P n k [] []) m = (Done b, m1) /\ NoDup (map fst b) /\
      forall y v, known y = Some v -> exists t, In (TAG y, VTag t) b /\ t_name t = y /\ exists md, t_kind t = KMarkup v md.

  Lemma in_dset_other (b : list (str * val)) x y v w : x <> y -> In (y, w) b -> In (y, w) (dset str_eqb x v b).
  Proof.
    intros N. induction b as [|[z q] b IH]; intros I; [destruct I|]. cbn [dset]. destruct (str_eqb x z) eqn:Ez.
    - apply str_eqb_eq in Ez. subst z. destruct I as [[= -> _]|I]; [contradiction|]. right. exact I.
    - destruct I as [I|I]; [left; exact I|right; apply IH, I].
  Qed.

  Definition find_tag (b : list (str * val)) (y : str) : tag :=
    match dget str_eqb (TAG y) b with Some (VTag t) => t | _ => null_tag end.

  Theorem render_page known doc j n k tags vars ctx file package m : page_runtime known n k m -> called_with tags vars ctx ->
    doc <> [] -> Forall (wf known) doc ->
    exists m', render_script E P n (S k) tags vars (script doc j) file package m = (Done (page_html (void known) doc j), m').
  Proof.
    intros (He & (X & Hp) & b & m1 & Hb & ND & HT) [Hk Hc] Hd Hw.
    destruct (parse_page X known doc j Hd Hw) as (is & Ep & Hl).
    set (b1 := dset str_eqb (VAR (u "__file__")) (str_or_none file) b). set (b2 := dset str_eqb (VAR (u "__package__")) (str_or_none package) b1).
    assert (ND2 : NoDup (map fst b2)).
    { apply (nodup_dset str_eqb str_eqb_eq), (nodup_dset str_eqb str_eqb_eq). exact ND. }
    assert (HT2 : forall y t, In (TAG y, VTag t) b -> In (TAG y, VTag t) b2).
    { intros y t I. apply in_dset_other; [discriminate|]. apply in_dset_other; [discriminate|exact I]. }
    assert (Tg : tags_are known (find_tag b2) b2).
    { intros y v K. destruct (HT y v K) as (t & I & _). apply HT2 in I. unfold find_tag. rewrite (dget_nodup str_eqb str_eqb_eq _ _ _ ND2 I). exact I. }
    assert (HK : forall y v, known y = Some v -> t_name (find_tag b2 y) = y /\ exists md, t_kind (find_tag b2 y) = KMarkup v md).
    { intros y v K. destruct (HT y v K) as (t & I & N & M). apply HT2 in I. unfold find_tag. rewrite (dget_nodup str_eqb str_eqb_eq _ _ _ ND2 I). split; assumption. }
    set (imp := fun path => import_module E (run_script E P n k [] []) path {| r_file := file; r_package := package |}).
    destruct (translate_page P He imp ctx known (find_tag b2) doc j is n b2 m1 Hd Hw Hl ND2 Tg HK) as (r & s & m' & Et & Er).
    exists m'. unfold render_script. cbn [run_script]. unfold mbind at 1. rewrite (clash_free render_params) by (exact Hk || exact own_render). unfold mbind at 1. rewrite Hb. fold b1. fold b2. rewrite (clash_free module_params) by (exact Hk || exact own_module).
    unfold mbind at 1. rewrite Hp, Ep. cbn [of_result]. unfold ret at 1. rewrite (clash_free ast_params) by (exact Hk || exact own_ast). unfold mbind at 1. rewrite Hc. cbn [of_result]. unfold ret at 1.
    unfold mbind at 1. fold imp. rewrite Et. cbn [ret mod_dom]. rewrite Er. reflexivity.
  Qed.
End Runtime.
