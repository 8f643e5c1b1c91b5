(** Last steps of the proofs about templates. *)
From Coq Require Import List NArith ZArith Bool Arith String.
From Verif Require Import PyStr Html HtmlSpec PyDict Value Dom Ast Machine Analyse Syntax Runtime RuntimeSpec Ref ConfRef PageSpec PageSamples OperSpec
  TmplSpec TmplParse TmplExpr TmplDoc TmplReadSpec TmplRead TmplNotes TmplCheck TmplSamples.
Import ListNotations.
Local Open Scope string_scope.
Local Open Scope list_scope.

Theorem script_meaning W (P : prims W) Q X import_module context known tag_of globals b lim n (m : mach W) names vals vars ds doc k es r' :
  agrees P Q -> p_escape P = Some html_escape -> NoDup (map fst globals) ->
  (forall y v, known y = Some v -> In (TAG y, VTag (tag_of y)) globals) ->
  (forall y v, known y = Some v -> t_name (tag_of y) = y /\ t_kind (tag_of y) = KMarkup v HTML) ->
  (forall y v, In (y, v) vars -> In (VAR y, v) globals) ->
  Forall2 (fun x v => dget str_eqb (VAR x) context = Some v) names vals ->
  blank_text b -> plain_symbols X (script b names ds doc k) -> List.length (defined ds) + lim <= n ->
  doc <> [] -> (forall x, In x names -> id_name x = true) -> wfd b known (names ++ map fst vars) [] ds ->
  wfts b known (rev (defined ds)) None [] (names ++ map fst vars) doc ->
  insts (inst Q b lim (meanings Q b lim (names ++ map fst vars) ds) None) doc (combine names vals ++ vars) = Is (es, r') ->
  exists d i out s m', parse_script X (script b names ds doc k) = Ok d /\
    translate import_module context P n globals d m = (Done (i, out, s), m') /\
    dom_render (p_ren P) (depth_bound (m_heap m')) (m_heap m') [i] = Done (elems_html (void known) (gaps ds ++ es) k).
Proof.
  intros H1 H2 H3 H4 H5 H6 H7 H8 H9 H10 H11 H12 H13 H14 Hi.
  destruct (template_meaning P Q X import_module context known tag_of globals b lim n m names vals vars ds doc k H1 H2 H3 H4 H5 H6 H7 H8 H9 H10 H11 H12 H13 H14) as (d & Ep & T1 & _).
  destruct (T1 es r' Hi) as (i & out & s & m' & K). exists d, i, out, s, m'. split; [exact Ep|exact K].
Qed.
Theorem script_raises W (P : prims W) Q X import_module context known tag_of globals b lim n (m : mach W) names vals vars ds doc k :
  agrees P Q -> p_escape P = Some html_escape -> NoDup (map fst globals) ->
  (forall y v, known y = Some v -> In (TAG y, VTag (tag_of y)) globals) ->
  (forall y v, known y = Some v -> t_name (tag_of y) = y /\ t_kind (tag_of y) = KMarkup v HTML) ->
  (forall y v, In (y, v) vars -> In (VAR y, v) globals) ->
  Forall2 (fun x v => dget str_eqb (VAR x) context = Some v) names vals ->
  blank_text b -> plain_symbols X (script b names ds doc k) -> List.length (defined ds) + lim <= n ->
  doc <> [] -> (forall x, In x names -> id_name x = true) -> wfd b known (names ++ map fst vars) [] ds ->
  wfts b known (rev (defined ds)) None [] (names ++ map fst vars) doc ->
  insts (inst Q b lim (meanings Q b lim (names ++ map fst vars) ds) None) doc (combine names vals ++ vars) = Raises ->
  exists d e m', parse_script X (script b names ds doc k) = Ok d /\ translate import_module context P n globals d m = (Exc e, m').
Proof.
  intros H1 H2 H3 H4 H5 H6 H7 H8 H9 H10 H11 H12 H13 H14 Hi.
  destruct (template_meaning P Q X import_module context known tag_of globals b lim n m names vals vars ds doc k H1 H2 H3 H4 H5 H6 H7 H8 H9 H10 H11 H12 H13 H14) as (d & Ep & _ & T2).
  destruct (T2 Hi) as (e & m' & K). exists d, e, m'. split; [exact Ep|exact K].
Qed.
Theorem script_render W (E : env W) (P : prims W) Q X known b lim names vals vars ds doc j n k tags args ctx file package m es r' :
  template_runtime E P Q X known vars n k m -> called_with tags args ctx ->
  Forall2 (fun x v => dget str_eqb (VAR x) ctx = Some v) names vals ->
  blank_text b -> plain_symbols X (script b names ds doc j) -> List.length (defined ds) + lim <= n ->
  doc <> [] -> (forall x, In x names -> id_name x = true) -> wfd b known (names ++ map fst vars) [] ds ->
  wfts b known (rev (defined ds)) None [] (names ++ map fst vars) doc ->
  insts (inst Q b lim (meanings Q b lim (names ++ map fst vars) ds) None) doc (combine names vals ++ vars) = Is (es, r') ->
  exists m', render_script E P n (S k) tags args (script b names ds doc j) file package m = (Done (elems_html (void known) (gaps ds ++ es) j), m').
Proof.
  intros H1 H2 H3 H4 H5 H6 H7 H8 H9 H10 Hi.
  exact (proj1 (render_template E P Q X known b lim names vals vars ds doc j n k tags args ctx file package m H1 H2 H3 H4 H5 H6 H7 H8 H9 H10) es r' Hi).
Qed.
Theorem script_error W (E : env W) (P : prims W) Q X known b lim names vals vars ds doc j n k tags args ctx file package m :
  template_runtime E P Q X known vars n k m -> called_with tags args ctx ->
  Forall2 (fun x v => dget str_eqb (VAR x) ctx = Some v) names vals ->
  blank_text b -> plain_symbols X (script b names ds doc j) -> List.length (defined ds) + lim <= n ->
  doc <> [] -> (forall x, In x names -> id_name x = true) -> wfd b known (names ++ map fst vars) [] ds ->
  wfts b known (rev (defined ds)) None [] (names ++ map fst vars) doc ->
  insts (inst Q b lim (meanings Q b lim (names ++ map fst vars) ds) None) doc (combine names vals ++ vars) = Raises ->
  exists e m', render_script E P n (S k) tags args (script b names ds doc j) file package m = (Exc e, m').
Proof.
  intros H1 H2 H3 H4 H5 H6 H7 H8 H9 H10 Hi.
  exact (proj2 (render_template E P Q X known b lim names vals vars ds doc j n k tags args ctx file package m H1 H2 H3 H4 H5 H6 H7 H8 H9 H10) Hi).
Qed.
(** Templates without definitions. *)
Theorem plain_meaning W (P : prims W) Q X import_module context known tag_of globals b lim n (m : mach W) names vals vars doc k es r' :
  agrees P Q -> p_escape P = Some html_escape -> NoDup (map fst globals) ->
  (forall y v, known y = Some v -> In (TAG y, VTag (tag_of y)) globals) ->
  (forall y v, known y = Some v -> t_name (tag_of y) = y /\ t_kind (tag_of y) = KMarkup v HTML) ->
  (forall y v, In (y, v) vars -> In (VAR y, v) globals) ->
  Forall2 (fun x v => dget str_eqb (VAR x) context = Some v) names vals ->
  blank_text b -> plain_symbols X (template b names doc k) -> lim <= n ->
  doc <> [] -> (forall x, In x names -> id_name x = true) -> wfts b known [] None [] (names ++ map fst vars) doc ->
  insts (inst Q b lim [] None) doc (combine names vals ++ vars) = Is (es, r') ->
  exists d i out s m', parse_script X (template b names doc k) = Ok d /\
    translate import_module context P n globals d m = (Done (i, out, s), m') /\
    dom_render (p_ren P) (depth_bound (m_heap m')) (m_heap m') [i] = Done (elems_html (void known) es k).
Proof.
  intros. eapply (script_meaning W P Q X import_module context known tag_of globals b lim n m names vals vars [] doc k es r'); try eassumption; constructor.
Qed.
Theorem plain_render W (E : env W) (P : prims W) Q X known b lim names vals vars doc j n k tags args ctx file package m es r' :
  template_runtime E P Q X known vars n k m -> called_with tags args ctx ->
  Forall2 (fun x v => dget str_eqb (VAR x) ctx = Some v) names vals ->
  blank_text b -> plain_symbols X (template b names doc j) -> lim <= n ->
  doc <> [] -> (forall x, In x names -> id_name x = true) -> wfts b known [] None [] (names ++ map fst vars) doc ->
  insts (inst Q b lim [] None) doc (combine names vals ++ vars) = Is (es, r') ->
  exists m', render_script E P n (S k) tags args (template b names doc j) file package m = (Done (elems_html (void known) es j), m').
Proof.
  intros. eapply (script_render W E P Q X known b lim names vals vars [] doc j n k tags args ctx file package m es r'); try eassumption; constructor.
Qed.

(** Rendering and reading. *)
Theorem render_read W (E : env W) P Q X known b lim names vals vars ds doc j n k tags args ctx file package (m : mach W) es r' :
  template_runtime E P Q X known vars n k m -> called_with tags args ctx ->
  Forall2 (fun x v => dget str_eqb (VAR x) ctx = Some v) names vals ->
  blank_text b -> plain_symbols X (script b names ds doc j) -> List.length (defined ds) + lim <= n ->
  doc <> [] -> (forall x, In x names -> id_name x = true) -> wfd b known (names ++ map fst vars) [] ds ->
  wfts b known (rev (defined ds)) None [] (names ++ map fst vars) doc ->
  Forall plain_def ds -> Forall plain doc ->
  insts (inst Q b lim (meanings Q b lim (names ++ map fst vars) (map bare_def ds)) None) (map bare doc) (combine names vals ++ vars) = Is (es, r') ->
  exists s m' l, render_script E P n (S k) tags args (script b names ds doc j) file package m = (Done s, m') /\
    read_document s = Some l /\ well_nested l /\ filter visible l = flat_map (elem_items (void known)) es.
Proof.
  intros HR Hc HC Hb Hd Ln Hn Hi Hwd Hw Hpd Hp E1.
  destruct (template_read Q b lim known (names ++ map fst vars) ds _ [] (names ++ map fst vars) doc (combine names vals ++ vars) es r' j Hwd Hw Hpd Hp E1) as [E2 (l & K)].
  destruct (script_render W E P Q X known b lim names vals vars ds doc j n k tags args ctx file package m _ r' HR Hc HC Hb Hd Ln Hn Hi Hwd Hw E2) as (m' & Hm).
  eexists. exists m', l. split; [exact Hm|exact K].
Qed.

(** Comments. *)
Theorem render_commented W (E : env W) P Q X known b lim names vals vars ds ds' doc doc' j n k tags args ctx file package (m : mach W) es r' :
  template_runtime E P Q X known vars n k m -> called_with tags args ctx ->
  Forall2 (fun x v => dget str_eqb (VAR x) ctx = Some v) names vals ->
  blank_text b -> plain_symbols X (script b names ds doc j) -> plain_symbols X (script b names ds' doc' j) -> List.length (defined ds) + lim <= n ->
  doc <> [] -> (forall x, In x names -> id_name x = true) -> wfd b known (names ++ map fst vars) [] ds ->
  wfts b known (rev (defined ds)) None [] (names ++ map fst vars) doc ->
  commented_defs ds ds' -> commented doc doc' ->
  insts (inst Q b lim (meanings Q b lim (names ++ map fst vars) ds) None) doc (combine names vals ++ vars) = Is (es, r') ->
  exists s m1 m2, render_script E P n (S k) tags args (script b names ds doc j) file package m = (Done s, m1) /\
    render_script E P n (S k) tags args (script b names ds' doc' j) file package m = (Done s, m2).
Proof.
  intros HR Hc HC Hb Hd Hd' Ln Hn Hi Hwd Hw Hmd Hm E1.
  destruct (commented_wfd (void known) b known _ ds ds' Hmd _ Hwd) as (Hwd' & Hnames & Hgaps).
  destruct (commented_wf b known (rev (defined ds)) None doc doc' Hm Hn) as (Hn' & _ & _ & Hw').
  pose proof (commented_same Q (void known) b lim (names ++ map fst vars) ds ds' doc doc' Hmd Hm (combine names vals ++ vars)) as K0. rewrite E1 in K0.
  destruct (insts (inst Q b lim (meanings Q b lim (names ++ map fst vars) ds') None) doc' (combine names vals ++ vars)) as [[es' r2]| |] eqn:E2; try contradiction. destruct K0 as [[K _] K0]. cbn [fst snd] in K, K0. subst r2.
  destruct (script_render W E P Q X known b lim names vals vars ds doc j n k tags args ctx file package m _ r' HR Hc HC Hb Hd Ln Hn Hi Hwd Hw E1) as (m1 & H1).
  assert (Hw2 : wfts b known (rev (defined ds')) None [] (names ++ map fst vars) doc') by (rewrite Hnames; apply Hw', Hw).
  assert (Ln' : List.length (defined ds') + lim <= n) by (rewrite Hnames; exact Ln).
  destruct (script_render W E P Q X known b lim names vals vars ds' doc' j n k tags args ctx file package m _ r' HR Hc HC Hb Hd' Ln' Hn' Hi Hwd' Hw2 E2) as (m2 & H2).
  exists (elems_html (void known) (gaps ds ++ es) j), m1, m2. split; [exact H1|]. unfold elems_html in *. rewrite flat_map_app in *. rewrite Hgaps, K in H2. exact H2.
Qed.

Theorem raise_commented W (E : env W) P Q X known b lim names vals vars ds ds' doc doc' j n k tags args ctx file package (m : mach W) :
  template_runtime E P Q X known vars n k m -> called_with tags args ctx ->
  Forall2 (fun x v => dget str_eqb (VAR x) ctx = Some v) names vals ->
  blank_text b -> plain_symbols X (script b names ds doc j) -> plain_symbols X (script b names ds' doc' j) -> List.length (defined ds) + lim <= n ->
  doc <> [] -> (forall x, In x names -> id_name x = true) -> wfd b known (names ++ map fst vars) [] ds ->
  wfts b known (rev (defined ds)) None [] (names ++ map fst vars) doc ->
  commented_defs ds ds' -> commented doc doc' ->
  insts (inst Q b lim (meanings Q b lim (names ++ map fst vars) ds) None) doc (combine names vals ++ vars) = Raises ->
  exists e1 e2 m1 m2, render_script E P n (S k) tags args (script b names ds doc j) file package m = (Exc e1, m1) /\
    render_script E P n (S k) tags args (script b names ds' doc' j) file package m = (Exc e2, m2).
Proof.
  intros HR Hc HC Hb Hd Hd' Ln Hn Hi Hwd Hw Hmd Hm E1.
  destruct (commented_wfd (void known) b known _ ds ds' Hmd _ Hwd) as (Hwd' & Hnames & Hgaps).
  destruct (commented_wf b known (rev (defined ds)) None doc doc' Hm Hn) as (Hn' & _ & _ & Hw').
  pose proof (commented_same Q (void known) b lim (names ++ map fst vars) ds ds' doc doc' Hmd Hm (combine names vals ++ vars)) as K0. rewrite E1 in K0.
  destruct (insts (inst Q b lim (meanings Q b lim (names ++ map fst vars) ds') None) doc' (combine names vals ++ vars)) as [[es' r2]| |] eqn:E2; try contradiction.
  destruct (script_error W E P Q X known b lim names vals vars ds doc j n k tags args ctx file package m HR Hc HC Hb Hd Ln Hn Hi Hwd Hw E1) as (e1 & m1 & H1).
  assert (Hw2 : wfts b known (rev (defined ds')) None [] (names ++ map fst vars) doc') by (rewrite Hnames; apply Hw', Hw).
  assert (Ln' : List.length (defined ds') + lim <= n) by (rewrite Hnames; exact Ln).
  destruct (script_error W E P Q X known b lim names vals vars ds' doc' j n k tags args ctx file package m HR Hc HC Hb Hd' Ln' Hn' Hi Hwd' Hw2 E2) as (e2 & m2 & H2).
  exists e1, e2, m1, m2. split; assumption.
Qed.

(** ** Samples *)

Lemma space_blank : blank_text (u " ").
Proof. split; [discriminate|]. intros c [<-|[]]. left. reflexivity. Qed.
Lemma conf_symbols s : forallb (fun c => (c <? 10088)%N) s = true -> plain_symbols conf_lexicon s.
Proof.
  intros H. rewrite forallb_forall in H. apply symbols_plain; [|reflexivity]. intros c Ic L. specialize (H c Ic). apply N.ltb_lt in H. destruct L as [L _]. apply N.lt_nge in H. exact (H L).
Qed.
Definition wf_sample (names hy : list str) (doc : list tmpl) : bool := wftsb (wftb (u " ") html_known hy None) [] (names ++ map fst sample_vars) doc.
Lemma wf_sample_ok names hy doc : wf_sample names hy doc = true -> wfts (u " ") html_known hy None [] (names ++ map fst sample_vars) doc.
Proof. apply check_ok. Qed.
Definition wf_defs (names : list str) (ds : list def) : bool := wfdb (u " ") html_known (names ++ map fst sample_vars) [] ds.
Lemma wf_defs_ok names ds : wf_defs names ds = true -> wfd (u " ") html_known (names ++ map fst sample_vars) [] ds.
Proof. apply check_defs. Qed.

Ltac plain_tac :=
  repeat (apply Forall_nil || apply Forall_cons); try (constructor; fail);
  match goal with
  | |- plain (TLeaf _ _ (Some _)) => constructor; intros k x E; injection E as <- _; reflexivity
  | |- plain (TLeaf _ _ None) => constructor; discriminate
  | |- plain (TUse _ _ (Some _)) => constructor; intros k x E; injection E as <- _; reflexivity
  | |- plain (TUse _ _ None) => constructor; discriminate
  | |- plain _ => constructor; cbn [snd]; plain_tac
  | |- Forall plain _ => cbn [snd]; plain_tac
  | _ => idtac
  end.
Lemma sample_plain : Forall plain sample_tmpl /\ Forall plain_def sample_defs /\ Forall plain (map as_plain sample_doc).
Proof.
  split; [unfold sample_tmpl; plain_tac|]. split; [|unfold sample_doc; cbn [map as_plain]; plain_tac].
  unfold sample_defs. constructor; [cbn [plain_def]; plain_tac|]. constructor; [cbn [plain_def]; plain_tac|constructor].
Qed.
Lemma lines_plain : Forall plain (firstn 2 lines_tmpl).
Proof. unfold lines_tmpl. cbn [firstn]. plain_tac. Qed.

(** ** Findings *)

Lemma marker_finding :
  page_of (u "p |
  text") = Done (u "<p>
text
</p>") /\
  page_of (u "p |
    text") = Done (u "<p>   
text</p>").
Proof. split; vm_compute; reflexivity. Qed.
Lemma gap_finding : exists doc, spec_html [] [] doc = Is (u "a

b") /\ model_html [] [] doc = Done (u "a


b").
Proof. exists gap_tmpl. split; vm_compute; reflexivity. Qed.
Lemma outer_finding : exists doc, spec_html [] [] doc = Is (u "<p>
  2
</p>") /\ model_html [] [] doc = Done (u "<p>
  1
</p>").
Proof. exists outer_tmpl. split; vm_compute; reflexivity. Qed.
Lemma loop_finding : exists doc, spec_html [] [] doc = Is (u "<p>
  1
</p>") /\ model_html [] [] doc = Exc UnboundLocalError.
Proof. exists loop_tmpl. split; vm_compute; reflexivity. Qed.
Lemma names_finding :
  page_of (u "%tryout x | {x}
tryout 1") = Exc SyntaxError /\
  page_of (u "%outtry x | {x}
outtry 1") = Done (u "1") /\
  page_of (u "%elsewhere x | {x}
if 1
  | a

elsewhere 1") = Exc SyntaxError /\
  page_of (u "%elsewhere x | {x}
p
  | a

elsewhere 1") = Done (u "<p>
  a
</p>

1").
Proof. repeat split; vm_compute; reflexivity. Qed.
Lemma arguments_finding :
  page_of (u "%h x | {x}
h {1}?") = Exc AssertionError /\
  page_of (u "%h x | {x}
h x={1}?") = Done (u "1") /\
  page_of (u "%h x id | {x}{id}
h #a 1") = Exc SyntaxError /\
  page_of (u "%h x id | {x}{id}
h 1 #a") = Done (u "1a").
Proof. repeat split; vm_compute; reflexivity. Qed.
Lemma kept_finding : exists doc, spec_html [] [] doc = Is (u "1") /\ model_html [] [] doc = Done (u "2").
Proof. exists kept_tmpl. split; vm_compute; reflexivity. Qed.
Lemma condition_finding :
  page_of (u "if 2 != 2
  | a") = Done (u "= 2
| a") /\
  page_of (u "if 1 | 0
  | a") = Done (u "0
| a") /\
  page_of (u "if (2 != 2)
  | a
else
  | b") = Done (u "b") /\
  page_of (u "for x in [1] : list
  | a") = Exc SyntaxError /\
  page_of (u "for x in ([1] : list)
  | a") = Done (u "a").
Proof. repeat split; vm_compute; reflexivity. Qed.
Lemma markup_finding : exists doc names vals s,
  model_html names vals doc = Done s /\ read_document s = Some [IOpen (u "i") []; IChar 120; IClose (u "i")] /\
  (forall r, insts (inst conf_py (u " ") 30 [] None) (map bare doc) (combine names vals ++ r) = Is ([EText 0 (u "<i>x</i>")], combine names vals ++ r)).
Proof.
  exists [TLine 0 Markup (([], [(nm "title", [])]), [])], [u "title"], [VStr (u "<i>x</i>")], (u "<i>x</i>"). split; [vm_compute; reflexivity|]. split; [vm_compute; reflexivity|]. intros r. reflexivity.
Qed.
Lemma comma_finding : exists d, parse_script conf_lexicon (u "$ a, = [1]") = Ok d /\ parse_script conf_lexicon (u "$ a = [1]") = Ok d.
Proof. eexists. split; vm_compute; reflexivity. Qed.
Lemma hyper_chain_finding :
  page_of (u "%H @body
  @body
H : b | text") = Exc AssertionError /\
  page_of (u "%H @body
  @body
H
  b | text") = Done (u "<b>text</b>") /\
  page_of (u "%H @body
  @body
H : b
  | text") = Done (u "<b>
text
</b>") /\
  page_of (u "%H @body
  @body
H
  b
    | text") = Done (u "<b>
  text
</b>").
Proof. repeat split; vm_compute; reflexivity. Qed.
Lemma twice_finding : exists ds doc, spec_script [] [] ds doc = Is (u "text
text") /\ model_script [] [] ds doc = Done (u "texttext").
Proof. exists (twice_defs 0 [TBody 0 (u "body")]), twice_doc. split; vm_compute; reflexivity. Qed.
Lemma def_gap_finding : exists ds doc, spec_script [] [] ds doc = Is (u "a

text") /\ model_script [] [] ds doc = Done (u "a


text").
Proof. exists (twice_defs 1 []), (TLine 0 Plain ((u " a", []), []) :: twice_doc). split; vm_compute; reflexivity. Qed.
