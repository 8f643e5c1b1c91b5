(** C51 one-line texts, C52 comments, C56 whole pages: from the text of a script to HTML. *)
From Coq Require Import List NArith ZArith Bool Arith String.
From Verif Require Import PyStr Html IndentSpec PyDict Value Dom Ast Machine Analyse Syntax Runtime RuntimeSpec ExportFacts PageSpec PageParse PageDoc PageFacts HtmlTags Ref ConfRef PageSamples.
Import ListNotations.
Local Open Scope string_scope.
Local Open Scope list_scope.

(** ** C56 *)

(** Parsing, analysis, translation and rendering, for any built-in symbols with the tags of the page. *)
Theorem C56_page : forall (W : Type) (P : prims W) import_module context X known tag_of globals n (m : mach W) doc k,
  p_escape P = Some html_escape -> NoDup (map fst globals) ->
  (forall y v, known y = Some v -> In (TAG y, VTag (tag_of y)) globals) ->
  (forall y v, known y = Some v -> t_name (tag_of y) = y /\ exists md, t_kind (tag_of y) = KMarkup v md) ->
  doc <> [] -> Forall (wf known) doc ->
  exists d r s m', parse_script X (script doc k) = Ok d /\
    translate import_module context P n globals d m = (Done (r, [], s), m') /\
    dom_render (p_ren P) (depth_bound (m_heap m')) (m_heap m') [r] = Done (page_html (void known) doc k).
Proof. exact page_meaning. Qed.
Print Assumptions C56_page.

(** The same for Runtime.render. *)
Theorem C56_render : forall (W : Type) (E : env W) (P : prims W) known doc j n k tags vars ctx file package m,
  page_runtime E P known n k m -> called_with tags vars ctx -> doc <> [] -> Forall (wf known) doc ->
  exists m', render_script E P n (S k) tags vars (script doc j) file package m = (Done (page_html (void known) doc j), m').
Proof. exact @PageDoc.render_page. Qed.
Print Assumptions C56_render.

(** With the tags registered by std/html.py: every one of their names can be used. *)
Theorem C56_html_tags : forall n v, html_known n = Some v -> tag_name n.
Proof. exact html_names. Qed.
Print Assumptions C56_html_tags.
(** Those without a closing tag are the void elements of HTML, in small or in capital letters. *)
Theorem C56_void : forall n, html_known n = Some true <-> exists w, In w void_elements /\ (n = w \/ n = capitals w).
Proof. exact html_void_names. Qed.
Print Assumptions C56_void.
Theorem C56_capitals : forall n v, html_known n = Some v -> html_known (capitals n) = Some v.
Proof. exact html_capitals. Qed.
Print Assumptions C56_capitals.
Example C56_tags : html_known (u "BR") = Some true /\ html_known (u "br") = Some true /\ html_known (u "H1") = Some false /\ html_known (u "Br") = None.
Proof. repeat split; vm_compute; reflexivity. Qed.

Example C56_page_wf : Forall (wf html_known) sample_page.
Proof. apply wfb_all. vm_compute. reflexivity. Qed.
Example C56_script : script sample_page 1 = u "-- a page
div class=""x & {{y}}"" data-id=""<1>""
  h1 | A < B $$5

  img src=""a.png""
  --- { ( 
  p
    / <b>{{</b>  


    !$x {y}
P
table
 --
".
Proof. vm_compute. reflexivity. Qed.
Example C56_html : page_html (void html_known) sample_page 1 = u "<div class=""x &amp; {y}"" data-id=""&lt;1&gt;"">
  <h1>A &lt; B $5</h1>

  <img src=""a.png"" />
  <p>
    <b>{</b>


    $x {y}
  </p>
</div>
<P></P>
<table></table>
".
Proof. vm_compute. reflexivity. Qed.
Example C56_runtime : page_runtime html_env conf_prims html_known 40 4 mach0.
Proof. exact html_runtime. Qed.
Example C56_context : called_with [] [(u "x", VInt 1)] [(VAR (u "x"), VInt 1)].
Proof. split; [apply args_okb_ok; vm_compute; reflexivity|]. reflexivity. Qed.
(** The model run on the sample. *)
Example C56_run : fst (render_script html_env conf_prims 40 5 [] [] (script sample_page 1) None None mach0) = Done (page_html (void html_known) sample_page 1).
Proof. vm_compute. reflexivity. Qed.

(** ** C51 *)

(** A verbatim block in one line gives its text, and a plain block gives its text with the characters &, <
    and > escaped; the text has no whitespace at the end. *)
Theorem C51_verbatim : forall (W : Type) (E : env W) (P : prims W) known y n j tags vars ctx file package m,
  page_runtime E P known n j m -> called_with tags vars ctx -> ~ In NL y -> rstrip y = y ->
  exists m', render_script E P n (S j) tags vars (u "! " ++ y) file package m = (Done y, m').
Proof. exact @verbatim_line. Qed.
Print Assumptions C51_verbatim.

Theorem C51_plain : forall (W : Type) (E : env W) (P : prims W) known y n j tags vars ctx file package m,
  page_runtime E P known n j m -> called_with tags vars ctx -> ~ In NL y -> rstrip y = y ->
  exists m', render_script E P n (S j) tags vars (u "| " ++ double y) file package m = (Done (flat_map html_char y), m').
Proof. exact @plain_line. Qed.
Print Assumptions C51_plain.

(** Without the conditions on whitespace, for all three styles of text. *)
Theorem C51_line : forall (W : Type) (E : env W) (P : prims W) known k x n j tags vars ctx file package m,
  page_runtime E P known n j m -> called_with tags vars ctx -> ~ In NL x ->
  exists m', render_script E P n (S j) tags vars (text_src k x) file package m = (Done (text_html k x), m').
Proof. exact @one_line. Qed.
Print Assumptions C51_line.

Example C51_example : rstrip (u "  {x} $$ <a> -- | ! 'q'") = u "  {x} $$ <a> -- | ! 'q'" /\
  fst (render_script html_env conf_prims 40 5 [] [] (u "!   {x} $$ <a> -- | ! 'q'") None None mach0) = Done (u "  {x} $$ <a> -- | ! 'q'") /\
  double (u "a {x} < $y") = u "a {{x}} < $$y" /\
  fst (render_script html_env conf_prims 40 5 [] [] (u "| a {{x}} < $$y") None None mach0) = Done (u "a {x} &lt; $y").
Proof. repeat split; vm_compute; reflexivity. Qed.

(** ** C52 *)

(** Comments put into a page, at any place and depth, leave the output as it is. *)
Theorem C52_pages_partial : forall (W : Type) (E : env W) (P : prims W) known doc doc' k n j tags vars ctx file package m,
  page_runtime E P known n j m -> called_with tags vars ctx -> doc <> [] -> Forall (wf known) doc -> noted doc doc' ->
  exists t m1 m2, render_script E P n (S j) tags vars (script doc k) file package m = (Done t, m1) /\
    render_script E P n (S j) tags vars (script doc' k) file package m = (Done t, m2).
Proof. exact @notes_vanish. Qed.
Print Assumptions C52_pages_partial.
Example C52_example : noted [Node 0 Own (u "p") [] (u " ") [Line 0 Own Plain (u "a")]] [Note 0 (u "x"); Node 0 Own (u "p") [] (u " ") [Line 0 Own Plain (u "a"); Note 0 (u "{y")]].
Proof. apply noted_here; [intros H; repeat (destruct H as [H|H]; [discriminate|]); exact H|]. apply noted_in; [|constructor]. apply noted_next. apply noted_here; [|constructor].
  intros H; repeat (destruct H as [H|H]; [discriminate|]); exact H. Qed.

(** Not every comment in a line of its own is ignored: between the branches of a conditional block it is a
    syntax error. *)
Theorem C52_refuted : exists before after comment,
  (exists d, parse_script conf_lexicon (before ++ [NL] ++ after) = Ok d) /\
  comment = u "-- comment" /\ parse_script conf_lexicon (before ++ [NL] ++ comment ++ [NL] ++ after) = Raise SyntaxError.
Proof. exact comment_in_conditional. Qed.
Print Assumptions C52_refuted.
