(** C58 templates with expressions, variables, conditions and loops; C60 templates with definitions of hypertags; C61 exceptions;
    C59 their HTML read back; C52 comments in templates; C43 the trailing comma of an assignment. *)
From Coq Require Import List NArith ZArith Bool Arith String.
From Verif Require Import PyStr Html HtmlSpec PyDict Value Dom Ast Machine Analyse Syntax Runtime RuntimeSpec ExportFacts Ref ConfRef PageSpec PageSamples OperSpec
  TmplSpec TmplParse TmplExpr TmplDoc TmplReadSpec TmplCheck TmplSamples TmplProofs.
Import ListNotations.
Local Open Scope string_scope.
Local Open Scope list_scope.

(** ** C58 *)

(** Parsing, analysis, translation and rendering, for any built-in symbols with the tags and variables of the
    template, and any context with its names. *)
Theorem C58_template : forall (W : Type) (P : prims W) Q X import_module context known tag_of globals b lim n (m : mach W) names vals vars doc k es r',
  agrees P Q -> p_escape P = Some html_escape -> NoDup (map fst globals) ->
  (forall y v, known y = Some v -> In (TAG y, VTag (tag_of y)) globals) ->
  (forall y v, known y = Some v -> t_name (tag_of y) = y /\ t_kind (tag_of y) = KMarkup v HTML) ->
  (forall y v, In (y, v) vars -> In (VAR y, v) globals) ->
  Forall2 (fun x v => dget str_eqb (VAR x) context = Some v) names vals ->
  blank_text b -> plain_symbols X (template b names doc k) -> lim <= n ->
  doc <> [] -> (forall x, In x names -> id_name x = true) -> wfts b known [] None [] (names ++ map fst vars) doc ->
  insts (inst Q b lim [] None) doc (combine names vals ++ vars) = Is (es, r') ->
  exists d i out s m', parse_script X (template b names doc k) = Ok d /\
    translate import_module context P n globals d m = (Done (i, out, s), m') /\
    dom_render (p_ren P) (depth_bound (m_heap m')) (m_heap m') [i] = Done (elems_html (void known) es k).
Proof. exact plain_meaning. Qed.
Print Assumptions C58_template.

(** The same for Runtime.render. *)
Theorem C58_render : forall (W : Type) (E : env W) (P : prims W) Q X known b lim names vals vars doc j n k tags args ctx file package m es r',
  template_runtime E P Q X known vars n k m -> called_with tags args ctx ->
  Forall2 (fun x v => dget str_eqb (VAR x) ctx = Some v) names vals ->
  blank_text b -> plain_symbols X (template b names doc j) -> lim <= n ->
  doc <> [] -> (forall x, In x names -> id_name x = true) -> wfts b known [] None [] (names ++ map fst vars) doc ->
  insts (inst Q b lim [] None) doc (combine names vals ++ vars) = Is (es, r') ->
  exists m', render_script E P n (S k) tags args (template b names doc j) file package m = (Done (elems_html (void known) es j), m').
Proof. exact plain_render. Qed.
Print Assumptions C58_render.

Example C58_sample_wf : wfts (u " ") html_known [] None [] (sample_names ++ map fst sample_vars) sample_tmpl /\
  wfts (u " ") html_known [] None [] (markup_names ++ map fst sample_vars) markup_tmpl.
Proof. split; apply wf_sample_ok; vm_compute; reflexivity. Qed.
Example C58_names : forall x, In x (sample_names ++ markup_names) -> id_name x = true.
Proof. apply forallb_forall. vm_compute. reflexivity. Qed.
Example C58_blank : blank_text (u " ") /\ plain_symbols conf_lexicon (template (u " ") sample_names sample_tmpl 1) /\
  plain_symbols conf_lexicon (template (u " ") markup_names markup_tmpl 0).
Proof. split; [exact space_blank|]. split; apply conf_symbols; vm_compute; reflexivity. Qed.
Example C58_runtime : template_runtime html_env conf_prims conf_py conf_lexicon html_known sample_vars 40 4 mach0.
Proof. exact tmpl_runtime. Qed.
Example C58_context : exists ctx, called_with [] (combine sample_names sample_vals) ctx /\
  Forall2 (fun x v => dget str_eqb (VAR x) ctx = Some v) sample_names sample_vals.
Proof. eexists. split; [split; [apply args_okb_ok; vm_compute; reflexivity|reflexivity]|]. repeat constructor. Qed.
Example C58_script : template (u " ") sample_names sample_tmpl 1 = u "context $title, $rows, $id, $empty
# a template
    in {two

  -- lines
$ n = 0

h1.big-1#{id} class=""a{id}b"" .z | Hello {title : upper}, {n + 1}  
table : tr width={10} hidden={1 == 1}

  for x, y in rows
      if (x == 1)
        | <one>

        |{y}
      elif y
       td : img title=""{y} >""
      else
        $ z = x
        --
        b |{z}
      | {{{len(y)}}}

  | {empty}  
for x in [1, 2, 3]
  $ n += x
if empty
  |no
| n = {n}.
".
Proof. vm_compute. reflexivity. Qed.
Example C58_html : spec_html sample_names sample_vals sample_tmpl = Is (u "
<h1 class=""big-1 aib z"" id=""i"">Hello A&lt;B, 1</h1>
<table><tr width=""10"" hidden>

  &lt;one&gt;

  a&amp;
  {2}
  <td><img title=""b &quot;' &gt;"" /></td>
  {4}
  <b>3</b>
  {0}


</tr></table>
n = 6.").
Proof. vm_compute. reflexivity. Qed.
Example C58_markup : spec_html markup_names markup_vals markup_tmpl = Is (u "<b><i>x</i></b>
{title}
<p>&amp;7</p>").
Proof. vm_compute. reflexivity. Qed.
(** The model run on the samples. *)
Example C58_run : same_answer (model_html sample_names sample_vals sample_tmpl) (spec_html sample_names sample_vals sample_tmpl) = true /\
  same_answer (model_html markup_names markup_vals markup_tmpl) (spec_html markup_names markup_vals markup_tmpl) = true.
Proof. split; vm_compute; reflexivity. Qed.
(** Other expressions: constants, sets, dicts, slices, qualifiers. *)
Example C58_forms_wf : wfts (u " ") html_known [] None [] (forms_names ++ map fst sample_vars) forms_tmpl.
Proof. apply wf_sample_ok. vm_compute. reflexivity. Qed.
Example C58_forms_text : template (u " ") forms_names forms_tmpl 0 = u "context $title, $empty
$ d = {""a"" : [1, 2, 3], 5 : None}
| {d[""a""][1 :]} {d[5]?} x
| {title[: 2]!} {empty?} y
if False
  | no
elif {1, 1}?
  | {len({1, title, 1})} yes".
Proof. vm_compute. reflexivity. Qed.
Example C58_forms_html : spec_html forms_names forms_vals forms_tmpl = Is (u "[2, 3]  x
ab  y
2 yes") /\ same_answer (model_html forms_names forms_vals forms_tmpl) (spec_html forms_names forms_vals forms_tmpl) = true.
Proof. split; vm_compute; reflexivity. Qed.

Example C58_bare_wf : wfts (u " ") html_known [] None [] (forms_names ++ map fst sample_vars) bare_tmpl.
Proof. apply wf_sample_ok. vm_compute. reflexivity. Qed.
Example C58_bare_text : template (u " ") forms_names bare_tmpl 0 = u "context $title, $empty
$ s = 'it\x27s \\ $$5 {{\n""{title ""'""}}}'
a href=title[1 :] width=10 alt='<{len(s)}\x27>' rel=r""c:\n{s}"" id=(empty or title 7) | {s[: 11]} {r'\'}".
Proof. vm_compute. reflexivity. Qed.
Example C58_bare_html : spec_html forms_names forms_vals bare_tmpl =
    Is (u "<a href=""bc"" width=""10"" alt=""&lt;18'&gt;"" rel=""c:\n{s}"" id=""abc7"">it's \ $5 { \</a>") /\ same_answer (model_html forms_names forms_vals bare_tmpl) (spec_html forms_names forms_vals bare_tmpl) = true.
Proof. split; vm_compute; reflexivity. Qed.

(** Texts of several lines. *)
Example C58_lines_wf : wfd (u " ") html_known (sample_names ++ map fst sample_vars) [] lines_defs /\
  wfts (u " ") html_known (rev (defined lines_defs)) None [] (sample_names ++ map fst sample_vars) lines_tmpl /\
  wfts (u " ") html_known [] None [] (map fst sample_vars) margin_tmpl.
Proof. split; [apply wf_defs_ok; vm_compute; reflexivity|]. split; [apply wf_sample_ok|apply (wf_sample_ok [])]; vm_compute; reflexivity. Qed.
Example C58_lines_text : script (u " ") sample_names lines_defs lines_tmpl 0 = u "context $title, $rows, $id, $empty
%box @body
  div
    @body
    | end

        of
| first
  second <{title}> 

     {id}
 low
p | a
    b
      {title}.
pre /
  x = {id}


    y
p |
    deep

div
 ! {
   }
 box | in
       the
        box".
Proof. vm_compute. reflexivity. Qed.
Example C58_lines_html : spec_script sample_names sample_vals lines_defs lines_tmpl = Is (u " first
 second &lt;A&lt;B&gt;

    i
low
<p>a
b
  A&lt;B.</p>
<pre>
x = i


  y
</pre>
<p>   
deep</p>

<div>
 {
 }
 <div>
   in
   the
    box
   end

     of
 </div>
</div>") /\ same_answer (model_script sample_names sample_vals lines_defs lines_tmpl) (spec_script sample_names sample_vals lines_defs lines_tmpl) = true.
Proof. split; vm_compute; reflexivity. Qed.
Example C58_margin_text : template (u " ") [] margin_tmpl 0 = u "p | a
   b
p |   a
     b
p |a
         b".
Proof. vm_compute. reflexivity. Qed.
Example C58_margin_html : spec_html [] [] margin_tmpl = Is (u "<p> a
b</p>
<p>  a
 b</p>
<p>a
      b</p>") /\ same_answer (model_html [] [] margin_tmpl) (spec_html [] [] margin_tmpl) = true.
Proof. split; vm_compute; reflexivity. Qed.
(** Values with line breaks, tabs and spaces. *)
Example C58_breaks : wfts (u " ") html_known [] None [] (break_names ++ map fst sample_vars) break_tmpl /\
  template (u " ") break_names break_tmpl 0 = u "context $v
div
  p | {v}
  /  {v}.
      {v}..
  p |
    {v}" /\
  spec_html break_names break_vals break_tmpl = Is (u "<div>
  <p>x
   &lt;y&gt;
  	z
  </p>
   x
   <y>
  	z
  .
      x
   <y>
  	z
  ..
  <p>
    x
   &lt;y&gt;
  	z

  </p>
</div>") /\ same_answer (model_html break_names break_vals break_tmpl) (spec_html break_names break_vals break_tmpl) = true.
Proof. split; [apply wf_sample_ok; vm_compute; reflexivity|]. split; [vm_compute; reflexivity|]. split; vm_compute; reflexivity. Qed.
(** Loops with a condition. *)
Example C58_while : wfts (u " ") html_known [] None [] (while_names ++ map fst sample_vars) while_tmpl /\
  template (u " ") while_names while_tmpl 0 = u "context $k
ul
  $ n = k
  while n
    li | {n}
    $ j = n - 1
    $ n = j
  else
      | not shown

while (k != 2)
 | not shown
else
    while k
      $ k = k - 1
      | <{k}>
    | k = {k}
| k = {k}" /\
  spec_html while_names while_vals while_tmpl = Is (u "<ul>
  <li>2</li>
  <li>1</li>
</ul>

&lt;1&gt;
&lt;0&gt;
k = 0
k = 0") /\ same_answer (model_html while_names while_vals while_tmpl) (spec_html while_names while_vals while_tmpl) = true.
Proof. split; [apply wf_sample_ok; vm_compute; reflexivity|]. split; [vm_compute; reflexivity|]. split; vm_compute; reflexivity. Qed.
(** Alternatives. *)
Example C58_try : wfts (u " ") html_known [] None [] (forms_names ++ map fst sample_vars) try_tmpl /\
  template (u " ") forms_names try_tmpl 0 = u "context $title, $empty
try
  p | {title}
  div
    $ j = 1
    | {empty!}
else
 | <{title}>
 try
  | {title - 1}
 else
  | {empty!}
else
  | not shown

try
  $ n = 1
  | n = {n}
else
  | not shown
ul
  try
    | {empty!}
| {title}" /\
  spec_html forms_names forms_vals try_tmpl = Is (u "&lt;abc&gt;

n = 1
<ul></ul>
abc") /\ same_answer (model_html forms_names forms_vals try_tmpl) (spec_html forms_names forms_vals try_tmpl) = true.
Proof. split; [apply wf_sample_ok; vm_compute; reflexivity|]. split; [vm_compute; reflexivity|]. split; vm_compute; reflexivity. Qed.
(** The text below a marker with nothing behind it is put between lines of its own, unless it begins to the right of
    the marker: then the start tag is followed by as many spaces as there are characters up to the marker. *)
Theorem C58_excluded_marker :
  page_of (u "p |
  text") = Done (u "<p>
text
</p>") /\
  page_of (u "p |
    text") = Done (u "<p>   
text</p>").
Proof. exact marker_finding. Qed.
Print Assumptions C58_excluded_marker.

(** Why the conditions are needed. A blank line at the beginning of a conditional block comes out as two. *)
Theorem C58_excluded_gap : exists doc, spec_html [] [] doc = Is (u "a

b") /\ model_html [] [] doc = Done (u "a


b").
Proof. exact gap_finding. Qed.
Print Assumptions C58_excluded_gap.
(** Inside a tag, a variable of an outer level that is assigned in a conditional block keeps its old value after
    the block. *)
Theorem C58_excluded_outer : exists doc, spec_html [] [] doc = Is (u "<p>
  2
</p>") /\ model_html [] [] doc = Done (u "<p>
  1
</p>").
Proof. exact outer_finding. Qed.
Print Assumptions C58_excluded_outer.
(** If it is assigned in a loop, it has no value when the loop is not entered. *)
Theorem C58_excluded_loop : exists doc, spec_html [] [] doc = Is (u "<p>
  1
</p>") /\ model_html [] [] doc = Exc UnboundLocalError.
Proof. exact loop_finding. Qed.
Print Assumptions C58_excluded_loop.
(** What a failing alternative has assigned before the exception is kept. *)
Theorem C58_excluded_kept : exists doc, spec_html [] [] doc = Is (u "1") /\ model_html [] [] doc = Done (u "2").
Proof. exact kept_finding. Qed.
Print Assumptions C58_excluded_kept.
(** Names of tags that begin with try, or with else behind a control block, are not recognised. *)
Theorem C58_excluded_names :
  page_of (u "%tryout x | {x}
tryout 1") = Exc SyntaxError /\
  page_of (u "%outtry x | {x}
outtry 1") = Done (u "1") /\
  page_of (u "%elsewhere x | {x}
if 1
  | a

elsewhere 1") = Exc SyntaxError /\
  page_of (u "%elsewhere x | {x}
p
  | a

elsewhere 1") = Done (u "<p>
  a
</p>

1").
Proof. exact names_finding. Qed.
Print Assumptions C58_excluded_names.
(** An argument without a name cannot have a qualifier, nor stand behind a shortcut. *)
Theorem C58_excluded_arguments :
  page_of (u "%h x | {x}
h {1}?") = Exc AssertionError /\
  page_of (u "%h x | {x}
h x={1}?") = Done (u "1") /\
  page_of (u "%h x id | {x}{id}
h #a 1") = Exc SyntaxError /\
  page_of (u "%h x id | {x}{id}
h 1 #a") = Done (u "1a").
Proof. exact arguments_finding. Qed.
Print Assumptions C58_excluded_arguments.
(** Conditions that are not factors need parentheses: the operators != and | begin a text, a pipeline is a
    syntax error. *)
Theorem C58_excluded_condition :
  page_of (u "if 2 != 2
  | a") = Done (u "= 2
| a") /\
  page_of (u "if 1 | 0
  | a") = Done (u "0
| a") /\
  page_of (u "if (2 != 2)
  | a
else
  | b") = Done (u "b") /\
  page_of (u "for x in [1] : list
  | a") = Exc SyntaxError /\
  page_of (u "for x in ([1] : list)
  | a") = Done (u "a").
Proof. exact condition_finding. Qed.
Print Assumptions C58_excluded_condition.

(** ** C60 *)

(** A script with definitions of hypertags, each with parameters, default values and a body, and a template that uses
    them. *)
Theorem C60_script : forall (W : Type) (P : prims W) Q X import_module context known tag_of globals b lim n (m : mach W) names vals vars ds doc k es r',
  agrees P Q -> p_escape P = Some html_escape -> NoDup (map fst globals) ->
  (forall y v, known y = Some v -> In (TAG y, VTag (tag_of y)) globals) ->
  (forall y v, known y = Some v -> t_name (tag_of y) = y /\ t_kind (tag_of y) = KMarkup v HTML) ->
  (forall y v, In (y, v) vars -> In (VAR y, v) globals) ->
  Forall2 (fun x v => dget str_eqb (VAR x) context = Some v) names vals ->
  blank_text b -> plain_symbols X (script b names ds doc k) -> List.length (defined ds) + lim <= n ->
  doc <> [] -> (forall x, In x names -> id_name x = true) -> wfd b known (names ++ map fst vars) [] ds ->
  wfts b known (rev (defined ds)) None [] (names ++ map fst vars) doc ->
  insts (inst Q b lim (meanings Q b lim (names ++ map fst vars) ds) None) doc (combine names vals ++ vars) = Is (es, r') ->
  exists d i out s m', parse_script X (script b names ds doc k) = Ok d /\
    translate import_module context P n globals d m = (Done (i, out, s), m') /\
    dom_render (p_ren P) (depth_bound (m_heap m')) (m_heap m') [i] = Done (elems_html (void known) (gaps ds ++ es) k).
Proof. exact script_meaning. Qed.
Print Assumptions C60_script.

(** The same for Runtime.render. *)
Theorem C60_render : forall (W : Type) (E : env W) (P : prims W) Q X known b lim names vals vars ds doc j n k tags args ctx file package m es r',
  template_runtime E P Q X known vars n k m -> called_with tags args ctx ->
  Forall2 (fun x v => dget str_eqb (VAR x) ctx = Some v) names vals ->
  blank_text b -> plain_symbols X (script b names ds doc j) -> List.length (defined ds) + lim <= n ->
  doc <> [] -> (forall x, In x names -> id_name x = true) -> wfd b known (names ++ map fst vars) [] ds ->
  wfts b known (rev (defined ds)) None [] (names ++ map fst vars) doc ->
  insts (inst Q b lim (meanings Q b lim (names ++ map fst vars) ds) None) doc (combine names vals ++ vars) = Is (es, r') ->
  exists m', render_script E P n (S k) tags args (script b names ds doc j) file package m = (Done (elems_html (void known) (gaps ds ++ es) j), m').
Proof. exact script_render. Qed.
Print Assumptions C60_render.

Example C60_sample_wf : wfd (u " ") html_known (def_names ++ map fst sample_vars) [] sample_defs /\
  wfts (u " ") html_known (rev (defined sample_defs)) None [] (def_names ++ map fst sample_vars) sample_doc.
Proof. split; [apply wf_defs_ok|apply wf_sample_ok]; vm_compute; reflexivity. Qed.
Example C60_names : (forall x, In x def_names -> id_name x = true) /\ List.length sample_defs <= 40.
Proof. split; [apply forallb_forall; vm_compute; reflexivity|]. apply Nat.leb_le. reflexivity. Qed.
Example C60_context : exists ctx, called_with [] (combine def_names def_vals) ctx /\
  Forall2 (fun x v => dget str_eqb (VAR x) ctx = Some v) def_names def_vals.
Proof. eexists. split; [split; [apply args_okb_ok; vm_compute; reflexivity|reflexivity]|]. repeat constructor. Qed.
Example C60_text : script (u " ") def_names sample_defs sample_doc 0 = u "context $title, $rows
%item x y=""<{title}>""
  if (x == 2)
    | two
  else
    li.{y} | {x}: {y}

%box @body head n={len(title) * 2}
    $ k = n + 1
    h2 | {head} {k}

    div.box
      --
      @body
    item {k} y=""end""
$ k = 0

box ""T {title}""
  for x in rows
    item {x}
  p | {k}
section
  box n={k} head=""a&"" / <i>{title}</i>

  item ""one"" {[]}
  box {title}
| k = {k}".
Proof. vm_compute. reflexivity. Qed.
Example C60_bare_wf : wfd (u " ") html_known (forms_names ++ map fst sample_vars) [] bare_defs /\
  wfts (u " ") html_known (rev (defined bare_defs)) None [] (forms_names ++ map fst sample_vars) bare_doc.
Proof. split; [apply wf_defs_ok|apply wf_sample_ok]; vm_compute; reflexivity. Qed.
Example C60_bare_text : script (u " ") forms_names bare_defs bare_doc 0 = u "context $title, $empty
%item x=5 y='\x27'
  | {x}, {y}
item
item title r'{'
item len(title) y=1".
Proof. vm_compute. reflexivity. Qed.
Example C60_bare_html : spec_script forms_names forms_vals bare_defs bare_doc = Is (u "5, '
abc, {
3, 1") /\ same_answer (model_script forms_names forms_vals bare_defs bare_doc) (spec_script forms_names forms_vals bare_defs bare_doc) = true.
Proof. split; vm_compute; reflexivity. Qed.
Example C60_html : spec_script def_names def_vals sample_defs sample_doc = Is (u "

<h2>T A&amp;B 7</h2>

<div class=""box"">
  <li class=""&lt;A&amp;B&gt;"">1: &lt;A&amp;B&gt;</li>
  two
  <p>0</p>
</div>
<li class=""end"">7: end</li>
<section>
  <h2>a&amp; 1</h2>

  <div class=""box"">
    <i>A&B</i>
  </div>
  <li class=""end"">1: end</li>

  <li class=""[]"">one: []</li>
  <h2>A&amp;B 7</h2>

  <div class=""box""></div>
  <li class=""end"">7: end</li>
</section>
k = 0").
Proof. vm_compute. reflexivity. Qed.
Example C60_run : same_answer (model_script def_names def_vals sample_defs sample_doc) (spec_script def_names def_vals sample_defs sample_doc) = true.
Proof. vm_compute. reflexivity. Qed.

(** Why the conditions are needed. A hypertag cannot stand in front of a tag in a chain: with a text in the line
    this is an error, with a block below the text loses its indentation; written as a block of the hypertag, the
    same works. *)
Theorem C60_excluded_chain :
  page_of (u "%H @body
  @body
H : b | text") = Exc AssertionError /\
  page_of (u "%H @body
  @body
H
  b | text") = Done (u "<b>text</b>") /\
  page_of (u "%H @body
  @body
H : b
  | text") = Done (u "<b>
text
</b>") /\
  page_of (u "%H @body
  @body
H
  b
    | text") = Done (u "<b>
  text
</b>").
Proof. exact hyper_chain_finding. Qed.
Print Assumptions C60_excluded_chain.
(** A body that is used twice loses the line between the two. *)
Theorem C60_excluded_twice : exists ds doc, spec_script [] [] ds doc = Is (u "text
text") /\ model_script [] [] ds doc = Done (u "texttext").
Proof. exact twice_finding. Qed.
Print Assumptions C60_excluded_twice.
(** A blank line at the beginning of a definition comes out as two. *)
Theorem C60_excluded_gap : exists ds doc, spec_script [] [] ds doc = Is (u "a

text") /\ model_script [] [] ds doc = Done (u "a


text").
Proof. exact def_gap_finding. Qed.
Print Assumptions C60_excluded_gap.

(** ** C61 *)

(** If something that the template needs cannot be evaluated, an exception is raised. *)
Theorem C61_script : forall (W : Type) (P : prims W) Q X import_module context known tag_of globals b lim n (m : mach W) names vals vars ds doc k,
  agrees P Q -> p_escape P = Some html_escape -> NoDup (map fst globals) ->
  (forall y v, known y = Some v -> In (TAG y, VTag (tag_of y)) globals) ->
  (forall y v, known y = Some v -> t_name (tag_of y) = y /\ t_kind (tag_of y) = KMarkup v HTML) ->
  (forall y v, In (y, v) vars -> In (VAR y, v) globals) ->
  Forall2 (fun x v => dget str_eqb (VAR x) context = Some v) names vals ->
  blank_text b -> plain_symbols X (script b names ds doc k) -> List.length (defined ds) + lim <= n ->
  doc <> [] -> (forall x, In x names -> id_name x = true) -> wfd b known (names ++ map fst vars) [] ds ->
  wfts b known (rev (defined ds)) None [] (names ++ map fst vars) doc ->
  insts (inst Q b lim (meanings Q b lim (names ++ map fst vars) ds) None) doc (combine names vals ++ vars) = Raises ->
  exists d e m', parse_script X (script b names ds doc k) = Ok d /\ translate import_module context P n globals d m = (Exc e, m').
Proof. exact script_raises. Qed.
Print Assumptions C61_script.

(** The same for Runtime.render: no HTML is given. *)
Theorem C61_render : forall (W : Type) (E : env W) (P : prims W) Q X known b lim names vals vars ds doc j n k tags args ctx file package m,
  template_runtime E P Q X known vars n k m -> called_with tags args ctx ->
  Forall2 (fun x v => dget str_eqb (VAR x) ctx = Some v) names vals ->
  blank_text b -> plain_symbols X (script b names ds doc j) -> List.length (defined ds) + lim <= n ->
  doc <> [] -> (forall x, In x names -> id_name x = true) -> wfd b known (names ++ map fst vars) [] ds ->
  wfts b known (rev (defined ds)) None [] (names ++ map fst vars) doc ->
  insts (inst Q b lim (meanings Q b lim (names ++ map fst vars) ds) None) doc (combine names vals ++ vars) = Raises ->
  exists e m', render_script E P n (S k) tags args (script b names ds doc j) file package m = (Exc e, m').
Proof. exact script_error. Qed.
Print Assumptions C61_render.

Example C61_sample_wf : forall k, In k [0; 1; 2; 3; 4; 5] ->
  wfts (u " ") html_known [] None [] (forms_names ++ map fst sample_vars) (error_tmpl k) /\
  wfts (u " ") html_known (rev (defined sample_defs)) None [] (def_names ++ map fst sample_vars) (error_uses k).
Proof. intros k H. repeat destruct H as [<-|H]; try contradiction; split; apply wf_sample_ok; vm_compute; reflexivity. Qed.
Example C61_raises : map (fun k => spec_html forms_names forms_vals (error_tmpl k)) [0; 1; 2; 3; 4] = [Raises; Raises; Raises; Raises; Raises] /\
  map (fun k => spec_script def_names def_vals sample_defs (error_uses k)) [0; 1; 2; 3; 4] = [Raises; Raises; Raises; Raises; Raises].
Proof. split; vm_compute; reflexivity. Qed.
(** Otherwise the same templates give HTML. *)
Example C61_run : forallb (fun k => same_answer (model_html forms_names forms_vals (error_tmpl k)) (spec_html forms_names forms_vals (error_tmpl k)) &&
    same_answer (model_script def_names def_vals sample_defs (error_uses k)) (spec_script def_names def_vals sample_defs (error_uses k))) [0; 1; 2; 3; 4; 5] = true /\
  spec_html forms_names forms_vals (error_tmpl 5) = Is (u "first
last").
Proof. split; vm_compute; reflexivity. Qed.

(** ** C59 *)

(** If all texts of the template and of the definitions are plain, a reader of the HTML sees exactly the tags of the template, properly
    nested, and the values that it puts in texts and attributes, whatever these are. *)
Theorem C59_read : forall (W : Type) (E : env W) (P : prims W) Q X known b lim names vals vars ds doc j n k tags args ctx file package m es r',
  template_runtime E P Q X known vars n k m -> called_with tags args ctx ->
  Forall2 (fun x v => dget str_eqb (VAR x) ctx = Some v) names vals ->
  blank_text b -> plain_symbols X (script b names ds doc j) -> List.length (defined ds) + lim <= n ->
  doc <> [] -> (forall x, In x names -> id_name x = true) -> wfd b known (names ++ map fst vars) [] ds ->
  wfts b known (rev (defined ds)) None [] (names ++ map fst vars) doc ->
  Forall plain_def ds -> Forall plain doc ->
  insts (inst Q b lim (meanings Q b lim (names ++ map fst vars) (map bare_def ds)) None) (map bare doc) (combine names vals ++ vars) = Is (es, r') ->
  exists s m' l, render_script E P n (S k) tags args (script b names ds doc j) file package m = (Done s, m') /\
    read_document s = Some l /\ well_nested l /\ filter visible l = flat_map (elem_items (void known)) es.
Proof. exact render_read. Qed.
Print Assumptions C59_read.

Example C59_plain : Forall plain sample_tmpl /\ Forall plain_def sample_defs /\ Forall plain (map as_plain sample_doc).
Proof. exact sample_plain. Qed.
Example C59_sample : exists es r' s, insts (inst conf_py (u " ") 30 [] None) (map bare sample_tmpl) (combine sample_names sample_vals ++ sample_vars) = Is (es, r') /\
  model_html sample_names sample_vals sample_tmpl = Done s /\
  option_map (filter visible) (read_document s) = Some (flat_map (elem_items (void html_known)) es) /\
  firstn 13 (flat_map (elem_items (void html_known)) es) =
    IOpen (u "h1") [(u "class", Some (u "big-1 aib z")); (u "id", Some (u "i"))] :: map IChar (u "HelloA<B,1") ++
    [IClose (u "h1"); IOpen (u "table") []] /\
  In (IEmpty (u "img") [(u "title", Some (u "b ""' >"))]) (flat_map (elem_items (void html_known)) es).
Proof. eexists _, _, _. split; [vm_compute; reflexivity|]. split; [vm_compute; reflexivity|]. split; [vm_compute; reflexivity|]. split; [vm_compute; reflexivity|]. vm_compute. intuition reflexivity. Qed.
(** With definitions. *)
Example C59_hypertags : exists es r' s, insts (inst conf_py (u " ") 30 (meanings conf_py (u " ") 30 (def_names ++ map fst sample_vars) (map bare_def sample_defs)) None) (map bare (map as_plain sample_doc))
    (combine def_names def_vals ++ sample_vars) = Is (es, r') /\
  model_script def_names def_vals sample_defs (map as_plain sample_doc) = Done s /\
  option_map (filter visible) (read_document s) = Some (flat_map (elem_items (void html_known)) es) /\
  In (IOpen (u "li") [(u "class", Some (u "<A&B>"))]) (flat_map (elem_items (void html_known)) es).
Proof. eexists _, _, _. split; [vm_compute; reflexivity|]. split; [vm_compute; reflexivity|]. split; [vm_compute; reflexivity|]. vm_compute. intuition reflexivity. Qed.
(** With texts of several lines. *)
Example C59_lines : Forall plain (firstn 2 lines_tmpl) /\
  exists es r' s, insts (inst conf_py (u " ") 30 [] None) (map bare (firstn 2 lines_tmpl)) (combine sample_names sample_vals ++ sample_vars) = Is (es, r') /\
  model_html sample_names sample_vals (firstn 2 lines_tmpl) = Done s /\
  option_map (filter visible) (read_document s) = Some (flat_map (elem_items (void html_known)) es) /\
  flat_map (elem_items (void html_known)) es = map IChar (u "firstsecond<A<B>ilow") ++ IOpen (u "p") [] :: map IChar (u "abA<B.") ++ [IClose (u "p")].
Proof. split; [exact lines_plain|]. eexists _, _, _. split; [vm_compute; reflexivity|]. split; [vm_compute; reflexivity|]. split; vm_compute; reflexivity. Qed.
(** Markup texts are not escaped. *)
Theorem C59_excluded_markup : exists doc names vals s,
  model_html names vals doc = Done s /\ read_document s = Some [IOpen (u "i") []; IChar 120; IClose (u "i")] /\
  (forall r, insts (inst conf_py (u " ") 30 [] None) (map bare doc) (combine names vals ++ r) = Is ([EText 0 (u "<i>x</i>")], combine names vals ++ r)).
Proof. exact markup_finding. Qed.
Print Assumptions C59_excluded_markup.

(** ** C52 *)

(** Comments put into a template or the definitions in front of it or between them, at any place and depth other than
    between the branches of a conditional block, leave the output as it is. *)
Theorem C52_templates_partial : forall (W : Type) (E : env W) (P : prims W) Q X known b lim names vals vars ds ds' doc doc' j n k tags args ctx file package m es r',
  template_runtime E P Q X known vars n k m -> called_with tags args ctx ->
  Forall2 (fun x v => dget str_eqb (VAR x) ctx = Some v) names vals ->
  blank_text b -> plain_symbols X (script b names ds doc j) -> plain_symbols X (script b names ds' doc' j) -> List.length (defined ds) + lim <= n ->
  doc <> [] -> (forall x, In x names -> id_name x = true) -> wfd b known (names ++ map fst vars) [] ds ->
  wfts b known (rev (defined ds)) None [] (names ++ map fst vars) doc ->
  commented_defs ds ds' -> commented doc doc' ->
  insts (inst Q b lim (meanings Q b lim (names ++ map fst vars) ds) None) doc (combine names vals ++ vars) = Is (es, r') ->
  exists s m1 m2, render_script E P n (S k) tags args (script b names ds doc j) file package m = (Done s, m1) /\
    render_script E P n (S k) tags args (script b names ds' doc' j) file package m = (Done s, m2).
Proof. exact render_commented. Qed.
Print Assumptions C52_templates_partial.
(** Templates that cannot be evaluated raise exceptions with the comments, too. *)
Theorem C52_raises_partial : forall (W : Type) (E : env W) (P : prims W) Q X known b lim names vals vars ds ds' doc doc' j n k tags args ctx file package m,
  template_runtime E P Q X known vars n k m -> called_with tags args ctx ->
  Forall2 (fun x v => dget str_eqb (VAR x) ctx = Some v) names vals ->
  blank_text b -> plain_symbols X (script b names ds doc j) -> plain_symbols X (script b names ds' doc' j) -> List.length (defined ds) + lim <= n ->
  doc <> [] -> (forall x, In x names -> id_name x = true) -> wfd b known (names ++ map fst vars) [] ds ->
  wfts b known (rev (defined ds)) None [] (names ++ map fst vars) doc ->
  commented_defs ds ds' -> commented doc doc' ->
  insts (inst Q b lim (meanings Q b lim (names ++ map fst vars) ds) None) doc (combine names vals ++ vars) = Raises ->
  exists e1 e2 m1 m2, render_script E P n (S k) tags args (script b names ds doc j) file package m = (Exc e1, m1) /\
    render_script E P n (S k) tags args (script b names ds' doc' j) file package m = (Exc e2, m2).
Proof. exact raise_commented. Qed.
Print Assumptions C52_raises_partial.
Example C52_commented : forall kids l, commented (TFor 0 [u "x"] (nm "rows") (u "  ") kids :: l)
  (TNote 0 false (u "a") [] :: TFor 0 [u "x"] (nm "rows") (u "  ") (TNote 0 true (u "{") [(0, 2, u "| b"); (1, 4, u "$")] :: kids) :: l).
Proof.
  intros kids l. apply commented_more with (TFor 0 [u "x"] (nm "rows") (u "  ") (TNote 0 true (u "{") [(0, 2, u "| b"); (1, 4, u "$")] :: kids) :: l).
  - apply noted_for, noted_here. apply note_okb_ok. reflexivity.
  - eapply commented_more; [|constructor]. apply noted_here. apply note_okb_ok. reflexivity.
Qed.

Example C52_definitions : exists d1 d2, sample_defs = [d1; d2] /\
  commented_defs sample_defs [DNote 0 true (u " first") []; d1; DNote 0 false (u "") []; DNote 0 true (u "{") [(0, 4, u "%x"); (1, 2, u "$")]; d2; DNote 0 false (u "p | q") []] /\
  model_script def_names def_vals [DNote 0 true (u " first") []; d1; DNote 0 false (u "") []; DNote 0 true (u "{") [(0, 4, u "%x"); (1, 2, u "$")]; d2; DNote 0 false (u "p | q") []] sample_doc =
  model_script def_names def_vals sample_defs sample_doc.
Proof.
  eexists _, _. split; [reflexivity|]. split; [|vm_compute; reflexivity].
  repeat (apply commented_end || (apply commented_in; [apply commented_none|]) || (apply commented_note; [apply note_okb_ok; reflexivity|])).
Qed.
Example C52_definitions_text : script (u " ") [u "x"] [DNote 0 true (u " first") []; Def 0 (u "f") None [] (u "  ") [TLine 0 Plain ((u " a", []), [])]; DNote 1 false (u "") [(0, 2, u "%g")]] [TUse 0 (u "f", [], []) None] 0 = u "context $x
# first
%f
  | a

--
  %g
f".
Proof. reflexivity. Qed.

(** ** C43 *)

(** A trailing comma after a single target is ignored: the script is parsed to the same tree with and without it,
    so nothing is unpacked. *)
Theorem C43_trailing_comma_refuted : exists d, parse_script conf_lexicon (u "$ a, = [1]") = Ok d /\ parse_script conf_lexicon (u "$ a = [1]") = Ok d.
Proof. exact comma_finding. Qed.
Print Assumptions C43_trailing_comma_refuted.
Example C43_trailing_comma_run : page_of (u "$ a, = [1]
| {a[0]}") = Done (u "1").
Proof. vm_compute. reflexivity. Qed.
