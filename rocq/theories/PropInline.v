(** C71 contents of hypertags in place of their uses. *)
From Coq Require Import List NArith ZArith Bool Arith String.
From Verif Require Import PyStr PyStrFacts Html HtmlSpec PyDict Value Dom Ast Machine Analyse Syntax Runtime RuntimeSpec ExportFacts Ref ConfRef PageSpec PageSamples OperSpec
  TmplSpec TmplParse TmplExpr TmplDoc TmplCheck TmplSamples TmplProofs MoreSpec MoveSpec InlineSpec InlineProofs.
Import ListNotations.
Local Open Scope string_scope.
Local Open Scope list_scope.

(** The script in which all uses of a hypertag without a body are replaced by assignments to the parameters, in the order of
    evaluation, and the contents of the definition, gives the same, if the names assigned are not used otherwise, and if the
    contents give a line. For these conditions see [C71_excluded_clash] and [C71_excluded_blank]. Uses with arguments that do
    not fit stay. *)
Theorem C71_inlined : forall (W : Type) (E : env W) (P : prims W) Q X known b lim names vals vars ds doc m0 h ps w kids j n k tags args ctx file package m,
  let doc' := flat_map (expand h ps kids) doc in
  template_runtime E P Q X known vars n k m -> called_with tags args ctx ->
  Forall2 (fun x v => dget str_eqb (VAR x) ctx = Some v) names vals ->
  blank_text b -> plain_symbols X (script b names ds doc j) -> plain_symbols X (script b names ds doc' j) -> List.length (defined ds) + lim <= n ->
  doc <> [] -> (forall x, In x names -> id_name x = true) ->
  wfd b known (names ++ map fst vars) [] ds -> wfts b known (rev (defined ds)) None [] (names ++ map fst vars) doc ->
  wfts b known (rev (defined ds)) None [] (names ++ map fst vars) doc' ->
  In (Def m0 h None ps w kids) ds -> existsb contents kids = true ->
  (forall x, In x (map fst ps ++ flat_map writes kids) -> ~ In x (names ++ map fst vars ++ flat_map writes doc)) ->
  insts (inst Q b lim (meanings Q b lim (names ++ map fst vars) ds) None) doc (combine names vals ++ vars) <> Open ->
  same_outcome (fst (render_script E P n (S k) tags args (script b names ds doc j) file package m))
    (fst (render_script E P n (S k) tags args (script b names ds doc' j) file package m)).
Proof. exact script_inlined. Qed.
Print Assumptions C71_inlined.

Example C71_wf : let doc := flat_map (expand (u "row") row_params row_kids) row_doc in
  wfd (u " ") html_known (def_names ++ map fst sample_vars) [] row_defs /\
  wfts (u " ") html_known (rev (defined row_defs)) None [] (def_names ++ map fst sample_vars) row_doc /\
  wfts (u " ") html_known (rev (defined row_defs)) None [] (def_names ++ map fst sample_vars) doc.
Proof. cbv zeta. split; [apply wf_defs_ok|split; apply wf_sample_ok]; vm_compute; reflexivity. Qed.
Example C71_symbols : plain_symbols conf_lexicon (script (u " ") def_names row_defs row_doc 0) /\
  plain_symbols conf_lexicon (script (u " ") def_names row_defs (flat_map (expand (u "row") row_params row_kids) row_doc) 0).
Proof. split; apply conf_symbols; vm_compute; reflexivity. Qed.
Example C71_defined : In (Def 0 (u "row") None row_params (u "  ") row_kids) row_defs /\ existsb contents row_kids = true.
Proof. split; [apply in_or_app; right; left; reflexivity|reflexivity]. Qed.
Example C71_names : forall x, In x (map fst row_params ++ flat_map writes row_kids) -> ~ In x (def_names ++ map fst sample_vars ++ flat_map writes row_doc).
Proof. apply apart_ok. vm_compute. reflexivity. Qed.
Example C71_texts : script (u " ") def_names row_defs row_doc 0 = u "context $title, $rows
%item x y=""<{title}>""
  if (x == 2)
    | two
  else
    li.{y} | {x}: {y}

%box @body head n={len(title) * 2}
    $ k = n + 1
    h2 | {head} {k}

    div.box
      --
      @body
    item {k} y=""end""
%row a c={len(title)}
  $ k = a + 1
  li | {k}: {c}
  if (k == 2)
    | two
$ z = 0
section
  for x in rows
    row {x}
  row {z} {5}
box {6}
  row {8}

row c={z} a={7}
| z = {z}" /\ exists p, script (u " ") def_names row_defs (flat_map (expand (u "row") row_params row_kids) row_doc) 0 = p ++ u "
$ z = 0
section
  for x in rows
    $ a = x
    $ c = len(title)
    $ k = a + 1
    li | {k}: {c}
    if (k == 2)
      | two
  $ a = z
  $ c = 5
  $ k = a + 1
  li | {k}: {c}
  if (k == 2)
    | two
box {6}
  $ a = 8
  $ c = len(title)
  $ k = a + 1
  li | {k}: {c}
  if (k == 2)
    | two

$ c = z
$ a = 7
$ k = a + 1
li | {k}: {c}
if (k == 2)
  | two
| z = {z}".
Proof. split; [vm_compute; reflexivity|]. exists (firstn 299 (script (u " ") def_names row_defs row_doc 0)). vm_compute. reflexivity. Qed.
Example C71_run : model_script def_names def_vals row_defs row_doc = Done (u "
<section>
  <li>2: 3</li>
  two
  <li>3: 3</li>
  <li>1: 5</li>
</section>
<h2>6 7</h2>

<div class=""box"">
  <li>9: 3</li>
</div>
<li class=""end"">7: end</li>

<li>8: 0</li>
z = 0") /\ model_script def_names def_vals row_defs (flat_map (expand (u "row") row_params row_kids) row_doc) = model_script def_names def_vals row_defs row_doc.
Proof. split; vm_compute; reflexivity. Qed.

(** Names assigned inside of the definition are its own; with the contents in place of the use they are those of the template. *)
Theorem C71_excluded_clash : exists ds h ps w kids doc names vals,
  let doc' := flat_map (expand h ps kids) doc in
  wfd (u " ") html_known (names ++ map fst sample_vars) [] ds /\ In (Def 0 h None ps w kids) ds /\ existsb contents kids = true /\
  wfts (u " ") html_known (rev (defined ds)) None [] (names ++ map fst sample_vars) doc /\
  wfts (u " ") html_known (rev (defined ds)) None [] (names ++ map fst sample_vars) doc' /\
  model_script names vals ds doc = Done (u "
<li>9: 3</li>
a = 5") /\ model_script names vals ds doc' = Done (u "
<li>9: 3</li>
a = 8").
Proof.
  exists row_defs, (u "row"), row_params, (u "  "), row_kids, clash_doc, def_names, def_vals. cbv zeta. split; [apply wf_defs_ok; vm_compute; reflexivity|].
  split; [apply in_or_app; right; left; reflexivity|]. split; [reflexivity|]. split; [apply wf_sample_ok; vm_compute; reflexivity|]. split; [apply wf_sample_ok; vm_compute; reflexivity|].
  split; vm_compute; reflexivity.
Qed.
Print Assumptions C71_excluded_clash.
(** A hypertag without any line gives a blank line, its contents do not. *)
Theorem C71_excluded_blank : exists ds h ps w kids doc names vals,
  let doc' := flat_map (expand h ps kids) doc in
  wfd (u " ") html_known (names ++ map fst sample_vars) [] ds /\ In (Def 0 h None ps w kids) ds /\
  wfts (u " ") html_known (rev (defined ds)) None [] (names ++ map fst sample_vars) doc /\
  wfts (u " ") html_known (rev (defined ds)) None [] (names ++ map fst sample_vars) doc' /\
  (forall x, In x (map fst ps ++ flat_map writes kids) -> ~ In x (names ++ map fst sample_vars ++ flat_map writes doc)) /\
  model_script names vals ds doc = Done (u "first

last") /\ model_script names vals ds doc' = Done (u "first
last").
Proof.
  exists quiet_defs, (u "quiet"), [], (u "  "), quiet_kids, quiet_doc, [], []. cbv zeta. split; [apply wf_defs_ok; vm_compute; reflexivity|].
  split; [left; reflexivity|]. split; [apply wf_sample_ok; vm_compute; reflexivity|]. split; [apply wf_sample_ok; vm_compute; reflexivity|].
  split; [intros x []|]. split; vm_compute; reflexivity.
Qed.
Print Assumptions C71_excluded_blank.

(** The same for uses with a body: the contents with the body in its place. What renders gives the same; on the contrary the
    script with the contents may render when the one with the uses does not, see [C71_excluded_hidden]. The bodies may assign
    the variables [own], which must not be used otherwise. Uses stay inside of alternatives (try), inside of bodies of such uses,
    with a body that assigns other variables, and if no line is certain to be given. *)
Theorem C71_blocks : forall (W : Type) (E : env W) (P : prims W) Q X known b lim names vals vars ds doc own m0 h y ps w kids j n k tags args ctx file package m html,
  let doc' := flat_map (expand_blocks own h ps kids) doc in
  template_runtime E P Q X known vars n k m -> called_with tags args ctx ->
  Forall2 (fun x v => dget str_eqb (VAR x) ctx = Some v) names vals ->
  blank_text b -> plain_symbols X (script b names ds doc j) -> plain_symbols X (script b names ds doc' j) -> List.length (defined ds) + lim <= n ->
  doc <> [] -> (forall x, In x names -> id_name x = true) ->
  wfd b known (names ++ map fst vars) [] ds -> wfts b known (rev (defined ds)) None [] (names ++ map fst vars) doc ->
  wfts b known (rev (defined ds)) None [] (names ++ map fst vars) doc' ->
  In (Def m0 h (Some y) ps w kids) ds ->
  (forall x, In x own -> ~ In x (map fst ps ++ flat_map writes kids)) ->
  (forall x, In x ((map fst ps ++ flat_map writes kids) ++ own) -> ~ In x (names ++ map fst vars ++ flat_map (writes_outside own h ps kids) doc)) ->
  insts (inst Q b lim (meanings Q b lim (names ++ map fst vars) ds) None) doc (combine names vals ++ vars) <> Open ->
  fst (render_script E P n (S k) tags args (script b names ds doc j) file package m) = Done html ->
  fst (render_script E P n (S k) tags args (script b names ds doc' j) file package m) = Done html.
Proof. exact script_blocks. Qed.
Print Assumptions C71_blocks.

Example C71_blocks_wf : let doc := flat_map (expand_blocks [u "y"] (u "card") card_params card_kids) card_doc in
  wfd (u " ") html_known (def_names ++ map fst sample_vars) [] card_defs /\
  wfts (u " ") html_known (rev (defined card_defs)) None [] (def_names ++ map fst sample_vars) card_doc /\
  wfts (u " ") html_known (rev (defined card_defs)) None [] (def_names ++ map fst sample_vars) doc.
Proof. cbv zeta. split; [apply wf_defs_ok|split; apply wf_sample_ok]; vm_compute; reflexivity. Qed.
Example C71_blocks_symbols : plain_symbols conf_lexicon (script (u " ") def_names card_defs card_doc 0) /\
  plain_symbols conf_lexicon (script (u " ") def_names card_defs (flat_map (expand_blocks [u "y"] (u "card") card_params card_kids) card_doc) 0).
Proof. split; apply conf_symbols; vm_compute; reflexivity. Qed.
Example C71_blocks_defined : In (Def 0 (u "card") (Some (u "body")) card_params (u "  ") card_kids) card_defs.
Proof. apply in_or_app. right. left. reflexivity. Qed.
Example C71_blocks_names : (forall x, In x [u "y"] -> ~ In x (map fst card_params ++ flat_map writes card_kids)) /\
  forall x, In x ((map fst card_params ++ flat_map writes card_kids) ++ [u "y"]) ->
    ~ In x (def_names ++ map fst sample_vars ++ flat_map (writes_outside [u "y"] (u "card") card_params card_kids) card_doc).
Proof. split; apply apart_ok; vm_compute; reflexivity. Qed.
Example C71_blocks_texts : exists p, script (u " ") def_names card_defs card_doc 0 = p ++ u "
%card @body head c={len(title)}
  $ k = c + 1
  h3 | {head} {k}

  div
    if (k == 6)
      | six

    @body
$ z = 0
section
  for x in rows
    card {x}
      | row {x}
      item {x}


card {9} c={5}
    for y in rows
      | {y} and {z}
| last" /\ exists q, script (u " ") def_names card_defs (flat_map (expand_blocks [u "y"] (u "card") card_params card_kids) card_doc) 0 = q ++ u "
$ z = 0
section
  for x in rows
    $ head = x
    $ c = len(title)
    $ k = c + 1
    h3 | {head} {k}

    div
      if (k == 6)
        | six

      | row {x}
      item {x}


$ head = 9
$ c = 5
$ k = c + 1
h3 | {head} {k}

div
  if (k == 6)
    | six

  for y in rows
    | {y} and {z}
| last".
Proof.
  exists (firstn 223 (script (u " ") def_names card_defs card_doc 0)). split; [vm_compute; reflexivity|].
  exists (firstn 333 (script (u " ") def_names card_defs card_doc 0)). vm_compute. reflexivity.
Qed.
Example C71_blocks_run : model_script def_names def_vals card_defs card_doc = Done (u "
<section>
  <h3>1 4</h3>

  <div>

    row 1
    <li class=""&lt;A&amp;B&gt;"">1: &lt;A&amp;B&gt;</li>
  </div>
  <h3>2 4</h3>

  <div>

    row 2
    two
  </div>
</section>


<h3>9 6</h3>

<div>
  six

  1 and 0
  2 and 0
</div>
last") /\ model_script def_names def_vals card_defs (flat_map (expand_blocks [u "y"] (u "card") card_params card_kids) card_doc) = model_script def_names def_vals card_defs card_doc.
Proof. split; vm_compute; reflexivity. Qed.

(** A body is evaluated even if the definition does not show it. *)
Theorem C71_excluded_hidden : exists ds h y w kids doc,
  let doc' := flat_map (expand_blocks [] h [] kids) doc in
  wfd (u " ") html_known (map fst sample_vars) [] ds /\ In (Def 0 h (Some y) [] w kids) ds /\
  wfts (u " ") html_known (rev (defined ds)) None [] (map fst sample_vars) doc /\
  wfts (u " ") html_known (rev (defined ds)) None [] (map fst sample_vars) doc' /\
  (exists e, model_script [] [] ds doc = Exc e) /\ model_script [] [] ds doc' = Done (u "shown").
Proof.
  exists hide_defs, (u "hide"), (u "body"), (u "  "), hide_kids, hide_doc. cbv zeta. split; [apply (wf_defs_ok []); vm_compute; reflexivity|].
  split; [left; reflexivity|]. split; [apply (wf_sample_ok []); vm_compute; reflexivity|]. split; [apply (wf_sample_ok []); vm_compute; reflexivity|].
  split; [eexists|]; vm_compute; reflexivity.
Qed.
Print Assumptions C71_excluded_hidden.
