(** C72 names of variables. *)
From Coq Require Import List NArith ZArith Bool Arith String.
From Verif Require Import PyStr PyStrFacts Html HtmlSpec PyDict Value Dom Ast Machine Analyse Syntax Runtime RuntimeSpec ExportFacts Ref ConfRef PageSpec PageSamples OperSpec
  TmplSpec TmplParse TmplExpr TmplDoc TmplCheck TmplSamples TmplProofs MoreSpec RenameSpec VarSpec VarProofs.
Import ListNotations.
Local Open Scope string_scope.
Local Open Scope list_scope.

(** A script with other names of variables, parameters, bodies, and of the values given by the context, rendered with the same
    values under these names, gives the same. Built-in variables keep their names. Missing: lines in which a text of several lines,
    or with expressions, follows a tag whose attributes take another length with the new names, see [C72_length_refuted]. *)
Theorem C72_renamed_partial : forall (W : Type) (E : env W) (P : prims W) Q X known b lim names vals vars f ds doc j n k tags args ctx tags' args' ctx' file package m,
  let names' := map f names in let ds' := map (var_def f) ds in let doc' := map (var_tmpl f) doc in
  (forall x y, f x = f y -> x = y) -> (forall x, In x (map fst vars) -> f x = x) -> (forall s, f (sigil_name s) = sigil_name s) ->
  template_runtime E P Q X known vars n k m -> called_with tags args ctx -> called_with tags' args' ctx' ->
  Forall2 (fun x v => dget str_eqb (VAR x) ctx = Some v) names vals -> Forall2 (fun x v => dget str_eqb (VAR x) ctx' = Some v) names' vals ->
  blank_text b -> plain_symbols X (script b names ds doc j) -> plain_symbols X (script b names' ds' doc' j) -> List.length (defined ds) + lim <= n ->
  doc <> [] -> (forall x, In x names -> id_name x = true) -> (forall x, In x names' -> id_name x = true) ->
  wfd b known (names ++ map fst vars) [] ds -> wfts b known (rev (defined ds)) None [] (names ++ map fst vars) doc ->
  wfd b known (names' ++ map fst vars) [] ds' -> wfts b known (rev (defined ds')) None [] (names' ++ map fst vars) doc' ->
  forallb (level_def f b) ds = true -> forallb (level f b) doc = true ->
  insts (inst Q b lim (meanings Q b lim (names ++ map fst vars) ds) None) doc (combine names vals ++ vars) <> Open ->
  same_outcome (fst (render_script E P n (S k) tags args (script b names ds doc j) file package m))
    (fst (render_script E P n (S k) tags' args' (script b names' ds' doc' j) file package m)).
Proof. exact script_vars. Qed.
Print Assumptions C72_renamed_partial.

Example C72_names : (forall x y, new_vars x = new_vars y -> x = y) /\ (forall x, In x (map fst sample_vars) -> new_vars x = x) /\ (forall s, new_vars (sigil_name s) = sigil_name s) /\
  map new_vars def_names = [u "heading"; u "data"].
Proof.
  split; [apply swaps_inj|]. split; [|split; [intros []; vm_compute; reflexivity|vm_compute; reflexivity]].
  intros x H. cbn [map fst sample_vars In] in H. repeat (destruct H as [<-|H]; [vm_compute; reflexivity|]). contradiction.
Qed.
Example C72_wf : let ds := map (var_def new_vars) sample_defs in let doc := map (var_tmpl new_vars) sample_doc in
  wfd (u " ") html_known (map new_vars def_names ++ map fst sample_vars) [] ds /\
  wfts (u " ") html_known (rev (defined ds)) None [] (map new_vars def_names ++ map fst sample_vars) doc.
Proof. cbv zeta. split; [apply wf_defs_ok|apply wf_sample_ok]; vm_compute; reflexivity. Qed.
Example C72_symbols : plain_symbols conf_lexicon (script (u " ") (map new_vars def_names) (map (var_def new_vars) sample_defs) (map (var_tmpl new_vars) sample_doc) 0).
Proof. apply conf_symbols; vm_compute; reflexivity. Qed.
Example C72_level : forallb (level_def new_vars (u " ")) sample_defs = true /\ forallb (level new_vars (u " ")) sample_doc = true.
Proof. split; vm_compute; reflexivity. Qed.
Example C72_text : script (u " ") (map new_vars def_names) (map (var_def new_vars) sample_defs) (map (var_tmpl new_vars) sample_doc) 0 = u "context $heading, $data
%item entry q=""<{heading}>""
  if (entry == 2)
    | two
  else
    li.{q} | {entry}: {q}

%box @inside cap nn={len(heading) * 2}
    $ j = nn + 1
    h2 | {cap} {j}

    div.box
      --
      @inside
    item {j} q=""end""
$ j = 0

box ""T {heading}""
  for entry in data
    item {entry}
  p | {j}
section
  box nn={j} cap=""a&"" / <i>{heading}</i>

  item ""one"" {[]}
  box {heading}
| k = {j}".
Proof. vm_compute. reflexivity. Qed.
Example C72_run : same_outcome (model_script def_names def_vals sample_defs sample_doc)
  (model_script (map new_vars def_names) def_vals (map (var_def new_vars) sample_defs) (map (var_tmpl new_vars) sample_doc)).
Proof. left. eexists. split; vm_compute; reflexivity. Qed.

(** The length of the name of a variable in front of a text can change the output: the column of the marker decides how many blanks
    are taken away in front of the second line of a value. *)
Theorem C72_length_refuted : exists f doc names vals,
  let doc' := map (var_tmpl f) doc in
  (forall x y, f x = f y -> x = y) /\ (forall x, In x (map fst sample_vars) -> f x = x) /\ (forall s, f (sigil_name s) = sigil_name s) /\
  wfts (u " ") html_known [] None [] (names ++ map fst sample_vars) doc /\ wfts (u " ") html_known [] None [] (map f names ++ map fst sample_vars) doc' /\
  script (u " ") names [] doc 0 = u "context $a, $v
p lang={a} | {v}" /\
  model_script names vals [] doc = Done (u "<p lang=""en"">first
       second</p>") /\
  script (u " ") (map f names) [] doc' 0 = u "context $language, $v
p lang={language} | {v}" /\
  model_script (map f names) vals [] doc' = Done (u "<p lang=""en"">first
second</p>").
Proof.
  exists long_var, lang_doc, [u "a"; u "v"], lang_vals. cbv zeta. split; [apply swaps_inj|].
  split; [intros x H; cbn [map fst sample_vars In] in H; repeat (destruct H as [<-|H]; [vm_compute; reflexivity|]); contradiction|].
  split; [intros []; vm_compute; reflexivity|]. split; [apply wf_sample_ok; vm_compute; reflexivity|]. split; [apply wf_sample_ok; vm_compute; reflexivity|]. repeat split; vm_compute; reflexivity.
Qed.
Print Assumptions C72_length_refuted.
