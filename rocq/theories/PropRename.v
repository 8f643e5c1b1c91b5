(** C70 names of hypertags. *)
From Coq Require Import List NArith ZArith Bool Arith String.
From Verif Require Import PyStr Html HtmlSpec PyDict Value Dom Ast Machine Analyse Syntax Runtime RuntimeSpec ExportFacts Ref ConfRef PageSpec PageSamples OperSpec
  TmplSpec TmplParse TmplExpr TmplDoc TmplCheck TmplSamples TmplProofs MoreSpec RenameSpec RenameProofs.
Import ListNotations.
Local Open Scope string_scope.
Local Open Scope list_scope.

(** Hypertags with other names, and other names of their bodies, give the same. Missing: hypertags used with a text in the
    same line, of several lines or with expressions, whose new names have another length, see [C70_length_refuted]. That different hypertags get different names
    follows from both scripts being well-formed. *)
Theorem C70_renamed_partial : forall (W : Type) (E : env W) (P : prims W) Q X known b lim names vals vars f g ds doc j n k tags args ctx file package m,
  let ds' := map (rename_def f g) ds in let doc' := map (rename f g) doc in
  template_runtime E P Q X known vars n k m -> called_with tags args ctx ->
  Forall2 (fun x v => dget str_eqb (VAR x) ctx = Some v) names vals ->
  blank_text b -> plain_symbols X (script b names ds doc j) -> plain_symbols X (script b names ds' doc' j) -> List.length (defined ds) + lim <= n ->
  doc <> [] -> (forall x, In x names -> id_name x = true) ->
  wfd b known (names ++ map fst vars) [] ds -> wfts b known (rev (defined ds)) None [] (names ++ map fst vars) doc ->
  wfd b known (names ++ map fst vars) [] ds' -> wfts b known (rev (defined ds')) None [] (names ++ map fst vars) doc' ->
  forallb (steady_def f) ds = true -> forallb (steady f) doc = true ->
  insts (inst Q b lim (meanings Q b lim (names ++ map fst vars) ds) None) doc (combine names vals ++ vars) <> Open ->
  same_outcome (fst (render_script E P n (S k) tags args (script b names ds doc j) file package m))
    (fst (render_script E P n (S k) tags args (script b names ds' doc' j) file package m)).
Proof. exact script_renamed. Qed.
Print Assumptions C70_renamed_partial.

Example C70_wf : let ds := map (rename_def new_name new_body) sample_defs in let doc := map (rename new_name new_body) sample_doc in
  wfd (u " ") html_known (def_names ++ map fst sample_vars) [] ds /\
  wfts (u " ") html_known (rev (defined ds)) None [] (def_names ++ map fst sample_vars) doc.
Proof. cbv zeta. split; [apply wf_defs_ok|apply wf_sample_ok]; vm_compute; reflexivity. Qed.
Example C70_symbols : plain_symbols conf_lexicon (script (u " ") def_names (map (rename_def new_name new_body) sample_defs) (map (rename new_name new_body) sample_doc) 0).
Proof. apply conf_symbols; vm_compute; reflexivity. Qed.
Example C70_steady : forallb (steady_def new_name) sample_defs = true /\ forallb (steady new_name) sample_doc = true.
Proof. split; vm_compute; reflexivity. Qed.
Example C70_names : defined sample_defs = [u "item"; u "box"] /\ defined (map (rename_def new_name new_body) sample_defs) = [u "entry_point"; u "pad"].
Proof. split; vm_compute; reflexivity. Qed.
Example C70_run : same_outcome (model_script def_names def_vals sample_defs sample_doc)
  (model_script def_names def_vals (map (rename_def new_name new_body) sample_defs) (map (rename new_name new_body) sample_doc)).
Proof. left. eexists. split; vm_compute; reflexivity. Qed.

(** Texts of one line without expressions: any length. *)
Example C70_fixed : forallb (steady pad_name) fixed_doc = true /\ model_script [u "title"] pad_vals pad_defs fixed_doc = Done (u "a &lt; b") /\
  model_script [u "title"] pad_vals (map (rename_def pad_name new_body) pad_defs) (map (rename pad_name new_body) fixed_doc) = Done (u "a &lt; b").
Proof. repeat split; vm_compute; reflexivity. Qed.

(** With another length the output can be another one: how many blanks are taken away in front of the second line of a value
    depends on the column of the marker, hence on the name. *)
Theorem C70_length_refuted : exists f ds doc names vals,
  let ds' := map (rename_def f (fun x => x)) ds in let doc' := map (rename f (fun x => x)) doc in
  wfd (u " ") html_known (names ++ map fst sample_vars) [] ds /\ wfts (u " ") html_known (rev (defined ds)) None [] (names ++ map fst sample_vars) doc /\
  wfd (u " ") html_known (names ++ map fst sample_vars) [] ds' /\ wfts (u " ") html_known (rev (defined ds')) None [] (names ++ map fst sample_vars) doc' /\
  script (u " ") names ds doc 0 = u "context $title
%box @body
  @body
box | {title}" /\
  model_script names vals ds doc = Done (u "a
    b") /\
  script (u " ") names ds' doc' 0 = u "context $title
%longer_box @body
  @body
longer_box | {title}" /\
  model_script names vals ds' doc' = Done (u "a
b").
Proof.
  exists pad_name, pad_defs, pad_doc, [u "title"], pad_vals. cbv zeta. split; [apply wf_defs_ok; vm_compute; reflexivity|]. split; [apply wf_sample_ok; vm_compute; reflexivity|].
  split; [apply wf_defs_ok; vm_compute; reflexivity|]. split; [apply wf_sample_ok; vm_compute; reflexivity|]. repeat split; vm_compute; reflexivity.
Qed.
Print Assumptions C70_length_refuted.
