(** C67 hypertags that are not used, and imports that are not used. C68 order of definitions and imports. *)
From Coq Require Import List NArith ZArith Bool Arith String Permutation.
From Verif Require Import PyStr Html HtmlSpec PyDict Value Dom Ast Machine Analyse Syntax Runtime RuntimeSpec ExportFacts Ref ConfRef PageSpec PageSamples OperSpec
  TmplSpec TmplParse TmplExpr TmplDoc TmplCheck TmplSamples TmplProofs BookSpec TmplBook BookProofs MoreSpec MoreFacts MoreProofs OrderProofs.
Import ListNotations.
Local Open Scope string_scope.
Local Open Scope list_scope.

(** Further definitions, anywhere among the definitions, do not change what Runtime.render gives. That they are not used
    follows from both scripts being well-formed: hypertags used must be known. *)
Theorem C67_definitions : forall (W : Type) (E : env W) (P : prims W) Q X known b lim names vals vars ds ds' doc j n k tags args ctx file package m,
  template_runtime E P Q X known vars n k m -> called_with tags args ctx ->
  Forall2 (fun x v => dget str_eqb (VAR x) ctx = Some v) names vals ->
  blank_text b -> plain_symbols X (script b names ds doc j) -> plain_symbols X (script b names ds' doc j) -> List.length (defined ds) + lim <= n -> List.length (defined ds') + lim <= n ->
  doc <> [] -> (forall x, In x names -> id_name x = true) ->
  wfd b known (names ++ map fst vars) [] ds -> wfts b known (rev (defined ds)) None [] (names ++ map fst vars) doc ->
  wfd b known (names ++ map fst vars) [] ds' -> wfts b known (rev (defined ds')) None [] (names ++ map fst vars) doc ->
  more_defs ds ds' ->
  insts (inst Q b lim (meanings Q b lim (names ++ map fst vars) ds) None) doc (combine names vals ++ vars) <> Open ->
  same_outcome (fst (render_script E P n (S k) tags args (script b names ds doc j) file package m))
    (fst (render_script E P n (S k) tags args (script b names ds' doc j) file package m)).
Proof. exact script_more. Qed.
Print Assumptions C67_definitions.

(** Further import lines and further names in import lines as well, if the scripts they name can be evaluated. *)
Theorem C67_imports : forall (W : Type) (E : env W) (P : prims W) Q X known b lim lib dir d names vals vars imps imps' ds ds' doc j n k tags args ctx f package m g,
  book_runtime E P Q X known vars b lib dir n k m -> called_with tags args ctx ->
  Forall2 (fun x v => dget str_eqb (VAR x) ctx = Some v) names vals ->
  blank_text b -> plain_symbols X (source_text b names (Source imps ds doc j)) -> plain_symbols X (source_text b names (Source imps' ds' doc j)) ->
  List.length (defined ds) + (lim + d * most lib) <= n -> List.length (defined ds') + (lim + d * most lib) <= n -> d <= k -> in_folder dir f ->
  (forall x, In x names -> id_name x = true) ->
  source_ok b known (names ++ map fst vars) (Source imps ds doc j) -> source_ok b known (names ++ map fst vars) (Source imps' ds' doc j) ->
  more_imports imps imps' -> more_defs ds ds' -> gather (exports Q b lim lib vars d) imps' = Is g ->
  inst_source Q b lim (exports Q b lim lib vars d) (combine names vals ++ vars) (Source imps ds doc j) <> Open ->
  same_outcome (fst (render_script E P n (S k) tags args (source_text b names (Source imps ds doc j)) (Some f) package m))
    (fst (render_script E P n (S k) tags args (source_text b names (Source imps' ds' doc j)) (Some f) package m)).
Proof. exact book_more. Qed.
Print Assumptions C67_imports.

Example C67_more : more_defs sample_defs more_sample_defs.
Proof. constructor. apply more_defs_end. Qed.
Example C67_wf : wfd (u " ") html_known (def_names ++ map fst sample_vars) [] more_sample_defs /\
  wfts (u " ") html_known (rev (defined more_sample_defs)) None [] (def_names ++ map fst sample_vars) sample_doc.
Proof. split; [apply wf_defs_ok|apply wf_sample_ok]; vm_compute; reflexivity. Qed.
Example C67_symbols : plain_symbols conf_lexicon (script (u " ") def_names more_sample_defs sample_doc 0).
Proof. apply conf_symbols; vm_compute; reflexivity. Qed.
Example C67_bound : List.length (defined more_sample_defs) + 30 <= 40.
Proof. apply Nat.leb_le. reflexivity. Qed.
Example C67_not_open : insts (inst conf_py (u " ") 30 (meanings conf_py (u " ") 30 (def_names ++ map fst sample_vars) sample_defs) None) sample_doc (combine def_names def_vals ++ sample_vars) <> Open.
Proof. intros H. assert (K : match insts (inst conf_py (u " ") 30 (meanings conf_py (u " ") 30 (def_names ++ map fst sample_vars) sample_defs) None) sample_doc (combine def_names def_vals ++ sample_vars) with Open => false | _ => true end = true) by (vm_compute; reflexivity). rewrite H in K. discriminate K. Qed.

Example C67_more_imports : more_imports short_imps more_imps /\ more_defs short_defs more_short_defs.
Proof. split; [apply more_imports_new, more_imports_old; [apply part_self|constructor]|apply more_defs_end]. Qed.
Example C67_more_names : more_imports [(u "menus", [u "item"])] [(u "menus", [u "menu"; u "item"])].
Proof. apply more_imports_old; [apply part_new, part_self|constructor]. Qed.
Example C67_sources : source_ok (u " ") html_known ([u "title"] ++ map fst sample_vars) (Source short_imps short_defs short_doc 0) /\
  source_ok (u " ") html_known ([u "title"] ++ map fst sample_vars) (Source more_imps more_short_defs short_doc 0).
Proof. split; apply source_okb_ok; vm_compute; reflexivity. Qed.
Example C67_text : source_text (u " ") [u "title"] (Source more_imps more_short_defs short_doc 0) = u "context $title
from .menus import %menu
from .parts import %item
%two
  item {2}
%spare
  menu {title}
    two
two

item {title}".
Proof. vm_compute. reflexivity. Qed.
Example C67_html : spec_book 3 [u "title"] [VStr (u "Menu")] (Source short_imps short_defs short_doc 0) = Is (u "<li>2 of 7</li>

<li>Menu of 7</li>") /\
  spec_book 3 [u "title"] [VStr (u "Menu")] (Source more_imps more_short_defs short_doc 0) = Is (u "<li>2 of 7</li>

<li>Menu of 7</li>").
Proof. split; vm_compute; reflexivity. Qed.
Example C67_run : same_outcome (model_book [u "title"] [VStr (u "Menu")] (Source short_imps short_defs short_doc 0))
  (model_book [u "title"] [VStr (u "Menu")] (Source more_imps more_short_defs short_doc 0)).
Proof. left. eexists. split; vm_compute; reflexivity. Qed.
Example C67_gathered : exists g, gather (exports conf_py (u " ") 30 sample_lib sample_vars 3) more_imps = Is g.
Proof. destruct (gather (exports conf_py (u " ") 30 sample_lib sample_vars 3) more_imps) as [g| |] eqn:H; [exists g; reflexivity| |];
  assert (K : match gather (exports conf_py (u " ") 30 sample_lib sample_vars 3) more_imps with Is _ => true | _ => false end = true) by (vm_compute; reflexivity); rewrite H in K; discriminate K. Qed.
(** A script that is imported without being used is executed: if that raises an exception, nothing is rendered. *)
Example C67_executed : model_book [u "title"] [VStr (u "Menu")] (Source ((u "broken", [u "nothing"]) :: short_imps) short_defs short_doc 0) = Exc TypeError.
Proof. vm_compute. reflexivity. Qed.

(** Definitions in another order give the same, if hypertags are defined before they are used in both orders. *)
Theorem C68_definitions : forall (W : Type) (E : env W) (P : prims W) Q X known b lim names vals vars ds ds' doc j n k tags args ctx file package m,
  template_runtime E P Q X known vars n k m -> called_with tags args ctx ->
  Forall2 (fun x v => dget str_eqb (VAR x) ctx = Some v) names vals ->
  blank_text b -> plain_symbols X (script b names ds doc j) -> plain_symbols X (script b names ds' doc j) -> List.length (defined ds) + lim <= n ->
  doc <> [] -> (forall x, In x names -> id_name x = true) ->
  wfd b known (names ++ map fst vars) [] ds -> wfts b known (rev (defined ds)) None [] (names ++ map fst vars) doc ->
  wfd b known (names ++ map fst vars) [] ds' -> wfts b known (rev (defined ds')) None [] (names ++ map fst vars) doc ->
  Permutation ds ds' ->
  insts (inst Q b lim (meanings Q b lim (names ++ map fst vars) ds) None) doc (combine names vals ++ vars) <> Open ->
  same_outcome (fst (render_script E P n (S k) tags args (script b names ds doc j) file package m))
    (fst (render_script E P n (S k) tags args (script b names ds' doc j) file package m)).
Proof. exact script_order. Qed.
Print Assumptions C68_definitions.

(** Import lines in another order as well, if the imported scripts can be evaluated. *)
Theorem C68_imports : forall (W : Type) (E : env W) (P : prims W) Q X known b lim lib dir d names vals vars imps imps' ds ds' doc j n k tags args ctx f package m g,
  book_runtime E P Q X known vars b lib dir n k m -> called_with tags args ctx ->
  Forall2 (fun x v => dget str_eqb (VAR x) ctx = Some v) names vals ->
  blank_text b -> plain_symbols X (source_text b names (Source imps ds doc j)) -> plain_symbols X (source_text b names (Source imps' ds' doc j)) ->
  List.length (defined ds) + (lim + d * most lib) <= n -> d <= k -> in_folder dir f ->
  (forall x, In x names -> id_name x = true) ->
  source_ok b known (names ++ map fst vars) (Source imps ds doc j) -> source_ok b known (names ++ map fst vars) (Source imps' ds' doc j) ->
  Permutation imps imps' -> Permutation ds ds' -> gather (exports Q b lim lib vars d) imps = Is g ->
  inst_source Q b lim (exports Q b lim lib vars d) (combine names vals ++ vars) (Source imps ds doc j) <> Open ->
  same_outcome (fst (render_script E P n (S k) tags args (source_text b names (Source imps ds doc j)) (Some f) package m))
    (fst (render_script E P n (S k) tags args (source_text b names (Source imps' ds' doc j)) (Some f) package m)).
Proof. exact book_order. Qed.
Print Assumptions C68_imports.

Example C68_moved : Permutation more_sample_defs moved_defs.
Proof. unfold more_sample_defs, moved_defs. apply Permutation_cons_app, Permutation_refl. Qed.
Example C68_wf : wfd (u " ") html_known (def_names ++ map fst sample_vars) [] moved_defs /\
  wfts (u " ") html_known (rev (defined moved_defs)) None [] (def_names ++ map fst sample_vars) sample_doc.
Proof. split; [apply wf_defs_ok|apply wf_sample_ok]; vm_compute; reflexivity. Qed.
(** A hypertag used before its definition is rejected: [last] uses [spare]. *)
Example C68_before : ~ wfd (u " ") html_known (def_names ++ map fst sample_vars) [] [last_def; spare_def].
Proof.
  intros H. inversion H; subst. match goal with A : wfts _ _ [] _ _ _ _ |- _ => inversion A; subst end. match goal with A : wft _ _ [] _ _ _ _ |- _ => inversion A; subst end. contradiction.
Qed.
Example C68_sources : source_ok (u " ") html_known ([u "title"] ++ map fst sample_vars) order_a /\ source_ok (u " ") html_known ([u "title"] ++ map fst sample_vars) order_b.
Proof. split; apply source_okb_ok; vm_compute; reflexivity. Qed.
Example C68_texts : source_text (u " ") [u "title"] order_a = u "context $title
from .menus import %menu
from .parts import %item

%two
  item {2}


%list
  menu {title}
    item {1}
list
two" /\ source_text (u " ") [u "title"] order_b = u "context $title
from .parts import %item
from .menus import %menu


%list
  menu {title}
    item {1}

%two
  item {2}
list
two".
Proof. split; vm_compute; reflexivity. Qed.
Example C68_html : spec_book 3 [u "title"] [VStr (u "Menu")] order_b = Is (u "


<h2>Menu</h2>
<ul>
  <li>4 of 7</li>
  <li>1 of 7</li>
</ul>
<li>2 of 7</li>").
Proof. vm_compute. reflexivity. Qed.
Example C68_run : same_outcome (model_book [u "title"] [VStr (u "Menu")] order_a) (model_book [u "title"] [VStr (u "Menu")] order_b).
Proof. left. eexists. split; vm_compute; reflexivity. Qed.
