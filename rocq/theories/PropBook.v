(** C64 scripts that import hypertags from scripts in the same folder. *)
From Coq Require Import List NArith ZArith Bool Arith String.
From Verif Require Import PyStr Html HtmlSpec PyDict Value Dom Ast Machine Analyse Syntax Runtime RuntimeSpec ExportFacts Ref ConfRef PageSpec PageSamples OperSpec
  TmplSpec TmplParse TmplExpr TmplDoc TmplCheck TmplSamples TmplProofs BookSpec TmplBook BookProofs.
Import ListNotations.
Local Open Scope string_scope.
Local Open Scope list_scope.

(** Runtime.render of a script in the folder of a library, for every library, at any depth of imports. *)
Theorem C64_render : forall (W : Type) (E : env W) (P : prims W) Q X known b lim lib dir d names vals vars s n k tags args ctx f package m es r',
  book_runtime E P Q X known vars b lib dir n k m -> called_with tags args ctx ->
  Forall2 (fun x v => dget str_eqb (VAR x) ctx = Some v) names vals ->
  blank_text b -> plain_symbols X (source_text b names s) -> List.length (defined (src_defs s)) + (lim + d * most lib) <= n -> d <= k -> in_folder dir f ->
  (forall x, In x names -> id_name x = true) -> source_ok b known (names ++ map fst vars) s ->
  inst_source Q b lim (exports Q b lim lib vars d) (combine names vals ++ vars) s = Is (es, r') ->
  exists m', render_script E P n (S k) tags args (source_text b names s) (Some f) package m =
    (Done (elems_html (void known) (gaps (src_defs s) ++ es) (src_blank s)), m').
Proof. exact book_renders. Qed.
Print Assumptions C64_render.

(** If the script, or a script it imports from, needs something that Python refuses, an exception is raised. *)
Theorem C64_raises : forall (W : Type) (E : env W) (P : prims W) Q X known b lim lib dir d names vals vars s n k tags args ctx f package m,
  book_runtime E P Q X known vars b lib dir n k m -> called_with tags args ctx ->
  Forall2 (fun x v => dget str_eqb (VAR x) ctx = Some v) names vals ->
  blank_text b -> plain_symbols X (source_text b names s) -> List.length (defined (src_defs s)) + (lim + d * most lib) <= n -> d <= k -> in_folder dir f ->
  (forall x, In x names -> id_name x = true) -> source_ok b known (names ++ map fst vars) s ->
  inst_source Q b lim (exports Q b lim lib vars d) (combine names vals ++ vars) s = Raises ->
  exists e m', render_script E P n (S k) tags args (source_text b names s) (Some f) package m = (Exc e, m').
Proof. exact book_raises. Qed.
Print Assumptions C64_raises.

Example C64_runtime : book_runtime site_env conf_prims conf_py conf_lexicon html_known sample_vars (u " ") sample_lib (u "/site") 40 4 mach0.
Proof. exact site_runtime. Qed.
Example C64_sample_ok : source_ok (u " ") html_known ([u "title"] ++ map fst sample_vars) sample_main /\
  source_ok (u " ") html_known ([u "title"] ++ map fst sample_vars) sample_broken /\ id_name (u "title") = true.
Proof. split; [apply source_okb_ok; vm_compute; reflexivity|]. split; [apply source_okb_ok; vm_compute; reflexivity|reflexivity]. Qed.
Example C64_bounds : List.length (src_defs sample_main) + (30 + 3 * most sample_lib) <= 40 /\ 3 <= 4 /\ in_folder (u "/site") (u "/site/main.hy") /\ blank_text (u " ").
Proof. split; [vm_compute; repeat constructor|]. split; [repeat constructor|]. split; [exists (u "main.hy"); split; [reflexivity|apply no_slashb; reflexivity]|exact space_blank]. Qed.
Example C64_symbols : plain_symbols conf_lexicon (source_text (u " ") [u "title"] sample_main) /\ plain_symbols conf_lexicon (source_text (u " ") [u "title"] sample_broken).
Proof. split; apply conf_symbols; vm_compute; reflexivity. Qed.
Example C64_context : exists ctx, called_with [] (combine [u "title"] [VStr (u "Menu")]) ctx /\
  Forall2 (fun x v => dget str_eqb (VAR x) ctx = Some v) [u "title"] [VStr (u "Menu")].
Proof. eexists. split; [split; [apply args_okb_ok; vm_compute; reflexivity|reflexivity]|]. repeat constructor. Qed.
(** The files of the library, and the script that is rendered. *)
Example C64_files : site_files =
  [(u "/site/parts.hy", u "%item x
  li | {x} of {range}

$ range = 7
| not shown
");
   (u "/site/menus.hy", u "from .parts import %item
%menu @body head
  h2 | {head}
  ul
    item {len(head)}
    @body");
   (u "/site/broken.hy", u "%nothing
  | x
| {len - 1}");
   (u "/site/shared.hy", u "%box @body size={2}
  b class={size}
    @body
-- two of them
%pair n
  box {n}
  box {len(r""abc"")}")].
Proof. vm_compute. reflexivity. Qed.
Example C64_text : source_text (u " ") [u "title"] sample_main = u "context $title
from .menus import %menu, %item
%two
  item {2}
$ range = 9
menu {title}
  item {range}
  two

| range = {range}".
Proof. vm_compute. reflexivity. Qed.
(** The variable [range] of parts.hy is not the one of the script. *)
Example C64_html : spec_book 3 [u "title"] [VStr (u "Menu")] sample_main = Is (u "<h2>Menu</h2>
<ul>
  <li>4 of 7</li>
  <li>9 of 7</li>
  <li>2 of 7</li>
</ul>

range = 9").
Proof. vm_compute. reflexivity. Qed.
Example C64_run : same_answer (model_book [u "title"] [VStr (u "Menu")] sample_main) (spec_book 3 [u "title"] [VStr (u "Menu")] sample_main) = true.
Proof. vm_compute. reflexivity. Qed.
Example C64_broken : spec_book 3 [u "title"] [VStr (u "Menu")] sample_broken = Raises /\ model_book [u "title"] [VStr (u "Menu")] sample_broken = Exc TypeError.
Proof. split; vm_compute; reflexivity. Qed.
