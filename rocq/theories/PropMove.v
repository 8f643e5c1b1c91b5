(** C69 definitions moved to another script. *)
From Coq Require Import List NArith ZArith Bool Arith String.
From Verif Require Import PyStr PyStrFacts Html HtmlSpec PyDict Value Dom Ast Machine Analyse Syntax Runtime RuntimeSpec ExportFacts Ref ConfRef PageSpec PageSamples OperSpec
  TmplSpec TmplParse TmplExpr TmplDoc TmplCheck TmplSamples TmplProofs BookSpec TmplBook BookProofs MoreSpec MoreFacts MoveSpec MoveProofs.
Import ListNotations.
Local Open Scope string_scope.
Local Open Scope list_scope.

(** The script with the definitions and the script that imports them from the script [p], which consists of them, give
    the same, if no variable that definitions can see is assigned by the template or given by the context. *)
Theorem C69_moved : forall (W : Type) (E : env W) (P : prims W) Q X known b lim lib dir d names vals vars p ds k0 doc j n k tags args ctx f package m,
  book_runtime E P Q X known vars b lib dir n k m -> called_with tags args ctx ->
  Forall2 (fun x v => dget str_eqb (VAR x) ctx = Some v) names vals ->
  blank_text b -> plain_symbols X (source_text b names (Source [] ds doc j)) -> plain_symbols X (source_text b names (Source [(p, defined ds)] [] doc j)) ->
  List.length (defined ds) + (lim + S d * most lib) <= n -> S d <= k -> in_folder dir f ->
  (forall x, In x names -> id_name x = true) ->
  source_ok b known (names ++ map fst vars) (Source [] ds doc j) -> source_ok b known (names ++ map fst vars) (Source [(p, defined ds)] [] doc j) ->
  find_source p lib = Some (Source [] ds [] k0) -> Forall tight ds ->
  (forall x, In x (names ++ flat_map writes doc) -> ~ In x (map fst vars)) ->
  inst_source Q b lim (exports Q b lim lib vars (S d)) (combine names vals ++ vars) (Source [(p, defined ds)] [] doc j) <> Open ->
  same_outcome (fst (render_script E P n (S k) tags args (source_text b names (Source [(p, defined ds)] [] doc j)) (Some f) package m))
    (fst (render_script E P n (S k) tags args (source_text b names (Source [] ds doc j)) (Some f) package m)).
Proof. exact book_moved. Qed.
Print Assumptions C69_moved.

Example C69_sources : source_ok (u " ") html_known ([u "title"] ++ map fst sample_vars) pair_here /\ source_ok (u " ") html_known ([u "title"] ++ map fst sample_vars) pair_moved.
Proof. split; apply source_okb_ok; vm_compute; reflexivity. Qed.
Example C69_symbols : plain_symbols conf_lexicon (source_text (u " ") [u "title"] pair_here) /\ plain_symbols conf_lexicon (source_text (u " ") [u "title"] pair_moved).
Proof. split; apply conf_symbols; vm_compute; reflexivity. Qed.
Example C69_found : find_source (u "shared") sample_lib = Some (Source [] shared_defs [] 0) /\ Forall tight shared_defs.
Proof. split; [vm_compute; reflexivity|]. repeat constructor. Qed.
Example C69_apart : forall x, In x ([u "title"] ++ flat_map writes pair_doc) -> ~ In x (map fst sample_vars).
Proof.
  intros x H K. assert (B : forallb (fun x => negb (existsb (str_eqb x) (map fst sample_vars))) ([u "title"] ++ flat_map writes pair_doc) = true) by (vm_compute; reflexivity).
  rewrite forallb_forall in B. specialize (B x H). apply negb_true_iff in B. assert (C : existsb (str_eqb x) (map fst sample_vars) = true) by (apply existsb_exists; exists x; split; [exact K|apply str_eqb_refl]).
  rewrite B in C. discriminate C.
Qed.
Example C69_bounds : List.length (defined shared_defs) + (30 + 1 * most sample_lib) <= 40 /\ 1 <= 4.
Proof. split; apply Nat.leb_le; vm_compute; reflexivity. Qed.
Example C69_texts : source_text (u " ") [u "title"] pair_here = u "context $title
%box @body size={2}
  b class={size}
    @body
-- two of them
%pair n
  box {n}
  box {len(r""abc"")}
$ size = 4
p
  pair {size}

box
  | {title}" /\ source_text (u " ") [u "title"] pair_moved = u "context $title
from .shared import %box, %pair
$ size = 4
p
  pair {size}

box
  | {title}".
Proof. split; vm_compute; reflexivity. Qed.
Example C69_html : spec_book 1 [u "title"] [VStr (u "Menu")] pair_moved = Is (u "<p>
  <b class=""4""></b>
  <b class=""3""></b>
</p>

<b class=""2"">
  Menu
</b>").
Proof. vm_compute. reflexivity. Qed.
Example C69_run : same_outcome (model_book [u "title"] [VStr (u "Menu")] pair_moved) (model_book [u "title"] [VStr (u "Menu")] pair_here).
Proof. left. eexists. split; vm_compute; reflexivity. Qed.
(** The condition on variables is needed: after [$ len = 3] a definition of the script itself sees the 3, an imported one
    does not. *)
Example C69_assigned : let doc := [TSet 0 [u "len"] (num "3"); TUse 0 (u "pair", [GBraced (num "1")], []) None] in
  model_book [u "title"] [VStr (u "Menu")] (Source [(u "shared", defined shared_defs)] [] doc 0) = Done (u "<b class=""1""></b>
<b class=""3""></b>") /\
  model_book [u "title"] [VStr (u "Menu")] (Source [] shared_defs doc 0) = Exc TypeError.
Proof. split; vm_compute; reflexivity. Qed.
