(** Properties C33-C36 and C38: scopes. *)
From Coq Require Import List NArith ZArith Bool Lia Arith String.
From Verif Require Import PyStr Html PyDict Structs StructsSpec Value Dom Ast Machine Eval Translate Analyse
  MachineFacts ScopeSpec FrameFacts ScopeFacts NamesFacts LocalFacts ShareFacts Ref Samples ScopeProofs.
Import ListNotations.
Local Open Scope list_scope.

(** ** C33: variables of a tagged block *)

(** After a tagged block every name means what it meant before: assigned variables are new ones, not
    accessible after the block. The values of variables visible before the block do not change, except
    for those a hypertag definition assigns, which happens only inside of that definition. *)
Theorem C33_block_partial : forall W (import_module : str -> M W module) context c m tags y b' c' m',
  import_fine import_module -> context_ok c m -> raw_body y ->
  an_block import_module context (BStruct tags y) c m = (Done (b', c'), m') ->
  (forall z, c_get c' z = c_get c z) /\
  forall (P : prims W) n loops s mr o mr' z i s0, c_get c z = Some i -> unwritten (sl_id i) (m_defs mr) ->
    tr_block P (expand_n P n) loops s b' mr = (o, mr') -> o <> Fuel ->
    slot_value mr' s0 (sl_id i) = slot_value mr s0 (sl_id i).
Proof.
  intros W import_module context c m tags y b' c' m' IMP (I & F & K) RW E.
  exact (struct_local import_module context IMP c m tags y b' c' m' I F K RW E).
Qed.
Print Assumptions C33_block_partial.
(** Without exceptions for all tagged blocks of a document outside of definitions. *)
Theorem C33_document_partial : forall W (import_module : str -> M W module) context globals d1 mg md tags y d2 m a m',
  import_fine import_module -> Forall raw_item (d1 ++ NBlock mg md (BStruct tags y) :: d2) -> old_defs m ->
  an_document import_module context globals (d1 ++ NBlock mg md (BStruct tags y) :: d2) m = (Done a, m') ->
  exists ins c0 m0 l1 c1 m1 b c2 m2 l2,
    enter_globals globals new_ctx m = (Done (ins, c0), m0) /\
    amap (an_item import_module context) d1 c0 m0 = (Done (l1, c1), m1) /\
    an_item import_module context (NBlock mg md (BStruct tags y)) c1 m1 = (Done (b, c2), m2) /\
    d_items a = l1 ++ b :: l2 /\ (forall z, c_get c2 z = c_get c1 z) /\
    forall (P : prims W) n loops s mr o mr' z i s0, m_defs mr = m_defs m' -> c_get c1 z = Some i ->
      tr_item P (expand_n P n) loops s b mr = (o, mr') -> o <> Fuel ->
      slot_value mr' s0 (sl_id i) = slot_value mr s0 (sl_id i).
Proof. intros W import_module context globals d1 mg md tags y d2 m a m' IMP. exact (document_local import_module context IMP globals d1 mg md tags y d2 m a m'). Qed.
Print Assumptions C33_document_partial.
Example C33_example :
  script_text [gp] (local_vars ++ [blk (text_of (name "v"))]) = Done (u "<p>" ++ [NL] ++ u "    23" ++ [NL] ++ u "</p>" ++ [NL] ++ u "1") /\
  script_text [gp] (local_vars ++ [blk (text_of (name "w"))]) = Exc NameError /\
  Forall raw_item (local_vars ++ [blk (text_of (name "v"))]) /\ old_defs mach0.
Proof.
  split; [vm_compute; reflexivity|]. split; [vm_compute; reflexivity|]. split; [repeat constructor|intros h x []].
Qed.
(** Finding: inside of a definition the claim is false: all expansions of a hypertag share their variables, so a
    tagged block that expands the hypertag again changes them (script [reentry]). *)
Theorem C33_refuted : exists globals d, d = reentry /\
  script_text globals d = Done (u "1" ++ [NL] ++ u "<p>" ++ [NL] ++ u "    0" ++ [NL] ++ u "    <p></p>" ++ [NL] ++ u "    0" ++ [NL] ++ u "</p>" ++ [NL] ++ u "0").
Proof. exact c33_refuted. Qed.
Print Assumptions C33_refuted.

(** ** C34: control blocks *)
(** Finding: inside of a tagged block, a variable of the surroundings assigned in a control block keeps its old
    value after the control block (script [lost_assignment]). *)
Theorem C34_refuted : exists globals d, d = lost_assignment if_assign /\
  script_text globals d = Done (u "<p>" ++ [NL] ++ u "    1" ++ [NL] ++ u "</p>").
Proof. exact c34_refuted. Qed.
Print Assumptions C34_refuted.
Example C34_without_if : script_text [gp] (lost_assignment [blk (BAssign (def_ "x") None (lit 2))]) =
  Done (u "<p>" ++ [NL] ++ u "    2" ++ [NL] ++ u "</p>").
Proof. vm_compute. reflexivity. Qed.

(** For variables not inherited from outside of the tagged block - new ones or variables of the same
    block: all assignments in the control block, in whichever branch, write the slot that the name refers
    to after the block. Missing: variables of outer blocks, for which it is false. *)
Theorem C34_block_partial : forall W (import_module : str -> M W module) context n c m b b' c' m' x,
  import_fine import_module -> context_ok c m -> c_prolog c = false -> raw_block b -> is_control b = true ->
  (forall i, c_get c (var_symbol n) = Some i -> sl_depth i = c_regular c) ->
  an_block import_module context b c m = (Done (b', c'), m') -> In (n, x) (binds b') ->
  exists i, c_get c' (var_symbol n) = Some i /\ sl_id i = x.
Proof. exact c34_block_partial. Qed.
Print Assumptions C34_block_partial.
(** In particular for all control blocks outside of tagged blocks and definitions. *)
Theorem C34_document_partial : forall W (import_module : str -> M W module) context globals d1 mg md b d2 m a m',
  import_fine import_module -> Forall raw_item (d1 ++ NBlock mg md b :: d2) -> old_defs m -> is_control b = true ->
  an_document import_module context globals (d1 ++ NBlock mg md b :: d2) m = (Done a, m') ->
  exists ins c0 m0 l1 c1 m1 b' c2 m2 l2,
    enter_globals globals new_ctx m = (Done (ins, c0), m0) /\
    amap (an_item import_module context) d1 c0 m0 = (Done (l1, c1), m1) /\
    an_item import_module context (NBlock mg md b) c1 m1 = (Done (b', c2), m2) /\
    d_items a = l1 ++ b' :: l2 /\
    forall n x, In (n, x) (binds_item b') -> exists i, c_get c2 (var_symbol n) = Some i /\ sl_id i = x.
Proof. intros W import_module context globals d1 mg md b d2 m a m' IMP. exact (document_shared import_module context IMP globals d1 mg md b d2 m a m'). Qed.
Print Assumptions C34_document_partial.
Example C34_example : script_text [gp] shared_vars = Done (u "46") /\
  exists a m', an_document no_import [] [gp] shared_vars mach0 = (Done a, m') /\
    flat_map binds_item (skipn 1 (d_items a)) = [(u "y", 2); (u "x", 1); (u "x", 1); (u "y", 2)].
Proof. split; [vm_compute; reflexivity|]. eexists _, _. split; vm_compute; reflexivity. Qed.

(** ** C35: undefined names *)

(** A script that violates the scoping rules is rejected, and nothing happens before that but imports of
    modules: no node and no state is created and no Python function called. The rules are stated in
    ScopeSpec.v. [J]: a condition on the machine (its caches) under which exactly the given modules can be
    imported. *)
Theorem C35_undefined_partial : forall W (import_module : str -> M W module) context modules J (P : prims W) n globals d m,
  modules_are import_module modules J -> steady J -> J m ->
  Forall no_for_else_item d -> ~ scoped_items modules (map fst context) true (map fst globals) d ->
  exists e m', translate import_module context P n globals d m = (Exc e, m') /\ imports_only import_module m m'.
Proof.
  intros W import_module context modules J P n globals d m MOD ST.
  exact (undefined_imports import_module context modules J MOD ST P n globals d m).
Qed.
Print Assumptions C35_undefined_partial.
(** If the imported modules are there already: nothing at all. *)
Theorem C35_nothing_done_partial : forall W (import_module : str -> M W module) context modules J (P : prims W) n globals d m,
  modules_are import_module modules J -> steady J -> J m -> (forall p, pres idle (import_module p)) ->
  Forall no_for_else_item d -> ~ scoped_items modules (map fst context) true (map fst globals) d ->
  exists e m', translate import_module context P n globals d m = (Exc e, m') /\
    m_heap m' = m_heap m /\ m_states m' = m_states m /\ m_world m' = m_world m.
Proof. exact c35_nothing_done. Qed.
Print Assumptions C35_nothing_done_partial.
(** In a script that satisfies them every name is linked with a slot. *)
Theorem C35_defined_partial : forall W (import_module : str -> M W module) context modules J globals d m,
  modules_are import_module modules J -> steady J -> J m -> Forall no_for_else_item d ->
  scoped_items modules (map fst context) true (map fst globals) d ->
  exists a m', an_document import_module context globals d m = (Done a, m') /\ Forall linked_item (d_items a).
Proof. exact c35_defined. Qed.
Print Assumptions C35_defined_partial.
Example C35_example :
  script_text [gp] (unreached "y") = Exc NameError /\ script_text [gp] (unreached "x") = Exc ValueError /\
  ~ scoped_items (fun _ => None) [] true (map fst [gp]) (unreached "y") /\
  scoped_items (fun _ => None) [] true (map fst [gp]) (unreached "x") /\
  Forall no_for_else_item (unreached "x") /\ Forall no_for_else_item (unreached "y").
Proof.
  split; [vm_compute; reflexivity|]. split; [vm_compute; reflexivity|].
  assert (NF : forall n, Forall no_for_else_item (unreached n)) by (intros n; repeat constructor).
  split; [|split; [|split; apply NF]].
  - intros H. assert (T := C35_defined_partial unit no_import [] (fun _ => None) any_machine [gp] (unreached "y") mach0 no_modules (any_steady _) Logic.I (NF _) H).
    destruct T as (a & m' & E & _). vm_compute in E. discriminate.
  - cbn. repeat match goal with |- _ /\ _ => split | |- True => exact Logic.I | |- incl [] _ => apply incl_nil_l | |- _ -> _ => discriminate end.
    + intros z [<-|[]]. right. left. reflexivity.
    + intros z [<-|[]]. left. reflexivity.
Qed.
(** Finding: the else clause of a for loop is not analysed at all if the loop has a body (core/ast.py 947-950):
    an undefined name stays unnoticed while the clause is not reached. *)
Theorem C35_refuted : exists d modules given globals,
  d = for_else [lit 1] /\ ~ scoped_items modules given true (map fst globals) d /\ script_text globals d = Done (u "a").
Proof. exact c35_refuted. Qed.
Print Assumptions C35_refuted.
Example C35_refuted_reached : script_text [gp] (for_else []) = Exc AttributeError.
Proof. vm_compute. reflexivity. Qed.

(** ** C36: tags and variables *)
Theorem C36_distinct : forall n k, TAG n <> VAR k /\ TAG n = tag_symbol n /\ VAR k = var_symbol k.
Proof. exact marks_differ. Qed.
Print Assumptions C36_distinct.
(** Analysis of a block changes the meaning of the symbols it adds only. *)
Theorem C36_symbols : forall W (import_module : str -> M W module) context modules J c m b b' c' m',
  modules_are import_module modules J -> steady J -> J m -> context_ok c m -> no_for_else b -> (only_prolog b = false -> c_prolog c = false) ->
  an_block import_module context b c m = (Done (b', c'), m') ->
  forall z, ~ In z (adds modules b) -> c_get c' z = c_get c z.
Proof. exact c36_symbols. Qed.
Print Assumptions C36_symbols.
(** A definition of a tag: no variable changes, neither its slot nor, at run time, its value. *)
Theorem C36_definition : forall W (import_module : str -> M W module) context modules J c m d n ab ar y b' c' m',
  import_fine import_module -> modules_are import_module modules J -> steady J -> J m -> context_ok c m -> raw_body y -> no_for_else_body y -> c_prolog c = false ->
  an_block import_module context (BDef d n ab ar y) c m = (Done (b', c'), m') ->
  forall k, c_get c' (var_symbol k) = c_get c (var_symbol k) /\
  forall (P : prims W) expand loops s mr o mr' i s0, c_get c (var_symbol k) = Some i ->
    tr_block P expand loops s b' mr = (o, mr') -> slot_value mr' s0 (sl_id i) = slot_value mr s0 (sl_id i).
Proof. exact c36_definition. Qed.
Print Assumptions C36_definition.
(** An assignment: the meaning of all tags stays. *)
Theorem C36_assignment : forall W (import_module : str -> M W module) context c m ts o e b' c' m',
  context_ok c m -> c_prolog c = false ->
  an_block import_module context (BAssign ts o e) c m = (Done (b', c'), m') ->
  forall k, c_get c' (tag_symbol k) = c_get c (tag_symbol k).
Proof. exact c36_assignment. Qed.
Print Assumptions C36_assignment.
(** At run time no block changes the value of a tag defined before it, whatever variables it assigns. *)
Theorem C36_tags_kept : forall W (import_module : str -> M W module) context c m b b' c' m',
  import_fine import_module -> context_ok c m -> raw_block b ->
  an_block import_module context b c m = (Done (b', c'), m') ->
  forall (P : prims W) n loops s mr o mr' k i s0, c_get c (tag_symbol k) = Some i -> unwritten (sl_id i) (m_defs mr) ->
    tr_block P (expand_n P n) loops s b' mr = (o, mr') -> o <> Fuel ->
    slot_value mr' s0 (sl_id i) = slot_value mr s0 (sl_id i).
Proof.
  intros W import_module context c m b b' c' m' IMP (I & F & K).
  exact (tags_kept import_module context IMP c m b b' c' m' I F K).
Qed.
Print Assumptions C36_tags_kept.
Example C36_example : script_text [gp] same_name = Done (u "5" ++ [NL] ++ u "6").
Proof. vm_compute. reflexivity. Qed.

(** ** C38: expansions of hypertags *)
(** Finding: local variables survive: the second expansion sees the variable of the first one (script [leaking]). *)
Theorem C38_refuted : exists globals d1 d2,
  d1 = [leaking; call_H 0] /\ d2 = [leaking; call_H 1; call_H 0] /\
  script_text globals d1 = Exc UnboundLocalError /\ script_text globals d2 = Done (u "5" ++ [NL] ++ u "5").
Proof. exact c38_refuted. Qed.
Print Assumptions C38_refuted.
(** An expansion changes nothing outside: every slot that is not a variable of a hypertag definition
    keeps its value. Missing: independence of the result from the variables of earlier expansions, which
    is false in general. *)
Theorem C38_outside_partial : forall W (P : prims W) n h body attrs kw s m o m',
  expand_n P n h body attrs kw s m = (o, m') -> o <> Fuel ->
  forall s0 x, unwritten x (m_defs m) -> slot_value m' s0 x = slot_value m s0 x.
Proof. intros W P n h body attrs kw s m o m' E N s0 x U. exact (proj2 (frame_expand P s0 x n h body attrs kw s m o m' E N U)). Qed.
Print Assumptions C38_outside_partial.
Example C38_example : exists m',
  expand_n ref_prims 10 (HDef 0) (VDom []) [VInt 3] [] 0
    (Mach [] [{| s_vals := [(7, VInt 1)]; s_indent := [NL] |}]
       [ {| h_name := u "H"; h_body := None; h_regul := [(u "c", None, 2)];
            h_block := body_in 4 [blk (BAssign (into 3) None (lit 5)); shown (var 2); shown (var 7)] |} ]
       100 {| rt_hy := []; rt_py := []; rt_builtins := None |} tt) = (Done [2], m') /\
  slot_value m' 0 7 = Some (VInt 1) /\ slot_value m' 0 3 = Some (VInt 5) /\ texts_of m' = [u "3"; u "1"].
Proof. eexists. split; [vm_compute; reflexivity|]. split; [reflexivity|]. split; reflexivity. Qed.
