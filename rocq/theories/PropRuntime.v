(** Properties C46-C48: modules, exported symbols and the dynamic context. *)
From Coq Require Import List NArith ZArith Bool Lia Arith String.
From Verif Require Import PyStr PyStrFacts Html PyDict Structs StructsSpec Value Dom Ast Machine Eval Translate Analyse Paths Runtime RuntimeSpec
  MachineFacts ScopeSpec FrameFacts ScopeFacts NamesFacts LocalFacts RuntimeFacts ContextFacts ExportFacts ImportFacts Ref Samples RuntimeSamples RuntimeProofs PyModuleFacts.
Import ListNotations.
Local Open Scope list_scope.

(** ** C46: loaders *)

(** An import gives the module of the first loader that knows the path; the loaders before it have been
    asked, in order, and those after it have not. [run]: translation of an imported script. *)
Theorem C46_first_loader : forall W (E : env W) run path r m md m',
  import_module E run path r m = (Done md, m') <->
  path <> [] /\ exists l1 k l2 m1, e_loaders E = l1 ++ k :: l2 /\ none_of (map (load E run) l1) path r m m1 /\
    load E run k path r m1 = (Done (Some md), m').
Proof. exact (@import_found). Qed.
Print Assumptions C46_first_loader.
(** If no loader knows the module, the import fails with an error of its own kind. *)
Theorem C46_missing : forall W (E : env W) run path r m m', path <> [] ->
  none_of (map (load E run) (e_loaders E)) path r m m' -> import_module E run path r m = (Exc ModuleNotFound, m').
Proof. exact (@import_missing). Qed.
Print Assumptions C46_missing.

(** A Python module that has been imported is never imported again, whatever happens in between and
    whichever way it is referred to; the same holds of a module that was not found. *)
Theorem C46_python_once : forall W (E : env W) P path r m x m' m'' l path' r',
  make_absolute path (r_package r) = Ok (Some l) -> load_py E path r m = (Done x, m') -> history E P m' m'' ->
  make_absolute path' (r_package r') = Ok (Some l) -> load_py E path' r' m'' = (Done x, m'').
Proof. exact (@python_once). Qed.
Print Assumptions C46_python_once.

(** A script of the current folder imported by its name is read and translated at most once. *)
Theorem C46_script_once_partial : forall W (E : env W) P run run' path r r' cwd l m x m' m'',
  e_resolve E = None -> ~ In DOT path -> (forall h w, e_cwd E h w = (Done cwd, w)) ->
  join_path (Some cwd) (DOT :: path) SLASH script_ext = Ok (Some l) -> (forall h w, e_exists E l h w = (Done true, w)) -> l <> [] ->
  load_hy E run path r m = (Done x, m') -> history E P m' m'' ->
  exists md, load_hy E run' path r' m'' = (Done (Some md), m'').
Proof. exact (@script_once). Qed.
Print Assumptions C46_script_once_partial.
Example C46_example : let E := twice "a" in let P := ref_prims_of log in
  (e_resolve E = None /\ ~ In DOT (u "a") /\ (forall h w, e_cwd E h w = (Done (u "/w"), w)) /\
   join_path (Some (u "/w")) (DOT :: u "a") SLASH script_ext = Ok (Some (u "/w/a.hy")) /\ (forall h w, e_exists E (u "/w/a.hy") h w = (Done true, w))) /\
  (exists md m', load_hy E (run_script E P 20 3 [] []) (u "a") root_module mach_log = (Done (Some md), m') /\ m_world m' = [u "/w/a.hy"]) /\
  demo_text E 3 [] [] "/w/main.hy" = (Done (u "1" ++ [NL] ++ u "2"), [u "/w/a.hy"]) /\
  demo_text twice_py 3 [] [] "/w/main.hy" = (Done (u "5"), [u "/w/a.hy"; u "m"]) /\
  (exists md m', load_py twice_py (u "m") root_module mach_log = (Done (Some md), m')) /\
  none_of (map (load E (run_script E P 20 3 [] [])) (e_loaders E)) (u "b") root_module mach_log
    (Mach [] [] [] 0 {| rt_hy := []; rt_py := [(u "b", None)]; rt_builtins := None |} []).
Proof.
  cbv zeta. split.
  { split; [reflexivity|]. split; [intros [H|[]]; discriminate H|]. split; [reflexivity|]. split; [vm_compute; reflexivity|]. intros h w. reflexivity. }
  split; [eexists _, _; split; [vm_compute; reflexivity|vm_compute; reflexivity]|].
  split; [vm_compute; reflexivity|]. split; [vm_compute; reflexivity|]. split; [eexists _, _; vm_compute; reflexivity|].
  exists mach_log. split; [vm_compute; reflexivity|]. eexists. split; [vm_compute; reflexivity|]. reflexivity.
Qed.

(** Otherwise scripts are read again: the cache of HyLoader is not looked up for relative paths, nor for
    scripts of Python packages and of the folder of the referrer (core/runtime.py 233-271), and every name
    in the list of an import block is a separate import (core/ast.py 698-702, 690-692).
      from .a import $x, $y                                                                          *)
Theorem C46_reloaded_refuted : exists E out, fst (demo_text E 3 [] [] "/w/main.hy") = Done out /\
  snd (demo_text E 3 [] [] "/w/main.hy") = [u "/w/a.hy"; u "/w/a.hy"].
Proof. exact c46_reloaded_refuted. Qed.
Print Assumptions C46_reloaded_refuted.
(** The module enters the cache after its translation only: a script that imports itself is translated
    without end (in Python: RecursionError), for every bound [k] on nested imports. *)
Theorem C46_circular_refuted : exists (E : env log) script, forall k,
  fst (run_script E (ref_prims_of log) 20 k [] [] script (Some script) None
         (Mach [] [] [] 0 {| rt_hy := []; rt_py := []; rt_builtins := Some [] |} [])) = Fuel.
Proof. exact c46_circular_refuted. Qed.
Print Assumptions C46_circular_refuted.
(** Finding: a script in a subfolder of the current folder cannot be imported unless the folder is a Python
    package: the error of importlib is not caught (core/runtime.py 248-259), although the documentation of
    HyLoader says that folders need not be packages. *)
Theorem C46_folder_refuted : exists E, e_exists E (u "/w/d/a.hy") [] [] = (Done true, []) /\
  join_path (Some (u "/w")) (DOT :: u "d.a") SLASH script_ext = Ok (Some (u "/w/d/a.hy")) /\
  demo_text E 3 [] [] "/w/main.hy" = (Exc ModuleNotFound, []).
Proof. exact c46_folder_refuted. Qed.
Print Assumptions C46_folder_refuted.
Example C46_package : demo_text (subfolder [("d", "/w/d/__init__.py")]%string) 3 [] [] "/w/main.hy" = (Done (u "1"), [u "/w/d/a.hy"]).
Proof. vm_compute. reflexivity. Qed.
(** Finding: if the import of built-in symbols fails, the next script is translated without them: the
    dictionary is installed before it is filled (core/runtime.py 335-341). *)
Theorem C46_builtins_refuted : exists E e md m1 m2, demo_run E 3 "/w/main.hy" mach_log = (Exc e, m1) /\ demo_run E 3 "/w/main.hy" m1 = (Done md, m2).
Proof. exact c46_builtins_refuted. Qed.
Print Assumptions C46_builtins_refuted.

(** The condition of C33 on imports holds of the runtime, provided that the parser gives documents whose
    names are not linked yet. *)
Theorem C33_runtime_partial : forall W (E : env W) P n k r, (forall t d, e_parse E t = Ok d -> Forall raw_item d) ->
  import_fine (fun path => import_module E (run_script E P n k [] []) path r).
Proof. intros W E P n k r RAW. exact (import_fine_runtime E P RAW n k r). Qed.
Print Assumptions C33_runtime_partial.
Example C33_runtime_example : forall t d, e_parse (twice "a") t = Ok d -> Forall raw_item d.
Proof.
  intros t d H. cbn [e_parse twice demo] in H. unfold demo_parse in H. cbn [List.find fst] in H.
  destruct (str_eqb (u "/w/main.hy") t); [injection H as <-; repeat constructor|].
  destruct (str_eqb (u "/w/a.hy") t); [injection H as <-; repeat constructor|]. discriminate.
Qed.

(** ** C47: exported symbols *)

(** A script that was translated exports pairwise different symbols, all of them defined or imported at its
    top level; conversely every such symbol which is not the name of a built-in is exported, if it has a
    value at the end. The value is that of the slot to which the name would refer at the end of the script.
    [adds_item]: the symbols that a block adds to its surroundings, see ScopeSpec.v. *)
Theorem C47_exported_partial : forall W (im : str -> M W module) context modules J (P : prims W) n globals d m root symbols s m',
  modules_are im modules J -> steady J -> J m -> Forall no_for_else_item d ->
  translate im context P n globals d m = (Done (root, symbols, s), m') ->
  exists c, at_end im context globals d m c /\ NoDup (map fst symbols) /\ incl (map fst symbols) (flat_map (adds_item modules) d) /\
    forall y, In y (map fst symbols) \/ In y (flat_map (adds_item modules) d) /\ ~ In y (map fst globals) ->
      exists i, c_get c y = Some i /\ dget str_eqb y symbols = slot_value m' s (sl_id i).
Proof.
  intros W im context modules J P n globals d m root symbols s m' MOD ST.
  exact (exports_spec im context modules J MOD ST P n globals d m root symbols s m').
Qed.
Print Assumptions C47_exported_partial.
(** A wildcard import brings the symbols whose name does not begin with an underscore, and leaves all other
    names alone. *)
Theorem C47_wildcard : forall W (im : str -> M W module) path o c m i' c' m', sound c ->
  an_import im path (IWild o) c m = (Done (i', c'), m') ->
  exists md m1, im path m = (Done md, m1) /\
    (NoDup (map fst (mod_symbols md)) ->
     (forall y, underscored y \/ dget str_eqb y (mod_symbols md) = None -> c_get c' y = c_get c y) /\
     (forall y v, ~ underscored y -> dget str_eqb y (mod_symbols md) = Some v ->
        exists i v', c_get c' y = Some i /\ imported md y v = Ok v' /\
          forall s mr, s < List.length (m_states mr) -> exists mr', tr_import (W := W) s i' mr = (Done tt, mr') /\ slot_value mr' s (sl_id i) = Some v')).
Proof. exact (@wildcard_spec). Qed.
Print Assumptions C47_wildcard.
Example C47_example :
  modules_are find_m names_m any_machine /\ steady (W := unit) any_machine /\ Forall no_for_else_item exporting /\
  flat_map (adds_item names_m) exporting = [u "$x"; u "%h"; u "$y"; u "$z"] /\
  exists root s m' h, translate find_m [] ref_prims 20 [gp] exporting mach0 = (Done (root, [(u "$x", VInt 5); (u "%h", h); (u "$y", VInt 2)], s), m').
Proof.
  split; [apply find_m_modules|]. split; [apply any_steady|]. split; [repeat constructor|]. split; [vm_compute; reflexivity|].
  do 4 eexists. vm_compute. reflexivity.
Qed.
Example C47_example_wildcard : exists i' c' m', an_import find_m (u "m") (IWild None) new_ctx mach0 = (Done (i', c'), m') /\ sound new_ctx /\
  NoDup (map fst (mod_symbols md_m)) /\ underscored (u "$_x") /\ ~ underscored (u "$x").
Proof.
  do 3 eexists. split; [vm_compute; reflexivity|]. split; [apply sound_new|]. split; [|split].
  - repeat constructor; cbn; intros H; repeat destruct H as [H|H]; try discriminate; exact H.
  - exists 36%N, (u "x"). reflexivity.
  - intros (a & r & H). discriminate H.
Qed.
(** A variable of the top level that has the name of a built-in takes over the slot of the built-in
    (core/ast.py 1393-1398) and is not exported (2042-2043).
      $ x = 2                                                                                        *)
Theorem C47_refuted : exists globals d root symbols s m', d = [assigns "x" 2] /\ In (u "$x") (flat_map (adds_item (fun _ => None)) d) /\
  translate no_import [] ref_prims 20 globals d mach0 = (Done (root, symbols, s), m') /\ symbols = [] /\
  slot_value m' s 0 = Some (VInt 2) /\ map fst globals = [u "$x"].
Proof. exact c47_refuted. Qed.
Print Assumptions C47_refuted.

(** The symbols of a Python module: a variable for each of its attributes, a tag for each item of __tags__, no others. *)
Theorem C47_python_symbols : forall p md, py_module p = Ok md -> NoDup (map fst (py_dir p)) -> NoDup (map (fun nt => marked_tag (fst nt)) (py_tags p)) ->
  (forall x v, In (x, v) (py_dir p) -> dget str_eqb (36%N :: x) (mod_symbols md) = Some v) /\
  (forall n t, In (n, t) (py_tags p) -> dget str_eqb (marked_tag n) (mod_symbols md) = Some (VTag t)) /\
  (forall y v, dget str_eqb y (mod_symbols md) = Some v ->
    (exists x, y = 36%N :: x /\ In (x, v) (py_dir p)) \/ exists n t, y = marked_tag n /\ v = VTag t /\ In (n, t) (py_tags p)).
Proof. exact python_symbols. Qed.
Print Assumptions C47_python_symbols.
(** A Python module is accepted if its tags are registered by their own names, and only then. *)
Theorem C47_python_names : forall p, (exists md, py_module p = Ok md) <-> forall n t, In (n, t) (py_tags p) -> n = t_name t /\ n <> [].
Proof. exact python_loaded. Qed.
Print Assumptions C47_python_names.
Example C47_python_example : let t (n : string) := Tag 1 (u n) (KMarkup false HTML) in
  let p := {| py_file := None; py_package := None; py_dir := [(u "a", VInt 1); (u "_b", VInt 2)]; py_tags := [(u "a", t "a"%string); (u "%c", t "%c"%string)] |} in
  (exists md, py_module p = Ok md /\ map fst (mod_symbols md) = map u ["$a"; "$_b"; "%a"; "%c"]%string) /\
  NoDup (map fst (py_dir p)) /\ NoDup (map (fun nt => marked_tag (fst nt)) (py_tags p)) /\
  py_module {| py_file := None; py_package := None; py_dir := []; py_tags := [(u "b", t "a"%string)] |} = Raise ImportError.
Proof. split; [eexists; split; reflexivity|]. split; [repeat constructor; cbn; intuition discriminate|]. split; [repeat constructor; cbn; intuition discriminate|reflexivity]. Qed.

(** ** C48: the dynamic context *)

(** Symbols that the script does not declare have no influence at all. *)
Theorem C48_undeclared : forall W (im : str -> M W module) context context' (P : prims W) n globals d m,
  (forall y, In y (declared d) -> dget str_eqb y context = dget str_eqb y context') ->
  translate im context P n globals d m = translate im context' P n globals d m.
Proof. intros W im context context' P n globals d m. exact (document_same im context context' P n globals d m). Qed.
Print Assumptions C48_undeclared.
(** If a declared symbol is missing, the script is not translated. *)
Theorem C48_missing : forall W (im : str -> M W module) context (P : prims W) n globals d m y,
  In y (declared d) -> dget str_eqb y context = None -> forall r, fst (translate im context P n globals d m) <> Done r.
Proof. intros W im context P n globals d m y. exact (document_missing im context P n globals d m y). Qed.
Print Assumptions C48_missing.
(** The symbols declared by the context block at the beginning of a script behave like global symbols with
    the values of the context. *)
Theorem C48_declared : forall W (im : str -> M W module) context (P : prims W) n globals md l g d m,
  bound_by context l = Some g ->
  without_symbols (translate im context P n globals (NBlock [] md (BContext l) :: d) m) =
  without_symbols (translate im context P n (globals ++ g) d m).
Proof. intros W im context P n globals md l g d m. exact (context_globals im context P n globals md l g d m). Qed.
Print Assumptions C48_declared.
(** The context consists of the variables and tags passed by the caller; marks are imputed. *)
Theorem C48_values : forall tags vars context, make_context tags vars = Ok context ->
  forall y, dget str_eqb y context = context_value tags vars y.
Proof. exact make_context_value. Qed.
Print Assumptions C48_values.
Theorem C48_context : forall tags vars, (forall n v, In (n, v) (tags ++ vars) -> n <> []) -> exists context, make_context tags vars = Ok context.
Proof. exact make_context_total. Qed.
Print Assumptions C48_context.
(** The same for calls of render(): values the script does not ask for have no influence, whatever their names are, apart
    from those of parameters. *)
Theorem C48_render_partial : forall W (E : env W) (P : prims W) n k tags args ctx tags' args' ctx' script file package m,
  called_with tags args ctx -> called_with tags' args' ctx' ->
  (forall d, e_parse E script = Ok d -> forall y, In y (declared d) -> dget str_eqb y ctx = dget str_eqb y ctx') ->
  render_script E P n k tags args script file package m = render_script E P n k tags' args' script file package m.
Proof. exact render_undeclared. Qed.
Print Assumptions C48_render_partial.
Example C48_called : called_with [] [] [] /\ called_with [] [(u "x", VInt 3)] [(u "$x", VInt 3)].
Proof. split; (split; [apply args_okb_ok; vm_compute; reflexivity|reflexivity]). Qed.
(** Finding: a value named like a parameter of render() or of the functions it passes the values on to (core/runtime.py
    362, 117) is refused, although the script does not ask for it: no such call ever gives a page. *)
Theorem C48_names : forall W (E : env W) (P : prims W) n k tags args script file package m x v,
  In (x, v) args -> In x param_names -> forall s m', render_script E P n k tags args script file package m <> (Done s, m').
Proof. exact names_refused. Qed.
Print Assumptions C48_names.
Theorem C48_names_refuted : exists (E : env log) script, declared script = [] /\ e_parse E (u "/w/main.hy") = Ok script /\
  fst (demo_text E 3 [] [] "/w/main.hy") = Done (u "1" ++ [NL] ++ u "2") /\
  forall x, In x (map u ["self"; "builtins"; "__builtins__"; "__script__"]%string) -> fst (demo_text E 3 [] [(x, VInt 7)] "/w/main.hy") = Exc TypeError.
Proof. exact c48_names_refuted. Qed.
Print Assumptions C48_names_refuted.
Example C48_example :
  in_context [(u "p", html_tag 4 "p")] [(u "x", VInt 3)] = Done (u "<p>3</p>") /\
  in_context [(u "p", html_tag 4 "p")] [(u "x", VInt 3); (u "y", VInt 4); (u "$x", VInt 5)] = Done (u "<p>5</p>") /\
  in_context [] [(u "x", VInt 3)] = Exc ImportError /\ in_context [(u "p", html_tag 4 "p")] [(u "y", VInt 3)] = Exc ImportError /\
  declared contextual = [u "$x"; u "%p"] /\
  context_value [(u "p", html_tag 4 "p")] [(u "x", VInt 3); (u "y", VInt 4); (u "$x", VInt 5)] (u "$x") = Some (VInt 5) /\
  bound_by [(u "%p", html_tag 4 "p"); (u "$x", VInt 3)] [IName (u "$x") None None; IName (u "%p") (Some (u "q")) None] =
    Some [(u "$x", VInt 3); (u "%q", html_tag 4 "p")].
Proof. repeat (split; [vm_compute; reflexivity|]). vm_compute. reflexivity. Qed.
