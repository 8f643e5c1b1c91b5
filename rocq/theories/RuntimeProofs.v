(** Proofs and sample data of the theorems in PropRuntime.v. *)
From Coq Require Import List NArith ZArith Bool Lia Arith String.
From Verif Require Import PyStr PyStrFacts Html PyDict Structs StructsSpec Value Dom Ast Machine Eval Translate Analyse Paths Runtime RuntimeSpec
  MachineFacts ScopeSpec FrameFacts ScopeFacts NamesFacts LocalFacts RuntimeFacts ContextFacts ExportFacts ImportFacts Ref Samples RuntimeSamples.
Import ListNotations.
Local Open Scope list_scope.
Definition twice (path : string) : env log :=
  demo [] [("/w/main.hy", [blk (import_ path ["$x"; "$y"]); shows "x"; shows "y"]); ("/w/a.hy", [assigns "x" 1; assigns "y" 2])]%string [] [].

(** a Python module imported by two scripts *)
Definition pym : pymodule := {| py_file := None; py_package := None; py_dir := [(u "x", VInt 5)]; py_tags := [] |}.
Definition twice_py : env log :=
  demo [] [("/w/main.hy", [blk (import_ "a" ["$y"]); blk (import_ "m" ["$x"]); shows "x"]);
           ("/w/a.hy", [blk (import_ "m" ["$x"]); assigns "y" 2])]%string [] [("m", pym)]%string.

Lemma c46_reloaded_refuted : exists E out, fst (demo_text E 3 [] [] "/w/main.hy") = Done out /\
  snd (demo_text E 3 [] [] "/w/main.hy") = [u "/w/a.hy"; u "/w/a.hy"].
Proof. exists (twice ".a"), (u "1" ++ [NL] ++ u "2"). split; vm_compute; reflexivity. Qed.

Lemma c46_circular_refuted : exists (E : env log) script, forall k,
  fst (run_script E (ref_prims_of log) 20 k [] [] script (Some script) None
         (Mach [] [] [] 0 {| rt_hy := []; rt_py := []; rt_builtins := Some [] |} [])) = Fuel.
Proof. exists circular, (u "/w/a.hy"). intros k. exact (circular_fuel k [] [] [] 0 [] []). Qed.

(** A script in a subfolder of the current folder cannot be imported unless the folder is a Python
    package: the error of importlib is not caught (core/runtime.py 248-259), although the documentation of
    HyLoader says that folders need not be packages. *)
Definition subfolder (packages : list (string * string)) : env log :=
  demo [] [("/w/main.hy", [blk (import_ "d.a" ["$x"]); shows "x"]); ("/w/d/a.hy", [assigns "x" 1])]%string packages [].

Lemma c46_folder_refuted : exists E, e_exists E (u "/w/d/a.hy") [] [] = (Done true, []) /\
  join_path (Some (u "/w")) (DOT :: u "d.a") SLASH script_ext = Ok (Some (u "/w/d/a.hy")) /\
  demo_text E 3 [] [] "/w/main.hy" = (Exc ModuleNotFound, []).
Proof. exists (subfolder []). split; [|split]; vm_compute; reflexivity. Qed.

(** If the import of built-in symbols fails, the next script is translated without them: the dictionary is
    installed before it is filled (core/runtime.py 335-341). *)
Definition broken_builtins : env log := demo ["absent"%string] [("/w/main.hy", [assigns "x" 1; shows "x"])]%string [] [].

Lemma c46_builtins_refuted : exists E e md m1 m2, demo_run E 3 "/w/main.hy" mach_log = (Exc e, m1) /\ demo_run E 3 "/w/main.hy" m1 = (Done md, m2).
Proof. exists broken_builtins. do 4 eexists. split; [vm_compute; reflexivity|vm_compute; reflexivity]. Qed.

(**   from .m import *
      %h | text
      $ y = 2
      if 0
          $ z = 3
      p
          $ t = 4
    where m has the variables x and _x *)
Definition exporting : document :=
  [ blk (BImport (u "m") [IWild None]); blk (BDef None (u "h") None [] (YItems [blk (text "text")])); assigns "y" 2;
    blk (BIf [(lit 0, Some (body_in 4 [assigns "z" 3]))] None); blk (tagged "p" (body_in 4 [assigns "t" 4])) ].
Definition md_m : module := {| mod_symbols := [(u "$x", VInt 5); (u "$_x", VInt 6)]; mod_state := None; mod_dom := None; mod_file := None; mod_package := None |}.
Definition find_m (p : str) : M unit module := if str_eqb p (u "m") then ret md_m else exc ModuleNotFound.
Definition names_m (p : str) : option (list str) := if str_eqb p (u "m") then Some [u "$x"; u "$_x"] else None.
Lemma find_m_modules : modules_are find_m names_m any_machine.
Proof.
  intros p m _. unfold names_m, find_m. destruct (str_eqb p (u "m")); [|eexists _, _; reflexivity].
  exists md_m, m. split; [reflexivity|]. split; [exact Logic.I|]. split; [reflexivity|]. right. intros y v [[= <- <-]|[[= <- <-]|[]]]; exact Logic.I.
Qed.

Lemma c47_refuted : exists globals d root symbols s m', d = [assigns "x" 2] /\ In (u "$x") (flat_map (adds_item (fun _ => None)) d) /\
  translate no_import [] ref_prims 20 globals d mach0 = (Done (root, symbols, s), m') /\ symbols = [] /\
  slot_value m' s 0 = Some (VInt 2) /\ map fst globals = [u "$x"].
Proof. exists [(u "$x", VInt 1)]. do 5 eexists. split; [reflexivity|]. split; [left; reflexivity|]. split; [vm_compute; reflexivity|]. split; [reflexivity|]. split; [vm_compute; reflexivity|reflexivity]. Qed.

(**   context $x, %p as q
      q | {x}                                                                                        *)
Definition contextual : document :=
  [ blk (BContext [IName (u "$x") None None; IName (u "%p") (Some (u "q")) None]); blk (tagged "q" (YBlock (text_of (name "x")))) ].
Definition in_context (tags vars : list (str * val)) : out str :=
  fst (demo_text (demo [] [("/w/main.hy", contextual)]%string [] []) 3 tags vars "/w/main.hy").

(** ** C48: calls of render() *)
Lemma render_undeclared (W : Type) (E : env W) (P : prims W) n k tags args ctx tags' args' ctx' script file package m :
  called_with tags args ctx -> called_with tags' args' ctx' ->
  (forall d, e_parse E script = Ok d -> forall y, In y (declared d) -> dget str_eqb y ctx = dget str_eqb y ctx') ->
  render_script E P n k tags args script file package m = render_script E P n k tags' args' script file package m.
Proof.
  intros [A1 C1] [A2 C2] H. unfold render_script, mbind.
  assert (R : run_script E P n k tags args script file package m = run_script E P n k tags' args' script file package m); [|rewrite R; reflexivity].
  destruct k as [|k]; [reflexivity|]. cbn [run_script].
  rewrite !(clash_none render_params), !(clash_none module_params), !(clash_none ast_params) by (assumption || exact own_render || exact own_module || exact own_ast).
  rewrite C1, C2. cbn [of_result]. unfold mbind, ret. destruct (import_builtins _ _ m) as [[b|e|] m1]; try reflexivity.
  destruct (e_parse E script) as [d|e] eqn:Ed; [|reflexivity]. cbn [of_result]. unfold ret. rewrite (document_same _ ctx ctx' P n _ d m1 (H d eq_refl)). reflexivity.
Qed.
Lemma c48_names_refuted : exists (E : env log) script, declared script = [] /\ e_parse E (u "/w/main.hy") = Ok script /\
  fst (demo_text E 3 [] [] "/w/main.hy") = Done (u "1" ++ [NL] ++ u "2") /\
  forall x, In x (map u ["self"; "builtins"; "__builtins__"; "__script__"]%string) -> fst (demo_text E 3 [] [(x, VInt 7)] "/w/main.hy") = Exc TypeError.
Proof.
  exists (twice "a"). eexists. split; [|split; [reflexivity|]]; [vm_compute; reflexivity|]. split; [vm_compute; reflexivity|].
  intros x H. repeat (destruct H as [<-|H]; [vm_compute; reflexivity|]). destruct H.
Qed.
