(** Property C46, continued: built-in symbols, and scripts found by the function of the loader. *)
From Coq Require Import List NArith ZArith Bool String.
From Verif Require Import PyStr Html PyDict Value Dom Ast Machine Eval Translate Analyse Paths Runtime RuntimeSpec LoadSpec Ref Samples RuntimeSamples RuntimeProofs OnceSpec OnceFacts OnceSamples.
Import ListNotations.
Local Open Scope list_scope.

(** Built-in symbols that have been imported are never imported again, whatever happens in between: every later script gets the same
    ones, and nothing is asked of the loaders. *)
Theorem C46_builtins_once : forall W (E : env W) P n k run m b m' m'', import_builtins E (run_script E P n k [] []) m = (Done b, m') ->
  history E P m' m'' -> import_builtins E run m'' = (Done b, m'').
Proof. exact (@builtins_once). Qed.
Print Assumptions C46_builtins_once.
(** They are the symbols of the modules listed, of which the last one wins. *)
Theorem C46_builtins : forall W (E : env W) P n k m b m', rt_builtins (m_rt m) = None -> import_builtins E (run_script E P n k [] []) m = (Done b, m') ->
  exists mods, Forall2 (may_give E (run_script E P n k [] [])) (e_builtins E) mods /\ forall x, dget str_eqb x b = latest x mods.
Proof. exact (@builtins_from). Qed.
Print Assumptions C46_builtins.
Example C46_builtins_example :
  let E := demo ["a"; "m"]%string [("/w/main.hy", [shows "x"; shows "y"]); ("/w/a.hy", [assigns "x" 1; assigns "y" 2])]%string [] [("m"%string, pym)] in
  let main := render_script E (ref_prims_of log) 20 4 [] [] (u "/w/main.hy") (Some (u "/w/main.hy")) None in
  let text := Done (u "5" ++ [NL] ++ u "2") in
  rt_builtins (m_rt mach_log) = None /\
  (let (o, m) := import_builtins E (run_script E (ref_prims_of log) 20 3 [] []) mach_log in
     (match o with Done b => map (fun x => dget str_eqb (u x) b) ["$x"; "$y"; "$z"]%string | _ => [] end, m_world m)) =
    ([Some (VInt 5); Some (VInt 2); None], [u "/w/a.hy"; u "m"]) /\
  (let (o1, m1) := main mach_log in let (o2, m2) := main m1 in (o1, o2, m_world m2)) = (text, text, [u "/w/a.hy"; u "m"]).
Proof. cbv zeta. split; [reflexivity|]. split; vm_compute; reflexivity. Qed.
(** An empty path is refused at once. *)
Theorem C46_empty_path : forall W (E : env W) run r (m : mach W), import_module E run [] r m = (Exc AssertionError, m).
Proof. exact (@empty_path). Qed.
Print Assumptions C46_empty_path.

(** A script that the function of the loader finds is translated at most once, under whatever paths it is imported. *)
Theorem C46_resolved_once : forall W (E : env W) P g run run' path r path' r' f m x m' m'', e_resolve E = Some g ->
  path <> [] -> hd DOT path <> DOT -> path' <> [] -> hd DOT path' <> DOT ->
  answers (g path r) (Some f) -> answers (g path' r') (Some f) -> f <> [] -> answers (e_exists E f) true ->
  load_hy E run path r m = (Done x, m') -> history E P m' m'' -> exists md, load_hy E run' path' r' m'' = (Done (Some md), m'').
Proof. exact (@resolved_once). Qed.
Print Assumptions C46_resolved_once.
Example C46_resolved_example : e_resolve same_file = Some to_a /\ hd DOT (u "p") <> DOT /\ hd DOT (u "q.r") <> DOT /\
  answers (to_a (u "p") root_module) (Some (u "/w/a.hy")) /\ answers (to_a (u "q.r") root_module) (Some (u "/w/a.hy")) /\ answers (e_exists same_file (u "/w/a.hy")) true /\
  (exists md m', load_hy same_file (run_script same_file (ref_prims_of log) 20 3 [] []) (u "p") root_module mach_log = (Done (Some md), m')) /\
  demo_text same_file 3 [] [] "/w/main.hy" = (Done (u "1" ++ [NL] ++ u "2"), [u "/w/a.hy"]).
Proof.
  split; [reflexivity|]. split; [discriminate|]. split; [discriminate|]. split; [intros h w; reflexivity|]. split; [intros h w; reflexivity|].
  split; [intros h w; vm_compute; reflexivity|]. split; [eexists _, _; vm_compute; reflexivity|]. vm_compute. reflexivity.
Qed.
(** Finding: those found in a Python package or in the folder of the importing script are translated again for each name imported,
    since the cache is only looked up for the other two places (core/runtime.py 244, 264). *)
Theorem C46_again_refuted : exists E E' text f f',
  demo_text E 3 [] [] "/w/main.hy" = (Done text, [f; f]) /\ demo_text E' 3 [] [] "/v/main.hy" = (Done text, [f'; f']) /\
  f = u "/lib/d/a.hy" /\ f' = u "/v/a.hy".
Proof. exact (ex_intro _ in_package (ex_intro _ beside (ex_intro _ _ (ex_intro _ _ (ex_intro _ _ (conj (proj1 loaded_again) (conj (proj2 loaded_again) (conj eq_refl eq_refl)))))))). Qed.
Print Assumptions C46_again_refuted.
