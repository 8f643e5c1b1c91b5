(** Property C46, continued: the file that an import refers to. *)
From Coq Require Import List NArith ZArith Bool String.
From Verif Require Import PyStr Html PyDict Value Dom Ast Machine Eval Translate Analyse Paths Runtime Ref Samples RuntimeSamples RuntimeProofs BookSpec LoadSpec LoadFacts LoadProofs.
Import ListNotations.
Local Open Scope list_scope.

(** Absolute paths are resolved in this order: the function given to the loader, if any; *)
Theorem C46_resolved : forall W (E : env W) run path g f r m, e_resolve E = Some g -> path <> [] -> hd DOT path <> DOT -> answers (g path r) (Some f) -> f <> [] ->
  answers (e_exists E f) true -> dget str_eqb f (rt_hy (m_rt m)) = None -> loads E run path r f None m.
Proof. exact (@resolved_script). Qed.
Print Assumptions C46_resolved.
(** then, for [p.name], the folder of the Python package [p]. Finding: the package of such a script is the folder and not [p]. *)
Theorem C46_package_script : forall W (E : env W) run p name dir init r m, e_resolve E = None -> p <> [] -> hd DOT p <> DOT -> ~ In DOT name ->
  folder_ok dir -> in_folder dir init -> (exists x, init = x ++ u ".py") -> answers (e_package E p) init -> answers (e_exists E (file_of dir name)) true ->
  loads E run (p ++ u "." ++ name) r (file_of dir name) (Some dir) m.
Proof. exact (@package_script). Qed.
Print Assumptions C46_package_script.
(** then the current folder; *)
Theorem C46_current_folder : forall W (E : env W) run p cwd r m, e_resolve E = None -> part_ok p -> folder_ok cwd -> answers (e_cwd E) cwd ->
  answers (e_exists E (file_of cwd p)) true -> dget str_eqb (file_of cwd p) (rt_hy (m_rt m)) = None -> loads E run p r (file_of cwd p) None m.
Proof. exact (@here_script). Qed.
Print Assumptions C46_current_folder.
(** then the folder of the script that contains the import, whose package is inherited. *)
Theorem C46_near : forall W (E : env W) run p cwd dir f package m, e_resolve E = None -> part_ok p -> folder_ok cwd -> folder_ok dir -> in_folder dir f ->
  answers (e_cwd E) cwd -> answers (e_exists E (file_of cwd p)) false -> dget str_eqb (file_of cwd p) (rt_hy (m_rt m)) = None ->
  answers (e_exists E (file_of dir p)) true -> (forall q, package = Some q -> q <> [] /\ last q 0%N <> DOT) ->
  loads E run p {| r_file := Some f; r_package := package |} (file_of dir p) package m.
Proof. exact (@near_script). Qed.
Print Assumptions C46_near.
Example C46_places : let text E := demo_text E 3 [] [] "/v/main.hy" in
  text (places true true) = (Done (u "1" ++ [NL] ++ u "3"), [u "/w/a.hy"; u "/lib/d/a.hy"]) /\
  text (places true false) = (Done (u "1" ++ [NL] ++ u "3"), [u "/w/a.hy"; u "/lib/d/a.hy"]) /\
  text (places false true) = (Done (u "2" ++ [NL] ++ u "3"), [u "/v/a.hy"; u "/lib/d/a.hy"]) /\
  text (places false false) = (Exc ModuleNotFound, []).
Proof. cbv zeta. repeat split; vm_compute; reflexivity. Qed.
Example C46_places_hyp : let E := places false true in
  e_resolve E = None /\ part_ok (u "a") /\ folder_ok (u "/w") /\ folder_ok (u "/v") /\ in_folder (u "/v") (u "/v/main.hy") /\ answers (e_cwd E) (u "/w") /\
  answers (e_exists E (file_of (u "/w") (u "a"))) false /\ answers (e_exists E (file_of (u "/v") (u "a"))) true /\
  answers (e_exists (places true true) (file_of (u "/w") (u "a"))) true /\
  folder_ok (u "/lib/d") /\ in_folder (u "/lib/d") (u "/lib/d/__init__.py") /\ answers (e_package E (u "d")) (u "/lib/d/__init__.py") /\
  answers (e_exists E (file_of (u "/lib/d") (u "a"))) true.
Proof.
  cbv zeta. split; [reflexivity|]. split.
  { split; [discriminate|]. intros c [<-|[]]. repeat split; try reflexivity; discriminate. }
  split; [split; discriminate|]. split; [split; discriminate|].
  split; [exists (u "main.hy"); split; [reflexivity|]; intros H; repeat (destruct H as [H|H]; [discriminate H|]); exact H|].
  split; [intros h w; reflexivity|]. split; [intros h w; vm_compute; reflexivity|]. split; [intros h w; vm_compute; reflexivity|]. split; [intros h w; vm_compute; reflexivity|].
  split; [split; discriminate|]. split; [exists (u "__init__.py"); split; [reflexivity|]; intros H; repeat (destruct H as [H|H]; [discriminate H|]); exact H|].
  split; [intros h w; vm_compute; reflexivity|]. intros h w. vm_compute. reflexivity.
Qed.
(** Finding: the package of a script that was found in a Python package is a path in the file system (core/runtime.py 257: package_path
    instead of package_name), so its relative imports of Python modules fail, although the module exists. *)
Theorem C46_package_name_refuted : exists E f p h,
  e_package E p [] [] = (Done (u "/lib/d/__init__.py"), []) /\ f = file_of (u "/lib/d") (u "a") /\ e_exists E f [] [] = (Done true, []) /\
  join_path (Some p) (u ".helpers") DOT [] = Ok (Some h) /\ e_pymodule E h [] [] = (Done (Some pym), [h]) /\
  (exists out m, render_script E (ref_prims_of log) 20 3 [] [] f (Some f) (Some p) mach_log = (Done out, m)) /\
  demo_text E 3 [] [] "/w/main.hy" = (Exc ModuleNotFound, [f]).
Proof. exact c46_package_name_refuted. Qed.
Print Assumptions C46_package_name_refuted.
