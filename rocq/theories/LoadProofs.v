(** Sample data and findings about the files that imports refer to. *)
From Coq Require Import List NArith ZArith Bool String.
From Verif Require Import PyStr Html PyDict Value Dom Ast Machine Eval Translate Analyse Paths Runtime Ref Samples RuntimeSamples RuntimeProofs BookSpec LoadSpec LoadFacts.
Import ListNotations.
Local Open Scope list_scope.

(** Scripts of the same name in a package, in the current folder and in the folder of the referrer. *)
Definition places (here near : bool) : env log :=
  demo [] (app ([("/v/main.hy", [blk (import_ "a" ["$x"]); blk (import_ "d.a" ["$y"]); shows "x"; shows "y"]);
            ("/lib/d/a.hy", [assigns "y" 3]); ("/w/d/a.hy", [assigns "y" 4]); ("/v/d/a.hy", [assigns "y" 5])])%string
           (app (if here then [("/w/a.hy", [assigns "x" 1])] else [])%string (if near then [("/v/a.hy", [assigns "x" 2])] else [])%string))
       [("d", "/lib/d/__init__.py")]%string [].

(** A script [a] of the package [d] that imports a Python module of the same package. *)
Definition helped : env log :=
  demo [] [("/w/main.hy", [blk (import_ "d.a" ["$x"]); shows "x"]); ("/lib/d/a.hy", [blk (import_ ".helpers" ["$x"]); shows "x"])]%string
       [("d", "/lib/d/__init__.py")]%string [("d.helpers", pym)]%string.
Lemma c46_package_name_refuted : exists E f p h,
  e_package E p [] [] = (Done (u "/lib/d/__init__.py"), []) /\ f = file_of (u "/lib/d") (u "a") /\ e_exists E f [] [] = (Done true, []) /\
  join_path (Some p) (u ".helpers") DOT [] = Ok (Some h) /\ e_pymodule E h [] [] = (Done (Some pym), [h]) /\
  (exists out m, render_script E (ref_prims_of log) 20 3 [] [] f (Some f) (Some p) mach_log = (Done out, m)) /\
  demo_text E 3 [] [] "/w/main.hy" = (Exc ModuleNotFound, [f]).
Proof.
  exists helped, (u "/lib/d/a.hy"), (u "d"), (u "d.helpers"). split; [vm_compute; reflexivity|]. split; [reflexivity|]. split; [vm_compute; reflexivity|]. split; [vm_compute; reflexivity|].
  split; [vm_compute; reflexivity|]. split; [do 2 eexists; vm_compute; reflexivity|]. vm_compute. reflexivity.
Qed.
