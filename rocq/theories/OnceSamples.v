(** A runtime whose loader has a function of its own. *)
From Coq Require Import List NArith ZArith Bool String.
From Verif Require Import PyStr Html PyDict Value Dom Ast Machine Eval Translate Analyse Paths Runtime Ref Samples RuntimeSamples.
Import ListNotations.
Local Open Scope list_scope.

(** every absolute path means /w/a.hy *)
Definition to_a (path : str) (r : referrer) : prim log (option str) := fun _ w => (Done (Some (u "/w/a.hy")), w).
Definition same_file : env log :=
  let E := demo [] [("/w/main.hy", [blk (import_ "p" ["$x"]); blk (import_ "q.r" ["$y"]); shows "x"; shows "y"]); ("/w/a.hy", [assigns "x" 1; assigns "y" 2])]%string [] [] in {|
  e_loaders := e_loaders E;
  e_builtins := e_builtins E;
  e_resolve := Some to_a;
  e_cwd := e_cwd E;
  e_exists := e_exists E;
  e_read := e_read E;
  e_package := e_package E;
  e_pymodule := e_pymodule E;
  e_parse := e_parse E
|}.

(** a script of a package, and one in the folder of the importing script, which is not the current one *)
Definition two_names (path : string) : list item := [blk (import_ path ["$x"; "$y"]%string); shows "x"; shows "y"].
Definition in_package : env log :=
  demo [] [("/w/main.hy", two_names "d.a"); ("/lib/d/a.hy", [assigns "x" 1; assigns "y" 2])]%string [("d", "/lib/d/__init__.py")]%string [].
Definition beside : env log := demo [] [("/v/main.hy", two_names "a"); ("/v/a.hy", [assigns "x" 1; assigns "y" 2])]%string [] [].
Lemma loaded_again :
  demo_text in_package 3 [] [] "/w/main.hy" = (Done (u "1" ++ [NL] ++ u "2"), [u "/lib/d/a.hy"; u "/lib/d/a.hy"]) /\
  demo_text beside 3 [] [] "/v/main.hy" = (Done (u "1" ++ [NL] ++ u "2"), [u "/v/a.hy"; u "/v/a.hy"]).
Proof. split; vm_compute; reflexivity. Qed.
