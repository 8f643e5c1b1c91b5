(** A small file system and runtime, used in examples and witnesses only. *)
From Coq Require Import List NArith ZArith Bool String.
From Verif Require Import PyStr Html PyDict StructsFacts Value Dom Ast Machine Eval Translate Analyse Paths Runtime ScopeFacts LocalFacts ContextFacts ExportFacts Ref Samples.
Import ListNotations.
Local Open Scope list_scope.

(** The world is the list of files read and Python modules executed so far. The text of a script is its own
    name, under which the parser finds the document. *)
Definition log := list str.
Definition demo_parse (files : list (string * document)) (t : str) : result document :=
  match List.find (fun fd => str_eqb (u (fst fd)) t) files with Some (_, d) => Ok d | None => Raise SyntaxError end.
Definition demo (builtins : list string) (files : list (string * document)) (packages : list (string * string))
    (pymodules : list (string * pymodule)) : env log := {|
  e_loaders := [LHy; LPy];
  e_builtins := map u builtins;
  e_resolve := None;
  e_cwd := fun _ w => (Done (u "/w"), w);
  e_exists := fun p _ w => (Done (existsb (fun fd => str_eqb (u (fst fd)) p) files), w);
  e_read := fun p _ w => (Done p, w ++ [p]);
  e_package := fun p _ w => (match List.find (fun nf => str_eqb (u (fst nf)) p) packages with
                             | Some (_, f) => Done (u f)
                             | None => Exc ModuleNotFound
                             end, w);
  e_pymodule := fun p _ w => match List.find (fun nf => str_eqb (u (fst nf)) p) pymodules with
                             | Some (_, f) => (Done (Some f), w ++ [p])
                             | None => (Done None, w)
                             end;
  e_parse := demo_parse files
|}.
Definition mach_log : mach log := Mach [] [] [] 0 {| rt_hy := []; rt_py := []; rt_builtins := None |} [].
Definition demo_run (E : env log) (k : nat) (script : string) : M log module :=
  run_script E (ref_prims_of log) 20 k [] [] (u script) (Some (u script)) None.
Definition demo_text (E : env log) (k : nat) (tags vars : list (str * val)) (script : string) : out str * log :=
  let (o, m) := render_script E (ref_prims_of log) 20 k tags vars (u script) (Some (u script)) None mach_log in (o, m_world m).
Definition import_ (path : string) (names : list string) : block := BImport (u path) (map (fun n => IName (u n) None None) names).
Definition context_ (names : list string) : block := BContext (map (fun n => IName (u n) None None) names).
Definition shows (n : string) : item := blk (text_of (name n)).
Definition assigns (n : string) (z : Z) : item := blk (BAssign (def_ n) None (lit z)).

(** A script that imports itself by an absolute path. *)
Definition circular : env log := demo [] [("/w/a.hy", [blk (import_ "a" ["$x"])])]%string [] [].
Lemma import_fuel {W} (im : str -> M W module) cx (P : prims W) n globals p i l d (m : mach W) :
  (forall m', fst (im p (with_next m m')) = Fuel) -> fst (translate im cx P n globals (blk (BImport p (i :: l)) :: d) m) = Fuel.
Proof.
  intros H. unfold translate, mbind at 1. rewrite document_split. unfold mbind at 1.
  destruct (pushes_entries globals new_ctx m inv_empty) as (c0 & E0 & _ & _ & _ & C0 & _). rewrite E0. cbn [fst snd].
  unfold mbind at 1. cbn [amap]. unfold abind at 1. unfold mbind at 1. unfold blk. rewrite item_block. cbn [prolog_block negb]. rewrite andb_true_r. set (c1 := if c_prolog c0 then _ else _).
  assert (C1 : c_control c1 = 0) by (unfold c1; destruct (c_prolog c0); cbn; rewrite C0; reflexivity).
  unfold mbind at 1. cbn [an_block]. unfold abind at 1, aread, mbind at 1. rewrite C1. cbn [Nat.leb of_result ret]. unfold mbind at 1. cbn [fst snd ret amap].
  unfold abind at 1, mbind at 1. unfold abind at 1, mbind at 1. unfold an_import at 1. unfold abind at 1, mbind at 1. unfold alift, mbind at 1.
  specialize (H (m_next m + List.length globals)). destruct (im p _) as [o m1]. cbn in H. subst o. reflexivity.
Qed.
Lemma circular_fuel k : forall h ss ds nx py w, fst (run_script circular (ref_prims_of log) 20 k [] [] (u "/w/a.hy") (Some (u "/w/a.hy")) None
   (Mach h ss ds nx {| rt_hy := []; rt_py := py; rt_builtins := Some [] |} w)) = Fuel.
Proof.
  induction k as [|k IH]; intros; [reflexivity|]. cbn [run_script]. set (run := run_script circular (ref_prims_of log) 20 k [] []) in *. clearbody run.
  set (m := Mach _ _ _ _ _ _). unfold mbind at 1. change (of_result (no_clash render_params []) m) with (Done tt, m). unfold mbind at 1. change (import_builtins circular run m) with (Done (@nil (str * val)), m). unfold mbind at 1.
  change (of_result (no_clash module_params []) m) with (Done tt, m). unfold mbind at 1.
  change (of_result (e_parse circular (u "/w/a.hy")) m) with (Done [blk (import_ "a" ["$x"%string])], m). unfold mbind at 1. change (of_result (no_clash ast_params []) m) with (Done tt, m). unfold mbind at 1.
  change (of_result (make_context [] []) m) with (Done (@nil (str * val)), m). unfold mbind at 1.
  match goal with |- context [translate ?im ?cx ?P ?n ?g ?d ?m] => assert (F : fst (translate im cx P n g d m) = Fuel) end.
  { apply import_fuel. intros nx'. set (m' := with_next m nx'). set (r := Build_referrer _ _).
    change (import_module circular run (u "a") r m') with (mbind (load_hy circular run (u "a") r) (fun x =>
      match x with Some md => ret md | None => first_of [load_py circular] (u "a") r end) m').
    unfold mbind at 1.
    assert (Q : load_hy circular run (u "a") r m' = mbind (run (u "/w/a.hy") (Some (u "/w/a.hy")) None)
      (fun md => _ <* cache_hy (u "/w/a.hy") md ;; ret (Some md)) (with_world m' (w ++ [u "/w/a.hy"]))) by reflexivity.
    rewrite Q. unfold mbind at 1. specialize (IH h ss ds nx' py (w ++ [u "/w/a.hy"])).
    change (with_world m' (w ++ [u "/w/a.hy"])) with (Mach h ss ds nx' {| rt_hy := []; rt_py := py; rt_builtins := Some [] |} (w ++ [u "/w/a.hy"])).
    destruct (run _ _ _ _) as [o m1]. cbn in IH. subst o. reflexivity. }
  destruct (translate _ _ _ _ _ _ m) as [o m1]. cbn in F. subst o. reflexivity.
Qed.
