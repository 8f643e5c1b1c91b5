(** C45: import paths are joined like in Python. *)
From Coq Require Import List NArith Bool Arith Lia String.
From Verif Require Import PyStr PyStrFacts Paths PathsSpec PathsFacts PathsProofs.
Import ListNotations.

(** Relative paths: [package] and [names] are the components of the base path and of the import
    path, [level] the number of dots after the first one; a trailing separator of the base path
    makes no difference. *)
Theorem C45_join_path (sep : N) (package names : list str) (level : nat) (ext : str) (trailing : bool) :
  package <> [] -> (forall c, In c package -> ~ In sep c) -> (last package [] <> [] \/ package = [[]]) ->
  names <> [] -> (forall n, In n names -> ~ In DOT n) -> (hd [] names <> [] \/ names = [[]]) ->
  let base := join [sep] package ++ (if trailing then [sep] else []) in
  let path := repeat DOT (S level) ++ join [DOT] names in
  join_path (Some base) path sep ext =
    match resolve package level names with
    | Some cs => Ok (Some (join [sep] cs ++ ext))
    | None => Raise ImportError
    end.
Proof. exact (c45_join_path sep package names level ext trailing). Qed.
Print Assumptions C45_join_path.
Example C45_join_path_ex :
  join_path (Some (u "a.b.c")) (u "..x.y") 46 [] = Ok (Some (u "a.b.x.y")) /\
  join_path (Some (u "/home/me/")) (u ".x.y") 47 (u ".hy") = Ok (Some (u "/home/me/x/y.hy")) /\
  join_path (Some (u "a")) (u "..x") 46 [] = Raise ImportError.
Proof. repeat split; reflexivity. Qed.

(** Every path starting with a dot has the form required above. *)
Theorem C45_every_relative_path (path : str) : startswith [DOT] path = true ->
  exists level names, path = repeat DOT (S level) ++ join [DOT] names /\ names <> [] /\
    (forall n, In n names -> ~ In DOT n) /\ (hd [] names <> [] \/ names = [[]]).
Proof. exact (c45_every_relative_path path). Qed.
Print Assumptions C45_every_relative_path.

(** Absolute paths are not changed; a relative path without a package has no absolute form. *)
Theorem C45_absolute (path : str) package : startswith [DOT] path = false -> make_absolute path package = Ok (Some path).
Proof. exact (c45_absolute path package). Qed.
Print Assumptions C45_absolute.
Theorem C45_no_package (path : str) : startswith [DOT] path = true -> make_absolute path None = Ok None.
Proof. exact (c45_no_package path). Qed.
Print Assumptions C45_no_package.
Example C45_absolute_ex : startswith [DOT] (u "a.b") = false /\ startswith [DOT] (u ".a") = true.
Proof. split; reflexivity. Qed.

(** Deviations from Python: in a top-level package '' a relative path stays relative (Python raises
    ImportError), and a path made of dots only keeps a trailing dot (Python gives the package). *)
Theorem C45_empty_package_refuted : exists path abs,
  make_absolute path (Some []) = Ok (Some abs) /\ startswith [DOT] abs = true.
Proof. exact c45_empty_package_refuted. Qed.
Print Assumptions C45_empty_package_refuted.
Theorem C45_dots_only_refuted : exists path package,
  make_absolute path (Some package) <> Ok (Some package) /\ path = [DOT].
Proof. exact c45_dots_only_refuted. Qed.
Print Assumptions C45_dots_only_refuted.
