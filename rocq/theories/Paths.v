(** Import paths: join_path and Loader._make_absolute of core/runtime.py. *)
From Coq Require Import List NArith Bool String.
From Verif Require Import PyStr.
Import ListNotations.
Local Open Scope N_scope.

Definition DOT : char := 46.

(** while path[:1] == '.': ... base = base.rsplit(sep, 1)[0]; path = path[1:]
                                                              [runtime.py 40-44] *)
Fixpoint climb (sep : char) (base path : str) : result (str * str) :=
  match path with
  | c :: r =>
      if c =? DOT then
        if mem sep base then climb sep (rsplit1_head sep base) r
        else Raise ImportError
      else Ok (base, path)
  | [] => Ok (base, path)
  end.

(** if base[-1:] == sep: base = base[:-1]                        [runtime.py 37-38] *)
Definition chop_sep (sep : char) (base : str) : str :=
  match rev base with
  | c :: r => if c =? sep then rev r else base
  | [] => base
  end.

(** join_path(base, path, sep, ext)                              [runtime.py 21-49]
    [base] = None gives None; [ext] = [] stands for both None and ''. *)
Definition join_path (base : option str) (path : str) (sep : char) (ext : str)
  : result (option str) :=
  match base with
  | None => Ok None
  | Some base =>
      match path with
      | c :: p =>
          if c =? DOT then
            bp <- climb sep (chop_sep sep base) p ;;
            Ok (Some (fst bp ++ [sep] ++ replace [DOT] [sep] (snd bp) ++ ext))
          else Raise AssertionError
      | [] => Raise AssertionError
      end
  end.

(** Loader._make_absolute(path, referrer)                        [runtime.py 171-174] *)
Definition make_absolute (path : str) (package : option str) : result (option str) :=
  if negb (startswith [DOT] path) then Ok (Some path)
  else join_path package path DOT [].
