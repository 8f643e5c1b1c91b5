(** C46: built-in symbols, imported once by a runtime (core/runtime.py 330-341). *)
From Coq Require Import List NArith.
From Verif Require Import PyStr PyDict Value Machine Runtime.
Import ListNotations.

(** [md] can be what the import of [path] gives, at some moment *)
Definition may_give {W} (E : env W) run (path : str) (md : module) : Prop :=
  exists m m', import_module E run path root_module m = (Done md, m').

(** The value of a symbol: that of the last module which has it. *)
Fixpoint latest (x : str) (mods : list module) : option val :=
  match mods with
  | [] => None
  | md :: r => match latest x r with Some v => Some v | None => dget str_eqb x (rev (mod_symbols md)) end
  end.
