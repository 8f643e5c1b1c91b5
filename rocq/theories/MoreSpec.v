(** Specification side of C67: scripts with further definitions and imports. *)
From Coq Require Import List NArith String.
From Verif Require Import PyStr Value Machine PageSpec TmplSpec BookSpec.
Import ListNotations.

(** [part l l']: some items of [l'], in their order. *)
Inductive part {A} : list A -> list A -> Prop :=
| part_nil : part [] []
| part_new a l l' : part l l' -> part l (a :: l')
| part_old a l l' : part l l' -> part (a :: l) (a :: l').
(** Further definitions, without blank lines in front; further import lines, and further names in import lines. *)
Inductive more_defs : list def -> list def -> Prop :=
| more_defs_nil : more_defs [] []
| more_defs_new n bn ps w kids ds ds' : more_defs ds ds' -> more_defs ds (Def 0 n bn ps w kids :: ds')
| more_defs_old d ds ds' : more_defs ds ds' -> more_defs (d :: ds) (d :: ds').
Inductive more_imports : list (str * list str) -> list (str * list str) -> Prop :=
| more_imports_nil : more_imports [] []
| more_imports_new i l l' : more_imports l l' -> more_imports l (i :: l')
| more_imports_old p ns ns' l l' : part ns ns' -> more_imports l l' -> more_imports ((p, ns) :: l) ((p, ns') :: l').
(** Both give the same, or both raise exceptions. *)
Definition same_outcome {A} (x y : out A) : Prop :=
  (exists a, x = Done a /\ y = Done a) \/ (exists e e', x = Exc e /\ y = Exc e').
