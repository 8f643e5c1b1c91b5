(** What loading a script means: the file is read and translated, and nothing else is. *)
From Coq Require Import List NArith Bool.
From Verif Require Import PyStr PyDict Value Ast Machine Runtime.
Import ListNotations.

Section Spec.
  Context {W : Type}.
  (** Questions asked of the file system, with a constant answer and no effect. *)
  Definition answers {A} (p : prim W A) (a : A) : Prop := forall h w, p h w = (Done a, w).
  (** Loading [path] for [r] in [m] is the translation of the file [f] with [package]: its module is what is found, its
      failure is the failure of the import; [__file__] is [f]. [run]: translation of an imported script. *)
  Definition loads (E : env W) (run : str -> option str -> option str -> M W module) (path : str) (r : referrer) (f : str) (package : option str) (m : mach W) : Prop :=
    match e_read E f (m_heap m) (m_world m) with
    | (Done script, w) =>
        match run script (Some f) package (with_world m w) with
        | (Done md, m') => exists m'', load_hy E run path r m = (Done (Some md), m'') /\ m_world m'' = m_world m' /\ m_heap m'' = m_heap m' /\ m_states m'' = m_states m'
        | (Exc e, m') => load_hy E run path r m = (Exc e, m')
        | (Fuel, m') => load_hy E run path r m = (Fuel, m')
        end
    | (Exc e, w) => load_hy E run path r m = (Exc e, with_world m w)
    | (Fuel, w) => load_hy E run path r m = (Fuel, with_world m w)
    end.
End Spec.
