(** Specification side of C17, C18: a scope is the list of bindings made so far, newest first. *)
From Coq Require Import List NArith Bool.
From Verif Require Import PyStr.
Import ListNotations.

Section Spec.
  Context {V : Type}.
  Definition scope : Type := list (str * V).

  (** The value of a name is that of its newest binding. *)
  Fixpoint find (name : str) (s : scope) : option V :=
    match s with
    | [] => None
    | (n, v) :: r => if list_eq_dec N.eq_dec name n then Some v else find name r
    end.

  (** Operations on a scope. *)
  Inductive op :=
  | OPush (name : str) (v : V)
  | OPop
  | OReset (position : nat)
  | OPushAll (symbols : list (str * V))
  | OPushNew (symbols : list (str * V)).

  Fixpoint add_new (symbols : list (str * V)) (s : scope) : scope :=
    match symbols with
    | [] => s
    | (n, v) :: r => add_new r (match find n s with Some _ => s | None => (n, v) :: s end)
    end.

  Definition step (o : op) (s : scope) : result scope :=
    match o with
    | OPush n v => Ok ((n, v) :: s)
    | OPop => match s with [] => Raise IndexError | _ :: r => Ok r end
    | OReset p => if Nat.ltb (List.length s) p then Raise (OtherError 0)
                  else Ok (skipn (List.length s - p) s)
    | OPushAll symbols => Ok (rev symbols ++ s)
    | OPushNew symbols => Ok (add_new symbols s)
    end.

  Fixpoint steps (os : list op) (s : scope) : result scope :=
    match os with
    | [] => Ok s
    | o :: r => s' <- step o s ;; steps r s'
    end.
End Spec.
Arguments scope V : clear implicits.
Arguments op V : clear implicits.
