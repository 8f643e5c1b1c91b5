(** Specification side of C65: templates of Django. *)
From Coq Require Import List NArith Bool String.
From Verif Require Import PyStr PyDict Value Machine RuntimeSpec.
Import ListNotations.
Local Open Scope string_scope.
Local Open Scope list_scope.

(** Files opened one after another, none of which exists. *)
Fixpoint absent {W} (open_file : str -> prim W (option str)) (files : list str) (m m' : mach W) : Prop :=
  match files with
  | [] => m' = m
  | f :: files => exists m1, lift_p (open_file f) m = (Done None, m1) /\ absent open_file files m1 m'
  end.

(** What a template sees under a name: with a request, three names are reserved for it. *)
Definition seen (csrf_input csrf_token : val -> val) (context : list (str * val)) (request : option val) (x : str) : option val :=
  match request with
  | Some r =>
      if str_eqb x (u "request") then Some r
      else if str_eqb x (u "csrf_input") then Some (csrf_input r)
      else if str_eqb x (u "csrf_token") then Some (csrf_token r)
      else dget str_eqb x context
  | None => dget str_eqb x context
  end.

(** Names of variables: no mark in front. *)
Definition unmarked (x : str) : Prop := exists c r, x = c :: r /\ c <> 36%N /\ c <> 37%N.
(** A context of variables under names that are no parameters of the functions involved. *)
Definition plain_context (c : list (str * val)) : Prop :=
  NoDup (map fst c) /\ forall x v, In (x, v) c -> unmarked x /\ ~ In x param_names.
