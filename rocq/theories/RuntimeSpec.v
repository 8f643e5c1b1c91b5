(** What is expected of imports: loaders in turn, histories of a runtime, and the names a script takes
    from its dynamic context. *)
From Coq Require Import List NArith Bool String.
From Verif Require Import PyStr PyDict Value Ast Machine Runtime.
Import ListNotations.

Section Spec.
  Context {W : Type}.

  (** Loaders asked one after another, none of which knows the module. *)
  Fixpoint none_of (loaders : list (str -> referrer -> M W (option module))) (path : str) (r : referrer) (m m' : mach W) : Prop :=
    match loaders with
    | [] => m' = m
    | f :: fs => exists m1, f path r m = (Done None, m1) /\ none_of fs path r m1 m'
    end.

  (** Everything that may happen in a runtime between two moments: scripts are translated and modules are
      imported, successfully or not. *)
  Inductive history (E : env W) (P : prims W) : mach W -> mach W -> Prop :=
  | h_none m : history E P m m
  | h_script m m1 m2 n k tags vars script file package o : history E P m m1 ->
      run_script E P n k tags vars script file package m1 = (o, m2) -> o <> Fuel -> history E P m m2
  | h_import m m1 m2 n k path r o : history E P m m1 ->
      import_module E (run_script E P n k [] []) path r m1 = (o, m2) -> o <> Fuel -> history E P m m2.
End Spec.

(** The context symbols that a document declares: context blocks are allowed at the top level only. *)
Definition declares (i : item) : list str :=
  match i with
  | NBlock _ _ (BContext l) => flat_map (fun i => match i with IName y _ _ => [y] | IWild _ => [] end) l
  | _ => []
  end.
Definition declared (d : document) : list str := flat_map declares d.

(** The names that a context block binds, with the values of the dynamic context: "$x", or "$x as y"
    which binds "$y". *)
Fixpoint bound_by (context : list (str * val)) (l : list iitem) : option (list (str * val)) :=
  match l with
  | [] => Some []
  | IName y rename _ :: r =>
      match dget str_eqb y context, bound_by context r with
      | Some v, Some b => Some ((match rename with Some n => firstn 1 y ++ n | None => y end, v) :: b)
      | _, _ => None
      end
  | IWild _ :: _ => None
  end.
(** What a translation gives apart from the exported symbols. *)
Definition without_symbols {W A B C} (r : out (A * B * C) * mach W) : out (A * C) * mach W :=
  match r with
  | (Done (a, _, c), m) => (Done (a, c), m)
  | (Exc e, m) => (Exc e, m)
  | (Fuel, m) => (Fuel, m)
  end.
(** The dynamic context of a script: variables take precedence over tags, later ones over earlier; marks
    are added where missing. *)
Definition with_mark (mark : char) (n : str) : str :=
  match n with c :: _ => if N.eqb c 36 || N.eqb c 37 then n else mark :: n | [] => [] end.
Fixpoint last_value (mark : char) (y : str) (l : list (str * val)) : option val :=
  match l with
  | [] => None
  | (n, v) :: r => match last_value mark y r with
                   | Some w => Some w
                   | None => if str_eqb (with_mark mark n) y then Some v else None
                   end
  end.
Definition context_value (tags vars : list (str * val)) (y : str) : option val :=
  match last_value 36 y vars with Some v => Some v | None => last_value 37 y tags end.
(** A symbol, with its mark, whose name begins with an underscore. *)
Definition underscored (y : str) : Prop := exists mark rest, y = mark :: 95%N :: rest.

(** Values given to render() by keyword, other than its own parameters, and the dynamic context they make: names that
    are parameters of the functions called on the way are refused. *)
Definition param_names : list str := map u ["self"; "__script__"; "__file__"; "__package__"; "__tags__"; "builtins"; "__builtins__"]%string.
Definition called_with (tags args context : list (str * val)) : Prop :=
  (forall x v, In (x, v) args -> ~ In x param_names) /\ make_context tags args = Ok context.
(** A tag of a Python module with its mark. *)
Definition marked_tag (n : str) : str := match n with c :: _ => if N.eqb c 37 then n else 37%N :: n | [] => [] end.
