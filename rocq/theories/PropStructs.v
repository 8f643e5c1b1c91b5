(** C17 (scope stack) and C18 (snapshot of the symbol table). *)
From Coq Require Import List NArith Bool Arith Lia String.
From Verif Require Import PyStr PyStrFacts PyDict Structs StructsSpec StructsFacts StructsProofs.
Import ListNotations.

(** For every history of push/pop/reset/pushall/pushnew operations, started from an empty table:
    the table raises exactly when the scope does (pop of nothing, reset above the top), and
    otherwise all lookups give the newest binding that is still on the stack. *)
Theorem C17_scope {V} (history : list (op V)) :
  match steps history [] with
  | Raise e => md_steps history md_empty = Raise e
  | Ok s => exists m, md_steps history md_empty = Ok m /\
      (forall n, md_get n m = find n s) /\
      (forall n, md_getitem n m = match find n s with Some v => Ok v | None => Raise KeyError end) /\
      (forall n, md_contains n m = match find n s with Some _ => true | None => false end) /\
      md_position m = List.length s
  end.
Proof. exact (c17_scope history). Qed.
Print Assumptions C17_scope.
Example C17_scope_ex :
  let h := [OPush (u "a") 1; OPush (u "b") 2; OPush (u "a") 3; OPop; OPushNew [(u "a", 7); (u "c", 8)]] in
  match md_steps h md_empty with
  | Ok m => md_get (u "a") m = Some 1 /\ md_get (u "c") m = Some 8
  | Raise _ => False
  end.
Proof. vm_compute. split; reflexivity. Qed.

(** pop returns the newest binding. *)
Theorem C17_pop {V} (history : list (op V)) m n v s : md_steps history md_empty = Ok m ->
  steps history [] = Ok ((n, v) :: s) -> exists m', md_pop m = Ok (n, v, m').
Proof. exact (c17_pop history m n v s). Qed.
Print Assumptions C17_pop.

(** Whatever is pushed or reset above a saved position (never popping below it), resetting to that
    position restores all lookups. *)
Theorem C17_reset_restores {V} (history later : list (op V)) m m' :
  md_steps history md_empty = Ok m ->
  Forall (fun o => match o with OPop => False | OReset p => md_position m <= p | _ => True end) later ->
  md_steps later m = Ok m' ->
  exists m'', md_reset (md_position m) m' = Ok m'' /\ forall n, md_get n m'' = md_get n m.
Proof. exact (c17_reset_restores history later m m'). Qed.
Print Assumptions C17_reset_restores.
Example C17_reset_restores_ex :
  let h := [OPush (u "a") 1; OPush (u "b") 2] in
  let later := [OPush (u "a") 3; OPush (u "c") 4; OReset 3; OPushNew [(u "b", 5)]] in
  match md_steps h md_empty with
  | Ok m => Forall (fun o => match o with OPop => False | OReset p => md_position m <= p | _ => True end) later /\
            match md_steps later m with
            | Ok m' => md_get (u "a") m' = Some 3 /\ match md_reset (md_position m) m' with Ok m2 => md_get (u "a") m2 = Some 1 | _ => False end
            | _ => False end
  | _ => False
  end.
Proof. vm_compute. repeat constructor. Qed.

(** The snapshot since a position holds for each name its newest binding made since then. *)
Theorem C18_asdict {V} (history : list (op V)) m s p : md_steps history md_empty = Ok m -> steps history [] = Ok s ->
  NoDup (map fst (md_asdict p m)) /\
  forall n, find n (md_asdict p m) = find n (firstn (List.length s - p) s).
Proof. exact (c18_asdict history m s p). Qed.
Print Assumptions C18_asdict.

(** Adding symbols with pushnew never shadows an existing name, and defines all the others. *)
Theorem C18_pushnew {V} (history : list (op V)) m (symbols : list (str * V)) : md_steps history md_empty = Ok m ->
  NoDup (map fst symbols) ->
  forall n, md_get n (md_pushnew symbols m) = match md_get n m with Some v => Some v | None => find n symbols end.
Proof. exact (c18_pushnew history m symbols). Qed.
Print Assumptions C18_pushnew.

(** The sequence used by control blocks (snapshot, reset, pushnew): names bound before keep their
    old bindings, other names get their newest binding made since the position. *)
Theorem C18_leave_block {V} (history : list (op V)) m s p : md_steps history md_empty = Ok m -> steps history [] = Ok s ->
  p <= List.length s ->
  exists m', md_reset p m = Ok m' /\
    forall n, md_get n (md_pushnew (md_asdict p m) m') =
      match find n (skipn (List.length s - p) s) with
      | Some v => Some v
      | None => find n (firstn (List.length s - p) s)
      end.
Proof. exact (c18_leave_block history m s p). Qed.
Print Assumptions C18_leave_block.
Example C18_ex :
  let h := [OPush (u "a") 1; OPush (u "a") 2; OPush (u "b") 3; OPush (u "b") 4] in
  match md_steps h md_empty with
  | Ok m => md_asdict 1 m = [(u "a", 2); (u "b", 4)] /\
            match md_reset 1 m with
            | Ok m' => md_get (u "a") (md_pushnew (md_asdict 1 m) m') = Some 1 /\
                       md_get (u "b") (md_pushnew (md_asdict 1 m) m') = Some 4
            | _ => False end
  | _ => False
  end.
Proof. vm_compute. repeat split; reflexivity. Qed.
