(** Properties C39-C42: qualifiers, logical operators, chains of operators, pipelines. *)
From Coq Require Import List NArith ZArith Bool Lia Arith String.
From Verif Require Import PyStr Html PyDict Value Dom Ast Machine Eval Translate MachineFacts ExprSpec ExprFacts Ref Samples ExprProofs.
Import ListNotations.
Local Open Scope list_scope.
Example tame_sound : sound_truth tame /\ quiet_truth tame /\ quiet_truth ref_prims.
Proof. split; [intros v h w; exists true; reflexivity|]. split; intros v h w; eexists; reflexivity. Qed.

(** ** C39: qualifiers *)

(** A qualified expression against the same expression without the qualifier; truth tests must not fail. *)
Theorem C39_root : forall W (P : prims W) expand, sound_truth P -> forall s e q m o m',
  eval P expand s (ERoot e q) m = (o, m') -> o <> Fuel ->
  exists r, eval P expand s e m = (r, m') /\ qual_out (truth P) m' q r o.
Proof. exact @root_qualified. Qed.
Print Assumptions C39_root.
Theorem C39_factor : forall W (P : prims W) expand, sound_truth P -> forall s a ts q m o m',
  eval P expand s (EFactor a ts q) m = (o, m') -> o <> Fuel ->
  exists r, eval P expand s (EFactor a ts QNone) m = (r, m') /\ qual_out (truth P) m' q r o.
Proof. exact @factor_qualified. Qed.
Print Assumptions C39_factor.
(** Read off: with "?" there is always a value, which is '' or true; *)
Theorem C39_optional_partial : forall W (P : prims W) expand, sound_truth P -> forall s e m o m',
  eval P expand s (ERoot e QOpt) m = (o, m') -> o <> Fuel ->
  exists v, o = Done v /\ (v = VStr [] \/ eval P expand s e m = (Done v, m') /\ truth P v m' = (Done true, m')).
Proof. exact @root_optional. Qed.
Print Assumptions C39_optional_partial.
(** with "!" a value is true; a false one ends in the error for a missing value. *)
Theorem C39_required_partial : forall W (P : prims W) expand, sound_truth P -> forall s e m o m',
  eval P expand s (ERoot e QReq) m = (o, m') -> o <> Fuel ->
  (exists v, o = Done v /\ eval P expand s e m = (Done v, m') /\ truth P v m' = (Done true, m')) \/
  (o = Exc FalseValue /\ exists v, eval P expand s e m = (Done v, m') /\ truth P v m' = (Done false, m')) \/
  (exists x, o = Exc x /\ eval P expand s e m = (Exc x, m')).
Proof. exact @root_required. Qed.
Print Assumptions C39_required_partial.
(** A failing truth test is not caught by "?". *)
Theorem C39_optional_refuted : exists (P : prims unit) expand s e m, exists x m', eval P expand s (ERoot e QOpt) m = (Exc x, m').
Proof. exact c39_optional_refuted. Qed.
Print Assumptions C39_optional_refuted.
(** An expression with "!" that fails does so with its own error, not with the error for a missing value. *)
Theorem C39_required_refuted : exists (P : prims unit) expand s e m x m',
  eval P expand s (ERoot e QReq) m = (Exc x, m') /\ x <> FalseValue.
Proof. exact c39_required_refuted. Qed.
Print Assumptions C39_required_refuted.
Example C39_example :
  fst (eval tame ex 0 (ERoot (call 6 [EList [lit 1; failing]]) QOpt) (with_vals [])) = Done (VStr []) /\
  fst (eval tame ex 0 (ERoot (call 6 [EList [lit 1; lit 2]]) QOpt) (with_vals [])) = Done (VInt 3) /\
  fst (eval tame ex 0 (ERoot (lit 0) QOpt) (with_vals [])) = Done (VStr []) /\
  fst (eval tame ex 0 (ERoot (lit 0) QNone) (with_vals [])) = Done (VInt 0) /\
  fst (eval tame ex 0 (EFactor (slit "") [] QReq) (with_vals [])) = Exc FalseValue /\
  fst (eval tame ex 0 (EFactor (EList [slit "x"]) [TIndex (lit 0)] QReq) (with_vals [])) = Done (VStr (u "x")).
Proof. vm_compute. auto 10. Qed.

(** ** C40: logical operators *)
Theorem C40_and : forall W (P : prims W) expand, quiet_truth P -> forall s h l m o m',
  eval P expand s (EAnd h l) m = (o, m') -> o <> Fuel -> logic_out (truth P) false (map (eval P expand s) (h :: l)) m o m'.
Proof. exact @and_spec. Qed.
Print Assumptions C40_and.
Theorem C40_or : forall W (P : prims W) expand, quiet_truth P -> forall s h l m o m',
  eval P expand s (EOr h l) m = (o, m') -> o <> Fuel -> logic_out (truth P) true (map (eval P expand s) (h :: l)) m o m'.
Proof. exact @or_spec. Qed.
Print Assumptions C40_or.
(** [x if c else y]: one of the operands is evaluated, right after the condition. *)
Theorem C40_ifelse : forall W (P : prims W) expand s x c y m v m1 b m2,
  eval P expand s c m = (Done v, m1) -> truth P v m1 = (Done b, m2) ->
  eval P expand s (EIf x c y) m =
    if b then eval P expand s x m2 else match y with Some y => eval P expand s y m2 | None => (Done (VStr []), m2) end.
Proof. exact @ifelse_spec. Qed.
Print Assumptions C40_ifelse.
Theorem C40_not_partial : forall W (P : prims W) expand s n e m v m1 b m2, Nat.odd n = true ->
  eval P expand s e m = (Done v, m1) -> truth P v m1 = (Done b, m2) ->
  eval P expand s (ENot n e) m = (Done (VBool (negb b)), m2).
Proof. exact @not_spec. Qed.
Print Assumptions C40_not_partial.
(** not not x is x itself, not its truth value. *)
Theorem C40_not_not_refuted : exists (P : prims unit) expand s e m v, fst (eval P expand s (ENot 2 e) m) = Done v /\ forall b, v <> VBool b.
Proof. exact c40_not_not_refuted. Qed.
Print Assumptions C40_not_not_refuted.
Example C40_example :
  fst (run_expr (EAnd (lit 1) [slit "a"; EList []; failing]) (with_vals [])) = Done (VList []) /\
  fst (run_expr (EAnd (lit 1) [slit "a"; lit 7]) (with_vals [])) = Done (VInt 7) /\
  fst (run_expr (EOr (lit 0) [slit ""; lit 7; failing]) (with_vals [])) = Done (VInt 7) /\
  fst (run_expr (EOr (lit 0) [slit ""; EList []]) (with_vals [])) = Done (VList []) /\
  fst (run_expr (EAnd (lit 1) [failing; lit 0]) (with_vals [])) = Exc ValueError /\
  fst (run_expr (EIf failing (lit 0) (Some (lit 3))) (with_vals [])) = Done (VInt 3) /\
  fst (run_expr (EIf (lit 3) (lit 1) (Some failing)) (with_vals [])) = Done (VInt 3) /\
  fst (run_expr (EIf failing (lit 0) None) (with_vals [])) = Done (VStr []) /\
  fst (run_expr (ENot 3 (slit "")) (with_vals [])) = Done (VBool true).
Proof. vm_compute. auto 10. Qed.

(** ** C41: chains of operators *)

(** As in Python, unless the chain consists of two or more powers or comparisons. *)
Theorem C41_chain_partial : forall W (P : prims W) expand s h ops m,
  ops <> [] -> Forall (fun oe => is_power (fst oe) = false /\ is_comparison (fst oe) = false) ops \/ List.length ops = 1 ->
  eval P expand s (EChain false h ops) m =
  python_chain (truth P) (fun o v w => lift_p (p_binop P o v w)) (eval P expand s h) (map (fun oe => (fst oe, eval P expand s (snd oe))) ops) m.
Proof. exact @chain_python. Qed.
Print Assumptions C41_chain_partial.
Theorem C41_bitwise : forall W (P : prims W) expand s o h l m,
  l <> [] -> is_power o = false -> is_comparison o = false ->
  eval P expand s (ESimple o h l) m =
  python_chain (truth P) (fun o v w => lift_p (p_binop P o v w)) (eval P expand s h) (map (fun e => (o, eval P expand s e)) l) m.
Proof. exact @simple_python. Qed.
Print Assumptions C41_bitwise.
(** A leading minus applies to the first operand, whatever the operators; -None is None. *)
Theorem C41_minus : forall W (P : prims W) expand s h ops m,
  eval P expand s (EChain true h ops) m =
  left_assoc (fun o v w => lift_p (p_binop P o v w))
    (seq (eval P expand s h) (fun v => match v with VNone => ret VNone | _ => lift_p (p_neg P v) end))
    (map (fun oe => (fst oe, eval P expand s (snd oe))) ops) m.
Proof. exact @chain_minus. Qed.
Print Assumptions C41_minus.
Example C41_example : fst (run_expr (EChain false (lit 10) [(OSub, lit 3); (OSub, lit 2); (OAdd, lit 1)]) (with_vals [])) = Done (VInt 6) /\
  fst (run_expr (EChain false (lit 20) [(OFloorDiv, lit 3); (OMul, lit 2); (OMod, lit 7)]) (with_vals [])) = Done (VInt 5) /\
  fst (run_expr (EChain true (lit 2) [(OAdd, lit 5)]) (with_vals [])) = Done (VInt 3) /\
  fst (run_expr (EChain false (lit 2) [(OLt, lit 5)]) (with_vals [])) = Done (VBool true) /\
  fst (run_expr (ESimple OBitXor (lit 6) [lit 3; lit 1]) (with_vals [])) = Done (VInt 4).
Proof. vm_compute. auto 10. Qed.
(** 2 ** 3 ** 2 is 64, in Python 512; 3 > 2 > 1 is False, in Python True. *)
Theorem C41_power_refuted : exists s h ops m, Forall (fun oe => fst oe = OPow) ops /\
  fst (eval ref_prims ex s (EChain false h ops) m) = Done (VInt 64) /\
  fst (python_chain (truth ref_prims) (fun o v w => lift_p (p_binop ref_prims o v w)) (eval ref_prims ex s h) (map (fun oe => (fst oe, eval ref_prims ex s (snd oe))) ops) m) = Done (VInt 512).
Proof. exact c41_power_refuted. Qed.
Print Assumptions C41_power_refuted.
Theorem C41_comparison_refuted : exists s h ops m, Forall (fun oe => fst oe = OGt) ops /\
  fst (eval ref_prims ex s (EChain false h ops) m) = Done (VBool false) /\
  fst (python_chain (truth ref_prims) (fun o v w => lift_p (p_binop ref_prims o v w)) (eval ref_prims ex s h) (map (fun oe => (fst oe, eval ref_prims ex s (snd oe))) ops) m) = Done (VBool true).
Proof. exact c41_comparison_refuted. Qed.
Print Assumptions C41_comparison_refuted.

(** ** C42: pipelines *)

(** A filter is a function with or without arguments; keyword arguments have different names. *)
Theorem C42_pipeline : forall W (P : prims W) expand, sound_truth P -> forall s x fs m, Forall fine_filter fs ->
  eval P expand s (EPipe x (map filter_expr fs)) m =
  pipe (call_value P expand) (eval P expand s x) (map (filter_parts P expand s) fs) m.
Proof. exact @pipe_spec. Qed.
Print Assumptions C42_pipeline.
Example C42_example : Forall fine_filter filters1 /\
  fst (eval tame ex 0 (EPipe (lit 4) (map filter_expr filters1)) (with_vals [])) = Done (VStr (u "9")).
Proof. split; [repeat constructor|vm_compute; reflexivity]. Qed.
