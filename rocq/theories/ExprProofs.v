(** Proofs and sample data of the theorems in PropExpr.v. *)
From Coq Require Import List NArith ZArith Bool Lia Arith String.
From Verif Require Import PyStr Html PyDict Value Dom Ast Machine Eval Translate MachineFacts ExprSpec ExprFacts Ref Samples.
Import ListNotations.
Local Open Scope list_scope.

(** Python operations with truth tests that never fail, for examples *)
Definition tame : prims unit := {|
  p_ren := p_ren ref_prims; p_escape := p_escape ref_prims;
  p_truth := fun _ => pure (Ok true);
  p_text := p_text ref_prims; p_binop := p_binop ref_prims; p_iadd := p_iadd ref_prims; p_neg := p_neg ref_prims;
  p_getattr := p_getattr ref_prims; p_getitem := p_getitem ref_prims; p_getslice := p_getslice ref_prims;
  p_call := p_call ref_prims; p_iter := p_iter ref_prims; p_mkset := p_mkset ref_prims; p_mkdict := p_mkdict ref_prims |}.

Lemma c39_optional_refuted : exists (P : prims unit) expand s e m, exists x m', eval P expand s (ERoot e QOpt) m = (Exc x, m').
Proof. exists ref_prims, ex, 0, (ELit (VObj 13)), (with_vals []). eexists _, _. vm_compute. reflexivity. Qed.

Lemma c39_required_refuted : exists (P : prims unit) expand s e m x m',
  eval P expand s (ERoot e QReq) m = (Exc x, m') /\ x <> FalseValue.
Proof. exists tame, ex, 0, failing, (with_vals []). eexists _, _. split; [vm_compute; reflexivity|discriminate]. Qed.

Lemma c40_not_not_refuted : exists (P : prims unit) expand s e m v, fst (eval P expand s (ENot 2 e) m) = Done v /\ forall b, v <> VBool b.
Proof. exists ref_prims, ex, 0, (lit 5), (with_vals []), (VInt 5). split; [vm_compute; reflexivity|discriminate]. Qed.

Lemma c41_power_refuted : exists s h ops m, Forall (fun oe => fst oe = OPow) ops /\
  fst (eval ref_prims ex s (EChain false h ops) m) = Done (VInt 64) /\
  fst (python_chain (truth ref_prims) (fun o v w => lift_p (p_binop ref_prims o v w)) (eval ref_prims ex s h) (map (fun oe => (fst oe, eval ref_prims ex s (snd oe))) ops) m) = Done (VInt 512).
Proof.
  exists 0, (lit 2), [(OPow, lit 3); (OPow, lit 2)], (with_vals []). split; [repeat constructor|]. split; vm_compute; reflexivity.
Qed.

Lemma c41_comparison_refuted : exists s h ops m, Forall (fun oe => fst oe = OGt) ops /\
  fst (eval ref_prims ex s (EChain false h ops) m) = Done (VBool false) /\
  fst (python_chain (truth ref_prims) (fun o v w => lift_p (p_binop ref_prims o v w)) (eval ref_prims ex s h) (map (fun oe => (fst oe, eval ref_prims ex s (snd oe))) ops) m) = Done (VBool true).
Proof.
  exists 0, (lit 3), [(OGt, lit 2); (OGt, lit 1)], (with_vals []). split; [repeat constructor|]. split; vm_compute; reflexivity.
Qed.

(** 4:range(6):sum:str: the piped value is the first argument *)
Definition filters1 : list (expr * option (list (option str * expr))) :=
  [ (ELit (VObj 3), Some [(None, lit 6)]); (ELit (VObj 6), None); (ELit (VObj 2), Some []) ].
