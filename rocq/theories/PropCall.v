(** Properties C04 (merging of attributes), C37 and C43: tag attributes, calls of hypertags, assignments. *)
From Coq Require Import List NArith ZArith Bool Lia Arith String.
From Verif Require Import PyStr PyStrFacts Html PyDict Value Dom Ast Machine Eval Translate MachineFacts ExprSpec ExprFacts BindFacts Ref Samples CallProofs.
Import ListNotations.
Local Open Scope list_scope.

(** ** C04: repeated attributes are merged *)

(** The attributes of a tag occurrence evaluate one after another to [vs]; those given more than once are strings. *)
Theorem C04_merged : forall W (P : prims W) expand s named m vs m',
  each (map (fun ne => (fst ne, eval P expand s (snd ne))) named) m vs m' -> mergeable vs ->
  exists d, eval_named P expand s named m = (Done d, m') /\ merged vs d.
Proof. exact @eval_named_merge. Qed.
Print Assumptions C04_merged.
Example C04_merged_example :
  each (map (fun ne => (fst ne, eval ref_prims ex 0 (snd ne))) attrs1) mach0 vals1 mach0 /\ mergeable vals1 /\
  fst (eval_named ref_prims ex 0 attrs1 mach0) = Done [(u "class", VStr (u "a b c d")); (u "id", VStr (u "x"))].
Proof.
  split; [|split].
  - repeat (eapply each_cons; [reflexivity|reflexivity|]). constructor. reflexivity.
  - intros n L. unfold values_of, vals1 in *. cbn [filter fst] in *.
    destruct (str_eqb n (u "class")) eqn:E1, (str_eqb n (u "id")) eqn:E2; cbn [map snd List.length] in *; try lia.
    + apply str_eqb_eq in E1. apply str_eqb_eq in E2. subst n. discriminate.
    + exists [u "a"; u "b"; u "c d"]. reflexivity.
  - vm_compute. reflexivity.
Qed.

(** ** C37: attributes of a hypertag *)

(** Names of formal attributes are different (checked by the parser); so are keywords of a call. *)
Theorem C37_binding : forall W (P : prims W) k h body attrs kw s m o m',
  NoDup (all_names h) -> NoDup (all_slots h) -> NoDup (map fst kw) -> s < List.length (m_states m) ->
  match body with VDom _ | VNode _ => True | _ => False end ->
  append_attrs P (expand_n P k) h body attrs kw s m = (o, m') -> o <> Fuel ->
  let fs := formals_of (eval P (expand_n P k) s) (h_regul h) in
  (exists dom vs m1, o = Done dom /\ ~ misfit fs (has_body h) attrs kw (dom_empty body) /\
     fill attrs kw 0 fs m vs m1 /\
     assigned s (combine (map snd (h_regul h)) vs ++ body_binding h body) m1 m' /\
     (forall j a, nth_error (h_regul h) j = Some a -> lookup (fst (fst a)) dom = given attrs kw j (fst (fst a))) /\
     (forall n, In n (map fst dom) -> In n (map (fun a => fst (fst a)) (h_regul h)))) \/
  (exists e, o = Exc e /\ (misfit fs (has_body h) attrs kw (dom_empty body) \/ fill_fails attrs kw 0 fs m e m')).
Proof. exact @append_attrs_spec. Qed.
Print Assumptions C37_binding.
Example C37_example : NoDup (all_names h1) /\ NoDup (all_slots h1) /\
  fst (bind1 [VInt 7] [(u "c", VInt 9)]) = Done [(u "a", VInt 7); (u "c", VInt 9)] /\
  m_states (snd (bind1 [VInt 7] [(u "c", VInt 9)])) = [{| s_vals := [(3, VInt 9); (1, VInt 7); (2, VInt 2); (0, VDom [])]; s_indent := [NL] |}] /\
  fst (bind1 [VInt 7] [(u "a", VInt 9)]) = Exc TypeError /\ fst (bind1 [] []) = Exc TypeError /\
  fst (bind1 [VInt 7; VInt 7; VInt 7; VInt 7] []) = Exc TypeError /\ fst (bind1 [VInt 7] [(u "d", VInt 1)]) = Exc TypeError.
Proof.
  assert (D : forall (A : Type) (eqb : A -> A -> bool) (l : list A), (forall a b, eqb a b = true <-> a = b) ->
             (fix f l := match l with [] => true | a :: r => negb (existsb (eqb a) r) && f r end) l = true -> NoDup l).
  { intros A eqb l R. induction l as [|a l IH]; intros H; constructor; apply andb_prop in H; destruct H as [H1 H2].
    - intros I. apply negb_true_iff in H1. assert (existsb (eqb a) l = true); [|congruence].
      apply existsb_exists. exists a. split; [exact I|]. apply R. reflexivity.
    - apply IH, H2. }
  split; [apply (D _ str_eqb); [exact str_eqb_eq|vm_compute; reflexivity]|].
  split; [apply (D _ Nat.eqb); [exact Nat.eqb_eq|vm_compute; reflexivity]|].
  vm_compute. auto 10.
Qed.

(** ** C43: assignments *)

(** Objects may be iterable or not, but iterating over them changes nothing outside. *)
Theorem C43_unpacking : forall W (P : prims W), quiet_iter P -> forall s t v m, s < List.length (m_states m) ->
  (forall b, unpacks (items_in P (m_heap m) (m_world m)) t v b -> exists m', assign P s t v m = (Done tt, m') /\ assigned s b m m') /\
  (forall m', assign P s t v m = (Done tt, m') -> exists b, unpacks (items_in P (m_heap m) (m_world m)) t v b /\ assigned s b m m').
Proof. exact @assign_iff. Qed.
Print Assumptions C43_unpacking.
Example C43_example : quiet_iter ref_prims /\
  (exists m', assign ref_prims 0 targets1 (VList [VInt 1; VStr (u "ab")]) (with_vals [(5, VNone)]) = (Done tt, m') /\
     m_states m' = [{| s_vals := [(5, VNone); (1, VInt 1); (2, VStr (u "a")); (3, VStr (u "b"))]; s_indent := [NL] |}]) /\
  fst (assign ref_prims 0 targets1 (VList [VInt 1; VStr (u "abc")]) (with_vals [])) = Exc ValueError /\
  fst (assign ref_prims 0 targets1 (VList [VInt 1]) (with_vals [])) = Exc ValueError /\
  fst (assign ref_prims 0 targets1 (VList [VInt 1; VInt 2]) (with_vals [])) = Exc TypeError.
Proof.
  split; [intros v h w; eexists; reflexivity|]. split; [eexists; split; vm_compute; reflexivity|]. vm_compute. auto.
Qed.
