(** Properties C27-C32 and C44: control blocks, embedded DOMs, chains of tags. *)
From Coq Require Import List NArith ZArith Bool Lia Arith String.
From Verif Require Import PyStr Html PyDict Value Dom DomSpec DomFacts Ast Machine Eval Translate Analyse
  MachineFacts BlockSpec BlockFacts ControlFacts FuelFacts Ref Samples BlocksProofs.
Import ListNotations.
Local Open Scope list_scope.

(** ** C27: the same DOM in two places *)
(** Finding: a hypertag that inserts its body twice ([twice]) does not give what the script written out by hand
    gives: the first copy loses its indentation, because both places share the nodes. *)
Theorem C27_shared_refuted : exists globals d d' t t',
  d = twice /\ d' = twice_by_hand /\ script_text globals d = Done t /\ script_text globals d' = Done t' /\ t <> t'.
Proof. exact c27_shared_refuted. Qed.
Print Assumptions C27_shared_refuted.
Example C27_texts :
  script_text [gdiv; gp] twice = Done (u "<div>" ++ [NL] ++ u "<p>x</p>" ++ [NL] ++ u "</div>" ++ [NL] ++ u "<p>x</p>") /\
  script_text [gdiv; gp] twice_by_hand = Done (u "<div>" ++ [NL] ++ u "    <p>x</p>" ++ [NL] ++ u "</div>" ++ [NL] ++ u "<p>x</p>").
Proof. split; vm_compute; reflexivity. Qed.
(** Finding: an insertion in a failing branch of try leaves a trace: rendering ends with an AssertionError. *)
Theorem C27_discarded_refuted : exists globals d, d = twice_try /\ script_text globals d = Exc AssertionError.
Proof. exact c27_discarded_refuted. Qed.
Print Assumptions C27_discarded_refuted.

(** What an @ line inserts: the nodes that the value stands for, each one as often as the value has it, in order;
    or a TypeError. Values that are Python objects of other kinds are left out. *)
Theorem C27_embed_partial : forall W (P : prims W) n loops s e m o m',
  tr_block P (expand_n P n) loops s (BEmbed e) m = (o, m') -> o <> Fuel ->
  (exists x, eval P (expand_n P n) s e m = (Exc x, m') /\ o = Exc x) \/
  exists v m1, eval P (expand_n P n) s e m = (Done v, m1) /\ (is_object v = false ->
    (exists l, embedded v l /\ closed (Done l) m1 o m') \/ ((forall l, ~ embedded v l) /\ o = Exc TypeError /\ m' = m1)).
Proof. intros W P n loops s e m o m'. exact (embed_spec P (expand_n P n) loops s e m o m'). Qed.
Print Assumptions C27_embed_partial.
Example C27_embed_values : embedded (VTuple [VNode 4; VNone; VList [VDom [1; 2]; VNode 4]]) [4; 1; 2; 4] /\
  (forall l, ~ embedded (VList [VTuple []]) l) /\ (forall l, ~ embedded (VInt 1) l).
Proof.
  split; [|split; intros l H; inversion H; subst]. 2:{ match goal with K : inside_all _ _ |- _ => inversion K; subst end. match goal with K : inside _ _ |- _ => inversion K end. }
  constructor. apply (in_cons (VNode 4) _ [4] [1; 2; 4]); [constructor|]. apply (in_cons VNone _ [] [1; 2; 4]); [constructor|].
  apply (in_cons _ [] [1; 2; 4] []); [|constructor]. constructor. apply (in_cons (VDom [1; 2]) _ [1; 2] [4]); [constructor|]. apply (in_cons (VNode 4) [] [4] []); constructor.
Qed.

(** ** C28: the current indentation is restored, also on failure *)
Theorem C28_body : forall W (P : prims W) n loops s y m o m',
  tr_body P (expand_n P n) loops s y m = (o, m') -> o <> Fuel ->
  forall s', s_indent (state_at m' s') = s_indent (state_at m s').
Proof. intros W P n loops s y m o m' E N. exact (proj2 (same_body P n loops s y m o m' E N)). Qed.
Print Assumptions C28_body.
Theorem C28_block : forall W (P : prims W) n loops s b m o m',
  tr_block P (expand_n P n) loops s b m = (o, m') -> o <> Fuel ->
  forall s', s_indent (state_at m' s') = s_indent (state_at m s').
Proof. intros W P n loops s b m o m' E N. exact (proj2 (same_block P n loops s b m o m' E N)). Qed.
Print Assumptions C28_block.
Theorem C28_expansion : forall W (P : prims W) n h body attrs kw s m o m',
  expand_n P n h body attrs kw s m = (o, m') -> o <> Fuel ->
  forall s', s_indent (state_at m' s') = s_indent (state_at m s').
Proof. intros W P n h body attrs kw s m o m' E N. exact (proj2 (same_expand_n P n h body attrs kw s m o m' E N)). Qed.
Print Assumptions C28_expansion.
Theorem C28_expression : forall W (P : prims W) n s e m o m',
  eval P (expand_n P n) s e m = (o, m') -> o <> Fuel ->
  forall s', s_indent (state_at m' s') = s_indent (state_at m s').
Proof. intros W P n s e m o m' E N. exact (proj2 (same_eval P n s e m o m' E N)). Qed.
Print Assumptions C28_expression.
(** a body that fails four columns to the right *)
Example C28_example : exists m',
  run_body (body_in 4 [line1 "a"; blk (BEmbed failing); line1 "b"]) (with_vals []) = (Exc ValueError, m') /\
  s_indent (state_at m' 0) = [NL] /\ texts_of m' = [u "a"].
Proof. eexists. split; [vm_compute; reflexivity|]. split; reflexivity. Qed.

(** ** C29: try *)
Theorem C29_first_success : forall W (P : prims W) expand loops s ys m o m',
  tr_block P expand loops s (BTry ys) m = (o, m') -> o <> Fuel ->
  exists r m1, try_out (map (tr_body P expand loops s) ys) m r m1 /\ closed r m1 o m'.
Proof. exact @block_try. Qed.
Print Assumptions C29_first_success.
(** It raises nothing itself as long as the nodes of the chosen alternative are in their own place only:
    each node once in the heap, with the indentation given to it inside this block. *)
Theorem C29_never_raises_partial : forall W (P : prims W) expand loops s ys m l m1 ts ls,
  try_out (map (tr_body P expand loops s) ys) m (Done l) m1 ->
  l = map root ts -> Forall (repr (m_heap m1)) ts -> NoDup (all_ids ts) -> Forall2 (placed None) ts ls ->
  abs_indent (s_indent (state_at m1 s)) -> Forall (nested (s_indent (state_at m1 s))) ls ->
  exists m', tr_block P expand loops s (BTry ys) m = (Done (Some l), m').
Proof. exact @block_try_ok. Qed.
Print Assumptions C29_never_raises_partial.
Example C29_example : exists l m',
  run_block (BTry try3) (with_vals []) = (Done (Some l), m') /\ texts m' l = [u "5"; u "third"] /\
  texts_of m' = [u "first"; u "5"; u "third"] /\ slot_value m' 0 7 = Some (VInt 5).
Proof. eexists _, _. split; [vm_compute; reflexivity|]. split; [reflexivity|]. split; reflexivity. Qed.
Example C29_example_none : exists m', run_block (BTry (firstn 2 try3)) (with_vals []) = (Done (Some []), m').
Proof. eexists. vm_compute. reflexivity. Qed.
(** the conditions of C29_never_raises_partial in the first example *)
Example C29_example_placed : exists m1 ts ls,
  try_out (map (tr_body ref_prims ex 20 0) try3) (with_vals []) (Done (map root ts)) m1 /\
  Forall (repr (m_heap m1)) ts /\ NoDup (all_ids ts) /\ Forall2 (placed None) ts ls /\
  abs_indent (s_indent (state_at m1 0)) /\ Forall (nested (s_indent (state_at m1 0))) ls /\ ts <> [].
Proof.
  eexists _, [T 1 (text_info (u "5")) []; T 2 (text_info (u "third")) []], [L None []; L None []]. split.
  { change try3 with (firstn 2 try3 ++ nth 2 try3 (YItems []) :: skipn 3 try3). rewrite map_app. apply try_first with (m1 := m_after_bad).
    - eapply all_fail_cons; [vm_compute; reflexivity|]. eapply all_fail_cons; [vm_compute; reflexivity|]. apply all_fail_nil.
    - vm_compute. reflexivity. }
  split; [repeat constructor|]. split.
  { repeat constructor; cbn; intuition discriminate. }
  split; [repeat constructor|]. split; [exists []; split; [reflexivity|intros []]|]. split; [repeat constructor|discriminate].
Qed.
(** Finding: with imported hypertags and a shared body the try block itself may raise an AssertionError. State 0
    is that of the module defining H; the hypertag inserts its body in a failing branch, at an indentation of
    spaces, while the try block in state 1 is indented with tabs. *)
Theorem C29_never_raises_refuted : exists (m m1 m' : mach unit) ys l,
  tr_block ref_prims ex 20 1 (BTry ys) m = (Exc AssertionError, m') /\
  try_out (map (tr_body ref_prims ex 20 1) ys) m (Done l) m1.
Proof. exact c29_never_raises_refuted. Qed.
Print Assumptions C29_never_raises_refuted.

(** ** C30: if *)
Theorem C30_first_true : forall W (P : prims W) expand loops s clauses els m o m',
  tr_block P expand loops s (BIf clauses els) m = (o, m') -> o <> Fuel ->
  exists r m1,
    if_out (opt_body P expand loops s els)
           (map (fun cy => (test P expand s (fst cy), opt_body P expand loops s (snd cy))) clauses) m r m1 /\
    closed r m1 o m'.
Proof. exact @block_if. Qed.
Print Assumptions C30_first_true.
(** the first condition is false, the second true, the third would fail *)
Example C30_example : exists l m',
  run_block (BIf [ (ESimple OLt (lit 2) [lit 1], Some (body_in 4 [line1 "a"]));
                   (var 3, Some (body_in 4 [line1 "b"]));
                   (failing, Some (body_in 4 [line1 "c"])) ] (Some (YElse (Some (body_in 4 [line1 "d"])))))
            (with_vals [(3, VStr (u "yes"))]) = (Done (Some l), m') /\ texts m' l = [u "b"] /\ texts_of m' = [u "b"].
Proof. eexists _, _. split; [vm_compute; reflexivity|]. split; reflexivity. Qed.
Example C30_example_else : exists l m',
  run_block (BIf [(lit 0, None); (var 3, Some (body_in 4 [line1 "b"]))] (Some (YElse (Some (body_in 4 [line1 "d"])))))
            (with_vals [(3, VStr [])]) = (Done (Some l), m') /\ texts m' l = [u "d"].
Proof. eexists _, _. split; [vm_compute; reflexivity|]. reflexivity. Qed.

(** ** C31: for *)
Theorem C31_each_item_partial : forall W (P : prims W) expand loops s ts e y els m o m',
  tr_block P expand loops s (BFor ts e (Some y) els) m = (o, m') -> o <> Fuel ->
  exists r m1, closed r m1 o m' /\
    ((exists x, items_of_expr P expand s e m (Exc x) m1 /\ r = Exc x) \/
     (exists items err m0, items_of_expr P expand s e m (Done (items, err)) m0 /\
        for_out (fun v => _ <* assign P s ts v ;; tr_body P expand loops s y)
                (match els with Some z => Some (tr_body P expand loops s z) | None => None end) items err m0 r m1)).
Proof. intros W P expand loops s ts e y els. exact (block_for P expand loops s ts e (Some y) els). Qed.
Print Assumptions C31_each_item_partial.
Example C31_example : exists l m',
  run_block (for2 [ETuple [lit 1; slit "a"]; ETuple [lit 2; slit "b"]]) (with_vals []) = (Done (Some l), m') /\
  texts m' l = [u "a"; u "10"; u "b"; u "20"] /\ slot_value m' 0 0 = Some (VInt 2).
Proof. eexists _, _. split; [vm_compute; reflexivity|]. split; reflexivity. Qed.
Example C31_example_else : exists l m', run_block (for2 []) (with_vals []) = (Done (Some l), m') /\ texts m' l = [u "none"].
Proof. eexists _, _. split; [vm_compute; reflexivity|]. reflexivity. Qed.
Example C31_example_fail : exists m', run_block (for2 [ETuple [lit 1; slit "a"]; lit 2]) (with_vals []) = (Exc TypeError, m').
Proof. eexists. vm_compute. reflexivity. Qed.

(** Without a body, the else clause is output once for each item. *)
Theorem C31_else_refuted : exists ts e z m l m' items m0,
  items_of_expr ref_prims ex 0 e m (Done (items, None)) m0 /\ items <> [] /\
  tr_block ref_prims ex 20 0 (BFor ts e None (Some z)) m = (Done (Some l), m') /\ texts m' l <> [].
Proof. exact c31_else_refuted. Qed.
Print Assumptions C31_else_refuted.
(** In a whole script an else clause with a variable in it always fails, because it is never analysed. *)
Theorem C31_else_variable_refuted : exists d x y z,
  d = [blk (BAssign (def_ "y") None (lit 1)); blk (BFor (def_ "x") (EList []) (Some (YItems [x])) (Some (YElse (Some (YItems [y])))))] /\
  z = [blk (BAssign (def_ "y") None (lit 1)); blk (BIf [] (Some (YElse (Some (YItems [y])))))] /\
  script_text [gp] d = Exc AttributeError /\ script_text [gp] z = Done (u "1").
Proof. exact c31_else_variable_refuted. Qed.
Print Assumptions C31_else_variable_refuted.

(** ** C32: while *)
Theorem C32_iterations : forall W (P : prims W) expand loops s c y els m o m',
  tr_block P expand loops s (BWhile c y els) m = (o, m') -> o <> Fuel ->
  exists n r m1, n < loops /\ closed r m1 o m' /\
    while_out (test P expand s c) (opt_body P expand loops s y)
              (match els with Some z => Some (tr_body P expand loops s z) | None => None end) n m r m1.
Proof. exact @block_while. Qed.
Print Assumptions C32_iterations.
(** The bound of the model on the number of iterations (and of nested expansions) plays no role in an
    outcome obtained within it. *)
Theorem C32_bound_irrelevant : forall W (P : prims W) n n' s d m o m',
  n <= n' -> tr_document P n s d m = (o, m') -> o <> Fuel -> tr_document P n' s d m = (o, m').
Proof. intros W P n n' s d m o m' L. exact (ref_document P n n' s d L m o m'). Qed.
Print Assumptions C32_bound_irrelevant.
Example C32_example : exists l m',
  run_block (count_to 3) (with_vals [(0, VInt 0)]) = (Done (Some l), m') /\ texts m' l = [u "0"; u "1"; u "2"] /\ slot_value m' 0 0 = Some (VInt 3).
Proof. eexists _, _. split; [vm_compute; reflexivity|]. split; reflexivity. Qed.
Example C32_example_else : exists l m',
  run_block (count_to 3) (with_vals [(0, VInt 5)]) = (Done (Some l), m') /\ texts m' l = [u "never"].
Proof. eexists _, _. split; [vm_compute; reflexivity|]. reflexivity. Qed.

(** ** C44: chained tags *)
Theorem C44_order : forall W (P : prims W) expand loops s tags y m o m',
  tr_block P expand loops s (BStruct tags y) m = (o, m') -> o <> Fuel ->
  exists r m1, closed r m1 o m' /\
    ((exists e, tr_body P expand loops s y m = (Exc e, m1) /\ r = Exc e) \/
     (exists l m0, tr_body P expand loops s y m = (Done l, m0) /\ nest (tr_tag P expand s) tags l m0 r m1)).
Proof. exact @block_struct. Qed.
Print Assumptions C44_order.
(** With external tags the result is one node inside another, with the body in the last one. *)
Theorem C44_nested_nodes : forall W (P : prims W) expand s m tags fs ts h,
  Forall2 (plain_tag P expand s m) tags fs -> Forall (repr h) ts ->
  exists is h', apply_tags P expand s tags (map root ts) (with_heap m h) = (Done (map root (tower (combine is fs) ts)), with_heap m h') /\
    Forall (repr h') (tower (combine is fs) ts) /\ List.length is = List.length fs /\ NoDup is /\
    Forall (fun i => List.length h <= i < List.length h') is /\ exists e, h' = h ++ e.
Proof. intros W P expand s m tags fs ts h F. exact (tags_tower P expand s m tags fs F ts h). Qed.
Print Assumptions C44_nested_nodes.
Example C44_example :
  Forall2 (plain_tag ref_prims ex 0 (with_vals chain_vals)) chain chain_infos /\
  exists l m', run_block (BStruct chain (YBlock (text "x"))) (with_vals chain_vals) = (Done (Some l), m') /\
    exists m'', do_set_indent [] l m' = (Done tt, m'') /\ rendered m'' l = Done (u "<div title=""a""><p>x</p></div>").
Proof.
  split.
  - repeat constructor.
    + exists 0, (Tag 2 (u "div") (KMarkup false HTML)), [], [(u "title", VStr (u "a"))]. repeat split.
    + exists 1, (Tag 4 (u "p") (KMarkup false HTML)), [], []. repeat split.
  - eexists _, _. split; [vm_compute; reflexivity|]. eexists. split; [vm_compute; reflexivity|]. vm_compute. reflexivity.
Qed.
