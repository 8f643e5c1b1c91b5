(** Proofs and sample data of the theorems in PropBlocks.v. *)
From Coq Require Import List NArith ZArith Bool Lia Arith String.
From Verif Require Import PyStr Html PyDict Value Dom DomSpec DomFacts Ast Machine Eval Translate Analyse
  MachineFacts BlockSpec BlockFacts ControlFacts FuelFacts Ref Samples.
Import ListNotations.
Local Open Scope list_scope.

(** A hypertag that inserts its body twice does not give what the script written out by hand gives: the
    first copy loses its indentation, because both places share the nodes. *)
Definition twice : document :=
  [ blk (BDef None (u "G") (Some (u "body", None)) [] (body_in 4
      [ blk (tagged "div" (body_in 4 [blk (BEmbed (name "body"))])); blk (BEmbed (name "body")) ]));
    blk (tagged "G" (body_in 4 [blk (tagged "p" (YBlock (text "x")))])) ].
Definition twice_by_hand : document :=
  [ blk (tagged "div" (body_in 4 [blk (tagged "p" (YBlock (text "x")))])); blk (tagged "p" (YBlock (text "x"))) ].

Lemma c27_shared_refuted : exists globals d d' t t',
  d = twice /\ d' = twice_by_hand /\ script_text globals d = Done t /\ script_text globals d' = Done t' /\ t <> t'.
Proof.
  exists [gdiv; gp], twice, twice_by_hand. eexists _, _. split; [reflexivity|]. split; [reflexivity|].
  split; [vm_compute; reflexivity|]. split; [vm_compute; reflexivity|]. discriminate.
Qed.

(** An insertion in a failing branch of try does leave a trace: rendering ends with an AssertionError. *)
Definition twice_try : document :=
  [ blk (BDef None (u "G") (Some (u "body", None)) [] (body_in 4
      [ blk (tagged "div" (body_in 4 [blk (tagged "p" (body_in 4 [blk (BEmbed (name "body"))]))]));
        blk (BTry [body_in 4 [blk (BEmbed (name "body")); blk (BExpr failing)]]) ]));
    blk (tagged "G" (body_in 4 [blk (tagged "p" (YBlock (text "x")))])) ].

Lemma c27_discarded_refuted : exists globals d, d = twice_try /\ script_text globals d = Exc AssertionError.
Proof. exists [gdiv; gp], twice_try. split; [reflexivity|]. vm_compute. reflexivity. Qed.

(** two failing alternatives, one after an assignment and some output, and a third one that reads the
    variable *)
Definition try3 : list body :=
  [ body_in 4 [line1 "first"; blk (BExpr failing)];
    body_in 4 [blk (BAssign (into 7) None (lit 5)); blk (BEmbed failing)];
    body_in 4 [shown (var 7); line1 "third"];
    body_in 4 [line1 "fourth"] ].
Definition m_after_bad : mach unit := Eval vm_compute in snd (run_body (nth 1 try3 (YItems [])) (snd (run_body (nth 0 try3 (YItems [])) (with_vals [])))).

(** With imported hypertags and a shared body the try block itself may raise an AssertionError. State 0 is
    that of the module defining H; the hypertag inserts its body in a failing branch, at an indentation of
    spaces, while the try block in state 1 is indented with tabs. *)
Definition module_H : hdef :=
  {| h_name := u "H"; h_body := Some (u "body", 50); h_regul := [];
     h_block := body_in 4 [blk (BTry [body_in 4 [blk (BEmbed (var 50)); blk (BExpr failing)]])] |}.
Definition shared_mach : mach unit :=
  Mach [ {| c_info := text_info (u "x"); c_body := [] |} ]
       [ new_stt; {| s_vals := [(0, VDom [0]); (1, VHyper (HImp (HDef 0) 0))]; s_indent := [NL; PyStr.TAB] |} ]
       [module_H] 100 {| rt_hy := []; rt_py := []; rt_builtins := None |} tt.
Definition in_tab (l : list item) : body := YItems (NIndent PyStr.TAB :: l ++ [NDedent PyStr.TAB]).
Definition shared_try : list body :=
  [ in_tab [ blk (BStruct [XNull] (in_tab [blk (BEmbed (var 0))]));
             blk (BStruct [XTag (u "H") (Some 1) [] []] (in_tab [blk (BEmbed (var 0))])) ] ].

Lemma c29_never_raises_refuted : exists (m m1 m' : mach unit) ys l,
  tr_block ref_prims ex 20 1 (BTry ys) m = (Exc AssertionError, m') /\
  try_out (map (tr_body ref_prims ex 20 1) ys) m (Done l) m1.
Proof.
  exists shared_mach. eexists _, _, shared_try, _. split; [vm_compute; reflexivity|].
  apply (try_first [] _ [] shared_mach shared_mach); [constructor|]. vm_compute. reflexivity.
Qed.

(** for v0, v1 in [(1, 'a'), (2, 'b')] *)
Definition for2 (items : list expr) : block :=
  BFor (TTargets [TVar (u "i") false None (Some 0); TVar (u "t") false None (Some 1)]) (EList items)
       (Some (body_in 4 [shown (var 1); shown (ESimple OMul (var 0) [lit 10])])) (Some (YElse (Some (body_in 4 [line1 "none"])))).

Lemma c31_else_refuted : exists ts e z m l m' items m0,
  items_of_expr ref_prims ex 0 e m (Done (items, None)) m0 /\ items <> [] /\
  tr_block ref_prims ex 20 0 (BFor ts e None (Some z)) m = (Done (Some l), m') /\ texts m' l <> [].
Proof.
  exists (into 0), (EList [lit 1; lit 2]), (YElse (Some (body_in 4 [line1 "none"]))), (with_vals []). eexists _, _, [VInt 1; VInt 2], (with_vals []).
  split; [eapply items_value; vm_compute; reflexivity|]. split; [discriminate|]. split; [vm_compute; reflexivity|]. discriminate.
Qed.

Lemma c31_else_variable_refuted : exists d x y z,
  d = [blk (BAssign (def_ "y") None (lit 1)); blk (BFor (def_ "x") (EList []) (Some (YItems [x])) (Some (YElse (Some (YItems [y])))))] /\
  z = [blk (BAssign (def_ "y") None (lit 1)); blk (BIf [] (Some (YElse (Some (YItems [y])))))] /\
  script_text [gp] d = Exc AttributeError /\ script_text [gp] z = Done (u "1").
Proof.
  eexists _, (line1 "item"), (shown (name "y")), _. split; [reflexivity|]. split; [reflexivity|]. split; vm_compute; reflexivity.
Qed.
Definition count_to (k : Z) : block :=
  BWhile (ESimple OLt (var 0) [lit k])
         (Some (body_in 4 [shown (var 0); blk (BAssign (TTargets [TVar (u "v") true (Some 0) (Some 0)]) (Some OAdd) (lit 1))]))
         (Some (YElse (Some (body_in 4 [line1 "never"])))).

(** div title='a' : p : . : | x *)
Definition chain : list tagexp :=
  [ XTag (u "div") (Some 0) [] [(u "title", slit "a")]; XTag (u "p") (Some 1) [] []; XNull ].
Definition chain_vals : list (nat * val) := [(0, snd gdiv); (1, snd gp)].
Definition chain_infos : list info :=
  [ node_info (Tag 2 (u "div") (KMarkup false HTML)) [] (Some [(u "title", VStr (u "a"))]);
    node_info (Tag 4 (u "p") (KMarkup false HTML)) [] (Some []); node_info null_tag [] None ].
