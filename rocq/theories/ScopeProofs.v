(** Proofs and sample data of the theorems in PropScope.v. *)
From Coq Require Import List NArith ZArith Bool Lia Arith String.
From Verif Require Import PyStr Html PyDict Structs StructsSpec Value Dom Ast Machine Eval Translate Analyse
  MachineFacts ScopeSpec FrameFacts ScopeFacts NamesFacts LocalFacts ShareFacts Ref Samples.
Import ListNotations.
Local Open Scope list_scope.

(** Modules are found by an arbitrary [import_module]. [import_fine]: importing creates new slots and
    definitions that write to new slots only. *)

(** the contexts reached during the analysis of a script *)
Definition context_ok {W} (c : ctx) (m : mach W) : Prop := sound c /\ fit c /\ keyed c m.
Lemma context_new {W} (m : mach W) : context_ok new_ctx m.
Proof. exact (conj sound_new (conj fit_new (keyed_empty m))). Qed.
Lemma context_step {W} (import_module : str -> M W module) context b c m b' c' m' : import_fine import_module -> raw_block b ->
  context_ok c m -> an_block import_module context b c m = (Done (b', c'), m') -> context_ok c' m'.
Proof.
  intros IMP RW (I & F & K) E. destruct (proj1 (an_steps import_module context IMP) b RW _ _ _ _ _ I F E) as (e & d & S1).
  exact (conj (st_inv _ _ _ _ _ _ _ S1) (conj (step_fit _ _ _ _ _ _ _ S1 F) (keyed_step _ _ _ _ _ _ _ S1 K))).
Qed.

(**   $v = 1
      p
          $v = 2
          $w = 3
          | {v}{w}
      | {v}                                                                                         *)
Definition local_vars : list item :=
  [ blk (BAssign (def_ "v") None (lit 1));
    blk (tagged "p" (body_in 4 [ blk (BAssign (def_ "v") None (lit 2)); blk (BAssign (def_ "w") None (lit 3));
                                 blk (text_of (EConcat [name "v"; name "w"])) ])) ].
Lemma no_import_fine : import_fine no_import.
Proof. intros p m md m' [=]. Qed.

(** Inside of a definition the claim is false: all expansions of a hypertag share their variables, so a
    tagged block that expands the hypertag again changes them.
      % H t n
          $v = n
          | {v}
          p
              if n: | {t(None, t, 0)}
          | {v}
      H %H 1                                                                                        *)
Definition reentry : document :=
  [ blk (BDef None (u "H") None [ {| a_name := u "t"; a_default := None; a_slot := None |};
                                  {| a_name := u "n"; a_default := None; a_slot := None |} ] (body_in 4
      [ blk (BAssign (def_ "v") None (name "n"));
        blk (text_of (name "v"));
        blk (tagged "p" (body_in 4
          [ blk (BIf [(name "n", Some (YBlock (text_of (EFactor (name "t") [TCall [(None, ELit VNone); (None, name "t"); (None, lit 0)]] QNone))))] None) ]));
        blk (text_of (name "v")) ]));
    blk (BStruct [XTag (u "H") None [ETag (TAG (u "H")) None; lit 1] []] (YItems [])) ].

Lemma c33_refuted : exists globals d, d = reentry /\
  script_text globals d = Done (u "1" ++ [NL] ++ u "<p>" ++ [NL] ++ u "    0" ++ [NL] ++ u "    <p></p>" ++ [NL] ++ u "    0" ++ [NL] ++ u "</p>" ++ [NL] ++ u "0").
Proof. exists [gp], reentry. split; [reflexivity|]. vm_compute. reflexivity. Qed.

(** Inside of a tagged block, a variable of the surroundings assigned in a control block keeps its old
    value after the control block.
      $x = 1
      p
          if 1
              $x = 2
          | {x}                                                                                     *)
Definition lost_assignment (inner : list item) : document :=
  [ blk (BAssign (def_ "x") None (lit 1)); blk (tagged "p" (body_in 4 (inner ++ [blk (text_of (name "x"))]))) ].
Definition if_assign : list item := [blk (BIf [(lit 1, Some (body_in 4 [blk (BAssign (def_ "x") None (lit 2))]))] None)].

Lemma c34_refuted : exists globals d, d = lost_assignment if_assign /\
  script_text globals d = Done (u "<p>" ++ [NL] ++ u "    1" ++ [NL] ++ u "</p>").
Proof. exists [gp], (lost_assignment if_assign). split; [reflexivity|]. vm_compute. reflexivity. Qed.

Lemma c34_block_partial : forall W (import_module : str -> M W module) context n c m b b' c' m' x,
  import_fine import_module -> context_ok c m -> c_prolog c = false -> raw_block b -> is_control b = true ->
  (forall i, c_get c (var_symbol n) = Some i -> sl_depth i = c_regular c) ->
  an_block import_module context b c m = (Done (b', c'), m') -> In (n, x) (binds b') ->
  exists i, c_get c' (var_symbol n) = Some i /\ sl_id i = x.
Proof.
  intros W import_module context n c m b b' c' m' x IMP (I & F & _) PR RW IC ST E.
  exact (control_shared import_module context IMP n c m b b' c' m' x I F PR ST RW IC E).
Qed.

(**   $x = 1
      try
          $y = 5
          $x = 2
          @ failing
      else
          for x in [3, 4]
              $y = 6
      | {x}{y}                                                                                      *)
Definition shared_vars : document :=
  [ blk (BAssign (def_ "x") None (lit 1));
    blk (BTry [ body_in 4 [ blk (BAssign (def_ "y") None (lit 5)); blk (BAssign (def_ "x") None (lit 2)); blk (BExpr failing) ];
                body_in 4 [ blk (BFor (def_ "x") (EList [lit 3; lit 4]) (Some (body_in 4 [blk (BAssign (def_ "y") None (lit 6))])) None) ] ]);
    blk (text_of (EConcat [name "x"; name "y"])) ].

Lemma c35_nothing_done : forall W (import_module : str -> M W module) context modules J (P : prims W) n globals d m,
  modules_are import_module modules J -> steady J -> J m -> (forall p, pres idle (import_module p)) ->
  Forall no_for_else_item d -> ~ scoped_items modules (map fst context) true (map fst globals) d ->
  exists e m', translate import_module context P n globals d m = (Exc e, m') /\
    m_heap m' = m_heap m /\ m_states m' = m_states m /\ m_world m' = m_world m.
Proof.
  intros W import_module context modules J P n globals d m MOD ST JM IDLE.
  exact (undefined_idle import_module context modules J MOD ST P n globals d m IDLE JM).
Qed.

Lemma c35_defined : forall W (import_module : str -> M W module) context modules J globals d m,
  modules_are import_module modules J -> steady J -> J m -> Forall no_for_else_item d ->
  scoped_items modules (map fst context) true (map fst globals) d ->
  exists a m', an_document import_module context globals d m = (Done a, m') /\ Forall linked_item (d_items a).
Proof.
  intros W import_module context modules J globals d m MOD ST JM NF SC.
  assert (H := an_document_scoped import_module context modules J MOD ST globals d m JM NF).
  destruct (an_document import_module context globals d m) as [[a|e|] m']; [|contradiction|contradiction].
  exact (ex_intro _ a (ex_intro _ m' (conj eq_refl (proj2 H)))).
Qed.
Lemma no_modules : modules_are no_import (fun _ => None) any_machine.
Proof. intros p m _. eexists _, _. reflexivity. Qed.
Lemma no_import_idle p : pres idle (no_import p).
Proof. apply pres_exc. apply idle_refl. Qed.

(** the undefined name is in a branch that is not taken, after a call with effects *)
Definition unreached (n : string) : document :=
  [ blk (BAssign (def_ "x") None (lit 1)); blk (BExpr failing);
    blk (BIf [(lit 0, Some (body_in 4 [blk (tagged "p" (YBlock (text_of (name n))))]))] None) ].

(** The else clause of a for loop is not analysed at all if the loop has a body (core/ast.py 947-950):
    an undefined name stays unnoticed while the clause is not reached.
      for x in [1]
          | a
      else
          | {undefined}                                                                             *)
Definition for_else (l : list expr) : document :=
  [ blk (BFor (def_ "x") (EList l) (Some (body_in 4 [blk (text "a")])) (Some (YElse (Some (body_in 4 [blk (text_of (name "undefined"))]))))) ].

Lemma c35_refuted : exists d modules given globals,
  d = for_else [lit 1] /\ ~ scoped_items modules given true (map fst globals) d /\ script_text globals d = Done (u "a").
Proof.
  exists (for_else [lit 1]), (fun _ => None), [], [gp]. split; [reflexivity|]. split; [|vm_compute; reflexivity].
  intros ((_ & _ & _ & (_ & _ & _ & _ & H & _)) & _). cbn in H.
  destruct (H (var_symbol (u "undefined")) (or_introl eq_refl)) as [X|[X|[]]]; vm_compute in X; discriminate.
Qed.

Lemma c36_symbols : forall W (import_module : str -> M W module) context modules J c m b b' c' m',
  modules_are import_module modules J -> steady J -> J m -> context_ok c m -> no_for_else b -> (only_prolog b = false -> c_prolog c = false) ->
  an_block import_module context b c m = (Done (b', c'), m') ->
  forall z, ~ In z (adds modules b) -> c_get c' z = c_get c z.
Proof.
  intros W import_module context modules J c m b b' c' m' MOD ST JM (I & _ & _).
  exact (symbols_kept import_module context modules J MOD ST c m b b' c' m' JM I).
Qed.

Lemma c36_definition : forall W (import_module : str -> M W module) context modules J c m d n ab ar y b' c' m',
  import_fine import_module -> modules_are import_module modules J -> steady J -> J m -> context_ok c m -> raw_body y -> no_for_else_body y -> c_prolog c = false ->
  an_block import_module context (BDef d n ab ar y) c m = (Done (b', c'), m') ->
  forall k, c_get c' (var_symbol k) = c_get c (var_symbol k) /\
  forall (P : prims W) expand loops s mr o mr' i s0, c_get c (var_symbol k) = Some i ->
    tr_block P expand loops s b' mr = (o, mr') -> slot_value mr' s0 (sl_id i) = slot_value mr s0 (sl_id i).
Proof.
  intros W import_module context modules J c m d n ab ar y b' c' m' IMP MOD ST JM (I & F & K) RW NF PR E k.
  exact (conj (symbols_kept import_module context modules J MOD ST c m (BDef d n ab ar y) b' c' m' JM I NF (fun _ => PR) E (var_symbol k)
                (no_variable_added modules d n ab ar y k))
              (fun P expand loops s mr o mr' i s0 => variables_kept import_module context IMP c m d n ab ar y b' c' m' I F K RW E
                P expand loops s mr o mr' (var_symbol k) i s0)).
Qed.

Lemma c36_assignment : forall W (import_module : str -> M W module) context c m ts o e b' c' m',
  context_ok c m -> c_prolog c = false ->
  an_block import_module context (BAssign ts o e) c m = (Done (b', c'), m') ->
  forall k, c_get c' (tag_symbol k) = c_get c (tag_symbol k).
Proof.
  intros W import_module context c m ts o e b' c' m' (I & _ & _) PR E k.
  exact (symbols_kept (fun _ => exc ModuleNotFound) context (fun _ => None) any_machine (fun p m _ => ex_intro _ _ (ex_intro _ m eq_refl)) (any_steady W)
           c m (BAssign ts o e) b' c' m' Logic.I I Logic.I (fun _ => PR) E (tag_symbol k) (no_tag_added ts k)).
Qed.

(**   $p = 5
      % p @b: | {p}
      p: | x                   -> 5
      $p = 6
      p: | x                   -> 6                                                                 *)
Definition same_name : document :=
  [ blk (BAssign (def_ "p") None (lit 5));
    blk (BDef None (u "p") (Some (u "b", None)) [] (YBlock (text_of (name "p"))));
    blk (tagged "p" (YBlock (text "x")));
    blk (BAssign (def_ "p") None (lit 6));
    blk (tagged "p" (YBlock (text "x"))) ].

(** Local variables do survive: the second expansion sees the variable of the first one.
      % H c
          if c
              $y = 5
          | {y}
      H 1
      H 0                                                                                           *)
Definition leaking : item :=
  blk (BDef None (u "H") None [ {| a_name := u "c"; a_default := None; a_slot := None |} ] (body_in 4
    [ blk (BIf [(name "c", Some (body_in 4 [blk (BAssign (def_ "y") None (lit 5))]))] None); blk (text_of (name "y")) ])).
Definition call_H (z : Z) : item := blk (BStruct [XTag (u "H") None [lit z] []] (YItems [])).

Lemma c38_refuted : exists globals d1 d2,
  d1 = [leaking; call_H 0] /\ d2 = [leaking; call_H 1; call_H 0] /\
  script_text globals d1 = Exc UnboundLocalError /\ script_text globals d2 = Done (u "5" ++ [NL] ++ u "5").
Proof. exists [gp], [leaking; call_H 0], [leaking; call_H 1; call_H 0]. repeat split; vm_compute; reflexivity. Qed.
