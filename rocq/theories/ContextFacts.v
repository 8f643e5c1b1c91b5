(** The dynamic context: a document depends on the symbols it declares, and on nothing else. *)
From Coq Require Import List NArith ZArith Bool Arith Lia.
From Verif Require Import PyStr PyStrFacts PyDict Value Dom Ast AstInd Structs StructsSpec StructsFacts Machine Eval Translate Analyse Paths Runtime
  RuntimeSpec ScopeSpec MachineFacts FrameFacts ScopeFacts NamesFacts LocalFacts RuntimeFacts.
Import ListNotations.

Section Context.
  Context {W : Type}.
  Variable import_module : str -> M W module.
  Variables context context' : list (str * val).

  (** outside of the prolog two computations are the same *)
  Definition alike {A} (x x' : AM (W := W) A) : Prop := forall c m, c_prolog c = false ->
    x c m = x' c m /\ (forall a c' m', x c m = (Done (a, c'), m') -> c_prolog c' = false).
  Lemma alike_bind {A B} (x x' : AM A) (f f' : A -> AM B) : alike x x' -> (forall a, alike (f a) (f' a)) -> alike (abind x f) (abind x' f').
  Proof.
    intros X F c m P. destruct (X c m P) as [E K]. unfold abind, mbind. rewrite <- E. destruct (x c m) as [[[a c1]|e|] m1]; [|split; [reflexivity|discriminate]..].
    apply F. apply (K a c1 m1). reflexivity.
  Qed.
  Lemma alike_ret {A} (a : A) : alike (aret a) (aret a).
  Proof. intros c m P. split; [reflexivity|]. intros b c' m' [= <- <- <-]. exact P. Qed.
  Lemma alike_read {A} (f : ctx -> result A) : alike (aread f) (aread f).
  Proof. intros c m P. split; [reflexivity|]. unfold aread, mbind, of_result. destruct (f c); [|discriminate]. intros b c' m' [= <- <- <-]. exact P. Qed.
  Lemma alike_mod f : (forall c, c_prolog c = false -> c_prolog (f c) = false) -> alike (amod f) (amod f).
  Proof. intros H c m P. split; [reflexivity|]. intros b c' m' [= <- <- <-]. apply H, P. Qed.
  Lemma alike_lift {A} (x : M W A) : alike (alift x) (alift x).
  Proof. intros c m P. split; [reflexivity|]. unfold alift, mbind. destruct (x m) as [[a|e|] m1]; [|discriminate..]. intros b c' m' [= <- <- <-]. exact P. Qed.
  Lemma alike_map {A B} (g g' : A -> AM B) l : Forall (fun x => alike (g x) (g' x)) l -> alike (amap g l) (amap g' l).
  Proof.
    intros H. induction H as [|x l Hx _ IH]; [apply alike_ret|]. cbn [amap]. apply alike_bind; [exact Hx|]. intros y.
    apply alike_bind; [exact IH|]. intros ys. apply alike_ret.
  Qed.
  Lemma alike_slot y : alike (new_slot y) (new_slot y).
  Proof. intros c m P. split; [reflexivity|]. intros b c' m' [= <- <- <-]. exact P. Qed.
  Lemma alike_slot2 y : alike (new_slot2 y) (new_slot2 y).
  Proof. apply alike_bind; [apply alike_slot|]. intros x c m P. split; [reflexivity|]. intros b c' m' [= <- <- <-]. exact P. Qed.
  Lemma alike_position : alike aposition aposition.
  Proof. intros c m P. split; [reflexivity|]. intros b c' m' [= <- <- <-]. exact P. Qed.
  Lemma alike_asdict p : alike (aasdict p) (aasdict p).
  Proof. intros c m P. split; [reflexivity|]. intros b c' m' [= <- <- <-]. exact P. Qed.
  Lemma alike_reset p : alike (areset p) (areset p).
  Proof.
    intros c m P. split; [reflexivity|]. unfold areset, mbind, of_result. destruct (md_reset p (c_md c)); [|discriminate].
    intros b c' m' [= <- <- <-]. exact P.
  Qed.
  Lemma alike_def h : alike (new_def h) (new_def h).
  Proof. intros c m P. split; [reflexivity|]. intros b c' m' [= <- <- <-]. exact P. Qed.
  Lemma alike_target t : alike (an_target t) (an_target t).
  Proof.
    induction t as [n rd r w|l IH] using target_ind'; cbn [an_target].
    - apply alike_bind; [apply alike_read|]. intros r'. apply alike_bind; [|intros w'; apply alike_ret]. intros c m P.
      destruct (c_get c (VAR n)) as [i|]; [destruct (Nat.eqb _ _)|]; [|apply (alike_slot2 (VAR n) c m P)..].
      split; [reflexivity|]. intros b c' m' [= <- <- <-]. exact P.
    - apply alike_bind; [apply alike_map, IH|]. intros l'. apply alike_ret.
  Qed.
  Lemma alike_branch {A} (x x' : AM A) : alike x x' -> alike (branch x) (branch x').
  Proof.
    intros X. unfold branch. apply alike_bind; [apply alike_position|]. intros p. apply alike_bind; [exact X|]. intros a.
    apply alike_bind; [apply alike_asdict|]. intros d. apply alike_bind; [apply alike_reset|]. intros _. apply alike_bind; [apply alike_mod; auto|]. intros _. apply alike_ret.
  Qed.
  Lemma alike_control {A} (x x' : AM A) : alike x x' -> alike (control x) (control x').
  Proof.
    intros X. unfold control. apply alike_bind; [apply alike_mod; auto|]. intros p. apply alike_bind; [exact X|]. intros a.
    apply alike_bind; [apply alike_mod; auto|]. intros _. apply alike_ret.
  Qed.
  Lemma alike_import p i : alike (an_import import_module p i) (an_import import_module p i).
  Proof.
    unfold an_import. apply alike_bind; [apply alike_lift|].
    intros md. destruct i as [sl|y rn sl].
    + apply alike_bind; [apply alike_read|]. intros vs. apply alike_bind; [|intros l; apply alike_ret]. apply alike_map, Forall_forall.
      intros [y v] _. apply alike_bind; [apply alike_slot|]. intros x. apply alike_ret.
    + destruct (dget str_eqb y (mod_symbols md)); [|apply alike_read]. apply alike_bind; [apply alike_read|]. intros w.
      apply alike_bind; [apply alike_slot|]. intros x. apply alike_ret.
  Qed.
  Ltac qb := apply alike_bind; [first [apply alike_read|apply alike_mod; solve [auto]|apply alike_position|apply alike_reset|apply alike_def|apply alike_slot|apply alike_slot2|apply alike_target]|intros ?].
  Notation AB := (an_block import_module).
  Notation AY := (an_body import_module).
  Notation AI := (an_item import_module).
  Lemma alike_all :
    (forall b, alike (AB context b) (AB context' b)) /\ (forall y, alike (AY context y) (AY context' y)) /\
    (forall i, alike (AI context i) (AI context' i)).
  Proof.
    assert (OPT : forall o, on_opt (fun y => alike (AY context y) (AY context' y)) o ->
      alike (match o with Some y => abind (AY context y) (fun y => aret (Some y)) | None => aret None end)
            (match o with Some y => abind (AY context' y) (fun y => aret (Some y)) | None => aret None end)).
    { intros [y|] H; [|apply alike_ret]. apply alike_bind; [exact H|]. intros a. apply alike_ret. }
    assert (OPTB : forall o, on_opt (fun y => alike (AY context y) (AY context' y)) o ->
      alike (match o with Some y => abind (branch (AY context y)) (fun y => aret (Some y)) | None => aret None end)
            (match o with Some y => abind (branch (AY context' y)) (fun y => aret (Some y)) | None => aret None end)).
    { intros [y|] H; [|apply alike_ret]. apply alike_bind; [apply alike_branch, H|]. intros a. apply alike_ret. }
    assert (CL : forall t (o : option body), on_opt (fun y => alike (AY context y) (AY context' y)) o ->
      alike (branch (abind (aread (fun c => an_expr c t)) (fun t =>
        abind (match o with Some y => abind (AY context y) (fun y => aret (Some y)) | None => aret None end) (fun y => aret (t, y)))))
            (branch (abind (aread (fun c => an_expr c t)) (fun t =>
        abind (match o with Some y => abind (AY context' y) (fun y => aret (Some y)) | None => aret None end) (fun y => aret (t, y)))))).
    { intros t o H. apply alike_branch. qb. apply alike_bind; [apply OPT, H|]. intros y. apply alike_ret. }
    apply block_body_item_ind; intros; cbn [an_block an_body an_item].
    - qb. apply alike_ret.
    - apply alike_ret.
    - qb. apply alike_ret.
    - qb. qb. qb. apply alike_bind; [assumption|]. intros y'. qb. qb. apply alike_ret.
    - qb. qb. qb. qb. qb. apply alike_bind.
      { destruct ab as [[bn bx]|]; [qb|]; apply alike_ret. }
      intros ab'. apply alike_bind.
      { apply alike_map, Forall_forall. intros x _. qb. apply alike_ret. }
      intros regul. apply alike_bind; [assumption|]. intros y'. qb. qb. qb. qb. qb. apply alike_ret.
    - qb. apply alike_bind; [|intros l'; apply alike_ret]. apply alike_map, Forall_forall. intros i _. apply alike_import.
    - intros c m P. unfold abind, aread, mbind. rewrite P. split; [reflexivity|discriminate].
    - apply alike_bind; [|intros l'; apply alike_ret]. apply alike_control, alike_map. eapply Forall_impl; [|eassumption]. intros y Hy. apply alike_branch, Hy.
    - apply alike_bind; [|intros l'; apply alike_ret]. apply alike_control. apply alike_bind.
      + apply alike_map. eapply Forall_impl; [|eassumption]. intros [t y] Hy. apply CL, Hy.
      + intros cs. apply alike_bind; [apply OPTB; assumption|]. intros e. apply alike_ret.
    - apply alike_bind; [|intros l'; apply alike_ret]. apply alike_control. apply alike_bind; [apply CL; assumption|].
      intros ty. apply alike_bind; [apply OPTB; assumption|]. intros e. apply alike_ret.
    - apply alike_bind.
      + apply alike_control. qb. qb. destruct y as [y|].
        * apply alike_bind; [assumption|]. intros y'. apply alike_ret.
        * destruct els as [z|]; [|apply alike_ret]. apply alike_bind; [assumption|]. intros y'. apply alike_ret.
      + intros [[[e' ts'] y'] els']. apply alike_ret.
    - qb. apply alike_ret.
    - qb. qb. apply alike_ret.
    - apply alike_ret.
    - apply alike_bind; [apply alike_map; assumption|]. intros l'. apply alike_ret.
    - apply alike_bind; [assumption|]. intros l'. apply alike_ret.
    - destruct o as [y|]; [|apply alike_ret]. apply alike_bind; [assumption|]. intros l'. apply alike_ret.
    - qb. apply alike_ret.
    - apply alike_ret.
    - apply alike_ret.
    - apply alike_ret.
    - apply alike_bind.
      { intros c mm P. split; [reflexivity|]. intros b0 c' m' [= <- <- <-]. rewrite P. exact P. }
      intros _. apply alike_bind; [assumption|]. intros l'. apply alike_ret.
  Qed.
  Lemma amap_ext {A B} (g g' : A -> AM (W := W) B) l : Forall (fun x => forall c m, g x c m = g' x c m) l -> forall c m, amap g l c m = amap g' l c m.
  Proof.
    intros H. induction H as [|x l Hx _ IH]; intros c m; [reflexivity|]. cbn [amap]. unfold abind, mbind. rewrite Hx.
    destruct (g' x c m) as [[[y c1]|e|] m1]; [|reflexivity..]. cbn [fst snd]. rewrite IH. reflexivity.
  Qed.
  Lemma item_block cx mg ml b c m : AI cx (NBlock mg ml b) c m =
    mbind (AB cx b (if c_prolog c && negb (prolog_block b) then end_prolog c else c)) (fun bc => ret (NBlock mg ml (fst bc), snd bc)) m.
  Proof. reflexivity. Qed.
  Lemma block_context cx l c m : AB cx (BContext l) c m =
    (if c_prolog c then mbind (amap (an_context cx) l c) (fun lc => ret (BContext (fst lc), snd lc)) m else (Exc SyntaxError, m)).
  Proof. cbn [an_block]. unfold abind at 1. unfold mbind at 1, aread, mbind. destruct (c_prolog c); reflexivity. Qed.
  Lemma context_same i : (forall y, In y (declares i) -> dget str_eqb y context = dget str_eqb y context') ->
    forall c m, AI context i c m = AI context' i c m.
  Proof.
    intros H c m. destruct i as [l| ch|ch|ch|mg ml b]; try reflexivity. rewrite !item_block.
    set (c1 := if c_prolog c && negb (prolog_block b) then end_prolog c else c).
    assert (E : AB context b c1 m = AB context' b c1 m); [|unfold mbind; rewrite E; reflexivity].
    destruct (c_prolog c1) eqn:P; [|apply alike_all, P].
    assert (PB : prolog_block b = true).
    { unfold c1 in P. destruct (c_prolog c) eqn:PC; [|cbn in P; congruence]. destruct (prolog_block b); [reflexivity|]. discriminate P. }
    destruct b; try discriminate PB; [reflexivity|]. rewrite !block_context, P. unfold mbind.
    rewrite (amap_ext (an_context context) (an_context context')); [reflexivity|]. apply Forall_forall. intros [sl|y rn sl] Hi c2 m2; [reflexivity|].
    cbn [an_context]. rewrite <- (H y); [destruct (dget str_eqb y context); reflexivity|]. cbn [declares]. apply in_flat_map. eexists. split; [exact Hi|left; reflexivity].
  Qed.
  Lemma document_same (P : prims W) n globals d m : (forall y, In y (declared d) -> dget str_eqb y context = dget str_eqb y context') ->
    translate import_module context P n globals d m = translate import_module context' P n globals d m.
  Proof.
    intros H. unfold translate, mbind at 1. symmetry. unfold mbind at 1. symmetry.
    assert (E : an_document import_module context globals d m = an_document import_module context' globals d m); [|rewrite E; reflexivity].
    unfold an_document, mbind at 1. symmetry. unfold mbind at 1. symmetry. unfold abind at 1. symmetry. unfold abind at 1. symmetry.
    unfold mbind at 1. symmetry. unfold mbind at 1. symmetry. destruct (amap _ globals new_ctx m) as [[[ins c0]|e|] m0]; [|reflexivity..]. cbn [fst snd].
    unfold abind, mbind, aposition, ret. cbn [fst snd].
    rewrite (amap_ext (AI context) (AI context')); [reflexivity|]. apply Forall_forall. intros i Hi. apply context_same. intros y Hy. apply H, in_flat_map. eauto.
  Qed.

  (** ** A declared symbol that is missing *)
  Lemma amap_fails {A B} (g : A -> AM (W := W) B) l x : In x l -> (forall c m r, fst (g x c m) <> Done r) -> forall c m r, fst (amap g l c m) <> Done r.
  Proof.
    intros Hx F. induction l as [|y l IH]; intros c m r; [contradiction|]. cbn [amap]. unfold abind, mbind at 1.
    destruct (g y c m) as [[[b c1]|e|] m1] eqn:E; [|discriminate..]. cbn [fst snd]. destruct Hx as [->|Hx].
    - exfalso. apply (F c m (b, c1)). rewrite E. reflexivity.
    - unfold mbind. destruct (amap g l c1 m1) as [[[bs c2]|e|] m2] eqn:E2; [|discriminate..]. exfalso. apply (IH Hx c1 m1 (bs, c2)). rewrite E2. reflexivity.
  Qed.
  Lemma context_missing i y : In y (declares i) -> dget str_eqb y context = None -> forall c m r, fst (AI context i c m) <> Done r.
  Proof.
    destruct i as [l| ch|ch|ch|mg ml b]; cbn [declares]; try contradiction. destruct b; try contradiction. intros Hy N c m r.
    rewrite item_block. set (c1 := if c_prolog c && _ then _ else _). unfold mbind. rewrite block_context. destruct (c_prolog c1); [|discriminate].
    unfold mbind. match goal with |- context [amap _ ?x c1 m] => set (l := x) in * end. destruct (amap (an_context context) l c1 m) as [[[r1 c2]|e|] m2] eqn:E; [|discriminate..]. exfalso.
    apply in_flat_map in Hy. destruct Hy as ([sl|z rn sl] & Hi & Hz); [contradiction|]. destruct Hz as [<-|[]].
    apply (amap_fails (an_context context) l (IName z rn sl) Hi) with (c := c1) (m := m) (r := (r1, c2)); [|rewrite E; reflexivity].
    intros c3 m3 r3. cbn [an_context]. rewrite N. discriminate.
  Qed.
  Lemma document_missing (P : prims W) n globals d m y : In y (declared d) -> dget str_eqb y context = None ->
    forall r, fst (translate import_module context P n globals d m) <> Done r.
  Proof.
    intros Hy N r K. destruct (translate import_module context P n globals d m) as [o m'] eqn:T. cbn in K. subst o. unfold translate in T.
    apply bind_done_inv in T. destruct T as (a & m1 & T & _). apply an_document_inv in T. destruct T as (ins & c0 & m0 & l & c1 & _ & T & _).
    apply in_flat_map in Hy. destruct Hy as (i & Hi & Hy).
    apply (amap_fails (AI context) d i Hi) with (c := c0) (m := m0) (r := (l, c1)); [|rewrite T; reflexivity].
    intros c m2 r2. apply (context_missing i y Hy N).
  Qed.
End Context.
