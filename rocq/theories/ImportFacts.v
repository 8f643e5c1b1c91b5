(** Importing a module adds slots and definitions of its own: the condition under which locality of tagged
    blocks was proved holds of the runtime. *)
From Coq Require Import List NArith ZArith Bool Arith Lia String.
From Verif Require Import PyStr PyStrFacts PyDict Value Dom Ast AstInd Structs StructsSpec StructsFacts Machine Eval Translate Analyse Paths Runtime
  RuntimeSpec ScopeSpec MachineFacts FrameFacts ScopeFacts NamesFacts LocalFacts RuntimeFacts ContextFacts.
Import ListNotations.
Local Open Scope list_scope.

Section Import.
  Context {W : Type}.
  Variable E : env W.
  Variable P : prims W.
  (** the parser gives documents before analysis *)
  Hypothesis RAW : forall t d, e_parse E t = Ok d -> Forall raw_item d.

  Definition apart (m m' : mach W) : Prop := m_next m <= m_next m' /\ exists nd, m_defs m' = m_defs m ++ nd /\
    forall h x, In h nd -> In x (writes_def h) -> m_next m <= x < m_next m'.
  Definition succ {A} (x : M W A) : Prop := forall m a m', x m = (Done a, m') -> apart m m'.
  Lemma apart_same m m' : m_next m' = m_next m -> m_defs m' = m_defs m -> apart m m'.
  Proof. intros A B. split; [lia|]. exists []. rewrite app_nil_r. split; [exact B|]. intros h x []. Qed.
  Lemma apart_trans a b c : apart a b -> apart b c -> apart a c.
  Proof.
    intros (L1 & n1 & D1 & H1) (L2 & n2 & D2 & H2). split; [lia|]. exists (n1 ++ n2). split; [rewrite D2, D1, app_assoc; reflexivity|].
    intros h x Hh Hx. apply in_app_or in Hh. destruct Hh as [Hh|Hh]; [specialize (H1 h x Hh Hx); lia|specialize (H2 h x Hh Hx); lia].
  Qed.
  Lemma succ_bind {A B} (x : M W A) (f : A -> M W B) : succ x -> (forall a, succ (f a)) -> succ (mbind x f).
  Proof. intros X F m b m' H. apply bind_done_inv in H. destruct H as (a & m1 & H1 & H2). exact (apart_trans _ _ _ (X _ _ _ H1) (F _ _ _ _ H2)). Qed.
  Lemma succ_ret {A} (a : A) : succ (ret a).
  Proof. intros m b m' [= <- <-]. apply apart_same; reflexivity. Qed.
  Lemma succ_exc {A} e : succ (exc (A := A) e).
  Proof. intros m b m' H. discriminate H. Qed.
  Lemma succ_result {A} (r : result A) : succ (of_result r).
  Proof. destruct r; [apply succ_ret|apply succ_exc]. Qed.
  Lemma succ_lift {A} (f : prim W A) : succ (lift_p f).
  Proof. intros m a m' H. unfold lift_p in H. destruct (f (m_heap m) (m_world m)) as [o w]. injection H as _ <-. apply apart_same; reflexivity. Qed.
  Lemma succ_get_rt : succ get_rt.
  Proof. intros m a m' [= <- <-]. apply apart_same; reflexivity. Qed.
  Lemma succ_set_rt r : succ (set_rt r).
  Proof. intros m a m' [= <- <-]. apply apart_same; reflexivity. Qed.
  Lemma succ_cache_builtins b : succ (cache_builtins b).
  Proof. apply succ_bind; [apply succ_get_rt|]. intros r. apply succ_set_rt. Qed.
  Lemma succ_cache_hy l md : succ (cache_hy l md).
  Proof. apply succ_bind; [apply succ_get_rt|]. intros r. apply succ_set_rt. Qed.
  Lemma succ_cache_py l md : succ (cache_py l md).
  Proof. apply succ_bind; [apply succ_get_rt|]. intros r. apply succ_set_rt. Qed.
  Lemma succ_miter {A} (f : A -> M W unit) l : (forall x, succ (f x)) -> succ (miter f l).
  Proof. intros F. induction l as [|x l IH]; [apply succ_ret|]. cbn [miter]. apply succ_bind; [apply F|]. intros _. exact IH. Qed.
  Ltac sb := first [apply succ_ret|apply succ_exc|apply succ_bind;
    [first [apply succ_result|apply succ_lift|apply succ_get_rt|apply succ_cache_py|apply succ_cache_hy|apply succ_cache_builtins|idtac]|intros ?]].
  Lemma succ_load_py path r : succ (load_py E path r).
  Proof.
    unfold load_py. sb. match goal with |- succ (match ?o with _ => _ end) => destruct o as [l|]; [|sb] end. sb. destruct (dget _ _ _); [sb|]. sb. sb.
    - match goal with |- succ (match ?o with _ => _ end) => destruct o; [sb; sb|sb] end.
    - sb. sb.
  Qed.
  Lemma succ_existing l : succ (existing E l).
  Proof. unfold existing. destruct (nonempty l); [sb; sb|sb]. Qed.
  Lemma succ_unless l k : succ k -> succ (unless_cached l k).
  Proof. intros K. unfold unless_cached. sb. destruct l as [l|]; [destruct (dget _ _ _); [sb|exact K]|exact K]. Qed.
  Lemma succ_near path r : succ (find_near path r).
  Proof. unfold find_near. destruct (ref_root r) as [root|]; [sb; sb; sb|sb]. Qed.
  Lemma succ_here path r : succ (find_here E path r).
  Proof. unfold find_here. sb. sb. apply succ_unless. apply succ_bind; [apply succ_existing|]. intros [l|]; [sb|apply succ_near]. Qed.
  Lemma succ_package path r : succ (find_package E path r).
  Proof.
    unfold find_package. destruct (mem DOT path); [|apply succ_here]. sb. cbv zeta. apply succ_bind; [apply succ_existing|].
    intros [l|]; [sb|apply succ_here].
  Qed.
  Lemma succ_absolute path r : succ (find_absolute E path r).
  Proof.
    unfold find_absolute. destruct (e_resolve E) as [f|]; [|apply succ_package]. sb. apply succ_unless. apply succ_bind; [apply succ_existing|].
    intros [l|]; [sb|apply succ_package].
  Qed.
  Section Load.
    Variable run : str -> option str -> option str -> M W module.
    Hypothesis RUN : forall s f p, succ (run s f p).
    Lemma succ_load_hy path r : succ (load_hy E run path r).
    Proof.
      unfold load_hy. apply succ_bind.
      - destruct (startswith [DOT] path); [|apply succ_absolute]. unfold find_relative. destruct (ref_root r) as [root|]; [sb; sb; sb|sb].
      - intros [md|l p]; [sb|]. apply succ_bind; [apply succ_existing|]. intros [l'|]; [|sb]. cbv zeta. sb. apply succ_bind; [apply RUN|]. intros md. sb. sb.
    Qed.
    Lemma succ_import path r : succ (import_module E run path r).
    Proof.
      unfold import_module. destruct path as [|c path]; [sb|]. set (p := c :: path). clearbody p. induction (e_loaders E) as [|k l IH]; [apply succ_exc|].
      cbn [map first_of]. apply succ_bind; [destruct k; [apply succ_load_hy|apply succ_load_py]|]. intros [md|]; [sb|exact IH].
    Qed.
    Lemma succ_builtins : succ (import_builtins E run).
    Proof.
      unfold import_builtins. sb. destruct (rt_builtins _) as [b|]; [sb|]. sb. apply succ_bind.
      - apply succ_miter. intros path. apply succ_bind; [apply succ_import|]. intros md. sb. apply succ_cache_builtins.
      - intros _. sb. sb.
    Qed.
  End Load.
  Lemma succ_translate im context n globals d : Forall raw_item d -> (forall p, succ (im p)) -> succ (translate im context P n globals d).
  Proof.
    intros RW IM. unfold translate. apply succ_bind.
    - intros m a m' H. apply an_document_inv in H. destruct H as (ins & c0 & m0 & l & c1 & E0 & E1 & _).
      destruct (globals_steps globals _ _ _ _ _ sound_new fit_new E0) as (x0 & d0 & S0).
      assert (F0 := step_fit _ _ _ _ _ _ _ S0 fit_new).
      assert (IF : import_fine im) by (intros p mm md mm' X; exact (IM p _ _ _ X)).
      destruct (items_steps im context IF d RW _ _ _ _ _ (st_inv _ _ _ _ _ _ _ S0) F0 E1) as (x1 & n1 & S1).
      assert (S01 := step_trans _ _ _ _ _ _ _ _ _ _ _ _ S0 S1).
      split; [apply (st_next _ _ _ _ _ _ _ S01)|]. exists (d0 ++ n1). split; [apply (st_defs _ _ _ _ _ _ _ S01)|].
      intros h x Hh Hx. apply (st_nd _ _ _ _ _ _ _ S01 _ _ Hh Hx).
    - intros a. apply succ_bind; [intros m s m' [= <- <-]; apply apart_same; reflexivity|]. intros s. apply succ_bind; [|intros r; sb].
      intros m r m' H. destruct (static_tr_document P n s a m _ _ H) as (A & B & _); [discriminate|]. apply apart_same; assumption.
  Qed.
  Lemma succ_run_script n k : forall tags vars script file package, succ (run_script E P n k tags vars script file package).
  Proof.
    induction k as [|k IH]; intros tags vars script file package; [intros m a m' H; discriminate H|]. cbn [run_script].
    apply succ_bind; [apply succ_result|]. intros _.
    apply succ_bind; [apply succ_builtins; intros; apply IH|]. intros b. apply succ_bind; [apply succ_result|]. intros _ m a m' H. apply bind_done_inv in H. destruct H as (d & m1 & H1 & H).
    assert (RW : Forall raw_item d). { apply (RAW script). unfold of_result in H1. destruct (e_parse E script); [|discriminate]. injection H1 as -> _. reflexivity. }
    refine (apart_trans _ _ _ (succ_result _ _ _ _ H1) _). revert H. generalize m1 a m'. change (succ (mbind (of_result (no_clash ast_params vars)) (fun _ => mbind (of_result (make_context tags vars)) (fun context =>
      mbind (translate (fun path => import_module E (run_script E P n k [] []) path {| r_file := file; r_package := package |}) context P n
        (dset str_eqb (VAR (u "__package__"%string)) (str_or_none package) (dset str_eqb (VAR (u "__file__"%string)) (str_or_none file) b)) d) (fun r => let '(root, symbols, s) := r in
        ret {| mod_symbols := symbols; mod_state := Some s; mod_dom := Some root; mod_file := file; mod_package := package |}))))).
    sb. sb. apply succ_bind; [|intros [[root symbols] s]; sb]. apply succ_translate; [exact RW|]. intros p. apply succ_import. intros; apply IH.
  Qed.
  Lemma import_fine_runtime n k r : import_fine (fun path => import_module E (run_script E P n k [] []) path r).
  Proof. intros p m md m' H. apply (succ_import (run_script E P n k [] []) (fun s f p => succ_run_script n k [] [] s f p) p r _ _ _ H). Qed.
End Import.
