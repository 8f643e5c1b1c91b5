(** Facts about built-in symbols in a runtime. *)
From Coq Require Import List NArith ZArith Bool Arith Lia.
From Verif Require Import PyStr PyStrFacts PyDict Value Dom Ast AstInd Machine Eval Translate Analyse Paths Runtime RuntimeSpec LoadSpec OnceSpec
  MachineFacts FrameFacts LocalFacts RuntimeFacts.
Import ListNotations.

Section Facts.
  Context {W : Type}.
  Variable E : env W.
  Definition keeps (m m' : mach W) : Prop := forall b, rt_builtins (m_rt m) = Some b -> rt_builtins (m_rt m') = Some b.
  Lemma keeps_refl m : keeps m m.
  Proof. intros b H. exact H. Qed.
  Lemma keeps_trans a b c : keeps a b -> keeps b c -> keeps a c.
  Proof. unfold keeps. eauto. Qed.
  Lemma keeps_world (m : mach W) w : keeps m (with_world m w).
  Proof. intros b H. exact H. Qed.
  Notation pk := (pres_bind keeps keeps_trans).
  Lemma k_lift {A} (f : prim W A) : pres keeps (lift_p f).
  Proof. apply (pres_lift_p keeps keeps_world). Qed.
  Lemma k_result {A} (r : result A) : pres keeps (of_result (W := W) r).
  Proof. apply pres_of_result, keeps_refl. Qed.
  Lemma k_get_rt : pres keeps (get_rt (W := W)).
  Proof. intros m o m' [= <- <-] _. apply keeps_refl. Qed.
  Lemma k_cache_hy l md : pres keeps (cache_hy (W := W) l md).
  Proof. intros m o m' [= <- <-] _ b H. exact H. Qed.
  Lemma k_cache_py l md : pres keeps (cache_py (W := W) l md).
  Proof. intros m o m' [= <- <-] _ b H. exact H. Qed.
  Lemma k_ret {A} (a : A) : pres keeps (ret (W := W) a).
  Proof. apply pres_ret, keeps_refl. Qed.
  Lemma k_exc {A} e : pres keeps (exc (W := W) (A := A) e).
  Proof. apply pres_exc, keeps_refl. Qed.
  Ltac sb := first [apply k_ret|apply k_exc|apply pk;
    [first [apply k_result|apply k_lift|apply k_get_rt|apply k_cache_py|apply k_cache_hy|idtac]|intros ?]].
  Lemma k_load_py path r : pres keeps (load_py E path r).
  Proof.
    unfold load_py. sb. match goal with |- pres keeps (match ?o with _ => _ end) => destruct o as [l|]; [|sb] end. sb. destruct (dget _ _ _); [sb|]. sb. sb.
    - match goal with |- pres keeps (match ?o with _ => _ end) => destruct o; [sb; sb|sb] end.
    - sb. sb.
  Qed.
  Lemma k_existing l : pres keeps (existing E l).
  Proof. unfold existing. destruct (nonempty l); [sb; sb|sb]. Qed.
  Lemma k_unless l k : pres keeps k -> pres keeps (unless_cached (W := W) l k).
  Proof. intros K. unfold unless_cached. sb. destruct l as [l|]; [destruct (dget _ _ _); [sb|exact K]|exact K]. Qed.
  Lemma k_near path r : pres keeps (find_near (W := W) path r).
  Proof. unfold find_near. destruct (ref_root r) as [root|]; [sb; sb; sb|sb]. Qed.
  Lemma k_here path r : pres keeps (find_here E path r).
  Proof. unfold find_here. sb. sb. apply k_unless. apply pk; [apply k_existing|]. intros [l|]; [sb|apply k_near]. Qed.
  Lemma k_package path r : pres keeps (find_package E path r).
  Proof.
    unfold find_package. destruct (mem DOT path); [|apply k_here]. sb. cbv zeta. apply pk; [apply k_existing|].
    intros [l|]; [sb|apply k_here].
  Qed.
  Lemma k_absolute path r : pres keeps (find_absolute E path r).
  Proof.
    unfold find_absolute. destruct (e_resolve E) as [f|]; [|apply k_package]. sb. apply k_unless. apply pk; [apply k_existing|].
    intros [l|]; [sb|apply k_package].
  Qed.
  Section Load.
    Variable run : str -> option str -> option str -> M W module.
    Hypothesis RUN : forall s f p, pres keeps (run s f p).
    Lemma k_load_hy path r : pres keeps (load_hy E run path r).
    Proof.
      unfold load_hy. apply pk.
      - destruct (startswith [DOT] path); [|apply k_absolute]. unfold find_relative. destruct (ref_root r) as [root|]; [sb; sb; sb|sb].
      - intros [md|l p]; [sb|]. apply pk; [apply k_existing|]. intros [l'|]; [|sb]. cbv zeta. sb. apply pk; [apply RUN|]. intros md. sb. sb.
    Qed.
    Lemma k_import path r : pres keeps (import_module E run path r).
    Proof.
      unfold import_module. destruct path as [|c path]; [sb|]. set (p := c :: path). clearbody p. induction (e_loaders E) as [|k l IH]; [apply k_exc|].
      cbn [map first_of]. apply pk; [destruct k; [apply k_load_hy|apply k_load_py]|]. intros [md|]; [sb|exact IH].
    Qed.
    (** if the symbols are there already, nothing happens *)
    Lemma builtins_there m b : rt_builtins (m_rt m) = Some b -> import_builtins E run m = (Done b, m).
    Proof. intros H. unfold import_builtins, mbind, get_rt, ret. rewrite H. destruct m; reflexivity. Qed.
    Lemma k_builtins : pres keeps (import_builtins E run).
    Proof. intros m o m' H _ b Hb. rewrite (builtins_there m b Hb) in H. injection H as <- <-. exact Hb. Qed.

    Lemma in_turn paths : forall b0 m m', rt_builtins (m_rt m) = Some b0 ->
      miter (fun path => md <* import_module E run path root_module ;; rt <* get_rt ;;
        cache_builtins (dupdate str_eqb (match rt_builtins rt with Some b => b | None => [] end) (mod_symbols md))) paths m = (Done tt, m') ->
      exists mods b, Forall2 (may_give E run) paths mods /\ rt_builtins (m_rt m') = Some b /\
        forall x, dget str_eqb x b = match latest x mods with Some v => Some v | None => dget str_eqb x b0 end.
    Proof.
      induction paths as [|p paths IH]; intros b0 m m' H0 H; cbn [miter] in H.
      - injection H as <-. exists [], b0. split; [constructor|]. split; [exact H0|reflexivity].
      - apply bind_done_inv in H. destruct H as ([] & m2 & H1 & H2). apply bind_done_inv in H1. destruct H1 as (md & m1 & Hi & H1).
        assert (K1 : rt_builtins (m_rt m1) = Some b0) by (apply (k_import p root_module _ _ _ Hi); [discriminate|exact H0]).
        unfold mbind at 1, get_rt at 1 in H1. rewrite K1 in H1. set (b1 := dupdate str_eqb b0 (mod_symbols md)) in H1.
        assert (K2 : rt_builtins (m_rt m2) = Some b1) by (injection H1 as <-; reflexivity).
        destruct (IH b1 _ _ K2 H2) as (mods & b & F & Hb & L). exists (md :: mods), b. split; [constructor; [exists m, m1; exact Hi|exact F]|]. split; [exact Hb|].
        intros x. rewrite L. cbn [latest]. destruct (latest x mods) as [v|]; [reflexivity|]. unfold b1. apply (dget_dupdate str_eqb str_eqb_eq).
    Qed.
    Lemma builtins_done m b m' : import_builtins E run m = (Done b, m') -> rt_builtins (m_rt m') = Some b.
    Proof.
      unfold import_builtins. intros H. unfold mbind at 1, get_rt at 1 in H. destruct (rt_builtins (m_rt m)) as [b0|] eqn:E0.
      - injection H as <- <-. exact E0.
      - apply bind_done_inv in H. destruct H as ([] & m1 & H1 & H). apply bind_done_inv in H. destruct H as ([] & m2 & H2 & H).
        assert (K1 : rt_builtins (m_rt m1) = Some []) by (injection H1 as <-; reflexivity).
        destruct (in_turn (e_builtins E) _ _ _ K1 H2) as (mods & b1 & _ & Hb & _). unfold mbind, get_rt, ret in H. rewrite Hb in H. injection H as <- <-. exact Hb.
    Qed.
    Lemma builtins_are m b m' : rt_builtins (m_rt m) = None -> import_builtins E run m = (Done b, m') ->
      exists mods, Forall2 (may_give E run) (e_builtins E) mods /\ forall x, dget str_eqb x b = latest x mods.
    Proof.
      unfold import_builtins. intros E0 H. unfold mbind at 1, get_rt at 1 in H. rewrite E0 in H.
      apply bind_done_inv in H. destruct H as ([] & m1 & H1 & H). apply bind_done_inv in H. destruct H as ([] & m2 & H2 & H).
      assert (K1 : rt_builtins (m_rt m1) = Some []) by (injection H1 as <-; reflexivity).
      destruct (in_turn (e_builtins E) _ _ _ K1 H2) as (mods & b1 & F & Hb & L). unfold mbind, get_rt, ret in H. rewrite Hb in H. injection H as <- <-.
      exists mods. split; [exact F|]. intros x. rewrite L. destruct (latest x mods); reflexivity.
    Qed.
  End Load.
  Variable P : prims W.
  Lemma static_keeps m m' : static (W := W) m m' -> keeps m m'.
  Proof. intros (_ & _ & X & _). unfold keeps. rewrite X. auto. Qed.
  Lemma k_translate im context n globals d : (forall p, pres keeps (im p)) -> pres keeps (translate im context P n globals d).
  Proof.
    intros IM. apply pk.
    - apply (along_document keeps keeps_refl keeps_trans); [intros m k b H; exact H|intros m k b H; exact H|exact IM].
    - intros a. apply pk; [intros m o m' [= <- <-] _ b H; exact H|]. intros s. apply pk; [|intros r; apply k_ret].
      intros m o m' H N. apply static_keeps. apply (static_tr_document P n s a _ _ _ H N).
  Qed.
  Lemma k_run_script n k : forall tags vars script file package, pres keeps (run_script E P n k tags vars script file package).
  Proof.
    induction k as [|k IH]; intros; [intros m o m' [= <- <-] N; contradiction N; reflexivity|]. cbn [run_script]. apply pk; [apply k_result|]. intros _. apply pk; [apply k_builtins; intros; apply IH|]. intros b.
    apply pk; [apply k_result|]. intros _. apply pk; [apply k_result|]. intros d. apply pk; [apply k_result|]. intros _. apply pk; [apply k_result|]. intros context. apply pk; [|intros [[root symbols] s]; apply k_ret].
    apply k_translate. intros p. apply k_import. intros; apply IH.
  Qed.
  Lemma history_keeps m m' : history E P m m' -> keeps m m'.
  Proof.
    intros H. induction H as [m|m m1 m2 n k tags vars script file package o _ IH R N|m m1 m2 n k path r o _ IH R N].
    - apply keeps_refl.
    - eapply keeps_trans; [exact IH|]. apply (k_run_script _ _ _ _ _ _ _ _ _ _ R N).
    - eapply keeps_trans; [exact IH|]. refine (k_import _ _ _ _ _ _ _ R N). intros; apply k_run_script.
  Qed.

  Lemma builtins_once n k run' m b m' m'' : import_builtins E (run_script E P n k [] []) m = (Done b, m') -> history E P m' m'' ->
    import_builtins E run' m'' = (Done b, m'').
  Proof.
    intros H K. apply builtins_there, (history_keeps _ _ K). apply (builtins_done (run_script E P n k [] [])) in H; [exact H|]. intros; apply k_run_script.
  Qed.
  Lemma builtins_from n k m b m' : rt_builtins (m_rt m) = None -> import_builtins E (run_script E P n k [] []) m = (Done b, m') ->
    exists mods, Forall2 (may_give E (run_script E P n k [] [])) (e_builtins E) mods /\ forall x, dget str_eqb x b = latest x mods.
  Proof. apply builtins_are. intros; apply k_run_script. Qed.
  Lemma empty_path run r m : import_module E run [] r m = (Exc AssertionError, m).
  Proof. reflexivity. Qed.

  (** ** Scripts that the function of the loader finds *)
  Lemma absolute_path (path : str) : path <> [] -> hd DOT path <> DOT -> startswith [DOT] path = false.
  Proof.
    intros N H. destruct path as [|c p]; [congruence|]. cbn [hd] in H. change (startswith [DOT] (c :: p)) with ((DOT =? c)%N && true).
    replace (DOT =? c)%N with false by (symmetry; apply N.eqb_neq; congruence). reflexivity.
  Qed.
  Lemma resolve_cached g path r f (m : mach W) md : e_resolve E = Some g -> answers (g path r) (Some f) -> dget str_eqb f (rt_hy (m_rt m)) = Some md ->
    find_absolute E path r m = (Done (Cached md), m).
  Proof.
    intros R A C. unfold find_absolute. rewrite R. unfold mbind at 1, lift_p. rewrite A. unfold unless_cached, mbind, get_rt. cbn. rewrite C. destruct m; reflexivity.
  Qed.
  Lemma resolve_located g path r f (m : mach W) : e_resolve E = Some g -> answers (g path r) (Some f) -> f <> [] -> answers (e_exists E f) true ->
    dget str_eqb f (rt_hy (m_rt m)) = None -> find_absolute E path r m = (Done (Located (Some f) None), m).
  Proof.
    intros R A N X C. unfold find_absolute. rewrite R. unfold mbind at 1, lift_p. rewrite A. unfold unless_cached, mbind, get_rt. cbn. rewrite C.
    unfold existing. destruct f as [|c f]; [congruence|]. cbn. unfold mbind, lift_p. rewrite X. destruct m; reflexivity.
  Qed.
  Lemma resolved_once g run run' path r path' r' f m x m' m'' : e_resolve E = Some g -> path <> [] -> hd DOT path <> DOT -> path' <> [] -> hd DOT path' <> DOT ->
    answers (g path r) (Some f) -> answers (g path' r') (Some f) -> f <> [] -> answers (e_exists E f) true ->
    load_hy E run path r m = (Done x, m') -> history E P m' m'' -> exists md, load_hy E run' path' r' m'' = (Done (Some md), m'').
  Proof.
    intros R N H N' H' A A' Nf X L K.
    assert (S : dget str_eqb f (rt_hy (m_rt m')) <> None).
    { unfold load_hy, mbind at 1 in L. rewrite (absolute_path _ N H) in L. destruct (dget str_eqb f (rt_hy (m_rt m))) as [md|] eqn:G.
      - rewrite (resolve_cached g path r f m md R A G) in L. injection L as <- <-. congruence.
      - rewrite (resolve_located g path r f m R A Nf X G) in L. unfold existing in L. destruct f as [|c f]; [congruence|]. cbn [nonempty] in L.
        unfold mbind at 1 in L. unfold mbind at 1, lift_p in L. rewrite X in L. cbn [ret] in L.
        apply bind_done_inv in L. destruct L as (script & m1 & _ & L). apply bind_done_inv in L. destruct L as (md & m2 & _ & L).
        injection L as <- <-. cbn [m_rt rt_hy]. rewrite dget_dset_same by apply str_eqb_eq. discriminate. }
    apply (history_wider E P) in K. destruct K as (_ & K & _). apply K in S. destruct (dget str_eqb f (rt_hy (m_rt m''))) as [md|] eqn:G; [|congruence]. exists md.
    unfold load_hy, mbind at 1. rewrite (absolute_path _ N' H'), (resolve_cached g path' r' f m'' md R A' G). reflexivity.
  Qed.
End Facts.
