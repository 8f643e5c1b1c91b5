(** Facts about loaders, caches and the runtime. *)
From Coq Require Import List NArith ZArith Bool Arith Lia.
From Verif Require Import PyStr PyStrFacts PyDict Value Dom Ast AstInd Machine Eval Translate Analyse Paths Runtime RuntimeSpec
  MachineFacts FrameFacts LocalFacts.
Import ListNotations.

(** ** Caches only grow *)
Definition grows (r r' : caches) : Prop :=
  (forall l x, dget str_eqb l (rt_py r) = Some x -> dget str_eqb l (rt_py r') = Some x) /\
  (forall l, dget str_eqb l (rt_hy r) <> None -> dget str_eqb l (rt_hy r') <> None) /\
  (rt_builtins r <> None -> rt_builtins r' <> None).
Lemma grows_refl r : grows r r.
Proof. split; [|split]; auto. Qed.
Lemma grows_trans a b c : grows a b -> grows b c -> grows a c.
Proof. intros (A & B & C) (A' & B' & C'). split; [|split]; eauto. Qed.

Section Facts.
  Context {W : Type}.
  Variable E : env W.
  Definition wider (m m' : mach W) : Prop := grows (m_rt m) (m_rt m').
  Lemma wider_refl m : wider m m.
  Proof. apply grows_refl. Qed.
  Lemma wider_trans a b c : wider a b -> wider b c -> wider a c.
  Proof. apply grows_trans. Qed.
  Lemma wider_world (m : mach W) w : wider m (with_world m w).
  Proof. apply grows_refl. Qed.
  Notation pb := (pres_bind wider wider_trans).

  Lemma pres_lift {A} (f : prim W A) : pres wider (lift_p f).
  Proof. apply (pres_lift_p wider wider_world). Qed.
  Lemma pres_result {A} (r : result A) : pres wider (of_result (W := W) r).
  Proof. apply pres_of_result, wider_refl. Qed.
  Lemma pres_get_rt : pres wider (get_rt (W := W)).
  Proof. intros m o m' [= <- <-] _. apply wider_refl. Qed.
  Lemma pres_cache_hy l md : pres wider (cache_hy (W := W) l md).
  Proof.
    intros m o m' [= <- <-] _. split; [|split]; cbn; auto. intros l0 H. rewrite dget_dset by apply str_eqb_eq.
    destruct (str_eqb l0 l); [discriminate|exact H].
  Qed.
  Lemma pres_cache_builtins b : pres wider (cache_builtins (W := W) b).
  Proof. intros m o m' [= <- <-] _. split; [|split]; cbn; auto. discriminate. Qed.
  Lemma pres_done {A} (a : A) : pres wider (ret (W := W) a).
  Proof. apply pres_ret, wider_refl. Qed.
  Lemma pres_fail {A} e : pres wider (exc (W := W) (A := A) e).
  Proof. apply pres_exc, wider_refl. Qed.

  (** a PyLoader asks Python at most once for a module *)
  Lemma load_py_inv path r m o m' : load_py E path r m = (o, m') ->
    match make_absolute path (r_package r) with
    | Raise e => o = Exc e /\ m' = m
    | Ok None => o = Done None /\ m' = m
    | Ok (Some l) =>
        (exists x, dget str_eqb l (rt_py (m_rt m)) = Some x /\ o = Done x /\ m' = m) \/
        (dget str_eqb l (rt_py (m_rt m)) = None /\ wider m m' /\
         match o with Done x => dget str_eqb l (rt_py (m_rt m')) = Some x | _ => m_rt m' = m_rt m end)
    end.
  Proof.
    unfold load_py, mbind at 1. destruct (make_absolute path (r_package r)) as [[l|]|e]; cbn [of_result ret exc].
    2:{ intros [= <- <-]. auto. }
    2:{ intros [= <- <-]. auto. }
    unfold get_rt at 1, mbind at 1. destruct (dget str_eqb l (rt_py (m_rt m))) as [x|] eqn:D.
    - intros [= <- <-]. left. exists x. auto.
    - intros H. right. split; [reflexivity|]. unfold mbind at 1, lift_p in H.
      destruct (e_pymodule E l (m_heap m) (m_world m)) as [[p|e|] w].
      2,3: injection H as <- <-; split; [apply wider_world|reflexivity].
      set (m1 := with_world m w) in *. assert (R1 : m_rt m1 = m_rt m) by reflexivity.
      assert (K : forall x, (a <* (_ <* cache_py l x ;; ret x) ;; ret a) m1 = (o, m') -> wider m m' /\
        match o with Done x => dget str_eqb l (rt_py (m_rt m')) = Some x | _ => m_rt m' = m_rt m end).
      { intros x [= <- <-]. cbn. split.
        - split; [|split]; cbn; auto. intros l0 x0 H0. rewrite dget_dset_other; [exact H0|apply str_eqb_eq|]. intros ->. congruence.
        - apply dget_dset_same. apply str_eqb_eq. }
      destruct p as [p|].
      + destruct (py_module p) as [md|e]; cbn in H; [apply (K (Some md)); exact H|]. injection H as <- <-. split; [apply wider_world|reflexivity].
      + apply (K None). exact H.
  Qed.
  Lemma pres_load_py path r : pres wider (load_py E path r).
  Proof.
    intros m o m' H _. apply load_py_inv in H. destruct (make_absolute path (r_package r)) as [[l|]|e].
    - destruct H as [(x & _ & _ & ->)|(_ & H & _)]; [apply wider_refl|exact H].
    - destruct H as [_ ->]. apply wider_refl.
    - destruct H as [_ ->]. apply wider_refl.
  Qed.
  Lemma pres_unless l (k : M W found) : pres wider k -> pres wider (unless_cached l k).
  Proof.
    intros K. apply pb; [apply pres_get_rt|]. intros rt. destruct l as [l|]; [|exact K]. destruct (dget str_eqb l (rt_hy rt)); [apply pres_done|exact K].
  Qed.
  Lemma pres_existing l : pres wider (existing E l).
  Proof. unfold existing. destruct (nonempty l); [|apply pres_done]. apply pb; [apply pres_lift|]. intros b. apply pres_done. Qed.
  Lemma pres_near path r : pres wider (find_near (W := W) path r).
  Proof.
    unfold find_near. destruct (ref_root r) as [root|]; [|apply pres_done]. apply pb; [apply pres_result|]. intros l. apply pb; [apply pres_result|]. intros p. apply pres_done.
  Qed.
  Lemma pres_relative path r : pres wider (find_relative (W := W) path r).
  Proof.
    unfold find_relative. destruct (ref_root r) as [root|]; [|apply pres_done]. apply pb; [apply pres_result|]. intros l. apply pb; [apply pres_result|]. intros p. apply pres_done.
  Qed.
  Lemma pres_here path r : pres wider (find_here E path r).
  Proof.
    apply pb; [apply pres_lift|]. intros cwd. apply pb; [apply pres_result|]. intros l. apply pres_unless. apply pb; [apply pres_existing|].
    intros [l'|]; [apply pres_done|apply pres_near].
  Qed.
  Lemma pres_package path r : pres wider (find_package E path r).
  Proof.
    unfold find_package. destruct (mem DOT path); [|apply pres_here]. apply pb; [apply pres_lift|]. intros f. apply pb; [apply pres_existing|].
    intros [l|]; [apply pres_done|apply pres_here].
  Qed.
  Lemma pres_absolute path r : pres wider (find_absolute E path r).
  Proof.
    unfold find_absolute. destruct (e_resolve E) as [f|]; [|apply pres_package]. apply pb; [apply pres_lift|]. intros l. apply pres_unless.
    apply pb; [apply pres_existing|]. intros [l'|]; [apply pres_done|apply pres_package].
  Qed.
  Section Load.
    Variable run : str -> option str -> option str -> M W module.
    Hypothesis RUN : forall s f p, pres wider (run s f p).
    Lemma pres_load_hy path r : pres wider (load_hy E run path r).
    Proof.
      apply pb; [destruct (startswith _ _); [apply pres_relative|apply pres_absolute]|]. intros [md|l p]; [apply pres_done|].
      apply pb; [apply pres_existing|]. intros [l'|]; [|apply pres_done]. apply pb; [apply pres_lift|]. intros script.
      apply pb; [apply RUN|]. intros md. apply pb; [apply pres_cache_hy|]. intros _. apply pres_done.
    Qed.
    Lemma pres_import path r : pres wider (import_module E run path r).
    Proof.
      unfold import_module. destruct path as [|c path]; [apply pres_fail|]. induction (e_loaders E) as [|k ks IH]; [apply pres_fail|].
      cbn [map first_of]. apply pb; [destruct k; [apply pres_load_hy|apply pres_load_py]|]. intros [md|]; [apply pres_done|exact IH].
    Qed.
    Lemma pres_builtins : pres wider (import_builtins E run).
    Proof.
      apply pb; [apply pres_get_rt|]. intros rt. destruct (rt_builtins rt); [apply pres_done|]. apply pb; [apply pres_cache_builtins|]. intros _.
      apply pb.
      - apply (pres_miter wider wider_refl wider_trans), Forall_forall. intros path _. apply pb; [apply pres_import|]. intros md.
        apply pb; [apply pres_get_rt|]. intros rt'. apply pres_cache_builtins.
      - intros _. apply pb; [apply pres_get_rt|]. intros rt'. apply pres_done.
    Qed.
  End Load.
  Variable P : prims W.

  Lemma static_wider m m' : static (W := W) m m' -> wider m m'.
  Proof. intros (_ & _ & X & _). unfold wider. rewrite X. apply grows_refl. Qed.
  Lemma static_tr_document n s a : pres (static (W := W)) (tr_document P n s a).
  Proof.
    apply (pres_bind static static_trans).
    - apply (pres_miter static static_refl static_trans), Forall_forall. intros [x v] _. apply static_slot.
    - intros _. apply (pres_bind static static_trans).
      + apply (pres_mconcat static static_refl static_trans), Forall_forall. intros i _. apply (static_all P n n).
      + intros nodes. apply (pres_bind static static_trans); [apply (pres_lift_h static static_heap)|]. intros root.
        intros m o m' [= <- <-] _. apply static_refl.
  Qed.
  Lemma pres_translate im context n globals d : (forall p, pres wider (im p)) -> pres wider (translate im context P n globals d).
  Proof.
    intros IM. apply pb.
    - apply (along_document wider wider_refl wider_trans); [intros m k; apply grows_refl|intros m k; apply grows_refl|exact IM].
    - intros a. apply pb; [intros m o m' [= <- <-] _; apply grows_refl|]. intros s. apply pb; [|intros r; apply pres_done].
      intros m o m' H N. apply static_wider. apply (static_tr_document n s a _ _ _ H N).
  Qed.
  Lemma pres_run_script n k : forall tags vars script file package, pres wider (run_script E P n k tags vars script file package).
  Proof.
    induction k as [|k IH]; intros; [apply pres_nofuel|]. cbn [run_script]. apply pb; [apply pres_result|]. intros _. apply pb; [apply pres_builtins; intros; apply IH|]. intros b.
    apply pb; [apply pres_result|]. intros _. apply pb; [apply pres_result|]. intros d. apply pb; [apply pres_result|]. intros _. apply pb; [apply pres_result|]. intros context. apply pb; [|intros [[root symbols] s]; apply pres_done].
    apply pres_translate. intros p. apply pres_import. intros; apply IH.
  Qed.
  Lemma history_wider m m' : history E P m m' -> wider m m'.
  Proof.
    intros H. induction H as [m|m m1 m2 n k tags vars script file package o _ IH R N|m m1 m2 n k path r o _ IH R N].
    - apply wider_refl.
    - eapply wider_trans; [exact IH|]. apply (pres_run_script _ _ _ _ _ _ _ _ _ _ R N).
    - eapply wider_trans; [exact IH|]. refine (pres_import _ _ _ _ _ _ _ R N). intros; apply pres_run_script.
  Qed.

  (** ** Loaders in turn *)
  Lemma first_of_found fs path r (m : mach W) md m' : first_of fs path r m = (Done md, m') <->
    exists l1 f l2 m1, fs = l1 ++ f :: l2 /\ none_of l1 path r m m1 /\ f path r m1 = (Done (Some md), m').
  Proof.
    revert m. induction fs as [|f fs IH]; intros m; cbn [first_of].
    - split; [discriminate|]. intros ([|g l1] & f & l2 & m1 & H & _); discriminate.
    - split.
      + intros H. apply bind_done_inv in H. destruct H as ([md'|] & m1 & F & H).
        * injection H as <- <-. exists [], f, fs, m. cbn. auto.
        * apply IH in H. destruct H as (l1 & g & l2 & m2 & -> & NO & G). exists (f :: l1), g, l2, m2. cbn. split; [reflexivity|]. split; [|exact G]. exists m1. auto.
      + intros (l1 & g & l2 & m1 & H & NO & G). destruct l1 as [|h l1]; cbn in H, NO.
        * injection H as -> ->. subst m1. unfold mbind. rewrite G. reflexivity.
        * injection H as -> ->. destruct NO as (m2 & NO & NO'). unfold mbind. rewrite NO. apply IH. exists l1, g, l2, m1. auto.
  Qed.
  Lemma first_of_none fs path r (m : mach W) m' : none_of fs path r m m' -> first_of fs path r m = (Exc ModuleNotFound, m').
  Proof.
    revert m. induction fs as [|f fs IH]; intros m; cbn [first_of none_of]; [intros ->; reflexivity|].
    intros (m1 & F & NO). unfold mbind. rewrite F. apply IH, NO.
  Qed.
  Lemma map_split {A B} (f : A -> B) l x a b : map f l = a ++ x :: b -> exists l1 y l2, l = l1 ++ y :: l2 /\ a = map f l1 /\ x = f y /\ b = map f l2.
  Proof.
    revert a. induction l as [|z l IH]; intros [|w a] H; cbn in H; try discriminate.
    - injection H as <- <-. exists [], z, l. auto.
    - injection H as <- H. apply IH in H. destruct H as (l1 & y & l2 & -> & -> & -> & ->). exists (z :: l1), y, l2. auto.
  Qed.

  (** ** A script found in the current folder *)
  Lemma not_relative path : ~ In DOT path -> startswith [DOT] path = false.
  Proof.
    intros D. destruct (startswith [DOT] path) eqn:S; [|reflexivity]. apply startswith_spec in S. destruct S as [r ->]. exfalso. apply D. left. reflexivity.
  Qed.
  Lemma find_here_cached cwd path r m l md : (forall h w, e_cwd E h w = (Done cwd, w)) ->
    join_path (Some cwd) (DOT :: path) SLASH script_ext = Ok (Some l) -> dget str_eqb l (rt_hy (m_rt m)) = Some md ->
    find_here E path r m = (Done (Cached md), m).
  Proof.
    intros C J D. unfold find_here, mbind, lift_p. rewrite C, J. cbn. unfold unless_cached, mbind, get_rt. cbn. rewrite D. destruct m; reflexivity.
  Qed.
  Lemma find_here_located cwd path r m l : (forall h w, e_cwd E h w = (Done cwd, w)) ->
    join_path (Some cwd) (DOT :: path) SLASH script_ext = Ok (Some l) -> dget str_eqb l (rt_hy (m_rt m)) = None -> l <> [] ->
    (forall h w, e_exists E l h w = (Done true, w)) -> find_here E path r m = (Done (Located (Some l) None), m).
  Proof.
    intros C J D NE X. unfold find_here, mbind, lift_p. rewrite C, J. cbn. unfold unless_cached, mbind, get_rt. cbn. rewrite D.
    unfold existing. destruct l as [|c l]; [congruence|]. cbn. unfold mbind, lift_p. rewrite X. destruct m; reflexivity.
  Qed.
  Lemma find_simple path r : e_resolve E = None -> ~ In DOT path -> find_absolute E path r = find_here E path r.
  Proof.
    intros R D. unfold find_absolute, find_package. rewrite R.
    destruct (mem DOT path) eqn:X; [|reflexivity]. apply mem_In in X. contradiction.
  Qed.
  Lemma load_hy_cached run path r cwd l m md : e_resolve E = None -> ~ In DOT path -> (forall h w, e_cwd E h w = (Done cwd, w)) ->
    join_path (Some cwd) (DOT :: path) SLASH script_ext = Ok (Some l) -> dget str_eqb l (rt_hy (m_rt m)) = Some md ->
    load_hy E run path r m = (Done (Some md), m).
  Proof.
    intros R D C J G. unfold load_hy, mbind at 1.
    assert (X := not_relative path D).
    rewrite X, (find_simple _ _ R D), (find_here_cached _ _ _ _ _ _ C J G). reflexivity.
  Qed.
  Lemma load_hy_stores run path r cwd l m x m' : e_resolve E = None -> ~ In DOT path -> (forall h w, e_cwd E h w = (Done cwd, w)) ->
    join_path (Some cwd) (DOT :: path) SLASH script_ext = Ok (Some l) -> (forall h w, e_exists E l h w = (Done true, w)) -> l <> [] ->
    load_hy E run path r m = (Done x, m') -> dget str_eqb l (rt_hy (m_rt m')) = x /\ x <> None.
  Proof.
    intros R D C J X NE H. unfold load_hy, mbind at 1 in H.
    assert (Y := not_relative path D).
    rewrite Y, (find_simple _ _ R D) in H. destruct (dget str_eqb l (rt_hy (m_rt m))) as [md|] eqn:G.
    - rewrite (find_here_cached _ _ _ _ _ _ C J G) in H. injection H as <- <-. split; [exact G|discriminate].
    - rewrite (find_here_located _ _ _ _ _ C J G NE X) in H. unfold existing in H. destruct l as [|c l]; [congruence|]. cbn [nonempty] in H.
      unfold mbind at 1 in H. unfold mbind at 1, lift_p in H. rewrite X in H. cbn [ret] in H.
      apply bind_done_inv in H. destruct H as (script & m1 & _ & H). apply bind_done_inv in H. destruct H as (md & m2 & _ & H).
      injection H as <- <-. cbn [m_rt rt_hy]. split; [apply dget_dset_same, str_eqb_eq|discriminate].
  Qed.
End Facts.

Section Once.
  Context {W : Type}.
  Lemma import_found (E : env W) run path r m md m' : import_module E run path r m = (Done md, m') <->
    path <> [] /\ exists l1 k l2 m1, e_loaders E = l1 ++ k :: l2 /\ none_of (map (load E run) l1) path r m m1 /\
      load E run k path r m1 = (Done (Some md), m').
  Proof.
    assert (I : path <> [] -> import_module E run path r m = first_of (map (load E run) (e_loaders E)) path r m).
    { destruct path; [congruence|reflexivity]. }
    split.
    - intros H. assert (N : path <> []) by (intros ->; discriminate H). split; [exact N|]. rewrite (I N) in H. apply first_of_found in H.
      destruct H as (a & f & b & m1 & S & NO & F). apply map_split in S. destruct S as (l1 & k & l2 & EQ & -> & -> & ->). exists l1, k, l2, m1. auto.
    - intros (N & l1 & k & l2 & m1 & EQ & NO & F). rewrite (I N). apply first_of_found. exists (map (load E run) l1), (load E run k), (map (load E run) l2), m1.
      rewrite EQ, map_app. auto.
  Qed.
  Lemma import_missing (E : env W) run path r m m' : path <> [] ->
    none_of (map (load E run) (e_loaders E)) path r m m' -> import_module E run path r m = (Exc ModuleNotFound, m').
  Proof. intros N H. destruct path; [congruence|]. apply first_of_none, H. Qed.
  Lemma python_once (E : env W) P path r m x m' m'' l path' r' :
    make_absolute path (r_package r) = Ok (Some l) -> load_py E path r m = (Done x, m') -> history E P m' m'' ->
    make_absolute path' (r_package r') = Ok (Some l) -> load_py E path' r' m'' = (Done x, m'').
  Proof.
    intros A L H A'. apply load_py_inv in L. rewrite A in L.
    assert (D : dget str_eqb l (rt_py (m_rt m')) = Some x).
    { destruct L as [(y & D & [= <-] & ->)|(_ & _ & D)]; exact D. }
    apply (history_wider E P) in H. apply (proj1 H) in D. unfold load_py, mbind at 1. rewrite A'. cbn [of_result ret]. unfold mbind, get_rt. rewrite D. reflexivity.
  Qed.
  Lemma script_once (E : env W) P run run' path r r' cwd l m x m' m'' :
    e_resolve E = None -> ~ In DOT path -> (forall h w, e_cwd E h w = (Done cwd, w)) ->
    join_path (Some cwd) (DOT :: path) SLASH script_ext = Ok (Some l) -> (forall h w, e_exists E l h w = (Done true, w)) -> l <> [] ->
    load_hy E run path r m = (Done x, m') -> history E P m' m'' ->
    exists md, load_hy E run' path r' m'' = (Done (Some md), m'').
  Proof.
    intros R D C J X N L H. destruct (load_hy_stores E run path r cwd l m x m' R D C J X N L) as [S NX].
    apply (history_wider E P) in H. destruct H as (_ & H & _). assert (K : dget str_eqb l (rt_hy (m_rt m'')) <> None) by (apply H; congruence).
    destruct (dget str_eqb l (rt_hy (m_rt m''))) as [md|] eqn:G; [|congruence]. exists md.
    apply (load_hy_cached E run' path r' cwd l m'' md R D C J G).
  Qed.
End Once.
