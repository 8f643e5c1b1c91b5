(** Facts about folders, paths and the files found for them. *)
From Coq Require Import List NArith ZArith Bool Lia Arith String.
From Verif Require Import PyStr PyStrFacts PyDict Value Ast Machine Eval Translate Analyse MachineFacts Paths PathsFacts Runtime BookSpec LoadSpec.
Import ListNotations.
Local Open Scope string_scope.
Local Open Scope list_scope.
Local Open Scope nat_scope.

(** ** Paths *)
Lemma part_head p : part_ok p -> exists c r, p = c :: r /\ (c =? DOT)%N = false.
Proof. intros [H1 H2]. destruct p as [|c r]; [congruence|]. exists c, r. split; [reflexivity|]. destruct (H2 c (or_introl eq_refl)) as (_ & _ & _ & H & _). apply N.eqb_neq. exact H. Qed.
Lemma part_replace p : part_ok p -> forall sep, replace [DOT] [sep] p = p.
Proof.
  intros [H1 H2] sep. apply (replace_join sep [p]); [discriminate|].
  intros n [<-|[]] J. destruct (H2 _ J) as (_ & _ & _ & J' & _). apply J'. reflexivity.
Qed.
Lemma join_part base p sep ext : part_ok p -> join_path (Some base) (DOT :: p) sep ext = Ok (Some (chop_sep sep base ++ [sep] ++ p ++ ext)).
Proof.
  intros H. unfold join_path. rewrite N.eqb_refl. pose proof (part_replace p H sep) as R. destruct (part_head p H) as (c & r & -> & E). cbn [climb]. rewrite E. cbn [bind fst snd]. rewrite R. reflexivity.
Qed.
Lemma absolute_part package p : part_ok p -> exists q, make_absolute (DOT :: p) package = Ok q.
Proof.
  intros H. unfold make_absolute. change (startswith [DOT] (DOT :: p)) with true. cbn [negb]. destruct package as [q|]; [|exists None; reflexivity].
  rewrite join_part by exact H. eexists. reflexivity.
Qed.
Lemma chop_folder dir : folder_ok dir -> chop_sep SLASH dir = dir.
Proof.
  intros [H1 H2]. unfold chop_sep. destruct (exists_last H1) as (d & c & ->). rewrite last_last in H2. rewrite rev_unit. destruct (N.eqb_spec c SLASH); [contradiction|reflexivity].
Qed.
Lemma after_first_app c a r : ~ In c a -> after_first c (a ++ c :: r) = Some r.
Proof.
  induction a as [|x a IH]; intros H; cbn [app after_first]; [rewrite N.eqb_refl; reflexivity|]. destruct (N.eqb_spec x c) as [->|_]; [destruct H; left; reflexivity|]. apply IH. intros J. apply H. right. exact J.
Qed.
Lemma dirname_in dir f : folder_ok dir -> in_folder dir f -> dirname f = dir.
Proof.
  intros [H1 H2] (x & -> & Hx). unfold dirname. rewrite rev_app_distr. change (u "/" ++ x) with (SLASH :: x). cbn [rev]. rewrite <- app_assoc. cbn [app].
  rewrite after_first_app.
  - destruct (exists_last H1) as (d & c & ->). rewrite last_last in H2. rewrite rev_unit. assert (E : (c =? SLASH)%N = false) by (apply N.eqb_neq; exact H2).
    cbn [all_slashes strip_slashes_rev]. rewrite N.eqb_refl, E. cbn [andb]. cbn [rev]. rewrite rev_involutive. reflexivity.
  - rewrite <- in_rev. exact Hx.
Qed.
Lemma dirname_file dir p : folder_ok dir -> part_ok p -> dirname (file_of dir p) = dir.
Proof.
  intros H [_ Hp]. apply dirname_in; [exact H|]. exists (p ++ u ".hy"). split; [reflexivity|].
  intros J. apply in_app_or in J. destruct J as [J|J]; [destruct (Hp _ J) as (_ & _ & _ & _ & K); apply K; reflexivity|].
  repeat (destruct J as [J|J]; [discriminate|]). exact J.
Qed.
Lemma root_folder dir f package : folder_ok dir -> dirname f = dir -> ref_root {| r_file := Some f; r_package := package |} = Some dir.
Proof.
  intros [H _] E. unfold ref_root. cbn [r_file]. destruct f as [|c f]; [cbn in E; congruence|]. cbn [nonempty]. rewrite E. destruct dir; [congruence|reflexivity].
Qed.
Lemma before_first_app c a r : ~ In c a -> before_first c (a ++ c :: r) = a.
Proof.
  induction a as [|x a IH]; intros H; cbn [app before_first]; [rewrite N.eqb_refl; reflexivity|]. destruct (N.eqb_spec x c) as [->|_]; [destruct H; left; reflexivity|]. f_equal. apply IH. intros J. apply H. right. exact J.
Qed.
Lemma rsplit_head_app c a r : ~ In c r -> rsplit1_head c (a ++ c :: r) = a.
Proof.
  intros H. unfold rsplit1_head. rewrite rev_app_distr. cbn [rev]. rewrite <- app_assoc. cbn [app]. rewrite after_first_app by (rewrite <- in_rev; exact H). apply rev_involutive.
Qed.
Lemma rsplit_last_app c a r : ~ In c r -> rsplit1_last c (a ++ c :: r) = r.
Proof.
  intros H. unfold rsplit1_last. rewrite rev_app_distr. cbn [rev]. rewrite <- app_assoc. cbn [app]. rewrite before_first_app by (rewrite <- in_rev; exact H). apply rev_involutive.
Qed.
Lemma endswith_app p s : endswith p (s ++ p) = true.
Proof. unfold endswith. rewrite rev_app_distr. apply startswith_app. Qed.
Lemma mem_app c (a r : str) : mem c (a ++ c :: r) = true.
Proof. unfold mem. rewrite existsb_exists. exists c. split; [apply in_or_app; right; left; reflexivity|apply N.eqb_refl]. Qed.

Section Load.
  Context {W : Type}.
  Variables (E : env W) (run : str -> option str -> option str -> M W module).
  Lemma lift_answers {A} (p : prim W A) a m : answers p a -> lift_p p m = (Done a, m).
  Proof. intros H. unfold lift_p. rewrite H. destruct m. reflexivity. Qed.
  Lemma existing_true l m : l <> [] -> answers (e_exists E l) true -> existing E (Some l) m = (Done (Some l), m).
  Proof. intros N H. unfold existing. destruct l as [|c l]; [congruence|]. cbn [Runtime.nonempty]. rewrite (bind_done _ _ _ _ _ (lift_answers _ _ m H)). reflexivity. Qed.
  Lemma existing_false l m : l <> [] -> answers (e_exists E l) false -> existing E (Some l) m = (Done None, m).
  Proof. intros N H. unfold existing. destruct l as [|c l]; [congruence|]. cbn [Runtime.nonempty]. rewrite (bind_done _ _ _ _ _ (lift_answers _ _ m H)). reflexivity. Qed.
  Lemma located_loads path r f q m :
    (if startswith [DOT] path then find_relative path r else find_absolute E path r) m = (Done (Located (Some f) q), m) ->
    f <> [] -> answers (e_exists E f) true ->
    loads E run path r f (match Runtime.nonempty q with Some p => Some (rsplit1_head DOT p) | None => None end) m.
  Proof.
    intros F N X. unfold loads, load_hy. rewrite (bind_done _ _ _ _ _ F). rewrite (bind_done _ _ _ _ _ (existing_true f m N X)).
    set (package := match Runtime.nonempty q with Some p => _ | None => _ end). unfold mbind, lift_p. destruct (e_read E f (m_heap m) (m_world m)) as [[script|e|] w]; [|reflexivity..].
    destruct (run script (Some f) package (with_world m w)) as [[md|e|] m'] eqn:R; [|reflexivity..].
    eexists. split; [reflexivity|]. repeat split.
  Qed.

  (** Step 1: the function given to the loader. *)
  Lemma resolved_script path g f r m : e_resolve E = Some g -> path <> [] -> hd DOT path <> DOT -> answers (g path r) (Some f) -> f <> [] ->
    answers (e_exists E f) true -> dget str_eqb f (rt_hy (m_rt m)) = None -> loads E run path r f None m.
  Proof.
    intros R Np Hp A Nf X C. destruct path as [|c p]; [congruence|]. cbn [hd] in Hp. apply (located_loads (c :: p) r f None m); [|exact Nf|exact X].
    change (startswith [DOT] (c :: p)) with ((DOT =? c)%N && true). replace (DOT =? c)%N with false by (symmetry; apply N.eqb_neq; congruence). cbn [andb].
    unfold find_absolute. rewrite R. rewrite (bind_done _ _ _ _ _ (lift_answers _ _ m A)). unfold unless_cached. rewrite (bind_done get_rt _ m (m_rt m) m eq_refl). rewrite C.
    rewrite (bind_done _ _ _ _ _ (existing_true _ m Nf X)). reflexivity.
  Qed.
  (** Step 2: scripts of packages. *)
  Lemma package_script p name dir init r m : e_resolve E = None -> p <> [] -> hd DOT p <> DOT -> ~ In DOT name -> folder_ok dir -> in_folder dir init ->
    (exists x, init = x ++ u ".py") -> answers (e_package E p) init -> answers (e_exists E (file_of dir name)) true ->
    loads E run (p ++ u "." ++ name) r (file_of dir name) (Some dir) m.
  Proof.
    intros R Np Hp Nn Fd Fi [x Ex] A X. destruct p as [|c p]; [congruence|]. cbn [hd] in Hp. change (u "." ++ name) with (DOT :: name).
    assert (Nf : file_of dir name <> []) by (destruct Fd as [Nd _]; unfold file_of; destruct dir; [congruence|discriminate]).
    assert (K := located_loads ((c :: p) ++ DOT :: name) r (file_of dir name) (Some (dir ++ [DOT] ++ name)) m).
    assert (Nq : Runtime.nonempty (Some (dir ++ [DOT] ++ name)) = Some (dir ++ [DOT] ++ name)) by (destruct dir; reflexivity).
    rewrite Nq in K. cbn [app] in K. rewrite (rsplit_head_app DOT dir name Nn) in K. apply K; [|exact Nf|exact X]. clear K.
    change (startswith [DOT] (c :: p ++ DOT :: name)) with ((DOT =? c)%N && true). replace (DOT =? c)%N with false by (symmetry; apply N.eqb_neq; congruence). cbn [andb].
    unfold find_absolute. rewrite R. unfold find_package. change (c :: p ++ DOT :: name) with ((c :: p) ++ DOT :: name). rewrite mem_app, (rsplit_head_app DOT _ name Nn), (rsplit_last_app DOT _ name Nn).
    rewrite (bind_done _ _ _ _ _ (lift_answers _ _ m A)). cbv zeta. rewrite (dirname_in dir init Fd Fi). subst init. rewrite endswith_app.
    rewrite (bind_done _ _ _ _ _ (existing_true _ m Nf X)). reflexivity.
  Qed.

  (** Step 3: the current folder. Step 4: the folder of the referrer. *)
  Lemma part_undotted p : part_ok p -> mem DOT p = false /\ startswith [DOT] p = false.
  Proof.
    intros H. split.
    - destruct (mem DOT p) eqn:Em; [|reflexivity]. unfold mem in Em. apply existsb_exists in Em. destruct Em as (c & I & Ec). apply N.eqb_eq in Ec. subst c. destruct H as [_ H]. destruct (H _ I) as (_ & _ & _ & K & _). contradiction K. reflexivity.
    - destruct (part_head p H) as (c & q & -> & Ec). cbn [startswith]. rewrite N.eqb_sym, Ec. reflexivity.
  Qed.
  Lemma here_script p cwd r m : e_resolve E = None -> part_ok p -> folder_ok cwd -> answers (e_cwd E) cwd -> answers (e_exists E (file_of cwd p)) true ->
    dget str_eqb (file_of cwd p) (rt_hy (m_rt m)) = None -> loads E run p r (file_of cwd p) None m.
  Proof.
    intros R Hp Fd A X C. destruct (part_undotted p Hp) as [D1 D2]. assert (Nf : file_of cwd p <> []) by (destruct Fd as [Nd _]; unfold file_of; destruct cwd; [congruence|discriminate]).
    apply (located_loads p r (file_of cwd p) None m); [|exact Nf|exact X]. rewrite D2. unfold find_absolute. rewrite R. unfold find_package. rewrite D1. unfold find_here.
    rewrite (bind_done _ _ _ _ _ (lift_answers _ _ m A)). rewrite join_part by exact Hp. rewrite (chop_folder _ Fd). cbn [of_result].
    rewrite (bind_done _ _ m (Some (file_of cwd p)) m eq_refl). unfold unless_cached. rewrite (bind_done get_rt _ m (m_rt m) m eq_refl). rewrite C.
    rewrite (bind_done _ _ _ _ _ (existing_true _ m Nf X)). reflexivity.
  Qed.
  Lemma near_script p cwd dir f package m : e_resolve E = None -> part_ok p -> folder_ok cwd -> folder_ok dir -> in_folder dir f -> answers (e_cwd E) cwd ->
    answers (e_exists E (file_of cwd p)) false -> dget str_eqb (file_of cwd p) (rt_hy (m_rt m)) = None -> answers (e_exists E (file_of dir p)) true ->
    (forall q, package = Some q -> q <> [] /\ last q 0%N <> DOT) ->
    loads E run p {| r_file := Some f; r_package := package |} (file_of dir p) package m.
  Proof.
    intros R Hp Fc Fd Ff A X C Y Pk. destruct (part_undotted p Hp) as [D1 D2].
    assert (Nc : file_of cwd p <> []) by (destruct Fc as [Nd _]; unfold file_of; destruct cwd; [congruence|discriminate]).
    assert (Nf : file_of dir p <> []) by (destruct Fd as [Nd _]; unfold file_of; destruct dir; [congruence|discriminate]).
    assert (Np : ~ In DOT p) by (destruct Hp as [_ Hp]; intros I; destruct (Hp _ I) as (_ & _ & _ & K & _); apply K; reflexivity).
    set (q := match package with Some q => Some (q ++ [DOT] ++ p) | None => None end).
    assert (Q : make_absolute (DOT :: p) package = Ok q).
    { unfold make_absolute. change (startswith [DOT] (DOT :: p)) with true. cbn [negb]. destruct package as [q0|]; [|reflexivity]. rewrite join_part by exact Hp. rewrite app_nil_r.
      destruct (Pk q0 eq_refl) as [H1 H2]. unfold chop_sep. destruct (exists_last H1) as (d & c & ->). rewrite last_last in H2. rewrite rev_unit. destruct (N.eqb_spec c DOT); [contradiction|reflexivity]. }
    assert (K := located_loads p {| r_file := Some f; r_package := package |} (file_of dir p) q m).
    assert (Eq : match Runtime.nonempty q with Some p0 => Some (rsplit1_head DOT p0) | None => None end = package).
    { unfold q. destruct package as [q0|]; [|reflexivity]. destruct (Pk q0 eq_refl) as [H1 _]. destruct q0 as [|c0 q0]; [congruence|]. change (Runtime.nonempty (Some ((c0 :: q0) ++ [DOT] ++ p))) with (Some ((c0 :: q0) ++ DOT :: p)). cbv iota. rewrite (rsplit_head_app DOT (c0 :: q0) p Np). reflexivity. }
    rewrite Eq in K. apply K; [|exact Nf|exact Y]. clear K. rewrite D2. unfold find_absolute. rewrite R. unfold find_package. rewrite D1. unfold find_here.
    rewrite (bind_done _ _ _ _ _ (lift_answers _ _ m A)). rewrite join_part by exact Hp. rewrite (chop_folder _ Fc). cbn [of_result].
    rewrite (bind_done _ _ m (Some (file_of cwd p)) m eq_refl). unfold unless_cached. rewrite (bind_done get_rt _ m (m_rt m) m eq_refl). rewrite C.
    rewrite (bind_done _ _ _ _ _ (existing_false _ m Nc X)). unfold find_near. rewrite (root_folder dir f package Fd (dirname_in dir f Fd Ff)). cbn [r_package].
    rewrite join_part by exact Hp. rewrite (chop_folder _ Fd). cbn [of_result]. rewrite (bind_done _ _ m (Some (file_of dir p)) m eq_refl). rewrite Q. reflexivity.
  Qed.
End Load.
