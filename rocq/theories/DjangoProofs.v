(** Proofs and sample data of C65: templates of Django. *)
From Coq Require Import List NArith ZArith Bool Lia Arith String.
From Verif Require Import PyStr PyStrFacts PyDict Value Dom Ast Structs Machine MachineFacts Syntax Translate Analyse Runtime RuntimeSpec ExportFacts PageSpec OperSpec TmplSpec TmplParse TmplDoc Ref ConfRef PageSamples TmplSamples TmplProofs BookSpec TmplBook BookProofs Django DjangoSpec.
Import ListNotations.
Local Open Scope string_scope.
Local Open Scope list_scope.

Section Files.
  Context {W : Type}.
  Variable open_file : str -> prim W (option str).

  Lemma tried_files files : forall tried (m : mach W) m',
    (absent open_file files m m' -> try_files open_file files tried m = (Done (DoesNotExist (tried ++ files)), m')).
  Proof.
    induction files as [|f files IH]; intros tried m m'; cbn [absent try_files].
    - intros ->. rewrite app_nil_r. reflexivity.
    - intros (m1 & H1 & H2). unfold mbind. rewrite H1. rewrite (IH _ _ _ H2), <- app_assoc. reflexivity.
  Qed.
  Lemma found_file files : forall tried (m : mach W) m' t, try_files open_file files tried m = (Done (Found t), m') <->
    exists l1 f l2 m1 text, files = l1 ++ f :: l2 /\ absent open_file l1 m m1 /\ lift_p (open_file f) m1 = (Done (Some text), m') /\
      t = {| t_view := text; t_filename := Some f |}.
  Proof.
    induction files as [|f files IH]; intros tried m m' t; cbn [try_files].
    - split; [discriminate|]. intros (l1 & f & l2 & m1 & text & H & _). destruct l1; discriminate.
    - split.
      + intros H. apply bind_done_inv in H. destruct H as ([text|] & m1 & H1 & H).
        * injection H as <- <-. exists [], f, files, m, text. cbn. auto.
        * apply IH in H. destruct H as (l1 & g & l2 & m2 & text & -> & A & H2 & ->). exists (f :: l1), g, l2, m2, text. cbn. split; [reflexivity|]. split; [exists m1; auto|]. auto.
      + intros (l1 & g & l2 & m1 & text & H & A & H2 & ->). destruct l1 as [|h l1]; cbn in H, A.
        * injection H as -> ->. subst m1. unfold mbind. rewrite H2. reflexivity.
        * injection H as -> ->. destruct A as (m2 & A1 & A2). unfold mbind. rewrite A1. apply IH. exists l1, g, l2, m1, text. auto.
  Qed.
  Lemma missing_iff files (m : mach W) m' tried : get_template open_file files m = (Done (DoesNotExist tried), m') <->
    absent open_file files m m' /\ tried = files.
  Proof.
    unfold get_template. split.
    - assert (G : forall files tr m, try_files open_file files tr m = (Done (DoesNotExist tried), m') -> absent open_file files m m').
      { clear. intros files. induction files as [|f files IH]; intros tr m; cbn [try_files absent]; [intros [= _ <-]; reflexivity|].
        intros H. apply bind_done_inv in H. destruct H as ([text|] & m1 & H1 & H); [discriminate|]. exists m1. split; [exact H1|exact (IH _ _ H)]. }
      intros H. pose proof (G _ _ _ H) as A. split; [exact A|]. rewrite (tried_files _ [] _ _ A) in H. injection H as <-. reflexivity.
    - intros [A ->]. apply (tried_files _ [] _ _ A).
  Qed.
End Files.

(** ** Rendering *)
Lemma str_dec (x y : str) : x = y \/ x <> y.
Proof. destruct (str_eqb x y) eqn:E; [left; apply str_eqb_eq; exact E|right; intros ->; rewrite (proj2 (str_eqb_eq y y) eq_refl) in E; discriminate]. Qed.
Lemma str_neqb x y : x <> y -> str_eqb x y = false.
Proof. intros H. destruct (str_eqb x y) eqn:E; [apply str_eqb_eq in E; contradiction|reflexivity]. Qed.

Section Render.
  Variables csrf_input csrf_token : val -> val.
  Notation prepare := (prepare csrf_input csrf_token).
  Notation seen := (seen csrf_input csrf_token).

  Definition requested (c : list (str * val)) (request : option val) : list (str * val) :=
    match request with
    | Some r => dset str_eqb (u "csrf_token") (csrf_token r) (dset str_eqb (u "csrf_input") (csrf_input r) (dset str_eqb (u "request") r c))
    | None => c
    end.
  Lemma requested_seen c request x : dget str_eqb x (requested c request) = seen c request x.
  Proof.
    destruct request as [r|]; [|reflexivity]. cbn [requested]. unfold DjangoSpec.seen. rewrite !(dget_dset str_eqb str_eqb_eq).
    destruct (str_eqb x (u "request")) eqn:E1, (str_eqb x (u "csrf_input")) eqn:E2, (str_eqb x (u "csrf_token")) eqn:E3; try reflexivity;
    repeat match goal with H : str_eqb _ _ = true |- _ => apply str_eqb_eq in H end; subst; discriminate.
  Qed.

  Lemma in_keys_dset x v y (c : list (str * val)) : In y (map fst (dset str_eqb x v c)) -> y = x \/ In y (map fst c).
  Proof.
    pose proof (dkeys_dset str_eqb x v c) as K. unfold dkeys in K. rewrite K. destruct (dmem str_eqb x c); [right; assumption|].
    intros H. apply in_app_or in H. destruct H as [H|[H|[]]]; [right; exact H|left; congruence].
  Qed.
  Lemma plain_dset x v c : plain_context c -> unmarked x -> ~ In x param_names -> plain_context (dset str_eqb x v c).
  Proof.
    intros [N H] U K. split; [apply (nodup_dset str_eqb str_eqb_eq), N|]. intros y w Hy. apply (in_map fst) in Hy. apply in_keys_dset in Hy. destruct Hy as [Hy|Hy]; cbn [fst] in Hy.
    - subst y. split; assumption.
    - apply in_map_iff in Hy. destruct Hy as ([y' w'] & E & Hy). cbn in E. subst y'. exact (H _ _ Hy).
  Qed.
  Lemma own_names x : In x [u "request"; u "csrf_input"; u "csrf_token"] -> unmarked x /\ ~ In x param_names.
  Proof.
    intros H. split; [repeat (destruct H as [<-|H]; [repeat eexists; discriminate|]); destruct H|].
    intros K. repeat (destruct H as [<-|H]; [repeat (destruct K as [K|K]; [discriminate K|]); destruct K|]). destruct H.
  Qed.
  Lemma plain_requested c request : plain_context c -> plain_context (requested c request).
  Proof.
    intros H. destruct request as [r|]; [|exact H]. unfold requested.
    apply plain_dset; [apply plain_dset; [apply plain_dset; [exact H|..]|..]|..]; apply own_names; cbn; tauto.
  Qed.
  Lemma plain_get c x : plain_context c -> In x param_names -> dget str_eqb x c = None.
  Proof.
    intros [_ H] K. destruct (dget str_eqb x c) as [v|] eqn:E; [|reflexivity]. apply (dget_In str_eqb str_eqb_eq) in E. destruct (H _ _ E) as [_ J]. contradiction.
  Qed.
  Lemma dset_absent x v (c : list (str * val)) : dget str_eqb x c = None -> dset str_eqb x v c = c ++ [(x, v)].
  Proof. induction c as [|[y w] c IH]; cbn [dget dset]; [reflexivity|]. destruct (str_eqb x y); [discriminate|]. intros H. rewrite (IH H). reflexivity. Qed.
  Lemma plain_filter c : plain_context c -> filter (fun nv : str * val => negb (own_keyword (fst nv))) c = c.
  Proof.
    intros [_ H]. induction c as [|[y w] c IH]; [reflexivity|]. cbn [filter fst]. rewrite IH by (intros; apply (H x v); right; assumption).
    destruct (own_keyword y) eqn:E; [|reflexivity]. destruct (H y w (or_introl eq_refl)) as [_ J]. destruct J. unfold own_keyword in E. apply existsb_exists in E. destruct E as (z & Hz & E).
    apply str_eqb_eq in E. subst z. unfold param_names. cbn [map In] in *. tauto.
  Qed.
  Lemma plain_values c : plain_context c -> forall x, unmarked x -> last_value 36 (VAR x) c = dget str_eqb x c.
  Proof.
    intros [N H] x Hx. induction c as [|[y w] c IH]; [reflexivity|]. cbn [last_value dget]. cbn [map fst] in N. inversion N as [|? ? N1 N2]; subst.
    rewrite (IH N2) by (intros; apply (H x0 v); right; assumption).
    destruct (H y w (or_introl eq_refl)) as [(a & r & -> & A1 & A2) _]. apply N.eqb_neq in A1. apply N.eqb_neq in A2. cbn [with_mark]. rewrite A1, A2. cbn [orb].
    destruct (str_dec x (a :: r)) as [->|D].
    - rewrite (proj2 (str_eqb_eq _ _) eq_refl). destruct (dget str_eqb (a :: r) c) as [v|] eqn:E.
      + apply (dget_In str_eqb str_eqb_eq), (in_map fst) in E. contradiction.
      + rewrite (proj2 (str_eqb_eq _ _) eq_refl). reflexivity.
    - rewrite (str_neqb _ _ D). destruct (dget str_eqb x c); [reflexivity|]. rewrite str_neqb; [reflexivity|]. intros K. apply D. injection K as K. symmetry. exact K.
  Qed.
  Lemma plain_called c : plain_context c -> exists ctx, called_with [] c ctx /\ forall x, unmarked x -> dget str_eqb (VAR x) ctx = dget str_eqb x c.
  Proof.
    intros H. destruct (make_context_total [] c) as [ctx K].
    - intros x v Hx. destruct (proj2 H x v Hx) as [(a & r & -> & _) _]. discriminate.
    - exists ctx. split; [split; [|exact K]; intros x v Hx; exact (proj2 (proj2 H x v Hx))|]. intros x Hx. rewrite (make_context_value _ _ _ K). unfold context_value. rewrite (plain_values c H x Hx).
      destruct (dget str_eqb x c); reflexivity.
  Qed.
  Context {W : Type}.
  Variable E : env W.
  Variable P : prims W.
  Lemma call_prepared n k view t c request : plain_context c ->
    call_render E P n k view (prepare t c request) = Some (render_script E P n k [] (requested c request) view (Runtime.nonempty (t_filename t)) None).
  Proof.
    intros H. pose proof (plain_requested c request H) as H1. unfold Django.prepare. fold (requested c request).
    assert (G : forall x, In x param_names -> dget str_eqb x (requested c request) = None) by (intros x Hx; exact (plain_get _ _ H1 Hx)).
    assert (Gf : dget str_eqb (u "__file__") (requested c request) = None) by (apply G; cbn; tauto).
    assert (Gp : dget str_eqb (u "__package__") (requested c request) = None) by (apply G; cbn; tauto).
    assert (Gt : dget str_eqb (u "__tags__") (requested c request) = None) by (apply G; cbn; tauto).
    destruct (Runtime.nonempty (t_filename t)) as [f|]; unfold call_render.
    - unfold dmem. rewrite Gf. rewrite (dget_dset_other str_eqb str_eqb_eq (u "__tags__")) by discriminate. rewrite (dget_dset_other str_eqb str_eqb_eq (u "__package__")) by discriminate.
      rewrite (dget_dset_same str_eqb str_eqb_eq), Gp, Gt. cbn [as_tags as_path]. rewrite (dset_absent _ _ _ Gf), filter_app, (plain_filter _ H1). cbn [filter fst]. 
      change (own_keyword (u "__file__")) with true. cbn [negb]. rewrite app_nil_r. reflexivity.
    - rewrite Gf, Gp, Gt. cbn [as_tags as_path]. rewrite (plain_filter _ H1). reflexivity.
  Qed.
  Lemma django_render n k t c request : plain_context c -> exists args ctx,
    template_render E P csrf_input csrf_token n k t (Some c) request =
      (Some (render_script E P n k [] args (t_view t) (Runtime.nonempty (t_filename t)) None), Some (prepare t c request)) /\
    called_with [] args ctx /\ forall x, unmarked x -> dget str_eqb (VAR x) ctx = seen c request x.
  Proof.
    intros H. pose proof (plain_requested c request H) as H1. destruct (plain_called _ H1) as (ctx & K1 & K2). exists (requested c request), ctx.
    split; [|split; [exact K1|intros x Hx; rewrite (K2 x Hx); apply requested_seen]]. unfold template_render. rewrite (call_prepared n k (t_view t) t c request H). reflexivity.
  Qed.
  Lemma django_no_context n k t request :
    template_render E P csrf_input csrf_token n k t None request = (fst (template_render E P csrf_input csrf_token n k t (Some []) request), None).
  Proof. reflexivity. Qed.
End Render.

(** ** The whole way *)
Lemma id_unmarked x : id_name x = true -> unmarked x.
Proof.
  destruct x as [|c r]; [discriminate|]. unfold id_name. intros H. apply andb_prop in H. destruct H as [H _]. apply andb_prop in H. destruct H as [H _].
  exists c, r. split; [reflexivity|]. split; intros ->; discriminate H.
Qed.
Lemma folder_file f dir : folder_ok dir -> in_folder dir f -> Runtime.nonempty (Some f) = Some f.
Proof. intros [H _] (x & -> & _). destruct dir; [congruence|reflexivity]. Qed.

Lemma django_book (W : Type) (E : env W) (P : prims W) Q X known csrf_input csrf_token b lim lib dir d names vals vars s n k c request f (m : mach W) :
  book_runtime E P Q X known vars b lib dir n k m -> plain_context c ->
  Forall2 (fun x v => seen csrf_input csrf_token c request x = Some v) names vals ->
  blank_text b -> plain_symbols X (source_text b names s) -> List.length (defined (src_defs s)) + (lim + d * most lib) <= n -> d <= k -> in_folder dir f ->
  (forall x, In x names -> id_name x = true) -> source_ok b known (names ++ map fst vars) s ->
  exists r c', template_render E P csrf_input csrf_token n (S k) {| t_view := source_text b names s; t_filename := Some f |} (Some c) request = (Some r, c') /\
    (forall es r', inst_source Q b lim (exports Q b lim lib vars d) (combine names vals ++ vars) s = Is (es, r') ->
      exists m', r m = (Done (elems_html (void known) (gaps (src_defs s) ++ es) (src_blank s)), m')) /\
    (inst_source Q b lim (exports Q b lim lib vars d) (combine names vals ++ vars) s = Raises -> exists e m', r m = (Exc e, m')).
Proof.
  intros HR Hc HC Hb Hu Ln Hk Hf Hn Hok. assert (Hd : folder_ok dir) by (destruct HR as (_ & _ & _ & _ & H & _); exact H).
  destruct (django_render csrf_input csrf_token E P n (S k) {| t_view := source_text b names s; t_filename := Some f |} c request Hc) as (args & ctx & R & G & S).
  cbn [t_view t_filename] in R. rewrite (folder_file f dir Hd Hf) in R. eexists. eexists. split; [exact R|].
  apply (render_book E P Q X known b lim lib dir d names vals vars s n k [] args ctx f None m HR G); try assumption.
  clear -HC Hn S. induction HC as [|x v names vals H HC IH]; [constructor|]. constructor.
  - rewrite S; [exact H|]. apply id_unmarked, Hn. left. reflexivity.
  - apply IH. intros y Hy. apply Hn. right. exact Hy.
Qed.

(** ** Names that cannot be given *)
Lemma self_refused (W : Type) (E : env W) (P : prims W) n k tags args view file package (m : mach W) x v :
  In (x, v) args -> In x render_params -> render_script E P n (S k) tags args view file package m = (Exc TypeError, m).
Proof.
  intros H K. unfold render_script. cbn [run_script]. unfold mbind at 1. unfold mbind at 1. rewrite (clash_raises _ _ _ _ H K). reflexivity.
Qed.
Lemma own_is x : own_keyword x = true -> In x (map u ["__file__"; "__package__"; "__tags__"]).
Proof. unfold own_keyword. intros H. apply existsb_exists in H. destruct H as (y & Hy & H). apply str_eqb_eq in H. subst y. exact Hy. Qed.
Lemma dset_keeps x v y (c : list (str * val)) : In y (map fst c) -> In y (map fst (dset str_eqb x v c)).
Proof. intros H. pose proof (dkeys_dset str_eqb x v c) as K. unfold dkeys in K. rewrite K. destruct (dmem str_eqb x c); [exact H|apply in_or_app; left; exact H]. Qed.
Lemma prepare_keeps csrf_input csrf_token t c request y : In y (map fst c) -> In y (map fst (prepare csrf_input csrf_token t c request)).
Proof.
  intros H. unfold prepare. set (c1 := match request with Some _ => _ | None => c end).
  assert (H1 : In y (map fst c1)) by (unfold c1; destruct request; [repeat apply dset_keeps; exact H|exact H]).
  destruct (Runtime.nonempty (t_filename t)); [destruct (dmem _ _ _); [exact H1|apply dset_keeps; exact H1]|exact H1].
Qed.
Lemma django_refused (W : Type) (E : env W) (P : prims W) csrf_input csrf_token n k t c request x r c' (m : mach W) :
  In x (map fst c) -> In x (map u ["self"; "__script__"; "builtins"; "__builtins__"]) ->
  template_render E P csrf_input csrf_token n k t (Some c) request = (Some r, c') -> forall s m', r m <> (Done s, m').
Proof.
  intros H K R s m' D. unfold template_render in R. apply (prepare_keeps csrf_input csrf_token t c request) in H. set (c1 := prepare _ _ t c request) in *. clearbody c1.
  injection R as R _. unfold call_render in R. destruct (as_tags _) as [tags|]; [|discriminate]. destruct (as_path _) as [file|]; [|discriminate]. destruct (as_path _) as [package|]; [|discriminate].
  injection R as <-. apply in_map_iff in H. destruct H as ([y v] & E0 & H). cbn in E0. subst y.
  refine (names_refused W E P n k tags _ (t_view t) file package m x v _ _ s m' D).
  - apply filter_In. split; [exact H|]. cbn [fst]. destruct (own_keyword x) eqn:E1; [|reflexivity]. apply own_is in E1. exfalso.
    repeat (destruct K as [<-|K]; [repeat (destruct E1 as [E1|E1]; [discriminate E1|]); destruct E1|]). destruct K.
  - unfold param_names. cbn [map In] in *. tauto.
Qed.

(** ** Samples *)
Definition two_folders : list (str * str) :=
  [(u "/a/parts.hy", u "%item
  | of a"); (u "/b/parts.hy", u "%item
  | of b")].
Definition folders_env : env unit := {|
  e_loaders := e_loaders html_env; e_builtins := e_builtins html_env; e_resolve := None; e_cwd := e_cwd html_env;
  e_exists := fun p => pure (Ok match dget str_eqb p two_folders with Some _ => true | None => false end);
  e_read := fun p => pure (match dget str_eqb p two_folders with Some t => Ok t | None => Raise (OtherError 0) end);
  e_package := e_package html_env; e_pymodule := e_pymodule html_env; e_parse := parse_script conf_lexicon
|}.
Definition same_val (v : val) : val := v.
Definition render_now (t : template) (c : option (list (str * val))) (m : mach unit) : option (out str * mach unit * option (list (str * val))) :=
  match template_render folders_env conf_prims same_val same_val 40 4 t c None with
  | (Some r, c') => Some (r m, c')
  | (None, _) => None
  end.
Definition template_a : template := {| t_view := u "| text"; t_filename := Some (u "/a/main.hy") |}.
Definition template_b : template := {| t_view := u "from .parts import %item
item"; t_filename := Some (u "/b/main.hy") |}.
(** Template b with the dictionary [c], after template a with the same dictionary if [shared]. *)
Definition after_a (shared : bool) (c : list (str * val)) : option (out str) :=
  match render_now template_a (Some c) mach0 with
  | Some (_, m, Some c') =>
      match render_now template_b (Some (if shared then c' else c)) m with Some (o, _, _) => Some o | None => None end
  | _ => None
  end.
Lemma shared_context : exists c, plain_context c /\ after_a false c = Some (Done (u "of b")) /\ after_a true c = Some (Done (u "of a")).
Proof. exists []. split; [split; [constructor|intros ? ? []]|]. split; vm_compute; reflexivity. Qed.
Definition disk (f : str) : prim unit (option str) := fun _ w => (Done (dget str_eqb f two_folders), w).
