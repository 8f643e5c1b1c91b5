(** C65 templates of Django. *)
From Coq Require Import List NArith ZArith Bool Arith String.
From Verif Require Import PyStr Html PyDict Value Dom Ast Machine Analyse Syntax Runtime RuntimeSpec ExportFacts Ref ConfRef PageSpec PageSamples OperSpec
  TmplSpec TmplParse TmplDoc TmplSamples TmplProofs BookSpec TmplBook BookProofs Django DjangoSpec DjangoProofs.
Import ListNotations.
Local Open Scope string_scope.
Local Open Scope list_scope.

(** get_template gives the text of the first file that exists; those in front of it have been tried. *)
Theorem C65_found : forall W (open_file : str -> prim W (option str)) files (m m' : mach W) t,
  get_template open_file files m = (Done (Found t), m') <->
  exists l1 f l2 m1 text, files = l1 ++ f :: l2 /\ absent open_file l1 m m1 /\ lift_p (open_file f) m1 = (Done (Some text), m') /\
    t = {| t_view := text; t_filename := Some f |}.
Proof. intros W open_file files m m' t. exact (found_file open_file files [] m m' t). Qed.
Print Assumptions C65_found.
(** TemplateDoesNotExist is raised if none exists, and tells which were tried. *)
Theorem C65_missing : forall W (open_file : str -> prim W (option str)) files (m m' : mach W) tried,
  get_template open_file files m = (Done (DoesNotExist tried), m') <-> absent open_file files m m' /\ tried = files.
Proof. intros W open_file files m m' tried. exact (missing_iff open_file files m m' tried). Qed.
Print Assumptions C65_missing.
Example C65_lookup : map (fun files => fst (get_template disk files mach0)) [[u "/a/x.hy"; u "/b/parts.hy"; u "/a/parts.hy"]; [u "/a/x.hy"; u "/c/x.hy"]] =
  [Done (Found {| t_view := u "%item
  | of b"; t_filename := Some (u "/b/parts.hy") |}); Done (DoesNotExist [u "/a/x.hy"; u "/c/x.hy"])] /\
  absent disk [u "/a/x.hy"] mach0 mach0.
Proof. split; [vm_compute; reflexivity|]. exists mach0. split; reflexivity. Qed.

(** Template.render is a call of Runtime.render with the file name of the template, in which the script finds the
    values of the context, and those of the request under their three names. *)
Theorem C65_render_partial : forall W (E : env W) (P : prims W) csrf_input csrf_token n k t c request, plain_context c -> exists args ctx,
  template_render E P csrf_input csrf_token n k t (Some c) request =
    (Some (render_script E P n k [] args (t_view t) (Runtime.nonempty (t_filename t)) None), Some (prepare csrf_input csrf_token t c request)) /\
  called_with [] args ctx /\ forall x, unmarked x -> dget str_eqb (VAR x) ctx = seen csrf_input csrf_token c request x.
Proof. intros W E P csrf_input csrf_token n k t c request. exact (django_render csrf_input csrf_token E P n k t c request). Qed.
Print Assumptions C65_render_partial.
Theorem C65_no_context : forall W (E : env W) (P : prims W) csrf_input csrf_token n k t request,
  template_render E P csrf_input csrf_token n k t None request = (fst (template_render E P csrf_input csrf_token n k t (Some []) request), None).
Proof. intros W E P csrf_input csrf_token n k t request. exact (django_no_context csrf_input csrf_token E P n k t request). Qed.
Print Assumptions C65_no_context.
(** A template made of a string has no file name. *)
Theorem C65_string_partial : forall W (E : env W) (P : prims W) csrf_input csrf_token n k code c request, plain_context c -> exists args ctx,
  template_render E P csrf_input csrf_token n k (from_string code) (Some c) request =
    (Some (render_script E P n k [] args code None None), Some (prepare csrf_input csrf_token (from_string code) c request)) /\
  called_with [] args ctx /\ forall x, unmarked x -> dget str_eqb (VAR x) ctx = seen csrf_input csrf_token c request x.
Proof. intros W E P csrf_input csrf_token n k code c request. exact (django_render csrf_input csrf_token E P n k (from_string code) c request). Qed.
Print Assumptions C65_string_partial.
Example C65_plain : plain_context [] /\ plain_context [(u "title", VStr (u "Menu"))] /\ unmarked (u "title").
Proof.
  split; [split; [constructor|intros ? ? []]|]. split; [|repeat eexists; discriminate].
  split; [repeat constructor; intros []|]. intros x v [[= <- <-]|[]]. split; [repeat eexists; discriminate|]. apply (args_okb_ok [(u "title", VNone)]) with (v := VNone); [vm_compute; reflexivity|left; reflexivity].
Qed.

(** The whole way: a template in the folder of a library renders to the HTML of its instance, or raises if that needs
    something that Python refuses. *)
Theorem C65_html_partial : forall (W : Type) (E : env W) (P : prims W) Q X known csrf_input csrf_token b lim lib dir d names vals vars s n k c request f (m : mach W),
  book_runtime E P Q X known vars b lib dir n k m -> plain_context c ->
  Forall2 (fun x v => seen csrf_input csrf_token c request x = Some v) names vals ->
  blank_text b -> plain_symbols X (source_text b names s) -> List.length (defined (src_defs s)) + (lim + d * most lib) <= n -> d <= k -> in_folder dir f ->
  (forall x, In x names -> id_name x = true) -> source_ok b known (names ++ map fst vars) s ->
  exists r c', template_render E P csrf_input csrf_token n (S k) {| t_view := source_text b names s; t_filename := Some f |} (Some c) request = (Some r, c') /\
    (forall es r', inst_source Q b lim (exports Q b lim lib vars d) (combine names vals ++ vars) s = Is (es, r') ->
      exists m', r m = (Done (elems_html (void known) (gaps (src_defs s) ++ es) (src_blank s)), m')) /\
    (inst_source Q b lim (exports Q b lim lib vars d) (combine names vals ++ vars) s = Raises -> exists e m', r m = (Exc e, m')).
Proof. exact django_book. Qed.
Print Assumptions C65_html_partial.
Example C65_html_runtime : book_runtime site_env conf_prims conf_py conf_lexicon html_known sample_vars (u " ") sample_lib (u "/site") 40 4 mach0 /\
  source_ok (u " ") html_known ([u "request"; u "title"] ++ map fst sample_vars) sample_main /\ plain_symbols conf_lexicon (source_text (u " ") [u "request"; u "title"] sample_main) /\
  Forall2 (fun x v => seen same_val same_val [(u "title", VStr (u "Menu"))] (Some (VInt 1)) x = Some v) [u "request"; u "title"] [VInt 1; VStr (u "Menu")] /\
  List.length (src_defs sample_main) + (30 + 3 * most sample_lib) <= 40 /\ in_folder (u "/site") (u "/site/main.hy").
Proof.
  split; [exact site_runtime|]. split; [apply source_okb_ok; vm_compute; reflexivity|]. split; [apply conf_symbols; vm_compute; reflexivity|].
  split; [repeat constructor|]. split; [vm_compute; repeat constructor|]. exists (u "main.hy"). split; [reflexivity|apply no_slashb; reflexivity].
Qed.
Example C65_page : match template_render site_env conf_prims same_val same_val 40 5 {| t_view := source_text (u " ") [u "request"; u "title"] sample_main; t_filename := Some (u "/site/main.hy") |}
    (Some [(u "title", VStr (u "Menu"))]) (Some (VInt 1)) with
  | (Some r, _) => fst (r mach0)
  | (None, _) => Fuel
  end = Done (u "<h2>Menu</h2>
<ul>
  <li>4 of 7</li>
  <li>9 of 7</li>
  <li>2 of 7</li>
</ul>

range = 9").
Proof. vm_compute. reflexivity. Qed.

(** Finding: render() changes the dictionary of the caller (django/backend.py 74-79). The file name of the first template
    stays in it: another template rendered with the same dictionary finds the scripts it imports in the folder of the first. *)
Theorem C65_shared_context_refuted : exists c, plain_context c /\ after_a false c = Some (Done (u "of b")) /\ after_a true c = Some (Done (u "of a")).
Proof. exact shared_context. Qed.
Print Assumptions C65_shared_context_refuted.
(** Finding: a context with one of these names cannot be rendered, whatever the template is. *)
Theorem C65_names_refuted : forall W (E : env W) (P : prims W) csrf_input csrf_token n k t c request x r c' (m : mach W),
  In x (map fst c) -> In x (map u ["self"; "__script__"; "builtins"; "__builtins__"]) ->
  template_render E P csrf_input csrf_token n k t (Some c) request = (Some r, c') -> forall s m', r m <> (Done s, m').
Proof. exact django_refused. Qed.
Print Assumptions C65_names_refuted.
Example C65_names_example : option_map (fun x => fst (fst x)) (render_now template_a (Some []) mach0) = Some (Done (u "text")) /\
  map (fun x => option_map (fun x => fst (fst x)) (render_now template_a (Some [(u x, VNone)]) mach0)) ["self"; "__script__"; "builtins"; "__builtins__"] =
  [Some (Exc TypeError); Some (Exc TypeError); Some (Exc TypeError); Some (Exc TypeError)].
Proof. split; vm_compute; reflexivity. Qed.
