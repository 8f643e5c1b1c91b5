(** Last steps for C64; a sample library. *)
From Coq Require Import List NArith ZArith Bool Lia Arith String.
From Verif Require Import PyStr PyStrFacts PyDict Html Value Dom Ast Machine Analyse Syntax Runtime RuntimeSpec Ref ConfRef HtmlTags PageSpec PageParse PageSamples OperSpec
  TmplSpec TmplParse TmplExpr TmplDoc TmplCheck TmplSamples TmplProofs BookSpec TmplBook.
Import ListNotations.
Local Open Scope string_scope.
Local Open Scope list_scope.
Local Open Scope nat_scope.

Lemma book_renders (W : Type) (E : env W) (P : prims W) Q X known b lim lib dir d names vals vars s n k tags args ctx f package m es r' :
  book_runtime E P Q X known vars b lib dir n k m -> called_with tags args ctx ->
  Forall2 (fun x v => dget str_eqb (VAR x) ctx = Some v) names vals ->
  blank_text b -> plain_symbols X (source_text b names s) -> List.length (defined (src_defs s)) + (lim + d * most lib) <= n -> d <= k -> in_folder dir f ->
  (forall x, In x names -> id_name x = true) -> source_ok b known (names ++ map fst vars) s ->
  inst_source Q b lim (exports Q b lim lib vars d) (combine names vals ++ vars) s = Is (es, r') ->
  exists m', render_script E P n (S k) tags args (source_text b names s) (Some f) package m =
    (Done (elems_html (void known) (gaps (src_defs s) ++ es) (src_blank s)), m').
Proof.
  intros HR Hc HC Hb Hu Ln Hk Hf Hn Hw Hi.
  exact (proj1 (render_book E P Q X known b lim lib dir d names vals vars s n k tags args ctx f package m HR Hc HC Hb Hu Ln Hk Hf Hn Hw) es r' Hi).
Qed.
Lemma book_raises (W : Type) (E : env W) (P : prims W) Q X known b lim lib dir d names vals vars s n k tags args ctx f package m :
  book_runtime E P Q X known vars b lib dir n k m -> called_with tags args ctx ->
  Forall2 (fun x v => dget str_eqb (VAR x) ctx = Some v) names vals ->
  blank_text b -> plain_symbols X (source_text b names s) -> List.length (defined (src_defs s)) + (lim + d * most lib) <= n -> d <= k -> in_folder dir f ->
  (forall x, In x names -> id_name x = true) -> source_ok b known (names ++ map fst vars) s ->
  inst_source Q b lim (exports Q b lim lib vars d) (combine names vals ++ vars) s = Raises ->
  exists e m', render_script E P n (S k) tags args (source_text b names s) (Some f) package m = (Exc e, m').
Proof.
  intros HR Hc HC Hb Hu Ln Hk Hf Hn Hw Hi.
  exact (proj2 (render_book E P Q X known b lim lib dir d names vals vars s n k tags args ctx f package m HR Hc HC Hb Hu Ln Hk Hf Hn Hw) Hi).
Qed.

(** ** A sample *)
Lemma no_slashb x : existsb (N.eqb 47) x = false -> ~ In 47%N x.
Proof. intros H I. assert (K : existsb (N.eqb 47) x = true) by (apply existsb_exists; exists 47%N; split; [exact I|reflexivity]). congruence. Qed.

Definition shared_defs : list def :=
  [Def 0 (u "box") (Some (u "body")) [(u "size", Some (GBraced (num "2")))] (u "  ")
     [TNode 0 [(u "b", [], [AVal (u "class") (GBraced (nm "size"))])] (u "  ") [TBody 0 (u "body")]];
   DNote 0 false (u " two of them") [];
   Def 0 (u "pair") None [(u "n", None)] (u "  ")
     [TUse 0 (u "box", [GBraced (nm "n")], []) None; TUse 0 (u "box", [GBraced (call1 "len" (XRaw Double (u "abc")))], []) None]].
Definition sample_lib : library :=
  [(u "parts", Source [] [Def 0 (u "item") None [(u "x", None)] (u "  ") [TLeaf 0 [(u "li", [], [])] (Some (Plain, ((u " ", [(nm "x", u " of "); (nm "range", [])]), [])))]]
     [TSet 1 [u "range"] (num "7"); TLine 0 Plain ((u " not shown", []), [])] 1);
   (u "menus", Source [(u "parts", [u "item"])]
     [Def 0 (u "menu") (Some (u "body")) [(u "head", None)] (u "  ")
        [TLeaf 0 [(u "h2", [], [])] (Some (Plain, ((u " ", [(nm "head", [])]), [])));
         TNode 0 [(u "ul", [], [])] (u "  ") [TUse 0 (u "item", [GBraced (call1 "len" (nm "head"))], []) None; TBody 0 (u "body")]]] [] 0);
   (u "broken", Source [] [Def 0 (u "nothing") None [] (u "  ") [TLine 0 Plain ((u " x", []), [])]] [TLine 0 Plain ((u " ", [(XOps false (nm "len") [(OSub, num "1")], [])]), [])] 0);
   (u "shared", Source [] shared_defs [] 0)].
Definition sample_main : source :=
  Source [(u "menus", [u "menu"; u "item"])]
    [Def 0 (u "two") None [] (u "  ") [TUse 0 (u "item", [GBraced (num "2")], []) None]]
    [TSet 0 [u "range"] (num "9");
     TBlock 0 (u "menu", [GBraced (nm "title")], []) (u "  ") [TUse 0 (u "item", [GBraced (nm "range")], []) None; TUse 0 (u "two", [], []) None];
     TLine 1 Plain ((u " range = ", [(nm "range", [])]), [])] 0.
Definition sample_broken : source :=
  Source [(u "parts", [u "item"]); (u "broken", [u "nothing"])] [] [TUse 0 (u "item", [GBraced (num "2")], []) None] 0.
Definition site_files : list (str * str) := map (fun x => (file_of (u "/site") (fst x), source_text (u " ") [] (snd x))) sample_lib.
Definition site_env : env unit := {|
  e_loaders := e_loaders html_env; e_builtins := e_builtins html_env; e_resolve := None; e_cwd := e_cwd html_env;
  e_exists := fun p => pure (Ok match dget str_eqb p site_files with Some _ => true | None => false end);
  e_read := fun p => pure match dget str_eqb p site_files with Some t => Ok t | None => Raise (OtherError 2) end;
  e_package := e_package html_env; e_pymodule := e_pymodule html_env; e_parse := e_parse html_env
|}.

Definition part_okb (p : str) : bool := match p with [] => false | _ => forallb (fun c => negb (is_space c) && negb (existsb (N.eqb c) [34; 39; 46; 47]%N)) p end.
Lemma part_okb_ok p : part_okb p = true -> part_ok p.
Proof.
  intros H. split; [destruct p; discriminate|]. intros c I. destruct p as [|c0 p0]; [destruct I|]. unfold part_okb in H. rewrite forallb_forall in H. specialize (H c I). cbn in H.
  apply andb_prop in H. destruct H as [H1 H2]. apply negb_true_iff in H1, H2. split; [exact H1|]. rewrite !orb_false_iff, !N.eqb_neq in H2. tauto.
Qed.
Definition source_okb (vis : list str) (s : source) : bool :=
  match s with
  | Source imps ds doc _ =>
      let given := flat_map snd imps in
      match imps, ds, doc with [], [], [] => false | _, _, _ => true end &&
      forallb (fun i => part_okb (fst i) && match snd i with [] => false | _ => true end && forallb head_okb (snd i)) imps &&
      distinctb given && forallb (fun n => match html_known n with None => true | _ => false end) given &&
      wfdb (u " ") html_known vis (rev given) ds &&
      wftsb (wftb (u " ") html_known (rev (defined ds) ++ rev given) None) [] vis doc
  end.
Lemma source_okb_ok vis s : source_okb vis s = true -> source_ok (u " ") html_known vis s.
Proof.
  destruct s as [imps ds doc j]. unfold source_okb, source_ok. intros H. apply andb_prop in H. destruct H as [H H6]. apply andb_prop in H. destruct H as [H H5]. apply andb_prop in H. destruct H as [H H4].
  apply andb_prop in H. destruct H as [H H3]. apply andb_prop in H. destruct H as [H1 H2]. split; [|split; [|split; [|split; [|split]]]].
  - destruct imps; [|left; discriminate]. destruct ds; [|right; left; discriminate]. destruct doc; [discriminate|right; right; discriminate].
  - intros p ns I. rewrite forallb_forall in H2. specialize (H2 _ I). cbn [fst snd] in H2. apply andb_prop in H2. destruct H2 as [H2 H8]. apply andb_prop in H2. destruct H2 as [H2 H7].
    split; [exact (part_okb_ok p H2)|]. split; [destruct ns; discriminate|]. intros n J. rewrite forallb_forall in H8. exact (proj1 (head_okb_ok _ (H8 n J))).
  - exact (distinctb_ok _ H3).
  - intros n I. rewrite forallb_forall in H4. specialize (H4 n I). destruct (html_known n); [discriminate|reflexivity].
  - exact (check_defs _ _ _ _ _ H5).
  - exact (check_ok _ _ _ _ _ _ _ H6).
Qed.

Lemma builtins_kept {W} (E : env W) run m b m1 b1 : import_builtins E run m = (Done b, m1) -> rt_builtins (m_rt m1) = Some b1 -> b = b1.
Proof.
  unfold import_builtins. unfold mbind at 1. unfold get_rt at 1. destruct (rt_builtins (m_rt m)) as [b2|] eqn:E0; [intros [= <- <-] H; congruence|].
  unfold mbind at 1. destruct (cache_builtins [] m) as [[[]|e|] m2]; try discriminate. unfold mbind at 1. destruct (miter _ (e_builtins E) m2) as [[[]|e|] m3]; try discriminate.
  unfold mbind, get_rt, ret. intros [= <- <-] H. rewrite H. reflexivity.
Qed.
Definition site_builtins_ok (k : nat) : bool :=
  match import_builtins site_env (run_script site_env conf_prims 40 k [] []) mach0 with
  | (Done b, m1) =>
      match rt_builtins (m_rt m1) with Some _ => true | None => false end && nodupb (map fst b) &&
      forallb (fun nt => match dget str_eqb (TAG (fst nt)) b with
                         | Some (VTag t) => str_eqb (t_name t) (fst nt) && match t_kind (snd nt), t_kind t with KMarkup a HTML, KMarkup b HTML => Bool.eqb a b | _, _ => false end
                         | _ => false
                         end) html_registry &&
      forallb (fun yv => match dget str_eqb (VAR (fst yv)) b, snd yv with Some (VObj a), VObj b => N.eqb a b | _, _ => false end &&
                         negb (str_eqb (fst yv) (u "__file__")) && negb (str_eqb (fst yv) (u "__package__"))) sample_vars
  | _ => false
  end.
Definition lib_okb : bool :=
  forallb (fun x => part_okb (fst x) && source_okb (map fst sample_vars) (snd x) && forallb (fun c => (c <? 10088)%N) (source_text (u " ") [] (snd x)) &&
    match dget str_eqb (file_of (u "/site") (fst x)) site_files with Some t => str_eqb t (source_text (u " ") [] (snd x)) | None => false end) sample_lib.
Lemma find_source_In p lib s : find_source p lib = Some s -> In (p, s) lib.
Proof.
  induction lib as [|[q s'] lib IH]; cbn [find_source]; [discriminate|]. destruct (str_eqb p q) eqn:E; [|intros H; right; exact (IH H)]. intros [= ->]. apply str_eqb_eq in E. subst q. left. reflexivity.
Qed.
Lemma site_runtime : book_runtime site_env conf_prims conf_py conf_lexicon html_known sample_vars (u " ") sample_lib (u "/site") 40 4 mach0.
Proof.
  split; [exact conf_agrees|]. split; [reflexivity|]. split; [reflexivity|]. split; [eexists; reflexivity|]. split; [split; discriminate|]. split.
  - intros p s Hs. apply find_source_In in Hs. assert (K : lib_okb = true) by (vm_compute; reflexivity). unfold lib_okb in K. rewrite forallb_forall in K. specialize (K _ Hs). cbn [fst snd] in K.
    apply andb_prop in K. destruct K as [K K4]. apply andb_prop in K. destruct K as [K K3]. apply andb_prop in K. destruct K as [K1 K2].
    split; [exact (part_okb_ok p K1)|]. split; [exact (source_okb_ok _ s K2)|]. split; [exact (conf_symbols _ K3)|]. intros h w. cbn [e_exists e_read site_env]. unfold pure.
    destruct (dget str_eqb (file_of (u "/site") p) site_files) as [t|]; [|discriminate]. apply str_eqb_eq in K4. subst t. split; reflexivity.
  - assert (K : site_builtins_ok 4 = true) by (vm_compute; reflexivity). unfold site_builtins_ok in K.
    destruct (import_builtins site_env (run_script site_env conf_prims 40 4 [] []) mach0) as [[b|e|] m1] eqn:Eb; [|discriminate K|discriminate K].
    apply andb_prop in K. destruct K as [K K3]. apply andb_prop in K. destruct K as [K K2]. apply andb_prop in K. destruct K as [K0 K1].
    exists b, m1. split; [reflexivity|]. split; [destruct (rt_builtins (m_rt m1)) as [b1|] eqn:Er; [|discriminate K0]; rewrite (builtins_kept _ _ _ _ _ _ Eb Er); reflexivity|]. clear Eb. split; [apply nodupb_NoDup, K1|]. split.
    + intros y v Hy. destruct (html_known_In y v Hy) as (t & I & N & Kd). rewrite forallb_forall in K2. specialize (K2 _ I). cbn [fst snd] in K2. rewrite Kd in K2.
      destruct (dget str_eqb (TAG y) b) as [[]|] eqn:Eg; try discriminate. apply (dget_In str_eqb str_eqb_eq) in Eg.
      apply andb_prop in K2. destruct K2 as [K2 K4]. eexists. split; [exact Eg|]. split; [apply str_eqb_eq, K2|].
      destruct (t_kind t0) as [| |? []| | |]; try discriminate. apply eqb_prop in K4. subst. reflexivity.
    + intros y v I. rewrite forallb_forall in K3. specialize (K3 _ I). cbn [fst snd] in K3. apply andb_prop in K3. destruct K3 as [K3 N2]. apply andb_prop in K3. destruct K3 as [K3 N1].
      destruct (dget str_eqb (VAR y) b) as [[]|] eqn:Eg; try discriminate. destruct v; try discriminate. apply N.eqb_eq in K3. subst. apply (dget_In str_eqb str_eqb_eq) in Eg.
      split; [exact Eg|]. split; intros ->; discriminate.
Qed.
Definition model_book (names : list str) (vals : list val) (s : source) : out str :=
  fst (render_script site_env conf_prims 40 5 [] (combine names vals) (source_text (u " ") names s) (Some (u "/site/main.hy")) (Some (u "site")) mach0).
Definition spec_book (d : nat) (names : list str) (vals : list val) (s : source) : ans str :=
  p <: inst_source conf_py (u " ") 30 (exports conf_py (u " ") 30 sample_lib sample_vars d) (combine names vals ++ sample_vars) s ;;
  Is (elems_html (void html_known) (gaps (src_defs s) ++ fst p) (src_blank s)).
