(** Last steps for C68, and sample data. *)
From Coq Require Import List NArith ZArith Bool Arith String Lia Permutation.
From Verif Require Import PyStr Html HtmlSpec PyDict Value Dom Ast Machine Analyse Syntax Runtime RuntimeSpec ExportFacts Ref ConfRef PageSpec PageSamples OperSpec
  TmplSpec TmplParse TmplExpr TmplDoc TmplCheck TmplSamples TmplProofs BookSpec TmplBook BookProofs MoreSpec MoreFacts MoreProofs OrderFacts.
Import ListNotations.
Local Open Scope string_scope.
Local Open Scope list_scope.

Theorem script_order (W : Type) (E : env W) (P : prims W) Q X known b lim names vals vars ds ds' doc j n k tags args ctx file package m :
  template_runtime E P Q X known vars n k m -> called_with tags args ctx ->
  Forall2 (fun x v => dget str_eqb (VAR x) ctx = Some v) names vals ->
  blank_text b -> plain_symbols X (script b names ds doc j) -> plain_symbols X (script b names ds' doc j) -> List.length (defined ds) + lim <= n ->
  doc <> [] -> (forall x, In x names -> id_name x = true) ->
  wfd b known (names ++ map fst vars) [] ds -> wfts b known (rev (defined ds)) None [] (names ++ map fst vars) doc ->
  wfd b known (names ++ map fst vars) [] ds' -> wfts b known (rev (defined ds')) None [] (names ++ map fst vars) doc ->
  Permutation ds ds' ->
  insts (inst Q b lim (meanings Q b lim (names ++ map fst vars) ds) None) doc (combine names vals ++ vars) <> Open ->
  same_outcome (fst (render_script E P n (S k) tags args (script b names ds doc j) file package m))
    (fst (render_script E P n (S k) tags args (script b names ds' doc j) file package m)).
Proof.
  intros HR Hc HC Hb Hd Hd' Ln Hn Hi Hwd Hw Hwd' Hw' Hp Ho.
  assert (Ln' : List.length (defined ds') + lim <= n) by (rewrite <- (Permutation_length (perm_defined _ _ Hp)); exact Ln).
  assert (K : insts (inst Q b lim (meanings Q b lim (names ++ map fst vars) ds') None) doc (combine names vals ++ vars) =
    insts (inst Q b lim (meanings Q b lim (names ++ map fst vars) ds) None) doc (combine names vals ++ vars)).
  { symmetry. eapply (perm_insts Q b lim known (names ++ map fst vars) ds ds' [] [] doc); [exact Hp|constructor|intros y f g Hf; discriminate Hf|exact Hwd|exact Hwd'| |];
      cbn [map]; rewrite app_nil_r; eassumption. }
  destruct (insts (inst Q b lim (meanings Q b lim (names ++ map fst vars) ds) None) doc (combine names vals ++ vars)) as [[es r']| |] eqn:E1; [| |destruct (Ho eq_refl)].
  - left. destruct (script_render W E P Q X known b lim names vals vars ds doc j n k tags args ctx file package m _ r' HR Hc HC Hb Hd Ln Hn Hi Hwd Hw E1) as (m1 & H1).
    destruct (script_render W E P Q X known b lim names vals vars ds' doc j n k tags args ctx file package m _ r' HR Hc HC Hb Hd' Ln' Hn Hi Hwd' Hw' K) as (m2 & H2).
    rewrite H1, H2. cbn [fst]. eexists. split; [reflexivity|]. unfold elems_html. rewrite !flat_map_app, (perm_gaps _ _ _ Hp). reflexivity.
  - right. destruct (script_error W E P Q X known b lim names vals vars ds doc j n k tags args ctx file package m HR Hc HC Hb Hd Ln Hn Hi Hwd Hw E1) as (e1 & m1 & H1).
    destruct (script_error W E P Q X known b lim names vals vars ds' doc j n k tags args ctx file package m HR Hc HC Hb Hd' Ln' Hn Hi Hwd' Hw' K) as (e2 & m2 & H2).
    rewrite H1, H2. exists e1, e2. split; reflexivity.
Qed.

Theorem book_order (W : Type) (E : env W) (P : prims W) Q X known b lim lib dir d names vals vars imps imps' ds ds' doc j n k tags args ctx f package m g :
  book_runtime E P Q X known vars b lib dir n k m -> called_with tags args ctx ->
  Forall2 (fun x v => dget str_eqb (VAR x) ctx = Some v) names vals ->
  blank_text b -> plain_symbols X (source_text b names (Source imps ds doc j)) -> plain_symbols X (source_text b names (Source imps' ds' doc j)) ->
  List.length (defined ds) + (lim + d * most lib) <= n -> d <= k -> in_folder dir f ->
  (forall x, In x names -> id_name x = true) ->
  source_ok b known (names ++ map fst vars) (Source imps ds doc j) -> source_ok b known (names ++ map fst vars) (Source imps' ds' doc j) ->
  Permutation imps imps' -> Permutation ds ds' -> gather (exports Q b lim lib vars d) imps = Is g ->
  inst_source Q b lim (exports Q b lim lib vars d) (combine names vals ++ vars) (Source imps ds doc j) <> Open ->
  same_outcome (fst (render_script E P n (S k) tags args (source_text b names (Source imps ds doc j)) (Some f) package m))
    (fst (render_script E P n (S k) tags args (source_text b names (Source imps' ds' doc j)) (Some f) package m)).
Proof.
  intros HR Hc HC Hb Hu Hu' Ln Hk Hf Hn Hw Hw' Hpi Hp Hg Ho.
  assert (En : map fst (combine names vals ++ vars) = names ++ map fst vars) by (rewrite map_app, (combine_fst _ _ _ HC); reflexivity).
  assert (Ln' : List.length (defined ds') + (lim + d * most lib) <= n) by (rewrite <- (Permutation_length (perm_defined _ _ Hp)); exact Ln).
  destruct (perm_gather _ _ _ Hpi _ Hg) as (g' & Hg' & Hgg).
  assert (K : inst_source Q b lim (exports Q b lim lib vars d) (combine names vals ++ vars) (Source imps' ds' doc j) =
    inst_source Q b lim (exports Q b lim lib vars d) (combine names vals ++ vars) (Source imps ds doc j)).
  { unfold inst_source. rewrite Hg, Hg'. cbn [oseq]. rewrite En. unfold known_tags, meanings_on.
    pose proof Hw as (_ & _ & N1 & _ & Hwd & Hwt). pose proof Hw' as (_ & _ & N1' & _ & Hwd' & Hwt'). cbv zeta in *.
    rewrite <- (gather_names _ _ _ Hg), <- map_rev in Hwd, Hwt. rewrite <- (gather_names _ _ _ Hg'), <- map_rev in Hwd', Hwt'. rewrite <- (gather_names _ _ _ Hg) in N1.
    assert (HP : Permutation (rev (flat_map snd g)) (rev (flat_map snd g'))).
    { eapply Permutation_trans; [apply Permutation_sym, Permutation_rev|]. eapply Permutation_trans; [|apply Permutation_rev]. apply Permutation_flat_map, Hgg. }
    symmetry. eapply (perm_insts Q b lim known (names ++ map fst vars) ds ds'); [exact Hp|apply Permutation_map, HP| |exact Hwd|exact Hwd'|exact Hwt|exact Hwt'].
    apply perm_found; [exact HP|]. rewrite map_rev. apply NoDup_rev, N1. }
  destruct (inst_source Q b lim (exports Q b lim lib vars d) (combine names vals ++ vars) (Source imps ds doc j)) as [[es r']| |] eqn:E1; [| |destruct (Ho eq_refl)].
  - left. destruct (book_renders W E P Q X known b lim lib dir d names vals vars (Source imps ds doc j) n k tags args ctx f package m _ _ HR Hc HC Hb Hu Ln Hk Hf Hn Hw E1) as (m1 & H1).
    destruct (book_renders W E P Q X known b lim lib dir d names vals vars (Source imps' ds' doc j) n k tags args ctx f package m _ _ HR Hc HC Hb Hu' Ln' Hk Hf Hn Hw' K) as (m2 & H2).
    rewrite H1, H2. cbn [fst]. eexists. split; [reflexivity|]. cbn [src_defs src_blank]. unfold elems_html. rewrite !flat_map_app, (perm_gaps _ _ _ Hp). reflexivity.
  - right. destruct (book_raises W E P Q X known b lim lib dir d names vals vars (Source imps ds doc j) n k tags args ctx f package m HR Hc HC Hb Hu Ln Hk Hf Hn Hw E1) as (e1 & m1 & H1).
    destruct (book_raises W E P Q X known b lim lib dir d names vals vars (Source imps' ds' doc j) n k tags args ctx f package m HR Hc HC Hb Hu' Ln' Hk Hf Hn Hw' K) as (e2 & m2 & H2).
    rewrite H1, H2. exists e1, e2. split; reflexivity.
Qed.

(** ** Samples *)
Definition moved_defs : list def := sample_defs ++ [spare_def; last_def].
Definition two_def : def := Def 1 (u "two") None [] (u "  ") [TUse 0 (u "item", [GBraced (num "2")], []) None].
Definition list_def : def := Def 2 (u "list") None [] (u "  ") [TBlock 0 (u "menu", [GBraced (nm "title")], []) (u "  ") [TUse 0 (u "item", [GBraced (num "1")], []) None]].
Definition order_doc : list tmpl := [TUse 0 (u "list", [], []) None; TUse 0 (u "two", [], []) None].
Definition order_a : source := Source more_imps [two_def; list_def] order_doc 0.
Definition order_b : source := Source (rev more_imps) [list_def; two_def] order_doc 0.
