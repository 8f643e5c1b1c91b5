(** Last steps for C67, and sample data. *)
From Coq Require Import List NArith ZArith Bool Arith String Lia.
From Verif Require Import PyStr Html HtmlSpec PyDict Value Dom Ast Machine Analyse Syntax Runtime RuntimeSpec ExportFacts Ref ConfRef PageSpec PageSamples OperSpec
  TmplSpec TmplParse TmplExpr TmplDoc TmplCheck TmplSamples TmplProofs BookSpec TmplBook BookProofs MoreSpec MoreFacts.
Import ListNotations.
Local Open Scope string_scope.
Local Open Scope list_scope.

Lemma combine_fst {A B} (R : A -> B -> Prop) l l' : Forall2 R l l' -> map fst (combine l l') = l.
Proof. induction 1 as [|a c l l' H Hl IH]; [reflexivity|]. cbn [combine map fst]. rewrite IH. reflexivity. Qed.

Theorem script_more (W : Type) (E : env W) (P : prims W) Q X known b lim names vals vars ds ds' doc j n k tags args ctx file package m :
  template_runtime E P Q X known vars n k m -> called_with tags args ctx ->
  Forall2 (fun x v => dget str_eqb (VAR x) ctx = Some v) names vals ->
  blank_text b -> plain_symbols X (script b names ds doc j) -> plain_symbols X (script b names ds' doc j) -> List.length (defined ds) + lim <= n -> List.length (defined ds') + lim <= n ->
  doc <> [] -> (forall x, In x names -> id_name x = true) ->
  wfd b known (names ++ map fst vars) [] ds -> wfts b known (rev (defined ds)) None [] (names ++ map fst vars) doc ->
  wfd b known (names ++ map fst vars) [] ds' -> wfts b known (rev (defined ds')) None [] (names ++ map fst vars) doc ->
  more_defs ds ds' ->
  insts (inst Q b lim (meanings Q b lim (names ++ map fst vars) ds) None) doc (combine names vals ++ vars) <> Open ->
  same_outcome (fst (render_script E P n (S k) tags args (script b names ds doc j) file package m))
    (fst (render_script E P n (S k) tags args (script b names ds' doc j) file package m)).
Proof.
  intros HR Hc HC Hb Hd Hd' Ln Ln' Hn Hi Hwd Hw Hwd' Hw' Hm Ho.
  destruct (le_insts Q b lim (meanings Q b lim (names ++ map fst vars) ds) (meanings Q b lim (names ++ map fst vars) ds') None
    (more_means Q b lim known _ ds ds' Hm [] [] Hwd' (le_means_refl [])) doc (combine names vals ++ vars)) as [K|K]; [destruct (Ho K)|].
  destruct (insts (inst Q b lim (meanings Q b lim (names ++ map fst vars) ds) None) doc (combine names vals ++ vars)) as [[es r']| |] eqn:E1; [| |destruct (Ho eq_refl)]; symmetry in K.
  - left. destruct (script_render W E P Q X known b lim names vals vars ds doc j n k tags args ctx file package m _ r' HR Hc HC Hb Hd Ln Hn Hi Hwd Hw E1) as (m1 & H1).
    destruct (script_render W E P Q X known b lim names vals vars ds' doc j n k tags args ctx file package m _ r' HR Hc HC Hb Hd' Ln' Hn Hi Hwd' Hw' K) as (m2 & H2).
    rewrite H1, H2. cbn [fst]. eexists. split; [reflexivity|]. unfold elems_html. rewrite !flat_map_app, (more_gaps _ _ _ Hm). reflexivity.
  - right. destruct (script_error W E P Q X known b lim names vals vars ds doc j n k tags args ctx file package m HR Hc HC Hb Hd Ln Hn Hi Hwd Hw E1) as (e1 & m1 & H1).
    destruct (script_error W E P Q X known b lim names vals vars ds' doc j n k tags args ctx file package m HR Hc HC Hb Hd' Ln' Hn Hi Hwd' Hw' K) as (e2 & m2 & H2).
    rewrite H1, H2. exists e1, e2. split; reflexivity.
Qed.

Theorem book_more (W : Type) (E : env W) (P : prims W) Q X known b lim lib dir d names vals vars imps imps' ds ds' doc j n k tags args ctx f package m g :
  book_runtime E P Q X known vars b lib dir n k m -> called_with tags args ctx ->
  Forall2 (fun x v => dget str_eqb (VAR x) ctx = Some v) names vals ->
  blank_text b -> plain_symbols X (source_text b names (Source imps ds doc j)) -> plain_symbols X (source_text b names (Source imps' ds' doc j)) ->
  List.length (defined ds) + (lim + d * most lib) <= n -> List.length (defined ds') + (lim + d * most lib) <= n -> d <= k -> in_folder dir f ->
  (forall x, In x names -> id_name x = true) ->
  source_ok b known (names ++ map fst vars) (Source imps ds doc j) -> source_ok b known (names ++ map fst vars) (Source imps' ds' doc j) ->
  more_imports imps imps' -> more_defs ds ds' -> gather (exports Q b lim lib vars d) imps' = Is g ->
  inst_source Q b lim (exports Q b lim lib vars d) (combine names vals ++ vars) (Source imps ds doc j) <> Open ->
  same_outcome (fst (render_script E P n (S k) tags args (source_text b names (Source imps ds doc j)) (Some f) package m))
    (fst (render_script E P n (S k) tags args (source_text b names (Source imps' ds' doc j)) (Some f) package m)).
Proof.
  intros HR Hc HC Hb Hu Hu' Ln Ln' Hk Hf Hn Hw Hw' Hmi Hmd Hg Ho.
  assert (En : map fst (combine names vals ++ vars) = names ++ map fst vars) by (rewrite map_app, (combine_fst _ _ _ HC); reflexivity).
  pose proof Hw' as (_ & _ & N1 & _ & Hwd & _). cbv zeta in N1, Hwd.
  destruct (source_more Q b lim known (exports Q b lim lib vars d) (combine names vals ++ vars) imps imps' ds ds' doc j j g Hmi Hmd N1 ltac:(rewrite En; exact Hwd) Hg) as [K|K]; [destruct (Ho K)|].
  destruct (inst_source Q b lim (exports Q b lim lib vars d) (combine names vals ++ vars) (Source imps ds doc j)) as [[es r']| |] eqn:E1; [| |destruct (Ho eq_refl)]; symmetry in K.
  - left. destruct (book_renders W E P Q X known b lim lib dir d names vals vars (Source imps ds doc j) n k tags args ctx f package m _ _ HR Hc HC Hb Hu Ln Hk Hf Hn Hw E1) as (m1 & H1).
    destruct (book_renders W E P Q X known b lim lib dir d names vals vars (Source imps' ds' doc j) n k tags args ctx f package m _ _ HR Hc HC Hb Hu' Ln' Hk Hf Hn Hw' K) as (m2 & H2).
    rewrite H1, H2. cbn [fst]. eexists. split; [reflexivity|]. cbn [src_defs src_blank]. unfold elems_html. rewrite !flat_map_app, (more_gaps _ _ _ Hmd). reflexivity.
  - right. destruct (book_raises W E P Q X known b lim lib dir d names vals vars (Source imps ds doc j) n k tags args ctx f package m HR Hc HC Hb Hu Ln Hk Hf Hn Hw E1) as (e1 & m1 & H1).
    destruct (book_raises W E P Q X known b lim lib dir d names vals vars (Source imps' ds' doc j) n k tags args ctx f package m HR Hc HC Hb Hu' Ln' Hk Hf Hn Hw' K) as (e2 & m2 & H2).
    rewrite H1, H2. exists e1, e2. split; reflexivity.
Qed.

(** ** Samples *)
Definition spare_def : def := Def 0 (u "spare") (Some (u "body")) [(u "size", Some (GBraced (num "3")))] (u "  ")
  [TNode 0 [(u "b", [], [])] (u "  ") [TLine 0 Plain ((u " ", [(nm "size", [])]), []); TBody 0 (u "body")]].
Definition last_def : def := Def 0 (u "last") None [] (u "  ") [TUse 0 (u "spare", [], []) None].
Definition more_sample_defs : list def := spare_def :: sample_defs ++ [last_def].
Definition short_imps : list (str * list str) := [(u "parts", [u "item"])].
Definition more_imps : list (str * list str) := [(u "menus", [u "menu"]); (u "parts", [u "item"])].
Definition short_defs : list def := [Def 0 (u "two") None [] (u "  ") [TUse 0 (u "item", [GBraced (num "2")], []) None]].
Definition more_short_defs : list def :=
  short_defs ++ [Def 0 (u "spare") None [] (u "  ") [TBlock 0 (u "menu", [GBraced (nm "title")], []) (u "  ") [TUse 0 (u "two", [], []) None]]].
Definition short_doc : list tmpl := [TUse 0 (u "two", [], []) None; TUse 1 (u "item", [GBraced (nm "title")], []) None].
Lemma more_defs_self ds : more_defs ds ds.
Proof. induction ds; constructor; assumption. Qed.
Lemma more_defs_end ds n bn ps w kids : more_defs ds (ds ++ [Def 0 n bn ps w kids]).
Proof. induction ds as [|d ds IH]; [repeat constructor|]. cbn [app]. constructor. exact IH. Qed.
