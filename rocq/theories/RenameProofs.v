(** Last steps for C70, and sample data. *)
From Coq Require Import List NArith ZArith Bool Arith String Lia.
From Verif Require Import PyStr Html HtmlSpec PyDict Value Dom Ast Machine Analyse Syntax Runtime RuntimeSpec ExportFacts Ref ConfRef PageSpec PageSamples OperSpec
  TmplSpec TmplParse TmplExpr TmplDoc TmplCheck TmplSamples TmplProofs BookSpec TmplBook BookProofs MoreSpec MoreFacts MoreProofs RenameSpec RenameFacts.
Import ListNotations.
Local Open Scope string_scope.
Local Open Scope list_scope.

Theorem script_renamed (W : Type) (E : env W) (P : prims W) Q X known b lim names vals vars f g ds doc j n k tags args ctx file package m :
  let ds' := map (rename_def f g) ds in let doc' := map (rename f g) doc in
  template_runtime E P Q X known vars n k m -> called_with tags args ctx ->
  Forall2 (fun x v => dget str_eqb (VAR x) ctx = Some v) names vals ->
  blank_text b -> plain_symbols X (script b names ds doc j) -> plain_symbols X (script b names ds' doc' j) -> List.length (defined ds) + lim <= n ->
  doc <> [] -> (forall x, In x names -> id_name x = true) ->
  wfd b known (names ++ map fst vars) [] ds -> wfts b known (rev (defined ds)) None [] (names ++ map fst vars) doc ->
  wfd b known (names ++ map fst vars) [] ds' -> wfts b known (rev (defined ds')) None [] (names ++ map fst vars) doc' ->
  forallb (steady_def f) ds = true -> forallb (steady f) doc = true ->
  insts (inst Q b lim (meanings Q b lim (names ++ map fst vars) ds) None) doc (combine names vals ++ vars) <> Open ->
  same_outcome (fst (render_script E P n (S k) tags args (script b names ds doc j) file package m))
    (fst (render_script E P n (S k) tags args (script b names ds' doc' j) file package m)).
Proof.
  intros ds' doc' HR Hc HC Hb Hd Hd' Ln Hn Hi Hwd Hw Hwd' Hw' Sd St Ho.
  assert (Ln' : List.length (defined ds') + lim <= n) by (unfold ds'; rewrite rename_defined, map_length; exact Ln).
  assert (Hn' : doc' <> []) by (unfold doc'; destruct doc; [congruence|discriminate]).
  destruct (to_insts Q b lim f g (meanings Q b lim (names ++ map fst vars) ds) (meanings Q b lim (names ++ map fst vars) ds') None
    (rename_means Q b lim f g known _ ds Sd [] [] Hwd' ltac:(intros y z H; discriminate H)) doc (combine names vals ++ vars) St) as [K|K]; [destruct (Ho K)|].
  change (map (rename f g) doc) with doc' in K.
  destruct (insts (inst Q b lim (meanings Q b lim (names ++ map fst vars) ds) None) doc (combine names vals ++ vars)) as [[es r']| |] eqn:E1; [| |destruct (Ho eq_refl)]; symmetry in K.
  - left. destruct (script_render W E P Q X known b lim names vals vars ds doc j n k tags args ctx file package m _ r' HR Hc HC Hb Hd Ln Hn Hi Hwd Hw E1) as (m1 & H1).
    destruct (script_render W E P Q X known b lim names vals vars ds' doc' j n k tags args ctx file package m _ r' HR Hc HC Hb Hd' Ln' Hn' Hi Hwd' Hw' K) as (m2 & H2).
    rewrite H1, H2. cbn [fst]. eexists. split; [reflexivity|]. unfold ds'. rewrite rename_gaps. reflexivity.
  - right. destruct (script_error W E P Q X known b lim names vals vars ds doc j n k tags args ctx file package m HR Hc HC Hb Hd Ln Hn Hi Hwd Hw E1) as (e1 & m1 & H1).
    destruct (script_error W E P Q X known b lim names vals vars ds' doc' j n k tags args ctx file package m HR Hc HC Hb Hd' Ln' Hn' Hi Hwd' Hw' K) as (e2 & m2 & H2).
    rewrite H1, H2. exists e1, e2. split; reflexivity.
Qed.

(** ** Samples *)
Definition new_name (n : str) : str := if str_eqb n (u "item") then u "entry_point" else if str_eqb n (u "box") then u "pad" else n.
Definition new_body (n : str) : str := if str_eqb n (u "body") then u "inside" else n.
(** A value with two lines after a hypertag with a short or a long name. *)
Definition pad_defs : list def := [Def 0 (u "box") (Some (u "body")) [] (u "  ") [TBody 0 (u "body")]].
Definition pad_doc : list tmpl := [TUse 0 (u "box", [], []) (Some (Plain, ((u " ", [(nm "title", [])]), [])))].
Definition fixed_doc : list tmpl := [TUse 0 (u "box", [], []) (Some (Plain, ((u " a < b", []), [])))].
Definition pad_name (n : str) : str := if str_eqb n (u "box") then u "longer_box" else n.
Definition pad_vals : list val := [VStr (u "a" ++ [NL] ++ u "          b")].
