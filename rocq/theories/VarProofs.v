(** Last steps for C72, and sample data. *)
From Coq Require Import List NArith ZArith Bool Arith String Lia.
From Verif Require Import PyStr PyStrFacts Html HtmlSpec PyDict Value Dom Ast Machine Analyse Syntax Runtime RuntimeSpec ExportFacts Ref ConfRef PageSpec PageSamples OperSpec
  TmplSpec TmplParse TmplExpr TmplDoc TmplCheck TmplSamples TmplProofs BookSpec TmplBook BookProofs MoreSpec MoreFacts MoreProofs RenameSpec VarSpec VarFacts.
Import ListNotations.
Local Open Scope string_scope.
Local Open Scope list_scope.

Theorem script_vars (W : Type) (E : env W) (P : prims W) Q X known b lim names vals vars f ds doc j n k tags args ctx tags' args' ctx' file package m :
  let names' := map f names in let ds' := map (var_def f) ds in let doc' := map (var_tmpl f) doc in
  (forall x y, f x = f y -> x = y) -> (forall x, In x (map fst vars) -> f x = x) -> (forall s, f (sigil_name s) = sigil_name s) ->
  template_runtime E P Q X known vars n k m -> called_with tags args ctx -> called_with tags' args' ctx' ->
  Forall2 (fun x v => dget str_eqb (VAR x) ctx = Some v) names vals -> Forall2 (fun x v => dget str_eqb (VAR x) ctx' = Some v) names' vals ->
  blank_text b -> plain_symbols X (script b names ds doc j) -> plain_symbols X (script b names' ds' doc' j) -> List.length (defined ds) + lim <= n ->
  doc <> [] -> (forall x, In x names -> id_name x = true) -> (forall x, In x names' -> id_name x = true) ->
  wfd b known (names ++ map fst vars) [] ds -> wfts b known (rev (defined ds)) None [] (names ++ map fst vars) doc ->
  wfd b known (names' ++ map fst vars) [] ds' -> wfts b known (rev (defined ds')) None [] (names' ++ map fst vars) doc' ->
  forallb (level_def f b) ds = true -> forallb (level f b) doc = true ->
  insts (inst Q b lim (meanings Q b lim (names ++ map fst vars) ds) None) doc (combine names vals ++ vars) <> Open ->
  same_outcome (fst (render_script E P n (S k) tags args (script b names ds doc j) file package m))
    (fst (render_script E P n (S k) tags' args' (script b names' ds' doc' j) file package m)).
Proof.
  intros names' ds' doc' inj Hv Hs HR Hc Hc' HC HC' Hb Hd Hd' Ln Hn Hi Hi' Hwd Hw Hwd' Hw' Sd St Ho.
  assert (Ln' : List.length (defined ds') + lim <= n) by (unfold ds'; rewrite var_defined; exact Ln).
  assert (Hn' : doc' <> []) by (unfold doc'; destruct doc; [congruence|discriminate]).
  assert (Ev : map f (names ++ map fst vars) = names' ++ map fst vars).
  { rewrite map_app. f_equal. rewrite <- (map_id (map fst vars)) at 2. apply map_ext_in. exact Hv. }
  assert (Er : rs f (combine names vals ++ vars) = combine names' vals ++ vars).
  { unfold rs. rewrite map_app. f_equal.
    - unfold names'. clear. revert vals. induction names as [|x l IH]; intros [|v vals]; try reflexivity. cbn [map combine fst snd]. rewrite IH. reflexivity.
    - clear - Hv. induction vars as [|[x v] vars IH]; [reflexivity|]. cbn [map fst snd]. rewrite (Hv x (or_introl eq_refl)), IH; [reflexivity|]. intros y Hy. apply Hv. right. exact Hy. }
  pose proof (learn_new Q f inj Hs b lim (names ++ map fst vars) ds Sd [] [] Logic.I) as L. rewrite Ev in L.
  pose proof (insts_new Q f inj Hs b lim _ _ None L doc (combine names vals ++ vars) St) as K. rewrite Er in K. fold doc' in K. fold (meanings Q b lim (names ++ map fst vars) ds) in K.
  fold ds' in K. fold (meanings Q b lim (names' ++ map fst vars) ds') in K.
  destruct (insts (inst Q b lim (meanings Q b lim (names ++ map fst vars) ds) None) doc (combine names vals ++ vars)) as [[es r']| |] eqn:E1; [| |destruct (Ho eq_refl)]; cbn [oseq mv fst snd] in K.
  - left. destruct (script_render W E P Q X known b lim names vals vars ds doc j n k tags args ctx file package m _ r' HR Hc HC Hb Hd Ln Hn Hi Hwd Hw E1) as (m1 & H1).
    destruct (script_render W E P Q X known b lim names' vals vars ds' doc' j n k tags' args' ctx' file package m _ _ HR Hc' HC' Hb Hd' Ln' Hn' Hi' Hwd' Hw' K) as (m2 & H2).
    rewrite H1, H2. cbn [fst]. eexists. split; [reflexivity|]. unfold ds'. rewrite var_gaps. reflexivity.
  - right. destruct (script_error W E P Q X known b lim names vals vars ds doc j n k tags args ctx file package m HR Hc HC Hb Hd Ln Hn Hi Hwd Hw E1) as (e1 & m1 & H1).
    destruct (script_error W E P Q X known b lim names' vals vars ds' doc' j n k tags' args' ctx' file package m HR Hc' HC' Hb Hd' Ln' Hn' Hi' Hwd' Hw' K) as (e2 & m2 & H2).
    rewrite H1, H2. exists e1, e2. split; reflexivity.
Qed.

(** ** Samples *)
Definition swap (a c x : str) : str := if str_eqb x a then c else if str_eqb x c then a else x.
Lemma swap_twice a c x : swap a c (swap a c x) = x.
Proof.
  unfold swap. destruct (str_eqb x a) eqn:E1.
  - apply str_eqb_eq in E1. subst x. destruct (str_eqb c a) eqn:E2; [apply str_eqb_eq in E2; exact E2|]. rewrite str_eqb_refl. reflexivity.
  - destruct (str_eqb x c) eqn:E2; [apply str_eqb_eq in E2; subst x; rewrite str_eqb_refl; reflexivity|]. rewrite E1, E2. reflexivity.
Qed.
Definition swaps (l : list (str * str)) (x : str) : str := fold_left (fun x p => swap (fst p) (snd p) x) l x.
Lemma swaps_inj l : forall x y, swaps l x = swaps l y -> x = y.
Proof.
  induction l as [|[a c] l IH]; intros x y H; [exact H|]. unfold swaps in H. cbn [fold_left fst snd] in H. apply IH in H. rewrite <- (swap_twice a c x), <- (swap_twice a c y), H. reflexivity.
Qed.
Definition new_vars : str -> str :=
  swaps [(u "title", u "heading"); (u "rows", u "data"); (u "x", u "entry"); (u "y", u "q"); (u "k", u "j"); (u "head", u "cap"); (u "n", u "nn"); (u "body", u "inside")].
Definition lang_doc : list tmpl := [TLeaf 0 [(u "p", [], [AVal (u "lang") (GBraced (nm "a"))])] (Some (Plain, ((u " ", [(nm "v", [])]), [])))].
Definition lang_vals : list val := [VStr (u "en"); VStr (u "first" ++ [NL] ++ u "                    second")].
Definition long_var : str -> str := swaps [(u "a", u "language")].
