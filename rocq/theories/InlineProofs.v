(** Last steps for C71, and sample data. *)
From Coq Require Import List NArith ZArith Bool Arith String Lia.
From Verif Require Import PyStr PyStrFacts Html HtmlSpec PyDict Value Dom Ast Machine Analyse Syntax Runtime RuntimeSpec ExportFacts Ref ConfRef PageSpec PageSamples OperSpec
  TmplSpec TmplParse TmplExpr TmplDoc TmplCheck TmplSamples TmplProofs BookSpec TmplBook BookProofs MoreSpec MoreFacts MoreProofs MoveSpec MoveFacts InlineSpec InlineFacts.
Import ListNotations.
Local Open Scope string_scope.
Local Open Scope list_scope.

Lemma wfd_params b known vis ds m n bn ps w kids : forall hy, wfd b known vis hy ds -> In (Def m n bn ps w kids) ds -> NoDup (map fst ps).
Proof.
  intros hy H. induction H as [hy|hy m1 h x tl ds Hx H IH|hy m1 n1 bn1 ps1 w1 kids1 ds own body H1 H2 H3 H4 H5 H6 H7 H8 H9 H10 H11 H12 IH]; intros K.
  - contradiction.
  - destruct K as [K|K]; [discriminate K|exact (IH K)].
  - destruct K as [K|K]; [|exact (IH K)]. injection K as -> -> -> -> -> ->. unfold body, own in H4. clear - H4. induction (match bn with Some x => [x] | None => [] end) as [|y l IH]; [exact H4|]. inversion H4; subst. apply IH. assumption.
Qed.
Lemma dom_none x (r : store) : ~ In x (map fst r) -> get x r = None.
Proof.
  intros H. pose proof (get_dom x r) as K. destruct (get x r); [|reflexivity]. apply existsb_exists in K. destruct K as (y & K1 & K2). apply str_eqb_eq in K2. subst y. destruct (H K1).
Qed.

Theorem script_inlined (W : Type) (E : env W) (P : prims W) Q X known b lim names vals vars ds doc m0 h ps w kids j n k tags args ctx file package m :
  let doc' := flat_map (expand h ps kids) doc in
  template_runtime E P Q X known vars n k m -> called_with tags args ctx ->
  Forall2 (fun x v => dget str_eqb (VAR x) ctx = Some v) names vals ->
  blank_text b -> plain_symbols X (script b names ds doc j) -> plain_symbols X (script b names ds doc' j) -> List.length (defined ds) + lim <= n ->
  doc <> [] -> (forall x, In x names -> id_name x = true) ->
  wfd b known (names ++ map fst vars) [] ds -> wfts b known (rev (defined ds)) None [] (names ++ map fst vars) doc ->
  wfts b known (rev (defined ds)) None [] (names ++ map fst vars) doc' ->
  In (Def m0 h None ps w kids) ds -> existsb contents kids = true ->
  (forall x, In x (map fst ps ++ flat_map writes kids) -> ~ In x (names ++ map fst vars ++ flat_map writes doc)) ->
  insts (inst Q b lim (meanings Q b lim (names ++ map fst vars) ds) None) doc (combine names vals ++ vars) <> Open ->
  same_outcome (fst (render_script E P n (S k) tags args (script b names ds doc j) file package m))
    (fst (render_script E P n (S k) tags args (script b names ds doc' j) file package m)).
Proof.
  intros doc' HR Hc HC Hb Hd Hd' Ln Hn Hi Hwd Hw Hw' Hdef Hk Hx Ho.
  assert (Nk : kids <> []) by (destruct kids; [discriminate Hk|discriminate]).
  assert (Hn' : doc' <> []).
  { unfold doc'. destruct doc as [|t doc]; [congruence|]. cbn [flat_map]. intros K. apply app_eq_nil in K. destruct K as [K _].
    destruct t as [ | | | | | | | | | |m1 [[y pos] at1] [[k1 x1]|]| | ]; try discriminate K. unfold expand in K. cbn [replaced chosen] in K.
    destruct (str_eqb y h); [|discriminate K]. destruct (fit ps pos at1) as [l|]; [|discriminate K]. unfold inlined in K. destruct (assigns l); [|discriminate K]. destruct kids; [congruence|discriminate K]. }
  assert (En : map fst (combine names vals ++ vars) = names ++ map fst vars) by (rewrite map_app, (combine_fst _ _ _ HC); reflexivity).
  pose proof (inline_lines Q b lim known (names ++ map fst vars) ds h ps m0 w kids Hwd Hdef Hk (wfd_params _ _ _ _ _ _ _ _ _ _ _ Hwd Hdef) doc (combine names vals ++ vars)) as K.
  specialize (K ltac:(intros x Hf; apply dom_none; rewrite En; intros J; apply (Hx x Hf); rewrite app_assoc; apply in_or_app; left; exact J)).
  specialize (K ltac:(intros x Hf J; apply (Hx x Hf); rewrite app_assoc; apply in_or_app; right; exact J)). fold doc' in K.
  destruct (insts (inst Q b lim (meanings Q b lim (names ++ map fst vars) ds) None) doc (combine names vals ++ vars)) as [[es r']| |] eqn:E1; [| |destruct (Ho eq_refl)]; cbn [ler] in K.
  - destruct K as ([es' r2] & K & K2). cbn [fst] in K2. left.
    destruct (script_render W E P Q X known b lim names vals vars ds doc j n k tags args ctx file package m _ r' HR Hc HC Hb Hd Ln Hn Hi Hwd Hw E1) as (m1 & H1).
    destruct (script_render W E P Q X known b lim names vals vars ds doc' j n k tags args ctx file package m _ r2 HR Hc HC Hb Hd' Ln Hn' Hi Hwd Hw' K) as (m2 & H2).
    rewrite H1, H2. cbn [fst]. eexists. split; [reflexivity|]. unfold elems_html. rewrite !flat_map_app, K2. reflexivity.
  - right. destruct (script_error W E P Q X known b lim names vals vars ds doc j n k tags args ctx file package m HR Hc HC Hb Hd Ln Hn Hi Hwd Hw E1) as (e1 & m1 & H1).
    destruct (script_error W E P Q X known b lim names vals vars ds doc' j n k tags args ctx file package m HR Hc HC Hb Hd' Ln Hn' Hi Hwd Hw' K) as (e2 & m2 & H2).
    rewrite H1, H2. exists e1, e2. split; reflexivity.
Qed.

(** Uses with a body. *)
Lemma block_some own h ps kids t : expand_blocks own h ps kids t <> [].
Proof.
  unfold expand_blocks. destruct t as [ | | | | | | | | | |m1 h1 [[k1 x1]|]|m1 h1 w1 l1| ]; cbn [replaced]; try discriminate.
  destruct (chosen_block own h ps kids m1 h1 l1) as [k|] eqn:Ek; [|discriminate]. destruct h1 as [[y pos] at1]. cbn [chosen_block] in Ek.
  destruct (str_eqb y h && _ && _); [|discriminate Ek]. cbn [andb] in Ek. destruct (existsb contents (with_body kids l1)) eqn:Ec; [|discriminate Ek].
  destruct (fit ps pos at1) as [l|]; [|discriminate Ek]. injection Ek as <-. unfold inlined. destruct (assigns l); [|discriminate]. destruct (with_body kids l1); [discriminate Ec|discriminate].
Qed.
Theorem script_blocks (W : Type) (E : env W) (P : prims W) Q X known b lim names vals vars ds doc own m0 h y ps w kids j n k tags args ctx file package m html :
  let doc' := flat_map (expand_blocks own h ps kids) doc in
  template_runtime E P Q X known vars n k m -> called_with tags args ctx ->
  Forall2 (fun x v => dget str_eqb (VAR x) ctx = Some v) names vals ->
  blank_text b -> plain_symbols X (script b names ds doc j) -> plain_symbols X (script b names ds doc' j) -> List.length (defined ds) + lim <= n ->
  doc <> [] -> (forall x, In x names -> id_name x = true) ->
  wfd b known (names ++ map fst vars) [] ds -> wfts b known (rev (defined ds)) None [] (names ++ map fst vars) doc ->
  wfts b known (rev (defined ds)) None [] (names ++ map fst vars) doc' ->
  In (Def m0 h (Some y) ps w kids) ds ->
  (forall x, In x own -> ~ In x (map fst ps ++ flat_map writes kids)) ->
  (forall x, In x ((map fst ps ++ flat_map writes kids) ++ own) -> ~ In x (names ++ map fst vars ++ flat_map (writes_outside own h ps kids) doc)) ->
  insts (inst Q b lim (meanings Q b lim (names ++ map fst vars) ds) None) doc (combine names vals ++ vars) <> Open ->
  fst (render_script E P n (S k) tags args (script b names ds doc j) file package m) = Done html ->
  fst (render_script E P n (S k) tags args (script b names ds doc' j) file package m) = Done html.
Proof.
  intros doc' HR Hc HC Hb Hd Hd' Ln Hn Hi Hwd Hw Hw' Hdef Hown Hx Ho Hr.
  assert (Hn' : doc' <> []).
  { unfold doc'. destruct doc as [|t doc]; [congruence|]. cbn [flat_map]. intros K. apply app_eq_nil in K. destruct K as [K _]. exact (block_some _ _ _ _ _ K). }
  assert (En : map fst (combine names vals ++ vars) = names ++ map fst vars) by (rewrite map_app, (combine_fst _ _ _ HC); reflexivity).
  assert (Nd : NoDup (map fst ps)) by exact (wfd_params _ _ _ _ _ _ _ _ _ _ _ Hwd Hdef).
  pose proof (block_lines Q b lim known (names ++ map fst vars) own ds h y ps m0 w kids Hwd Hdef Nd Hown doc (combine names vals ++ vars)) as K.
  specialize (K ltac:(intros x Hf; apply dom_none; rewrite En; intros J; apply (Hx x Hf); rewrite app_assoc; apply in_or_app; left; exact J)).
  specialize (K ltac:(intros x Hf J; apply (Hx x Hf); rewrite app_assoc; apply in_or_app; right; exact J)). fold doc' in K.
  destruct (insts (inst Q b lim (meanings Q b lim (names ++ map fst vars) ds) None) doc (combine names vals ++ vars)) as [[es r']| |] eqn:E1; [| |destruct (Ho eq_refl)]; cbn [lers] in K.
  - destruct K as ([es' r2] & K & K2). cbn [fst] in K2.
    destruct (script_render W E P Q X known b lim names vals vars ds doc j n k tags args ctx file package m _ r' HR Hc HC Hb Hd Ln Hn Hi Hwd Hw E1) as (m1 & H1).
    destruct (script_render W E P Q X known b lim names vals vars ds doc' j n k tags args ctx file package m _ r2 HR Hc HC Hb Hd' Ln Hn' Hi Hwd Hw' K) as (m2 & H2).
    rewrite H1 in Hr. rewrite H2. cbn [fst] in *. rewrite <- Hr. unfold elems_html. rewrite !flat_map_app, K2. reflexivity.
  - destruct (script_error W E P Q X known b lim names vals vars ds doc j n k tags args ctx file package m HR Hc HC Hb Hd Ln Hn Hi Hwd Hw E1) as (e1 & m1 & H1).
    rewrite H1 in Hr. discriminate Hr.
Qed.

(** ** Samples *)
Lemma apart_ok l l' : forallb (fun x => negb (existsb (str_eqb x) l')) l = true -> forall x, In x l -> ~ In x l'.
Proof.
  intros B x H K. rewrite forallb_forall in B. specialize (B x H). apply negb_true_iff in B.
  assert (C : existsb (str_eqb x) l' = true) by (apply existsb_exists; exists x; split; [exact K|apply str_eqb_refl]). rewrite B in C. discriminate C.
Qed.
Definition row_params : list (str * option given) := [(u "a", None); (u "c", Some (GBraced (call1 "len" (nm "title"))))].
Definition row_kids : list tmpl :=
  [TSet 0 [u "k"] (XOps false (nm "a") [(OAdd, num "1")]);
   TLeaf 0 [(u "li", [], [])] (Some (Plain, ((u " ", [(nm "k", u ": "); (nm "c", [])]), [])));
   TIf 0 [(XOps false (nm "k") [(OEq, num "2")], (u "  ", [TLine 0 Plain ((u " two", []), [])]))] None].
Definition row_defs : list def := sample_defs ++ [Def 0 (u "row") None row_params (u "  ") row_kids].
Definition row_doc : list tmpl :=
  [TSet 0 [u "z"] (num "0");
   TNode 0 [(u "section", [], [])] (u "  ")
     [TFor 0 [u "x"] (nm "rows") (u "  ") [TUse 0 (u "row", [GBraced (nm "x")], []) None];
      TUse 0 (u "row", [GBraced (nm "z"); GBraced (num "5")], []) None];
   TBlock 0 (u "box", [GBraced (num "6")], []) (u "  ") [TUse 0 (u "row", [GBraced (num "8")], []) None];
   TUse 1 (u "row", [], [AVal (u "c") (GBraced (nm "z")); AVal (u "a") (GBraced (num "7"))]) None;
   TLine 0 Plain ((u " z = ", [(nm "z", [])]), [])].
(** A variable of the template with the name of a parameter, and a hypertag that gives no line. *)
Definition clash_doc : list tmpl := [TSet 0 [u "a"] (num "5"); TUse 0 (u "row", [GBraced (num "8")], []) None; TLine 0 Plain ((u " a = ", [(nm "a", [])]), [])].
Definition quiet_kids : list tmpl := [TIf 0 [(XConst CFalse, (u "  ", [TLine 0 Plain ((u " x", []), [])]))] None].
Definition quiet_defs : list def := [Def 0 (u "quiet") None [] (u "  ") quiet_kids].
Definition quiet_doc : list tmpl := [TLine 0 Plain ((u " first", []), []); TUse 0 (u "quiet", [], []) None; TLine 0 Plain ((u " last", []), [])].
(** A hypertag with a body, and one whose body is not shown. *)
Definition card_params : list (str * option given) := [(u "head", None); (u "c", Some (GBraced (call1 "len" (nm "title"))))].
Definition card_kids : list tmpl :=
  [TSet 0 [u "k"] (XOps false (nm "c") [(OAdd, num "1")]);
   TLeaf 0 [(u "h3", [], [])] (Some (Plain, ((u " ", [(nm "head", u " "); (nm "k", [])]), [])));
   TNode 1 [(u "div", [], [])] (u "  ") [TIf 0 [(XOps false (nm "k") [(OEq, num "6")], (u "  ", [TLine 0 Plain ((u " six", []), [])]))] None; TBody 1 (u "body")]].
Definition card_defs : list def := sample_defs ++ [Def 0 (u "card") (Some (u "body")) card_params (u "  ") card_kids].
Definition card_doc : list tmpl :=
  [TSet 0 [u "z"] (num "0");
   TNode 0 [(u "section", [], [])] (u "  ")
     [TFor 0 [u "x"] (nm "rows") (u "  ") [TBlock 0 (u "card", [GBraced (nm "x")], []) (u "  ") [TLine 0 Plain ((u " row ", [(nm "x", [])]), []); TUse 0 (u "item", [GBraced (nm "x")], []) None]]];
   TBlock 2 (u "card", [GBraced (num "9")], [AVal (u "c") (GBraced (num "5"))]) (u "    ") [TFor 0 [u "y"] (nm "rows") (u "  ") [TLine 0 Plain ((u " ", [(nm "y", u " and "); (nm "z", [])]), [])]];
   TLine 0 Plain ((u " last", []), [])].
Definition hide_kids : list tmpl := [TLine 0 Plain ((u " shown", []), []); TIf 0 [(XConst CFalse, (u "  ", [TBody 0 (u "body")]))] None].
Definition hide_defs : list def := [Def 0 (u "hide") (Some (u "body")) [] (u "  ") hide_kids].
Definition hide_doc : list tmpl := [TBlock 0 (u "hide", [], []) (u "  ") [TLine 0 Plain ((u " ", [(call1 "len" (num "5"), [])]), [])]].
