(** Last steps for C69, and sample data. *)
From Coq Require Import List NArith ZArith Bool Arith String Lia.
From Verif Require Import PyStr PyStrFacts Html HtmlSpec PyDict Value Dom Ast Machine Analyse Syntax Runtime RuntimeSpec ExportFacts Ref ConfRef PageSpec PageSamples OperSpec
  TmplSpec TmplParse TmplExpr TmplDoc TmplCheck TmplSamples TmplProofs BookSpec TmplBook BookProofs MoreSpec MoreFacts MoreProofs OrderFacts MoveSpec MoveFacts.
Import ListNotations.
Local Open Scope string_scope.
Local Open Scope list_scope.

Lemma pick_found D ns l n f : pick D ns = Is l -> In (n, f) l -> find_meaning n D = Some f.
Proof.
  revert l. induction ns as [|y ns IH]; intros l; cbn [pick]; [intros [= <-]; contradiction|]. destruct (find_meaning y D) as [g|] eqn:Eg; [|discriminate]. cbn [given_by oseq].
  destruct (pick D ns) as [l1| |]; try discriminate. intros [= <-] [[= <- <-]|H]; [exact Eg|exact (IH _ eq_refl H)].
Qed.
Lemma pick_all D ns : incl ns (map fst D) -> exists l, pick D ns = Is l.
Proof.
  induction ns as [|y ns IH]; intros H; [exists []; reflexivity|]. destruct (In_find y D (H y (or_introl eq_refl))) as (f & Ef). destruct IH as (l & El); [intros z Hz; apply H; right; exact Hz|].
  exists ((y, f) :: l). cbn [pick]. rewrite Ef, El. reflexivity.
Qed.
Lemma find_shift (D : list (str * meaning)) (v : store) n f : find_meaning n (map (fun nf => (fst nf, fun _ => snd nf v)) D) = Some f ->
  exists f0, find_meaning n D = Some f0 /\ f = (fun _ => f0 v).
Proof.
  induction D as [|[y g] D IH]; [discriminate|]. cbn [map find_meaning fst snd]. destruct (str_eqb n y); [|exact IH]. intros [= <-]. exists g. split; reflexivity.
Qed.
Lemma tight_gaps void ds : Forall tight ds -> flat_map (ehtml void) (gaps ds) = [].
Proof. unfold gaps. induction 1 as [|d ds H Hd IH]; [reflexivity|]. cbn [map flat_map]. rewrite IH. destruct d; cbn [tight] in H; subst m; reflexivity. Qed.

Lemma Forall2_len {A B} (R : A -> B -> Prop) l l' : Forall2 R l l' -> List.length l = List.length l'.
Proof. induction 1; [reflexivity|]. cbn. f_equal. assumption. Qed.

Section Source.
Variables (Q : py) (b : str) (lim : nat) (known : str -> option bool) (lib : library) (vars : store) (d : nat).
Lemma moved_source p ds k names vals doc j : find_source p lib = Some (Source [] ds [] k) ->
  wfd b known (map fst vars) [] ds -> (forall x, In x names -> ~ In x (map fst vars)) -> List.length names = List.length vals ->
  (forall x, In x (flat_map writes doc) -> ~ In x (map fst vars)) ->
  ler (both2 vars) (inst_source Q b lim (exports Q b lim lib vars (S d)) (combine names vals ++ vars) (Source [(p, defined ds)] [] doc j))
    (inst_source Q b lim (exports Q b lim lib vars (S d)) (combine names vals ++ vars) (Source [] ds doc j)).
Proof.
  intros Hf Hw Hn Hl Hd. set (r := combine names vals ++ vars). set (D0 := meanings_on Q b lim [] (map fst vars) ds). set (D1 := (map (fun nf => (fst nf, fun _ => snd nf vars)) D0 : list (str * meaning))).
  assert (Ee : exports Q b lim lib vars (S d) p = Is D1) by (cbn [exports]; rewrite Hf; reflexivity).
  assert (En : map fst D1 = rev (defined ds)).
  { unfold D1. rewrite map_map. cbn [fst]. change (map fst D0 = rev (defined ds)). unfold D0, meanings_on. rewrite learned_names, app_nil_r. reflexivity. }
  destruct (pick_all D1 (defined ds)) as (l & El); [rewrite En; intros x Hx; apply in_rev in Hx; exact Hx|].
  unfold inst_source. cbn [gather]. rewrite Ee. cbn [oseq]. rewrite El. cbn [oseq flat_map snd app]. unfold known_tags. cbn [flat_map rev app snd]. rewrite app_nil_r.
  unfold meanings_on at 1. cbn [fold_left].
  assert (Er : map fst r = names ++ map fst vars).
  { unfold r. rewrite map_app. f_equal. clear - Hl. revert vals Hl. induction names as [|x ns IH]; intros [|v vals] H; try discriminate; [reflexivity|]. cbn [combine map fst]. rewrite IH; [reflexivity|]. injection H as H. exact H. }
  assert (Br : both vars r r).
  { split; [|apply sub_refl]. apply keeps_join; [|apply sub_refl]. intros x Hx. apply Hn. apply in_map_iff in Hx. destruct Hx as ([y v] & <- & Hx). exact (in_combine_l _ _ _ _ Hx). }
  apply lev_insts; [|exact Hd|exact Br].
  intros n f Ef. assert (N1 : NoDup (map fst (rev l))).
  { rewrite map_rev. apply NoDup_rev. rewrite (pick_names _ _ _ El). exact (proj1 (wfd_names _ _ _ _ _ Hw)). }
  apply (find_unique _ _ _ N1), in_rev in Ef. apply (pick_found _ _ _ _ _ El) in Ef. apply find_shift in Ef. destruct Ef as (f0 & Ef & ->).
  destruct (learn_lev Q b lim vars (map fst vars) (map fst r) (incl_refl _) ltac:(rewrite Er; apply incl_appr, incl_refl) known ds [] [] [] Hw ltac:(intros y g Hg; discriminate Hg) n f0 Ef) as (g & Eg & K).
  exists g. split; [exact Eg|]. intros r1 r2 pos kw bd [B1 B2]. apply K. split; [apply sub_refl|]. exact (sub_trans _ _ _ B1 B2).
Qed.
End Source.

Theorem book_moved (W : Type) (E : env W) (P : prims W) Q X known b lim lib dir d names vals vars p ds k0 doc j n k tags args ctx f package m :
  book_runtime E P Q X known vars b lib dir n k m -> called_with tags args ctx ->
  Forall2 (fun x v => dget str_eqb (VAR x) ctx = Some v) names vals ->
  blank_text b -> plain_symbols X (source_text b names (Source [] ds doc j)) -> plain_symbols X (source_text b names (Source [(p, defined ds)] [] doc j)) ->
  List.length (defined ds) + (lim + S d * most lib) <= n -> S d <= k -> in_folder dir f ->
  (forall x, In x names -> id_name x = true) ->
  source_ok b known (names ++ map fst vars) (Source [] ds doc j) -> source_ok b known (names ++ map fst vars) (Source [(p, defined ds)] [] doc j) ->
  find_source p lib = Some (Source [] ds [] k0) -> Forall tight ds ->
  (forall x, In x (names ++ flat_map writes doc) -> ~ In x (map fst vars)) ->
  inst_source Q b lim (exports Q b lim lib vars (S d)) (combine names vals ++ vars) (Source [(p, defined ds)] [] doc j) <> Open ->
  same_outcome (fst (render_script E P n (S k) tags args (source_text b names (Source [(p, defined ds)] [] doc j)) (Some f) package m))
    (fst (render_script E P n (S k) tags args (source_text b names (Source [] ds doc j)) (Some f) package m)).
Proof.
  intros HR Hc HC Hb Hu Hu' Ln Hk Hf Hn Hw Hw' Hs Ht Ha Ho.
  assert (Hwd : wfd b known (map fst vars) [] ds).
  { destruct HR as (_ & _ & _ & _ & _ & HL & _). destruct (HL _ _ Hs) as (_ & (_ & _ & _ & _ & K & _) & _). exact K. }
  pose proof (moved_source Q b lim known lib vars d p ds k0 names vals doc j Hs Hwd (fun x Hx => Ha x (in_or_app _ _ _ (or_introl Hx))) (Forall2_len _ _ _ HC) (fun x Hx => Ha x (in_or_app _ _ _ (or_intror Hx)))) as K.
  assert (Ln' : List.length (defined []) + (lim + S d * most lib) <= n) by (cbn [defined flat_map List.length]; lia).
  destruct (inst_source Q b lim (exports Q b lim lib vars (S d)) (combine names vals ++ vars) (Source [(p, defined ds)] [] doc j)) as [[es r']| |] eqn:E1; [| |destruct (Ho eq_refl)]; cbn [ler] in K.
  - destruct K as ([es2 r2] & K & [K1 _]). cbn [fst] in K1. subst es2. left.
    destruct (book_renders W E P Q X known b lim lib dir (S d) names vals vars (Source [] ds doc j) n k tags args ctx f package m _ _ HR Hc HC Hb Hu Ln Hk Hf Hn Hw K) as (m1 & H1).
    destruct (book_renders W E P Q X known b lim lib dir (S d) names vals vars (Source [(p, defined ds)] [] doc j) n k tags args ctx f package m _ _ HR Hc HC Hb Hu' Ln' Hk Hf Hn Hw' E1) as (m2 & H2).
    rewrite H1, H2. cbn [fst]. eexists. split; [reflexivity|]. cbn [src_defs src_blank]. unfold elems_html. rewrite !flat_map_app, (tight_gaps _ _ Ht). reflexivity.
  - right. destruct (book_raises W E P Q X known b lim lib dir (S d) names vals vars (Source [] ds doc j) n k tags args ctx f package m HR Hc HC Hb Hu Ln Hk Hf Hn Hw K) as (e1 & m1 & H1).
    destruct (book_raises W E P Q X known b lim lib dir (S d) names vals vars (Source [(p, defined ds)] [] doc j) n k tags args ctx f package m HR Hc HC Hb Hu' Ln' Hk Hf Hn Hw' E1) as (e2 & m2 & H2).
    rewrite H1, H2. exists e2, e1. split; reflexivity.
Qed.

(** ** A sample *)
Definition pair_doc : list tmpl :=
  [TSet 0 [u "size"] (num "4");
   TNode 0 [(u "p", [], [])] (u "  ") [TUse 0 (u "pair", [GBraced (nm "size")], []) None];
   TBlock 1 (u "box", [], []) (u "  ") [TLine 0 Plain ((u " ", [(nm "title", [])]), [])]].
Definition pair_here : source := Source [] shared_defs pair_doc 0.
Definition pair_moved : source := Source [(u "shared", defined shared_defs)] [] pair_doc 0.
