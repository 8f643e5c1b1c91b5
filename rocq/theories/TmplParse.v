(** Proofs about templates: what the parser makes of the preprocessed text of a template. *)
From Coq Require Import List NArith ZArith Bool Arith Lia String ZifyBool.
From Verif Require Import PyStr PyStrFacts Value Ast IndentSpec Preprocess PreprocessSpec PreprocessFacts Peg PegFacts PegSpec PegSemFacts
  Grammar Syntax GrammarFacts ParseRun PageSpec PageFlat PageParse OperSpec OperParse OperProofs TmplSpec TmplFlat TmplLines.
Import ListNotations.
Local Open Scope string_scope.
Local Open Scope list_scope.
Local Open Scope N_scope.

(** ** What the parser makes *)

Definition raw_word (a : sigil * word) : str * expr :=
  (sigil_name (fst a), match snd a with WText x => ELit (VStr x) | WExpr e => root (tree e) end).
(** Heads of control blocks, and values without braces. *)
Definition cond (e : ex) : expr := ERoot (sub tree 14 e) QNone.
Definition raw_given (g : given) : expr := match g with GBare e => cond e | GBraced e => root (tree e) end.
Inductive raw_attr : attr -> list (str * expr) -> Prop :=
| raw_aval n g : raw_attr (AVal n g) [(n, raw_given g)]
| raw_ashort l : raw_attr (AShort l) (map raw_word l).
Inductive raw_tag : tagx -> tagexp -> Prop :=
| raw_tag_i n l a es : Forall2 raw_attr a es -> raw_tag (n, l, a) (XTag n None [] (map raw_word l ++ List.concat es)).

Inductive raw_use : use -> tagexp -> Prop :=
| raw_use_i n pos a es : Forall2 raw_attr a es -> raw_use (n, pos, a) (XTag n None (map raw_given pos) (List.concat es)).
Inductive raw_param : str * option given -> attrdef -> Prop :=
| raw_param_none n : raw_param (n, None) {| a_name := n; a_default := None; a_slot := None |}
| raw_param_some n g : raw_param (n, Some g) {| a_name := n; a_default := Some (raw_given g); a_slot := None |}.

Inductive raw_text (k : style) : mixed -> list titem -> Prop :=
| raw_none : raw_text k ([], []) []
| raw_verbat s : k = Verbatim -> s <> [] -> raw_text k (s, []) [TxLine (LVerbat s)]
| raw_parts s l ps : k <> Verbatim -> (s, l) <> ([], []) -> line_parts s l ps ->
    raw_text k (s, l) [TxLine match k with Plain => LNormal ps | _ => LMarkup ps end].

(** The lines below the first one; [cur]: the indentation of the line before. *)
Inductive raw_tail (k : style) : nat -> list (nat * nat * mixed) -> list titem -> Prop :=
| raw_tail_nil cur : raw_tail k cur [] (repeat (TxDedent SP) cur)
| raw_tail_cons cur m n x tl ls ts : raw_text k (trim x) ls -> raw_tail k n tl ts ->
    raw_tail k cur ((m, n, x) :: tl)
      (repeat (TxIndent SP) (n - cur) ++ repeat (TxDedent SP) (cur - n) ++ TxMargin (repeatc NL (S m)) :: ls ++ ts).
Inductive raw_para (k : style) : para -> list titem -> Prop :=
| raw_para_i h tl ls ts : raw_text k (trim h) ls -> raw_tail k 0 tl ts -> raw_para k (h, tl) (ls ++ ts).

(** Targets of assignments, items of a block. *)
Definition target_of (xs : list str) : target := TTargets (map (fun x => TVar x false None None) xs).
Definition items (w : str) (is : list item) : list item := map NIndent w ++ is ++ map NDedent (rev w).
(** [lead]: the column of the marker. *)
Inductive raw_inline (lead : nat) : option (style * para) -> body -> Prop :=
| raw_inline_none : raw_inline lead None (YItems [])
| raw_inline_some k x ls : raw_para k x ls -> raw_inline lead (Some (k, x)) (YBlock (BText lead ls)).

(** The item of a template. *)
Section Raw.
Variable b : str.
Inductive raw : tmpl -> item -> Prop :=
| raw_line m k x ls : raw_para k x ls -> raw (TLine m k x) (NBlock (repeatc NL m) MNone (BText 1 ls))
| raw_note m h x tl : raw (TNote m h x tl) (NBlock (repeatc NL m) MNone BComment)
| raw_leaf m g c ts d : Forall2 raw_tag g ts -> raw_inline (List.length (chain_text b g) + 2) c d -> raw (TLeaf m g c) (NBlock (repeatc NL m) MNone (BStruct ts d))
| raw_node m g w kids ts is : Forall2 raw_tag g ts -> Forall2 raw kids is ->
    raw (TNode m g w kids) (NBlock (repeatc NL m) MNone (BStruct ts (YItems (items w is))))
| raw_if m cs els bs d : map fst bs = map (fun c => cond (fst c)) cs -> Forall2 raw_body (map snd cs) (map snd bs) -> raw_els els d ->
    raw (TIf m cs els) (NBlock (repeatc NL m) MNone (BIf bs d))
| raw_for m xs e w kids is : Forall2 raw kids is ->
    raw (TFor m xs e w kids) (NBlock (repeatc NL m) MNone (BFor (target_of xs) (cond e) (Some (YItems (items w is))) None))
| raw_while m e w kids els is d : Forall2 raw kids is -> raw_els els d ->
    raw (TWhile m e w kids els) (NBlock (repeatc NL m) MNone (BWhile (cond e) (Some (YItems (items w is))) d))
| raw_try m w kids alts is ds : Forall2 raw kids is -> Forall2 raw_body alts ds ->
    raw (TTry m ((w, kids) :: alts)) (NBlock (repeatc NL m) MNone (BTry (YItems (items w is) :: map YElse ds)))
| raw_aug m x o e : raw (TAug m x o e) (NBlock (repeatc NL m) MNone (BAssign (TTargets [TVar x true None None]) (Some o) (root (tree e))))
| raw_set m xs e : raw (TSet m xs e) (NBlock (repeatc NL m) MNone (BAssign (target_of xs) None (root (tree e))))
| raw_call m h c t d : raw_use h t -> raw_inline (List.length (use_text b h) + 2) c d -> raw (TUse m h c) (NBlock (repeatc NL m) MNone (BStruct [t] d))
| raw_block m h w kids t is : raw_use h t -> Forall2 raw kids is ->
    raw (TBlock m h w kids) (NBlock (repeatc NL m) MNone (BStruct [t] (YItems (items w is))))
| raw_put m n : raw (TBody m n) (NBlock (repeatc NL m) MNone (BEmbed (root (tree (XName n)))))
with raw_body : str * list tmpl -> option body -> Prop :=
| raw_body_i w kids is : Forall2 raw kids is -> raw_body (w, kids) (Some (YItems (items w is)))
with raw_els : option (str * list tmpl) -> option body -> Prop :=
| raw_els_none : raw_els None None
| raw_els_some y d : raw_body y d -> raw_els (Some y) (Some (YElse d)).

Inductive raw_def : def -> item -> Prop :=
| raw_def_note m h x tl : raw_def (DNote m h x tl) (NBlock (repeatc NL m) MNone BComment)
| raw_def_i m n bn ps w kids ads is : Forall2 raw_param ps ads -> Forall2 raw kids is ->
    raw_def (Def m n bn ps w kids)
      (NBlock (repeatc NL m) MNone (BDef None n (match bn with Some x => Some (x, None) | None => None end) ads (YItems (items w is)))).
End Raw.

(** The line for the context. *)
Definition raw_header (names : list str) : list item :=
  match names with [] => [] | _ => [NBlock [] MNone (BContext (map (fun n => IName (36 :: n) None None) names))] end.

(** The lines with imports. *)
Definition import_item (n : str) : iitem := IName (37 :: n) None None.
Definition raw_import (i : str * list str) : item := NBlock [] MNone (BImport (fst i) (map import_item (snd i))).

Section Parse.
Variables (X : lexicon) (y : symbols) (full b : str).
Hypothesis Hhigh : forall c, In c (symbol_chars y) -> 10088 <= c.
Hypothesis Hnd : NoDup (symbol_chars y).
Hypothesis Hb : blank_text b.
Hypothesis Hdig : forall c, In c (symbol_chars y) -> u_digit (lx_unicode X) c = None /\ cls_xml c = false.
Notation makes := (makes X y full).
Notation makes_loop := (makes_loop X y full).
Notation U := (lx_unicode X).
Notation G := (grammar U y).
Notation sem := (PegSpec.sem G).
Notation no_sym := (no_sym y).
Notation kid := (option rule * syn)%type.
Notation raw := (raw b).
Notation raw_body := (raw_body b).
Notation raw_els := (raw_els b).
Notation raw_def := (raw_def b).

Ltac no_lit := apply lit_no; vm_compute; (exact Logic.I || lia).
Ltac no_go :=
  match goal with
  | |- PegSpec.sem _ (PRef _) _ None => apply sem_ref; cbn [grammar]
  | |- PegSpec.sem _ (PAlt []) _ None => apply sem_alt_nil
  | |- PegSpec.sem _ (PAlt _) _ None => apply sem_alt_next
  | |- PegSpec.sem _ (PSeq _) _ None => apply sem_seq_no
  | |- PegSpec.sem _ (PPlus _) _ None => apply sem_plus_no
  | |- PegSpec.sem _ (PLit _) _ None => no_lit
  end.
Ltac by_run := apply (fails G 60 _ 0); vm_compute; reflexivity.

(** ** Attributes *)

Definition is_attr (e : str * expr) (k : kid) : Prop := snd k = SAttr (Some (fst e)) (Some (snd e)) false.
Lemma attrs_of_kids es ks : Forall2 is_attr es ks -> forall un nm, attrs_of un nm ks = Ok (un, nm ++ es).
Proof.
  intros H. induction H as [|[n e] [r s] es ks H K IH]; intros un nm; cbn [attrs_of]; [rewrite app_nil_r; reflexivity|].
  unfold is_attr in H. cbn [fst snd] in H. rewrite H. rewrite IH, <- app_assoc. reflexivity.
Qed.

(** After a shortcut. *)
Definition wfollow : str -> Prop := starts (fun c => c = SP \/ c = NL \/ c = 46 \/ c = 35 \/ 10088 <= c).
Lemma v_wfollow r : vfollow r -> wfollow r.
Proof. apply starts_imp. intros c H. tauto. Qed.
Lemma w_no_qual r : wfollow r -> starts (fun c => c <> 63 /\ c <> 33) r.
Proof. apply starts_imp. intros c H. unfold SP, NL in H. lia. Qed.
Lemma no_short r : vfollow r -> sem (PRef R_attr_short) r None.
Proof. intros H. destruct H as [|c r H]; [|unfold SP, NL in H]; repeat no_go. Qed.

Definition clean_word (a : sigil * word) : Prop := no_sym (word_text b a).
Lemma word_one sc a p r : word_ok b sc a -> clean_word a -> wfollow r ->
  makes (PRef R_attr_short) p (word_text b a) r [(Some R_attr_short, SAttr (Some (fst (raw_word a))) (Some (snd (raw_word a))) false)].
Proof.
  intros Ha Hc Hr. destruct a as [k z]. unfold word_ok, clean_word, word_text, raw_word in *. cbn [fst snd] in *.
  assert (exists kk, forall p, makes (PAlt [PRef R_attr_short_lit; PRef R_embedding]) p
    (match z with WText x => x | WExpr e => u "{" ++ text b e ++ u "}" end) r
    [(kk, SExpr match z with WText x => ELit (VStr x) | WExpr e => root (tree e) end)]) as (kk & M).
  { destruct z as [x|e].
    - exists (Some R_attr_short_lit). intros q. apply makes_alt_first. node_of (@nil kid); [|reflexivity]. cbn [grammar]. apply makes_rx.
      destruct Ha as [Hx Hf]. rewrite forallb_forall in Hf. apply rx_plus_stop; [exact Hx| |].
      + intros c I. apply Hf in I. unfold word_char, letter, digit in I. unfold cls_az, cls_in, between. cbn. lia.
      + revert Hr. apply starts_imp. intros c H. unfold SP, NL in H. unfold cls_az, cls_in, between. cbn. lia.
    - exists (Some R_expr_augment). intros q. apply makes_alt_next.
      + apply sem_ref. cbn [grammar]. apply sem_rx_no, rx_first; [reflexivity|]. constructor. reflexivity.
      + apply makes_alt_first. apply braces_make; [exact Hb|apply Ha| |apply w_no_qual, Hr].
        intros c I. apply Hc. apply in_or_app. right. apply in_or_app. right. apply in_or_app. left. exact I. }
  node_of [(kk, SExpr match z with WText x => ELit (VStr x) | WExpr e => root (tree e) end)].
  - cbn [grammar]. change ([(kk, SExpr match z with WText x => ELit (VStr x) | WExpr e => root (tree e) end)]) with (@nil kid ++ [(kk, SExpr match z with WText x => ELit (VStr x) | WExpr e => root (tree e) end)]).
    apply seq2; [|apply M]. destruct k.
    + apply makes_alt_first. apply makes_lit.
    + apply makes_alt_next; [no_lit|]. apply makes_alt_first. apply makes_lit.
  - destruct k; reflexivity.
Qed.

Lemma word_first a r : exists g, word_text b a ++ r = (match fst a with Class => 46 | Id => 35 end) :: g.
Proof. destruct a as [[|] z]; eexists; reflexivity. Qed.
Lemma word_wfollow a r : wfollow (word_text b a ++ r).
Proof. destruct (word_first a r) as (g & ->). constructor. destruct (fst a); tauto. Qed.

Lemma words_loop sc l : Forall (word_ok b sc) l -> Forall clean_word l -> forall p r, vfollow r ->
  exists ks, makes_loop (PRef R_attr_short) p (flat_map (word_text b) l) r ks /\ Forall2 is_attr (map raw_word l) ks.
Proof.
  intros H K p r Hr.
  destruct (loop_items X y full (PRef R_attr_short) (word_text b) (fun a ks => exists k, ks = [k] /\ is_attr (raw_word a) k) vfollow wfollow l) with (p := p) (r := r) as (kss & M & F).
  - apply no_short.
  - apply v_wfollow.
  - intros a I. destruct a as [[|] z]; discriminate.
  - intros a s I. apply word_wfollow.
  - intros a I q s Hs. rewrite Forall_forall in H, K. eexists. split; [apply (word_one sc); auto|]. eexists. split; [reflexivity|]. reflexivity.
  - exact Hr.
  - exists (List.concat kss). split; [exact M|]. clear - F. induction F as [|a ks l kss (k & -> & Hk) F IH]; cbn; constructor; assumption.
Qed.

(** ** Values *)

Notation sfollow := (sfollow X).
(** No "=" follows. *)
Definition noeq (r : str) : Prop := forall l, sem (PSeq (PRef R_ws :: PLit (u "=") :: l)) r None.
Definition safe (r : str) : Prop := sfollow r /\ noeq r.
Lemma noeq_char c s : cls_blank c = false -> c <> 61 -> noeq (c :: s).
Proof. intros H1 H2 l. eapply sem_seq_cons; [apply sem_ws_none; constructor; exact H1|]. apply sem_seq_no. apply lit_no. cbn. lia. Qed.
Lemma noeq_blank c s : cls_blank c = false -> c <> 61 -> noeq (SP :: c :: s).
Proof. intros H1 H2 l. eapply sem_seq_cons; [apply sem_ws_one; constructor; exact H1|]. apply sem_seq_no. apply lit_no. cbn. lia. Qed.
Lemma noeq_nil : noeq [].
Proof. intros l. eapply sem_seq_cons; [apply sem_ws_none; constructor|]. apply sem_seq_no. by_run. Qed.
Lemma safe_blank c s : cls_blank c = false -> c <> 61 -> safe (SP :: c :: s).
Proof. intros H1 H2. split; [constructor; left; reflexivity|apply noeq_blank; assumption]. Qed.
Lemma safe_rest r : safe r -> rest_ok X y r.
Proof. intros [H1 H2]. split; [eapply sfollow_astop, H1|apply H2]. Qed.

Definition clean_given (g : given) : Prop := no_sym (given_text b g).
Lemma given_opens sc g r : given_ok b sc g -> rest_ok X y r -> opens X y b 12 (given_text b g ++ r).
Proof.
  intros [Hg _] Hr. destruct g as [e|e]; cbn [given_text given_expr] in *.
  - apply (opens_mono X y b 14); [lia|]. apply operand_opens; [exact Hb|apply Hg|exact Hr].
  - eapply op_char; [reflexivity|]. unfold plainc. tauto.
Qed.
Lemma opens_first s : opens X y b 12 s -> exists c z, s = c :: z /\ cls_blank c = false /\ c <> 61 /\ c <> 37 /\ c <> 36.
Proof.
  intros [c z -> H|n z -> H _|q z ->|z E H|z E H]; try lia.
  - exists c, z. split; [reflexivity|]. unfold plainc, digit in H. unfold cls_blank, cls_in, SP, TAB. cbn. lia.
  - apply id_parts in H. destruct H as (c & r & -> & Hc & _). eexists c, _. split; [reflexivity|]. apply letter_ascii in Hc. unfold cls_blank, cls_in, SP, TAB. cbn. lia.
  - eexists _, _. split; [reflexivity|]. repeat split; discriminate.
Qed.
Lemma given_first sc g r : given_ok b sc g -> safe r -> exists c z, given_text b g ++ r = c :: z /\ cls_blank c = false /\ c <> 61 /\ c <> 37 /\ c <> 36.
Proof. intros Hg Hr. eapply opens_first, given_opens; [exact Hg|apply safe_rest, Hr]. Qed.
Lemma given_safe sc g r : given_ok b sc g -> safe r -> safe (([SP] ++ given_text b g) ++ r).
Proof. intros Hg Hr. destruct (given_first sc g r Hg Hr) as (c & z & E & H1 & H2 & _). rewrite <- app_assoc, E. apply safe_blank; assumption. Qed.

Lemma given_make sc g p r : given_ok b sc g -> clean_given g -> sfollow r ->
  exists k, makes (PRef R_value_of_attr) p (given_text b g) r [(k, SExpr (raw_given g))].
Proof.
  intros [Hg Hb0] Hc Hr. unfold clean_given in Hc. destruct g as [e|e]; cbn [given_text given_expr raw_given] in *.
  - exists (Some R_expr_strict). apply makes_reduced; [reflexivity|reflexivity|]. cbn [grammar]. apply makes_alt_next.
    { assert (Ho : opens X y b 14 (operand (text b) 14 e ++ [])) by (apply operand_opens; [exact Hb|apply Hg|split; [constructor|apply noeq_nil]]).
      rewrite app_nil_r in Ho. apply (opens_mono X y b 14 12) in Ho; [|lia]. apply opens_first in Ho. destruct Ho as (c & q & Ec & _ & _ & _ & H36). rewrite Ec in *. cbn [app].
      assert (H123 : c <> 123) by (intros ->; discriminate Hb0). repeat no_go. }
    apply makes_alt_first. destruct (strict_make X y full b Hb e p r (proj1 Hg) Hc Hr) as (k & M).
    node_of [(k, SExpr (sub tree 14 e))]; [|reflexivity]. cbn [grammar].
    apply (makes_eq X y full _ p (operand (text b) 14 e ++ []) _ r ([(k, SExpr (sub tree 14 e))] ++ [])); [apply app_nil_r|reflexivity|].
    apply seq2; [exact M|apply makes_plit].
  - eexists. apply makes_reduced; [reflexivity|reflexivity|]. cbn [grammar]. apply makes_alt_first.
    apply braces_make; [exact Hb|apply Hg| |apply w_no_qual, v_wfollow, (sfollow_v X), Hr]. intros c I. apply Hc. apply in_or_app. right. apply in_or_app. left. exact I.
Qed.

(** A value is not taken for a name and "=". *)
Definition xsafe (s : str) : Prop := exists x z, s = x ++ z /\ forallb cls_xml x = true /\ starts (fun c => cls_xml c = false) z /\ noeq z.
Lemma xsafe_pre w s : forallb cls_xml w = true -> xsafe s -> xsafe (w ++ s).
Proof. intros Hw (x & z & -> & Hx & H). exists (w ++ x), z. rewrite <- app_assoc, forallb_app, Hw, Hx. repeat split; apply H. Qed.
Lemma xsafe_stop c s : cls_xml c = false -> cls_blank c = false -> c <> 61 -> xsafe (c :: s).
Proof. intros H1 H2 H3. exists [], (c :: s). split; [reflexivity|]. split; [reflexivity|]. split; [constructor; exact H1|apply noeq_char; assumption]. Qed.
Lemma xsafe_safe r : safe r -> xsafe r.
Proof.
  intros [H1 H2]. exists [], r. split; [reflexivity|]. split; [reflexivity|]. split; [|exact H2]. revert H1. apply starts_imp. intros c [->|[->|(_ & _ & H)]]; [reflexivity|reflexivity|exact H].
Qed.
Lemma idc_xml n : (forall c, In c n -> idc c) -> forallb cls_xml n = true.
Proof. intros H. apply forallb_forall. intros c I. apply H in I. unfold idc, letter, digit in I. unfold cls_xml, cls_xml_end, cls_xml_start, between. lia. Qed.
Lemma digits_xml n : forallb digit n = true -> forallb cls_xml n = true.
Proof. intros H. apply forallb_forall. intros c I. rewrite forallb_forall in H. apply H in I. unfold digit in I. unfold cls_xml, cls_xml_end, cls_xml_start, between. lia. Qed.
Lemma xsafe_parens x s : xsafe (in_parens x ++ s).
Proof. apply xsafe_stop; [reflexivity|reflexivity|discriminate]. Qed.
Lemma xsafe_atom e s : fine b e = true -> xsafe s -> xsafe (operand (text b) 15 e ++ s).
Proof.
  intros Hf H. unfold operand. destruct (Nat.ltb_spec (prio e) 15) as [Hp|Hp]; [apply xsafe_parens|].
  destruct e as [n|q x l|q x|d|c|l|l|l|l|e l q|n e l|e l|e l|n e|e l|e l|x c y']; cbn [prio] in Hp; try lia; cbn [fine] in Hf; cbn [text].
  - apply xsafe_pre; [|exact H]. apply idc_xml, id_chars, var_id, Hf.
  - rewrite <- !app_assoc. destruct q; (apply xsafe_stop; [reflexivity|reflexivity|discriminate]).
  - rewrite <- !app_assoc. apply (xsafe_pre (u "r")); [reflexivity|]. destruct q; (apply xsafe_stop; [reflexivity|reflexivity|discriminate]).
  - apply xsafe_pre; [destruct c; reflexivity|exact H].
  - rewrite <- !app_assoc. apply xsafe_stop; [reflexivity|reflexivity|discriminate].
  - rewrite <- !app_assoc. apply xsafe_stop; [reflexivity|reflexivity|discriminate].
  - rewrite <- !app_assoc. apply xsafe_stop; [reflexivity|reflexivity|discriminate].
  - rewrite <- !app_assoc. apply xsafe_stop; [reflexivity|reflexivity|discriminate].
  - exfalso. destruct l as [|[o z] l]; [lia|]. destruct o; cbn in Hp; lia.
Qed.
Lemma xsafe_given sc g r : given_ok b sc g -> safe r -> xsafe (given_text b g ++ r).
Proof.
  intros [[Hf _] _] Hr. apply xsafe_safe in Hr. destruct g as [e|e]; cbn [given_text given_expr] in *; [|apply xsafe_stop; [reflexivity|reflexivity|discriminate]].
  pose proof (prio_le e) as Hp. unfold operand. destruct (Nat.ltb_spec (prio e) 14) as [H|H]; [apply xsafe_parens|].
  destruct (Nat.eqb_spec (prio e) 14) as [E|E].
  - destruct e as [n|q x l|q x|d|c|l|l|l|l|e l q|n e l|e l|e l|n e|e l|e l|x c y']; try discriminate E; cbn [fine] in Hf; cbn [text].
    + rewrite andb_true_iff in Hf. apply xsafe_pre; [apply digits_xml, Hf|exact Hr].
    + rewrite !andb_true_iff in Hf. destruct Hf as [[Hf _] Hl]. rewrite <- !app_assoc. apply xsafe_atom; [exact Hf|].
      clear - Hl Hr. induction l as [|t l IH].
      * cbn [flat_map app]. destruct q; cbn [qual_text app]; [exact Hr|apply xsafe_stop; [reflexivity|reflexivity|discriminate]..].
      * cbn [forallb] in Hl. apply andb_true_iff in Hl. destruct Hl as [Ht Hl]. cbn [flat_map]. rewrite <- app_assoc. destruct t as [n|e|x z w|a]; cbn [tail_text fine_tail] in *; rewrite <- ?app_assoc.
        -- apply (xsafe_pre (u ".")); [reflexivity|]. apply xsafe_pre; [|apply IH, Hl]. apply idc_xml, id_chars, Ht.
        -- apply xsafe_stop; [reflexivity|reflexivity|discriminate].
        -- apply xsafe_stop; [reflexivity|reflexivity|discriminate].
        -- apply xsafe_stop; [reflexivity|reflexivity|discriminate].
    + exfalso. destruct l as [|[o z] l]; [discriminate E|]. destruct o; discriminate E.
  - assert (E15 : prio e = 15%nat) by lia. pose proof (xsafe_atom e r Hf Hr) as K. unfold operand in K. rewrite E15 in K. exact K.
Qed.
Lemma name_xml_chars s k : rx_match rx_name_xml s = Some k -> forallb cls_xml (firstn k s) = true /\ (k <= List.length s)%nat.
Proof.
  intros H. apply rx_match_in in H. split; [|eapply rx_all_le, H].
  unfold rx_name_xml in H. cbn [rx_all] in H. apply in_flat_map in H. destruct H as (m & I1 & I2). apply in_map_iff in I2. destruct I2 as (j & <- & I2).
  destruct s as [|c s]; [destruct I1|]. destruct (cls_xml_start c) eqn:Ec; [|destruct I1]. destruct I1 as [<-|[]]. cbn [skipn] in I2.
  assert (Hc : cls_xml c = true) by (unfold cls_xml, cls_xml_end; rewrite Ec; reflexivity).
  unfold rx_opt in I2. cbn [rx_all] in I2. apply in_app_or in I2. destruct I2 as [I2|[<-|[]]]; [|cbn; rewrite Hc; reflexivity].
  apply in_flat_map in I2. destruct I2 as (i & I3 & I4). apply in_map_iff in I4. destruct I4 as (h & <- & I4).
  destruct (skipn i s) as [|d z] eqn:Ez; [destruct I4|]. destruct (cls_xml_end d) eqn:Ed; [|destruct I4]. destruct I4 as [<-|[]].
  change (1 + (i + 1))%nat with (S (i + 1)). cbn [firstn forallb]. rewrite Hc. cbn [andb].
  assert (Hs : s = firstn i s ++ d :: z) by (rewrite <- Ez; symmetry; apply firstn_skipn).
  assert (Hi : (i <= span cls_xml s)%nat) by (apply down_le in I3; exact I3).
  assert (Hf : forallb cls_xml (firstn i s) = true).
  { clear - Hi. revert i Hi. induction s as [|c s IH]; intros i Hi; [destruct i; reflexivity|]. destruct i as [|i]; [reflexivity|]. cbn [span] in Hi. destruct (cls_xml c) eqn:E; [|lia]. cbn [firstn forallb]. rewrite E. apply IH. lia. }
  assert (El : List.length (firstn i s) = i) by (apply (f_equal (@List.length _)) in Ez; rewrite skipn_length in Ez; cbn in Ez; rewrite firstn_length; lia).
  rewrite Hs, firstn_app, El. replace (i + 1 - i)%nat with 1%nat by lia. rewrite firstn_all2 by lia. rewrite forallb_app, Hf. cbn. unfold cls_xml. rewrite Ed. reflexivity.
Qed.
Lemma xsafe_named s : xsafe s -> sem (PRef R_attr_named) s None.
Proof.
  intros (x & z & -> & Hx & Hz & Hn). apply sem_ref. cbn [grammar].
  destruct (rx_match rx_name_xml (x ++ z)) as [k|] eqn:E; [|apply sem_seq_no, sem_ref; cbn [grammar]; apply sem_rx_no, E].
  eapply sem_seq_cons; [apply sem_ref; cbn [grammar]; apply sem_rx, E|]. apply name_xml_chars in E. destruct E as [Hk Hl].
  assert (Hkx : (k <= List.length x)%nat).
  { destruct (Nat.le_gt_cases k (List.length x)) as [H|H]; [exact H|]. exfalso. rewrite firstn_app, forallb_app in Hk. apply andb_true_iff in Hk. destruct Hk as [_ Hk].
    destruct Hz as [|c z Hc]; [rewrite app_nil_r in Hl; lia|]. destruct (k - List.length x)%nat as [|j] eqn:Ej; [lia|]. cbn in Hk. rewrite Hc in Hk. discriminate. }
  rewrite skipn_app. replace (k - List.length x)%nat with 0%nat by lia. cbn [skipn].
  assert (Hs : forallb cls_xml (skipn k x) = true).
  { rewrite <- (firstn_skipn k x), forallb_app in Hx. apply andb_true_iff in Hx. apply Hx. }
  destruct (skipn k x) as [|c w]; [apply Hn|]. cbn in Hs. apply andb_true_iff in Hs. destruct Hs as [Hs _].
  apply noeq_char.
  - unfold cls_xml, cls_xml_end, cls_xml_start, between in Hs. unfold cls_blank, cls_in, SP, TAB. cbn. lia.
  - intros ->. discriminate Hs.
Qed.

(** name=value *)
Definition attr_body : peg rule := PSeq [PRef R_space; PAlt [PRef R_attr_val; PPlus (PRef R_attr_short)]].
Lemma named_make n x e p r kk : attr_name n -> starts (fun c => cls_blank c = false) x -> x <> [] ->
  makes (PRef R_value_of_attr) (p + 1 + List.length n + 1)%nat x r [(kk, SExpr e)] ->
  makes attr_body p ([SP] ++ n ++ [61] ++ x) r [(Some R_attr_named, SAttr (Some n) (Some e) false)].
Proof.
  intros Hn Hx Hx0 M. unfold attr_body.
  assert (Hbl : starts (fun c => cls_blank c = false) n) by (destruct Hn as (c & l & -> & Hc & _); constructor; apply PageParse.after_space; left; exact Hc).
  assert (Hn0 : n <> []) by (destruct Hn as (c & l & -> & _); discriminate).
  apply (makes_eq X y full _ p ([SP] ++ n ++ [61] ++ x) _ r ([] ++ [(Some R_attr_named, SAttr (Some n) (Some e) false)])); [reflexivity|reflexivity|].
  apply seq2; [apply makes_ignored; [reflexivity|]; apply sem_space_one; rewrite <- !app_assoc; apply starts_app; assumption|].
  apply makes_alt_first. apply makes_reduced; [reflexivity|reflexivity|]. cbn [grammar]. apply makes_alt_first.
  node_of [(Some R_name_xml, SStatic n); (kk, SExpr e)]; [|reflexivity]. cbn [grammar].
  apply (makes_eq X y full _ _ (n ++ [] ++ [61] ++ [] ++ x) _ r ([(Some R_name_xml, SStatic n)] ++ [] ++ [] ++ [] ++ [(kk, SExpr e)])); [reflexivity|reflexivity|].
  apply seq5; [apply name_xml, Hn|apply makes_ws; constructor; reflexivity|exact (makes_lit X y full [61] _ _)|apply makes_ws; apply starts_app; assumption|].
  cbn [List.length]. rewrite !Nat.add_0_r. exact M.
Qed.

Definition clean_attr (a : attr) : Prop := no_sym (attr_text b a).
Lemma not_number_no l r : not_number l -> Forall (fun a => match snd a with WText x => x <> [] /\ forallb word_char x = true | _ => True end) l -> l <> [] ->
  sem (PRef R_attr_val) (flat_map (word_text b) l ++ r) None.
Proof.
  intros H F Hl. destruct l as [|[k z] l]; [congruence|]. inversion F as [|? ? F1 _]; subst. cbn [flat_map]. rewrite <- app_assoc. clear Hl F.
  destruct k.
  2: { unfold word_text. cbn [fst snd sigil_text]. rewrite <- app_assoc. by_run. }
  assert (exists c g, word_text b (Class, z) ++ flat_map (word_text b) l ++ r = 46 :: c :: g /\ cls_digit U c = false) as (c & g & E & Hc).
  { unfold word_text. cbn [fst snd sigil_text] in *. destruct z as [x|e].
    - destruct F1 as [Hx Hf]. destruct x as [|c x]; [congruence|]. cbn [not_number] in H. eexists c, _. split; [reflexivity|]. cbn in Hf. apply andb_true_iff in Hf.
      destruct Hf as [Hf _]. unfold word_char, letter, digit in *. unfold cls_digit, between. lia.
    - eexists 123, _. split; [reflexivity|reflexivity]. }
  rewrite E. clear - Hc. apply sem_ref. cbn [grammar]. apply sem_alt_next; [by_run|]. apply sem_alt_next; [|apply sem_alt_nil].
  apply sem_ref. cbn [grammar]. apply sem_seq_no. apply sem_ref. cbn [grammar]. apply sem_alt_next; [by_run|]. apply sem_alt_next; [|apply sem_alt_nil].
  apply sem_ref. cbn [grammar]. apply sem_seq_no. apply sem_ref. cbn [grammar]. apply sem_seq_no. apply sem_ref. cbn [grammar].
  apply sem_alt_next.
  - apply sem_ref. cbn [grammar]. apply sem_alt_next; [|repeat (apply sem_alt_next; [by_run|]); apply sem_alt_nil].
    apply sem_ref. cbn [grammar]. apply sem_rx_no. unfold rx_match, rx_number. cbn [rx_all app u]. cbn. rewrite Hc. reflexivity.
  - repeat (apply sem_alt_next; [by_run|]); apply sem_alt_nil.
Qed.

Lemma attr_one sc a p r : tattr_ok b sc a -> clean_attr a -> safe r ->
  exists ks es, makes attr_body p (attr_text b a) r ks /\ raw_attr a es /\ Forall2 is_attr es ks.
Proof.
  intros Ha Hc Hr. unfold clean_attr, attr_text in *. destruct a as [n g|l]; cbn [tattr_ok fst snd] in Ha.
  - destruct Ha as (Hn & Hg).
    destruct (given_make sc g (p + 1 + List.length n + 1)%nat r Hg) as (k & M); [intros c I; apply Hc; do 3 (apply in_or_app; right); exact I|apply Hr|].
    eexists _, _. split; [|split; [apply raw_aval|]].
    + eapply named_make; [exact Hn| | |exact M].
      * destruct (given_first sc g [] Hg (conj (starts_nil _) noeq_nil)) as (c & z & E & H1 & _). rewrite app_nil_r in E. rewrite E. constructor. exact H1.
      * destruct (given_first sc g [] Hg (conj (starts_nil _) noeq_nil)) as (c & z & E & H1 & _). rewrite app_nil_r in E. rewrite E. discriminate.
    + constructor; [reflexivity|constructor].
  - destruct Ha as (Hl & Hw & Hnn).
    destruct (words_loop sc l Hw) with (p := (p + 1)%nat) (r := r) as (ks & K & F).
    { rewrite Forall_forall. intros a I c J. apply Hc. apply in_or_app. right. apply in_flat_map. exists a. split; assumption. } { apply (sfollow_v X), Hr. }
    exists ks, (map raw_word l). split; [|split; [apply raw_ashort|exact F]].
    assert (E : flat_map (word_text b) l <> []) by (destruct l as [|[[|] z] l]; [congruence|discriminate..]).
    unfold attr_body. change ks with ([] ++ ks). apply seq2.
    + apply makes_ignored; [reflexivity|]. apply sem_space_one. destruct l as [|a l]; [congruence|]. cbn [flat_map]. rewrite <- app_assoc.
      destruct (word_first a (flat_map (word_text b) l ++ r)) as (g & ->). constructor. destruct (fst a); reflexivity.
    + apply makes_alt_next; [apply not_number_no; [exact Hnn| |exact Hl]|apply makes_alt_first, makes_plus; [exact E|exact K]].
      revert Hw. apply Forall_impl. intros [k z] Hz. unfold word_ok in Hz. cbn [snd] in *. destruct z; [exact Hz|exact Logic.I].
Qed.

(** ** Tags *)

(** After a tag. *)
Definition tfollow (r : str) : Prop := PageParse.tfollow r /\ sfollow r.
Definition gfollow (r : str) : Prop := tfollow r \/ exists g, r = SP :: 58 :: SP :: g.
Lemma tfollow_v r : tfollow r -> vfollow r.
Proof. intros [H _]. apply PageParse.tfollow_v, H. Qed.
Lemma tfollow_mark c g : mark c -> tfollow (SP :: c :: g).
Proof. intros H. split; [right; eexists c, g; split; [reflexivity|exact H]|constructor; left; reflexivity]. Qed.
Lemma gfollow_v r : gfollow r -> vfollow r.
Proof. intros [H|(g & ->)]; [apply tfollow_v, H|constructor; tauto]. Qed.
Lemma quiet_noeq r : quiet r -> noeq r.
Proof. intros H. destruct H as [|c r H]; [apply noeq_nil|]. unfold NL in H. apply noeq_char; [unfold cls_blank, cls_in, SP, TAB; cbn; lia|lia]. Qed.
Lemma tfollow_safe r : tfollow r -> safe r.
Proof.
  intros [H Hs]. split; [exact Hs|]. destruct H as [H|(c & g & -> & Hm)]; [apply quiet_noeq, H|].
  apply noeq_blank; [apply PageParse.after_space; right; exact Hm|unfold mark in Hm; lia].
Qed.
Lemma gfollow_safe r : gfollow r -> safe r.
Proof. intros [H|(g & ->)]; [apply tfollow_safe, H|apply safe_blank; [reflexivity|discriminate]]. Qed.
Lemma vfollow_stop r : vfollow r -> stop r.
Proof. apply starts_imp. intros c H. unfold SP, NL in H. unfold cls_id, cls_word in *. unfold cls_az, cls_in, between. cbn. lia. Qed.
Lemma wfollow_stop r : wfollow r -> stop r.
Proof. apply starts_imp. intros c H. unfold SP, NL in H. unfold cls_id, cls_word in *. unfold cls_az, cls_in, between. cbn. lia. Qed.
Lemma no_attrs r : gfollow r -> sem attr_body r None.
Proof.
  intros [[H _]|(g & ->)]; [apply no_attr, H|]. unfold attr_body. eapply sem_seq_cons; [apply sem_space_one; constructor; reflexivity|]. apply sem_seq_no. by_run.
Qed.
Lemma attr_vfollow a r : vfollow (attr_text b a ++ r).
Proof. unfold attr_text. constructor. left. reflexivity. Qed.
Lemma attrs_vfollow l r : vfollow r -> vfollow (flat_map (attr_text b) l ++ r).
Proof. intros H. destruct l as [|a l]; [exact H|]. cbn [flat_map]. rewrite <- app_assoc. apply attr_vfollow. Qed.

Lemma attr_safe sc a r : tattr_ok b sc a -> safe (attr_text b a ++ r).
Proof.
  intros H. unfold attr_text. destruct a as [n g|l]; cbn [tattr_ok] in H.
  - destruct H as ((c & q & -> & Hl0 & _) & _). apply safe_blank; [apply PageParse.after_space; left; exact Hl0|intros ->; discriminate].
  - destruct H as (Hne & _). destruct l as [|[[|] w0] l0]; [congruence|apply safe_blank; [reflexivity|discriminate]..].
Qed.
Lemma attrs_safe sc l r : Forall (tattr_ok b sc) l -> safe r -> safe (flat_map (attr_text b) l ++ r).
Proof. intros F H. destruct l as [|a l]; [exact H|]. inversion F; subst. cbn [flat_map]. rewrite <- app_assoc. eapply attr_safe. eassumption. Qed.

Lemma attrs_make sc l : Forall (tattr_ok b sc) l -> Forall clean_attr l -> forall p r, gfollow r ->
  exists ks es, makes_loop attr_body p (flat_map (attr_text b) l) r ks /\ Forall2 raw_attr l es /\ Forall2 is_attr (List.concat es) ks.
Proof.
  intros H K p r Hr.
  destruct (loop_items X y full attr_body (attr_text b) (fun a ks => exists es, raw_attr a es /\ Forall2 is_attr es ks) gfollow safe l) with (p := p) (r := r) as (kss & M & F).
  - apply no_attrs.
  - apply gfollow_safe.
  - intros a I. discriminate.
  - intros a s I. rewrite Forall_forall in H. eapply attr_safe, H, I.
  - intros a I q s Hs. rewrite Forall_forall in H, K. destruct (attr_one sc a q s (H a I) (K a I) Hs) as (ks & es & M & R & F). exists ks. split; [exact M|]. exists es. split; assumption.
  - exact Hr.
  - exists (List.concat kss). assert (exists es, Forall2 raw_attr l es /\ Forall2 is_attr (List.concat es) (List.concat kss)) as (es & R & F').
    { clear - F. induction F as [|a ks l kss (es & Ha & Hk) F (ess & I1 & I2)]; [exists []; split; constructor|]. exists (es :: ess). split; [constructor; assumption|]. cbn. apply Forall2_app; assumption. }
    exists es. split; [exact M|]. split; assumption.
Qed.

Definition clean_tag (g : tagx) : Prop := no_sym (tag_text b g).
Lemma clean_tag_parts n l a : clean_tag (n, l, a) -> Forall clean_word l /\ Forall clean_attr a.
Proof.
  intros H. unfold clean_tag, tag_text in H. split; rewrite Forall_forall; intros x I c J; apply H; apply in_or_app; right; apply in_or_app; [left|right]; apply in_flat_map; exists x; split; assumption.
Qed.
Lemma tag_after l a r : gfollow r -> wfollow (flat_map (word_text b) l ++ flat_map (attr_text b) a ++ r).
Proof.
  intros H. destruct l as [|z l]; [apply v_wfollow, attrs_vfollow, gfollow_v, H|]. cbn [flat_map]. rewrite <- app_assoc. apply word_wfollow.
Qed.
Lemma tag_make sc g p r : tag_ok b sc g -> clean_tag g -> gfollow r ->
  exists t, makes (PRef R_tag_expand) p (tag_text b g) r [(Some R_tag_expand, STagexp t)] /\ raw_tag g t.
Proof.
  destruct g as [[n l] a]. intros (Hn & _ & _ & Hl & Ha) Hc Hr. apply clean_tag_parts in Hc. destruct Hc as [Cl Ca].
  pose proof (attrs_vfollow a r (gfollow_v r Hr)) as Hv.
  destruct (words_loop sc l Hl Cl (p + List.length n)%nat (flat_map (attr_text b) a ++ r) Hv) as (ks1 & M1 & F1).
  destruct (attrs_make sc a Ha Ca (p + List.length n + List.length (flat_map (word_text b) l))%nat r Hr) as (ks2 & es & M2 & R2 & F2).
  exists (XTag n None [] (map raw_word l ++ List.concat es)). split; [|constructor; exact R2].
  node_of ((Some R_name_id, SStatic n) :: ks1 ++ ks2).
  - cbn [grammar tag_text]. change ((Some R_name_id, SStatic n) :: ks1 ++ ks2) with ([(Some R_name_id, SStatic n)] ++ ks1 ++ ks2).
    apply seq2; [apply name_id; [exact Hn|apply wfollow_stop; rewrite <- app_assoc; apply tag_after, Hr]|].
    apply makes_reduced; [reflexivity|reflexivity|]. cbn [grammar]. apply seq2; [apply makes_star, M1|apply makes_star, M2].
  - cbn [setup]. rewrite (attrs_of_kids (map raw_word l ++ List.concat es)); [reflexivity|]. apply Forall2_app; assumption.
Qed.

(** Uses of hypertags. *)
Definition is_arg (e : expr) (k : kid) : Prop := snd k = SAttr None (Some e) false.
Lemma args_of_kids us ks : Forall2 is_arg us ks -> forall un r, attrs_of un [] (ks ++ r) = attrs_of (un ++ us) [] r.
Proof.
  intros H. induction H as [|e [q s] us ks H K IH]; intros un r; cbn [app attrs_of]; [rewrite app_nil_r; reflexivity|].
  unfold is_arg in H. cbn [snd] in H. rewrite H. rewrite IH, <- app_assoc. reflexivity.
Qed.
Lemma arg_one sc g p r : given_ok b sc g -> clean_given g -> safe r ->
  makes attr_body p ([SP] ++ given_text b g) r [(Some R_attr_unnamed, SAttr None (Some (raw_given g)) false)].
Proof.
  intros Hg Hc Hr. destruct (given_make sc g (p + 1)%nat r Hg Hc (proj1 Hr)) as (k & M). unfold attr_body.
  destruct (given_first sc g r Hg Hr) as (c & z & E & Hcc & _).
  change [(Some R_attr_unnamed, SAttr None (Some (raw_given g)) false)] with (@nil kid ++ [(Some R_attr_unnamed, SAttr None (Some (raw_given g)) false)]).
  apply seq2; [apply makes_ignored; [reflexivity|]; apply sem_space_one; rewrite E; constructor; exact Hcc|].
  apply makes_alt_first. apply makes_reduced; [reflexivity|reflexivity|]. cbn [grammar]. apply makes_alt_next; [apply xsafe_named; eapply xsafe_given; eassumption|].
  apply makes_alt_first. node_of [(k, SExpr (raw_given g))]; [|reflexivity]. cbn [grammar].
  apply (makes_eq X y full _ _ (given_text b g ++ []) _ r ([(k, SExpr (raw_given g))] ++ [])); [apply app_nil_r|reflexivity|].
  apply seq2; [exact M|apply makes_plit].
Qed.
Lemma args_safe sc l r : Forall (given_ok b sc) l -> safe r -> safe (flat_map (fun g => [SP] ++ given_text b g) l ++ r).
Proof.
  intros H Hr. induction H as [|g l Hg H IH]; [exact Hr|]. cbn [flat_map]. rewrite <- (app_assoc ([SP] ++ given_text b g)). eapply given_safe; eassumption.
Qed.
Lemma args_make sc l : Forall (given_ok b sc) l -> Forall clean_given l -> forall p x r ks, safe (x ++ r) ->
  makes_loop attr_body (p + List.length (flat_map (fun g => [SP] ++ given_text b g) l))%nat x r ks ->
  exists ks1, makes_loop attr_body p (flat_map (fun g => [SP] ++ given_text b g) l ++ x) r (ks1 ++ ks) /\ Forall2 is_arg (map raw_given l) ks1.
Proof.
  intros H K. induction l as [|g l IH]; intros p x r ks Hr M.
  - exists []. cbn [flat_map List.length app] in *. rewrite Nat.add_0_r in M. split; [exact M|]. constructor.
  - inversion H as [|? ? Hg Hl]; subst. inversion K as [|? ? Kg Kl]; subst. cbn [flat_map] in *.
    destruct (IH Hl Kl (p + List.length ([SP] ++ given_text b g))%nat x r ks Hr) as (ks1 & M1 & F1).
    { match type of M with ParseRun.makes_loop _ _ _ _ ?q _ _ _ => match goal with |- ParseRun.makes_loop _ _ _ _ ?q' _ _ _ => replace q' with q; [exact M|] end end. rewrite !app_length. lia. }
    pose proof (arg_one sc g p ((flat_map (fun g => [SP] ++ given_text b g) l ++ x) ++ r) Hg Kg ltac:(rewrite <- app_assoc; eapply args_safe; eassumption)) as Mg.
    exists ((Some R_attr_unnamed, SAttr None (Some (raw_given g)) false) :: ks1). split; [|constructor; try assumption; reflexivity].
    rewrite <- (app_assoc ([SP] ++ given_text b g)). change (((Some R_attr_unnamed, SAttr None (Some (raw_given g)) false) :: ks1) ++ ks) with ([(Some R_attr_unnamed, SAttr None (Some (raw_given g)) false)] ++ (ks1 ++ ks)).
    apply loop_cons; [discriminate|exact Mg|exact M1].
Qed.

Definition clean_use (h : use) : Prop := no_sym (use_text b h).
Lemma clean_use_parts n pos a : clean_use (n, pos, a) -> Forall clean_given pos /\ Forall clean_attr a.
Proof.
  intros H. unfold clean_use, use_text in H. split; rewrite Forall_forall; intros x I c J; apply H; apply in_or_app; right; apply in_or_app; [left|right]; apply in_flat_map; exists x; (split; [exact I|]).
  - apply in_or_app. right. exact J.
  - exact J.
Qed.
Lemma use_after (pos : list given) a r : vfollow r -> vfollow (flat_map (fun g => [SP] ++ given_text b g) pos ++ flat_map (attr_text b) a ++ r).
Proof. intros H. destruct pos as [|g pos]; [apply attrs_vfollow, H|]. cbn [flat_map]. rewrite <- app_assoc. constructor. left. reflexivity. Qed.
Lemma use_make sc h p r : use_ok b sc h -> clean_use h -> tfollow r ->
  exists t, makes (PRef R_tags_expand) p (use_text b h) r [(Some R_tags_expand, STags [t])] /\ raw_use h t.
Proof.
  destruct h as [[n pos] a]. intros ((Hn & _) & Hp & Ha) Hc Hr. apply clean_use_parts in Hc. destruct Hc as [Cp Ca].
  destruct (attrs_make sc a Ha Ca (p + List.length n + List.length (flat_map (fun g => [SP] ++ given_text b g) pos))%nat r (or_introl Hr)) as (ks2 & es & M2 & R2 & F2).
  destruct (args_make sc pos Hp Cp (p + List.length n)%nat (flat_map (attr_text b) a) r ks2) as (ks1 & M1 & F1); [apply (attrs_safe sc); [exact Ha|apply tfollow_safe, Hr]|exact M2|].
  exists (XTag n None (map raw_given pos) (List.concat es)). split; [|constructor; exact R2].
  assert (K : makes (PRef R_tag_expand) p (use_text b (n, pos, a)) r [(Some R_tag_expand, STagexp (XTag n None (map raw_given pos) (List.concat es)))]).
  { node_of ((Some R_name_id, SStatic n) :: [] ++ ks1 ++ ks2).
    - cbn [grammar use_text]. change ((Some R_name_id, SStatic n) :: [] ++ ks1 ++ ks2) with ([(Some R_name_id, SStatic n)] ++ [] ++ ks1 ++ ks2).
      apply seq2; [apply name_id; [exact Hn|apply vfollow_stop; rewrite <- app_assoc; apply use_after, tfollow_v, Hr]|].
      apply makes_reduced; [reflexivity|reflexivity|]. cbn [grammar].
      apply (makes_eq X y full _ _ ([] ++ flat_map (fun g => [SP] ++ given_text b g) pos ++ flat_map (attr_text b) a) _ r ([] ++ ks1 ++ ks2)); [reflexivity|reflexivity|].
      apply seq2; [apply makes_star, loop_nil, no_short; rewrite <- app_assoc; apply use_after, tfollow_v, Hr|]. cbn [List.length]. rewrite Nat.add_0_r. apply makes_star, M1.
    - cbn [setup app]. rewrite (args_of_kids (map raw_given pos) ks1 F1). rewrite (attrs_of_kids (List.concat es)); [reflexivity|exact F2]. }
  node_of [(Some R_tag_expand, STagexp (XTag n None (map raw_given pos) (List.concat es)))]; [|reflexivity]. cbn [grammar].
  apply makes_alt_next; [cbn [use_text]; rewrite <- !app_assoc; apply no_null, Hn|]. apply makes_alt_first.
  apply (makes_eq X y full _ _ (use_text b (n, pos, a) ++ []) _ r ([(Some R_tag_expand, STagexp (XTag n None (map raw_given pos) (List.concat es)))] ++ [])); [apply app_nil_r|reflexivity|].
  apply seq2; [exact K|]. apply makes_star, loop_nil, no_more_tags, (proj1 Hr).
Qed.

(** Between two tags of a chain. *)
Definition next_body : peg rule := PSeq [PRef R_ws; PRef R_mark_struct; PRef R_ws; PRef R_tag_expand].
Lemma tag_first g sc r : tag_ok b sc g -> exists c z, tag_text b g ++ r = c :: z /\ letter c = true.
Proof. destruct g as [[n l] a]. intros (Hn & _). destruct (name_first n Hn) as (c & q & -> & Hc & _). eexists c, _. split; [reflexivity|exact Hc]. Qed.
Lemma next_make sc g p r : tag_ok b sc g -> clean_tag g -> gfollow r ->
  exists t, makes next_body p (u " : " ++ tag_text b g) r [(Some R_tag_expand, STagexp t)] /\ raw_tag g t.
Proof.
  intros Hg Hc Hr. destruct (tag_make sc g (p + 3)%nat r Hg Hc Hr) as (t & M & R). exists t. split; [|exact R]. unfold next_body.
  apply (makes_eq X y full _ p ([SP] ++ [58] ++ [SP] ++ tag_text b g) _ r ([] ++ [] ++ [] ++ [(Some R_tag_expand, STagexp t)])); [reflexivity|reflexivity|].
  destruct (tag_first g sc r Hg) as (c & z & E & Hl).
  apply seq4.
  - apply makes_ignored; [reflexivity|]. apply sem_ws_one. constructor. reflexivity.
  - apply literal_node; reflexivity.
  - apply makes_ignored; [reflexivity|]. apply sem_ws_one. rewrite E. constructor. apply PageParse.after_space. left. exact Hl.
  - cbn [List.length]. rewrite <- !Nat.add_assoc. exact M.
Qed.

Definition clean_chain (g : list tagx) : Prop := Forall clean_tag g.
Lemma chain_make sc g p r : g <> [] -> Forall (tag_ok b sc) g -> clean_chain g -> tfollow r ->
  exists ts, makes (PRef R_tags_expand) p (chain_text b g) r [(Some R_tags_expand, STags ts)] /\ Forall2 raw_tag g ts.
Proof.
  intros Hg Ho Hc Hr. destruct g as [|t g]; [congruence|]. clear Hg. inversion Ho as [|? ? Ot Og]; subst. inversion Hc as [|? ? Ct Cg]; subst.
  assert (Hnext : gfollow (flat_map (fun z => u " : " ++ tag_text b z) g ++ r)) by (destruct g; [left; exact Hr|right; eexists; reflexivity]).
  destruct (tag_make sc t p _ Ot Ct Hnext) as (t1 & M1 & R1).
  destruct (loop_items X y full next_body (fun z => u " : " ++ tag_text b z) (fun a ks => exists t, ks = [(Some R_tag_expand, STagexp t)] /\ raw_tag a t) tfollow gfollow g) with (p := (p + List.length (tag_text b t))%nat) (r := r) as (kss & M & F).
  - intros s Hs. apply no_more_tags, (proj1 Hs).
  - intros s Hs. left. exact Hs.
  - intros a I. discriminate.
  - intros a s I. right. eexists. reflexivity.
  - intros a I q s Hs. rewrite Forall_forall in Og, Cg. destruct (next_make sc a q s (Og a I) (Cg a I) Hs) as (x & K & R). eexists. split; [exact K|]. exists x. split; [reflexivity|exact R].
  - exact Hr.
  - assert (exists ts, Forall2 raw_tag g ts /\ List.concat kss = map (fun t => (Some R_tag_expand, STagexp t)) ts) as (ts & R & E).
    { clear - F. induction F as [|a ks l kss (x & -> & Hx) F (ts & I1 & I2)]; [exists []; split; [constructor|reflexivity]|]. exists (x :: ts). split; [constructor; assumption|]. cbn. rewrite I2. reflexivity. }
    exists (t1 :: ts). split; [|constructor; assumption].
    node_of ((Some R_tag_expand, STagexp t1) :: List.concat kss).
    + cbn [grammar]. unfold chain_text. cbn [map]. rewrite OperParse.join_cons. rewrite flat_map_concat_map, map_map, <- flat_map_concat_map.
      apply makes_alt_next.
      { destruct t as [[n l] a]. cbn [tag_text]. rewrite <- !app_assoc. apply no_null, Ot. }
      apply makes_alt_first. change ((Some R_tag_expand, STagexp t1) :: List.concat kss) with ([(Some R_tag_expand, STagexp t1)] ++ List.concat kss).
      apply seq2; [exact M1|apply makes_star, M].
    + cbn [setup mapr]. rewrite E. assert (mapr as_tagexp (map (fun t => (Some R_tag_expand, STagexp t)) ts) = Ok ts) as ->; [|reflexivity].
      clear. induction ts as [|x ts IH]; [reflexivity|]. cbn [map mapr]. rewrite IH. reflexivity.
Qed.

(** A line that begins with tags. *)
Lemma struct_block t x r p kk s d ts n z : makes (PRef R_tags_expand) p t (x ++ r) [(Some R_tags_expand, STags ts)] ->
  makes (PRef R_generic_struct) (p + List.length t)%nat x r [(kk, s)] -> as_body (kk, s) = Ok d ->
  (t ++ x) ++ r = n ++ z -> tag_name n -> stop z -> cfollow X y z ->
  makes block_body p (t ++ x) r [(Some R_block_struct, SBlock (BStruct ts d))].
Proof.
  intros K M E Et Hn Hs Hcf.
  apply makes_alt_next; [rewrite Et; apply no_control; assumption|]. apply makes_alt_next; [rewrite Et; apply no_def; assumption|].
  apply makes_alt_next; [rewrite Et; apply no_context; assumption|]. apply makes_alt_next; [rewrite Et; apply no_import; assumption|]. apply makes_alt_first.
  apply makes_node with (ks := [(Some R_tags_expand, STags ts); (kk, s)]); [reflexivity|reflexivity|discriminate|discriminate| |].
  - cbn [grammar]. apply makes_alt_first. change [(Some R_tags_expand, STags ts); (kk, s)] with ([(Some R_tags_expand, STags ts)] ++ [(kk, s)]). apply seq2; [exact K|exact M].
  - cbn [setup]. rewrite E. reflexivity.
Qed.

Lemma chain_block sc g x r p kk s d : g <> [] -> Forall (tag_ok b sc) g -> clean_chain g -> tfollow (x ++ r) ->
  makes (PRef R_generic_struct) (p + List.length (chain_text b g))%nat x r [(kk, s)] -> as_body (kk, s) = Ok d ->
  exists ts, makes block_body p (chain_text b g ++ x) r [(Some R_block_struct, SBlock (BStruct ts d))] /\ Forall2 raw_tag g ts.
Proof.
  intros Hg Ho Hc Hf M E. destruct (chain_make sc g p (x ++ r) Hg Ho Hc Hf) as (ts & K & Ke). exists ts. split; [|exact Ke].
  assert (exists n z, (chain_text b g ++ x) ++ r = n ++ z /\ tag_name n /\ stop z /\ cfollow X y z) as (n & z & Et & Hn & Hs & Hcf).
  { destruct g as [|[[n l] a] g]; [congruence|]. unfold chain_text. cbn [map]. rewrite OperParse.join_cons. cbn [tag_text]. rewrite <- !app_assoc. exists n.
    eexists. split; [reflexivity|]. inversion Ho as [|? ? Ot _]; subst. destruct Ot as (Hn & _ & _ & Hl & Ha). split; [exact Hn|].
    set (z := flat_map (fun z => u " : " ++ z) (map (tag_text b) g) ++ x ++ r).
    assert (Hz : gfollow z) by (unfold z; destruct g as [|t g]; [left; exact Hf|right; eexists; reflexivity]).
    split; [apply wfollow_stop, tag_after, Hz|].
    destruct l as [|wd l].
    - cbn [flat_map app]. destruct a as [|at_ a].
      + cbn [flat_map app]. destruct Hz as [[[H|(c & q & -> & Hm)] _]|(q & ->)].
        * left. apply no_space, H.
        * right. eexists c, _. split; [reflexivity|]. unfold mark in Hm. split; [apply PageParse.after_space; right; exact Hm|lia].
        * right. eexists 58, _. split; [reflexivity|]. split; [reflexivity|]. split; discriminate.
      + right. inversion Ha as [|? ? Hat _]; subst. cbn [flat_map]. destruct at_ as [m g0|l0]; cbn [tattr_ok] in Hat; cbn [attr_text].
        * destruct Hat as ((c & q & -> & Hl0 & _) & _). eexists c, _. split; [reflexivity|]. split; [apply PageParse.after_space; left; exact Hl0|]. split; intros ->; discriminate.
        * destruct Hat as (Hne & _). destruct l0 as [|[[|] w0] l0]; [congruence|eexists 46, _|eexists 35, _]; (split; [reflexivity|]; split; [reflexivity|]; split; discriminate).
    - left. cbn [flat_map]. rewrite <- app_assoc. destruct (word_first wd (flat_map (word_text b) l ++ flat_map (attr_text b) a ++ z)) as (q & ->).
      apply (fails G 20 _ 0). destruct (fst wd); vm_compute; reflexivity. }
  eapply struct_block; eassumption.
Qed.
Lemma given_cfollow sc g r : given_ok b sc g -> safe r -> cfollow X y (([SP] ++ given_text b g) ++ r).
Proof.
  intros Hg Hr. right. destruct (given_first sc g r Hg Hr) as (c & z & E & Hc & _ & H1 & H2). eexists c, _. cbn [app]. rewrite E. repeat split; assumption.
Qed.
Lemma attrs_cfollow sc a r : Forall (tattr_ok b sc) a -> tfollow r -> cfollow X y (flat_map (attr_text b) a ++ r).
Proof.
  intros Ha Hz. destruct a as [|at_ a].
  - cbn [flat_map app]. destruct Hz as [[H|(c & q & -> & Hm)] _].
    + left. apply no_space, H.
    + right. eexists c, _. split; [reflexivity|]. unfold mark in Hm. split; [apply PageParse.after_space; right; exact Hm|lia].
  - right. inversion Ha as [|? ? Hat _]; subst. cbn [flat_map]. destruct at_ as [m g0|l0]; cbn [tattr_ok] in Hat; cbn [attr_text].
    + destruct Hat as ((c & q & -> & Hl0 & _) & _). eexists c, _. split; [reflexivity|]. split; [apply PageParse.after_space; left; exact Hl0|]. split; intros ->; discriminate.
    + destruct Hat as (Hne & _). destruct l0 as [|[[|] w0] l0]; [congruence|eexists 46, _|eexists 35, _]; (split; [reflexivity|]; split; [reflexivity|]; split; discriminate).
Qed.
Lemma use_block sc h x r p kk s d : use_ok b sc h -> clean_use h -> tfollow (x ++ r) ->
  makes (PRef R_generic_struct) (p + List.length (use_text b h))%nat x r [(kk, s)] -> as_body (kk, s) = Ok d ->
  exists t, makes block_body p (use_text b h ++ x) r [(Some R_block_struct, SBlock (BStruct [t] d))] /\ raw_use h t.
Proof.
  intros Ho Hc Hf M E. destruct (use_make sc h p (x ++ r) Ho Hc Hf) as (t & K & Ke). exists t. split; [|exact Ke].
  destruct h as [[n pos] a]. destruct Ho as ((Hn & _) & Hp & Ha).
  eapply (struct_block (use_text b (n, pos, a)) x r p kk s d [t] n); [exact K|exact M|exact E|cbn [use_text]; rewrite <- !app_assoc; reflexivity|exact Hn| |].
  - apply vfollow_stop, use_after, tfollow_v, Hf.
  - destruct pos as [|g pos]; [apply (attrs_cfollow sc); assumption|]. inversion Hp; subst. cbn [flat_map]. rewrite <- (app_assoc ([SP] ++ given_text b g)). apply (given_cfollow sc); [assumption|].
    apply (args_safe sc); [assumption|]. apply (attrs_safe sc); [exact Ha|apply tfollow_safe, Hf].
Qed.

(** ** Texts *)

Lemma line_empty s l : line_text b s l = [] -> s = [] /\ l = [].
Proof.
  unfold line_text. intros E. apply app_eq_nil in E. destruct E as [E1 E2]. split.
  - destruct s as [|c s]; [reflexivity|]. unfold double in E1. cbn [flat_map] in E1. destruct (special c); discriminate.
  - destruct l as [|[e z] l]; [reflexivity|discriminate].
Qed.
(** A line of a text. *)
Lemma one_line k x p r : style_ok k x -> line_fine b (fst x) (snd x) -> mixed_text b k x <> [] -> no_sym (mixed_text b k x) -> lfollow y r ->
  exists l, makes (PRef (line_rule_of k)) p (mixed_text b k x) r [(Some (line_rule_of k), SLine l)] /\ raw_text k x [TxLine l].
Proof.
  intros Hk Hf Hne Hs Hr. destruct x as [s l]. cbn [fst snd] in *.
  assert (Hv : k = Verbatim \/ (k = Plain \/ k = Markup)) by (destruct k; auto). destruct Hv as [->|Hv].
  - specialize (Hk eq_refl). cbn [snd] in Hk. subst l. cbn [mixed_text fst] in *. eexists. split; [apply line_verbat_l; [exact Hne|exact Hs|apply Hf|exact Hr]|].
    apply raw_verbat; [reflexivity|exact Hne].
  - assert (E : mixed_text b k (s, l) = line_text b s l) by (destruct Hv as [-> | ->]; reflexivity). rewrite E in *.
    destruct (line_alone X y full b Hhigh Hb k s l p r Hv Hne Hs Hf Hr) as (ps & L & M). eexists. split; [exact M|].
    apply raw_parts; [destruct Hv as [-> | ->]; discriminate| |exact L]. intros E0. injection E0 as -> ->. apply Hne. reflexivity.
Qed.
Lemma mixed_empty k x : style_ok k x -> mixed_text b k x = [] -> x = ([], []).
Proof.
  intros Hk E. destruct x as [s l]. destruct k; cbn [mixed_text fst snd] in E; [destruct (line_empty s l E) as [-> ->]; reflexivity..|]. specialize (Hk eq_refl). cbn [snd] in Hk. congruence.
Qed.
Lemma no_line k r : lfollow y r -> sem (PRef (line_rule_of k)) r None.
Proof. intros H. destruct k; [apply no_line_normal_l|apply no_line_markup_l|apply no_line_verbat_l]; assumption. Qed.
Lemma opt_line k x p r : style_ok k x -> line_fine b (fst x) (snd x) -> no_sym (mixed_text b k x) -> lfollow y r ->
  exists ks ls, makes (POpt (PRef (line_rule_of k))) p (mixed_text b k x) r ks /\ mapr titem_of ks = Ok ls /\ raw_text k x ls.
Proof.
  intros Hk Hf Hs Hr. assert (D : {mixed_text b k x = []} + {mixed_text b k x <> []}) by (destruct (mixed_text b k x); [left; reflexivity|right; discriminate]). destruct D as [D|D].
  - rewrite D. exists [], []. split; [apply makes_opt_no, no_line, Hr|]. split; [reflexivity|]. rewrite (mixed_empty k x Hk D). constructor.
  - destruct (one_line k x p r Hk Hf D Hs Hr) as (l & M & T). eexists _, _. split; [apply makes_opt, M|]. split; [destruct k; reflexivity|exact T].
Qed.

(** The lines below. *)
Definition tail_rule (k : style) : rule := match k with Plain => R_tail_normal | Markup => R_tail_markup | Verbatim => R_tail_verbat end.
Definition core_item (k : style) : peg rule := PAlt [PRef (tail_rule k); PSeq [PRef R_margin; PRef (line_rule_of k)]].
Notation IND := (INDENT_S y).
Notation DED := (DEDENT_S y).
Lemma follow_ded s : follow y (DED :: s).
Proof. constructor. right. left. reflexivity. Qed.
Lemma no_tail k s : follow y s -> sem (PRef (tail_rule k)) s None.
Proof. intros H. apply sem_ref. destruct k; cbn [grammar tail_rule]; apply no_indent; assumption. Qed.
Lemma no_item k s : sem (core_item k) (DED :: s) None.
Proof.
  apply sem_alt_next; [apply no_tail, follow_ded|]. apply sem_alt_next; [|apply sem_alt_nil]. apply sem_seq_no. no_go. apply sem_seq_no. no_go. apply sem_rx_no, rx_first; [reflexivity|].
  constructor. change (nf rx_nl DED) with (negb (NL =? DED)). pose proof (sym_In y) as (_ & _ & H & _). apply Hhigh in H. unfold NL. lia.
Qed.
Lemma tail_makes k x p r ks : x <> [] -> makes_loop (core_item k) (p + 1)%nat x (DED :: r) ks ->
  makes (PRef (tail_rule k)) p (IND :: x ++ [DED]) r (ind_kid SP :: ks ++ [ded_kid SP]).
Proof.
  intros Hx K. apply makes_reduced; [destruct k; reflexivity|destruct k; reflexivity|].
  assert (C : forall R, G R = PPlus (core_item k) -> ignored R = false -> reduced R = true -> makes (PRef R) (p + 1)%nat x (DED :: r) ks).
  { intros R E H1 H2. apply makes_reduced; [exact H1|exact H2|]. rewrite E. apply makes_plus; assumption. }
  assert (S' : forall R, G R = PPlus (core_item k) -> ignored R = false -> reduced R = true -> makes (PSeq [PRef R_indent_s; PRef R; PRef R_dedent_s]) p ([IND] ++ x ++ [DED]) r ([ind_kid SP] ++ ks ++ [ded_kid SP])).
  { intros R E H1 H2. apply seq3; [apply sym_kid; try reflexivity; repeat split; try reflexivity; discriminate|apply C; assumption|].
    apply sym_kid; try reflexivity; repeat split; try reflexivity; discriminate. }
  destruct k; cbn [grammar tail_rule]; apply makes_alt_first; apply S'; reflexivity.
Qed.

(** Lines at [c] levels of indentation: those at the innermost level first; [ne]: there is one at this level. *)
Fixpoint levels (k : style) (ne : bool) (c : nat) (p : nat) (s r : str) (ks : list kid) : Prop :=
  match c with
  | O => s = [] /\ ks = []
  | S c => exists x s2 k1 k2, s = x ++ [DED] ++ s2 /\ ks = k1 ++ [ded_kid SP] ++ k2 /\ (ne = true -> x <> []) /\
      makes_loop (core_item k) p x (DED :: s2 ++ r) k1 /\ levels k false c (p + List.length x + 1)%nat s2 r k2
  end.
Lemma lev_ded k ne c p s r ks : levels k ne c (p + 1)%nat s r ks -> levels k false (S c) p (DED :: s) r (ded_kid SP :: ks).
Proof.
  intros H. exists [], s, [], ks. split; [reflexivity|]. split; [reflexivity|]. split; [discriminate|]. split; [apply loop_nil, no_item|]. cbn [List.length]. rewrite Nat.add_0_r.
  destruct c as [|c]; [exact H|]. destruct H as (x & s2 & k1 & k2 & H1 & H2 & _ & H3). exists x, s2, k1, k2. repeat split; try assumption; [discriminate|apply H3..].
Qed.
Lemma lev_deds k d : forall ne c p s r ks, levels k ne c (p + d)%nat s r ks -> levels k (if d then ne else false) (d + c) p (repeat DED d ++ s) r (repeat (ded_kid SP) d ++ ks).
Proof.
  induction d as [|d IH]; intros ne c p s r ks H; [rewrite Nat.add_0_r in H; exact H|].
  cbn [repeat app Nat.add]. apply (lev_ded k (match d with O => ne | S _ => false end)). apply IH. replace (p + 1 + d)%nat with (p + S d)%nat by lia. exact H.
Qed.
Lemma lev_in k c p s r ks : levels k true (S (S c)) (p + 1)%nat s r ks -> levels k true (S c) p (IND :: s) r (ind_kid SP :: ks).
Proof.
  intros (x & s2 & k1 & k2 & -> & -> & Hx & K & (x' & s3 & k3 & k4 & -> & -> & _ & K' & L)).
  exists ((IND :: x ++ [DED]) ++ x'), s3, ((ind_kid SP :: k1 ++ [ded_kid SP]) ++ k3), k4.
  split; [cbn [app]; rewrite <- !app_assoc; reflexivity|]. split; [cbn [app]; rewrite <- !app_assoc; reflexivity|]. split; [discriminate|].
  assert (El : (p + List.length ((IND :: x ++ [DED]) ++ x') + 1 = p + 1 + List.length x + 1 + List.length x' + 1)%nat) by (cbn [app List.length]; rewrite !app_length; cbn [List.length]; lia).
  rewrite El. split; [|exact L]. apply loop_cons; [discriminate| |].
  - apply makes_alt_first, tail_makes; [apply Hx; reflexivity|]. cbn [app] in K. rewrite <- !app_assoc in K. exact K.
  - match type of K' with ParseRun.makes_loop _ _ _ _ ?q _ _ _ => match goal with |- ParseRun.makes_loop _ _ _ _ ?q' _ _ _ => replace q' with q; [exact K'|] end end.
    cbn [List.length]. rewrite app_length. cbn [List.length]. lia.
Qed.
Lemma lev_ins k d : forall c p s r ks, levels k true (S (d + c)) (p + d)%nat s r ks -> levels k true (S c) p (repeat IND d ++ s) r (repeat (ind_kid SP) d ++ ks).
Proof.
  induction d as [|d IH]; intros c p s r ks H; [rewrite Nat.add_0_r in H; exact H|].
  cbn [repeat app]. apply lev_in. apply (IH (S c)). replace (p + 1 + d)%nat with (p + S d)%nat by lia. replace (d + S c)%nat with (S d + c)%nat by lia. exact H.
Qed.
Lemma lev_top k p s r ks : levels k true 1 (p + 1)%nat s r ks -> makes (PRef (tail_rule k)) p (IND :: s) r (ind_kid SP :: ks).
Proof.
  intros (x & s2 & k1 & k2 & -> & -> & Hx & K & -> & ->). apply tail_makes; [apply Hx; reflexivity|exact K].
Qed.
Definition margin_kid (m : nat) : kid := (Some R_margin, SStatic (repeatc NL (S m))).
Lemma lev_line k ne c m x l p s r ks : starts (fun c => c <> NL) x -> x <> [] ->
  makes (PRef (line_rule_of k)) (p + S m)%nat x (s ++ r) [l] -> levels k ne (S c) (p + S m + List.length x)%nat s r ks ->
  levels k true (S c) p (repeatc NL (S m) ++ x ++ s) r (margin_kid m :: l :: ks).
Proof.
  intros Hn Hx M (x' & s2 & k1 & k2 & -> & -> & _ & K & L).
  exists ((repeatc NL (S m) ++ x) ++ x'), s2, ([margin_kid m; l] ++ k1), k2. split; [rewrite <- !app_assoc; reflexivity|]. split; [reflexivity|]. split; [discriminate|].
  assert (El : (p + List.length ((repeatc NL (S m) ++ x) ++ x') + 1 = p + S m + List.length x + List.length x' + 1)%nat) by (rewrite !app_length, repeatc_length; lia).
  rewrite El. split; [|exact L]. apply loop_cons; [discriminate| |].
  - apply makes_alt_next; [apply no_tail; constructor; left; reflexivity|]. apply makes_alt_first. change [margin_kid m; l] with ([margin_kid m] ++ [l]). cbn [app] in M. rewrite <- !app_assoc in M.
    apply seq2; [|rewrite repeatc_length; exact M].
    node_of (@nil kid); [|reflexivity]. cbn [grammar]. apply (makes_eq X y full _ _ (repeatc NL (S m) ++ []) _ _ ([] ++ [])); [apply app_nil_r|reflexivity|].
    apply seq2; [apply makes_ignored; [reflexivity|]; apply (sem_nl X y full); destruct Hn; [congruence|constructor; assumption]|apply makes_plit].
  - match type of K with ParseRun.makes_loop _ _ _ _ ?q _ _ _ => match goal with |- ParseRun.makes_loop _ _ _ _ ?q' _ _ _ => replace q' with q; [exact K|] end end.
    rewrite app_length, repeatc_length. lia.
Qed.

Lemma repeatc_map {A} (f : char -> A) c n : map f (repeatc c n) = repeat (f c) n.
Proof. unfold repeatc. induction n as [|n IH]; [reflexivity|]. cbn [repeat map]. rewrite IH. reflexivity. Qed.
Lemma rev_repeatc c n : rev (repeatc c n) = repeatc c n.
Proof. unfold repeatc. induction n as [|n IH]; [reflexivity|]. cbn [repeat rev]. rewrite IH. clear IH. induction n as [|n IH]; [reflexivity|]. cbn [repeat app]. rewrite IH. reflexivity. Qed.
Lemma deds_sp n : deds y (repeatc SP n) = repeat DED n.
Proof. unfold deds. rewrite rev_repeatc. exact (repeatc_map (ded_sym y) SP n). Qed.
Lemma syms_levels cur n : syms y (repeatc SP cur) (repeatc SP n) = repeat IND (n - cur) ++ repeat DED (cur - n).
Proof.
  destruct (Nat.le_gt_cases cur n) as [H|H].
  - replace n with (cur + (n - cur))%nat at 1 by lia. rewrite sp_app, syms_inds. unfold inds. rewrite repeatc_map. replace (cur - n)%nat with 0%nat by lia. symmetry. apply app_nil_r.
  - replace cur with (n + (cur - n))%nat at 1 by lia. rewrite sp_app, syms_deds, deds_sp. replace (n - cur)%nat with 0%nat by lia. reflexivity.
Qed.
Lemma mapr_dedents n : mapr titem_of (repeat (ded_kid SP) n) = Ok (repeat (TxDedent SP) n).
Proof. induction n as [|n IH]; [reflexivity|]. cbn [repeat mapr]. rewrite IH. reflexivity. Qed.
Lemma mapr_indents n : mapr titem_of (repeat (ind_kid SP) n) = Ok (repeat (TxIndent SP) n).
Proof. induction n as [|n IH]; [reflexivity|]. cbn [repeat mapr]. rewrite IH. reflexivity. Qed.

Definition tail_good (k : style) (a : nat * nat * mixed) : Prop :=
  match a with (m, n, x) => (0 < n)%nat /\ style_ok k x /\ line_fine b (fst x) (snd x) /\ begun (mixed_text b k x) = true /\ no_sym (mixed_text b k x) end.
Lemma sym_l c s : In c (symbol_chars y) -> lfollow y (c :: s).
Proof. intros H. constructor. right. exact H. Qed.
Lemma lfollow_reps c d s : In c (symbol_chars y) -> lfollow y s -> lfollow y (repeat c d ++ s).
Proof. intros H Hs. destruct d; [exact Hs|apply sym_l, H]. Qed.
Lemma tail_lfollow cur tl r : follow y r -> lfollow y (tail_flat y cur tl ++ r).
Proof.
  intros Hr. pose proof (sym_In y) as (H1 & _ & H2 & _). destruct tl as [|[[m n] x] tl]; cbn [tail_flat].
  - rewrite deds_sp. apply lfollow_reps; [exact H2|apply follow_l, Hr].
  - rewrite syms_levels, <- !app_assoc. apply lfollow_reps; [exact H1|]. apply lfollow_reps; [exact H2|]. constructor. left. reflexivity.
Qed.
Lemma rstrip_visible x : begun x = true -> begun (rstrip x) = true.
Proof.
  destruct x as [|c x]; [discriminate|]. cbn [begun]. intros H. apply negb_true_iff in H. destruct (rstrip_decomp (c :: x)) as (w & E & Hw).
  destruct (rstrip (c :: x)) as [|d z]; cbn [app] in E; [|injection E as <- _; cbn; rewrite H; reflexivity].
  rewrite <- E in Hw. exfalso. specialize (Hw c (or_introl eq_refl)). congruence.
Qed.

(** One line with those below it. *)
Lemma line_levels k n m x tl p r ks ts : tail_good k (m, S n, x) -> follow y r ->
  levels k false (S n) (p + S m + List.length (rstrip (mixed_text b k x)))%nat (tail_flat y (S n) (tail_texts b k tl)) r ks -> mapr titem_of ks = Ok ts ->
  exists ks' ls, levels k true (S n) p (repeatc NL (S m) ++ rstrip (mixed_text b k x) ++ tail_flat y (S n) (tail_texts b k tl)) r ks' /\
    mapr titem_of ks' = Ok (TxMargin (repeatc NL (S m)) :: ls ++ ts) /\ raw_text k (trim x) ls.
Proof.
  intros (_ & Hk & Hf & Hv & Hs) Hr L E.
  assert (Hv' : begun (rstrip (mixed_text b k x)) = true) by (apply rstrip_visible, Hv).
  assert (Hs' : no_sym (rstrip (mixed_text b k x))) by (intros c I; apply Hs; destruct (rstrip_decomp (mixed_text b k x)) as (w & Ew & _); rewrite Ew; apply in_or_app; left; exact I).
  rewrite (rstrip_mixed b k x Hk) in *.
  assert (Hne : mixed_text b k (trim x) <> []) by (intros E0; rewrite E0 in Hv'; discriminate).
  destruct (one_line k (trim x) (p + S m)%nat (tail_flat y (S n) (tail_texts b k tl) ++ r)) as (l & M & T); [apply trim_style, Hk|destruct x; apply trim_fine, Hf|exact Hne|exact Hs'|apply tail_lfollow, Hr|].
  exists (margin_kid m :: (Some (line_rule_of k), SLine l) :: ks), [TxLine l]. split; [|split; [|exact T]].
  - eapply lev_line; [|exact Hne|exact M|exact L]. destruct (mixed_text b k (trim x)) as [|c z]; [congruence|]. constructor. intros ->. discriminate.
  - cbn [mapr]. rewrite E. destruct k; reflexivity.
Qed.
Lemma tail_levels k tl : Forall (tail_good k) tl -> forall n p r, follow y r ->
  exists ks ts, levels k false (S n) p (tail_flat y (S n) (tail_texts b k tl)) r ks /\ mapr titem_of ks = Ok ts /\ raw_tail k (S n) tl ts.
Proof.
  intros H. induction H as [|[[m n'] x] tl Ha Ht IH]; intros n p r Hr.
  - exists (repeat (ded_kid SP) (S n)), (repeat (TxDedent SP) (S n)). split; [|split; [apply mapr_dedents|constructor]].
    cbn [tail_texts map tail_flat]. rewrite deds_sp, <- (app_nil_r (repeat DED (S n))), <- (app_nil_r (repeat (ded_kid SP) (S n))).
    replace (S n) with (S n + 0)%nat at 1 by lia. apply (lev_deds k (S n) false 0). split; reflexivity.
  - destruct n' as [|n']; [destruct Ha as (K & _); lia|].
    set (d1 := (S n' - S n)%nat). set (d2 := (S n - S n')%nat).
    destruct (IH n' (p + d1 + d2 + S m + List.length (rstrip (mixed_text b k x)))%nat r Hr) as (ks & ts & L & E & T).
    destruct (line_levels k n' m x tl (p + d1 + d2)%nat r ks ts Ha Hr L E) as (ks' & ls & L' & E' & T').
    exists (repeat (ind_kid SP) d1 ++ repeat (ded_kid SP) d2 ++ ks'), (repeat (TxIndent SP) d1 ++ repeat (TxDedent SP) d2 ++ TxMargin (repeatc NL (S m)) :: ls ++ ts).
    split; [|split; [apply mapr_app; [apply mapr_indents|apply mapr_app; [apply mapr_dedents|exact E']]|apply raw_tail_cons; assumption]].
    change (tail_texts b k ((m, S n', x) :: tl)) with ((m, S n', mixed_text b k x) :: tail_texts b k tl).
    cbn [tail_flat]. rewrite syms_levels, <- !app_assoc. fold d1 d2. destruct (Nat.le_gt_cases (S n) (S n')) as [Hle|Hgt].
    + assert (E2 : d2 = 0%nat) by (unfold d2; lia). rewrite E2 in L' |- *. rewrite Nat.add_0_r in L'. cbn [repeat app].
      replace n' with (d1 + n)%nat in L' at 1 by (unfold d1; lia).
      pose proof (lev_ins k d1 n p _ r ks' L') as K. destruct K as (z & s2 & k1 & k2 & K1 & K2 & _ & K3). exists z, s2, k1, k2. repeat split; try assumption; [discriminate|apply K3..].
    + assert (E1 : d1 = 0%nat) by (unfold d1; lia). rewrite E1 in L' |- *. rewrite Nat.add_0_r in L'. cbn [repeat app].
      pose proof (lev_deds k d2 true (S n') p _ r ks' L') as K. replace (d2 + S n')%nat with (S n) in K by (unfold d2; lia).
      destruct d2 eqn:Ed; [unfold d2 in Ed; lia|exact K].
Qed.
Lemma tail_make k tl p r : Forall (tail_good k) tl -> follow y r ->
  exists ks ts, makes (POpt (PRef (tail_rule k))) p (tail_flat y 0 (tail_texts b k tl)) r ks /\ mapr titem_of ks = Ok ts /\ raw_tail k 0 tl ts.
Proof.
  intros H Hr. destruct H as [|[[m n] x] tl Ha Ht].
  - exists [], []. split; [|split; [reflexivity|apply (raw_tail_nil k 0)]]. apply makes_opt_no, no_tail, Hr.
  - destruct n as [|n]; [destruct Ha as (K & _); lia|].
    destruct (tail_levels k tl Ht n (p + S n + S m + List.length (rstrip (mixed_text b k x)))%nat r Hr) as (ks & ts & L & E & T).
    destruct (line_levels k n m x tl (p + S n)%nat r ks ts Ha Hr L E) as (ks' & ls & L' & E' & T').
    exists (repeat (ind_kid SP) (S n) ++ ks'), (repeat (TxIndent SP) (S n) ++ TxMargin (repeatc NL (S m)) :: ls ++ ts).
    split; [|split; [apply mapr_app; [apply mapr_indents|exact E']|exact (raw_tail_cons k 0 m (S n) x tl ls ts T' T)]].
    change (tail_texts b k ((m, S n, x) :: tl)) with ((m, S n, mixed_text b k x) :: tail_texts b k tl). cbn [tail_flat]. rewrite syms_levels, <- !app_assoc. cbn [Nat.sub repeat app].
    apply makes_opt, lev_top, lev_ins. rewrite Nat.add_0_r. replace (p + 1 + n)%nat with (p + S n)%nat by lia. exact L'.
Qed.

(** A whole text. *)
Definition para_flat (k : style) (x : para) : str := body_text b k (trim (fst x)) ++ tail_flat y 0 (tail_texts b k (snd x)).
Definition para_good (k : style) (x : para) : Prop :=
  style_ok k (fst x) /\ line_fine b (fst (fst x)) (snd (fst x)) /\ no_sym (mixed_text b k (trim (fst x))) /\ Forall (tail_good k) (snd x).
Lemma text_make k x p r : para_good k x -> follow y r ->
  exists ls, makes (PRef R_body_text) p (para_flat k x) r [(Some (text_rule k), SBlock (BText (column full p) ls))] /\ raw_para k x ls.
Proof.
  intros (Hk & Hf & Hs & Ht) Hr. destruct x as [h tl]. cbn [fst snd] in *.
  destruct (tail_make k tl (p + 1 + List.length (mixed_text b k (trim h)))%nat r Ht Hr) as (ks2 & ts & M2 & E2 & T2).
  destruct (opt_line k (trim h) (p + 1)%nat (tail_flat y 0 (tail_texts b k tl) ++ r)) as (ks1 & ls & M1 & E1 & T1); [apply trim_style, Hk|destruct h; apply trim_fine, Hf|exact Hs|apply tail_lfollow, Hr|].
  exists (ls ++ ts). split; [|constructor; assumption].
  assert (B : makes (PRef (text_rule k)) p (para_flat k (h, tl)) r [(Some (text_rule k), SBlock (BText (column full p) (ls ++ ts)))]).
  { apply makes_node with (ks := ks1 ++ ks2); [destruct k; reflexivity|destruct k; reflexivity|destruct k; discriminate|destruct k; discriminate| |].
    - assert (Eg : G (text_rule k) = PSeq [PRef (match k with Plain => R_mark_normal | Markup => R_mark_markup | Verbatim => R_mark_verbat end); POpt (PRef (line_rule_of k)); POpt (PRef (tail_rule k))]) by (destruct k; reflexivity).
      rewrite Eg. unfold para_flat, body_text. cbn [fst snd]. rewrite <- app_assoc. change (ks1 ++ ks2) with ([] ++ ks1 ++ ks2).
      assert (El : List.length (style_mark k) = 1%nat) by (destruct k; reflexivity).
      apply seq3; [destruct k; apply literal_node; reflexivity|rewrite El; exact M1|rewrite El; exact M2].
    - destruct k; cbn [setup text_rule]; rewrite (mapr_app _ _ _ _ _ E1 E2); reflexivity. }
  apply makes_reduced; [reflexivity|reflexivity|]. cbn [grammar].
  destruct k; cbn [text_rule] in B |- *.
  - apply makes_alt_next; [apply (fails G 20 _ 0); vm_compute; reflexivity|]. apply makes_alt_first. exact B.
  - apply makes_alt_next; [apply (fails G 20 _ 0); vm_compute; reflexivity|]. apply makes_alt_next; [apply (fails G 20 _ 0); vm_compute; reflexivity|]. apply makes_alt_first. exact B.
  - apply makes_alt_first. exact B.
Qed.

Lemma body_first k x r : exists c z, body_text b k x ++ r = c :: z /\ mark c.
Proof. unfold body_text. destruct k; eexists _, _; (split; [reflexivity|]); unfold mark; cbn; tauto. Qed.
Lemma para_first k x r : exists c z, para_flat k x ++ r = c :: z /\ mark c.
Proof. unfold para_flat. rewrite <- app_assoc. apply body_first. Qed.

(** Texts as blocks, and after tags. *)
Lemma text_line k x p r : para_good k x -> follow y r ->
  exists ls, makes block_body p (para_flat k x) r [(Some (text_rule k), SBlock (BText (column full p) ls))] /\ raw_para k x ls.
Proof.
  intros Hg Hr. destruct (text_make k x p r Hg Hr) as (ls & M & T). exists ls. split; [|exact T].
  destruct (para_first k x r) as (c & z & E & Hm). unfold mark in Hm.
  assert (F : forall e, e = R_block_control \/ e = R_block_def \/ e = R_block_context \/ e = R_block_import -> sem (PRef e) (para_flat k x ++ r) None).
  { intros e He. rewrite E. destruct Hm as [->|[->| ->]]; destruct He as [->|[->|[->| ->]]]; by_run. }
  do 4 (apply makes_alt_next; [apply F; auto|]). apply makes_alt_first.
  apply makes_compact; [reflexivity|reflexivity|reflexivity|]. cbn [grammar]. apply makes_alt_next; [|apply makes_alt_first; exact M].
  rewrite E. destruct Hm as [->|[->| ->]]; by_run.
Qed.
Lemma text_inline k x p r : para_good k x -> follow y r ->
  exists ls, makes (PRef R_generic_struct) p (SP :: para_flat k x) r [(Some (text_rule k), SBlock (BText (column full (p + 1)) ls))] /\ raw_para k x ls.
Proof.
  intros Hg Hr. destruct (text_make k x (p + 1)%nat r Hg Hr) as (ls & M & T). exists ls. split; [|exact T].
  apply makes_reduced; [reflexivity|reflexivity|]. cbn [grammar]. apply makes_alt_first.
  apply (makes_eq X y full _ p ([SP] ++ para_flat k x) _ r ([] ++ [(Some (text_rule k), SBlock (BText (column full (p + 1)) ls))])); [reflexivity|reflexivity|].
  apply seq2; [|exact M]. apply makes_ignored; [reflexivity|]. destruct (para_first k x r) as (c & z & E & Hm). rewrite E. apply sem_ws_one. constructor. apply PageParse.after_space. right. exact Hm.
Qed.

(** The place in the script, and the column of a marker. *)
Definition here (p : nat) (s : str) : Prop := skipn p full = s.
Lemma here_step p x s : here p (x ++ s) -> here (p + List.length x) s.
Proof.
  unfold here. intros H. assert (E : forall (n : nat) (l : str), skipn (n + List.length x) l = skipn (List.length x) (skipn n l)).
  { induction n as [|n IH]; intros l; [reflexivity|]. destruct l as [|c l]; [rewrite !skipn_nil; reflexivity|]. apply IH. }
  rewrite E, H, skipn_app, Nat.sub_diag, skipn_all. reflexivity.
Qed.
Lemma span_rev l z : ~ In NL l -> span (fun c => negb (c =? NL)) (rev l ++ NL :: z) = List.length l.
Proof.
  intros H. rewrite <- (rev_length l). assert (Hr : ~ In NL (rev l)) by (intros I; apply H, in_rev, I). clear H. induction (rev l) as [|c q IH]; [reflexivity|].
  cbn [app span List.length]. destruct (N.eqb_spec c NL) as [->|_]; [exfalso; apply Hr; left; reflexivity|]. cbn [negb]. rewrite IH; [reflexivity|]. intros I. apply Hr. right. exact I.
Qed.
Lemma column_here m l p s : here p (repeatc NL (S m) ++ l ++ s) -> ~ In NL l -> column full (p + S m + List.length l) = S (List.length l).
Proof.
  intros H Hn. unfold column. f_equal. unfold here in H.
  assert (E : firstn (p + S m + List.length l) full = (firstn p full ++ repeatc NL m) ++ NL :: l).
  { rewrite <- (firstn_skipn p full) at 1. rewrite H.
    assert (Lp : (p <= List.length full)%nat). { destruct (Nat.le_gt_cases p (List.length full)) as [K|K]; [exact K|]. rewrite skipn_all2 in H by lia. discriminate. }
    rewrite firstn_app, firstn_length_le by exact Lp. rewrite firstn_all2 by (rewrite firstn_length; lia). rewrite <- app_assoc. f_equal.
    replace (p + S m + List.length l - p)%nat with (List.length (repeatc NL (S m) ++ l)) by (rewrite app_length, repeatc_length; lia).
    rewrite app_assoc, firstn_app, firstn_all, Nat.sub_diag, app_nil_r. rewrite repeatc_snoc, <- app_assoc. reflexivity. }
  rewrite E, rev_app_distr. cbn [rev]. rewrite <- app_assoc. cbn [app]. apply span_rev, Hn.
Qed.

(** ** Control blocks *)

Lemma control_body x ks l p r : quiet (x ++ r) -> makes (PRef R_tail_blocks) p x r ks -> mapr item_of ks = Ok l ->
  makes (PRef R_generic_control) p x r [(Some R_body_control, SBody (YItems l))].
Proof.
  intros Hq M E. apply makes_reduced; [reflexivity|reflexivity|]. cbn [grammar]. apply makes_alt_next; [apply no_ws_body, Hq|]. apply makes_alt_first.
  node_of ks; [|cbn [setup]; rewrite E; reflexivity]. cbn [grammar]. apply makes_alt_next; [apply no_ws_struct, Hq|]. apply makes_alt_first.
  change ks with ([] ++ ks). change x with ([] ++ x). apply seq2; [apply makes_opt_no, no_inline_comment, Hq|]. cbn [List.length]. rewrite Nat.add_0_r. exact M.
Qed.

(** Indented blocks. *)
Definition bflat (w : str) (kids : list tmpl) : str := inds y w ++ flat_map (oflat y) (flat_map (ols b) kids) ++ deds y w.
Lemma bflat_first w kids r : indent_ok w -> exists c z, bflat w kids ++ r = c :: z /\ In c (symbol_chars y).
Proof.
  intros [Hw Hc]. destruct w as [|c w]; [congruence|]. unfold bflat. cbn [inds map app]. eexists _, _. split; [reflexivity|].
  unfold ind_sym, symbol_chars, symbol_list. destruct (c =? SP); cbn; tauto.
Qed.
Lemma bflat_quiet w kids r : indent_ok w -> quiet (bflat w kids ++ r).
Proof. intros H. destruct (bflat_first w kids r H) as (c & z & -> & I). constructor. right. apply Hhigh, I. Qed.
Lemma bflat_tfollow w kids r : indent_ok w -> tfollow (bflat w kids ++ r).
Proof.
  intros H. split; [left; apply bflat_quiet, H|]. destruct (bflat_first w kids r H) as (c & z & -> & I). constructor. right. right. split; [apply Hhigh, I|apply Hdig, I].
Qed.
Lemma follow_tfollow r : follow y r -> tfollow r.
Proof.
  intros H. split; [left; apply (follow_quiet y Hhigh), H|]. revert H. apply starts_imp. intros c [H|H]; [right; left; exact H|]. right. right.
  assert (I : In c (symbol_chars y)) by (unfold symbol_chars, symbol_list; destruct H as [-> | ->]; cbn; tauto). split; [apply Hhigh, I|apply Hdig, I].
Qed.
Lemma bflat_closer w kids r : indent_ok w -> starts (closer X) (bflat w kids ++ r).
Proof. intros H. destruct (bflat_first w kids r H) as (c & z & -> & I). constructor. unfold closer. do 5 right. split; [apply Hhigh, I|apply (proj1 (Hdig _ I))]. Qed.
Lemma follow_closer r : follow y r -> starts (fun c => closer X c /\ c <> 44) r.
Proof.
  intros H. destruct H as [|c z [->|H]]; constructor; [unfold closer; split; [tauto|discriminate]|].
  assert (I : In c (symbol_chars y)) by (unfold symbol_chars, symbol_list; destruct H as [-> | ->]; cbn; tauto).
  split; [unfold closer; do 5 right; split; [apply Hhigh, I|apply (proj1 (Hdig _ I))]|]. apply Hhigh in I. lia.
Qed.

Lemma head_make e p r : fine b e = true -> no_sym (head_text b e) -> starts (closer X) r ->
  makes (PRef R_expr_factor) p (head_text b e) r [(Some R_expr_factor, SExpr (cond e))].
Proof.
  intros Hf Hs Hr. destruct (good_operand X y full b Hb e 14 p r (every_good X y full b Hb e) Hf Hs (le_n _) (or_introl Hr)) as (k & M).
  node_of [(k, SExpr (sub tree 14 e))]; [|reflexivity]. cbn [grammar].
  apply (makes_eq X y full _ p (head_text b e ++ []) _ r ([(k, SExpr (sub tree 14 e))] ++ [])); [apply app_nil_r|reflexivity|].
  apply seq2; [exact M|apply makes_plit].
Qed.
Lemma head_nonblank e r : fine b e = true -> starts (closer X) r -> starts (fun c => cls_blank c = false) (head_text b e ++ r).
Proof. intros Hf Hr. eapply opens_nonblank, operand_opens; [exact Hb|exact Hf|]. apply (foll_rest X y b Hb 14). left. exact Hr. Qed.

(** The condition and the block of "if", "elif". *)
Lemma clause_make e w kids is p r : fine b e = true -> no_sym (head_text b e) -> indent_ok w ->
  makes (PRef R_tail_blocks) (p + 1 + List.length (head_text b e)) (bflat w kids) r (map ind_kid w ++ map item_kid is ++ map ded_kid (rev w)) ->
  makes (PRef R_clause_if) p ([SP] ++ head_text b e ++ bflat w kids) r [(Some R_clause_if, SIf (cond e) (Some (YItems (items w is))))].
Proof.
  intros Hf Hs Hw M. node_of [(Some R_expr_factor, SExpr (cond e)); (Some R_body_control, SBody (YItems (items w is)))]; [|reflexivity]. cbn [grammar].
  change [(Some R_expr_factor, SExpr (cond e)); (Some R_body_control, SBody (YItems (items w is)))] with ([] ++ [(Some R_expr_factor, SExpr (cond e))] ++ [(Some R_body_control, SBody (YItems (items w is)))]).
  apply seq2; [apply makes_ignored; [reflexivity|]; apply sem_space_one; rewrite <- app_assoc; apply head_nonblank; [exact Hf|apply bflat_closer, Hw]|].
  apply makes_reduced; [reflexivity|reflexivity|]. cbn [grammar]. apply makes_alt_first.
  apply seq2; [apply head_make; [exact Hf|exact Hs|apply bflat_closer, Hw]|].
  eapply control_body; [apply bflat_quiet, Hw|exact M|]. apply body_items.
Qed.

(** Targets. *)
Definition tstop (r : str) : Prop := exists c g, r = SP :: c :: g /\ c <> 44 /\ cls_blank c = false.
Lemma target_one x p r : id_name x = true -> stop r -> exists k, makes (PRef R_target) p x r [(k, STarget (TVar x false None None))].
Proof.
  intros Hx Hr. exists (Some R_var_def). apply makes_reduced; [reflexivity|reflexivity|]. cbn [grammar].
  destruct (id_parts x Hx) as (c & q & Ex & Hc & _). apply letter_ascii in Hc.
  apply makes_alt_next; [rewrite Ex; cbn [app]; apply sem_seq_no; no_lit|]. apply makes_alt_first.
  node_of [(Some R_name_id, SStatic x)].
  - cbn [grammar]. apply (makes_eq X y full _ p (x ++ []) _ r ([(Some R_name_id, SStatic x)] ++ [])); [apply app_nil_r|reflexivity|].
    apply seq2; [apply id_node; assumption|apply makes_plit].
  - cbn [setup]. rewrite Ex. assert (c =? 36 = false) as -> by lia. reflexivity.
Qed.
Lemma tstop_stop r : tstop r -> stop r.
Proof. intros (c & g & -> & _). constructor. reflexivity. Qed.
Lemma no_comma l r : tstop r -> sem (PSeq (PRef R_comma :: l)) r None.
Proof.
  intros (c & g & -> & Hc & Hs). apply sem_seq_no. apply sem_ref. cbn [grammar]. eapply sem_seq_cons; [apply sem_ws_one; constructor; exact Hs|]. apply sem_seq_no. no_lit.
Qed.
Lemma targets_make xs p r : xs <> [] -> (forall x, In x xs -> id_name x = true) -> tstop r ->
  makes (PRef R_targets) p (names_text xs) r [(Some R_targets, STarget (target_of xs))].
Proof.
  intros Hx Hn Hr. destruct xs as [|x xs]; [congruence|]. clear Hx. unfold names_text. rewrite OperParse.join_cons.
  assert (Hst : forall l, stop (flat_map (fun z => u ", " ++ z) l ++ r)) by (intros [|z l]; [apply tstop_stop, Hr|constructor; reflexivity]).
  destruct (target_one x p (flat_map (fun z => u ", " ++ z) xs ++ r) (Hn x (or_introl eq_refl)) (Hst xs)) as (k & M).
  destruct (loop_items X y full (PSeq [PRef R_comma; PRef R_target]) (fun z => u ", " ++ z) (fun a ks => exists k, ks = [(k, STarget (TVar a false None None))]) tstop stop xs) with (p := (p + List.length x)%nat) (r := r) as (kss & K & F).
  - intros s Hs. apply no_comma, Hs.
  - apply tstop_stop.
  - intros a I. discriminate.
  - intros a s I. constructor. reflexivity.
  - intros a I q s Hs. destruct (target_one a (q + 2)%nat s (Hn a (or_intror I)) Hs) as (k' & M'). eexists. split; [|exists k'; reflexivity].
    apply (makes_eq X y full _ q ((u ", ") ++ a) _ s ([] ++ [(k', STarget (TVar a false None None))])); [reflexivity|reflexivity|].
    apply seq2; [|exact M']. apply makes_ignored; [reflexivity|]. apply sem_ref. cbn [grammar].
    destruct (id_parts a (Hn a (or_intror I))) as (c & z & -> & Hc & _).
    eapply sem_seq_cons; [apply sem_ws_none; constructor; reflexivity|]. eapply sem_seq_cons; [apply (sem_lit _ (u ","))|].
    eapply sem_seq_cons; [apply sem_ws_one; constructor; apply PageParse.after_space; left; exact Hc|apply sem_seq_nil].
  - exact Hr.
  - assert (mapr as_target (List.concat kss) = Ok (map (fun x => TVar x false None None) xs)) as E.
    { clear - F. induction F as [|a ks l kss (k & ->) F IH]; [reflexivity|]. cbn [List.concat app mapr]. cbn. rewrite IH. reflexivity. }
    node_of ((k, STarget (TVar x false None None)) :: List.concat kss).
    + cbn [grammar]. apply (makes_eq X y full _ p (x ++ flat_map (fun z => u ", " ++ z) xs ++ []) _ r ([(k, STarget (TVar x false None None))] ++ List.concat kss ++ [])).
      { rewrite app_nil_r. reflexivity. } { rewrite app_nil_r. reflexivity. }
      apply seq3; [exact M|apply makes_star, K|]. apply makes_opt_no. destruct Hr as (c & g & -> & Hc & Hs). eapply sem_seq_cons; [apply sem_ws_one; constructor; exact Hs|]. apply sem_seq_no. no_lit.
    + cbn [setup mapr]. cbn [as_target snd bind]. rewrite E. reflexivity.
Qed.

(** Assignments. *)
Lemma assign_make xs e p r : xs <> [] -> (forall x, In x xs -> id_name x = true) -> fine b e = true -> no_sym (text b e) -> follow y r ->
  makes block_body p (u "$ " ++ names_text xs ++ u " = " ++ text b e) r [(Some R_block_assign, SBlock (BAssign (target_of xs) None (root (tree e))))].
Proof.
  intros Hx Hn Hf Hs Hr. apply makes_alt_first. apply makes_reduced; [reflexivity|reflexivity|]. cbn [grammar]. apply makes_alt_first.
  node_of [(Some R_targets, STarget (target_of xs)); (Some R_expr_augment, SExpr (root (tree e)))]; [|reflexivity]. cbn [grammar].
  apply (makes_eq X y full _ p (u "$" ++ [SP] ++ names_text xs ++ [SP] ++ [] ++ u "=" ++ ([SP] ++ text b e ++ [])) _ r
    ([] ++ [] ++ [(Some R_targets, STarget (target_of xs))] ++ [] ++ [] ++ [] ++ [(Some R_expr_augment, SExpr (root (tree e)))])).
  { rewrite app_nil_r. reflexivity. } { reflexivity. }
  apply seq7.
  - apply literal_node; reflexivity.
  - apply makes_ignored; [reflexivity|]. apply sem_ws_one. destruct xs as [|x xs]; [congruence|]. unfold names_text. rewrite OperParse.join_cons.
    destruct (id_parts x (Hn x (or_introl eq_refl))) as (c & q & -> & Hc & _). constructor. apply PageParse.after_space. left. exact Hc.
  - apply targets_make; [exact Hx|exact Hn|]. eexists 61, _. split; [reflexivity|]. split; [discriminate|reflexivity].
  - apply makes_ignored; [reflexivity|]. apply sem_ws_one. constructor. reflexivity.
  - apply makes_opt_no. by_run.
  - apply makes_lit.
  - apply makes_reduced; [reflexivity|reflexivity|]. cbn [grammar].
    change [(Some R_expr_augment, SExpr (root (tree e)))] with ([] ++ [(Some R_expr_augment, SExpr (root (tree e)))] ++ []).
    apply seq3.
    + apply makes_ignored; [reflexivity|]. apply sem_ws_one. apply (opens_nonblank X y b 0%nat), element_opens; [exact Hb|exact Hf|].
      apply follow_closer in Hr. revert Hr. apply starts_imp. intros c [H _]; exact H.
    + apply makes_alt_first. apply augment_make; [exact Hb|exact Hf|exact Hs|]. apply follow_closer, Hr.
    + apply makes_opt_no, no_inline_comment. eapply follow_quiet; eassumption.
Qed.

Lemma aug_make x o e p r : id_name x = true -> inplace o = true -> fine b e = true -> no_sym (text b e) -> follow y r ->
  makes block_body p (u "$ " ++ x ++ [SP] ++ op_text o ++ u "= " ++ text b e) r
    [(Some R_block_assign, SBlock (BAssign (TTargets [TVar x true None None]) (Some o) (root (tree e))))].
Proof.
  intros Hx Ho Hf Hs Hr. apply makes_alt_first. apply makes_reduced; [reflexivity|reflexivity|]. cbn [grammar]. apply makes_alt_first.
  node_of [(Some R_targets, STarget (target_of [x])); (Some R_op_inplace, SStatic (op_text o)); (Some R_expr_augment, SExpr (root (tree e)))]; [|destruct o; try discriminate Ho; reflexivity]. cbn [grammar].
  apply (makes_eq X y full _ p (u "$" ++ [SP] ++ x ++ [SP] ++ op_text o ++ u "=" ++ ([SP] ++ text b e ++ [])) _ r
    ([] ++ [] ++ [(Some R_targets, STarget (target_of [x]))] ++ [] ++ [(Some R_op_inplace, SStatic (op_text o))] ++ [] ++ [(Some R_expr_augment, SExpr (root (tree e)))])).
  { rewrite app_nil_r. reflexivity. } { reflexivity. }
  apply seq7.
  - apply literal_node; reflexivity.
  - apply makes_ignored; [reflexivity|]. apply sem_ws_one. destruct (id_parts x Hx) as (c & q & -> & Hc & _). constructor. apply PageParse.after_space. left. exact Hc.
  - apply (targets_make [x]); [discriminate|intros z [<-|[]]; exact Hx|]. destruct o; try discriminate Ho; (eexists _, _; split; [reflexivity|]; split; [discriminate|reflexivity]).
  - apply makes_ignored; [reflexivity|]. apply sem_ws_one. destruct o; try discriminate Ho; constructor; reflexivity.
  - apply makes_opt. node_of (@nil (option rule * syn)); [|reflexivity]. cbn [grammar]. apply makes_rx. destruct o; try discriminate Ho; reflexivity.
  - apply makes_lit.
  - apply makes_reduced; [reflexivity|reflexivity|]. cbn [grammar].
    change [(Some R_expr_augment, SExpr (root (tree e)))] with ([] ++ [(Some R_expr_augment, SExpr (root (tree e)))] ++ []).
    apply seq3.
    + apply makes_ignored; [reflexivity|]. apply sem_ws_one. apply (opens_nonblank X y b 0%nat), element_opens; [exact Hb|exact Hf|].
      apply follow_closer in Hr. revert Hr. apply starts_imp. intros c [H _]; exact H.
    + apply makes_alt_first. apply augment_make; [exact Hb|exact Hf|exact Hs|]. apply follow_closer, Hr.
    + apply makes_opt_no, no_inline_comment. eapply follow_quiet; eassumption.
Qed.

(** ** Blocks *)

(** The end of a block: neither "elif" nor "else" follows. *)
Definition elif_body : peg rule := PSeq [PRef R_nl; PLit (u "elif"); PRef R_clause_if].
Definition ends (r : str) : Prop := follow y r /\ sem elif_body r None /\ sem (PRef R_clause_else) r None.
Definition not_else (z : str) : Prop := starts (fun c => c <> NL) z /\ ~ is_prefix (u "elif") z /\ ~ is_prefix (u "else") z.

Lemma ends_nls k z : not_else z -> (k = O -> z = []) -> ends (repeatc NL k ++ z).
Proof.
  intros (H1 & H2 & H3) Hk. destruct k as [|k].
  - rewrite (Hk eq_refl). split; [constructor|]. split; by_run.
  - split; [constructor; left; reflexivity|]. unfold elif_body. split.
    + eapply sem_seq_cons; [apply (sem_nl X y full), H1|]. apply sem_seq_no, sem_lit_no. intros q E. apply H2. exists q. exact E.
    + apply sem_ref. cbn [grammar]. eapply sem_seq_cons; [apply (sem_nl X y full), H1|]. apply sem_seq_no, sem_lit_no. intros q E. apply H3. exists q. exact E.
Qed.
Lemma ends_end k : ends (repeatc NL k).
Proof. rewrite <- (app_nil_r (repeatc NL k)). apply ends_nls; [|intros _; reflexivity]. split; [constructor|]. split; intros (q & E); discriminate. Qed.
Lemma ends_ded w r : w <> [] -> ends (deds y w ++ r).
Proof.
  intros Hw. destruct (deds_first y w r Hw) as (c & z & -> & Hd). split; [constructor; right; exact Hd|].
  assert (D : sem (PRef R_nl) (c :: z) None).
  { apply (dedents_high y Hhigh) in Hd. apply sem_ref. cbn [grammar]. apply sem_rx_no, rx_first; [reflexivity|]. constructor. change (nf rx_nl c) with (negb (NL =? c)). unfold NL. lia. }
  unfold elif_body. split; [apply sem_seq_no, D|]. apply sem_ref. cbn [grammar]. apply sem_seq_no, D.
Qed.

Definition tflat (t : tmpl) : str := flat_map (oflat y) (ols b t).
Lemma flat_kids kids : flat_map (oflat y) (flat_map (ols b) kids) = flat_map tflat kids.
Proof. induction kids as [|t kids IH]; [reflexivity|]. cbn [flat_map]. rewrite flat_map_app, IH. reflexivity. Qed.

Lemma prefix_name w n f : ~ is_prefix w n -> (forall c, In c w -> letter c = true) -> stop f -> ~ is_prefix w (n ++ f).
Proof.
  revert n. induction w as [|c w IH]; intros n Hp Hl Hf; [exfalso; apply Hp; exists n; reflexivity|].
  destruct n as [|d n]; cbn [app]; intros (q & E).
  - destruct Hf as [|d f Hd]; [discriminate|]. injection E as -> _.
    specialize (Hl c (or_introl eq_refl)). unfold letter, cls_id, cls_az, between in *. lia.
  - injection E as -> E. apply (IH n); [|intros z I; apply Hl; right; exact I|exact Hf|exists q; exact E].
    intros (z & ->). apply Hp. exists z. reflexivity.
Qed.

(** The first line of a template. *)
Lemma names_ids outer xs : targets_ok outer xs -> xs <> [] /\ forall x, In x xs -> id_name x = true.
Proof. intros [H1 H2]. split; [exact H1|]. intros x I. apply var_id, (H2 x I). Qed.
Lemma rest_first z m l w kids : oflat y (OL m l w kids) ++ z = repeatc NL (S m) ++ rstrip l ++ (match kids with [] => [] | _ => inds y w ++ flat_map (oflat y) kids ++ deds y w end) ++ z.
Proof. cbn [oflat]. rewrite <- !app_assoc. reflexivity. Qed.
Lemma not_else_char c z : c <> NL -> c <> 101 -> not_else (c :: z).
Proof. intros H1 H2. split; [constructor; exact H1|]. split; intros (q & E); injection E as -> _; congruence. Qed.
Lemma chain_split sc g z : g <> [] -> Forall (tag_ok b sc) g -> stop z -> exists n f, chain_text b g ++ z = n ++ f /\ tag_name n /\ stop f /\ ~ is_prefix (u "else") n /\ ~ is_prefix (u "elif") n.
Proof.
  intros Hg Ho Hz. destruct g as [|[[n l] a] g]; [congruence|]. inversion Ho as [|? ? Ot _]; subst. destruct Ot as (Hn & N1 & N2 & _ & _).
  unfold chain_text. cbn [map]. rewrite OperParse.join_cons. cbn [tag_text]. exists n. eexists. rewrite <- !app_assoc. split; [reflexivity|]. split; [exact Hn|]. split; [|split; assumption].
  destruct l as [|wd l]; [|cbn [flat_map]; rewrite <- app_assoc; apply wfollow_stop, word_wfollow]. cbn [flat_map app].
  destruct a as [|at_ a]; [|cbn [flat_map]; rewrite <- app_assoc; apply vfollow_stop, attr_vfollow]. cbn [flat_map app].
  destruct g as [|t g]; [exact Hz|constructor; reflexivity].
Qed.
Lemma not_else_chain sc g z : g <> [] -> Forall (tag_ok b sc) g -> stop z -> not_else (chain_text b g ++ z).
Proof.
  intros Hg Ho Hz. destruct (chain_split sc g z Hg Ho Hz) as (n & f & E & Hn & Hf & N1 & N2). rewrite E. split; [|split].
  - destruct (name_first n Hn) as (c & q & -> & Hc & _). constructor. intros ->. discriminate.
  - apply prefix_name; [exact N2| |exact Hf]. intros c I. cbn in I. repeat (destruct I as [<-|I]; [reflexivity|]). destruct I.
  - apply prefix_name; [exact N1| |exact Hf]. intros c I. cbn in I. repeat (destruct I as [<-|I]; [reflexivity|]). destruct I.
Qed.
Lemma quiet_stop z : quiet z -> stop z.
Proof. apply starts_imp. intros c H. unfold NL in H. unfold cls_id, cls_az, between. lia. Qed.

Lemma use_split sc h z : use_ok b sc h -> stop z -> exists n f, use_text b h ++ z = n ++ f /\ tag_name n /\ stop f /\ ~ is_prefix (u "else") n /\ ~ is_prefix (u "elif") n.
Proof.
  intros Ho Hz. destruct h as [[n pos] a]. destruct Ho as ((Hn & N1 & N2) & _ & _). cbn [use_text]. exists n. eexists. rewrite <- !app_assoc. split; [reflexivity|]. split; [exact Hn|]. split; [|split; assumption].
  destruct pos as [|g pos]; [|constructor; reflexivity]. cbn [flat_map app].
  destruct a as [|at_ a]; [exact Hz|cbn [flat_map]; rewrite <- app_assoc; apply vfollow_stop, attr_vfollow].
Qed.
Lemma not_else_use sc h z : use_ok b sc h -> stop z -> not_else (use_text b h ++ z).
Proof.
  intros Ho Hz. destruct (use_split sc h z Ho Hz) as (n & f & E & Hn & Hf & N1 & N2). rewrite E. split; [|split].
  - destruct (name_first n Hn) as (c & q & -> & Hc & _). constructor. intros ->. discriminate.
  - apply prefix_name; [exact N2| |exact Hf]. intros c I. cbn in I. repeat (destruct I as [<-|I]; [reflexivity|]). destruct I.
  - apply prefix_name; [exact N1| |exact Hf]. intros c I. cbn in I. repeat (destruct I as [<-|I]; [reflexivity|]). destruct I.
Qed.
Lemma use_start sc h z : use_ok b sc h -> stop z -> (use_text b h ++ z) <> [] /\ starts (fun c => c <> NL) (use_text b h ++ z) /\ sem (PSeq [PRef R_modifier; PRef R_ws]) (use_text b h ++ z) None.
Proof.
  intros Ho Hz. destruct (use_split sc h z Ho Hz) as (n & f & E & Hn & Hf & _). rewrite E. pose proof (no_modifier X y n f Hn) as Hm.
  destruct (name_first n Hn) as (c & q & -> & Hc & _). split; [discriminate|]. split; [constructor; intros ->; discriminate|exact Hm].
Qed.

Section Item.
Variable known : str -> option bool.
Variables (hy : list str) (bn : option str).
Hypothesis Hbn : forall n, bn = Some n -> var_name n = true.
Notation wft := (wft b known hy bn).
Notation wfts := (wfts b known hy bn).

Lemma ols_ne outer own t : wft outer own t -> ols b t <> [].
Proof. intros H. destruct t; try discriminate; inversion H; subst; [destruct cs as [|[e [w kids]] cs]|destruct alts as [|[w kids] alts]]; solve [congruence | discriminate]. Qed.
Lemma kids_ne outer own kids : kids <> [] -> wfts outer own kids -> flat_map (ols b) kids <> [].
Proof.
  intros Hk H. destruct kids as [|t kids]; [congruence|]. inversion H; subst. cbn [flat_map]. intros E. apply app_eq_nil in E. destruct E as [E _]. eapply ols_ne; eassumption.
Qed.
(** The flat text of a line with a block. *)
Lemma oflat_kids m l w outer own kids : kids <> [] -> wfts outer own kids -> solid l -> oflat y (OL m l w (flat_map (ols b) kids)) = repeatc NL (S m) ++ l ++ bflat w kids.
Proof.
  intros Hk H Hl. cbn [oflat]. rewrite (rstrip_solid_all l Hl). pose proof (kids_ne outer own kids Hk H) as N. unfold bflat.
  destruct (flat_map (ols b) kids); [congruence|reflexivity].
Qed.
Lemma oflat_line m l w : oflat y (OL m l w []) = repeatc NL (S m) ++ rstrip l.
Proof. cbn [oflat]. rewrite app_nil_r. reflexivity. Qed.

(** The flat text of a line with a text. *)
Lemma oflat_text m pre sc k x : para_ok b sc k x -> oflat y (OP m (pre ++ body_text b k (fst x)) (tail_texts b k (snd x))) = repeatc NL (S m) ++ pre ++ para_flat k x.
Proof. intros (Hk & _). cbn [oflat]. rewrite rstrip_body by exact Hk. unfold para_flat. rewrite <- app_assoc. reflexivity. Qed.
(** The flat text of a comment. *)
Lemma oflat_note m h x tl : oflat y (OP m (note_mark h ++ x) tl) = repeatc NL (S m) ++ note_mark h ++ rstrip x ++ tail_flat y 0 tl.
Proof.
  cbn [oflat]. rewrite rstrip_solid by (destruct h; [eexists [], _|eexists [45], _]; split; reflexivity). rewrite <- app_assoc. reflexivity.
Qed.
Definition as_mixed (a : nat * nat * str) : nat * nat * mixed := match a with (m, n, z) => (m, n, (z, [])) end.
Lemma as_mixed_text tl : tail_texts b Verbatim (map as_mixed tl) = tl.
Proof. induction tl as [|[[m n] z] tl IH]; [reflexivity|]. cbn [map as_mixed tail_texts]. unfold tail_texts in IH. rewrite IH. reflexivity. Qed.
Lemma oflat_text0 m sc k x : para_ok b sc k x -> oflat y (OP m (body_text b k (fst x)) (tail_texts b k (snd x))) = repeatc NL (S m) ++ para_flat k x.
Proof. exact (oflat_text m [] sc k x). Qed.
Lemma oflat_text1 m l sc k x : para_ok b sc k x -> oflat y (OP m (l ++ [SP] ++ body_text b k (fst x)) (tail_texts b k (snd x))) = repeatc NL (S m) ++ l ++ [SP] ++ para_flat k x.
Proof. intros H. rewrite app_assoc, (oflat_text m _ sc k x H), <- app_assoc. reflexivity. Qed.
Lemma text_clean m pre sc k x : para_ok b sc k x -> Forall (ol_all no_sym) [OP m (pre ++ body_text b k (fst x)) (tail_texts b k (snd x))] -> no_sym pre /\ para_good k x.
Proof.
  intros (Hk & Hm & Ht) H. inversion H as [|? ? H1 _]; subst. inversion H1 as [|? ? ? Hs Hl]; subst. split; [intros c I; apply Hs, in_or_app; left; exact I|].
  split; [exact Hk|]. split; [apply Hm|]. split.
  - intros c I. apply Hs. apply in_or_app. right. unfold body_text. apply in_or_app. right. rewrite <- rstrip_mixed in I by exact Hk.
    destruct (rstrip_decomp (mixed_text b k (fst x))) as (w & E & _). rewrite E. apply in_or_app. left. exact I.
  - rewrite Forall_forall in *. intros [[m' n] z] I. destruct (Ht _ I) as (A1 & A2 & A3 & A4). split; [exact A1|]. split; [exact A2|]. split; [apply A3|]. split; [exact A4|].
    exact (Hl (m', n, mixed_text b k z) (in_map (fun a => match a with (m, n, x) => (m, n, mixed_text b k x) end) _ _ I)).
Qed.
Lemma text_clean1 m l sc k x : para_ok b sc k x -> Forall (ol_all no_sym) [OP m (l ++ [SP] ++ body_text b k (fst x)) (tail_texts b k (snd x))] -> no_sym l /\ para_good k x.
Proof. intros H Hc. rewrite app_assoc in Hc. destruct (text_clean m _ sc k x H Hc) as [H1 H2]. split; [|exact H2]. intros c I. apply H1, in_or_app. left. exact I. Qed.

Lemma starts_ends outer own t r : wft outer own t -> ends r -> ends (tflat t ++ r).
Proof.
  intros H Hr. unfold tflat. pose proof (follow_quiet y Hhigh r (proj1 Hr)) as Hq.
  assert (Hall : forall m z, not_else z -> ends (repeatc NL (S m) ++ z)) by (intros m z Hz; apply ends_nls; [exact Hz|discriminate]).
  destruct H; cbn [ols flat_map].
  - erewrite app_nil_r, oflat_text0, <- app_assoc by eassumption. apply Hall.
    destruct (para_first k x r) as (c & z & -> & Hm). unfold mark in Hm. apply not_else_char; unfold NL; lia.
  - rewrite app_nil_r, oflat_note, <- app_assoc. apply Hall. destruct h; apply not_else_char; discriminate.
  - assert (Hg : g <> []) by (eapply chain_known_ne; eassumption). rewrite app_nil_r. destruct c as [[k x]|].
    + match goal with K : forall k x, _ -> _ |- _ => pose proof (K k x eq_refl) as Hs end. erewrite oflat_text1, <- !app_assoc by exact Hs. apply Hall.
      eapply not_else_chain; [exact Hg|eassumption|]. constructor. reflexivity.
    + rewrite oflat_line, <- app_assoc. apply Hall. rewrite rstrip_solid_all by (eapply chain_solid; eassumption). eapply not_else_chain; [exact Hg|eassumption|]. apply quiet_stop, Hq.
  - assert (Hg : g <> []) by (eapply chain_known_ne; eassumption).
    rewrite app_nil_r. erewrite oflat_kids; [|eassumption|eassumption|eapply chain_solid; eassumption]. rewrite <- !app_assoc. apply Hall.
    eapply not_else_chain; [exact Hg|eassumption|]. apply quiet_stop, bflat_quiet. assumption.
  - destruct cs as [|[e [w kids]] cs]; [congruence|]. cbn [app flat_map oflat]. rewrite <- !app_assoc. apply Hall.
    rewrite rstrip_solid_all; [apply not_else_char; discriminate|].
    match goal with K : Forall _ (_ :: _) |- _ => inversion K; subst end. apply solid_app. eapply head_solid; eassumption.
  - rewrite app_nil_r. erewrite oflat_kids; [|eassumption|eassumption|apply solid_app, solid_app, solid_app; eapply head_solid; eassumption]. rewrite <- !app_assoc. apply Hall.
    apply not_else_char; discriminate.
  - cbn [app flat_map oflat]. rewrite <- !app_assoc. apply Hall.
    rewrite rstrip_solid_all; [apply not_else_char; discriminate|]. apply solid_app. eapply head_solid; eassumption.
  - destruct alts as [|[w kids] alts]; [congruence|]. cbn [flat_map oflat]. rewrite <- !app_assoc. apply Hall. apply not_else_char; discriminate.
  - rewrite app_nil_r, oflat_line, <- app_assoc. apply Hall. rewrite rstrip_solid_all; [apply not_else_char; discriminate|].
    do 3 apply solid_app. apply text_solid; [exact Hb|]. match goal with K : expr_ok _ _ _ |- _ => apply K end.
  - rewrite app_nil_r, oflat_line, <- app_assoc. apply Hall. rewrite rstrip_solid_all; [apply not_else_char; discriminate|].
    do 5 apply solid_app. apply text_solid; [exact Hb|]. match goal with K : expr_ok _ _ _ |- _ => apply K end.
  - rewrite app_nil_r. destruct c as [[k x]|].
    + match goal with K : forall k x, _ -> _ |- _ => pose proof (K k x eq_refl) as Hs end. erewrite oflat_text1, <- !app_assoc by exact Hs. apply Hall.
      eapply not_else_use; [eassumption|]. constructor. reflexivity.
    + rewrite oflat_line, <- app_assoc. apply Hall. rewrite rstrip_solid_all by (eapply use_solid; eassumption). eapply not_else_use; [eassumption|]. apply quiet_stop, Hq.
  - rewrite app_nil_r. erewrite oflat_kids; [|eassumption|eassumption|eapply use_solid; eassumption]. rewrite <- !app_assoc. apply Hall.
    eapply not_else_use; [eassumption|]. apply quiet_stop, bflat_quiet. assumption.
  - rewrite app_nil_r, oflat_line, <- app_assoc. apply Hall. rewrite rstrip_solid_all; [apply not_else_char; discriminate|].
    apply solid_app, solid_id, var_id, Hbn. assumption.
Qed.

(** ** Blocks: the parser *)

Lemma no_sym_app x z : no_sym (x ++ z) -> no_sym x /\ no_sym z.
Proof. intros H. split; intros c I; apply H, in_or_app; [left|right]; exact I. Qed.
Lemma no_sym_rstrip x : no_sym x -> no_sym (rstrip x).
Proof. intros H c I. apply H. destruct (rstrip_decomp x) as (w & E & _). rewrite E. apply in_or_app. left. exact I. Qed.
Lemma chain_clean g : no_sym (chain_text b g) -> clean_chain g.
Proof.
  intros H. apply Forall_forall. intros t I c Ic. apply H. unfold chain_text. destruct g as [|t0 g]; [destruct I|]. cbn [map]. rewrite OperParse.join_cons. apply in_or_app.
  destruct I as [->|I]; [left; exact Ic|]. right. apply in_flat_map. exists (tag_text b t). split; [apply in_map, I|]. apply in_or_app. right. exact Ic.
Qed.

Definition block_good (t : tmpl) : Prop := forall p r, ends r -> here p (tflat t ++ r) ->
  exists i, makes (PRef R_block) p (tflat t) r [(Some R_block, SItem i)] /\ raw t i.
Definition body_good (w : str) (kids : list tmpl) : Prop := forall p r, here p (bflat w kids ++ r) ->
  exists is, makes (PRef R_tail_blocks) p (bflat w kids) r (map ind_kid w ++ map item_kid is ++ map ded_kid (rev w)) /\ Forall2 raw kids is.

Lemma tflat_NL outer own t : wft outer own t -> exists z, tflat t = NL :: z.
Proof.
  intros H. unfold tflat. pose proof (ols_ne outer own t H) as Hn. destruct (ols b t) as [|[m l w k|m l tl] os]; [congruence|..]; cbn [flat_map oflat]; rewrite repeatc_S; eexists; reflexivity.
Qed.
Lemma kids_NL outer own kids : kids <> [] -> wfts outer own kids -> exists z, flat_map tflat kids = NL :: z.
Proof. intros Hk H. destruct kids as [|t kids]; [congruence|]. inversion H; subst. destruct (tflat_NL outer own t) as (z & E); [assumption|]. cbn [flat_map]. rewrite E. eexists. reflexivity. Qed.
Lemma tmpl_loop ts : Forall block_good ts -> forall outer own, wfts outer own ts -> forall p r, ends r -> sem (PRef R_block) r None -> here p (flat_map tflat ts ++ r) ->
  exists is, makes_loop (PRef R_block) p (flat_map tflat ts) r (map item_kid is) /\ Forall2 raw ts is.
Proof.
  intros H. induction H as [|t ts Ht Hts IH]; intros outer own Hw p r Hr Hn Hh.
  - exists []. split; [apply loop_nil, Hn|constructor].
  - cbn [flat_map] in Hh. rewrite <- app_assoc in Hh. inversion Hw as [|? ? Wt Wl]; subst. destruct (IH _ _ Wl (p + List.length (tflat t))%nat r Hr Hn (here_step _ _ _ Hh)) as (is & K & Ki).
    destruct (Ht p (flat_map tflat ts ++ r)) as (i & M & Mi); [|exact Hh|].
    { destruct ts as [|t' ts]; [exact Hr|]. inversion Wl as [|? ? Wt' Wl']; subst. cbn [flat_map]. rewrite <- app_assoc. clear IH K Ki.
      assert (ends (flat_map tflat ts ++ r)) as Hr'; [|eapply starts_ends; eassumption].
      clear - X full Hr Wl' Hhigh Hb Hdig Hnd Hbn. remember (after (after own t) t') as o eqn:Eo. clear Eo. revert o Wl'. induction ts as [|t2 ts IH]; intros o Wl; [exact Hr|].
      inversion Wl; subst. cbn [flat_map]. rewrite <- app_assoc. eapply starts_ends; [eassumption|]. eapply IH. eassumption. }
    exists (i :: is). split; [|constructor; assumption]. cbn [flat_map map]. change (item_kid i :: map item_kid is) with ([item_kid i] ++ map item_kid is).
    destruct (tflat_NL _ _ _ Wt) as (z & E). apply loop_cons; [rewrite E; discriminate|exact M|exact K].
Qed.
Lemma bodies_good outer own w kids : indent_ok w -> kids <> [] -> wfts outer own kids -> Forall block_good kids -> body_good w kids.
Proof.
  intros [Hw Hc] Hk Hf H p r Hh. destruct (deds_first y w r Hw) as (dc & dz & Ed & Hd).
  destruct (tmpl_loop kids H outer own Hf (p + List.length w)%nat (deds y w ++ r)) as (is & K & Ki); [apply ends_ded, Hw|rewrite Ed; apply no_block_ded; assumption| |].
  { unfold bflat in Hh. rewrite flat_kids, <- !app_assoc in Hh. apply here_step in Hh. unfold inds in Hh. rewrite map_length in Hh. exact Hh. }
  exists is. split; [|exact Ki]. destruct (kids_NL outer own kids Hk Hf) as (z & E).
  apply makes_plus in K; [|rewrite E; discriminate]. unfold bflat. rewrite flat_kids. apply tail_blocks; try assumption. exists z. exact E.
Qed.

Lemma for_make xs e w kids p r : xs <> [] -> (forall x, In x xs -> id_name x = true) -> fine b e = true -> no_sym (head_text b e) -> indent_ok w -> body_good w kids ->
  sem (PRef R_clause_else) r None -> here p ((u "for " ++ names_text xs ++ u " in " ++ head_text b e) ++ bflat w kids ++ r) ->
  exists is, makes block_body p (u "for " ++ names_text xs ++ u " in " ++ head_text b e ++ bflat w kids) r
    [(Some R_block_for, SBlock (BFor (target_of xs) (cond e) (Some (YItems (items w is))) None))] /\ Forall2 raw kids is.
Proof.
  intros Hx Hn Hf Hs Hw Hg Hr Hh. apply here_step in Hh.
  destruct (Hg (p + List.length (u "for " ++ names_text xs ++ u " in " ++ head_text b e))%nat r Hh) as (is & M & Hi). exists is. split; [|exact Hi].
  apply makes_alt_first. apply makes_reduced; [reflexivity|reflexivity|]. cbn [grammar].
  do 4 (apply makes_alt_next; [by_run|]). apply makes_alt_first.
  node_of [(Some R_targets, STarget (target_of xs)); (Some R_expr_factor, SExpr (cond e)); (Some R_body_control, SBody (YItems (items w is)))]; [|reflexivity]. cbn [grammar]. apply makes_seq_i.
  apply (seq_eq X y full _ _ (u "for" ++ [SP] ++ names_text xs ++ [SP] ++ u "in" ++ [SP] ++ (head_text b e ++ bflat w kids) ++ [] ++ []) _ r
    ([] ++ [] ++ [(Some R_targets, STarget (target_of xs))] ++ [] ++ [] ++ [] ++ [(Some R_expr_factor, SExpr (cond e)); (Some R_body_control, SBody (YItems (items w is)))] ++ [] ++ [])).
  { rewrite !app_nil_r. reflexivity. } { reflexivity. }
  apply seq_cons; [apply makes_lit|].
  apply seq_cons.
  { apply makes_ignored; [reflexivity|]. apply sem_space_one. destruct xs as [|x xs]; [congruence|]. unfold names_text. rewrite OperParse.join_cons.
    destruct (id_parts x (Hn x (or_introl eq_refl))) as (c & q & -> & Hc & _). constructor. apply PageParse.after_space. left. exact Hc. }
  apply seq_cons; [apply targets_make; [exact Hx|exact Hn|]; eexists 105, _; split; [reflexivity|]; split; [discriminate|reflexivity]|].
  apply seq_cons; [apply makes_ignored; [reflexivity|]; apply sem_space_one; constructor; reflexivity|].
  apply seq_cons; [apply makes_lit|].
  assert (Hc : starts (closer X) (bflat w kids ++ r)) by (apply bflat_closer, Hw).
  apply seq_cons; [apply makes_ignored; [reflexivity|]; apply sem_space_one; cbn [app]; rewrite !app_nil_r, <- app_assoc; apply head_nonblank; assumption|].
  apply seq_cons; [|apply seq_cons; [apply makes_opt_no; exact Hr|apply seq_nil]]. cbn [app].
  apply makes_reduced; [reflexivity|reflexivity|]. cbn [grammar]. apply makes_alt_first.
  change [(Some R_expr_factor, SExpr (cond e)); (Some R_body_control, SBody (YItems (items w is)))] with ([(Some R_expr_factor, SExpr (cond e))] ++ [(Some R_body_control, SBody (YItems (items w is)))]).
  apply seq2; [apply head_make; assumption|]. eapply control_body; [apply bflat_quiet, Hw| |apply body_items].
  match type of M with ParseRun.makes _ _ _ _ ?q _ _ _ => match goal with |- ParseRun.makes _ _ _ _ ?q' _ _ _ => replace q' with q; [exact M|] end end.
  rewrite !app_length. cbn [List.length u]. rewrite ?app_length. cbn. lia.
Qed.

Definition clause_good (c : ex * (str * list tmpl)) : Prop :=
  fine b (fst c) = true /\ no_sym (head_text b (fst c)) /\ indent_ok (fst (snd c)) /\ body_good (fst (snd c)) (snd (snd c)).
Definition clause_text (c : ex * (str * list tmpl)) : str := [SP] ++ head_text b (fst c) ++ bflat (fst (snd c)) (snd (snd c)).
Definition clause_kid (c : ex * (str * list tmpl)) (k : kid) : Prop :=
  exists is, k = (Some R_clause_if, SIf (cond (fst c)) (Some (YItems (items (fst (snd c)) is)))) /\ Forall2 raw (snd (snd c)) is.
Lemma one_clause c p r : clause_good c -> here p (clause_text c ++ r) -> exists k, makes (PRef R_clause_if) p (clause_text c) r [k] /\ clause_kid c k.
Proof.
  destruct c as [e [w kids]]. intros (Hf & Hs & Hw & Hg) Hh. cbn [fst snd] in *. unfold clause_text in Hh. rewrite <- !app_assoc in Hh. apply here_step, here_step in Hh.
  destruct (Hg (p + 1 + List.length (head_text b e))%nat r Hh) as (is & M & Hi).
  eexists. split; [|exists is; split; [reflexivity|exact Hi]]. apply clause_make; assumption.
Qed.
Definition elif_text (c : ex * (str * list tmpl)) : str := [NL] ++ u "elif" ++ clause_text c.
Definition else_text (els : option (str * list tmpl)) : str := match els with Some (w, kids) => [NL] ++ u "else" ++ bflat w kids | None => [] end.
Definition els_good (els : option (str * list tmpl)) : Prop := match els with Some (w, kids) => indent_ok w /\ body_good w kids | None => True end.
Lemma else_make els p r : els_good els -> sem (PRef R_clause_else) r None -> here p (else_text els ++ r) -> exists ks, makes (POpt (PRef R_clause_else)) p (else_text els) r ks /\
  match els with None => ks = [] | Some (w, kids) => exists is, ks = [(Some R_clause_else, SElse (Some (YItems (items w is))))] /\ Forall2 raw kids is end.
Proof.
  intros Hg Hr Hh. destruct els as [[w kids]|]; [|exists []; split; [apply makes_opt_no, Hr|reflexivity]].
  cbn [else_text] in Hh. rewrite <- !app_assoc in Hh. apply here_step, here_step in Hh.
  destruct Hg as [Hw Hg]. destruct (Hg (p + 1 + 4)%nat r Hh) as (is & M & Hi). eexists. split; [|exists is; split; [reflexivity|exact Hi]].
  apply makes_opt. cbn [else_text]. node_of [(Some R_body_control, SBody (YItems (items w is)))]; [|reflexivity]. cbn [grammar].
  change [(Some R_body_control, SBody (YItems (items w is)))] with ([] ++ [] ++ [(Some R_body_control, SBody (YItems (items w is)))]).
  apply seq3; [|apply makes_lit|].
  - apply makes_ignored; [reflexivity|]. apply (sem_nl X y full 0). constructor. discriminate.
  - apply makes_opt. eapply control_body; [apply bflat_quiet, Hw|exact M|apply body_items].
Qed.
Lemma not_elif els r : sem elif_body r None -> sem elif_body (else_text els ++ r) None.
Proof.
  intros H. destruct els as [[w kids]|]; [|exact H]. cbn [else_text]. rewrite <- !app_assoc. unfold elif_body.
  eapply sem_seq_cons; [apply (sem_nl X y full 0); constructor; discriminate|]. apply sem_seq_no. apply sem_lit_no. intros q E. discriminate.
Qed.
Lemma clauses_kids cs kss ks els : Forall2 (fun c k => exists k', k = [k'] /\ clause_kid c k') cs kss ->
  match els with None => ks = [] | Some (w, kids) => exists is, ks = [(Some R_clause_else, SElse (Some (YItems (items w is))))] /\ Forall2 raw kids is end ->
  exists bs d, clauses_of (List.concat kss ++ ks) = Ok (bs, d) /\ map fst bs = map (fun c => cond (fst c)) cs /\ Forall2 raw_body (map snd cs) (map snd bs) /\ raw_els els d.
Proof.
  intros H He. induction H as [|[e [w kids]] k cs kss (k' & -> & is & -> & Hi) H IH].
  - cbn [List.concat app]. destruct els as [[w kids]|].
    + destruct He as (is & -> & Hi). eexists [], _. split; [reflexivity|]. split; [reflexivity|]. split; [constructor|]. constructor. constructor. exact Hi.
    + subst ks. eexists [], _. split; [reflexivity|]. split; [reflexivity|]. split; constructor.
  - destruct IH as (bs & d & E & E1 & E2 & E3). cbn [List.concat app fst snd] in *. eexists (_ :: bs), d. cbn [clauses_of]. rewrite E. cbn [bind fst snd].
    split; [destruct (List.concat kss ++ ks); reflexivity|]. cbn [map fst snd]. split; [rewrite E1; reflexivity|]. split; [|exact E3]. constructor; [constructor; exact Hi|exact E2].
Qed.
Lemma elifs_make cs : Forall clause_good cs -> forall p r, sem elif_body r None -> here p (flat_map elif_text cs ++ r) ->
  exists kss, makes_loop elif_body p (flat_map elif_text cs) r (List.concat kss) /\ Forall2 (fun c ks => exists k, ks = [k] /\ clause_kid c k) cs kss.
Proof.
  intros H. induction H as [|c cs Hc _ IH]; intros p r Hr Hh.
  - exists []. split; [apply loop_nil, Hr|constructor].
  - cbn [flat_map] in Hh. rewrite <- app_assoc in Hh. destruct (IH (p + List.length (elif_text c))%nat r Hr (here_step _ _ _ Hh)) as (kss & K & F).
    unfold elif_text in Hh. rewrite <- !app_assoc in Hh. apply here_step, here_step in Hh.
    destruct (one_clause c (p + 1 + 4)%nat (flat_map elif_text cs ++ r) Hc Hh) as (k & M & Hk).
    exists ([k] :: kss). split; [|constructor; [exists k; split; [reflexivity|exact Hk]|exact F]]. cbn [flat_map List.concat]. apply loop_cons; [discriminate| |exact K].
    change [k] with ([] ++ [] ++ [k]). apply seq3; [|apply makes_lit|exact M].
    apply makes_ignored; [reflexivity|]. apply (sem_nl X y full 0). constructor. discriminate.
Qed.
Lemma if_make c cs els p r : clause_good c -> Forall clause_good cs -> els_good els -> ends r -> here p ((u "if" ++ clause_text c ++ flat_map elif_text cs ++ else_text els) ++ r) ->
  exists bs d, makes block_body p (u "if" ++ clause_text c ++ flat_map elif_text cs ++ else_text els) r [(Some R_block_if, SBlock (BIf bs d))] /\
    map fst bs = map (fun c => cond (fst c)) (c :: cs) /\ Forall2 raw_body (map snd (c :: cs)) (map snd bs) /\ raw_els els d.
Proof.
  intros Hc Hcs He (_ & Hr1 & Hr2) Hh. rewrite <- !app_assoc in Hh. apply here_step in Hh. change (List.length (u "if")) with 2%nat in Hh.
  destruct (one_clause c (p + 2)%nat (flat_map elif_text cs ++ else_text els ++ r) Hc Hh) as (k & M & Hk). apply here_step in Hh.
  destruct (elifs_make cs Hcs _ _ (not_elif els r Hr1) Hh) as (kss & K & F). apply here_step in Hh.
  destruct (else_make els (p + 2 + List.length (clause_text c) + List.length (flat_map elif_text cs))%nat r He Hr2 Hh) as (ks & Me & Hks).
  destruct (clauses_kids (c :: cs) ([k] :: kss) ks els) as (bs & d & E & E1 & E2 & E3); [constructor; [exists k; split; [reflexivity|exact Hk]|exact F]|exact Hks|].
  exists bs, d. split; [|split; [exact E1|split; [exact E2|exact E3]]].
  apply makes_alt_first. apply makes_reduced; [reflexivity|reflexivity|]. cbn [grammar]. do 2 (apply makes_alt_next; [by_run|]). apply makes_alt_first.
  node_of ([k] ++ List.concat kss ++ ks); [|cbn [setup]; change ([k] ++ List.concat kss ++ ks) with (([k] ++ List.concat kss) ++ ks); cbn [List.concat] in E; rewrite E; reflexivity].
  cbn [grammar]. change ([k] ++ List.concat kss ++ ks) with ([] ++ [k] ++ List.concat kss ++ ks).
  apply seq4; [apply makes_lit| |apply makes_star; exact K|exact Me]. exact M.
Qed.

Lemma while_make c els p r : clause_good c -> els_good els -> ends r -> here p ((u "while" ++ clause_text c ++ else_text els) ++ r) ->
  exists is d, makes block_body p (u "while" ++ clause_text c ++ else_text els) r [(Some R_block_while, SBlock (BWhile (cond (fst c)) (Some (YItems (items (fst (snd c)) is))) d))] /\
    Forall2 raw (snd (snd c)) is /\ raw_els els d.
Proof.
  intros Hc He (_ & _ & Hr2) Hh. rewrite <- !app_assoc in Hh. apply here_step in Hh. change (List.length (u "while")) with 5%nat in Hh.
  destruct (one_clause c (p + 5)%nat (else_text els ++ r) Hc Hh) as (k & M & is & -> & Ki). apply here_step in Hh.
  destruct (else_make els (p + 5 + List.length (clause_text c))%nat r He Hr2 Hh) as (ks & Me & Hks).
  assert (S : exists d, (forall z t, setup X full R_block_while z t ([(Some R_clause_if, SIf (cond (fst c)) (Some (YItems (items (fst (snd c)) is))))] ++ ks) QNone = Ok (SBlock (BWhile (cond (fst c)) (Some (YItems (items (fst (snd c)) is))) d))) /\ raw_els els d).
  { destruct els as [[w kids]|]; [destruct Hks as (ie & -> & Hi); eexists; split; [intros; reflexivity|constructor; constructor; exact Hi]|subst ks; eexists; split; [intros; reflexivity|constructor]]. }
  destruct S as (d & S & Rd). exists is, d. split; [|split; [exact Ki|exact Rd]].
  apply makes_alt_first. apply makes_reduced; [reflexivity|reflexivity|]. cbn [grammar]. do 5 (apply makes_alt_next; [by_run|]). apply makes_alt_first.
  node_of ([(Some R_clause_if, SIf (cond (fst c)) (Some (YItems (items (fst (snd c)) is))))] ++ ks); [|apply S].
  cbn [grammar]. change ([(Some R_clause_if, SIf (cond (fst c)) (Some (YItems (items (fst (snd c)) is))))] ++ ks) with ([] ++ [(Some R_clause_if, SIf (cond (fst c)) (Some (YItems (items (fst (snd c)) is))))] ++ ks).
  apply seq3; [apply makes_lit|exact M|exact Me].
Qed.

Lemma elses_make alts : Forall (fun a => els_good (Some a)) alts -> forall p r, sem (PRef R_clause_else) r None -> here p (flat_map (fun a => else_text (Some a)) alts ++ r) ->
  exists ds, makes_loop (PRef R_clause_else) p (flat_map (fun a => else_text (Some a)) alts) r (map (fun d => (Some R_clause_else, SElse d)) ds) /\ Forall2 raw_body alts ds.
Proof.
  intros H. induction H as [|[w kids] alts [Hw Hg] _ IH]; intros p r Hr Hh.
  - exists []. split; [apply loop_nil, Hr|constructor].
  - cbn [flat_map] in Hh. rewrite <- app_assoc in Hh. destruct (IH (p + List.length (else_text (Some (w, kids))))%nat r Hr (here_step _ _ _ Hh)) as (ds & K & F).
    cbn [else_text] in Hh. rewrite <- !app_assoc in Hh. apply here_step, here_step in Hh.
    destruct (Hg (p + 1 + 4)%nat (flat_map (fun a => else_text (Some a)) alts ++ r) Hh) as (is & M & Hi).
    exists (Some (YItems (items w is)) :: ds). split; [|constructor; [constructor; exact Hi|exact F]]. cbn [flat_map map].
    change ((Some R_clause_else, SElse (Some (YItems (items w is)))) :: map (fun d => (Some R_clause_else, SElse d)) ds) with
      ([(Some R_clause_else, SElse (Some (YItems (items w is))))] ++ map (fun d => (Some R_clause_else, SElse d)) ds).
    apply loop_cons; [discriminate| |exact K]. cbn [else_text]. node_of [(Some R_body_control, SBody (YItems (items w is)))]; [|reflexivity]. cbn [grammar].
    change [(Some R_body_control, SBody (YItems (items w is)))] with ([] ++ [] ++ [(Some R_body_control, SBody (YItems (items w is)))]).
    apply seq3; [|apply makes_lit|].
    + apply makes_ignored; [reflexivity|]. apply (sem_nl X y full 0). constructor. discriminate.
    + apply makes_opt. eapply control_body; [apply bflat_quiet, Hw|exact M|apply body_items].
Qed.
Lemma try_make w kids alts p r : els_good (Some (w, kids)) -> Forall (fun a => els_good (Some a)) alts -> ends r -> here p ((u "try" ++ bflat w kids ++ flat_map (fun a => else_text (Some a)) alts) ++ r) ->
  exists is ds, makes block_body p (u "try" ++ bflat w kids ++ flat_map (fun a => else_text (Some a)) alts) r [(Some R_block_try, SBlock (BTry (YItems (items w is) :: map YElse ds)))] /\
    Forall2 raw kids is /\ Forall2 raw_body alts ds.
Proof.
  intros [Hw Hg] Ha (_ & _ & Hr2) Hh. rewrite <- !app_assoc in Hh. apply here_step in Hh. change (List.length (u "try")) with 3%nat in Hh.
  destruct (Hg (p + 3)%nat (flat_map (fun a => else_text (Some a)) alts ++ r) Hh) as (is & M & Ki). apply here_step in Hh.
  destruct (elses_make alts Ha _ _ Hr2 Hh) as (ds & K & F). exists is, ds. split; [|split; [exact Ki|exact F]].
  apply makes_alt_first. apply makes_reduced; [reflexivity|reflexivity|]. cbn [grammar]. do 3 (apply makes_alt_next; [by_run|]). apply makes_alt_first.
  set (ks := map (fun d => (Some R_clause_else, SElse d)) ds) in *.
  node_of ((Some R_body_control, SBody (YItems (items w is))) :: ks).
  - cbn [grammar]. apply makes_alt_first. apply makes_reduced; [reflexivity|reflexivity|]. cbn [grammar].
    change ((Some R_body_control, SBody (YItems (items w is))) :: ks) with ([] ++ [(Some R_body_control, SBody (YItems (items w is)))] ++ ks).
    apply seq3; [apply makes_lit| |apply makes_star; exact K]. apply makes_opt. eapply control_body; [apply bflat_quiet, Hw|exact M|apply body_items].
  - cbn [setup]. assert (E : mapr as_body ((Some R_body_control, SBody (YItems (items w is))) :: ks) = Ok (YItems (items w is) :: map YElse ds)); [|rewrite E; reflexivity].
    cbn [mapr as_body]. assert (Ek : mapr as_body ks = Ok (map YElse ds)); [|rewrite Ek; reflexivity]. unfold ks. clear. induction ds as [|d ds IH]; [reflexivity|]. cbn [map mapr as_body]. rewrite IH. reflexivity.
Qed.

Lemma ol_one m l w ks : Forall (ol_all no_sym) [OL m l w ks] -> no_sym l /\ Forall (ol_all no_sym) ks.
Proof. intros H. inversion H as [|? ? H1 _]; subst. inversion H1; subst. split; assumption. Qed.
Lemma kids_clean kids : Forall (ol_all no_sym) (flat_map (ols b) kids) -> Forall (fun t => Forall (ol_all no_sym) (ols b t)) kids.
Proof.
  intros H. apply Forall_forall. intros t I. apply Forall_forall. intros o Io. rewrite Forall_forall in H. apply H. apply in_flat_map. exists t. split; assumption.
Qed.
Definition clean_good (t : tmpl) : Prop := forall outer own, wft outer own t -> Forall (ol_all no_sym) (ols b t) -> block_good t.
Lemma kids_good outer own kids : Forall clean_good kids -> wfts outer own kids -> Forall (ol_all no_sym) (flat_map (ols b) kids) -> Forall block_good kids.
Proof.
  intros H Hw Hc. apply kids_clean in Hc. apply wfts_each in Hw. rewrite Forall_forall in *. intros t I. destruct (Hw t I) as (o & Wt). exact (H t I _ _ Wt (Hc t I)).
Qed.
Lemma chain_start sc g z : g <> [] -> Forall (tag_ok b sc) g -> stop z -> (chain_text b g ++ z) <> [] /\ starts (fun c => c <> NL) (chain_text b g ++ z) /\ sem (PSeq [PRef R_modifier; PRef R_ws]) (chain_text b g ++ z) None.
Proof.
  intros Hg Ho Hz. destruct (chain_split sc g z Hg Ho Hz) as (n & f & E & Hn & Hf & _). rewrite E. pose proof (no_modifier X y n f Hn) as Hm.
  destruct (name_first n Hn) as (c & q & -> & Hc & _). split; [discriminate|]. split; [constructor; intros ->; discriminate|exact Hm].
Qed.

Lemma note_make m h x tl p r : note_ok x tl -> ol_all no_sym (OP m (note_mark h ++ x) tl) -> follow y r ->
  makes (PRef R_block) p (oflat y (OP m (note_mark h ++ x) tl)) r [(Some R_block, SItem (NBlock (repeatc NL m) MNone BComment))].
Proof.
  intros [Hx Ht] H1 Hf. rewrite oflat_note. inversion H1 as [|? ? ? Hs Hl]; subst. apply no_sym_app in Hs. destruct Hs as [_ Hs]. apply no_sym_rstrip in Hs.
  apply a_block with (kk := Some R_block_comment); [destruct h; discriminate|destruct h; constructor; unfold NL; discriminate|destruct h; by_run|].
  do 5 (apply makes_alt_next; [destruct h; by_run|]). apply makes_alt_first.
  set (q := (p + S m + List.length (note_mark h))%nat).
  assert (Hg : Forall (tail_good Verbatim) (map as_mixed tl)).
  { rewrite Forall_forall in *. intros a I. apply in_map_iff in I. destruct I as ([[m' n'] z] & <- & I). destruct (Ht _ I) as (A1 & A2 & A3).
    cbn [as_mixed tail_good]. split; [exact A1|]. split; [intros _; reflexivity|]. split; [split; [exact A2|intros ? ? []]|]. split; [exact A3|exact (Hl _ I)]. }
  destruct (tail_make Verbatim (map as_mixed tl) (q + List.length (rstrip x))%nat r Hg Hf) as (ks2 & ts & M2 & _). rewrite as_mixed_text in M2.
  assert (Hlf : lfollow y (tail_flat y 0 tl ++ r)) by (apply tail_lfollow; exact Hf).
  assert (exists ks, makes (POpt (PRef R_line_verbat)) q (rstrip x) (tail_flat y 0 tl ++ r) ks) as (ks1 & M1).
  { destruct (rstrip x) as [|c z] eqn:E; [exists []; apply makes_opt_no, (no_line Verbatim); assumption|].
    eexists. apply makes_opt. rewrite <- E in *. apply line_verbat_l; try assumption; [rewrite E; discriminate|apply no_NL_rstrip; assumption]. }
  apply makes_node with (ks := ks1 ++ ks2); [reflexivity|reflexivity|discriminate|discriminate| |reflexivity]. cbn [grammar].
  change (ks1 ++ ks2) with ([] ++ ks1 ++ ks2).
  apply seq3; [apply makes_ignored; [reflexivity|]; apply sem_ref; cbn [grammar]; apply (makes_sem X y full _ 0 _ _ []), makes_rx; destruct h; reflexivity|exact M1|exact M2].
Qed.

Theorem tmpl_parse t : clean_good t.
Proof.
  induction t as [m k x|m h x tl|m g c|m g w kids IH|m cs els IHc IHe|m xs e w kids IH|m e w kids els IH IHe|m alts IHa|m xs e|m x o e|m h c|m h w kids IH|m n] using tmpl_ind'; intros outer own Hw Hc p r Hr Hh; inversion Hw; subst; unfold tflat in *; cbn [ols flat_map] in *; pose proof (proj1 Hr) as Hf; pose proof (follow_quiet y Hhigh r Hf) as Hq.
  - match goal with K : para_ok _ _ _ _ |- _ => rename K into Hp end. rewrite app_nil_r, (oflat_text0 m _ k x Hp) in *. rewrite <- app_assoc in Hh.
    destruct (text_clean m [] _ k x Hp Hc) as [_ Hg].
    destruct (text_line k x (p + S m)%nat r Hg Hf) as (ls & M & T).
    pose proof (column_here m [] p _ Hh (fun I => I)) as Ecol. cbn [List.length] in Ecol. rewrite Nat.add_0_r in Ecol. rewrite Ecol in M.
    eexists. split; [|eapply raw_line; exact T].
    eapply a_block; [| | |exact M].
    + destruct (para_first k x []) as (c & z & E & _). rewrite app_nil_r in E. rewrite E. discriminate.
    + destruct (para_first k x []) as (c & z & E & Hm). rewrite app_nil_r in E. rewrite E. constructor. unfold mark in Hm. unfold NL. lia.
    + destruct (para_first k x r) as (c & z & -> & Hm). unfold mark in Hm. destruct Hm as [->|[->| ->]]; by_run.
  - rewrite app_nil_r. inversion Hc as [|? ? H1 _]; subst. eexists. split; [|apply raw_note]. apply note_make; assumption.
  - assert (Hg : g <> []) by (eapply chain_known_ne; eassumption).
    destruct c as [[k x]|].
    + match goal with K : forall k x, _ -> para_ok _ _ _ _ |- _ => pose proof (K k x eq_refl) as Hp end. rewrite app_nil_r, (oflat_text1 m _ _ k x Hp) in *. rewrite <- !app_assoc in Hh.
      destruct (text_clean1 m _ _ k x Hp Hc) as [Hs Hpg]. apply chain_clean in Hs.
      destruct (text_inline k x (p + S m + List.length (chain_text b g))%nat r Hpg Hf) as (ls & M & T).
      assert (Ecol : column full (p + S m + List.length (chain_text b g) + 1) = (List.length (chain_text b g) + 2)%nat).
      { rewrite (app_assoc (chain_text b g)) in Hh. pose proof (column_here m ((chain_text b g) ++ [SP]) p _ Hh) as K. rewrite app_length in K. cbn [List.length] in K. rewrite Nat.add_assoc in K.
        rewrite K; [lia|]. intros I. apply in_app_or in I. destruct I as [I|[I|[]]]; [|discriminate]. revert I. eapply chain_nn; eassumption. }
      rewrite Ecol in M. eapply chain_block in M; [|exact Hg|eassumption|exact Hs| |reflexivity].
      * destruct M as (ts & M & Ht). eexists. split; [|apply raw_leaf; [exact Ht|apply raw_inline_some; exact T]].
        edestruct (chain_start (own ++ outer) g ([SP] ++ para_flat k x ++ r)) as (A1 & A2 & A3); [exact Hg|assumption|constructor; reflexivity|].
        edestruct (chain_start (own ++ outer) g ([SP] ++ para_flat k x)) as (B1 & B2 & _); [exact Hg|assumption|constructor; reflexivity|].
        eapply a_block; [exact B1|exact B2| |exact M]. rewrite <- !app_assoc. exact A3.
      * destruct (para_first k x r) as (c & z & E & Hm). cbn [app]. rewrite E. apply tfollow_mark, Hm.
    + apply ol_one in Hc. destruct Hc as [Hs _]. apply chain_clean in Hs. rewrite app_nil_r, oflat_line, rstrip_solid_all by (eapply chain_solid; eassumption).
      pose proof (body_struct X y full [] [] [] (p + S m + List.length (chain_text b g))%nat r Hq (makes_opt_no X y full _ _ _ (no_tail_blocks X y Hhigh Hnd r Hf)) eq_refl) as M.
      eapply chain_block in M; [|exact Hg|eassumption|exact Hs|apply follow_tfollow, Hf|reflexivity].
      destruct M as (ts & M & Ht). eexists. split; [|apply raw_leaf; [exact Ht|apply raw_inline_none]].
      edestruct (chain_start (own ++ outer) g r) as (A1 & A2 & A3); [exact Hg|assumption|apply quiet_stop, Hq|].
      edestruct (chain_start (own ++ outer) g []) as (B1 & B2 & _); [exact Hg|assumption|constructor|]. rewrite app_nil_r in M, B1, B2.
      eapply a_block; [exact B1|exact B2|exact A3|exact M].
  - apply ol_one in Hc. destruct Hc as [Hs Hck]. apply chain_clean in Hs.
    assert (Hg : g <> []) by (eapply chain_known_ne; eassumption).
    assert (Ef : oflat y (OL m (chain_text b g) w (flat_map (ols b) kids)) = repeatc NL (S m) ++ chain_text b g ++ bflat w kids) by (eapply oflat_kids; [eassumption|eassumption|eapply chain_solid; eassumption]).
    rewrite app_nil_r, Ef in *. rewrite <- !app_assoc in Hh. apply here_step, here_step in Hh. rewrite repeatc_length in Hh.
    assert (Bg : body_good w kids) by (eapply bodies_good; try eassumption; eapply kids_good; eassumption).
    assert (Hi : indent_ok w) by assumption.
    destruct (Bg (p + S m + List.length (chain_text b g))%nat r Hh) as (is & M & Ki).
    pose proof (body_struct X y full _ _ _ _ r (bflat_quiet w kids r Hi) (makes_opt X y full _ _ _ _ _ M) (body_items w is)) as Kb.
    eapply chain_block in Kb; [|exact Hg|eassumption|exact Hs|apply bflat_tfollow, Hi|reflexivity].
    destruct Kb as (ts & Kb & Ht). eexists. split; [|apply raw_node; [exact Ht|exact Ki]].
    edestruct (chain_start (own ++ outer) g (bflat w kids ++ r)) as (A1 & A2 & A3); [exact Hg|assumption|apply quiet_stop, bflat_quiet, Hi|].
    pose proof (bflat_quiet w kids [] Hi) as Hq0. rewrite app_nil_r in Hq0.
    edestruct (chain_start (own ++ outer) g (bflat w kids)) as (B1 & B2 & _); [exact Hg|assumption|apply quiet_stop, Hq0|].
    eapply a_block; [exact B1|exact B2| |exact Kb]. rewrite <- !app_assoc. exact A3.
  - destruct cs as [|[e [w kids]] cs]; [congruence|].
    match goal with K : wfb _ _ _ _ _ _ (map snd _) |- _ => apply wfb_each in K; rename K into Wc end.
    match goal with K : wfb _ _ _ _ _ _ (match els with _ => _ end) |- _ => apply wfb_each in K; rename K into We end.
    match goal with K : Forall (fun c => expr_ok _ _ _) _ |- _ => rename K into Ec end.
    cbn [ols app] in Hc. inversion Hc as [|? ? Hc1 Hc2]; subst. apply Forall_app in Hc2. destruct Hc2 as [Hc2 Hc3].
    assert (Good : forall kw e w kids m, In (w, kids) (map snd ((e, (w, kids)) :: [])) -> expr_ok b (own ++ outer) e -> indent_ok w /\ kids <> [] /\ calm kids /\ wfts outer own kids -> Forall clean_good kids ->
       ol_all no_sym (OL m (kw ++ head_text b e) w (flat_map (ols b) kids)) -> clause_good (e, (w, kids))).
    { clear - Hb Hhigh Hnd Hdig Hbn. intros kw e w kids m _ [H1 _] (H2 & H3 & _ & H4) H5 H6. inversion H6; subst. split; [exact H1|]. cbn [fst snd].
      match goal with K : no_sym (_ ++ _) |- _ => apply no_sym_app in K; destruct K as [_ K] end.
      split; [assumption|]. split; [assumption|]. eapply bodies_good; try eassumption. eapply kids_good; eassumption. }
    assert (Cg : Forall clause_good ((e, (w, kids)) :: cs)).
    { rewrite Forall_forall in Wc, Ec, IHc, Hc2. apply Forall_forall. intros [e' [w' kids']] [E|I].
      - injection E as <- <- <-. apply (Good (u "if ") e w kids m); [left; reflexivity|apply (Ec (e, (w, kids))); left; reflexivity|apply (Wc (w, kids)); left; reflexivity|apply (IHc (e, (w, kids))); left; reflexivity|exact Hc1].
      - apply (Good (u "elif ") e' w' kids' 0%nat); [left; reflexivity|apply (Ec (e', (w', kids'))); right; exact I|apply (Wc (w', kids')); right; apply (in_map snd) in I; exact I|apply (IHc (e', (w', kids'))); right; exact I|].
        apply Hc2. apply (in_map (fun c => match c with (e, (w, kids)) => OL 0 (u "elif " ++ head_text b e) w (flat_map (ols b) kids) end)) in I. exact I. }
    assert (Eg : els_good els).
    { destruct els as [[w' kids']|]; [|exact Logic.I]. inversion We as [|? ? We1 _]; subst. destruct We1 as (W1 & W2 & _ & W3). cbn [fst snd p_els] in *.
      split; [exact W1|]. inversion Hc3 as [|? ? Hd _]; subst. inversion Hd; subst. eapply bodies_good; try eassumption. eapply kids_good; eassumption. }
    inversion Cg as [|? ? Cg1 Cg2]; subst.
    assert (Et : flat_map (oflat y) ((OL m (u "if " ++ head_text b e) w (flat_map (ols b) kids) :: map (fun c => match c with (e, (w, kids)) => OL 0 (u "elif " ++ head_text b e) w (flat_map (ols b) kids) end) cs) ++ match els with Some (w, kids) => [OL 0 (u "else") w (flat_map (ols b) kids)] | None => [] end)
      = repeatc NL (S m) ++ u "if" ++ clause_text (e, (w, kids)) ++ flat_map elif_text cs ++ else_text els).
    { rewrite Forall_forall in Wc, Ec. cbn [app flat_map]. destruct (Wc (w, kids) (or_introl eq_refl)) as (_ & W2 & _ & W3). cbn [fst snd] in W2, W3.
      rewrite (oflat_kids _ _ _ outer own); [|exact W2|exact W3|apply solid_app; eapply head_solid; [exact Hb|exact (Ec (e, (w, kids)) (or_introl eq_refl))]].
      rewrite flat_map_app. unfold clause_text. cbn [fst snd].
      assert (Ecs : flat_map (oflat y) (map (fun c => match c with (e, (w, kids)) => OL 0 (u "elif " ++ head_text b e) w (flat_map (ols b) kids) end) cs) = flat_map elif_text cs).
      { rewrite flat_map_concat_map, map_map, flat_map_concat_map. f_equal. apply map_ext_in. intros [e' [w' kids']] I.
        destruct (Wc (w', kids')) as (_ & W2' & _ & W3'); [right; apply (in_map snd) in I; exact I|]. cbn [fst snd] in W2', W3'.
        rewrite (oflat_kids _ _ _ outer own); [|exact W2'|exact W3'|apply solid_app; eapply head_solid; [exact Hb|exact (Ec (e', (w', kids')) (or_intror I))]].
        unfold elif_text, clause_text. cbn [fst snd]. change (u "elif ") with (u "elif" ++ [SP]). rewrite <- !app_assoc. reflexivity. }
      rewrite Ecs. assert (Ee : flat_map (oflat y) match els with Some (w, kids) => [OL 0 (u "else") w (flat_map (ols b) kids)] | None => [] end = else_text els).
      { destruct els as [[w' kids']|]; [|reflexivity]. inversion We as [|? ? We1 _]; subst. destruct We1 as (_ & W2' & _ & W3'). cbn [fst snd flat_map] in *. rewrite app_nil_r.
        rewrite (oflat_kids _ _ _ outer own); [reflexivity|exact W2'|exact W3'|exists (u "els"), 101; split; reflexivity]. }
      rewrite Ee. change (u "if ") with (u "if" ++ [SP]). rewrite <- !app_assoc. reflexivity. }
    cbn [app flat_map] in Et, Hh |- *. rewrite Et in *. rewrite <- app_assoc in Hh. apply here_step in Hh. rewrite repeatc_length in Hh.
    destruct (if_make (e, (w, kids)) cs els (p + S m)%nat r Cg1 Cg2 Eg Hr Hh) as (bs & d & M & E1 & E2 & E3).
    eexists. split; [|apply raw_if; [exact E1|exact E2|exact E3]].
    eapply a_block; [discriminate|constructor; discriminate|by_run|exact M].
  - apply ol_one in Hc. destruct Hc as [Hs Hck]. apply no_sym_app in Hs. destruct Hs as [_ Hs]. apply no_sym_app in Hs. destruct Hs as [_ Hs]. apply no_sym_app in Hs. destruct Hs as [_ Hs].
    assert (Ef : oflat y (OL m (u "for " ++ names_text xs ++ u " in " ++ head_text b e) w (flat_map (ols b) kids)) = repeatc NL (S m) ++ (u "for " ++ names_text xs ++ u " in " ++ head_text b e) ++ bflat w kids)
      by (eapply oflat_kids; [eassumption|eassumption|apply solid_app, solid_app, solid_app; eapply head_solid; eassumption]).
    rewrite app_nil_r, Ef in *. rewrite <- !app_assoc in Hh. apply here_step in Hh. rewrite repeatc_length in Hh.
    assert (Bg : body_good w kids) by (eapply bodies_good; try eassumption; eapply kids_good; eassumption).
    match goal with K : targets_ok _ _ |- _ => apply names_ids in K; destruct K as [Hx Hn] end.
    destruct (for_make xs e w kids (p + S m)%nat r Hx Hn) as (is & M & Ki); try assumption; [match goal with K : expr_ok _ _ _ |- _ => apply K end|apply Hr|rewrite <- !app_assoc; exact Hh|].
    eexists. split; [|apply raw_for; exact Ki]. rewrite <- !app_assoc.
    eapply a_block; [discriminate|constructor; discriminate|by_run|exact M].
  - match goal with K : wfb _ _ _ _ _ _ (match els with _ => _ end) |- _ => apply wfb_each in K; rename K into We end.
    inversion Hc as [|? ? Hc1 Hc3]; subst. inversion Hc1 as [? ? ? ? Hs Hck|]; subst. apply (no_sym_app (u "while ")) in Hs. destruct Hs as [_ Hs].
    assert (Cg : clause_good (e, (w, kids))).
    { split; [match goal with K : expr_ok _ _ _ |- _ => apply K end|]. split; [exact Hs|]. split; [assumption|]. eapply bodies_good; try eassumption. eapply kids_good; eassumption. }
    assert (Eg : els_good els).
    { destruct els as [[w' kids']|]; [|exact Logic.I]. inversion We as [|? ? We1 _]; subst. destruct We1 as (W1 & W2 & _ & W3). cbn [fst snd p_els] in *.
      split; [exact W1|]. inversion Hc3 as [|? ? Hd _]; subst. inversion Hd; subst. eapply bodies_good; try eassumption. eapply kids_good; eassumption. }
    assert (Et : oflat y (OL m (u "while " ++ head_text b e) w (flat_map (ols b) kids)) ++ flat_map (oflat y) match els with Some (w, kids) => [OL 0 (u "else") w (flat_map (ols b) kids)] | None => [] end
      = repeatc NL (S m) ++ u "while" ++ clause_text (e, (w, kids)) ++ else_text els).
    { rewrite (oflat_kids _ _ _ outer own); [|assumption|assumption|apply solid_app; eapply head_solid; eassumption].
      assert (Ee : flat_map (oflat y) match els with Some (w, kids) => [OL 0 (u "else") w (flat_map (ols b) kids)] | None => [] end = else_text els).
      { destruct els as [[w' kids']|]; [|reflexivity]. inversion We as [|? ? We1 _]; subst. destruct We1 as (_ & W2' & _ & W3'). cbn [fst snd flat_map] in *. rewrite app_nil_r.
        rewrite (oflat_kids _ _ _ outer own); [reflexivity|exact W2'|exact W3'|exists (u "els"), 101; split; reflexivity]. }
      rewrite Ee. unfold clause_text. cbn [fst snd]. change (u "while ") with (u "while" ++ [SP]). rewrite <- !app_assoc. reflexivity. }
    rewrite Et in *. rewrite <- app_assoc in Hh. apply here_step in Hh. rewrite repeatc_length in Hh.
    destruct (while_make (e, (w, kids)) els (p + S m)%nat r Cg Eg Hr Hh) as (is & d & M & E1 & E2).
    eexists. split; [|apply raw_while; [exact E1|exact E2]].
    eapply a_block; [discriminate|constructor; discriminate|by_run|exact M].
  - match goal with K : wfb _ _ _ _ _ _ alts |- _ => apply wfb_each in K; rename K into Wa end. destruct alts as [|[w kids] alts]; [congruence|].
    inversion Hc as [|? ? Hc1 Hc2]; subst. rewrite Forall_forall in Wa, IHa, Hc2.
    assert (Good : forall kw w' kids' m, In (w', kids') ((w, kids) :: alts) -> ol_all no_sym (OL m kw w' (flat_map (ols b) kids')) -> els_good (Some (w', kids'))).
    { intros kw w' kids' m0 I Ho. destruct (Wa _ I) as (W1 & W2 & _ & W3). cbn [fst snd] in *. split; [exact W1|]. inversion Ho; subst. eapply bodies_good; try eassumption. eapply kids_good; [exact (IHa _ I)|eassumption|assumption]. }
    assert (G1 : els_good (Some (w, kids))) by (eapply Good; [left; reflexivity|exact Hc1]).
    assert (Ga : Forall (fun a => els_good (Some a)) alts).
    { apply Forall_forall. intros [w' kids'] I. apply (Good (u "else") w' kids' 0%nat); [right; exact I|]. apply Hc2. apply (in_map (fun a => match a with (w, kids) => OL 0 (u "else") w (flat_map (ols b) kids) end)) in I. exact I. }
    assert (Et : oflat y (OL m (u "try") w (flat_map (ols b) kids)) ++ flat_map (oflat y) (map (fun a => match a with (w, kids) => OL 0 (u "else") w (flat_map (ols b) kids) end) alts)
      = repeatc NL (S m) ++ u "try" ++ bflat w kids ++ flat_map (fun a => else_text (Some a)) alts).
    { destruct (Wa _ (or_introl eq_refl)) as (_ & W2 & _ & W3). cbn [fst snd] in W2, W3. rewrite (oflat_kids _ _ _ (own ++ outer) []); [|exact W2|exact W3|exists (u "tr"), 121; split; reflexivity]. rewrite <- !app_assoc. do 3 f_equal.
      rewrite flat_map_concat_map, map_map, flat_map_concat_map. f_equal. apply map_ext_in. intros [w' kids'] I.
      destruct (Wa _ (or_intror I)) as (_ & W2' & _ & W3'). cbn [fst snd] in W2', W3'. rewrite (oflat_kids _ _ _ (own ++ outer) []); [reflexivity|exact W2'|exact W3'|exists (u "els"), 101; split; reflexivity]. }
    cbn [flat_map] in Et, Hh |- *. rewrite Et in *. rewrite <- app_assoc in Hh. apply here_step in Hh. rewrite repeatc_length in Hh.
    destruct (try_make w kids alts (p + S m)%nat r G1 Ga Hr Hh) as (is & ds & M & E1 & E2).
    eexists. split; [|apply raw_try; [exact E1|exact E2]].
    eapply a_block; [discriminate|constructor; discriminate|by_run|exact M].
  - apply ol_one in Hc. destruct Hc as [Hs _]. apply no_sym_app in Hs. destruct Hs as [_ Hs]. apply no_sym_app in Hs. destruct Hs as [_ Hs]. apply no_sym_app in Hs. destruct Hs as [_ Hs].
    match goal with K : targets_ok _ _ |- _ => apply names_ids in K; destruct K as [Hx Hn] end.
    match goal with K : expr_ok _ _ _ |- _ => destruct K as [He _] end.
    rewrite app_nil_r, oflat_line, rstrip_solid_all by (do 3 apply solid_app; apply text_solid; assumption).
    eexists. split; [|apply raw_set]. eapply a_block; [discriminate|constructor; discriminate|by_run|]. apply assign_make; assumption.
  - apply ol_one in Hc. destruct Hc as [Hs _]. do 5 (apply no_sym_app in Hs; destruct Hs as [_ Hs]).
    match goal with K : targets_ok _ _ |- _ => apply names_ids in K; destruct K as [_ Hn] end. specialize (Hn x (or_introl eq_refl)).
    match goal with K : expr_ok _ _ _ |- _ => destruct K as [He _] end.
    rewrite app_nil_r, oflat_line, rstrip_solid_all by (do 5 apply solid_app; apply text_solid; assumption).
    eexists. split; [|apply raw_aug]. eapply a_block; [discriminate|constructor; discriminate|by_run|]. apply aug_make; assumption.
  - destruct c as [[k x]|].
    + match goal with K : forall k x, _ -> para_ok _ _ _ _ |- _ => pose proof (K k x eq_refl) as Hp end. rewrite app_nil_r, (oflat_text1 m _ _ k x Hp) in *. rewrite <- !app_assoc in Hh.
      destruct (text_clean1 m _ _ k x Hp Hc) as [Hs Hpg]. 
      destruct (text_inline k x (p + S m + List.length (use_text b h))%nat r Hpg Hf) as (ls & M & T).
      assert (Ecol : column full (p + S m + List.length (use_text b h) + 1) = (List.length (use_text b h) + 2)%nat).
      { rewrite (app_assoc (use_text b h)) in Hh. pose proof (column_here m ((use_text b h) ++ [SP]) p _ Hh) as K. rewrite app_length in K. cbn [List.length] in K. rewrite Nat.add_assoc in K.
        rewrite K; [lia|]. intros I. apply in_app_or in I. destruct I as [I|[I|[]]]; [|discriminate]. revert I. eapply use_nn; eassumption. }
      rewrite Ecol in M. eapply use_block in M; [|eassumption|exact Hs| |reflexivity].
      * destruct M as (ts & M & Ht). eexists. split; [|apply raw_call; [exact Ht|apply raw_inline_some; exact T]].
        edestruct (use_start (own ++ outer) h ([SP] ++ para_flat k x ++ r)) as (A1 & A2 & A3); [assumption|constructor; reflexivity|].
        edestruct (use_start (own ++ outer) h ([SP] ++ para_flat k x)) as (B1 & B2 & _); [assumption|constructor; reflexivity|].
        eapply a_block; [exact B1|exact B2| |exact M]. rewrite <- !app_assoc. exact A3.
      * destruct (para_first k x r) as (c & z & E & Hm). cbn [app]. rewrite E. apply tfollow_mark, Hm.
    + apply ol_one in Hc. destruct Hc as [Hs _].  rewrite app_nil_r, oflat_line, rstrip_solid_all by (eapply use_solid; eassumption).
      pose proof (body_struct X y full [] [] [] (p + S m + List.length (use_text b h))%nat r Hq (makes_opt_no X y full _ _ _ (no_tail_blocks X y Hhigh Hnd r Hf)) eq_refl) as M.
      eapply use_block in M; [|eassumption|exact Hs|apply follow_tfollow, Hf|reflexivity].
      destruct M as (ts & M & Ht). eexists. split; [|apply raw_call; [exact Ht|apply raw_inline_none]].
      edestruct (use_start (own ++ outer) h r) as (A1 & A2 & A3); [assumption|apply quiet_stop, Hq|].
      edestruct (use_start (own ++ outer) h []) as (B1 & B2 & _); [assumption|constructor|]. rewrite app_nil_r in M, B1, B2.
      eapply a_block; [exact B1|exact B2|exact A3|exact M].
  - apply ol_one in Hc. destruct Hc as [Hs Hck].
    assert (Ef : oflat y (OL m (use_text b h) w (flat_map (ols b) kids)) = repeatc NL (S m) ++ use_text b h ++ bflat w kids) by (eapply oflat_kids; [eassumption|eassumption|eapply use_solid; eassumption]).
    rewrite app_nil_r, Ef in *. rewrite <- !app_assoc in Hh. apply here_step, here_step in Hh. rewrite repeatc_length in Hh.
    assert (Bg : body_good w kids) by (eapply bodies_good; try eassumption; eapply kids_good; eassumption).
    assert (Hi : indent_ok w) by assumption.
    destruct (Bg (p + S m + List.length (use_text b h))%nat r Hh) as (is & M & Ki).
    pose proof (body_struct X y full _ _ _ _ r (bflat_quiet w kids r Hi) (makes_opt X y full _ _ _ _ _ M) (body_items w is)) as Kb.
    eapply use_block in Kb; [|eassumption|exact Hs|apply bflat_tfollow, Hi|reflexivity].
    destruct Kb as (ts & Kb & Ht). eexists. split; [|apply raw_block; [exact Ht|exact Ki]].
    edestruct (use_start (own ++ outer) h (bflat w kids ++ r)) as (A1 & A2 & A3); [assumption|apply quiet_stop, bflat_quiet, Hi|].
    pose proof (bflat_quiet w kids [] Hi) as Hq0. rewrite app_nil_r in Hq0.
    edestruct (use_start (own ++ outer) h (bflat w kids)) as (B1 & B2 & _); [assumption|apply quiet_stop, Hq0|].
    eapply a_block; [exact B1|exact B2| |exact Kb]. rewrite <- !app_assoc. exact A3.
  - apply ol_one in Hc. destruct Hc as [Hs _]. apply no_sym_app in Hs. destruct Hs as [_ Hs].
    assert (Hv : var_name n = true) by (apply Hbn; reflexivity).
    rewrite app_nil_r, oflat_line, rstrip_solid_all by (apply solid_app, solid_id, var_id, Hv).
    eexists. split; [|apply raw_put]. eapply a_block; [discriminate|constructor; discriminate|by_run|].
    assert (Hcl : starts (closer X) r) by (apply follow_closer in Hf; revert Hf; apply starts_imp; intros c [K _]; exact K).
    do 4 (apply makes_alt_next; [by_run|]). apply makes_alt_first. apply makes_compact; [reflexivity|reflexivity|reflexivity|]. cbn [grammar].
    apply makes_alt_next; [by_run|]. apply makes_alt_first. apply makes_reduced; [reflexivity|reflexivity|]. cbn [grammar].
    do 3 (apply makes_alt_next; [by_run|]). apply makes_alt_first.
    destruct (expr_node X y full _ _ _ _ (expr_make X y full b Hb (XName n) (p + S m + 1)%nat r Hv Hs (or_introl Hcl))) as (k & M).
    node_of [(k, SExpr (root (tree (XName n))))]; [|reflexivity]. cbn [grammar].
    apply (makes_eq X y full _ _ (u "@" ++ [] ++ n ++ []) _ r ([] ++ [] ++ [(k, SExpr (root (tree (XName n))))] ++ [])); [rewrite !app_nil_r; reflexivity|reflexivity|].
    destruct (id_parts n (var_id _ Hv)) as (c & q & En & Hl & _).
    apply seq4; [apply literal_node; reflexivity|apply makes_ws; rewrite En; constructor; apply PageParse.after_space; left; exact Hl| |apply makes_opt_no, no_inline_comment, Hq].
    cbn [List.length]. rewrite Nat.add_0_r. exact M.
Qed.

End Item.

(** ** Definitions *)

Definition param_body : peg rule := PSeq [PRef R_space; PRef R_attr_def].
Definition is_param (a : attrdef) (k : kid) : Prop := snd k = SAttr (Some (a_name a)) (a_default a) false /\ a_slot a = None.
Definition default_body : peg rule := PSeq [PRef R_ws; PLit (u "="); PRef R_ws; PRef R_value_of_attr].
Lemma no_default r : afollow r -> sem default_body r None.
Proof.
  intros [H|(c & g & -> & Hc)]; unfold default_body.
  - destruct H as [|c r H]; [by_run|]. unfold NL in H.
    eapply sem_seq_cons; [apply sem_ws_none; constructor; unfold cls_blank, cls_in, mem; cbn; unfold SP, TAB; lia|]. apply sem_seq_no. apply lit_no. cbn. lia.
  - eapply sem_seq_cons; [apply sem_ws_one; constructor; apply PageParse.after_space, Hc|]. apply sem_seq_no. apply lit_no. cbn. unfold letter, mark in Hc. lia.
Qed.
Lemma param_one sc pm p r : id_name (fst pm) = true -> (forall g, snd pm = Some g -> given_ok b sc g) -> no_sym (param_text b pm) -> afollow r -> sfollow r ->
  exists a k, makes param_body p (param_text b pm) r [k] /\ raw_param pm a /\ is_param a k.
Proof.
  destruct pm as [n d]. cbn [fst snd]. intros Hn Hd Hc Hr Hsf. unfold param_body, param_text. cbn [fst snd].
  destruct (id_parts n Hn) as (c & q & En & Hl & _).
  assert (Hsp : forall z, starts (fun c => cls_blank c = false) (n ++ z)) by (intros z; rewrite En; constructor; apply PageParse.after_space; left; exact Hl).
  destruct d as [g|].
  - destruct (given_make sc g (p + 1 + List.length n + 1)%nat r (Hd g eq_refl)) as (k & M).
    { intros z I. apply Hc. unfold param_text. cbn [fst snd]. do 3 (apply in_or_app; right). exact I. } { exact Hsf. }
    set (e := raw_given g) in *.
    eexists _, (Some R_attr_def, SAttr (Some n) (Some e) false). split; [|split; [apply raw_param_some|split; reflexivity]].
    apply (makes_eq X y full _ p ([SP] ++ n ++ u "=" ++ given_text b g) _ r ([] ++ [(Some R_attr_def, SAttr (Some n) (Some e) false)])); [reflexivity|reflexivity|].
    apply seq2; [apply makes_ignored; [reflexivity|]; apply sem_space_one; rewrite <- !app_assoc; apply Hsp|].
    node_of [(Some R_name_id, SStatic n); (k, SExpr e)]; [|reflexivity]. cbn [grammar].
    change [(Some R_name_id, SStatic n); (k, SExpr e)] with ([(Some R_name_id, SStatic n)] ++ [(k, SExpr e)]). apply seq2.
    + apply id_node; [exact Hn|]. constructor. reflexivity.
    + apply makes_opt. destruct (given_first sc g [] (Hd g eq_refl) (conj (starts_nil _) noeq_nil)) as (c' & z & E & Hcc & _). rewrite app_nil_r in E.
      apply (makes_eq X y full _ _ ([] ++ u "=" ++ [] ++ given_text b g) _ r ([] ++ [] ++ [] ++ [(k, SExpr e)])); [reflexivity|reflexivity|].
      apply seq4; [apply makes_ws; constructor; reflexivity|apply makes_lit|apply makes_ws; rewrite E; constructor; exact Hcc|].
      cbn [List.length]. rewrite !Nat.add_0_r. exact M.
  - eexists _, (Some R_attr_def, SAttr (Some n) None false). split; [|split; [apply raw_param_none|split; reflexivity]].
    apply (makes_eq X y full _ p ([SP] ++ n) _ r ([] ++ [(Some R_attr_def, SAttr (Some n) None false)])); [rewrite app_nil_r; reflexivity|reflexivity|].
    apply seq2; [apply makes_ignored; [reflexivity|]; apply sem_space_one, Hsp|].
    node_of [(Some R_name_id, SStatic n)]; [|reflexivity]. cbn [grammar].
    apply (makes_eq X y full _ _ (n ++ []) _ r ([(Some R_name_id, SStatic n)] ++ [])); [apply app_nil_r|reflexivity|].
    apply seq2; [apply id_node; [exact Hn|apply afollow_stop, Hr]|]. apply makes_opt_no, no_default, Hr.
Qed.
Lemma params_make sc ps p r : (forall x, In x (map fst ps) -> id_name x = true) -> (forall x g, In (x, Some g) ps -> given_ok b sc g) ->
  no_sym (flat_map (param_text b) ps) -> quiet r -> sfollow r ->
  exists ads ks, makes_loop param_body p (flat_map (param_text b) ps) r ks /\ Forall2 raw_param ps ads /\ Forall2 is_param ads ks.
Proof.
  intros Hn Hg Hc Hr Hsf.
  destruct (loop_items X y full param_body (param_text b) (fun pm ks => exists a k, ks = [k] /\ raw_param pm a /\ is_param a k) (fun z => quiet z /\ sfollow z) (fun z => afollow z /\ sfollow z) ps) with (p := p) (r := r) as (kss & M & F).
  - intros z [Hz _]. apply sem_seq_no, no_space, Hz.
  - intros z [Hz Hs]. split; [left; exact Hz|exact Hs].
  - intros a I. discriminate.
  - intros [x d] z I. split; [right|constructor; left; reflexivity]. apply (in_map fst) in I. destruct (id_parts x (Hn x I)) as (c & q & -> & Hl & _). eexists c, _. split; [reflexivity|]. left. exact Hl.
  - intros [x d] I q z Hz. destruct (param_one sc (x, d) q z) as (a & k & M & R & Hk).
    + apply Hn. apply (in_map fst) in I. exact I.
    + intros g E. cbn [snd] in E. subst d. exact (Hg _ _ I).
    + intros c J. apply Hc. apply in_flat_map. eexists. split; [exact I|exact J].
    + apply Hz.
    + apply Hz.
    + exists [k]. split; [exact M|]. exists a, k. repeat split; try assumption; apply Hk.
  - split; [exact Hr|exact Hsf].
  - assert (exists ads, Forall2 raw_param ps ads /\ Forall2 is_param ads (List.concat kss)) as (ads & R & F').
    { clear - F. induction F as [|pm ks ps kss (a & k & -> & R & Hk) F (ads & I1 & I2)]; [exists []; split; constructor|].
      exists (a :: ads). split; [constructor; assumption|]. cbn. constructor; assumption. }
    exists ads, (List.concat kss). split; [exact M|]. split; assumption.
Qed.

Definition bn_kids (bn : option str) : list kid := match bn with Some x => [(Some R_attr_body, SAttr (Some x) None true)] | None => [] end.
Lemma def_attrs bn ads ks : Forall2 is_param ads ks ->
  mapr (fun k : kid => match snd k with SAttr (Some n) e x => Ok (n, e, x) | _ => Raise AssertionError end) (bn_kids bn ++ ks)
  = Ok (match bn with Some x => [(x, None, true)] | None => [] end ++ map (fun a => (a_name a, a_default a, false)) ads).
Proof.
  intros H. assert (K : mapr (fun k : kid => match snd k with SAttr (Some n) e x => Ok (n, e, x) | _ => Raise AssertionError end) ks = Ok (map (fun a => (a_name a, a_default a, false)) ads)).
  { induction H as [|a k ads ks [H _] F IH]; [reflexivity|]. cbn [mapr map]. rewrite H, IH. reflexivity. }
  destruct bn as [x|]; cbn [bn_kids app mapr]; [cbn [snd bind]|]; rewrite K; reflexivity.
Qed.
Lemma raw_params_names ps ads : Forall2 raw_param ps ads -> map a_name ads = map fst ps.
Proof. intros H. induction H as [|pm a ps ads H F IH]; [reflexivity|]. cbn [map]. rewrite IH. destruct H; reflexivity. Qed.
Lemma def_kids n bn ps ads ks kk l : Forall2 raw_param ps ads -> Forall2 is_param ads ks ->
  NoDup (match bn with Some x => [x] | None => [] end ++ map fst ps) -> forall text start q,
  setup X full R_block_def text start ((Some R_name_id, SStatic n) :: bn_kids bn ++ ks ++ [(kk, SBody (YItems l))]) q
  = Ok (SBlock (BDef None n (match bn with Some x => Some (x, None) | None => None end) ads (YItems l))).
Proof.
  intros R H Nd text start q. cbn [setup]. cbn [as_static snd bind]. rewrite app_assoc, rev_app_distr. cbn [rev app]. rewrite rev_involutive. cbn [as_body snd bind].
  rewrite (def_attrs bn ads ks H). cbn [bind].
  assert (En : map (fun a : str * option expr * bool => fst (fst a)) (match bn with Some x => [(x, None, true)] | None => [] end ++ map (fun a => (a_name a, a_default a, false)) ads)
    = match bn with Some x => [x] | None => [] end ++ map fst ps).
  { rewrite map_app, map_map. rewrite <- (raw_params_names ps ads R). destruct bn; reflexivity. }
  match goal with |- context [nodup ?d ?l] => change l with (map (fun a : str * option expr * bool => fst (fst a)) (match bn with Some x => [(x, None, true)] | None => [] end ++ map (fun a => (a_name a, a_default a, false)) ads)) end.
  rewrite nodup_fixed_point by (rewrite En; exact Nd). rewrite map_length, Nat.eqb_refl. cbn [negb].
  assert (Er : map (fun a : str * option expr * bool => {| a_name := fst (fst a); a_default := snd (fst a); a_slot := None |}) (map (fun a => (a_name a, a_default a, false)) ads) = ads).
  { clear - H. induction H as [|a k ads ks [_ H] F IH]; [reflexivity|]. cbn [map fst snd]. rewrite IH. destruct a as [an ad asl]. cbn in *. subst asl. reflexivity. }
  destruct bn as [x|]; cbn [app].
  - rewrite Er. reflexivity.
  - destruct ads as [|a ads]; [reflexivity|]. cbn [map] in Er |- *. rewrite Er. reflexivity.
Qed.

Section Def.
Variables (known : str -> option bool) (vis hy : list str).
Lemma def_make m n bn ps w kids p r : head_ok n ->
  NoDup (match bn with Some x => [x] | None => [] end ++ map fst ps) ->
  (forall x, In x (match bn with Some x => [x] | None => [] end ++ map fst ps) -> id_name x = true) ->
  (forall x g, In (x, Some g) ps -> given_ok b vis g) -> indent_ok w -> no_sym (def_text b n bn ps) -> body_good w kids -> here p ((repeatc NL (S m) ++ def_text b n bn ps ++ bflat w kids) ++ r) ->
  exists i, makes (PRef R_block) p (repeatc NL (S m) ++ def_text b n bn ps ++ bflat w kids) r [(Some R_block, SItem i)] /\ raw_def (Def m n bn ps w kids) i.
Proof.
  intros (Hn & _) Hd Hi Hg Hw Hc Bg Hh.
  set (bt := match bn with Some x => u " @" ++ x | None => [] end).
  destruct (params_make vis ps (p + S m + 1 + List.length n + List.length bt)%nat (bflat w kids ++ r)) as (ads & ks & M & R & F).
  { intros x I. apply Hi, in_or_app. right. exact I. } { exact Hg. }
  { intros c I. apply Hc. unfold def_text. do 3 (apply in_or_app; right). exact I. } { apply bflat_quiet, Hw. } { apply bflat_tfollow, Hw. }
  destruct (Bg (p + S m + 1 + List.length n + List.length bt + List.length (flat_map (param_text b) ps))%nat r) as (is & K & Ki).
  { unfold def_text in Hh. fold bt in Hh. rewrite <- !app_assoc in Hh. do 5 apply here_step in Hh. rewrite repeatc_length in Hh. exact Hh. }
  pose proof (body_struct X y full _ _ _ _ r (bflat_quiet w kids r Hw) (makes_opt X y full _ _ _ _ _ K) (body_items w is)) as Kb.
  eexists. split; [|apply raw_def_i; [exact R|exact Ki]].
  eapply a_block; [discriminate|constructor; discriminate|by_run|].
  apply makes_alt_next; [by_run|]. apply makes_alt_first.
  assert (Hpf : afollow (flat_map (param_text b) ps ++ bflat w kids ++ r)).
  { destruct ps as [|[x d] ps]; [left; apply bflat_quiet, Hw|]. right. cbn [flat_map param_text fst snd].
    destruct (id_parts x (Hi x ltac:(apply in_or_app; right; left; reflexivity))) as (c & q & -> & Hl & _). eexists c, _. split; [reflexivity|]. left. exact Hl. }
  assert (Hbf : stop (bt ++ flat_map (param_text b) ps ++ bflat w kids ++ r)) by (unfold bt; destruct bn; [constructor; reflexivity|apply afollow_stop, Hpf]).
  node_of ((Some R_name_id, SStatic n) :: bn_kids bn ++ ks ++ [(Some R_body_struct, SBody (YItems (items w is)))]).
  - cbn [grammar]. unfold def_text. fold bt. 
    apply (makes_eq X y full _ _ (u "%" ++ [] ++ n ++ (bt ++ flat_map (param_text b) ps) ++ bflat w kids) _ r ([] ++ [] ++ [(Some R_name_id, SStatic n)] ++ (bn_kids bn ++ ks) ++ [(Some R_body_struct, SBody (YItems (items w is)))])).
    { cbn [app]. rewrite <- !app_assoc. reflexivity. } { cbn [app]. rewrite <- !app_assoc. reflexivity. }
    destruct (name_first n Hn) as (c & q & En & Hl & _).
    apply seq5; [apply literal_node; reflexivity|apply makes_ws; rewrite En; constructor; apply PageParse.after_space; left; exact Hl|apply name_id; [exact Hn|rewrite <- !app_assoc; exact Hbf]| |].
    + apply makes_reduced; [reflexivity|reflexivity|]. cbn [grammar]. apply seq2.
      * unfold bt, bn_kids. destruct bn as [x|].
        -- apply makes_opt. apply (makes_eq X y full _ _ ([SP] ++ u "@" ++ x) _ _ ([] ++ [(Some R_attr_body, SAttr (Some x) None true)])); [reflexivity|reflexivity|].
           apply seq2; [apply makes_ignored; [reflexivity|]; apply sem_space_one; constructor; reflexivity|].
           node_of [(Some R_name_id, SStatic x)]; [|reflexivity]. cbn [grammar].
           assert (Hx : id_name x = true) by (apply Hi; left; reflexivity).
           destruct (id_parts x Hx) as (c' & q' & Ex & Hl' & _).
           apply (makes_eq X y full _ _ (u "@" ++ [] ++ x) _ _ ([] ++ [] ++ [(Some R_name_id, SStatic x)])); [reflexivity|reflexivity|].
           apply seq3; [apply literal_node; reflexivity|apply makes_ws; rewrite Ex; constructor; apply PageParse.after_space; left; exact Hl'|].
           apply id_node; [exact Hx|apply afollow_stop, Hpf].
        -- apply makes_opt_no. cbn [app]. destruct Hpf as [H|(c' & g & -> & Hcc)]; [apply sem_seq_no, no_space, H|].
           eapply sem_seq_cons; [apply sem_space_one; constructor; apply PageParse.after_space, Hcc|]. apply sem_seq_no.
           apply sem_ref. cbn [grammar]. apply sem_seq_no. apply sem_ref. cbn [grammar]. apply lit_no. cbn. unfold letter, mark in Hcc. lia.
      * apply makes_star. match type of M with ParseRun.makes_loop _ _ _ _ ?q _ _ _ => match goal with |- ParseRun.makes_loop _ _ _ _ ?q' _ _ _ => replace q' with q; [exact M|] end end.
        cbn. lia.
    + match type of Kb with ParseRun.makes _ _ _ _ ?q _ _ _ => match goal with |- ParseRun.makes _ _ _ _ ?q' _ _ _ => replace q' with q; [exact Kb|] end end.
      rewrite !app_length. cbn. lia.
  - apply (def_kids n bn ps ads ks (Some R_body_struct)); assumption.
Qed.
End Def.

(** ** Documents *)

Definition names_line (names : list str) : str := u "context " ++ join (u ", ") (map (cons 36) names).
Lemma symbol_make n p r : id_name n = true -> stop r -> sem (PRef R_rename) r None -> makes (PRef R_cntx_import) p (36 :: n) r [(Some R_cntx_import, SImport (IName (36 :: n) None None))].
Proof.
  intros Hn Hr Hs. node_of [(Some R_symbol, SStatic (36 :: n))]; [|reflexivity]. cbn [grammar].
  apply (makes_eq X y full _ p ((36 :: n) ++ []) _ r ([(Some R_symbol, SStatic (36 :: n))] ++ [])); [apply app_nil_r|reflexivity|].
  apply seq2; [|apply makes_opt_no, Hs]. node_of [(Some R_name_id, SStatic n)]; [|reflexivity]. cbn [grammar].
  change (36 :: n) with (u "$" ++ n). change [(Some R_name_id, SStatic n)] with ([] ++ [(Some R_name_id, SStatic n)]). apply seq2.
  - apply makes_alt_next; [by_run|]. apply makes_alt_first. apply literal_node; reflexivity.
  - apply id_node; assumption.
Qed.
Lemma context_make names p r : names <> [] -> (forall x, In x names -> id_name x = true) -> follow y r ->
  makes block_body p (names_line names) r [(Some R_block_context, SBlock (BContext (map (fun n => IName (36 :: n) None None) names)))].
Proof.
  intros Hx Hn Hr. pose proof (follow_quiet y Hhigh r Hr) as Hq. destruct names as [|x xs]; [congruence|]. clear Hx. unfold names_line. cbn [map]. rewrite OperParse.join_cons.
  set (tx := fun z : str => u ", " ++ 36 :: z).
  assert (Et : flat_map (fun z => u ", " ++ z) (map (cons 36) xs) = flat_map tx xs).
  { clear. induction xs as [|a xs IH]; [reflexivity|]. cbn [map flat_map]. rewrite IH. reflexivity. }
  rewrite Et. clear Et.
  set (Q' := fun r : str => stop r /\ sem (PRef R_rename) r None).
  assert (Hst : forall a s, Q' (tx a ++ s)) by (intros a s; split; [constructor; reflexivity|by_run]).
  assert (Hend : Q' r) by (split; [apply quiet_stop, Hq|apply sem_ref; cbn [grammar]; apply sem_seq_no, no_space, Hq]).
  destruct (loop_items X y full (PSeq [PRef R_comma; PRef R_cntx_import]) tx (fun a ks => ks = [(Some R_cntx_import, SImport (IName (36 :: a) None None))]) quiet Q' xs) with (p := (p + 8 + S (List.length x))%nat) (r := r) as (kss & K & F).
  - intros s Hs. apply sem_seq_no. apply sem_ref. cbn [grammar]. destruct Hs as [|c s Hc]; [by_run|].
    eapply sem_seq_cons; [apply sem_ws_none; constructor; unfold cls_blank, cls_in, mem, NL in *; cbn; unfold SP, TAB; lia|]. apply sem_seq_no. apply lit_no. cbn. unfold NL in Hc. lia.
  - intros s Hs. split; [apply quiet_stop, Hs|apply sem_ref; cbn [grammar]; apply sem_seq_no, no_space, Hs].
  - intros a I. discriminate.
  - intros a s I. apply Hst.
  - intros a I q s [Hs1 Hs2]. eexists. split; [|reflexivity].
    apply (makes_eq X y full _ q ((u ", ") ++ (36 :: a)) _ s ([] ++ [(Some R_cntx_import, SImport (IName (36 :: a) None None))])); [reflexivity|reflexivity|].
    apply seq2; [|apply symbol_make; [apply Hn; right; exact I|exact Hs1|exact Hs2]]. apply makes_ignored; [reflexivity|]. apply sem_ref. cbn [grammar].
    eapply sem_seq_cons; [apply sem_ws_none; constructor; reflexivity|]. eapply sem_seq_cons; [apply (sem_lit _ (u ","))|].
    eapply sem_seq_cons; [apply sem_ws_one; constructor; reflexivity|apply sem_seq_nil].
  - exact Hq.
  - assert (mapr as_import (List.concat kss) = Ok (map (fun n => IName (36 :: n) None None) xs)) as E.
    { clear - F. induction F as [|a ks l kss -> F IH]; [reflexivity|]. cbn [List.concat app mapr]. cbn. rewrite IH. reflexivity. }
    do 2 (apply makes_alt_next; [by_run|]). apply makes_alt_first.
    node_of ((Some R_cntx_import, SImport (IName (36 :: x) None None)) :: List.concat kss).
    + cbn [grammar]. apply (makes_eq X y full _ p (u "context" ++ [SP] ++ (36 :: x) ++ flat_map tx xs ++ []) _ r ([] ++ [] ++ [(Some R_cntx_import, SImport (IName (36 :: x) None None))] ++ List.concat kss ++ [])).
      { rewrite app_nil_r. reflexivity. } { rewrite app_nil_r. reflexivity. }
      apply seq5; [apply makes_lit|apply makes_ignored; [reflexivity|]; apply sem_space_one; constructor; reflexivity| | |apply makes_opt_no, no_inline_comment, Hq].
      * apply symbol_make; [apply Hn; left; reflexivity| |]; (destruct xs as [|a xs]; [apply Hend|cbn [flat_map]; rewrite <- app_assoc; apply Hst]).
      * apply makes_star. replace (p + List.length (u "context") + List.length [SP] + List.length (36%N :: x))%nat with (p + 8 + S (List.length x))%nat; [exact K|]. cbn [List.length u]. cbn. lia.
    + cbn [setup mapr]. cbn [as_import snd bind]. rewrite E. reflexivity.
Qed.

Definition margin_items (k : nat) : list item := match k with O => [] | S _ => [NMargin (repeatc NL k)] end.
Definition head_flat (names : list str) : str := flat_map (oflat y) (header names).
Lemma names_solid names : names <> [] -> (forall x, In x names -> id_name x = true) -> solid (names_line names).
Proof.
  intros Hx Hn. unfold names_line. apply solid_app. destruct names as [|x xs]; [congruence|]. cbn [map]. rewrite OperParse.join_cons. apply solid_flat.
  - apply (solid_app [36]), solid_id, Hn. left. reflexivity.
  - intros a I. apply in_map_iff in I. destruct I as (z & <- & I). apply solid_app. apply (solid_app [36]), solid_id, Hn. right. exact I.
Qed.
Lemma head_block names p r : names <> [] -> (forall x, In x names -> id_name x = true) -> follow y r ->
  makes (PRef R_block) p (head_flat names) r [item_kid (NBlock [] MNone (BContext (map (fun n => IName (36 :: n) None None) names)))].
Proof.
  intros Hx Hn Hr. pose proof (names_solid names Hx Hn) as Hs. unfold head_flat. destruct names as [|x xs]; [congruence|]. cbn [header flat_map]. fold (names_line (x :: xs)).
  rewrite app_nil_r, oflat_line, (rstrip_solid_all _ Hs). change (@nil N) with (repeatc NL 0). eapply a_block; [discriminate|constructor; discriminate|by_run|].
  apply context_make; assumption.
Qed.

Definition dflat (d : def) : str := oflat y (def_ol b d).
Definition defs_flat (ds : list def) : str := flat_map dflat ds.
Lemma defs_NL d ds : exists z, defs_flat (d :: ds) = NL :: z.
Proof. unfold defs_flat, dflat. cbn [flat_map]. destruct d; cbn [def_ol]; [|rewrite oflat_note]; cbn [oflat]; rewrite repeatc_S; eexists; reflexivity. Qed.
Lemma defs_follow ds r : follow y r -> follow y (defs_flat ds ++ r).
Proof. intros H. destruct ds as [|d ds]; [exact H|]. destruct (defs_NL d ds) as (z & ->). constructor. left. reflexivity. Qed.
Lemma defs_loop known vis hy ds : wfd b known vis hy ds -> Forall (ol_all no_sym) (map (def_ol b) ds) -> forall p x r ks,
  makes_loop (PRef R_block) (p + List.length (defs_flat ds))%nat x r ks -> here p (defs_flat ds ++ x ++ r) -> follow y (x ++ r) ->
  exists is, makes_loop (PRef R_block) p (defs_flat ds ++ x) r (map item_kid is ++ ks) /\ Forall2 raw_def ds is.
Proof.
  intros H. induction H as [|hy m h nx tl ds Hx _ IH|hy m n bn ps w kids ds own body Hn Hk Hy Hd Hv Hg Hi Hc Ha Hu Hw _ IH]; intros Hcl p x r ks M Hh Hxr.
  - exists []. unfold defs_flat in M. cbn [flat_map List.length] in M. rewrite Nat.add_0_r in M. split; [exact M|constructor].
  - inversion Hcl as [|? ? Hc1 Hc2]; subst. cbn [def_ol] in Hc1.
    unfold defs_flat in M, Hh |- *. cbn [flat_map] in M, Hh |- *. rewrite <- app_assoc in Hh.
    destruct (IH Hc2 (p + List.length (dflat (DNote m h nx tl)))%nat x r ks) as (is & K & Ki).
    { match type of M with ParseRun.makes_loop _ _ _ _ ?q _ _ _ => match goal with |- ParseRun.makes_loop _ _ _ _ ?q' _ _ _ => replace q' with q; [exact M|] end end.
      rewrite app_length. unfold defs_flat. lia. }
    { apply here_step in Hh. exact Hh. } { exact Hxr. }
    assert (Hf : follow y ((defs_flat ds ++ x) ++ r)) by (rewrite <- app_assoc; apply defs_follow, Hxr).
    pose proof (note_make m h nx tl p _ Hx Hc1 Hf) as Mi.
    exists (NBlock (repeatc NL m) MNone BComment :: is). split; [|constructor; [constructor|assumption]]. rewrite <- app_assoc. cbn [map app].
    change (item_kid (NBlock (repeatc NL m) MNone BComment) :: map item_kid is ++ ks) with ([item_kid (NBlock (repeatc NL m) MNone BComment)] ++ (map item_kid is ++ ks)).
    apply loop_cons; [unfold dflat; cbn [def_ol]; rewrite oflat_note, repeatc_S; discriminate|exact Mi|exact K].
  - inversion Hcl as [|? ? Hc1 Hc2]; subst. cbn [def_ol] in Hc1. inversion Hc1 as [? ? ? ? Hs Hks|]; subst.
    assert (Hbn : forall z, bn = Some z -> var_name z = true) by (intros z E; apply Hv; subst bn; left; reflexivity).
    assert (Bg : body_good w kids).
    { eapply (bodies_good known hy bn Hbn); [exact Hi|exact Hc|exact Hw|]. eapply (kids_good known hy bn); [|exact Hw|exact Hks].
      apply Forall_forall. intros t _. apply tmpl_parse, Hbn. }
    unfold defs_flat in M, Hh |- *. cbn [flat_map] in M, Hh |- *. rewrite <- app_assoc in Hh.
    assert (Ed : dflat (Def m n bn ps w kids) = repeatc NL (S m) ++ def_text b n bn ps ++ bflat w kids).
    { unfold dflat. cbn [def_ol]. eapply (oflat_kids known hy bn); [exact Hc|exact Hw|]. unfold def_text. rewrite !app_assoc. apply solid_flat.
      - destruct bn as [z|]; [apply solid_app, solid_app, solid_id, var_id, Hbn; reflexivity|]. rewrite app_nil_r. apply solid_app, name_solid, Hn.
      - intros [z d] I. unfold param_text. cbn [fst snd]. destruct d as [g|].
        + do 3 apply solid_app. eapply given_solid; [exact Hb|]. eauto.
        + rewrite app_nil_r. apply solid_app, solid_id, var_id, Hv. apply in_or_app. right. apply (in_map fst) in I. exact I. }
    destruct (IH Hc2 (p + List.length (dflat (Def m n bn ps w kids)))%nat x r ks) as (is & K & Ki).
    { match type of M with ParseRun.makes_loop _ _ _ _ ?q _ _ _ => match goal with |- ParseRun.makes_loop _ _ _ _ ?q' _ _ _ => replace q' with q; [exact M|] end end.
      rewrite app_length. unfold defs_flat. lia. }
    { apply here_step in Hh. exact Hh. } { exact Hxr. }
    destruct (def_make vis m n bn ps w kids p ((defs_flat ds ++ x) ++ r)) as (i & Mi & Ri); try assumption.
    { intros z Iz. apply var_id, Hv, Iz. }
    { rewrite <- Ed, <- app_assoc. exact Hh. }
    exists (i :: is). split; [|constructor; assumption]. rewrite <- app_assoc. cbn [map app]. change (item_kid i :: map item_kid is ++ ks) with ([item_kid i] ++ (map item_kid is ++ ks)).
    rewrite <- Ed in Mi. apply loop_cons; [rewrite Ed, repeatc_S; discriminate|exact Mi|exact K].
Qed.

Definition import_text (i : str * list str) : str := u "from " ++ fst i ++ u " import " ++ join (u ", ") (map (cons 37) (snd i)).
Definition imps_flat (imps : list (str * list str)) : str := flat_map (oflat y) (map import_ol imps).
Lemma imported_make n p r : tag_name n -> stop r -> sem (PRef R_rename) r None -> makes (PRef R_item_import) p (37 :: n) r [(Some R_name_import, SImport (import_item n))].
Proof.
  intros Hn Hr Hs. apply makes_reduced; [reflexivity|reflexivity|]. cbn [grammar]. apply makes_alt_next; [by_run|]. apply makes_alt_first.
  node_of [(Some R_symbol, SStatic (37 :: n))]; [|reflexivity]. cbn [grammar].
  apply (makes_eq X y full _ p ((37 :: n) ++ []) _ r ([(Some R_symbol, SStatic (37 :: n))] ++ [])); [apply app_nil_r|reflexivity|].
  apply seq2; [|apply makes_opt_no, Hs]. node_of [(Some R_name_id, SStatic n)]; [|reflexivity]. cbn [grammar].
  change (37 :: n) with (u "%" ++ n). change [(Some R_name_id, SStatic n)] with ([] ++ [(Some R_name_id, SStatic n)]). apply seq2.
  - apply makes_alt_first. apply literal_node; reflexivity.
  - apply name_id; assumption.
Qed.
Lemma import_make i p r : import_ok i -> follow y r ->
  makes block_body p (import_text i) r [(Some R_block_import, SBlock (BImport (fst i) (map import_item (snd i))))].
Proof.
  destruct i as [path names]. intros ((Hp1 & Hp2) & Hx & Hn) Hr. cbn [fst snd] in *. pose proof (follow_quiet y Hhigh r Hr) as Hq. destruct names as [|x xs]; [congruence|]. clear Hx.
  unfold import_text. cbn [fst snd map]. rewrite OperParse.join_cons.
  set (tx := fun z : str => u ", " ++ 37 :: z).
  assert (Et : flat_map (fun z => u ", " ++ z) (map (cons 37) xs) = flat_map tx xs).
  { clear. induction xs as [|a xs IH]; [reflexivity|]. cbn [map flat_map]. rewrite IH. reflexivity. }
  rewrite Et. clear Et.
  set (Q' := fun r : str => stop r /\ sem (PRef R_rename) r None).
  assert (Hst : forall a s, Q' (tx a ++ s)) by (intros a s; split; [constructor; reflexivity|by_run]).
  assert (Hend : Q' r) by (split; [apply quiet_stop, Hq|apply sem_ref; cbn [grammar]; apply sem_seq_no, no_space, Hq]).
  destruct (loop_items X y full (PSeq [PRef R_comma; PRef R_item_import]) tx (fun a ks => ks = [(Some R_name_import, SImport (import_item a))]) quiet Q' xs) with (p := (p + 13 + List.length path + S (List.length x))%nat) (r := r) as (kss & K & F).
  - intros s Hs. apply sem_seq_no. apply sem_ref. cbn [grammar]. destruct Hs as [|c s Hc]; [by_run|].
    eapply sem_seq_cons; [apply sem_ws_none; constructor; unfold cls_blank, cls_in, mem, NL in *; cbn; unfold SP, TAB; lia|]. apply sem_seq_no. apply lit_no. cbn. unfold NL in Hc. lia.
  - intros s Hs. split; [apply quiet_stop, Hs|apply sem_ref; cbn [grammar]; apply sem_seq_no, no_space, Hs].
  - intros a I. discriminate.
  - intros a s I. apply Hst.
  - intros a I q s [Hs1 Hs2]. eexists. split; [|reflexivity].
    apply (makes_eq X y full _ q ((u ", ") ++ (37 :: a)) _ s ([] ++ [(Some R_name_import, SImport (import_item a))])); [reflexivity|reflexivity|].
    apply seq2; [|apply imported_make; [apply Hn; right; exact I|exact Hs1|exact Hs2]]. apply makes_ignored; [reflexivity|]. apply sem_ref. cbn [grammar].
    eapply sem_seq_cons; [apply sem_ws_none; constructor; reflexivity|]. eapply sem_seq_cons; [apply (sem_lit _ (u ","))|].
    eapply sem_seq_cons; [apply sem_ws_one; constructor; reflexivity|apply sem_seq_nil].
  - exact Hq.
  - assert (mapr as_import (List.concat kss) = Ok (map import_item xs)) as E.
    { clear - F. induction F as [|a ks l kss -> F IH]; [reflexivity|]. cbn [List.concat app mapr]. cbn. rewrite IH. reflexivity. }
    do 3 (apply makes_alt_next; [by_run|]). apply makes_alt_first.
    node_of ((Some R_path_import, SStatic path) :: (Some R_name_import, SImport (import_item x)) :: List.concat kss).
    + cbn [grammar]. apply makes_seq_i.
      apply (seq_eq X y full _ p (u "from" ++ [SP] ++ path ++ [SP] ++ u "import" ++ [SP] ++ (37 :: x) ++ flat_map tx xs ++ [] ++ []) _ r
        ([] ++ [] ++ [(Some R_path_import, SStatic path)] ++ [] ++ [] ++ [] ++ [(Some R_name_import, SImport (import_item x))] ++ List.concat kss ++ [] ++ [])).
      { cbn [app]. rewrite app_nil_r. reflexivity. } { cbn [app]. rewrite app_nil_r. reflexivity. }
      apply seq_cons; [apply makes_lit|]. apply seq_cons.
      { apply makes_ignored; [reflexivity|]. apply sem_space_one. destruct path as [|c path]; [congruence|]. constructor. destruct (Hp2 c (or_introl eq_refl)) as (H1 & _). unfold cls_blank, cls_in, mem, is_space in *. cbn. unfold SP, TAB. lia. }
      apply seq_cons.
      { node_of (@nil (option rule * syn)); [|reflexivity]. cbn [grammar]. apply makes_rx. apply rx_plus_stop; [exact Hp1| |constructor; reflexivity].
        intros c I. destruct (Hp2 c I) as (H1 & H2 & H3). rewrite H1. unfold cls_not, mem. cbn. lia. }
      apply seq_cons; [apply makes_ignored; [reflexivity|]; apply sem_space_one; constructor; reflexivity|].
      apply seq_cons; [apply makes_lit|]. apply seq_cons; [apply makes_ignored; [reflexivity|]; apply sem_space_one; constructor; reflexivity|].
      apply seq_cons; [apply imported_make; [apply Hn; left; reflexivity| |]; cbn [app]; rewrite ?app_nil_r; (destruct xs as [|a xs]; [apply Hend|cbn [flat_map]; rewrite <- app_assoc; apply Hst])|].
      apply seq_cons; [apply makes_star|apply seq_cons; [apply makes_opt_no, no_inline_comment, Hq|apply seq_nil]].
      match type of K with ParseRun.makes_loop _ _ _ _ ?q _ _ _ => match goal with |- ParseRun.makes_loop _ _ _ _ ?q' _ _ _ => replace q' with q; [exact K|] end end. cbn. lia.
    + cbn [setup mapr]. cbn [as_import snd bind]. rewrite E. reflexivity.
Qed.
Lemma import_solid i : import_ok i -> solid (import_text i).
Proof.
  intros (_ & Hx & Hn). unfold import_text. do 3 apply solid_app. destruct (snd i) as [|x xs]; [congruence|]. cbn [map]. rewrite OperParse.join_cons. apply solid_flat.
  - apply (solid_app [37]), name_solid, Hn. left. reflexivity.
  - intros a I. apply in_map_iff in I. destruct I as (z & <- & I). apply solid_app. apply (solid_app [37]), name_solid, Hn. right. exact I.
Qed.
Lemma import_block i p r : import_ok i -> follow y r -> makes (PRef R_block) p (oflat y (import_ol i)) r [item_kid (raw_import i)].
Proof.
  intros Hi Hr. pose proof (import_solid i Hi) as Hs. unfold import_ol. fold (import_text i).
  rewrite oflat_line, (rstrip_solid_all _ Hs). unfold raw_import. change (@nil N) with (repeatc NL 0). eapply a_block; [discriminate|constructor; discriminate|by_run|].
  apply import_make; assumption.
Qed.
Lemma imports_loop imps : Forall import_ok imps -> forall p x r ks, follow y (x ++ r) -> makes_loop (PRef R_block) (p + List.length (imps_flat imps))%nat x r ks ->
  makes_loop (PRef R_block) p (imps_flat imps ++ x) r (map item_kid (map raw_import imps) ++ ks) /\ follow y ((imps_flat imps ++ x) ++ r).
Proof.
  intros H. induction H as [|i imps Hi _ IH]; intros p x r ks Hf M.
  - unfold imps_flat in *. cbn [map flat_map List.length app] in *. rewrite Nat.add_0_r in M. auto.
  - unfold imps_flat in *. cbn [map flat_map]. rewrite <- !app_assoc. destruct (IH (p + List.length (oflat y (import_ol i)))%nat x r ks Hf) as [K Kf].
    { cbn [map flat_map] in M. rewrite app_length, Nat.add_assoc in M. exact M. }
    assert (Hz : exists z, oflat y (import_ol i) = NL :: z) by (unfold import_ol; cbn [oflat]; rewrite repeatc_S; eexists; reflexivity).
    split.
    + cbn [app map]. change (item_kid (raw_import i) :: ?a) with ([item_kid (raw_import i)] ++ a). apply loop_cons; [destruct Hz as (z & ->); discriminate| |exact K].
      apply import_block; [exact Hi|exact Kf].
    + destruct Hz as (z & ->). constructor. left. reflexivity.
Qed.

Theorem book_document known vis hy0 hy names imps ds doc k own : (imps <> [] \/ ds <> [] \/ doc <> []) -> (forall x, In x names -> id_name x = true) -> Forall import_ok imps ->
  wfd b known vis hy0 ds -> wfts b known hy None [] own doc -> Forall (ol_all no_sym) (map (def_ol b) ds ++ flat_map (ols b) doc) ->
  full = head_flat names ++ imps_flat imps ++ defs_flat ds ++ flat_map tflat doc ++ repeatc NL k -> exists dis is,
  makes (PRef R_document) 0 (head_flat names ++ imps_flat imps ++ defs_flat ds ++ flat_map tflat doc ++ repeatc NL k) []
    [(Some R_document, SDoc (raw_header names ++ map raw_import imps ++ dis ++ is ++ margin_items k))] /\
  Forall2 raw_def ds dis /\ Forall2 raw doc is.
Proof.
  intros Hd Hn Himp Hwd Hw Hc Hfull. apply Forall_app in Hc. destruct Hc as [Hcd Hc].
  assert (Hbn : forall n : str, None = Some n -> var_name n = true) by discriminate.
  assert (Hg : Forall block_good doc) by (eapply (kids_good known hy None); [apply Forall_forall; intros t _; apply tmpl_parse, Hbn|exact Hw|exact Hc]).
  assert (H0 : here 0 (head_flat names ++ imps_flat imps ++ defs_flat ds ++ flat_map tflat doc ++ repeatc NL k)) by (unfold here; rewrite Hfull; reflexivity).
  pose proof (here_step _ _ _ (here_step _ _ _ H0)) as H1. pose proof (here_step _ _ _ H1) as H2. cbn [Nat.add] in H1, H2.
  set (p0 := (List.length (head_flat names) + List.length (imps_flat imps))%nat) in *.
  destruct (tmpl_loop known hy None Hbn doc Hg [] own Hw (p0 + List.length (defs_flat ds))%nat (repeatc NL k)) as (is & K & Ki); [apply ends_end|apply (no_block_end X y full)|exact H2|].
  assert (Hfd : follow y (flat_map tflat doc ++ repeatc NL k)).
  { destruct doc as [|t doc]; [destruct k; [constructor|]; rewrite repeatc_S; constructor; left; reflexivity|].
    destruct (kids_NL known hy None [] own (t :: doc) ltac:(discriminate) Hw) as (z & ->). constructor. left. reflexivity. }
  destruct (defs_loop known vis hy0 ds Hwd Hcd p0 (flat_map tflat doc) (repeatc NL k) _ K H1 Hfd) as (dis & Kd & Kdi).
  exists dis, is. split; [|split; assumption].
  assert (Hz : ds = [] /\ doc = [] \/ exists z', defs_flat ds ++ flat_map tflat doc = NL :: z').
  { destruct ds as [|d ds]; [|right; destruct (defs_NL d ds) as (z & ->); eexists; reflexivity].
    destruct doc as [|t doc]; [left; auto|]. right. exact (kids_NL known hy None [] own (t :: doc) ltac:(discriminate) Hw). }
  assert (Hf : follow y ((defs_flat ds ++ flat_map tflat doc) ++ repeatc NL k)).
  { destruct Hz as [[-> ->]|(z' & ->)]; [|constructor; left; reflexivity]. cbn [defs_flat flat_map app]. destruct k; [constructor|]. rewrite repeatc_S. constructor. left. reflexivity. }
  destruct (imports_loop imps Himp (List.length (head_flat names)) (defs_flat ds ++ flat_map tflat doc) (repeatc NL k) _ Hf Kd) as [Kimp Hf'].
  set (body := imps_flat imps ++ defs_flat ds ++ flat_map tflat doc) in *.
  assert (Hz' : exists z', body = NL :: z').
  { unfold body. destruct imps as [|i imps]; [|unfold imps_flat, import_ol; cbn [map flat_map oflat]; rewrite repeatc_S; eexists; reflexivity].
    destruct Hz as [[-> ->]|Hz]; [|exact Hz]. destruct Hd as [Hd|[Hd|Hd]]; congruence. }
  assert (L : makes_loop (PRef R_block) 0 (head_flat names ++ body) (repeatc NL k) (map item_kid (raw_header names ++ map raw_import imps ++ dis ++ is))).
  { rewrite <- !map_app in Kimp. destruct names as [|x xs]; [exact Kimp|]. pose proof (head_block (x :: xs) 0%nat (body ++ repeatc NL k) ltac:(discriminate) Hn Hf') as M.
    rewrite map_app. eapply loop_cons; [|exact M|exact Kimp]. unfold head_flat. cbn [header flat_map oflat]. rewrite repeatc_S. discriminate. }
  assert (Hx : exists x', head_flat names ++ body = NL :: x').
  { destruct names as [|x xs]; [exact Hz'|]. unfold head_flat. cbn [header flat_map oflat]. rewrite repeatc_S. eexists. reflexivity. }
  apply makes_plus in L; [|destruct Hx as (x' & ->); discriminate].
  set (mk := match k with O => [] | S _ => [(Some R_margin, SStatic (repeatc NL k))] end : list (option rule * syn)).
  node_of (map item_kid (raw_header names ++ map raw_import imps ++ dis ++ is) ++ mk).
  - cbn [grammar]. apply (makes_eq X y full _ _ ((head_flat names ++ body) ++ repeatc NL k) _ [] (map item_kid (raw_header names ++ map raw_import imps ++ dis ++ is) ++ mk)); [unfold body; rewrite <- !app_assoc; reflexivity|reflexivity|].
    apply seq2.
    + rewrite app_nil_r. apply makes_opt. apply makes_reduced; [reflexivity|reflexivity|]. cbn [grammar].
      apply makes_alt_next; [destruct Hx as (x' & ->); apply no_tail_blocks; try assumption; constructor; left; reflexivity|]. apply makes_alt_first. exact L.
    + unfold mk. destruct k as [|k].
      * apply makes_opt_no. by_run.
      * apply makes_opt. node_of (@nil (option rule * syn)); [|reflexivity]. cbn [grammar].
        apply (makes_eq X y full _ _ (repeatc NL (S k) ++ []) _ [] ([] ++ [])); [apply app_nil_r|reflexivity|].
        apply seq2; [apply makes_ignored; [reflexivity|]; apply (sem_nl X y full); constructor|apply makes_plit].
  - cbn [setup]. replace (raw_header names ++ map raw_import imps ++ dis ++ is ++ margin_items k) with ((raw_header names ++ map raw_import imps ++ dis ++ is) ++ margin_items k) by (rewrite <- !app_assoc; reflexivity). erewrite mapr_app; [reflexivity| |].
    + assert (H : forall l, mapr item_of (map item_kid l) = Ok l) by (induction l as [|c l IH]; [reflexivity|]; cbn [map mapr]; rewrite IH; reflexivity). apply H.
    + unfold mk. destruct k; reflexivity.
Qed.
End Parse.

(** ** Scripts *)

(** The characters that the preprocessor chooses for the ends of indented blocks, that is the first four
    from 10088 on not in the script, are neither digits nor in names of attributes. *)
Definition unused_before (src : str) (c : char) : list char :=
  filter (fun d => negb (mem d src)) (map (fun k => 10088 + N.of_nat k) (seq 0 (N.to_nat (c - 10088)))).
Definition plain_symbols (X : lexicon) (src : str) : Prop :=
  forall c, 10088 <= c -> ~ In c src -> (List.length (unused_before src c) < 4)%nat -> u_digit (lx_unicode X) c = None /\ cls_xml c = false.
Lemma chosen_first src y : get_parser src = Some y -> forall c, In c (symbol_chars y) -> 10088 <= c /\ ~ In c src /\ (List.length (unused_before src c) < 4)%nat.
Proof.
  unfold get_parser. destruct (negb (existsb (fun c => mem c src) (symbol_list default_symbols))) eqn:E.
  - intros H. injection H as <-. intros c I.
    assert (Hc : 10088 <= c <= 10091) by (cbn in I; lia). split; [lia|]. split.
    + intros Ic. apply negb_true_iff in E. assert (K : existsb (fun c => mem c src) (symbol_list default_symbols) = true); [|congruence]. apply existsb_exists. exists c. split; [exact I|apply mem_In, Ic].
    + unfold unused_before. eapply Nat.le_lt_trans; [apply filter_length_le|]. rewrite map_length, seq_length. lia.
  - destruct (pick_codes 4 (S (List.length src)) src (INDENT_S default_symbols)) as [l|] eqn:El; [|discriminate].
    pose proof (pick_codes_cover _ _ _ _ _ El) as Hcov. apply pick_codes_spec in El as (L & Nd & H).
    destruct l as [|a [|b [|c [|d [|e l]]]]]; try discriminate. intros Hy. injection Hy as <-. intros x Hx. change (symbol_chars _) with [a; b; c; d] in Hx.
    destruct (H x Hx) as [H1 H2]. change (INDENT_S default_symbols) with 10088 in *. split; [exact H1|]. split; [exact H2|].
    assert (K : (List.length (x :: unused_before src x) <= List.length [a; b; c; d])%nat).
    { apply NoDup_incl_length.
      - constructor.
        + unfold unused_before. rewrite filter_In, in_map_iff. intros [(k & Ek & Ik) _]. apply in_seq in Ik. lia.
        + apply NoDup_filter, FinFun.Injective_map_NoDup; [intros n m Enm; lia|apply seq_NoDup].
      - intros z [<-|Iz]; [exact Hx|]. unfold unused_before in Iz. rewrite filter_In, in_map_iff in Iz. destruct Iz as [(k & <- & Ik) Im]. apply in_seq in Ik.
        destruct (in_app_or _ _ _ (Hcov x Hx (10088 + N.of_nat k) ltac:(lia))) as [J|J]; [|exact J]. apply mem_In in J. rewrite J in Im. discriminate. }
    cbn [List.length] in K. lia.
Qed.
Lemma symbols_plain X src : (forall c, In c src -> ~ (10088 <= c <= 10091)) -> (forall c, 10088 <= c <= 10091 -> u_digit (lx_unicode X) c = None) -> plain_symbols X src.
Proof.
  intros H Hu c Hc Hi Hl. assert (K : c <= 10091).
  { destruct (N.le_gt_cases c 10091) as [K|K]; [exact K|]. exfalso. unfold unused_before in Hl.
    replace (N.to_nat (c - 10088)) with (S (S (S (S (N.to_nat (c - 10092)))))) in Hl by lia. cbn [seq map filter] in Hl.
    assert (Hm : forall d, 10088 <= d <= 10091 -> mem d src = false). { intros d Hd. destruct (mem d src) eqn:E; [|reflexivity]. apply mem_In in E. exfalso. exact (H d E Hd). }
    rewrite !Hm in Hl by lia. cbn [negb List.length] in Hl. lia. }
  split; [apply Hu; lia|]. unfold cls_xml, cls_xml_end, cls_xml_start, between. lia.
Qed.

(** The tree of a script. *)
Theorem parse_book X b known vis hy0 hy names imps ds doc k own : blank_text b -> plain_symbols X (book b names imps ds doc k) ->
  (imps <> [] \/ ds <> [] \/ doc <> []) -> (forall x, In x names -> id_name x = true) -> Forall import_ok imps -> wfd b known vis hy0 ds -> wfts b known hy None [] own doc -> exists dis is,
  parse_script X (book b names imps ds doc k) = Ok (raw_header names ++ map raw_import imps ++ dis ++ is ++ margin_items k) /\ Forall2 (raw_def b) ds dis /\ Forall2 (raw b) doc is.
Proof.
  intros Hb Hu Hd Hn Himp Hwd Hw. set (src := book b names imps ds doc k). destruct (get_parser_fresh src) as (y & Ey & [Hnd Hfr]). pose proof (chosen_first _ _ Ey) as Hbd.
  assert (Hc : Forall (ol_all (no_sym y)) (map (def_ol b) ds ++ flat_map (ols b) doc)).
  { apply Forall_forall. intros o Io. apply ol_all_src.
    - intros w l H d Hd'. apply H. apply in_or_app. right. exact Hd'.
    - intros l Il c Ic Is. apply (Hfr c Is). unfold src, book. apply (In_join l); [|exact Ic]. apply in_or_app. left. apply in_flat_map. exists o. split; [|exact Il].
      apply in_or_app. right. apply in_or_app. right. exact Io. }
  set (x := head_flat y names ++ imps_flat y imps ++ defs_flat y b ds ++ flat_map (tflat y b) doc ++ repeatc NL k).
  destruct (book_document X y x b) with (known := known) (vis := vis) (hy0 := hy0) (hy := hy) (names := names) (imps := imps) (ds := ds) (doc := doc) (k := k) (own := own) as (dis & is & K & Kd & Ki); try assumption.
  { intros c I. apply Hbd, I. } { intros c I. apply Hu; apply Hbd, I. } { reflexivity. }
  exists dis, is. split; [|split; assumption]. apply parse_makes in K. destruct K as (t & Kp & Kb). fold x in Kp, Kb. specialize (Kb eq_refl).
  unfold parse_script, parse_report. fold src. rewrite Ey.
  assert (Hbn : forall n : str, None = Some n -> var_name n = true) by discriminate.
  assert (Hp : preprocess y src = Ok x).
  { unfold src, book. rewrite preprocess_lines.
    - unfold x, head_flat, imps_flat, defs_flat. rewrite !flat_map_app, flat_kids, <- !app_assoc.
      assert (flat_map (oflat y) (map (def_ol b) ds) = flat_map (dflat y b) ds) as -> by (rewrite !flat_map_concat_map, map_map; reflexivity). reflexivity.
    - intros E. apply app_eq_nil in E. destruct E as [_ E]. apply app_eq_nil in E. destruct E as [E1 E]. apply map_eq_nil in E1. apply app_eq_nil in E. destruct E as [E2 E]. apply map_eq_nil in E2.
      destruct Hd as [Hd|[Hd|Hd]]; [exact (Hd E1)|exact (Hd E2)|]. eapply (kids_ne b known hy None); eassumption.
    - apply Forall_app. split; [|apply Forall_app; split; [|apply Forall_app; split; [eapply defs_ok; eassumption|apply Forall_flat_map; apply wfts_each in Hw; revert Hw; apply Forall_impl; intros t0 (o & Wt); eapply (ols_ok b known hy None); eassumption]]].
      + destruct names as [|n names]; [constructor|]. constructor; [|constructor]. apply ol_line; [eexists _, _; split; reflexivity|].
        apply nn_app; [nn_lit|]. apply nn_join; [nn_lit|]. intros z I. apply in_map_iff in I. destruct I as (q & <- & I). apply (nn_app [36] q); [nn_lit|]. apply nn_idc, id_chars, Hn, I.
      + apply Forall_map. revert Himp. apply Forall_impl. intros [path ns] ((_ & Hp) & _ & Hns). cbn [fst snd] in *. apply ol_line; [eexists _, _; split; reflexivity|]. cbn [fst snd].
        apply nn_app; [nn_lit|]. apply nn_app; [intros J; destruct (Hp _ J) as [J' _]; discriminate|]. apply nn_app; [nn_lit|]. apply nn_join; [nn_lit|].
        intros z I. apply in_map_iff in I. destruct I as (q & <- & I). apply (nn_app [37] q); [nn_lit|]. apply nn_idc. intros c J. exact (name_idc q (Hns q I) c J). }
  rewrite Hp.
  assert (Hx : exists c x', x = c :: x').
  { unfold x. destruct names as [|n names]; unfold head_flat; cbn [header flat_map oflat]; [|rewrite repeatc_S; eexists _, _; reflexivity].
    destruct imps as [|i imps]; unfold imps_flat, import_ol; cbn [map flat_map oflat]; [|rewrite repeatc_S; eexists _, _; reflexivity].
    destruct ds as [|d ds]; [|cbn [app]; destruct (defs_NL y b d ds) as (z & ->); eexists _, _; reflexivity].
    destruct doc as [|t0 doc]; [destruct Hd as [Hd|[Hd|Hd]]; congruence|]. destruct (kids_NL y b known hy None [] own (t0 :: doc) ltac:(discriminate) Hw) as (z & Ez). cbn [app]. rewrite Ez. eexists _, _. reflexivity. }
  destruct Hx as (c & x' & Hx). unfold parse_flat. rewrite Hx, <- Hx. rewrite Kp, Kb. reflexivity.
Qed.
Theorem parse_template X b known vis hy names ds doc k own : blank_text b -> plain_symbols X (script b names ds doc k) ->
  doc <> [] -> (forall x, In x names -> id_name x = true) -> wfd b known vis [] ds -> wfts b known hy None [] own doc -> exists dis is,
  parse_script X (script b names ds doc k) = Ok (raw_header names ++ dis ++ is ++ margin_items k) /\ Forall2 (raw_def b) ds dis /\ Forall2 (raw b) doc is.
Proof.
  intros Hb Hu Hd Hn Hwd Hw. destruct (parse_book X b known vis [] hy names [] ds doc k own Hb Hu) as (dis & is & E & R); auto. exists dis, is. split; [exact E|exact R].
Qed.
