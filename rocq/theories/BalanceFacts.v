(** The constructs of a parsed script have balanced marks of indentation, apart from the marks themselves. *)
From Coq Require Import List NArith Bool Arith Lia String.
From Verif Require Import PyStr PyStrFacts Preprocess PreprocessSpec PreprocessFacts Peg PegSpec PegFacts Grammar GrammarFacts Syntax ParseFacts.
Import ListNotations.
Local Open Scope list_scope.

Lemma balanced_free y s : (forall c, In c s -> ~ In c (symbol_chars y)) -> balanced y s.
Proof. induction s as [|c s IH]; intros H; constructor; [apply H; left; reflexivity|apply IH; intros d I; apply H; right; exact I]. Qed.
Lemma balanced_app y a b : balanced y a -> balanced y b -> balanced y (a ++ b).
Proof.
  intros H Hb. induction H as [|c s Hc _ IH|a1 a2 H1 _ _ IH2|a1 a2 H1 _ _ IH2]; [exact Hb|constructor; assumption|..]; cbn [app]; rewrite <- app_assoc; cbn [app]; constructor; assumption.
Qed.

(** Texts matched by regexes that have no class with a mark in it. *)
Fixpoint rx_free (l : str) (x : rx) : bool :=
  match x with
  | RxChr p | RxStar p => forallb (fun c => negb (p c)) l
  | RxSeq a b | RxAlt a b => rx_free l a && rx_free l b
  | RxEps | RxEdge _ => true
  end.
Lemma firstn_span p s c : In c (firstn (span p s) s) -> p c = true.
Proof. induction s as [|d s IH]; [intros []|]. cbn [span]. destruct (p d) eqn:E; [|intros []]. intros [<-|I]; [exact E|exact (IH I)]. Qed.
Lemma firstn_less {A} (l : list A) n m c : n <= m -> In c (firstn n l) -> In c (firstn m l).
Proof. revert n m. induction l as [|d l IH]; intros [|n] [|m] L I; cbn in *; try contradiction; [lia|]. destruct I as [->|I]; [left; reflexivity|right; apply (IH n); [lia|exact I]]. Qed.
Lemma firstn_plus {A} n m (l : list A) : firstn (n + m) l = firstn n l ++ firstn m (skipn n l).
Proof. revert l. induction n as [|n IH]; intros l; [reflexivity|]. destruct l as [|d l]; cbn; [rewrite firstn_nil; reflexivity|]. rewrite IH. reflexivity. Qed.
Lemma rx_free_text l x : rx_free l x = true -> forall s n, In n (rx_all x s) -> forall c, In c (firstn n s) -> ~ In c l.
Proof.
  assert (Cls : forall p c, forallb (fun c => negb (p c)) l = true -> p c = true -> ~ In c l).
  { intros p c H Hp I. rewrite forallb_forall in H. specialize (H c I). rewrite Hp in H. discriminate. }
  induction x as [|p|p|a IHa b IHb|a IHa b IHb|w]; cbn [rx_free rx_all]; intros H s n I c Ic.
  - destruct I as [<-|[]]. destruct Ic.
  - destruct s as [|d s]; [destruct I|]. destruct (p d) eqn:E; [|destruct I]. destruct I as [<-|[]]. destruct Ic as [<-|[]]. exact (Cls p _ H E).
  - apply down_le in I. apply (Cls p c H), (firstn_span p s). eapply firstn_less; eassumption.
  - apply andb_true_iff in H as [H1 H2]. apply in_flat_map in I as (k & Ik & I). apply in_map_iff in I as (j & <- & Ij). rewrite firstn_plus in Ic. apply in_app_or in Ic as [Ic|Ic]; [eapply IHa; eassumption|eapply IHb; eassumption].
  - apply andb_true_iff in H as [H1 H2]. apply in_app_or in I as [I|I]; [eapply IHa; eassumption|eapply IHb; eassumption].
  - destruct s as [|d s]; [destruct I as [<-|[]]; destruct Ic|]. destruct (w d); [destruct I|]. destruct I as [<-|[]]. destruct Ic.
Qed.

Section Balance.
Variable y : symbols.
Definition is_mark (r : rule) : bool := match r with R_indent_s | R_dedent_s | R_indent_t | R_dedent_t => true | _ => false end.
(** Rules that may match any text up to a delimiter. *)
Definition is_wild (r : rule) : bool := match r with R_string_raw | R_path_import => true | _ => false end.
Fixpoint bal (e : peg rule) : bool :=
  match e with
  | PLit l => forallb (fun c => negb (mem c (symbol_list y))) l
  | PRx x => rx_free (symbol_list y) x
  | PRef r => negb (is_mark r)
  | PSeq l =>
      match l with
      | [PRef R_indent_s; e; PRef R_dedent_s] | [PRef R_indent_t; e; PRef R_dedent_t] => bal e
      | _ => forallb bal l
      end
  | PAlt l => forallb bal l
  | PNot _ => true
  | POpt e | PStar e | PPlus e => bal e
  end.
Variable G : rule -> peg rule.
Hypothesis HG : forall r, is_mark r = false -> is_wild r = false -> bal (G r) = true.
Hypothesis HR : forall r r', G r <> PRef r'.
Hypothesis Hm : G R_indent_s = PLit [INDENT_S y] /\ G R_dedent_s = PLit [DEDENT_S y] /\ G R_indent_t = PLit [INDENT_T y] /\ G R_dedent_t = PLit [DEDENT_T y].

Definition named (p : rule -> bool) (t : tree rule) : bool := match t_name t with Some r => p r | None => false end.
Definition free (s : str) : Prop := forall c, In c s -> ~ In c (symbol_chars y).
(** In what is matched, the wild texts have no marks. *)
Definition tame (t : tree rule) : Prop := forall n, In n (nodes t) -> named is_wild n = true -> free (t_text n).
Definition sound (t : tree rule) : Prop := forall n, In n (nodes t) -> named is_mark n = false -> balanced y (t_text n).
Definition fair (t : tree rule) : Prop := tame t -> sound t /\ balanced y (t_text t).

Lemma nodes_self (t : tree rule) : In t (nodes t).
Proof. destruct t. left. reflexivity. Qed.
Lemma nodes_in (t : tree rule) : forall p, tiled p t -> forall n, In n (nodes t) -> forall c, In c (t_text n) -> In c (t_text t).
Proof.
  induction t as [nm q x l IH] using tree_ind'. intros p Ht n I c Ic. cbn [nodes] in I. destruct I as [<-|I]; [exact Ic|].
  apply in_flat_map in I as (k & Ik & In'). rewrite Forall_forall in IH. inversion Ht as [? ? ?|? ? ? Hl]; subst; [destruct Ik|]. cbn [t_text].
  assert (Hk : exists p', tiled p' k). { clear - Hl Ik. induction Hl as [|p t ts H1 _ IHl]; [destruct Ik|]. destruct Ik as [->|Ik]; eauto. }
  destruct Hk as (p' & Hk). unfold texts. apply in_concat. exists (t_text k). split; [apply in_map, Ik|]. exact (IH k Ik p' Hk n In' c Ic).
Qed.
Lemma tame_kid nm p x l k : tame (Tree nm p x l) -> In k l -> tame k.
Proof. intros H I n In'. apply H. cbn [nodes]. right. apply in_flat_map. exists k. auto. Qed.

(** Nodes made of fair ones. *)
Lemma fair_node p l : Forall fair l -> fair (Tree None p (texts l) l).
Proof.
  intros H Ht. assert (K : balanced y (texts l)).
  { assert (Hk : forall k, In k l -> tame k) by (intros k; apply (tame_kid _ _ _ _ k Ht)). clear Ht. unfold texts. induction H as [|t l H1 H IH]; [constructor|]. cbn [map concat].
    apply balanced_app; [exact (proj2 (H1 (Hk t (or_introl eq_refl))))|]. apply IH. intros k I. apply Hk. right. exact I. }
  split; [|exact K]. intros n I Hn. cbn [nodes] in I. destruct I as [<-|I]; [exact K|]. apply in_flat_map in I as (k & Ik & In'). rewrite Forall_forall in H.
  exact (proj1 (H k Ik (tame_kid _ _ _ _ k Ht Ik)) n In' Hn).
Qed.
Lemma fair_one p t : fair t -> fair (Tree None p (t_text t) [t]).
Proof. intros H. replace (t_text t) with (texts [t]) by (unfold texts; cbn; apply app_nil_r). apply fair_node. constructor; [exact H|constructor]. Qed.
Lemma fair_leaf nm p x : free x -> fair (Tree nm p x []).
Proof. intros H _. assert (K := balanced_free y x H). split; [|exact K]. intros n [<-|[]] _. exact K. Qed.

Section Step.
Variable k : nat.
Local Notation M := (peg_match G k).
Hypothesis HM : forall e pos s t rest, bal e = true -> M e pos s = POk t rest -> fair t.
Lemma seq_fair l : forallb bal l = true -> forall pos s ts rest, seq_match M l pos s = POk ts rest -> Forall fair ts.
Proof.
  induction l as [|e l IH]; intros H pos s ts rest E; cbn [seq_match forallb] in *; [injection E as <- <-; constructor|]. apply andb_true_iff in H as [H1 H2].
  destruct (M e pos s) as [| |t s1] eqn:E1; try discriminate. destruct (seq_match M l _ s1) as [| |ts1 s2] eqn:E2; try discriminate. injection E as <- <-. constructor; [eapply HM; eassumption|eapply IH; eassumption].
Qed.
Lemma alt_fair l : forallb bal l = true -> forall pos s t rest, alt_match M l pos s = POk t rest -> fair t.
Proof.
  induction l as [|e l IH]; intros H pos s t rest E; cbn [alt_match forallb] in *; [discriminate|]. apply andb_true_iff in H as [H1 H2].
  destruct (M e pos s) as [| |t1 s1] eqn:E1; try discriminate; [eapply IH; eassumption|]. injection E as <- <-. eapply HM; eassumption.
Qed.
Lemma loop_fair e keep n : bal e = true -> forall pos s ts rest, loop_match M keep n e pos s = POk ts rest -> Forall fair ts.
Proof.
  intros H. induction n as [|n IH]; intros pos s ts rest E; cbn [loop_match] in E; [discriminate|]. destruct (M e pos s) as [| |t s1] eqn:E1; try discriminate; [injection E as <- <-; constructor|].
  destruct (t_text t) as [|c x] eqn:Ex.
  - injection E as <- <-. destruct keep; constructor; [eapply HM; eassumption|constructor].
  - destruct (loop_match M keep n e _ s1) as [| |ts1 s2] eqn:E2; try discriminate. injection E as <- <-. constructor; [eapply HM; eassumption|eapply IH; eassumption].
Qed.
Lemma mark_text r c pos s t rest : G r = PLit [c] -> is_mark r = true -> M (PRef r) pos s = POk t rest -> exists p, t = Tree (Some r) p [c] [].
Proof.
  intros Hr _ E. destruct k as [|k']; [discriminate|]. cbn [peg_match] in E. rewrite Hr in E. destruct k' as [|k'']; [discriminate|]. cbn [peg_match] in E.
  destruct (startswith [c] s); [|discriminate]. cbn [rename] in E. injection E as <- <-. eexists. reflexivity.
Qed.
Lemma pair_fair r1 e r2 c1 c2 pos s ts rest : bal e = true -> is_mark r1 = true -> is_mark r2 = true -> G r1 = PLit [c1] -> G r2 = PLit [c2] ->
  (forall a, balanced y a -> balanced y (c1 :: a ++ [c2])) ->
  seq_match M [PRef r1; e; PRef r2] pos s = POk ts rest -> fair (Tree None pos (texts ts) ts).
Proof.
  intros He H1 H2 G1 G2 Hc E. cbn [seq_match] in E. destruct (M (PRef r1) pos s) as [| |t1 s1] eqn:E1; try discriminate.
  destruct (M e _ s1) as [| |t2 s2] eqn:E2; try discriminate. destruct (M (PRef r2) _ s2) as [| |t3 s3] eqn:E3; try discriminate. injection E as <- <-.
  destruct (mark_text _ _ _ _ _ _ G1 H1 E1) as (p1 & ->). destruct (mark_text _ _ _ _ _ _ G2 H2 E3) as (p3 & ->). pose proof (HM _ _ _ _ _ He E2) as F.
  intros Ht. destruct (F (tame_kid _ _ _ _ t2 Ht (or_intror (or_introl eq_refl)))) as [S2 B2]. unfold texts in *. cbn [map concat t_text app] in *.
  split; [|apply Hc, B2]. intros n I Hn. cbn [nodes flat_map app] in I. destruct I as [<-|[<-|I]].
  - apply Hc, B2.
  - cbn [named t_name] in Hn. unfold named in Hn. cbn [t_name] in Hn. congruence.
  - apply in_app_or in I as [I|[<-|[]]]; [exact (S2 n I Hn)|]. unfold named in Hn. cbn [t_name] in Hn. congruence.
Qed.
End Step.

Lemma bal_seq l : bal (PSeq l) = true -> forallb bal l = true \/ (exists e, l = [PRef R_indent_s; e; PRef R_dedent_s] /\ bal e = true) \/ (exists e, l = [PRef R_indent_t; e; PRef R_dedent_t] /\ bal e = true).
Proof.
  intros H. destruct l as [|e1 l]; [left; reflexivity|]. destruct e1 as [| |r| | | | | |]; try (left; exact H).
  destruct r; try (left; exact H).
  - destruct l as [|e2 [|e3 [|e4 l]]]; try discriminate; destruct e3 as [| |r| | | | | |]; try discriminate; try destruct r; try discriminate. right; left; exists e2; auto.
  - destruct l as [|e2 [|e3 [|e4 l]]]; try discriminate; destruct e3 as [| |r| | | | | |]; try discriminate; try destruct r; try discriminate. right; right; exists e2; auto.
Qed.

(** Only references give names. *)
Lemma unnamed k e pos s nm p x l rest (E : peg_match G k e pos s = POk (Tree nm p x l) rest) : (forall r, e <> PRef r) -> nm = None.
Proof.
  intros H. destruct k as [|k]; [discriminate|]. cbn [peg_match] in E. destruct e as [l0|x0|r0|l0|l0|e1|e1|e1|e1].
  - destruct (startswith l0 s); congruence.
  - destruct (rx_match x0 s); congruence.
  - destruct (H r0 eq_refl).
  - destruct (seq_match _ l0 pos s); cbn in E; congruence.
  - destruct (alt_match _ l0 pos s); congruence.
  - destruct (peg_match G k e1 pos s); congruence.
  - destruct (peg_match G k e1 pos s); congruence.
  - destruct (loop_match _ _ _ e1 pos s); cbn in E; congruence.
  - destruct (loop_match _ _ _ e1 pos s) as [| |[|? ?] ?]; cbn in E; congruence.
Qed.

Lemma match_fair fuel : forall e pos s t rest, bal e = true -> peg_match G fuel e pos s = POk t rest -> fair t.
Proof.
  induction fuel as [|k IH]; intros e pos s t rest He E; [discriminate|]. cbn [peg_match] in E. destruct e as [l|x|r|l|l|e1|e1|e1|e1].
  - destruct (startswith l s); [|discriminate]. injection E as <- <-. apply fair_leaf. intros c I K. cbn [bal] in He. rewrite forallb_forall in He. specialize (He c I). apply negb_true_iff in He.
    assert (mem c (symbol_list y) = true) by (apply mem_In; exact K). congruence.
  - destruct (rx_match x s) as [n|] eqn:En; [|discriminate]. injection E as <- <-. apply fair_leaf. intros c I. exact (rx_free_text _ x He s n (rx_match_in _ _ _ En) c I).
  - destruct (peg_match G k (G r) pos s) as [| |[nm p x l] rest0] eqn:E1; try discriminate. cbn [rename] in E. injection E as <- <-. cbn [bal] in He. apply negb_true_iff in He.
    destruct (is_wild r) eqn:Ew.
    + intros Ht. assert (Hf : free x) by (apply (Ht _ (nodes_self _)); exact Ew). pose proof (match_good G k (G r) pos s) as Gd. rewrite E1 in Gd. destruct Gd as [_ Gd].
      split; [|exact (balanced_free y x Hf)]. intros n I Hn. apply balanced_free. intros c Ic. apply Hf. cbn [nodes] in I. destruct I as [<-|I]; [exact Ic|].
      exact (nodes_in _ _ Gd n (or_intror I) c Ic).
    + pose proof (IH (G r) pos s _ _ (HG r He Ew) E1) as F. rewrite (unnamed _ _ _ _ _ _ _ _ _ E1 (HR r)) in F. clear E1. intros Ht.
      assert (Ht' : tame (Tree None p x l)).
      { intros n I Hn. cbn [nodes] in I. destruct I as [<-|I]; [discriminate|]. apply Ht; [right; exact I|exact Hn]. }
      destruct (F Ht') as [F1 F2]. split; [|exact F2]. intros n I Hn. cbn [nodes] in I. destruct I as [<-|I]; [exact F2|apply F1; [right; exact I|exact Hn]].
  - pose proof (seq_good _ (match_good G k) l pos s) as Gd. destruct (seq_match (peg_match G k) l pos s) as [| |ts rest0] eqn:E1; try discriminate. destruct Gd as [-> _].
    cbn [wrap] in E. rewrite upto_app in E. injection E as <- <-. destruct Hm as (M1 & M2 & M3 & M4). destruct (bal_seq l He) as [H|[(e & -> & H)|(e & -> & H)]].
    + apply fair_node. eapply seq_fair; eassumption.
    + eapply (pair_fair k IH R_indent_s e R_dedent_s _ _ pos _ ts rest0 H eq_refl eq_refl M1 M2); [|exact E1]. intros a Ha. apply bal_space; [exact Ha|constructor].
    + eapply (pair_fair k IH R_indent_t e R_dedent_t _ _ pos _ ts rest0 H eq_refl eq_refl M3 M4); [|exact E1]. intros a Ha. apply bal_tab; [exact Ha|constructor].
  - destruct (alt_match (peg_match G k) l pos s) as [| |t0 rest0] eqn:E1; try discriminate. injection E as <- <-. apply fair_one. eapply alt_fair; eassumption.
  - destruct (peg_match G k e1 pos s); try discriminate. injection E as <- <-. apply fair_leaf. intros c [].
  - destruct (peg_match G k e1 pos s) as [| |t0 rest0] eqn:E1; try discriminate; injection E as <- <-; [apply fair_leaf; intros c []|apply fair_one; exact (IH e1 _ _ _ _ He E1)].
  - pose proof (loop_good _ (match_good G k) false (S (List.length s)) e1 pos s) as Gd. destruct (loop_match (peg_match G k) false (S (List.length s)) e1 pos s) as [| |ts rest0] eqn:E1; try discriminate.
    destruct Gd as [Gd _]. cbn [wrap] in E. rewrite Gd in E. rewrite upto_app in E. injection E as <- <-. apply fair_node. exact (loop_fair k IH e1 _ _ He _ _ _ _ E1).
  - pose proof (loop_good _ (match_good G k) true (S (List.length s)) e1 pos s) as Gd. destruct (loop_match (peg_match G k) true (S (List.length s)) e1 pos s) as [| |ts rest0] eqn:E1; try discriminate.
    destruct Gd as [Gd _]. assert (E' : wrap pos s (POk ts rest0) = POk t rest) by (destruct ts; [discriminate|exact E]). cbn [wrap] in E'. rewrite Gd in E'. rewrite upto_app in E'. injection E' as <- <-. apply fair_node. exact (loop_fair k IH e1 _ _ He _ _ _ _ E1).
Qed.
End Balance.

(** The grammar with the usual marks. *)
Section Grammar.
Variable U : unicode.
Local Notation y := default_symbols.
Hypothesis HU : forall c, In c (symbol_chars y) -> u_digit U c = None.
Lemma digits_free : forallb (fun c => negb (cls_digit U c)) (symbol_list y) = true.
Proof. apply forallb_forall. intros c I. apply negb_true_iff. pose proof (HU c I) as K. unfold cls_digit. rewrite K. cbn in I. destruct I as [<-|[<-|[<-|[<-|[]]]]]; reflexivity. Qed.
Lemma grammar_bal r : is_mark r = false -> is_wild r = false -> bal y (grammar U y r) = true.
Proof.
  destruct r; intros H1 H2; try discriminate H1; try discriminate H2; try reflexivity.
  unfold grammar, rx_number, rx_opt, rx_plus. cbn [bal rx_free]. rewrite digits_free. reflexivity.
Qed.
Lemma parse_balanced out t : parse U y out = Parsed t -> (forall n, In n (nodes t) -> named is_wild n = true -> free y (t_text n)) ->
  forall n, In n (nodes t) -> named is_mark n = false -> balanced y (t_text n).
Proof.
  unfold parse. destruct (peg_match _ _ _ 0 out) as [| |t0 [|? ?]] eqn:E; try discriminate. intros K Ht. injection K as ->.
  apply (match_fair y (grammar U y)) in E; [|exact grammar_bal|intros [] r' K; discriminate K|repeat split; reflexivity|reflexivity]. exact (proj1 (E Ht)).
Qed.
End Grammar.
