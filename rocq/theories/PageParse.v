(** Proofs about pages: what the parser makes of the preprocessed text of a page. *)
From Coq Require Import List NArith Bool Arith Lia String ZifyBool.
From Verif Require Import PyStr PyStrFacts IndentSpec Ast Preprocess PreprocessSpec PreprocessFacts Peg PegFacts PegSpec PegSemFacts
  Grammar Syntax GrammarFacts ParseRun PageSpec PageFlat.
Import ListNotations.
Local Open Scope string_scope.
Local Open Scope list_scope.
Local Open Scope N_scope.

(** ** Failing on the first character *)

(** Empty, or with a first character as described. *)
Inductive starts (P : char -> Prop) : str -> Prop :=
| starts_nil : starts P []
| starts_cons c r : P c -> starts P (c :: r).

Lemma starts_imp (P Q : char -> Prop) s : (forall c, P c -> Q c) -> starts P s -> starts Q s.
Proof. intros H [|c r Hc]; constructor; auto. Qed.
Lemma starts_app (P : char -> Prop) a b : a <> [] -> starts P a -> starts P (a ++ b).
Proof. intros Ha H. destruct H as [|c r Hc]; [congruence|]. constructor. exact Hc. Qed.

Fixpoint nf (x : rx) (c : char) : bool :=
  match x with
  | RxChr p => negb (p c)
  | RxSeq a b => nf a c
  | RxAlt a b => nf a c && nf b c
  | _ => false
  end.
Fixpoint nfn (x : rx) : bool :=
  match x with
  | RxChr p => true
  | RxSeq a b => nfn a
  | RxAlt a b => nfn a && nfn b
  | _ => false
  end.
Lemma nf_all x c s : nf x c = true -> rx_all x (c :: s) = [].
Proof.
  induction x as [|p|p|a IHa b IHb|a IHa b IHb|w]; cbn [nf rx_all]; intros H; try discriminate.
  - apply negb_true_iff in H. rewrite H. reflexivity.
  - rewrite IHa by exact H. reflexivity.
  - apply andb_true_iff in H. destruct H. rewrite IHa, IHb by assumption. reflexivity.
Qed.
Lemma nfn_all x : nfn x = true -> rx_all x [] = [].
Proof.
  induction x as [|p|p|a IHa b IHb|a IHa b IHb|w]; cbn [nfn rx_all]; intros H; try discriminate.
  - reflexivity.
  - rewrite IHa by exact H. reflexivity.
  - apply andb_true_iff in H. destruct H. rewrite IHa, IHb by assumption. reflexivity.
Qed.
Lemma rx_first x s : nfn x = true -> starts (fun c => nf x c = true) s -> rx_match x s = None.
Proof. intros H [|c r Hc]; unfold rx_match; [rewrite nfn_all by exact H|rewrite nf_all by exact Hc]; reflexivity. Qed.

Lemma span_stop (p : char -> bool) a s : (forall c, In c a -> p c = true) -> starts (fun c => p c = false) s -> span p (a ++ s) = List.length a.
Proof.
  intros Ha Hs. induction a as [|c a IH]; cbn [app span].
  - destruct Hs as [|c r Hc]; [reflexivity|]. cbn [span]. rewrite Hc. reflexivity.
  - rewrite (Ha c (or_introl eq_refl)). rewrite IH; [reflexivity|]. intros z Hz. apply Ha. right. exact Hz.
Qed.
Lemma rx_plus_stop p a s : a <> [] -> (forall c, In c a -> p c = true) -> starts (fun c => p c = false) s ->
  rx_match (rx_plus p) (a ++ s) = Some (List.length a).
Proof.
  intros Ha Hp Hs. destruct a as [|c a]; [congruence|]. unfold rx_match, rx_plus. cbn [rx_all app]. rewrite (Hp c (or_introl eq_refl)).
  cbn [flat_map skipn]. rewrite span_stop; [|intros z Hz; apply Hp; right; exact Hz|exact Hs]. destruct (List.length a) eqn:E; cbn; rewrite ?E; reflexivity.
Qed.
Lemma rx_star_stop p a s : (forall c, In c a -> p c = true) -> starts (fun c => p c = false) s ->
  rx_match (RxStar p) (a ++ s) = Some (List.length a).
Proof. intros Hp Hs. unfold rx_match. cbn [rx_all]. rewrite span_stop by assumption. destruct (List.length a); reflexivity. Qed.

Definition lit_differs (l s : str) : Prop :=
  match l, s with
  | d :: _, c :: _ => c <> d
  | _ :: _, [] => True
  | [], _ => False
  end.

Ltac node := eapply makes_node; [reflexivity|reflexivity|discriminate|discriminate| |].
Ltac node_of l := apply makes_node with (ks := l); [reflexivity|reflexivity|discriminate|discriminate| |].

Section Parse.
Variables (X : lexicon) (y : symbols) (full : str).
Notation U := (lx_unicode X).
Notation G := (grammar U y).
Notation sem := (sem G).
Notation makes := (makes X y full).
Notation makes_seq := (makes_seq X y full).
Notation makes_loop := (makes_loop X y full).

Lemma lit_no l s : lit_differs l s -> sem (PLit l) s None.
Proof.
  intros H. apply sem_lit_no. intros r E. destruct l as [|d l], s as [|c s]; cbn in H; try contradiction; [discriminate|].
  injection E as E _. congruence.
Qed.

Hypothesis sym_high : forall c, In c (symbol_chars y) -> 10088 <= c.
Hypothesis sym_nodup : NoDup (symbol_chars y).

(** What follows a block: the end, a newline, or a symbol of decreasing indentation. *)
Definition dedents (c : char) : Prop := c = DEDENT_S y \/ c = DEDENT_T y.
Definition follow : str -> Prop := starts (fun c => c = NL \/ dedents c).
(** What follows a line. *)
Definition lfollow : str -> Prop := starts (fun c => c = NL \/ In c (symbol_chars y)).
(** The beginning of the text below a tag, or what follows. *)
Definition quiet : str -> Prop := starts (fun c => c = NL \/ 10088 <= c).

Lemma dedents_high c : dedents c -> 10088 <= c.
Proof. intros H. apply sym_high. unfold symbol_chars, symbol_list. destruct H as [-> | ->]; cbn; tauto. Qed.
Lemma dedents_differ c : dedents c -> c <> INDENT_S y /\ c <> INDENT_T y.
Proof.
  intros H. pose proof sym_nodup as D. unfold symbol_chars, symbol_list in D.
  inversion D as [|a l N1 D1]; subst. inversion D1 as [|a l N2 D2]; subst. inversion D2 as [|a l N3 D3]; subst. inversion D3 as [|a l N4 D4]; subst.
  cbn in *. destruct H as [-> | ->]; split; intros E; rewrite ?E in *; tauto.
Qed.
Lemma follow_quiet r : follow r -> quiet r.
Proof. apply starts_imp. intros c [->|H]; [left; reflexivity|right; apply dedents_high, H]. Qed.
Lemma sym_In : In (INDENT_S y) (symbol_chars y) /\ In (INDENT_T y) (symbol_chars y) /\ In (DEDENT_S y) (symbol_chars y) /\ In (DEDENT_T y) (symbol_chars y).
Proof. unfold symbol_chars, symbol_list. cbn. tauto. Qed.
Lemma follow_l r : follow r -> lfollow r.
Proof. apply starts_imp. intros c [->|H]; [left; reflexivity|right]. pose proof sym_In as (_ & _ & H1 & H2). destruct H as [-> | ->]; assumption. Qed.
Lemma lfollow_quiet r : lfollow r -> quiet r.
Proof. apply starts_imp. intros c [->|H]; [left; reflexivity|right; apply sym_high, H]. Qed.
Lemma ind_high w : starts (fun c => 10088 <= c) (inds y w).
Proof.
  destruct w as [|c w]; [constructor|]. constructor. pose proof sym_In as (H1 & H2 & _). unfold ind_sym. destruct (c =? SP); apply sym_high; assumption.
Qed.

Lemma sem_lit_empty s : sem (PLit []) s (Some s).
Proof. exact (sem_lit G [] s). Qed.
Lemma sem_ws_none s : starts (fun c => cls_blank c = false) s -> sem (PRef R_ws) s (Some s).
Proof.
  intros H. apply sem_ref. cbn [grammar]. assert (E : rx_match rx_ws s = Some 0%nat) by (apply (rx_star_stop cls_blank []); [intros c []|exact H]).
  pose proof (sem_rx G rx_ws s _ E) as K. exact K.
Qed.
Lemma sem_ws_one s : starts (fun c => cls_blank c = false) s -> sem (PRef R_ws) (SP :: s) (Some s).
Proof.
  intros H. apply sem_ref. cbn [grammar]. assert (E : rx_match rx_ws (SP :: s) = Some 1%nat) by (apply (rx_star_stop cls_blank [SP]); [intros c [<-|[]]; reflexivity|exact H]).
  pose proof (sem_rx G rx_ws (SP :: s) _ E) as K. exact K.
Qed.
Lemma sem_space_one s : starts (fun c => cls_blank c = false) s -> sem (PRef R_space) (SP :: s) (Some s).
Proof.
  intros H. apply sem_ref. cbn [grammar]. assert (E : rx_match rx_space (SP :: s) = Some 1%nat) by (apply (rx_plus_stop cls_blank [SP]); [discriminate|intros c [<-|[]]; reflexivity|exact H]).
  pose proof (sem_rx G rx_space (SP :: s) _ E) as K. exact K.
Qed.
Lemma quiet_blank s : quiet s -> starts (fun c => cls_blank c = false) s.
Proof. apply starts_imp. intros c H. unfold cls_blank, cls_in, SP, TAB, NL in *. cbn. lia. Qed.

(** Failure on [s] that starts with a newline or a symbol; the first of a sequence may be blanks. *)
Ltac no_lit := apply lit_no; vm_compute; (exact Logic.I || lia).
Ltac no_step :=
  match goal with
  | |- PegSpec.sem _ (PRef R_indent_s) _ _ => fail 1
  | |- PegSpec.sem _ (PRef R_indent_t) _ _ => fail 1
  | |- PegSpec.sem _ (PRef R_dedent_s) _ _ => fail 1
  | |- PegSpec.sem _ (PRef R_dedent_t) _ _ => fail 1
  | |- PegSpec.sem _ (PRef _) _ None => apply sem_ref; cbn [grammar]
  | |- PegSpec.sem _ (PAlt []) _ None => apply sem_alt_nil
  | |- PegSpec.sem _ (PAlt _) _ None => apply sem_alt_next
  | |- PegSpec.sem _ (PSeq (PRef R_ws :: _)) _ None => eapply sem_seq_cons; [apply sem_ws_none|]
  | |- PegSpec.sem _ (PSeq (POpt _ :: _)) _ None => eapply sem_seq_cons; [apply sem_opt_no|]
  | |- PegSpec.sem _ (PSeq _) _ None => apply sem_seq_no
  | |- PegSpec.sem _ (PPlus _) _ None => apply sem_plus_no
  | |- PegSpec.sem _ (PLit _) _ None => no_lit
  | |- PegSpec.sem _ (PRx _) _ None => apply sem_rx_no, rx_first; [reflexivity|]
  end.

Lemma no_attr_short s : quiet s -> sem (PRef R_attr_short) s None.
Proof. intros H. destruct H as [|c r H]; [|unfold NL in H]; repeat no_step. Qed.
Lemma no_space s : quiet s -> sem (PRef R_space) s None.
Proof.
  intros H. repeat no_step. revert H. apply starts_imp. intros c H. unfold cls_blank, cls_in, SP, TAB, NL in *. cbn. unfold cls_blank, cls_in. cbn. unfold SP, TAB. lia.
Qed.
Lemma no_mark_struct s : quiet s -> sem (PRef R_mark_struct) s None.
Proof. intros H. destruct H as [|c r H]; [|unfold NL in H]; repeat no_step. Qed.
Lemma no_ws_struct s l : quiet s -> sem (PSeq (PRef R_ws :: PRef R_mark_struct :: l)) s None.
Proof. intros H. eapply sem_seq_cons; [apply sem_ws_none, quiet_blank, H|]. apply sem_seq_no, no_mark_struct, H. Qed.
Lemma no_body_text s : quiet s -> sem (PRef R_body_text) s None.
Proof. intros H. destruct H as [|c r H]; [|unfold NL in H]; repeat no_step. Qed.
Lemma no_ws_body s : quiet s -> sem (PSeq [PRef R_ws; PRef R_body_text]) s None.
Proof. intros H. eapply sem_seq_cons; [apply sem_ws_none, quiet_blank, H|]. apply sem_seq_no, no_body_text, H. Qed.
Lemma no_headline s : quiet s -> sem (PRef R_headline) s None.
Proof. intros H. destruct H as [|c r H]; [|unfold NL in H]; repeat no_step. Qed.
Lemma no_ws_headline s : quiet s -> sem (PSeq [PRef R_ws; PRef R_headline]) s None.
Proof. intros H. eapply sem_seq_cons; [apply sem_ws_none, quiet_blank, H|]. apply sem_seq_no, no_headline, H. Qed.
Lemma no_mark_comment s : quiet s -> sem (PRef R_mark_comment) s None.
Proof.
  intros H. repeat no_step. revert H. apply starts_imp. intros c H. unfold NL in H. change (nf rx_mark_comment c) with (negb (45 =? c) && negb (35 =? c)). lia.
Qed.
Lemma no_inline_comment s : quiet s -> sem (PRef R_inline_comment) s None.
Proof. intros H. apply sem_ref. cbn [grammar]. eapply sem_seq_cons; [apply sem_ws_none, quiet_blank, H|]. apply sem_seq_no, no_mark_comment, H. Qed.
Lemma no_indent s l l' : follow s -> sem (PAlt [PSeq (PRef R_indent_s :: l); PSeq (PRef R_indent_t :: l')]) s None.
Proof.
  pose proof sym_In as (H1 & H2 & _). apply sym_high in H1, H2. intros H. destruct H as [|c r H].
  - apply sem_alt_next; [apply sem_seq_no, sem_ref, lit_no; exact Logic.I|apply sem_alt_next; [apply sem_seq_no, sem_ref, lit_no; exact Logic.I|apply sem_alt_nil]].
  - assert (D : c <> INDENT_S y /\ c <> INDENT_T y) by (destruct H as [->|H]; [unfold NL; lia|apply dedents_differ, H]). destruct D as [D1 D2].
    apply sem_alt_next; [apply sem_seq_no, sem_ref, lit_no; exact D1|apply sem_alt_next; [apply sem_seq_no, sem_ref, lit_no; exact D2|apply sem_alt_nil]].
Qed.
Lemma no_tail_blocks s : follow s -> sem (PRef R_tail_blocks) s None.
Proof. intros H. apply sem_ref. cbn [grammar]. apply no_indent, H. Qed.

(** ** Pieces of text *)

Definition no_sym (x : str) : Prop := forall c, In c x -> ~ In c (symbol_chars y).

Lemma escape_piece c p r : special c = true -> makes (PRef R_escape) p [c; c] r [(Some R_escape, SStatic [c])].
Proof.
  intros Hc. node_of (@nil (option rule * syn)).
  - apply makes_rx. unfold special in Hc. apply orb_true_iff in Hc. rewrite orb_true_iff, !N.eqb_eq in Hc.
    destruct Hc as [[-> | ->] | ->]; reflexivity.
  - cbn [setup]. rewrite N.eqb_refl. reflexivity.
Qed.
Lemma no_escape s : starts (fun c => special c = false) s -> sem (PRef R_escape) s None.
Proof.
  intros H. repeat no_step. revert H. apply starts_imp. intros c H. change (nf rx_escape c) with (negb (36 =? c) && (negb (123 =? c) && negb (125 =? c))).
  unfold special in H. lia.
Qed.
Lemma no_embedding s : starts (fun c => special c = false) s -> sem (PRef R_embedding) s None.
Proof. intros H. destruct H as [|c r H]; [repeat no_step|]. unfold special in H. assert (c <> 36 /\ c <> 123) as [D1 D2] by lia. clear H. repeat no_step. Qed.

(** A rule for runs of other characters. *)
Section Pieces.
Variables (T : rule) (q : char -> bool).
Hypothesis HT : G T = PRx (rx_plus q).
Hypothesis Tplain : ignored T = false /\ reduced T = false /\ compacted T = false /\ T <> R_qualifier.
Variable good : char -> Prop.
Hypothesis Tset : forall p x, (forall c, In c x -> good c) -> setup X full T p x [] QNone = Ok (SStatic x).
Hypothesis q_special : forall c, special c = true -> q c = false.

Definition piece : peg rule := PAlt [PRef R_escape; PRef R_embedding; PRef T].

Lemma no_piece s : starts (fun c => special c = false /\ q c = false) s -> sem piece s None.
Proof.
  intros H. assert (H' : starts (fun c => special c = false) s) by (revert H; apply starts_imp; intros c [K _]; exact K).
  apply sem_alt_next; [apply no_escape, H'|]. apply sem_alt_next; [apply no_embedding, H'|].
  apply sem_alt_next; [|apply sem_alt_nil]. apply sem_ref. rewrite HT. apply sem_rx_no, rx_first; [reflexivity|]. revert H. apply starts_imp.
  intros c [_ H]. cbn. rewrite H. reflexivity.
Qed.

Lemma text_piece x p r : x <> [] -> (forall c, In c x -> q c = true) -> (forall c, In c x -> good c) -> starts (fun c => q c = false) r ->
  makes piece p x r [(Some T, SStatic x)].
Proof.
  intros Hx Hq Hb Hr. assert (Hs : starts (fun c => special c = false) (x ++ r)).
  { destruct x as [|c x]; [congruence|]. constructor. destruct (special c) eqn:E; [|reflexivity]. apply q_special in E. rewrite (Hq c (or_introl eq_refl)) in E. discriminate. }
  apply makes_alt_next; [apply no_escape, Hs|]. apply makes_alt_next; [apply no_embedding, Hs|]. apply makes_alt_first.
  destruct Tplain as (T1 & T2 & T3 & T4). apply makes_node with (ks := []); try assumption.
  - rewrite T3. discriminate.
  - rewrite HT. apply makes_rx, rx_plus_stop; assumption.
  - apply Tset. exact Hb.
Qed.

Definition textp (qs : list str) : list part := map PText qs.

(** The run of characters other than special ones. *)
Lemma run x : exists a b, x = a ++ b /\ (forall c, In c a -> special c = false) /\ starts (fun c => special c = true) b /\ double x = a ++ double b.
Proof.
  induction x as [|c x (a & b & -> & Ha & Hb & Ed)]; [exists [], []; repeat split; [intros c []|constructor]|].
  destruct (special c) eqn:E.
  - exists [], (c :: a ++ b). repeat split; [intros z []|constructor; exact E].
  - exists (c :: a), b. repeat split; [intros z [<-|H]; auto|exact Hb|]. unfold double in *. cbn [flat_map app]. rewrite E, Ed. reflexivity.
Qed.
Lemma double_starts b : starts (fun c => special c = true) b -> starts (fun c => special c = true) (double b).
Proof. intros [|c r H]; [constructor|]. unfold double. cbn [flat_map]. rewrite H. constructor. exact H. Qed.

Lemma pieces n : forall x, (List.length x <= n)%nat -> forall p r, (forall c, In c x -> special c = false -> q c = true) -> (forall c, In c x -> good c) ->
  starts (fun c => special c = false /\ q c = false) r ->
  exists ks qs, makes_loop piece p (double x) r ks /\ parts_of ks = Ok (textp qs) /\ List.concat qs = x.
Proof.
  induction n as [|n IH]; intros x Hn p r Hx Hb Hr.
  - destruct x; [|cbn in Hn; lia]. exists [], []. split; [|split; reflexivity]. apply loop_nil, no_piece, Hr.
  - destruct (run x) as (a & b & -> & Ha & Hs & Ed). rewrite Ed. destruct a as [|c a].
    + cbn [app] in *. destruct b as [|c b].
      * exists [], []. split; [|split; reflexivity]. apply loop_nil, no_piece, Hr.
      * assert (Hc : special c = true) by (inversion Hs; assumption).
        destruct (IH b ltac:(cbn in Hn; lia) (p + List.length [c; c])%nat r) as (ks & qs & K & Kp & Kc).
        { intros z I. apply Hx. right. exact I. } { intros z I. apply Hb. right. exact I. } { exact Hr. }
        exists ((Some R_escape, SStatic [c]) :: ks), ([c] :: qs). split; [|split; [cbn [parts_of]; rewrite Kp; reflexivity|cbn [List.concat]; rewrite Kc; reflexivity]].
        assert (E : double (c :: b) = [c; c] ++ double b) by (unfold double; cbn [flat_map]; rewrite Hc; reflexivity). rewrite E.
        change ((Some R_escape, SStatic [c]) :: ks) with ([(Some R_escape, SStatic [c])] ++ ks). apply loop_cons; [discriminate| |exact K].
        apply makes_alt_first, escape_piece, Hc.
    + destruct (IH b ltac:(rewrite app_length in Hn; cbn in Hn; lia) (p + List.length (c :: a))%nat r) as (ks & qs & K & Kp & Kc).
      { intros z I. apply Hx. apply in_or_app. right. exact I. } { intros z I. apply Hb. apply in_or_app. right. exact I. } { exact Hr. }
      exists ((Some T, SStatic (c :: a)) :: ks), ((c :: a) :: qs). split; [|split; [cbn [parts_of]; rewrite Kp; reflexivity|cbn [List.concat]; rewrite Kc; reflexivity]].
      change ((Some T, SStatic (c :: a)) :: ks) with ([(Some T, SStatic (c :: a))] ++ ks). apply loop_cons; [discriminate| |exact K].
      apply text_piece; [discriminate| | |].
      * intros z I. apply Hx; [apply in_or_app; left; exact I|apply Ha, I].
      * intros z I. apply Hb. apply in_or_app. left. exact I.
      * apply double_starts in Hs. destruct b as [|d b].
        { revert Hr. apply starts_imp. intros z [_ K']. exact K'. }
        apply starts_app; [unfold double; cbn [flat_map]; destruct (special d); discriminate|]. revert Hs. apply starts_imp. intros z. apply q_special.
Qed.
End Pieces.

Lemma seq_eq l p x x' r ks ks' : x = x' -> ks = ks' -> makes_seq l p x r ks -> makes_seq l p x' r ks'.
Proof. intros -> ->. exact (fun H => H). Qed.
Lemma makes_eq e p x x' r ks ks' : x = x' -> ks = ks' -> makes e p x r ks -> makes e p x' r ks'.
Proof. intros -> ->. exact (fun H => H). Qed.
Lemma makes_plit p r : makes (PLit []) p [] r [].
Proof. exact (makes_lit X y full [] p r). Qed.

(** ** Text blocks *)

Definition titems (k : style) (z : str) (l : list titem) : Prop :=
  match k with
  | Verbatim => (z = [] /\ l = []) \/ (z <> [] /\ l = [TxLine (LVerbat z)])
  | Plain => (z = [] /\ l = []) \/ (z <> [] /\ exists qs, l = [TxLine (LNormal (textp qs))] /\ List.concat qs = z)
  | Markup => (z = [] /\ l = []) \/ (z <> [] /\ exists qs, l = [TxLine (LMarkup (textp qs))] /\ List.concat qs = z)
  end.

Lemma mem_true c l : mem c l = true <-> In c l.
Proof. apply mem_In. Qed.
Lemma cls_not_in l c : In c l -> cls_not l c = false.
Proof. intros H. unfold cls_not. apply mem_true in H. rewrite H. reflexivity. Qed.
Lemma cls_not_out l c : ~ In c l -> cls_not l c = true.
Proof. intros H. unfold cls_not. destruct (mem c l) eqn:E; [|reflexivity]. apply mem_true in E. contradiction. Qed.
Lemma cls_keep x l : no_sym x -> ~ In NL x -> (forall c, In c x -> ~ In c l) -> forall c, In c x -> cls_not (symbol_list y ++ [NL] ++ l) c = true.
Proof.
  intros Hs Hn Hl c I. apply cls_not_out. intros K. apply in_app_or in K. destruct K as [K|K]; [exact (Hs c I K)|].
  destruct K as [<-|K]; [contradiction|exact (Hl c I K)].
Qed.
Lemma cls_stop r l : lfollow r -> starts (fun c => cls_not (symbol_list y ++ [NL] ++ l) c = false) r.
Proof.
  apply starts_imp. intros c H. apply cls_not_in, in_or_app. destruct H as [->|H]; [right; left; reflexivity|]. left. exact H.
Qed.
Lemma follow_special r : lfollow r -> starts (fun c => special c = false) r.
Proof. intros H. apply lfollow_quiet in H. revert H. apply starts_imp. intros c H. unfold special, NL in *. lia. Qed.
Lemma starts_and P Q s : starts P s -> starts Q s -> starts (fun c => P c /\ Q c) s.
Proof. intros [|c r H] K; constructor. split; [exact H|inversion K; assumption]. Qed.

Definition qtext (l : str) : char -> bool := cls_not (symbol_list y ++ [NL] ++ 36 :: 123 :: 125 :: l).
Lemma G_text : G R_text = PRx (rx_plus (qtext [])).
Proof. unfold qtext. change [36; 123; 125] with (u "${}"). reflexivity. Qed.
Lemma G_text_quot2 : G R_text_quot2 = PRx (rx_plus (qtext [34])).
Proof. unfold qtext. change [36; 123; 125; 34] with (u "${}"""). reflexivity. Qed.
Lemma text_special l c : special c = true -> qtext l c = false.
Proof.
  intros H. unfold qtext. apply cls_not_in, in_or_app. right. right. unfold special in H.
  assert (D : 36 = c \/ 123 = c \/ 125 = c) by lia. cbn [In app]. tauto.
Qed.
Lemma text_ordinary x l : no_sym x -> ~ In NL x -> (forall c, In c x -> ~ In c l) ->
  forall c, In c x -> special c = false -> qtext l c = true.
Proof.
  intros Hs Hn Hl c I E. unfold qtext. apply cls_not_out. intros K. apply in_app_or in K. destruct K as [K|K]; [exact (Hs c I K)|].
  destruct K as [<-|[<-|[<-|[<-|K]]]]; [contradiction|discriminate|discriminate|discriminate|exact (Hl c I K)].
Qed.

Lemma text_plain : ignored R_text = false /\ reduced R_text = false /\ compacted R_text = false /\ R_text <> R_qualifier.
Proof. repeat split; try reflexivity. discriminate. Qed.
Lemma text_set p x : (forall c : char, In c x -> True) -> setup X full R_text p x [] QNone = Ok (SStatic x).
Proof. reflexivity. Qed.
Lemma line_markup z p r : z <> [] -> no_sym z -> ~ In NL z -> follow r ->
  exists qs, makes (PRef R_line_markup) p (double z) r [(Some R_line_markup, SLine (LMarkup (textp qs)))] /\ List.concat qs = z.
Proof.
  intros Hz Hs Hn Hr.
  destruct (pieces R_text (qtext []) G_text text_plain (fun _ => True) text_set (text_special []) (List.length z) z (le_n _) p r) as (ks & qs & K & Kp & Kc).
  - apply text_ordinary; [exact Hs|exact Hn|]. intros c _ [].
  - intros; exact Logic.I.
  - apply follow_l in Hr. apply starts_and; [apply follow_special, Hr|apply cls_stop, Hr].
  - exists qs. split; [|exact Kc]. node_of ks.
    + cbn [grammar]. apply makes_plus; [|exact K]. destruct z as [|c z]; [congruence|]. unfold double. cbn [flat_map]. destruct (special c); discriminate.
    + cbn [setup]. rewrite Kp. reflexivity.
Qed.
Lemma line_normal z p r : z <> [] -> no_sym z -> ~ In NL z -> follow r ->
  exists qs, makes (PRef R_line_normal) p (double z) r [(Some R_line_normal, SLine (LNormal (textp qs)))] /\ List.concat qs = z.
Proof.
  intros Hz Hs Hn Hr. destruct (line_markup z p r Hz Hs Hn Hr) as (qs & K & Kc). exists qs. split; [|exact Kc].
  node.
  - cbn [grammar]. apply makes_seq_i. eapply seq_eq; [| |eapply seq_cons; [|eapply seq_cons; [apply makes_plit|apply seq_nil]]].
    + apply app_nil_r.
    + apply app_nil_r.
    + exact K.
  - reflexivity.
Qed.
Lemma line_verbat_l z p r : z <> [] -> no_sym z -> ~ In NL z -> lfollow r ->
  makes (PRef R_line_verbat) p z r [(Some R_line_verbat, SLine (LVerbat z))].
Proof.
  intros Hz Hs Hn Hr. node.
  - cbn [grammar]. apply makes_seq_i. eapply seq_eq; [| |eapply seq_cons; [|eapply seq_cons; [apply makes_plit|apply seq_nil]]].
    + apply app_nil_r.
    + apply app_nil_r.
    + apply makes_ignored; [reflexivity|]. apply sem_ref. cbn [grammar]. apply (makes_sem X y full _ 0 _ _ []), makes_rx, rx_plus_stop;
        [exact Hz|apply (cls_keep z []); [exact Hs|exact Hn|intros c _ []]|apply (cls_stop r []), Hr].
  - reflexivity.
Qed.

Lemma line_verbat z p r : z <> [] -> no_sym z -> ~ In NL z -> follow r ->
  makes (PRef R_line_verbat) p z r [(Some R_line_verbat, SLine (LVerbat z))].
Proof. intros Hz Hs Hn Hr. apply line_verbat_l; try assumption. apply follow_l, Hr. Qed.

Lemma no_line_verbat_l r : lfollow r -> sem (PRef R_line_verbat) r None.
Proof.
  intros H. apply sem_ref. cbn [grammar]. apply sem_seq_no, sem_ref. cbn [grammar]. apply sem_rx_no, rx_first; [reflexivity|].
  apply (cls_stop r []) in H. revert H. apply starts_imp. intros c H. change (nf (rx_verbatim y) c) with (negb (cls_not (symbol_list y ++ [NL] ++ []) c)). rewrite H. reflexivity.
Qed.
Lemma no_line_markup_l r : lfollow r -> sem (PRef R_line_markup) r None.
Proof.
  intros H. apply sem_ref. cbn [grammar]. apply sem_plus_no. apply (no_piece R_text (qtext []) G_text).
  apply starts_and; [apply follow_special, H|]. apply cls_stop, H.
Qed.
Lemma no_line_normal_l r : lfollow r -> sem (PRef R_line_normal) r None.
Proof. intros H. apply sem_ref. cbn [grammar]. apply sem_seq_no, no_line_markup_l, H. Qed.
Lemma no_line_verbat r : follow r -> sem (PRef R_line_verbat) r None.
Proof. intros H. apply no_line_verbat_l, follow_l, H. Qed.
Lemma no_line_markup r : follow r -> sem (PRef R_line_markup) r None.
Proof. intros H. apply no_line_markup_l, follow_l, H. Qed.
Lemma no_line_normal r : follow r -> sem (PRef R_line_normal) r None.
Proof. intros H. apply no_line_normal_l, follow_l, H. Qed.

Lemma literal_node r p x rest : G r = PLit x -> ignored r = true -> makes (PRef r) p x rest [].
Proof. intros E H. apply makes_ignored; [exact H|]. apply sem_ref. rewrite E. apply sem_lit. Qed.

Definition text_rule (k : style) : rule := match k with Plain => R_block_normal | Markup => R_block_markup | Verbatim => R_block_verbat end.

(** One line with a mark. *)
Lemma text_seq mark ln tl k x z p r ks l :
  makes (PRef mark) p [z] (x ++ r) [] ->
  makes (POpt (PRef ln)) (p + 1)%nat x r ks ->
  sem (PRef tl) r None ->
  mapr titem_of ks = Ok l ->
  G (text_rule k) = PSeq [PRef mark; POpt (PRef ln); POpt (PRef tl)] ->
  makes (PRef (text_rule k)) p (z :: x) r [(Some (text_rule k), SBlock (BText (column full p) l))].
Proof.
  intros M L T E Eg. apply makes_node with (ks := ks); [destruct k; reflexivity|destruct k; reflexivity|destruct k; discriminate|destruct k; discriminate| |].
  - rewrite Eg. apply makes_seq_i. apply (seq_eq _ p ([z] ++ x ++ []) _ r ([] ++ ks ++ [])); [rewrite app_nil_r; reflexivity|apply app_nil_r|].
    apply seq_cons; [rewrite app_nil_r; exact M|]. apply seq_cons; [exact L|]. apply (seq_cons X y full _ _ _ [] [] r [] []); [apply makes_opt_no, T|apply seq_nil].
  - destruct k; cbn [setup text_rule]; rewrite E; reflexivity.
Qed.

Lemma text_block k z p r : no_sym z -> ~ In NL z -> follow r -> exists l,
  makes (PRef R_body_text) p (style_mark k ++ code k z) r [(Some (text_rule k), SBlock (BText (column full p) l))] /\ titems k z l.
Proof.
  intros Hs Hn Hr. destruct k; cbn [style_mark code titems text_rule].
  - assert (exists ks l, makes (POpt (PRef R_line_normal)) (p + 1)%nat (double z) r ks /\ mapr titem_of ks = Ok l /\ titems Plain z l) as (ks & l & K & E & T).
    { destruct z as [|c z]; [exists [], []; repeat split; [apply makes_opt_no, no_line_normal, Hr|left; split; reflexivity]|].
      destruct (line_normal (c :: z) (p + 1)%nat r ltac:(discriminate) Hs Hn Hr) as (qs & M & Mc).
      eexists _, [TxLine (LNormal (textp qs))]. split; [apply makes_opt, M|]. split; [reflexivity|]. right. split; [discriminate|]. exists qs. split; [reflexivity|exact Mc]. }
    exists l. split; [|exact T]. apply makes_reduced; [reflexivity|reflexivity|]. cbn [grammar].
    apply makes_alt_next; [apply (fails G 20 _ 0); vm_compute; reflexivity|]. apply makes_alt_first.
    apply (text_seq R_mark_normal R_line_normal R_tail_normal Plain) with (ks := ks); [|exact K|apply sem_ref; cbn [grammar]; apply no_indent, Hr|exact E|reflexivity].
    apply literal_node; reflexivity.
  - assert (exists ks l, makes (POpt (PRef R_line_markup)) (p + 1)%nat (double z) r ks /\ mapr titem_of ks = Ok l /\ titems Markup z l) as (ks & l & K & E & T).
    { destruct z as [|c z]; [exists [], []; repeat split; [apply makes_opt_no, no_line_markup, Hr|left; split; reflexivity]|].
      destruct (line_markup (c :: z) (p + 1)%nat r ltac:(discriminate) Hs Hn Hr) as (qs & M & Mc).
      eexists _, [TxLine (LMarkup (textp qs))]. split; [apply makes_opt, M|]. split; [reflexivity|]. right. split; [discriminate|]. exists qs. split; [reflexivity|exact Mc]. }
    exists l. split; [|exact T]. apply makes_reduced; [reflexivity|reflexivity|]. cbn [grammar].
    apply makes_alt_next; [apply (fails G 20 _ 0); vm_compute; reflexivity|]. apply makes_alt_next; [apply (fails G 20 _ 0); vm_compute; reflexivity|]. apply makes_alt_first.
    apply (text_seq R_mark_markup R_line_markup R_tail_markup Markup) with (ks := ks); [|exact K|apply sem_ref; cbn [grammar]; apply no_indent, Hr|exact E|reflexivity].
    apply literal_node; reflexivity.
  - assert (exists ks l, makes (POpt (PRef R_line_verbat)) (p + 1)%nat z r ks /\ mapr titem_of ks = Ok l /\ titems Verbatim z l) as (ks & l & K & E & T).
    { destruct z as [|c z]; [exists [], []; repeat split; [apply makes_opt_no, no_line_verbat, Hr|left; split; reflexivity]|].
      pose proof (line_verbat (c :: z) (p + 1)%nat r ltac:(discriminate) Hs Hn Hr) as M.
      eexists _, [TxLine (LVerbat (c :: z))]. split; [apply makes_opt, M|]. split; [reflexivity|]. right. split; [discriminate|reflexivity]. }
    exists l. split; [|exact T]. apply makes_reduced; [reflexivity|reflexivity|]. cbn [grammar]. apply makes_alt_first.
    apply (text_seq R_mark_verbat R_line_verbat R_tail_verbat Verbatim) with (ks := ks); [|exact K|apply sem_ref; cbn [grammar]; apply no_indent, Hr|exact E|reflexivity].
    apply literal_node; reflexivity.
Qed.

(** ** Names *)

Definition idc (c : char) : Prop := letter c || digit c = true.
Lemma letter_ascii c : letter c = true -> (65 <= c <= 90) \/ (97 <= c <= 122) \/ c = 95.
Proof. unfold letter. lia. Qed.
Lemma letter_blank c : letter c = true -> cls_blank c = false.
Proof. intros H. apply letter_ascii in H. unfold cls_blank, cls_in. cbn [existsb]. unfold SP, TAB, mem. cbn [existsb]. lia. Qed.
Lemma idc_cls c : idc c -> cls_id c = true.
Proof. unfold idc, letter, digit, cls_id, cls_az, between. lia. Qed.
Lemma letter_cls c : letter c = true -> cls_id_start c = true.
Proof. unfold letter, cls_id_start, cls_az, between. lia. Qed.
Lemma idc_word c : idc c -> cls_word U c = true.
Proof. unfold idc, letter, digit, cls_word, between. lia. Qed.

Lemma flat_map_none {A B} (f : A -> list B) l : (forall a, In a l -> f a = []) -> flat_map f l = [].
Proof. induction l as [|a l IH]; intros H; [reflexivity|]. cbn [flat_map]. rewrite (H a (or_introl eq_refl)), IH; [reflexivity|]. intros z I. apply H. right. exact I. Qed.
Lemma rx_alts_in l : forall x s m, In m (rx_all (rx_alts x l) s) -> exists z, In z (x :: l) /\ In m (rx_all z s).
Proof.
  induction l as [|b l IH]; intros x s m H; cbn [rx_alts] in H; [exists x; split; [left; reflexivity|exact H]|].
  cbn [rx_all] in H. apply in_app_or in H. destruct H as [H|H]; [exists x; split; [left; reflexivity|exact H]|].
  destruct (IH b s m H) as (z & Iz & Hz). exists z. split; [right; exact Iz|exact Hz].
Qed.
Lemma rx_lit_in l : forall s m, In m (rx_all (rx_lit l) s) -> m = List.length l /\ exists r, s = l ++ r.
Proof.
  induction l as [|c l IH]; intros s m H; cbn [rx_lit rx_all] in H.
  - destruct H as [<-|[]]. split; [reflexivity|]. exists s. reflexivity.
  - destruct s as [|d s]; [destruct H|]. destruct (N.eqb_spec c d) as [<-|]; [|destruct H]. cbn [flat_map skipn] in H. rewrite app_nil_r in H.
    apply in_map_iff in H. destruct H as (m' & <- & H). destruct (IH s m' H) as [-> (r & ->)]. split; [reflexivity|]. exists r. reflexivity.
Qed.

(** A text that begins with a name followed by a character that does not belong to names. *)
Definition stop (f : str) : Prop := starts (fun c => cls_id c = false) f.

Lemma name_word n l f r : stop f -> (forall c, In c l -> letter c = true) -> n ++ f = l ++ r -> 
  (n = l /\ f = r) \/ exists d m, n = l ++ d :: m /\ r = d :: m ++ f.
Proof.
  intros Hf Hl E. apply app_eq_app in E. destruct E as (z & [[E1 E2]|[E1 E2]]).
  - destruct z as [|d z]; [left; rewrite app_nil_r in E1; split; [exact E1|symmetry; exact E2]|]. right. exists d, z. split; assumption.
  - destruct z as [|d z]; [left; rewrite app_nil_r in E1; split; [symmetry; exact E1|exact E2]|]. exfalso. subst f. inversion Hf as [|c q Hc]; subst.
    assert (L : letter d = true) by (apply Hl; apply in_or_app; right; left; reflexivity). rewrite idc_cls in Hc by (unfold idc; rewrite L; reflexivity). discriminate.
Qed.

Lemma keyword_letters l : In l keywords -> forall c, In c l -> letter c = true.
Proof. intros H. unfold keywords in H. cbn in H. intros c I. repeat (destruct H as [<-|H]; [cbn in I; repeat (destruct I as [<-|I]; [reflexivity|]); destruct I|]). destruct H. Qed.

Lemma name_first n : tag_name n -> exists c r, n = c :: r /\ letter c = true /\ forall d, In d r -> idc d.
Proof. intros ((c & r & E & Hc & Hr) & _). exists c, r. split; [exact E|]. split; [exact Hc|]. intros d I. apply Hr, I. Qed.
Lemma name_idc n : tag_name n -> forall d, In d n -> idc d.
Proof. intros H. destruct (name_first n H) as (c & r & -> & Hc & Hr). intros d [<-|I]; [unfold idc; rewrite Hc; reflexivity|apply Hr, I]. Qed.

Lemma not_reserved n f : tag_name n -> stop f -> rx_match (rx_reserved U) (n ++ f) = None.
Proof.
  intros Hn Hf. unfold rx_match. assert (E : rx_all (rx_reserved U) (n ++ f) = []); [|rewrite E; reflexivity].
  unfold rx_reserved. cbn [rx_all]. apply flat_map_none. intros m I. apply rx_alts_in in I. destruct I as (z & Iz & Hz).
  assert (exists l, In l keywords /\ z = rx_lit l) as (l & Il & ->).
  { destruct Iz as [<-|Iz]; [exists (u "from"); split; [left; reflexivity|reflexivity]|]. apply in_map_iff in Iz. destruct Iz as (l & <- & Il). exists l. split; [right; exact Il|reflexivity]. }
  destruct (rx_lit_in l _ _ Hz) as [-> (r & E)]. rewrite E, skipn_app, skipn_all, Nat.sub_diag. cbn [app skipn].
  destruct (name_word n l f r Hf (keyword_letters l Il) E) as [[-> _]|(d & q & En & ->)].
  - exfalso. apply (proj1 (proj2 Hn)), Il.
  - rewrite (idc_word d); [reflexivity|]. apply (name_idc n Hn). rewrite En. apply in_or_app. right. left. reflexivity.
Qed.

Lemma name_id n p f : tag_name n -> stop f -> makes (PRef R_name_id) p n f [(Some R_name_id, SStatic n)].
Proof.
  intros Hn Hf. node_of (@nil (option rule * syn)); [|reflexivity]. cbn [grammar]. apply makes_seq_i.
  apply (seq_eq _ p ([] ++ n ++ []) _ f ([] ++ [] ++ [])); [apply app_nil_r|reflexivity|].
  apply seq_cons; [rewrite app_nil_r; apply makes_not, sem_ref; cbn [grammar]; apply sem_rx_no, not_reserved; assumption|].
  apply seq_cons; [|apply seq_nil]. apply makes_rx. destruct (name_first n Hn) as (c & r & -> & Hc & Hr). unfold rx_match, rx_name_id. cbn [rx_all app].
  rewrite (letter_cls c Hc). cbn [flat_map skipn]. rewrite span_stop; [|intros d I; apply idc_cls, Hr, I|exact Hf]. destruct (List.length r) eqn:E; cbn; rewrite ?E; reflexivity.
Qed.

(** A keyword in front of a rule that does not begin with a letter, digit or underscore. *)
Lemma keyword_no n f l e es : tag_name n -> stop f -> In l keywords -> (forall d s, idc d -> sem e (d :: s) None) -> sem (PSeq (PLit l :: e :: es)) (n ++ f) None.
Proof.
  intros Hn Hf Hl He. destruct (startswith l (n ++ f)) eqn:E.
  - apply PegFacts.startswith_app in E. destruct (name_word n l f _ Hf (keyword_letters l Hl) E) as [[-> _]|(d & q & En & Er)].
    + exfalso. apply (proj1 (proj2 Hn)), Hl.
    + rewrite E. eapply sem_seq_cons; [apply sem_lit|]. rewrite Er. apply sem_seq_no, He. apply (name_idc n Hn). rewrite En. apply in_or_app. right. left. reflexivity.
  - apply sem_seq_no, sem_lit_no. intros r K. rewrite K, PyStrFacts.startswith_app in E. discriminate.
Qed.

Lemma space_idc d s : idc d -> sem (PRef R_space) (d :: s) None.
Proof.
  intros H. repeat no_step. constructor. cbn. unfold cls_blank, cls_in. cbn. unfold idc, letter, digit in H. unfold SP, TAB. lia.
Qed.

(** ** What follows a tag *)

Definition mark (c : char) : Prop := c = 124 \/ c = 47 \/ c = 33.
Definition tfollow (f : str) : Prop := quiet f \/ exists c g, f = SP :: c :: g /\ mark c.
(** With attributes before it. *)
Definition afollow (f : str) : Prop := quiet f \/ exists c g, f = SP :: c :: g /\ (letter c = true \/ mark c).

Lemma afollow_stop f : afollow f -> stop f.
Proof.
  intros [H|(c & g & -> & _)]; [|constructor; reflexivity]. revert H. apply starts_imp. intros c H. unfold NL in H. unfold cls_id, cls_az, between. lia.
Qed.
Lemma tfollow_afollow f : tfollow f -> afollow f.
Proof. intros [H|(c & g & -> & H)]; [left; exact H|right; exists c, g; split; [reflexivity|right; exact H]]. Qed.
Lemma after_space c : letter c = true \/ mark c -> cls_blank c = false.
Proof. intros H. unfold mark, letter, cls_blank, cls_in, SP, TAB in *. cbn. lia. Qed.

(** ** Tags are not control blocks *)

Lemma no_control n f : tag_name n -> stop f -> sem (PRef R_block_control) (n ++ f) None.
Proof.
  intros Hn Hs. destruct (name_first n Hn) as (c & r & En & Hc & _). apply letter_ascii in Hc.
  apply sem_ref. cbn [grammar]. apply sem_alt_next; [rewrite En; cbn [app]; repeat no_step|]. apply sem_alt_next; [rewrite En; cbn [app]; repeat no_step|].
  apply sem_alt_next. { apply sem_ref. cbn [grammar]. apply keyword_no; [exact Hn|exact Hs|unfold keywords; cbn; tauto|]. intros d s Hd. apply sem_ref. cbn [grammar]. apply sem_seq_no, space_idc, Hd. }
  apply sem_alt_next.
  { apply sem_ref. cbn [grammar]. apply sem_alt_next.
    - apply sem_ref. cbn [grammar]. apply sem_seq_no, sem_lit_no. intros q E. apply (proj2 (proj2 Hn)).
      destruct (name_word n (u "try") f q Hs) as [[-> _]|(d & m & -> & _)]; [apply keyword_letters; unfold keywords; cbn; tauto|exact E|exists []; reflexivity|exists (d :: m); reflexivity].
    - rewrite En. cbn [app]. repeat no_step. }
  apply sem_alt_next. { apply sem_ref. cbn [grammar]. apply keyword_no; [exact Hn|exact Hs|unfold keywords; cbn; tauto|]. intros d s Hd. apply space_idc, Hd. }
  apply sem_alt_next; [|apply sem_alt_nil].
  apply sem_ref. cbn [grammar]. apply keyword_no; [exact Hn|exact Hs|unfold keywords; cbn; tauto|]. intros d s Hd. apply sem_ref. cbn [grammar]. apply sem_seq_no, space_idc, Hd.
Qed.
Lemma no_def n f : tag_name n -> sem (PRef R_block_def) (n ++ f) None.
Proof. intros Hn. destruct (name_first n Hn) as (c & r & -> & Hc & _). apply letter_ascii in Hc. cbn [app]. repeat no_step. Qed.
Lemma no_import n f : tag_name n -> stop f -> sem (PRef R_block_import) (n ++ f) None.
Proof.
  intros Hn Hf. apply sem_ref. cbn [grammar]. apply keyword_no; [exact Hn|exact Hf|unfold keywords; cbn; tauto|]. intros d s Hd. apply space_idc, Hd.
Qed.
(** After a name, blanks are not followed by a symbol with % or $. *)
Definition cfollow (f : str) : Prop := sem (PRef R_space) f None \/ exists c g, f = SP :: c :: g /\ cls_blank c = false /\ c <> 37 /\ c <> 36.
Lemma afollow_c f : afollow f -> cfollow f.
Proof.
  intros [H|(c & g & -> & Hc)]; [left; apply no_space, H|right; exists c, g]. split; [reflexivity|]. split; [apply after_space, Hc|].
  unfold mark in Hc. destruct Hc as [Hc|Hc]; [apply letter_ascii in Hc; lia|lia].
Qed.
Lemma no_context n f : tag_name n -> stop f -> cfollow f -> sem (PRef R_block_context) (n ++ f) None.
Proof.
  intros Hn Hs Hf. apply sem_ref. cbn [grammar]. destruct (startswith (u "context") (n ++ f)) eqn:E.
  - apply PegFacts.startswith_app in E. destruct (name_word n (u "context") f _ Hs ltac:(intros c I; cbn in I; repeat (destruct I as [<-|I]; [reflexivity|]); destruct I) E) as [[-> Ef]|(d & q & En & Er)].
    + eapply sem_seq_cons; [apply sem_lit|]. destruct Hf as [Hq|(c & g & -> & Hc & D)].
      * apply sem_seq_no, Hq.
      * eapply sem_seq_cons; [apply sem_space_one; constructor; exact Hc|]. apply sem_seq_no. clear - D. destruct D. repeat no_step.
    + rewrite E. eapply sem_seq_cons; [apply sem_lit|]. rewrite Er. apply sem_seq_no, space_idc. apply (name_idc n Hn). rewrite En. apply in_or_app. right. left. reflexivity.
  - apply sem_seq_no, sem_lit_no. intros r K. rewrite K, PyStrFacts.startswith_app in E. discriminate.
Qed.
Lemma no_modifier n f : tag_name n -> sem (PSeq [PRef R_modifier; PRef R_ws]) (n ++ f) None.
Proof. intros Hn. destruct (name_first n Hn) as (c & r & -> & Hc & _). apply letter_ascii in Hc. cbn [app]. repeat no_step. Qed.
Lemma no_null n f : tag_name n -> sem (PRef R_null) (n ++ f) None.
Proof. intros Hn. destruct (name_first n Hn) as (c & r & -> & Hc & _). apply letter_ascii in Hc. cbn [app]. repeat no_step. Qed.

(** ** Attributes *)

Lemma quot2_plain : ignored R_text_quot2 = false /\ reduced R_text_quot2 = false /\ compacted R_text_quot2 = false /\ R_text_quot2 <> R_qualifier.
Proof. repeat split; try reflexivity. discriminate. Qed.
Lemma decode_plain s : forall k, (List.length s <= k)%nat -> (forall c, In c s -> c <> 92) -> decode_go k s = Ok s.
Proof.
  induction s as [|c s IH]; intros k Hk Hs; [destruct k; reflexivity|]. destruct k as [|k]; [cbn in Hk; lia|]. cbn [decode_go].
  destruct (N.eqb_spec c 92) as [->|]; [exfalso; apply (Hs 92); [left; reflexivity|reflexivity]|]. cbn [negb].
  rewrite IH; [reflexivity|cbn in Hk; lia|]. intros d I. apply Hs. right. exact I.
Qed.
Lemma quot2_set p x : (forall c : char, In c x -> c <> 92) -> setup X full R_text_quot2 p x [] QNone = Ok (SStatic x).
Proof. intros H. cbn [setup]. unfold decode_escapes. rewrite decode_plain; [reflexivity|lia|exact H]. Qed.

Definition attr_expr (a : str * str) (e : str * expr) : Prop :=
  fst e = fst a /\ exists qs, snd e = ERoot (EFormat (textp qs)) QNone /\ List.concat qs = snd a.

(** After the value of an attribute. *)
Definition vfollow : str -> Prop := starts (fun c => c = SP \/ c = NL \/ 10088 <= c).
Lemma no_trailer s : vfollow s -> sem (PRef R_trailer) s None.
Proof. intros H. destruct H as [|c r H]; [|unfold SP, NL in H]; repeat no_step. Qed.
Lemma no_qualifier s : vfollow s -> sem (PRef R_qualifier) s None.
Proof.
  intros H. repeat no_step. revert H. apply starts_imp. intros c H. unfold SP, NL in H. change (nf rx_qualifier c) with (negb (mem c [63; 33])). cbn. lia.
Qed.

Definition val_ok (v : str) : Prop := no_sym v /\ forall c, In c v -> c <> NL /\ c <> 34 /\ c <> 92.

Lemma string_format v p r : val_ok v -> exists qs,
  makes (PRef R_string_format) p ([34] ++ double v ++ [34]) r [(Some R_string_format, SExpr (EFormat (textp qs)))] /\ List.concat qs = v.
Proof.
  intros [Hs Hv].
  destruct (pieces R_text_quot2 (qtext [34]) G_text_quot2 quot2_plain (fun c => c <> 92) quot2_set (text_special [34]) (List.length v) v (le_n _) (p + 1)%nat ([34] ++ r)) as (ks & qs & K & Kp & Kc).
  - apply text_ordinary; [exact Hs|intros I; destruct (Hv _ I); congruence|]. intros c I [<-|[]]. destruct (Hv _ I) as (_ & D & _). congruence.
  - intros c I. apply Hv, I.
  - constructor. split; [reflexivity|]. unfold qtext. apply cls_not_in, in_or_app. right. cbn. tauto.
  - exists qs. split; [|exact Kc]. node_of ks; [|cbn [setup]; rewrite Kp; reflexivity]. cbn [grammar].
    apply makes_alt_next; [apply (fails G 20 _ 0); vm_compute; reflexivity|]. apply makes_alt_first. apply makes_reduced; [reflexivity|reflexivity|]. cbn [grammar].
    apply makes_seq_i. apply (seq_eq _ p ([34] ++ double v ++ [34] ++ []) _ r ([] ++ ks ++ [] ++ [])); [reflexivity|apply app_nil_r|].
    apply seq_cons; [exact (makes_lit X y full [34] p _)|]. apply seq_cons; [apply makes_star, K|]. apply seq_cons; [apply makes_lit|apply seq_nil].
Qed.

Lemma attr_value v p r : val_ok v -> vfollow r -> exists qs,
  makes (PRef R_value_of_attr) p ([34] ++ double v ++ [34]) r [(Some R_expr_strict, SExpr (ERoot (EFormat (textp qs)) QNone))] /\ List.concat qs = v.
Proof.
  intros Hv Hr. destruct (string_format v p r Hv) as (qs & K & Kc). exists qs. split; [|exact Kc].
  apply makes_reduced; [reflexivity|reflexivity|]. cbn [grammar]. apply makes_alt_next; [apply (fails G 20 _ 0); vm_compute; reflexivity|]. apply makes_alt_first.
  remember ([34] ++ double v ++ [34]) as x eqn:Ex.
  node_of [(Some R_string_format, SExpr (EFormat (textp qs)))]; [|reflexivity]. cbn [grammar]. apply makes_seq_i.
  apply (seq_eq _ p (x ++ [] ++ []) _ r ([(Some R_string_format, SExpr (EFormat (textp qs)))] ++ [] ++ [])); [apply app_nil_r|reflexivity|].
  apply seq_cons; [|apply seq_cons; [apply makes_plit|apply seq_nil]]. cbn [app].
  apply makes_compact; [reflexivity|reflexivity|reflexivity|]. cbn [grammar]. apply makes_seq_i.
  apply (seq_eq _ p (x ++ [] ++ [] ++ []) _ r ([(Some R_string_format, SExpr (EFormat (textp qs)))] ++ [] ++ [] ++ [])); [apply app_nil_r|reflexivity|].
  apply seq_cons; [|apply seq_cons; [apply makes_star, loop_nil, no_trailer, Hr|apply seq_cons; [apply makes_opt_no, no_qualifier, Hr|apply seq_nil]]]. cbn [app].
  apply makes_reduced; [reflexivity|reflexivity|]. cbn [grammar]. apply makes_alt_first. apply makes_reduced; [reflexivity|reflexivity|]. cbn [grammar].
  apply makes_alt_next; [rewrite Ex; apply (fails G 20 _ 0); vm_compute; reflexivity|]. apply makes_alt_first. apply makes_reduced; [reflexivity|reflexivity|]. cbn [grammar].
  apply makes_alt_first. exact K.
Qed.

Lemma attr_cls c : letter c || digit c || (c =? 45) || (c =? 46) = true -> cls_xml_end c = true /\ cls_xml c = true.
Proof. intros H. assert (E : cls_xml_end c = true) by (unfold letter, digit, cls_xml_end, cls_xml_start, between in *; lia). split; [exact E|]. unfold cls_xml. rewrite E. reflexivity. Qed.

Lemma name_xml n p r : attr_name n -> makes (PRef R_name_xml) p n (61 :: r) [(Some R_name_xml, SStatic n)].
Proof.
  intros (c & l & -> & Hc & Hl). node_of (@nil (option rule * syn)); [|reflexivity]. cbn [grammar]. apply makes_rx.
  assert (Ec : cls_xml_start c = true) by (unfold letter, cls_xml_start, between in *; lia).
  unfold rx_match, rx_name_xml, rx_opt. cbn [rx_all app]. rewrite Ec. cbn [flat_map skipn rx_all]. rewrite app_nil_r.
  rewrite (span_stop cls_xml l (61 :: r)); [|intros d I; apply attr_cls, Hl, I|constructor; reflexivity].
  destruct l as [|d l _] using rev_ind.
  - cbn. reflexivity.
  - rewrite app_length. cbn [List.length]. rewrite Nat.add_1_r. cbn [down flat_map map].
    assert (E1 : skipn (S (List.length l)) ((l ++ [d]) ++ 61 :: r) = 61 :: r).
    { rewrite skipn_app. rewrite skipn_all2 by (rewrite app_length; cbn; lia). replace (S (List.length l) - List.length (l ++ [d]))%nat with 0%nat by (rewrite app_length; cbn [List.length]; lia). reflexivity. }
    rewrite E1. change (cls_xml_end 61) with false. cbn [app map].
    assert (Ed : cls_xml_end d = true) by (apply attr_cls, Hl; apply in_or_app; right; left; reflexivity).
    assert (E2 : forall z, skipn (List.length (l : str)) ((l ++ [d]) ++ z) = d :: z) by (intros z; rewrite <- app_assoc, skipn_app, skipn_all, Nat.sub_diag; reflexivity).
    destruct (List.length l) as [|m] eqn:El.
    + cbn [down flat_map]. rewrite E2. rewrite Ed. cbn [List.length]. rewrite app_length, El. reflexivity.
    + cbn [down flat_map]. rewrite E2. rewrite Ed. cbn. rewrite ?app_length. cbn. f_equal. lia.
Qed.

Definition attr_good (a : str * str) : Prop := attr_name (fst a) /\ val_ok (snd a).

Lemma one_attr a p r : attr_good a -> vfollow r -> exists e,
  makes (PSeq [PRef R_space; PAlt [PRef R_attr_val; PPlus (PRef R_attr_short)]]) p (attr_src a) r [(Some R_attr_named, SAttr (Some (fst e)) (Some (snd e)) false)] /\ attr_expr a e.
Proof.
  intros [Hn Hv] Hr. destruct a as [n v]. cbn [fst snd] in *.
  destruct (attr_value v (p + 1 + List.length n + 1)%nat r Hv Hr) as (qs & K & Kc). exists (n, ERoot (EFormat (textp qs)) QNone). split; [|split; [reflexivity|exists qs; split; [reflexivity|exact Kc]]].
  cbn [fst snd]. remember ([34] ++ double v ++ [34]) as x eqn:Ex.
  apply makes_seq_i. unfold attr_src. cbn [fst snd].
  apply (seq_eq _ p ([SP] ++ (n ++ [61] ++ x) ++ []) _ r ([] ++ [(Some R_attr_named, SAttr (Some n) (Some (ERoot (EFormat (textp qs)) QNone)) false)] ++ [])).
  { rewrite app_nil_r, Ex. change (u "=""") with [61; 34]. change (u """") with [34]. reflexivity. } { reflexivity. }
  assert (Hb : starts (fun c => cls_blank c = false) n) by (destruct Hn as (c & l & -> & Hc & _); constructor; apply after_space; left; exact Hc).
  assert (Hn0 : n <> []) by (destruct Hn as (c & l & -> & _); discriminate).
  apply seq_cons; [apply makes_ignored; [reflexivity|]; apply sem_space_one; rewrite <- !app_assoc; apply starts_app; assumption|].
  apply seq_cons; [|apply seq_nil]. cbn [app]. apply makes_alt_first. apply makes_reduced; [reflexivity|reflexivity|]. cbn [grammar]. apply makes_alt_first.
  node_of [(Some R_name_xml, SStatic n); (Some R_expr_strict, SExpr (ERoot (EFormat (textp qs)) QNone))]; [|reflexivity]. cbn [grammar]. apply makes_seq_i.
  apply (seq_eq _ _ (n ++ [] ++ [61] ++ [] ++ x ++ []) _ r ([(Some R_name_xml, SStatic n)] ++ [] ++ [] ++ [] ++ [(Some R_expr_strict, SExpr (ERoot (EFormat (textp qs)) QNone))] ++ [])).
  { cbn [app]. rewrite app_nil_r. reflexivity. } { reflexivity. }
  apply seq_cons; [apply name_xml, Hn|]. apply seq_cons; [apply makes_ignored; [reflexivity|]; apply sem_ws_none; constructor; reflexivity|].
  apply seq_cons; [exact (makes_lit X y full [61] _ _)|].
  apply seq_cons; [apply makes_ignored; [reflexivity|]; apply sem_ws_none; rewrite Ex; constructor; reflexivity|].
  apply seq_cons; [|apply seq_nil]. cbn [app List.length]. rewrite !Nat.add_0_r. exact K.
Qed.

Definition attr_kid (e : str * expr) : option rule * syn := (Some R_attr_named, SAttr (Some (fst e)) (Some (snd e)) false).

Lemma no_attr f : tfollow f -> sem (PSeq [PRef R_space; PAlt [PRef R_attr_val; PPlus (PRef R_attr_short)]]) f None.
Proof.
  intros [H|(c & g & -> & Hc)]; [apply sem_seq_no, no_space, H|].
  eapply sem_seq_cons; [apply sem_space_one; constructor; apply after_space; right; exact Hc|]. apply sem_seq_no.
  destruct Hc as [->|[->| ->]]; apply (fails G 60 _ 0); vm_compute; reflexivity.
Qed.

Lemma tfollow_v f : tfollow f -> vfollow f.
Proof.
  intros [H|(c & g & -> & _)]; [|constructor; left; reflexivity]. revert H. apply starts_imp. intros c [H|H]; auto.
Qed.
Lemma attrs_first l f : tfollow f -> afollow (flat_map attr_src l ++ f) /\ vfollow (flat_map attr_src l ++ f) \/ ~ Forall attr_good l.
Proof.
  intros Hf. destruct l as [|a l]; [left; split; [apply tfollow_afollow, Hf|apply tfollow_v, Hf]|].
  destruct a as [n v]. destruct n as [|c n]; [right; intros K; inversion K as [|z q [(c & r & E & _) _] _]; discriminate E|].
  destruct (letter c) eqn:E; [|right; intros K; inversion K as [|z q [(d & r & E1 & E2 & _) _] _]; cbn in E1; injection E1 as -> _; congruence].
  left. split; [right; eexists c, _; split; [reflexivity|left; exact E]|constructor; left; reflexivity].
Qed.
Lemma attrs_afollow l f : Forall attr_good l -> tfollow f -> afollow (flat_map attr_src l ++ f) /\ vfollow (flat_map attr_src l ++ f).
Proof. intros H Hf. destruct (attrs_first l f Hf) as [K|K]; [exact K|contradiction]. Qed.

Lemma attrs_loop l : Forall attr_good l -> forall p f, tfollow f -> exists es,
  makes_loop (PSeq [PRef R_space; PAlt [PRef R_attr_val; PPlus (PRef R_attr_short)]]) p (flat_map attr_src l) f (map attr_kid es) /\ Forall2 attr_expr l es.
Proof.
  intros H. induction H as [|a l Ha Hl IH]; intros p f Hf.
  - exists []. split; [apply loop_nil, no_attr, Hf|constructor].
  - destruct (IH (p + List.length (attr_src a))%nat f Hf) as (es & K & Ke).
    destruct (one_attr a p (flat_map attr_src l ++ f) Ha (proj2 (attrs_afollow l f Hl Hf))) as (e & M & Me). exists (e :: es). split; [|constructor; assumption].
    cbn [flat_map map]. change (attr_kid e :: map attr_kid es) with ([attr_kid e] ++ map attr_kid es). apply loop_cons; [discriminate|exact M|exact K].
Qed.

Lemma attrs_of_named es : forall un nm, attrs_of un nm (map attr_kid es) = Ok (un, nm ++ es).
Proof.
  induction es as [|[n e] es IH]; intros un nm; cbn [map attr_kid attrs_of fst snd]; [rewrite app_nil_r; reflexivity|].
  rewrite IH, <- app_assoc. reflexivity.
Qed.

(** ** Tags *)

Lemma tag_expand n l p f : tag_name n -> Forall attr_good l -> tfollow f -> exists es,
  makes (PRef R_tag_expand) p (tag_src n l) f [(Some R_tag_expand, STagexp (XTag n None [] es))] /\ Forall2 attr_expr l es.
Proof.
  intros Hn Hl Hf. destruct (attrs_loop l Hl (p + List.length n + 0)%nat f Hf) as (es & K & Ke). exists es. split; [|exact Ke].
  destruct (attrs_afollow l f Hl Hf) as [Ha Hv].
  node_of ((Some R_name_id, SStatic n) :: map attr_kid es); [|cbn [setup]; rewrite attrs_of_named; reflexivity]. cbn [grammar]. apply makes_seq_i.
  apply (seq_eq _ p (n ++ flat_map attr_src l ++ []) _ f ([(Some R_name_id, SStatic n)] ++ map attr_kid es ++ [])); [rewrite app_nil_r; reflexivity|rewrite app_nil_r; reflexivity|].
  apply seq_cons; [rewrite app_nil_r; apply name_id; [exact Hn|apply afollow_stop, Ha]|]. apply seq_cons; [|apply seq_nil]. cbn [app].
  apply makes_reduced; [reflexivity|reflexivity|]. cbn [grammar]. apply makes_seq_i.
  apply (seq_eq _ _ ([] ++ flat_map attr_src l ++ []) _ f ([] ++ map attr_kid es ++ [])); [apply app_nil_r|apply app_nil_r|].
  apply seq_cons.
  - apply makes_star, loop_nil. rewrite app_nil_r. destruct Ha as [Ha|(c & g & -> & _)]; [apply no_attr_short, Ha|]. repeat no_step.
  - apply seq_cons; [apply makes_star; exact K|apply seq_nil].
Qed.

Lemma no_more_tags f : tfollow f -> sem (PSeq [PRef R_ws; PRef R_mark_struct; PRef R_ws; PRef R_tag_expand]) f None.
Proof.
  intros [H|(c & g & -> & Hc)]; [apply no_ws_struct, H|]. eapply sem_seq_cons; [apply sem_ws_one; constructor; apply after_space; right; exact Hc|].
  apply sem_seq_no. unfold mark in Hc. repeat no_step.
Qed.

Lemma tags_expand n l p f : tag_name n -> Forall attr_good l -> tfollow f -> exists es,
  makes (PRef R_tags_expand) p (tag_src n l) f [(Some R_tags_expand, STags [XTag n None [] es])] /\ Forall2 attr_expr l es.
Proof.
  intros Hn Hl Hf. destruct (tag_expand n l p f Hn Hl Hf) as (es & K & Ke). exists es. split; [|exact Ke].
  node_of [(Some R_tag_expand, STagexp (XTag n None [] es))]; [|reflexivity]. cbn [grammar].
  apply makes_alt_next; [unfold tag_src; rewrite <- app_assoc; apply no_null, Hn|]. apply makes_alt_first. apply makes_seq_i.
  apply (seq_eq _ _ (tag_src n l ++ [] ++ []) _ f ([(Some R_tag_expand, STagexp (XTag n None [] es))] ++ [] ++ [])); [apply app_nil_r|reflexivity|].
  apply seq_cons; [exact K|]. apply seq_cons; [apply makes_star, loop_nil, no_more_tags, Hf|apply seq_nil].
Qed.

(** ** Bodies *)

Lemma repeatc_S c m : repeatc c (S m) = c :: repeatc c m.
Proof. reflexivity. Qed.
Lemma repeatc_length c m : List.length (repeatc c m) = m.
Proof. induction m as [|m IH]; [reflexivity|]. rewrite repeatc_S. cbn. rewrite IH. reflexivity. Qed.
Lemma repeatc_In c m d : In d (repeatc c m) -> d = c.
Proof. induction m as [|m IH]; intros H; [destruct H|]. destruct H as [<-|H]; [reflexivity|exact (IH H)]. Qed.
Lemma repeatc_snoc c m : repeatc c (S m) = repeatc c m ++ [c].
Proof. induction m as [|m IH]; [reflexivity|]. rewrite repeatc_S, IH at 1. reflexivity. Qed.
Lemma drop_last_snoc (a : str) c : drop_last (a ++ [c]) = a.
Proof. unfold drop_last. rewrite app_length. cbn. rewrite Nat.add_1_r. cbn. rewrite firstn_app, firstn_all, Nat.sub_diag. cbn. apply app_nil_r. Qed.

Lemma sem_nl m r : starts (fun c => c <> NL) r -> sem (PRef R_nl) (repeatc NL (S m) ++ r) (Some r).
Proof.
  intros Hr. apply sem_ref. cbn [grammar]. apply (makes_sem X y full _ 0 _ _ []), makes_rx, rx_plus_stop; [discriminate| |].
  - intros c I. apply repeatc_In in I. subst. reflexivity.
  - revert Hr. apply starts_imp. intros c H. unfold NL in *. lia.
Qed.
Lemma margin_out m p r : starts (fun c => c <> NL) r -> makes (PRef R_margin_out) p (repeatc NL (S m)) r [(Some R_margin_out, SStatic (repeatc NL m))].
Proof.
  intros Hr. node_of (@nil (option rule * syn)); [|cbn [setup]; rewrite repeatc_snoc, drop_last_snoc; reflexivity]. cbn [grammar]. apply makes_seq_i.
  apply (seq_eq _ _ (repeatc NL (S m) ++ [] ++ []) _ r ([] ++ [] ++ [])); [apply app_nil_r|reflexivity|].
  apply seq_cons; [apply makes_ignored; [reflexivity|]; apply sem_nl, Hr|]. apply seq_cons; [apply makes_plit|apply seq_nil].
Qed.

(** A body with nothing in the line of the tag. *)
Lemma body_struct x ks l p r : quiet (x ++ r) -> makes (POpt (PRef R_tail_blocks)) p x r ks -> mapr item_of ks = Ok l ->
  makes (PRef R_generic_struct) p x r [(Some R_body_struct, SBody (YItems l))].
Proof.
  intros Hq M E. apply makes_reduced; [reflexivity|reflexivity|]. cbn [grammar]. apply makes_alt_next; [apply no_ws_body, Hq|]. apply makes_alt_first.
  node_of ks; [|cbn [setup]; rewrite E; reflexivity]. cbn [grammar]. apply makes_seq_i.
  apply (seq_eq _ _ ([] ++ [] ++ x ++ []) _ r ([] ++ [] ++ ks ++ [])); [apply app_nil_r|apply app_nil_r|].
  apply seq_cons; [cbn [app]; rewrite app_nil_r; apply makes_opt_no, no_ws_struct, Hq|]. cbn [List.length]. rewrite Nat.add_0_r.
  apply seq_cons; [rewrite app_nil_r; apply makes_opt_no; apply sem_alt_next; [apply no_ws_headline, Hq|apply sem_alt_next; [apply no_inline_comment, Hq|apply sem_alt_nil]]|].
  cbn [List.length]. rewrite Nat.add_0_r. apply seq_cons; [exact M|apply seq_nil].
Qed.

Lemma text_first k z : exists c, style_mark k ++ code k z = c :: code k z /\ mark c.
Proof. destruct k; eexists; (split; [reflexivity|]); unfold mark; cbn; lia. Qed.

Lemma body_inline k z p r : no_sym z -> ~ In NL z -> follow r -> exists l,
  makes (PRef R_generic_struct) p (SP :: style_mark k ++ code k z) r [(Some (text_rule k), SBlock (BText (column full (p + 1)) l))] /\ titems k z l.
Proof.
  intros Hs Hn Hr. destruct (text_block k z (p + 1)%nat r Hs Hn Hr) as (l & K & T). exists l. split; [|exact T].
  apply makes_reduced; [reflexivity|reflexivity|]. cbn [grammar]. apply makes_alt_first. apply makes_seq_i.
  apply (seq_eq _ _ ([SP] ++ (style_mark k ++ code k z) ++ []) _ r ([] ++ [(Some (text_rule k), SBlock (BText (column full (p + 1)) l))] ++ [])); [rewrite app_nil_r; reflexivity|reflexivity|].
  apply seq_cons; [|apply seq_cons; [exact K|apply seq_nil]]. apply makes_ignored; [reflexivity|]. rewrite app_nil_r. destruct (text_first k z) as (c & E & Hc). rewrite E. cbn [app].
  apply sem_ws_one. constructor. apply after_space. right. exact Hc.
Qed.

Definition ind_kid (c : char) : option rule * syn := (Some (if c =? SP then R_indent_s else R_indent_t), SIndent c).
Definition ded_kid (c : char) : option rule * syn := (Some (if c =? SP then R_dedent_s else R_dedent_t), SDedent c).

Lemma sym_kid r p c rest s : G r = PLit [c] -> ignored r = false /\ reduced r = false /\ compacted r = false /\ r <> R_qualifier ->
  setup X full r p [c] [] QNone = Ok s -> makes (PRef r) p [c] rest [(Some r, s)].
Proof.
  intros E (H1 & H2 & H3 & H4) Es. apply makes_node with (ks := []); [exact H1|exact H2|rewrite H3; discriminate|exact H4| |exact Es]. rewrite E. apply makes_lit.
Qed.

Lemma tail_blocks w : blankish w -> w <> [] -> forall x ks p r,
  (exists x', x = NL :: x') ->
  makes (PPlus (PRef R_block)) (p + List.length w)%nat x (deds y w ++ r) ks ->
  makes (PRef R_tail_blocks) p (inds y w ++ x ++ deds y w) r (map ind_kid w ++ ks ++ map ded_kid (rev w)).
Proof.
  intros Hw Hne. induction w as [|c w IH]; [congruence|]. intros x ks p r Hx M. apply makes_reduced; [reflexivity|reflexivity|]. cbn [grammar].
  assert (Hc : c = SP \/ c = TAB) by (apply Hw; left; reflexivity).
  assert (C : makes (PRef R_core_blocks) (p + 1)%nat (inds y w ++ x ++ deds y w) ([ded_sym y c] ++ r) (map ind_kid w ++ ks ++ map ded_kid (rev w))).
  { apply makes_reduced; [reflexivity|reflexivity|]. cbn [grammar].
    assert (Ed : deds y (c :: w) ++ r = deds y w ++ [ded_sym y c] ++ r) by (unfold deds; cbn [rev]; rewrite map_app, <- app_assoc; reflexivity).
    rewrite Ed in M. cbn [List.length] in M. destruct w as [|d w].
    - cbn [inds deds rev map app] in *. rewrite !app_nil_r. apply makes_alt_next; [|apply makes_alt_first; exact M].
      destruct Hx as (x' & ->). apply no_tail_blocks. constructor. left. reflexivity.
    - apply makes_alt_first. apply IH; [intros z I; apply Hw; right; exact I|discriminate|exact Hx|].
      rewrite <- Nat.add_assoc. exact M. }
  assert (E1 : inds y (c :: w) ++ x ++ deds y (c :: w) = [ind_sym y c] ++ (inds y w ++ x ++ deds y w) ++ [ded_sym y c] ++ []).
  { unfold inds, deds. cbn [map rev]. rewrite map_app, <- !app_assoc. reflexivity. }
  assert (E2 : map ind_kid (c :: w) ++ ks ++ map ded_kid (rev (c :: w)) = [ind_kid c] ++ (map ind_kid w ++ ks ++ map ded_kid (rev w)) ++ [ded_kid c] ++ []).
  { cbn [map rev]. rewrite map_app, <- !app_assoc. reflexivity. }
  rewrite E1, E2. pose proof sym_nodup as D. unfold symbol_chars, symbol_list in D.
  destruct Hc as [-> | ->].
  - apply makes_alt_first. apply makes_seq_i. apply seq_cons; [apply sym_kid; try reflexivity; repeat split; try reflexivity; discriminate|].
    apply seq_cons; [exact C|]. apply seq_cons; [|apply seq_nil]. apply sym_kid; try reflexivity; repeat split; try reflexivity; discriminate.
  - apply makes_alt_next.
    { apply sem_seq_no, sem_ref, lit_no. cbn [lit_differs app ind_sym]. change (TAB =? SP) with false. cbv iota. intros K. inversion D as [|a l N1 D1]; subst. apply N1. rewrite <- K. cbn. tauto. }
    apply makes_alt_first. apply makes_seq_i. apply seq_cons; [apply sym_kid; try reflexivity; repeat split; try reflexivity; discriminate|].
    apply seq_cons; [exact C|]. apply seq_cons; [|apply seq_nil]. apply sym_kid; try reflexivity; repeat split; try reflexivity; discriminate.
Qed.

(** ** Blocks *)

Definition leaf_body (c : option (style * str)) (b : body) : Prop :=
  match c with
  | None => b = YItems []
  | Some (k, x) => exists col l, b = YBlock (BText col l) /\ titems k (rstrip x) l
  end.

(** The modifier of a block. *)
Definition mod_of (d : placement) : modifier := match d with Own => MNone | Append _ => MAppend | Dedent _ => MDedent end.

(** The item of a page; [sl]: slots of tags. *)
Inductive like (sl : str -> option nat) : page -> item -> Prop :=
| like_line m d k x col l : titems k (rstrip x) l -> like sl (Line m d k x) (NBlock (repeatc NL m) (mod_of d) (BText col l))
| like_note m x : like sl (Note m x) (NBlock (repeatc NL m) MNone BComment)
| like_leaf m d n a c es b : Forall2 attr_expr a es -> leaf_body c b ->
    like sl (Leaf m d n a c) (NBlock (repeatc NL m) (mod_of d) (BStruct [XTag n (sl n) [] es] b))
| like_node m d n a w kids es is : Forall2 attr_expr a es -> Forall2 (like sl) kids is ->
    like sl (Node m d n a w kids) (NBlock (repeatc NL m) (mod_of d) (BStruct [XTag n (sl n) [] es] (YItems (map NIndent w ++ is ++ map NDedent (rev w))))).

Definition attrs_clean (a : list (str * str)) : Prop := Forall (fun z => no_sym (snd z)) a.
Inductive clean : page -> Prop :=
| clean_line m d k x : no_sym (rstrip x) -> clean (Line m d k x)
| clean_note m x : no_sym (rstrip x) -> clean (Note m x)
| clean_leaf m d n a c : attrs_clean a -> (forall k x, c = Some (k, x) -> no_sym (rstrip x)) -> clean (Leaf m d n a c)
| clean_node m d n a w kids : attrs_clean a -> Forall clean kids -> clean (Node m d n a w kids).

Lemma attrs_good a : attrs_ok a -> attrs_clean a -> Forall attr_good a.
Proof.
  intros [_ H] K. unfold attrs_clean in K. rewrite Forall_forall in *. intros z I. destruct (H z I) as [H1 H2]. split; [exact H1|]. split; [exact (K z I)|exact H2].
Qed.

Lemma no_NL_rstrip x : ~ In NL x -> ~ In NL (rstrip x).
Proof. intros H I. apply H. destruct (rstrip_decomp x) as (w & E & _). rewrite E. apply in_or_app. left. exact I. Qed.

(** The block after its margin. *)
Definition block_body : peg rule := PAlt [PRef R_block_control; PRef R_block_def; PRef R_block_context; PRef R_block_import; PRef R_block_struct; PRef R_block_comment; PRef R_special_tag].
Lemma a_block m x r p kk b : x <> [] -> starts (fun c => c <> NL) x -> sem (PSeq [PRef R_modifier; PRef R_ws]) (x ++ r) None ->
  makes block_body (p + S m)%nat x r [(kk, SBlock b)] ->
  makes (PRef R_block) p (repeatc NL (S m) ++ x) r [(Some R_block, SItem (NBlock (repeatc NL m) MNone b))].
Proof.
  intros Hx Hs Hm M. node_of [(Some R_margin_out, SStatic (repeatc NL m)); (kk, SBlock b)]; [|reflexivity]. cbn [grammar]. apply makes_seq_i.
  apply (seq_eq _ _ (repeatc NL (S m) ++ [] ++ x ++ []) _ r ([(Some R_margin_out, SStatic (repeatc NL m))] ++ [] ++ [(kk, SBlock b)] ++ [])); [cbn [app]; rewrite app_nil_r; reflexivity|reflexivity|].
  apply seq_cons; [apply margin_out; cbn [app]; rewrite app_nil_r; apply starts_app; assumption|].
  apply seq_cons; [rewrite app_nil_r; apply makes_opt_no, Hm|]. cbn [List.length]. rewrite Nat.add_0_r, repeatc_length. apply seq_cons; [exact M|apply seq_nil].
Qed.

Lemma modifier_ws d p s : d <> Own -> starts (fun c => cls_blank c = false) s ->
  exists rl, makes (PSeq [PRef R_modifier; PRef R_ws]) p (mark_src d) s [(Some rl, SStatic (match d with Dedent _ => u "<" | _ => u "..." end))].
Proof.
  intros Hd Hs.
  assert (Wj : forall j, sem (PRef R_ws) (repeat SP j ++ s) (Some s)).
  { intros j. apply sem_ref. cbn [grammar]. assert (Hc : forall c, In c (repeat SP j) -> cls_blank c = true) by (intros c I; apply repeat_spec in I; subst; reflexivity).
    pose proof (sem_rx G rx_ws (repeat SP j ++ s) _ (rx_star_stop cls_blank (repeat SP j) s Hc Hs)) as K. rewrite skipn_app, skipn_all, Nat.sub_diag in K. exact K. }
  destruct d as [|j|j]; [congruence| |].
  - exists R_append. apply makes_seq_i. apply (seq_eq _ _ (u "..." ++ repeat SP j ++ []) _ s ([(Some R_append, SStatic (u "..."))] ++ [] ++ [])); [rewrite app_nil_r; reflexivity|reflexivity|].
    apply seq_cons.
    + apply makes_reduced; [reflexivity|reflexivity|]. cbn [grammar]. apply makes_alt_next; [apply (fails G 60 _ 0); vm_compute; reflexivity|]. apply makes_alt_first.
      node_of (@nil (option rule * syn)); [cbn [grammar]; apply makes_lit|reflexivity].
    + apply seq_cons; [apply makes_ignored; [reflexivity|apply Wj]|apply seq_nil].
  - exists R_dedent. apply makes_seq_i. apply (seq_eq _ _ (u "<" ++ repeat SP j ++ []) _ s ([(Some R_dedent, SStatic (u "<"))] ++ [] ++ [])); [rewrite app_nil_r; reflexivity|reflexivity|].
    apply seq_cons.
    + apply makes_reduced; [reflexivity|reflexivity|]. cbn [grammar]. apply makes_alt_first.
      node_of (@nil (option rule * syn)); [cbn [grammar]; apply makes_lit|reflexivity].
    + apply seq_cons; [apply makes_ignored; [reflexivity|apply Wj]|apply seq_nil].
Qed.

Lemma any_block d m x r p kk b : x <> [] -> starts (fun c => c <> NL /\ cls_blank c = false) x -> sem (PSeq [PRef R_modifier; PRef R_ws]) (x ++ r) None ->
  makes block_body (p + S m + List.length (mark_src d))%nat x r [(kk, SBlock b)] ->
  makes (PRef R_block) p (repeatc NL (S m) ++ mark_src d ++ x) r [(Some R_block, SItem (NBlock (repeatc NL m) (mod_of d) b))].
Proof.
  intros Hx Hs Hm M. assert (Hd : d = Own \/ d <> Own) by (destruct d; [left; reflexivity|right; discriminate..]).
  destruct Hd as [->|Hd]; [cbn [mark_src List.length app] in *; rewrite Nat.add_0_r in M; apply a_block with (kk := kk); try assumption; eapply starts_imp; [|exact Hs]; intros c K; apply K|].
  destruct (modifier_ws d (p + S m) (x ++ r) Hd) as (rl & K); [apply starts_app; [exact Hx|]; eapply starts_imp; [|exact Hs]; intros c Hc; apply Hc|].
  node_of [(Some R_margin_out, SStatic (repeatc NL m)); (Some rl, SStatic (match d with Dedent _ => u "<" | _ => u "..." end)); (kk, SBlock b)].
  - cbn [grammar]. apply makes_seq_i.
    apply (seq_eq _ _ (repeatc NL (S m) ++ mark_src d ++ x ++ []) _ r ([(Some R_margin_out, SStatic (repeatc NL m))] ++ [(Some rl, SStatic (match d with Dedent _ => u "<" | _ => u "..." end))] ++ [(kk, SBlock b)] ++ [])); [rewrite app_nil_r; reflexivity|reflexivity|].
    apply seq_cons; [apply margin_out|].
    + assert (Hmk : starts (fun c => c <> NL) (mark_src d)) by (destruct d; [congruence|constructor; discriminate..]).
      apply starts_app; [destruct d; [intros E; destruct x; [congruence|discriminate]|discriminate..]|].
      apply starts_app; [destruct d; [congruence|discriminate..]|exact Hmk].
    + rewrite repeatc_length. apply seq_cons; [rewrite app_nil_r; apply makes_opt, K|]. apply seq_cons; [exact M|apply seq_nil].
  - destruct d; [congruence|reflexivity..].
Qed.

Lemma tag_block n a x r p kk s b : tag_name n -> Forall attr_good a -> tfollow (x ++ r) ->
  makes (PRef R_generic_struct) (p + List.length (tag_src n a))%nat x r [(kk, s)] -> as_body (kk, s) = Ok b ->
  exists es, makes block_body p (tag_src n a ++ x) r [(Some R_block_struct, SBlock (BStruct [XTag n None [] es] b))] /\ Forall2 attr_expr a es.
Proof.
  intros Hn Ha Hf M E. destruct (tags_expand n a p (x ++ r) Hn Ha Hf) as (es & K & Ke). exists es. split; [|exact Ke].
  destruct (attrs_afollow a (x ++ r) Ha Hf) as [Haf _].
  assert (Et : (tag_src n a ++ x) ++ r = n ++ (flat_map attr_src a ++ x ++ r)) by (unfold tag_src; rewrite <- !app_assoc; reflexivity).
  apply makes_alt_next; [rewrite Et; apply no_control; [assumption|apply afollow_stop; assumption]|]. apply makes_alt_next; [rewrite Et; apply no_def; assumption|].
  apply makes_alt_next; [rewrite Et; apply no_context; [assumption|apply afollow_stop; assumption|apply afollow_c; assumption]|]. apply makes_alt_next; [rewrite Et; apply no_import; [assumption|apply afollow_stop; assumption]|]. apply makes_alt_first.
  apply makes_node with (ks := [(Some R_tags_expand, STags [XTag n None [] es]); (kk, s)]); [reflexivity|reflexivity|discriminate|discriminate| |].
  - cbn [grammar]. apply makes_alt_first. apply makes_seq_i.
    apply (seq_eq _ _ (tag_src n a ++ x ++ []) _ r ([(Some R_tags_expand, STags [XTag n None [] es])] ++ [(kk, s)] ++ [])); [rewrite app_nil_r; reflexivity|reflexivity|].
    apply seq_cons; [rewrite app_nil_r; exact K|]. apply seq_cons; [exact M|apply seq_nil].
  - cbn [setup]. rewrite E. reflexivity.
Qed.

Lemma mapr_app {A B} (f : A -> result B) l1 l2 r1 r2 : mapr f l1 = Ok r1 -> mapr f l2 = Ok r2 -> mapr f (l1 ++ l2) = Ok (r1 ++ r2).
Proof.
  revert r1. induction l1 as [|a l1 IH]; intros r1 H1 H2; cbn [mapr app] in *; [injection H1 as <-; exact H2|].
  destruct (f a) as [z|]; [|discriminate]. cbn [bind] in *. destruct (mapr f l1) as [zs|]; [|discriminate]. cbn [bind] in *. injection H1 as <-. rewrite (IH zs eq_refl H2). reflexivity.
Qed.
Definition item_kid (i : item) : option rule * syn := (Some R_block, SItem i).
Lemma body_items w is : mapr item_of (map ind_kid w ++ map item_kid is ++ map ded_kid (rev w)) = Ok (map NIndent w ++ is ++ map NDedent (rev w)).
Proof.
  assert (forall l, mapr item_of (map ind_kid l) = Ok (map NIndent l)) as Hi.
  { induction l as [|c l IH]; [reflexivity|]. cbn [map mapr]. rewrite IH. unfold ind_kid. destruct (c =? SP); reflexivity. }
  assert (forall l, mapr item_of (map ded_kid l) = Ok (map NDedent l)) as Hd.
  { induction l as [|c l IH]; [reflexivity|]. cbn [map mapr]. rewrite IH. unfold ded_kid. destruct (c =? SP); reflexivity. }
  assert (forall l, mapr item_of (map item_kid l) = Ok l) as Hk.
  { induction l as [|c l IH]; [reflexivity|]. cbn [map mapr]. rewrite IH. reflexivity. }
  apply mapr_app; [apply Hi|]. apply mapr_app; [apply Hk|apply Hd].
Qed.

Definition block_ok (t : page) : Prop := forall p r, follow r -> exists i, makes (PRef R_block) p (flat y t) r [(Some R_block, SItem i)] /\ like (fun _ => None) t i.

Lemma flat_NL t : exists z, flat y t = NL :: z.
Proof. destruct t; cbn [flat]; rewrite repeatc_S; eexists; reflexivity. Qed.

Lemma blocks_loop ts : Forall block_ok ts -> forall p r, follow r -> sem (PRef R_block) r None ->
  exists is, makes_loop (PRef R_block) p (flat_map (flat y) ts) r (map item_kid is) /\ Forall2 (like (fun _ => None)) ts is.
Proof.
  intros H. induction H as [|t ts Ht Hts IH]; intros p r Hr Hn.
  - exists []. split; [apply loop_nil, Hn|constructor].
  - destruct (IH (p + List.length (flat y t))%nat r Hr Hn) as (is & K & Ki).
    destruct (Ht p (flat_map (flat y) ts ++ r)) as (i & M & Mi).
    { destruct ts as [|t' ts]; [exact Hr|]. cbn [flat_map]. destruct (flat_NL t') as (z & ->). constructor. left. reflexivity. }
    exists (i :: is). split; [|constructor; assumption]. cbn [flat_map map]. change (item_kid i :: map item_kid is) with ([item_kid i] ++ map item_kid is).
    apply loop_cons; [destruct (flat_NL t) as (z & ->); discriminate|exact M|exact K].
Qed.

Lemma deds_first w r : w <> [] -> exists c z, deds y w ++ r = c :: z /\ dedents c.
Proof.
  intros Hw. destruct w as [|c w _] using rev_ind; [congruence|]. unfold deds. rewrite rev_app_distr. cbn [rev app map].
  eexists _, _. split; [reflexivity|]. unfold dedents, ded_sym. destruct (c =? SP); auto.
Qed.
Lemma no_block_ded c z : dedents c -> sem (PRef R_block) (c :: z) None.
Proof.
  intros H. apply dedents_high in H. repeat no_step. constructor. change (nf rx_nl c) with (negb (NL =? c)). unfold NL. lia.
Qed.

Theorem block_parse known t : wf known t -> clean t -> block_ok t.
Proof.
  induction t as [m d k x|m x|m d n a c|m d n a w kids IH] using page_ind'; intros Hw Hc p r Hr; inversion Hw; inversion Hc; subst.
  - destruct (text_block k (rstrip x) (p + S m + List.length (mark_src d))%nat r) as (l & K & T); [assumption|apply no_NL_rstrip; assumption|exact Hr|].
    eexists. split; [|apply like_line, T]. cbn [flat]. unfold text_flat. destruct (text_first k (rstrip x)) as (c & E & Hm). unfold mark in Hm.
    apply any_block with (kk := Some (text_rule k)).
    + rewrite E. discriminate.
    + rewrite E. constructor. destruct Hm as [->|[->| ->]]; split; (discriminate || reflexivity).
    + rewrite E. cbn [app]. repeat no_step.
    + assert (F : forall e, e = R_block_control \/ e = R_block_def \/ e = R_block_context \/ e = R_block_import -> sem (PRef e) ((style_mark k ++ code k (rstrip x)) ++ r) None).
      { intros e He. rewrite E. cbn [app]. destruct Hm as [->|[->| ->]]; destruct He as [->|[->|[->| ->]]]; apply (fails G 60 _ 0); vm_compute; reflexivity. }
      apply makes_alt_next; [apply F; auto|]. apply makes_alt_next; [apply F; auto|]. apply makes_alt_next; [apply F; auto|]. apply makes_alt_next; [apply F; auto|]. apply makes_alt_first.
      apply makes_compact; [reflexivity|reflexivity|reflexivity|]. cbn [grammar]. apply makes_alt_next; [|apply makes_alt_first; exact K].
      rewrite E. cbn [app]. destruct Hm as [->|[->| ->]]; apply (fails G 60 _ 0); vm_compute; reflexivity.
  - eexists. split; [|apply like_note]. cbn [flat]. apply a_block with (kk := Some R_block_comment); [discriminate|constructor; unfold NL; discriminate|apply (fails G 60 _ 0); vm_compute; reflexivity|].
    do 5 (apply makes_alt_next; [apply (fails G 60 _ 0); vm_compute; reflexivity|]). apply makes_alt_first.
    assert (exists ks, makes (POpt (PRef R_line_verbat)) (p + S m + 2)%nat (rstrip x) r ks) as (ks & M).
    { destruct (rstrip x) as [|c z] eqn:E; [exists []; apply makes_opt_no, no_line_verbat, Hr|].
      eexists. apply makes_opt. rewrite <- E. apply line_verbat; [rewrite E; discriminate|rewrite E; assumption|apply no_NL_rstrip; assumption|exact Hr]. }
    apply makes_node with (ks := ks); [reflexivity|reflexivity|discriminate|discriminate| |reflexivity]. cbn [grammar]. apply makes_seq_i.
    apply (seq_eq _ _ (u "--" ++ rstrip x ++ [] ++ []) _ r ([] ++ ks ++ [] ++ [])); [rewrite app_nil_r; reflexivity|apply app_nil_r|].
    apply seq_cons; [apply makes_ignored; [reflexivity|]; apply sem_ref; cbn [grammar]; apply (makes_sem X y full _ 0 _ _ []), makes_rx; reflexivity|].
    apply seq_cons; [exact M|]. apply seq_cons; [|apply seq_nil]. apply makes_opt_no, sem_ref. cbn [grammar]. apply no_indent, Hr.
  - assert (Ga : Forall attr_good a) by (apply attrs_good; assumption).
    assert (Hne : tag_src n a ++ leaf_flat c <> []) by (destruct (name_first n ltac:(assumption)) as (d0 & q & -> & _); discriminate).
    assert (Hst : starts (fun z => z <> NL /\ cls_blank z = false) (tag_src n a ++ leaf_flat c)) by (destruct (name_first n ltac:(assumption)) as (d0 & q & -> & Hd & _); constructor; split; [intros ->; discriminate|apply letter_blank, Hd]).
    assert (Hmod : sem (PSeq [PRef R_modifier; PRef R_ws]) ((tag_src n a ++ leaf_flat c) ++ r) None) by (unfold tag_src; rewrite <- !app_assoc; apply no_modifier; assumption).
    destruct c as [[k x]|].
    + assert (Hx : no_sym (rstrip x)) by (match goal with K : forall _ _, _ -> no_sym _ |- _ => exact (K k x eq_refl) end).
      assert (Hnl : ~ In NL x) by (match goal with K : forall _ _, _ -> _ /\ _ |- _ => exact (proj2 (K k x eq_refl)) end).
      cbn [flat leaf_flat] in *. unfold text_flat in *.
      destruct (body_inline k (rstrip x) (p + S m + List.length (mark_src d) + List.length (tag_src n a))%nat r Hx (no_NL_rstrip x Hnl) Hr) as (l & K & T).
      destruct (text_first k (rstrip x)) as (z & E & Hm).
      eapply tag_block with (n := n) (a := a) in K; [|assumption|exact Ga|right; rewrite E; eexists z, _; split; [reflexivity|exact Hm]|reflexivity].
      destruct K as (es & K & Ke). eexists. split; [eapply any_block; [exact Hne|exact Hst|exact Hmod|exact K]|].
      apply like_leaf; [exact Ke|]. eexists _, l. split; [reflexivity|exact T].
    + cbn [flat leaf_flat] in *.
      pose proof (body_struct [] [] [] (p + S m + List.length (mark_src d) + List.length (tag_src n a))%nat r (follow_quiet r Hr) (makes_opt_no X y full _ _ _ (no_tail_blocks r Hr)) eq_refl) as K.
      eapply tag_block with (n := n) (a := a) in K; [|assumption|exact Ga|left; apply follow_quiet, Hr|reflexivity].
      destruct K as (es & K & Ke). eexists. split; [eapply any_block; [exact Hne|exact Hst|exact Hmod|exact K]|].
      apply like_leaf; [exact Ke|reflexivity].
  - assert (Ga : Forall attr_good a) by (apply attrs_good; assumption). cbn [flat].
    set (x := inds y w ++ flat_map (flat y) kids ++ deds y w).
    assert (Hne : tag_src n a ++ x <> []) by (destruct (name_first n ltac:(assumption)) as (d0 & q & -> & _); discriminate).
    assert (Hst : starts (fun z => z <> NL /\ cls_blank z = false) (tag_src n a ++ x)) by (destruct (name_first n ltac:(assumption)) as (d0 & q & -> & Hd & _); constructor; split; [intros ->; discriminate|apply letter_blank, Hd]).
    assert (Hmod : sem (PSeq [PRef R_modifier; PRef R_ws]) ((tag_src n a ++ x) ++ r) None) by (unfold tag_src; rewrite <- !app_assoc; apply no_modifier; assumption).
    destruct (deds_first w r) as (dc & dz & Ed & Hd); [assumption|].
    assert (Hk : Forall block_ok kids).
    { rewrite Forall_forall in *. intros t I. match goal with K : forall z, In z kids -> wf _ z, K' : forall z, In z kids -> clean z |- _ => exact (IH t I (K t I) (K' t I)) end. }
    destruct (blocks_loop kids Hk (p + S m + List.length (mark_src d) + List.length (tag_src n a) + List.length w)%nat (deds y w ++ r)) as (is & K & Ki).
    { rewrite Ed. constructor. right. exact Hd. } { rewrite Ed. apply no_block_ded, Hd. }
    assert (Hx : exists x', flat_map (flat y) kids = NL :: x').
    { destruct kids as [|t kids']; [congruence|]. cbn [flat_map]. destruct (flat_NL t) as (z & ->). eexists. reflexivity. }
    apply makes_plus in K; [|destruct Hx as (x' & ->); discriminate].
    assert (M : makes (PRef R_tail_blocks) (p + S m + List.length (mark_src d) + List.length (tag_src n a))%nat x r (map ind_kid w ++ map item_kid is ++ map ded_kid (rev w))) by (apply tail_blocks; assumption).
    assert (Hq : quiet (x ++ r)).
    { unfold x. destruct w as [|c w]; [congruence|]. constructor. right. pose proof (ind_high (c :: w)) as Hi. inversion Hi. assumption. }
    pose proof (body_struct x _ _ _ r Hq (makes_opt X y full _ _ _ _ _ M) (body_items w is)) as Kb.
    eapply tag_block with (n := n) (a := a) in Kb; [|assumption|exact Ga|left; exact Hq|reflexivity].
    destruct Kb as (es & Kb & Ke). eexists. split; [eapply any_block; [exact Hne|exact Hst|exact Hmod|exact Kb]|].
    apply like_node; assumption.
Qed.

(** ** Documents *)

Lemma no_block_end k : sem (PRef R_block) (repeatc NL k) None.
Proof.
  destruct k as [|k]; [apply (fails G 60 _ 0); vm_compute; reflexivity|]. apply sem_ref. cbn [grammar].
  apply sem_seq_cons with (r := []).
  { apply sem_ref. cbn [grammar]. eapply sem_seq_cons; [|eapply sem_seq_cons; [apply sem_lit_empty|apply sem_seq_nil]].
    pose proof (sem_nl k [] (starts_nil _)) as H. rewrite app_nil_r in H. exact H. }
  apply (fails G 60 _ 0). vm_compute. reflexivity.
Qed.

Theorem document_parse known doc k : doc <> [] -> Forall (wf known) doc -> Forall clean doc -> exists is,
  makes (PRef R_document) 0 (flat_map (flat y) doc ++ repeatc NL k) [] [(Some R_document, SDoc (is ++ match k with O => [] | S _ => [NMargin (repeatc NL k)] end))] /\
  Forall2 (like (fun _ => None)) doc is.
Proof.
  intros Hd Hw Hc.
  assert (Hk : Forall block_ok doc) by (rewrite Forall_forall in *; intros t I; apply (block_parse known); [apply Hw, I|apply Hc, I]).
  destruct (blocks_loop doc Hk 0%nat (repeatc NL k)) as (is & K & Ki); [destruct k; constructor; left; reflexivity|apply no_block_end|].
  exists is. split; [|exact Ki].
  assert (Hx : exists x', flat_map (flat y) doc = NL :: x').
  { destruct doc as [|t doc']; [congruence|]. cbn [flat_map]. destruct (flat_NL t) as (z & ->). eexists. reflexivity. }
  apply makes_plus in K; [|destruct Hx as (x' & ->); discriminate].
  set (mk := match k with O => [] | S _ => [(Some R_margin, SStatic (repeatc NL k))] end : list (option rule * syn)).
  node_of (map item_kid is ++ mk).
  - cbn [grammar]. apply makes_seq_i.
    apply (seq_eq _ _ (flat_map (flat y) doc ++ repeatc NL k ++ []) _ [] (map item_kid is ++ mk ++ [])); [rewrite app_nil_r; reflexivity|rewrite app_nil_r; reflexivity|].
    apply seq_cons.
    + rewrite !app_nil_r. apply makes_opt. apply makes_reduced; [reflexivity|reflexivity|]. cbn [grammar].
      apply makes_alt_next; [destruct Hx as (x' & ->); apply no_tail_blocks; constructor; left; reflexivity|]. apply makes_alt_first. exact K.
    + apply seq_cons; [|apply seq_nil]. unfold mk. destruct k as [|k].
      * apply makes_opt_no. apply (fails G 60 _ 0). vm_compute. reflexivity.
      * apply makes_opt. node_of (@nil (option rule * syn)); [|reflexivity]. cbn [grammar]. apply makes_seq_i.
        apply (seq_eq _ _ (repeatc NL (S k) ++ [] ++ []) _ _ ([] ++ [] ++ [])); [apply app_nil_r|reflexivity|].
        apply seq_cons; [apply makes_ignored; [reflexivity|]; apply sem_nl; constructor|]. apply seq_cons; [apply makes_plit|apply seq_nil].
  - cbn [setup]. erewrite mapr_app; [reflexivity| |].
    + assert (H : forall l, mapr item_of (map item_kid l) = Ok l) by (induction l as [|c l IH]; [reflexivity|]; cbn [map mapr]; rewrite IH; reflexivity). apply H.
    + unfold mk. destruct k; reflexivity.
Qed.
End Parse.

(** ** Scripts *)

Lemma clean_src y t known : wf known t -> (forall l, In l (src t) -> no_sym y l) -> clean y t.
Proof.
  assert (Hdb : forall x c, In c x -> In c (double x)).
  { intros x c I. unfold double. apply in_flat_map. exists c. split; [exact I|]. destruct (special c); left; reflexivity. }
  assert (Hr : forall x c, In c (rstrip x) -> In c x).
  { intros x c I. destruct (rstrip_decomp x) as (w & E & _). rewrite E. apply in_or_app. left. exact I. }
  assert (Ht : forall k x c, In c (rstrip x) -> In c (text_src k x)).
  { intros k x c I. unfold text_src. apply in_or_app. right. apply Hr in I. destruct k; auto. }
  assert (Ha : forall n a z c, In z a -> In c (snd z) -> In c (tag_src n a)).
  { intros n a z c Iz I. unfold tag_src. apply in_or_app. right. apply in_flat_map. exists z. split; [exact Iz|]. unfold attr_src.
    do 3 (apply in_or_app; right). apply in_or_app. left. apply Hdb, I. }
  induction t as [m d k x|m x|m d n a c|m d n a w kids IH] using page_ind'; intros Hw H; inversion Hw; subst; cbn [src] in H; constructor.
  - intros c I. apply (H (mark_src d ++ text_src k x)); [apply in_or_app; right; left; reflexivity|apply in_or_app; right; apply Ht, I].
  - intros c I. apply (H (u "--" ++ x)); [apply in_or_app; right; left; reflexivity|]. apply in_or_app. right. apply Hr, I.
  - apply Forall_forall. intros z Iz c0 I. eapply H; [apply in_or_app; right; left; reflexivity|]. apply in_or_app. right. apply in_or_app. left. exact (Ha _ _ _ _ Iz I).
  - intros k x -> c0 I. eapply H; [apply in_or_app; right; left; reflexivity|]. do 3 (apply in_or_app; right). apply Ht, I.
  - apply Forall_forall. intros z Iz c0 I. eapply H; [apply in_or_app; right; left; reflexivity|]. apply in_or_app. right. exact (Ha _ _ _ _ Iz I).
  - rewrite Forall_forall in *. intros t I. apply IH; [exact I|match goal with K : forall x, In x kids -> wf known x |- _ => apply K, I end|].
    intros l Il c Ic. apply (H (indent_line w l)).
    + apply in_or_app. right. right. apply in_map. apply in_flat_map. exists t. split; assumption.
    + destruct l as [|d0 l]; [destruct Ic|]. cbn [indent_line]. apply in_or_app. right. exact Ic.
Qed.

Lemma In_join l ls c : In l ls -> In c l -> In c (join [NL] ls).
Proof.
  intros Hl Hc. induction ls as [|a ls IH]; [destruct Hl|]. destruct Hl as [->|Hl].
  - destruct ls; cbn [join]; [exact Hc|apply in_or_app; left; exact Hc].
  - destruct ls as [|b ls]; [destruct Hl|]. cbn [join]. apply in_or_app. right. apply in_or_app. right. apply IH, Hl.
Qed.

(** The tree of a page. *)
Theorem parse_page X known doc k : doc <> [] -> Forall (wf known) doc -> exists is,
  parse_script X (script doc k) = Ok (is ++ match k with O => [] | S _ => [NMargin (repeatc NL k)] end) /\
  Forall2 (like (fun _ => None)) doc is.
Proof.
  intros Hd Hw. destruct (get_parser_fresh (script doc k)) as (y & Ey & [Hnd Hfr]). pose proof (get_parser_bound _ _ Ey) as Hb.
  assert (Hc : Forall (clean y) doc).
  { rewrite Forall_forall in *. intros t I. apply (clean_src y t known); [apply Hw, I|]. intros l Il c Ic Is. apply (Hfr c Is).
    unfold script. apply (In_join l); [apply in_or_app; left; apply in_flat_map; exists t; split; assumption|exact Ic]. }
  set (x := flat_map (flat y) doc ++ repeatc NL k).
  destruct (document_parse X y x) with (known := known) (doc := doc) (k := k) as (is & K & Ki); [intros c Ic; apply Hb, Ic|exact Hnd|exact Hd|exact Hw|exact Hc|].
  exists is. split; [|exact Ki]. apply parse_makes in K. destruct K as (t & Kp & Kb). fold x in Kp, Kb. specialize (Kb eq_refl).
  unfold parse_script, parse_report. rewrite Ey. rewrite (preprocess_script y known doc k Hd Hw). fold x.
  assert (Hx : exists c x', x = c :: x').
  { unfold x. destruct doc as [|d doc']; [congruence|]. cbn [flat_map]. destruct (flat_NL y d) as (z & ->). eexists _, _. reflexivity. }
  destruct Hx as (c & x' & Hx). unfold parse_flat. rewrite Hx, <- Hx. rewrite Kp, Kb. reflexivity.
Qed.
