(** Last steps of the proofs about expressions as text, and sample data for PropOper. *)
From Coq Require Import List NArith ZArith Bool Arith Lia String ZifyBool.
From Verif Require Import PyStr PyStrFacts Value Ast IndentSpec Preprocess PreprocessSpec PreprocessFacts Peg PegFacts PegSpec PegSemFacts
  Grammar Syntax GrammarFacts ParseRun PageSpec PageFlat PageParse OperSpec OperParse Ref ConfRef.
Import ListNotations.
Local Open Scope string_scope.
Local Open Scope list_scope.
Local Open Scope N_scope.

(** ** Lines of text with expressions in braces *)

Section Lines.
Variables (X : lexicon) (y : symbols) (full b : str).
Hypothesis Hhigh : forall c, In c (symbol_chars y) -> 10088 <= c.
Hypothesis Hnd : NoDup (symbol_chars y).
Hypothesis Hb : blank_text b.
Notation makes := (makes X y full).
Notation makes_loop := (makes_loop X y full).
Notation G := (grammar (lx_unicode X) y).
Notation sem := (PegSpec.sem G).

(** A text, and then other pieces. [T]: the rule for runs of ordinary characters. *)
Section Runs.
Variables (T : rule) (ok : char -> bool) (good : char -> Prop).
Hypothesis HT : G T = PRx (rx_plus ok).
Hypothesis Tplain : ignored T = false /\ reduced T = false /\ compacted T = false /\ T <> R_qualifier.
Hypothesis Tset : forall p x, (forall c, In c x -> good c) -> setup X full T p x [] QNone = Ok (SStatic x).
Hypothesis q_special : forall c, special c = true -> ok c = false.
Hypothesis q_ordinary : forall x, no_sym y x -> ~ In NL x -> (forall c, In c x -> good c) -> forall c, In c x -> special c = false -> ok c = true.
Notation piece := (piece T).

Lemma pieces_then n : forall x, (List.length x <= n)%nat -> forall p z r ks', no_sym y x -> ~ In NL x -> (forall c, In c x -> good c) ->
  starts (fun c => ok c = false) (z ++ r) -> makes_loop piece (p + List.length (double x)) z r ks' ->
  exists ks qs, makes_loop piece p (double x ++ z) r (ks ++ ks') /\ parts_of ks = Ok (textp qs) /\ List.concat qs = x.
Proof.
  induction n as [|n IH]; intros x Hn p z r ks' Hs Hl Hg Hz K'.
  - destruct x; [|cbn in Hn; lia]. exists [], []. split; [|split; reflexivity]. cbn [double flat_map List.length] in K'. rewrite Nat.add_0_r in K'. exact K'.
  - destruct (run x) as (a & d & E & Ha & Hd & Ed). destruct a as [|c a].
    + cbn [app] in *. subst x. destruct d as [|c d].
      * exists [], []. split; [|split; reflexivity]. cbn [double flat_map List.length] in K'. rewrite Nat.add_0_r in K'. exact K'.
      * assert (Hc : special c = true) by (inversion Hd; assumption).
        assert (E : double (c :: d) = [c; c] ++ double d) by (unfold double; cbn [flat_map]; rewrite Hc; reflexivity). rewrite E in *.
        destruct (IH d ltac:(cbn in Hn; lia) (p + List.length [c; c])%nat z r ks') as (ks & qs & K & Kp & Kc).
        { intros v I. apply Hs. right. exact I. } { intros I. apply Hl. right. exact I. } { intros v I. apply Hg. right. exact I. } { exact Hz. } { rewrite app_length, Nat.add_assoc in K'. exact K'. }
        exists ((Some R_escape, SStatic [c]) :: ks), ([c] :: qs). split; [|split; [cbn [parts_of]; rewrite Kp; reflexivity|cbn [List.concat]; rewrite Kc; reflexivity]].
        rewrite <- app_assoc. change (((Some R_escape, SStatic [c]) :: ks) ++ ks') with ([(Some R_escape, SStatic [c])] ++ ks ++ ks'). apply loop_cons; [discriminate| |exact K].
        apply makes_alt_first, escape_piece, Hc.
    + rewrite Ed in *. subst x. destruct (IH d ltac:(rewrite app_length in Hn; cbn in Hn; lia) (p + List.length (c :: a))%nat z r ks') as (ks & qs & K & Kp & Kc).
      { intros v I. apply Hs. apply in_or_app. right. exact I. } { intros I. apply Hl. apply in_or_app. right. exact I. } { intros v I. apply Hg. apply in_or_app. right. exact I. } { exact Hz. } { rewrite app_length, Nat.add_assoc in K'. exact K'. }
      exists ((Some T, SStatic (c :: a)) :: ks), ((c :: a) :: qs). split; [|split; [cbn [parts_of]; rewrite Kp; reflexivity|cbn [List.concat]; rewrite Kc; reflexivity]].
      rewrite <- app_assoc. change (((Some T, SStatic (c :: a)) :: ks) ++ ks') with ([(Some T, SStatic (c :: a))] ++ ks ++ ks'). apply loop_cons; [discriminate| |exact K].
      apply (text_piece X y full T ok HT Tplain good Tset q_special); [discriminate| |intros v I; apply Hg; apply in_or_app; left; exact I|].
      * intros v I. apply (q_ordinary (c :: a)); [intros w J; apply Hs; apply in_or_app; left; exact J|intros J; apply Hl; apply in_or_app; left; exact J|intros w J; apply Hg; apply in_or_app; left; exact J|exact I|apply Ha, I].
      * rewrite <- app_assoc. apply double_starts in Hd. destruct d as [|v d]; [exact Hz|].
        apply starts_app; [unfold double; cbn [flat_map]; destruct (special v); discriminate|]. revert Hd. apply starts_imp. intros w. apply q_special.
Qed.

(** Text right after an expression. *)
Definition after_expr (r : str) : Prop := starts (fun c => c <> 63 /\ c <> 33) r.

Lemma double_in x c : In c x -> In c (double x).
Proof. intros I. unfold double. apply in_flat_map. exists c. split; [exact I|]. destruct (special c); left; reflexivity. Qed.

Lemma line_after z l r : (forall c q, z = c :: q -> c <> 63 /\ c <> 33) -> after_expr r -> after_expr (line_text b z l ++ r).
Proof.
  intros Hz Hr. unfold line_text. destruct z as [|c z].
  - cbn [double flat_map app]. destruct l as [|[e z] l].
    + exact Hr.
    + constructor. split; discriminate.
  - unfold double. cbn [flat_map]. destruct (special c); constructor; apply (Hz c z eq_refl).
Qed.

Definition line_stop (r : str) : Prop := starts (fun c => special c = false /\ ok c = false) r /\ after_expr r.
Lemma runs_loop l : forall s p r, no_sym y (line_text b s l) -> line_fine b s l -> (forall z, In z (s :: map snd l) -> forall c, In c z -> good c) -> line_stop r ->
  exists ks ps, makes_loop piece p (line_text b s l) r ks /\ parts_of ks = Ok ps /\ line_parts s l ps.
Proof.
  induction l as [|[e z] l IH]; intros s p r Hs [Hn Hl] Hg Hr.
  - unfold line_text in *. cbn [flat_map] in *. rewrite app_nil_r in *.
    destruct (pieces_then (List.length s) s (le_n _) p [] r []) as (ks & qs & K & Kp & Kc).
    { intros c I. apply Hs, double_in, I. } { exact Hn. } { apply Hg. left. reflexivity. } { destruct Hr as [Hr _]. revert Hr. apply starts_imp. tauto. }
    { apply loop_nil, (no_piece X y T ok HT), Hr. }
    rewrite !app_nil_r in K. exists ks, (textp qs). split; [exact K|]. split; [exact Kp|]. rewrite <- Kc. apply line_end.
  - destruct (Hl e z (or_introl eq_refl)) as (Hf & Ho & Hz & Hq).
    assert (E : line_text b s ((e, z) :: l) = double s ++ (u "{" ++ text b e ++ u "}") ++ line_text b z l) by (unfold line_text; cbn [flat_map]; rewrite <- !app_assoc; reflexivity).
    rewrite E in *. apply no_sym_app in Hs. destruct Hs as [Hs1 Hs]. apply no_sym_app in Hs. destruct Hs as [Hs2 Hs3]. apply no_sym_app in Hs2. destruct Hs2 as [_ Hs2]. apply no_sym_app in Hs2. destruct Hs2 as [Hs2 _].
    destruct (IH z (p + List.length (double s) + List.length (u "{" ++ text b e ++ u "}"))%nat r Hs3) as (ks & ps & K & Kp & Kc); [| |exact Hr|].
    { split; [exact Hz|]. intros e' z' I. apply Hl. right. exact I. } { intros w I. apply Hg. right. exact I. }
    destruct (pieces_then (List.length s) s (le_n _) p ((u "{" ++ text b e ++ u "}") ++ line_text b z l) r ([(Some R_expr_augment, SExpr (root (tree e)))] ++ ks)) as (ks1 & qs & K1 & Kp1 & Kc1).
    { intros c I. apply Hs1, double_in, I. } { exact Hn. } { apply Hg. left. reflexivity. } { constructor. apply q_special. reflexivity. }
    { apply loop_cons; [discriminate| |exact K]. apply makes_alt_next; [|apply makes_alt_first; apply braces_make; [exact Hb|exact Hf|exact Hs2|apply line_after; [assumption|apply Hr]]].
      apply (open_escape X y b), Ho. }
    exists (ks1 ++ [(Some R_expr_augment, SExpr (root (tree e)))] ++ ks), (textp qs ++ PExpr (root (tree e)) :: ps). split; [exact K1|]. split; [|rewrite <- Kc1; apply line_expr, Kc].
    apply parts_app; [exact Kp1|]. cbn [app parts_of]. rewrite Kp. reflexivity.
Qed.
End Runs.

Lemma follow_after r : lfollow y r -> after_expr r.
Proof. intros Hr. apply (lfollow_quiet y Hhigh) in Hr. revert Hr. apply starts_imp. intros c H. unfold NL in H. lia. Qed.
Lemma line_loop l s p r : no_sym y (line_text b s l) -> line_fine b s l -> lfollow y r ->
  exists ks ps, makes_loop (piece R_text) p (line_text b s l) r ks /\ parts_of ks = Ok ps /\ line_parts s l ps.
Proof.
  intros Hs Hl Hr. apply (runs_loop R_text (qtext y []) (fun _ => True) (G_text X y) text_plain (text_set X full) (text_special y [])); [|exact Hs|exact Hl|intros; exact Logic.I|].
  - intros x H1 H2 _. apply text_ordinary; [exact H1|exact H2|]. intros c _ [].
  - split; [|apply follow_after, Hr]. apply starts_and; [apply (follow_special y Hhigh), Hr|apply cls_stop, Hr].
Qed.
(** In double quotes. *)
Lemma quoted_loop l s p r : no_sym y (line_text b s l) -> line_fine b s l -> (forall z, In z (s :: map snd l) -> ~ In 34 z /\ ~ In 92 z) ->
  exists ks ps, makes_loop (piece R_text_quot2) p (line_text b s l) (34 :: r) ks /\ parts_of ks = Ok ps /\ line_parts s l ps.
Proof.
  intros Hs Hl Hq.
  apply (runs_loop R_text_quot2 (qtext y [34]) (fun c => c <> 34 /\ c <> 92) (G_text_quot2 X y) quot2_plain); [|apply (text_special y [34])| |exact Hs|exact Hl| |].
  - intros q x H. apply quot2_set. intros c I. apply H, I.
  - intros x H1 H2 H. apply text_ordinary; [exact H1|exact H2|]. intros c I [<-|[]]. destruct (H _ I). congruence.
  - intros z I c J. destruct (Hq z I) as [Q1 Q2]. split; intros ->; contradiction.
  - split; [|constructor; split; discriminate]. constructor. split; [reflexivity|]. unfold qtext. apply cls_not_in, in_or_app. right. cbn. tauto.
Qed.

(** A line of a text. *)
Definition line_rule_of (k : style) : rule := match k with Plain => R_line_normal | Markup => R_line_markup | Verbatim => R_line_verbat end.
Lemma line_alone k s l p r : k = Plain \/ k = Markup -> line_text b s l <> [] -> no_sym y (line_text b s l) -> line_fine b s l -> lfollow y r ->
  exists ps, line_parts s l ps /\
    makes (PRef (line_rule_of k)) p (line_text b s l) r [(Some (line_rule_of k), SLine (match k with Plain => LNormal ps | _ => LMarkup ps end))].
Proof.
  intros Hk Hne Hs Hf Hr. destruct (line_loop l s p r Hs Hf Hr) as (ks & ps & K & Kp & Kc). exists ps. split; [exact Kc|].
  assert (M : makes (PRef R_line_markup) p (line_text b s l) r [(Some R_line_markup, SLine (LMarkup ps))]).
  { node_of ks; [cbn [grammar]; apply makes_plus; assumption|]. cbn [setup]. rewrite Kp. reflexivity. }
  destruct Hk as [-> | ->]; cbn [line_rule_of]; [|exact M].
  node_of [(Some R_line_markup, SLine (LMarkup ps))]; [|reflexivity]. cbn [grammar]. apply makes_seq_i. eapply seq_eq; [| |eapply seq_cons; [|eapply seq_cons; [apply makes_plit|apply seq_nil]]]; [apply app_nil_r|apply app_nil_r|exact M].
Qed.
Lemma line_rule k s l p r : k = Plain \/ k = Markup -> line_text b s l <> [] -> no_sym y (line_text b s l) -> line_fine b s l -> follow y r ->
  exists ps, line_parts s l ps /\
    makes (PRef R_body_text) p (style_mark k ++ line_text b s l) r
      [(Some (text_rule k), SBlock (BText (column full p) [TxLine (match k with Plain => LNormal ps | _ => LMarkup ps end)]))].
Proof.
  intros Hk Hne Hs Hf Hr. destruct (line_loop l s (p + 1)%nat r Hs Hf (follow_l y r Hr)) as (ks & ps & K & Kp & Kc). exists ps. split; [exact Kc|].
  assert (M : makes (PRef R_line_markup) (p + 1)%nat (line_text b s l) r [(Some R_line_markup, SLine (LMarkup ps))]).
  { node_of ks; [cbn [grammar]; apply makes_plus; assumption|]. cbn [setup]. rewrite Kp. reflexivity. }
  apply makes_reduced; [reflexivity|reflexivity|]. cbn [grammar]. apply makes_alt_next; [destruct Hk as [-> | ->]; apply (fails G 20 _ 0); vm_compute; reflexivity|].
  destruct Hk as [-> | ->]; cbn [style_mark text_rule].
  - apply makes_alt_first.
    apply (text_seq X y full R_mark_normal R_line_normal R_tail_normal Plain) with (ks := [(Some R_line_normal, SLine (LNormal ps))]);
      [apply literal_node; reflexivity| |apply sem_ref; cbn [grammar]; apply (no_indent X y Hhigh Hnd), Hr|reflexivity|reflexivity].
    apply makes_opt. node_of [(Some R_line_markup, SLine (LMarkup ps))]; [|reflexivity]. cbn [grammar]. apply makes_seq_i. eapply seq_eq; [| |eapply seq_cons; [|eapply seq_cons; [apply makes_plit|apply seq_nil]]]; [apply app_nil_r|apply app_nil_r|exact M].
  - apply makes_alt_next; [apply (fails G 20 _ 0); vm_compute; reflexivity|]. apply makes_alt_first.
    apply (text_seq X y full R_mark_markup R_line_markup R_tail_markup Markup) with (ks := [(Some R_line_markup, SLine (LMarkup ps))]);
      [apply literal_node; reflexivity| |apply sem_ref; cbn [grammar]; apply (no_indent X y Hhigh Hnd), Hr|reflexivity|reflexivity].
    apply makes_opt, M.
Qed.
End Lines.

(** ** Scripts of one line *)

Lemma nn_app (x z : str) : ~ In NL x -> ~ In NL z -> ~ In NL (x ++ z).
Proof. intros H1 H2 I. apply in_app_or in I. tauto. Qed.
Lemma nn_flat {A} (f : A -> str) l : (forall a, In a l -> ~ In NL (f a)) -> ~ In NL (flat_map f l).
Proof. intros H I. apply in_flat_map in I. destruct I as (a & Ia & I). exact (H a Ia I). Qed.
Lemma nn_join sep l : ~ In NL sep -> (forall x, In x l -> ~ In NL x) -> ~ In NL (join sep l).
Proof.
  intros Hs H. induction l as [|x l IH]; [intros []|]. destruct l as [|z l]; [apply H; left; reflexivity|]. cbn [join].
  apply nn_app; [apply H; left; reflexivity|]. apply nn_app; [exact Hs|]. apply IH. intros w I. apply H. right. exact I.
Qed.
Lemma nn_b b : blank_text b -> ~ In NL b.
Proof. intros [_ H] I. destruct (H _ I) as [E|E]; discriminate. Qed.
Lemma nn_idc n : (forall d, In d n -> idc d) -> ~ In NL n.
Proof. intros H I. specialize (H _ I). discriminate. Qed.
Lemma nn_operand b p e : ~ In NL (text b e) -> ~ In NL (operand (text b) p e).
Proof. intros H. unfold operand, in_parens. destruct (prio e <? p)%nat; [|exact H]. apply nn_app; [intros [I|[]]; discriminate|]. apply nn_app; [exact H|intros [I|[]]; discriminate]. Qed.
Lemma nn_double x : ~ In NL x -> ~ In NL (double x).
Proof. intros H I. unfold double in I. apply in_flat_map in I. destruct I as (c & Ic & I). apply H. destruct (special c); cbn in I; intuition (subst; assumption). Qed.
Ltac nn_lit := let I := fresh "I" in intros I; cbn in I; repeat (destruct I as [I|I]; [discriminate I|]); exact I.

Lemma nn_str q s : ~ In NL (str_text q s).
Proof.
  intros I. apply in_flat_map in I. destruct I as (c & _ & I). destruct (special c) eqn:E.
  - unfold str_char in I. rewrite E in I. destruct I as [->|[->|[]]]; discriminate.
  - apply str_char_in in I; [|exact E]. tauto.
Qed.
Lemma text_no_NL b e : blank_text b -> fine b e = true -> ~ In NL (text b e).
Proof.
  intros Hb. pose proof (nn_b b Hb) as Nb.
  assert (Na : forall a, (forall n e, In (n, e) a -> fine b e = true -> ~ In NL (text b e)) ->
    forallb (fun a => match a with (n, e) => match n with Some n => id_name n | None => true end && fine b e end) a = true -> ~ In NL (args_text b (text b) a)).
  { intros a H F. unfold args_text. apply nn_join; [apply nn_app; [nn_lit|exact Nb]|]. intros x I. apply in_map_iff in I. destruct I as ([n e'] & <- & I).
    rewrite forallb_forall in F. specialize (F _ I). cbn in F. apply andb_true_iff in F. destruct F as [F1 F2].
    destruct n as [n|]; [|exact (H _ _ I F2)]. apply nn_app; [apply nn_idc, id_chars, F1|]. apply nn_app; [nn_lit|exact (H _ _ I F2)]. }
  induction e as [n|q s l IH|q s|d|c|l IH|l IH|l IH|l IH|e l q IH IHl|n e l IH IHl|e l IH IHl|e l IH IHl|n e IH|e l IH IHl|e l IH IHl|x c z IHx IHc IHz] using ex_all; intros F; cbn [fine] in F; cbn [text].
  - apply nn_idc, id_chars, var_id, F.
  - apply nn_app; [destruct q; nn_lit|]. apply nn_app; [apply nn_str|]. apply nn_app; [|destruct q; nn_lit]. rewrite forallb_forall in F. rewrite Forall_forall in IH.
    apply nn_flat. intros [e z] I. specialize (F _ I). cbv beta iota in F. rewrite !andb_true_iff in F. apply nn_app; [nn_lit|]. apply nn_app; [apply (IH _ I), F|]. apply nn_app; [nn_lit|apply nn_str].
  - apply nn_app; [nn_lit|]. apply nn_app; [destruct q; nn_lit|]. apply nn_app; [|destruct q; nn_lit]. intros I. rewrite forallb_forall in F. specialize (F _ I). discriminate.
  - apply andb_true_iff in F. destruct F as [_ F]. intros I. rewrite forallb_forall in F. specialize (F _ I). discriminate.
  - destruct c; nn_lit.
  - rewrite forallb_forall in F. rewrite Forall_forall in IH. apply nn_app; [nn_lit|]. apply nn_app; [|nn_lit]. apply nn_join; [apply nn_app; [nn_lit|exact Nb]|].
    intros x I. apply in_map_iff in I. destruct I as (e & <- & I). apply IH; [exact I|apply F, I].
  - apply andb_true_iff in F. destruct F as [_ F]. rewrite forallb_forall in F. rewrite Forall_forall in IH. apply nn_app; [nn_lit|]. apply nn_app; [|nn_lit]. apply nn_join; [apply nn_app; [nn_lit|exact Nb]|].
    intros x I. apply in_map_iff in I. destruct I as (e & <- & I). apply IH; [exact I|apply F, I].
  - apply andb_true_iff in F. destruct F as [_ F]. rewrite forallb_forall in F. rewrite Forall_forall in IH. apply nn_app; [nn_lit|]. apply nn_app; [|nn_lit]. apply nn_join; [apply nn_app; [nn_lit|exact Nb]|].
    intros x I. apply in_map_iff in I. destruct I as (e & <- & I). apply nn_operand, IH; [exact I|apply F, I].
  - rewrite forallb_forall in F. rewrite Forall_forall in IH. apply nn_app; [nn_lit|]. apply nn_app; [|nn_lit]. apply nn_join; [apply nn_app; [nn_lit|exact Nb]|].
    intros x I. apply in_map_iff in I. destruct I as ([k v] & <- & I). specialize (F _ I). specialize (IH _ I). cbn [fst snd] in *. apply andb_true_iff in F. destruct F as [F1 F2]. destruct IH as [I1 I2].
    apply nn_app; [apply nn_operand, I1, F1|]. apply nn_app; [exact Nb|]. apply nn_app; [nn_lit|]. apply nn_app; [exact Nb|apply I2, F2].
  - rewrite !andb_true_iff in F. destruct F as [[F1 _] F]. rewrite forallb_forall in F. rewrite Forall_forall in IHl. apply nn_app; [apply nn_operand, IH, F1|].
    apply nn_app; [|destruct q; nn_lit].
    apply nn_flat. intros t I. specialize (F t I). specialize (IHl t I). destruct t as [m|e'|x z w|a]; cbn [fine_tail p_tail tail_text] in *.
    + apply nn_app; [nn_lit|apply nn_idc, id_chars, F].
    + apply nn_app; [nn_lit|]. apply nn_app; [apply nn_operand, IHl, F|nn_lit].
    + rewrite !andb_true_iff in F. destruct F as [[Fx Fz] Fw]. destruct IHl as (Ix & Iz & Iw). apply nn_app; [nn_lit|].
      apply nn_app; [destruct x; [apply nn_app; [apply nn_operand, Ix, Fx|exact Nb]|intros []]|]. apply nn_app; [nn_lit|].
      apply nn_app; [destruct z; [apply nn_app; [exact Nb|apply nn_operand, Iz, Fz]|intros []]|].
      apply nn_app; [|nn_lit]. destruct w as [w|]; [|intros []]. apply nn_app; [destruct z; [exact Nb|intros []]|]. apply nn_app; [nn_lit|]. apply nn_app; [exact Nb|apply nn_operand, Iw, Fw].
    + apply nn_app; [nn_lit|]. apply nn_app; [|nn_lit]. apply Na; [|exact F]. intros n e' Ie. unfold p_args in IHl. rewrite Forall_forall in IHl. exact (IHl _ Ie).
  - cbv zeta in F. rewrite !andb_true_iff in F. destruct F as [[F1 _] F]. rewrite forallb_forall in F. rewrite Forall_forall in IHl.
    apply nn_app; [destruct n; [apply nn_app; [nn_lit|exact Nb]|intros []]|]. apply nn_app; [apply nn_operand, IH, F1|]. apply nn_flat. intros [o e'] I. specialize (F _ I). specialize (IHl _ I). cbn in F, IHl.
    rewrite !andb_true_iff in F. repeat apply nn_app; try exact Nb; [destruct o; nn_lit|apply nn_operand, IHl; tauto].
  - rewrite !andb_true_iff in F. destruct F as [[F1 _] F]. rewrite forallb_forall in F. rewrite Forall_forall in IHl. apply nn_app; [apply nn_operand, IH, F1|].
    apply nn_flat. intros [g path a] I. specialize (F _ I). specialize (IHl _ I). cbn [fine_filter p_filter filter_text] in *. rewrite !andb_true_iff in F. destruct F as [[Fg Fp] Fa]. destruct IHl as [Ig Ia].
    apply nn_app; [exact Nb|]. apply nn_app; [nn_lit|]. apply nn_app; [exact Nb|]. apply nn_app; [apply nn_operand, Ig, Fg|]. apply nn_app.
    + apply nn_flat. intros m Im. rewrite forallb_forall in Fp. apply nn_app; [nn_lit|apply nn_idc, id_chars, Fp, Im].
    + destruct a as [a|]; [|intros []]. apply nn_app; [nn_lit|]. apply nn_app; [|nn_lit]. apply Na; [|exact Fa]. intros n e' Ie. cbn in Ia. unfold p_args in Ia. rewrite Forall_forall in Ia. exact (Ia _ Ie).
  - rewrite !andb_true_iff in F. destruct F as [[F1 _] F]. rewrite forallb_forall in F. rewrite Forall_forall in IHl. apply nn_app; [apply nn_operand, IH, F1|].
    apply nn_flat. intros e' I. specialize (F _ I). apply andb_true_iff in F. apply nn_app; [exact Nb|]. apply nn_operand, IHl; [exact I|tauto].
  - apply andb_true_iff in F. destruct F as [_ F]. apply nn_app; [apply nn_flat; intros; apply nn_app; [nn_lit|exact Nb]|apply nn_operand, IH, F].
  - rewrite !andb_true_iff in F. destruct F as [[F1 _] F]. rewrite forallb_forall in F. rewrite Forall_forall in IHl. apply nn_app; [apply nn_operand, IH, F1|].
    apply nn_flat. intros e' I. apply nn_app; [exact Nb|]. apply nn_app; [nn_lit|]. apply nn_app; [exact Nb|]. apply nn_operand, IHl; [exact I|apply F, I].
  - rewrite !andb_true_iff in F. destruct F as [[F1 _] F]. rewrite forallb_forall in F. rewrite Forall_forall in IHl. apply nn_app; [apply nn_operand, IH, F1|].
    apply nn_flat. intros e' I. apply nn_app; [exact Nb|]. apply nn_app; [nn_lit|]. apply nn_app; [exact Nb|]. apply nn_operand, IHl; [exact I|apply F, I].
  - rewrite !andb_true_iff in F. destruct F as [[F1 F2] F3]. apply nn_app; [apply nn_operand, IHx, F1|]. apply nn_app; [exact Nb|]. apply nn_app; [nn_lit|]. apply nn_app; [exact Nb|].
    apply nn_app; [apply nn_operand, IHc, F2|]. destruct z as [z|]; [|intros []]. cbn in IHz. apply nn_app; [exact Nb|]. apply nn_app; [nn_lit|]. apply nn_app; [exact Nb|]. apply IHz, F3.
Qed.
Lemma line_no_NL b s l : blank_text b -> line_fine b s l -> ~ In NL (line_text b s l).
Proof.
  intros Hb [Hs Hl]. unfold line_text. apply nn_app; [apply nn_double, Hs|]. apply nn_flat. intros [e z] I. destruct (Hl e z I) as (Hf & _ & Hz & _).
  apply nn_app; [nn_lit|]. apply nn_app; [apply text_no_NL; assumption|]. apply nn_app; [nn_lit|apply nn_double, Hz].
Qed.

Lemma preprocess_one y x : visible_line x -> ~ In NL x -> rstrip x = x -> preprocess y x = Ok (NL :: x).
Proof.
  intros Hv Hn Hr. rewrite preprocess_cases. unfold lines.
  assert (El : split NL x = [x]) by (apply (split_join NL [x]); [discriminate|intros z [<-|[]]; exact Hn]). rewrite El.
  assert (L : leading x = []) by (apply (leading_line [] x); [intros c []|exact Hv]).
  assert (C : compat [] [x]) by (apply (compat_line [] 0 x []); [apply (blankb_line [] x Hv)|rewrite L; reflexivity|exact Logic.I]).
  rewrite (proj2 (first_bad_none _ _) C).
  change (plan_text y [x]) with (ptext y [] (blanks 0 ++ [x])). rewrite ptext_line by apply (blankb_line [] x Hv). rewrite L.
  change (ptext y [] []) with (ptext y [] (blanks 0)). rewrite ptext_blanks. cbn [deds rev map repeatc repeat syms app].
  pose proof (strip_line [] x (fun c (I : In c []) => match I with end) Hv) as E. cbn [app] in E. rewrite E, Hr. cbn. rewrite app_nil_r. reflexivity.
Qed.

Theorem line_script X b k s l : blank_text b -> k = Plain \/ k = Markup -> line_fine b s l -> line_text b s l <> [] -> rstrip (line_text b s l) = line_text b s l ->
  exists col ps, line_parts s l ps /\
    parse_script X (style_mark k ++ line_text b s l) = Ok [NBlock [] MNone (BText col [TxLine (match k with Plain => LNormal ps | _ => LMarkup ps end)])].
Proof.
  intros Hb Hk Hf Hne Hr. set (x := style_mark k ++ line_text b s l).
  destruct (get_parser_fresh x) as (y & Ey & [Hnd Hfr]). assert (Hhigh : forall c, In c (symbol_chars y) -> 10088 <= c) by (intros c I; apply (get_parser_bound _ _ Ey), I).
  assert (Hs : no_sym y (line_text b s l)) by (intros c I Is; apply (Hfr c Is), in_or_app; right; exact I).
  assert (Hm : exists c, style_mark k = [c] /\ mark c) by (unfold mark; destruct Hk as [-> | ->]; eexists; split; try reflexivity; auto).
  destruct Hm as (m & Em & Hm).
  assert (Hv : visible_line [m]) by (exists m, []; split; [reflexivity|]; unfold mark in Hm; destruct Hm as [->|[->| ->]]; reflexivity).
  assert (Hp : preprocess y x = Ok (NL :: x)).
  { apply preprocess_one.
    - destruct Hv as (c & r & E & Hc). injection E as <- <-. unfold x. rewrite Em. exists m, (line_text b s l). split; [reflexivity|exact Hc].
    - apply nn_app; [destruct k; nn_lit|apply line_no_NL; assumption].
    - unfold x. rewrite Em. rewrite rstrip_visible; [rewrite Hr; reflexivity|exact Hv|]. intros z [<-|[]]. destruct Hv as (c & r & E & Hc). injection E as <- <-. exact Hc. }
  set (full := NL :: x).
  destruct (line_rule X y full b Hhigh Hnd Hb k s l 1%nat [] Hk Hne Hs Hf (starts_nil _)) as (ps & Hps & M).
  exists (column full 1), ps. split; [exact Hps|].
  set (t := BText (column full 1) [TxLine (match k with Plain => LNormal ps | _ => LMarkup ps end)]) in *.
  assert (B : makes X y full (PRef R_block) 0 full [] [item_kid (NBlock [] MNone t)]).
  { apply (a_block X y full 0 x [] 0%nat (Some (text_rule k)) t).
    - unfold x. rewrite Em. discriminate.
    - unfold x. rewrite Em. constructor. unfold mark, NL in *. lia.
    - unfold x. rewrite Em. cbn [app]. unfold mark in Hm. destruct Hm as [->|[->| ->]]; apply (fails _ 60 _ 0); vm_compute; reflexivity.
    - assert (F : forall e, e = R_block_control \/ e = R_block_def \/ e = R_block_context \/ e = R_block_import \/ e = R_tags_expand -> PegSpec.sem (grammar (lx_unicode X) y) (PRef e) (x ++ []) None).
      { intros e He. unfold x. rewrite Em. cbn [app]. unfold mark in Hm. destruct Hm as [->|[->| ->]]; destruct He as [->|[->|[->|[->| ->]]]]; apply (fails _ 60 _ 0); vm_compute; reflexivity. }
      apply makes_alt_next; [apply F; auto|]. apply makes_alt_next; [apply F; auto|]. apply makes_alt_next; [apply F; auto|]. apply makes_alt_next; [apply F; auto|]. apply makes_alt_first.
      apply makes_compact; [reflexivity|reflexivity|reflexivity|]. cbn [grammar]. apply makes_alt_next; [apply sem_seq_no, F; auto|apply makes_alt_first; exact M]. }
  assert (D : makes X y full (PRef R_document) 0 full [] [(Some R_document, SDoc [NBlock [] MNone t])]).
  { node_of [item_kid (NBlock [] MNone t)]; [|reflexivity]. cbn [grammar]. apply makes_seq_i.
    apply (seq_eq X y full _ 0%nat (full ++ [] ++ []) _ [] ([item_kid (NBlock [] MNone t)] ++ [] ++ [])); [apply app_nil_r|reflexivity|].
    apply seq_cons; [|apply seq_cons; [|apply seq_nil]].
    - apply makes_opt. apply makes_reduced; [reflexivity|reflexivity|]. cbn [grammar].
      apply makes_alt_next; [apply (no_tail_blocks X y Hhigh Hnd); constructor; left; reflexivity|]. apply makes_alt_first. apply makes_plus; [discriminate|].
      replace full with (full ++ []) by apply app_nil_r. change [item_kid (NBlock [] MNone t)] with ([item_kid (NBlock [] MNone t)] ++ []).
      apply loop_cons; [discriminate|rewrite app_nil_r; exact B|]. apply loop_nil. apply (no_block_end X y full 0%nat).
    - apply makes_opt_no. apply (fails _ 60 _ 0). vm_compute. reflexivity. }
  apply parse_makes in D. destruct D as (tr & Kp & Kb). specialize (Kb eq_refl).
  unfold parse_script, parse_report. rewrite Ey, Hp. fold full. unfold parse_flat. unfold full at 1. fold full. rewrite Kp, Kb. reflexivity.
Qed.

(** The expressions of a tree of one line. *)
Fixpoint exprs (ps : list part) : list expr :=
  match ps with
  | [] => []
  | PExpr t :: r => t :: exprs r
  | PText _ :: r => exprs r
  end.
Lemma exprs_texts qs ps : exprs (map PText qs ++ ps) = exprs ps.
Proof. induction qs; [reflexivity|assumption]. Qed.
Lemma line_exprs s l ps : line_parts s l ps -> exprs ps = map (fun a => root (tree (fst a))) l.
Proof.
  induction 1 as [qs|qs e s l ps H IH]; [rewrite <- (app_nil_r (map PText qs)), exprs_texts; reflexivity|]. rewrite exprs_texts. cbn [exprs map fst]. rewrite IH. reflexivity.
Qed.

Lemma line_ends b s l e : rstrip (line_text b s (l ++ [(e, [])])) = line_text b s (l ++ [(e, [])]).
Proof.
  assert (E : exists z, line_text b s (l ++ [(e, [])]) = z ++ [125]).
  { unfold line_text. rewrite flat_map_app. cbn [flat_map double]. rewrite !app_nil_r. exists (double s ++ flat_map (fun a => match a with (e, s) => u "{" ++ text b e ++ u "}" ++ double s end) l ++ u "{" ++ text b e).
    rewrite <- !app_assoc. reflexivity. }
  destruct E as (z & ->). apply rstrip_nonspace. reflexivity.
Qed.

Lemma line_fine_one b e : fine b e = true -> startswith (u "{") (text b e) = false -> line_fine b (u " ") [(e, [])].
Proof. intros F H. split; [nn_lit|]. intros e' z [E|[]]. injection E as <- <-. split; [exact F|]. split; [exact H|]. split; [intros []|]. intros c r E. discriminate. Qed.
Theorem one_expression X b e : blank_text b -> fine b e = true -> startswith (u "{") (text b e) = false ->
  exists col ps, parse_script X (u "| {" ++ text b e ++ u "}") = Ok [NBlock [] MNone (BText col [TxLine (LNormal ps)])] /\ exprs ps = [root (tree e)].
Proof.
  intros B F Hs. destruct (line_script X b Plain (u " ") [(e, [])] B (or_introl eq_refl) (line_fine_one b e F Hs) ltac:(discriminate) (line_ends b (u " ") [] e)) as (col & ps & H & K).
  exists col, ps. split; [|apply line_exprs in H; exact H]. rewrite <- K. unfold line_text. cbn [flat_map double app]. rewrite !app_nil_r. reflexivity.
Qed.
Theorem same_text b1 e1 b2 e2 : blank_text b1 -> blank_text b2 -> fine b1 e1 = true -> fine b2 e2 = true -> text b1 e1 = text b2 e2 -> tree e1 = tree e2.
Proof.
  intros B1 B2 F1 F2 E. set (X := {| lx_unicode := {| u_digit := fun _ => None; u_alnum := fun _ => false |}; lx_float := fun _ => VNone |}).
  destruct (one_expression X b1 (XList [e1]) B1) as (c1 & p1 & K1 & H1); [cbn [fine forallb]; rewrite F1; reflexivity|reflexivity|].
  destruct (one_expression X b2 (XList [e2]) B2) as (c2 & p2 & K2 & H2); [cbn [fine forallb]; rewrite F2; reflexivity|reflexivity|].
  assert (Et : text b1 (XList [e1]) = text b2 (XList [e2])) by (cbn [text map join]; rewrite E; reflexivity).
  rewrite Et, K2 in K1. injection K1 as <- <-. rewrite H1 in H2. injection H2 as H2. exact H2.
Qed.

(** ** Samples *)

Definition va : ex := XName (u "a").
Definition vb : ex := XName (u "b").
Definition vc : ex := XName (u "c").
Definition sample_blank : str := u " ".
Lemma sample_blanks : blank_text sample_blank.
Proof. split; [discriminate|]. intros c [<-|[]]. left. reflexivity. Qed.
Definition sample_expr : ex :=
  XIf (XOr va [XAnd vb [XNot 2 (XOps false va [(OLt, vb); (OIn, XCat va [XText Double (u "x") []; XPipe vb [XFilter vc [u "d"] (Some [(None, va); (Some (u "k"), XIf va vb None)]); XFilter va [] None]])])]])
    (XOps true va [(OSub, XOps false vb [(OMul, XOps true vc []); (OFloorDiv, XNum (u "12"))]);
                   (OAdd, XOps false vb [(OPow, XTail (XNum (u "1")) [XMember (u "x"); XItem (XOps false va [(OBitOr, vb); (OBitOr, XOps false va [(OBitXor, XOps false va [(OBitAnd, XOps false va [(OShl, vc)])])])]); XItem (XCat va [vb]); XCall [(None, XOps false va [(OEq, vb)])]] QNone)])])
    (Some (XTuple [XList []; XList [va]; XTuple [XText Double [] []; XOps false va [(OIs, vb)]]])).

(** Constants, sets, dicts, slices and qualifiers. *)
Definition sample_expr2 : ex :=
  XOps false (XTail va [XSlice None None None; XSlice (Some vb) None None; XSlice None (Some (XNum (u "2"))) None; XSlice (Some va) (Some vb) (Some vc); XSlice None None (Some (XOr va [vb]))] QOpt)
    [(OAdd, XOps false (XTail (XOps false va [(OAdd, vb)]) [] QReq)
      [(OMul, XTail (XDict [(va, XConst CTrue); (XText Double (u "k") [], XIf va (XTail vb [] QOpt) (Some (XSet [va; XSet [XConst CNone; XIf va vb None]]))); (XNot 1 va, XDict [])]) [XItem (XConst CFalse); XMember (u "x")] QReq)])].

(** Strings with escapes, quotes and expressions; raw strings. *)
Definition sample_expr3 : ex :=
  XCat (XText Double (u "a$\") [(XOps false va [(OAdd, XText Single (34 :: 39 :: NL :: u "b") [(XRaw Double (u "\n{'"), u "$")])], u "x{"); (XList [vb], [])])
    [XRaw Single (u "c:\d"); XTail (XText Single (u "'") []) [XMember (u "n")] QNone].

(** *** What is excluded *)

(** The tree of the line "| {x}". *)
Definition parses (x : str) (t : expr) : Prop :=
  exists col, parse_script conf_lexicon (u "| {" ++ x ++ u "}") = Ok [NBlock [] MNone (BText col [TxLine (LNormal [PText (u " "); PExpr t])])].
Lemma name_finding : exists n m, id_name n = true /\ parses n (root (EChain false (ELit (VBool true)) [(OIs, EVar m None)])).
Proof. exists (u "Trueish"), (u "h"). split; [reflexivity|]. eexists. vm_compute. reflexivity. Qed.
Lemma is_finding : exists n m, var_name n = true /\
  parses (text sample_blank (XOps false va [(OIs, XName n)])) (root (EChain false (EVar (u "a") None) [(OIsNot, EVar m None)])).
Proof. exists (u "nothing"), (u "hing"). split; [reflexivity|]. eexists. vm_compute. reflexivity. Qed.
Lemma concat_finding : exists e1 e2, fine sample_blank e1 = true /\ fine sample_blank e2 = true /\
  parses (text sample_blank (XCat e1 [e2])) (root (EFactor (tree e1) [TCall [(None, root (tree vb)); (None, root (tree vc))]] QNone)).
Proof. exists va, (XTuple [vb; vc]). split; [reflexivity|]. split; [reflexivity|]. eexists. vm_compute. reflexivity. Qed.
(** An expression that begins with a brace cannot follow the brace that opens it: two braces stand for one. *)
Lemma brace_finding : exists col, fine sample_blank (XSet [va]) = true /\
  parse_script conf_lexicon (u "| {" ++ text sample_blank (XSet [va]) ++ u "}") = Ok [NBlock [] MNone (BText col [TxLine (LNormal [PText (u " "); PText (u "{"); PText (u "a"); PText (u "}")])])].
Proof. eexists. split; [reflexivity|]. vm_compute. reflexivity. Qed.
(** A qualifier after parentheses is kept twice, by the expression in them and by the operand they are. *)
Lemma twice_qual_finding : parses (u "(a + b)?") (root (EFactor (ERoot (tree (XOps false va [(OAdd, vb)])) QOpt) [] QOpt)).
Proof. eexists. vm_compute. reflexivity. Qed.
Lemma minus_finding : parse_script conf_lexicon (u "| {a * -b}") = Raise SyntaxError /\ parse_script conf_lexicon (u "| {a + -b}") = Raise SyntaxError /\
  exists d, parse_script conf_lexicon (u "| {a * (-b)}") = Ok d.
Proof. split; [vm_compute; reflexivity|]. split; [vm_compute; reflexivity|]. eexists. vm_compute. reflexivity. Qed.
Lemma tight_finding : parse_script conf_lexicon (u "| {a!=b}") = Raise SyntaxError /\ parses (u "a != b") (root (tree (XOps false va [(ONe, vb)]))).
Proof. split; [vm_compute; reflexivity|]. eexists. vm_compute. reflexivity. Qed.
