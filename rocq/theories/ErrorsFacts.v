(** Lemmas for PropErrors.v: positions in the preprocessed text and in the script. *)
From Coq Require Import List NArith ZArith Bool Lia.
From Verif Require Import PyStr PyStrFacts Indent IndentSpec IndentFacts Preprocess PreprocessSpec PreprocessFacts Errors ErrorsSpec.
Import ListNotations.

Lemma count_app c a b : count_char c (a ++ b) = count_char c a + count_char c b.
Proof. unfold count_char. now rewrite filter_app, app_length. Qed.
Lemma count_none c s : ~ In c s -> count_char c s = 0.
Proof.
  intros H. unfold count_char. induction s as [|d s IH]; [reflexivity|]. cbn [filter]. destruct (N.eqb_spec c d) as [->|]; [destruct H; left; reflexivity|]. apply IH. intros I. apply H. right. exact I.
Qed.
Lemma rfind_none c s : ~ In c s -> rfind c s = (-1)%Z.
Proof. intros H. induction s as [|d s IH]; [reflexivity|]. cbn [rfind]. rewrite IH by (intros I; apply H; right; exact I). cbn. destruct (N.eqb_spec c d) as [->|]; [destruct H; left; reflexivity|reflexivity]. Qed.
Lemma rfind_last c x g : ~ In c g -> rfind c (x ++ c :: g) = Z.of_nat (List.length x).
Proof.
  intros H. induction x as [|d x IH].
  - cbn [app rfind]. rewrite rfind_none by exact H. cbn. now rewrite N.eqb_refl.
  - cbn [app rfind List.length]. rewrite IH. destruct (Z.leb_spec 0 (Z.of_nat (List.length x))); lia.
Qed.

Section Net.
Variable y : symbols.
Definition net (s : str) : Z :=
  (Z.of_nat (count_char (INDENT_S y) s + count_char (INDENT_T y) s) - Z.of_nat (count_char (DEDENT_S y) s + count_char (DEDENT_T y) s))%Z.
Lemma net_app a b : net (a ++ b) = (net a + net b)%Z.
Proof. unfold net. rewrite !count_app. lia. Qed.
Lemma net_cons c b : net (c :: b) = (net [c] + net b)%Z.
Proof. exact (net_app [c] b). Qed.
Lemma net_none s : (forall c, In c s -> ~ In c (symbol_chars y)) -> net s = 0%Z.
Proof.
  intros H. unfold net. rewrite !count_none; [reflexivity|..]; intros I; apply (H _ I); unfold symbol_chars; cbn; auto.
Qed.
Hypothesis Hd : NoDup (symbol_chars y).
Ltac symb := unfold net, count_char; cbn [filter]; destruct (distinct_symbols y Hd) as (D1 & D2 & D3 & D4 & D5 & D6);
  repeat (rewrite N.eqb_refl || match goal with |- context [N.eqb ?a ?b] => destruct (N.eqb_spec a b); [congruence|] end); reflexivity.
Lemma net_is : net [INDENT_S y] = 1%Z. Proof. symb. Qed.
Lemma net_it : net [INDENT_T y] = 1%Z. Proof. symb. Qed.
Lemma net_ds : net [DEDENT_S y] = (-1)%Z. Proof. symb. Qed.
Lemma net_dt : net [DEDENT_T y] = (-1)%Z. Proof. symb. Qed.
Lemma net_ind l : net (map (ind_sym y) l) = Z.of_nat (List.length l).
Proof. induction l as [|c l IH]; [unfold net; reflexivity|]. cbn [map]. rewrite net_cons, IH. cbn [List.length]. unfold ind_sym. destruct (c =? SP)%N; rewrite ?net_is, ?net_it; lia. Qed.
Lemma net_ded l : net (map (ded_sym y) l) = (- Z.of_nat (List.length l))%Z.
Proof. induction l as [|c l IH]; [unfold net; reflexivity|]. cbn [map]. rewrite net_cons, IH. cbn [List.length]. unfold ded_sym. destruct (c =? SP)%N; rewrite ?net_ds, ?net_dt; lia. Qed.
Lemma net_syms cur ind : startswith cur ind || startswith ind cur = true -> net (syms y cur ind) = (Z.of_nat (List.length ind) - Z.of_nat (List.length cur))%Z.
Proof.
  intros H. unfold syms. destruct (startswith cur ind) eqn:E.
  - apply startswith_spec in E as [r ->]. rewrite skipn_app_exact, net_ind, app_length. lia.
  - cbn [orb] in H. apply startswith_spec in H as [r ->]. rewrite skipn_app_exact, net_ded, rev_length, app_length. lia.
Qed.

(** Balanced texts. *)
Lemma balanced_net f : balanced y f -> net f = 0%Z.
Proof.
  intros H. induction H as [|c s Hc _ IH|a b _ IHa _ IHb|a b _ IHa _ IHb]; [unfold net; reflexivity|..].
  - rewrite net_cons, IH, net_none; [reflexivity|]. intros d [<-|[]]. exact Hc.
  - rewrite (net_cons (INDENT_S y)), net_app, (net_cons (DEDENT_S y)), IHa, IHb, net_is, net_ds. reflexivity.
  - rewrite (net_cons (INDENT_T y)), net_app, (net_cons (DEDENT_T y)), IHa, IHb, net_it, net_dt. reflexivity.
Qed.
Lemma split_cases {A} (a b p q : list A) (d : A) : a ++ d :: b = p ++ q -> (exists r, a = p ++ r) \/ (exists r, p = a ++ d :: r /\ b = r ++ q).
Proof.
  revert p. induction a as [|x a IH]; intros [|z p] E; cbn [app] in E.
  - left. exists []. reflexivity.
  - injection E as <- ->. right. exists p. split; reflexivity.
  - left. exists (x :: a). reflexivity.
  - injection E as <- E. destruct (IH p E) as [[r ->]|(r & -> & ->)]; [left; exists r; reflexivity|right; exists r; split; reflexivity].
Qed.
Lemma balanced_prefix f : balanced y f -> forall p q, f = p ++ q -> (0 <= net p)%Z.
Proof.
  intros H. induction H as [|c s Hc _ IH|a b Ha IHa Hb IHb|a b Ha IHa Hb IHb]; intros p q E.
  - symmetry in E. apply app_eq_nil in E as [-> ->]. unfold net. cbn. lia.
  - destruct p as [|d p]; [unfold net; cbn; lia|]. injection E as <- E. rewrite net_cons, net_none; [specialize (IH p q E); lia|]. intros d [<-|[]]. exact Hc.
  - destruct p as [|d p]; [unfold net; cbn; lia|]. injection E as <- E. rewrite net_cons, net_is. destruct (split_cases _ _ _ _ _ E) as [[r Er]|(r & -> & Er)].
    + specialize (IHa p r Er). lia.
    + rewrite net_app, net_cons, net_ds, (balanced_net a Ha). specialize (IHb r q Er). lia.
  - destruct p as [|d p]; [unfold net; cbn; lia|]. injection E as <- E. rewrite net_cons, net_it. destruct (split_cases _ _ _ _ _ E) as [[r Er]|(r & -> & Er)].
    + specialize (IHa p r Er). lia.
    + rewrite net_app, net_cons, net_dt, (balanced_net a Ha). specialize (IHb r q Er). lia.
Qed.

(** The visible characters. *)
Local Notation visible := (visible y).
Lemma visible_app a b : visible (a ++ b) = visible a ++ visible b.
Proof. apply filter_app. Qed.
Lemma visible_none s : (forall c, In c s -> is_space c = true \/ In c (symbol_chars y)) -> visible s = [].
Proof.
  intros H. induction s as [|c s IH]; [reflexivity|]. unfold ErrorsSpec.visible in *. cbn [filter]. assert (E : is_space c || is_symbol y c = true).
  { destruct (H c (or_introl eq_refl)) as [->|I]; [reflexivity|]. apply is_symbol_In in I. rewrite I. apply orb_true_r. }
  rewrite E. apply IH. intros d I. apply H. right. exact I.
Qed.
Lemma visible_strip l : visible (strip l) = visible l.
Proof.
  unfold strip. destruct (lstrip_decomp l) as [w [E Hw]]. destruct (rstrip_decomp (lstrip l)) as [w' [E' Hw']].
  rewrite E at 2. rewrite visible_app. rewrite (visible_none w) by (intros c I; left; apply Hw, I). rewrite E' at 2. rewrite visible_app.
  rewrite (visible_none w') by (intros c I; left; apply Hw', I). now rewrite app_nil_r.
Qed.

(** The symbols behind a line are of one direction. *)
Definition one_way (s : str) : Prop := (forall c, In c s -> c = INDENT_S y \/ c = INDENT_T y) \/ (forall c, In c s -> c = DEDENT_S y \/ c = DEDENT_T y).
Lemma one_way_ind l c : In c (map (ind_sym y) l) -> c = INDENT_S y \/ c = INDENT_T y.
Proof. intros I. apply in_map_iff in I as (x & <- & _). unfold ind_sym. destruct (x =? SP)%N; auto. Qed.
Lemma one_way_ded l c : In c (map (ded_sym y) l) -> c = DEDENT_S y \/ c = DEDENT_T y.
Proof. intros I. apply in_map_iff in I as (x & <- & _). unfold ded_sym. destruct (x =? SP)%N; auto. Qed.
Lemma one_way_syms a b : one_way (syms y a b).
Proof. unfold syms. destruct (startswith a b); [left; apply one_way_ind|right; apply one_way_ded]. Qed.
Lemma one_way_enc ls : forall cur, one_way (fst (enc y cur ls)).
Proof.
  induction ls as [|l ls IH]; intros cur; cbn [enc]; [right; apply one_way_ded|]. destruct (blankb l).
  - specialize (IH cur). destruct (enc y cur ls). exact IH.
  - destruct (enc y (leading l) ls). apply one_way_syms.
Qed.
Lemma net_in s : (forall c, In c s -> c = INDENT_S y \/ c = INDENT_T y) -> net s = Z.of_nat (List.length s).
Proof.
  induction s as [|c s IH]; intros H; [unfold net; reflexivity|]. rewrite net_cons, IH by (intros d I; apply H; right; exact I). cbn [List.length].
  destruct (H c (or_introl eq_refl)) as [-> | ->]; rewrite ?net_is, ?net_it; lia.
Qed.
Lemma net_out s : (forall c, In c s -> c = DEDENT_S y \/ c = DEDENT_T y) -> net s = (- Z.of_nat (List.length s))%Z.
Proof.
  induction s as [|c s IH]; intros H; [unfold net; reflexivity|]. rewrite net_cons, IH by (intros d I; apply H; right; exact I). cbn [List.length].
  destruct (H c (or_introl eq_refl)) as [-> | ->]; rewrite ?net_ds, ?net_dt; lia.
Qed.

(** A character of the preprocessed text that is neither a symbol nor a line break. *)
Hypothesis Hy : sane y.
Lemma flat_head (o : list str) : flat_map (cons NL) o = [] \/ exists t, flat_map (cons NL) o = NL :: t.
Proof. destruct o as [|x o]; [left; reflexivity|right; eexists; reflexivity]. Qed.
Lemma enc_at v : ~ In v (symbol_chars y) -> v <> NL -> forall ls cur x z, compat cur ls -> (forall l c, In l ls -> In c l -> c <> NL /\ ~ In c (symbol_chars y)) ->
  flat_map (cons NL) (snd (enc y cur ls)) = x ++ v :: z ->
  exists k l x0 g rest s tl, nth_error ls k = Some l /\ x ++ [v] = x0 ++ NL :: g /\ strip l = g ++ rest /\ count_char NL x0 = k /\
    net (fst (enc y cur ls) ++ x ++ [v]) = (Z.of_nat (List.length (leading l)) - Z.of_nat (List.length cur))%Z /\
    visible (x ++ [v]) = visible (List.concat (firstn k ls) ++ g) /\
    z = rest ++ s ++ tl /\ all_symbols y s /\ one_way s /\ (tl = [] \/ exists t, tl = NL :: t).
Proof.
  intros Hv Hn. induction ls as [|l ls IH]; intros cur x z Hc Hg E.
  { cbn [enc snd flat_map] in E. destruct x; discriminate. }
  cbn [enc compat] in *. destruct (blankb l) eqn:Eb.
  - destruct (enc y cur ls) as [s o] eqn:Ee. cbn [fst snd flat_map app] in *. destruct x as [|c x]; cbn [app] in E; injection E as E0 E; [congruence|]. subst c.
    specialize (IH cur x z Hc ltac:(intros; eapply Hg; [right|]; eassumption)). rewrite Ee in IH. cbn [fst snd] in IH.
    destruct (IH E) as (k & l' & x0 & g & rest & s' & tl & N1 & N2 & N3 & N4 & N5 & N6 & N7).
    exists (S k), l', (NL :: x0), g, rest, s', tl. cbn [nth_error firstn List.concat app]. split; [exact N1|]. split; [rewrite N2; reflexivity|]. split; [exact N3|]. split; [|split; [|split; [|exact N7]]].
    + change (NL :: x0) with ([NL] ++ x0). rewrite count_app, N4. reflexivity.
    + rewrite net_app in *. rewrite net_cons. rewrite (net_none [NL]); [lia|]. intros d [<-|[]]. exact Hy.
    + change (NL :: x ++ [v]) with ([NL] ++ x ++ [v]). rewrite visible_app, N6. rewrite (visible_none [NL]) by (intros d [<-|[]]; left; reflexivity). rewrite <- app_assoc, (visible_app l).
      rewrite (visible_none l); [reflexivity|]. apply blankb_blank in Eb. intros d I. left. apply Eb, I.
  - destruct Hc as [Hc1 Hc2]. destruct (enc y (leading l) ls) as [s o] eqn:Ee. cbn [fst snd flat_map] in *.
    destruct x as [|c x]; cbn [app] in E; injection E as E0 E; [congruence|]. subst c.
    assert (Hs : forall c, In c (strip l) -> c <> NL /\ ~ In c (symbol_chars y)) by (intros c I; apply strip_In in I; apply (Hg l c (or_introl eq_refl) I)).
    assert (Hsy : all_symbols y s) by (pose proof (proj1 (enc_structure y ls (leading l))) as K; rewrite Ee in K; exact K).
    assert (Hnl : net [NL] = 0%Z) by (apply net_none; intros d [<-|[]]; exact Hy).
    assert (Hvn : visible [NL] = []) by (apply visible_none; intros d [<-|[]]; left; reflexivity).
    rewrite <- app_assoc in E. symmetry in E. destruct (split_cases _ _ _ _ _ E) as [[r Er]|(r & Er & Ez)].
    + subst x. rewrite <- app_assoc in E. apply app_inv_head in E. symmetry in E.
      assert (Er : exists x3, r = s ++ x3 /\ flat_map (cons NL) o = x3 ++ v :: z).
      { clear - E Hsy Hv. revert r E. induction s as [|c s IHs]; intros r E; [exists r; auto|]. destruct r as [|d r]; cbn [app] in E; injection E as E1 E2.
        - subst c. destruct Hv. apply Hsy. left. reflexivity.
        - subst d. destruct (IHs ltac:(intros d I; apply Hsy; right; exact I) r E2) as (x3 & -> & K). exists x3. auto. }
      destruct Er as (x3 & -> & E3). specialize (IH (leading l) x3 z Hc2 ltac:(intros; eapply Hg; [right|]; eassumption)). rewrite Ee in IH. cbn [fst snd] in IH.
      destruct (IH E3) as (k & l' & x0 & g & rest & s' & tl & N1 & N2 & N3 & N4 & N5 & N6 & N7).
      exists (S k), l', (NL :: strip l ++ s ++ x0), g, rest, s', tl. cbn [nth_error firstn List.concat]. split; [exact N1|]. split; [cbn [app]; rewrite <- !app_assoc, N2; reflexivity|].
      split; [exact N3|]. split; [|split; [|split; [|exact N7]]].
      * change (NL :: strip l ++ s ++ x0) with ([NL] ++ strip l ++ s ++ x0). rewrite !count_app, N4. rewrite (count_none NL (strip l)) by (intros I; destruct (Hs _ I); congruence).
        rewrite (count_none NL s) by (intros I; apply Hy, Hsy, I). reflexivity.
      * cbn [app]. rewrite net_app, net_syms by exact Hc1. rewrite net_cons, Hnl, <- !app_assoc, net_app, (net_none (strip l)) by (intros c I; apply Hs, I). lia.
      * cbn [app]. change (NL :: (strip l ++ s ++ x3) ++ [v]) with ([NL] ++ (strip l ++ s ++ x3) ++ [v]). rewrite visible_app, Hvn, <- !app_assoc, !visible_app, visible_strip. cbn [app].
        rewrite (visible_none s) by (intros c I; right; apply Hsy, I). rewrite !visible_app in N6. cbn [app]. rewrite N6. reflexivity.
    + exists 0, l, [], (x ++ [v]), r, s, (flat_map (cons NL) o). cbn [nth_error firstn List.concat app]. split; [reflexivity|]. split; [reflexivity|]. split; [rewrite Er, <- app_assoc; reflexivity|]. split; [reflexivity|].
      split; [|split; [|split; [exact Ez|split; [exact Hsy|split; [|apply flat_head]]]]].
      * rewrite net_app, net_syms by exact Hc1. rewrite net_cons, Hnl, (net_none (x ++ [v])); [lia|]. intros c I. apply Hs. rewrite Er. apply in_app_or in I. apply in_or_app. destruct I as [I|[<-|[]]]; [left; exact I|right; left; reflexivity].
      * change (NL :: x ++ [v]) with ([NL] ++ x ++ [v]). rewrite visible_app, Hvn. reflexivity.
      * pose proof (one_way_enc ls (leading l)) as K. rewrite Ee in K. exact K.
Qed.
End Net.

Lemma place y text out a f1 v s c : get_parser text = Some y -> preprocess y text = Ok out ->
  out = a ++ (f1 ++ v :: s) ++ c -> balanced y (f1 ++ v :: s) -> ~ In v (symbol_chars y) -> v <> NL -> all_symbols y s ->
  let m := make_msg y out (List.length a) (List.length (a ++ f1 ++ v :: s)) in
  exists k p q, nth_error (lines text) k = Some (p ++ q) /\ rep_line m = S k /\ rep_column m = Z.of_nat (S (List.length p)) /\
    (exists p0, p = p0 ++ [v]) /\ (~ In NL f1 -> exists p0, p = p0 ++ f1 ++ [v]) /\
    visible y (a ++ f1 ++ [v]) = visible y (List.concat (firstn k (lines text)) ++ p).
Proof.
  intros Hp Ho Ef Hb Hv Hn Hs m. destruct (get_parser_fresh text) as [y' [E [Hd Hf]]]. rewrite Hp in E. injection E as <-.
  pose proof (get_parser_sane _ _ Hp) as Hy. rewrite preprocess_cases in Ho. destruct (first_bad [] (lines text)) eqn:Eb; [discriminate|]. injection Ho as Ho.
  apply first_bad_none in Eb. unfold plan_text in Ho.
  assert (Hg : forall l d, In l (lines text) -> In d l -> d <> NL /\ ~ In d (symbol_chars y)).
  { intros l d Il Id. split; [intros ->; exact (lines_no_NL text l Il Id)|]. intros K. apply (Hf d K). eapply lines_In; eassumption. }
  set (s0 := fst (enc y [] (lines text))) in *. assert (Hs0 : all_symbols y s0) by exact (proj1 (enc_structure y (lines text) [])).
  assert (Ex : exists x, a ++ f1 = s0 ++ x /\ flat_map (cons NL) (snd (enc y [] (lines text))) = x ++ v :: s ++ c).
  { rewrite Ef in Ho. rewrite <- !app_assoc in Ho. rewrite app_assoc in Ho. cbn [app] in Ho. revert Ho. generalize (a ++ f1). generalize (s ++ c).
    generalize (flat_map (cons NL) (snd (enc y [] (lines text)))). clear - Hs0 Hv. induction s0 as [|d s0 IH]; intros F z w E; [exists w; auto|].
    destruct w as [|d' w]; cbn [app] in E; injection E as E1 E2; [subst d; destruct Hv; apply Hs0; left; reflexivity|]. subst d'.
    destruct (IH ltac:(intros e I; apply Hs0; right; exact I) F z w E2) as (x & -> & K). exists x. auto. }
  destruct Ex as (x & Ea & Ex).
  destruct (enc_at y Hd Hy v Hv Hn (lines text) [] x (s ++ c) Eb Hg Ex) as (k & l & x0 & g & rest & s' & tl & N1 & N2 & N3 & N4 & N5 & N6 & N7 & N8 & N9 & N10).
  assert (Hgn : ~ In NL g). { intros I. assert (I2 : In NL l) by (apply strip_In; rewrite N3; apply in_or_app; left; exact I). apply nth_error_In in N1. exact (lines_no_NL text l N1 I2). }
  assert (Pre : firstn (List.length (a ++ f1 ++ v :: s)) out = s0 ++ x0 ++ NL :: g ++ s).
  { rewrite Ef, (app_assoc a (f1 ++ v :: s) c), firstn_app, Nat.sub_diag, firstn_all. cbn [firstn]. rewrite app_nil_r.
    change (v :: s) with ([v] ++ s). rewrite (app_assoc a f1), Ea. rewrite <- !app_assoc. rewrite (app_assoc x), N2, <- !app_assoc. reflexivity. }
  assert (Sn : net y s = (- Z.of_nat (List.length s))%Z).
  { destruct s as [|d s]; [unfold net; reflexivity|]. assert (Hr : rest = []).
    { destruct rest as [|e rest]; [reflexivity|]. cbn [app] in N7. injection N7 as -> _. exfalso. apply nth_error_In in N1. destruct (Hg l e N1) as [_ K]; [apply strip_In; rewrite N3; apply in_or_app; right; left; reflexivity|].
      apply K, Hs. left. reflexivity. }
    subst rest. cbn [app] in N7. assert (Inc : forall e, In e (d :: s) -> In e s').
    { change (d :: s ++ c) with ((d :: s) ++ c) in N7. revert N7 Hs. generalize (d :: s). clear - N10 Hy. intros t. revert s'. induction t as [|h t IH]; intros s' E Hs e I; [destruct I|].
      destruct s' as [|h' s']; cbn [app] in E.
      - destruct N10 as [->|(t' & ->)]; [discriminate|]. injection E as -> _. exfalso. apply Hy, Hs. left. reflexivity.
      - injection E as -> E. destruct I as [->|I]; [left; reflexivity|]. right. apply (IH s' E); [|exact I]. intros e' I'. apply Hs. right. exact I'. }
    destruct N9 as [N9|N9]; [|apply net_out; [exact Hd|]; intros e I; apply N9, Inc, I].
    exfalso. pose proof (net_in y Hd (d :: s) ltac:(intros e I; apply N9, Inc, I)) as K1. pose proof (balanced_net y Hd _ Hb) as K2.
    pose proof (balanced_prefix y Hd _ Hb (f1 ++ [v]) (d :: s) ltac:(rewrite <- app_assoc; reflexivity)) as K3.
    change (f1 ++ v :: d :: s) with (f1 ++ [v] ++ d :: s) in K2. rewrite app_assoc, net_app in K2. cbn [List.length] in K1. lia. }
  assert (Ln : net y (a ++ f1 ++ [v]) = Z.of_nat (List.length (leading l))).
  { fold s0 in N5. rewrite app_assoc, Ea, <- app_assoc. rewrite N5. cbn [List.length]. lia. }
  assert (Bn : (net y (f1 ++ [v]) + net y s = 0)%Z). { rewrite <- net_app, <- app_assoc. apply balanced_net; assumption. }
  destruct (lstrip_decomp l) as [w [El Hw]]. destruct (rstrip_decomp (lstrip l)) as [w' [El' _]].
  assert (Hl : l = (leading l ++ g) ++ rest ++ w').
  { rewrite (leading_lstrip l) at 1. rewrite El' at 1. change (rstrip (lstrip l)) with (strip l). rewrite N3, <- !app_assoc. reflexivity. }
  exists k, (leading l ++ g), (rest ++ w'). rewrite <- Hl. split; [exact N1|].
  assert (Hlast : exists g0, g = g0 ++ [v]).
  { destruct g as [|e g] using rev_ind; [exfalso; apply app_inj_tail in N2; destruct N2; congruence|]. clear IHg. change (NL :: g ++ [e]) with ((NL :: g) ++ [e]) in N2. rewrite app_assoc in N2.
    apply app_inj_tail in N2. destruct N2 as [_ <-]. eexists; reflexivity. }
  split; [|split; [|split; [|split]]].
  - unfold m. cbn [make_msg rep_line]. unfold error_line. rewrite Pre, !count_app. change (NL :: g ++ s) with ([NL] ++ g ++ s). rewrite !count_app, N4.
    rewrite (count_none NL s0) by (intros I; apply Hy, Hs0, I). rewrite (count_none NL g) by exact Hgn. rewrite (count_none NL s) by (intros I; apply Hy, Hs, I). change (count_char NL [NL]) with 1. lia.
  - unfold m. cbn [make_msg rep_column]. unfold error_column. rewrite Pre. rewrite app_assoc, rfind_last by (intros I; apply in_app_or in I; destruct I as [I|I]; [exact (Hgn I)|apply Hy, Hs, I]).
    rewrite Ef, firstn_app, Nat.sub_diag, firstn_all. cbn [firstn]. rewrite app_nil_r. fold (net y a). rewrite !app_length. cbn [List.length]. rewrite app_length.
    rewrite net_app in Ln. lia.
  - destruct Hlast as (g0 & ->). exists (leading l ++ g0). rewrite app_assoc. reflexivity.
  - intros Hf1. assert (Eq : (s0 ++ x0) ++ NL :: g = a ++ f1 ++ [v]) by (rewrite <- app_assoc, <- N2, (app_assoc s0), <- Ea, <- app_assoc; reflexivity).
    destruct (split_cases _ _ _ _ _ Eq) as [[r Er]|(r & Er & Er2)].
    + exfalso. rewrite Er, <- app_assoc in Eq. apply app_inv_head in Eq. assert (I : In NL (f1 ++ [v])) by (rewrite <- Eq; apply in_or_app; right; left; reflexivity).
      apply in_app_or in I. destruct I as [I|[I|[]]]; congruence.
    + exists (leading l ++ r). rewrite Er2, <- app_assoc. reflexivity.
  - rewrite app_assoc, Ea, <- app_assoc, !visible_app, <- visible_app. rewrite (visible_none y s0) by (intros d I; right; apply Hs0, I). cbn [app]. rewrite N6, !visible_app.
    rewrite (visible_none y (leading l)) by (intros d I; left; exact (leading_blank l d I)). reflexivity.
Qed.
