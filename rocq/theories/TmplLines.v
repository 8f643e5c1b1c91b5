(** Proofs about templates: the lines of their scripts. *)
From Coq Require Import List NArith ZArith Bool Arith Lia String ZifyBool.
From Verif Require Import PyStr PyStrFacts Value Ast IndentSpec Preprocess PreprocessSpec PreprocessFacts Peg PegFacts PegSpec PegSemFacts
  Grammar Syntax GrammarFacts ParseRun PageSpec PageFlat PageParse OperSpec OperParse OperProofs TmplSpec TmplFlat.
Import ListNotations.
Local Open Scope string_scope.
Local Open Scope list_scope.
Local Open Scope N_scope.

Section Ind.
  Variable P : tmpl -> Prop.
  Definition p_els (els : option (str * list tmpl)) : Prop := match els with Some y => Forall P (snd y) | None => True end.
  Hypothesis HL : forall m k x, P (TLine m k x).
  Hypothesis HC : forall m h x tl, P (TNote m h x tl).
  Hypothesis HF : forall m g c, P (TLeaf m g c).
  Hypothesis HN : forall m g w kids, Forall P kids -> P (TNode m g w kids).
  Hypothesis HI : forall m cs els, Forall (fun c => Forall P (snd (snd c))) cs ->
    p_els els -> P (TIf m cs els).
  Hypothesis HR : forall m xs e w kids, Forall P kids -> P (TFor m xs e w kids).
  Hypothesis HW : forall m e w kids els, Forall P kids -> p_els els -> P (TWhile m e w kids els).
  Hypothesis HY : forall m alts, Forall (fun a => Forall P (snd a)) alts -> P (TTry m alts).
  Hypothesis HS : forall m xs e, P (TSet m xs e).
  Hypothesis HA : forall m x o e, P (TAug m x o e).
  Hypothesis HU : forall m h c, P (TUse m h c).
  Hypothesis HB : forall m h w kids, Forall P kids -> P (TBlock m h w kids).
  Hypothesis HP : forall m n, P (TBody m n).
  Fixpoint tmpl_ind' (t : tmpl) : P t :=
    let go := fix go (l : list tmpl) : Forall P l :=
      match l with [] => Forall_nil P | x :: r => Forall_cons x (tmpl_ind' x) (go r) end in
    match t with
    | TLine m k x => HL m k x
    | TNote m h x tl => HC m h x tl
    | TLeaf m g c => HF m g c
    | TNode m g w kids => HN m g w kids (go kids)
    | TIf m cs els => HI m cs els
        ((fix cls (l : list (ex * (str * list tmpl))) : Forall (fun c => Forall P (snd (snd c))) l :=
            match l with [] => Forall_nil _ | c :: r => Forall_cons c (go (snd (snd c))) (cls r) end) cs)
        (match els as o return p_els o with Some y => go (snd y) | None => Logic.I end)
    | TFor m xs e w kids => HR m xs e w kids (go kids)
    | TWhile m e w kids els => HW m e w kids els (go kids) (match els as o return p_els o with Some y => go (snd y) | None => Logic.I end)
    | TTry m alts => HY m alts
        ((fix cls (l : list (str * list tmpl)) : Forall (fun a => Forall P (snd a)) l :=
            match l with [] => Forall_nil _ | a :: r => Forall_cons a (go (snd a)) (cls r) end) alts)
    | TSet m xs e => HS m xs e
    | TAug m x o e => HA m x o e
    | TUse m h c => HU m h c
    | TBlock m h w kids => HB m h w kids (go kids)
    | TBody m n => HP m n
    end.
End Ind.

(** ** Ends of lines *)

(** The last character is not whitespace. *)
Definition solid (x : str) : Prop := exists a c, x = a ++ [c] /\ is_space c = false.
Lemma solid_app x z : solid z -> solid (x ++ z).
Proof. intros (a & c & -> & H). exists (x ++ a), c. split; [rewrite app_assoc; reflexivity|exact H]. Qed.
Lemma solid_flat {A} (f : A -> str) l x : solid x -> (forall a, In a l -> solid (f a)) -> solid (x ++ flat_map f l).
Proof.
  revert x. induction l as [|a l IH]; intros x Hx H; cbn [flat_map]; [rewrite app_nil_r; exact Hx|].
  rewrite app_assoc. apply IH; [apply solid_app, H; left; reflexivity|]. intros z I. apply H. right. exact I.
Qed.
Lemma solid_all x : x <> [] -> (forall c, In c x -> is_space c = false) -> solid x.
Proof.
  intros Hx H. destruct x as [|c x _] using rev_ind; [congruence|]. exists x, c. split; [reflexivity|]. apply H. apply in_or_app. right. left. reflexivity.
Qed.
Lemma rstrip_solid a x : solid a -> rstrip (a ++ x) = a ++ rstrip x.
Proof.
  intros (a' & c & -> & H). destruct (rstrip_decomp x) as (w & E & Hw). destruct (rstrip_cases x) as [N|(r & z & E2 & Hz)].
  - rewrite N in *. cbn [app] in E. subst w. rewrite rstrip_app_space by exact Hw. rewrite rstrip_nonspace by exact H. rewrite app_nil_r. reflexivity.
  - rewrite E at 1. rewrite app_assoc, rstrip_app_space by exact Hw. rewrite E2, app_assoc. apply rstrip_nonspace, Hz.
Qed.
Lemma rstrip_solid_all a : solid a -> rstrip a = a.
Proof. intros (a' & c & -> & H). apply rstrip_nonspace, H. Qed.
Lemma idc_space c : idc c -> is_space c = false.
Proof. intros H. apply orb_true_iff in H. destruct H as [H|H]; [apply letter_space, H|apply digit_space, H]. Qed.
Lemma solid_id n : id_name n = true -> solid n.
Proof.
  intros H. apply solid_all; [destruct n; [discriminate H|discriminate]|]. intros c I. apply idc_space, (id_chars n); assumption.
Qed.
Lemma solid_operand b p e : solid (text b e) -> solid (operand (text b) p e).
Proof. intros H. unfold operand, in_parens. destruct (prio e <? p)%nat; [|exact H]. apply solid_app, solid_app. exists [], 41. split; reflexivity. Qed.
Ltac solid_lit := eexists [], _; split; reflexivity.

Lemma text_solid b e : blank_text b -> fine b e = true -> solid (text b e).
Proof.
  intros Hb.
  induction e as [n|q s l IH|q s|d|k|l IH|l IH|l IH|l IH|e l q IH IHl|n e l IH IHl|e l IH IHl|e l IH IHl|n e IH|e l IH IHl|e l IH IHl|x c z IHx IHc IHz] using ex_all; intros F; cbn [fine] in F; cbn [text].
  - apply solid_id, var_id, F.
  - do 3 apply solid_app. destruct q; solid_lit.
  - do 3 apply solid_app. destruct q; solid_lit.
  - apply andb_true_iff in F. destruct F as [Fd F]. rewrite forallb_forall in F. apply solid_all; [destruct d; [discriminate Fd|discriminate]|]. intros c I. apply digit_space, F, I.
  - destruct k; apply solid_all; try discriminate; intros c I; cbn in I; repeat (destruct I as [<-|I]; [reflexivity|]); destruct I.
  - apply solid_app, solid_app. solid_lit.
  - apply solid_app, solid_app. solid_lit.
  - apply solid_app, solid_app. solid_lit.
  - apply solid_app, solid_app. solid_lit.
  - rewrite !andb_true_iff in F. destruct F as [[F1 _] F]. rewrite forallb_forall in F. rewrite app_assoc.
    assert (solid (operand (text b) 15 e ++ flat_map (tail_text b) l)) as K.
    { apply solid_flat; [apply solid_operand, IH, F1|].
      intros t I. specialize (F t I). destruct t as [m|e'|x y z|a]; cbn [fine_tail tail_text] in *.
      + apply solid_app, solid_id, F.
      + apply solid_app, solid_app. solid_lit.
      + do 5 apply solid_app. solid_lit.
      + apply solid_app, solid_app. solid_lit. }
    destruct q; cbn [qual_text]; [rewrite app_nil_r; exact K|apply solid_app; solid_lit|apply solid_app; solid_lit].
  - cbv zeta in F. rewrite !andb_true_iff in F. destruct F as [[F1 _] F]. rewrite forallb_forall in F. rewrite Forall_forall in IHl.
    apply solid_app, solid_flat; [apply solid_operand, IH, F1|]. intros [o e'] I. specialize (F _ I). specialize (IHl _ I). cbn in F, IHl.
    rewrite !andb_true_iff in F. do 3 apply solid_app. apply solid_operand, IHl. tauto.
  - rewrite !andb_true_iff in F. destruct F as [[F1 _] F]. rewrite forallb_forall in F. rewrite Forall_forall in IHl. apply solid_flat; [apply solid_operand, IH, F1|].
    intros [g path a] I. specialize (F _ I). specialize (IHl _ I). cbn [fine_filter p_filter filter_text] in *. rewrite !andb_true_iff in F. destruct F as [[Fg Fp] Fa]. destruct IHl as [Ig Ia].
    do 3 apply solid_app. destruct a as [a|].
    + do 4 apply solid_app. solid_lit.
    + rewrite app_nil_r. apply solid_flat; [apply solid_operand, Ig, Fg|]. intros m Im. rewrite forallb_forall in Fp. apply solid_app, solid_id, Fp, Im.
  - rewrite !andb_true_iff in F. destruct F as [[F1 _] F]. rewrite forallb_forall in F. rewrite Forall_forall in IHl. apply solid_flat; [apply solid_operand, IH, F1|].
    intros e' I. specialize (F _ I). apply andb_true_iff in F. apply solid_app. apply solid_operand, IHl; [exact I|tauto].
  - apply andb_true_iff in F. destruct F as [_ F]. apply solid_app, solid_operand, IH, F.
  - rewrite !andb_true_iff in F. destruct F as [[F1 _] F]. rewrite forallb_forall in F. rewrite Forall_forall in IHl. apply solid_flat; [apply solid_operand, IH, F1|].
    intros e' I. do 3 apply solid_app. apply solid_operand, IHl; [exact I|apply F, I].
  - rewrite !andb_true_iff in F. destruct F as [[F1 _] F]. rewrite forallb_forall in F. rewrite Forall_forall in IHl. apply solid_flat; [apply solid_operand, IH, F1|].
    intros e' I. do 3 apply solid_app. apply solid_operand, IHl; [exact I|apply F, I].
  - rewrite !andb_true_iff in F. destruct F as [[F1 F2] F3]. do 4 apply solid_app. destruct z as [z|].
    + do 4 apply solid_app. apply IHz, F3.
    + rewrite app_nil_r. apply solid_operand, IHc, F2.
Qed.

(** ** Texts *)

Lemma trim_step e z l : trim_last ((e, z) :: l) = (e, fst (trim (z, l))) :: snd (trim (z, l)).
Proof. destruct l as [|a l]; reflexivity. Qed.
Lemma rstrip_line b l : forall s pre, solid pre -> rstrip (pre ++ line_text b s l) = pre ++ line_text b (fst (trim (s, l))) (snd (trim (s, l))).
Proof.
  induction l as [|[e z] l IH]; intros s pre Hp.
  - unfold line_text. cbn [flat_map trim fst snd]. rewrite !app_nil_r, rstrip_solid, rstrip_double by exact Hp. reflexivity.
  - change (trim (s, (e, z) :: l)) with (s, trim_last ((e, z) :: l)). rewrite trim_step. cbn [fst snd].
    unfold line_text in *. cbn [flat_map]. specialize (IH z (pre ++ double s ++ u "{" ++ text b e ++ u "}")). rewrite <- !app_assoc in *. apply IH.
    do 4 apply solid_app. solid_lit.
Qed.
Lemma mark_solid k : solid (style_mark k).
Proof. destruct k; solid_lit. Qed.
Lemma rstrip_body b k x pre : style_ok k x -> rstrip (pre ++ body_text b k x) = pre ++ body_text b k (trim x).
Proof.
  intros Hk. unfold body_text. rewrite !app_assoc. assert (Hp : solid (pre ++ style_mark k)) by (apply solid_app, mark_solid). destruct x as [s l].
  destruct k; [apply rstrip_line, Hp|apply rstrip_line, Hp|]. specialize (Hk eq_refl). cbn [snd] in Hk. subst l. cbn [trim fst]. apply rstrip_solid, Hp.
Qed.
Lemma rstrip_mixed b k x : style_ok k x -> rstrip (mixed_text b k x) = mixed_text b k (trim x).
Proof.
  intros Hk. destruct x as [s l].
  assert (E : rstrip (line_text b s l) = line_text b (fst (trim (s, l))) (snd (trim (s, l)))).
  { destruct l as [|[e z] l]; [unfold line_text; cbn [flat_map trim fst snd]; rewrite !app_nil_r; apply rstrip_double|].
    change (trim (s, (e, z) :: l)) with (s, trim_last ((e, z) :: l)). rewrite trim_step. cbn [fst snd].
    pose proof (rstrip_line b l z (double s ++ u "{" ++ text b e ++ u "}")) as H. unfold line_text in *. cbn [flat_map]. rewrite <- !app_assoc in *. apply H.
    do 3 apply solid_app. solid_lit. }
  destruct k; cbn [mixed_text fst snd]; [exact E|exact E|]. specialize (Hk eq_refl). cbn [snd] in Hk. subst l. reflexivity.
Qed.
Lemma trim_fine b s l : line_fine b s l -> line_fine b (fst (trim (s, l))) (snd (trim (s, l))).
Proof.
  revert s. induction l as [|[e z] l IH]; intros s [H1 H2].
  - split; [cbn; apply no_NL_rstrip, H1|]. intros e z [].
  - change (trim (s, (e, z) :: l)) with (s, trim_last ((e, z) :: l)). rewrite trim_step. cbn [fst snd].
    destruct (H2 e z (or_introl eq_refl)) as (Hf & Hs & Hn & Hq). destruct (IH z) as [K1 K2].
    { split; [exact Hn|]. intros e' z' I. apply H2. right. exact I. }
    split; [exact H1|]. intros e' z' [E|I]; [|exact (K2 _ _ I)]. injection E as <- <-. split; [exact Hf|]. split; [exact Hs|]. split; [exact K1|].
    intros c r E. destruct l as [|a l]; [|exact (Hq c r E)]. cbn [trim fst] in E. destruct (rstrip_decomp z) as (w & Ez & _). rewrite E in Ez. exact (Hq c _ Ez).
Qed.
Lemma trim_style k x : style_ok k x -> style_ok k (trim x).
Proof. intros H E. specialize (H E). destruct x as [s l]. cbn [snd] in H. subst l. reflexivity. Qed.

(** ** Tags *)

Lemma word_chars x : forallb word_char x = true -> forall c, In c x -> is_space c = false /\ c <> NL.
Proof.
  intros H c I. rewrite forallb_forall in H. specialize (H c I). unfold word_char in H. rewrite !orb_true_iff in H.
  assert (is_space c = false) as E by (destruct H as [[H|H]|H]; [apply letter_space, H|apply digit_space, H|apply N.eqb_eq in H; subst; reflexivity]).
  split; [exact E|intros ->; discriminate].
Qed.
Section Lines.
Variables (b : str) (known : str -> option bool) (hy : list str) (bn : option str).
Hypothesis Hbn : forall n, bn = Some n -> var_name n = true.
Hypothesis Hb : blank_text b.

Lemma word_solid sc a : word_ok b sc a -> solid (word_text b a).
Proof.
  intros H. destruct a as [k z]. unfold word_ok, word_text in *. cbn [fst snd] in *. apply solid_app. destruct z as [x|e].
  - destruct H as [Hx Hf]. apply solid_all; [exact Hx|]. intros c I. apply (word_chars x Hf c I).
  - do 2 apply solid_app. solid_lit.
Qed.
Lemma given_solid sc g : given_ok b sc g -> solid (given_text b g).
Proof.
  intros [[Hf _] _]. destruct g as [e|e]; cbn [given_text given_expr] in *.
  - apply solid_operand, text_solid; [exact Hb|exact Hf].
  - do 2 apply solid_app. solid_lit.
Qed.
Lemma attr_solid sc a : tattr_ok b sc a -> solid (attr_text b a).
Proof.
  intros H. unfold attr_text. destruct a as [n g|l]; cbn [tattr_ok] in H.
  - do 3 apply solid_app. eapply given_solid, H.
  - destruct H as (Hl & Hw & _). apply solid_app. destruct l as [|a l]; [congruence|]. inversion Hw as [|? ? Ha Hr]; subst. cbn [flat_map].
    apply solid_flat; [apply (word_solid sc), Ha|]. intros z I. rewrite Forall_forall in Hr. apply (word_solid sc), Hr, I.
Qed.
Lemma name_solid n : tag_name n -> solid n.
Proof. intros H. destruct (name_last n H) as (r & z & E & Hz). exists r, z. split; assumption. Qed.
Lemma tag_solid sc g : tag_ok b sc g -> solid (tag_text b g).
Proof.
  destruct g as [[n l] a]. intros (Hn & _ & _ & Hl & Ha). rewrite Forall_forall in Hl, Ha. cbn [tag_text]. rewrite app_assoc. apply solid_flat.
  - apply solid_flat; [apply name_solid, Hn|]. intros z I. apply (word_solid sc), Hl, I.
  - intros z I. apply (attr_solid sc), Ha, I.
Qed.
Lemma chain_solid sc g : g <> [] -> Forall (tag_ok b sc) g -> solid (chain_text b g).
Proof.
  intros Hg H. destruct g as [|t g]; [congruence|]. inversion H as [|? ? Ht Hr]; subst. unfold chain_text. cbn [map]. rewrite OperParse.join_cons.
  apply solid_flat; [apply (tag_solid sc), Ht|]. intros z I. apply in_map_iff in I. destruct I as (a & <- & I). rewrite Forall_forall in Hr. apply solid_app, (tag_solid sc), Hr, I.
Qed.
Lemma use_solid sc h : use_ok b sc h -> solid (use_text b h).
Proof.
  destruct h as [[n pos] a]. intros ((Hn & _) & Hp & Ha). rewrite Forall_forall in Ha. cbn [use_text]. rewrite app_assoc. apply solid_flat.
  - apply solid_flat; [apply name_solid, Hn|]. rewrite Forall_forall in Hp. intros g I. apply solid_app, (given_solid sc), Hp, I.
  - intros z I. apply (attr_solid sc), Ha, I.
Qed.
Lemma chain_known_ne v g : chain_known known v g -> g <> [].
Proof. intros H ->. exact H. Qed.

(** No newlines. *)
Lemma word_nn sc a : word_ok b sc a -> ~ In NL (word_text b a).
Proof.
  intros H. destruct a as [k z]. unfold word_ok, word_text in *. cbn [fst snd] in *. apply nn_app; [destruct k; nn_lit|]. destruct z as [x|e].
  - destruct H as [Hx Hf]. intros I. apply (word_chars x Hf _ I). reflexivity.
  - apply nn_app; [nn_lit|]. apply nn_app; [apply text_no_NL; [exact Hb|apply H]|nn_lit].
Qed.
Lemma aname_nn n : attr_name n -> ~ In NL n.
Proof. intros (c & r & -> & Hc & Hr) [E|I]; [subst; discriminate|]. specialize (Hr _ I). discriminate. Qed.
Lemma given_nn sc g : given_ok b sc g -> ~ In NL (given_text b g).
Proof.
  intros [[Hf _] _]. destruct g as [e|e]; cbn [given_expr given_text] in *.
  - apply nn_operand, text_no_NL; assumption.
  - apply nn_app; [nn_lit|]. apply nn_app; [apply text_no_NL; assumption|nn_lit].
Qed.
Lemma attr_nn sc a : tattr_ok b sc a -> ~ In NL (attr_text b a).
Proof.
  intros H. unfold attr_text. apply nn_app; [nn_lit|]. destruct a as [n g|l]; cbn [tattr_ok] in H.
  - destruct H as (Hn & Hg). apply nn_app; [apply aname_nn, Hn|]. apply nn_app; [nn_lit|apply (given_nn sc), Hg].
  - destruct H as (Hl & Hw & _). apply nn_flat. intros a I. rewrite Forall_forall in Hw. apply (word_nn sc), Hw, I.
Qed.
Lemma tag_nn sc g : tag_ok b sc g -> ~ In NL (tag_text b g).
Proof.
  destruct g as [[n l] a]. intros (Hn & _ & _ & Hl & Ha). rewrite Forall_forall in Hl, Ha. cbn [tag_text]. apply nn_app; [|apply nn_app].
  - intros I. pose proof (name_idc n Hn _ I) as K. discriminate K.
  - apply nn_flat. intros z I. apply (word_nn sc), Hl, I.
  - apply nn_flat. intros z I. apply (attr_nn sc), Ha, I.
Qed.
Lemma chain_nn sc g : Forall (tag_ok b sc) g -> ~ In NL (chain_text b g).
Proof.
  intros H. unfold chain_text. apply nn_join; [nn_lit|]. intros x I. apply in_map_iff in I. destruct I as (a & <- & I). rewrite Forall_forall in H. apply (tag_nn sc), H, I.
Qed.
Lemma tname_nn n : tag_name n -> ~ In NL n.
Proof. intros Hn I. pose proof (name_idc n Hn _ I) as K. discriminate K. Qed.
Lemma use_nn sc h : use_ok b sc h -> ~ In NL (use_text b h).
Proof.
  destruct h as [[n pos] a]. intros ((Hn & _) & Hp & Ha). rewrite Forall_forall in Hp, Ha. cbn [use_text]. apply nn_app; [|apply nn_app].
  - apply tname_nn, Hn.
  - apply nn_flat. intros z I. apply nn_app; [nn_lit|]. apply (given_nn sc), Hp, I.
  - apply nn_flat. intros z I. apply (attr_nn sc), Ha, I.
Qed.
Lemma body_nn sc k x : mixed_ok b sc x -> ~ In NL (body_text b k x).
Proof. intros [H _]. unfold body_text. apply nn_app; [destruct k; nn_lit|]. destruct k; try (apply line_no_NL; assumption). apply H. Qed.
Lemma mixed_nn sc k x : mixed_ok b sc x -> ~ In NL (mixed_text b k x).
Proof. intros [H _]. destruct k; try (apply line_no_NL; assumption). apply H. Qed.
Lemma visible_vis x : begun x = true -> visible_line x.
Proof. destruct x as [|c r]; [discriminate|]. intros H. exists c, r. split; [reflexivity|]. cbn in H. apply negb_true_iff, H. Qed.
Lemma tails_ok sc k p : para_ok b sc k p -> Forall tail_ok (tail_texts b k (snd p)).
Proof.
  intros (_ & _ & H). apply Forall_forall. intros a I. apply in_map_iff in I. destruct I as ([[m n] x] & <- & I). rewrite Forall_forall in H. destruct (H _ I) as (_ & _ & Hm & Hv).
  split; [apply visible_vis, Hv|eapply mixed_nn, Hm].
Qed.
Lemma names_nn outer xs : targets_ok outer xs -> ~ In NL (names_text xs).
Proof. intros [_ H]. apply nn_join; [nn_lit|]. intros x I. destruct (H x I) as [Hv _]. apply nn_idc, id_chars, var_id, Hv. Qed.
Lemma head_nn sc e : expr_ok b sc e -> ~ In NL (head_text b e).
Proof. intros [H _]. apply nn_operand, text_no_NL; assumption. Qed.
Lemma head_solid sc e : expr_ok b sc e -> solid (head_text b e).
Proof. intros [H _]. apply solid_operand, text_solid; assumption. Qed.

(** Visible lines. *)
Lemma visible_app x z : visible_line x -> visible_line (x ++ z).
Proof. intros (c & r & -> & H). exists c, (r ++ z). split; [reflexivity|exact H]. Qed.
Lemma body_vis k x : visible_line (body_text b k x).
Proof. unfold body_text. destruct k; eexists _, _; split; reflexivity. Qed.
Lemma chain_vis sc g : g <> [] -> Forall (tag_ok b sc) g -> visible_line (chain_text b g).
Proof.
  intros Hg H. destruct g as [|[[n l] a] g]; [congruence|]. inversion H as [|? ? Ht Hr]; subst. destruct Ht as (Hn & _). unfold chain_text. cbn [map]. rewrite OperParse.join_cons.
  apply visible_app. cbn [tag_text]. apply visible_app. destruct (name_first n Hn) as (c & q & -> & Hc & _). exists c, q. split; [reflexivity|apply letter_space, Hc].
Qed.

Lemma use_vis sc h : use_ok b sc h -> visible_line (use_text b h).
Proof.
  destruct h as [[n pos] a]. intros ((Hn & _) & _). cbn [use_text]. apply visible_app.
  destruct (name_first n Hn) as (c & q & -> & Hc & _). exists c, q. split; [reflexivity|apply letter_space, Hc].
Qed.

(** ** Scripts *)

Lemma wfts_each outer own l : wfts b known hy bn outer own l -> Forall (fun t => exists own, wft b known hy bn outer own t) l.
Proof. intros H. revert own H. induction l as [|t l IH]; intros own H; inversion H; subst; constructor; [eexists; eassumption|eapply IH; eassumption]. Qed.
Lemma wfb_each outer own l : wfb b known hy bn outer own l ->
  Forall (fun y => indent_ok (fst y) /\ snd y <> [] /\ calm (snd y) /\ wfts b known hy bn outer own (snd y)) l.
Proof. intros H. induction l as [|t l IH]; inversion H; subst; constructor; cbn [fst snd]; auto. Qed.

Lemma kids_ol_ok kids outer own : Forall (fun t => forall outer own, wft b known hy bn outer own t -> Forall ol_ok (ols b t)) kids -> wfts b known hy bn outer own kids ->
  Forall ol_ok (flat_map (ols b) kids).
Proof.
  intros IH H. apply wfts_each in H. rewrite Forall_forall in *. intros o I. apply in_flat_map in I. destruct I as (t & It & I).
  destruct (H t It) as (own' & Hw). specialize (IH t It _ _ Hw). rewrite Forall_forall in IH. exact (IH o I).
Qed.
Lemma ols_ok t : forall outer own, wft b known hy bn outer own t -> Forall ol_ok (ols b t).
Proof.
  induction t as [m k x|m h x tl|m g c|m g w kids IH|m cs els IH IHe|m xs e w kids IH|m e w kids els IH IHe|m alts IHa|m xs e|m x o e|m h c|m h w kids IH|m n] using tmpl_ind'; intros outer own Hw; inversion Hw; subst; cbn [ols].
  - constructor; [|constructor]. match goal with K : para_ok _ _ _ _ |- _ => pose proof K as Hp; destruct K as (_ & Hm & _) end.
    apply ol_para; [apply body_vis|eapply body_nn, Hm|eapply tails_ok, Hp].
  - constructor; [|constructor]. match goal with K : note_ok _ _ |- _ => destruct K as [Hx Ht] end. apply ol_para; [destruct h; eexists _, _; split; reflexivity|apply nn_app; [destruct h; nn_lit|exact Hx]|].
    rewrite Forall_forall in *. intros [[m' n'] z] I. destruct (Ht _ I) as (_ & A2 & A3). split; [apply visible_vis, A3|exact A2].
  - constructor; [|constructor]. destruct c as [[k x]|]; [|apply ol_line; [eapply chain_vis; [eapply chain_known_ne|]; eassumption|eapply chain_nn; eassumption]].
    match goal with K : forall k x, _ -> _ |- _ => pose proof (K k x eq_refl) as Hp; destruct (K k x eq_refl) as (_ & Hm & _) end.
    apply ol_para; [apply visible_app; eapply chain_vis; [eapply chain_known_ne|]; eassumption| |eapply tails_ok, Hp].
    apply nn_app; [eapply chain_nn; eassumption|]. apply nn_app; [nn_lit|]. eapply body_nn, Hm.
  - constructor; [|constructor]. apply ol_node; [eapply chain_vis; [eapply chain_known_ne|]; eassumption|eapply chain_nn; eassumption|assumption|].
    eapply kids_ol_ok; eassumption.
  - match goal with K : Forall (fun c => expr_ok _ _ _) cs |- _ => rename K into He end.
    match goal with K : wfb _ _ _ _ _ _ (map snd cs) |- _ => rename K into Hc end.
    match goal with K : wfb _ _ _ _ _ _ (match els with _ => _ end) |- _ => rename K into Hl end.
    apply wfb_each in Hc, Hl.
    assert (Hall : forall kw e w kids, In (e, (w, kids)) cs -> visible_line kw -> ~ In NL kw -> forall m, ol_ok (OL m (kw ++ head_text b e) w (flat_map (ols b) kids))).
    { intros kw e w kids I Hv Hn m0. rewrite Forall_forall in He, Hc, IH. specialize (He _ I). specialize (IH _ I). cbn [fst snd] in He, IH.
      destruct (Hc (w, kids) (in_map snd _ _ I)) as (Hi & Hk & _ & Hwk). cbn [fst snd] in *.
      apply ol_node; [apply visible_app, Hv|apply nn_app; [exact Hn|eapply head_nn, He]|exact Hi|]. eapply kids_ol_ok; eassumption. }
    apply Forall_app. split.
    + destruct cs as [|[e [w kids]] cs]; [congruence|]. constructor.
      * apply Hall; [left; reflexivity|eexists _, _; split; reflexivity|nn_lit].
      * rewrite Forall_forall. intros o I. apply in_map_iff in I. destruct I as ([e' [w' kids']] & <- & I).
        apply Hall; [right; exact I|eexists _, _; split; reflexivity|nn_lit].
    + destruct els as [[w kids]|]; [|constructor]. constructor; [|constructor]. inversion Hl as [|? ? (Hi & Hk & _ & Hwk) _]; subst. cbn [fst snd] in *.
      apply ol_node; [eexists _, _; split; reflexivity|nn_lit|exact Hi|]. eapply kids_ol_ok; eassumption.
  - constructor; [|constructor]. apply ol_node; [eexists _, _; split; reflexivity| |assumption|eapply kids_ol_ok; eassumption].
    apply nn_app; [nn_lit|]. apply nn_app; [eapply names_nn; eassumption|]. apply nn_app; [nn_lit|eapply head_nn; eassumption].
  - match goal with K : wfb _ _ _ _ _ _ (match els with _ => _ end) |- _ => rename K into Hl end. apply wfb_each in Hl. constructor.
    + apply ol_node; [eexists _, _; split; reflexivity| |assumption|eapply kids_ol_ok; eassumption]. apply nn_app; [nn_lit|eapply head_nn; eassumption].
    + destruct els as [[w1 kids1]|]; [|constructor]. constructor; [|constructor]. inversion Hl as [|? ? (Hi & Hk & _ & Hwk) _]; subst. cbn [fst snd] in *.
      apply ol_node; [eexists _, _; split; reflexivity|nn_lit|exact Hi|]. eapply kids_ol_ok; eassumption.
  - match goal with K : wfb _ _ _ _ _ _ alts |- _ => rename K into Ha end. apply wfb_each in Ha.
    assert (Hall : forall kw w kids, In (w, kids) alts -> visible_line kw -> ~ In NL kw -> forall m, ol_ok (OL m kw w (flat_map (ols b) kids))).
    { intros kw w kids I Hv Hn m0. rewrite Forall_forall in Ha, IHa. specialize (IHa _ I). destruct (Ha _ I) as (Hi & Hk & _ & Hwk). cbn [fst snd] in *.
      apply ol_node; [exact Hv|exact Hn|exact Hi|]. eapply kids_ol_ok; eassumption. }
    destruct alts as [|[w kids] alts]; [congruence|]. constructor.
    + apply Hall; [left; reflexivity|eexists _, _; split; reflexivity|nn_lit].
    + rewrite Forall_forall. intros o I. apply in_map_iff in I. destruct I as ([w' kids'] & <- & I). apply Hall; [right; exact I|eexists _, _; split; reflexivity|nn_lit].
  - constructor; [|constructor]. apply ol_line; [eexists _, _; split; reflexivity|].
    apply nn_app; [nn_lit|]. apply nn_app; [eapply names_nn; eassumption|]. apply nn_app; [nn_lit|]. match goal with K : expr_ok _ _ _ |- _ => destruct K as [K _] end. apply text_no_NL; assumption.
  - constructor; [|constructor]. apply ol_line; [eexists _, _; split; reflexivity|].
    apply nn_app; [nn_lit|]. apply nn_app; [match goal with K : targets_ok _ [x] |- _ => exact (names_nn _ _ K) end|].
    apply nn_app; [nn_lit|]. apply nn_app; [destruct o; try discriminate; nn_lit|]. apply nn_app; [nn_lit|].
    match goal with K : expr_ok _ _ _ |- _ => destruct K as [K _] end. apply text_no_NL; assumption.
  - constructor; [|constructor]. destruct c as [[k x]|]; [|apply ol_line; [eapply use_vis; eassumption|eapply use_nn; eassumption]].
    match goal with K : forall k x, _ -> _ |- _ => pose proof (K k x eq_refl) as Hp; destruct (K k x eq_refl) as (_ & Hm & _) end.
    apply ol_para; [apply visible_app; eapply use_vis; eassumption| |eapply tails_ok, Hp].
    apply nn_app; [eapply use_nn; eassumption|]. apply nn_app; [nn_lit|]. eapply body_nn, Hm.
  - constructor; [|constructor]. apply ol_node; [eapply use_vis; eassumption|eapply use_nn; eassumption|assumption|].
    eapply kids_ol_ok; eassumption.
  - constructor; [|constructor]. apply ol_line; [eexists _, _; split; reflexivity|]. apply nn_app; [nn_lit|]. apply nn_idc, id_chars, var_id, Hbn. reflexivity.
Qed.
End Lines.

Lemma defs_ok b known vis : blank_text b -> forall hy ds, wfd b known vis hy ds -> Forall ol_ok (map (def_ol b) ds).
Proof.
  intros Hb hy ds H. induction H as [|hy m h x tl ds Hx _ IH|hy m n bn ps w kids ds own body Hn Hk Hy Hd Hv Hg Hi Hc Ha Hu Hw _ IH]; [constructor| |].
  { constructor; [|exact IH]. cbn [def_ol]. destruct Hx as [Hx Ht]. apply ol_para; [destruct h; eexists _, _; split; reflexivity|apply nn_app; [destruct h; nn_lit|exact Hx]|].
    rewrite Forall_forall in *. intros [[m' n'] z] I. destruct (Ht _ I) as (_ & A2 & A3). split; [apply visible_vis, A3|exact A2]. }
  constructor; [|exact IH].
  assert (Hid : forall x, In x (body ++ own) -> ~ In NL x) by (intros x Ix; destruct (Hv x Ix) as [Kv _]; apply nn_idc, id_chars, var_id, Kv).
  cbn [def_ol]. apply ol_node.
  - unfold def_text. eexists _, _. split; reflexivity.
  - unfold def_text. apply nn_app; [nn_lit|]. apply nn_app; [apply tname_nn, Hn|]. apply nn_app.
    + destruct bn as [x|]; [|intros []]. apply nn_app; [nn_lit|]. apply Hid. left. reflexivity.
    + apply nn_flat. intros [x d] I. unfold param_text. cbn [fst snd]. apply nn_app; [nn_lit|]. apply nn_app; [apply Hid, in_or_app; right; apply (in_map fst) in I; exact I|].
      destruct d as [g|]; [|intros []]. apply nn_app; [nn_lit|]. eapply given_nn; [exact Hb|]. eapply Hg, I.
  - exact Hi.
  - eapply (kids_ol_ok b known hy bn); [|exact Hw]. apply Forall_forall. intros t _ outer own'. apply ols_ok; [|exact Hb].
    intros x E. apply Hv. subst bn. left. reflexivity.
Qed.

(** All lines of a block. *)
Inductive ol_all (P : str -> Prop) : ol -> Prop :=
| ol_all_i m l w kids : P l -> Forall (ol_all P) kids -> ol_all P (OL m l w kids)
| ol_all_p m l tl : P l -> Forall (fun a => P (snd a)) tl -> ol_all P (OP m l tl).
Lemma ol_all_src (P : str -> Prop) t : (forall w l, P (w ++ l) -> P l) -> (forall l, In l (ol_src t) -> P l) -> ol_all P t.
Proof.
  intros Hi'. assert (Hi : forall w l, P (indent_line w l) -> P l) by (intros w [|c l] K; [exact K|exact (Hi' w _ K)]).
  induction t as [m l w kids IH|m l tl] using ol_ind'; intros H; cbn [ol_src] in H; constructor.
  3: apply H; apply in_or_app; right; left; reflexivity.
  3: { apply Forall_forall. intros [[m' n'] x] I. apply (Hi' (repeatc SP n')), H. apply in_or_app. right. right. apply in_flat_map. eexists. split; [exact I|]. cbn [tail_src snd].
       apply in_or_app. right. left. reflexivity. }
  - apply H. apply in_or_app. right. left. reflexivity.
  - rewrite Forall_forall in *. intros t I. apply IH; [exact I|]. intros z J. apply (Hi w), H. apply in_or_app. right. right. apply in_map, in_flat_map. exists t. split; assumption.
Qed.
