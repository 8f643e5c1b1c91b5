(** The HTML of a template with plain texts is read as the tags and texts that it stands for. *)
From Coq Require Import List NArith ZArith Bool Arith Lia String ZifyBool.
From Verif Require Import PyStr PyStrFacts Html HtmlSpec HtmlFacts Value Dom DomSpec IndentSpec IndentFacts MarkupFacts PageSpec PageRender OperSpec TmplSpec TmplLines TmplExpr TmplLayout TmplRender TmplReadSpec TmplNotes.
Import ListNotations.
Local Open Scope string_scope.
Local Open Scope list_scope.
Local Open Scope N_scope.

(** ** Escaped texts *)

Notation esc_text := (flat_map html_char).
Fixpoint esc_elem (t : elem) : elem :=
  match t with
  | EText m x => EText m (esc_text x)
  | EGap m => EGap m
  | ELeaf m g c => ELeaf m g (esc_text c)
  | ENode m g w kids => ENode m g w (map esc_elem kids)
  | EHyper m kids => EHyper m (map esc_elem kids)
  end.

Lemma html_char_space c : is_space c = true -> html_char c = [c].
Proof. intros H. unfold html_char. destruct (N.eqb_spec c 38) as [->|]; [discriminate|]. destruct (N.eqb_spec c 60) as [->|]; [discriminate|]. destruct (N.eqb_spec c 62) as [->|]; [discriminate|reflexivity]. Qed.
Lemma html_char_dark c : is_space c = false -> exists d r, html_char c = d :: r /\ is_space d = false /\ forallb is_space (d :: r) = false /\ ~ In NL (d :: r).
Proof.
  intros H. assert (K : forall d r, is_space d = false -> forallb is_space (d :: r) = false) by (intros d r E; cbn; rewrite E; reflexivity).
  unfold html_char. destruct (c =? 38); [do 2 eexists; split; [reflexivity|]; repeat split; try reflexivity; cbn; intuition discriminate|].
  destruct (c =? 60); [do 2 eexists; split; [reflexivity|]; repeat split; try reflexivity; cbn; intuition discriminate|].
  destruct (c =? 62); [do 2 eexists; split; [reflexivity|]; repeat split; try reflexivity; cbn; intuition discriminate|].
  exists c, []. split; [reflexivity|]. split; [exact H|]. split; [apply K, H|]. intros [->|[]]. discriminate H.
Qed.
Lemma esc_spaces x : forallb is_space (esc_text x) = forallb is_space x.
Proof.
  induction x as [|c x IH]; [reflexivity|]. cbn [flat_map forallb]. rewrite forallb_app, IH. destruct (is_space c) eqn:E.
  - rewrite (html_char_space c E). cbn. rewrite E. reflexivity.
  - destruct (html_char_dark c E) as (d & r & -> & _ & K & _). rewrite K. reflexivity.
Qed.
Lemma esc_blank x : forallb is_space x = true -> esc_text x = x.
Proof. induction x as [|c x IH]; [reflexivity|]. cbn. intros H. apply andb_prop in H. destruct H as [H1 H2]. rewrite (html_char_space c H1), (IH H2). reflexivity. Qed.
Lemma esc_newline x : mem NL (esc_text x) = mem NL x.
Proof.
  apply eq_true_iff_eq. rewrite !mem_In. rewrite in_flat_map. split.
  - intros (c & I & J). destruct (is_space c) eqn:E; [rewrite (html_char_space c E) in J; destruct J as [->|[]]; exact I|].
    destruct (html_char_dark c E) as (d & r & Ed & _ & _ & K). rewrite Ed in J. contradiction.
  - intros I. exists NL. split; [exact I|left; reflexivity].
Qed.
(** Several lines. *)
Lemma esc_lead x : lead_space (esc_text x) = lead_space x.
Proof.
  induction x as [|c x IH]; [reflexivity|]. cbn [flat_map]. destruct (is_space c) eqn:E.
  - rewrite (html_char_space c E). cbn [app lead_space]. rewrite E, IH. reflexivity.
  - destruct (html_char_dark c E) as (d & r & Ed & Hd & _). rewrite Ed. cbn [app lead_space]. rewrite E, Hd. reflexivity.
Qed.
Lemma esc_drop x : drop_space (esc_text x) = esc_text (drop_space x).
Proof.
  destruct x as [|c x]; [reflexivity|]. cbn [flat_map drop_space]. destruct (N.eqb_spec c SP) as [->|Hc]; [reflexivity|]. destruct (is_space c) eqn:E.
  - cbn [flat_map]. rewrite (html_char_space c E). cbn [app drop_space]. apply N.eqb_neq in Hc. rewrite Hc. reflexivity.
  - cbn [flat_map]. destruct (html_char_dark c E) as (d & r & Ed & Hd & _). rewrite Ed. cbn [app drop_space]. destruct (N.eqb_spec d SP) as [->|]; [discriminate Hd|reflexivity].
Qed.
Lemma esc_SP n x : esc_text (repeatc SP n ++ x) = repeatc SP n ++ esc_text x.
Proof. induction n as [|n IH]; [reflexivity|]. cbn [repeatc repeat app flat_map]. change (html_char SP) with [SP]. cbn [app]. f_equal. exact IH. Qed.
Lemma esc_join ls : esc_text (join [NL] ls) = join [NL] (map esc_text ls).
Proof.
  induction ls as [|x ls IH]; [reflexivity|]. destruct ls as [|y ls]; [reflexivity|]. change (map esc_text (x :: y :: ls)) with (esc_text x :: esc_text y :: map esc_text ls).
  rewrite !join_more, flat_map_app. f_equal. change (NL :: join [NL] (y :: ls)) with ([NL] ++ join [NL] (y :: ls)). rewrite flat_map_app, IH. reflexivity.
Qed.
Definition esc_row (a : nat * nat * str) : nat * nat * str := match a with (m, n, x) => (m, n, esc_text x) end.
Lemma esc_para h tl : para_text (esc_text h) (map esc_row tl) = esc_text (para_text h tl).
Proof.
  unfold para_text. rewrite flat_map_app. f_equal. induction tl as [|[[m n] x] tl IH]; [reflexivity|]. cbn [map flat_map esc_row]. rewrite flat_map_app. f_equal; [|exact IH].
  rewrite flat_map_app, esc_SP. f_equal. symmetry. apply esc_blank. clear. induction (S m) as [|k IH]; [reflexivity|]. exact IH.
Qed.
Lemma esc_lines x : lines (esc_text x) = map esc_text (lines x).
Proof.
  destruct (lines_cons x) as (h & ls & E). rewrite <- (join_lines x) at 1. rewrite esc_join. apply lines_join; [rewrite E; discriminate|].
  intros l I. apply in_map_iff in I. destruct I as (y & <- & I). apply mem_not_In. rewrite esc_newline. apply mem_not_In. exact (lines_no_NL x y I).
Qed.
Lemma esc_edge lead ls : edge lead (map esc_text ls) = edge lead ls.
Proof.
  unfold edge. assert (E : map lead_space (filter (fun l => negb (forallb is_space l)) (map esc_text ls)) = map lead_space (filter (fun l => negb (forallb is_space l)) ls)).
  { induction ls as [|l ls IH]; [reflexivity|]. cbn [map filter]. rewrite esc_spaces. destruct (negb (forallb is_space l)); [cbn [map]; rewrite esc_lead, IH; reflexivity|exact IH]. }
  rewrite E. reflexivity.
Qed.
Lemma esc_blank_app w x : blank w -> esc_text (w ++ x) = w ++ esc_text x.
Proof. intros B. rewrite flat_map_app. f_equal. apply esc_blank, forallb_forall, B. Qed.
Lemma esc_unindent s x : blank s -> unindent_line s (esc_text x) = esc_text (unindent_line s x).
Proof.
  intros B. unfold unindent_line. destruct (startswith s x) eqn:E.
  - apply startswith_spec in E. destruct E as (r & ->). rewrite esc_blank_app by exact B. rewrite startswith_app, !skipn_app_exact. reflexivity.
  - destruct (startswith s (esc_text x)) eqn:E2; [|reflexivity]. exfalso. apply startswith_spec in E2. assert (K : is_prefix s x).
    { destruct (lead_longest s (esc_text x) B E2) as (q & K). rewrite esc_lead in K. destruct (lead_prefix x) as (z & Ez). exists (q ++ z). rewrite app_assoc, <- K. exact Ez. }
    destruct K as (r & ->). rewrite startswith_app in E. discriminate.
Qed.
Lemma edge_blank lead ls : blank (edge lead ls).
Proof.
  unfold edge. destruct (filter _ ls) as [|l r]; cbn [map]; [intros c []|]. apply firstn_blank. destruct (fold_common (map lead_space r) (lead_space l)) as [A _].
  destruct (A (lead_space l) (or_introl eq_refl)) as (q & E). intros c I. apply (lead_blank l). rewrite E. apply in_or_app. left. exact I.
Qed.
Lemma layout_escape lead x : layout lead (esc_text x) = esc_text (layout lead x).
Proof.
  unfold layout. rewrite esc_lines. destruct (lines x) as [|h ls]; [reflexivity|]. cbn [map]. cbv zeta. rewrite <- esc_SP. change (esc_text (repeatc SP lead ++ h) :: map esc_text ls) with (map esc_text ((repeatc SP lead ++ h) :: ls)).
  rewrite esc_edge. set (s := edge lead ((repeatc SP lead ++ h) :: ls)). assert (B : blank s) by apply edge_blank. rewrite esc_join. cbn [map]. f_equal. f_equal.
  - rewrite (esc_unindent s _ B). destruct (Nat.ltb_spec (List.length s) lead) as [H|H]; [|reflexivity]. rewrite <- esc_drop. f_equal.
    unfold unindent_line. destruct (startswith s (repeatc SP lead ++ h)).
    + rewrite skipn_repeat_SP by lia. rewrite esc_SP, !skipn_repeat_SP by lia. rewrite esc_SP. reflexivity.
    + rewrite esc_SP, !skipn_repeat_SP by lia. rewrite esc_SP. reflexivity.
  - rewrite !map_map. apply map_ext. intros l. apply esc_unindent, B.
Qed.

Section Bare.
Variable Q : py.

Lemma text_bare r lead x : sim (fun y y' => y' = esc_text y) (inst_text Q r Markup lead x) (inst_text Q r Plain lead x).
Proof.
  unfold inst_text. apply (sim_bind (fun y y' => y' = esc_text y)); [unfold inst_line; apply sim_eq; intros t _; reflexivity|]. intros h h' ->.
  apply (sim_bind (fun l l' => l' = map esc_row l)); [|intros l l' ->; cbn [sim]; rewrite esc_para; apply layout_escape].
  induction (snd x) as [|[[m n] y] tl IH]; [reflexivity|]. cbn [omap]. apply (sim_bind (fun a a' => a' = esc_row a)).
  - apply (sim_bind (fun y y' => y' = esc_text y)); [unfold inst_line; apply sim_eq; intros t _; reflexivity|]. intros t t' ->. reflexivity.
  - intros a a' ->. apply (sim_bind (fun l l' => l' = map esc_row l)); [exact IH|]. intros l l' ->. reflexivity.
Qed.
Variables (b : str) (lim : nat).

(** Hypertags whose texts are escaped, and those of the same definitions with markup texts. *)
Definition esc_body (bd : option (list elem)) : option (list elem) := option_map (map esc_elem) bd.
Definition esc1 (l l' : list elem) : Prop := l' = map esc_elem l.
Definition esc2 (p p' : list elem * store) : Prop := p' = (map esc_elem (fst p), snd p).
Definition bare_mean (f g : meaning) : Prop := forall r pos kw bd, sim esc1 (g r pos kw bd) (f r pos kw (esc_body bd)).
Definition bare_means (D B : list (str * meaning)) : Prop := Forall2 (fun a c => fst a = fst c /\ bare_mean (snd a) (snd c)) D B.
Lemma find_bare D B n : bare_means D B -> sim (fun g f => bare_mean f g) (given_by (find_meaning n B)) (given_by (find_meaning n D)).
Proof.
  intros H. induction H as [|[y f] [z g0] D B [H1 H2] H IH]; [exact Logic.I|]. cbn [fst snd find_meaning] in *. subst z. destruct (str_eqb n y); [exact H2|exact IH].
Qed.
Lemma esc_filled l : existsb filled (map esc_elem l) = existsb filled l.
Proof. induction l as [|t l IH]; [reflexivity|]. cbn [map existsb]. rewrite IH. destruct t; reflexivity. Qed.
Section Means.
Variables (D B : list (str * meaning)).
Hypothesis DB : bare_means D B.
Notation instd bd := (inst Q b lim D (esc_body bd)).
Notation instb bd := (inst Q b lim B bd).

Definition bare_ok (t : tmpl) : Prop := plain t -> forall bd r, sim esc2 (instb bd r (bare t)) (instd bd r t).
Lemma insts_bare l : Forall bare_ok l -> Forall plain l -> forall bd r, sim esc2 (insts (instb bd) (map bare l) r) (insts (instd bd) l r).
Proof.
  intros H. induction H as [|t l Ht H IH]; intros Hp bd r; [reflexivity|]. inversion Hp as [|? ? P1 P2]; subst. cbn [map insts].
  apply (sim_bind esc2); [apply Ht, P1|]. intros p p' ->. cbn [fst snd]. apply (sim_bind esc2); [apply IH, P2|]. intros q q' ->. cbn [sim]. unfold esc2. cbn [fst snd]. rewrite map_app. reflexivity.
Qed.
Lemma inst_bare t : bare_ok t.
Proof.
  induction t as [m k x|m h x tl|m g c|m g w kids IH|m cs els IHc IHe|m xs e w kids IH|m e w kids els IH IHe|m alts IHa|m xs e|m x o e|m h c|m h w kids IH|m n] using tmpl_ind'; intros Hp bd r.
  - inversion Hp; subst. cbn [bare inst]. eapply sim_bind; [apply text_bare|]. intros y y' ->. reflexivity.
  - reflexivity.
  - inversion Hp as [| |m' g'' c' Pk| | | | | | | | | |]; subst. cbn [bare inst]. apply (sim_bind (fun y y' => y' = esc_text y)).
    + destruct c as [[k x]|]; [|reflexivity]. rewrite (Pk k x eq_refl). apply text_bare.
    + intros y y' ->. apply sim_eq. intros g' _. reflexivity.
  - inversion Hp; subst. cbn [bare inst]. apply (sim_bind esc2); [apply insts_bare; assumption|]. intros p p' ->. apply sim_eq. intros g' _. reflexivity.
  - inversion Hp as [| | | |m' cs' els' Pc Pe| | | | | | | |]; subst. cbn [bare inst]. apply (sim_bind esc2).
    + clear - DB IHc IHe Pc Pe. induction cs as [|[e [w kids]] cs IHs]; cbn [map].
      * destruct els as [[w kids]|]; [|reflexivity]. cbn [snd] in *. apply insts_bare; assumption.
      * inversion IHc; inversion Pc; subst. apply sim_eq. intros v _. apply sim_eq. intros t _. destruct t; [|apply IHs; assumption]. apply insts_bare; assumption.
    + intros p p' ->. reflexivity.
  - inversion Hp; subst. cbn [bare inst]. apply sim_eq. intros v _. apply sim_eq. intros l _. apply (sim_bind esc2).
    + assert (K0 : esc2 ([], r) ([], r)) by reflexivity. revert K0. generalize (@nil elem, r) at 1 3. generalize (@nil elem, r).
      induction l as [|v0 l IHl]; intros p' p K; [exact K|]. cbn [ofold]. rewrite K. cbn [fst snd]. apply (sim_bind esc2); [|intros q q' Kq; exact (IHl q' q Kq)].
      apply sim_eq. intros r1 _. apply (sim_bind esc2); [apply insts_bare; assumption|]. intros q q' ->. cbn [sim]. unfold esc2. cbn [fst snd]. rewrite map_app. reflexivity.
    + intros p p' ->. reflexivity.
  - inversion Hp as [| | | | | |m' e' w' kids' els' Pk Pe| | | | | |]; subst. cbn [bare inst]. apply (sim_bind (fun p p' => fst p' = fst p /\ esc2 (snd p) (snd p'))).
    + apply sim_loop; [| |split; reflexivity]; intros p p' [K1 K2]; rewrite K2; [reflexivity|]. cbn [fst snd].
      apply (sim_bind esc2); [apply insts_bare; assumption|]. intros q q' ->. split; [reflexivity|]. unfold esc2. cbn [fst snd]. rewrite map_app. reflexivity.
    + intros [f [es1 r1]] [f' [es2 r2]] [K1 K2]. unfold esc2 in K2. cbn [fst snd] in *. injection K2 as -> ->. subst f'. destruct f; [reflexivity|]. destruct els as [[w1 kids1]|]; [|reflexivity].
      apply (sim_bind esc2); [apply insts_bare; assumption|]. intros q q' ->. reflexivity.
  - inversion Hp as [| | | | | | |m' alts' Pa| | | | |]; subst. cbn [bare inst]. apply (sim_bind esc1); [|intros es es' ->; reflexivity].
    clear - DB IHa Pa. induction alts as [|[w kids] alts IHs]; cbn [map]; [reflexivity|]. inversion IHa as [|? ? I1 I2]; inversion Pa as [|? ? P1 P2]; subst. cbn [snd] in *.
    pose proof (insts_bare kids I1 P1 bd r) as K. destruct (insts (instb bd) (map bare kids) r) as [q| |], (insts (instd bd) kids r) as [q'| |]; cbn [sim] in K; try contradiction; [rewrite K; reflexivity|apply IHs; assumption|exact Logic.I].
  - cbn [bare inst]. apply sim_eq. intros v _. apply sim_eq. intros r1 _. reflexivity.
  - cbn [bare inst]. apply sim_eq. intros v _. apply sim_eq. intros a _. apply sim_eq. intros v' _. reflexivity.
  - inversion Hp as [| | | | | | | | | |m' h' c' Pk| |]; subst. cbn [bare inst]. apply (sim_bind (fun x x' => x' = esc_body x)).
    + destruct c as [[k y]|]; [|reflexivity]. rewrite (Pk k y eq_refl). eapply sim_bind; [apply text_bare|]. intros z z' ->. reflexivity.
    + intros x x' ->. apply sim_eq. intros a _. eapply sim_bind; [apply find_bare, DB|]. intros g f Hf. apply (sim_bind esc1); [apply Hf|]. intros es es' ->. reflexivity.
  - inversion Hp; subst. cbn [bare inst]. apply (sim_bind esc2); [apply insts_bare; assumption|]. intros p p' ->. apply sim_eq. intros a _. eapply sim_bind; [apply find_bare, DB|].
    intros g f Hf. cbn [fst]. apply (sim_bind esc1); [apply (Hf r (fst a) (snd a) (Some (fst p)))|]. intros es es' ->. reflexivity.
  - cbn [bare inst]. destruct bd as [e|]; [reflexivity|exact Logic.I].
Qed.
Lemma mean_bare vis d : plain_def d -> bare_mean (mean Q b lim D vis d) (mean Q b lim B vis (bare_def d)).
Proof.
  destruct d as [m n bn ps w kids|]; [|intros _ r pos kw bd; exact Logic.I]. cbn [plain_def bare_def]. intros Hp r pos kw bd. unfold mean. cbv zeta. apply sim_eq. intros ag _. apply (sim_bind (fun x x' => x' = esc_body x)).
  - destruct bn, bd as [kb|]; cbn [body_given esc_body option_map]; try reflexivity. rewrite esc_filled. destruct (existsb filled kb); exact Logic.I.
  - intros b1 b1' ->. apply (sim_bind esc2); [apply insts_bare; [apply Forall_forall; intros t _; apply inst_bare|exact Hp]|]. intros p p' ->. reflexivity.
Qed.
End Means.
Lemma means_bare vis ds : Forall plain_def ds -> forall D B, bare_means D B ->
  bare_means (fold_left (learn Q b lim vis) ds D) (fold_left (learn Q b lim vis) (map bare_def ds) B).
Proof.
  induction 1 as [|d ds Hd H IH]; intros D B DB; [exact DB|]. cbn [map fold_left]. apply IH. destruct d as [m n bn ps w kids|]; [|exact DB]. cbn [learn bare_def]. constructor; [|exact DB]. cbn [fst snd]. split; [reflexivity|].
  apply mean_bare with (d := Def m n bn ps w kids); assumption.
Qed.
End Bare.

(** ** Names *)

Lemma name_char_word c : letter c || digit c || (c =? 45) || (c =? 46) = true -> name_char c = true.
Proof. unfold letter, digit, name_char, is_space. lia. Qed.
Lemma attr_name_valid n : attr_name n -> valid_name n.
Proof.
  intros (c & r & -> & Hc & Hr). split; [discriminate|]. intros d [<-|I]; apply name_char_word; [rewrite Hc; reflexivity|apply Hr, I].
Qed.
Lemma tag_name_valid n : tag_name n -> valid_name n.
Proof.
  intros ((c & r & -> & Hc & Hr) & _). split; [discriminate|]. intros d [<-|I]; apply name_char_word; [rewrite Hc; reflexivity|rewrite (Hr d I); reflexivity].
Qed.

(** ** Elements with sound names *)

Definition etag_valid (t : etag) : Prop := valid_name (fst t) /\ Forall (fun a => valid_name (fst a)) (snd t).
Section Sound.
Variable void : str -> bool.
Inductive sound : elem -> Prop :=
| sound_text m x : sound (EText m x)
| sound_gap m : sound (EGap m)
| sound_leaf m g c : Forall etag_valid g -> sound (ELeaf m g c)
| sound_node m g w kids : Forall etag_valid g -> Forall (fun t => void (fst t) = false) g -> (forall c, In c w -> is_space c = true) ->
    Forall sound kids -> sound (ENode m g w kids)
| sound_hyper m kids : Forall sound kids -> sound (EHyper m kids).
End Sound.

Section Names.
Variable Q : py.

Lemma set_names x v r y : In y (map fst (set x v r)) -> y = x \/ In y (map fst r).
Proof.
  induction r as [|[z w] r IH]; cbn [set]; [intros [<-|[]]; left; reflexivity|]. destruct (str_eqb x z); cbn [map fst In]; [tauto|]. intros [<-|I]; [tauto|]. apply IH in I. tauto.
Qed.
Definition valid_names (d : store) : Prop := forall y, In y (map fst d) -> valid_name y.
Lemma add_valid d a d' : valid_names d -> valid_name (fst a) -> add_attr d a = Is d' -> valid_names d'.
Proof.
  destruct a as [n v]. unfold add_attr. cbn [fst snd]. intros H Hn E y I. destruct (get n d) as [old|].
  - destruct old, v; try discriminate E. injection E as <-. apply set_names in I. destruct I as [->|I]; [exact Hn|exact (H y I)].
  - injection E as <-. apply set_names in I. destruct I as [->|I]; [exact Hn|exact (H y I)].
Qed.
Lemma sigil_valid k : valid_name (sigil_name k).
Proof. apply attr_name_valid. destruct k; do 2 eexists; (split; [reflexivity|]); (split; [reflexivity|]); intros d I; cbn in I; intuition (subst; reflexivity). Qed.
Lemma words_valid r l : forall d d', valid_names d -> ofold (put_word Q r) l d = Is d' -> valid_names d'.
Proof.
  induction l as [|a l IH]; intros d d' H E; [injection E as <-; exact H|]. cbn [ofold] in E. oinv E d1 E1. apply (IH d1); [|exact E].
  unfold put_word in E1. oinv E1 y Ey. apply (add_valid d y); [exact H| |exact E1]. unfold inst_word in Ey. oinv Ey v Ev. injection Ey as <-. apply sigil_valid.
Qed.
Lemma put_valid b sc r a d d' : tattr_ok b sc a -> valid_names d -> put_attr Q r d a = Is d' -> valid_names d'.
Proof.
  destruct a as [n g|ws]; cbn [tattr_ok put_attr]; intros H Hd E.
  - oinv E t Et. apply (add_valid d (n, t)); [exact Hd|apply attr_name_valid, H|exact E].
  - exact (words_valid r ws d d' Hd E).
Qed.
Lemma puts_valid b sc r l : Forall (tattr_ok b sc) l -> forall d d', valid_names d -> ofold (put_attr Q r) l d = Is d' -> valid_names d'.
Proof.
  induction 1 as [|a l Ha H IH]; intros d d' Hd E; [injection E as <-; exact Hd|]. cbn [ofold] in E. oinv E d1 E1. apply (IH d1); [|exact E]. exact (put_valid b sc r a d d1 Ha Hd E1).
Qed.
Lemma omap_In {A B} (f : A -> ans B) l l' : omap f l = Is l' -> forall y, In y l' -> exists x, In x l /\ f x = Is y.
Proof.
  revert l'. induction l as [|x l IH]; intros l' E y I; [injection E as <-; destruct I|]. cbn [omap] in E. oinv E z Ez. oinv E zs Ezs. injection E as <-.
  destruct I as [<-|I]; [exists x; split; [left; reflexivity|exact Ez]|]. destruct (IH _ Ezs y I) as (w & J & K). exists w. split; [right; exact J|exact K].
Qed.
Lemma omap_back_In {A B} (f : A -> ans B) l l' : omap_back f l = Is l' -> forall y, In y l' -> exists x, In x l /\ f x = Is y.
Proof.
  revert l'. induction l as [|x l IH]; intros l' E y I; [injection E as <-; destruct I|]. cbn [omap_back] in E. oinv E zs Ezs. oinv E z Ez. injection E as <-.
  destruct I as [<-|I]; [exists x; split; [left; reflexivity|exact Ez]|]. destruct (IH _ Ezs y I) as (w & J & K). exists w. split; [right; exact J|exact K].
Qed.
Lemma tag_valid b sc r g t : tag_ok b sc g -> inst_tag Q r g = Is t -> etag_valid t.
Proof.
  destruct g as [[n l] a]. cbn [inst_tag]. intros (Hn & _ & _ & _ & Ha) E. oinv E d Ed. oinv E s Es. injection E as <-. split; [apply tag_name_valid, Hn|]. cbn [snd].
  apply Forall_forall. intros [k v] I. destruct (omap_In _ _ _ Es _ I) as ([k' v'] & J & K).
  assert (Ek : k = k'). { unfold show in K. cbn [fst snd] in K. destruct v'; try (injection K as <- <-; reflexivity); match type of K with match ?x with _ => _ end = _ => destruct x; try discriminate end; injection K as <- <-; reflexivity. } subst k'. cbn [fst].
  unfold inst_attrs in Ed. oinv Ed d1 E1. apply (puts_valid b sc r a Ha d1 d); [|exact Ed|apply in_map_iff; exists (k, v'); split; [reflexivity|exact J]].
  apply (words_valid r l []); [intros y []|exact E1].
Qed.
Lemma tags_valid b sc r g g' : Forall (tag_ok b sc) g -> omap_back (inst_tag Q r) g = Is g' -> Forall etag_valid g'.
Proof.
  intros H E. apply Forall_forall. intros t I. destruct (omap_back_In _ _ _ E t I) as (x & J & K). rewrite Forall_forall in H. exact (tag_valid b sc r x t (H x J) K).
Qed.
Lemma tags_solid known r g g' : chain_known known false g -> omap_back (inst_tag Q r) g = Is g' -> Forall (fun t => PageSpec.void known (fst t) = false) g'.
Proof.
  revert g'. induction g as [|[[n l] a] g IH]; intros g' H E; [destruct H|]. cbn [omap_back] in E. oinv E ts Ets. oinv E t Et. injection E as <-.
  assert (En : fst t = n). { cbn [inst_tag] in Et. oinv Et d Ed. oinv Et s Es. injection Et as <-. reflexivity. }
  destruct g as [|x g].
  - injection Ets as <-. constructor; [|constructor]. destruct H as (v & Hk & Hv). rewrite En. unfold PageSpec.void. rewrite Hk. destruct v; [discriminate (Hv eq_refl)|reflexivity].
  - destruct H as [Hk H]. constructor; [rewrite En; unfold PageSpec.void; rewrite Hk; reflexivity|]. apply IH; assumption.
Qed.

Variables (b : str) (lim : nat).
Variable known : str -> option bool.
Notation void := (PageSpec.void known).
Lemma indent_space w : indent_ok w -> forall c, In c w -> is_space c = true.
Proof. intros [_ H] c I. destruct (H c I) as [->| ->]; reflexivity. Qed.

Definition sound_body (bd : option (list elem)) : Prop := match bd with Some es => Forall (sound void) es | None => True end.
Definition sound_mean (f : meaning) : Prop := forall r pos kw bd es, sound_body bd -> f r pos kw bd = Is es -> Forall (sound void) es.
Definition sound_means (B : list (str * meaning)) : Prop := Forall (fun a => sound_mean (snd a)) B.
Lemma find_sound B n f : sound_means B -> given_by (find_meaning n B) = Is f -> sound_mean f.
Proof. induction 1 as [|[y g] B H1 H IH]; [discriminate|]. cbn [find_meaning]. destruct (str_eqb n y); [intros [= <-]; exact H1|exact IH]. Qed.
Section Means.
Variables (hy : list str) (bn : option str) (B : list (str * meaning)) (bd : option (list elem)).
Hypothesis SB : sound_means B.
Hypothesis Sb : sound_body bd.
Notation inst := (inst Q b lim B bd).

Definition sound_ok (t : tmpl) : Prop := forall outer own, wft b known hy bn outer own t -> forall r es r', inst r (bare t) = Is (es, r') -> Forall (sound void) es.
Lemma insts_sound l : Forall sound_ok l -> forall outer own, wfts b known hy bn outer own l -> forall r es r', insts inst (map bare l) r = Is (es, r') -> Forall (sound void) es.
Proof.
  intros H. induction H as [|t l Ht H IH]; intros outer own Hw r es r' E; [injection E as <- <-; constructor|]. inversion Hw; subst. cbn [map insts] in E.
  oinv E p E1. oinv E q E2. injection E as <- <-. destruct p as [e1 r1], q as [e2 r2]. cbn [fst snd] in *. apply Forall_app. split; [eapply Ht; eassumption|eapply IH; eassumption].
Qed.
Lemma inst_sound t : sound_ok t.
Proof.
  induction t as [m k x|m h x tl|m g c|m g w kids IH|m cs els IHc IHe|m xs e w kids IH|m e w kids els IH IHe|m alts IHa|m xs e|m x o e|m h c|m h w kids IH|m n] using tmpl_ind'; intros outer own Hw r es r' E; cbn [bare TmplSpec.inst] in E; inversion Hw; subst.
  - oinv E y Ey. injection E as <- <-. repeat constructor.
  - injection E as <- <-. repeat constructor.
  - oinv E y Ey. oinv E g' Eg. injection E as <- <-. constructor; [|constructor]. constructor. eapply tags_valid; eassumption.
  - oinv E p Ek. oinv E g' Eg. destruct p as [e1 r1]. injection E as <- <-. constructor; [|constructor].
    constructor; [eapply tags_valid; eassumption|eapply tags_solid; eassumption|apply indent_space; assumption|]. eapply insts_sound; eassumption.
  - oinv E p Ek. destruct p as [e1 r1]. injection E as <- <-. constructor; [constructor|]. cbn [fst]. match goal with K : wfb _ _ _ _ _ _ (map snd cs) |- _ => rename K into Wc end. match goal with K : wfb _ _ _ _ _ _ (match els with _ => _ end) |- _ => rename K into We end.
    clear - IHc IHe Ek Wc We. induction cs as [|[e [w kids]] cs IHs]; cbn [map] in Ek.
    + destruct els as [[w kids]|]; [|injection Ek as <- <-; constructor]. cbn [snd] in *. inversion We; subst. eapply insts_sound; eassumption.
    + inversion IHc; subst. cbn [map snd] in Wc. inversion Wc; subst. oinv Ek v Ev. oinv Ek t Et. destruct t; [|apply IHs; assumption]. eapply insts_sound; eassumption.
  - oinv E v Ev. oinv E l El. oinv E p Ek. destruct p as [e1 r1]. injection E as <- <-. constructor; [constructor|]. cbn [fst].
    assert (K : Forall (sound void) (@nil elem)) by constructor. match goal with K : wfts _ _ _ _ _ _ kids |- _ => rename K into Wk end. revert K Ek. generalize (@nil elem). generalize r at 2. revert e1 r1. clear - IH Wk.
    induction l as [|v l IHl]; intros e1 r1 r2 acc K Ek; [injection Ek as <- <-; exact K|]. cbn [ofold] in *. oinv Ek q Eqq. oinv Eqq s Es. oinv Eqq z Ez. destruct z as [e3 r3]. injection Eqq as <-.
    cbn [fst snd] in *. eapply IHl; [|exact Ek]. apply Forall_app. split; [exact K|]. eapply insts_sound; eassumption.
  - match goal with K : wfts _ _ _ _ _ _ kids |- _ => rename K into Wk end. match goal with K : wfb _ _ _ _ _ _ (match els with _ => _ end) |- _ => rename K into We end.
    oinv E p Ek. assert (K : Forall (sound void) (fst (snd p))).
    { refine (oloop_keeps (fun p => Forall (sound void) (fst (snd p))) _ _ _ _ _ _ _ Ek); [|constructor].
      intros p0 p1 K E1. oinv E1 q Eqq. injection E1 as <-. destruct q as [e3 r3]. cbn [fst snd] in *.
      apply Forall_app. split; [exact K|]. eapply insts_sound; eassumption. }
    destruct p as [f [e1 r1]]. cbn [fst snd] in *. destruct f; [injection E as <- <-; constructor; [constructor|exact K]|].
    destruct els as [[w1 kids1]|]; [|injection E as <- <-; constructor; [constructor|exact K]]. oinv E q Eqq. injection E as <- <-. constructor; [constructor|]. destruct q as [e3 r3]. inversion We; subst.
    cbn [fst snd p_els] in *. eapply insts_sound; eassumption.
  - oinv E ea Ek. injection E as <- <-. constructor; [constructor|]. match goal with K : wfb _ _ _ _ _ _ alts |- _ => rename K into Wa end.
    clear - IHa Ek Wa. induction alts as [|[w kids] alts IHs]; cbn [map] in Ek; [injection Ek as <-; constructor|]. inversion IHa; subst. inversion Wa; subst.
    destruct (insts inst (map bare kids) r) as [[e1 r1]| |] eqn:E1; [|apply IHs; assumption|discriminate]. injection Ek as <-. eapply insts_sound; eassumption.
  - oinv E v Ev. oinv E s Es. injection E as <- <-. repeat constructor.
  - oinv E v Ev. oinv E w Ew. oinv E z Ez. injection E as <- <-. repeat constructor.
  - oinv E x Ex. oinv E ag Ea. oinv E f Ef. oinv E l El. injection E as <- <-. constructor; [|constructor]. constructor. apply (find_sound _ _ _ SB Ef) in El; [exact El|].
    destruct c as [[k y]|]; [|injection Ex as <-; exact Logic.I]. oinv Ex z Ez. injection Ex as <-. repeat constructor.
  - oinv E p Ek. destruct p as [e1 r1]. oinv E ag Ea. oinv E f Ef. oinv E l El. injection E as <- <-. constructor; [|constructor]. constructor. apply (find_sound _ _ _ SB Ef) in El; [exact El|].
    eapply insts_sound; eassumption.
  - oinv E e1 Ee. injection E as <- <-. constructor; [constructor|]. destruct bd as [eb|]; [|discriminate]. injection Ee as <-. exact Sb.
Qed.
End Means.
Lemma means_sound vis ds hy : wfd b known vis hy ds -> forall B, sound_means B -> sound_means (fold_left (learn Q b lim vis) (map bare_def ds) B).
Proof.
  induction 1 as [|hy m h x tl ds Hx H IH|hy m n bn ps w kids ds own body Hh Kn Hn Nb Hv Hg Hi Hk Hc Hu Hwf H IH]; intros B SB; [exact SB|apply IH, SB|]. cbn [map fold_left]. apply IH. constructor; [|exact SB]. cbn [snd bare_def].
  intros r pos kw bd es Sb E. unfold mean in E. cbv zeta in E. oinv E ag Ea. oinv E b1 Eb. oinv E p Ek. destruct p as [e1 r1]. injection E as <-. cbn [fst].
  apply (insts_sound hy bn B b1) with (2 := Hwf) (3 := Ek). apply Forall_forall. intros t _. apply inst_sound; [exact SB|]. destruct bn, bd as [kb|]; cbn [body_given] in Eb; try (destruct (existsb filled kb); discriminate); injection Eb as <-; [exact Sb|constructor|exact Logic.I].
Qed.
End Names.

(** ** Reading *)

Definition reads1 (x : str) (l : list item) : Prop := exists l', doc x l' /\ filter visible l' = l.
Definition reads (ls : list str) (l : list item) : Prop := exists ll, Forall2 reads1 ls ll /\ List.concat ll = l.
Lemma reads1_app a l b' l' : reads1 a l -> reads1 b' l' -> reads1 (a ++ b') (l ++ l').
Proof. intros (x & D & <-) (y & D' & <-). exists (x ++ y). split; [apply doc_app; assumption|apply filter_app]. Qed.
Lemma reads1_nil : reads1 [] [].
Proof. exists []. split; [constructor|reflexivity]. Qed.
Lemma reads_nil : reads [] [].
Proof. exists []. split; [constructor|reflexivity]. Qed.
Lemma reads_app a l b' l' : reads a l -> reads b' l' -> reads (a ++ b') (l ++ l').
Proof. intros (x & D & <-) (y & D' & <-). exists (x ++ y). split; [apply Forall2_app; assumption|apply concat_app]. Qed.
Lemma reads_one x l : reads1 x l -> reads [x] l.
Proof. intros H. exists [l]. split; [repeat constructor; exact H|apply app_nil_r]. Qed.
Lemma reads_blanks m : reads (blanks m) [].
Proof. induction m as [|m IH]; [apply reads_nil|]. exact (reads_app [[]] [] _ [] (reads_one _ _ reads1_nil) IH). Qed.
Lemma reads_blanks_app m ls l : reads ls l -> reads (blanks m ++ ls) l.
Proof. intros H. exact (reads_app _ [] _ _ (reads_blanks m) H). Qed.
Lemma reads_indent w ls l : (forall c, In c w -> is_space c = true) -> reads ls l -> reads (map (indent_line w) ls) l.
Proof.
  intros Hw (ll & D & <-). exists ll. split; [|reflexivity]. induction D as [|x y ls ll (l' & D1 & <-) D IH]; [constructor|]. constructor; [|exact IH].
  destruct x as [|c x]; [exists l'; split; [exact D1|reflexivity]|]. destruct (doc_blank w _ _ Hw D1) as (m & D2 & E). exists (m ++ l'). split; [exact D2|]. rewrite filter_app, E. reflexivity.
Qed.
Lemma reads_join ls l : reads ls l -> reads1 (join [NL] ls) l.
Proof.
  intros (ll & D & <-). induction D as [|x y ls ll D1 D IH]; [exact reads1_nil|]. destruct ls as [|z ls].
  - inversion D; subst. cbn [join List.concat]. rewrite app_nil_r. exact D1.
  - change (reads1 (x ++ [NL] ++ join [NL] (z :: ls)) (y ++ List.concat ll)). apply reads1_app; [exact D1|]. change (List.concat ll) with ([] ++ List.concat ll). apply reads1_app; [|exact IH].
    exists [IChar NL]. split; [|reflexivity]. constructor; try discriminate. constructor.
Qed.
Lemma reads_text x : reads1 (esc_text x) (text_items x).
Proof.
  exists (map IChar x). split.
  - rewrite <- html_escape_chars. pose proof (doc_safe _ _ (le_n _) (html_escape_safe x)) as D. rewrite decode_html_escape in D. exact D.
  - unfold text_items. induction x as [|c x IH]; [reflexivity|]. cbn [map filter visible]. destruct (negb (is_space c)); cbn [map]; rewrite IH; reflexivity.
Qed.

Section Reading.
Variable void : str -> bool.
Notation tag_items := (tag_items void).
Notation elem_items := (elem_items void).

Definition av (a : str * shown) : str * attrval := (fst a, match snd a with Flag true => ATrue | Flag false => AFalse | Shown x => AOther x end).
Lemma seen_av l : flat_map (seen HTML) (map av l) = flat_map shown_attr l.
Proof. induction l as [|[k v] l IH]; [reflexivity|]. cbn [map flat_map]. rewrite IH. unfold shown_attr at 2, seen at 1, av. cbn [fst snd]. destruct v as [[|]|x]; reflexivity. Qed.
Lemma open_text t : etag_valid t -> etag_open t = u "<" ++ open_tag HTML (fst t) (map av (snd t)).
Proof.
  intros [Hn Ha]. unfold etag_open. rewrite open_tag_form.
  - f_equal. f_equal. induction (snd t) as [|[k v] l IH]; [reflexivity|]. inversion Ha; subst. cbn [map flat_map]. rewrite IH by assumption. f_equal.
    unfold shown_html, HtmlSpec.attr_text, av. cbn [fst snd]. destruct v as [[|]|x]; try reflexivity. rewrite quoted_attr. reflexivity.
  - intros nv I. apply in_map_iff in I. destruct I as (a & <- & I). rewrite Forall_forall in Ha. exact (Ha a I).
Qed.
Lemma av_valid t : etag_valid t -> forall nv, In nv (map av (snd t)) -> valid_name (fst nv).
Proof. intros [_ Ha] nv I. apply in_map_iff in I. destruct I as (a & <- & I). rewrite Forall_forall in Ha. exact (Ha a I). Qed.
Lemma reads_open t : etag_valid t -> reads1 (etag_open t ++ u ">") [IOpen (fst t) (flat_map shown_attr (snd t))].
Proof.
  intros H. rewrite (open_text t H), <- app_assoc, <- seen_av. exists [IOpen (fst t) (flat_map (seen HTML) (map av (snd t)))]. split; [|reflexivity].
  pose proof (doc_open HTML (fst t) (map av (snd t)) [] [] (proj1 H) (av_valid t H) doc_nil) as D. exact D.
Qed.
Lemma reads_void t : etag_valid t -> reads1 (etag_open t ++ u " />") [IEmpty (fst t) (flat_map shown_attr (snd t))].
Proof.
  intros H. rewrite (open_text t H), <- app_assoc, <- seen_av. exists [IEmpty (fst t) (flat_map (seen HTML) (map av (snd t)))]. split; [|reflexivity].
  pose proof (doc_void HTML (fst t) (map av (snd t)) [] [] (proj1 H) (av_valid t H) doc_nil) as D. exact D.
Qed.
Lemma reads_close n : valid_name n -> reads1 (close_html n) [IClose n].
Proof. intros H. exists [IClose n]. split; [|reflexivity]. exact (doc_close n [] [] H doc_nil). Qed.
Lemma valid_no_NL n : valid_name n -> ~ In NL n.
Proof. intros [_ H] J. specialize (H NL J). discriminate H. Qed.
Lemma etag_flat t : etag_valid t -> ~ In NL (etag_open t).
Proof.
  intros [Hn Ha] J. unfold etag_open in J. rewrite !in_app_iff in J. destruct J as [J|[J|J]]; [cbn in J; intuition discriminate|exact (valid_no_NL _ Hn J)|].
  apply in_flat_map in J. destruct J as (a & I & J). rewrite Forall_forall in Ha. apply (shown_html_no_NL a); [|exact J]. pose proof (Ha a I) as V. split; [exact (proj1 V)|apply valid_no_NL, V].
Qed.
Lemma reads_flat x l : ~ In NL x -> reads1 x l -> reads (lines x) l.
Proof. intros H K. unfold lines. rewrite split_no_sep_id by exact H. apply reads_one, K. Qed.
Lemma reads_weld A x y B l l' : reads (A ++ [x]) l -> reads (y :: B) l' -> reads (A ++ (x ++ y) :: B) (l ++ l').
Proof.
  intros (ll & D & <-) (ll' & D' & <-). apply Forall2_app_inv_l in D. destruct D as (la & lx & Da & Dx & ->). inversion Dx as [|? lx1 ? lx2 X1 X2]; subst. inversion X2; subst.
  inversion D' as [|? ly ? lb Y1 Y2]; subst. exists (la ++ (lx1 ++ ly) :: lb). split; [|rewrite !concat_app; cbn [List.concat]; rewrite app_nil_r, <- !app_assoc; reflexivity].
  apply Forall2_app; [exact Da|]. constructor; [apply reads1_app; assumption|exact Y2].
Qed.
Lemma reads_lines a b' l l' : reads (lines a) l -> reads (lines b') l' -> reads (lines (a ++ b')) (l ++ l').
Proof.
  intros H K. destruct (exists_last (l := lines a)) as (A & x & Ea); [destruct (lines_cons a) as (h & ls & ->); discriminate|]. destruct (lines_cons b') as (y & B & Eb).
  assert (E : lines (a ++ b') = A ++ (x ++ y) :: B).
  { rewrite <- (lines_join (A ++ (x ++ y) :: B)).
    - f_equal. rewrite <- (join_lines a) at 1. rewrite <- (join_lines b') at 1. rewrite Ea, Eb. clear. induction A as [|z A IH]; cbn [app].
      + change (join [NL] [x]) with x. destruct B as [|w B]; [reflexivity|]. rewrite !join_more. rewrite <- app_assoc. reflexivity.
      + assert (M : forall z l, l <> [] -> join [NL] (z :: l) = z ++ NL :: join [NL] l) by (intros z0 [|w l]; [congruence|reflexivity]).
        rewrite (M z (A ++ [x])), (M z (A ++ (x ++ y) :: B)) by (destruct A; discriminate). rewrite <- IH, <- app_assoc. reflexivity.
    - destruct A; discriminate.
    - intros z I. apply in_app_or in I. destruct I as [I|[<-|I]].
      + apply (lines_no_NL a). rewrite Ea. apply in_or_app. left. exact I.
      + intros J. apply in_app_or in J. destruct J as [J|J]; [apply (lines_no_NL a x); [rewrite Ea; apply in_or_app; right; left; reflexivity|exact J]|apply (lines_no_NL b' y); [rewrite Eb; left; reflexivity|exact J]].
      + apply (lines_no_NL b'). rewrite Eb. right. exact I. }
  rewrite E. rewrite Ea in H. rewrite Eb in K. exact (reads_weld _ _ _ _ _ _ H K).
Qed.
Lemma text_items_app a b' : text_items (a ++ b') = text_items a ++ text_items b'.
Proof. unfold text_items. rewrite filter_app, map_app. reflexivity. Qed.
Lemma reads_text_lines x : reads (lines (esc_text x)) (text_items x).
Proof.
  rewrite esc_lines. exists (map text_items (lines x)). split; [induction (lines x) as [|l ls IH]; [constructor|]; constructor; [apply reads_text|exact IH]|].
  rewrite <- (join_lines x) at 2. destruct (lines_cons x) as (h & ls & ->). revert h. induction ls as [|l ls IH]; intros h; [apply app_nil_r|]. cbn [map List.concat] in *. rewrite IH, join_more, text_items_app. f_equal.
Qed.
Lemma reads_fence x : reads (lines (fence (esc_text x))) (text_items x).
Proof.
  unfold fence. destruct (startswith [NL] (esc_text x)); [|apply reads_text_lines]. rewrite <- (app_nil_r (text_items x)). apply reads_lines; [apply reads_text_lines|].
  exact (reads_app [[]] [] [[]] [] (reads_one _ _ reads1_nil) (reads_one _ _ reads1_nil)).
Qed.
Lemma reads_tag_lines g c l : Forall etag_valid g -> reads (lines c) l -> reads (lines (in_tags void g c)) (tag_items g l).
Proof.
  intros H Hc. induction H as [|t g Ht H IH]; [exact Hc|]. destruct t as [n a]. pose proof (etag_flat _ Ht) as NN. cbn [in_tags TmplReadSpec.tag_items fst]. destruct (void n).
  - apply reads_flat; [|exact (reads_void (n, a) Ht)]. intros J. apply in_app_or in J. destruct J as [J|J]; [exact (NN J)|cbn in J; intuition discriminate].
  - rewrite app_assoc. change (IOpen n (flat_map shown_attr a) :: tag_items g l ++ [IClose n]) with ([IOpen n (flat_map shown_attr a)] ++ tag_items g l ++ [IClose n]).
    apply reads_lines; [apply reads_flat; [|exact (reads_open (n, a) Ht)]; intros J; apply in_app_or in J; destruct J as [J|J]; [exact (NN J)|cbn in J; intuition discriminate]|].
    apply reads_lines; [exact IH|]. apply reads_flat; [|apply reads_close, Ht]. unfold close_html. rewrite !in_app_iff. intros [J|[J|J]]; [cbn in J; intuition discriminate|exact (valid_no_NL _ (proj1 Ht) J)|cbn in J; intuition discriminate].
Qed.
Lemma reads_tags g c l : Forall etag_valid g -> reads1 c l -> reads1 (in_tags void g c) (tag_items g l).
Proof.
  intros H Hc. induction H as [|t g Ht H IH]; [exact Hc|]. destruct t as [n a]. cbn [in_tags TmplReadSpec.tag_items fst]. destruct (void n).
  - exact (reads_void (n, a) Ht).
  - rewrite app_assoc. change (IOpen n (flat_map shown_attr a) :: tag_items g l ++ [IClose n]) with ([IOpen n (flat_map shown_attr a)] ++ tag_items g l ++ [IClose n]).
    apply reads1_app; [exact (reads_open (n, a) Ht)|]. apply reads1_app; [exact IH|]. apply reads_close, Ht.
Qed.
Lemma solid_items g l : Forall (fun t => void (fst t) = false) g ->
  tag_items g l = map (fun t => IOpen (fst t) (flat_map shown_attr (snd t))) g ++ l ++ map (fun t => IClose (fst t)) (rev g).
Proof.
  induction 1 as [|[n a] g Hn H IH]; [symmetry; apply app_nil_r|]. cbn [TmplReadSpec.tag_items fst] in *. rewrite Hn, IH. cbn [map rev]. rewrite map_app, <- !app_assoc. reflexivity.
Qed.
Lemma reads_opening g : Forall etag_valid g -> reads1 (opening g) (map (fun t => IOpen (fst t) (flat_map shown_attr (snd t))) g).
Proof.
  intros H. induction H as [|t g Ht H IH]; [exact reads1_nil|]. unfold opening. cbn [flat_map map]. fold (opening g).
  change (reads1 ((etag_open t ++ u ">") ++ opening g) ([IOpen (fst t) (flat_map shown_attr (snd t))] ++ map (fun t => IOpen (fst t) (flat_map shown_attr (snd t))) g)).
  apply reads1_app; [apply reads_open, Ht|exact IH].
Qed.
Lemma reads_closing g : Forall etag_valid g -> reads1 (closing g) (map (fun t => IClose (fst t)) (rev g)).
Proof.
  intros H. apply Forall_rev in H. unfold closing. induction H as [|t r Ht H IH]; [exact reads1_nil|]. cbn [flat_map map].
  change (reads1 (close_html (fst t) ++ flat_map (fun t => close_html (fst t)) r) ([IClose (fst t)] ++ map (fun t => IClose (fst t)) r)).
  apply reads1_app; [apply reads_close, Ht|exact IH].
Qed.

Lemma elem_ind' (P : elem -> Prop) : (forall m x, P (EText m x)) -> (forall m, P (EGap m)) -> (forall m g c, P (ELeaf m g c)) ->
  (forall m g w kids, Forall P kids -> P (ENode m g w kids)) -> (forall m kids, Forall P kids -> P (EHyper m kids)) -> forall t, P t.
Proof.
  intros H1 H2 H3 H4 H5. fix go 1. intros [m x|m|m g c|m g w kids|m kids]; [apply H1|apply H2|apply H3|apply H4|apply H5];
  (induction kids as [|t kids IH]; constructor; [apply go|exact IH]).
Qed.
Lemma reads_elems l : Forall (fun t => sound void t -> reads (ehtml void (esc_elem t)) (elem_items t)) l -> Forall (sound void) l ->
  reads (flat_map (ehtml void) (map esc_elem l)) (flat_map elem_items l).
Proof.
  intros H Hs. induction H as [|t l Ht H IH]; [exact reads_nil|]. inversion Hs; subst. cbn [map flat_map]. apply reads_app; [apply Ht|apply IH]; assumption.
Qed.
Lemma reads_elem t : sound void t -> reads (ehtml void (esc_elem t)) (elem_items t).
Proof.
  induction t as [m x|m|m g c|m g w kids IH|m kids IH] using elem_ind'; intros Hs; cbn [esc_elem ehtml TmplReadSpec.elem_items].
  - apply reads_blanks_app, reads_text_lines.
  - apply reads_blanks.
  - inversion Hs; subst. apply reads_blanks_app, reads_tag_lines; [assumption|apply reads_fence].
  - inversion Hs; subst. apply reads_blanks_app. pose proof (reads_elems kids IH H6) as K. destruct (flat_map (ehtml void) (map esc_elem kids)) as [|y ys].
    + destruct K as (ll & D & E). inversion D; subst. cbn [List.concat] in E. rewrite <- E. apply reads_one, reads_tags; [assumption|exact reads1_nil].
    + rewrite solid_items by assumption. apply reads_app; [apply reads_one, reads_opening; assumption|]. apply reads_app; [apply reads_indent; assumption|]. apply reads_one, reads_closing; assumption.
  - inversion Hs; subst. apply reads_blanks_app. pose proof (reads_elems kids IH H0) as K. destruct (flat_map (ehtml void) (map esc_elem kids)) as [|y ys]; [|exact K].
    destruct K as (ll & D & E). inversion D; subst. cbn [List.concat] in E. rewrite <- E. apply reads_one, reads1_nil.
Qed.

Lemma text_nested x : well_nested (text_items x).
Proof. unfold text_items. induction (filter _ x) as [|c l IH]; [constructor|]. constructor. exact IH. Qed.
Lemma tags_nested g l : well_nested l -> well_nested (tag_items g l).
Proof.
  intros H. induction g as [|[n a] g IH]; [exact H|]. cbn [TmplReadSpec.tag_items]. destruct (void n); [repeat constructor|]. apply wn_elem; [exact IH|constructor].
Qed.
Lemma elem_nested t : well_nested (elem_items t).
Proof.
  induction t as [m x|m|m g c|m g w kids IH|m kids IH] using elem_ind'; cbn [TmplReadSpec.elem_items]; [apply text_nested|constructor|apply tags_nested, text_nested|apply tags_nested|];
  (induction IH as [|t kids Ht IH IHl]; [constructor|]; cbn [flat_map]; apply well_nested_app; assumption).
Qed.
Lemma elems_nested l : well_nested (flat_map elem_items l).
Proof. induction l as [|t l IH]; [constructor|]. cbn [flat_map]. apply well_nested_app; [apply elem_nested|exact IH]. Qed.

Theorem elems_read l k : Forall (sound void) l -> exists is, read_document (elems_html void (map esc_elem l) k) = Some is /\ well_nested is /\ filter visible is = flat_map elem_items l.
Proof.
  intros H. assert (K : reads (flat_map (ehtml void) (map esc_elem l) ++ blanks k) (flat_map elem_items l ++ [])).
  { apply reads_app; [|apply reads_blanks]. apply reads_elems; [|exact H]. apply Forall_forall. intros t _. apply reads_elem. }
  rewrite app_nil_r in K. destruct (reads_join _ _ K) as (is & D & E). exists is. split; [exact (doc_read _ _ D _ (le_n _))|]. split; [|exact E].
  apply (well_nested_visible is []). cbn [app]. rewrite E. apply elems_nested.
Qed.
End Reading.

(** The instance of a template with plain texts. *)
Theorem template_read Q b lim known vis ds hy outer own doc r es r' k :
  wfd b known vis [] ds -> wfts b known hy None outer own doc -> Forall plain_def ds -> Forall plain doc ->
  insts (inst Q b lim (meanings Q b lim vis (map bare_def ds)) None) (map bare doc) r = Is (es, r') ->
  insts (inst Q b lim (meanings Q b lim vis ds) None) doc r = Is (map esc_elem es, r') /\
  exists is, read_document (elems_html (PageSpec.void known) (gaps ds ++ map esc_elem es) k) = Some is /\ well_nested is /\ filter visible is = flat_map (elem_items (PageSpec.void known)) es.
Proof.
  intros Hwd Hw Hpd Hp E. split.
  - assert (K : sim esc2 (insts (inst Q b lim (meanings Q b lim vis (map bare_def ds)) None) (map bare doc) r) (insts (inst Q b lim (meanings Q b lim vis ds) None) doc r)).
    { apply (insts_bare Q b lim (meanings Q b lim vis ds) (meanings Q b lim vis (map bare_def ds)) doc) with (bd := None); [|exact Hp]. apply Forall_forall. intros t _. apply inst_bare. unfold meanings. apply means_bare; [exact Hpd|constructor]. }
    rewrite E in K. destruct (insts (inst Q b lim (meanings Q b lim vis ds) None) doc r); try contradiction. cbn [sim] in K. unfold esc2 in K. cbn [fst snd] in K. rewrite K. reflexivity.
  - assert (G : gaps ds ++ map esc_elem es = map esc_elem (gaps ds ++ es)). { rewrite map_app. f_equal. clear. unfold gaps. induction ds as [|[] ds IH]; [reflexivity| |]; cbn [map esc_elem]; f_equal; exact IH. }
    rewrite G. assert (F : flat_map (elem_items (PageSpec.void known)) (gaps ds ++ es) = flat_map (elem_items (PageSpec.void known)) es).
    { rewrite flat_map_app. replace (flat_map _ (gaps ds)) with (@nil item); [reflexivity|]. clear. induction ds as [|[] ds IH]; [reflexivity| |]; exact IH. }
    rewrite <- F. apply elems_read. apply Forall_app. split; [clear; induction ds as [|[] ds IH]; [constructor| |]; (constructor; [constructor|exact IH])|].
    apply (insts_sound Q b lim known hy None _ None doc) with (2 := Hw) (3 := E). apply Forall_forall. intros t _. apply inst_sound; [|exact Logic.I]. unfold meanings. apply (means_sound Q b lim known vis ds [] Hwd). constructor.
Qed.
