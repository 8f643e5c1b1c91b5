(** Proofs about templates: texts and tags after analysis. *)
From Coq Require Import List NArith ZArith Bool Lia Arith String.
From Verif Require Import PyStr PyStrFacts Html Indent IndentSpec IndentFacts PyDict Structs Value Dom DomSpec DomFacts Ast Machine Eval Translate Analyse
  MachineFacts RenderFacts PageSpec PageRender PageTree OperSpec TmplSpec TmplRender TmplTree TmplLines TmplParse TmplLayout TmplExpr.
Notation tree := DomSpec.tree.
Notation root := DomSpec.root.
Import ListNotations.
Local Open Scope list_scope.

Lemma escape_html k t : escape k t = match k with Plain => html_escape t | _ => t end.
Proof. destruct k; try reflexivity. symmetry. apply html_escape_chars. Qed.

Lemma trim_exprs x e z : In (e, z) (snd (trim x)) -> exists z', In (e, z') (snd x).
Proof.
  destruct x as [s l]. unfold trim. destruct l as [|a l]; [intros []|]. cbn [snd]. generalize (a :: l). clear. intros l.
  induction l as [|[e0 z0] l IH]; [intros []|]. cbn [trim_last]. destruct l as [|a l].
  - intros [[= <- <-]|[]]. exists z0. left. reflexivity.
  - intros [[= <- <-]|I]; [exists z0; left; reflexivity|]. destruct (IH I) as (z' & I'). exists z'. right. exact I'.
Qed.

Lemma get_dget x (r : store) : dget str_eqb x r = get x r.
Proof. induction r as [|[y v] r IH]; [reflexivity|]. cbn [dget get]. rewrite IH. destruct (str_eqb x y); reflexivity. Qed.
Lemma set_dset x v (r : store) : dset str_eqb x v r = set x v r.
Proof. induction r as [|[y w] r IH]; [reflexivity|]. cbn [dset set]. rewrite IH. reflexivity. Qed.

Lemma rmap_app {A B} (f : A -> result B) l1 : forall l2 a b', rmap f l1 = Ok a -> rmap f l2 = Ok b' -> rmap f (l1 ++ l2) = Ok (a ++ b').
Proof.
  induction l1 as [|x l1 IH]; intros l2 a b' H1 H2; cbn [rmap app] in *; [injection H1 as <-; exact H2|].
  destruct (f x) as [y|]; [|discriminate]. cbn [bind] in *. destruct (rmap f l1) as [ys|] eqn:E; [|discriminate]. cbn [bind] in H1. injection H1 as <-.
  rewrite (IH l2 ys b' eq_refl H2). reflexivity.
Qed.

Section Tag.
Context {W : Type}.
Variables (P : prims W) (Q : py).
Hypothesis AG : agrees P Q.
Hypothesis escaping : p_escape P = Some html_escape.
Variable ex : hyper -> val -> list val -> list (str * val) -> nat -> M W (list nid).
Variable known : str -> option bool.
Variable tag_of : str -> tag.
Variable s : nat.
Variable b : str.
Notation eval := (eval P ex s).
Notation sees := (sees s).
Notation chained := (chained (p_ren P) tag_of).
Notation tag_node := (tag_node (p_ren P) tag_of).

Section Context.
Variable c : ctx.
Variable sc : list str.
Hypothesis RS : resolved c sc.

Notation titem_run := (render_titem P ex s).
Lemma sp_indents n : forall m, live s m -> mconcat titem_run (repeat (TxIndent SP) n) m = (Done [], with_ind s m (ind_of s m ++ repeatc SP n)).
Proof.
  induction n as [|n IH]; intros m L; [cbn [repeat mconcat repeatc]; rewrite app_nil_r, with_ind_same; reflexivity|].
  cbn [repeat mconcat]. rewrite (run_bind _ _ m [] (with_ind s m (ind_of s m ++ [SP])) eq_refl).
  rewrite (run_bind _ _ _ _ _ (IH _ (with_ind_live s m _ L))). rewrite ind_with, with_ind_twice by exact L. rewrite <- app_assoc. reflexivity.
Qed.
Lemma sp_dedents n : forall m i, live s m -> ind_of s m = i ++ repeatc SP n -> mconcat titem_run (repeat (TxDedent SP) n) m = (Done [], with_ind s m i).
Proof.
  induction n as [|n IH]; intros m i L Hi; [cbn in Hi; rewrite app_nil_r in Hi; rewrite <- Hi, with_ind_same; reflexivity|].
  cbn [repeat mconcat]. rewrite (run_bind _ _ m [] (with_ind s m (i ++ repeatc SP n))).
  - rewrite (run_bind _ _ _ _ _ (IH _ i (with_ind_live s m _ L) (ind_with s m _ L))). rewrite with_ind_twice by exact L. reflexivity.
  - cbn [render_titem]. unfold mbind, dedent_by, mbind, get_ind. change (s_indent (state_at m s)) with (ind_of s m). rewrite Hi.
    replace (repeatc SP (S n)) with (repeatc SP n ++ [SP]) by (clear; induction n as [|n IH]; [reflexivity|cbn; f_equal; exact IH]).
    rewrite app_assoc, rev_app_distr. cbn [rev app]. rewrite N.eqb_refl, rev_involutive. reflexivity.
Qed.
Lemma sp_moves cur n m : live s m -> ind_of s m = repeatc SP cur -> mconcat titem_run (repeat (TxIndent SP) (n - cur) ++ repeat (TxDedent SP) (cur - n)) m = (Done [], with_ind s m (repeatc SP n)).
Proof.
  intros L Hi. assert (A : forall a b', repeatc SP a ++ repeatc SP b' = repeatc SP (a + b')) by (intros a b'; symmetry; apply repeat_app).
  destruct (Nat.le_ge_cases cur n) as [H|H].
  - replace (cur - n) with 0 by lia. cbn [repeat]. rewrite app_nil_r. rewrite sp_indents by exact L. rewrite Hi, A. do 3 f_equal. lia.
  - replace (n - cur) with 0 by lia. cbn [repeat app]. apply sp_dedents; [exact L|]. rewrite Hi, A. f_equal. lia.
Qed.
Lemma sees_ind r (m : mach W) w : live s m -> sees c r m -> sees c r (with_ind s m w).
Proof. intros L H n v Hg. destruct (H n v Hg) as (y & Y1 & Y2). exists y. split; [exact Y1|]. rewrite slot_with_ind by exact L. exact Y2. Qed.
Lemma stuck_concat {A B} (f : A -> M W (list B)) l1 l2 m z : stuck (mconcat f l1 m) z -> stuck (mconcat f (l1 ++ l2) m) z.
Proof.
  revert m. induction l1 as [|x l1 IH]; intros m (e & E); [discriminate E|]. cbn [mconcat app] in *. unfold mbind at 1 in E. destruct (f x m) as [[y|e1|] m1] eqn:F.
  - eapply stuck_then; [exact F|]. apply stuck_bind, IH. unfold mbind, ret in E. destruct (mconcat f l1 m1) as [[a|e1|] m2]; try discriminate E. injection E as <- <-. exists e1. reflexivity.
  - injection E as <- <-. apply stuck_bind. exists e1. exact F.
  - discriminate E.
Qed.
Lemma stuck_after {A B} (f : A -> M W (list B)) l1 z : forall l2 m a m1, mconcat f l1 m = (Done a, m1) -> stuck (mconcat f l2 m1) z -> stuck (mconcat f (l1 ++ l2) m) z.
Proof.
  induction l1 as [|x l1 IH]; intros l2 m a m1 E F; [cbn in E; injection E as <- <-; exact F|]. cbn [mconcat app] in *. unfold mbind at 1 in E. destruct (f x m) as [[y|e1|] m2] eqn:Fx; try discriminate E.
  eapply stuck_then; [exact Fx|]. apply stuck_bind. unfold mbind, ret in E. destruct (mconcat f l1 m2) as [[a'|e1|] m3] eqn:El; try discriminate E. injection E as _ <-. exact (IH _ _ _ _ El F).
Qed.

(** A line, in the indentation of the state. *)
Lemma line_goes k x ls : style_ok k x -> mixed_ok b sc x -> raw_text k (trim x) ls ->
  exists ls', rmap (an_titem c) ls = Ok ls' /\
  forall m r, live s m -> sees c r m ->
    (forall t, inst_line Q r k x = Is t -> mconcat titem_run ls' m = (Done (match ls with [] => [] | _ => ind_of s m end ++ t), m)) /\
    (inst_line Q r k x = Raises -> stuck (mconcat titem_run ls' m) m).
Proof.
  intros Hk [Hf Hv] Hr.
  assert (Line : forall y z (m : mach W), render_line P ex s y m = (Done z, m) -> mconcat titem_run [TxLine y] m = (Done (ind_of s m ++ z), m)).
  { intros y z m Hy. cbn [mconcat render_titem]. unfold mbind, get_ind, ret. rewrite Hy. change (s_indent (state_at m s)) with (ind_of s m). rewrite app_nil_r. reflexivity. }
  remember (trim x) as tx eqn:Ex. unfold inst_line. rewrite <- Ex.
  inversion Hr as [Ey|z Ek Nz Ey|z l ps Ek Nz Lp Ey]; subst ls; rewrite <- Ey in Ex; try rewrite <- Ey.
  - exists []. split; [reflexivity|]. intros m r L S. split; [|discriminate]. intros t H. cbn [fill fst snd omap oseq List.concat app] in H. destruct k; injection H as <-; reflexivity.
  - exists [TxLine (LVerbat z)]. split; [reflexivity|]. intros m r L S. split; [|discriminate].
    intros t H. cbn [fill fst snd omap oseq List.concat] in H. rewrite app_nil_r in H. subst k. cbn [escape] in H. injection H as <-. apply Line. reflexivity.
  - destruct (parts_goes P Q AG ex s b c z l ps Lp) as (ps' & Ea & Er).
    { intros e w I. assert (I' : exists z', In (e, z') (snd x)) by (apply (trim_exprs x e w); rewrite <- Ex; exact I). destruct I' as (z' & I').
      destruct Hf as [_ Hf]. destruct (Hf e z' I') as [F _]. split; [exact F|]. apply (resolved_incl c _ sc RS (Hv e z' I')). }
    exists [TxLine match k with Plain => LNormal ps' | _ => LMarkup ps' end]. split.
    { destruct k; cbn [rmap an_titem an_line]; rewrite Ea; reflexivity. }
    intros m r L S. split.
    2:{ intros H. orai H t0 Et; [|discriminate]. pose proof (tells_stuck _ _ _ (Er m r S) H) as (e & F). exists e.
      cbn [mconcat render_titem]. destruct k; cbn [render_line]; unfold mbind, get_ind; rewrite F; reflexivity. }
    intros t H. oinv H t0 Et. injection H as <-. rewrite escape_html. pose proof (parts_is P Q ex s c _ _ ps' m r t0 Er S Et) as Em. apply Line.
    destruct k; [|exact Em|exact Em]. cbn [render_line]. rewrite (run_bind _ _ _ _ _ Em). rewrite escaping. reflexivity.
Qed.
Lemma visible_raw k x ls : style_ok k x -> begun (mixed_text b k x) = true -> raw_text k (trim x) ls -> ls <> [].
Proof.
  intros Hk Hv Hr ->. pose proof (rstrip_visible _ Hv) as H. rewrite (rstrip_mixed b k x Hk) in H. inversion Hr as [E| |]; subst. rewrite <- E in H. destruct k; discriminate H.
Qed.

(** The lines below the first one. *)
Definition inst_tail (r : store) (k : style) (tl : list (nat * nat * mixed)) : ans (list (nat * nat * str)) :=
  omap (fun a => match a with (m, n, x) => t <: inst_line Q r k x ;; Is (m, n, t) end) tl.
Lemma tail_goes k cur tl ts : raw_tail k cur tl ts ->
  Forall (fun a => match a with (m, n, x) => 0 < n /\ style_ok k x /\ mixed_ok b sc x /\ begun (mixed_text b k x) = true end) tl ->
  exists ts', rmap (an_titem c) ts = Ok ts' /\
  forall m r, live s m -> sees c r m -> ind_of s m = repeatc SP cur ->
    (forall l, inst_tail r k tl = Is l -> mconcat titem_run ts' m = (Done (para_text [] l), with_ind s m [])) /\
    (inst_tail r k tl = Raises -> exists w, stuck (mconcat titem_run ts' m) (with_ind s m w)).
Proof.
  intros H. induction H as [cur|cur mg n x tl ls ts Hx Ht IH]; intros Ok0.
  - exists (repeat (TxDedent SP) cur). split; [induction cur as [|cur IHc]; [reflexivity|cbn [repeat rmap an_titem bind]; rewrite IHc; reflexivity]|].
    intros m r L Se Hi. split; [|discriminate]. intros l [= <-]. apply sp_dedents; [exact L|exact Hi].
  - inversion Ok0 as [|? ? Hd Ok1]; subst. destruct Hd as (Hn & Hk & Hm & Hv). destruct (IH Ok1) as (ts' & Et & Run). destruct (line_goes k x ls Hk Hm Hx) as (ls' & El & Rl).
    set (mv := repeat (TxIndent SP) (n - cur) ++ repeat (TxDedent SP) (cur - n)).
    exists (mv ++ TxMargin (repeatc NL (S mg)) :: ls' ++ ts').
    assert (Rep : forall t k0, (forall l, an_titem c t = Ok l -> l = t) -> an_titem c t = Ok t -> rmap (an_titem c) (repeat t k0) = Ok (repeat t k0)).
    { intros t k0 _ Ht0. induction k0 as [|k0 IHk]; [reflexivity|]. cbn [repeat rmap]. rewrite Ht0. cbn [bind]. rewrite IHk. reflexivity. }
    split.
    { unfold mv. rewrite <- app_assoc. apply rmap_app; [apply Rep; [intros l [= <-]; reflexivity|reflexivity]|]. apply rmap_app; [apply Rep; [intros l [= <-]; reflexivity|reflexivity]|].
      cbn [rmap an_titem bind]. rewrite (rmap_app _ _ _ _ _ El Et). reflexivity. }
    intros m r L Se Hi. set (m1 := with_ind s m (repeatc SP n)). assert (L1 : live s m1) by (apply with_ind_live, L). assert (S1 : sees c r m1) by (apply sees_ind; assumption).
    assert (I1 : ind_of s m1 = repeatc SP n) by (apply ind_with, L). assert (E1 : mconcat titem_run mv m = (Done [], m1)) by (apply sp_moves; assumption).
    destruct (Rl m1 r L1 S1) as [Rl1 Rl2]. destruct (Run m1 r L1 S1 I1) as [R1 R2]. assert (Nls := visible_raw k x ls Hk Hv Hx).
    assert (E2 : forall z, mconcat titem_run (TxMargin (repeatc NL (S mg)) :: z) m1 = mbind (mconcat titem_run z) (fun y => ret (repeatc NL (S mg) ++ y)) m1) by (intros z; reflexivity).
    split.
    + intros l H. cbn [inst_tail omap] in H. oinv H a Ea. oinv Ea t Et0. injection Ea as <-. oinv H l0 El0. injection H as <-. specialize (Rl1 t Et0). specialize (R1 l0 El0).
      apply (mconcat_app_run _ _ _ _ [] m1 (para_text [] ((mg, n, t) :: l0)) (with_ind s m []) E1).
      rewrite E2. rewrite (run_bind _ _ _ _ _ (mconcat_app_run _ _ _ _ _ _ _ _ Rl1 R1)). unfold ret. f_equal; [|unfold m1; apply with_ind_twice, L].
      unfold para_text. cbn [flat_map app]. destruct ls; [congruence|]. rewrite I1, <- !app_assoc. reflexivity.
    + intros H. assert (F : exists w, stuck (mconcat titem_run (ls' ++ ts') m1) (with_ind s m w)).
      { cbn [inst_tail omap] in H. orai H a Ea.
        - orai H t Et0; [|discriminate]. exists (repeatc SP n). apply stuck_concat, Rl2, H.
        - oinv Ea t Et0. injection Ea as <-. orai H l0 El0; [|discriminate]. destruct (R2 H) as [w Fw]. exists w. eapply stuck_after; [exact (Rl1 t Et0)|].
          unfold m1 at 2 in Fw. rewrite with_ind_twice in Fw by exact L. exact Fw. }
      destruct F as [w F]. exists w. apply (stuck_after _ _ _ _ _ _ _ E1). rewrite E2. apply stuck_bind, F.
Qed.

Lemma text_goes k x ls : para_ok b sc k x -> raw_para k x ls ->
  exists ls', rmap (an_titem c) ls = Ok ls' /\
  forall lead m r, 0 < lead -> live s m -> sees c r m ->
    (forall t, inst_text Q r k lead x = Is t -> render_text P ex s lead ls' m = (Done t, m)) /\
    (inst_text Q r k lead x = Raises -> stuck (render_text P ex s lead ls' m) m).
Proof.
  intros (Hk & Hm & Htl) Hr. inversion Hr as [h tl l1 l2 H1 H2]; subst. cbn [fst snd] in *.
  destruct (line_goes k h l1 Hk Hm H1) as (l1' & E1 & R1). destruct (tail_goes k 0 tl l2 H2 Htl) as (l2' & E2 & R2).
  exists (l1' ++ l2'). split; [exact (rmap_app _ _ _ _ _ E1 E2)|]. intros lead m r Hl L Se. set (m0 := with_ind s m []).
  assert (L0 : live s m0) by (apply with_ind_live, L). assert (S0 : sees c r m0) by (apply sees_ind; assumption). assert (I0 : ind_of s m0 = []) by (apply ind_with, L).
  destruct (R1 m0 r L0 S0) as [R11 R12]. destruct (R2 m0 r L0 S0 I0) as [R21 R22]. unfold render_text, restoring, inst_text. cbn [fst snd]. fold (inst_tail r k tl). split.
  - intros t H. oinv H y Ey. oinv H l El. specialize (R11 y Ey). specialize (R21 l El). rewrite I0 in R11. replace (match l1 with [] => [] | _ => [] end ++ y) with y in R11 by (destruct l1; reflexivity).
    unfold mbind at 1. unfold mbind at 1. unfold set_ind at 1. change (put_state m s _) with m0. rewrite (mconcat_app_run _ _ _ _ _ _ _ _ R11 R21).
    change (snd (set_ind s (s_indent (state_at m s)) (with_ind s m0 []))) with (with_ind s (with_ind s m0 []) (ind_of s m)). unfold m0. rewrite !with_ind_twice by (try exact L; exact L0). rewrite with_ind_same.
    unfold ret. change (y ++ para_text [] l) with (para_text y l). injection H as <-. rewrite (layout_done lead). reflexivity.
  - intros H. assert (F : exists w, stuck (mconcat titem_run (l1' ++ l2') m0) (with_ind s m w)).
    { orai H y Ey; [exists []; apply stuck_concat, R12, H|]. orai H l El; [|discriminate]. destruct (R22 H) as [w F]. exists w. eapply stuck_after; [exact (R11 y Ey)|].
      unfold m0 at 2 in F. rewrite with_ind_twice in F by exact L. exact F. }
    destruct F as (w & e & F). exists e. unfold mbind at 1. unfold mbind at 1. unfold set_ind at 1. change (put_state m s _) with m0. rewrite F.
    change (snd (set_ind s (s_indent (state_at m s)) (with_ind s m w))) with (with_ind s (with_ind s m w) (ind_of s m)). rewrite with_ind_twice by exact L. rewrite with_ind_same. reflexivity.
Qed.

(** ** Attributes *)
Definition good_name (n : str) : Prop := n <> [] /\ ~ In NL n.
Definition named_step (d : store) (ne : str * expr) : M W store :=
  let (n, e) := ne in
  v <* eval e ;;
  match dget str_eqb n d with
  | Some old => w <* merge_attr P old v ;; ret (dset str_eqb n w d)
  | None => ret (dset str_eqb n v d)
  end.
(** Attributes [es] change the dictionary as [F] says. *)
Definition puts (es : list (str * expr)) (F : store -> store -> ans store) : Prop :=
  exists es', rmap (an_named c) es = Ok es' /\
  forall m r d, sees c r m -> tells (F r d) (mfold named_step es' d m) m.

Lemma mfold_app {A B} (f : B -> A -> M W B) l1 l2 : forall d m, mfold f (l1 ++ l2) d m = mbind (mfold f l1 d) (mfold f l2) m.
Proof.
  induction l1 as [|x l1 IH]; intros d m; [reflexivity|]. cbn [app mfold]. unfold mbind in *. destruct (f d x m) as [[d1|e|] m1]; try reflexivity. apply IH.
Qed.

Lemma good_sigil k : good_name (sigil_name k).
Proof. destruct k; (split; [discriminate|intros J; cbn in J; intuition discriminate]). Qed.
Lemma good_attr n : attr_name n -> good_name n.
Proof. intros H. split; [exact (attr_name_ne n H)|exact (attr_name_no_NL n H)]. Qed.

Lemma add_tells d n v m : tells (add_attr d (n, v))
  (match dget str_eqb n d with Some old => w <* merge_attr P old v ;; ret (dset str_eqb n w d) | None => ret (dset str_eqb n v d) end m) m.
Proof.
  unfold add_attr. cbn [fst snd]. assert (G : dget str_eqb n d = get n d) by apply get_dget. rewrite G. clear G. destruct (get n d) as [old|].
  - destruct old; try exact Logic.I. destruct v; try exact Logic.I. cbn [merge_attr]. unfold mbind, ret. cbn [tells]. reflexivity.
  - cbn [tells]. reflexivity.
Qed.
Lemma puts_nil : puts [] (fun _ d => Is d).
Proof. exists []. split; [reflexivity|]. intros m r d S. reflexivity. Qed.
Lemma puts_app es1 es2 F1 F2 : puts es1 F1 -> puts es2 F2 -> puts (es1 ++ es2) (fun r d => d <: F1 r d ;; F2 r d).
Proof.
  intros (l1 & E1 & M1) (l2 & E2 & M2). exists (l1 ++ l2). split; [exact (rmap_app _ _ _ _ _ E1 E2)|]. intros m r d S. rewrite mfold_app.
  apply tells_bind; [apply (M1 m r d S)|]. intros d1 _. apply (M2 m r d1 S).
Qed.
Lemma puts_one n e e' (X : store -> ans val) : an_expr c e = Ok e' -> (forall m r, sees c r m -> tells (X r) (eval e' m) m) ->
  puts [(n, e)] (fun r d => v <: X r ;; add_attr d (n, v)).
Proof.
  intros E M. exists [(n, e')]. split; [cbn [rmap an_named]; rewrite E; reflexivity|]. intros m r d S. cbn [mfold].
  assert (H : tells (v <: X r ;; add_attr d (n, v)) (named_step d (n, e') m) m).
  { unfold named_step. apply tells_bind; [apply (M m r S)|]. intros v _. apply add_tells. }
  destruct (v <: X r ;; add_attr d (n, v)) as [w| |]; cbn [tells] in *; [rewrite (run_bind _ _ _ _ _ H); reflexivity| |exact Logic.I].
  destruct H as [x H]. exists x. unfold mbind. rewrite H. reflexivity.
Qed.
Lemma puts_ext es F G : puts es F -> (forall r d, F r d = G r d) -> puts es G.
Proof. intros (es' & E & M) H. exists es'. split; [exact E|]. intros m r d S. rewrite <- H. apply (M m r d S). Qed.
Lemma fold_ext {A B} (f g : B -> A -> ans B) l : forall d, (forall d x, f d x = g d x) -> ofold f l d = ofold g l d.
Proof. induction l as [|x l IH]; intros d H; [reflexivity|]. cbn [ofold]. rewrite H. destruct (g d x); [|reflexivity|reflexivity]. cbn [oseq]. apply IH, H. Qed.

Lemma word_goes a : word_ok b sc a -> puts [raw_word a] (fun r d => put_word Q r d a).
Proof.
  intros H. unfold raw_word, put_word, inst_word. destruct a as [k [x|e]]; cbn [fst snd] in *.
  - eapply puts_ext; [apply (puts_one (sigil_name k) _ (ELit (VStr x)) (fun _ => Is (VStr x))); [reflexivity|intros m r S; reflexivity]|]. reflexivity.
  - destruct (ok_goes P Q AG ex s b c sc e H RS) as [t G]. apply (goes_root P Q AG) in G. destruct G as [E M].
    eapply puts_ext; [apply (puts_one (sigil_name k) _ _ (fun r => den Q r e) E M)|]. intros r d. cbn beta. destruct (den Q r e); reflexivity.
Qed.
Lemma words_goes l : Forall (word_ok b sc) l -> puts (map raw_word l) (fun r d => ofold (put_word Q r) l d).
Proof.
  intros H. induction H as [|a l Ha H IH]; [apply puts_nil|]. exact (puts_app [raw_word a] _ _ _ (word_goes a Ha) IH).
Qed.
Lemma format_goes z l ps : line_parts z l ps -> mixed_ok b sc (z, l) ->
  exists e', an_expr c (ERoot (EFormat ps) QNone) = Ok e' /\ forall m r, sees c r m -> tells (t <: fill Q r (z, l) ;; Is (VStr t)) (eval e' m) m.
Proof.
  intros Lp [Hf Hv]. destruct (parts_goes P Q AG ex s b c z l ps Lp) as (ps' & Ea & Er).
  { intros e w I. destruct Hf as [_ Hf]. destruct (Hf e w I) as [F _]. split; [exact F|]. apply (resolved_incl c _ sc RS (Hv e w I)). }
  exists (ERoot (EFormat ps') QNone). split.
  { transitivity (e <- (l <- rmap (an_part c) ps ;; Ok (EFormat l)) ;; Ok (ERoot e QNone)); [reflexivity|]. rewrite Ea. reflexivity. }
  intros m r S. assert (E : eval (ERoot (EFormat ps') QNone) = qualified P QNone (t <* mconcat (render_part P ex s) ps' ;; ret (VStr t))) by reflexivity.
  rewrite E. assert (H : tells (t <: fill Q r (z, l) ;; Is (VStr t)) ((t <* mconcat (render_part P ex s) ps' ;; ret (VStr t)) m) m).
  { apply tells_bind; [apply (Er m r S)|]. intros t _. reflexivity. }
  pose proof (tells_qualified P Q AG QNone _ _ m H) as K. destruct (fill Q r (z, l)) as [t| |]; exact K.
Qed.
Lemma given_goes g : given_ok b sc g ->
  exists e', an_expr c (raw_given g) = Ok e' /\ forall m r, sees c r m -> tells (inst_given Q r g) (eval e' m) m.
Proof.
  intros [H _]. unfold inst_given. destruct (ok_goes P Q AG ex s b c sc (given_expr g) H RS) as [t G]. destruct g as [e|e]; cbn [given_expr raw_given] in *.
  - apply (goes_sub P Q AG) with (p := 14%nat) in G. destruct G as [t' G]. apply (goes_root P Q AG) in G. destruct G as [E M]. exists (OperSpec.root t'). split; [exact E|exact M].
  - apply (goes_root P Q AG) in G. destruct G as [E M]. exists (OperSpec.root t). split; [exact E|exact M].
Qed.
Lemma attr_goes a es : tattr_ok b sc a -> raw_attr a es -> puts es (fun r d => put_attr Q r d a).
Proof.
  intros H R. inversion R as [n g|l]; subst; cbn [tattr_ok] in H; cbn [put_attr].
  - destruct H as [Hn Hg]. destruct (given_goes g Hg) as (e' & E & M). apply (puts_one n _ e' (fun r => inst_given Q r g) E M).
  - apply words_goes. apply H.
Qed.
Lemma attrs_goes a es : Forall (tattr_ok b sc) a -> Forall2 raw_attr a es -> puts (List.concat es) (fun r d => ofold (put_attr Q r) a d).
Proof.
  intros H R. induction R as [|x e a es Rx R IH]; [apply puts_nil|]. inversion H; subst. cbn [List.concat].
  exact (puts_app _ _ _ _ (attr_goes x e ltac:(assumption) Rx) (IH ltac:(assumption))).
Qed.

Lemma set_names n v (d : store) : Forall (fun nv => good_name (fst nv)) d -> good_name n -> Forall (fun nv => good_name (fst nv)) (set n v d).
Proof.
  intros H Hn. induction H as [|[y w] d Hy H IH]; [constructor; [exact Hn|constructor]|]. cbn [set]. destruct (str_eqb n y); constructor; assumption.
Qed.
Lemma add_names n v d d' : good_name n -> add_attr d (n, v) = Is d' -> Forall (fun nv => good_name (fst nv)) d -> Forall (fun nv => good_name (fst nv)) d'.
Proof.
  intros Hn E1 Hd. unfold add_attr in E1. cbn [fst snd] in *. destruct (get n d) as [old|].
  - destruct old; try discriminate. destruct v; try discriminate. injection E1 as <-. apply set_names; assumption.
  - injection E1 as <-. apply set_names; assumption.
Qed.
Lemma fold_keeps {A B} (R : B -> Prop) (f : B -> A -> ans B) l : (forall d d' a, In a l -> f d a = Is d' -> R d -> R d') -> forall d d', ofold f l d = Is d' -> R d -> R d'.
Proof.
  induction l as [|a l IH]; intros H d d' D Hd; cbn [ofold] in D; [injection D as <-; exact Hd|]. oinv D d1 E1. apply (IH (fun d d' a I => H d d' a (or_intror I)) d1 d' D).
  exact (H d d1 a (or_introl eq_refl) E1 Hd).
Qed.
Lemma word_names r a d d' : put_word Q r d a = Is d' -> Forall (fun nv => good_name (fst nv)) d -> Forall (fun nv => good_name (fst nv)) d'.
Proof. unfold put_word, inst_word. intros E. oinv E nv Ev. oinv Ev v Ew. injection Ev as <-. exact (add_names _ _ _ _ (good_sigil _) E). Qed.
Lemma attrs_names r l a d : Forall (tattr_ok b sc) a -> inst_attrs Q r l a = Is d -> Forall (fun nv => good_name (fst nv)) d.
Proof.
  intros Ha E. unfold inst_attrs in E. oinv E d1 E1. apply (fold_keeps _ _ a) with (2 := E).
  - intros x x' y I F. rewrite Forall_forall in Ha. specialize (Ha y I). destruct y as [n g|ws]; cbn [put_attr tattr_ok] in *.
    + oinv F v Ev. exact (add_names _ _ _ _ (good_attr n (proj1 Ha)) F).
    + apply (fold_keeps _ _ ws) with (2 := F). intros z z' w _. apply word_names.
  - apply (fold_keeps _ _ l) with (2 := E1); [intros z z' w _; apply word_names|constructor].
Qed.
Lemma attrs_tells l a es : Forall (word_ok b sc) l -> Forall (tattr_ok b sc) a -> Forall2 raw_attr a es ->
  exists nm, rmap (an_named c) (map raw_word l ++ List.concat es) = Ok nm /\ forall m r, sees c r m -> tells (inst_attrs Q r l a) (eval_named P ex s nm m) m.
Proof.
  intros Hl Ha Fa. destruct (puts_app _ _ _ _ (words_goes l Hl) (attrs_goes a es Ha Fa)) as (nm & E & M). exists nm. split; [exact E|]. intros m r S. exact (M m r [] S).
Qed.
Lemma show_never d : show Q d <> Raises.
Proof. unfold show. destruct (snd d); try discriminate; destruct (py_text Q _); discriminate. Qed.
Lemma shows_never d : omap (show Q) d <> Raises.
Proof.
  induction d as [|x d IH]; [discriminate|]. cbn [omap]. intros H. orai H y Ey; [exact (show_never _ H)|]. orai H ys Eys; [exact (IH H)|discriminate].
Qed.
Lemma show_all d sh : omap (show Q) d = Is sh -> attrvals_of (p_ren P) d = Ok (map av sh) /\ (Forall (fun nv => good_name (fst nv)) d -> Forall shown_ok sh).
Proof.
  revert sh. induction d as [|[n v] d IH]; intros sh H; cbn [omap] in H; [injection H as <-; split; [reflexivity|constructor]|].
  oinv H y Ey. oinv H ys Eys. injection H as <-. destruct (IH ys Eys) as [I1 I2]. cbn [attrvals_of map].
  assert (K : attrval_of (p_ren P) v = Ok (snd (av y)) /\ fst y = n).
  { unfold show in Ey. cbn [fst snd] in Ey.
    destruct v; try (destruct (py_text Q _) as [x| |] eqn:Ex; try discriminate Ey; injection Ey as <-; cbn [attrval_of]; rewrite (str_is P Q AG _ _ Ex); split; reflexivity); injection Ey as <-; try (split; reflexivity).
    destruct b0; split; reflexivity. }
  destruct K as [K1 K2]. rewrite K1. cbn [bind]. rewrite I1. cbn [bind]. split.
  - subst n. reflexivity.
  - intros G. inversion G as [|? ? Gn G']; subst. constructor; [exact Gn|exact (I2 G')].
Qed.

(** ** Tags *)
Definition name_of (g : tagx) : str := fst (fst g).
Definition tags_hold (m : mach W) : Prop := forall n v, known n = Some v -> exists x, c_get c (TAG n) = Some x /\ slot_value m s (sl_id x) = Some (VTag (tag_of n)).

Lemma tag_goes g tx x : tag_ok b sc g -> raw_tag g tx -> c_get c (TAG (name_of g)) = Some x ->
  exists nm, an_tag c tx = Ok (XTag (name_of g) (Some (sl_id x)) [] nm) /\
  forall m r, sees c r m ->
    (forall t, inst_tag Q r g = Is t ->
      exists kw, eval_named P ex s nm m = (Done kw, m) /\ attrvals_of (p_ren P) kw = Ok (map av (snd t)) /\ fst t = name_of g /\ etag_ok t) /\
    (inst_tag Q r g = Raises -> stuck (eval_named P ex s nm m) m).
Proof.
  intros H R G. inversion R as [n l a es Fa]; subst. cbn [tag_ok] in H. destruct H as (Hn & _ & _ & Hl & Ha). unfold name_of in *. cbn [fst] in *.
  destruct (attrs_tells l a es Hl Ha Fa) as (nm & E & M). exists nm. split.
  - unfold an_tag. cbn [rmap bind]. rewrite E. cbn [bind]. rewrite G. reflexivity.
  - intros m r S. split.
    + intros t D. cbn [inst_tag] in D. oinv D d Ed. oinv D sh Es. injection D as <-. cbn [fst snd].
      destruct (show_all d sh Es) as [Sh1 Sh2]. exists d. split; [|split; [exact Sh1|split; [reflexivity|split; [exact Hn|]]]].
      * exact (tells_is _ _ _ _ (M m r S) Ed).
      * apply Sh2. exact (attrs_names r l a d Ha Ed).
    + intros D. cbn [inst_tag] in D. orai D d Ed; [exact (tells_stuck _ _ _ (M m r S) D)|]. orai D sh Es; [destruct (shows_never _ D)|discriminate].
Qed.

Lemma apply_cons x xs body m l m1 : apply_tags P ex s xs body m = (Done l, m1) -> apply_tags P ex s (x :: xs) body m = tr_tag P ex s x l m1.
Proof.
  unfold apply_tags. cbn [rev]. generalize (rev xs). clear. intros ys. revert body m. induction ys as [|y ys IH]; intros body m E.
  - cbn [app mfold] in *. injection E as <- <-. unfold mbind, ret. destruct (tr_tag P ex s x body m) as [[]]; reflexivity.
  - cbn [app mfold] in *. unfold mbind in E at 1. unfold mbind at 1. destruct (tr_tag P ex s y body m) as [[z|e|] m2]; try discriminate. exact (IH z m2 E).
Qed.

Lemma apply_stuck x xs body m z : stuck (apply_tags P ex s xs body m) z -> stuck (apply_tags P ex s (x :: xs) body m) z.
Proof.
  unfold apply_tags. cbn [rev]. generalize (rev xs). clear. intros ys. revert body m. induction ys as [|y ys IH]; intros body m (e & E).
  - discriminate.
  - cbn [app mfold] in *. unfold mbind in E at 1. unfold mbind at 1. destruct (tr_tag P ex s y body m) as [[l|e'|] m2]; [apply IH; exists e; exact E| |discriminate].
    injection E as <- <-. exists e'. reflexivity.
Qed.
Lemma tags_goes g tx : Forall (tag_ok b sc) g -> Forall2 raw_tag g tx -> (forall t, In t g -> exists v, known (name_of t) = Some v) ->
  (forall n v, known n = Some v -> exists x, c_get c (TAG n) = Some x) ->
  exists tx', rmap (an_tag c) tx = Ok tx' /\
  forall m r, sees c r m -> tags_hold m ->
    (forall gs, omap_back (inst_tag Q r) g = Is gs -> Forall etag_ok gs /\ map fst gs = map name_of g /\
      forall ts h0 A, took A h0 (m_heap m) ts ->
      exists ts' h', apply_tags P ex s tx' (map root ts) m = (Done (map root ts'), with_heap m h') /\ took A h0 h' ts' /\ chained (map erase ts) gs (map erase ts')) /\
    (omap_back (inst_tag Q r) g = Raises -> forall ts h0 A, took A h0 (m_heap m) ts -> exists h', stuck (apply_tags P ex s tx' (map root ts) m) (with_heap m h') /\ spared A h0 h').
Proof.
  intros H R. induction R as [|t x g tx Rt R IH]; intros Hk HG.
  - exists []. split; [reflexivity|]. intros m r S Th. split; [|discriminate]. intros gs D. injection D as <-. split; [constructor|split; [reflexivity|]]. intros ts h0 A G. exists ts, (m_heap m).
    split; [rewrite with_heap_same; reflexivity|]. split; [exact G|constructor].
  - inversion H; subst. destruct IH as (tx' & E2 & M2); [assumption|intros y I; apply Hk; right; exact I|exact HG|].
    destruct (Hk t (or_introl eq_refl)) as (v & Kv). destruct (HG _ _ Kv) as (sl & Gs).
    destruct (tag_goes t x sl ltac:(assumption) Rt Gs) as (nm & E1 & M1). exists (XTag (name_of t) (Some (sl_id sl)) [] nm :: tx'). split.
    + cbn [rmap]. rewrite E1. cbn [bind]. rewrite E2. reflexivity.
    + intros m r S Th. destruct (M2 m r S Th) as [Is2 No2]. split.
      * intros gs D. cbn [omap_back] in D. oinv D gs1 Eg. oinv D t1 Et. injection D as <-. destruct (Is2 gs1 Eg) as (Ok2 & Nm2 & Run2).
        destruct (proj1 (M1 m r S) t1 Et) as (_ & _ & _ & Nm1 & Ok1). split; [constructor; assumption|]. split; [cbn [map]; rewrite Nm1, Nm2; reflexivity|].
        intros ts h0 A G. destruct (Run2 ts h0 A G) as (ts' & h' & A2 & G2 & C2).
        destruct (proj1 (M1 (with_heap m h') r S) t1 Et) as (kw & Ek & Ea & _).
        set (f := node_info (tag_of (fst t1)) [] (Some kw)). exists [T (List.length h') f ts'], (h' ++ [{| c_info := f; c_body := map root ts' |}]).
        split; [|split; [exact (took_node _ _ _ _ f G2)|]].
        -- rewrite (apply_cons _ _ _ _ _ _ A2). unfold tr_tag. rewrite (run_bind (mmap eval []) _ (with_heap m h') [] (with_heap m h') eq_refl).
           rewrite (run_bind _ _ _ _ _ Ek). destruct (Th _ _ Kv) as (y & Gy & Vy). assert (y = sl) by congruence. subst y.
           assert (Eg' : get_slot s (sl_id sl) (with_heap m h') = (Done (VTag (tag_of (name_of t))), with_heap m h')).
           { unfold get_slot. change (slot_value (with_heap m h') s (sl_id sl)) with (slot_value m s (sl_id sl)). rewrite Vy. reflexivity. }
           rewrite (run_bind _ _ _ _ _ Eg'). unfold do_node, lift_h, mbind. cbn [m_heap with_heap]. rewrite new_node_eq. unfold f. rewrite Nm1. reflexivity.
        -- cbn [map erase]. constructor; [exists kw; split; [reflexivity|exact Ea]|exact C2].
      * intros D ts h0 A G. cbn [omap_back] in D. orai D gs1 Eg; [destruct (No2 D ts h0 A G) as (h' & F & Sp); exists h'; split; [exact (apply_stuck _ _ _ _ _ F)|exact Sp]|]. orai D t1 Et; [|discriminate].
        destruct (Is2 gs1 Eg) as (_ & _ & Run2). destruct (Run2 ts h0 A G) as (ts' & h' & A2 & G2 & _). exists h'. split; [|exact (took_spared _ _ _ _ G2)]. rewrite (apply_cons _ _ _ _ _ _ A2). unfold tr_tag.
        rewrite (run_bind (mmap eval []) _ (with_heap m h') [] (with_heap m h') eq_refl). apply stuck_bind. exact (proj2 (M1 (with_heap m h') r S) D).
Qed.

(** ** Uses of hypertags *)
Lemma givens_goes pos : Forall (given_ok b sc) pos ->
  exists us', rmap (an_expr c) (map raw_given pos) = Ok us' /\ forall m r, sees c r m -> tells (omap (inst_given Q r) pos) (mmap eval us' m) m.
Proof.
  intros H. induction H as [|g pos Hg H IH]; [exists []; split; [reflexivity|]; intros m r _; reflexivity|].
  destruct IH as (us' & E2 & M2). destruct (given_goes g Hg) as (e' & E1 & M1).
  exists (e' :: us'). split; [cbn [rmap map]; rewrite E1; cbn [bind]; rewrite E2; reflexivity|]. intros m r S. cbn [omap mmap].
  apply tells_bind; [apply (M1 m r S)|]. intros v _. apply tells_bind; [apply (M2 m r S)|]. intros vs _. reflexivity.
Qed.
Lemma use_goes h t x : use_ok b sc h -> raw_use h t -> c_get c (TAG (fst (fst h))) = Some x ->
  exists t', an_tag c t = Ok t' /\
  forall m r d, sees c r m -> slot_value m s (sl_id x) = Some (VHyper d) -> forall body,
    (forall a, inst_use Q r h = Is a -> tr_tag P ex s t' body m = ex d (VDom body) (fst a) (snd a) s m) /\
    (inst_use Q r h = Raises -> stuck (tr_tag P ex s t' body m) m).
Proof.
  intros H R G. inversion R as [n pos a es Fa]; subst. cbn [use_ok fst] in *. destruct H as (_ & Hp & Ha).
  destruct (givens_goes pos Hp) as (us' & E1 & M1). destruct (attrs_tells [] a es (Forall_nil _) Ha Fa) as (es2 & E2 & M2). cbn [map app] in E2.
  exists (XTag n (Some (sl_id x)) us' es2). split.
  - unfold an_tag. rewrite E1. cbn [bind]. rewrite E2. cbn [bind]. rewrite G. reflexivity.
  - intros m r d S V body. unfold tr_tag. split.
    + intros [vs kw] D. cbn [inst_use] in D. oinv D vs' Ev. oinv D kw' Ek. injection D as -> ->. cbn [fst snd].
      rewrite (run_bind _ _ _ _ _ (tells_is _ _ _ _ (M1 m r S) Ev)). rewrite (run_bind _ _ _ _ _ (tells_is _ _ _ _ (M2 m r S) Ek)).
      assert (Eg' : get_slot s (sl_id x) m = (Done (VHyper d), m)) by (unfold get_slot; rewrite V; reflexivity).
      rewrite (run_bind _ _ _ _ _ Eg'). reflexivity.
    + intros D. cbn [inst_use] in D. orai D vs Ev; [apply stuck_bind; exact (tells_stuck _ _ _ (M1 m r S) D)|].
      rewrite (run_bind _ _ _ _ _ (tells_is _ _ _ _ (M1 m r S) Ev)). orai D kw Ek; [apply stuck_bind; exact (tells_stuck _ _ _ (M2 m r S) D)|discriminate].
Qed.
End Context.
End Tag.
