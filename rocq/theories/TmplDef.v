(** Proofs about templates: definitions of hypertags. *)
From Coq Require Import List NArith ZArith Bool Lia Arith String.
From Verif Require ExprSpec BindFacts.
From Verif Require Import PyStr PyStrFacts Html Indent IndentSpec PyDict Structs StructsSpec StructsFacts Value Dom DomSpec DomFacts Ast Machine Eval Translate Analyse
  MachineFacts RenderFacts ScopeSpec ScopeFacts PageSpec PageRender PageTree PageRun PageDoc OperSpec TmplSpec TmplLines TmplRender TmplTree TmplParse TmplExpr TmplTag TmplScope TmplRun TmplBind.
Notation tree := DomSpec.tree.
Notation root := DomSpec.root.
Import ListNotations.
Local Open Scope list_scope.
Local Open Scope nat_scope.
Notation agrees := TmplExpr.agrees.
Notation given := TmplSpec.given.

(** ** Nodes *)
Lemma took_new A p h h1 ts f kids : absolute p = true -> took A h h1 ts -> Forall2 (moved p) (map erase ts) kids -> (forall x, Dom.n_kind f <> KText x) ->
  exists i h2 ts', new_node (depth_bound h1) f (map root ts) (Some p) h1 = (Done i, h2) /\ took A h h2 [T i (with_indent f (Some p)) ts'] /\ map erase ts' = kids.
Proof.
  intros Ap G Hs Hf. pose proof (took_node A h h1 ts (with_indent f None) G) as G1. set (i := List.length h1) in *. set (h2 := h1 ++ _) in G1.
  pose proof G1 as (_ & _ & R & N & _). inversion R as [|? ? R0 _]; subst. unfold all_ids in N. cbn [flat_map] in N. rewrite app_nil_r in N.
  destruct (place_one p (depth_bound h1) (T i (with_indent f None) ts) Ap (Sh (with_indent f (Some p)) kids) h2 R0 N) as (h3 & t' & E & R2 & I2 & Ro & Er & C2).
  { pose proof (height_heap _ _ R0 N) as HH. unfold h2 in HH. rewrite app_length in HH. cbn [List.length] in HH. unfold depth_bound. lia. }
  { cbn [erase]. apply (placed_node p (with_indent f None)); [exact Hf|exact Hs]. }
  destruct t' as [i' f' ts']. cbn [root] in Ro. subst i'. cbn [erase] in Er. injection Er as -> Er.
  exists i, h3, ts'. split; [|split; [|exact Er]].
  - unfold new_node, hbind. fold h2. fold i. cbn [root] in E. rewrite E. reflexivity.
  - apply took_changed with h2 [T i (with_indent f None) ts].
    + exact G1.
    + unfold all_ids. cbn [flat_map]. rewrite app_nil_r. exact C2.
    + constructor; [exact R2|constructor].
    + unfold all_ids. cbn [flat_map]. rewrite !app_nil_r. exact I2.
Qed.

Lemma erase_unlined t ts : map erase (outline_tree false t :: ts) = unlined (map erase (t :: ts)).
Proof. destruct t; reflexivity. Qed.

Section Expand.
Context {W : Type}.
Variable P : prims W.
Variable ex : hyper -> val -> list val -> list (str * val) -> nat -> M W (list nid).
Variable loops : nat.
Variable known : str -> option bool.
Variable tag_of : str -> tag.
Variable s : nat.
Notation draws := (draws known (p_ren P) tag_of).
Notation kept := (kept (W := W) s).

Lemma expand_run A d hd body pos kw dom m m1 m2 ts q p es is ws :
  append_attrs P ex hd body pos kw s m = (Done dom, m1) -> m_heap m1 = m_heap m -> kept is m m1 ->
  tr_body P ex loops s (h_block hd) m1 = (Done (map root ts), m2) -> took A (m_heap m1) (m_heap m2) ts -> kept ws m1 m2 -> draws q es (map erase ts) -> calm_elems es ->
  ind_of s m = p -> absolute p = true ->
  exists t m', expand_def P ex loops d hd body pos kw s m = (Done [root t], m') /\ took A (m_heap m) (m_heap m') [t] /\
    draws p [EHyper 0 es] (outlined [erase t]) /\ kept (is ++ ws) m m'.
Proof.
  intros E1 Hh K1 E2 G K2 Dr Ca Ip Ap. rewrite Hh in G. pose proof (kept_trans K1 K2) as K. destruct K as (L & Ik & Kk & Kd & Ko).
  destruct (placed_draws known (p_ren P) tag_of p q es _ Dr) as (s2 & Pl & Dr2). destruct (took_place _ _ _ _ ts s2 Ap G Pl) as (h2 & ts2 & Ep & G2 & Ro & Er).
  assert (Go : exists h3 ts3, (match map root ts with [] => ret tt | i :: _ => do_outline false i end) (with_heap m2 h2) = (Done tt, with_heap m2 h3) /\
    took A (m_heap m) h3 ts3 /\ map root ts3 = map root ts /\ map erase ts3 = unlined s2).
  { destruct ts2 as [|t ts2].
    - exists h2, []. rewrite <- Ro. cbn [map]. split; [reflexivity|]. split; [exact G2|]. split; [reflexivity|]. rewrite <- Er. reflexivity.
    - exists (set_outline h2 (root t) false), (outline_tree false t :: ts2). rewrite <- Ro. cbn [map]. split; [reflexivity|]. split; [apply took_outline, G2|].
      split; [cbn [map]; rewrite root_outline; reflexivity|]. rewrite <- Er. apply erase_unlined. }
  destruct Go as (h3 & ts3 & E3 & G3 & Ro3 & Er3).
  assert (Dr3 : draws (p ++ []) es s2) by (rewrite app_nil_r; exact Dr2).
  destruct (moved_draws known (p_ren P) tag_of p [] es s2 Dr3) as (s4 & Mv & Dr4). apply unlined_moved in Mv. rewrite <- Er3 in Mv.
  set (f := node_info (native d (h_name hd)) [] (Some dom)).
  destruct (took_new A p (m_heap m) h3 ts3 f (unlined s4) Ap G3 Mv) as (i & h4 & ts4 & E4 & G4 & Er4); [discriminate|].
  exists (T i (with_indent f (Some p)) ts4), (with_heap m2 h4). split; [|split; [exact G4|split]].
  - unfold expand_def. rewrite (run_bind _ _ _ _ _ E1), (run_bind _ _ _ _ _ E2). unfold mbind at 1, get_ind. change (s_indent (state_at m2 s)) with (ind_of s m2). rewrite Ik, Ip.
    rewrite (run_bind _ _ m2 tt (with_heap m2 h2)); [|unfold do_set_indent, lift_h; rewrite Ep; reflexivity]. rewrite (run_bind _ _ _ _ _ E3).
    rewrite <- Ro3. rewrite (run_bind _ _ _ i (with_heap m2 h4)); [reflexivity|]. unfold do_node, lift_h. cbn [m_heap with_heap]. fold f. rewrite E4. reflexivity.
  - cbn [erase outlined]. rewrite Er4.
    change (draws p [EHyper 0 es] (([] ++ [Sh (with_indent (with_outline f true) (Some p)) (unlined s4)]) ++ [])). constructor; [|constructor].
    constructor; [reflexivity|exact Dr4|exact Ca|]. exists d, (h_name hd), dom. reflexivity.
  - split; [exact L|]. split; [exact Ik|]. split; [exact Kk|]. split; [exact Kd|exact Ko].
Qed.
End Expand.

(** ** The body of a hypertag is put in place inside of definitions only *)
Lemma list_sum_0 l : (forall x, In x l -> x = 0) -> list_sum l = 0.
Proof. induction l as [|x l IH]; intros H; [reflexivity|]. cbn [list_sum fold_right]. change (fold_right plus 0 l) with (list_sum l). rewrite (H x (or_introl eq_refl)), IH; [reflexivity|]. intros y I. apply H. right. exact I. Qed.
Lemma uses_none b known hy t : forall outer own, wft b known hy None outer own t -> uses t = 0.
Proof.
  assert (All : forall kids, Forall (fun t => forall outer own, wft b known hy None outer own t -> uses t = 0) kids -> forall outer own, wfts b known hy None outer own kids -> uses_all kids = 0).
  { intros kids H. induction H as [|x kids Hx H IH]; intros outer own Hw; [reflexivity|]. inversion Hw; subst. unfold uses_all in *. cbn [map list_sum fold_right].
    rewrite (Hx outer own) by assumption. change (list_sum (map uses kids) = 0). eapply IH. eassumption. }
  induction t as [m k x|m h x tl|m g c|m g w kids IH|m cs els IHc IHe|m xs e w kids IH|m e w kids els IH IHe|m alts IHa|m xs e|m x o e|m h c|m h w kids IH|m n] using tmpl_ind'; intros outer own Hw; inversion Hw; subst; cbn [uses]; rewrite ?uses_fix; try reflexivity.
  - eapply All; eassumption.
  - match goal with K : wfb _ _ _ _ _ _ (map snd cs) |- _ => apply wfb_each in K; rename K into Hc end.
    match goal with K : wfb _ _ _ _ _ _ (match els with _ => _ end) |- _ => apply wfb_each in K; rename K into Hl end.
    rewrite Forall_forall in Hc, Hl. assert (Z : forall a b, a = 0 -> b = 0 -> Nat.max a b = 0) by lia. apply Z.
    + match goal with K : Forall _ _, L : cs <> [] |- _ => clear L K end. clear Hw. induction cs as [|[e [w kids]] cs IHs]; [reflexivity|]. inversion IHc as [|? ? I1 I2]; subst. rewrite uses_fix. apply Z.
      * destruct (Hc (w, kids) (or_introl eq_refl)) as (_ & _ & _ & Hk). exact (All kids I1 _ _ Hk).
      * apply IHs; [exact I2|]. intros y I. apply Hc. right. exact I.
    + destruct els as [[w kids]|]; [|reflexivity]. rewrite uses_fix. destruct (Hl (w, kids) (or_introl eq_refl)) as (_ & _ & _ & Hk). exact (All kids IHe _ _ Hk).
  - erewrite All; [reflexivity|eassumption|eassumption].
  - match goal with K : wfb _ _ _ _ _ _ (match els with _ => _ end) |- _ => apply wfb_each in K; rename K into Hl end. rewrite Forall_forall in Hl.
    erewrite All by eassumption. destruct els as [[w1 kids1]|]; [|reflexivity]. rewrite uses_fix. destruct (Hl (w1, kids1) (or_introl eq_refl)) as (_ & _ & _ & Hk). rewrite (All kids1 IHe _ _ Hk). reflexivity.
  - match goal with K : wfb _ _ _ _ _ _ alts |- _ => apply wfb_each in K; rename K into Ha end. rewrite Forall_forall in Ha, IHa.
    assert (Z : (fix go (l : list (str * list tmpl)) : nat := match l with [] => 0 | (_, kids) :: l => (fix all (l : list tmpl) : nat := match l with [] => 0 | t :: l => uses t + all l end) kids + go l end) alts = 0); [|rewrite Z; reflexivity].
    assert (Hk : forall y, In y alts -> uses_all (snd y) = 0) by (intros y I; destruct (Ha y I) as (_ & _ & _ & Hk); exact (All _ (IHa _ I) _ _ Hk)). clear - Hk.
    induction alts as [|[w kids] alts IHs]; [reflexivity|]. rewrite uses_fix. pose proof (Hk (w, kids) (or_introl eq_refl)) as K0. cbn [snd] in K0. rewrite K0. apply IHs. intros y I. apply Hk. right. exact I.
  - eapply All; eassumption.
  - discriminate.
Qed.
Lemma uses_all_none b known hy kids : forall outer own, wfts b known hy None outer own kids -> uses_all kids = 0.
Proof.
  induction kids as [|t kids IH]; intros outer own Hw; [reflexivity|]. inversion Hw; subst. unfold uses_all in *. cbn [map list_sum fold_right].
  erewrite uses_none by eassumption. change (list_sum (map uses kids) = 0). eapply IH. eassumption.
Qed.

(** ** Slots of parameters *)
Section Slots.
Context {W : Type}.
Variables (P : prims W) (Q : py).
Hypothesis AG : agrees P Q.
Variable known : str -> option bool.
Variable s : nat.
Variable b : str.
Variable vis : list str.
Variable hyps : list hyp.
Variable sl : str -> slot.
Variable hid : list slot.
Notation scope := (scope (W := W) known vis hyps sl hid).
Notation step := (step (W := W)).

Lemma slot_fine x own outer c a : ~ In x (own ++ outer) -> scope own outer c a ->
  exists i c' a' ext, new_slot2 (VAR x) c a = (Done (i, c'), a') /\ step c a c' a' ext [] [] /\
    fresh_names ext (own ++ outer) /\ scope (x :: own) outer c' a' /\ m_next a <= i < m_next a' /\ holds c' x i.
Proof.
  intros Nx S. pose proof S as [S1 S2 S3 S4 S5 S6 S7 S8 S9].
  destruct (new_slot2 (VAR x) c a) as [[[i c']| |] a'] eqn:E; [|discriminate|discriminate].
  destruct (new_slot2_step _ _ _ _ _ _ S1 E) as (St & Ei & Ea). apply step_ws with (w' := []) in St; [|intros z []].
  set (e := {| sl_id := i; sl_depth := c_regular c |}) in *.
  assert (F : fresh_names [(VAR x, e); (VAR x, e)] (own ++ outer)).
  { intros y j [[= <- <-]|[[= <- <-]|[]]]; exists x; (split; [reflexivity|]); exact Nx. }
  assert (G : c_get c' (VAR x) = Some e).
  { rewrite c_get_find by exact (st_inv _ _ _ _ _ _ _ St). rewrite (st_abs _ _ _ _ _ _ _ St). cbn [app find]. destruct (list_eq_dec N.eq_dec (VAR x) (VAR x)); [reflexivity|congruence]. }
  exists i, c', a', [(VAR x, e); (VAR x, e)]. split; [reflexivity|]. split; [exact St|]. split; [exact F|]. split.
  - destruct (scope_step S St F) as [T1 T2 T3 T4 T5 T6 T7 T8 T9]. split; auto.
    + intros n [<-|J]; [|exact (T3 n J)]. exists e. split; [exact G|]. rewrite (st_reg _ _ _ _ _ _ _ St). reflexivity.
    + intros n J. destruct (T6 n J) as [J1 J2]. split; [right; exact J1|exact J2].
  - split; [subst i a'; cbn; lia|exists e; split; [exact G|reflexivity]].
Qed.
Lemma holds_step c a c' a' ext sc n i : sound c -> step c a c' a' ext [] [] -> fresh_names ext sc -> In n sc -> holds c n i -> holds c' n i.
Proof. intros H St F I (j & G & E). exists j. split; [|exact E]. rewrite (step_var _ _ _ _ _ _ _ _ n H St F I). exact G. Qed.

Lemma params_slots ads : forall own outer c a, NoDup (map a_name ads) -> (forall n, In n (map a_name ads) -> ~ In n (own ++ outer)) -> scope own outer c a ->
  exists rs c' a' ext, amap (fun d => abind (new_slot2 (VAR (a_name d))) (fun x => aret (a_name d, a_default d, x))) ads c a = (Done (rs, c'), a') /\ step c a c' a' ext [] [] /\
    fresh_names ext (own ++ outer) /\ scope (map a_name ads ++ own) outer c' a' /\
    Forall2 (fun d r => fst r = (a_name d, a_default d) /\ holds c' (a_name d) (snd r) /\ m_next a <= snd r < m_next a') ads rs.
Proof.
  induction ads as [|d ads IH]; intros own outer c a N D S.
  - exists [], c, a, []. split; [reflexivity|]. split; [apply step_refl, (sc_sound S)|]. split; [apply fresh_nil|]. split; [exact S|constructor].
  - cbn [map] in N, D. inversion N as [|? ? N1 N2]; subst. destruct (slot_fine (a_name d) own outer c a (D _ (or_introl eq_refl)) S) as (i & c1 & a1 & e1 & E1 & St1 & F1 & S1 & R1 & H1).
    destruct (IH (a_name d :: own) outer c1 a1 N2) as (rs & c2 & a2 & e2 & E2 & St2 & F2 & S2 & H2); [|exact S1|].
    { intros n I [<-|J]; [exact (N1 I)|exact (D n (or_intror I) J)]. }
    exists ((a_name d, a_default d, i) :: rs), c2, a2, (e2 ++ e1). cbn [amap]. split; [|split; [|split; [|split]]].
    + rewrite (abind_done _ _ c a (a_name d, a_default d, i) c1 a1) by (rewrite (abind_done _ _ _ _ _ _ _ E1); reflexivity). rewrite (abind_done _ _ _ _ _ _ _ E2). reflexivity.
    + exact (step_trans _ _ _ _ _ _ _ _ _ _ _ _ St1 St2).
    + apply fresh_app; [|exact F1]. apply (fresh_incl _ _ _ F2). intros z J. right. exact J.
    + apply (scope_incl _ _ _ _ _ _ _ _ _ _ S2).
      * intros z J. cbn [map app] in J. destruct J as [<-|J]; [apply in_or_app; right; left; reflexivity|].
        apply in_app_or in J. apply in_or_app. destruct J as [J|J]; [left; exact J|right; right; exact J].
      * intros n J. destruct (sc_vis S n J) as [K _]. apply in_app_or in K. destruct K as [K|K]; [|apply in_or_app; right; exact K].
        apply in_or_app. left. right. apply in_or_app. right. exact K.
    + pose proof (st_next _ _ _ _ _ _ _ St1). pose proof (st_next _ _ _ _ _ _ _ St2). constructor.
      * cbn [fst snd]. split; [reflexivity|]. split; [|lia]. apply (holds_step _ _ _ _ _ ((a_name d :: own) ++ outer) _ _ (sc_sound S1) St2 F2); [left; reflexivity|exact H1].
      * clear -H2 H H0. induction H2 as [|x y l l' (Y1 & Y2 & Y3) X4 IH]; constructor; [split; [exact Y1|split; [exact Y2|lia]]|exact IH].
Qed.
Lemma scope_shift own outer c a : scope own outer c a -> scope [] (own ++ outer) c a.
Proof. intros H. pose proof (scope_resolved H) as R. destruct H as [S1 S2 S3 S4 S5 S6 S7 S8 S9]. split; auto. intros n []. Qed.

(** Default values. *)
Lemma defaults_an ex c sc ps ads : resolved c sc -> (forall x g, In (x, Some g) ps -> given_ok b sc g) -> Forall2 raw_param ps ads ->
  exists ads', rmap (an_default c) ads = Ok ads' /\ map a_name ads' = map fst ps /\ map a_name ads' = map a_name ads /\
    forall rs (R : attrdef -> slot -> Prop), Forall2 (fun d r => fst r = (a_name d, a_default d) /\ R d (snd r)) ads' rs -> Forall2 (fits P Q ex s c) ps rs.
Proof.
  intros RS Hg H. induction H as [|p ad ps ads Hp H IH].
  - exists []. split; [reflexivity|]. split; [reflexivity|]. split; [reflexivity|]. intros rs R F. inversion F. constructor.
  - destruct IH as (ads' & E & N1 & N2 & F); [intros x g I; exact (Hg x g (or_intror I))|].
    assert (X : exists ad', an_default c ad = Ok ad' /\ a_name ad' = fst p /\ a_name ad' = a_name ad /\ forall i, fits P Q ex s c p (a_name ad', a_default ad', i)).
    { inversion Hp as [n|n g]; subst; unfold an_default; cbn [a_default a_name a_slot].
      - eexists. split; [reflexivity|]. split; [reflexivity|]. split; [reflexivity|]. intros i. split; [reflexivity|exact Logic.I].
      - destruct (given_goes P Q AG ex s b c sc RS g (Hg n g (or_introl eq_refl))) as (e' & Ee & M). rewrite Ee. cbn [bind]. eexists. split; [reflexivity|]. split; [reflexivity|]. split; [reflexivity|].
        intros i. split; [reflexivity|]. exact M. }
    destruct X as (ad' & Ea & X1 & X2 & X3). exists (ad' :: ads'). split; [cbn [rmap]; rewrite Ea; cbn [bind]; rewrite E; reflexivity|].
    split; [cbn [map]; congruence|]. split; [cbn [map]; congruence|]. intros rs R Fr. inversion Fr as [|? r ? rs' [Y1 Y2] Fr']; subst. constructor; [|exact (F rs' R Fr')].
    destruct r as [nr i]. cbn [fst] in Y1. subst nr. apply X3.
Qed.
End Slots.

Lemma reset_done {W} (c c4 : ctx) (a4 : mach W) ext : sound c4 -> entries c4 = ext ++ entries c ->
  exists d, areset (W := W) (md_position (c_md c)) c4 a4 = (Done (tt, with_md c4 d), a4) /\ inv d /\ abs d = entries c.
Proof.
  intros I4 A4. assert (H := reset_spec (c_md c4) (List.length (entries c)) I4). unfold entries in A4.
  replace (Nat.ltb (List.length (abs (c_md c4))) (List.length (entries c))) with false in H.
  2:{ symmetry. apply Nat.ltb_ge. rewrite A4, app_length. unfold entries. lia. }
  destruct H as (d & Ed & Id & Ad). exists d. split; [|split; [exact Id|]].
  - rewrite position_length. change (abs (c_md c)) with (entries c). unfold areset, mbind. rewrite Ed. reflexivity.
  - rewrite Ad, A4, app_length. unfold entries. replace (List.length ext + List.length (abs (c_md c)) - List.length (abs (c_md c))) with (List.length ext) by lia.
    rewrite skipn_app, skipn_all, Nat.sub_diag. reflexivity.
Qed.

(** ** Definitions *)
Lemma visible_dom vis r : incl (map fst (visible_part vis r)) vis.
Proof.
  intros n I. apply in_map_iff in I. destruct I as ([y v] & <- & I). apply filter_In in I. destruct I as [_ E]. apply existsb_exists in E. destruct E as (z & Z & E). apply str_eqb_eq in E. cbn [fst] in *. subst z. exact Z.
Qed.
Lemma visible_get vis r n v : get n (visible_part vis r) = Some v -> get n r = Some v.
Proof.
  unfold visible_part. induction r as [|[y w] r IH]; [discriminate|]. cbn [filter fst]. destruct (existsb (str_eqb y) vis) eqn:E; cbn [get].
  - destruct (str_eqb n y); [trivial|exact IH].
  - intros G. destruct (str_eqb n y) eqn:En; [|exact (IH G)]. exfalso. apply str_eqb_eq in En. subst y. apply get_dom in G.
    apply (visible_dom vis r) in G. assert (X : existsb (str_eqb n) vis = true) by (apply existsb_exists; exists n; split; [exact G|apply str_eqb_refl]). congruence.
Qed.

Definition sl_def (sl : str -> slot) (n : str) (x : slot) : str -> slot := fun y => if str_eqb y (TAG n) then x else sl y.
Lemma sl_def_var sl n x y : sl_def sl n x (VAR y) = sl (VAR y).
Proof. unfold sl_def. destruct (str_eqb (VAR y) (TAG n)) eqn:E; [apply str_eqb_eq in E; discriminate|reflexivity]. Qed.
Lemma sl_def_tag sl n x : sl_def sl n x (TAG n) = x.
Proof. unfold sl_def. rewrite str_eqb_refl. reflexivity. Qed.
Lemma TAG_inj n m : TAG n = TAG m -> n = m.
Proof. intros H. injection H as H. exact H. Qed.
Lemma sl_def_other sl n x y : y <> n -> sl_def sl n x (TAG y) = sl (TAG y).
Proof. intros H. unfold sl_def. destruct (str_eqb (TAG y) (TAG n)) eqn:E; [apply str_eqb_eq, TAG_inj in E; contradiction|reflexivity]. Qed.

Section Def.
Context {W : Type}.
Variables (P : prims W) (Q : py).
Hypothesis AG : agrees P Q.
Hypothesis escaping : p_escape P = Some html_escape.
Variable import_module : str -> M W module.
Variable context : list (str * val).
Variable known : str -> option bool.
Variable tag_of : str -> tag.
Variable s : nat.
Variables (b : str) (lim : nat).
Variable vis : list str.
Notation scope := (scope (W := W) known vis).
Notation stays := (stays (W := W) known tag_of s).
Notation gets := (gets (W := W) s vis).
Notation behaves k := (behaves P (expand_n P k) known tag_of s vis).
Notation an_item := (an_item import_module context).
Notation draws := (draws known (p_ren P) tag_of).

(** The context after a hypertag is added. *)
Lemma scope_add hyps sl hid c a n x f h o hd c' (a' : mach W) : scope hyps sl hid vis [] c a ->
  sound c' -> entries c' = (TAG n, {| sl_id := x; sl_depth := c_regular c |}) :: entries c -> c_regular c' = c_regular c -> m_next a <= x -> m_next a' = S x ->
  (forall y, In y hd -> m_next a <= y < x) -> (forall y, In y (home_slots ((n, f), (h, o))) -> m_next a <= y < x /\ ~ In y hd) ->
  scope (((n, f), (h, o)) :: hyps) (sl_def sl n x) (hid ++ hd) vis [] c' a'.
Proof.
  intros [S1 [S2 S2'] S3 S4 S5 S6 S7 [S8 S8'] S9] Sd En Rg Lx Nx Hhd Hso.
  assert (Sp : forall y, In y ((hid ++ hd) ++ used (((n, f), (h, o)) :: hyps)) -> In y (hid ++ used hyps) \/ m_next a <= y < x).
  { intros y J. unfold used in J. cbn [flat_map] in J. fold (used hyps) in J. rewrite !in_app_iff in J. rewrite in_app_iff.
    destruct J as [[J|J]|[J|J]]; [left; left; exact J|right; exact (Hhd y J)|right; exact (proj1 (Hso y J))|left; right; exact J]. }
  assert (Gv : forall y, c_get c' (VAR y) = c_get c (VAR y)).
  { intros y. rewrite !c_get_find by assumption. rewrite En. cbn [find]. destruct (list_eq_dec N.eq_dec (VAR y) (TAG n)) as [E|]; [destruct (VAR_TAG _ _ E)|reflexivity]. }
  assert (Gt : forall y, y <> n -> c_get c' (TAG y) = c_get c (TAG y)).
  { intros y Ny. rewrite !c_get_find by assumption. rewrite En. cbn [find]. destruct (list_eq_dec N.eq_dec (TAG y) (TAG n)) as [E|]; [destruct (Ny (TAG_inj _ _ E))|reflexivity]. }
  split.
  - exact Sd.
  - split.
    + intros y i I. rewrite En in I. destruct I as [[= <- <-]|I]; [cbn; lia|]. apply S2 in I. lia.
    + intros y i y' i' I I' E. rewrite En in I, I'. destruct I as [[= <- <-]|I], I' as [[= <- <-]|I']; cbn [sl_id] in E.
      * reflexivity.
      * apply S2 in I'. lia.
      * apply S2 in I. lia.
      * exact (S2' _ _ _ _ I I' E).
  - intros y I. rewrite Gv, Rg. exact (S3 y I).
  - intros y [].
  - intros y K. destruct (list_eq_dec N.eq_dec y n) as [->|Ny].
    + exists {| sl_id := x; sl_depth := c_regular c |}. rewrite sl_def_tag. split; [|reflexivity]. rewrite c_get_find by exact Sd. rewrite En. cbn [find].
      destruct (list_eq_dec N.eq_dec (TAG n) (TAG n)); [reflexivity|congruence].
    + rewrite Gt, sl_def_other by exact Ny. apply S5. destruct K as [K|K]; [left; exact K|]. cbn [map] in K. destruct K as [<-|K]; [destruct Ny; reflexivity|right; exact K].
  - intros y I. destruct (S6 y I) as [J G]. split; [exact J|]. rewrite Gv, sl_def_var. exact G.
  - intros y i I J. apply Sp in J. rewrite En in I. destruct I as [[= <- <-]|I].
    + cbn [sl_id] in J. destruct J as [J|J]; [apply S8 in J|]; lia.
    + destruct J as [J|J]; [exact (S7 _ _ I J)|]. apply S2 in I. lia.
  - split.
    + intros y J. apply Sp in J. destruct J as [J|J]; [apply S8 in J|]; lia.
    + intros y J U. unfold used in U. cbn [flat_map] in U. fold (used hyps) in U. apply in_app_or in U. apply in_app_or in J. destruct J as [J|J], U as [U|U].
      * specialize (S8 y (in_or_app _ _ _ (or_introl J))). apply Hso in U. lia.
      * exact (S8' y J U).
      * exact (proj2 (Hso y U) J).
      * specialize (S8 y (in_or_app _ _ _ (or_intror U))). apply Hhd in J. lia.
  - intros y i I. rewrite En in I. rewrite Rg. destruct I as [[= <- <-]|I]; [cbn; lia|exact (S9 _ _ I)].
Qed.
Lemma scope_def hyps sl hid c a n x f dn hd c' (a' : mach W) : scope hyps sl hid vis [] c a ->
  sound c' -> entries c' = (TAG n, {| sl_id := x; sl_depth := c_regular c |}) :: entries c -> c_regular c' = c_regular c -> m_next a <= x -> m_next a' = S x ->
  scope (((n, f), (HDef dn, local dn hd)) :: hyps) (sl_def sl n x) (hid ++ seq (m_next a) (x - m_next a)) vis [] c' a'.
Proof. intros Sc Sd En Rg Lx Nx. apply (scope_add hyps sl hid c a); try assumption; [|intros y []]. intros y J. apply in_seq in J. lia. Qed.
Lemma stays_def hyps sl n x f dn hd m : known n = None -> ~ In n (map hyp_name hyps) -> stays (((n, f), (HDef dn, local dn hd)) :: hyps) (sl_def sl n x) m -> stays hyps sl m.
Proof.
  intros Kn Hn [T1 T2]. split.
  - intros y v K. rewrite <- (sl_def_other sl n x y); [exact (T1 y v K)|]. intros ->. congruence.
  - intros y g d h I. destruct (T2 y g d h (or_intror I)) as [V D]. rewrite sl_def_other in V; [split; [exact V|exact D]|]. intros ->. apply Hn, in_map_iff. exists ((n, g), (d, h)). split; [reflexivity|exact I].
Qed.
Lemma gets_def sl n x r m : gets (sl_def sl n x) r m <-> gets sl r m.
Proof. split; intros H y v I G; specialize (H y v I G); rewrite sl_def_var in *; exact H. Qed.
Lemma behaves_def k hyps sl hid n x f dn hd h l : known n = None -> ~ In n (map hyp_name hyps) -> behaves k hyps sl hid h ->
  behaves k (((n, f), (HDef dn, local dn hd)) :: hyps) (sl_def sl n x) (hid ++ l) h.
Proof.
  intros Kn Hn H m r pos kw y tb p L St Gt Ip Ap Nk Hb Rp Nd. apply stays_def in St; [|exact Kn|exact Hn]. apply gets_def in Gt.
  destruct (H m r pos kw y tb p L St Gt Ip Ap Nk Hb Rp Nd) as [H1 H2]. split; [intros es Hm|intros Hm; exact (fell_incl _ (H2 Hm) (incl_appl _ (incl_refl _)))]. destruct (H1 es Hm) as (t & m' & q & E & G & D & K). exists t, m', q. split; [exact E|]. split; [exact G|]. split; [exact D|].
  apply (kept_incl s hid); [exact K|]. intros z Z. apply in_or_app. left. exact Z.
Qed.

Lemma filled_draws q eb : draws q eb [] -> existsb filled eb = true -> False.
Proof.
  induction eb as [|e l IH]; intros H; [discriminate|]. inversion H as [|? ? ? a0 r0 He Hl E1 E2 E3]; subst. apply app_eq_nil in E3. destruct E3 as [-> ->]. cbn [existsb]. intros F.
  apply orb_true_iff in F. destruct F as [F|F]; [|exact (IH Hl F)]. clear -He F. remember [] as ss eqn:E in He.
  destruct He; try discriminate F; apply app_eq_nil in E; destruct E as [_ E]; discriminate E.
Qed.

Lemma def_fine m n bn ps w kids i hyps sl hid c a k :
  let d := Def m n bn ps w kids in let own := map fst ps in let body := match bn with Some x => [x] | None => [] end in
  raw_def b d i -> known n = None -> ~ In n (map hyp_name hyps) -> NoDup (body ++ own) -> (forall x, In x (body ++ own) -> var_name x = true /\ ~ In x vis) ->
  (forall x g, In (x, Some g) ps -> given_ok b vis g) -> indent_ok w -> kids <> [] -> calm kids -> uses_all kids <= 1 ->
  wfts b known (map hyp_name hyps) bn (body ++ vis) own kids ->
  scope hyps sl hid vis [] c a -> c_control c = 0 -> lim <= k -> Forall (behaves k hyps sl hid) hyps ->
  exists x hd ab ads y c' a',
    an_item i c a = (Done (NBlock (repeatc NL m) MNone (BDef (Some (List.length (m_defs a), x)) n ab ads y), c'), a') /\
    m_defs a' = m_defs a ++ [hd] /\ c_control c' = 0 /\ m_next a <= x /\ m_next a' = S x /\
    sound c' /\ entries c' = (TAG n, {| sl_id := x; sl_depth := c_regular c |}) :: entries c /\ c_regular c' = c_regular c /\
    behaves (S k) (((n, mean Q b lim (map fst hyps) vis d), (HDef (List.length (m_defs a)), local (List.length (m_defs a)) hd)) :: hyps) (sl_def sl n x) (hid ++ seq (m_next a) (x - m_next a))
      ((n, mean Q b lim (map fst hyps) vis d), (HDef (List.length (m_defs a)), local (List.length (m_defs a)) hd)).
Proof.
  intros d own body Hr Kn Hn Nb Hv Hg Hw Hk Hc Hu Hwf Sc0 Ctl Lk BH. inversion Hr as [|? ? ? ? ? ? ads is Rp Ri]; subst.
  set (x0 := BDef None n _ ads _).
  set (c0 := if c_prolog c && negb (prolog_block x0) then end_prolog c else c).
  assert (M0 : c_md c0 = c_md c /\ c_regular c0 = c_regular c /\ c_control c0 = c_control c /\ c_hyper c0 = c_hyper c).
  { unfold c0. destruct (c_prolog c && negb (prolog_block x0)); repeat split; auto. }
  destruct M0 as (M0 & R0 & C0 & H0).
  assert (Sc : scope hyps sl hid vis [] c0 a) by exact (scope_same c0 Sc0 M0 R0).
  set (c1 := enter_hyper (enter_regular c0)).
  assert (S1 : scope hyps sl hid [] vis c1 a).
  { pose proof (scope_inner Sc) as Si. rewrite app_nil_r in Si. exact (scope_same c1 Si eq_refl eq_refl). }
  destruct (defaults_an P Q AG s b (expand_n P k) c1 vis ps ads (scope_resolved S1) Hg Rp) as (ads' & Ea & Na1 & Na2 & Fit).
  (* the slot of the body *)
  assert (B : exists ab c2 a2 ext2, match match bn with Some x => Some (x, @None slot) | None => None end with Some (n, _) => abind (new_slot2 (VAR n)) (fun x => aret (Some (n, x))) | None => aret None end c1 a = (Done (ab, c2), a2) /\
    step (W := W) c1 a c2 a2 ext2 [] [] /\ fresh_names ext2 vis /\ scope hyps sl hid [] (body ++ vis) c2 a2 /\
    match bn with None => ab = None | Some x => exists i, ab = Some (x, i) /\ holds c2 x i /\ m_next a <= i < m_next a2 end).
  { destruct bn as [x|].
    - destruct (slot_fine known vis hyps sl hid x [] vis c1 a) as (j & c2 & a2 & e2 & E2 & St2 & F2 & S2 & R2 & H2); [|exact S1|].
      { apply Hv. left. reflexivity. }
      exists (Some (x, j)), c2, a2, e2. split; [rewrite (abind_done _ _ _ _ _ _ _ E2); reflexivity|]. split; [exact St2|]. split; [exact F2|]. split; [exact (scope_shift _ _ _ _ _ _ _ _ _ S2)|].
      exists j. auto.
    - exists None, c1, a, []. split; [reflexivity|]. split; [apply step_refl, (sc_sound S1)|]. split; [apply fresh_nil|]. split; [exact S1|reflexivity]. }
  destruct B as (ab & c2 & a2 & ext2 & E2 & St2 & F2 & S2 & Hab).
  apply NoDup_app_inv in Nb. destruct Nb as (Nb1 & Nb2 & Nb3).
  destruct (params_slots known vis hyps sl hid ads' [] (body ++ vis) c2 a2) as (rs & c3 & a3 & ext3 & E3 & St3 & F3 & S3 & Hrs).
  { rewrite Na1. exact Nb2. }
  { intros y I J. rewrite Na1 in I. cbn [app] in J. apply in_app_or in J. destruct J as [J|J]; [exact (Nb3 y J I)|]. apply (Hv y); [apply in_or_app; right; exact I|exact J]. }
  { exact S2. }
  rewrite Na1, app_nil_r in S3. fold own in S3.
  assert (Nm : named b bn (body ++ vis)).
  { intros y Ey. subst bn. destruct (Hv y (or_introl eq_refl)) as [V _]. split; [exact V|]. intros z [<-|[]]. left. reflexivity. }
  pose proof (doc_fine P Q AG escaping (expand_n P k) k lim Lk known tag_of s b import_module context vis hyps sl hid bn BH kids (body ++ vis) own is Ri Hwf Nm Hu) as Df.
  apply (body_of P _ _ known tag_of s import_module context vis hyps sl hid bn _ _ _ _ _ _ w) in Df.
  destruct (Df c3 a3 S3) as (y' & c4 & a4 & ext4 & ws & E4 & St4 & F4 & Ww & Run). clear Df.
  pose proof (step_trans _ _ _ _ _ _ _ _ _ _ _ _ St2 (step_trans _ _ _ _ _ _ _ _ _ _ _ _ St3 St4)) as St. cbn [app] in St.
  set (ext := (ext4 ++ ext3) ++ ext2) in St.
  destruct (reset_done c1 c4 a4 ext (st_inv _ _ _ _ _ _ _ St) (st_abs _ _ _ _ _ _ _ St)) as (dd & Er & Id & Ad).
  set (c5 := leave_regular (leave_hyper (with_md c4 dd))).
  set (hd := {| h_name := n; h_body := ab; h_regul := rs; h_block := y' |}).
  set (a5 := with_defs a4 (m_defs a4 ++ [hd])).
  destruct (new_slot (TAG n) c5 a5) as [[[x c6]| |] a6] eqn:E6; [|discriminate|discriminate].
  assert (S5 : sound c5) by exact Id.
  destruct (new_slot_step _ _ _ _ _ _ S5 E6) as (St6 & Ex & Ea6).
  assert (En5 : entries c5 = entries c). { unfold entries at 1. cbn [c_md c5 leave_regular leave_hyper with_md]. rewrite Ad. unfold entries. cbn [c_md c1 enter_hyper enter_regular]. rewrite M0. reflexivity. }
  assert (Rg5 : c_regular c5 = c_regular c). { unfold c5. cbn [c_regular leave_regular leave_hyper with_md]. rewrite (st_reg _ _ _ _ _ _ _ St). cbn. exact R0. }
  assert (Ct5 : c_control c5 = 0). { unfold c5. cbn [c_control leave_regular leave_hyper with_md]. rewrite (st_ctl _ _ _ _ _ _ _ St). cbn. congruence. }
  assert (Df5 : m_defs a4 = m_defs a). { rewrite (st_defs _ _ _ _ _ _ _ St), app_nil_r. reflexivity. }
  assert (Nx4 : m_next a <= m_next a4) by exact (st_next _ _ _ _ _ _ _ St).
  assert (Nx3 : m_next a2 <= m_next a3 /\ m_next a3 <= m_next a4 /\ m_next a <= m_next a2) by (repeat split; [exact (st_next _ _ _ _ _ _ _ St3)|exact (st_next _ _ _ _ _ _ _ St4)|exact (st_next _ _ _ _ _ _ _ St2)]).
  assert (Xx : x = m_next a4) by exact Ex.
  exists x, hd. eexists _, _, y', c6, a6. split; [|split; [|split; [|split; [|split; [|split; [|split; [|split]]]]]]].
  - cbn [Analyse.an_item]. fold x0. rewrite (abind_done _ _ c a tt c0 a eq_refl).
    assert (Eb : an_block import_module context x0 c0 a = (Done (BDef (Some (List.length (m_defs a), x)) n (match ab with Some (n, x) => Some (n, Some x) | None => None end)
       (map (fun r : str * option expr * slot => let '(n, e, x) := r in {| a_name := n; a_default := e; a_slot := Some x |}) rs) y', c6), a6)).
    { unfold x0. cbn [Analyse.an_block]. rewrite (abind_done _ _ c0 a tt c0 a) by (unfold aread, mbind; rewrite C0, Ctl; reflexivity).
      rewrite (abind_done _ _ c0 a tt (enter_regular c0) a eq_refl). rewrite (abind_done _ _ (enter_regular c0) a tt c1 a eq_refl). rewrite (abind_done _ _ c1 a (md_position (c_md c1)) c1 a eq_refl).
      rewrite (abind_done _ _ c1 a ads' c1 a) by (unfold aread, mbind; rewrite Ea; reflexivity). rewrite (abind_done _ _ _ _ _ _ _ E2), (abind_done _ _ _ _ _ _ _ E3), (abind_done _ _ _ _ _ _ _ E4).
      rewrite (abind_done _ _ _ _ _ _ _ Er). rewrite (abind_done _ _ (with_md c4 dd) a4 tt (leave_hyper (with_md c4 dd)) a4 eq_refl). rewrite (abind_done _ _ _ a4 tt c5 a4 eq_refl).
      fold hd. rewrite (abind_done _ _ c5 a4 (List.length (m_defs a4)) c5 a5 eq_refl). rewrite (abind_done _ _ _ _ _ _ _ E6). rewrite Df5. reflexivity. }
    rewrite (abind_done _ _ _ _ _ _ _ Eb). reflexivity.
  - rewrite Ea6. cbn [m_defs with_next]. unfold a5. cbn [m_defs with_defs]. rewrite Df5. reflexivity.
  - rewrite (st_ctl _ _ _ _ _ _ _ St6). exact Ct5.
  - lia.
  - rewrite Ea6. reflexivity.
  - exact (st_inv _ _ _ _ _ _ _ St6).
  - rewrite (st_abs _ _ _ _ _ _ _ St6), En5, Rg5. reflexivity.
  - rewrite (st_reg _ _ _ _ _ _ _ St6). exact Rg5.
  - intros mm r pos kw xb tb p L Sy Gt Ip Ap Nk Hb Rb Nd.
    assert (Hnth : nth_error (m_defs mm) (List.length (m_defs a)) = Some hd).
    { destruct Sy as [_ T2]. destruct (T2 _ _ _ _ (or_introl eq_refl)) as (_ & D & _). apply local_home in D. exact D. }
    apply stays_def in Sy; [|exact Kn|exact Hn]. apply gets_def in Gt. cbn [fst snd expand_n]. rewrite Hnth. unfold mean, d. cbv zeta.
    set (r0 := visible_part vis r) in *.
    pose proof (visible_dom vis r) as Vd. fold r0 in Vd.
    assert (Gt0 : gets sl r0 mm). { intros y v I G. apply (Gt y v I). exact (visible_get vis r y v G). }
    pose proof (gets_sees known s vis hyps sl hid _ _ _ _ _ _ S1 Vd Gt0) as Se1. pose proof (gets_sees known s vis hyps sl hid _ _ _ _ _ _ S3 Vd Gt0) as Se3.
    set (sls := seq (m_next a) (x - m_next a)).
    assert (Hps : forall n0 : str, In n0 (map fst ps) -> exists e i, In (n0, e, i) rs /\ holds c3 n0 i /\ In i sls).
    { intros y I. fold own in I. unfold own in I. rewrite <- Na1 in I. clear -I Hrs Nx3 Xx Nx4. induction Hrs as [|ad [[y0 e] j] ads' rs (X1 & X2 & X3) Hrs IH]; [destruct I|]. cbn [map] in I. destruct I as [<-|I].
      - exists e, j. cbn [fst snd] in *. injection X1 as -> ->. split; [left; reflexivity|]. split; [exact X2|]. apply in_seq. lia.
      - destruct (IH I) as (e' & j' & J1 & J2). exists e', j'. split; [right; exact J1|exact J2]. }
    assert (Hx : match h_body hd with None => True | Some (x, _) => ~ In x (map fst ps) end).
    { cbn [h_body hd]. destruct bn as [z|]; [|rewrite Hab; exact Logic.I]. destruct Hab as (j & -> & _). exact (Nb3 z (or_introl eq_refl)). }
    pose proof (Fit rs (fun d i => holds c3 (a_name d) i /\ m_next a2 <= i < m_next a3) Hrs) as Fits.
    destruct (params Q r0 ps pos kw) as [ag| |] eqn:Eag; cbn [oseq]; [|split; [discriminate|intros _]|split; discriminate].
    2:{ unfold expand_def. apply fell_bind, (fell_stuck L). exact (append_fail P Q (expand_n P k) s c1 hd ps rs r0 pos kw mm eq_refl Fits Nb2 Hx Se1 _ Eag). }
    destruct (body_given bn xb) as [bd| |] eqn:Ebd; cbn [oseq]; [|split; [discriminate|intros _]|split; discriminate].
    2:{ unfold expand_def. apply fell_bind. destruct bn as [z|], xb as [eb|]; try discriminate. cbn [body_given] in Ebd. destruct (existsb filled eb) eqn:Ef; [|discriminate].
      destruct (append_void P Q (expand_n P k) s known vis hyps sl hid own (body ++ vis) c1 c3 a3 hd ps rs sls r0 pos kw mm S3 eq_refl Fits Nb2 Hps Hx Nk L Se1 Se3 ag tb Hab) as (m1 & Fv & Hv1 & Kv); [|exact Eag|].
      { intros ->. destruct Hb as [_ [q D]]. exact (filled_draws q eb D Ef). }
      apply (fell_at Fv); [apply (kept_incl s sls); [exact Kv|apply incl_appr, incl_refl]|rewrite Hv1; apply spared_refl]. }
    destruct (append_run P Q (expand_n P k) s known vis hyps sl hid own (body ++ vis) c1 c3 a3 hd ps rs sls r0 pos kw mm S3 eq_refl Fits Nb2 Hps Hx Nk L Se1 Se3 bn ag tb) as (dom & m1 & Eap & Hh1 & Sa & Sb & K1 & Da).
    { destruct bn as [z|].
      - destruct Hab as (j & -> & Hj & Rj). exists j. split; [reflexivity|]. split; [|split].
        + apply (holds_step _ _ _ _ _ ([] ++ body ++ vis) _ _ (sc_sound S2) St3 F3); [left; reflexivity|exact Hj].
        + intros J. apply Vd in J. apply (Hv z); [left; reflexivity|exact J].
        + apply in_seq. lia.
      - split; [exact Hab|]. destruct xb as [eb|]; [cbn [body_given] in Ebd; destruct (existsb filled eb); discriminate|]. exact Hb. }
    { exact Eag. }
    assert (Cb : calm_body bd).
    { destruct bn as [z|], xb as [eb|]; cbn [body_given] in Ebd; try (destruct (existsb filled eb); discriminate); injection Ebd as <-; [exact (proj1 Hb)|exact Logic.I|exact Logic.I]. }
    assert (Sup : supplied P known tag_of s bn (body ++ vis) (uses_all kids) c3 bd tb m1).
    { split; [exact Cb|]. intros U. destruct bn as [z|].
      2:{ exfalso. pose proof (uses_all_none _ _ _ _ _ _ Hwf). lia. }
      assert (Dq : exists q eb, bd = Some eb /\ draws q eb (outlined (map erase tb))).
      { destruct xb as [eb|]; injection Ebd as <-; [destruct Hb as [_ [q D]]; exists q, eb; auto|]. cbn in Hb. subst tb. exists [], []. split; [reflexivity|constructor]. }
      destruct Dq as (q & eb & -> & Dq). exists z, eb, q. split; [reflexivity|]. split; [reflexivity|]. split; [left; reflexivity|]. split; [exact (Sb z eq_refl)|]. rewrite Hh1. auto. }
    assert (Wn : writes_ok (W := W) hid [] c a a4 sls). { intros z Z. left. apply in_seq in Z. lia. }
    assert (Rd : ready (W := W) known tag_of s hyps sl c3 (ag ++ r0) m1).
    { split; [exact (proj1 K1)|]. split; [exact Sa|]. exact (kept_stays Sc0 Wn K1 Sy). }
    assert (Ip1 : ind_of s m1 = p) by (destruct K1 as (_ & Ik & _); congruence).
    destruct (Run bd tb (ag ++ r0) m1 p Rd Ip1 Ap) as [Run1 Run2]; [|exact Sup|].
    { rewrite map_app, Da. fold own. apply incl_app; [apply incl_appl, incl_refl|]. apply incl_appr, incl_appr. exact Vd. }
    assert (Inc : incl (sls ++ ws) (hid ++ sls)).
    { intros z Z. apply in_app_or in Z. apply in_or_app. destruct Z as [Z|Z]; [right; exact Z|].
      destruct (Ww z Z) as [B|[(y & j & _ & J & Ej & Dj)|B]]; [right; apply in_seq; lia| |left; exact B]. right.
      rewrite (st_abs _ _ _ _ _ _ _ St3), (st_abs _ _ _ _ _ _ _ St2) in J. apply in_app_or in J. destruct J as [J|J]; [|apply in_app_or in J; destruct J as [J|J]].
      - destruct (st_ext _ _ _ _ _ _ _ St3 _ _ J) as [_ B]. apply in_seq. lia.
      - destruct (st_ext _ _ _ _ _ _ _ St2 _ _ J) as [_ B]. apply in_seq. lia.
      - exfalso. assert (Dc : sl_depth j <= c_regular c0). { apply (sc_fit _ _ _ _ _ _ _ _ _ Sc (VAR y) j). exact J. }
        rewrite (st_reg _ _ _ _ _ _ _ St3), (st_reg _ _ _ _ _ _ _ St2) in Dj. cbn in Dj. lia. }
    split.
    2:{ intros Fe. orai Fe pr Epr; [|discriminate]. unfold expand_def. apply (fell_incl (sls ++ ws)); [|exact Inc].
      apply (fell_then Eap); [apply (kept_incl s sls); [exact K1|apply incl_appl, incl_refl]|rewrite Hh1; apply spared_refl|].
      apply fell_bind, (fell_incl ws); [|apply incl_appr, incl_refl]. apply (fell_more (taken (uses_all kids) tb)); [exact (Run2 Fe)|]. intros z Z. destruct (uses_all kids); [destruct Z|exact Z]. }
    intros es0 Fe. oinv Fe pr Epr. injection Fe as <-. destruct pr as [es r']. cbn [fst].
    destruct (Run1 es r' Epr) as (ts & m2 & Et & Gtk & Dr & _ & K2).
    assert (Ca : calm_elems es) by exact (body_calm Q b lim known (map hyp_name hyps) bn (map fst hyps) bd Cb kids _ _ _ _ _ Hwf Hc Epr).
    destruct (expand_run P (expand_n P k) k known tag_of s (taken (uses_all kids) tb) (List.length (m_defs a)) hd (VDom (map root tb)) pos kw dom mm m1 m2 ts (p ++ w) p es sls ws
      Eap Hh1 K1 Et Gtk K2 Dr Ca Ip Ap) as (t & m3 & E9 & G9 & D9 & K9).
    exists t, m3, p. split; [|split; [|split; [exact D9|]]].
    + exact E9.
    + apply (took_incl _ _ _ _ _ G9). intros z Z. destruct (uses_all kids); [destruct Z|exact Z].
    + exact (kept_incl s _ _ _ _ K9 Inc).
Qed.

Lemma slot_below hyps sl hid own outer c a y : scope hyps sl hid own outer c a -> (exists n, y = TAG n /\ (tag_known known hyps n)) \/ (exists n, y = VAR n /\ In n vis) -> sl y < m_next a.
Proof.
  intros [S1 [S2 S2'] S3 S4 S5 S6 S7 S8 S9] [(n & -> & K)|(n & -> & K)].
  - destruct (S5 n K) as (i & G & <-). rewrite c_get_find in G by exact S1. apply find_In in G. exact (S2 _ _ G).
  - destruct (S6 n K) as (_ & i & G & <-). rewrite c_get_find in G by exact S1. apply find_In in G. exact (S2 _ _ G).
Qed.

(** A definition puts the hypertag in its slot. *)
Lemma def_run ex lp hyps sl hid c a mg n x f dn hd ab ads y r (m : mach W) p : scope hyps sl hid vis [] c a -> known n = None -> ~ In n (map hyp_name hyps) -> m_next a <= x ->
  nth_error (m_defs m) dn = Some hd -> live s m -> ind_of s m = p -> stays hyps sl m -> gets sl r m ->
  exists ms m', tr_item P ex lp s (NBlock (repeatc NL mg) MNone (BDef (Some (dn, x)) n ab ads y)) m = (Done (map root ms), m') /\
    took [] (m_heap m) (m_heap m') ms /\ draws p [EGap mg] (map erase ms) /\ live s m' /\ ind_of s m' = p /\ m_defs m' = m_defs m /\
    stays (((n, f), (HDef dn, local dn hd)) :: hyps) (sl_def sl n x) m' /\ gets (sl_def sl n x) r m' /\ others s [] m m'.
Proof.
  intros Sc Kn Hn Lx Hd L Ip St Gt. destruct (margin_run m mg p) as (ms & h & Em & Gm & Mg).
  destruct (BindFacts.assigned_set s x (VHyper (HDef dn)) (with_heap m h) L) as (m' & E & A). destruct (BindFacts.assigned_heap _ _ _ _ A) as [Hh _]. destruct A as (V & I & Dm & Len & Hx).
  assert (V' : forall z, slot_value m' s z = if Nat.eqb z x then Some (VHyper (HDef dn)) else slot_value m s z).
  { intros z. rewrite V. cbn [ExprSpec.last_of]. destruct (Nat.eqb z x); reflexivity. }
  assert (Md : m_defs m' = m_defs m) by (rewrite Hx; reflexivity).
  exists ms, m'. split; [|split; [|split; [|split; [|split; [|split; [exact Md|]]]]]].
  - cbn [tr_item]. rewrite (run_bind _ _ _ _ _ Em). unfold mbind at 1. cbn [tr_block]. rewrite (run_bind _ _ _ _ _ E). reflexivity.
  - rewrite Hh. apply took_grown. exact Gm.
  - rewrite <- (app_nil_r (map erase ms)). constructor; [constructor; exact Mg|constructor].
  - unfold live in *. rewrite Len. exact L.
  - unfold ind_of in *. rewrite I. exact Ip.
  - split; [|split; [|exact (set_others s x _ [] (with_heap m h) m' E)]].
    + destruct St as [T1 T2]. split.
      * intros z v K. rewrite sl_def_other by (intros ->; congruence). rewrite V'. pose proof (slot_below _ _ _ _ _ _ _ (TAG z) Sc (or_introl (ex_intro _ z (conj eq_refl (or_introl (ex_intro _ v K)))))) as B.
        destruct (Nat.eqb_spec (sl (TAG z)) x); [lia|]. exact (T1 z v K).
      * intros z g d h0 [[= <- <- <- <-]|J].
        -- rewrite sl_def_tag, V', Nat.eqb_refl. split; [reflexivity|]. split; [|intros []]. apply local_home. rewrite Md. exact Hd.
        -- assert (Kz : In z (map hyp_name hyps)) by (apply in_map_iff; exists ((z, g), (d, h0)); split; [reflexivity|exact J]).
           rewrite sl_def_other by (intros ->; contradiction). rewrite V'. pose proof (slot_below _ _ _ _ _ _ _ (TAG z) Sc (or_introl (ex_intro _ z (conj eq_refl (or_intror Kz))))) as B.
           destruct (Nat.eqb_spec (sl (TAG z)) x); [lia|]. destruct (T2 _ _ _ _ J) as (T3 & T4 & T5). split; [exact T3|]. split; [|exact T5].
           apply (others_home s [x] h0 m m'); [exact (set_others s x _ [x] (with_heap m h) m' E)| | |exact Md|exact T5|exact T4].
           ++ intros i [<-|[]] U. destruct (sc_low _ _ _ _ _ _ _ _ _ Sc) as [Lo _]. specialize (Lo x). assert (x < m_next a); [|lia]. apply Lo, in_or_app. right.
              apply in_flat_map. exists ((z, g), (d, h0)). split; [exact J|exact U].
           ++ intros i Ni. rewrite V'. destruct (Nat.eqb_spec i x) as [->|]; [destruct Ni; left; reflexivity|reflexivity].
    + intros z v J G. rewrite sl_def_var, V'. pose proof (slot_below _ _ _ _ _ _ _ (VAR z) Sc (or_intror (ex_intro _ z (conj eq_refl J)))) as B.
      destruct (Nat.eqb_spec (sl (VAR z)) x); [lia|]. exact (Gt z v J G).
Qed.

(** Definitions, one after another. *)
Lemma defs_fine ds : forall q dis hyps sl hid c a, Forall2 (raw_def b) ds dis -> wfd b known vis (map hyp_name hyps) ds ->
  scope hyps sl hid vis [] c a -> c_control c = 0 -> lim <= q -> (forall k, q <= k -> Forall (behaves k hyps sl hid) hyps) ->
  exists dis' c' a' hyps' sl' hid' nd, amap an_item dis c a = (Done (dis', c'), a') /\ scope hyps' sl' hid' vis [] c' a' /\ c_control c' = 0 /\
    map fst hyps' = fold_left (learn Q b lim vis) ds (map fst hyps) /\
    m_defs a' = m_defs a ++ nd /\ (forall k, List.length (defined ds) + q <= k -> Forall (behaves k hyps' sl' hid') hyps') /\
    m_next a <= m_next a' /\ (forall y i, In (y, i) (entries c') -> In (y, i) (entries c) \/ m_next a <= sl_id i) /\ (forall x, In x hid' -> In x hid \/ m_next a <= x) /\
    (forall h, In h hyps' -> In h hyps \/ ho_vals (snd (snd h)) = []) /\ (exists ext, entries c' = ext ++ entries c /\ incl (map TAG (defined ds)) (map fst ext)) /\
    forall ex lp r (m : mach W) p, (exists l, m_defs m = m_defs a' ++ l) -> live s m -> ind_of s m = p -> stays hyps sl m -> gets sl r m ->
      exists ts m', mconcat (tr_item P ex lp s) dis' m = (Done (map root ts), m') /\ took [] (m_heap m) (m_heap m') ts /\ draws p (gaps ds) (map erase ts) /\
        live s m' /\ ind_of s m' = p /\ m_defs m' = m_defs m /\ stays hyps' sl' m' /\ gets sl' r m' /\ others s [] m m'.
Proof.
  induction ds as [|d ds IH]; intros q dis hyps sl hid c a Hr Hw Sc Ct Lq BH; inversion Hr as [|? i ? dis0 Hd Hr0]; subst.
  - exists [], c, a, hyps, sl, hid, []. split; [reflexivity|]. split; [exact Sc|]. split; [exact Ct|]. split; [reflexivity|]. split; [rewrite app_nil_r; reflexivity|]. split; [exact BH|].
    split; [apply le_n|]. split; [auto|]. split; [auto|]. split; [auto|]. split; [exists []; split; [reflexivity|intros z []]|].
    intros ex lp r m p _ L Ip St Gt. exists [], m. split; [reflexivity|]. split; [apply took_grown, grown_nil|]. split; [constructor|]. pose proof (others_refl s [] m m eq_refl). auto 7.
  - inversion Hw as [|? mg hm nx tl ? Hx Hw0|? mg n bn ps w kids ? own body Hh Kn Hn Nb Hv Hg Hi Hk Hc Hu Hwf Hw0]; subst.
    { inversion Hd; subst. destruct (IH q dis0 hyps sl hid c a Hr0 Hw0 Sc Ct Lq BH) as (dis' & c' & a' & hyps' & sl' & hid' & nd & E2 & Sc' & Ct' & Mn & Md & BH' & Nx' & Lo' & Lh' & Us' & Xt & Run).
      exists (NBlock (repeatc NL mg) MNone BComment :: dis'), c', a', hyps', sl', hid', nd.
      split; [|split; [exact Sc'|split; [exact Ct'|split; [exact Mn|split; [exact Md|split; [exact BH'|split; [exact Nx'|split; [exact Lo'|split; [exact Lh'|split; [exact Us'|split; [exact Xt|]]]]]]]]]]].
      - cbn [amap]. rewrite (abind_done _ _ c a (NBlock (repeatc NL mg) MNone BComment) c a), (abind_done _ _ _ _ _ _ _ E2); [reflexivity|].
        cbn [an_item]. rewrite (abind_done _ _ c a tt c a); [reflexivity|]. unfold amod. cbn [prolog_block negb]. rewrite andb_false_r. reflexivity.
      - intros ex lp r m p Hl L Ip St Gt. destruct (margin_run m mg p) as (ms & h & Em & Gm & Mg).
        destruct (Run ex lp r (with_heap m h) p Hl L Ip St Gt) as (ts & m2 & T2 & G2 & D2 & L2 & I2 & M2 & St2 & Gt2 & O2).
        exists (ms ++ ts), m2. split; [|split; [|split; [|split; [exact L2|split; [exact I2|split; [exact M2|split; [exact St2|split; [exact Gt2|]]]]]]]].
        + cbn [mconcat]. rewrite (run_bind _ _ m (map root ms) (with_heap m h)), (run_bind _ _ _ _ _ T2), map_app; [reflexivity|].
          cbn [tr_item]. rewrite (run_bind _ _ _ _ _ Em). reflexivity.
        + rewrite <- (app_nil_l []). apply (took_app _ _ _ _ _ _ _ (proj2 (took_grown _ _ _) Gm) G2). intros j [].
        + rewrite map_app. apply (draws_app _ _ _ p [EGap mg] (gaps ds)); [|exact D2]. rewrite <- (app_nil_r (map erase ms)). constructor; [constructor; exact Mg|constructor].
        + exact (others_on s [] _ _ _ (others_refl s [] m (with_heap m h) eq_refl) O2). }
    assert (DF := fun k L B => def_fine mg n bn ps w kids i hyps sl hid c a k Hd Kn Hn Nb Hv Hg Hi Hk Hc Hu Hwf Sc Ct L B). cbv zeta in DF.
    destruct (DF q Lq (BH _ (le_n _))) as (x & hd & ab & ads & y & c1 & a1 & E1 & Md1 & Ct1 & Lx & Nx & So1 & En1 & Rg1 & _).
    assert (B1 : forall k, q <= k -> behaves (S k) (((n, mean Q b lim (map fst hyps) vis (Def mg n bn ps w kids)), (HDef (List.length (m_defs a)), local (List.length (m_defs a)) hd)) :: hyps) (sl_def sl n x) (hid ++ seq (m_next a) (x - m_next a))
      ((n, mean Q b lim (map fst hyps) vis (Def mg n bn ps w kids)), (HDef (List.length (m_defs a)), local (List.length (m_defs a)) hd))).
    { intros k Lk. destruct (DF k (Nat.le_trans _ _ _ Lq Lk) (BH _ Lk)) as (x' & hd' & ab' & ads' & y' & c1' & a1' & E1' & Md1' & _ & _ & _ & _ & _ & _ & B). rewrite E1 in E1'. injection E1' as <- <- <- <- <- <-.
      rewrite Md1 in Md1'. apply app_inj_tail in Md1'. destruct Md1' as [_ <-]. exact B. }
    clear DF. set (f := mean Q b lim (map fst hyps) vis (Def mg n bn ps w kids)) in *.
    pose proof (scope_def hyps sl hid c a n x f (List.length (m_defs a)) hd c1 a1 Sc So1 En1 Rg1 Lx Nx) as Sc1.
    set (h1 := ((n, f), (HDef (List.length (m_defs a)), local (List.length (m_defs a)) hd)) :: hyps) in *.
    assert (BH1 : forall k, S q <= k -> Forall (behaves k h1 (sl_def sl n x) (hid ++ seq (m_next a) (x - m_next a))) h1).
    { intros k Lk. destruct k as [|k]; [lia|]. constructor; [exact (B1 k (le_S_n _ _ Lk))|].
      eapply Forall_impl; [|exact (BH (S k) (Nat.lt_le_incl _ _ Lk))]. intros h Hb. apply behaves_def; assumption. }
    destruct (IH (S q) dis0 h1 _ _ c1 a1 Hr0 Hw0 Sc1 Ct1 (le_S _ _ Lq) BH1) as (dis' & c' & a' & hyps' & sl' & hid' & nd & E2 & Sc' & Ct' & Mn & Md & BH' & Nx' & Lo' & Lh' & Us' & (xt & Xt & Xi) & Run).
    eexists (_ :: dis'), c', a', hyps', sl', hid', (hd :: nd). split; [|split; [exact Sc'|split; [exact Ct'|split; [exact Mn|split; [|split; [|split; [lia|split; [|split; [|split; [|split; [|]]]]]]]]]]].
    + cbn [amap]. rewrite (abind_done _ _ _ _ _ _ _ E1), (abind_done _ _ _ _ _ _ _ E2). reflexivity.
    + rewrite Md, Md1, <- app_assoc. reflexivity.
    + intros k Lk. apply BH'. unfold defined in *. cbn [flat_map app List.length] in Lk. lia.
    + intros z j I. destruct (Lo' z j I) as [J|J]; [|right; lia]. rewrite En1 in J. destruct J as [[= <- <-]|J]; [right; cbn; lia|left; exact J].
    + intros z I. destruct (Lh' z I) as [J|J]; [|right; lia]. apply in_app_or in J. destruct J as [J|J]; [left; exact J|right]. apply in_seq in J. lia.
    + intros z I. apply Us' in I. destruct I as [[<-|I]|I]; [right; reflexivity|left; exact I|right; exact I].
    + rewrite En1 in Xt. exists (xt ++ [(TAG n, {| sl_id := x; sl_depth := c_regular c |})]). split; [rewrite <- app_assoc; exact Xt|]. rewrite map_app. intros z [<-|I].
      * apply in_or_app. right. left. reflexivity.
      * apply in_or_app. left. exact (Xi z I).
    + intros ex lp r m p [l Hl] L Ip St Gt.
      assert (Hnth : nth_error (m_defs m) (List.length (m_defs a)) = Some hd).
      { rewrite Hl, Md, Md1, <- !app_assoc, nth_error_app2, Nat.sub_diag by apply le_n. reflexivity. }
      destruct (def_run ex lp hyps sl hid c a mg n x f (List.length (m_defs a)) hd ab ads y r m p Sc Kn Hn Lx Hnth L Ip St Gt) as (ms & m1 & T1 & G1 & D1 & L1 & I1 & M1 & St1 & Gt1 & O1).
      destruct (Run ex lp r m1 p) as (ts & m2 & T2 & G2 & D2 & L2 & I2 & M2 & St2 & Gt2 & O2); [exists l; rewrite M1; exact Hl|exact L1|exact I1|exact St1|exact Gt1|].
      exists (ms ++ ts), m2. split; [|split; [|split; [|split; [exact L2|split; [exact I2|split; [congruence|split; [exact St2|split; [exact Gt2|exact (others_on s [] _ _ _ O1 O2)]]]]]]]].
      * cbn [mconcat]. rewrite (run_bind _ _ _ _ _ T1), (run_bind _ _ _ _ _ T2). rewrite map_app. reflexivity.
      * rewrite <- (app_nil_l []). apply (took_app _ _ _ _ _ _ _ G1 G2). intros j [].
      * rewrite map_app. exact (draws_app _ _ _ p [EGap mg] (gaps ds) _ _ D1 D2).
Qed.
End Def.
