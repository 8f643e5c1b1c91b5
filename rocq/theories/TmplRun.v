(** Proofs about templates: analysis and translation of their blocks. *)
From Coq Require Import List NArith ZArith Bool Lia Arith String.
From Verif Require Import PyStr PyStrFacts Html Indent IndentSpec PyDict Structs StructsSpec StructsFacts Value Dom DomSpec DomFacts Ast Machine Eval Translate Analyse
  MachineFacts RenderFacts ScopeSpec ScopeFacts PageSpec PageRender PageTree PageRun OperSpec TmplSpec TmplLines TmplRender TmplTree TmplParse TmplExpr TmplTag TmplScope.
Notation tree := DomSpec.tree.
Notation root := DomSpec.root.
Import ListNotations.
Local Open Scope list_scope.
Local Open Scope nat_scope.

Lemma chain_names known v g : forall gs : list etag, chain_known known v g -> map fst gs = map name_of g -> names_known known v gs.
Proof.
  induction g as [|[[n l] a] g IH]; intros gs H E; [destruct H|]. destruct gs as [|[n' x] gs]; [discriminate|]. cbn [map fst] in E. unfold name_of in E at 1. cbn [fst] in E. injection E as -> E.
  destruct g as [|[[n2 l2] a2] g]; (destruct gs as [|[n3 x3] gs]; try discriminate).
  - exact H.
  - destruct H as [H1 H2]. split; [exact H1|]. exact (IH _ H2 E).
Qed.
Lemma chain_each known v g : chain_known known v g -> forall t, In t g -> exists u, known (name_of t) = Some u.
Proof.
  induction g as [|[[n l] a] g IH]; intros H t I; [destruct I|]. destruct g as [|[[n2 l2] a2] g].
  - destruct H as (u & K & _). destruct I as [<-|[]]. exists u. exact K.
  - destruct H as [K H]. destruct I as [<-|I]; [exists false; exact K|exact (IH H t I)].
Qed.

(** ** Bodies of control blocks begin with contents *)
Section Calm.
  Variable Q : py.
  Variables (b : str) (lim : nat) (known : str -> option bool) (hy : list str) (bn : option str).
  Variable D : list (str * meaning).
  Variable bd : option (list elem).
  Hypothesis Cb : match bd with Some eb => calm_elems eb | None => True end.
  Notation wft := (wft b known hy bn).
  Notation wfts := (wfts b known hy bn).
  Notation inst := (inst Q b lim D bd).
  Lemma insts_calm kids : Forall (fun t => forall outer own r es r', wft outer own t -> gap t = 0 -> inst r t = Is (es, r') ->
      calm_elems es /\ (contents t = true -> exists e es', es = e :: es' /\ forall l, calm_elems (es ++ l))) kids ->
    forall outer own r es r', wfts outer own kids -> calm kids -> insts inst kids r = Is (es, r') -> calm_elems es.
  Proof.
    intros H. induction H as [|t kids Ht H IH]; intros outer own r es r' Hw Hc E; [injection E as <- <-; exact Logic.I|].
    inversion Hw; subst. destruct Hc as [Hg Hc]. cbn [insts] in E. oinv E p Ep. oinv E q Eq2. injection E as <- <-. destruct p as [es1 r1]. destruct q as [es2 r2]. cbn [fst snd] in *.
    destruct (Ht outer own r es1 r1 ltac:(assumption) Hg Ep) as [C1 C2]. destruct Hc as [Hc|Hc].
    - destruct (C2 Hc) as (e & es' & _ & C3). apply C3.
    - apply calm_app; [exact C1|]. eapply IH; eassumption.
  Qed.
  Lemma inst_calm t : forall outer own r es r', wft outer own t -> gap t = 0 -> inst r t = Is (es, r') ->
    calm_elems es /\ (contents t = true -> exists e es', es = e :: es' /\ forall l, calm_elems (es ++ l)).
  Proof.
    induction t as [m k x|m h x tl|m g c|m g w kids IH|m cs els IHc IHe|m xs e w kids IH|m e w kids els IH IHe|m alts IHa|m xs e|m x o e|m h c|m h w kids IH|m n] using tmpl_ind'; intros outer own r es r' Hw Hg E; cbn [gap] in Hg; subst m; cbn [TmplSpec.inst] in E.
    - oinv E y Ey. injection E as <- <-. split; [reflexivity|]. intros _. eexists _, _. split; reflexivity.
    - injection E as <- <-. split; [split; reflexivity|discriminate].
    - oinv E y Ey. oinv E z Ez. injection E as <- <-. split; [reflexivity|]. intros _. eexists _, _. split; reflexivity.
    - oinv E y Ey. oinv E z Ez. injection E as <- <-. split; [reflexivity|]. intros _. eexists _, _. split; reflexivity.
    - oinv E p Ep. injection E as <- <-. split; [|discriminate]. split; [reflexivity|]. inversion Hw as [| | | |? ? ? Hne Hcs Hb He| | | | | | | |]; subst. destruct p as [es r1]. cbn [fst].
      clear Hne Hw. revert Ep Hb IHc Hcs. induction cs as [|[e [w kids]] cs IHs]; intros Ep Hb IHc Hcs.
      + destruct els as [[w kids]|]; [|injection Ep as <- <-; exact Logic.I]. inversion He; subst. eapply insts_calm; try eassumption.
      + oinv Ep v Ev. oinv Ep t Et. inversion Hb; subst. inversion IHc as [|? ? I1 I2]; subst. inversion Hcs; subst.
        destruct t; [eapply insts_calm; try eassumption|]. apply IHs; assumption.
    - oinv E v Ev. oinv E l El. oinv E p Ep. injection E as <- <-. split; [|discriminate]. split; [reflexivity|]. inversion Hw; subst.
      assert (G : forall l p0 p, calm_elems (fst p0) -> ofold (fun p v => r1 <: unpack Q xs v (snd p) ;; q <: insts inst kids r1 ;; Is (fst p ++ fst q, keep r (snd q))) l p0 = Is p -> calm_elems (fst p)).
      { clear Ep El l p. induction l as [|x l IHl]; intros p0 p C Ep; cbn [ofold] in Ep; [injection Ep as <-; exact C|]. oinv Ep p1 E1. oinv E1 r1 Er1. oinv E1 q Eq2. injection E1 as <-.
        apply (IHl _ _) in Ep; [exact Ep|]. cbn [fst]. apply calm_app; [exact C|]. destruct q as [es2 r2]. eapply insts_calm; eassumption. }
      exact (G l ([], r) p Logic.I Ep).
    - oinv E p Ep. assert (Ca : calm_elems (fst (snd p))).
      { refine (oloop_keeps (fun p => calm_elems (fst (snd p))) _ _ _ _ _ _ _ Ep); [|exact Logic.I].
        intros p0 p1 C0 E1. oinv E1 q Eq2. injection E1 as <-. cbn [fst snd].
        apply calm_app; [exact C0|]. destruct q as [es2 r2]. inversion Hw; subst. eapply insts_calm; eassumption. }
      destruct p as [[] [es0 r0]]; cbn [fst snd] in *; [injection E as <- <-; split; [split; [reflexivity|exact Ca]|discriminate]|].
      destruct els as [[w1 kids1]|]; [|injection E as <- <-; split; [split; [reflexivity|exact Ca]|discriminate]].
      oinv E q Eq2. injection E as <- <-. split; [|discriminate]. split; [reflexivity|]. destruct q as [es2 r2]. inversion Hw; subst. match goal with K : wfb _ _ _ _ _ _ _ |- _ => inversion K; subst end.
      eapply insts_calm; try eassumption.
    - oinv E ea Ea. injection E as <- <-. split; [|discriminate]. split; [reflexivity|]. inversion Hw as [| | | | | | |? ? Hne Hb| | | | |]; subst. clear Hne Hw. revert ea Ea Hb IHa. induction alts as [|[w kids] alts IHs]; intros ea Ea Hb IHa; [injection Ea as <-; exact Logic.I|].
      inversion Hb; subst. inversion IHa as [|? ? I1 I2]; subst. destruct (insts inst kids r) as [[e1 r1]| |] eqn:E1; [|apply IHs; assumption|discriminate].
      injection Ea as <-. cbn [fst]. eapply insts_calm; eassumption.
    - oinv E v Ev. oinv E r1 Er. injection E as <- <-. split; [split; reflexivity|discriminate].
    - oinv E v Ev. oinv E y Ey. oinv E w Ew. injection E as <- <-. split; [split; reflexivity|discriminate].
    - oinv E v Ev. oinv E f Ef. oinv E y Ey. oinv E z Ez. injection E as <- <-. split; [reflexivity|]. intros _. eexists _, _. split; reflexivity.
    - oinv E v Ev. oinv E f Ef. oinv E y Ey. oinv E z Ez. injection E as <- <-. split; [reflexivity|]. intros _. eexists _, _. split; reflexivity.
    - oinv E y Ey. apply given_is in Ey. injection E as <- <-. split; [|discriminate]. rewrite Ey in Cb. split; [reflexivity|exact Cb].
  Qed.
  Lemma body_calm kids outer own r es r' : wfts outer own kids -> calm kids -> insts inst kids r = Is (es, r') -> calm_elems es.
  Proof. apply insts_calm. apply Forall_forall. intros t _. apply inst_calm. Qed.
End Calm.

Section Run.
Context {W : Type}.
Variables (P : prims W) (Q : py).
Hypothesis AG : agrees P Q.
Hypothesis escaping : p_escape P = Some html_escape.
Variable ex : hyper -> val -> list val -> list (str * val) -> nat -> M W (list nid).
Variables loops lim : nat.
Hypothesis Hlim : lim <= loops.
Variable known : str -> option bool.
Variable tag_of : str -> tag.
Variable s : nat.
Variable b : str.
Variable import_module : str -> M W module.
Variable context : list (str * val).
Variable vis : list str.
Variable hyps : list hyp.
Variable sl : str -> slot.
Variable hid : list slot.
(** The name of the body, inside of a definition. *)
Variable bn : option str.
Notation hy := (map hyp_name hyps).
Notation inst := (inst Q b lim (map fst hyps)).
Notation raw := (raw b).
Notation raw_body := (raw_body b).
Notation raw_els := (raw_els b).
Notation wft := (wft b known hy bn).
Notation wfts := (wfts b known hy bn).
Notation eval := (eval P ex s).
Notation sees := (sees (W := W) s).
Notation tags_hold := (tags_hold (W := W) known tag_of s).
Notation step := (step (W := W)).
Notation scope := (scope (W := W) known vis hyps sl hid).
Notation writes_ok := (writes_ok (W := W) hid).
Notation stays := (stays (W := W) known tag_of s hyps sl).
Notation gets := (gets (W := W) s vis sl).
Notation kept := (kept (W := W) s).
Notation fell := (fell (W := W) s).
Notation ready := (ready (W := W) known tag_of s hyps sl).
Notation chained := (chained (p_ren P) tag_of).
Notation tag_node := (tag_node (p_ren P) tag_of).
Notation draws := (draws known (p_ren P) tag_of).
Notation drawn := (drawn known (p_ren P) tag_of).
Notation an_block := (an_block import_module context).
Notation an_body := (an_body import_module context).
Notation an_item := (an_item import_module context).
Notation tr_block := (tr_block P ex loops s).
Notation tr_body := (tr_body P ex loops s).
Notation tr_item := (tr_item P ex loops s).
Notation elems := (list elem).

Definition nodes_of (o : option (list nid)) (ts : list tree) : Prop := match o with Some l => l = map root ts | None => ts = [] end.

(** The body of a hypertag: elements [bd] and trees [tb]; [u]: how often it is put in place. *)
Definition taken (u : nat) (tb : list tree) : list nid := match u with 0 => [] | S _ => all_ids tb end.
Definition calm_body (bd : option elems) : Prop := match bd with Some eb => calm_elems eb | None => True end.
Definition pending (outer : list str) (c : ctx) (bd : option elems) (tb : list tree) (m : mach W) : Prop :=
  exists n eb q, bn = Some n /\ bd = Some eb /\ In n outer /\ sees c [(n, VDom (map root tb))] m /\
    Forall (repr (m_heap m)) tb /\ NoDup (all_ids tb) /\ draws q eb (outlined (map erase tb)).
Definition supplied (outer : list str) (u : nat) (c : ctx) (bd : option elems) (tb : list tree) (m : mach W) : Prop :=
  calm_body bd /\ (0 < u -> pending outer c bd tb m).

Lemma took_nil h : took [] h h [].
Proof. apply took_grown, grown_nil. Qed.
Lemma supplied_le outer u u' c bd tb m : supplied outer u' c bd tb m -> u <= u' -> supplied outer u c bd tb m.
Proof. intros [H1 H2] L. split; [exact H1|]. intros P0. apply H2. lia. Qed.
Lemma taken_le u u' tb : u <= u' -> incl (taken u tb) (taken u' tb).
Proof. intros L i I. destruct u; [destruct I|]. destruct u'; [lia|exact I]. Qed.
Lemma supplied_lt outer u c bd tb m i : supplied outer u c bd tb m -> In i (taken u tb) -> i < List.length (m_heap m).
Proof. intros [_ H] I. destruct u; [destruct I|]. destruct (H ltac:(lia)) as (n & eb & q & _ & _ & _ & _ & R & _). exact (reprs_lt _ _ R i I). Qed.
Lemma pending_heap outer c bd tb m m' ts : pending outer c bd tb m -> took [] (m_heap m) (m_heap m') ts ->
  (forall n, In n outer -> forall v, sees c [(n, v)] m -> sees c [(n, v)] m') -> pending outer c bd tb m'.
Proof.
  intros (n & eb & q & H1 & H2 & H3 & H4 & H5 & H6 & H7) (_ & O & _) S. exists n, eb, q. repeat split; auto.
  apply repr_frames with (m_heap m); [exact H5|]. intros i I. apply O; [exact (reprs_lt _ _ H5 i I)|intros []].
Qed.
Lemma supplied_next outer u c bd tb m m' ts : supplied outer u c bd tb m -> took [] (m_heap m) (m_heap m') ts -> (forall x, slot_value m' s x = slot_value m s x) ->
  supplied outer u c bd tb m'.
Proof.
  intros [H1 H2] T V. split; [exact H1|]. intros L. apply (pending_heap _ _ _ _ _ _ _ (H2 L) T). intros n _ v S k w G.
  destruct (S k w G) as (x & E & Vx). exists x. split; [exact E|]. rewrite V. exact Vx.
Qed.
Lemma supplied_kept own outer u c a a' ws bd tb m m' ts : scope own outer c a -> writes_ok outer c a a' ws -> kept ws m m' ->
  supplied outer u c bd tb m -> took [] (m_heap m) (m_heap m') ts -> supplied outer u c bd tb m'.
Proof.
  intros Sc Ww K [H1 H2] T. split; [exact H1|]. intros L. apply (pending_heap _ _ _ _ _ _ _ (H2 L) T). intros n I v S.
  apply (kept_sees Sc Ww K); [|exact S]. intros k [<-|[]]. exact I.
Qed.
Lemma supplied_step own outer u c a c' a' ext bd tb m : sound c -> step c a c' a' ext [] [] -> fresh_names ext (own ++ outer) ->
  supplied outer u c bd tb m <-> supplied outer u c' bd tb m.
Proof.
  intros Sc St Fr. assert (X : forall n v, In n outer -> sees c [(n, v)] m <-> sees c' [(n, v)] m).
  { intros n v I. apply (sees_step s _ _ _ _ _ _ _ (own ++ outer) _ _ Sc St Fr). intros k [<-|[]]. apply in_or_app. right. exact I. }
  split; intros [H1 H2]; (split; [exact H1|]); intros L; destruct (H2 L) as (n & eb & q & K1 & K2 & K3 & K4 & K5); exists n, eb, q; (split; [exact K1|split; [exact K2|split; [exact K3|split; [|exact K5]]]]);
    apply (X _ _ K3); exact K4.
Qed.
Lemma supplied_same outer u c c' bd tb m : c_md c' = c_md c -> supplied outer u c bd tb m -> supplied outer u c' bd tb m.
Proof.
  intros M [H1 H2]. split; [exact H1|]. intros L; destruct (H2 L) as (n & eb & q & K1 & K2 & K3 & K4 & K5); exists n, eb, q. split; [exact K1|split; [exact K2|split; [exact K3|split; [|exact K5]]]].
  exact (sees_same s c c' _ _ M K4).
Qed.
Lemma supplied_inner own outer u c bd tb m : supplied outer u c bd tb m -> supplied (own ++ outer) u (enter_regular c) bd tb m.
Proof.
  intros [H1 H2]. split; [exact H1|]. intros L; destruct (H2 L) as (n & eb & q & K1 & K2 & K3 & K4); exists n, eb, q. split; [exact K1|split; [exact K2|split; [|exact K4]]].
  apply in_or_app. right. exact K3.
Qed.
Lemma supplied_none outer c bd tb m : calm_body bd -> supplied outer 0 c bd tb m.
Proof. intros H. split; [exact H|]. clear; lia. Qed.

(** A block: names [own] become [own'], the instance is given by [F], [g] blank lines in front. *)
Notation inst_fun := (option elems -> store -> ans (elems * store)).
Definition block_fine (own own' outer : list str) (u : nat) (x : block) (F : inst_fun) (g : nat) : Prop :=
  forall c a, scope own outer c a -> exists x' c' a' ext ws,
    an_block x c a = (Done (x', c'), a') /\ step c a c' a' ext [] [] /\ fresh_names ext (own ++ outer) /\ scope own' outer c' a' /\ writes_ok outer c a a' ws /\
    forall bd tb r m p, ready c r m -> ind_of s m = p -> absolute p = true -> incl (map fst r) (own ++ outer) -> supplied outer u c bd tb m ->
      (forall es r', F bd r = Is (es, r') -> exists ts m' o, tr_block x' m = (Done o, m') /\ nodes_of o ts /\ took (taken u tb) (m_heap m) (m_heap m') ts /\
        (forall mg, mgn p g mg -> draws p es (mg ++ outlined (map erase ts))) /\ sees c' r' m' /\ kept ws m m' /\ incl (map fst r') (own' ++ outer)) /\
      (F bd r = Raises -> fell (taken u tb) ws m (tr_block x' m)).
(** An item. *)
Definition item_fine (own own' outer : list str) (u : nat) (x : item) (F : inst_fun) : Prop :=
  forall c a, scope own outer c a -> exists x' c' a' ext ws,
    an_item x c a = (Done (x', c'), a') /\ step c a c' a' ext [] [] /\ fresh_names ext (own ++ outer) /\ scope own' outer c' a' /\ writes_ok outer c a a' ws /\
    forall bd tb r m p, ready c r m -> ind_of s m = p -> absolute p = true -> incl (map fst r) (own ++ outer) -> supplied outer u c bd tb m ->
      (forall es r', F bd r = Is (es, r') -> exists ts m', tr_item x' m = (Done (map root ts), m') /\ took (taken u tb) (m_heap m) (m_heap m') ts /\
        draws p es (map erase ts) /\ sees c' r' m' /\ kept ws m m' /\ incl (map fst r') (own' ++ outer)) /\
      (F bd r = Raises -> fell (taken u tb) ws m (tr_item x' m)).
Definition items_fine (own own' outer : list str) (u : nat) (l : list item) (F : inst_fun) : Prop :=
  forall c a, scope own outer c a -> exists l' c' a' ext ws,
    amap an_item l c a = (Done (l', c'), a') /\ step c a c' a' ext [] [] /\ fresh_names ext (own ++ outer) /\ scope own' outer c' a' /\ writes_ok outer c a a' ws /\
    forall bd tb r m p, ready c r m -> ind_of s m = p -> absolute p = true -> incl (map fst r) (own ++ outer) -> supplied outer u c bd tb m ->
      (forall es r', F bd r = Is (es, r') -> exists ts m', mconcat tr_item l' m = (Done (map root ts), m') /\ took (taken u tb) (m_heap m) (m_heap m') ts /\
        draws p es (map erase ts) /\ sees c' r' m' /\ kept ws m m' /\ incl (map fst r') (own' ++ outer)) /\
      (F bd r = Raises -> fell (taken u tb) ws m (mconcat tr_item l' m)).
(** A block with indentation [w]. *)
Definition body_fine (own outer : list str) (u : nat) (y : body) (F : inst_fun) (w : str) : Prop :=
  forall c a, scope own outer c a -> exists y' c' a' ext ws,
    an_body y c a = (Done (y', c'), a') /\ step c a c' a' ext [] [] /\ fresh_names ext (own ++ outer) /\ writes_ok outer c a a' ws /\
    forall bd tb r m p, ready c r m -> ind_of s m = p -> absolute p = true -> incl (map fst r) (own ++ outer) -> supplied outer u c bd tb m ->
      (forall es r', F bd r = Is (es, r') -> exists ts m', tr_body y' m = (Done (map root ts), m') /\ took (taken u tb) (m_heap m) (m_heap m') ts /\
        draws (p ++ w) es (map erase ts) /\ sees c' r' m' /\ kept ws m m') /\
      (F bd r = Raises -> fell (taken u tb) ws m (tr_body y' m)).
Lemma block_ext own own' outer u x (F G : inst_fun) g : block_fine own own' outer u x F g -> (forall bd r, F bd r = G bd r) -> block_fine own own' outer u x G g.
Proof.
  intros H E c a Sc. destruct (H c a Sc) as (x' & c' & a' & ext & ws & E1 & St & Fr & S' & Ww & Run). exists x', c', a', ext, ws.
  split; [exact E1|split; [exact St|split; [exact Fr|split; [exact S'|split; [exact Ww|]]]]]. intros bd tb r m p Rd Ip Ap D Su. rewrite <- (E bd r). exact (Run bd tb r m p Rd Ip Ap D Su).
Qed.
Lemma body_le own outer u u' y F w : body_fine own outer u y F w -> u <= u' -> body_fine own outer u' y F w.
Proof.
  intros H L c a Sc. destruct (H c a Sc) as (y' & c' & a' & ext & ws & E1 & St & Fr & Ww & Run). exists y', c', a', ext, ws.
  split; [exact E1|split; [exact St|split; [exact Fr|split; [exact Ww|]]]]. intros bd tb r m p Rd Ip Ap D Su.
  destruct (Run bd tb r m p Rd Ip Ap D (supplied_le _ _ _ _ _ _ _ Su L)) as [Run1 Run2]. split; [intros es r' Fe|intros Fe; exact (fell_more _ (Run2 Fe) (taken_le _ _ tb L))]. destruct (Run1 es r' Fe) as (ts & m' & E & T & R). exists ts, m'. split; [exact E|]. split; [|exact R].
  exact (took_incl _ _ _ _ _ T (taken_le _ _ tb L)).
Qed.

Lemma erase_outline t ts : map erase (outline_tree true t :: ts) = outlined (map erase (t :: ts)).
Proof. destruct t; reflexivity. Qed.
Lemma root_outline o t : root (outline_tree o t) = root t.
Proof. destruct t; reflexivity. Qed.

Lemma margin_run (m : mach W) k p : exists ms h, tr_static (repeatc NL k) m = (Done (map root ms), with_heap m h) /\ grown (m_heap m) h ms /\ mgn p k (map erase ms).
Proof.
  destruct (builds_margin (W := W) m k) as (ms & h & E & G & S). exists ms, h. split; [exact E|]. split; [exact G|]. rewrite S. destruct k; [reflexivity|].
  exists None. split; [left; reflexivity|reflexivity].
Qed.

Lemma block_item own own' outer u g x F : block_fine own own' outer u x F g -> item_fine own own' outer u (NBlock (repeatc NL g) MNone x) F.
Proof.
  intros H c a S. cbn [Analyse.an_item].
  set (c0 := if c_prolog c && negb (prolog_block x) then end_prolog c else c).
  assert (M0 : c_md c0 = c_md c /\ c_regular c0 = c_regular c /\ c_control c0 = c_control c /\ c_hyper c0 = c_hyper c /\ (c_prolog c0 = true -> c_prolog c = true)).
  { unfold c0. destruct (c_prolog c && negb (prolog_block x)); repeat split; auto. discriminate. }
  destruct M0 as (M0 & R0 & C0 & H0 & P0).
  destruct (H c0 a (scope_same c0 S M0 R0)) as (x' & c' & a' & ext & ws & E & St & Fr & S' & Ww & Run).
  exists (NBlock (repeatc NL g) MNone x'), c', a', ext, ws. split; [|split; [|split; [exact Fr|split; [exact S'|split]]]].
  - rewrite (abind_done _ _ c a tt c0 a eq_refl). rewrite (abind_done _ _ _ _ _ _ _ E). reflexivity.
  - exact (step_same_l _ _ _ _ _ _ _ St M0 R0 C0 H0 P0).
  - exact (writes_same _ _ _ _ _ _ _ (eq_sym M0) (eq_sym R0) Ww).
  - intros bd tb r m p Rd Ip Ap D Su. destruct (margin_run m g p) as (ms & h & Em & Gm & Mg).
    assert (Rd0 : ready c0 r (with_heap m h)). { apply (ready_same c c0 M0). exact Rd. }
    apply took_grown in Gm. pose proof (fun i => supplied_lt outer u c bd tb m i Su) as Lt.
    assert (Su0 : supplied outer u c0 bd tb (with_heap m h)). { apply (supplied_same _ _ c c0 _ _ _ M0). apply (supplied_next _ _ _ _ _ m (with_heap m h) ms Su Gm). reflexivity. }
    destruct (Run bd tb r (with_heap m h) p Rd0 Ip Ap D Su0) as [Run1 Run2]. split.
    2:{ intros Fe. cbn [Translate.tr_item]. apply (fell_then Em).
      - apply (kept_incl s []); [apply kept_heap, (proj1 Rd)|intros z []].
      - apply (spared_incl []); [exact (took_spared _ _ _ _ Gm)|intros z []].
      - apply fell_bind, Run2, Fe. }
    intros es r' Fe. destruct (Run1 es r' Fe) as (ts & m' & o & Et & No & G & Dr & Se & K & D').
    assert (K0 : kept ws m m') by exact (kept_trans (w1 := []) (kept_heap s m h (proj1 Rd)) K).
    cbn [m_heap with_heap] in G. specialize (Dr _ Mg).
    assert (Dj : forall i, In i (taken u tb) -> i < List.length (m_heap m) /\ ~ In i []) by (intros i I; split; [exact (Lt i I)|intros []]).
    destruct ts as [|t ts].
    + exists ms, m'. split; [|split; [|split; [|auto]]].
      * cbn [Translate.tr_item]. rewrite (run_bind _ _ _ _ _ Em), (run_bind _ _ _ _ _ Et). destruct o as [l|]; [cbn in No; subst l|]; reflexivity.
      * pose proof (took_app _ _ _ _ _ _ _ Gm G Dj) as GG. rewrite app_nil_r in GG. exact GG.
      * cbn [map outlined] in Dr. rewrite app_nil_r in Dr. exact Dr.
    + destruct o as [l|]; [|discriminate]. cbn [nodes_of map] in No. subst l. cbn [m_heap with_heap] in G.
      exists (ms ++ outline_tree true t :: ts), (with_heap m' (set_outline (m_heap m') (root t) true)). split; [|split; [|split; [|split; [|split; [|exact D']]]]].
      * cbn [Translate.tr_item]. rewrite (run_bind _ _ _ _ _ Em), (run_bind _ _ _ _ _ Et). cbn iota. unfold do_outline, lift_h, mbind, ret. cbn [m_heap with_heap].
        rewrite map_app. cbn [map]. rewrite root_outline. reflexivity.
      * cbn [m_heap with_heap]. apply (took_app _ _ _ _ _ _ _ Gm (took_outline _ true _ _ _ _ G) Dj).
      * rewrite map_app, erase_outline. exact Dr.
      * exact Se.
      * destruct K0 as (L & I & K0). split; [exact L|]. split; [exact I|exact K0].
Qed.

Lemma items_nil own outer : items_fine own own outer 0 [] (fun _ r => Is ([], r)).
Proof.
  intros c a S. exists [], c, a, [], []. split; [reflexivity|]. split; [apply step_refl, (sc_sound S)|]. split; [apply fresh_nil|]. split; [exact S|]. split; [apply writes_nil|].
  intros bd tb r m p Rd Ip Ap D Su. split; [intros es r' [= <- <-]|discriminate]. exists [], m. split; [reflexivity|]. split; [apply took_grown, grown_nil|]. split; [constructor|]. split; [exact (proj1 (proj2 Rd))|].
  split; [apply kept_refl, (proj1 Rd)|exact D].
Qed.
Lemma items_cons own own1 own2 outer u1 u2 x l F G : incl own own1 -> u1 + u2 <= 1 -> item_fine own own1 outer u1 x F -> items_fine own1 own2 outer u2 l G ->
  items_fine own own2 outer (u1 + u2) (x :: l) (fun bd r => p <: F bd r ;; q <: G bd (snd p) ;; Is (fst p ++ fst q, snd q)).
Proof.
  intros Ho Hu Hx Hl c a S. destruct (Hx c a S) as (x' & c1 & a1 & e1 & w1 & E1 & St1 & F1 & S1 & W1 & R1).
  destruct (Hl c1 a1 S1) as (l' & c2 & a2 & e2 & w2 & E2 & St2 & F2 & S2 & W2 & R2).
  exists (x' :: l'), c2, a2, (e2 ++ e1), (w1 ++ w2). split; [cbn [amap]; rewrite (abind_done _ _ _ _ _ _ _ E1), (abind_done _ _ _ _ _ _ _ E2); reflexivity|].
  split; [exact (step_trans _ _ _ _ _ _ _ _ _ _ _ _ St1 St2)|]. split; [|split; [exact S2|split]].
  - apply fresh_app; [|exact F1]. apply (fresh_incl _ _ _ F2). intros n I. apply in_app_or in I. apply in_or_app. destruct I as [I|I]; [left; exact (Ho n I)|right; exact I].
  - exact (writes_trans _ outer _ _ _ _ _ _ _ _ _ _ St1 (st_next _ _ _ _ _ _ _ St2) W1 W2).
  - intros bd tb r m p Rd Ip Ap D Su. destruct (R1 bd tb r m p Rd Ip Ap D (supplied_le _ _ _ _ _ _ _ Su (Nat.le_add_r u1 u2))) as [R1a R1b].
    cbn beta. destruct (F bd r) as [[es1 r1]| |] eqn:Q1; cbn [oseq fst snd]; [|split; [discriminate|intros _; cbn [mconcat]; apply fell_bind, (fell_incl w1); [|apply incl_appl, incl_refl]; exact (fell_more _ (R1b eq_refl) (taken_le _ _ tb (Nat.le_add_r u1 u2)))]|split; discriminate].
    destruct (R1a es1 r1 eq_refl) as (t1 & m1 & T1 & G1 & D1 & Se1 & K1 & I1).
    assert (Rd1 : ready c1 r1 m1).
    { split; [exact (proj1 K1)|]. split; [exact Se1|]. exact (kept_stays S W1 K1 (proj2 (proj2 Rd))). }
    assert (Ip1 : ind_of s m1 = p) by (destruct K1 as (_ & I & _); congruence).
    assert (Su1 : supplied outer u2 c1 bd tb m1).
    { destruct u2 as [|u2]; [apply supplied_none, (proj1 Su)|]. assert (u1 = 0) by lia. subst u1. apply (supplied_step _ _ _ _ _ _ _ _ _ _ _ (sc_sound S) St1 F1).
      exact (supplied_kept _ _ _ _ _ _ _ _ _ _ _ _ S W1 K1 Su G1). }
    destruct (R2 bd tb r1 m1 p Rd1 Ip1 Ap I1 Su1) as [R2a R2b]. split.
    2:{ intros Fe. orai Fe q2 Q2; [|discriminate]. cbn [mconcat]. apply (fell_then T1).
      - apply (kept_incl s w1); [exact K1|apply incl_appl, incl_refl].
      - apply (spared_incl (taken u1 tb)); [exact (took_spared _ _ _ _ G1)|apply taken_le; lia].
      - apply fell_bind, (fell_incl w2); [|apply incl_appr, incl_refl]. apply (fell_more (taken u2 tb)); [exact (R2b Fe)|apply taken_le; lia]. }
    intros es r' Fe. oinv Fe q2 Q2. injection Fe as <- <-. destruct q2 as [es2 r2]. cbn [fst snd] in *. destruct (R2a es2 r2 Q2) as (t2 & m2 & T2 & G2 & D2 & Se2 & K2 & I2).
    exists (t1 ++ t2), m2. split; [cbn [mconcat]; rewrite (run_bind _ _ _ _ _ T1), (run_bind _ _ _ _ _ T2), map_app; reflexivity|]. split.
    { apply (took_incl (taken u1 tb ++ taken u2 tb)).
      - apply (took_app _ _ _ _ _ _ _ G1 G2). intros i I. destruct u2 as [|u2]; [destruct I|]. assert (u1 = 0) by lia. subst u1. split; [exact (supplied_lt _ _ _ _ _ _ _ Su I)|intros []].
      - apply incl_app; apply taken_le; lia. }
    split; [rewrite map_app; apply draws_app; assumption|]. split; [exact Se2|]. split; [exact (kept_trans K1 K2)|exact I2].
Qed.

Lemma restoring_fell {B} A ws (x : M W B) m w : live s m -> fell A ws (with_ind s m w) (x m) -> fell A ws m (restoring s x m).
Proof.
  intros L (e & z & E & (Lz & Iz & Kz & Dz & Oz) & Sp). unfold restoring. rewrite E. exists e, (with_ind s z (ind_of s m)). split; [reflexivity|]. split; [|exact Sp].
  split; [apply with_ind_live, Lz|]. split; [apply ind_with, Lz|]. split; [|split; [exact Dz|]].
  - intros x0 Nx. rewrite slot_with_ind by exact Lz. rewrite Kz by exact Nx. apply slot_with_ind, L.
  - exact (others_on s ws _ _ _ (ind_others s ws w m) (others_on s ws _ _ _ Oz (ind_others s ws (ind_of s m) z))).
Qed.
Lemma concat_fell {B C} A ws (f : B -> M W (list C)) l1 l2 m m0 : fell A ws m0 (mconcat f l1 m) -> fell A ws m0 (mconcat f (l1 ++ l2) m).
Proof. intros (e & z & E & R). destruct (stuck_concat f l1 l2 m z (ex_intro _ e E)) as [e' E']. exists e', z. split; [exact E'|exact R]. Qed.
Lemma after_fell {B C} A ws (f : B -> M W (list C)) l1 l2 m a m1 m0 : mconcat f l1 m = (Done a, m1) -> fell A ws m0 (mconcat f l2 m1) -> fell A ws m0 (mconcat f (l1 ++ l2) m).
Proof. intros E1 (e & z & E & R). destruct (stuck_after f l1 z l2 m a m1 E1 (ex_intro _ e E)) as [e' E']. exists e', z. split; [exact E'|exact R]. Qed.

Lemma body_of own own' outer u l F w : items_fine own own' outer u l F -> body_fine own outer u (YItems (items w l)) F w.
Proof.
  intros H c a S. destruct (H c a S) as (l' & c' & a' & ext & ws & E & St & Fr & _ & Ww & Run).
  exists (YItems (items w l')), c', a', ext, ws. split; [|split; [exact St|split; [exact Fr|split; [exact Ww|]]]].
  - cbn [Analyse.an_body]. rewrite (abind_done _ _ _ _ (items w l') c' a'); [reflexivity|]. unfold items.
    apply amap_app_done with c a. { apply amap_marks, Forall_forall. intros z Z. apply in_map_iff in Z. destruct Z as (? & <- & _). exact Logic.I. }
    apply amap_app_done with c' a'; [exact E|]. apply amap_marks, Forall_forall. intros z Z. apply in_map_iff in Z. destruct Z as (? & <- & _). exact Logic.I.
  - intros bd tb r m p (L & Se & Th) Ip Ap D Su.
    set (m0 := with_ind s m (p ++ w)). assert (L0 : live s m0) by (apply with_ind_live, L).
    assert (V0 : forall x, slot_value m0 s x = slot_value m s x) by (intros x; apply slot_with_ind, L).
    assert (Rd0 : ready c r m0).
    { split; [exact L0|]. split.
      - intros n v G. destruct (Se n v G) as (x & Ex & Vx). exists x. split; [exact Ex|]. rewrite V0. exact Vx.
      - apply stays_ind; assumption. }
    assert (Su0 : supplied outer u c bd tb m0) by exact (supplied_next _ _ _ _ _ m m0 [] Su (proj2 (took_grown _ _ _) (grown_nil _)) V0).
    assert (Ap0 : absolute (p ++ w) = true) by (destruct p as [|ch p]; [discriminate|exact Ap]).
    assert (E1 := indents_run P ex loops s w m L). rewrite Ip in E1. fold m0 in E1.
    destruct (Run bd tb r m0 (p ++ w) Rd0 (ind_with s m (p ++ w) L) Ap0 D Su0) as [Run1 Run2]. split.
    2:{ intros Fe. change (tr_body (YItems ?l)) with (restoring s (mconcat tr_item l)). apply (restoring_fell _ _ _ _ (p ++ w) L). unfold items.
      apply (after_fell _ _ _ _ _ _ _ _ _ E1), concat_fell. exact (Run2 Fe). }
    intros es r' Fe. destruct (Run1 es r' Fe) as (ts & m1 & Et & G & Dr & Se1 & K1 & _).
    destruct K1 as (L1 & I1 & K1 & Kd & Ko). unfold m0 in I1; rewrite (ind_with s m (p ++ w) L) in I1.
    exists ts, (with_ind s m1 p). split; [|split; [exact G|split; [exact Dr|split]]].
    + change (tr_body (YItems ?l)) with (restoring s (mconcat tr_item l)). unfold restoring.
      assert (E3 := dedents_run P ex loops s (rev w) m1 p L1). rewrite rev_involutive in E3. specialize (E3 I1).
      assert (EA := mconcat_app_run _ _ _ _ _ _ _ _ E1 (mconcat_app_run _ _ _ _ _ _ _ _ Et E3)). cbn [app] in EA. rewrite app_nil_r in EA. unfold items.
      rewrite EA. f_equal. change (with_ind s (with_ind s m1 p) (ind_of s m) = with_ind s m1 p). rewrite with_ind_twice by exact L1. rewrite Ip. reflexivity.
    + intros n v Gn. destruct (Se1 n v Gn) as (x & Ex & Vx). exists x. split; [exact Ex|]. rewrite slot_with_ind by exact L1. exact Vx.
    + split; [apply with_ind_live, L1|]. split; [rewrite ind_with by exact L1; symmetry; exact Ip|]. split; [|split; [exact Kd|]].
      * intros x Nx. rewrite slot_with_ind by exact L1. rewrite K1 by exact Nx. apply V0.
      * exact (others_on s ws m m0 _ (ind_others s ws (p ++ w) m) (others_on s ws _ _ _ Ko (ind_others s ws p m1))).
Qed.

(** ** Blocks *)
Lemma text_fine own outer k x lead ls g : 0 < lead -> para_ok b (own ++ outer) k x -> raw_para k x ls ->
  block_fine own own outer 0 (BText lead ls) (fun _ r => t <: inst_text Q r k lead x ;; Is ([EText g t], r)) g.
Proof.
  intros Hl Hx Hr c a Sx. destruct (text_goes P Q AG escaping ex s b c (own ++ outer) (scope_resolved Sx) k x ls Hx Hr) as (ls' & E & Run).
  exists (BText lead ls'), c, a, [], []. split; [|split; [apply step_refl, (sc_sound Sx)|split; [apply fresh_nil|split; [exact Sx|split; [apply writes_nil|]]]]].
  - cbn [Analyse.an_block]. unfold abind, mbind, aread, mbind. rewrite E. reflexivity.
  - intros bd tb r m p (L & Se & Th) Ip Ap D Su. destruct (Run lead m r Hl L Se) as [Run1 Run2]. split.
    2:{ intros Fe. orai Fe t Et; [|discriminate]. cbn [Translate.tr_block]. apply fell_bind, fell_bind, (fell_stuck L), Run2, Fe. }
    intros es r' Fe. cbn beta in Fe. oinv Fe t Et. injection Fe as <- <-. pose proof (Run1 t Et) as E1.
    set (f := with_indent (text_info t) (Some p)). exists [T (List.length (m_heap m)) f []], (with_heap m (m_heap m ++ [{| c_info := f; c_body := [] |}])), (Some [List.length (m_heap m)]).
    split; [|split; [reflexivity|split; [exact (took_node _ (m_heap m) (m_heap m) [] f (took_nil _))|split; [|split; [exact Se|split; [apply kept_heap, L|exact D]]]]]].
    + cbn [Translate.tr_block]. rewrite (run_bind _ _ m [List.length (m_heap m)] (with_heap m (m_heap m ++ [{| c_info := f; c_body := [] |}]))); [reflexivity|].
      rewrite (run_bind _ _ _ _ _ E1). unfold mbind, get_ind. change (s_indent (state_at m s)) with (ind_of s m). rewrite Ip. unfold do_text, lift_h. rewrite new_text_eq. reflexivity.
    + intros mg Mg. cbn [map erase outlined]. rewrite <- (app_nil_r (mg ++ _)). constructor; [|constructor]. exact (drawn_text _ _ _ p g t mg Mg).
Qed.
Lemma note_fine own outer g : block_fine own own outer 0 BComment (fun _ r => Is ([EGap g], r)) g.
Proof.
  intros c a S. exists BComment, c, a, [], []. split; [reflexivity|]. split; [apply step_refl, (sc_sound S)|]. split; [apply fresh_nil|]. split; [exact S|]. split; [apply writes_nil|].
  intros bd tb r m p (L & Se & Th) Ip Ap D Su. split; [|discriminate]. intros es r' [= <- <-]. exists [], m, (Some []). split; [reflexivity|]. split; [reflexivity|]. split; [apply (took_incl []); [apply took_nil|intros i []]|].
  split; [|split; [exact Se|split; [apply kept_refl, L|exact D]]]. intros mg Mg. cbn [map outlined]. constructor; [|constructor]. constructor. exact Mg.
Qed.
Lemma set_block_fine own outer xs e g : expr_ok b (own ++ outer) e -> targets_ok outer xs ->
  block_fine own (xs ++ own) outer 0 (BAssign (target_of xs) None (OperSpec.root (OperSpec.tree e))) (fun _ r => v <: den Q r e ;; r <: unpack Q xs v r ;; Is ([EGap g], r)) g.
Proof.
  intros He [_ Hx] c a S. destruct (ok_goes P Q AG ex s b c (own ++ outer) e He (scope_resolved S)) as [t G]. apply (goes_root P Q AG) in G. destruct G as [E M].
  destruct (targets_fine known tag_of vis hyps sl hid xs own outer c a (fun x I => proj2 (Hx x I)) S) as (is & c1 & a1 & ext & Et & St & Fr & S1 & Ww & Hs).
  exists (BAssign (TTargets (links xs is)) None (OperSpec.root t)), c1, a1, ext, is. split; [|split; [exact St|split; [exact Fr|split; [exact S1|split; [exact Ww|]]]]].
  - cbn [Analyse.an_block]. rewrite (abind_done _ _ c a (OperSpec.root t) c a) by (unfold aread, mbind; rewrite E; reflexivity). unfold target_of. cbn [an_target].
    rewrite (abind_done _ _ c a (TTargets (links xs is)) c1 a1); [reflexivity|]. rewrite (abind_done _ _ _ _ _ _ _ Et). reflexivity.
  - intros bd tb r m p (L & Se & Th) Ip Ap D Su.
    assert (Se1 : sees c1 r m) by (apply (sees_step s _ _ _ _ _ _ _ _ _ _ (sc_sound S) St Fr D); exact Se). split.
    2:{ intros Fe. cbn [Translate.tr_block]. orai Fe v Ev; [apply fell_bind, (fell_stuck L); exact (tells_stuck _ _ _ (M m r Se) Fe)|].
      rewrite (run_bind _ _ _ _ _ (tells_is _ _ _ _ (M m r Se) Ev)).
      rewrite (run_bind _ _ m v m eq_refl). apply fell_bind. orai Fe r1 Er; [|discriminate]. exact (unpack_fails P Q AG known s vis hyps sl hid _ _ _ _ xs is v r m S1 Hs L Se1 Fe). }
    intros es r' Fe. cbn beta in Fe. oinv Fe v Ev. oinv Fe r1 Er. injection Fe as <- <-.
    destruct (unpack_fine P Q AG known s vis hyps sl hid _ _ _ _ xs is v r r1 m S1 Hs L Se1 Er) as (m' & Ea & Hh & Se2 & K & Dm).
    exists [], m', None. split; [|split; [reflexivity|split; [rewrite Hh; apply took_nil|split; [|split; [exact Se2|split; [exact K|]]]]]].
    + cbn [Translate.tr_block]. rewrite (run_bind _ _ _ _ _ (tells_is _ _ _ _ (M m r Se) Ev)). rewrite (run_bind _ _ m v m eq_refl). rewrite (run_bind _ _ _ _ _ Ea). reflexivity.
    + intros mg Mg. cbn [map outlined]. constructor; [|constructor]. constructor. exact Mg.
    + intros n I. apply Dm in I. rewrite <- app_assoc. apply in_app_or in I. apply in_or_app. destruct I as [I|I]; [left; exact I|right; exact (D n I)].
Qed.

(** In-place assignments: the variable is one of the block's own, so its slot is both read and written. *)
Lemma aug_block_fine own outer x o e g : expr_ok b (own ++ outer) e -> In x own -> targets_ok outer [x] ->
  block_fine own own outer 0 (BAssign (TTargets [TVar x true None None]) (Some o) (OperSpec.root (OperSpec.tree e)))
    (fun _ r => v <: den Q r e ;; a <: den Q r (XName x) ;; v <: py_op Q o a v ;; Is ([EGap g], set x v r)) g.
Proof.
  intros He Ho [_ Hx] c a S. destruct (ok_goes P Q AG ex s b c (own ++ outer) e He (scope_resolved S)) as [t G]. apply (goes_root P Q AG) in G. destruct G as [E M].
  pose proof S as [_ _ S3 _ _ _ _ _ _]. destruct (S3 x Ho) as (i & Gi & Di).
  exists (BAssign (TTargets [TVar x true (Some (sl_id i)) (Some (sl_id i))]) (Some o) (OperSpec.root t)), c, a, [], [sl_id i].
  split; [|split; [apply step_refl, (sc_sound S)|split; [apply fresh_nil|split; [exact S|split]]]].
  - cbn [Analyse.an_block]. rewrite (abind_done _ _ c a (OperSpec.root t) c a) by (unfold aread, mbind; rewrite E; reflexivity).
    assert (Ev : an_target (TVar x true None None) c a = (Done (TVar x true (Some (sl_id i)) (Some (sl_id i)), c), a)).
    { cbn [an_target]. rewrite (abind_done _ _ c a (Some (sl_id i)) c a) by (unfold aread, mbind, lookup; rewrite Gi; reflexivity).
      rewrite (abind_done _ _ c a (sl_id i) c a); [reflexivity|]. rewrite Gi, Di, Nat.eqb_refl. reflexivity. }
    rewrite (abind_done _ _ c a (TTargets [TVar x true (Some (sl_id i)) (Some (sl_id i))]) c a); [reflexivity|].
    change (an_target (TTargets [TVar x true None None])) with (abind (W := W) (amap an_target [TVar x true None None]) (fun l => aret (TTargets l))).
    cbn [amap]. rewrite (abind_done _ _ c a [TVar x true (Some (sl_id i)) (Some (sl_id i))] c a); [reflexivity|]. rewrite (abind_done _ _ _ _ _ _ _ Ev). reflexivity.
  - intros z [<-|[]]. right. left. exists x, i. split; [apply (proj2 (Hx x (or_introl eq_refl)))|]. split; [|split; [reflexivity|lia]].
    rewrite c_get_find in Gi by exact (sc_sound S). apply find_In in Gi. exact Gi.
  - intros bd tb r m p (L & Se & Th) Ip Ap D Su.
    assert (Mx : forall v, tells (a <: den Q r (XName x) ;; py_op Q o a v)
                   (mbind (read_target P ex s (TTargets [TVar x true (Some (sl_id i)) (Some (sl_id i))])) (fun cur => lift_p (p_binop P o cur v)) m) m).
    { intros v. apply tells_bind; [|intros y _; apply tells_lift, (ag_op _ _ AG)]. cbn [den read_target]. apply tells_tested. destruct (get x r) as [w|] eqn:Dx; [|exact Logic.I].
      destruct (Se x w Dx) as [i' [E' V]]. rewrite Gi in E'. injection E' as <-. cbn [Eval.eval given_by tells]. rewrite V. reflexivity. }
    split.
    { intros es r' Fe. cbn beta in Fe. oinv Fe v Ev. specialize (Mx v). oinv Fe y Ey. rewrite Ey in Mx. cbn [oseq] in Mx. oinv Fe w Ew. injection Fe as <- <-.
      destruct (set_fine known s vis hyps sl hid _ _ _ _ x (sl_id i) w r m S (ex_intro _ i (conj Gi eq_refl)) L Se) as (m' & Ea & Hh & Se2 & K).
      exists [], m', None. split; [|split; [reflexivity|split; [rewrite Hh; apply took_nil|split; [|split; [exact Se2|split; [exact K|]]]]]].
      + cbn [Translate.tr_block]. rewrite (run_bind _ _ _ _ _ (tells_is _ _ _ _ (M m r Se) Ev)). rewrite (run_bind _ _ _ _ _ (tells_is _ _ _ _ Mx Ew)).
        rewrite (run_bind _ _ _ _ _ Ea). reflexivity.
      + intros mg Mg. cbn [map outlined]. constructor; [|constructor]. constructor. exact Mg.
      + intros n I. apply set_dom in I. destruct I as [<-|I]; [apply in_or_app; left; exact Ho|exact (D n I)]. }
    intros Fe. cbn [Translate.tr_block]. orai Fe v Ev; [apply fell_bind, (fell_stuck L); exact (tells_stuck _ _ _ (M m r Se) Fe)|]. specialize (Mx v).
    rewrite (run_bind _ _ _ _ _ (tells_is _ _ _ _ (M m r Se) Ev)). apply fell_bind, (fell_stuck L), (tells_stuck _ _ _ Mx).
    destruct (den Q r (XName x)) as [y| |]; cbn [oseq] in *; [|reflexivity|discriminate]. destruct (py_op Q o y v); cbn [oseq] in *; [discriminate|reflexivity|discriminate].
Qed.

(** The analysis of a tagged block. *)
Lemma struct_an c a txs txs' y y' c1 a1 ext : rmap (an_tag (enter_regular c)) txs = Ok txs' -> an_body y (enter_regular c) a = (Done (y', c1), a1) ->
  step (enter_regular c) a c1 a1 ext [] [] -> exists c', an_block (BStruct txs y) c a = (Done (BStruct txs' y', c'), a1) /\ step c a c' a1 [] [] [].
Proof.
  intros Et Ey St. pose proof (st_inv _ _ _ _ _ _ _ St) as I1. pose proof (st_abs _ _ _ _ _ _ _ St) as A1. change (entries (enter_regular c)) with (entries c) in A1.
  assert (H := reset_spec (c_md c1) (List.length (entries c)) I1). unfold entries in A1.
  replace (Nat.ltb (List.length (abs (c_md c1))) (List.length (entries c))) with false in H.
  2:{ symmetry. apply Nat.ltb_ge. rewrite A1, app_length. unfold entries. lia. }
  destruct H as (d & Ed & Id & Ad).
  assert (Ad' : abs d = entries c).
  { rewrite Ad, A1, app_length. unfold entries. replace (List.length ext + List.length (abs (c_md c)) - List.length (abs (c_md c))) with (List.length ext) by lia.
    rewrite skipn_app, skipn_all, Nat.sub_diag. reflexivity. }
  exists (leave_regular (with_md c1 d)). split.
  - cbn [Analyse.an_block]. rewrite (abind_done _ _ c a tt (enter_regular c) a eq_refl). rewrite (abind_done _ _ (enter_regular c) a (md_position (c_md c)) (enter_regular c) a eq_refl).
    rewrite (abind_done _ _ (enter_regular c) a txs' (enter_regular c) a) by (unfold aread, mbind; rewrite Et; reflexivity).
    rewrite (abind_done _ _ _ _ _ _ _ Ey). rewrite position_length. change (abs (c_md c)) with (entries c).
    assert (Er : areset (W := W) (List.length (entries c)) c1 a1 = (Done (tt, with_md c1 d), a1)) by (unfold areset, mbind; rewrite Ed; reflexivity).
    rewrite (abind_done _ _ _ _ _ _ _ Er). reflexivity.
  - destruct St as [T1 T2 T3 T4 T5 T6 T7 T8 T9 T10 T11 T12]. split; auto.
    + cbn. rewrite T3. reflexivity.
    + intros z i [].
    + intros z i z' i' [].
    + intros h x [].
    + intros x [].
Qed.
Lemma writes_inner own outer c a a' ws : writes_ok (own ++ outer) (enter_regular c) a a' ws -> writes_ok outer c a a' ws.
Proof.
  intros H x I. destruct (H x I) as [B|[(n & i & B1 & B2 & B3 & B4)|B]]; [left; exact B| |right; right; exact B]. right. left. exists n, i.
  split; [intros J; apply B1, in_or_app; right; exact J|]. split; [exact B2|]. split; [exact B3|]. cbn in B4. lia.
Qed.

(** A chain of tags around a body that gives nodes [ss], moved to [ss']. *)
Lemma struct_fine {A} own outer u g txs y (F : option elems -> store -> ans A) (ok : str -> A -> list shape -> Prop) (R : list etag -> A -> list elem) k :
  Forall (tag_ok b (own ++ outer)) g -> Forall2 raw_tag g txs -> g <> [] -> (forall t, In t g -> exists v, known (name_of t) = Some v) ->
  (forall c a, scope [] (own ++ outer) c a -> exists y' c' a' ext ws,
    an_body y c a = (Done (y', c'), a') /\ step c a c' a' ext [] [] /\ writes_ok (own ++ outer) c a a' ws /\
    forall bd tb r m p, ready c r m -> ind_of s m = p -> absolute p = true -> incl (map fst r) (own ++ outer) -> supplied (own ++ outer) u c bd tb m ->
      (forall es, F bd r = Is es ->
        exists ts m' ss', tr_body y' m = (Done (map root ts), m') /\ took (taken u tb) (m_heap m) (m_heap m') ts /\ Forall2 (moved p) (map erase ts) ss' /\ ok p es ss' /\ kept ws m m') /\
      (F bd r = Raises -> fell (taken u tb) ws m (tr_body y' m))) ->
  (forall p mg t gs es ss' s' f, Forall etag_ok (t :: gs) -> map fst (t :: gs) = map name_of g -> mgn p k mg -> ok p es ss' -> tag_node t f -> chained ss' gs s' ->
    draws p (R (t :: gs) es) (mg ++ [Sh (with_indent (with_outline f true) (Some p)) s'])) ->
  block_fine own own outer u (BStruct txs y) (fun bd r => es <: F bd r ;; gs <: omap_back (inst_tag Q r) g ;; Is (R gs es, r)) k.
Proof.
  intros Hg Hr Hn Hk Hy Hd c a S. pose proof (scope_inner S) as Si.
  assert (Hx : forall n v, known n = Some v -> exists x, c_get (enter_regular c) (TAG n) = Some x).
  { intros n v E. destruct (sc_tags Si n (or_introl (ex_intro _ v E))) as (x & G & _). exists x. exact G. }
  destruct (tags_goes P Q AG ex known tag_of s b (enter_regular c) (own ++ outer) (scope_resolved S) g txs Hg Hr Hk Hx) as (txs' & Et & Rt).
  destruct (Hy (enter_regular c) a Si) as (y' & c1 & a1 & ext & ws & Ey & St & Ww & Ry).
  destruct (struct_an c a txs txs' y y' c1 a1 ext Et Ey St) as (c' & Ea0 & St').
  exists (BStruct txs' y'), c', a1, [], ws. split; [exact Ea0|split; [exact St'|split; [apply fresh_nil|split; [exact (scope_step S St' (fresh_nil _))|split; [exact (writes_inner _ _ _ _ _ _ Ww)|]]]]].
  intros bd tb r m p Rd Ip Ap D Su. destruct Rd as (L & Se & Th). cbn beta.
  destruct (Ry bd tb r m p (conj L (conj Se Th)) Ip Ap D (supplied_inner own _ _ _ _ _ _ Su)) as [Ry1 Ry2].
  destruct (F bd r) as [es0| |] eqn:Ee; cbn [oseq]; [|split; [discriminate|]|split; discriminate].
  2:{ intros _. cbn [Translate.tr_block]. apply fell_bind. unfold indented. apply fell_bind, fell_bind, Ry2. reflexivity. }
  destruct (Ry1 es0 eq_refl) as (ts & m1 & ss' & Eb & G & Mv & Hok & K).
  assert (Se1 : sees (enter_regular c) r m1) by exact (kept_sees Si Ww K D Se).
  assert (Th1 : tags_hold (enter_regular c) m1) by exact (stays_tags _ _ _ _ _ _ _ _ _ _ _ _ Si (kept_stays Si Ww K Th)).
  destruct (Rt m1 r Se1 Th1) as [Rt1 Rt2]. split.
  2:{ intros Fe. orai Fe gs Eg; [|discriminate]. cbn [Translate.tr_block]. apply fell_bind. unfold indented. apply fell_bind. rewrite (run_bind _ _ _ _ _ Eb).
    destruct (Rt2 Fe ts (m_heap m) _ G) as (h' & Fh & Sp). exact (fell_at Fh K Sp). }
  intros es r' Fe. oinv Fe gs Eg. injection Fe as <- <-. destruct (Rt1 gs Eg) as (Oks & Nms & Rtt). destruct (Rtt ts (m_heap m) _ G) as (ts' & h' & Ea & G2 & Ch).
  destruct gs as [|t gs]; [destruct g; [contradiction Hn; reflexivity|discriminate]|].
  inversion Ch as [|? ? f s1 Tn Ch1 E1 E2]; subst.
  destruct (chained_moved (p_ren P) tag_of (ind_of s m) _ ss' _ _ Ch1 Mv) as (s2 & Mv2 & Ch2).
  assert (Pl : Forall2 (placed (ind_of s m)) (map erase ts') [Sh (with_indent f (Some (ind_of s m))) s2]).
  { rewrite <- E2. constructor; [|constructor]. apply placed_node; [exact (tag_node_kind _ _ _ _ Tn)|exact Mv2]. }
  destruct (took_place _ _ _ _ _ _ Ap G2 Pl) as (h2 & ts2 & Ep & G3 & Ro & Er).
  exists ts2, (with_heap m1 h2), (Some (map root ts')). split; [|split; [symmetry; exact Ro|split; [exact G3|split; [|split; [|split; [|exact D]]]]]].
  + cbn [Translate.tr_block]. rewrite (run_bind _ _ m (map root ts') (with_heap m1 h2)); [reflexivity|]. unfold indented.
    rewrite (run_bind _ _ m (map root ts') (with_heap m1 h')); [|rewrite (run_bind _ _ _ _ _ Eb); exact Ea].
    unfold mbind, get_ind. change (s_indent (state_at (with_heap m1 h') s)) with (ind_of s m1). destruct K as (_ & Ki & _). rewrite Ki.
    unfold do_set_indent, lift_h. cbn [m_heap with_heap]. rewrite Ep. reflexivity.
  + intros mg Mg. rewrite Er. exact (Hd _ mg t gs es0 ss' s2 f Oks Nms Mg Hok Tn Ch2).
  + apply (sees_step s _ _ _ _ _ _ _ (own ++ outer) r _ (sc_sound S) St' (fresh_nil _) D). exact Se1.
  + destruct K as (Kl & Ki & Kv). split; [exact Kl|]. split; [exact Ki|exact Kv].
Qed.

Lemma leaf_fine own outer g txs c d k : Forall (tag_ok b (own ++ outer)) g -> chain_known known (match c with Some _ => false | None => true end) g ->
  (forall k x, c = Some (k, x) -> para_ok b (own ++ outer) k x) -> Forall2 raw_tag g txs -> raw_inline (List.length (chain_text b g) + 2) c d ->
  block_fine own own outer 0 (BStruct txs d) (fun bd r => inst bd r (TLeaf k g c)) k.
Proof.
  intros Hg Hk Hc Hr Hi.
  apply (struct_fine own outer 0 g txs d (fun _ r => match c with Some (k, x) => inst_text Q r k (List.length (chain_text b g) + 2) x | None => Is [] end)
    (fun p es ss' => ss' = [] /\ es = [] \/ match c with Some _ => false | None => true end = false /\ ss' = [text_sh false [] es])
    (fun gs x => [ELeaf k gs x]) k Hg Hr).
  - intros ->. exact Hk.
  - exact (chain_each known _ g Hk).
  - intros c0 a Sx. set (lead := List.length (chain_text b g) + 2) in *. assert (Hl : 0 < lead) by (unfold lead; lia). clearbody lead. inversion Hi as [|k0 x ls Hx]; subst.
    + exists (YItems []), c0, a, [], []. split; [reflexivity|]. split; [apply step_refl, (sc_sound Sx)|]. split; [apply writes_nil|].
      intros bd tb r m p (L & Se & Th) Ip Ap D Su. split; [|discriminate]. intros es [= <-]. exists [], m, []. split; [|split; [apply took_nil|split; [constructor|split; [left; auto|apply kept_refl, L]]]].
      change (tr_body (YItems [])) with (restoring s (mconcat tr_item [])). unfold restoring, mconcat, ret. f_equal. exact (with_ind_same s m).
    + destruct (text_goes P Q AG escaping ex s b c0 (own ++ outer) (scope_resolved Sx) k0 x ls (Hc k0 x eq_refl) Hx) as (ls' & E & Run).
      exists (YBlock (BText lead ls')), c0, a, [], []. split; [|split; [apply step_refl, (sc_sound Sx)|split; [apply writes_nil|]]].
      * change (an_body (YBlock (BText lead ls))) with (abind (W := W) (an_block (BText lead ls)) (fun x => aret (YBlock x))). cbn [Analyse.an_block]. unfold abind, mbind, aread, mbind. rewrite E. reflexivity.
      * intros bd tb r m p (L & Se & Th) Ip Ap D Su. destruct (Run lead m r Hl L Se) as [Run1 Run2]. split.
        2:{ intros Fe. change (tr_body (YBlock (BText lead ls'))) with (o <* tr_block (BText lead ls') ;; ret (match o with Some l => l | None => [] end)).
          cbn [Translate.tr_block]. apply fell_bind, fell_bind, fell_bind, (fell_stuck L), Run2, Fe. }
        intros t Et. pose proof (Run1 t Et) as E1.
        set (f := with_indent (text_info t) (Some p)). exists [T (List.length (m_heap m)) f []], (with_heap m (m_heap m ++ [{| c_info := f; c_body := [] |}])), [text_sh false [] t].
        split; [|split; [exact (took_node _ (m_heap m) (m_heap m) [] f (took_nil _))|split; [|split; [right; auto|apply kept_heap, L]]]].
        -- change (tr_body (YBlock (BText lead ls'))) with (o <* tr_block (BText lead ls') ;; ret (match o with Some l => l | None => [] end)).
           rewrite (run_bind _ _ m (Some [List.length (m_heap m)]) (with_heap m (m_heap m ++ [{| c_info := f; c_body := [] |}]))); [reflexivity|].
           cbn [Translate.tr_block]. rewrite (run_bind _ _ m [List.length (m_heap m)] (with_heap m (m_heap m ++ [{| c_info := f; c_body := [] |}]))); [reflexivity|].
           rewrite (run_bind _ _ _ _ _ E1). unfold mbind, get_ind. change (s_indent (state_at m s)) with (ind_of s m). rewrite Ip. unfold do_text, lift_h. rewrite new_text_eq. reflexivity.
        -- constructor; [|constructor]. apply (moved_abs p f [] []). unfold f. rewrite app_nil_r. reflexivity.
  - intros p mg t gs es ss' s' f Oks Nms Mg Hok Tn Ch. rewrite <- (app_nil_r (mg ++ _)). constructor; [|constructor].
    eapply drawn_leaf; try eassumption. exact (chain_names known _ g _ Hk Nms).
Qed.

Lemma node_fine own outer g txs kids y w k u : Forall (tag_ok b (own ++ outer)) g -> chain_known known false g -> indent_ok w -> Forall2 raw_tag g txs ->
  body_fine [] (own ++ outer) u y (fun bd => insts (inst bd) kids) w ->
  block_fine own own outer u (BStruct txs y) (fun bd r => inst bd r (TNode k g w kids)) k.
Proof.
  intros Hg Hk [_ Hw] Hr Hy.
  apply (struct_fine own outer u g txs y (fun bd r => insts (inst bd) kids r) (fun p es ss' => draws w (fst es) ss') (fun gs es => [ENode k gs w (fst es)]) k Hg Hr).
  - intros ->. exact Hk.
  - exact (chain_each known _ g Hk).
  - intros c a Sx. destruct (Hy c a Sx) as (y' & c' & a' & ext & ws & E & St & Fr & Ww & Run). exists y', c', a', ext, ws. split; [exact E|]. split; [exact St|]. split; [exact Ww|].
    intros bd tb r m p Rd Ip Ap D Su. destruct (Run bd tb r m p Rd Ip Ap D Su) as [Run1 Run2]. split; [|exact Run2].
    intros [es r'] Fe. destruct (Run1 es r' Fe) as (ts & m' & Et & G & Dr & _ & K).
    destruct (moved_draws known (p_ren P) tag_of p w es _ Dr) as (ss' & Mv & Dr'). exists ts, m', ss'. auto.
  - intros p mg t gs es ss' s' f Oks Nms Mg Hok Tn Ch. rewrite <- (app_nil_r (mg ++ _)). constructor; [|constructor].
    eapply drawn_node; try eassumption; [exact (chain_names known _ g _ Hk Nms)|]. intros I. destruct (Hw _ I); discriminate.
Qed.

(** The new position of a control block. *)
Lemma indented_fine A x m m1 ts q es ws p : x m = (Done (map root ts), m1) -> took A (m_heap m) (m_heap m1) ts -> draws q es (map erase ts) -> kept ws m m1 ->
  ind_of s m = p -> absolute p = true ->
  exists ts' m2, indented s x m = (Done (map root ts'), m2) /\ took A (m_heap m) (m_heap m2) ts' /\ draws p es (map erase ts') /\ kept ws m m2 /\
    (forall c r, sees c r m1 -> sees c r m2).
Proof.
  intros E G D K Ip Ap. destruct (placed_draws known (p_ren P) tag_of p q es _ D) as (ss' & Pl & D').
  destruct (took_place _ _ _ _ _ _ Ap G Pl) as (h2 & ts' & Ep & G2 & Ro & Er).
  exists ts', (with_heap m1 h2). split; [|split; [exact G2|split; [rewrite Er; exact D'|split; [exact K|intros c r H; exact H]]]].
  unfold indented. rewrite (run_bind _ _ _ _ _ E). unfold mbind, get_ind. change (s_indent (state_at m1 s)) with (ind_of s m1). destruct K as (_ & Ki & _). rewrite Ki, Ip.
  unfold do_set_indent, lift_h. rewrite Ep, Ro. reflexivity.
Qed.
Lemma gap_drawn p g mg es ss : mgn p g mg -> draws p es ss -> calm_elems es -> draws p (EGap g :: es) (mg ++ outlined ss).
Proof. intros Mg D C. rewrite (calm_outlined known (p_ren P) tag_of p es ss D C). constructor; [constructor; exact Mg|exact D]. Qed.

Lemma cond_goes c sc e : expr_ok b sc e -> resolved c sc -> exists t, an_expr c (cond e) = Ok t /\ means P Q ex s c e t.
Proof.
  intros H R. destruct (ok_goes P Q AG ex s b c sc e H R) as [t G]. destruct (goes_sub P Q AG ex s c e t 14 G) as [t' G']. apply (goes_root P Q AG) in G'. destruct G' as [E M].
  exists (OperSpec.root t'). split; [exact E|exact M].
Qed.

(** ** Conditional blocks *)
Definition pick (cs : list (OperSpec.ex * (str * list tmpl))) (bd : option elems) (F : store -> ans (elems * store)) (r : store) : ans (elems * store) :=
  (fix go (cs : list (OperSpec.ex * (str * list tmpl))) : ans (elems * store) :=
              match cs with
              | [] => F r
              | (e, (_, kids)) :: cs =>
                  v <: den Q r e ;; t <: bool_of Q v ;;
                  if (t : bool) then insts (inst bd) kids r else go cs
              end) cs.
Definition tr_if (cs : list (expr * option body)) (z : M W (list nid)) : M W (list nid) :=
  (fix go (cs : list (expr * option body)) : M W (list nid) :=
                             match cs with
                             | [] => z
                             | (c, y) :: r =>
                                 v <* eval c ;;
                                 b <* truth P v ;;
                                 if (b : bool) then match y with Some y => tr_body y | None => ret [] end
                                 else go r
                             end) cs.
Definition an_clause (cy : expr * option body) : AM (W := W) (expr * option body) :=
  let (t, y) := (cy : expr * option body) in
  branch (abind (aread (fun c => an_expr c t)) (fun t =>
          abind match y with Some y => abind (an_body y) (fun y => aret (Some y)) | None => aret None end (fun y => aret (t, y)))).
Definition an_els (els : option body) : AM (W := W) (option body) :=
  match els with Some y => abind (branch (an_body y)) (fun y => aret (Some y)) | None => aret None end.

Definition runs (own outer : list str) (u : nat) (c : ctx) (F : inst_fun) (z : M W (list nid)) (ws : list slot) : Prop :=
  forall bd tb r m p, ready c r m -> ind_of s m = p -> absolute p = true -> incl (map fst r) (own ++ outer) -> supplied outer u c bd tb m ->
    (forall es r', F bd r = Is (es, r') -> exists ts m' q, z m = (Done (map root ts), m') /\ took (taken u tb) (m_heap m) (m_heap m') ts /\ draws q es (map erase ts) /\
      sees c (keep r r') m' /\ kept ws m m') /\
    (F bd r = Raises -> fell (taken u tb) ws m (z m)).

Lemma runs_step own outer u c a c1 a1 ext F z ws : sound c -> step c a c1 a1 ext [] [] -> fresh_names ext (own ++ outer) -> runs own outer u c1 F z ws <-> runs own outer u c F z ws.
Proof.
  intros Sc St Fr. split; intros H bd tb r m p Rd Ip Ap D Su.
  - destruct (H bd tb r m p (proj1 (ready_step _ _ _ _ _ _ _ _ _ _ _ _ (own ++ outer) _ _ Sc St Fr D) Rd) Ip Ap D (proj1 (supplied_step _ _ _ _ _ _ _ _ _ _ _ Sc St Fr) Su)) as [H1 H2].
    split; [intros es r' Fe|exact H2]. destruct (H1 es r' Fe) as (ts & m' & q & E & G & Dr & Se & K).
    exists ts, m', q. split; [exact E|]. split; [exact G|]. split; [exact Dr|]. split; [|exact K].
    apply (sees_step s _ _ _ _ _ _ _ (own ++ outer) _ _ Sc St Fr); [|exact Se]. intros n I. apply D, (keep_dom r r'), I.
  - destruct (H bd tb r m p (proj2 (ready_step _ _ _ _ _ _ _ _ _ _ _ _ (own ++ outer) _ _ Sc St Fr D) Rd) Ip Ap D (proj2 (supplied_step _ _ _ _ _ _ _ _ _ _ _ Sc St Fr) Su)) as [H1 H2].
    split; [intros es r' Fe|exact H2]. destruct (H1 es r' Fe) as (ts & m' & q & E & G & Dr & Se & K).
    exists ts, m', q. split; [exact E|]. split; [exact G|]. split; [exact Dr|]. split; [|exact K].
    apply (sees_step s _ _ _ _ _ _ _ (own ++ outer) _ _ Sc St Fr); [|exact Se]. intros n I. apply D, (keep_dom r r'), I.
Qed.
Lemma branch_runs own outer u y F w c a : body_fine own outer u y F w -> scope own outer c a ->
  exists y' c' a' ext ws, branch (an_body y) c a = (Done (y', c'), a') /\ step c a c' a' ext [] [] /\ fresh_names ext (own ++ outer) /\ writes_ok outer c a a' ws /\
    runs own outer u c F (tr_body y') ws.
Proof.
  intros H Sc. destruct (H c a Sc) as (y' & c1 & a1 & ext & ws & E & St & Fr & Ww & Run).
  destruct (branch_fine _ c a y' c1 a1 ext (sc_sound Sc) E St) as (c2 & ext2 & E2 & St2 & Inc).
  exists y', c2, a1, ext2, ws. split; [exact E2|]. split; [exact St2|]. split; [exact (fresh_sub _ _ _ Fr Inc)|]. split; [exact Ww|].
  intros bd tb r m p Rd Ip Ap D Su. destruct (Run bd tb r m p Rd Ip Ap D Su) as [Run1 Run2]. split; [intros es r' Fe|exact Run2].
  destruct (Run1 es r' Fe) as (ts & m' & Et & G & Dr & Se & K). exists ts, m', (p ++ w).
  split; [exact Et|]. split; [exact G|]. split; [exact Dr|]. split; [|exact K].
  apply (sees_step s _ _ _ _ _ _ _ (own ++ outer) _ _ (sc_sound Sc) St Fr); [intros n I; apply D, (keep_dom r r'), I|]. apply sees_keep, Se.
Qed.

Lemma els_fine own outer u els d c a : raw_els els d ->
  (forall w kids y, els = Some (w, kids) -> raw_body (w, kids) (Some y) -> body_fine own outer u y (fun bd => insts (inst bd) kids) w) -> scope own outer c a ->
  exists d' c' a' ext ws, an_els d c a = (Done (d', c'), a') /\ step c a c' a' ext [] [] /\ fresh_names ext (own ++ outer) /\ writes_ok outer c a a' ws /\
    runs own outer u c (fun bd r => match els with Some (_, kids) => insts (inst bd) kids r | None => Is ([], r) end) (match d' with Some y => tr_body y | None => ret [] end) ws.
Proof.
  intros Hr Hb Sc. inversion Hr as [|y0 d0 Hy]; subst.
  - exists None, c, a, [], []. split; [reflexivity|]. split; [apply step_refl, (sc_sound Sc)|]. split; [apply fresh_nil|]. split; [apply writes_nil|].
    intros bd tb r m p (L & Se & Th) Ip Ap D Su. split; [intros es r' [= <- <-]|discriminate]. exists [], m, p. split; [reflexivity|]. split; [apply (took_incl []); [apply took_nil|intros i []]|]. split; [constructor|]. split; [apply sees_keep, Se|apply kept_refl, L].
  - inversion Hy as [w kids is Hi]; subst.
    assert (B : body_fine own outer u (YElse (Some (YItems (items w is)))) (fun bd => insts (inst bd) kids) w).
    { intros c0 a0 S0. destruct (Hb w kids (YItems (items w is)) eq_refl Hy c0 a0 S0) as (y' & c1 & a1 & ext & ws & E & St & Fr & Ww & Run).
      exists (YElse (Some y')), c1, a1, ext, ws. split; [|split; [exact St|split; [exact Fr|split; [exact Ww|exact Run]]]].
      change (an_body (YElse (Some (YItems (items w is))))) with (abind (W := W) (an_body (YItems (items w is))) (fun y => aret (YElse (Some y)))). rewrite (abind_done _ _ _ _ _ _ _ E). reflexivity. }
    destruct (branch_runs own outer u _ _ w c a B Sc) as (y' & c' & a' & ext & ws & E & St & Fr & Ww & Run).
    exists (Some y'), c', a', ext, ws. split; [|split; [exact St|split; [exact Fr|split; [exact Ww|exact Run]]]].
    unfold an_els. rewrite (abind_done _ _ _ _ _ _ _ E). reflexivity.
Qed.

Lemma clauses_fine own outer u cs : forall bs, map fst bs = map (fun c => cond (fst c)) cs -> Forall2 raw_body (map snd cs) (map snd bs) ->
  Forall (fun c => expr_ok b (own ++ outer) (fst c)) cs ->
  (forall e w kids y, In (e, (w, kids)) cs -> raw_body (w, kids) (Some y) -> body_fine own outer u y (fun bd => insts (inst bd) kids) w) ->
  forall c a, scope own outer c a ->
  exists bs' c' a' ext ws, amap an_clause bs c a = (Done (bs', c'), a') /\ step c a c' a' ext [] [] /\ fresh_names ext (own ++ outer) /\ writes_ok outer c a a' ws /\
    forall F z w0, runs own outer u c F z w0 -> runs own outer u c (fun bd => pick cs bd (F bd)) (tr_if bs' z) (ws ++ w0).
Proof.
  induction cs as [|[e [w kids]] cs IH]; intros bs Hc Hr He Hb c a Sc.
  - destruct bs; [|discriminate]. exists [], c, a, [], []. split; [reflexivity|]. split; [apply step_refl, (sc_sound Sc)|]. split; [apply fresh_nil|]. split; [apply writes_nil|].
    intros F z w0 H. exact H.
  - destruct bs as [|[x y] bs]; [discriminate|]. cbn [map fst snd] in Hc, Hr. injection Hc as -> Hc. inversion Hr as [|? ? ? ? Hy Hr']; subst. inversion He as [|? ? He1 He']; subst. cbn [fst] in He1.
    inversion Hy as [w0 kids0 is Hi]; subst.
    destruct (cond_goes c (own ++ outer) e He1 (scope_resolved Sc)) as (t & Et & Mt).
    pose proof (Hb e w kids (YItems (items w is)) (or_introl eq_refl) Hy) as B.
    destruct (B c a Sc) as (y' & c1 & a1 & e1 & w1 & E1 & St1 & Fr1 & Ww1 & Run1).
    assert (Eb : abind (aread (fun c => an_expr c (cond e))) (fun t => abind (abind (an_body (YItems (items w is))) (fun y => aret (Some y))) (fun y => aret (t, y))) c a = (Done ((t, Some y'), c1), a1)).
    { rewrite (abind_done _ _ c a t c a) by (unfold aread, mbind; rewrite Et; reflexivity). rewrite (abind_done _ _ c a (Some y') c1 a1); [reflexivity|]. rewrite (abind_done _ _ _ _ _ _ _ E1). reflexivity. }
    destruct (branch_fine _ c a (t, Some y') c1 a1 e1 (sc_sound Sc) Eb St1) as (c2 & e2 & E2 & St2 & Inc).
    pose proof (fresh_sub _ _ _ Fr1 Inc) as Fr2. pose proof (scope_step Sc St2 Fr2) as Sc2.
    destruct (IH bs Hc Hr' He' (fun e w kids y I => Hb e w kids y (or_intror I)) c2 a1 Sc2) as (bs' & c3 & a3 & e3 & w3 & E3 & St3 & Fr3 & Ww3 & Run3).
    exists ((t, Some y') :: bs'), c3, a3, (e3 ++ e2), (w1 ++ w3). split; [|split; [exact (step_trans _ _ _ _ _ _ _ _ _ _ _ _ St2 St3)|split; [apply fresh_app; assumption|split]]].
    + cbn [amap]. change (an_clause (cond e, Some (YItems (items w is)))) with
        (branch (abind (aread (fun c => an_expr c (cond e))) (fun t => abind (abind (an_body (YItems (items w is))) (fun y => aret (Some y))) (fun y => aret (t, y))))).
      rewrite (abind_done _ _ _ _ _ _ _ E2), (abind_done _ _ _ _ _ _ _ E3). reflexivity.
    + exact (writes_trans _ outer _ _ _ _ _ _ _ _ _ _ St2 (st_next _ _ _ _ _ _ _ St3) Ww1 Ww3).
    + intros F z w0 Hz.
      pose proof (proj2 (runs_step own outer u c a c2 a1 e2 _ _ _ (sc_sound Sc) St2 Fr2) Hz) as Hz2.
      pose proof (proj1 (runs_step own outer u c a c2 a1 e2 _ _ _ (sc_sound Sc) St2 Fr2) (Run3 F z w0 Hz2)) as Rest.
      intros bd tb r m p Rd Ip Ap D Su. cbn [pick tr_if]. pose proof Rd as (L & Se & Th).
      destruct (Run1 bd tb r m p Rd Ip Ap D Su) as [Run1a Run1b]. destruct (Rest bd tb r m p Rd Ip Ap D Su) as [Resta Restb].
      destruct (den Q r e) as [v| |] eqn:Ev; cbn [oseq]; [|split; [discriminate|intros _; apply fell_bind, (fell_stuck L); exact (tells_stuck _ _ _ (Mt m r Se) Ev)]|split; discriminate].
      rewrite (run_bind _ _ _ _ _ (tells_is _ _ _ _ (Mt m r Se) Ev)). destruct (bool_of Q v) as [bv| |] eqn:Etb; cbn [oseq]; [|destruct (bool_never Q v Etb)|split; discriminate].
      rewrite (run_bind _ _ _ _ _ (truth_done P Q AG v bv m Etb)). assert (I1 : incl w1 ((w1 ++ w3) ++ w0)) by (intros x I; apply in_or_app; left; apply in_or_app; left; exact I).
      assert (I3 : incl (w3 ++ w0) ((w1 ++ w3) ++ w0)) by (intros x I; rewrite <- app_assoc; apply in_or_app; right; exact I).
      destruct bv; (split; [intros es r' Fe|intros Fe]); [|exact (fell_incl _ (Run1b Fe) I1)| |exact (fell_incl _ (Restb Fe) I3)].
      * destruct (Run1a es r' Fe) as (ts & m' & E & G & Dr & Se' & K). exists ts, m', (p ++ w). split; [exact E|]. split; [exact G|]. split; [exact Dr|]. split.
        -- apply (sees_step s _ _ _ _ _ _ _ (own ++ outer) _ _ (sc_sound Sc) St1 Fr1); [intros n I; apply D, (keep_dom r r'), I|]. apply sees_keep, Se'.
        -- apply (kept_incl s w1); [exact K|]. intros x I. apply in_or_app. left. apply in_or_app. left. exact I.
      * destruct (Resta es r' Fe) as (ts & m' & q & E & G & Dr & Se' & K). exists ts, m', q. split; [exact E|]. split; [exact G|]. split; [exact Dr|]. split; [exact Se'|].
        apply (kept_incl s (w3 ++ w0)); [exact K|]. intros x I. rewrite <- app_assoc. apply in_or_app. right. exact I.
Qed.

Lemma if_fine own outer u cs els bs d g : map fst bs = map (fun c => cond (fst c)) cs -> Forall2 raw_body (map snd cs) (map snd bs) -> raw_els els d ->
  Forall (fun c => expr_ok b (own ++ outer) (fst c)) cs ->
  (forall e w kids y, In (e, (w, kids)) cs -> raw_body (w, kids) (Some y) -> body_fine own outer u y (fun bd => insts (inst bd) kids) w) ->
  (forall w kids y, els = Some (w, kids) -> raw_body (w, kids) (Some y) -> body_fine own outer u y (fun bd => insts (inst bd) kids) w) ->
  (forall bd r p, calm_body bd -> pick cs bd (fun r => match els with Some (_, kids) => insts (inst bd) kids r | None => Is ([], r) end) r = Is p -> calm_elems (fst p)) ->
  block_fine own own outer u (BIf bs d) (fun bd r => inst bd r (TIf g cs els)) g.
Proof.
  intros H1 H2 H3 H4 H5 H6 H7 c a Sc. set (c0 := enter_control c). assert (Sc0 : scope own outer c0 a) by exact (scope_same c0 Sc eq_refl eq_refl).
  destruct (clauses_fine own outer u cs bs H1 H2 H4 H5 c0 a Sc0) as (bs' & c1 & a1 & e1 & w1 & E1 & St1 & Fr1 & Ww1 & Run1).
  destruct (els_fine own outer u els d c1 a1 H3 H6 (scope_step Sc0 St1 Fr1)) as (d' & c2 & a2 & e2 & w2 & E2 & St2 & Fr2 & Ww2 & Run2).
  pose proof (step_trans _ _ _ _ _ _ _ _ _ _ _ _ St1 St2) as St12. cbn [app] in St12. pose proof (fresh_app _ _ _ Fr2 Fr1) as Fr12.
  assert (E12 : abind (amap an_clause bs) (fun cs => abind (an_els d) (fun els => aret (cs, els))) c0 a = (Done ((bs', d'), c2), a2)).
  { rewrite (abind_done _ _ _ _ _ _ _ E1), (abind_done _ _ _ _ _ _ _ E2). reflexivity. }
  destruct (control_fine _ c a _ _ _ _ E12 St12) as [Ec St]. set (c' := leave_control c2) in *.
  pose proof (Run1 _ _ _ (proj1 (runs_step own outer u c0 a c1 a1 e1 _ _ _ (sc_sound Sc0) St1 Fr1) Run2)) as Run.
  exists (BIf bs' d'), c', a2, (e2 ++ e1), (w1 ++ w2). split; [|split; [exact St|split; [exact Fr12|split; [exact (scope_step Sc St Fr12)|split]]]].
  - change (an_block (BIf bs d)) with (abind (control (abind (amap an_clause bs) (fun cs => abind (an_els d) (fun els => aret (cs, els))))) (fun r => aret (BIf (fst r) (snd r)))).
    rewrite (abind_done _ _ _ _ _ _ _ Ec). reflexivity.
  - exact (writes_trans _ outer c0 a c1 a1 a2 e1 [] [] w1 w2 St1 (st_next _ _ _ _ _ _ _ St2) Ww1 Ww2).
  - intros bd tb r m p Rd Ip Ap D Su. change (inst bd r (TIf g cs els)) with
      (p <: pick cs bd (fun r => match els with Some (_, kids) => insts (inst bd) kids r | None => Is ([], r) end) r ;; Is (EGap g :: fst p, keep r (snd p))).
    destruct (Run bd tb r m p (ready_same c c0 eq_refl Rd) Ip Ap D (supplied_same _ _ c c0 _ _ _ eq_refl Su)) as [Ra Rb]. split.
    2:{ intros Fe. orai Fe pr Ep; [|discriminate]. change (tr_block (BIf bs' d')) with (l <* indented s (tr_if bs' (match d' with Some y => tr_body y | None => ret [] end)) ;; ret (Some l)).
      apply fell_bind. unfold indented. apply fell_bind, Rb, Fe. }
    intros es r' Fe. oinv Fe pr Ep. injection Fe as <- <-. destruct pr as [es r1]. cbn [fst snd]. pose proof (H7 bd r _ (proj1 Su) Ep) as Ca. cbn [fst] in Ca.
    destruct (Ra es r1 Ep) as (ts & m1 & q & E & G & Dr & Se & K).
    destruct (indented_fine _ _ m m1 ts q es _ p E G Dr K Ip Ap) as (ts' & m2 & Ei & G' & Dr' & K' & Sees).
    exists ts', m2, (Some (map root ts')). split; [|split; [reflexivity|split; [exact G'|split; [|split; [|split; [exact K'|]]]]]].
    + change (tr_block (BIf bs' d')) with (l <* indented s (tr_if bs' (match d' with Some y => tr_body y | None => ret [] end)) ;; ret (Some l)).
      rewrite (run_bind _ _ _ _ _ Ei). reflexivity.
    + intros mg Mg. apply gap_drawn; assumption.
    + apply (sees_step s c a c' a2 (e2 ++ e1) [] [] (own ++ outer) _ _ (sc_sound Sc) St Fr12); [intros n I; apply D, (keep_dom r r1), I|]. apply Sees. exact Se.
    + intros n I. apply D, (keep_dom r r1), I.
Qed.

(** ** Alternatives *)
Lemma scope_all own outer c a : scope own outer c a -> scope [] (own ++ outer) c a.
Proof. intros H. pose proof (scope_resolved H) as R. destruct H as [S1 S2 S3 S4 S5 S6 S7 S8 S9]. split; auto. intros n []. Qed.
Definition first (bd : option elems) (alts : list (str * list tmpl)) (r : store) : ans elems :=
  (fix go (l : list (str * list tmpl)) : ans (list elem) :=
               match l with
               | [] => Is []
               | (_, kids) :: l => match insts (inst bd) kids r with Is p => Is (fst p) | Raises => go l | Open => Open end
               end) alts.
Definition tr_alts (ys : list body) : M W (list nid) :=
  (fix go (ys : list body) : M W (list nid) :=
                             match ys with
                             | [] => ret []
                             | y :: r => or_else (tr_body y) (go r)
                             end) ys.
Lemma first_never bd alts r : first bd alts r <> Raises.
Proof. induction alts as [|[w kids] alts IH]; [discriminate|]. cbn [first]. fold (first bd alts r). destruct (insts (inst bd) kids r); [discriminate|exact IH|discriminate]. Qed.
Lemma alts_fine sc alts ys : Forall2 (fun a y => body_fine [] sc 0 y (fun bd => insts (inst bd) (snd a)) (fst a)) alts ys -> forall c a, scope [] sc c a ->
  exists ys' c' a' ext ws, amap (fun y => branch (an_body y)) ys c a = (Done (ys', c'), a') /\ step c a c' a' ext [] [] /\ fresh_names ext sc /\ writes_ok sc c a a' ws /\
    forall bd r m p es, ready c r m -> ind_of s m = p -> absolute p = true -> incl (map fst r) sc -> calm_body bd -> first bd alts r = Is es ->
      exists ts m' q, tr_alts ys' m = (Done (map root ts), m') /\ took [] (m_heap m) (m_heap m') ts /\ draws q es (map erase ts) /\ kept ws m m'.
Proof.
  intros H. induction H as [|[w kids] y alts ys Hb H IH]; intros c a Sc.
  - exists [], c, a, [], []. split; [reflexivity|]. split; [apply step_refl, (sc_sound Sc)|]. split; [apply fresh_nil|]. split; [apply writes_nil|].
    intros bd r m p es Rd Ip Ap D Cb [= <-]. exists [], m, p. split; [reflexivity|]. split; [apply took_nil|]. split; [constructor|apply kept_refl, (proj1 Rd)].
  - destruct (branch_runs [] sc 0 y _ w c a Hb Sc) as (y' & c1 & a1 & e1 & w1 & E1 & St1 & Fr1 & Ww1 & Run1). cbn [app] in Fr1.
    destruct (IH c1 a1 (scope_step Sc St1 Fr1)) as (ys' & c2 & a2 & e2 & w2 & E2 & St2 & Fr2 & Ww2 & Run2).
    exists (y' :: ys'), c2, a2, (e2 ++ e1), (w1 ++ w2). split; [|split; [exact (step_trans _ _ _ _ _ _ _ _ _ _ _ _ St1 St2)|split; [apply fresh_app; assumption|split]]].
    + cbn [amap]. rewrite (abind_done _ _ _ _ _ _ _ E1), (abind_done _ _ _ _ _ _ _ E2). reflexivity.
    + exact (writes_trans _ sc _ _ _ _ _ _ _ _ _ _ St1 (st_next _ _ _ _ _ _ _ St2) Ww1 Ww2).
    + intros bd r m p es Rd Ip Ap D Cb Fe. cbn [first snd] in Fe. fold (first bd alts r) in Fe. change (tr_alts (y' :: ys') m) with (or_else (tr_body y') (tr_alts ys') m). unfold or_else.
      destruct (Run1 bd [] r m p Rd Ip Ap D (supplied_none _ _ _ _ _ Cb)) as [Ra Rb]. cbn [snd] in Ra, Rb. cbn [taken] in Ra, Rb.
      destruct (insts (inst bd) kids r) as [[e0 r0]| |] eqn:Ek; [|clear Ra; specialize (Rb eq_refl)|discriminate].
      * injection Fe as <-. destruct (Ra e0 r0 eq_refl) as (ts & m' & q & E & G & Dr & _ & K). exists ts, m', q. rewrite E. split; [reflexivity|]. split; [exact G|]. split; [exact Dr|].
        apply (kept_incl s w1); [exact K|apply incl_appl, incl_refl].
      * destruct Rb as (e & z & E & K & Sp). rewrite E.
        assert (Rz : ready c r z). { split; [exact (proj1 K)|]. split; [exact (kept_sees Sc Ww1 K D (proj1 (proj2 Rd)))|exact (kept_stays Sc Ww1 K (proj2 (proj2 Rd)))]. }
        assert (Rz1 : ready c1 r z) by exact (proj1 (ready_step _ _ _ _ _ _ _ _ _ _ _ _ sc _ _ (sc_sound Sc) St1 Fr1 D) Rz).
        assert (Iz : ind_of s z = p) by (destruct K as (_ & I & _); congruence).
        destruct (Run2 bd r z p es Rz1 Iz Ap D Cb Fe) as (ts & m' & q & E3 & G3 & Dr3 & K3). exists ts, m', q. split; [exact E3|]. split; [exact (took_after [] _ _ _ _ Sp G3)|]. split; [exact Dr3|].
        exact (kept_trans K K3).
Qed.
Lemma try_fine own outer alts ys g : Forall2 (fun a y => body_fine [] (own ++ outer) 0 y (fun bd => insts (inst bd) (snd a)) (fst a)) alts ys ->
  (forall bd r es, calm_body bd -> first bd alts r = Is es -> calm_elems es) ->
  block_fine own own outer 0 (BTry ys) (fun bd r => inst bd r (TTry g alts)) g.
Proof.
  intros Hb Hc c a Sc. set (c0 := enter_control c). assert (Sc0 : scope own outer c0 a) by exact (scope_same c0 Sc eq_refl eq_refl).
  pose proof (scope_all _ _ _ _ Sc0) as Si. destruct (alts_fine _ alts ys Hb c0 a Si) as (ys' & c1 & a1 & ext & ws & E & St0 & Fr & Ww & Run).
  destruct (control_fine _ c a _ _ _ _ E St0) as [Ec St]. set (c' := leave_control c1) in *.
  exists (BTry ys'), c', a1, ext, ws. split; [|split; [exact St|split; [exact Fr|split; [exact (scope_step Sc St Fr)|split]]]].
  - change (an_block (BTry ys)) with (abind (control (amap (fun y => branch (an_body y)) ys)) (fun ys => aret (W := W) (BTry ys))). rewrite (abind_done _ _ _ _ _ _ _ Ec). reflexivity.
  - apply (writes_incl _ _ outer _ _ _ _ Ww). apply incl_appr, incl_refl.
  - intros bd tb r m p Rd Ip Ap D Su. change (inst bd r (TTry g alts)) with (es <: first bd alts r ;; Is (EGap g :: es, r)).
    split; [|intros Fe; orai Fe ea Ea; [destruct (first_never bd alts r Fe)|discriminate]]. intros es r' Fe. oinv Fe ea Ea. injection Fe as <- <-. pose proof (Hc bd r ea (proj1 Su) Ea) as Ca.
    destruct (Run bd r m p ea (ready_same c c0 eq_refl Rd) Ip Ap D (proj1 Su) Ea) as (ts & m1 & q & Et & G & Dr & K).
    destruct (indented_fine _ _ m m1 ts q ea _ p Et G Dr K Ip Ap) as (ts' & m2 & Ei & G' & Dr' & K' & Sees).
    exists ts', m2, (Some (map root ts')). split; [|split; [reflexivity|split; [exact G'|split; [|split; [|split; [exact K'|exact D]]]]]].
    + change (tr_block (BTry ys')) with (l <* indented s (tr_alts ys') ;; ret (Some l)). rewrite (run_bind _ _ _ _ _ Ei). reflexivity.
    + intros mg Mg. apply gap_drawn; assumption.
    + apply (sees_step s c a c' a1 ext [] [] (own ++ outer) _ _ (sc_sound Sc) St Fr D). apply Sees. exact (kept_sees Si Ww K D (sees_same s c c0 _ _ eq_refl (proj1 (proj2 Rd)))).
Qed.

(** ** Loops *)
Lemma for_fine own outer xs e y kids w g : expr_ok b (own ++ outer) e -> targets_ok outer xs ->
  body_fine (xs ++ own) outer 0 y (fun bd => insts (inst bd) kids) w ->
  (forall bd r es r', calm_body bd -> insts (inst bd) kids r = Is (es, r') -> calm_elems es) ->
  block_fine own own outer 0 (BFor (target_of xs) (cond e) (Some y) None) (fun bd r => inst bd r (TFor g xs e w kids)) g.
Proof.
  intros He [_ Hx] Hb Hc c a Sc. set (c0 := enter_control c). assert (Sc0 : scope own outer c0 a) by exact (scope_same c0 Sc eq_refl eq_refl).
  destruct (cond_goes c0 (own ++ outer) e He (scope_resolved Sc0)) as (t & Et & Mt).
  destruct (targets_fine known tag_of vis hyps sl hid xs own outer c0 a (fun x I => proj2 (Hx x I)) Sc0) as (is & c1 & a1 & e1 & E1 & St1 & Fr1 & Sc1 & Ww1 & Hs).
  destruct (Hb c1 a1 Sc1) as (y' & c2 & a2 & e2 & w2 & E2 & St2 & Fr2 & Ww2 & Run).
  assert (Fr2' : fresh_names e2 (own ++ outer)). { apply (fresh_incl _ _ _ Fr2). intros n I. rewrite <- app_assoc. apply in_or_app. right. exact I. }
  pose proof (step_trans _ _ _ _ _ _ _ _ _ _ _ _ St1 St2) as St12. cbn [app] in St12. pose proof (fresh_app _ _ _ Fr2' Fr1) as Fr12.
  set (ts' := TTargets (links xs is)).
  assert (E12 : abind (aread (fun c => an_expr c (cond e))) (fun e => abind (an_target (target_of xs)) (fun ts => abind (an_body y) (fun y => aret (e, ts, Some y, None)))) c0 a
    = (Done ((t, ts', Some y', @None body), c2), a2)).
  { rewrite (abind_done _ _ c0 a t c0 a) by (unfold aread, mbind; rewrite Et; reflexivity). unfold target_of. cbn [an_target].
    rewrite (abind_done _ _ c0 a ts' c1 a1); [|rewrite (abind_done _ _ _ _ _ _ _ E1); reflexivity]. rewrite (abind_done _ _ _ _ _ _ _ E2). reflexivity. }
  destruct (control_fine _ c a _ _ _ _ E12 St12) as [Ec St]. set (c' := leave_control c2) in *.
  assert (Ww : writes_ok outer c0 a a2 (is ++ w2)) by exact (writes_trans _ outer c0 a c1 a1 a2 e1 [] [] is w2 St1 (st_next _ _ _ _ _ _ _ St2) Ww1 Ww2).
  exists (BFor ts' t (Some y') None), c', a2, (e2 ++ e1), (is ++ w2). split; [|split; [exact St|split; [exact Fr12|split; [exact (scope_step Sc St Fr12)|split; [exact Ww|]]]]].
  - change (an_block (BFor (target_of xs) (cond e) (Some y) None)) with
      (abind (control (abind (aread (fun c => an_expr c (cond e))) (fun e => abind (an_target (target_of xs)) (fun ts => abind (an_body y) (fun y => aret (e, ts, Some y, None))))))
         (fun r : expr * target * option body * option body => let '(e, ts, y, els) := r in aret (W := W) (BFor ts e y els))).
    rewrite (abind_done _ _ _ _ _ _ _ Ec). reflexivity.
  - intros bd tb r m p Rd Ip Ap D Su. cbn [TmplSpec.inst].
    set (one := fun (p : elems * store) v => r1 <: unpack Q xs v (snd p) ;; q <: insts (inst bd) kids r1 ;; Is (fst p ++ fst q, keep r (snd q))).
    set (stp := fun x => _ <* assign P s ts' x ;; tr_body y').
    assert (Step : forall x es0 r0 m0, ready c0 r0 m0 -> ind_of s m0 = p -> incl (map fst r0) (own ++ outer) -> calm_elems es0 ->
      (forall es1 r1, one (es0, r0) x = Is (es1, r1) ->
        exists ts m' es', es1 = es0 ++ es' /\ stp x m0 = (Done (map root ts), m') /\ took [] (m_heap m0) (m_heap m') ts /\ draws (p ++ w) es' (map erase ts) /\
          ready c0 r1 m' /\ ind_of s m' = p /\ kept (is ++ w2) m0 m' /\ incl (map fst r1) (own ++ outer) /\ calm_elems es1) /\
      (one (es0, r0) x = Raises -> fell [] (is ++ w2) m0 (stp x m0))).
    { intros x es0 r0 m0 (L0 & Se0 & Th0) Ip0 D0 Ca. unfold one. cbn [fst snd].
      assert (Se1 : sees c1 r0 m0) by (apply (sees_step s _ _ _ _ _ _ _ _ _ _ (sc_sound Sc0) St1 Fr1 D0), Se0).
      destruct (unpack Q xs x r0) as [r1| |] eqn:Er1; cbn [oseq]; [|split; [discriminate|intros _]|split; discriminate].
      2:{ apply fell_bind. apply (fell_incl is); [|apply incl_appl, incl_refl]. exact (unpack_fails P Q AG known s vis hyps sl hid _ _ _ _ xs is x r0 m0 Sc1 Hs L0 Se1 Er1). }
      destruct (unpack_fine P Q AG known s vis hyps sl hid _ _ _ _ xs is x r0 r1 m0 Sc1 Hs L0 Se1 Er1) as (m1 & Ea & Hh & Se2 & K1 & Dm).
      assert (Th1 : stays m1) by exact (kept_stays Sc0 Ww1 K1 Th0).
      assert (D1 : incl (map fst r1) ((xs ++ own) ++ outer)).
      { intros n I. apply Dm in I. rewrite <- app_assoc. apply in_app_or in I. apply in_or_app. destruct I as [I|I]; [left; exact I|right; exact (D0 n I)]. }
      assert (Ip1 : ind_of s m1 = p) by (destruct K1 as (_ & I & _); congruence).
      destruct (Run bd tb r1 m1 p (conj (proj1 K1) (conj Se2 Th1)) Ip1 Ap D1 (supplied_none _ _ _ _ _ (proj1 Su))) as [Ra Rb]. split.
      2:{ intros Fe. orai Fe q Eq1; [|discriminate]. apply (fell_then Ea); [apply (kept_incl s is); [exact K1|apply incl_appl, incl_refl]|rewrite Hh; apply spared_refl|].
        apply (fell_incl w2); [exact (Rb Fe)|apply incl_appr, incl_refl]. }
      intros es3 r3 Fe. oinv Fe q Eq1. injection Fe as <- <-. destruct q as [es1 r2]. cbn [fst snd] in *.
      destruct (Ra es1 r2 Eq1) as (t1 & m2 & Tb & G1 & Dr1 & Se3 & K2).
      pose proof (kept_trans K1 K2) as K12. exists t1, m2, es1. split; [reflexivity|]. split; [unfold stp; rewrite (run_bind _ _ _ _ _ Ea); exact Tb|].
      split; [rewrite <- Hh; exact G1|]. split; [exact Dr1|].
      assert (Dk : incl (map fst (keep r r2)) (own ++ outer)) by (intros n I; apply D, (keep_dom r r2), I).
      split; [split; [exact (proj1 K2)|split]|split; [destruct K2 as (_ & I & _); congruence|split; [exact K12|split; [exact Dk|]]]].
      - apply (sees_step s _ _ _ _ _ _ _ (own ++ outer) _ _ (sc_sound Sc0) St1 Fr1 Dk).
        apply (sees_step s _ _ _ _ _ _ _ (own ++ outer) _ _ (sc_sound Sc1) St2 Fr2' Dk). apply sees_keep, Se3.
      - exact (kept_stays Sc0 Ww K12 Th0).
      - apply calm_app; [exact Ca|]. exact (Hc _ _ _ _ (proj1 Su) Eq1). }
    assert (Loop : forall l es0 r0 m0, ready c0 r0 m0 -> ind_of s m0 = p -> incl (map fst r0) (own ++ outer) -> calm_elems es0 ->
      (forall es rl, ofold one l (es0, r0) = Is (es, rl) ->
        exists ts m' es', es = es0 ++ es' /\ mconcat stp l m0 = (Done (map root ts), m') /\ took [] (m_heap m0) (m_heap m') ts /\ draws (p ++ w) es' (map erase ts) /\
          sees c0 rl m' /\ kept (is ++ w2) m0 m' /\ incl (map fst rl) (own ++ outer) /\ calm_elems es) /\
      (ofold one l (es0, r0) = Raises -> fell [] (is ++ w2) m0 (mconcat stp l m0))).
    { induction l as [|x l IHl]; intros es0 r0 m0 Rd0 Ip0 D0 Ca; cbn [ofold].
      - split; [|discriminate]. intros es rl [= <- <-]. exists [], m0, []. split; [rewrite app_nil_r; reflexivity|]. split; [reflexivity|]. split; [apply took_nil|]. split; [constructor|].
        split; [exact (proj1 (proj2 Rd0))|]. split; [apply (kept_incl s []); [apply kept_refl, (proj1 Rd0)|intros z []]|]. split; [exact D0|exact Ca].
      - destruct (Step x es0 r0 m0 Rd0 Ip0 D0 Ca) as [Sa Sb]. destruct (one (es0, r0) x) as [[es1 r1]| |] eqn:E1'; cbn [oseq]; [|split; [discriminate|intros _; cbn [mconcat]; apply fell_bind, Sb; reflexivity]|split; discriminate].
        destruct (Sa es1 r1 eq_refl) as (t1 & m2 & es' & -> & Tb & G1 & Dr1 & Rd1 & Ip1 & K1 & D1 & Ca1).
        destruct (IHl (es0 ++ es') r1 m2 Rd1 Ip1 D1 Ca1) as [La Lb]. split; [|intros Fe; cbn [mconcat]; apply (fell_then Tb K1 (took_spared _ _ _ _ G1)), fell_bind, Lb, Fe].
        intros es rl Fe. destruct (La es rl Fe) as (t2 & m3 & es2 & -> & Tl & G2 & Dr2 & Se5 & K3 & D3 & Ca2).
        exists (t1 ++ t2), m3, (es' ++ es2). split; [rewrite app_assoc; reflexivity|]. split; [|split; [|split; [rewrite map_app; apply draws_app; assumption|split; [exact Se5|split; [|split; assumption]]]]].
        + cbn [mconcat]. rewrite (run_bind _ _ _ _ _ Tb), (run_bind _ _ _ _ _ Tl), map_app. reflexivity.
        + exact (took_app [] [] _ _ _ _ _ G1 G2 (fun i (K : In i []) => match K with end)).
        + apply (kept_incl s ((is ++ w2) ++ (is ++ w2))); [exact (kept_trans K1 K3)|]. apply incl_app; apply incl_refl. }
    clear Step.
    set (whole := v <* eval t ;; ie <* iterate P v ;;
          let (items, err) := (ie : list val * option exn) in
          l <* for_loop stp items err ;;
          match items, @None body with
          | [], Some z => tr_body z
          | _, _ => ret l
          end).
    assert (Tb : tr_block (BFor ts' t (Some y') None) = (l <* indented s whole ;; ret (Some l))) by reflexivity.
    pose proof (Mt m r (sees_same s c c0 r m eq_refl (proj1 (proj2 Rd)))) as Tv. split.
    2:{ intros Fe. rewrite Tb. apply fell_bind. unfold indented. apply fell_bind. unfold whole. orai Fe v Ev; [apply fell_bind, (fell_stuck (proj1 Rd)); exact (tells_stuck _ _ _ Tv Fe)|].
      rewrite (run_bind _ _ _ _ _ (tells_is _ _ _ _ Tv Ev)). orai Fe l El.
      { apply fell_bind, (fell_stuck (proj1 Rd)). pose proof (iterate_tells P Q AG v m) as K. rewrite Fe in K. exact (tells_stuck _ _ _ K eq_refl). }
      rewrite (run_bind _ _ _ _ _ (iterate_done P Q AG v l m El)). apply fell_bind. unfold for_loop. apply fell_bind. orai Fe pr Ep; [|discriminate].
      exact (proj2 (Loop l [] r m (ready_same c c0 eq_refl Rd) Ip D Logic.I) Fe). }
    intros es r' Fe. oinv Fe v Ev. oinv Fe l El. oinv Fe pr Ep. injection Fe as <- <-. destruct pr as [es rl]. cbn [fst snd].
    destruct (proj1 (Loop l [] r m (ready_same c c0 eq_refl Rd) Ip D Logic.I) es rl Ep) as (ts & m1 & es' & -> & El' & G & Dr & Se & K & Dl & Ca). cbn [app] in *.
    assert (Ew : whole m = (Done (map root ts), m1)).
    { unfold whole. rewrite (run_bind _ _ _ _ _ (tells_is _ _ _ _ Tv Ev)). rewrite (run_bind _ _ _ _ _ (iterate_done P Q AG v l m El)).
      unfold for_loop. rewrite (run_bind _ _ m (map root ts) m1); [destruct l; reflexivity|]. rewrite (run_bind _ _ _ _ _ El'). reflexivity. }
    destruct (indented_fine _ whole m m1 ts _ es' _ p Ew G Dr K Ip Ap) as (ts2 & m2 & Ei & G' & Dr' & K' & Sees).
    exists ts2, m2, (Some (map root ts2)). split; [|split; [reflexivity|split; [exact G'|split; [|split; [|split; [exact K'|exact Dl]]]]]].
    + rewrite Tb. rewrite (run_bind _ _ _ _ _ Ei). reflexivity.
    + intros mg Mg. apply gap_drawn; assumption.
    + apply (sees_step s c a c' a2 (e2 ++ e1) [] [] (own ++ outer) _ _ (sc_sound Sc) St Fr12 Dl). apply Sees. exact Se.
Qed.

Lemma while_fine own outer e y kids w els d g : expr_ok b (own ++ outer) e -> raw_els els d ->
  body_fine own outer 0 y (fun bd => insts (inst bd) kids) w ->
  (forall w kids y, els = Some (w, kids) -> raw_body (w, kids) (Some y) -> body_fine own outer 0 y (fun bd => insts (inst bd) kids) w) ->
  (forall bd r es r', calm_body bd -> insts (inst bd) kids r = Is (es, r') -> calm_elems es) ->
  (forall bd w kids r es r', els = Some (w, kids) -> calm_body bd -> insts (inst bd) kids r = Is (es, r') -> calm_elems es) ->
  block_fine own own outer 0 (BWhile (cond e) (Some y) d) (fun bd r => inst bd r (TWhile g e w kids els)) g.
Proof.
  intros He Hd Hb Hbe Hc Hce c a Sc. set (c0 := enter_control c). assert (Sc0 : scope own outer c0 a) by exact (scope_same c0 Sc eq_refl eq_refl).
  destruct (cond_goes c0 (own ++ outer) e He (scope_resolved Sc0)) as (t & Et & Mt).
  destruct (Hb c0 a Sc0) as (y' & c1 & a1 & e1 & w1 & E1 & St1 & Fr1 & Ww1 & Run1).
  assert (Eb : abind (aread (fun c => an_expr c (cond e))) (fun t => abind (abind (an_body y) (fun y => aret (Some y))) (fun y => aret (t, y))) c0 a = (Done ((t, Some y'), c1), a1)).
  { rewrite (abind_done _ _ c0 a t c0 a) by (unfold aread, mbind; rewrite Et; reflexivity). rewrite (abind_done _ _ c0 a (Some y') c1 a1); [reflexivity|]. rewrite (abind_done _ _ _ _ _ _ _ E1). reflexivity. }
  destruct (branch_fine _ c0 a (t, Some y') c1 a1 e1 (sc_sound Sc0) Eb St1) as (c2 & e2 & E2 & St2 & Inc).
  pose proof (fresh_sub _ _ _ Fr1 Inc) as Fr2. pose proof (scope_step Sc0 St2 Fr2) as Sc2.
  destruct (els_fine own outer 0 els d c2 a1 Hd Hbe Sc2) as (d' & c3 & a3 & e3 & w3 & E3 & St3 & Fr3 & Ww3 & Run3).
  apply (runs_step own outer 0 c0 a c2 a1 e2 _ _ _ (sc_sound Sc0) St2 Fr2) in Run3.
  pose proof (step_trans _ _ _ _ _ _ _ _ _ _ _ _ St2 St3) as St23. cbn [app] in St23. pose proof (fresh_app _ _ _ Fr3 Fr2) as Fr23.
  assert (E23 : abind (an_clause (cond e, Some y)) (fun ty => abind (an_els d) (fun els => aret (ty, els))) c0 a = (Done (((t, Some y'), d'), c3), a3)).
  { change (an_clause (cond e, Some y)) with (branch (abind (aread (W := W) (fun c => an_expr c (cond e))) (fun t => abind (abind (an_body y) (fun y => aret (Some y))) (fun y => aret (t, y))))).
    rewrite (abind_done _ _ _ _ _ _ _ E2), (abind_done _ _ _ _ _ _ _ E3). reflexivity. }
  destruct (control_fine _ c a _ _ _ _ E23 St23) as [Ec St]. set (c' := leave_control c3) in *.
  assert (Ww : writes_ok outer c0 a a3 (w1 ++ w3)) by exact (writes_trans _ outer _ _ _ _ _ _ _ _ _ _ St2 (st_next _ _ _ _ _ _ _ St3) Ww1 Ww3).
  assert (Ww1' : writes_ok outer c0 a a3 w1) by (intros z I; apply Ww, in_or_app; left; exact I).
  exists (BWhile t (Some y') d'), c', a3, (e3 ++ e2), (w1 ++ w3). split; [|split; [exact St|split; [exact Fr23|split; [exact (scope_step Sc St Fr23)|split; [exact Ww|]]]]].
  - change (an_block (BWhile (cond e) (Some y) d)) with
      (abind (control (abind (an_clause (cond e, Some y)) (fun ty => abind (an_els d) (fun els => aret (ty, els))))) (fun r => aret (W := W) (BWhile (fst (fst r)) (snd (fst r)) (snd r)))).
    rewrite (abind_done _ _ _ _ _ _ _ Ec). reflexivity.
  - intros bd tb r m p Rd Ip Ap D Su. cbn [TmplSpec.inst].
    set (test := fun p0 : bool * (elems * store) => v <: den Q (snd (snd p0)) e ;; bool_of Q v).
    set (one := fun p0 : bool * (elems * store) => q <: insts (inst bd) kids (snd (snd p0)) ;; Is (true, (fst (snd p0) ++ fst q, keep r (snd q)))).
    set (tst := v <* eval t ;; truth P v).
    assert (Test : forall f es0 r0 m0, ready c0 r0 m0 -> tells (test (f, (es0, r0))) (tst m0) m0).
    { intros f es0 r0 m0 (_ & Se0 & _). unfold test, tst. cbn [snd]. pose proof (Mt m0 r0 Se0) as Tv. destruct (den Q r0 e) as [v| |] eqn:Ev; cbn [oseq].
      - destruct (bool_of Q v) as [bv| |] eqn:Etb; [|destruct (bool_never Q v Etb)|exact Logic.I]. cbn [tells]. rewrite (run_bind _ _ _ _ _ (tells_is _ _ _ _ Tv eq_refl)). exact (truth_done P Q AG v bv m0 Etb).
      - cbn [tells] in *. destruct Tv as [xn Tv]. exists xn. unfold mbind. rewrite Tv. reflexivity.
      - exact Logic.I. }
    assert (Step : forall f es0 r0 m0, ready c0 r0 m0 -> ind_of s m0 = p -> incl (map fst r0) (own ++ outer) -> calm_elems es0 ->
      (forall p1, one (f, (es0, r0)) = Is p1 ->
        exists ts m' es' r1, p1 = (true, (es0 ++ es', r1)) /\ tr_body y' m0 = (Done (map root ts), m') /\ took [] (m_heap m0) (m_heap m') ts /\ draws (p ++ w) es' (map erase ts) /\
          ready c0 r1 m' /\ ind_of s m' = p /\ kept w1 m0 m' /\ incl (map fst r1) (own ++ outer) /\ calm_elems (es0 ++ es')) /\
      (one (f, (es0, r0)) = Raises -> fell [] w1 m0 (tr_body y' m0))).
    { intros f es0 r0 m0 Rd0 Ip0 D0 Ca. unfold one. cbn [fst snd].
      destruct (Run1 bd tb r0 m0 p Rd0 Ip0 Ap D0 (supplied_none _ _ _ _ _ (proj1 Su))) as [Ra Rb]. split.
      2:{ intros Fe. orai Fe q Eq1; [|discriminate]. apply Rb, Fe. }
      intros p1 Fe. oinv Fe q Eq1. injection Fe as <-. destruct q as [es1 r2]. cbn [fst snd] in *.
      destruct (Ra es1 r2 Eq1) as (t1 & m2 & Tb & G1 & Dr1 & Se3 & K2).
      assert (Dk : incl (map fst (keep r r2)) (own ++ outer)) by (intros n I; apply D, (keep_dom r r2), I).
      exists t1, m2, es1, (keep r r2). split; [reflexivity|]. split; [exact Tb|]. split; [exact G1|]. split; [exact Dr1|].
      split; [split; [exact (proj1 K2)|split]|split; [destruct K2 as (_ & I & _); congruence|split; [exact K2|split; [exact Dk|]]]].
      - apply (sees_step s _ _ _ _ _ _ _ (own ++ outer) _ _ (sc_sound Sc0) St1 Fr1 Dk). apply sees_keep, Se3.
      - exact (kept_stays Sc0 Ww1' K2 (proj2 (proj2 Rd0))).
      - apply calm_app; [exact Ca|]. exact (Hc _ _ _ _ (proj1 Su) Eq1). }
    assert (Loop : forall n k f es0 r0 m0 acc, n <= k -> ready c0 r0 m0 -> ind_of s m0 = p -> incl (map fst r0) (own ++ outer) -> calm_elems es0 ->
      (forall f' es rl, oloop test one n (f, (es0, r0)) = Is (f', (es, rl)) ->
        exists ts m' es', es = es0 ++ es' /\ while_loop tst (tr_body y') k (negb f) acc m0 = (Done (negb f', acc ++ map root ts), m') /\ took [] (m_heap m0) (m_heap m') ts /\
          draws (p ++ w) es' (map erase ts) /\ sees c0 rl m' /\ kept w1 m0 m' /\ incl (map fst rl) (own ++ outer) /\ calm_elems es /\ (f' = false -> f = false /\ rl = r0 /\ m' = m0)) /\
      (oloop test one n (f, (es0, r0)) = Raises -> fell [] w1 m0 (while_loop tst (tr_body y') k (negb f) acc m0))).
    { induction n as [|n IHn]; intros k f es0 r0 m0 acc Lk Rd0 Ip0 D0 Ca; [split; discriminate|]. destruct k as [|k]; [lia|]. cbn [oloop while_loop].
      pose proof (Test f es0 r0 m0 Rd0) as Tt. destruct (test (f, (es0, r0))) as [bv| |] eqn:Etb; cbn [oseq].
      2:{ split; [discriminate|]. intros _. apply fell_bind, (fell_stuck (proj1 Rd0)). exact (tells_stuck _ _ _ Tt eq_refl). }
      2:{ split; discriminate. }
      pose proof (tells_is _ _ _ _ Tt eq_refl) as Tb0. destruct bv.
      - destruct (Step f es0 r0 m0 Rd0 Ip0 D0 Ca) as [Sa Sb]. destruct (one (f, (es0, r0))) as [p1| |] eqn:E1'; cbn [oseq].
        2:{ split; [discriminate|]. intros _. rewrite (run_bind _ _ _ _ _ Tb0). apply fell_bind, Sb. reflexivity. }
        2:{ split; discriminate. }
        destruct (Sa p1 eq_refl) as (t1 & m2 & es' & r1 & -> & Tb & G1 & Dr1 & Rd1 & Ip1 & K1 & D1 & Ca1).
        destruct (IHn k true (es0 ++ es') r1 m2 (acc ++ map root t1) (le_S_n _ _ Lk) Rd1 Ip1 D1 Ca1) as [La Lb]. split.
        2:{ intros Fe. rewrite (run_bind _ _ _ _ _ Tb0). apply (fell_then Tb K1 (took_spared _ _ _ _ G1)), Lb, Fe. }
        intros f' es rl Fe. destruct (La f' es rl Fe) as (t2 & m3 & es2 & -> & Tl & G2 & Dr2 & Se5 & K3 & D3 & Ca2 & Nf).
        exists (t1 ++ t2), m3, (es' ++ es2). split; [rewrite app_assoc; reflexivity|]. split; [|split; [|split; [rewrite map_app; apply draws_app; assumption|split; [exact Se5|split; [|split; [exact D3|split; [exact Ca2|]]]]]]].
        + rewrite (run_bind _ _ _ _ _ Tb0), (run_bind _ _ _ _ _ Tb). rewrite map_app, app_assoc. exact Tl.
        + exact (took_app [] [] _ _ _ _ _ G1 G2 (fun i (K : In i []) => match K with end)).
        + apply (kept_incl s (w1 ++ w1)); [exact (kept_trans K1 K3)|]. apply incl_app; apply incl_refl.
        + intros F. destruct (Nf F) as [F' _]. discriminate.
      - split; [|discriminate]. intros f' es rl [= <- <- <-]. exists [], m0, []. split; [rewrite app_nil_r; reflexivity|]. split; [rewrite (run_bind _ _ _ _ _ Tb0), app_nil_r; reflexivity|]. split; [apply took_nil|]. split; [constructor|].
        split; [exact (proj1 (proj2 Rd0))|]. split; [apply (kept_incl s []); [apply kept_refl, (proj1 Rd0)|intros z []]|]. split; [exact D0|]. split; [exact Ca|]. intros F. auto. }
    clear Step Test.
    set (whole := rr <* while_loop tst (tr_body y') loops true [] ;;
          match rr, d' with
          | (true, _), Some z => tr_body z
          | (_, l), _ => ret l
          end).
    assert (Tb : tr_block (BWhile t (Some y') d') = (l <* indented s whole ;; ret (Some l))) by reflexivity.
    pose proof (ready_same c c0 eq_refl Rd) as Rd0.
    assert (Su0 : supplied outer 0 c0 bd tb m) by exact (supplied_none _ _ _ _ _ (proj1 Su)).
    destruct (Loop lim loops false [] r m [] Hlim Rd0 Ip D Logic.I) as [La Lb]. cbn [negb] in La, Lb.
    assert (Hde : match els, d' with Some _, None | None, Some _ => False | _, _ => True end).
    { inversion Hd as [|y0 d0 Hy]; subst; cbn [an_els] in E3; [injection E3 as <- _ _; exact Logic.I|]. destruct d'; [exact Logic.I|].
      unfold abind, mbind in E3. destruct (branch (an_body (YElse d0)) c2 a1) as [[[]| |] ?]; discriminate. }
    split.
    2:{ intros Fe. rewrite Tb. apply fell_bind. unfold indented. apply fell_bind. unfold whole. orai Fe pr Ep; [apply fell_bind, (fell_incl w1); [exact (Lb Fe)|apply incl_appl, incl_refl]|].
      destruct pr as [f [es rl]]. cbn [fst snd] in Fe. destruct f; [discriminate|]. destruct els as [[we ke]|]; [|discriminate]. orai Fe q Eq1; [|discriminate].
      destruct (La false es rl Ep) as (ts & m1 & es' & -> & El & _ & _ & _ & _ & _ & _ & Nf). destruct (Nf eq_refl) as (_ & -> & ->). destruct d' as [z|]; [|destruct Hde].
      rewrite (run_bind _ _ _ _ _ El). cbn [negb]. apply (fell_incl w3); [exact (proj2 (Run3 bd tb r m p Rd0 Ip Ap D Su0) Fe)|apply incl_appr, incl_refl]. }
    intros es r' Fe. oinv Fe pr Ep. destruct pr as [f [es1 rl]]. cbn [fst snd] in Fe.
    destruct (La f es1 rl Ep) as (ts & m1 & es' & -> & El & G & Dr & Se & K & Dl & Ca & Nf). cbn [app] in *.
    assert (Fin : exists ts m1 q es0, es = EGap g :: es0 /\ whole m = (Done (map root ts), m1) /\ took [] (m_heap m) (m_heap m1) ts /\ draws q es0 (map erase ts) /\ sees c0 r' m1 /\ kept (w1 ++ w3) m m1 /\
      incl (map fst r') (own ++ outer) /\ calm_elems es0).
    { assert (K' : kept (w1 ++ w3) m m1) by (apply (kept_incl s w1); [exact K|apply incl_appl, incl_refl]).
      destruct f; [|destruct els as [[we ke]|]].
      - injection Fe as <- <-. exists ts, m1, (p ++ w), es'. split; [reflexivity|]. split; [unfold whole; rewrite (run_bind _ _ _ _ _ El); reflexivity|]. auto 10.
      - oinv Fe q Eq1. injection Fe as <- <-. destruct q as [es2 r2]. cbn [fst snd] in *. destruct (Nf eq_refl) as (_ & -> & ->). destruct d' as [z|]; [|destruct Hde].
        destruct (proj1 (Run3 bd tb r m p Rd0 Ip Ap D Su0) es2 r2 Eq1) as (t3 & m3 & q & Ez & G3 & Dr3 & Se3 & K3).
        exists t3, m3, q, es2. split; [reflexivity|]. split; [unfold whole; rewrite (run_bind _ _ _ _ _ El); exact Ez|]. split; [exact G3|]. split; [exact Dr3|]. split; [exact Se3|].
        split; [apply (kept_incl s w3); [exact K3|apply incl_appr, incl_refl]|]. split; [intros n I; apply D, (keep_dom r r2), I|]. exact (Hce _ _ _ _ _ _ eq_refl (proj1 Su) Eq1).
      - destruct d' as [z|]; [destruct Hde|]. injection Fe as <- <-. exists ts, m1, (p ++ w), es'. split; [reflexivity|]. split; [unfold whole; rewrite (run_bind _ _ _ _ _ El); reflexivity|]. auto 10. }
    destruct Fin as (tf & mf & q & es0 & -> & Ew & Gf & Df & Sf & Kf & Dlf & Caf).
    destruct (indented_fine _ whole m mf tf _ es0 _ p Ew Gf Df Kf Ip Ap) as (ts2 & m2 & Ei & G' & Dr' & K' & Sees).
    exists ts2, m2, (Some (map root ts2)). split; [|split; [reflexivity|split; [exact G'|split; [|split; [|split; [exact K'|exact Dlf]]]]]].
    + rewrite Tb. rewrite (run_bind _ _ _ _ _ Ei). reflexivity.
    + intros mg Mg. apply gap_drawn; assumption.
    + apply (sees_step s c a c' a3 (e3 ++ e2) [] [] (own ++ outer) _ _ (sc_sound Sc) St Fr23 Dlf). apply Sees. exact Sf.
Qed.

(** ** Hypertags *)
Definition body_drawn (x : option elems) (tb : list tree) : Prop :=
  match x with None => tb = [] | Some eb => calm_elems eb /\ exists q, draws q eb (outlined (map erase tb)) end.
(** The expansion of a hypertag gives what its meaning says. *)
Definition behaves (h : hyp) : Prop :=
  forall m r pos kw x tb p, live s m -> stays m -> gets r m -> ind_of s m = p -> absolute p = true ->
    NoDup (map fst kw) -> body_drawn x tb -> Forall (repr (m_heap m)) tb -> NoDup (all_ids tb) ->
    (forall es, snd (fst h) r pos kw x = Is es -> exists t m' q, ex (fst (snd h)) (VDom (map root tb)) pos kw s m = (Done [root t], m') /\ took (all_ids tb) (m_heap m) (m_heap m') [t] /\
      draws q [EHyper 0 es] (outlined [erase t]) /\ kept hid m m') /\
    (snd (fst h) r pos kw x = Raises -> fell (all_ids tb) hid m (ex (fst (snd h)) (VDom (map root tb)) pos kw s m)).
Hypothesis BH : Forall behaves hyps.

Lemma find_hyp n f : find_meaning n (map fst hyps) = Some f -> exists d, In ((n, f), d) hyps.
Proof.
  clear BH. induction hyps as [|[[y g] d] l IH]; cbn [map fst find_meaning]; intros E; [discriminate|]. destruct (str_eqb n y) eqn:Ey.
  - apply str_eqb_eq in Ey. subst y. injection E as ->. exists d. left. reflexivity.
  - destruct (IH E) as [d' I]. exists d'. right. exact I.
Qed.
Lemma hyper_margin p k es mg ss : draws p [EHyper 0 es] ss -> mgn p k mg -> draws p [EHyper k es] (mg ++ ss).
Proof.
  intros H Mg. inversion H as [|? ? ? a r He Hl]; subst. inversion Hl; subst. inversion He as [| | | |? ? ? mg0 ss f M0 Hd Hc Hf]; subst. cbn [mgn] in M0. subst mg0. cbn [app].
  rewrite <- (app_nil_r (mg ++ _)). constructor; [|constructor]. econstructor; eassumption.
Qed.

Lemma use_fine own outer u h t y (FB : option elems -> store -> ans (option elems)) k :
  use_ok b (own ++ outer) h -> In (fst (fst h)) hy -> raw_use h t ->
  (forall c a, scope [] (own ++ outer) c a -> exists y' c' a' ext ws,
    an_body y c a = (Done (y', c'), a') /\ step c a c' a' ext [] [] /\ writes_ok (own ++ outer) c a a' ws /\
    forall bd tb r m p, ready c r m -> ind_of s m = p -> absolute p = true -> incl (map fst r) (own ++ outer) -> supplied (own ++ outer) u c bd tb m ->
      (forall x, FB bd r = Is x ->
        exists ts m', tr_body y' m = (Done (map root ts), m') /\ took (taken u tb) (m_heap m) (m_heap m') ts /\ body_drawn x ts /\ kept ws m m') /\
      (FB bd r = Raises -> fell (taken u tb) ws m (tr_body y' m))) ->
  block_fine own own outer u (BStruct [t] y)
    (fun bd r => x <: FB bd r ;; a <: inst_use Q r h ;; f <: given_by (find_meaning (fst (fst h)) (map fst hyps)) ;; es <: f r (fst a) (snd a) x ;; Is ([EHyper k es], r)) k.
Proof.
  intros Hu Hin Hr Hy c a S. pose proof (scope_inner S) as Si. destruct (sc_tags Si _ (or_intror Hin)) as (x0 & Gx & Ex).
  assert (Hkn : exists f d hd, In ((fst (fst h), f), (d, hd)) hyps).
  { apply in_map_iff in Hin. destruct Hin as ([[n f] [d hd]] & En & Ih). exists f, d, hd. unfold hyp_name in En. cbn [fst] in En. rewrite <- En. exact Ih. }
  destruct (use_goes P Q AG ex s b (enter_regular c) (own ++ outer) (scope_resolved S) h t x0 Hu Hr Gx) as (t' & Et & Rt).
  destruct (Hy (enter_regular c) a Si) as (y' & c1 & a1 & ext & ws & Ey & St & Ww & Ry).
  assert (Et' : rmap (an_tag (enter_regular c)) [t] = Ok [t']) by (cbn [rmap]; rewrite Et; reflexivity).
  destruct (struct_an c a [t] [t'] y y' c1 a1 ext Et' Ey St) as (c' & Ea0 & St').
  assert (Ww2 : writes_ok (own ++ outer) (enter_regular c) a a1 (ws ++ hid)) by (apply writes_app; [exact Ww|apply writes_hid]).
  exists (BStruct [t'] y'), c', a1, [], (ws ++ hid). split; [exact Ea0|split; [exact St'|split; [apply fresh_nil|split; [exact (scope_step S St' (fresh_nil _))|split; [exact (writes_inner _ _ _ _ _ _ Ww2)|]]]]].
  intros bd tb r m p Rd Ip Ap D Su. destruct Rd as (L & Se & Th). cbn beta.
  destruct (Ry bd tb r m p (conj L (conj Se Th)) Ip Ap D (supplied_inner own _ _ _ _ _ _ Su)) as [Ry1 Ry2].
  destruct (FB bd r) as [x| |] eqn:Exb; cbn [oseq]; [|split; [discriminate|]|split; discriminate].
  2:{ intros _. cbn [Translate.tr_block]. apply fell_bind. unfold indented. apply fell_bind, fell_bind, (fell_incl ws); [exact (Ry2 eq_refl)|apply incl_appl, incl_refl]. }
  destruct (Ry1 x eq_refl) as (ts & m1 & Eb & G & Hb & K).
  assert (Se1 : sees (enter_regular c) r m1) by exact (kept_sees Si Ww K D Se).
  assert (Th1 : stays m1) by exact (kept_stays Si Ww K Th).
  assert (Fail : fell (all_ids ts) (ws ++ hid) m1 (tr_tag P ex s t' (map root ts) m1) -> fell (taken u tb) (ws ++ hid) m (tr_block (BStruct [t'] y') m)).
  { intros F. cbn [Translate.tr_block]. apply fell_bind. unfold indented. apply fell_bind. rewrite (run_bind _ _ _ _ _ Eb). unfold apply_tags. cbn [rev app mfold].
    apply (fell_on (m1 := m1) (all_ids ts)); [apply (kept_incl s ws); [exact K|apply incl_appl, incl_refl]|exact (took_spared _ _ _ _ G)| |apply fell_bind, F].
    intros i I Li. destruct G as (_ & _ & _ & _ & G). destruct (G i I) as [Z|Z]; [lia|exact Z]. }
  assert (Ip1 : ind_of s m1 = p) by (destruct K as (_ & Ki & _); congruence).
  pose proof G as (_ & _ & Rp & Nd & _). rewrite Forall_forall in BH.
  assert (Vx : forall f d hd, In ((fst (fst h), f), (d, hd)) hyps -> slot_value m1 s (sl_id x0) = Some (VHyper d)).
  { intros f d hd Ih. rewrite Ex. destruct Th1 as [_ Th1]. destruct (Th1 _ _ _ _ Ih) as [V _]. exact V. }
  split.
  2:{ intros Fe. apply Fail. destruct Hkn as (f & d & hd & Ih). orai Fe ag Ea; [apply (fell_stuck (proj1 K)); exact (proj2 (Rt m1 r d Se1 (Vx _ _ _ Ih) (map root ts)) Fe)|]. clear f d hd Ih.
    orai Fe f Ef; [destruct (find_meaning _ _); discriminate|]. destruct (find_hyp _ _ (given_is _ _ Ef)) as [[d hd] Ih].
    rewrite (proj1 (Rt m1 r d Se1 (Vx _ _ _ Ih) (map root ts)) ag Ea). orai Fe es Ee; [|discriminate].
    apply (fell_incl hid); [|apply incl_appr, incl_refl]. exact (proj2 (BH _ Ih m1 r (fst ag) (snd ag) x ts p (proj1 K) Th1 (sees_gets _ _ _ _ _ _ _ _ _ _ _ _ Si Se1) Ip1 Ap (use_keys _ _ _ _ Ea) Hb Rp Nd) Fe). }
  intros es0 r' Fe. oinv Fe ag Ea. oinv Fe f Ef. oinv Fe es Ee. injection Fe as <- <-.
  destruct (find_hyp _ _ (given_is _ _ Ef)) as [[d hd] Ih].
  pose proof (proj1 (Rt m1 r d Se1 (Vx _ _ _ Ih) (map root ts)) ag Ea) as Er.
  destruct (proj1 (BH _ Ih m1 r (fst ag) (snd ag) x ts p (proj1 K) Th1 (sees_gets _ _ _ _ _ _ _ _ _ _ _ _ Si Se1) Ip1 Ap (use_keys _ _ _ _ Ea) Hb Rp Nd) es Ee) as (tr & m2 & q & E2 & G2 & Dr & K2).
  cbn [fst snd] in E2.
  destruct (placed_draws known (p_ren P) tag_of p q _ _ Dr) as (s2 & Pl & Dr2). destruct (placed_outlined p [erase tr] s2 Pl) as (ss' & Pl' & <-).
  destruct (took_place _ _ _ _ [tr] ss' Ap (took_on _ _ _ _ _ _ G G2) Pl') as (h2 & ts2 & Ep & G3 & Ro & Ers).
  assert (K12 : kept (ws ++ hid) m m2) by exact (kept_trans K K2).
  exists ts2, (with_heap m2 h2), (Some [root tr]). split; [|split; [symmetry; exact Ro|split; [exact G3|split; [|split; [|split; [|exact D]]]]]].
  - cbn [Translate.tr_block]. rewrite (run_bind _ _ m [root tr] (with_heap m2 h2)); [reflexivity|]. unfold indented.
    rewrite (run_bind _ _ m [root tr] m2).
    + unfold mbind, get_ind. change (s_indent (state_at m2 s)) with (ind_of s m2). destruct K12 as (_ & Ki & _). rewrite Ki, Ip.
      unfold do_set_indent, lift_h. cbn [map] in Ep. rewrite Ep. reflexivity.
    + rewrite (run_bind _ _ _ _ _ Eb). unfold apply_tags. cbn [rev app fold_left mfold map]. unfold mbind, ret. rewrite Er, E2. reflexivity.
  - intros mg Mg. rewrite Ers. apply hyper_margin; assumption.
  - apply (sees_step s _ _ _ _ _ _ _ (own ++ outer) r _ (sc_sound S) St' (fresh_nil _) D).
    apply (kept_sees (a := a) (a' := a1) (ws := ws ++ hid) (outer := own ++ outer) Si Ww2 (m := m)); [|exact D|exact Se]. exact K12.
  - exact K12.
Qed.

Lemma call_fine own outer h t x d k : use_ok b (own ++ outer) h -> In (fst (fst h)) hy -> raw_use h t -> raw_inline (List.length (use_text b h) + 2) x d ->
  (forall k z, x = Some (k, z) -> para_ok b (own ++ outer) k z) ->
  block_fine own own outer 0 (BStruct [t] d) (fun bd r => inst bd r (TUse k h x)) k.
Proof.
  intros Hu Hin Hr Hi Hc.
  apply (use_fine own outer 0 h t d (fun _ r => match x with Some (k, x) => x <: inst_text Q r k (List.length (use_text b h) + 2) x ;; Is (Some [EText 0 x]) | None => Is None end) k Hu Hin Hr).
  intros c0 a Sx. set (lead := List.length (use_text b h) + 2) in *. assert (Hl : 0 < lead) by (unfold lead; lia). clearbody lead. inversion Hi as [|k0 z ls Hx]; subst.
  - exists (YItems []), c0, a, [], []. split; [reflexivity|]. split; [apply step_refl, (sc_sound Sx)|]. split; [apply writes_nil|].
    intros bd tb r m p (L & Se & Th) Ip Ap D Su. split; [intros es [= <-]|discriminate]. exists [], m. split; [|split; [apply took_nil|split; [reflexivity|apply kept_refl, L]]].
    change (tr_body (YItems [])) with (restoring s (mconcat tr_item [])). unfold restoring, mconcat, ret. f_equal. exact (with_ind_same s m).
  - destruct (text_goes P Q AG escaping ex s b c0 (own ++ outer) (scope_resolved Sx) k0 z ls (Hc k0 z eq_refl) Hx) as (ls' & E & Run).
    exists (YBlock (BText lead ls')), c0, a, [], []. split; [|split; [apply step_refl, (sc_sound Sx)|split; [apply writes_nil|]]].
    + change (an_body (YBlock (BText lead ls))) with (abind (W := W) (an_block (BText lead ls)) (fun x => aret (YBlock x))). cbn [Analyse.an_block]. unfold abind, mbind, aread, mbind. rewrite E. reflexivity.
    + intros bd tb r m p (L & Se & Th) Ip Ap D Su. destruct (Run lead m r Hl L Se) as [Run1 Run2]. split.
      2:{ intros Fe. orai Fe t0 Et; [|discriminate]. change (tr_body (YBlock (BText lead ls'))) with (o <* tr_block (BText lead ls') ;; ret (match o with Some l => l | None => [] end)).
        cbn [Translate.tr_block]. apply fell_bind, fell_bind, fell_bind, (fell_stuck L), Run2, Fe. }
      intros eo Eo. oinv Eo t0 Et. injection Eo as <-. pose proof (Run1 t0 Et) as E1.
      set (f := with_indent (text_info t0) (Some p)). exists [T (List.length (m_heap m)) f []], (with_heap m (m_heap m ++ [{| c_info := f; c_body := [] |}])).
      split; [|split; [exact (took_node _ (m_heap m) (m_heap m) [] f (took_nil _))|split; [|apply kept_heap, L]]].
      * change (tr_body (YBlock (BText lead ls'))) with (o <* tr_block (BText lead ls') ;; ret (match o with Some l => l | None => [] end)).
        rewrite (run_bind _ _ m (Some [List.length (m_heap m)]) (with_heap m (m_heap m ++ [{| c_info := f; c_body := [] |}]))); [reflexivity|].
        cbn [Translate.tr_block]. rewrite (run_bind _ _ m [List.length (m_heap m)] (with_heap m (m_heap m ++ [{| c_info := f; c_body := [] |}]))); [reflexivity|].
        rewrite (run_bind _ _ _ _ _ E1). unfold mbind, get_ind. change (s_indent (state_at m s)) with (ind_of s m). rewrite Ip. unfold do_text, lift_h. rewrite new_text_eq. reflexivity.
      * split; [reflexivity|]. exists p. cbn [map erase outlined]. rewrite <- (app_nil_r [Sh _ _]). constructor; [|constructor]. exact (drawn_text _ _ _ p 0 t0 [] eq_refl).
Qed.
Lemma block_use_fine own outer u h t y w kids k : use_ok b (own ++ outer) h -> In (fst (fst h)) hy -> raw_use h t ->
  body_fine [] (own ++ outer) u y (fun bd => insts (inst bd) kids) w ->
  (forall bd r es r', calm_body bd -> insts (inst bd) kids r = Is (es, r') -> calm_elems es) ->
  block_fine own own outer u (BStruct [t] y) (fun bd r => inst bd r (TBlock k h w kids)) k.
Proof.
  intros Hu Hin Hr Hy Hc.
  apply block_ext with (fun bd r => x <: (p <: insts (inst bd) kids r ;; Is (Some (fst p))) ;; a <: inst_use Q r h ;; f <: given_by (find_meaning (fst (fst h)) (map fst hyps)) ;; es <: f r (fst a) (snd a) x ;; Is ([EHyper k es], r)).
  - apply use_fine; try assumption. intros c a Sx. destruct (Hy c a Sx) as (y' & c' & a' & ext & ws & E & St & Fr & Ww & Run). exists y', c', a', ext, ws.
    split; [exact E|]. split; [exact St|]. split; [exact Ww|]. intros bd tb r m p Rd Ip Ap D Su. destruct (Run bd tb r m p Rd Ip Ap D Su) as [Run1 Run2]. split.
    2:{ intros Fe. orai Fe pr Ep; [exact (Run2 Fe)|discriminate]. }
    intros x Fe. oinv Fe pr Ep. injection Fe as <-. destruct pr as [es r'].
    destruct (Run1 es r' Ep) as (ts & m' & Et & G & Dr & _ & K). exists ts, m'. split; [exact Et|]. split; [exact G|]. split; [|exact K].
    pose proof (Hc _ _ _ _ (proj1 Su) Ep) as Ca. split; [exact Ca|]. exists (p ++ w). cbn [fst]. rewrite (calm_outlined known (p_ren P) tag_of (p ++ w) es _ Dr Ca). exact Dr.
  - intros bd r. cbn [TmplSpec.inst]. destruct (insts (inst bd) kids r); reflexivity.
Qed.
Lemma put_fine own outer n k : bn = Some n -> expr_ok b outer (XName n) -> block_fine own own outer 1 (BEmbed (OperSpec.root (OperSpec.tree (XName n)))) (fun bd r => inst bd r (TBody k n)) k.
Proof.
  intros Hn He c a S.
  assert (He' : expr_ok b (own ++ outer) (XName n)). { destruct He as [H1 H2]. split; [exact H1|]. intros x I. apply in_or_app. right. exact (H2 x I). }
  destruct (ok_goes P Q AG ex s b c (own ++ outer) _ He' (scope_resolved S)) as [t G]. apply (goes_root P Q AG) in G. destruct G as [E M].
  exists (BEmbed (OperSpec.root t)), c, a, [], []. split; [|split; [apply step_refl, (sc_sound S)|split; [apply fresh_nil|split; [exact S|split; [apply writes_nil|]]]]].
  - cbn [Analyse.an_block]. rewrite (abind_done _ _ c a (OperSpec.root t) c a) by (unfold aread, mbind; rewrite E; reflexivity). reflexivity.
  - intros bd tb r m p (L & Se & Th) Ip Ap D Su. split; [|intros Fe; cbn [TmplSpec.inst] in Fe; orai Fe eb Eb; [destruct bd|]; discriminate].
    intros es r' Fe. cbn [TmplSpec.inst] in Fe. oinv Fe eb Eb. apply given_is in Eb. injection Fe as <- <-. subst bd. destruct Su as [Ca Pd].
    destruct (Pd ltac:(lia)) as (n' & eb' & q & E1 & E2 & _ & Sn & Rp & Nd & Dr). rewrite Hn in E1. injection E1 as <-. injection E2 as <-.
    assert (Ev : den Q [(n, VDom (map root tb))] (XName n) = Is (VDom (map root tb))) by (cbn [den get oseq tested bool_of]; rewrite str_eqb_refl; reflexivity).
    pose proof (tells_is _ _ _ _ (M m _ Sn) Ev) as Er.
    destruct (placed_draws known (p_ren P) tag_of p q _ _ Dr) as (s2 & Pl & Dr2). destruct (placed_outlined p _ s2 Pl) as (ss' & Pl' & <-).
    destruct (took_place _ _ _ _ _ ss' Ap (took_self _ _ Rp Nd) Pl') as (h2 & ts2 & Ep & G3 & Ro & Ers).
    exists ts2, (with_heap m h2), (Some (map root tb)). split; [|split; [symmetry; exact Ro|split; [exact G3|split; [|split; [exact Se|split; [apply kept_heap, L|exact D]]]]]].
    + cbn [Translate.tr_block]. rewrite (run_bind _ _ m (map root tb) (with_heap m h2)); [reflexivity|]. unfold indented. rewrite (run_bind _ _ m (map root tb) m).
      * unfold mbind, get_ind. change (s_indent (state_at m s)) with (ind_of s m). rewrite Ip. unfold do_set_indent, lift_h. rewrite Ep. reflexivity.
      * rewrite (run_bind _ _ _ _ _ Er). reflexivity.
    + intros mg Mg. rewrite Ers. constructor; [constructor; exact Mg|exact Dr2].
Qed.

(** ** All templates *)
Definition final (own : list str) (l : list tmpl) : list str := fold_left after l own.
Lemma after_incl own t : incl own (after own t).
Proof. destruct t; cbn [after]; try apply incl_refl. apply incl_appr, incl_refl. Qed.

Definition named (outer : list str) : Prop := forall n, bn = Some n -> expr_ok b outer (XName n).
Lemma named_more own outer : named outer -> named (own ++ outer).
Proof. intros H n E. destruct (H n E) as [H1 H2]. split; [exact H1|]. intros x I. apply in_or_app. right. exact (H2 x I). Qed.

Lemma tmpls_fine l : Forall (fun t => forall outer own i, raw t i -> wft outer own t -> named outer -> uses t <= 1 -> item_fine own (after own t) outer (uses t) i (fun bd r => inst bd r t)) l ->
  forall outer own is, Forall2 raw l is -> wfts outer own l -> named outer -> uses_all l <= 1 -> items_fine own (final own l) outer (uses_all l) is (fun bd => insts (inst bd) l).
Proof.
  intros H. induction H as [|t l Ht H IH]; intros outer own is Hr Hw Hn Hu; inversion Hr as [|? i ? is' R1 R2]; inversion Hw; subst; [apply items_nil|].
  unfold uses_all in *. cbn [map list_sum fold_right] in *. fold (list_sum (map uses l)) in *.
  apply (items_cons own (after own t) (final own (t :: l)) outer (uses t) (list_sum (map uses l)) i is' (fun bd r => inst bd r t) (fun bd => insts (inst bd) l) (after_incl own t) Hu); [apply Ht; try assumption; lia|].
  apply IH; try assumption. lia.
Qed.
Lemma uses_fix l : (fix all (l : list tmpl) : nat := match l with [] => 0 | t :: l => uses t + all l end) l = uses_all l.
Proof. induction l as [|t l IH]; [reflexivity|]. unfold uses_all in *. cbn [map list_sum fold_right]. rewrite IH. reflexivity. Qed.

Lemma tmpl_fine t : forall outer own i, raw t i -> wft outer own t -> named outer -> uses t <= 1 -> item_fine own (after own t) outer (uses t) i (fun bd r => inst bd r t).
Proof.
  induction t as [m k x|m h x tl|m g c|m g w kids IH|m cs els IHc IHe|m xs e w kids IH|m e w kids els IH IHe|m alts IHa|m xs e|m x o e|m h c|m h w kids IH|m n] using tmpl_ind'; intros outer own i Hr Hw Hn Hu; inversion Hr; inversion Hw; subst; apply block_item; cbn [after].
  - apply text_fine; [apply Nat.lt_0_1|assumption|assumption].
  - apply note_fine.
  - apply leaf_fine; assumption.
  - cbn [uses] in *. rewrite uses_fix in *. apply node_fine; try assumption. eapply body_of, tmpls_fine; try eassumption. apply named_more, Hn.
  - match goal with K : wfb _ _ _ _ _ _ (map snd cs) |- _ => apply wfb_each in K; rename K into Hc end.
    match goal with K : wfb _ _ _ _ _ _ (match els with _ => _ end) |- _ => apply wfb_each in K; rename K into Hl end.
    rewrite Forall_forall in Hc, Hl, IHc.
    assert (Uc : forall e w kids, In (e, (w, kids)) cs -> uses_all kids <= uses (TIf m cs els)).
    { cbn [uses]. clear. intros e w kids I. match goal with |- _ <= Nat.max ?a _ => transitivity a; [|apply Nat.le_max_l] end.
      induction cs as [|[e0 [w0 k0]] cs IH]; [destruct I|]. rewrite uses_fix. destruct I as [[= -> -> ->]|I]; [apply Nat.le_max_l|]. etransitivity; [exact (IH I)|apply Nat.le_max_r]. }
    assert (Ul : forall w kids, els = Some (w, kids) -> uses_all kids <= uses (TIf m cs els)).
    { cbn [uses]. clear. intros w kids ->. rewrite uses_fix. apply Nat.le_max_r. }
    apply if_fine; try assumption.
    + intros e w kids y I Ry. inversion Ry; subst. destruct (Hc (w, kids) (in_map snd _ _ I)) as (_ & _ & _ & Hk). pose proof (Uc _ _ _ I) as U. apply body_le with (uses_all kids); [|exact U].
      eapply body_of, tmpls_fine; [exact (IHc _ I)|eassumption|exact Hk|exact Hn|lia].
    + intros w kids y El Ry. pose proof (Ul _ _ El) as U. subst els. inversion Ry; subst. destruct (Hl (w, kids) (or_introl eq_refl)) as (_ & _ & _ & Hk). apply body_le with (uses_all kids); [|exact U].
      eapply body_of, tmpls_fine; [exact IHe|eassumption|exact Hk|exact Hn|lia].
    + intros bd r p Cb Ep. revert Ep. assert (Hc' : forall e y, In (e, y) cs -> calm (snd y) /\ wfts outer own (snd y)).
      { intros e y I. destruct (Hc y (in_map snd _ _ I)) as (_ & _ & C & Hk). auto. }
      clear - Hc' Hl Cb. induction cs as [|[e [w kids]] cs IHs]; cbn [pick]; intros Ep.
      * destruct els as [[w kids]|]; [|injection Ep as <-; exact Logic.I]. destruct (Hl (w, kids) (or_introl eq_refl)) as (_ & _ & C & Hk). destruct p. eapply body_calm; eassumption.
      * oinv Ep v Ev. oinv Ep t Et. destruct t.
        -- destruct (Hc' e (w, kids) (or_introl eq_refl)) as [C Hk]. destruct p. eapply body_calm; eassumption.
        -- apply IHs; [|exact Ep]. intros e' y I. apply (Hc' e'). right. exact I.
  - cbn [uses] in *. rewrite uses_fix in *. assert (U0 : uses_all kids = 0) by lia. rewrite U0. apply for_fine; try assumption.
    + eapply body_of. rewrite <- U0. eapply tmpls_fine; try eassumption. lia.
    + intros bd r es r' Cb E. eapply body_calm; eassumption.
  - match goal with K : wfb _ _ _ _ _ _ (match els with _ => _ end) |- _ => apply wfb_each in K; rename K into Hl end. rewrite Forall_forall in Hl.
    assert (U0 : uses_all kids = 0 /\ forall w kids, els = Some (w, kids) -> uses_all kids = 0).
    { cbn [uses] in Hu. rewrite uses_fix in Hu. split; [lia|]. intros w1 kids1 ->. rewrite uses_fix in Hu. lia. }
    destruct U0 as [U0 Ul]. assert (Uw : uses (TWhile m e w kids els) = 0) by (cbn [uses] in *; lia). rewrite Uw. apply while_fine; try assumption.
    + eapply body_of. rewrite <- U0. eapply tmpls_fine; try eassumption. lia.
    + intros w1 kids1 y El Ry. pose proof (Ul _ _ El) as U. subst els. inversion Ry; subst. destruct (Hl (w1, kids1) (or_introl eq_refl)) as (_ & _ & _ & Hk). rewrite <- U.
      eapply body_of, tmpls_fine; [exact IHe|eassumption|exact Hk|exact Hn|lia].
    + intros bd r es r' Cb E. eapply body_calm; eassumption.
    + intros bd w1 kids1 r es r' El Cb E. subst els. destruct (Hl (w1, kids1) (or_introl eq_refl)) as (_ & _ & C & Hk). eapply body_calm; eassumption.
  - match goal with K : wfb _ _ _ _ _ _ _ |- _ => apply wfb_each in K; rename K into Ha end. rewrite Forall_forall in Ha, IHa.
    set (alts := (w, kids) :: alts0) in *.
    assert (U0 : forall w kids, In (w, kids) alts -> uses_all kids = 0).
    { cbn [uses] in Hu. match type of Hu with 2 * ?z <= 1 => assert (Z : z = 0) by lia end. clear - Z. revert Z. generalize alts. intros l. induction l as [|[w0 k0] l IHl]; intros Z w1 k1 I; [destruct I|].
      rewrite uses_fix in Z. destruct I as [[= -> ->]|I]; [lia|]. apply (IHl ltac:(lia) w1 k1 I). }
    assert (Uw : uses (TTry m alts) = 0) by (cbn [uses] in *; lia). rewrite Uw.
    assert (Bf : forall w kids is, In (w, kids) alts -> Forall2 raw kids is -> body_fine [] (own ++ outer) 0 (YItems (items w is)) (fun bd => insts (inst bd) kids) w).
    { intros w1 kids1 is1 I R1. pose proof (U0 _ _ I) as U. destruct (Ha _ I) as (_ & _ & _ & Hk). rewrite <- U. eapply body_of, tmpls_fine; [exact (IHa _ I)|exact R1|exact Hk|apply named_more, Hn|lia]. }
    apply try_fine.
    + constructor; [apply Bf; [left; reflexivity|assumption]|]. match goal with K : Forall2 raw_body alts0 ds |- _ => rename K into Rb end.
      assert (B0 : forall w kids is, In (w, kids) alts0 -> Forall2 raw kids is -> body_fine [] (own ++ outer) 0 (YItems (items w is)) (fun bd => insts (inst bd) kids) w)
        by (intros w1 kids1 is1 I; apply Bf; right; exact I).
      clear - Rb B0. induction Rb as [|y d l ds Ry Rb IHr]; [constructor|]. cbn [map]. constructor; [|apply IHr; intros w1 kids1 is1 I; apply B0; right; exact I].
      inversion Ry as [w1 kids1 is1 Hi]; subst. cbn [fst snd]. pose proof (B0 w1 kids1 is1 (or_introl eq_refl) Hi) as B.
      intros c0 a0 S0. destruct (B c0 a0 S0) as (y' & c1 & a1 & ext & ws & E & St & Fr & Ww & Run).
      exists (YElse (Some y')), c1, a1, ext, ws. split; [|split; [exact St|split; [exact Fr|split; [exact Ww|exact Run]]]].
      change (an_body (YElse (Some (YItems (items w1 is1))))) with (abind (W := W) (an_body (YItems (items w1 is1))) (fun y => aret (YElse (Some y)))). rewrite (abind_done _ _ _ _ _ _ _ E). reflexivity.
    + intros bd r es Cb Ep. assert (Hc : forall y, In y alts -> calm (snd y) /\ wfts (own ++ outer) [] (snd y)) by (intros y I; destruct (Ha y I) as (_ & _ & C & Hk); auto).
      clear - Hc Cb Ep. revert Hc Ep. generalize alts. intros l. induction l as [|[w1 kids1] l IHl]; intros Hc Ep; [injection Ep as <-; exact Logic.I|]. cbn [first] in Ep. fold (first bd l r) in Ep.
      destruct (insts (inst bd) kids1 r) as [[e1 r1]| |] eqn:E1; [|apply IHl; [intros y I; apply Hc; right; exact I|exact Ep]|discriminate].
      injection Ep as <-. destruct (Hc _ (or_introl eq_refl)) as [C Hk]. cbn [fst snd] in *. eapply body_calm; eassumption.
  - apply set_block_fine; assumption.
  - apply aug_block_fine; assumption.
  - apply call_fine; assumption.
  - cbn [uses] in *. rewrite uses_fix in *. apply block_use_fine; try assumption.
    + eapply body_of, tmpls_fine; try eassumption. apply named_more, Hn.
    + intros bd r es r' Cb E. eapply body_calm; eassumption.
  - apply put_fine; [assumption|]. apply Hn. assumption.
Qed.
Lemma doc_fine l outer own is : Forall2 raw l is -> wfts outer own l -> named outer -> uses_all l <= 1 -> items_fine own (final own l) outer (uses_all l) is (fun bd => insts (inst bd) l).
Proof. apply tmpls_fine, Forall_forall. intros t _. apply tmpl_fine. Qed.
End Run.
