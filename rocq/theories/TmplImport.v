(** Proofs about templates: imports. *)
From Coq Require Import List NArith ZArith Bool Lia Arith String.
From Verif Require Import PyStr PyStrFacts Html PyDict Structs StructsSpec StructsFacts Value Dom DomSpec DomFacts Ast AstInd Grammar Syntax Machine Eval Translate Analyse MachineFacts ScopeSpec ScopeFacts
  LocalFacts RenderFacts RuntimeSpec ExportFacts PageSpec PageRender PageTree PageRun PageDoc OperSpec TmplSpec TmplParse TmplExpr TmplRender TmplTree TmplTag TmplScope TmplRun TmplDef.
Import ListNotations.
Local Open Scope list_scope.
Local Open Scope nat_scope.

(** ** Analysis without imports *)
Section Below.
Context {W : Type}.
Variable im : str -> M W module.
Variable context : list (str * val).
Definition no_import : str -> M W module := fun _ => exc ImportError.
Notation AM := (AM (W := W)).
Definition below {A} (x y : AM A) : Prop := forall c m a m', x c m = (Done a, m') -> y c m = (Done a, m').
Lemma below_refl {A} (x : AM A) : below x x.
Proof. intros c m a m' H. exact H. Qed.
Lemma below_bind {A B} (x y : AM A) (f g : A -> AM B) : below x y -> (forall a, below (f a) (g a)) -> below (abind x f) (abind y g).
Proof.
  intros X F c m b m' H. unfold abind in *. apply bind_done_inv in H. destruct H as ([a c1] & m1 & H1 & H2). unfold mbind. rewrite (X _ _ _ _ H1). exact (F a _ _ _ _ H2).
Qed.
Lemma below_map {A B} (f g : A -> AM B) l : Forall (fun x => below (f x) (g x)) l -> below (amap f l) (amap g l).
Proof.
  intros H. induction H as [|x l Hx _ IH]; [apply below_refl|]. cbn [amap]. apply below_bind; [exact Hx|]. intros y. apply below_bind; [exact IH|]. intros ys. apply below_refl.
Qed.
Lemma below_branch {A} (x y : AM A) : below x y -> below (branch x) (branch y).
Proof. intros X. unfold branch. apply below_bind; [apply below_refl|]. intros p. apply below_bind; [exact X|]. intros a. apply below_refl. Qed.
Lemma below_control {A} (x y : AM A) : below x y -> below (control x) (control y).
Proof. intros X. unfold control. apply below_bind; [apply below_refl|]. intros p. apply below_bind; [exact X|]. intros a. apply below_refl. Qed.
Lemma below_import p i : below (an_import no_import p i) (an_import im p i).
Proof. intros c m a m' H. unfold an_import in H. unfold abind at 1 in H. apply bind_done_inv in H. destruct H as (? & ? & H & _). discriminate H. Qed.
Notation an_block := (an_block no_import context).
Notation an_body := (an_body no_import context).
Notation an_item := (an_item no_import context).
Notation an_block' := (Analyse.an_block im context).
Notation an_body' := (Analyse.an_body im context).
Notation an_item' := (Analyse.an_item im context).
Ltac bb := apply below_bind; [apply below_refl|intros ?].
Lemma below_all : (forall b, below (an_block b) (an_block' b)) /\ (forall y, below (an_body y) (an_body' y)) /\ (forall i, below (an_item i) (an_item' i)).
Proof.
  assert (OPT : forall o, on_opt (fun y => below (an_body y) (an_body' y)) o ->
    below (match o with Some y => abind (an_body y) (fun y => aret (Some y)) | None => aret None end) (match o with Some y => abind (an_body' y) (fun y => aret (Some y)) | None => aret None end)).
  { intros [y|] H; [|apply below_refl]. apply below_bind; [exact H|]. intros a. apply below_refl. }
  assert (OPTB : forall o, on_opt (fun y => below (an_body y) (an_body' y)) o ->
    below (match o with Some y => abind (branch (an_body y)) (fun y => aret (Some y)) | None => aret None end) (match o with Some y => abind (branch (an_body' y)) (fun y => aret (Some y)) | None => aret None end)).
  { intros [y|] H; [|apply below_refl]. apply below_bind; [apply below_branch, H|]. intros a. apply below_refl. }
  assert (CL : forall t (o : option body), on_opt (fun y => below (an_body y) (an_body' y)) o ->
    below (branch (abind (aread (fun c => an_expr c t)) (fun t => abind (match o with Some y => abind (an_body y) (fun y => aret (Some y)) | None => aret None end) (fun y => aret (t, y)))))
      (branch (abind (aread (fun c => an_expr c t)) (fun t => abind (match o with Some y => abind (an_body' y) (fun y => aret (Some y)) | None => aret None end) (fun y => aret (t, y)))))).
  { intros t o H. apply below_branch. bb. apply below_bind; [apply OPT, H|]. intros y. apply below_refl. }
  apply block_body_item_ind; intros; cbn [Analyse.an_block Analyse.an_body Analyse.an_item]; try apply below_refl.
  - bb. bb. bb. apply below_bind; [assumption|]. intros y'. apply below_refl.
  - bb. bb. bb. bb. bb. bb. bb. apply below_bind; [assumption|]. intros y'. apply below_refl.
  - bb. apply below_bind; [|intros l'; apply below_refl]. apply below_map, Forall_forall. intros i _. apply below_import.
  - apply below_bind; [|intros l'; apply below_refl]. apply below_control, below_map. eapply Forall_impl; [|eassumption]. intros y Hy. apply below_branch, Hy.
  - apply below_bind; [|intros l'; apply below_refl]. apply below_control. apply below_bind.
    + apply below_map. eapply Forall_impl; [|eassumption]. intros [t y] Hy. apply CL, Hy.
    + intros cs. apply below_bind; [apply OPTB; assumption|]. intros e. apply below_refl.
  - apply below_bind; [|intros l'; apply below_refl]. apply below_control. apply below_bind; [apply CL; assumption|].
    intros ty. apply below_bind; [apply OPTB; assumption|]. intros e. apply below_refl.
  - apply below_bind.
    + apply below_control. bb. bb. destruct y as [y|].
      * apply below_bind; [assumption|]. intros y'. apply below_refl.
      * destruct els as [z|]; [|apply below_refl]. apply below_bind; [assumption|]. intros y'. apply below_refl.
    + intros [[[e' ts'] y'] els']. apply below_refl.
  - apply below_bind; [apply below_map; assumption|]. intros l'. apply below_refl.
  - apply below_bind; [assumption|]. intros l'. apply below_refl.
  - destruct o as [y|]; [|apply below_refl]. apply below_bind; [assumption|]. intros l'. apply below_refl.
  - bb. apply below_bind; [assumption|]. intros l'. apply below_refl.
Qed.
Lemma below_items l : below (amap an_item l) (amap an_item' l).
Proof. apply below_map, Forall_forall. intros i _. apply below_all. Qed.

(** Analysis without imports changes numbers and definitions only. *)
Definition calm_an (m m' : mach W) : Prop := m_heap m' = m_heap m /\ m_states m' = m_states m /\ m_rt m' = m_rt m.
Lemma items_calm l c m r m' : amap an_item l c m = (Done r, m') -> calm_an m m'.
Proof.
  intros H. assert (T : forall a b c : mach W, calm_an a b -> calm_an b c -> calm_an a c) by (intros ? ? ? (A1 & A2 & A3) (B1 & B2 & B3); repeat split; congruence).
  assert (R : forall a : mach W, calm_an a a) by (repeat split).
  assert (Q := quiet_map (W := W) calm_an R T an_item l). unfold LocalFacts.quiet, pres in Q. refine (Q _ c m (Done r) m' H _); [|discriminate].
  apply Forall_forall. intros i _. apply (quiet_all calm_an R T); [repeat split|repeat split|]. intros p a o a' E N. injection E as <- <-. apply R.
Qed.
End Below.

(** ** Hypertags in other scripts *)
(** What was there is still there. *)
Definition grows {W} (m m' : mach W) : Prop :=
  m_next m <= m_next m' /\ (exists nd, m_defs m' = m_defs m ++ nd) /\
  forall s, live s m -> live s m' /\ ind_of s m' = ind_of s m /\ forall x, x < m_next m -> slot_value m' s x = slot_value m s x.
Lemma grows_refl {W} (m : mach W) : grows m m.
Proof. split; [apply le_n|]. split; [exists []; symmetry; apply app_nil_r|]. auto. Qed.
Lemma grows_trans {W} (a b c : mach W) : grows a b -> grows b c -> grows a c.
Proof.
  intros (A1 & [d1 A2] & A3) (B1 & [d2 B2] & B3). split; [lia|]. split; [exists (d1 ++ d2); rewrite B2, A2, app_assoc; reflexivity|].
  intros s L. destruct (A3 s L) as (L1 & I1 & V1). destruct (B3 s L1) as (L2 & I2 & V2). split; [exact L2|]. split; [congruence|]. intros x X. rewrite V2, V1; [reflexivity|exact X|lia].
Qed.
Lemma grows_same {W} (m m' : mach W) : m_next m <= m_next m' -> (exists nd, m_defs m' = m_defs m ++ nd) -> m_states m' = m_states m -> grows m m'.
Proof. intros N D S. split; [exact N|]. split; [exact D|]. intros s. unfold live, ind_of, slot_value, state_at. rewrite S. auto. Qed.
Lemma grows_home {W} (o : home) (m m' : mach W) : grows m m' -> (forall s x v, In (s, x, v) (ho_vals o) -> In s (ho_states o) /\ x < m_next m) -> at_home o m -> at_home o m'.
Proof.
  intros (_ & [nd D] & G) B (H1 & H2 & H3). split; [|split].
  - intros s I. destruct (H1 s I) as [L E]. destruct (G s L) as (L' & E' & _). split; [exact L'|congruence].
  - intros s x v I. destruct (B s x v I) as [J X]. destruct (G s (proj1 (H1 s J))) as (_ & _ & V). rewrite V by exact X. exact (H2 s x v I).
  - intros d hd I. rewrite D, nth_error_app1; [exact (H3 d hd I)|]. apply nth_error_Some. rewrite (H3 d hd I). discriminate.
Qed.
Lemma kept_elsewhere {W} s s0 ws (m m' : mach W) : s <> s0 -> live s m -> live s0 m -> kept s0 ws m m' -> kept s ws m m'.
Proof.
  intros N L L0 (K1 & K2 & K3 & K4 & K5). destruct (K5 s N) as (O1 & O2 & O3). split; [exact (O1 L)|]. split; [exact O2|]. split; [exact O3|]. split; [exact K4|].
  intros s' N'. destruct (Nat.eq_dec s' s0) as [->|Ns]; [auto|exact (K5 s' Ns)].
Qed.

Section Acts.
Context {W : Type}.
Variable P : prims W.
Variable known : str -> option bool.
Variable tag_of : str -> tag.
Notation draws := (draws known (p_ren P) tag_of).

(** The expansion of a hypertag, from wherever. *)
Definition acts (k : nat) (h : hyper) (o : home) (hd : list slot) (f : meaning) : Prop :=
  forall s (m : mach W) r pos kw x tb, live s m -> ~ In s (ho_states o) -> at_home o m -> NoDup (map fst kw) -> body_drawn P known tag_of x tb ->
    Forall (repr (m_heap m)) tb -> NoDup (all_ids tb) ->
    (forall es, f r pos kw x = Is es -> exists t m' q, expand_n P k h (VDom (map root tb)) pos kw s m = (Done [root t], m') /\ took (all_ids tb) (m_heap m) (m_heap m') [t] /\
      draws q [EHyper 0 es] (outlined [erase t]) /\ kept s hd m m') /\
    (f r pos kw x = Raises -> fell s (all_ids tb) hd m (expand_n P k h (VDom (map root tb)) pos kw s m)).
Lemma acts_behaves k s vis hyps sl hid n f h o hd : In ((n, f), (h, o)) hyps -> incl hd hid -> acts k h o hd f -> behaves P (expand_n P k) known tag_of s vis hyps sl hid ((n, f), (h, o)).
Proof.
  intros I Inc A m r pos kw x tb p L [_ St] _ _ _ Nk Hb Rp Nd. destruct (St _ _ _ _ I) as (_ & Ho & Ns). destruct (A s m r pos kw x tb L Ns Ho Nk Hb Rp Nd) as [A1 A2]. split.
  - intros es E. destruct (A1 es E) as (t & m' & q & X1 & X2 & X3 & X4). exists t, m', q. split; [exact X1|]. split; [exact X2|]. split; [exact X3|]. exact (kept_incl s hd hid _ _ X4 Inc).
  - intros E. exact (fell_incl hd (A2 E) Inc).
Qed.

(** The home of the hypertags of a script whose translation ends with [m]. *)
Definition own_vals (s : nat) (m : mach W) (ok : slot -> bool) : list (nat * slot * val) :=
  flat_map (fun x => if ok x then match slot_value m s x with Some v => [(s, x, v)] | None => [] end else []) (map fst (s_vals (state_at m s))).
Definition whole (s : nat) (hyps : list hyp) (m : mach W) (ok : slot -> bool) : home :=
  {| ho_states := s :: flat_map (fun h => ho_states (snd (snd h))) hyps;
     ho_vals := own_vals s m ok ++ flat_map (fun h => ho_vals (snd (snd h))) hyps;
     ho_defs := flat_map (fun h => ho_defs (snd (snd h))) hyps |}.
Lemma dget_key {A} x (l : list (slot * A)) v : dget Nat.eqb x l = Some v -> In x (map fst l).
Proof. induction l as [|[y w] l IH]; cbn [dget map fst]; [discriminate|]. destruct (Nat.eqb_spec x y) as [->|]; [left; reflexivity|intros H; right; exact (IH H)]. Qed.
Lemma own_vals_in s m ok x v : slot_value m s x = Some v -> ok x = true -> In (s, x, v) (own_vals s m ok).
Proof.
  intros V O. apply in_flat_map. exists x. split; [exact (dget_key _ _ _ V)|]. rewrite O, V. left. reflexivity.
Qed.
Lemma own_vals_are s m ok s' x v : In (s', x, v) (own_vals s m ok) -> s' = s /\ ok x = true /\ slot_value m s x = Some v.
Proof.
  intros H. apply in_flat_map in H. destruct H as (y & _ & H). destruct (ok y) eqn:O; [|destruct H]. destruct (slot_value m s y) as [w|] eqn:V; [|destruct H]. destruct H as [[= <- <- <-]|[]]. auto.
Qed.
Lemma whole_at s hyps sl m ok : stays known tag_of s hyps sl m -> live s m -> ind_of s m = [NL] -> at_home (whole s hyps m ok) m.
Proof.
  intros [_ St] L I. split; [|split].
  - cbn [whole ho_states]. intros s' [<-|J]; [auto|]. apply in_flat_map in J. destruct J as ([[n f] [h o]] & J & K). destruct (St _ _ _ _ J) as (_ & (H & _) & _). exact (H s' K).
  - cbn [whole ho_vals]. intros s' x v J. apply in_app_or in J. destruct J as [J|J]; [apply own_vals_are in J; destruct J as (-> & _ & V); exact V|].
    apply in_flat_map in J. destruct J as ([[n f] [h o]] & J & K). destruct (St _ _ _ _ J) as (_ & (_ & H & _) & _). exact (H _ _ _ K).
  - cbn [whole ho_defs]. intros d hd J. apply in_flat_map in J. destruct J as ([[n f] [h o]] & J & K). destruct (St _ _ _ _ J) as (_ & (_ & _ & H) & _). exact (H _ _ K).
Qed.
Lemma whole_part s hyps m ok h (m' : mach W) : In h hyps -> at_home (whole s hyps m ok) m' -> at_home (snd (snd h)) m'.
Proof.
  intros I (H1 & H2 & H3). cbn [whole ho_states ho_vals ho_defs] in *. split; [|split].
  - intros s' J. apply H1. right. apply in_flat_map. exists h. auto.
  - intros s' x v J. apply H2. apply in_or_app. right. apply in_flat_map. exists h. auto.
  - intros d hd J. apply H3. apply in_flat_map. exists h. auto.
Qed.
Lemma module_acts k s0 vis hyps sl hid r0 mf ok n f h o : stays known tag_of s0 hyps sl mf -> gets s0 vis sl r0 mf ->
  (forall y v, known y = Some v -> ok (sl (TAG y)) = true) -> (forall y, In y (map hyp_name hyps) -> ok (sl (TAG y)) = true) -> (forall y, In y vis -> ok (sl (VAR y)) = true) ->
  In ((n, f), (h, o)) hyps -> behaves P (expand_n P k) known tag_of s0 vis hyps sl hid ((n, f), (h, o)) ->
  acts k (HImp h s0) (whole s0 hyps mf ok) hid (fun _ => f r0).
Proof.
  intros [T1 T2] Gt O1 O2 O3 I B s m r pos kw x tb L Ns Ho Nk Hb Rp Nd.
  assert (N : s <> s0) by (intros ->; apply Ns; left; reflexivity). pose proof Ho as (H1 & H2 & H3). destruct (H1 s0 (or_introl eq_refl)) as [L0 I0].
  assert (V : forall y v, slot_value mf s0 y = Some v -> ok y = true -> slot_value m s0 y = Some v).
  { intros y v E O. apply H2. cbn [whole ho_vals]. apply in_or_app. left. apply own_vals_in; assumption. }
  assert (St : stays known tag_of s0 hyps sl m).
  { split.
    - intros y v K. exact (V _ _ (T1 y v K) (O1 y v K)).
    - intros y g h' o' J. destruct (T2 _ _ _ _ J) as (E1 & _ & E3). split; [apply V; [exact E1|]|split; [exact (whole_part _ _ _ _ _ m J Ho)|exact E3]].
      apply O2, in_map_iff. exists ((y, g), (h', o')). split; [reflexivity|exact J]. }
  assert (G : gets s0 vis sl r0 m) by (intros y v J E; apply V; [exact (Gt y v J E)|exact (O3 y J)]).
  assert (Ex : expand_n P k (HImp h s0) (VDom (map root tb)) pos kw s m = expand_n P k h (VDom (map root tb)) pos kw s0 m) by (destruct k; reflexivity).
  rewrite Ex. destruct (B m r0 pos kw x tb [NL] L0 St G I0 eq_refl Nk Hb Rp Nd) as [B1 B2]. split.
  - intros es E. destruct (B1 es E) as (t & m' & q & X1 & X2 & X3 & X4). exists t, m', q. split; [exact X1|]. split; [exact X2|]. split; [exact X3|]. exact (kept_elsewhere s s0 _ _ _ N L L0 X4).
  - intros E. destruct (B2 E) as (e & z & X1 & X2 & X3). exists e, z. split; [exact X1|]. split; [exact (kept_elsewhere s s0 _ _ _ N L L0 X2)|exact X3].
Qed.
End Acts.

(** ** Import blocks *)
Lemma hyp_names hyps : map hyp_name hyps = map fst (map fst hyps).
Proof. rewrite map_map. reflexivity. Qed.
Definition proper (o : home) : Prop := forall s x v, In (s, x, v) (ho_vals o) -> In s (ho_states o).

Section Import.
Context {W : Type}.
Variable P : prims W.
Variable im : str -> M W module.
Variable context : list (str * val).
Variable known : str -> option bool.
Variable tag_of : str -> tag.
Variable vis : list str.
(** What holds of the caches; the depth of expansion needed. *)
Variable Jr : caches -> Prop.
Variable L : nat.
Notation scope := (scope (W := W) known vis).
Notation acts := (acts P known tag_of).

Definition offered (path n : str) (f : meaning) : Prop := forall a, Jr (m_rt a) -> exists a1 md h s0 o hd, im path a = (Done md, a1) /\ Jr (m_rt a1) /\ grows a a1 /\
  mod_state md = Some s0 /\ dget str_eqb (TAG n) (mod_symbols md) = Some (VHyper h) /\ at_home o a1 /\ proper o /\
  (forall x, In x hd -> m_next a <= x < m_next a1) /\ (forall s x v, In (s, x, v) (ho_vals o) -> m_next a <= x < m_next a1 /\ ~ In x hd) /\
  forall k, L <= k -> acts k (HImp h s0) o hd f.

(** The analysis of imports has gone from [c0], [a0] to [c], [a]. *)
Record brought (c0 : ctx) (a0 : mach W) (sl0 : str -> slot) (hyps : list hyp) (sl : str -> slot) (hid : list slot) (sets : list (slot * val)) (c : ctx) (a : mach W) : Prop := {
  br_scope : scope hyps sl hid vis [] c a;
  br_ctl : c_control c = 0;
  br_rt : Jr (m_rt a);
  br_grows : grows a0 a;
  br_home : forall h, In h hyps -> at_home (snd (snd h)) a /\ proper (snd (snd h));
  br_acts : forall n f h o, In ((n, f), (h, o)) hyps -> exists hd, incl hd hid /\ forall k, L <= k -> acts k h o hd f;
  br_new : forall n, In n (map hyp_name hyps) -> known n = None;
  br_low : forall y i, In (y, i) (entries c) -> In (y, i) (entries c0) \/ m_next a0 <= sl_id i;
  br_hid : forall x, In x (hid ++ used hyps) -> m_next a0 <= x;
  br_sets : forall n f h o, In ((n, f), (h, o)) hyps -> In (sl (TAG n), VHyper h) sets;
  br_nd : NoDup (map fst sets);
  br_set : forall x, In x (map fst sets) -> exists n, In n (map hyp_name hyps) /\ sl (TAG n) = x;
  br_ext : exists ext, entries c = ext ++ entries c0 /\ incl (map TAG (map hyp_name hyps)) (map fst ext);
  br_sl : forall y, (forall n, In n (map hyp_name hyps) -> y <> TAG n) -> sl y = sl0 y
}.

Lemma brought_none c0 a0 sl0 : scope [] sl0 [] vis [] c0 a0 -> c_control c0 = 0 -> Jr (m_rt a0) -> brought c0 a0 sl0 [] sl0 [] [] c0 a0.
Proof.
  intros S C J. split; auto; try (intros ? []; fail); try (intros ? ? ? ? []; fail).
  - apply grows_refl.
  - constructor.
  - exists []. split; [reflexivity|]. intros z [].
Qed.

Lemma brought_same c0 a0 sl0 hyps sl hid sets c c' a : c_md c' = c_md c -> c_regular c' = c_regular c -> c_control c' = c_control c ->
  brought c0 a0 sl0 hyps sl hid sets c a -> brought c0 a0 sl0 hyps sl hid sets c' a.
Proof.
  intros M R C [B1 B2 B3 B4 B5 B6 B7 B8 B9 B10 B11 B12 B13 B14].
  split; try assumption; [exact (scope_same c' B1 M R)|congruence|unfold entries in *; rewrite M; exact B8|unfold entries in *; rewrite M; exact B13].
Qed.
Lemma import_one c0 a0 sl0 hyps sl hid sets c a path n f : brought c0 a0 sl0 hyps sl hid sets c a -> offered path n f -> known n = None -> ~ In n (map hyp_name hyps) ->
  exists x h o hd c' a', an_import im path (import_item n) c a = (Done (IName (TAG n) None (Some (x, VHyper h)), c'), a') /\
    brought c0 a0 sl0 (((n, f), (h, o)) :: hyps) (sl_def sl n x) (hid ++ hd) (sets ++ [(x, VHyper h)]) c' a'.
Proof.
  intros B Of Kn Hn. destruct B as [B1 B2 B3 B4 B5 B6 B7 B8 B9 B10 B11 B12 B13 B14].
  destruct (Of a B3) as (a1 & md & h & s0 & o & hd & E1 & J1 & G1 & Ms & Mg & Ho & Pr & Hhd & Hso & Ac).
  destruct (new_slot (TAG n) c a1) as [[[x c']| |] a'] eqn:E2; [|discriminate|discriminate].
  destruct (new_slot_step _ _ _ _ _ _ (sc_sound B1) E2) as (St & Ex & Ea).
  assert (N1 : m_next a <= m_next a1) by exact (proj1 G1). assert (Nx : m_next a' = S x) by (rewrite Ea, Ex; reflexivity).
  assert (N0 : m_next a0 <= m_next a) by exact (proj1 B4).
  assert (Sc : scope (((n, f), (HImp h s0, o)) :: hyps) (sl_def sl n x) (hid ++ hd) vis [] c' a').
  { apply (scope_add known vis hyps sl hid c a); [exact B1|exact (st_inv _ _ _ _ _ _ _ St)|exact (st_abs _ _ _ _ _ _ _ St)|exact (st_reg _ _ _ _ _ _ _ St)|lia|exact Nx| |].
    - intros y I. rewrite Ex. exact (Hhd y I).
    - intros y I. unfold home_slots in I. apply in_map_iff in I. destruct I as ([[s y'] v] & <- & I). cbn [fst snd] in *. rewrite Ex. exact (Hso _ _ _ I). }
  assert (G2 : grows a1 a').
  { apply grows_same; [lia|exists []; rewrite Ea, app_nil_r; reflexivity|rewrite Ea; reflexivity]. }
  assert (G : grows a a') by exact (grows_trans _ _ _ G1 G2).
  assert (Lo : forall y, In y (used hyps) -> y < m_next a).
  { intros y I. apply (proj1 (sc_low _ _ _ _ _ _ _ _ _ B1)), in_or_app. right. exact I. }
  exists x, (HImp h s0), o, hd, c', a'. split; [|split].
  - unfold an_import, import_item. unfold abind at 1, alift. unfold mbind at 1. unfold mbind at 1. rewrite E1. unfold ret at 1. cbn [fst snd]. change (37%N :: n) with (TAG n). rewrite Mg.
    rewrite (abind_done _ _ c a1 (VHyper (HImp h s0)) c a1); [|unfold aread, mbind, imported; rewrite Ms; reflexivity].
    change (renamed (TAG n) None) with (TAG n). rewrite (abind_done _ _ _ _ _ _ _ E2). reflexivity.
  - exact Sc.
  - rewrite (st_ctl _ _ _ _ _ _ _ St). exact B2.
  - rewrite Ea. exact J1.
  - exact (grows_trans _ _ _ B4 G).
  - intros g [<-|I]; cbn [snd fst].
    + split; [|exact Pr]. apply (grows_home o a1); [exact G2| |exact Ho]. intros s y v I. split; [exact (Pr _ _ _ I)|exact (proj2 (proj1 (Hso _ _ _ I)))].
    + destruct (B5 g I) as [H1 H2]. split; [|exact H2]. apply (grows_home _ a); [exact G| |exact H1]. intros s y v J. split; [exact (H2 _ _ _ J)|].
      apply Lo, in_flat_map. exists g. split; [exact I|]. apply in_map_iff. exists (s, y, v). auto.
  - intros n' f' h' o' [[= <- <- <- <-]|I].
    + exists hd. split; [apply incl_appr, incl_refl|exact Ac].
    + destruct (B6 _ _ _ _ I) as (hd' & I1 & I2). exists hd'. split; [apply incl_appl, I1|exact I2].
  - intros m [<-|I]; [exact Kn|exact (B7 m I)].
  - intros y i I. rewrite (st_abs _ _ _ _ _ _ _ St) in I. destruct I as [[= <- <-]|I]; [right; cbn [sl_id]; lia|exact (B8 y i I)].
  - intros y I. unfold used in I. cbn [flat_map] in I. fold (used hyps) in I. rewrite !in_app_iff in I. destruct I as [[I|I]|[I|I]].
    + apply B9, in_or_app. left. exact I.
    + apply Hhd in I. lia.
    + unfold home_slots in I. apply in_map_iff in I. destruct I as ([[s y'] v] & <- & I). cbn [fst snd] in *. apply Hso in I. lia.
    + apply B9, in_or_app. right. exact I.
  - intros n' f' h' o' [[= <- <- <- <-]|I].
    + rewrite sl_def_tag. apply in_or_app. right. left. reflexivity.
    + rewrite sl_def_other; [apply in_or_app; left; exact (B10 _ _ _ _ I)|]. intros ->. apply Hn, in_map_iff. exists ((n, f'), (h', o')). split; [reflexivity|exact I].
  - rewrite map_app. cbn [map fst]. apply NoDup_app'; [exact B11|repeat constructor; intros []|]. intros y I [<-|[]]. destruct (B12 _ I) as (n' & J & E).
    destruct (sc_tags B1 n' (or_intror J)) as (i & Gi & Ei). rewrite c_get_find in Gi by exact (sc_sound B1). apply find_In in Gi.
    apply (proj1 (sc_keyed _ _ _ _ _ _ _ _ _ B1)) in Gi. lia.
  - intros y I. rewrite map_app in I. apply in_app_or in I. destruct I as [I|[<-|[]]].
    + destruct (B12 y I) as (n' & J & E). exists n'. split; [right; exact J|]. rewrite sl_def_other; [exact E|]. intros ->. exact (Hn J).
    + exists n. split; [left; reflexivity|apply sl_def_tag].
  - destruct B13 as (ext & X1 & X2). exists ((TAG n, {| sl_id := x; sl_depth := c_regular c |}) :: ext). split; [rewrite (st_abs _ _ _ _ _ _ _ St), X1; reflexivity|].
    cbn [map fst hyp_name]. intros z [<-|I]; [left; reflexivity|right; exact (X2 z I)].
  - intros y I. unfold sl_def. destruct (str_eqb y (TAG n)) eqn:E; [apply str_eqb_eq in E; destruct (I n (or_introl eq_refl) E)|]. apply B14. intros n' J. apply I. right. exact J.
Qed.

(** The items of analysed import blocks set slots. *)
Definition importing (items : list iitem) (sets : list (slot * val)) : Prop :=
  Forall2 (fun i xv => exists y, i = IName y None (Some xv)) items sets.
Lemma import_names c0 a0 sl0 path fs : forall hyps sl hid sets c a, brought c0 a0 sl0 hyps sl hid sets c a -> Forall (fun nf => offered path (fst nf) (snd nf)) fs ->
  (forall n, In n (map fst fs) -> known n = None /\ ~ In n (map hyp_name hyps)) -> NoDup (map fst fs) ->
  exists items new c' a' hyps' sl' hid', amap (an_import im path) (map import_item (map fst fs)) c a = (Done (items, c'), a') /\ importing items new /\
    brought c0 a0 sl0 hyps' sl' hid' (sets ++ new) c' a' /\ map fst hyps' = rev fs ++ map fst hyps.
Proof.
  induction fs as [|[n f] fs IH]; intros hyps sl hid sets c a B F K N; inversion F as [|? ? Of F0]; subst.
  - exists [], [], c, a, hyps, sl, hid. split; [reflexivity|]. split; [constructor|]. split; [rewrite app_nil_r; exact B|reflexivity].
  - cbn [map fst snd] in *. inversion N as [|? ? N1 N2]; subst. destruct (K n (or_introl eq_refl)) as [Kn Hn].
    destruct (import_one _ _ _ _ _ _ _ _ _ path n f B Of Kn Hn) as (x & h & o & hd & c1 & a1 & E1 & B1).
    destruct (IH _ _ _ _ _ _ B1 F0) as (items & new & c' & a' & hyps' & sl' & hid' & E2 & Im & B' & M); [|exact N2|].
    { intros m I. destruct (K m (or_intror I)) as [Km Hm]. split; [exact Km|]. cbn [map hyp_name fst]. intros [<-|J]; [exact (N1 I)|exact (Hm J)]. }
    exists (IName (TAG n) None (Some (x, VHyper h)) :: items), ((x, VHyper h) :: new), c', a', hyps', sl', hid'. split; [|split; [|split]].
    + cbn [map amap]. rewrite (abind_done _ _ _ _ _ _ _ E1), (abind_done _ _ _ _ _ _ _ E2). reflexivity.
    + constructor; [exists (TAG n); reflexivity|exact Im].
    + rewrite <- app_assoc in B'. exact B'.
    + rewrite M. cbn [rev map fst]. rewrite <- app_assoc. reflexivity.
Qed.

Lemma set_importing s items sets : importing items sets -> forall m : mach W, miter (tr_import s) items m = miter (set_value s) sets m.
Proof.
  intros H. induction H as [|i [x v] items sets [y ->] H IH]; intros m; [reflexivity|]. cbn [miter tr_import]. unfold mbind. 
  change (set_value s (x, v)) with (set_slot (W := W) s x v). destruct (set_slot s x v m) as [[u|e|] m1]; [apply IH|reflexivity|reflexivity].
Qed.
(** Import blocks, when translated, set slots. *)
Definition sets_all (bl : list item) (sets : list (slot * val)) : Prop :=
  forall ex lp s (m m' : mach W), miter (set_value s) sets m = (Done tt, m') -> mconcat (tr_item P ex lp s) bl m = (Done [], m').
Lemma sets_app (s : nat) (l l' : list (slot * val)) : forall m m' : mach W, miter (set_value s) (l ++ l') m = (Done tt, m') ->
  exists m1, miter (set_value s) l m = (Done tt, m1) /\ miter (set_value s) l' m1 = (Done tt, m').
Proof.
  induction l as [|[x v] l IH]; intros m m' H; [exists m; split; [reflexivity|exact H]|]. cbn [app miter] in *. unfold mbind, set_value at 1, set_slot in H. unfold mbind at 1, set_value at 1, set_slot.
  cbn [fst snd] in *. exact (IH _ _ H).
Qed.
Lemma import_blocks c0 a0 sl0 (imps : list (str * list (str * meaning))) : forall hyps sl hid sets c a, brought c0 a0 sl0 hyps sl hid sets c a ->
  Forall (fun i => Forall (fun nf => offered (fst i) (fst nf) (snd nf)) (snd i)) imps ->
  (forall n, In n (map fst (flat_map snd imps)) -> known n = None /\ ~ In n (map hyp_name hyps)) -> NoDup (map fst (flat_map snd imps)) ->
  exists bl new c' a' hyps' sl' hid', amap (an_item im context) (map (fun i => raw_import (fst i, map fst (snd i))) imps) c a = (Done (bl, c'), a') /\ sets_all bl new /\
    brought c0 a0 sl0 hyps' sl' hid' (sets ++ new) c' a' /\ map fst hyps' = rev (flat_map snd imps) ++ map fst hyps.
Proof.
  induction imps as [|[path fs] imps IH]; intros hyps sl hid sets c a B F K N; inversion F as [|? ? Of F0]; subst.
  - exists [], [], c, a, hyps, sl, hid. split; [reflexivity|]. split; [|split; [rewrite app_nil_r; exact B|reflexivity]]. intros ex lp s m m' [= <-]. reflexivity.
  - cbn [flat_map fst snd] in *. rewrite map_app in K, N. apply NoDup_app_inv in N. destruct N as (N1 & N2 & N3).
    set (c2 := if c_prolog c && true then end_prolog c else c).
    assert (B2 : brought c0 a0 sl0 hyps sl hid sets c2 a) by (apply (brought_same _ _ _ _ _ _ _ c); [| | |exact B]; unfold c2; destruct (c_prolog c && true); reflexivity).
    destruct (import_names c0 a0 sl0 path fs _ _ _ _ _ _ B2 Of) as (items & new & c1 & a1 & h1 & sl1 & hid1 & E1 & Im & B1 & M1); [intros n I; apply K, in_or_app; left; exact I|exact N1|].
    destruct (IH _ _ _ _ _ _ B1 F0) as (bl & new' & c' & a' & hyps' & sl' & hid' & E2 & Sa & B' & M); [|exact N2|].
    { intros n I. destruct (K n) as [Kn Hn]; [apply in_or_app; right; exact I|]. split; [exact Kn|]. intros J. rewrite hyp_names, M1, map_app, map_rev in J. apply in_app_or in J.
      destruct J as [J|J]; [apply in_rev in J; exact (N3 n J I)|]. apply Hn. rewrite hyp_names. exact J. }
    exists (NBlock [] MNone (BImport path items) :: bl), (new ++ new'), c', a', hyps', sl', hid'. split; [|split; [|split]].
    + cbn [map amap raw_import fst snd]. rewrite (abind_done _ _ c a (NBlock [] MNone (BImport path items)) c1 a1); [rewrite (abind_done _ _ _ _ _ _ _ E2); reflexivity|].
      unfold raw_import. cbn [an_item fst snd]. rewrite (abind_done _ _ c a tt c2 a eq_refl).
      rewrite (abind_done _ _ c2 a (BImport path items) c1 a1); [reflexivity|]. cbn [an_block].
      rewrite (abind_done _ _ c2 a tt c2 a); [|unfold aread, mbind; rewrite (br_ctl _ _ _ _ _ _ _ _ _ B2); reflexivity].
      rewrite (abind_done _ _ _ _ _ _ _ E1). reflexivity.
    + intros ex lp s m m' H. apply sets_app in H. destruct H as (m1 & H1 & H2). cbn [mconcat].
      rewrite (run_bind _ _ _ [] m1); [|cbn [tr_item]]. { rewrite (run_bind _ _ _ _ _ (Sa ex lp s m1 m' H2)). reflexivity. }
      cbn [tr_block]. rewrite (run_bind (tr_static []) _ m [] m); [|reflexivity]. rewrite (run_bind _ _ m (Some []) m1); [reflexivity|]. rewrite (run_bind _ _ m [] m1); [reflexivity|]. rewrite (run_bind _ _ m tt m1); [reflexivity|]. rewrite (set_importing s _ _ Im). exact H1.
    + rewrite <- app_assoc in B'. exact B'.
    + rewrite M, M1, rev_app_distr, app_assoc. reflexivity.
Qed.
Lemma sets_others s (l : list (slot * val)) : forall (m m' : mach W), miter (set_value s) l m = (Done tt, m') -> m_heap m' = m_heap m /\ m_defs m' = m_defs m /\ forall ws, others s ws m m'.
Proof.
  induction l as [|[x v] l IH]; intros m m' H; [injection H as <-; split; [reflexivity|]; split; [reflexivity|]; intros ws; apply others_refl; reflexivity|].
  cbn [miter] in H. unfold mbind, set_value at 1, set_slot in H. cbn [fst snd] in H. apply IH in H. destruct H as (H1 & H2 & H3). split; [exact H1|]. split; [exact H2|].
  intros ws. exact (others_on s ws _ _ _ (put_others s ws m _) (H3 ws)).
Qed.
Lemma brought_runs c0 a0 sl0 hyps sl hid sets c a s r (m : mach W) : brought c0 a0 sl0 hyps sl hid sets c a -> live s m ->
  (forall h, In h hyps -> at_home (snd (snd h)) m /\ ~ In s (ho_states (snd (snd h)))) -> stays known tag_of s [] sl0 m -> gets s vis sl0 r m ->
  exists m', miter (set_value s) sets m = (Done tt, m') /\ live s m' /\ ind_of s m' = ind_of s m /\ m_heap m' = m_heap m /\ m_defs m' = m_defs m /\
    stays known tag_of s hyps sl m' /\ gets s vis sl r m' /\ others s [] m m'.
Proof.
  intros [B1 B2 B3 B4 B5 B6 B7 B8 B9 B10 B11 B12 B13 B14] Lv Ho [St _] Gt.
  destruct (set_values s sets m Lv) as (m' & E & _ & V1 & V2). destruct (set_values_ind s sets m Lv) as (m'' & E' & L' & I'). rewrite E in E'. injection E' as <-.
  destruct (sets_others s sets m m' E) as (Hh & Hd & Ot).
  assert (In_sl : forall y, (exists n, y = TAG n /\ ((exists v, known n = Some v) \/ In n (map hyp_name hyps))) \/ (exists n, y = VAR n /\ In n vis) -> exists i, In (y, i) (entries c) /\ sl_id i = sl y).
  { intros y [(n & -> & H)|(n & -> & H)].
    - destruct (sc_tags B1 n H) as (i & G & Ei). exists i. rewrite c_get_find in G by exact (sc_sound B1). split; [exact (find_In _ _ _ G)|exact Ei].
    - destruct (sc_vis B1 n H) as (_ & i & G & Ei). exists i. rewrite c_get_find in G by exact (sc_sound B1). split; [exact (find_In _ _ _ G)|exact Ei]. }
  assert (Fr : forall y, (forall n, In n (map hyp_name hyps) -> y <> TAG n) -> (exists i, In (y, i) (entries c) /\ sl_id i = sl y) -> slot_value m' s (sl y) = slot_value m s (sl0 y)).
  { intros y N (i & J & Ei). rewrite V1, B14 by (try exact N; intros z; destruct (B12 _ z) as (n & In & En); destruct (In_sl (TAG n) (or_introl (ex_intro _ n (conj eq_refl (or_intror In))))) as (i' & J' & Ei');
      apply (N n In); apply (proj2 (sc_keyed _ _ _ _ _ _ _ _ _ B1) _ i _ i' J J'); congruence). reflexivity. }
  exists m'. split; [exact E|]. split; [exact L'|]. split; [exact I'|]. split; [exact Hh|]. split; [exact Hd|]. split; [|split; [|exact (Ot [])]].
  - split.
    + intros n v K. rewrite Fr; [exact (St n v K)| |].
      * intros n' J2 E2. injection E2 as <-. rewrite (B7 n J2) in K. discriminate.
      * apply In_sl. left. exists n. split; [reflexivity|left; exists v; exact K].
    + intros n f h o I. destruct (Ho _ I) as [H1 H2]. cbn [fst snd] in *. split; [|split; [|exact H2]].
      * exact (V2 B11 _ _ (B10 _ _ _ _ I)).
      * apply (others_home s (map fst sets) o m m'); [exact (Ot _)| | |exact Hd|exact H2|exact H1].
        -- intros x X U. destruct (B12 x X) as (n' & J & En). destruct (In_sl (TAG n') (or_introl (ex_intro _ n' (conj eq_refl (or_intror J))))) as (i & Ji & Ei).
           apply (sc_hid _ _ _ _ _ _ _ _ _ B1 _ _ Ji). rewrite Ei, En. apply in_or_app. right. apply in_flat_map. exists ((n, f), (h, o)). split; [exact I|exact U].
        -- exact V1.
  - intros n v I G. rewrite Fr; [exact (Gt n v I G)|intros n' _ E2; destruct (VAR_TAG _ _ E2)|]. apply In_sl. right. exists n. auto.
Qed.
End Import.
