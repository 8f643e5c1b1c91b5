(** Analysis succeeds exactly for scripts that obey the scoping rules. *)
From Coq Require Import List NArith ZArith Bool Arith Lia.
From Verif Require Import PyStr PyStrFacts PyDict Structs StructsSpec StructsFacts Value Dom Ast AstInd Machine Eval Translate Analyse MachineFacts ScopeSpec ScopeFacts.
Import ListNotations.

Lemma incl_flat_map {A B} (f : A -> list B) l E : incl (flat_map f l) E <-> Forall (fun x => incl (f x) E) l.
Proof.
  induction l as [|x l IH]; cbn; [split; [constructor|intros _ y []]|]. split.
  - intros H. apply incl_app_inv in H. destruct H as [H1 H2]. constructor; [exact H1|apply IH, H2].
  - intros H. inversion H; subst. apply incl_app; [assumption|apply IH; assumption].
Qed.
Lemma incl_app_iff {A} (a b E : list A) : incl (a ++ b) E <-> incl a E /\ incl b E.
Proof. split; [apply incl_app_inv|intros [H1 H2]; apply incl_app; assumption]. Qed.
Lemma incl_one {A} (x : A) E : incl [x] E <-> In x E.
Proof. split; [intros H; apply H; left; reflexivity|intros H y [<-|[]]; exact H]. Qed.
Lemma incl_none {A} (E : list A) : incl [] E.
Proof. intros x []. Qed.

(** the names visible in a context *)
Definition sees (c : ctx) (E : list str) : Prop := forall y, In y E <-> In y (map fst (entries c)).

Section Names.
  Variable c : ctx.
  Variable E : list str.
  Hypothesis I : sound c.
  Hypothesis V : sees c E.

  Lemma sees_get y : (exists i, c_get c y = Some i /\ In y E) \/ (c_get c y = None /\ ~ In y E).
  Proof.
    rewrite (c_get_find c y I). destruct (find y (entries c)) as [i|] eqn:F.
    - left. exists i. split; [reflexivity|]. apply V. apply find_In in F. apply (in_map fst) in F. exact F.
    - right. split; [reflexivity|]. intros H. apply find_None in F. apply F, V, H.
  Qed.

  (** a computation that succeeds exactly under a condition *)
  Definition tells {A} (r : result A) (cond : Prop) (good : A -> Prop) : Prop :=
    match r with Ok a => cond /\ good a | Raise _ => ~ cond end.
  Lemma tells_ok {A} (a : A) (cond : Prop) (good : A -> Prop) : cond -> good a -> tells (Ok a) cond good.
  Proof. split; assumption. Qed.
  Lemma tells_bind {A B} (r : result A) (f : A -> result B) (p q : Prop) (good : A -> Prop) (good' : B -> Prop) :
    tells r p good -> (forall a, good a -> tells (f a) q good') -> tells (a <- r ;; f a) (p /\ q) good'.
  Proof.
    destruct r as [a|e]; cbn.
    - intros [P G] F. specialize (F a G). destruct (f a); cbn in *; [destruct F; tauto|tauto].
    - intros N _ [P _]. contradiction.
  Qed.
  Lemma tells_iff {A} (r : result A) (p q : Prop) (good good' : A -> Prop) :
    tells r p good -> (p <-> q) -> (forall a, good a -> good' a) -> tells r q good'.
  Proof. destruct r; cbn; intros H Q G; [split; [apply Q, H|apply G, H]|tauto]. Qed.
  Lemma tells_map {A B C} (f : A -> result B) (us : A -> list str) (good : B -> Prop) (k : list B -> C) (good' : C -> Prop) l :
    Forall (fun x => tells (f x) (incl (us x) E) good) l -> (forall ys, Forall good ys -> good' (k ys)) ->
    tells (l <- rmap f l ;; Ok (k l)) (incl (flat_map us l) E) good'.
  Proof.
    intros H K. assert (X : tells (rmap f l) (incl (flat_map us l) E) (Forall good)).
    { clear K. induction H as [|x l Hx _ IH]; cbn; [split; [apply incl_none|constructor]|].
      change (tells (y <- f x ;; ys <- rmap f l ;; Ok (y :: ys)) (incl (us x ++ flat_map us l) E) (Forall good)).
      eapply tells_iff; [|symmetry; apply incl_app_iff|intros a Ha; exact Ha]. eapply tells_bind; [exact Hx|]. intros y Gy.
      eapply tells_iff with (p := incl (flat_map us l) E /\ True); [|tauto|intros a Ha; exact Ha].
      eapply tells_bind; [exact IH|]. intros ys Gys. apply tells_ok; [trivial|]. constructor; assumption. }
    eapply tells_iff with (p := incl (flat_map us l) E /\ True); [|tauto|intros a Ha; exact Ha].
    eapply tells_bind; [exact X|]. intros ys Gys. apply tells_ok; auto.
  Qed.
  Lemma tells_opt (o : option expr) :
    on_opt (fun e => tells (an_expr c e) (incl (uses e) E) linked) o ->
    tells (match o with Some y => y <- an_expr c y ;; Ok (Some y) | None => Ok None end)
          (incl (match o with Some e => uses e | None => [] end) E) (fun o => match o with Some e => linked e | None => True end).
  Proof.
    destruct o as [e|]; cbn [on_opt]; intros H; [|split; [apply incl_none|exact Logic.I]].
    eapply tells_iff with (p := incl (uses e) E /\ True); [|tauto|intros a Ha; exact Ha]. eapply tells_bind; [exact H|].
    intros a Ha. apply tells_ok; [trivial|exact Ha].
  Qed.
  Lemma tells_lookup y (k : option slot -> expr) : (forall x, linked (k (Some x))) ->
    tells (r <- lookup c y ;; Ok (k r)) (incl [y] E) linked.
  Proof.
    intros L. unfold lookup. destruct (sees_get y) as [(i & -> & H)|[-> H]].
    - split; [apply incl_one, H|apply L].
    - intros K. apply H, incl_one, K.
  Qed.
  Lemma Forall_all_of {A} (f : A -> Prop) l : Forall f l -> all_of f l.
  Proof. apply all_of_Forall. Qed.
  Lemma Forall_all_of2 {A B} (f : A -> Prop) (g : B -> A) l : Forall (fun x => f (g x)) l -> all_of (fun x => f (g x)) l.
  Proof. apply all_of_Forall. Qed.

  Lemma tells_one {A} (r : result expr) (k : expr -> A) (cond : Prop) (good : A -> Prop) :
    tells r cond linked -> (forall e, linked e -> good (k e)) -> tells (e <- r ;; Ok (k e)) cond good.
  Proof. destruct r; cbn; intros H K; [split; [apply H|apply K, H]|exact H]. Qed.

  Lemma tells_two {A B C D} (r : result A) (f : B -> result C) l (us : B -> list str) us0 (g0 : A -> Prop) (g : C -> Prop)
    (k : A -> list C -> D) (good : D -> Prop) :
    tells r (incl us0 E) g0 -> Forall (fun x => tells (f x) (incl (us x) E) g) l ->
    (forall a ys, g0 a -> Forall g ys -> good (k a ys)) ->
    tells (a <- r ;; l <- rmap f l ;; Ok (k a l)) (incl (us0 ++ flat_map us l) E) good.
  Proof.
    intros H1 H2 K. eapply tells_iff; [|symmetry; apply incl_app_iff|intros a Ha; exact Ha].
    eapply tells_bind; [exact H1|]. intros a Ga. apply tells_map with (good := g); [exact H2|]. intros ys Gys. apply K; assumption.
  Qed.

  Lemma an_names :
    (forall e, tells (an_expr c e) (incl (uses e) E) linked) /\
    (forall t, tells (an_tail c t) (incl (uses_tail t) E) linked_tail) /\
    (forall p, tells (an_part c p) (incl (uses_part p) E) linked_part).
  Proof.
    assert (ARG : forall l : list (option str * expr), Forall (fun ne => tells (an_expr c (snd ne)) (incl (uses (snd ne)) E) linked) l ->
       Forall (fun ne => tells (let (n, e) := (ne : option str * expr) in e <- an_expr c e ;; Ok (n, e)) (incl (uses (snd ne)) E) (fun ne => linked (snd ne))) l).
    { intros l H. eapply Forall_impl; [|exact H]. intros [n e] He. apply tells_one; [exact He|]. intros e' L; exact L. }
    apply expr_tail_part_ind; cbn [an_expr an_tail an_part uses uses_tail uses_part].
    - intros v. split; [apply incl_none|exact Logic.I].
    - intros l H. apply tells_map with (good := linked_part); [exact H|]. intros ys G. apply all_of_Forall, G.
    - intros n r. apply (tells_lookup (VAR n) (EVar n)). discriminate.
    - intros y r. apply (tells_lookup y (ETag y)). discriminate.
    - intros l H. apply tells_map with (good := linked); [exact H|]. intros ys G. apply all_of_Forall, G.
    - intros l H. apply tells_map with (good := linked); [exact H|]. intros ys G. apply all_of_Forall, G.
    - intros l H. apply tells_map with (good := linked); [exact H|]. intros ys G. apply all_of_Forall, G.
    - intros l H. apply tells_map with (good := fun kv => linked (fst kv) /\ linked (snd kv)); [|intros ys G; apply all_of_Forall, G].
      eapply Forall_impl; [|exact H]. intros [k v] [Hk Hv]. cbn [fst snd] in *. eapply tells_iff; [|symmetry; apply incl_app_iff|intros a Ha; exact Ha].
      eapply tells_bind; [exact Hk|]. intros a La. apply tells_one; [exact Hv|]. intros b Lb. split; assumption.
    - intros a ts q Ha H. apply tells_two with (g0 := linked) (g := linked_tail); [exact Ha|exact H|]. intros x ys L G. split; [exact L|apply all_of_Forall, G].
    - intros n h l Hh H. apply tells_two with (g0 := linked) (g := fun oe => linked (snd oe)); [exact Hh| |].
      + eapply Forall_impl; [|exact H]. intros [o e] He. apply tells_one; [exact He|]. intros e' L; exact L.
      + intros x ys L G. split; [exact L|apply all_of_Forall, G].
    - intros o h l Hh H. apply tells_two with (g0 := linked) (g := linked); [exact Hh|exact H|]. intros x ys L G. split; [exact L|apply all_of_Forall, G].
    - intros h l Hh H. apply tells_two with (g0 := linked) (g := linked); [exact Hh|exact H|]. intros x ys L G. split; [exact L|apply all_of_Forall, G].
    - intros l H. apply tells_map with (good := linked); [exact H|]. intros ys G. apply all_of_Forall, G.
    - intros n e He. apply tells_one; [exact He|]. intros e' L; exact L.
    - intros h l Hh H. apply tells_two with (g0 := linked) (g := linked); [exact Hh|exact H|]. intros x ys L G. split; [exact L|apply all_of_Forall, G].
    - intros h l Hh H. apply tells_two with (g0 := linked) (g := linked); [exact Hh|exact H|]. intros x ys L G. split; [exact L|apply all_of_Forall, G].
    - intros x t y Hx Ht Hy. eapply tells_iff; [|symmetry; rewrite !incl_app_iff; reflexivity|intros a Ha; exact Ha].
      eapply tells_bind; [exact Hx|]. intros x' Lx. eapply tells_bind; [exact Ht|]. intros t' Lt.
      eapply tells_iff with (p := incl (match y with Some y => uses y | None => [] end) E /\ True); [|tauto|intros a Ha; exact Ha].
      eapply tells_bind; [apply tells_opt, Hy|]. intros y' Ly. apply tells_ok; [trivial|]. split; [exact Lx|split; [exact Lt|exact Ly]].
    - intros e q He. apply tells_one; [exact He|]. intros e' L; exact L.
    - intros l H. apply tells_map with (good := fun ne => linked (snd ne)); [apply ARG, H|]. intros ys G. apply all_of_Forall, G.
    - intros l H. apply tells_map with (good := fun ne => linked (snd ne)); [apply ARG, H|]. intros ys G. apply all_of_Forall, G.
    - intros e He. apply tells_one; [exact He|]. intros e' L; exact L.
    - intros a b d Ha Hb Hd. eapply tells_iff; [|symmetry; rewrite !incl_app_iff; reflexivity|intros x Hx; exact Hx].
      eapply tells_bind; [apply tells_opt, Ha|]. intros a' La. eapply tells_bind; [apply tells_opt, Hb|]. intros b' Lb.
      eapply tells_iff with (p := incl (match d with Some y => uses y | None => [] end) E /\ True); [|tauto|intros x Hx; exact Hx].
      eapply tells_bind; [apply tells_opt, Hd|]. intros d' Ld. apply tells_ok; [trivial|]. split; [exact La|split; [exact Lb|exact Ld]].
    - intros n. split; [apply incl_none|exact Logic.I].
    - intros t. split; [apply incl_none|exact Logic.I].
    - intros e He. apply tells_one; [exact He|]. intros e' L; exact L.
  Qed.
  Lemma tells_expr e : tells (an_expr c e) (incl (uses e) E) linked.
  Proof. apply an_names. Qed.
  Lemma tells_line l : tells (an_line c l) (incl (uses_line l) E) linked_line.
  Proof.
    destruct l as [t|ps|ps]; cbn [an_line uses_line].
    - split; [apply incl_none|exact Logic.I].
    - apply tells_map with (good := linked_part); [apply Forall_forall; intros p _; apply an_names|]. intros ys G. apply all_of_Forall, G.
    - apply tells_map with (good := linked_part); [apply Forall_forall; intros p _; apply an_names|]. intros ys G. apply all_of_Forall, G.
  Qed.
  Lemma tells_titem t : tells (an_titem c t) (incl (uses_titem t) E) linked_titem.
  Proof.
    destruct t as [l|x|x|x]; cbn [an_titem uses_titem]; try (split; [apply incl_none|exact Logic.I]).
    eapply tells_iff with (p := incl (uses_line l) E /\ True); [|tauto|intros a Ha; exact Ha].
    eapply tells_bind; [apply tells_line|]. intros l' L. apply tells_ok; [trivial|exact L].
  Qed.
  Lemma tells_tag t : tells (an_tag c t) (incl (uses_tag t) E) linked_tag.
  Proof.
    destruct t as [|n x un nm]; cbn [an_tag uses_tag]; [split; [apply incl_none|exact Logic.I]|].
    eapply tells_iff with (p := incl (flat_map uses un) E /\ incl (flat_map (fun ne => uses (snd ne)) nm) E /\ In (tag_symbol n) E);
      [| |intros a Ha; exact Ha].
    - eapply tells_bind.
      + eapply tells_iff with (p := incl (flat_map uses un) E /\ True); [|tauto|intros a Ha; exact Ha].
        assert (H := tells_map (an_expr c) uses linked (fun l => l) (Forall linked) un).
        assert (R : forall A (r : result (list A)), (l <- r ;; Ok l) = r) by (intros A [|]; reflexivity). rewrite R in H.
        eapply tells_iff; [apply H; [apply Forall_forall; intros e _; apply tells_expr|intros ys G; exact G]|tauto|intros a Ha; exact Ha].
      + intros un' Lu. eapply tells_bind.
        * assert (H := tells_map (an_named c) (fun ne => uses (snd ne)) (fun ne => linked (snd ne)) (fun l => l) (Forall (fun ne => linked (snd ne))) nm).
          assert (R : forall A (r : result (list A)), (l <- r ;; Ok l) = r) by (intros A [|]; reflexivity). rewrite R in H.
          apply H; [|intros ys G; exact G]. apply Forall_forall. intros [k e] _. apply tells_one; [apply tells_expr|]. intros e' L; exact L.
        * intros nm' Ln. destruct (sees_get (TAG n)) as [(i & -> & H)|[-> H]].
          -- split; [exact H|]. split; [discriminate|]. split; apply all_of_Forall; assumption.
          -- exact H.
    - change (tag_symbol n :: flat_map uses un ++ flat_map (fun ne => uses (snd ne)) nm) with ([tag_symbol n] ++ flat_map uses un ++ flat_map (fun ne => uses (snd ne)) nm).
      rewrite !incl_app_iff, incl_one. tauto.
  Qed.
  Lemma tells_default a : tells (an_default c a) (match a_default a with Some e => incl (uses e) E | None => True end) (fun b => linked_default b /\ a_name b = a_name a).
  Proof.
    unfold an_default, linked_default. destruct (a_default a) as [e|] eqn:D.
    - apply tells_one; [apply tells_expr|]. intros e' L. cbn. split; [exact L|reflexivity].
    - split; [exact Logic.I|]. rewrite D. split; [exact Logic.I|reflexivity].
  Qed.
End Names.

Section Analysis.
  Context {W : Type}.
  Variable import_module : str -> M W module.
  Variable context : list (str * val).
  Variable modules : str -> option (list str).
  Notation given := (map fst context).

  (** The modules that can be imported in any state of the machine which satisfies [J], and [J] holds
      afterwards. *)
  Variable J : mach W -> Prop.
  Definition modules_are : Prop := forall p m, J m ->
    match modules p with
    | Some ys => exists md m', import_module p m = (Done md, m') /\ J m' /\ map fst (mod_symbols md) = ys /\
                 (mod_state md <> None \/ forall y v, In (y, v) (mod_symbols md) -> match v with VHyper _ => False | _ => True end)
    | None => exists e m', import_module p m = (Exc e, m')
    end.
  (** [J] is about the caches, say, and not about slots and definitions *)
  Definition steady : Prop := (forall m k, J m -> J (with_next m k)) /\ (forall m l, J m -> J (with_defs m l)).
  Hypothesis MOD : modules_are.
  Hypothesis ST : steady.

  (** An analysis that succeeds exactly under a condition, adds given names to those visible, and whose
      result is good. [ctl]: inside a control block; [pro], [pro']: in the prolog, before and after. *)
  Definition decides {A} (x : AM (W := W) A) (ctl pro pro' : bool) (E : list str) (cond : Prop) (added : list str) (good : A -> Prop) : Prop :=
    forall c m, sound c -> sees c E -> Nat.leb 1 (c_control c) = ctl -> c_prolog c = pro -> J m ->
    match x c m with
    | (Done (a, c'), m') => cond /\ good a /\ sound c' /\ sees c' (added ++ E) /\ (exists ext, entries c' = ext ++ entries c /\ incl (map fst ext) added) /\
                           c_control c' = c_control c /\ c_prolog c' = pro' /\ J m'
    | (Exc _, _) => ~ cond
    | (Fuel, _) => False
    end.
  Definition same (E E' : list str) : Prop := forall y, In y E <-> In y E'.

  Lemma decides_iff {A} (x : AM A) ctl pro pro' E (p q : Prop) add add' (good good' : A -> Prop) :
    decides x ctl pro pro' E p add good -> (p <-> q) -> same add add' -> (forall a, good a -> good' a) ->
    decides x ctl pro pro' E q add' good'.
  Proof.
    intros H Q A1 G c m I V C P J0. specialize (H c m I V C P J0). destruct (x c m) as [[[a c']|e|] m']; [|tauto|exact H].
    destruct H as (H1 & H2 & H3 & H4 & (x1 & H5 & H6) & H7). split; [tauto|]. split; [auto|]. split; [exact H3|]. split; [|split; [|exact H7]].
    - intros y. rewrite in_app_iff, <- (A1 y), <- in_app_iff. apply H4.
    - exists x1. split; [exact H5|]. intros y Hy. apply A1, H6, Hy.
  Qed.
  Lemma decides_bind {A B} (x : AM A) (f : A -> AM B) ctl pro pro1 pro2 E E1 (p q : Prop) add1 add2 (good : A -> Prop) (good' : B -> Prop) :
    decides x ctl pro pro1 E p add1 good -> same (add1 ++ E) E1 ->
    (forall a, good a -> decides (f a) ctl pro1 pro2 E1 q add2 good') ->
    decides (abind x f) ctl pro pro2 E (p /\ q) (add2 ++ add1) good'.
  Proof.
    intros H S1 F c m I V C P J0. specialize (H c m I V C P J0). unfold abind, mbind. destruct (x c m) as [[[a c1]|e|] m1]; [|tauto|exact H].
    destruct H as (H1 & H2 & H3 & H4 & (x1 & H5 & HI) & H6 & H7 & HJ).
    assert (V1 : sees c1 E1) by (intros y; rewrite <- (S1 y); apply H4).
    assert (C1 : Nat.leb 1 (c_control c1) = ctl) by (rewrite H6; exact C).
    specialize (F a H2 c1 m1 H3 V1 C1 H7 HJ). cbn [fst snd]. destruct (f a c1 m1) as [[[b c2]|e|] m2]; [|tauto|exact F].
    destruct F as (F1 & F2 & F3 & F4 & (x2 & F5 & FI) & F6 & F7). split; [tauto|]. split; [exact F2|]. split; [exact F3|]. split.
    - intros y. rewrite <- (F4 y), !in_app_iff, <- (S1 y), in_app_iff. tauto.
    - split; [|split; [congruence|exact F7]]. exists (x2 ++ x1). split; [rewrite F5, H5, app_assoc; reflexivity|]. rewrite map_app. apply incl_app; [apply incl_appl, FI|apply incl_appr, HI].
  Qed.
  Lemma decides_ret {A} (a : A) ctl pro E (good : A -> Prop) : good a -> decides (aret a) ctl pro pro E True [] good.
  Proof. intros G c m I V C P J0. cbn. split; [trivial|]. split; [exact G|]. split; [exact I|]. split; [exact V|]. split; [exists []; split; [reflexivity|apply incl_none]|]. auto. Qed.
  Lemma decides_read {A} (f : ctx -> result A) ctl pro E (p : Prop) (good : A -> Prop) :
    (forall c, sound c -> sees c E -> Nat.leb 1 (c_control c) = ctl -> c_prolog c = pro -> tells (f c) p good) -> decides (aread f) ctl pro pro E p [] good.
  Proof.
    intros H c m I V C P J0. specialize (H c I V C P). unfold aread, mbind, of_result. destruct (f c); cbn; [|exact H]. destruct H as [H1 H2].
    split; [exact H1|]. split; [exact H2|]. split; [exact I|]. split; [exact V|]. split; [exists []; split; [reflexivity|apply incl_none]|]. auto.
  Qed.
  Lemma decides_fail {A} (x : exn) ctl pro E (p : Prop) (good : A -> Prop) : ~ p -> decides (aread (fun _ => Raise x)) ctl pro pro E p [] good.
  Proof. intros N. apply decides_read. intros c _ _ _ _. exact N. Qed.

  Lemma same_refl E : same E E.
  Proof. intros y. tauto. Qed.
  Lemma flat_map_cons_same {A} (f : A -> list str) x l : same (flat_map f l ++ f x) (flat_map f (x :: l)).
  Proof. intros y. cbn. rewrite !in_app_iff. tauto. Qed.
  Lemma decides_fmap {A B} (x : AM A) (k : A -> B) ctl pro pro' E (p : Prop) add (good : A -> Prop) (good' : B -> Prop) :
    decides x ctl pro pro' E p add good -> (forall a, good a -> good' (k a)) ->
    decides (abind x (fun a => aret (k a))) ctl pro pro' E p add good'.
  Proof.
    intros H G c m I V C P J0. specialize (H c m I V C P J0). unfold abind, mbind. destruct (x c m) as [[[a c1]|e|] m1]; [|exact H|exact H].
    cbn. destruct H as (H1 & H2 & H3). split; [exact H1|]. split; [apply G, H2|exact H3].
  Qed.
  Lemma decides_map {A B} (g : A -> AM B) (cond : list str -> A -> Prop) (added : A -> list str) (good : B -> Prop) ctl pro l :
    Forall (fun x => forall E, decides (g x) ctl pro pro E (cond E x) (added x) good) l ->
    forall E, decides (amap g l) ctl pro pro E (in_order cond added E l) (flat_map added l) (Forall good).
  Proof.
    intros H. induction H as [|x l Hx _ IH]; intros E; [apply decides_ret; constructor|]. cbn [amap].
    change (in_order cond added E (x :: l)) with (cond E x /\ in_order cond added (added x ++ E) l).
    eapply decides_iff; [|reflexivity|apply flat_map_cons_same|intros a Ha; exact Ha].
    eapply decides_bind; [apply Hx|apply same_refl|]. intros y Gy.
    apply decides_fmap with (good := Forall good); [apply IH|]. intros ys G. constructor; assumption.
  Qed.

  (** ** Slots *)
  Lemma decides_push2 y ctl pro E : decides (new_slot2 y) ctl pro pro E True [y] (fun _ => True).
  Proof.
    intros c m I V C P J0. destruct (new_slot2 y c m) as [[[x c']|e|] m'] eqn:X; try discriminate X.
    destruct (new_slot2_step _ _ _ _ _ _ I X) as [[I1 A1 R1 C1 H1 P1 N1 D1 E1 J1 F1 S1] _]. injection X as X1 X2 X3.
    split; [trivial|]. split; [trivial|]. split; [exact I1|]. split; [|split; [eexists; split; [exact A1|]|split; [exact C1|split; [rewrite <- X2; exact P|rewrite <- X3; apply ST, J0]]]].
    - intros z. rewrite A1. cbn. rewrite <- (V z). tauto.
    - intros z Hz. cbn in Hz. left. tauto.
  Qed.
  Lemma decides_push y ctl pro E : decides (new_slot y) ctl pro pro E True [y] (fun _ => True).
  Proof.
    intros c m I V C P J0. destruct (new_slot y c m) as [[[x c']|e|] m'] eqn:X; try discriminate X.
    destruct (new_slot_step _ _ _ _ _ _ I X) as [[I1 A1 R1 C1 H1 P1 N1 D1 E1 J1 F1 S1] _]. injection X as X1 X2 X3.
    split; [trivial|]. split; [trivial|]. split; [exact I1|]. split; [|split; [eexists; split; [exact A1|]|split; [exact C1|split; [rewrite <- X2; exact P|rewrite <- X3; apply ST, J0]]]].
    - intros z. rewrite A1. cbn. rewrite <- (V z). tauto.
    - intros z Hz. cbn in Hz. left. tauto.
  Qed.
  Lemma decides_target t ctl pro : forall E, decides (an_target t) ctl pro pro E (scoped_target E t) (adds_target t) linked_target.
  Proof.
    induction t as [n rd r w|l IH] using target_ind'; intros E; cbn [an_target].
    - eapply decides_iff with (p := (rd = true -> In (var_symbol n) E) /\ True) (add := [var_symbol n] ++ []); [|cbn [scoped_target]; tauto|apply same_refl|intros a Ha; exact Ha].
      eapply decides_bind with (good := fun r => rd = true -> r <> None).
      + apply decides_read. intros c I V _ _. destruct rd; [|split; intros; discriminate].
        unfold lookup. destruct (sees_get c E I V (VAR n)) as [(i & -> & H)|[-> H]].
        * split; [intros _; exact H|discriminate].
        * intros K. apply H, K. reflexivity.
      + apply same_refl.
      + intros r' Hr. apply decides_fmap with (good := fun _ => True); [|intros x _; split; [discriminate|exact Hr]].
        intros c m I V C P J0. destruct (sees_get c E I V (VAR n)) as [(i & -> & H)|[-> H]].
        * destruct (Nat.eqb (sl_depth i) (c_regular c)); [|apply (decides_push2 (VAR n) ctl pro E c m I V C P J0)].
          split; [trivial|]. split; [trivial|]. split; [exact I|]. split; [|split; [exists []; split; [reflexivity|apply incl_none]|auto]].
          intros y. rewrite <- (V y). cbn. split; [intros [<-|K]; [exact H|exact K]|tauto].
        * apply (decides_push2 (VAR n) ctl pro E c m I V C P J0).
    - apply decides_fmap with (good := Forall linked_target); [|intros a Ha; apply all_of_Forall, Ha].
      apply (decides_map an_target scoped_target adds_target linked_target ctl pro l IH).
  Qed.

  (** ** Imports *)
  Lemma dget_names {V} y (d : list (str * V)) : match dget str_eqb y d with Some v => In (y, v) d | None => ~ In y (map fst d) end.
  Proof.
    destruct (dget str_eqb y d) as [v|] eqn:G.
    - apply (dget_In str_eqb str_eqb_eq) in G. exact G.
    - intros H. apply (dget_keys str_eqb str_eqb_eq y d) in H; congruence.
  Qed.
  Definition module_ok (p : str) (md : module) : Prop := modules p = Some (map fst (mod_symbols md)) /\
    (mod_state md <> None \/ forall y v, In (y, v) (mod_symbols md) -> match v with VHyper _ => False | _ => True end).
  Lemma decides_module p ctl pro E : decides (alift (import_module p)) ctl pro pro E (modules p <> None) [] (module_ok p).
  Proof.
    intros c m I V C P J0. unfold alift, mbind. assert (H := MOD p m J0). unfold module_ok. destruct (modules p) as [ys|].
    - destruct H as (md & m' & -> & JM & <- & H2). cbn. split; [discriminate|]. split; [split; [reflexivity|exact H2]|]. split; [exact I|].
      split; [exact V|]. split; [exists []; split; [reflexivity|apply incl_none]|auto].
    - destruct H as (e & m' & ->). intros K. apply K. reflexivity.
  Qed.
  Lemma imported_ok p md y v : module_ok p md -> In (y, v) (mod_symbols md) -> exists w, imported md y v = Ok w.
  Proof.
    intros [_ [H|H]] K.
    - unfold imported. destruct v; try (eexists; reflexivity). destruct (IS_TAG y); [|eexists; reflexivity].
      destruct (mod_state md); [eexists; reflexivity|contradiction H; reflexivity].
    - specialize (H _ _ K). destruct v; try (eexists; reflexivity). contradiction.
  Qed.
  Lemma rmap_imported p md l : module_ok p md -> incl l (mod_symbols md) ->
    exists vs, rmap (fun yv => let (y, v) := (yv : str * val) in v <- imported md y v ;; Ok (y, v)) l = Ok vs /\ map fst vs = map fst l.
  Proof.
    intros M. induction l as [|[y v] l IH]; intros H; [exists []; split; reflexivity|].
    destruct (imported_ok p md y v M) as (w & Ew); [apply H; left; reflexivity|].
    destruct IH as (vs & Ev & K); [intros z Hz; apply H; right; exact Hz|].
    exists ((y, w) :: vs). split; [|cbn; rewrite K; reflexivity]. cbn. rewrite Ew. cbn.
    change (ys <- rmap (fun yv : str * val => let (y0, v0) := yv in v1 <- imported md y0 v0;; Ok (y0, v1)) l;; Ok ((y, w) :: ys) = Ok ((y, w) :: vs)).
    rewrite Ev. reflexivity.
  Qed.
  Lemma decides_pushes (l : list (str * val)) ctl pro E :
    decides (amap (fun yv => let (y, v) := (yv : str * val) in abind (new_slot y) (fun x => aret (x, v))) l) ctl pro pro E True (map fst l) (fun _ => True).
  Proof.
    eapply decides_iff with (p := in_order (fun _ _ => True) (fun yv : str * val => [fst yv]) E l) (add := flat_map (fun yv : str * val => [fst yv]) l);
      [apply decides_map with (good := fun _ => True)| | |trivial].
    - apply Forall_forall. intros [y v] _ E'. apply decides_fmap with (good := fun _ => True); [apply decides_push|trivial].
    - split; [trivial|]. intros _. revert E. induction l as [|x l IH]; intros E; cbn; [trivial|]. split; [trivial|apply IH].
    - intros y. replace (flat_map (fun yv : str * val => [fst yv]) l) with (map fst l); [tauto|].
      induction l as [|x l IH]; cbn; [reflexivity|]. rewrite <- IH. reflexivity.
  Qed.
  Lemma filter_public (l : list (str * val)) :
    map fst (filter (fun yv => negb (N.eqb (nth 1 (fst yv) 0%N) 95%N)) l) = filter public (map fst l).
  Proof. induction l as [|[y v] l IH]; [reflexivity|]. cbn [filter map fst]. unfold public at 1. destruct (negb _); cbn [map fst]; rewrite IH; reflexivity. Qed.

  Lemma decides_import path i ctl pro E :
    decides (an_import import_module path i) ctl pro pro E (scoped_import modules path i) (adds_import modules path i) linked_import.
  Proof.
    unfold an_import. set (cond := match i with IWild _ => True | IName y _ _ => forall ys, modules path = Some ys -> In y ys end).
    eapply decides_iff with (p := modules path <> None /\ cond) (add := adds_import modules path i ++ []); [| | |intros a Ha; exact Ha].
    - eapply decides_bind; [apply decides_module|apply same_refl|]. intros md M. unfold cond. clear cond. destruct i as [sl|y rn sl].
      + destruct (rmap_imported path md (filter (fun yv => negb (N.eqb (nth 1 (fst yv) 0%N) 95%N)) (mod_symbols md)) M) as (vs & E1 & K).
        { intros z Hz. apply filter_In in Hz. apply Hz. }
        eapply decides_iff with (p := True /\ True) (add := map fst vs ++ []); [|tauto| |intros a Ha; exact Ha].
        * eapply decides_bind with (good := fun v => v = vs); [apply decides_read; intros c _ _ _ _; rewrite E1; split; [trivial|reflexivity]|apply same_refl|].
          intros v ->. apply decides_fmap with (good := fun _ => True); [apply decides_pushes|]. intros l _. discriminate.
        * cbn [adds_import]. rewrite (proj1 M), K, filter_public, app_nil_r. apply same_refl.
      + assert (G := dget_names y (mod_symbols md)). destruct (dget str_eqb y (mod_symbols md)) as [v|].
        * destruct (imported_ok path md y v M G) as (w & Ew).
          eapply decides_iff with (p := True /\ True) (add := [renamed y rn] ++ []); [| |apply same_refl|intros a Ha; exact Ha].
          -- eapply decides_bind with (good := fun v => v = w); [apply decides_read; intros c _ _ _ _; rewrite Ew; split; [trivial|reflexivity]|apply same_refl|].
             intros v' ->. apply decides_fmap with (good := fun _ => True); [apply decides_push|]. intros x _. discriminate.
          -- split; [|tauto]. intros _ ys Y. rewrite (proj1 M) in Y. injection Y as <-. apply (in_map fst) in G. exact G.
        * intros c m I V C P J0. cbn. intros H. apply G, (H _ (proj1 M)).
    - unfold cond, scoped_import. destruct (modules path) as [ys|]; destruct i as [sl|y rn sl].
      + split; [intros _; exists ys; split; [reflexivity|trivial]|]. intros _. split; [discriminate|trivial].
      + split; [intros [_ H]; exists ys; split; [reflexivity|apply H; reflexivity]|]. intros (zs & [= <-] & H). split; [discriminate|].
        intros zs [= <-]. exact H.
      + split; [intros [H _]; contradiction H; reflexivity|]. intros (zs & H & _). discriminate.
      + split; [intros [H _]; contradiction H; reflexivity|]. intros (zs & H & _). discriminate.
    - rewrite app_nil_r. apply same_refl.
  Qed.
  Lemma decides_context i ctl pro E :
    decides (an_context context i) ctl pro pro E (scoped_context given i) (adds_import modules [] i) linked_import.
  Proof.
    destruct i as [sl|y rn sl]; cbn [an_context scoped_context].
    - intros c m I V C P J0. cbn. tauto.
    - assert (G := dget_names y context). destruct (dget str_eqb y context) as [v|].
      + apply decides_iff with (p := True) (add := [renamed y rn]) (good := linked_import); [| |apply same_refl|trivial].
        * apply decides_fmap with (good := fun _ => True); [apply decides_push|]. intros x _. discriminate.
        * split; [intros _|trivial]. apply (in_map fst) in G. exact G.
      + intros c m I V C P J0. cbn. exact G.
  Qed.

  (** ** Scopes *)
  Lemma names_add_new {V} (syms : list (str * V)) : forall s y, In y (map fst (add_new syms s)) <-> In y (map fst syms) \/ In y (map fst s).
  Proof.
    induction syms as [|[n v] r IH]; intros s y; cbn; [tauto|]. rewrite IH. destruct (find n s) as [w|] eqn:F; [|cbn; tauto].
    apply find_In in F. apply (in_map fst) in F. cbn in F. split; [tauto|]. intros [[<-|H]|H]; tauto.
  Qed.
  Lemma find_names {V} (s : scope V) y : In y (map fst s) <-> find y s <> None.
  Proof.
    split.
    - intros H K. apply find_None in K. contradiction.
    - intros H. destruct (in_dec (list_eq_dec N.eq_dec) y (map fst s)) as [D|D]; [exact D|]. apply find_None in D. contradiction.
  Qed.
  Lemma decides_branch {A} (x : AM A) ctl pro E p add (good : A -> Prop) :
    decides x ctl pro pro E p add good -> decides (branch x) ctl pro pro E p add good.
  Proof.
    intros X c m I V C P J0. specialize (X c m I V C P J0). unfold branch, aposition, aasdict, areset, amod, abind, mbind, ret. cbn [fst snd].
    destruct (x c m) as [[[a c1]|e|] m1]; [|exact X|exact X]. destruct X as (X1 & X2 & X3 & X4 & (ext & X5 & XI) & X6 & X7 & X8). cbn [fst snd].
    assert (H := reset_spec (c_md c1) (md_position (c_md c)) X3).
    assert (L : md_position (c_md c) = List.length (entries c)) by apply position_length. rewrite L in *.
    unfold entries in X5 at 1. rewrite X5, app_length in H.
    destruct (Nat.ltb_spec (List.length ext + List.length (entries c)) (List.length (entries c))) as [LT|_]; [lia|].
    destruct H as (d & -> & I' & A'). replace (List.length ext + List.length (entries c) - List.length (entries c)) with (List.length ext) in A' by lia.
    rewrite skipn_app, skipn_all, Nat.sub_diag in A'. change (abs d = entries c) in A'. cbn [of_result ret fst snd aret with_md c_md].
    destruct (pushnew_spec (md_asdict (List.length (entries c)) (c_md c1)) d I') as [I4 A4].
    split; [exact X1|]. split; [exact X2|]. split; [exact I4|]. split; [|split; [|split; [exact X6|split; [exact X7|exact X8]]]].
    - intros y. rewrite (X4 y). change (In y (map fst (abs (c_md c1))) <-> In y (map fst (abs (md_pushnew (md_asdict (List.length (entries c)) (c_md c1)) d)))).
      rewrite A4, names_add_new, A', find_names, X5, find_app.
      destruct (asdict_spec (c_md c1) (List.length (entries c))) as [_ F]. rewrite find_names, F, X5, app_length.
      replace (List.length ext + List.length (entries c) - List.length (entries c)) with (List.length ext) by lia.
      rewrite firstn_app, firstn_all, Nat.sub_diag, firstn_O, app_nil_r, find_names.
      destruct (find y ext); [split; intros _; [left|]; discriminate|tauto].
    - change (exists e, abs (md_pushnew (md_asdict (List.length (entries c)) (c_md c1)) d) = e ++ entries c /\ incl (map fst e) add).
      rewrite A4, A'. destruct (add_new_ext (md_asdict (List.length (entries c)) (c_md c1)) (entries c)) as (e & -> & Inc).
      exists e. split; [reflexivity|]. intros y Hy. apply XI. apply in_map_iff in Hy. destruct Hy as (z & <- & Hz). apply in_map.
      apply (asdict_incl c1 ext (entries c) X3 X5), Inc, Hz.
  Qed.
  Lemma decides_control {A} (x : AM A) ctl pro E p add (good : A -> Prop) :
    decides x true pro pro E p add good -> decides (control x) ctl pro pro E p add good.
  Proof.
    intros X c m I V C P J0. specialize (X (enter_control c) m I V eq_refl P J0). unfold control, amod, abind, mbind, ret. cbn [fst snd].
    destruct (x (enter_control c) m) as [[[a c1]|e|] m1]; [|exact X|exact X]. cbn.
    destruct X as (X1 & X2 & X3 & X4 & X5 & X6 & X7). split; [exact X1|]. split; [exact X2|]. split; [exact X3|]. split; [exact X4|].
    split; [exact X5|]. split; [rewrite X6; reflexivity|exact X7].
  Qed.
  (** names made by [x] are dropped *)
  Definition local {A} (pre post : ctx -> ctx) (x : AM (W := W) A) : AM A :=
    abind (amod pre) (fun _ => abind aposition (fun p => abind x (fun a => abind (areset p) (fun _ => abind (amod post) (fun _ => aret a))))).
  Lemma decides_local {A} (x : AM A) pre post ctl pro E p add (good : A -> Prop) :
    (forall c, c_md (pre c) = c_md c /\ c_control (pre c) = c_control c /\ c_prolog (pre c) = c_prolog c) ->
    (forall c, c_md (post c) = c_md c /\ c_control (post c) = c_control c /\ c_prolog (post c) = c_prolog c) ->
    decides x ctl pro pro E p add good -> decides (local pre post x) ctl pro pro E p [] good.
  Proof.
    intros PRE POST X c m I V C P J0. destruct (PRE c) as (R1 & R2 & R3).
    assert (I0 : sound (pre c)) by (unfold sound; rewrite R1; exact I). assert (N0 : entries (pre c) = entries c) by (unfold entries; rewrite R1; reflexivity).
    assert (V0 : sees (pre c) E) by (intros y; rewrite N0; apply V). rewrite <- R2 in C. rewrite <- R3 in P.
    specialize (X (pre c) m I0 V0 C P J0). unfold local, aposition, aasdict, areset, amod, abind, mbind, ret. cbn [fst snd].
    destruct (x (pre c) m) as [[[a c1]|e|] m1]; [|exact X|exact X]. destruct X as (X1 & X2 & X3 & X4 & (ext & X5 & XI) & X6 & X7 & X8). cbn [fst snd].
    rewrite R1. rewrite N0 in X5.
    assert (H := reset_spec (c_md c1) (md_position (c_md c)) X3).
    assert (L : md_position (c_md c) = List.length (entries c)) by apply position_length. rewrite L in *.
    unfold entries in X5 at 1. rewrite X5, app_length in H.
    destruct (Nat.ltb_spec (List.length ext + List.length (entries c)) (List.length (entries c))) as [LT|_]; [lia|].
    destruct H as (d & -> & I' & A'). replace (List.length ext + List.length (entries c) - List.length (entries c)) with (List.length ext) in A' by lia.
    rewrite skipn_app, skipn_all, Nat.sub_diag in A'. change (abs d = entries c) in A'. cbn [of_result ret fst snd aret].
    destruct (POST (with_md c1 d)) as (Q1 & Q2 & Q3). unfold sound, sees, entries. rewrite Q1, Q2, Q3. cbn [c_md with_md c_control c_prolog].
    split; [exact X1|]. split; [exact X2|]. split; [exact I'|]. split; [intros y; rewrite A'; apply V|]. split; [exists []; split; [exact A'|apply incl_none]|]. split; [congruence|split; [exact X7|exact X8]].
  Qed.

  (** ** Blocks *)
  Notation SC := (scoped modules given).
  Notation SY := (scoped_body modules given).
  Notation SI := (scoped_item modules given).
  Notation AB := (adds modules).
  Notation AY := (adds_body modules).
  Notation AI := (adds_item modules).
  Definition next_prolog (pro : bool) (i : item) : bool := match i with NBlock _ _ b => pro && only_prolog b | _ => pro end.
  Definition body_ok (y : body) : Prop := forall ctl E, decides (an_body import_module context y) ctl false false E (SY ctl E y) (AY y) linked_body.
  Definition o_cond (ctl : bool) (E : list str) (o : option body) : Prop := match o with Some y => SY ctl E y | None => True end.
  Definition o_adds (o : option body) : list str := match o with Some y => AY y | None => [] end.
  Definition o_link (o : option body) : Prop := match o with Some y => linked_body y | None => True end.

  Lemma decides_opt o ctl E : on_opt body_ok o ->
    decides (match o with Some y => abind (an_body import_module context y) (fun y => aret (Some y)) | None => aret None end)
      ctl false false E (o_cond ctl E o) (o_adds o) o_link.
  Proof.
    destruct o as [y|]; cbn [on_opt]; intros H; [|apply decides_ret; exact Logic.I].
    apply decides_fmap with (good := linked_body); [apply H|]. intros a Ha; exact Ha.
  Qed.
  Lemma decides_optb o ctl E : on_opt body_ok o ->
    decides (match o with Some y => abind (branch (an_body import_module context y)) (fun y => aret (Some y)) | None => aret None end)
      ctl false false E (o_cond ctl E o) (o_adds o) o_link.
  Proof.
    destruct o as [y|]; cbn [on_opt]; intros H; [|apply decides_ret; exact Logic.I].
    apply decides_fmap with (good := linked_body); [apply decides_branch, H|]. intros a Ha; exact Ha.
  Qed.
  Definition c_cond (ctl : bool) (E : list str) (cy : expr * option body) : Prop := incl (uses (fst cy)) E /\ o_cond ctl E (snd cy).
  Definition c_link (cy : expr * option body) : Prop := linked (fst cy) /\ o_link (snd cy).
  Lemma decides_clause t o ctl E : on_opt body_ok o ->
    decides (branch (abind (aread (fun c => an_expr c t)) (fun t =>
        abind (match o with Some y => abind (an_body import_module context y) (fun y => aret (Some y)) | None => aret None end) (fun y => aret (t, y)))))
      ctl false false E (c_cond ctl E (t, o)) (o_adds o) c_link.
  Proof.
    intros H. apply decides_branch. eapply decides_iff with (add := o_adds o ++ []); [|reflexivity|rewrite app_nil_r; apply same_refl|intros a Ha; exact Ha].
    eapply decides_bind; [apply decides_read; intros c I V _ _; apply (tells_expr c E I V t)|apply same_refl|]. intros t' Lt.
    apply decides_fmap with (good := o_link); [apply decides_opt, H|]. intros y Ly. split; assumption.
  Qed.
  Lemma decides_reads {A B} (f : ctx -> result A) (k : A -> B) ctl pro E (p : Prop) (good : A -> Prop) (good' : B -> Prop) :
    (forall c, sound c -> sees c E -> tells (f c) p good) -> (forall a, good a -> good' (k a)) ->
    decides (abind (aread f) (fun a => aret (k a))) ctl pro pro E p [] good'.
  Proof. intros H G. apply decides_fmap with (good := good); [|exact G]. apply decides_read. intros c I V _ _. apply (H c I V). Qed.

  Lemma tells_rmap {A B} (c : ctx) (E : list str) (f : A -> result B) (us : A -> list str) (good : B -> Prop) l :
    (forall x, tells (f x) (incl (us x) E) good) -> tells (rmap f l) (incl (flat_map us l) E) (Forall good).
  Proof.
    intros H. assert (R : (l <- rmap f l ;; Ok l) = rmap f l) by (destruct (rmap f l); reflexivity). rewrite <- R.
    apply (tells_map E f us good (fun l => l)); [apply Forall_forall; intros x _; apply H|]. auto.
  Qed.
  Lemma tells_all {A B} (f : A -> result B) (cond : A -> Prop) (good : A -> B -> Prop) l :
    (forall x, tells (f x) (cond x) (good x)) -> tells (rmap f l) (all_of cond l) (Forall2 good l).
  Proof.
    intros H. induction l as [|x l IH]; cbn [rmap all_of]; [split; [exact Logic.I|constructor]|].
    change (tells (y <- f x ;; ys <- rmap f l ;; Ok (y :: ys)) (cond x /\ all_of cond l) (Forall2 good (x :: l))).
    eapply tells_bind; [apply H|]. intros y Gy. eapply tells_iff with (p := all_of cond l /\ True); [|tauto|intros a Ha; exact Ha].
    eapply tells_bind; [exact IH|]. intros ys Gys. apply tells_ok; [trivial|]. constructor; assumption.
  Qed.
  Lemma in_order_const {A} (f : A -> Prop) (added : A -> list str) l : forall E, in_order (fun _ x => f x) added E l <-> all_of f l.
  Proof. induction l as [|x l IH]; intros E; cbn; [tauto|]. rewrite IH. tauto. Qed.

  (** the body of a definition *)
  Definition in_def (aregul : list attrdef) (abody : option (str * option slot)) (y : body)
    : AM (W := W) (list attrdef * option (str * slot) * list (str * option expr * slot) * body) :=
    abind (aread (fun c => rmap (an_default c) aregul)) (fun dfl =>
    abind (match abody with
           | Some (n, _) => abind (new_slot2 (VAR n)) (fun x => aret (Some (n, x)))
           | None => aret None
           end) (fun ab =>
    abind (amap (fun a => abind (new_slot2 (VAR (a_name a))) (fun x => aret (a_name a, a_default a, x))) dfl) (fun regul =>
    abind (an_body import_module context y) (fun y => aret (dfl, ab, regul, y))))).
  Lemma an_block_def d n ab ar y c m :
    an_block import_module context (BDef d n ab ar y) c m =
    abind (aread (fun c => if Nat.leb 1 (c_control c) then Raise SyntaxError else Ok tt)) (fun _ =>
    abind (local (fun c => enter_hyper (enter_regular c)) (fun c => leave_regular (leave_hyper c)) (in_def ar ab y)) (fun r =>
    let '(_, ab, regul, y) := r in
    abind (new_def {| h_name := n; h_body := ab; h_regul := regul; h_block := y |}) (fun d =>
    abind (new_slot (TAG n)) (fun x =>
    aret (BDef (Some (d, x)) n
               (match ab with Some (n, x) => Some (n, Some x) | None => None end)
               (map (fun a => let '(n, e, x) := a in {| a_name := n; a_default := e; a_slot := Some x |}) regul) y))))) c m.
  Proof.
    unfold in_def. cbn [an_block]. fold (an_body import_module context). generalize (an_body import_module context y). intros Y.
    unfold abind, mbind, local, amod, aposition, aread, ret. unfold abind, mbind, aret, ret. cbn [fst snd].
    destruct (of_result _ m) as [[u|e|] m0]; [|reflexivity|reflexivity]. cbn [fst snd].
    destruct (of_result (rmap _ ar) m0) as [[dfl|e|] m1]; [|reflexivity|reflexivity]. cbn [fst snd].
    destruct ab as [[bn bx]|].
    - destruct (new_slot2 (VAR bn) _ m1) as [[[x c0]|e|] m1']; [|reflexivity|reflexivity]. cbn [fst snd].
      destruct (amap _ dfl _ _) as [[[regul c1]|e|] m2]; [|reflexivity|reflexivity]. cbn [fst snd].
      destruct (Y _ _) as [[[y' c2]|e|] m3]; [|reflexivity|reflexivity]. cbn [fst snd].
      destruct (areset _ _ _) as [[[u1 c3]|e|] m4]; reflexivity.
    - cbn [fst snd]. 
      destruct (amap _ dfl _ _) as [[[regul c1]|e|] m2]; [|reflexivity|reflexivity]. cbn [fst snd].
      destruct (Y _ _) as [[[y' c2]|e|] m3]; [|reflexivity|reflexivity]. cbn [fst snd].
      destruct (areset _ _ _) as [[[u1 c3]|e|] m4]; reflexivity.
  Qed.
  Lemma an_block_struct tags y c m :
    an_block import_module context (BStruct tags y) c m =
    abind (local enter_regular leave_regular (abind (aread (fun c => rmap (an_tag c) tags)) (fun tags =>
           abind (an_body import_module context y) (fun y => aret (tags, y))))) (fun r => aret (BStruct (fst r) (snd r))) c m.
  Proof.
    cbn [an_block]. fold (an_body import_module context). generalize (an_body import_module context y). intros Y.
    unfold abind, mbind, local, amod, aposition, aread, ret. unfold abind, mbind, aret, ret. cbn [fst snd].
    destruct (of_result _ m) as [[tags'|e|] m0]; [|reflexivity|reflexivity]. cbn [fst snd].
    destruct (Y _ _) as [[[y' c2]|e|] m3]; [|reflexivity|reflexivity]. cbn [fst snd].
    destruct (areset _ _ _) as [[[u1 c3]|e|] m4]; reflexivity.
  Qed.
  Lemma decides_ext {A} (x x' : AM A) ctl pro pro' E p add (good : A -> Prop) : (forall c m, x c m = x' c m) ->
    decides x' ctl pro pro' E p add good -> decides x ctl pro pro' E p add good.
  Proof. intros X H c m I V C P J0. rewrite X. apply (H c m I V C P J0). Qed.
  Definition a_link (a : str * option expr * slot) : Prop := match snd (fst a) with Some e => linked e | None => True end.
  Definition def_adds (ab : option (str * option slot)) : list str := match ab with Some (n, _) => [var_symbol n] | None => [] end.
  Lemma decides_in_def ar ab y ctl E : body_ok y ->
    decides (in_def ar ab y) ctl false false E
      (all_of (fun a => match a_default a with Some e => incl (uses e) E | None => True end) ar /\
       SY ctl (map (fun a => var_symbol (a_name a)) ar ++ def_adds ab ++ E) y)
      (AY y ++ map (fun a => var_symbol (a_name a)) ar ++ def_adds ab)
      (fun r => let '(_, ab, regul, y) := r in Forall a_link regul /\ linked_body y).
  Proof.
    intros Hy. unfold in_def.
    eapply decides_iff with (add := (AY y ++ map (fun a => var_symbol (a_name a)) ar ++ def_adds ab) ++ []); [|reflexivity|rewrite app_nil_r; apply same_refl|intros a Ha; exact Ha].
    eapply decides_bind; [apply decides_read; intros c I V _ _; apply tells_all, (tells_default c E I V)|apply same_refl|]. intros dfl HD.
    eapply decides_iff with (p := True /\ SY ctl (map (fun a => var_symbol (a_name a)) ar ++ def_adds ab ++ E) y)
      (add := (AY y ++ map (fun a => var_symbol (a_name a)) ar) ++ def_adds ab); [|tauto|intros z; rewrite !in_app_iff; tauto|intros a Ha; exact Ha].
    eapply decides_bind with (good := fun _ => True) (E1 := def_adds ab ++ E).
    { destruct ab as [[bn bx]|]; [|apply decides_ret; trivial]. apply decides_fmap with (good := fun _ => True); [apply decides_push2|trivial]. }
    { apply same_refl. }
    intros ab' _.
    assert (LN : forall E', decides (amap (fun a => abind (new_slot2 (VAR (a_name a))) (fun x => aret (a_name a, a_default a, x))) dfl) ctl false false E'
               True (map (fun a => var_symbol (a_name a)) ar) (Forall a_link)).
    { intros E'. eapply decides_iff with (p := in_order (fun _ _ => True) (fun a => [var_symbol (a_name a)]) E' dfl) (add := flat_map (fun a => [var_symbol (a_name a)]) dfl);
        [apply decides_map with (good := a_link)| | |intros a Ha; exact Ha].
      - apply Forall_forall. intros a Ha E''. apply decides_fmap with (good := fun _ => True); [apply decides_push2|]. intros x _. unfold a_link. cbn.
        clear - HD Ha. induction HD as [|b b' l l' [L _] _ IH]; [contradiction|]. destruct Ha as [<-|Ha]; [exact L|apply IH, Ha].
      - rewrite in_order_const. split; [trivial|]. intros _. apply all_of_Forall, Forall_forall. trivial.
      - replace (flat_map (fun a => [var_symbol (a_name a)]) dfl) with (map (fun a => var_symbol (a_name a)) ar); [apply same_refl|].
        clear - HD. induction HD as [|b b' l l' [_ N] _ IH]; [reflexivity|]. cbn. rewrite N, IH. reflexivity. }
    eapply decides_iff with (p := True /\ SY ctl (map (fun a => var_symbol (a_name a)) ar ++ def_adds ab ++ E) y); [|tauto|apply same_refl|intros a Ha; exact Ha].
    eapply decides_bind; [apply LN|apply same_refl|]. intros regul HR.
    apply decides_fmap with (good := linked_body); [apply Hy|]. intros y' Ly. split; assumption.
  Qed.

  Lemma decides_for (x : AM (expr * target * option body * option body)) ctl pro E p add :
    decides x ctl pro pro E p add (fun r => let '(e, ts, y, els) := r in linked e /\ linked_target ts /\ o_link y /\ o_link els) ->
    decides (abind x (fun r => let '(e, ts, y, els) := r in aret (BFor ts e y els))) ctl pro pro E p add linked_block.
  Proof.
    intros H c m I V C P J0. specialize (H c m I V C P J0). unfold abind, mbind. destruct (x c m) as [[[[[[e ts] y] els] c1]|e|] m1]; [|exact H|exact H].
    cbn. destruct H as (H1 & (L1 & L2 & L3 & L4) & H3). split; [exact H1|]. split; [|exact H3].
    split; [exact L2|split; [exact L1|split; [exact L3|exact L4]]].
  Qed.
  Lemma an_scoped :
    (forall b, no_for_else b -> forall ctl pro E, (only_prolog b = false -> pro = false) ->
       decides (an_block import_module context b) ctl pro pro E (SC ctl pro E b) (AB b) linked_block) /\
    (forall y, no_for_else_body y -> body_ok y) /\
    (forall i, no_for_else_item i -> forall ctl pro E,
       decides (an_item import_module context i) ctl pro (next_prolog pro i) E (SI ctl pro E i) (AI i) linked_item).
  Proof.
    assert (RO : forall o, on_opt (fun y => no_for_else_body y -> body_ok y) o ->
      match o with Some y => no_for_else_body y | None => True end -> on_opt body_ok o).
    { intros [y|] H K; cbn in *; auto. }
    apply block_body_item_ind.
    - intros lead l _ ctl pro E _. cbn [an_block scoped adds]. apply decides_reads with (good := Forall linked_titem); [|intros a Ha; apply all_of_Forall, Ha].
      intros c I V. apply (tells_rmap c). apply (tells_titem c E I V).
    - intros _ ctl pro E _. apply decides_ret. exact Logic.I.
    - intros e _ ctl pro E _. apply decides_reads with (good := linked); [|intros a Ha; exact Ha]. intros c I V. apply (tells_expr c E I V).
    - (* tagged block *)
      intros tags y Hy RW ctl pro E PF. rewrite (PF eq_refl). eapply decides_ext; [intros c m; apply an_block_struct|].
      apply decides_fmap with (good := fun r => Forall linked_tag (fst r) /\ linked_body (snd r)).
      + cbn [scoped adds]. apply decides_local with (add := AY y ++ []); [intros c; auto..|].
        eapply decides_bind; [apply decides_read; intros c I V _ _; apply (tells_rmap c), (tells_tag c E I V)|apply same_refl|]. intros tags' LT.
        apply decides_fmap with (good := linked_body); [apply (Hy RW)|]. intros y' LY. split; assumption.
      + intros [tags' y'] [L1 L2]. split; [apply all_of_Forall, L1|exact L2].
    - (* definition *)
      intros d n ab ar y Hy RW ctl pro E PF. rewrite (PF eq_refl). eapply decides_ext; [intros c m; apply an_block_def|]. cbn [scoped adds].
      eapply decides_iff with (add := [tag_symbol n] ++ []); [|reflexivity|apply same_refl|intros a Ha; exact Ha].
      eapply decides_bind with (good := fun _ => True).
      { apply decides_read. intros c _ _ C _. rewrite C. destruct ctl; [intros K; discriminate|split; [reflexivity|trivial]]. }
      { apply same_refl. }
      intros _ _.
      eapply decides_iff with (add := [tag_symbol n] ++ [])
        (p := (all_of (fun a => match a_default a with Some e => incl (uses e) E | None => True end) ar /\
                SY ctl (map (fun a => var_symbol (a_name a)) ar ++ def_adds ab ++ E) y) /\ True); [|unfold def_adds; tauto|apply same_refl|intros a Ha; exact Ha].
      eapply decides_bind; [eapply decides_local; [intros c; auto..|]; apply decides_in_def, Hy, RW|apply same_refl|].
      intros [[[dfl ab'] regul] y'] [LR LY].
      eapply decides_iff with (p := True /\ True) (add := [tag_symbol n] ++ []); [|tauto|apply same_refl|intros a Ha; exact Ha].
      eapply decides_bind with (good := fun _ => True) (pro1 := false).
      { intros c m I V C P J0. cbn. split; [trivial|]. split; [trivial|]. split; [exact I|]. split; [exact V|]. split; [exists []; split; [reflexivity|apply incl_none]|].
        split; [reflexivity|]. split; [exact P|apply ST, J0]. }
      { apply same_refl. }
      intros dn _. apply decides_fmap with (good := fun _ => True); [apply decides_push|]. intros x _. cbn [linked_block].
      split; [discriminate|]. split; [destruct ab' as [[? ?]|]; [discriminate|trivial]|]. split; [|exact LY].
      apply all_of_Forall. clear - LR. induction LR as [|[[k e] x] l L _ IH]; [constructor|]. constructor; [|exact IH]. split; [discriminate|exact L].
    - intros p l _ ctl pro E _. cbn [an_block scoped adds].
      eapply decides_iff with (p := ctl = false /\ in_order (fun _ => scoped_import modules p) (adds_import modules p) E l) (add := flat_map (adds_import modules p) l ++ []);
        [|rewrite in_order_const; reflexivity|rewrite app_nil_r; apply same_refl|intros a Ha; exact Ha].
      eapply decides_bind with (good := fun _ => True).
      { apply decides_read. intros c _ _ C _. rewrite C. destruct ctl; [intros K; discriminate|split; [reflexivity|trivial]]. }
      { apply same_refl. }
      intros _ _. apply decides_fmap with (good := Forall linked_import); [|intros a Ha; apply all_of_Forall, Ha].
      apply decides_map. apply Forall_forall. intros i _ E'. apply decides_import.
    - intros l _ ctl pro E _. cbn [an_block scoped adds].
      eapply decides_iff with (p := pro = true /\ in_order (fun _ => scoped_context given) (adds_import modules []) E l) (add := flat_map (adds_import modules []) l ++ []);
        [|rewrite in_order_const; reflexivity|rewrite app_nil_r; apply same_refl|intros a Ha; exact Ha].
      eapply decides_bind with (good := fun _ => True).
      { apply decides_read. intros c _ _ _ P. rewrite P. destruct pro; [split; [reflexivity|trivial]|intros K; discriminate]. }
      { apply same_refl. }
      intros _ _. apply decides_fmap with (good := Forall linked_import); [|intros a Ha; apply all_of_Forall, Ha].
      apply decides_map. apply Forall_forall. intros i _ E'. apply decides_context.
    - (* try *)
      intros l H RW ctl pro E PF. rewrite (PF eq_refl). cbn [an_block scoped adds no_for_else] in *. apply (Forall_use _ _ _ H) in RW.
      apply decides_fmap with (good := Forall linked_body); [|intros a Ha; apply all_of_Forall, Ha]. apply decides_control.
      apply decides_map. eapply Forall_impl; [|exact RW]. intros y Hy E'. apply decides_branch, Hy.
    - (* if *)
      intros l els H He [RW RE] ctl pro E PF. rewrite (PF eq_refl). apply (RO _ He) in RE. cbn [an_block scoped adds].
      apply decides_fmap with (good := fun r => Forall c_link (fst r) /\ o_link (snd r)); [|intros [cs e] [L1 L2]; split; [apply all_of_Forall, L1|exact L2]].
      apply decides_control.
      eapply decides_iff with (add := o_adds els ++ flat_map (fun cy => o_adds (snd cy)) l)
        (p := in_order (c_cond true) (fun cy => o_adds (snd cy)) E l /\ o_cond true (flat_map (fun cy => o_adds (snd cy)) l ++ E) els);
        [|reflexivity| |intros a Ha; exact Ha].
      + eapply decides_bind; [|apply same_refl|].
        * apply decides_map with (good := c_link).
          apply (Forall_use (fun cy => match snd cy with Some y => no_for_else_body y | None => True end)); [|exact RW].
          eapply Forall_impl; [|exact H]. intros [t y] Hy RY E'. apply decides_clause, RO; assumption.
        * intros cs Lcs. apply decides_fmap with (good := o_link); [apply decides_optb, RE|]. intros e Le. split; assumption.
      + intros y. change (In y (o_adds els ++ flat_map (fun cy => o_adds (snd cy)) l) <-> In y (flat_map (fun cy => o_adds (snd cy)) l ++ o_adds els)).
        rewrite !in_app_iff. tauto.
    - (* while *)
      intros t y els Hy He [RY RE] ctl pro E PF. rewrite (PF eq_refl). apply (RO _ He) in RE. apply (RO _ Hy) in RY. cbn [an_block scoped adds].
      apply decides_fmap with (good := fun r => c_link (fst r) /\ o_link (snd r)); [|intros [[t' y'] e] [[L1 L2] L3]; split; [exact L1|split; [exact L2|exact L3]]].
      apply decides_control.
      eapply decides_iff with (add := o_adds els ++ o_adds y) (p := c_cond true E (t, y) /\ o_cond true (o_adds y ++ E) els);
        [| | |intros a Ha; exact Ha].
      + eapply decides_bind; [apply decides_clause, RY|apply same_refl|].
        intros ty L. apply decides_fmap with (good := o_link); [apply decides_optb, RE|]. intros e Le. split; assumption.
      + unfold c_cond, o_cond, o_adds. cbn [fst snd]. tauto.
      + intros z. change (In z (o_adds els ++ o_adds y) <-> In z (o_adds y ++ o_adds els)). rewrite !in_app_iff. tauto.
    - (* for *)
      intros ts e y els Hy He RW ctl pro E PF. rewrite (PF eq_refl). cbn [an_block scoped adds].
      apply decides_for.
      apply decides_control.
      eapply decides_iff with (add := ((match y with Some y => AY y | None => match els with Some y => AY y | None => [] end end) ++ adds_target ts) ++ [])
        (p := incl (uses e) E /\ scoped_target E ts /\
              match y with
              | Some y => SY true (adds_target ts ++ E) y
              | None => match els with Some z => SY true (adds_target ts ++ E) z | None => True end
              end); [| | |intros a Ha; exact Ha].
      + eapply decides_bind; [apply decides_read; intros c I V _ _; apply (tells_expr c E I V)|apply same_refl|]. intros e' Le.
        eapply decides_bind; [apply decides_target|apply same_refl|]. intros ts' Lt. destruct y as [y|].
        * destruct RW as [RY ->]. apply decides_fmap with (good := linked_body); [apply (Hy RY)|]. intros y' Ly.
          split; [exact Le|split; [exact Lt|split; [exact Ly|exact Logic.I]]].
        * destruct els as [z|].
          -- apply decides_fmap with (good := linked_body); [apply (He RW)|]. intros y' Ly.
             split; [exact Le|split; [exact Lt|split; [exact Logic.I|exact Ly]]].
          -- apply decides_ret. split; [exact Le|split; [exact Lt|split; exact Logic.I]].
      + destruct y as [y|].
        * destruct RW as [RY ->]. tauto.
        * destruct els as [z|]; [|tauto]. change ([] ++ adds_target ts ++ E) with (adds_target ts ++ E). tauto.
      + intros z. rewrite !in_app_iff. cbn [In]. tauto.
    - intros e _ ctl pro E _. apply decides_reads with (good := linked); [|intros a Ha; exact Ha]. intros c I V. apply (tells_expr c E I V).
    - intros ts o e _ ctl pro E _. cbn [an_block scoped adds].
      eapply decides_iff with (add := adds_target ts ++ []); [|reflexivity|rewrite app_nil_r; apply same_refl|intros a Ha; exact Ha].
      eapply decides_bind; [apply decides_read; intros c I V _ _; apply (tells_expr c E I V)|apply same_refl|]. intros e' Le.
      apply decides_fmap with (good := linked_target); [apply decides_target|]. intros ts' Lt. split; assumption.
    - intros _ ctl pro E _. apply decides_ret. exact Logic.I.
    - intros l H RW ctl E. cbn [an_body scoped_body adds_body no_for_else_body] in *. apply (Forall_use _ _ _ H) in RW.
      apply decides_fmap with (good := Forall linked_item); [|intros a Ha; apply all_of_Forall, Ha].
      apply decides_map. eapply Forall_impl; [|exact RW]. intros i Hi E'. specialize (Hi ctl false E').
      replace (next_prolog false i) with false in Hi by (destruct i; reflexivity). exact Hi.
    - intros b H RW ctl E. cbn [an_body scoped_body adds_body]. apply decides_fmap with (good := linked_block); [|intros a Ha; exact Ha].
      apply (H RW). reflexivity.
    - intros [y|] H RW ctl E; cbn [an_body scoped_body adds_body].
      + apply decides_fmap with (good := linked_body); [|intros a Ha; exact Ha]. apply (H RW).
      + apply decides_ret. exact Logic.I.
    - intros l _ ctl pro E. apply decides_reads with (good := linked_line); [|intros a Ha; exact Ha]. intros c I V. apply (tells_line c E I V).
    - intros ch _ ctl pro E. apply decides_ret. exact Logic.I.
    - intros ch _ ctl pro E. apply decides_ret. exact Logic.I.
    - intros ch _ ctl pro E. apply decides_ret. exact Logic.I.
    - intros mg md b Hb RW ctl pro E c m I V C P J0. cbn [an_item next_prolog scoped_item adds_item].
      unfold abind at 1. unfold mbind, amod, ret. cbn [fst snd].
      assert (Q : SC ctl pro E b <-> SC ctl (pro && only_prolog b) E b) by (destruct b; cbn [only_prolog]; rewrite ?andb_true_r, ?andb_false_r; reflexivity).
      assert (PF : only_prolog b = false -> pro && only_prolog b = false) by (intros ->; apply andb_false_r).
      assert (D := Hb RW ctl (pro && only_prolog b) E PF).
      assert (D' : decides (abind (an_block import_module context b) (fun b => aret (NBlock mg md b))) ctl (pro && only_prolog b) (pro && only_prolog b) E (SC ctl pro E b) (AB b) linked_item).
      { apply decides_fmap with (good := linked_block); [|intros a Ha; exact Ha].
        eapply decides_iff; [exact D|symmetry; exact Q|apply same_refl|intros a Ha; exact Ha]. }
      change (prolog_block b) with (only_prolog b). rewrite P. destruct (only_prolog b); rewrite ?andb_true_r, ?andb_false_r in *.
      + apply (D' c m I V C P J0).
      + destruct pro; cbn [andb negb]; [apply (D' (end_prolog c) m I V C eq_refl J0)|apply (D' c m I V C P J0)].
  Qed.
  Lemma an_items_scoped l : Forall no_for_else_item l -> forall pro E,
    exists pro', decides (amap (an_item import_module context) l) false pro pro' E (scoped_items modules given pro E l) (flat_map AI l) (Forall linked_item).
  Proof.
    intros H. induction H as [|i l Hi _ IH]; intros pro E; [exists pro; apply decides_ret; constructor|].
    destruct (IH (next_prolog pro i) (AI i ++ E)) as (pro' & D). exists pro'. cbn [amap scoped_items].
    eapply decides_iff; [|reflexivity|apply flat_map_cons_same|intros a Ha; exact Ha].
    eapply decides_bind; [apply (proj2 (proj2 an_scoped)), Hi|apply same_refl|]. intros j Lj.
    apply decides_fmap with (good := Forall linked_item); [exact D|]. intros js Ljs. constructor; assumption.
  Qed.
  (** the whole document *)
  Lemma an_document_scoped globals d m : J m -> Forall no_for_else_item d ->
    match an_document import_module context globals d m with
    | (Done a, _) => scoped_items modules given true (map fst globals) d /\ Forall linked_item (d_items a)
    | (Exc _, _) => ~ scoped_items modules given true (map fst globals) d
    | (Fuel, _) => False
    end.
  Proof.
    intros JM H. destruct (an_items_scoped d H true (map fst globals ++ [])) as (pro' & D). rewrite app_nil_r in D.
    assert (X : decides (abind (amap (fun yv => let (y, v) := (yv : str * val) in abind (new_slot y) (fun x => aret (x, v))) globals) (fun ins =>
      abind aposition (fun p => abind (amap (an_item import_module context) d) (fun l => abind (aasdict p) (fun outs =>
        aret {| d_in := ins; d_items := l; d_out := map (fun yx => (fst yx, sl_id (snd yx))) outs |}))))) false true pro' []
      (True /\ scoped_items modules given true (map fst globals) d) (flat_map AI d ++ map fst globals) (fun a => Forall linked_item (d_items a))).
    { eapply decides_bind; [apply decides_pushes|rewrite app_nil_r; apply same_refl|]. intros ins _ c m0 I V C P J0.
      unfold abind at 1. unfold aposition, mbind, ret. cbn [fst snd]. specialize (D c m0 I V C P J0). unfold abind at 1, mbind.
      destruct (amap (an_item import_module context) d c m0) as [[[l c1]|e|] m1]; [|exact D|exact D].
      destruct D as (D1 & D2 & D3). cbn. split; [exact D1|]. split; [exact D2|exact D3]. }
    unfold an_document, mbind at 1.
    assert (S0 : sound new_ctx) by apply inv_empty.
    specialize (X new_ctx m S0 (fun y => iff_refl _) eq_refl eq_refl JM).
    destruct (abind _ _ new_ctx m) as [[[a c1]|e|] m1]; [|tauto|exact X]. cbn. tauto.
  Qed.
End Analysis.

(** no condition on the machine *)
Definition any_machine {W} (_ : mach W) : Prop := True.
Lemma any_steady W : steady (any_machine (W := W)).
Proof. split; intros; exact Logic.I. Qed.
