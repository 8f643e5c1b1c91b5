(** Comments put into a template leave its HTML as it is. *)
From Coq Require Import List NArith ZArith Bool Arith Lia String.
From Verif Require Import PyStr Value PageSpec OperSpec TmplSpec TmplLines TmplExpr TmplReadSpec.
Import ListNotations.
Local Open Scope string_scope.
Local Open Scope list_scope.
Local Open Scope N_scope.

(** Answers alike up to a relation between the values. *)
Definition sim {A B} (R : A -> B -> Prop) (x : ans A) (y : ans B) : Prop :=
  match x, y with Is a, Is b => R a b | Raises, Raises | Open, Open => True | _, _ => False end.
Lemma sim_bind {A B A' B'} (R : A -> B -> Prop) (R' : A' -> B' -> Prop) x y (f : A -> ans A') (g : B -> ans B') :
  sim R x y -> (forall a b, R a b -> sim R' (f a) (g b)) -> sim R' (oseq x f) (oseq y g).
Proof. destruct x, y; cbn [sim oseq]; try contradiction; auto. Qed.
Lemma sim_eq {A B B'} (R : B -> B' -> Prop) (x : ans A) (f : A -> ans B) (g : A -> ans B') : (forall a, x = Is a -> sim R (f a) (g a)) -> sim R (oseq x f) (oseq x g).
Proof. destruct x; cbn [sim oseq]; auto. Qed.
Lemma sim_trans {A B C} (R : A -> B -> Prop) (R' : B -> C -> Prop) (R2 : A -> C -> Prop) x y z : (forall a b c, R a b -> R' b c -> R2 a c) -> sim R x y -> sim R' y z -> sim R2 x z.
Proof. intros H. destruct x, y; cbn [sim]; try contradiction; destruct z; try contradiction; auto. apply H. Qed.

Section Notes.
Variable Q : py.
Variable void : str -> bool.
Notation html := (flat_map (ehtml void)).

(** Elements with the same HTML. *)
Definition same (l l' : list elem) : Prop := html l' = html l /\ existsb filled l' = existsb filled l.
Lemma same_self l : same l l. Proof. split; reflexivity. Qed.
Lemma same_app a a' b b' : same a a' -> same b b' -> same (a ++ b) (a' ++ b').
Proof. intros [H1 H2] [H3 H4]. split; [rewrite !flat_map_app, H1, H3; reflexivity|rewrite !existsb_app, H2, H4; reflexivity]. Qed.
Definition same2 (p p' : list elem * store) : Prop := same (fst p) (fst p') /\ snd p' = snd p.
Lemma same2_self p : same2 p p. Proof. split; [apply same_self|reflexivity]. Qed.

(** Hypertags and bodies that give the same HTML. *)
Definition alike (bd bd' : option (list elem)) : Prop :=
  match bd, bd' with Some l, Some l' => same l l' | None, None => True | _, _ => False end.
Definition same_mean (f f' : meaning) : Prop := forall r pos kw bd bd', alike bd bd' -> sim same (f r pos kw bd) (f' r pos kw bd').
Definition same_means (D D' : list (str * meaning)) : Prop := Forall2 (fun a a' => fst a = fst a' /\ same_mean (snd a) (snd a')) D D'.
Lemma find_same D D' n : same_means D D' -> sim same_mean (given_by (find_meaning n D)) (given_by (find_meaning n D')).
Proof.
  intros H. induction H as [|[y f0] [z g0] D D' [H1 H2] H IH]; [exact Logic.I|]. cbn [fst snd find_meaning] in *. subst z. destruct (str_eqb n y); [exact H2|exact IH].
Qed.

Variables (b : str) (lim : nat).
Section Means.
Variables (D D' : list (str * meaning)) (bd bd' : option (list elem)).
Hypothesis DD : same_means D D'.
Hypothesis BB : alike bd bd'.
Notation inst1 := (inst Q b lim D bd).
Notation inst2 := (inst Q b lim D' bd').

Definition same_block (t t' : tmpl) : Prop := forall r, sim same2 (inst1 r t) (inst2 r t').
Definition same_html (l l' : list tmpl) : Prop := forall r, sim same2 (insts inst1 l r) (insts inst2 l' r).
Lemma same_nil : same_html [] [].
Proof. intros r. apply same2_self. Qed.
Lemma same_cons t t' l l' : same_block t t' -> same_html l l' -> same_html (t :: l) (t' :: l').
Proof.
  intros H Hl r. cbn [insts]. apply (sim_bind same2); [apply H|]. intros p p' [K1 K2]. rewrite K2. apply (sim_bind same2); [apply Hl|]. intros q q' [K3 K4].
  split; [apply same_app; assumption|exact K4].
Qed.
Lemma same_node m g w kids kids' : same_html kids kids' -> same_block (TNode m g w kids) (TNode m g w kids').
Proof.
  intros H r. cbn [inst]. apply (sim_bind same2); [apply H|]. intros p p' [[K1 _] _]. apply sim_eq. intros g' _. split; [|reflexivity]. split; [|reflexivity].
  cbn [fst flat_map ehtml]. rewrite K1. reflexivity.
Qed.
Lemma same_for m xs e w kids kids' : same_html kids kids' -> same_block (TFor m xs e w kids) (TFor m xs e w kids').
Proof.
  intros H r. cbn [inst]. apply sim_eq. intros v _. apply sim_eq. intros l _. apply (sim_bind same2).
  - assert (K : forall p p', same2 p p' -> same2 p p') by auto. revert K. assert (K0 : same2 ([], r) ([], r)) by apply same2_self. intros _. revert K0.
    generalize (@nil elem, r) at 1 3. generalize (@nil elem, r). induction l as [|v0 l IH]; intros p' p K; [exact K|]. cbn [ofold]. destruct K as [K1 K2]. rewrite K2.
    apply (sim_bind same2); [|intros q q' Kq; exact (IH q' q Kq)]. apply sim_eq. intros r1 _. apply (sim_bind same2); [apply H|]. intros q q' [K3 K4].
    split; [apply same_app; assumption|cbn [snd]; rewrite K4; reflexivity].
  - intros p p' [K1 K2]. split; [|exact K2]. apply (same_app [EGap m] [EGap m]); [apply same_self|exact K1].
Qed.
Lemma sim_loop {A} (R : A -> A -> Prop) t t' s s' : (forall p p', R p p' -> t p = t' p') -> (forall p p', R p p' -> sim R (s p) (s' p')) ->
  forall n p p', R p p' -> sim R (oloop t s n p) (oloop t' s' n p').
Proof.
  intros Ht Hs. induction n as [|n IH]; intros p p' K; [exact Logic.I|]. cbn [oloop]. rewrite (Ht _ _ K). apply sim_eq. intros [] _; [|exact K].
  apply (sim_bind R); [apply Hs, K|exact IH].
Qed.
Definition same_loop (p p' : bool * (list elem * store)) : Prop := fst p = fst p' /\ same2 (snd p) (snd p').
Lemma same_while m e w kids kids' els els' : same_html kids kids' ->
  match els, els' with Some y, Some y' => same_html (snd y) (snd y') | None, None => True | _, _ => False end ->
  same_block (TWhile m e w kids els) (TWhile m e w kids' els').
Proof.
  intros H He r. cbn [inst]. apply (sim_bind same_loop).
  - apply sim_loop; [| |split; [reflexivity|apply same2_self]]; intros p p' [K1 [K2 K3]]; rewrite K3; [reflexivity|].
    apply (sim_bind same2); [apply H|]. intros q q' [K4 K5]. split; [reflexivity|]. split; [apply same_app; assumption|cbn [snd]; rewrite K5; reflexivity].
  - intros [f [es1 r1]] [f' [es2 r2]] [K1 [K2 K3]]. cbn [fst snd] in *. subst f' r2.
    assert (G : forall a a', same2 a a' -> sim same2 (Is (EGap m :: fst a, snd a)) (Is (EGap m :: fst a', snd a'))).
    { intros a a' [G1 G2]. split; [|exact G2]. apply (same_app [EGap m] [EGap m]); [apply same_self|exact G1]. }
    destruct f; [apply (G (es1, r1) (es2, r1)); split; [exact K2|reflexivity]|].
    destruct els as [[w1 k]|], els' as [[w1' k']|]; try contradiction; [|apply (G (es1, r1) (es2, r1)); split; [exact K2|reflexivity]].
    apply (sim_bind same2); [apply He|]. intros q q' [G1 G2]. rewrite G2. apply (G (fst q, keep r (snd q)) (fst q', keep r (snd q))). split; [exact G1|reflexivity].
Qed.
Lemma same_try m alts alts' : Forall2 (fun a a' => same_html (snd a) (snd a')) alts alts' -> same_block (TTry m alts) (TTry m alts').
Proof.
  intros H r. cbn [inst]. apply (sim_bind same).
  - induction H as [|[w k] [w' k'] alts alts' H1 H IH]; [apply same_self|]. specialize (H1 r). cbn [snd] in H1.
    destruct (insts inst1 k r) as [p| |], (insts inst2 k' r) as [p'| |]; cbn [sim] in H1; try contradiction; [exact (proj1 H1)|exact IH|exact Logic.I].
  - intros es es' K. split; [|reflexivity]. apply (same_app [EGap m] [EGap m]); [apply same_self|exact K].
Qed.
Lemma same_if m cs cs' els els' : Forall2 (fun c c' => fst c = fst c' /\ same_html (snd (snd c)) (snd (snd c'))) cs cs' ->
  match els, els' with Some y, Some y' => same_html (snd y) (snd y') | None, None => True | _, _ => False end ->
  same_block (TIf m cs els) (TIf m cs' els').
Proof.
  intros H He r. cbn [inst]. apply (sim_bind same2).
  - induction H as [|[e [w k]] [e' [w' k']] cs cs' [H1 H2] H IH].
    + destruct els as [[w k]|], els' as [[w' k']|]; try contradiction; [apply He|apply same2_self].
    + cbn [fst snd] in *. subst e'. apply sim_eq. intros v _. apply sim_eq. intros t _. destruct t; [apply H2|exact IH].
  - intros p p' [K1 K2]. split; [|cbn [snd]; rewrite K2; reflexivity]. apply (same_app [EGap m] [EGap m]); [apply same_self|exact K1].
Qed.
Lemma hyper_same m es es' : same es es' -> same [EHyper m es] [EHyper m es'].
Proof. intros [K _]. split; [|reflexivity]. cbn [flat_map ehtml]. rewrite K. reflexivity. Qed.
Lemma same_use m h c : same_block (TUse m h c) (TUse m h c).
Proof.
  intros r. cbn [inst]. apply sim_eq. intros x _. apply sim_eq. intros a _. apply (sim_bind same_mean); [apply find_same, DD|]. intros f f' Kf.
  apply (sim_bind same); [apply Kf; destruct x; [apply same_self|exact Logic.I]|]. intros es es' K. split; [apply hyper_same, K|reflexivity].
Qed.
Lemma same_tblock m h w kids kids' : same_html kids kids' -> same_block (TBlock m h w kids) (TBlock m h w kids').
Proof.
  intros H r. cbn [inst]. apply (sim_bind same2); [apply H|]. intros p p' [Kp _]. apply sim_eq. intros a _. apply (sim_bind same_mean); [apply find_same, DD|]. intros f f' Kf.
  apply (sim_bind same); [apply Kf, Kp|]. intros es es' K. split; [apply hyper_same, K|reflexivity].
Qed.
Lemma same_body m n : same_block (TBody m n) (TBody m n).
Proof.
  intros r. cbn [inst]. unfold alike in BB. destruct bd as [e|], bd' as [e'|]; try contradiction; [|exact Logic.I]. split; [|reflexivity].
  apply (same_app [EGap m] [EGap m]); [apply same_self|exact BB].
Qed.
Lemma sim_same2 x : sim same2 x x.
Proof. destruct x; [apply same2_self|exact Logic.I|exact Logic.I]. Qed.
Lemma same_kids l : Forall (fun t => same_block t t) l -> same_html l l.
Proof. induction 1; [apply same_nil|apply same_cons; assumption]. Qed.
Lemma same_refl t : same_block t t.
Proof.
  induction t as [m k x|m h x tl|m g c|m g w kids IH|m cs els IHc IHe|m xs e w kids IH|m e w kids els IH IHe|m alts IHa|m xs e|m x o e|m h c|m h w kids IH|m n] using tmpl_ind'.
  - intros r. apply sim_same2.
  - intros r. apply sim_same2.
  - intros r. apply sim_same2.
  - apply same_node, same_kids, IH.
  - apply same_if.
    + induction IHc as [|c cs Hc IHc IHs]; constructor; [split; [reflexivity|apply same_kids, Hc]|exact IHs].
    + destruct els as [[w kids]|]; [apply same_kids, IHe|exact Logic.I].
  - apply same_for, same_kids, IH.
  - apply same_while; [apply same_kids, IH|]. destruct els as [[w1 kids1]|]; [apply same_kids, IHe|exact Logic.I].
  - apply same_try. induction IHa as [|a alts Ha IHa IHs]; constructor; [apply same_kids, Ha|exact IHs].
  - intros r. apply sim_same2.
  - intros r. apply sim_same2.
  - apply same_use.
  - apply same_tblock, same_kids, IH.
  - apply same_body.
Qed.
Lemma same_all l : same_html l l.
Proof. apply same_kids, Forall_forall. intros t _. apply same_refl. Qed.
Lemma same_branches cs : Forall2 (fun c c' => fst c = fst c' /\ same_html (snd (snd c)) (snd (snd c'))) (cs : list (ex * (str * list tmpl))) cs.
Proof. induction cs as [|c cs IH]; constructor; [split; [reflexivity|apply same_all]|exact IH]. Qed.
Lemma same_alts alts : Forall2 (fun a a' => same_html (snd a) (snd a')) (alts : list (str * list tmpl)) alts.
Proof. induction alts as [|a alts IH]; constructor; [apply same_all|exact IH]. Qed.
Lemma noted_same l l' : noted l l' -> same_html l l'.
Proof.
  induction 1 as [h x tl l Hx|t l l' H IH|m g w kids kids' l H IH|m h w kids kids' l H IH|m xs e w kids kids' l H IH|m e w kids kids' els l H IH|m e w kids w1 kids1 kids' l H IH|m a1 w kids kids' a2 l H IH|m cs1 e w kids kids' cs2 els l H IH|m cs w kids kids' l H IH].
  - intros r. pose proof (same_all l r) as E. cbn [insts inst oseq fst snd]. destruct (insts inst1 l r) as [[e1 r1]| |]; cbn [sim] in E; destruct (insts inst2 l r) as [[e2 r2]| |]; try contradiction; exact E.
  - apply same_cons; [apply same_refl|exact IH].
  - apply same_cons; [apply same_node, IH|apply same_all].
  - apply same_cons; [apply same_tblock, IH|apply same_all].
  - apply same_cons; [apply same_for, IH|apply same_all].
  - apply same_cons; [apply same_while; [exact IH|destruct els; [apply same_all|exact Logic.I]]|apply same_all].
  - apply same_cons; [apply same_while; [apply same_all|exact IH]|apply same_all].
  - apply same_cons; [|apply same_all]. apply same_try, Forall2_app; [apply same_alts|]. constructor; [exact IH|apply same_alts].
  - apply same_cons; [|apply same_all]. apply same_if; [|destruct els; [apply same_all|exact Logic.I]]. apply Forall2_app; [apply same_branches|]. constructor; [|apply same_branches].
    split; [reflexivity|exact IH].
  - apply same_cons; [|apply same_all]. apply same_if; [apply same_branches|exact IH].
Qed.
End Means.

Lemma alike_refl bd : alike bd bd.
Proof. destruct bd; [apply same_self|exact Logic.I]. Qed.
Lemma same2_trans p q t : same2 p q -> same2 q t -> same2 p t.
Proof. intros [[H1 H2] H3] [[H4 H5] H6]. repeat split; congruence. Qed.
(** Any number of comments. *)
Lemma commented_html D D' bd bd' l l' : same_means D D -> same_means D D' -> alike bd bd' -> commented l l' -> same_html D D' bd bd' l l'.
Proof.
  intros RR DD BB H. induction H as [l|l l' l'' H K IH]; [apply same_all; assumption|].
  intros r. eapply sim_trans; [|exact (noted_same D D bd bd RR (alike_refl bd) _ _ H r)|exact (IH r)]. exact same2_trans.
Qed.
Lemma mean_same D D' vis m n bn ps w kids kids' : same_means D D -> same_means D D' -> commented kids kids' ->
  same_mean (mean Q b lim D vis (Def m n bn ps w kids)) (mean Q b lim D' vis (Def m n bn ps w kids')).
Proof.
  intros RR DD C. intros r pos kw bd bd' BB. unfold mean. cbv zeta. apply sim_eq. intros ag _. apply (sim_bind alike).
  - destruct bn; destruct bd as [kb|]; destruct bd' as [kb'|]; try contradiction; cbn [body_given]; try exact BB; [apply same_self|]. destruct BB as [_ ->]. destruct (existsb filled kb); exact Logic.I.
  - intros b1 b1' BB'. apply (sim_bind same2); [apply (commented_html D D' b1 b1' kids kids' RR DD BB' C)|]. intros p p' [K _]. exact K.
Qed.
Lemma means_same vis ds ds' : commented_defs ds ds' -> forall D D', same_means D D -> same_means D D' ->
  let f := learn Q b lim vis in same_means (fold_left f ds D) (fold_left f ds D) /\ same_means (fold_left f ds D) (fold_left f ds' D').
Proof.
  intros H. induction H as [|h x tl ds ds' Hx H IH|m h x tl ds ds' H IH|m n bn ps w kids kids' ds ds' C H IH]; intros D D' RR DD f; [split; assumption|apply IH; assumption|apply IH; assumption|].
  cbn [fold_left]. apply IH.
  - constructor; [|exact RR]. split; [reflexivity|]. apply mean_same; [exact RR|exact RR|constructor].
  - constructor; [|exact DD]. split; [reflexivity|]. apply mean_same; assumption.
Qed.

Variable known : str -> option bool.
Lemma noted_ne l l' : noted l l' -> l' <> [].
Proof. destruct 1; discriminate. Qed.
Lemma noted_calm l l' : noted l l' -> calm l -> calm l'.
Proof.
  induction 1 as [h x tl l Hx|t l l' H IH|m g w kids kids' l H IH|m h w kids kids' l H IH|m xs e w kids kids' l H IH|m e w kids kids' els l H IH|m e w kids w1 kids1 kids' l H IH|m a1 w kids kids' a2 l H IH|m cs1 e w kids kids' cs2 els l H IH|m cs w kids kids' l H IH]; cbn [calm gap contents]; intros C;
    try exact C; [split; [reflexivity|right; exact C]|]. destruct C as [C1 [C2|C2]]; split; auto.
Qed.
Lemma uses_fold l : (fix all (l : list tmpl) : nat := match l with [] => 0%nat | t :: l => (uses t + all l)%nat end) l = list_sum (map uses l).
Proof. induction l as [|t l IH]; [reflexivity|]. cbn [map list_sum fold_right]. rewrite IH. reflexivity. Qed.
Lemma noted_uses l l' : noted l l' -> uses_all l' = uses_all l.
Proof.
  unfold uses_all. assert (K : forall t t' l, uses t' = uses t -> list_sum (map uses (t' :: l)) = list_sum (map uses (t :: l))) by (intros t t' l0 E; cbn [map list_sum fold_right]; rewrite E; reflexivity).
  induction 1 as [h x tl l Hx|t l l' H IH|m g w kids kids' l H IH|m h w kids kids' l H IH|m xs e w kids kids' l H IH|m e w kids kids' els l H IH|m e w kids w1 kids1 kids' l H IH|m a1 w kids kids' a2 l H IH|m cs1 e w kids kids' cs2 els l H IH|m cs w kids kids' l H IH].
  - reflexivity.
  - change (uses t + list_sum (map uses l') = uses t + list_sum (map uses l))%nat. rewrite IH. reflexivity.
  - apply K. cbn [uses]. rewrite !uses_fold. exact IH.
  - apply K. cbn [uses]. rewrite !uses_fold. exact IH.
  - apply K. cbn [uses]. rewrite !uses_fold, IH. reflexivity.
  - apply K. cbn [uses]. rewrite !uses_fold, IH. reflexivity.
  - apply K. cbn [uses]. rewrite !uses_fold, IH. reflexivity.
  - apply K. cbn [uses]. f_equal. clear - IH. induction a1 as [|[w1 k1] a1 IHs]; cbn [app]; rewrite ?uses_fold; [rewrite IH; reflexivity|]. f_equal. exact IHs.
  - apply K. cbn [uses]. f_equal. clear - IH. induction cs1 as [|[e1 [w1 k1]] cs1 IHs]; cbn [app]; rewrite ?uses_fold; [rewrite IH; reflexivity|]. f_equal. exact IHs.
  - apply K. cbn [uses]. rewrite !uses_fold, IH. reflexivity.
Qed.
Section Wf.
Variables (hy : list str) (bn : option str).
Notation wfts := (wfts b known hy bn).
Notation wfb := (wfb b known hy bn).
Lemma wfb_change outer own cs1 w (kids kids' : list tmpl) cs2 :
  (indent_ok w -> kids <> [] -> calm kids -> wfts outer own kids -> kids' <> [] /\ calm kids' /\ wfts outer own kids') ->
  wfb outer own (cs1 ++ (w, kids) :: cs2) -> wfb outer own (cs1 ++ (w, kids') :: cs2).
Proof.
  intros H. induction cs1 as [|[w2 k2] cs1 IH]; cbn [app]; intros K; inversion K; subst.
  - match goal with A : indent_ok w, B : kids <> [], C : calm kids, D : TmplSpec.wfts _ _ _ _ _ _ kids |- _ => destruct (H A B C D) as (X1 & X2 & X3) end. constructor; assumption.
  - constructor; try assumption. apply IH. assumption.
Qed.
Lemma noted_wf l l' : noted l l' -> forall outer own, wfts outer own l -> wfts outer own l'.
Proof.
  induction 1 as [h x tl l Hx|t l l' H IH|m g w kids kids' l H IH|m h w kids kids' l H IH|m xs e w kids kids' l H IH|m e w kids kids' els l H IH|m e w kids w1 kids1 kids' l H IH|m a1 w kids kids' a2 l H IH|m cs1 e w kids kids' cs2 els l H IH|m cs w kids kids' l H IH]; intros outer own K.
  - constructor; [constructor; exact Hx|exact K].
  - inversion K; subst. constructor; [assumption|apply IH; assumption].
  - inversion K as [|? ? K1 K2]; subst. inversion K1; subst. constructor; [|exact K2]. constructor; try assumption; [exact (noted_ne _ _ H)|apply IH; assumption].
  - inversion K as [|? ? K1 K2]; subst. inversion K1; subst. constructor; [|exact K2]. constructor; try assumption; [exact (noted_ne _ _ H)|apply (noted_calm _ _ H); assumption|apply IH; assumption].
  - inversion K as [|? ? K1 K2]; subst. inversion K1; subst. constructor; [|exact K2]. constructor; try assumption; [exact (noted_ne _ _ H)|apply (noted_calm _ _ H); assumption|apply IH; assumption].
  - inversion K as [|? ? K1 K2]; subst. inversion K1; subst. constructor; [|exact K2]. constructor; try assumption; [exact (noted_ne _ _ H)|apply (noted_calm _ _ H); assumption|apply IH; assumption].
  - inversion K as [|? ? K1 K2]; subst. inversion K1; subst. constructor; [|exact K2]. constructor; try assumption.
    match goal with B : TmplSpec.wfb _ _ _ _ _ _ _ |- _ => revert B end. apply (wfb_change outer own []). intros _ _ C D. split; [exact (noted_ne _ _ H)|]. split; [exact (noted_calm _ _ H C)|exact (IH _ _ D)].
  - inversion K as [|? ? K1 K2]; subst. inversion K1 as [| | | | | | |? ? N1 B1| | | | |]; subst. constructor; [|exact K2]. constructor; [destruct a1; discriminate|].
    revert B1. apply wfb_change. intros _ _ C D. split; [exact (noted_ne _ _ H)|]. split; [exact (noted_calm _ _ H C)|exact (IH _ _ D)].
  - inversion K as [|? ? K1 K2]; subst. inversion K1 as [| | | |? ? ? N1 F1 B1 B2| | | | | | | |]; subst. constructor; [|exact K2]. constructor; [destruct cs1; discriminate| | |exact B2].
    + apply Forall_app in F1. destruct F1 as [F1 F2]. inversion F2; subst. apply Forall_app. split; [exact F1|]. constructor; assumption.
    + rewrite map_app in *. cbn [map snd] in *. revert B1. apply wfb_change. intros _ _ C D. split; [exact (noted_ne _ _ H)|]. split; [exact (noted_calm _ _ H C)|exact (IH _ _ D)].
  - inversion K as [|? ? K1 K2]; subst. inversion K1 as [| | | |? ? ? N1 F1 B1 B2| | | | | | | |]; subst. constructor; [|exact K2]. constructor; [exact N1|exact F1|exact B1|].
    revert B2. apply (wfb_change outer own []). intros _ _ C D. split; [exact (noted_ne _ _ H)|]. split; [exact (noted_calm _ _ H C)|exact (IH _ _ D)].
Qed.
Lemma commented_wf l l' : commented l l' -> l <> [] -> l' <> [] /\ (calm l -> calm l') /\ uses_all l' = uses_all l /\ forall outer own, wfts outer own l -> wfts outer own l'.
Proof.
  induction 1 as [l|l l' l'' H K IH]; intros Hl; [auto|]. destruct (IH (noted_ne _ _ H)) as (N1 & C1 & U1 & W1). split; [exact N1|]. split; [intros C; apply C1, (noted_calm _ _ H), C|].
  split; [rewrite U1; exact (noted_uses _ _ H)|]. intros outer own W. apply W1, (noted_wf _ _ H), W.
Qed.
End Wf.
Lemma commented_wfd vis ds ds' : commented_defs ds ds' -> forall hy, wfd b known vis hy ds ->
  wfd b known vis hy ds' /\ defined ds' = defined ds /\ flat_map (ehtml void) (gaps ds') = flat_map (ehtml void) (gaps ds).
Proof.
  intros C. induction C as [|h x tl ds ds' Hx C IH|m h x tl ds ds' C IH|m n bn ps w kids kids' ds ds' Ck C IH]; intros hy H.
  - auto.
  - destruct (IH _ H) as (W2 & N2 & G2). split; [constructor; assumption|]. split; [exact N2|exact G2].
  - inversion H as [|? ? ? ? ? ? Hx H'|]; subst. destruct (IH _ H') as (W2 & N2 & G2). split; [constructor; assumption|]. split; [exact N2|]. unfold gaps in *. cbn [map flat_map]. rewrite G2. reflexivity.
  - inversion H as [|? ? ? ? ? ? Hx H'|? ? ? ? ? ? ? ? own body Hh Kn Hn Nb Hv Hg Hi Hk Hc Hu Hwf H']; subst. destruct (IH _ H') as (W2 & N2 & G2). destruct (commented_wf hy bn _ _ Ck Hk) as (X1 & X2 & X3 & X4).
    split; [constructor; try assumption; [exact (X2 Hc)|lia|exact (X4 _ _ Hwf)]|]. split; [unfold defined in *; cbn [flat_map]; rewrite N2; reflexivity|]. unfold gaps in *. cbn [map flat_map]. rewrite G2. reflexivity.
Qed.

Theorem commented_same vis ds ds' l l' : commented_defs ds ds' -> commented l l' ->
  same_html (meanings Q b lim vis ds) (meanings Q b lim vis ds') None None l l'.
Proof.
  intros Hd H. destruct (means_same vis ds ds' Hd [] [] ltac:(constructor) ltac:(constructor)) as [R1 R2]. apply commented_html; [exact R1|exact R2|exact Logic.I|exact H].
Qed.
End Notes.
