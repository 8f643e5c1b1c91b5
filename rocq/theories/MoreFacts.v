(** Hypertags that are not used do not matter. *)
From Coq Require Import List NArith ZArith Bool Arith Lia String.
From Verif Require Import PyStr PyStrFacts Value PageSpec OperSpec TmplSpec TmplExpr TmplLines TmplScope TmplDoc TmplReadSpec BookSpec MoreSpec.
Import ListNotations.
Local Open Scope list_scope.

(** The second answer is the same, unless the first one is open. *)
Definition le {A} (x y : ans A) : Prop := x = Open \/ x = y.
Lemma le_refl {A} (x : ans A) : le x x. Proof. right. reflexivity. Qed.
Lemma le_bind {A B} (x y : ans A) (f g : A -> ans B) : le x y -> (forall a, le (f a) (g a)) -> le (oseq x f) (oseq y g).
Proof. intros [->| ->] H; [left; reflexivity|]. destruct y; [apply H|apply le_refl|apply le_refl]. Qed.
Lemma le_eq {A B} (x : ans A) (f g : A -> ans B) : (forall a, le (f a) (g a)) -> le (oseq x f) (oseq x g).
Proof. apply le_bind, le_refl. Qed.
Lemma le_fold {A B} (f g : A -> B -> ans A) l : (forall a v, le (f a v) (g a v)) -> forall a, le (ofold f l a) (ofold g l a).
Proof. intros H. induction l as [|v l IH]; intros a; [apply le_refl|]. cbn [ofold]. apply le_bind; [apply H|exact IH]. Qed.
Lemma le_loop {A} t (s s' : A -> ans A) : (forall a, le (s a) (s' a)) -> forall n a, le (oloop t s n a) (oloop t s' n a).
Proof. intros H. induction n as [|n IH]; intros a; [apply le_refl|]. cbn [oloop]. apply le_eq. intros []; [|apply le_refl]. apply le_bind; [apply H|exact IH]. Qed.

Definition le_mean (f g : meaning) : Prop := forall r pos kw bd, le (f r pos kw bd) (g r pos kw bd).
Definition le_means (D D' : list (str * meaning)) : Prop :=
  forall n f, find_meaning n D = Some f -> exists g, find_meaning n D' = Some g /\ le_mean f g.
Lemma le_mean_refl f : le_mean f f. Proof. intros r pos kw bd. apply le_refl. Qed.
Lemma le_means_refl D : le_means D D. Proof. intros n f H. exists f. split; [exact H|apply le_mean_refl]. Qed.
Lemma le_use {A} D D' n (k : meaning -> ans A) : le_means D D' -> (forall f g, le_mean f g -> le (k f) (k g)) ->
  le (oseq (given_by (find_meaning n D)) k) (oseq (given_by (find_meaning n D')) k).
Proof.
  intros H Hk. destruct (find_meaning n D) as [f|] eqn:Ef; [|left; reflexivity]. destruct (H _ _ Ef) as (g & Eg & K). rewrite Eg. cbn [given_by oseq]. apply Hk, K.
Qed.

Section More.
Variables (Q : py) (b : str) (lim : nat).
Section Means.
Variables (D D' : list (str * meaning)) (bd : option (list elem)).
Hypothesis DD : le_means D D'.
Notation inst1 := (inst Q b lim D bd).
Notation inst2 := (inst Q b lim D' bd).
Definition le_block (t : tmpl) : Prop := forall r, le (inst1 r t) (inst2 r t).
Lemma le_kids l : Forall le_block l -> forall r, le (insts inst1 l r) (insts inst2 l r).
Proof.
  induction 1 as [|t l H Hl IH]; intros r; [apply le_refl|]. cbn [insts]. apply le_bind; [apply H|]. intros p. apply le_bind; [apply IH|]. intros q. apply le_refl.
Qed.
Lemma le_inst t : le_block t.
Proof.
  induction t as [m k x|m h x tl|m g c|m g w kids IH|m cs els IHc IHe|m xs e w kids IH|m e w kids els IH IHe|m alts IHa|m xs e|m x o e|m h c|m h w kids IH|m n] using tmpl_ind';
    intros r; cbn [inst]; try apply le_refl.
  - apply le_bind; [apply le_kids, IH|]. intros p. apply le_refl.
  - apply le_bind; [|intros p; apply le_refl]. induction IHc as [|[e [w kids]] cs Hc IHc IHs].
    + destruct els as [[w kids]|]; [apply le_kids, IHe|apply le_refl].
    + apply le_eq. intros v. apply le_eq. intros []; [apply le_kids, Hc|exact IHs].
  - apply le_eq. intros v. apply le_eq. intros l. apply le_bind; [|intros p; apply le_refl]. apply le_fold. intros p x. apply le_eq. intros r1. apply le_bind; [apply le_kids, IH|]. intros q. apply le_refl.
  - apply le_bind.
    + apply le_loop. intros p. apply le_bind; [apply le_kids, IH|]. intros q. apply le_refl.
    + intros [f [es r1]]. cbn [fst snd]. destruct f; [apply le_refl|]. destruct els as [[w1 kids1]|]; [|apply le_refl]. apply le_bind; [apply le_kids, IHe|]. intros q. apply le_refl.
  - apply le_bind; [|intros p; apply le_refl]. induction IHa as [|[w kids] alts Ha IHa IHs]; [apply le_refl|].
    destruct (le_kids kids Ha r) as [E|E]; [left; rewrite E; reflexivity|]. rewrite E. destruct (insts inst2 kids r); [apply le_refl|exact IHs|apply le_refl].
  - apply le_eq. intros x. apply le_eq. intros a. apply le_use; [exact DD|]. intros f g K. apply le_bind; [apply K|]. intros es. apply le_refl.
  - apply le_bind; [apply le_kids, IH|]. intros p. apply le_eq. intros a. apply le_use; [exact DD|]. intros f g K. apply le_bind; [apply K|]. intros es. apply le_refl.
Qed.
Lemma le_insts l r : le (insts inst1 l r) (insts inst2 l r).
Proof. apply le_kids, Forall_forall. intros t _. apply le_inst. Qed.
End Means.

Lemma mean_le D D' vis d : le_means D D' -> le_mean (mean Q b lim D vis d) (mean Q b lim D' vis d).
Proof.
  intros H r pos kw bd. destruct d as [m n bn ps w kids|m h x tl]; [|apply le_refl]. unfold mean. cbv zeta. apply le_eq. intros a. apply le_eq. intros b1.
  apply le_bind; [apply le_insts, H|]. intros p. apply le_refl.
Qed.
Lemma le_cons D D' n f g : le_means D D' -> le_mean f g -> le_means ((n, f) :: D) ((n, g) :: D').
Proof.
  intros H K y h. cbn [find_meaning]. destruct (str_eqb y n); [|apply H]. intros [= <-]. exists g. split; [reflexivity|exact K].
Qed.
Lemma find_In n D f : find_meaning n D = Some f -> In n (map fst D).
Proof.
  induction D as [|[y g] D IH]; [discriminate|]. cbn [find_meaning map fst]. destruct (str_eqb n y) eqn:E; [|intros H; right; exact (IH H)].
  intros _. left. symmetry. apply str_eqb_eq, E.
Qed.
Lemma le_new D D' n g : le_means D D' -> ~ In n (map fst D') -> le_means D ((n, g) :: D').
Proof.
  intros H K y f Ef. destruct (H _ _ Ef) as (h & Eh & L). exists h. split; [|exact L]. cbn [find_meaning]. destruct (str_eqb y n) eqn:E; [|exact Eh].
  apply str_eqb_eq in E. subst y. destruct (K (find_In _ _ _ Eh)).
Qed.
Lemma more_means known vis ds ds' : more_defs ds ds' -> forall D D', wfd b known vis (map fst D') ds' -> le_means D D' ->
  le_means (fold_left (learn Q b lim vis) ds D) (fold_left (learn Q b lim vis) ds' D').
Proof.
  induction 1 as [|n bn ps w kids ds ds' H IH|d ds ds' H IH]; intros D D' K L; [exact L| |].
  - cbn [fold_left learn]. inversion K; subst. apply IH; [assumption|]. apply le_new; [exact L|assumption].
  - cbn [fold_left]. destruct d as [m n bn ps w kids|m h x tl]; cbn [learn]; inversion K; subst; apply IH; try assumption.
    apply le_cons; [exact L|]. apply mean_le, L.
Qed.
Lemma more_gaps void ds ds' : more_defs ds ds' -> flat_map (ehtml void) (gaps ds') = flat_map (ehtml void) (gaps ds).
Proof. induction 1 as [|n bn ps w kids ds ds' H IH|d ds ds' H IH]; [reflexivity|exact IH|]. unfold gaps in *. cbn [map flat_map]. rewrite IH. reflexivity. Qed.

(** ** Imports *)
Lemma pick_names D ns l : pick D ns = Is l -> map fst l = ns.
Proof.
  revert l. induction ns as [|n ns IH]; intros l; cbn [pick]; [intros [= <-]; reflexivity|]. destruct (find_meaning n D) as [f|]; [|discriminate]. cbn [given_by oseq].
  destruct (pick D ns) as [l1| |]; try discriminate. intros [= <-]. cbn [map fst]. rewrite (IH _ eq_refl). reflexivity.
Qed.
Lemma pick_part D ns ns' : part ns ns' -> forall l', pick D ns' = Is l' -> exists l, pick D ns = Is l /\ part l l'.
Proof.
  induction 1 as [|n ns ns' H IH|n ns ns' H IH]; intros l'; cbn [pick].
  - intros [= <-]. exists []. split; [reflexivity|constructor].
  - destruct (find_meaning n D) as [f|]; [|discriminate]. cbn [given_by oseq]. destruct (pick D ns') as [l1| |]; try discriminate. intros [= <-].
    destruct (IH _ eq_refl) as (l & K & L). exists l. split; [exact K|constructor; exact L].
  - destruct (find_meaning n D) as [f|]; [|discriminate]. cbn [given_by oseq]. destruct (pick D ns') as [l1| |]; try discriminate. intros [= <-].
    destruct (IH _ eq_refl) as (l & K & L). exists ((n, f) :: l). rewrite K. split; [reflexivity|constructor; exact L].
Qed.
Lemma part_none {A} (l : list A) : part [] l.
Proof. induction l; constructor; assumption. Qed.
Lemma part_app {A} (a a' c c' : list A) : part a a' -> part c c' -> part (a ++ c) (a' ++ c').
Proof. intros H K. induction H; cbn [app]; [exact K|constructor; assumption|constructor; assumption]. Qed.
Lemma part_self {A} (l : list A) : part l l.
Proof. induction l; constructor; assumption. Qed.
Lemma part_rev {A} (l l' : list A) : part l l' -> part (rev l) (rev l').
Proof.
  induction 1 as [|a l l' H IH|a l l' H IH]; cbn [rev]; [constructor| |apply part_app; [exact IH|apply part_self]].
  rewrite <- (app_nil_r (rev l)). apply part_app; [exact IH|apply part_none].
Qed.
Lemma part_In {A} (l l' : list A) : part l l' -> incl l l'.
Proof. induction 1 as [|a l l' H IH|a l l' H IH]; intros y Hy; [exact Hy|right; exact (IH _ Hy)|]. destruct Hy as [<-|Hy]; [left; reflexivity|right; exact (IH _ Hy)]. Qed.
Lemma gather_names ex imps g : gather ex imps = Is g -> map fst (flat_map snd g) = flat_map snd imps.
Proof.
  revert g. induction imps as [|[p ns] imps IH]; intros g; cbn [gather]; [intros [= <-]; reflexivity|]. destruct (ex p) as [D| |]; try discriminate. cbn [oseq].
  destruct (pick D ns) as [l| |] eqn:El; try discriminate. cbn [oseq]. destruct (gather ex imps) as [g1| |]; try discriminate. intros [= <-].
  cbn [flat_map snd]. rewrite map_app, (pick_names _ _ _ El), (IH _ eq_refl). reflexivity.
Qed.
Lemma gather_part ex imps imps' : more_imports imps imps' -> forall g', gather ex imps' = Is g' ->
  exists g, gather ex imps = Is g /\ part (flat_map snd g) (flat_map snd g').
Proof.
  induction 1 as [|[p ns] l l' H IH|p ns ns' l l' Hp H IH]; intros g'; cbn [gather].
  - intros [= <-]. exists []. split; [reflexivity|constructor].
  - destruct (ex p) as [D| |]; try discriminate. cbn [oseq]. destruct (pick D ns) as [x| |]; try discriminate. cbn [oseq]. destruct (gather ex l') as [g1| |]; try discriminate. intros [= <-].
    destruct (IH _ eq_refl) as (g & K & L). exists g. split; [exact K|]. cbn [flat_map snd]. change (flat_map snd g) with ([] ++ flat_map snd g). apply part_app; [apply part_none|exact L].
  - destruct (ex p) as [D| |]; try discriminate. cbn [oseq]. destruct (pick D ns') as [x'| |] eqn:Ex; try discriminate. cbn [oseq]. destruct (gather ex l') as [g1| |]; try discriminate. intros [= <-].
    destruct (IH _ eq_refl) as (g & K & L). destruct (pick_part D ns ns' Hp x' Ex) as (x & Kx & Lx). exists ((p, x) :: g). rewrite Kx, K. split; [reflexivity|]. cbn [flat_map snd]. apply part_app; assumption.
Qed.
Lemma part_means (D D' : list (str * meaning)) : part D D' -> NoDup (map fst D') -> le_means D D'.
Proof.
  induction 1 as [|[n g] l l' H IH|[n g] l l' H IH]; intros N1; [apply le_means_refl| |]; inversion N1; subst.
  - apply le_new; [apply IH; assumption|assumption].
  - apply le_cons; [apply IH; assumption|apply le_mean_refl].
Qed.
(** The whole source. *)
Lemma source_more known ex r imps imps' ds ds' doc k k' g' :
  more_imports imps imps' -> more_defs ds ds' -> NoDup (flat_map snd imps') -> wfd b known (map fst r) (rev (flat_map snd imps')) ds' ->
  gather ex imps' = Is g' ->
  le (inst_source Q b lim ex r (Source imps ds doc k)) (inst_source Q b lim ex r (Source imps' ds' doc k')).
Proof.
  intros Hi Hd N1 Hw Hg. destruct (gather_part ex _ _ Hi _ Hg) as (g & Kg & L). unfold inst_source. rewrite Kg, Hg. cbn [oseq]. apply le_insts.
  unfold known_tags, meanings_on. pose proof (gather_names _ _ _ Hg) as En.
  apply (more_means known _ ds ds' Hd).
  - rewrite map_rev, En. exact Hw.
  - apply part_means; [apply part_rev, L|]. rewrite map_rev, En. apply NoDup_rev, N1.
Qed.
End More.
