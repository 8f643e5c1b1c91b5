(** The order of definitions and imports does not matter. *)
From Coq Require Import List NArith ZArith Bool Arith Lia String Permutation.
From Verif Require Import PyStr PyStrFacts Value PageSpec OperSpec TmplSpec TmplExpr TmplLines TmplScope TmplDoc TmplReadSpec BookSpec MoreSpec MoreFacts.
Import ListNotations.
Local Open Scope list_scope.

Lemma eq_bind {A B} (x y : ans A) (f g : A -> ans B) : x = y -> (forall a, f a = g a) -> oseq x f = oseq y g.
Proof. intros -> H. destruct y; [apply H|reflexivity|reflexivity]. Qed.
Lemma eq_fold {A B} (f g : A -> B -> ans A) l : (forall a v, f a v = g a v) -> forall a, ofold f l a = ofold g l a.
Proof. intros H. induction l as [|v l IH]; intros a; [reflexivity|]. cbn [ofold]. apply eq_bind; [apply H|exact IH]. Qed.
Lemma eq_loop {A} t (s s' : A -> ans A) : (forall a, s a = s' a) -> forall n a, oloop t s n a = oloop t s' n a.
Proof. intros H. induction n as [|n IH]; intros a; [reflexivity|]. cbn [oloop]. apply eq_bind; [reflexivity|]. intros []; [|reflexivity]. apply eq_bind; [apply H|exact IH]. Qed.

Definition eq_mean (f g : meaning) : Prop := forall r pos kw bd, f r pos kw bd = g r pos kw bd.
(** Names known to both have the same meaning. *)
Definition agree (D D' : list (str * meaning)) : Prop := forall n f g, find_meaning n D = Some f -> find_meaning n D' = Some g -> eq_mean f g.
Lemma In_find n D : In n (map fst D) -> exists f, find_meaning n D = Some f.
Proof.
  induction D as [|[y g] D IH]; [contradiction|]. cbn [find_meaning map fst]. destruct (str_eqb n y) eqn:E; [eauto|]. intros [->|H]; [|exact (IH H)].
  rewrite str_eqb_refl in E. discriminate.
Qed.
Lemma agree_use {A} D D' n (k : meaning -> ans A) : agree D D' -> In n (map fst D) -> In n (map fst D') -> (forall f g, eq_mean f g -> k f = k g) ->
  oseq (given_by (find_meaning n D)) k = oseq (given_by (find_meaning n D')) k.
Proof.
  intros H H1 H2 Hk. destruct (In_find _ _ H1) as (f & Ef). destruct (In_find _ _ H2) as (g & Eg). rewrite Ef, Eg. cbn [given_by oseq]. apply Hk, (H _ _ _ Ef Eg).
Qed.

Section Order.
Variables (Q : py) (b : str) (lim : nat) (known : str -> option bool).
Section Means.
Variables (D D' : list (str * meaning)) (bd : option (list elem)) (bn : option str).
Hypothesis DD : agree D D'.
Notation inst1 := (inst Q b lim D bd).
Notation inst2 := (inst Q b lim D' bd).
Notation wf1 := (wft b known (map fst D) bn).
Notation wf2 := (wft b known (map fst D') bn).
Definition eq_block (t : tmpl) : Prop := forall o w o' w', wf1 o w t -> wf2 o' w' t -> forall r, inst1 r t = inst2 r t.
Lemma eq_kids l : Forall eq_block l -> forall o w o' w', wfts b known (map fst D) bn o w l -> wfts b known (map fst D') bn o' w' l -> forall r, insts inst1 l r = insts inst2 l r.
Proof.
  induction 1 as [|t l H Hl IH]; intros o w o' w' K1 K2 r; [reflexivity|]. inversion K1; subst. inversion K2; subst. cbn [insts]. apply eq_bind; [eapply H; eassumption|].
  intros p. apply eq_bind; [eapply IH; eassumption|]. intros q. reflexivity.
Qed.
Lemma eq_inst t : eq_block t.
Proof.
  induction t as [m k x|m h x tl|m g c|m g w kids IH|m cs els IHc IHe|m xs e w kids IH|m e w kids els IH IHe|m alts IHa|m xs e|m x o e|m h c|m h w kids IH|m n] using tmpl_ind';
    intros ou ow ou' ow' K1 K2 r; cbn [inst]; try reflexivity; inversion K1; subst; inversion K2; subst.
  - apply eq_bind; [eapply eq_kids; eassumption|]. intros p. reflexivity.
  - apply eq_bind; [|intros p; reflexivity]. clear K1 K2.
    match goal with A : wfb _ _ _ _ _ _ (map snd cs), B : wfb _ _ _ _ _ _ (map snd cs), A' : wfb _ _ _ _ _ _ (match els with _ => _ end), B' : wfb _ _ _ _ _ _ (match els with _ => _ end) |- _ =>
      rename A into A1; rename B into B1; rename A' into A2; rename B' into B2 end.
    clear - DD A1 B1 A2 B2 IHc IHe. induction IHc as [|[e [w kids]] cs Hc IHc IHs].
    + destruct els as [[w kids]|]; [|reflexivity]. inversion A2; subst. inversion B2; subst. eapply eq_kids; eassumption.
    + cbn [map snd] in A1, B1. inversion A1; subst. inversion B1; subst. apply eq_bind; [reflexivity|]. intros v. apply eq_bind; [reflexivity|]. intros []; [eapply eq_kids; eassumption|apply IHs; assumption].
  - apply eq_bind; [reflexivity|]. intros v. apply eq_bind; [reflexivity|]. intros l. apply eq_bind; [|intros p; reflexivity]. apply eq_fold. intros p x. apply eq_bind; [reflexivity|]. intros r1.
    apply eq_bind; [eapply eq_kids; eassumption|]. intros q. reflexivity.
  - apply eq_bind.
    + apply eq_loop. intros p. apply eq_bind; [eapply eq_kids; eassumption|]. intros q. reflexivity.
    + intros [f [es r1]]. cbn [fst snd]. destruct f; [reflexivity|]. destruct els as [[w1 kids1]|]; [|reflexivity].
      match goal with A : wfb _ _ _ _ _ _ [(w1, kids1)], B : wfb _ _ _ _ _ _ [(w1, kids1)] |- _ => inversion A; subst; inversion B; subst end.
      apply eq_bind; [eapply eq_kids; eassumption|]. intros q. reflexivity.
  - apply eq_bind; [|intros p; reflexivity]. match goal with A : wfb _ _ _ _ _ _ alts, B : wfb _ _ _ _ _ _ alts |- _ => rename A into A1; rename B into B1 end.
    clear - DD A1 B1 IHa. induction IHa as [|[w kids] alts Ha IHa IHs]; [reflexivity|]. inversion A1; subst. inversion B1; subst.
    erewrite eq_kids; [|exact Ha|eassumption|eassumption]. destruct (insts inst2 kids r); [reflexivity|apply IHs; assumption|reflexivity].
  - apply eq_bind; [reflexivity|]. intros x. apply eq_bind; [reflexivity|]. intros a. apply agree_use; [exact DD|assumption|assumption|]. intros f g K. apply eq_bind; [apply K|]. intros es. reflexivity.
  - apply eq_bind; [eapply eq_kids; eassumption|]. intros p. apply eq_bind; [reflexivity|]. intros a. apply agree_use; [exact DD|assumption|assumption|]. intros f g K. apply eq_bind; [apply K|]. intros es. reflexivity.
Qed.
Lemma eq_insts l o w o' w' r : wfts b known (map fst D) bn o w l -> wfts b known (map fst D') bn o' w' l -> insts inst1 l r = insts inst2 l r.
Proof. intros K1 K2. eapply eq_kids; [apply Forall_forall; intros t _; apply eq_inst|eassumption|eassumption]. Qed.
End Means.

(** ** Definitions *)
Variable vis : list str.
Notation learned := (fold_left (learn Q b lim vis)).
Lemma learned_names ds G : map fst (learned ds G) = rev (defined ds) ++ map fst G.
Proof.
  revert G. unfold defined. induction ds as [|[m n bn ps w kids|m h x tl] ds IH]; intros G; [reflexivity| |apply IH]. cbn [fold_left flat_map app rev learn]. rewrite IH, <- app_assoc. reflexivity.
Qed.
Lemma defined_app l l' : defined (l ++ l') = defined l ++ defined l'.
Proof. apply flat_map_app. Qed.
(** Where a meaning comes from. *)
Lemma find_learned n ds G f : find_meaning n (learned ds G) = Some f ->
  (exists p s m bn ps w kids, ds = p ++ Def m n bn ps w kids :: s /\ f = mean Q b lim (learned p G) vis (Def m n bn ps w kids)) \/ find_meaning n G = Some f.
Proof.
  revert f. induction ds as [|d ds IH] using rev_ind; intros f; [right; assumption|]. rewrite fold_left_app. cbn [fold_left]. destruct d as [m y bn ps w kids|m h x tl]; cbn [learn find_meaning].
  - destruct (str_eqb n y) eqn:E.
    + intros [= <-]. apply str_eqb_eq in E. subst y. left. exists ds, [], m, bn, ps, w, kids. split; reflexivity.
    + intros H. destruct (IH _ H) as [(p & s & m1 & bn1 & ps1 & w1 & k1 & -> & ->)|K]; [|right; exact K]. left. exists p, (s ++ [Def m y bn ps w kids]), m1, bn1, ps1, w1, k1. split; [rewrite <- app_assoc; reflexivity|reflexivity].
  - intros H. destruct (IH _ H) as [(p & s & m1 & bn1 & ps1 & w1 & k1 & -> & ->)|K]; [|right; exact K]. left. exists p, (s ++ [DNote m h x tl]), m1, bn1, ps1, w1, k1. split; [rewrite <- app_assoc; reflexivity|reflexivity].
Qed.
Lemma wfd_at p : forall hy m n bn ps w kids s, wfd b known vis hy (p ++ Def m n bn ps w kids :: s) ->
  ~ In n (rev (defined p) ++ hy) /\ exists o own, wfts b known (rev (defined p) ++ hy) bn o own kids.
Proof.
  induction p as [|d p IH]; intros hy m n bn ps w kids s H.
  - cbn [app defined flat_map rev] in *. inversion H; subst. split; [assumption|]. eexists _, _. eassumption.
  - cbn [app] in H. inversion H; subst.
    + exact (IH _ _ _ _ _ _ _ _ H4).
    + unfold defined in *. cbn [flat_map app rev]. rewrite <- app_assoc. cbn [app]. eapply IH. eassumption.
Qed.
Lemma wfd_names ds : forall hy, wfd b known vis hy ds -> NoDup (defined ds) /\ forall n, In n (defined ds) -> ~ In n hy.
Proof.
  intros hy H. induction H as [hy|hy m h x tl ds Hx H IH|hy m n bn ps w kids ds own body H1 H2 H3 H4 H5 H6 H7 H8 H9 H10 H11 H12 IH].
  - split; [constructor|contradiction].
  - exact IH.
  - destruct IH as [I1 I2]. change (defined (Def m n bn ps w kids :: ds)) with (n :: defined ds). split.
    + constructor; [|exact I1]. intros K. apply (I2 _ K). left. reflexivity.
    + intros y [<-|K] L; [exact (H3 L)|]. apply (I2 _ K). right. exact L.
Qed.
Lemma same_def ds n m bn ps w kids m' bn' ps' w' kids' : NoDup (defined ds) -> In (Def m n bn ps w kids) ds -> In (Def m' n bn' ps' w' kids') ds ->
  Def m n bn ps w kids = Def m' n bn' ps' w' kids'.
Proof.
  intros N1 H K. apply in_split in H. destruct H as (p & s & ->). rewrite defined_app in N1. change (defined (Def m n bn ps w kids :: s)) with (n :: defined s) in N1.
  apply NoDup_remove_2 in N1. apply in_app_or in K. destruct K as [K|[K|K]]; [|exact K|]; destruct N1; apply in_or_app; [left|right];
    apply in_flat_map; eexists; (split; [exact K|left; reflexivity]).
Qed.
Lemma perm_agree ds ds' G G' : Permutation ds ds' -> Permutation (map fst G) (map fst G') -> agree G G' ->
  wfd b known vis (map fst G) ds -> wfd b known vis (map fst G') ds' ->
  forall k p s p' s', List.length p <= k -> ds = p ++ s -> ds' = p' ++ s' -> agree (learned p G) (learned p' G').
Proof.
  intros HP HG AG W1 W2. destruct (wfd_names _ _ W1) as [N1 O1]. destruct (wfd_names _ _ W2) as [N2 O2].
  induction k as [|k IH]; intros p s p' s' Lp Ep Ep' n f g Ef Eg;
    destruct (find_learned _ _ _ _ Ef) as [(q & t & m & bn & ps & w & kids & -> & ->)|Kf];
    destruct (find_learned _ _ _ _ Eg) as [(q' & t' & m' & bn' & ps' & w' & kids' & -> & ->)|Kg].
  all: try (exact (AG _ _ _ Kf Kg)).
  all: try (rewrite app_length in Lp; cbn [List.length] in Lp; lia).
  all: try (exfalso; apply find_In in Kg; apply (O1 n); [subst ds; rewrite !defined_app; apply in_or_app; left; apply in_or_app; right; left; reflexivity|
    apply (Permutation_in _ (Permutation_sym HG)); exact Kg]).
  all: try (exfalso; apply find_In in Kf; apply (O2 n); [subst ds'; rewrite !defined_app; apply in_or_app; left; apply in_or_app; right; left; reflexivity|
    apply (Permutation_in _ HG); exact Kf]).
  assert (Ed : Def m n bn ps w kids = Def m' n bn' ps' w' kids').
  { apply (same_def ds); [exact N1| |].
    - subst ds. apply in_or_app. left. apply in_or_app. right. left. reflexivity.
    - apply (Permutation_in _ (Permutation_sym HP)). subst ds'. apply in_or_app. left. apply in_or_app. right. left. reflexivity. }
  injection Ed as <- <- <- <- <-.
  rewrite <- app_assoc in Ep, Ep'. cbn [app] in Ep, Ep'.
  assert (AQ : agree (learned q G) (learned q' G')) by (refine (IH q _ q' _ _ Ep Ep'); rewrite app_length in Lp; cbn [List.length] in Lp; lia).
  rewrite Ep in W1. rewrite Ep' in W2. destruct (wfd_at _ _ _ _ _ _ _ _ _ W1) as (_ & o1 & w1 & V1). destruct (wfd_at _ _ _ _ _ _ _ _ _ W2) as (_ & o2 & w2 & V2).
  rewrite <- learned_names in V1, V2. intros r pos kw bd. unfold mean. cbv zeta. apply eq_bind; [reflexivity|]. intros a. apply eq_bind; [reflexivity|]. intros b1.
  apply eq_bind; [eapply eq_insts; eassumption|]. intros pp. reflexivity.
Qed.
Lemma perm_insts ds ds' G G' doc o w o' w' r : Permutation ds ds' -> Permutation (map fst G) (map fst G') -> agree G G' ->
  wfd b known vis (map fst G) ds -> wfd b known vis (map fst G') ds' ->
  wfts b known (rev (defined ds) ++ map fst G) None o w doc -> wfts b known (rev (defined ds') ++ map fst G') None o' w' doc ->
  insts (inst Q b lim (learned ds G) None) doc r = insts (inst Q b lim (learned ds' G') None) doc r.
Proof.
  intros HP HG AG W1 W2 V1 V2. rewrite <- learned_names in V1, V2. eapply eq_insts; [|exact V1|exact V2].
  apply (perm_agree ds ds' G G' HP HG AG W1 W2 _ ds [] ds' [] (Nat.le_refl _)); rewrite app_nil_r; reflexivity.
Qed.
End Order.

Lemma perm_defined ds ds' : Permutation ds ds' -> Permutation (defined ds) (defined ds').
Proof. intros H. apply Permutation_flat_map, H. Qed.
Lemma blank_lines void ds : flat_map (ehtml void) (gaps ds) = blanks (list_sum (map (fun d => match d with Def m _ _ _ _ _ | DNote m _ _ _ => m end) ds)).
Proof.
  unfold gaps. induction ds as [|d ds IH]; [reflexivity|]. cbn [map flat_map list_sum fold_right]. rewrite IH. unfold blanks. rewrite repeat_app. destruct d; reflexivity.
Qed.
Lemma perm_sum (l l' : list nat) : Permutation l l' -> list_sum l = list_sum l'.
Proof. induction 1; cbn [list_sum fold_right] in *; unfold list_sum in *; lia. Qed.
Lemma perm_gaps void ds ds' : Permutation ds ds' -> flat_map (ehtml void) (gaps ds) = flat_map (ehtml void) (gaps ds').
Proof. intros H. rewrite !blank_lines. f_equal. apply perm_sum, Permutation_map, H. Qed.

(** ** Imports *)
Lemma perm_gather ex imps imps' : Permutation imps imps' -> forall g, gather ex imps = Is g -> exists g', gather ex imps' = Is g' /\ Permutation g g'.
Proof.
  induction 1 as [|[p ns] l l' H IH|[p ns] [q ms] l|l1 l2 l3 H1 IH1 H2 IH2]; intros g Hg.
  - exists g. split; [exact Hg|apply Permutation_refl].
  - cbn [gather] in *. destruct (ex p) as [D| |]; try discriminate. cbn [oseq] in *. destruct (pick D ns) as [x| |]; try discriminate. cbn [oseq] in *.
    destruct (gather ex l) as [g1| |]; try discriminate. injection Hg as <-. destruct (IH _ eq_refl) as (g' & K & L). rewrite K. eexists. split; [reflexivity|constructor; exact L].
  - cbn [gather] in *. destruct (ex q) as [D1| |]; try discriminate. cbn [oseq] in *. destruct (pick D1 ms) as [x1| |]; try discriminate. cbn [oseq] in *.
    destruct (ex p) as [D| |]; try discriminate. cbn [oseq] in *. destruct (pick D ns) as [x| |]; try discriminate. cbn [oseq] in *.
    destruct (gather ex l) as [g1| |]; try discriminate. injection Hg as <-. eexists. split; [reflexivity|constructor].
  - destruct (IH1 _ Hg) as (g2 & K2 & L2). destruct (IH2 _ K2) as (g3 & K3 & L3). exists g3. split; [exact K3|]. eapply Permutation_trans; eassumption.
Qed.
Lemma find_unique n (D : list (str * meaning)) f : NoDup (map fst D) -> (find_meaning n D = Some f <-> In (n, f) D).
Proof.
  induction D as [|[y g] D IH]; [split; [discriminate|contradiction]|]. cbn [map fst find_meaning]. intros K. inversion K; subst. destruct (str_eqb n y) eqn:E.
  - apply str_eqb_eq in E. subst y. split; [intros [= <-]; left; reflexivity|]. intros [[= <-]|I1]; [reflexivity|]. destruct H1. apply in_map_iff. exists (n, f). split; [reflexivity|exact I1].
  - rewrite (IH H2). split; [right; assumption|]. intros [[= -> ->]|I1]; [|exact I1]. rewrite str_eqb_refl in E. discriminate.
Qed.
Lemma perm_found (D D' : list (str * meaning)) : Permutation D D' -> NoDup (map fst D) -> agree D D'.
Proof.
  intros H N1 n f g Ef Eg. assert (N2 : NoDup (map fst D')) by (apply (Permutation_NoDup (Permutation_map fst H) N1)).
  apply (find_unique _ _ _ N2) in Eg. apply (Permutation_in _ (Permutation_sym H)) in Eg. apply (find_unique _ _ _ N1) in Eg. rewrite Ef in Eg. injection Eg as ->. intros r pos kw bd. reflexivity.
Qed.
