(** Lemmas about the string operations of [PyStr]. *)
From Coq Require Import List NArith Bool String Lia Arith.
From Verif Require Import PyStr.
Import ListNotations.
Local Open Scope N_scope.

Lemma str_eqb_eq a b : str_eqb a b = true <-> a = b.
Proof.
  revert b; induction a as [|x a IH]; intros [|y b]; simpl; split; try congruence; auto.
  - rewrite andb_true_iff, N.eqb_eq, IH. intros [-> ->]; reflexivity.
  - intros H; injection H as -> ->. rewrite N.eqb_refl; simpl; apply IH; reflexivity.
Qed.

Lemma str_eqb_refl a : str_eqb a a = true.
Proof. apply str_eqb_eq; reflexivity. Qed.

Lemma str_eqb_neq a b : str_eqb a b = false <-> a <> b.
Proof. rewrite <- str_eqb_eq. destruct (str_eqb a b); split; congruence. Qed.

Lemma str_eq_dec (a b : str) : {a = b} + {a <> b}.
Proof. destruct (str_eqb a b) eqn:E; [left; apply str_eqb_eq, E | right; apply str_eqb_neq, E]. Qed.

Lemma mem_In c s : mem c s = true <-> In c s.
Proof.
  unfold mem. rewrite existsb_exists. split.
  - intros [x [H E]]. apply N.eqb_eq in E. subst; assumption.
  - intros H; exists c; split; auto. apply N.eqb_refl.
Qed.

Lemma mem_not_In c s : mem c s = false <-> ~ In c s.
Proof. rewrite <- mem_In. destruct (mem c s); split; congruence. Qed.

Lemma startswith_spec p s : startswith p s = true <-> exists r, s = p ++ r.
Proof.
  revert s; induction p as [|x p IH]; intros s; simpl.
  - split; [intros _; exists s; reflexivity | reflexivity].
  - destruct s as [|y s].
    + split; [discriminate | intros [r H]; discriminate].
    + rewrite andb_true_iff, N.eqb_eq, IH. split.
      * intros [-> [r ->]]; exists r; reflexivity.
      * intros [r H]; injection H as -> ->; split; eauto.
Qed.

Lemma startswith_app p r : startswith p (p ++ r) = true.
Proof. apply startswith_spec; eauto. Qed.

Lemma startswith_refl p : startswith p p = true.
Proof. apply startswith_spec; exists []; symmetry; apply app_nil_r. Qed.

Lemma startswith_length p s : startswith p s = true -> (List.length p <= List.length s)%nat.
Proof. rewrite startswith_spec; intros [r ->]; rewrite app_length; lia. Qed.

Lemma startswith_skipn p s : startswith p s = true -> s = p ++ skipn (List.length p) s.
Proof. rewrite startswith_spec; intros [r ->]. now rewrite skipn_app, skipn_all, Nat.sub_diag. Qed.

Lemma startswith_antisym p q : startswith p q = true -> startswith q p = true -> p = q.
Proof.
  rewrite !startswith_spec. intros [r ->] [r' H].
  rewrite <- app_assoc in H. rewrite <- (app_nil_r p) in H at 1. apply app_inv_head in H.
  symmetry in H; apply app_eq_nil in H as [-> _]. now rewrite app_nil_r.
Qed.

(** ** split / join *)

Lemma split_not_nil c s : split c s <> [].
Proof.
  destruct s as [|x s]; simpl; [discriminate|]. destruct (x =? c); [discriminate|].
  destruct (split c s); discriminate.
Qed.

Lemma split_cons_sep c s : split c (c :: s) = [] :: split c s.
Proof. simpl. now rewrite N.eqb_refl. Qed.

Lemma split_cons_other c x s l ls : x <> c -> split c s = l :: ls -> split c (x :: s) = (x :: l) :: ls.
Proof. intros H E; simpl. apply N.eqb_neq in H. now rewrite H, E. Qed.

Lemma join_cons sep l ls : ls <> [] -> join sep (l :: ls) = l ++ sep ++ join sep ls.
Proof. destruct ls; [congruence | reflexivity]. Qed.

Lemma join_split c s : join [c] (split c s) = s.
Proof.
  induction s as [|x s IH]; [reflexivity|]. simpl.
  pose proof (split_not_nil c s) as Hn.
  destruct (x =? c) eqn:E.
  - apply N.eqb_eq in E; subst. rewrite join_cons by assumption. simpl; now rewrite IH.
  - destruct (split c s) as [|l ls] eqn:Es; [congruence|].
    destruct ls; simpl in *; now rewrite IH.
Qed.

Lemma split_no_sep c s l : In l (split c s) -> ~ In c l.
Proof.
  revert l; induction s as [|x s IH]; intros l; simpl.
  - intros [<-|[]]; auto.
  - destruct (x =? c) eqn:E.
    + intros [<-|H]; auto.
    + apply N.eqb_neq in E. destruct (split c s) as [|l0 ls] eqn:Es.
      * intros [<-|[]] [H|[]]; congruence.
      * intros [<-|H].
        -- intros [H|H]; [congruence|]. apply (IH l0); simpl; auto.
        -- apply IH; simpl; auto.
Qed.

Lemma split_app_no_sep c l s l0 ls :
  ~ In c l -> split c s = l0 :: ls -> split c (l ++ s) = (l ++ l0) :: ls.
Proof.
  induction l as [|x l IH]; intros H E; simpl; auto.
  destruct (x =? c) eqn:Ex.
  - apply N.eqb_eq in Ex. exfalso; apply H; left; auto.
  - rewrite IH; auto. intros Hin; apply H; right; auto.
Qed.

Lemma split_no_sep_id c l : ~ In c l -> split c l = [l].
Proof.
  intros H. rewrite <- (app_nil_r l) at 1. rewrite (split_app_no_sep c l [] [] []); auto.
  now rewrite app_nil_r.
Qed.

Lemma split_app_sep c l s : ~ In c l -> split c (l ++ c :: s) = l :: split c s.
Proof.
  intros H. rewrite (split_app_no_sep c l (c :: s) [] (split c s)); auto.
  - now rewrite app_nil_r.
  - apply split_cons_sep.
Qed.

Lemma split_join c ls : ls <> [] -> (forall l, In l ls -> ~ In c l) -> split c (join [c] ls) = ls.
Proof.
  induction ls as [|l ls IH]; [congruence|]. intros _ H.
  destruct ls as [|l' ls].
  - simpl. apply split_no_sep_id. apply H; left; auto.
  - rewrite join_cons by discriminate. simpl app. rewrite split_app_sep by (apply H; left; auto).
    f_equal. apply IH; [discriminate|]. intros x Hx; apply H; right; auto.
Qed.

Lemma split_inj c a b : split c a = split c b -> a = b.
Proof. intros H. rewrite <- (join_split c a), <- (join_split c b). now rewrite H. Qed.

Lemma split_length_count c s :
  List.length (split c s) = S (count_occ N.eq_dec s c).
Proof.
  induction s as [|x s IH]; [reflexivity|]. simpl.
  destruct (x =? c) eqn:E.
  - apply N.eqb_eq in E; subst. destruct (N.eq_dec c c); [|congruence]. simpl; now rewrite IH.
  - apply N.eqb_neq in E. destruct (N.eq_dec x c); [congruence|].
    destruct (split c s); simpl in *; lia.
Qed.

(** ** strip *)

Definition all_space (s : str) : Prop := forall c, In c s -> is_space c = true.

Lemma lstrip_decomp s : exists w, s = w ++ lstrip s /\ all_space w.
Proof.
  induction s as [|c s [w [E H]]]; simpl.
  - exists []; split; auto. intros c [].
  - destruct (is_space c) eqn:Ec.
    + exists (c :: w); simpl; split; [now rewrite <- E|]. intros x [<-|Hx]; auto.
    + exists []; split; auto. intros x [].
Qed.

Lemma lstrip_head s c r : lstrip s = c :: r -> is_space c = false.
Proof.
  induction s as [|x s IH]; simpl; [discriminate|].
  destruct (is_space x) eqn:E; auto. intros H; injection H as -> ->; auto.
Qed.

Lemma lstrip_all_space s : all_space s -> lstrip s = [].
Proof.
  induction s as [|c s IH]; simpl; auto. intros H.
  rewrite (H c) by (left; auto). apply IH. intros x Hx; apply H; right; auto.
Qed.

Lemma lstrip_nil s : lstrip s = [] <-> all_space s.
Proof.
  split; [|apply lstrip_all_space]. intros H.
  destruct (lstrip_decomp s) as [w [E Hw]]. rewrite H, app_nil_r in E. subst; auto.
Qed.

Lemma lstrip_app_space w s : all_space w -> lstrip (w ++ s) = lstrip s.
Proof.
  induction w as [|c w IH]; simpl; auto. intros H.
  rewrite (H c) by (left; auto). apply IH. intros x Hx; apply H; right; auto.
Qed.

Lemma lstrip_nonspace c s : is_space c = false -> lstrip (c :: s) = c :: s.
Proof. simpl; intros ->; auto. Qed.

Lemma lstrip_idem s : lstrip (lstrip s) = lstrip s.
Proof.
  destruct (lstrip s) as [|c r] eqn:E; auto. apply lstrip_nonspace. eapply lstrip_head; eauto.
Qed.

Lemma all_space_rev s : all_space (rev s) <-> all_space s.
Proof.
  unfold all_space; split; intros H c Hc; apply H.
  - now rewrite <- in_rev.
  - now rewrite <- in_rev in Hc.
Qed.

Lemma all_space_app a b : all_space (a ++ b) <-> all_space a /\ all_space b.
Proof.
  unfold all_space; split.
  - intros H; split; intros c Hc; apply H, in_or_app; auto.
  - intros [Ha Hb] c Hc. apply in_app_or in Hc as [Hc|Hc]; auto.
Qed.

Lemma all_space_cons c s : all_space (c :: s) <-> is_space c = true /\ all_space s.
Proof.
  unfold all_space; split.
  - intros H; split; [apply H; left; auto | intros x Hx; apply H; right; auto].
  - intros [Ha Hb] x [<-|Hx]; auto.
Qed.

Lemma all_space_nil : all_space [].
Proof. intros c []. Qed.

Lemma rstrip_decomp s : exists w, s = rstrip s ++ w /\ all_space w.
Proof.
  destruct (lstrip_decomp (rev s)) as [w [E H]].
  exists (rev w). split; [|now apply all_space_rev].
  unfold rstrip. rewrite <- rev_app_distr, <- E. now rewrite rev_involutive.
Qed.

Lemma rstrip_last s x r : rstrip s = r ++ [x] -> is_space x = false.
Proof.
  unfold rstrip. intros H. apply (f_equal (@rev _)) in H.
  rewrite rev_involutive, rev_app_distr in H. simpl in H. eapply lstrip_head; eauto.
Qed.

Lemma rstrip_nil s : rstrip s = [] <-> all_space s.
Proof.
  unfold rstrip. split.
  - intros H. apply (f_equal (@rev _)) in H. rewrite rev_involutive in H; simpl in H.
    apply all_space_rev, lstrip_nil, H.
  - intros H. apply all_space_rev, lstrip_nil in H. now rewrite H.
Qed.

Lemma rstrip_idem s : rstrip (rstrip s) = rstrip s.
Proof. unfold rstrip. now rewrite rev_involutive, lstrip_idem. Qed.

Lemma rstrip_app_space s w : all_space w -> rstrip (s ++ w) = rstrip s.
Proof. intros H. unfold rstrip. rewrite rev_app_distr, lstrip_app_space; auto. now apply all_space_rev. Qed.

Lemma rstrip_nonspace s x : is_space x = false -> rstrip (s ++ [x]) = s ++ [x].
Proof.
  intros H. unfold rstrip. rewrite rev_app_distr; simpl rev at 2; simpl app.
  rewrite lstrip_nonspace by auto. simpl. now rewrite rev_involutive.
Qed.

Lemma rstrip_cases s : rstrip s = [] \/ exists r x, rstrip s = r ++ [x] /\ is_space x = false.
Proof.
  destruct (rstrip s) as [|a l] eqn:E; [left; auto|right].
  assert (H : a :: l <> []) by discriminate. destruct (exists_last H) as [r [x Er]].
  exists r, x. split; auto. eapply rstrip_last. now rewrite E, Er.
Qed.

(** A non-blank right part protects the left part from rstrip. *)
Lemma rstrip_app_nonblank a b : ~ all_space b -> rstrip (a ++ b) = a ++ rstrip b.
Proof.
  intros H. destruct (rstrip_decomp b) as [w [E Hw]].
  destruct (rstrip_cases b) as [Eb|[r [x [Eb Hx]]]].
  - exfalso; apply H. now apply rstrip_nil.
  - rewrite E at 1. rewrite app_assoc, rstrip_app_space by auto.
    rewrite Eb, app_assoc. now apply rstrip_nonspace.
Qed.

(** ** replace *)

Lemma replace_go_single c new s : replace_go [c] new 0 s = flat_map (fun x => if x =? c then new else [x]) s.
Proof.
  induction s as [|x s IH]; auto. simpl.
  rewrite andb_true_r, N.eqb_sym. destruct (x =? c); simpl; now rewrite IH.
Qed.

Lemma replace_single c new s : replace [c] new s = flat_map (fun x => if x =? c then new else [x]) s.
Proof. apply replace_go_single. Qed.

Lemma replace_go_skip old new k s :
  (k <= List.length s)%nat -> replace_go old new k s = replace_go old new 0 (skipn k s).
Proof.
  revert s; induction k as [|k IH]; intros s H; [reflexivity|].
  destruct s as [|c s]; simpl in *; [lia|]. apply IH; lia.
Qed.

Lemma replace_unfold old new c s : old <> [] ->
  replace old new (c :: s) =
  if startswith old (c :: s) then new ++ replace old new (skipn (List.length old) (c :: s))
  else c :: replace old new s.
Proof.
  intros H. unfold replace. cbn [replace_go]. destruct (startswith old (c :: s)) eqn:E; auto.
  f_equal. apply startswith_length in E. destruct old as [|o old]; [congruence|]. simpl in *.
  rewrite replace_go_skip by lia. reflexivity.
Qed.

Lemma flat_map_flat_map {A B C} (f : A -> list B) (g : B -> list C) l :
  flat_map g (flat_map f l) = flat_map (fun x => flat_map g (f x)) l.
Proof. induction l as [|x l IH]; simpl; auto. now rewrite flat_map_app, IH. Qed.

Lemma flat_map_ext' {A B} (f g : A -> list B) l : (forall x, f x = g x) -> flat_map f l = flat_map g l.
Proof. intros H; induction l as [|x l IH]; simpl; auto. now rewrite H, IH. Qed.

Lemma is_space_NL : is_space NL = true. Proof. reflexivity. Qed.
Lemma is_space_SP : is_space SP = true. Proof. reflexivity. Qed.
Lemma is_space_TAB : is_space TAB = true. Proof. reflexivity. Qed.

Lemma all_space_repeat n : all_space (repeatc SP n).
Proof. intros c H. apply repeat_spec in H. subst. reflexivity. Qed.
