(** The names of hypertags do not matter. *)
From Coq Require Import List NArith ZArith Bool Arith Lia String.
From Verif Require Import PyStr PyStrFacts Value PageSpec OperSpec TmplSpec TmplExpr TmplLines TmplScope TmplDoc TmplReadSpec BookSpec MoreSpec MoreFacts RenameSpec HtmlFacts PageRender PageTree TmplLayout.
Import ListNotations.
Local Open Scope list_scope.

Section Rename.
Variables (Q : py) (b : str) (lim : nat) (f g : str -> str).
(** Every hypertag of the first list has its meaning under the new name in the second one. *)
Definition to_means (D D' : list (str * meaning)) : Prop :=
  forall n x, find_meaning n D = Some x -> exists y, find_meaning (f n) D' = Some y /\ le_mean x y.
Lemma to_use {A} D D' n (k : meaning -> ans A) : to_means D D' -> (forall x y, le_mean x y -> le (k x) (k y)) ->
  le (oseq (given_by (find_meaning n D)) k) (oseq (given_by (find_meaning (f n) D')) k).
Proof.
  intros H Hk. destruct (find_meaning n D) as [x|] eqn:Ef; [|left; reflexivity]. destruct (H _ _ Ef) as (y & Eg & K). rewrite Eg. cbn [given_by oseq]. apply Hk, K.
Qed.
Lemma use_length h : List.length (f (fst (fst h))) = List.length (fst (fst h)) -> List.length (use_text b (rename_use f h)) = List.length (use_text b h).
Proof. destruct h as [[n pos] a]. cbn [fst rename_use use_text]. intros H. rewrite !app_length, H. reflexivity. Qed.
Lemma inst_rename_use r h : inst_use Q r (rename_use f h) = inst_use Q r h.
Proof. destruct h as [[n pos] a]. reflexivity. Qed.
Lemma name_rename_use h : fst (fst (rename_use f h)) = f (fst (fst h)).
Proof. destruct h as [[n pos] a]. reflexivity. Qed.

Lemma fixed_text r k x i j : fixed x = true -> inst_text Q r k i x = inst_text Q r k j x.
Proof.
  destruct x as [[s [|]] [|]]; try discriminate. cbn [fixed]. intros H. apply negb_true_iff in H.
  assert (K : ~ In NL s). { intros J. assert (C : existsb (N.eqb NL) s = true) by (apply existsb_exists; exists NL; split; [exact J|apply N.eqb_refl]). rewrite H in C. discriminate C. }
  assert (L : forall n, layout n (escape k (rstrip s)) = text_html k s).
  { intros n. rewrite <- layout_done. rewrite <- (layout_text n k s K). unfold escape. destruct k; [rewrite html_escape_chars|..]; reflexivity. }
  unfold inst_text, inst_line, fill, trim. cbn [fst snd omap oseq List.concat]. unfold para_text. cbn [flat_map]. rewrite !app_nil_r. rewrite !L. reflexivity.
Qed.

Section Means.
Variables (D D' : list (str * meaning)) (bd : option (list elem)).
Hypothesis DD : to_means D D'.
Notation inst1 := (inst Q b lim D bd).
Notation inst2 := (inst Q b lim D' bd).
Definition to_block (t : tmpl) : Prop := steady f t = true -> forall r, le (inst1 r t) (inst2 r (rename f g t)).
Lemma to_kids l : Forall to_block l -> forallb (steady f) l = true -> forall r, le (insts inst1 l r) (insts inst2 (map (rename f g) l) r).
Proof.
  induction 1 as [|t l H Hl IH]; intros S1 r; [apply le_refl|]. cbn [forallb] in S1. apply andb_true_iff in S1. destruct S1 as [S1 S2].
  cbn [insts map]. apply le_bind; [apply H, S1|]. intros p. apply le_bind; [apply IH, S2|]. intros q. apply le_refl.
Qed.
Lemma to_inst t : to_block t.
Proof.
  induction t as [m k x|m h x tl|m c x|m c w kids IH|m cs els IHc IHe|m xs e w kids IH|m e w kids els IH IHe|m alts IHa|m xs e|m x o e|m h c|m h w kids IH|m n] using tmpl_ind';
    intros S1 r; cbn [rename inst]; cbn [steady] in S1; try apply le_refl.
  - apply le_bind; [apply to_kids; assumption|]. intros p. apply le_refl.
  - apply andb_true_iff in S1. destruct S1 as [S1 S2]. apply le_bind; [|intros p; apply le_refl]. induction IHc as [|[e [w kids]] cs Hc IHc IHs].
    + destruct els as [[w kids]|]; [apply to_kids; assumption|apply le_refl].
    + cbn [forallb] in S1. apply andb_true_iff in S1. destruct S1 as [S0 S1]. cbn [map]. apply le_eq. intros v. apply le_eq. intros []; [apply to_kids; assumption|exact (IHs S1)].
  - apply le_eq. intros v. apply le_eq. intros l. apply le_bind; [|intros p; apply le_refl]. apply le_fold. intros p x. apply le_eq. intros r1. apply le_bind; [apply to_kids; assumption|]. intros q. apply le_refl.
  - apply andb_true_iff in S1. destruct S1 as [S1 S2]. apply le_bind.
    + apply le_loop. intros p. apply le_bind; [apply to_kids; assumption|]. intros q. apply le_refl.
    + intros [t [es r1]]. cbn [fst snd]. destruct t; [destruct els as [[w1 kids1]|]; apply le_refl|]. destruct els as [[w1 kids1]|]; [|apply le_refl]. apply le_bind; [apply to_kids; assumption|]. intros q. apply le_refl.
  - apply le_bind; [|intros p; apply le_refl]. induction IHa as [|[w kids] alts Ha IHa IHs]; [apply le_refl|].
    cbn [forallb] in S1. apply andb_true_iff in S1. destruct S1 as [S0 S1]. cbn [map].
    destruct (to_kids kids Ha S0 r) as [E|E]; [left; rewrite E; reflexivity|]. rewrite E. destruct (insts inst2 (map (rename f g) kids) r); [apply le_refl|exact (IHs S1)|apply le_refl].
  - rewrite inst_rename_use, name_rename_use. destruct c as [[k x]|].
    + assert (Et : inst_text Q r k (List.length (use_text b (rename_use f h)) + 2) x = inst_text Q r k (List.length (use_text b h) + 2) x).
      { apply orb_true_iff in S1. destruct S1 as [S1|S1]; [apply fixed_text, S1|]. rewrite (use_length h) by (apply Nat.eqb_eq, S1). reflexivity. }
      rewrite Et. apply le_eq. intros x'. apply le_eq. intros a. apply to_use; [exact DD|]. intros y z K. apply le_bind; [apply K|]. intros es. apply le_refl.
    + apply le_eq. intros x'. apply le_eq. intros a. apply to_use; [exact DD|]. intros y z K. apply le_bind; [apply K|]. intros es. apply le_refl.
  - rewrite inst_rename_use, name_rename_use. apply le_bind; [apply to_kids; assumption|]. intros p. apply le_eq. intros a. apply to_use; [exact DD|]. intros y z K. apply le_bind; [apply K|]. intros es. apply le_refl.
Qed.
Lemma to_insts l r : forallb (steady f) l = true -> le (insts inst1 l r) (insts inst2 (map (rename f g) l) r).
Proof. intros S1. apply to_kids; [|exact S1]. apply Forall_forall. intros t _. apply to_inst. Qed.
End Means.

Lemma mean_to D D' vis d : to_means D D' -> steady_def f d = true -> le_mean (mean Q b lim D vis d) (mean Q b lim D' vis (rename_def f g d)).
Proof.
  intros H S1 r pos kw bd. destruct d as [m n bn ps w kids|m h x tl]; [|apply le_refl]. cbn [steady_def] in S1. cbn [rename_def]. unfold mean. cbv zeta. apply le_eq. intros a.
  apply le_bind; [destruct bn; apply le_refl|]. intros b1. apply le_bind; [apply to_insts; assumption|]. intros p. apply le_refl.
Qed.
Lemma rename_means known vis ds : forallb (steady_def f) ds = true -> forall D D', wfd b known vis (map fst D') (map (rename_def f g) ds) -> to_means D D' ->
  to_means (fold_left (learn Q b lim vis) ds D) (fold_left (learn Q b lim vis) (map (rename_def f g) ds) D').
Proof.
  induction ds as [|d ds IH]; intros S1 D D' K L; [exact L|]. cbn [forallb] in S1. apply andb_true_iff in S1. destruct S1 as [S0 S1]. cbn [map fold_left] in *.
  destruct d as [m n bn ps w kids|m h x tl]; cbn [learn rename_def] in *; inversion K; subst; apply (IH S1); try assumption.
  intros y z. cbn [find_meaning]. destruct (str_eqb y n) eqn:E.
  - apply str_eqb_eq in E. subst y. intros [= <-]. rewrite str_eqb_refl. eexists. split; [reflexivity|]. exact (mean_to D D' vis (Def m n bn ps w kids) L S0).
  - intros Ez. destruct (L _ _ Ez) as (v & Ev & Kv). exists v. split; [|exact Kv]. destruct (str_eqb (f y) (f n)) eqn:E1; [|exact Ev].
    apply str_eqb_eq in E1. apply find_In in Ev. rewrite E1 in Ev. contradiction.
Qed.
Lemma rename_gaps ds : gaps (map (rename_def f g) ds) = gaps ds.
Proof. unfold gaps. rewrite map_map. apply map_ext. intros []; reflexivity. Qed.
Lemma rename_defined ds : defined (map (rename_def f g) ds) = map f (defined ds).
Proof. unfold defined. induction ds as [|d ds IH]; [reflexivity|]. cbn [map flat_map]. rewrite IH, map_app. destruct d; reflexivity. Qed.
End Rename.
