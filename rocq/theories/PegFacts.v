(** Facts about matching of parsing expression grammars: the tree covers the matched text, and matching
    ends for every grammar without left recursion. *)
From Coq Require Import List NArith Bool Arith Lia.
From Verif Require Import PyStr Peg.
Import ListNotations.

(** ** Regular expressions *)

(** Can the expression match the empty text? (an upper estimate) *)
Fixpoint rx_nul (x : rx) : bool :=
  match x with
  | RxEps | RxStar _ | RxEdge _ => true
  | RxChr _ => false
  | RxSeq a b => rx_nul a && rx_nul b
  | RxAlt a b => rx_nul a || rx_nul b
  end.

Lemma span_le p s : span p s <= length s.
Proof. induction s as [|c r IH]; cbn; [lia|]. destruct (p c); lia. Qed.

Lemma down_le n k : In k (down n) -> k <= n.
Proof.
  induction n as [|n IH]; cbn; intros [H|H]; try lia; try contradiction.
  specialize (IH H); lia.
Qed.

Lemma rx_all_le x : forall s n, In n (rx_all x s) -> n <= length s.
Proof.
  induction x as [|p|p|a IHa b IHb|a IHa b IHb|w]; intros s n H; cbn in H.
  - destruct H as [<-|[]]; lia.
  - destruct s as [|c r]; [contradiction|]. destruct (p c); [|contradiction].
    destruct H as [<-|[]]; cbn; lia.
  - apply down_le in H. pose proof (span_le p s); lia.
  - apply in_flat_map in H as (i & Hi & H). apply in_map_iff in H as (j & <- & Hj).
    apply IHa in Hi. apply IHb in Hj. rewrite skipn_length in Hj. lia.
  - apply in_app_iff in H as [H|H]; eauto.
  - destruct s as [|c r]; [|destruct (w c)]; cbn in H; try contradiction; destruct H as [<-|[]]; lia.
Qed.

Lemma rx_all_pos x : forall s n, rx_nul x = false -> In n (rx_all x s) -> 0 < n.
Proof.
  induction x as [|p|p|a IHa b IHb|a IHa b IHb|w]; intros s n E H; cbn in E, H; try discriminate.
  - destruct s as [|c r]; [contradiction|]. destruct (p c); [|contradiction].
    destruct H as [<-|[]]; lia.
  - apply in_flat_map in H as (i & Hi & H). apply in_map_iff in H as (j & <- & Hj).
    apply andb_false_iff in E as [E|E]; [apply IHa in Hi|apply IHb in Hj]; auto; lia.
  - apply orb_false_iff in E as [Ea Eb]. apply in_app_iff in H as [H|H]; eauto.
Qed.

Lemma rx_match_in x s n : rx_match x s = Some n -> In n (rx_all x s).
Proof. unfold rx_match. destruct (rx_all x s); intros [= ->]; left; reflexivity. Qed.

(** ** Texts *)

Lemma startswith_app l s : startswith l s = true -> s = l ++ skipn (length l) s.
Proof.
  revert s; induction l as [|c l IH]; intros s H; [reflexivity|].
  destruct s as [|d s]; [discriminate|]. cbn in H. apply andb_true_iff in H as [E H].
  apply N.eqb_eq in E as ->. cbn. f_equal. auto.
Qed.

Lemma upto_app x rest : upto (x ++ rest) rest = x.
Proof.
  unfold upto. rewrite app_length. replace (length x + length rest - length rest) with (length x) by lia.
  rewrite firstn_app, Nat.sub_diag, firstn_all, firstn_O, app_nil_r. reflexivity.
Qed.

Section Facts.
Context {rule : Type}.
Variable G : rule -> peg rule.

(** ** Induction over expressions and trees *)

Section Ind.
Variable P : peg rule -> Prop.
Hypotheses (Hlit : forall l, P (PLit l)) (Hrx : forall x, P (PRx x)) (Href : forall r, P (PRef r))
  (Hseq : forall l, Forall P l -> P (PSeq l)) (Halt : forall l, Forall P l -> P (PAlt l))
  (Hnot : forall e, P e -> P (PNot e)) (Hopt : forall e, P e -> P (POpt e))
  (Hstar : forall e, P e -> P (PStar e)) (Hplus : forall e, P e -> P (PPlus e)).
Fixpoint peg_rect' (e : peg rule) : P e :=
  let fix all (l : list (peg rule)) : Forall P l :=
    match l with [] => Forall_nil _ | a :: r => Forall_cons _ (peg_rect' a) (all r) end in
  match e with
  | PLit l => Hlit l | PRx x => Hrx x | PRef r => Href r
  | PSeq l => Hseq l (all l) | PAlt l => Halt l (all l)
  | PNot e => Hnot e (peg_rect' e) | POpt e => Hopt e (peg_rect' e)
  | PStar e => Hstar e (peg_rect' e) | PPlus e => Hplus e (peg_rect' e)
  end.
End Ind.

Section TreeInd.
Variable P : tree rule -> Prop.
Hypothesis H : forall n p x l, Forall P l -> P (Tree n p x l).
Fixpoint tree_ind' (t : tree rule) : P t :=
  match t with
  | Tree n p x l =>
      H n p x l ((fix all (l : list (tree rule)) : Forall P l :=
        match l with [] => Forall_nil _ | a :: r => Forall_cons _ (tree_ind' a) (all r) end) l)
  end.
End TreeInd.

(** ** Coverage *)

Definition texts (ts : list (tree rule)) : str := concat (map t_text ts).

Inductive tiled : nat -> tree rule -> Prop :=
| tiled_leaf n p x : tiled p (Tree n p x [])
| tiled_node n p ts : tiled_list p ts -> tiled p (Tree n p (texts ts) ts)
with tiled_list : nat -> list (tree rule) -> Prop :=
| tiled_nil p : tiled_list p []
| tiled_cons p t ts :
    tiled p t -> tiled_list (p + length (t_text t)) ts -> tiled_list p (t :: ts).

Definition good (pos : nat) (s : str) (o : pout (tree rule)) : Prop :=
  match o with
  | POk t rest => s = t_text t ++ rest /\ tiled pos t
  | _ => True
  end.

Definition good_list (pos : nat) (s : str) (o : pout (list (tree rule))) : Prop :=
  match o with
  | POk ts rest => s = texts ts ++ rest /\ tiled_list pos ts
  | _ => True
  end.

Section Step.
Variable M : peg rule -> nat -> str -> pout (tree rule).
Hypothesis HM : forall e pos s, good pos s (M e pos s).

Lemma seq_good l : forall pos s, good_list pos s (seq_match M l pos s).
Proof.
  induction l as [|e r IH]; intros pos s; cbn [seq_match].
  - split; [reflexivity|constructor].
  - pose proof (HM e pos s) as H. destruct (M e pos s) as [| |t s1]; cbn; auto.
    destruct H as [-> Ht]. specialize (IH (pos + length (t_text t)) s1).
    destruct (seq_match M r (pos + length (t_text t)) s1) as [| |ts s2]; cbn; auto.
    destruct IH as [-> Hts]. split; [|constructor; assumption].
    unfold texts; cbn. rewrite app_assoc. reflexivity.
Qed.

Lemma alt_good l : forall pos s, good pos s (alt_match M l pos s).
Proof.
  induction l as [|e r IH]; intros pos s; cbn [alt_match]; [exact Logic.I|].
  pose proof (HM e pos s) as H. destruct (M e pos s) as [| |t s1]; auto.
Qed.

Lemma loop_good keep n : forall e pos s, good_list pos s (loop_match M keep n e pos s).
Proof.
  induction n as [|n IH]; intros e pos s; cbn [loop_match]; [exact Logic.I|].
  pose proof (HM e pos s) as H. destruct (M e pos s) as [| |t s1]; [exact Logic.I| |].
  - split; [reflexivity|constructor].
  - destruct H as [E Ht].
    destruct (t_text t) as [|c x] eqn:Ex.
    + destruct keep; [|split; [reflexivity|constructor]].
      split; [unfold texts; cbn; rewrite Ex; reflexivity|repeat constructor; assumption].
    + rewrite <- Ex in *. specialize (IH e (pos + length (t_text t)) s1).
      destruct (loop_match M keep n e (pos + length (t_text t)) s1) as [| |ts s2]; cbn; auto.
      destruct IH as [-> Hts]. split; [|constructor; assumption].
      rewrite E. unfold texts; cbn. rewrite app_assoc. reflexivity.
Qed.
End Step.

Lemma wrap_good pos s o : good_list pos s o -> good pos s (wrap pos s o).
Proof.
  destruct o as [| |ts rest]; cbn; auto. intros [-> H]. rewrite upto_app. split; [reflexivity|].
  constructor; assumption.
Qed.

Lemma one_tiled pos t : tiled pos t -> tiled pos (Tree None pos (t_text t) [t]).
Proof.
  intros H. replace (t_text t) with (texts [t]) by (unfold texts; cbn; apply app_nil_r).
  constructor. repeat constructor; assumption.
Qed.

(** Whatever is matched, the node holds exactly the text taken off the input, and so do its
    descendants. *)
Lemma match_good fuel : forall e pos s, good pos s (peg_match G fuel e pos s).
Proof.
  induction fuel as [|k IH]; intros e pos s; cbn [peg_match]; [exact Logic.I|].
  destruct e as [l|x|r|l|l|e1|e1|e1|e1].
  - destruct (startswith l s) eqn:E; [|exact Logic.I].
    split; [apply startswith_app; exact E|constructor].
  - destruct (rx_match x s) as [n|] eqn:E; [|exact Logic.I].
    split; [cbn; symmetry; apply firstn_skipn|constructor].
  - pose proof (IH (G r) pos s) as H. destruct (peg_match G k (G r) pos s) as [| |[n p x l] rest]; auto.
    destruct H as [-> H]. split; [reflexivity|]. inversion H; subst; constructor; assumption.
  - apply wrap_good, seq_good, IH.
  - pose proof (alt_good _ IH l pos s) as H.
    destruct (alt_match (peg_match G k) l pos s) as [| |t rest]; auto.
    destruct H as [E H]. split; [exact E|apply one_tiled; exact H].
  - destruct (peg_match G k e1 pos s); try exact Logic.I. split; [reflexivity|constructor].
  - pose proof (IH e1 pos s) as H. destruct (peg_match G k e1 pos s) as [| |t rest]; [exact Logic.I| |].
    + split; [reflexivity|constructor].
    + destruct H as [E H]. split; [exact E|apply one_tiled; exact H].
  - apply wrap_good, loop_good, IH.
  - pose proof (loop_good _ IH true (S (length s)) e1 pos s) as H.
    destruct (loop_match (peg_match G k) true (S (length s)) e1 pos s) as [| |[|t ts] rest];
      try exact Logic.I.
    apply wrap_good. exact H.
Qed.

(** ** Termination *)

(** Tables supplied for a grammar: rules that may match the empty text, and a rank of every rule that
    goes down along references at which nothing has been consumed yet. *)
Variables (nul : rule -> bool) (rank : rule -> nat) (top : nat).

Fixpoint nullable (e : peg rule) : bool :=
  match e with
  | PLit l => match l with [] => true | _ => false end
  | PRx x => rx_nul x
  | PRef r => nul r
  | PSeq l => forallb nullable l
  | PAlt l => existsb nullable l
  | PNot _ | POpt _ | PStar _ => true
  | PPlus e => nullable e
  end.

Fixpoint level (e : peg rule) : nat :=
  match e with
  | PLit _ | PRx _ => 0
  | PRef r => S (rank r)
  | PSeq l =>
      S ((fix go l := match l with
                      | [] => 0
                      | e :: r => Nat.max (level e) (if nullable e then go r else 0)
                      end) l)
  | PAlt l => S ((fix go l := match l with [] => 0 | e :: r => Nat.max (level e) (go r) end) l)
  | PNot e | POpt e | PStar e | PPlus e => S (level e)
  end.

Fixpoint level_seq (l : list (peg rule)) : nat :=
  match l with
  | [] => 0
  | e :: r => Nat.max (level e) (if nullable e then level_seq r else 0)
  end.

Fixpoint level_alt (l : list (peg rule)) : nat :=
  match l with [] => 0 | e :: r => Nat.max (level e) (level_alt r) end.

(** All subexpressions are of a level at most [top]. *)
Fixpoint bounded (e : peg rule) : bool :=
  (level e <=? top) &&
  match e with
  | PLit _ | PRx _ | PRef _ => true
  | PSeq l | PAlt l => forallb bounded l
  | PNot e | POpt e | PStar e | PPlus e => bounded e
  end.

Hypothesis Hnul : forall r, nullable (G r) = true -> nul r = true.
Hypothesis Hrank : forall r, level (G r) <= rank r.
Hypothesis Hbound : forall r, bounded (G r) = true.

Definition consumes (e : peg rule) (o : pout (tree rule)) : Prop :=
  match o with
  | POk t _ => nullable e = false -> t_text t <> []
  | _ => True
  end.

Section Step2.
Variable M : peg rule -> nat -> str -> pout (tree rule).
Hypothesis HM : forall e pos s, consumes e (M e pos s).

Lemma seq_consumes l : forall pos s ts rest,
  seq_match M l pos s = POk ts rest -> forallb nullable l = false -> texts ts <> [].
Proof.
  induction l as [|e r IH]; intros pos s ts rest H E; [discriminate E|].
  cbn [seq_match] in H. pose proof (HM e pos s) as C. destruct (M e pos s) as [| |t s1]; try discriminate.
  destruct (seq_match M r (pos + length (t_text t)) s1) as [| |ts' s2] eqn:E2; try discriminate.
  injection H as <- <-. cbn in E. unfold texts; cbn. fold (texts ts').
  destruct (nullable e) eqn:En; cbn in E.
  - pose proof (IH _ _ _ _ E2 E) as D. destruct (t_text t); [exact D|discriminate].
  - specialize (C En). destruct (t_text t); [contradiction|discriminate].
Qed.

Lemma alt_consumes l : forall pos s t rest,
  alt_match M l pos s = POk t rest -> existsb nullable l = false -> t_text t <> [].
Proof.
  induction l as [|e r IH]; intros pos s t rest H E; [discriminate H|].
  cbn in H, E. apply orb_false_iff in E as [E1 E2].
  pose proof (HM e pos s) as C. destruct (M e pos s) as [| |t' s1]; try discriminate; eauto.
  injection H as <- <-. exact (C E1).
Qed.

Lemma loop_consumes keep n : forall e pos s t ts rest,
  loop_match M keep n e pos s = POk (t :: ts) rest -> nullable e = false -> texts (t :: ts) <> [].
Proof.
  destruct n as [|n]; intros e pos s t ts rest H E; [discriminate H|].
  cbn [loop_match] in H. pose proof (HM e pos s) as C. destruct (M e pos s) as [| |t' s1]; try discriminate.
  specialize (C E). destruct (t_text t') as [|c x] eqn:Ex; [contradiction|].
  destruct (loop_match M keep n e (pos + length (c :: x)) s1) as [| |ts' s2]; try discriminate.
  injection H as <- <- <-. unfold texts; cbn. rewrite Ex. discriminate.
Qed.
End Step2.

Lemma match_consumes fuel : forall e pos s, consumes e (peg_match G fuel e pos s).
Proof.
  induction fuel as [|k IH]; intros e pos s; cbn [peg_match]; [exact Logic.I|].
  destruct e as [l|x|r|l|l|e1|e1|e1|e1].
  - destruct (startswith l s) eqn:E; [|exact Logic.I]. cbn. destruct l; [discriminate|intros _; discriminate].
  - destruct (rx_match x s) as [n|] eqn:E; [|exact Logic.I]. cbn. intros En.
    apply rx_match_in in E. pose proof (rx_all_pos _ _ _ En E). apply rx_all_le in E.
    destruct n, s; cbn in *; try lia; discriminate.
  - pose proof (IH (G r) pos s) as H. destruct (peg_match G k (G r) pos s) as [| |[n p x l] rest]; auto.
    cbn in *. intros En. apply H. destruct (nullable (G r)) eqn:E; [|reflexivity].
    rewrite (Hnul r E) in En; discriminate.
  - unfold wrap. destruct (seq_match (peg_match G k) l pos s) as [| |ts rest] eqn:E; cbn; auto.
    intros En. pose proof (seq_consumes _ IH _ _ _ _ _ E En) as D.
    pose proof (seq_good _ (match_good k) l pos s) as Hg. rewrite E in Hg. destruct Hg as [-> _].
    rewrite upto_app. exact D.
  - destruct (alt_match (peg_match G k) l pos s) as [| |t rest] eqn:E; cbn; auto.
    intros En. exact (alt_consumes _ IH _ _ _ _ _ E En).
  - destruct (peg_match G k e1 pos s); cbn; auto; discriminate.
  - destruct (peg_match G k e1 pos s) as [| |t rest]; cbn; auto; discriminate.
  - unfold wrap. destruct (loop_match (peg_match G k) false (S (length s)) e1 pos s); cbn; auto; discriminate.
  - pose proof (loop_good _ (match_good k) true (S (length s)) e1 pos s) as Hg.
    destruct (loop_match (peg_match G k) true (S (length s)) e1 pos s) as [| |[|t ts] rest] eqn:E;
      try exact Logic.I.
    destruct Hg as [-> _]. unfold wrap, consumes, t_text. intros En. rewrite upto_app.
    exact (loop_consumes _ IH _ _ _ _ _ _ _ _ E En).
Qed.

(** Steps that suffice for matching [e] in front of [n] characters. *)
Definition steps (e : peg rule) (n : nat) : nat := n * S top + S (level e).

Lemma level_PSeq l : level (PSeq l) = S (level_seq l).
Proof. reflexivity. Qed.
Lemma level_PAlt l : level (PAlt l) = S (level_alt l).
Proof. reflexivity. Qed.

Lemma bounded_level e : bounded e = true -> level e <= top.
Proof. destruct e; cbn [bounded]; intros H; apply andb_true_iff in H as [H _]; apply Nat.leb_le in H; exact H. Qed.

Section Step3.
Variable k : nat.
Let M := peg_match G k.
Hypothesis IH : forall e pos s, bounded e = true -> steps e (length s) <= k -> M e pos s <> PFuel.

Lemma shorter n m : n < m -> n * S top + S top <= m * S top.
Proof. intros H. replace (n * S top + S top) with (S n * S top) by lia. apply Nat.mul_le_mono_r. lia. Qed.

Lemma later e n s : bounded e = true -> length s < n -> n * S top <= k -> forall pos, M e pos s <> PFuel.
Proof.
  intros B Hl Hk pos. apply IH; [exact B|]. unfold steps.
  pose proof (bounded_level e B). pose proof (shorter _ _ Hl). lia.
Qed.

Lemma seq_later l : forall pos s n, forallb bounded l = true -> length s < n -> n * S top <= k ->
  seq_match M l pos s <> PFuel.
Proof.
  induction l as [|e r IHl]; intros pos s n B Hl Hk; cbn [seq_match]; [discriminate|].
  cbn in B. apply andb_true_iff in B as [Be Br].
  pose proof (later e n s Be Hl Hk pos) as D. pose proof (match_good k e pos s) as Hg. fold M in Hg.
  destruct (M e pos s) as [| |t s1]; [congruence|discriminate|].
  destruct Hg as [-> _]. rewrite app_length in Hl.
  assert (D2 : seq_match M r (pos + length (t_text t)) s1 <> PFuel) by (apply (IHl _ _ n); auto; lia).
  destruct (seq_match M r (pos + length (t_text t)) s1); congruence.
Qed.

Lemma seq_total l : forall pos s, forallb bounded l = true ->
  length s * S top + S (level_seq l) <= k -> seq_match M l pos s <> PFuel.
Proof.
  induction l as [|e r IHl]; intros pos s B Hk; cbn [seq_match]; [discriminate|].
  cbn [forallb] in B. apply andb_true_iff in B as [Be Br]. cbn [level_seq] in Hk.
  assert (D : M e pos s <> PFuel) by (apply IH; [exact Be|unfold steps; lia]).
  pose proof (match_good k e pos s) as Hg. pose proof (match_consumes k e pos s) as Hc. fold M in Hg, Hc.
  destruct (M e pos s) as [| |t s1]; [congruence|discriminate|].
  destruct Hg as [-> _].
  assert (D2 : seq_match M r (pos + length (t_text t)) s1 <> PFuel).
  { destruct (nullable e) eqn:En.
    - destruct (t_text t) as [|c x] eqn:Ex.
      + apply IHl; [exact Br|]. cbn [app] in Hk. lia.
      + rewrite app_length in Hk. cbn [length] in Hk. apply (seq_later _ _ _ (S (length x) + length s1)); auto; lia.
    - specialize (Hc En). destruct (t_text t) as [|c x] eqn:Ex; [contradiction|].
      rewrite app_length in Hk. cbn [length] in Hk. apply (seq_later _ _ _ (S (length x) + length s1)); auto; lia. }
  destruct (seq_match M r (pos + length (t_text t)) s1); congruence.
Qed.

Lemma alt_total l : forall pos s, forallb bounded l = true ->
  length s * S top + S (level_alt l) <= k -> alt_match M l pos s <> PFuel.
Proof.
  induction l as [|e r IHl]; intros pos s B Hk; cbn [alt_match]; [discriminate|].
  cbn [forallb] in B. apply andb_true_iff in B as [Be Br]. cbn [level_alt] in Hk.
  assert (D : M e pos s <> PFuel) by (apply IH; [exact Be|unfold steps; lia]).
  destruct (M e pos s); [congruence| |discriminate]. apply IHl; [exact Br|lia].
Qed.

Lemma loop_total keep n : forall e pos s, bounded e = true -> length s < n ->
  steps e (length s) <= k -> loop_match M keep n e pos s <> PFuel.
Proof.
  induction n as [|n IHn]; intros e pos s B Hl Hk; [lia|]. cbn [loop_match].
  pose proof (IH e pos s B Hk) as D. pose proof (match_good k e pos s) as Hg. fold M in Hg.
  destruct (M e pos s) as [| |t s1]; [congruence|discriminate|].
  destruct Hg as [-> _]. destruct (t_text t) as [|c x] eqn:Ex; [discriminate|].
  rewrite app_length in Hl, Hk. cbn [length] in Hl, Hk.
  assert (D2 : loop_match M keep n e (pos + length (c :: x)) s1 <> PFuel).
  { apply IHn; [exact B|lia|]. unfold steps in *.
    enough (length s1 * S top <= (S (length x) + length s1) * S top) by lia.
    apply Nat.mul_le_mono_r. lia. }
  destruct (loop_match M keep n e (pos + length (c :: x)) s1); congruence.
Qed.
End Step3.

(** With enough steps the match ends. *)
Theorem match_total : forall fuel e pos s,
  bounded e = true -> steps e (length s) <= fuel -> peg_match G fuel e pos s <> PFuel.
Proof.
  induction fuel as [|k IH]; intros e pos s B Hk; [unfold steps in Hk; lia|].
  destruct e as [l|x|r|l|l|e1|e1|e1|e1]; cbn [peg_match].
  - destruct (startswith l s); discriminate.
  - destruct (rx_match x s); discriminate.
  - assert (D : peg_match G k (G r) pos s <> PFuel).
    { apply IH; [apply Hbound|]. unfold steps in *. cbn [level] in Hk. pose proof (Hrank r). lia. }
    destruct (peg_match G k (G r) pos s) as [| |[? ? ? ?] ?]; cbn; congruence.
  - unfold steps in Hk. rewrite level_PSeq in Hk. cbn [bounded] in B. apply andb_true_iff in B as [_ B].
    assert (D : seq_match (peg_match G k) l pos s <> PFuel) by (apply seq_total; auto; lia).
    destruct (seq_match (peg_match G k) l pos s); cbn; congruence.
  - unfold steps in Hk. rewrite level_PAlt in Hk. cbn [bounded] in B. apply andb_true_iff in B as [_ B].
    assert (D : alt_match (peg_match G k) l pos s <> PFuel) by (apply alt_total; auto; lia).
    destruct (alt_match (peg_match G k) l pos s); cbn; congruence.
  - cbn [bounded] in B. apply andb_true_iff in B as [_ B].
    assert (D : peg_match G k e1 pos s <> PFuel) by (apply IH; auto; unfold steps in *; cbn [level] in Hk; lia).
    destruct (peg_match G k e1 pos s); congruence.
  - cbn [bounded] in B. apply andb_true_iff in B as [_ B].
    assert (D : peg_match G k e1 pos s <> PFuel) by (apply IH; auto; unfold steps in *; cbn [level] in Hk; lia).
    destruct (peg_match G k e1 pos s); congruence.
  - cbn [bounded] in B. apply andb_true_iff in B as [_ B].
    assert (D : loop_match (peg_match G k) false (S (length s)) e1 pos s <> PFuel)
      by (apply loop_total; auto; unfold steps in *; cbn [level] in Hk; lia).
    destruct (loop_match (peg_match G k) false (S (length s)) e1 pos s); cbn; congruence.
  - cbn [bounded] in B. apply andb_true_iff in B as [_ B].
    assert (D : loop_match (peg_match G k) true (S (length s)) e1 pos s <> PFuel)
      by (apply loop_total; auto; unfold steps in *; cbn [level] in Hk; lia).
    destruct (loop_match (peg_match G k) true (S (length s)) e1 pos s) as [| |[|] ]; cbn; congruence.
Qed.

(** More steps do not change a result. *)
Section More.
Variables M M' : peg rule -> nat -> str -> pout (tree rule).
Hypothesis HM : forall e pos s, M e pos s <> PFuel -> M' e pos s = M e pos s.

Lemma seq_more l : forall pos s, seq_match M l pos s <> PFuel -> seq_match M' l pos s = seq_match M l pos s.
Proof.
  induction l as [|e r IH]; intros pos s; cbn [seq_match]; [reflexivity|].
  intros H. destruct (M e pos s) as [| |t s1] eqn:E; [congruence| |];
    rewrite (HM e pos s) by congruence; rewrite E; [reflexivity|].
  destruct (seq_match M r (pos + length (t_text t)) s1) as [| |ts s2] eqn:E2; [congruence| |];
    rewrite IH by congruence; rewrite E2; reflexivity.
Qed.

Lemma alt_more l : forall pos s, alt_match M l pos s <> PFuel -> alt_match M' l pos s = alt_match M l pos s.
Proof.
  induction l as [|e r IH]; intros pos s; cbn [alt_match]; [reflexivity|].
  intros H. destruct (M e pos s) as [| |t s1] eqn:E; [congruence| |];
    rewrite (HM e pos s) by congruence; rewrite E; [apply IH; exact H|reflexivity].
Qed.

Lemma loop_more keep n : forall m e pos s, loop_match M keep n e pos s <> PFuel -> n <= m ->
  loop_match M' keep m e pos s = loop_match M keep n e pos s.
Proof.
  induction n as [|n IH]; intros m e pos s; cbn [loop_match]; [congruence|].
  intros H Hm. destruct m as [|m]; [lia|]. cbn [loop_match].
  destruct (M e pos s) as [| |t s1] eqn:E; [congruence| |];
    rewrite (HM e pos s) by congruence; rewrite E; [reflexivity|].
  destruct (t_text t) as [|c x] eqn:Ex; [reflexivity|].
  destruct (loop_match M keep n e (pos + length (c :: x)) s1) as [| |ts s2] eqn:E2; [congruence| |];
    rewrite (IH m) by (congruence || lia); rewrite E2; reflexivity.
Qed.
End More.

Lemma match_more : forall fuel more e pos s,
  peg_match G fuel e pos s <> PFuel -> fuel <= more -> peg_match G more e pos s = peg_match G fuel e pos s.
Proof.
  induction fuel as [|k IH]; intros more e pos s H Hle; [cbn in H; congruence|].
  destruct more as [|k']; [lia|]. apply le_S_n in Hle.
  assert (HM : forall e pos s, peg_match G k e pos s <> PFuel -> peg_match G k' e pos s = peg_match G k e pos s)
    by (intros; apply IH; assumption).
  destruct e as [l|x|r|l|l|e1|e1|e1|e1]; cbn [peg_match] in *; try reflexivity.
  - rewrite HM; [reflexivity|]. intros E; rewrite E in H; cbn in H; congruence.
  - rewrite (seq_more _ _ HM); [reflexivity|]. intros E; rewrite E in H; cbn in H; congruence.
  - rewrite (alt_more _ _ HM); [reflexivity|]. intros E; rewrite E in H; cbn in H; congruence.
  - rewrite HM; [reflexivity|]. intros E; rewrite E in H; cbn in H; congruence.
  - rewrite HM; [reflexivity|]. intros E; rewrite E in H; cbn in H; congruence.
  - rewrite (loop_more _ _ HM false (S (length s)) (S (length s))); [reflexivity| |lia].
    intros E; rewrite E in H; cbn in H; congruence.
  - rewrite (loop_more _ _ HM true (S (length s)) (S (length s))); [reflexivity| |lia].
    intros E; rewrite E in H; cbn in H; congruence.
Qed.

End Facts.
