(** Rules for following a parse without counting steps: what an expression of the grammar makes of a text,
    from the matching of the text to the nodes after setup. *)
From Coq Require Import List NArith Bool Arith Lia.
From Verif Require Import PyStr PyStrFacts PreprocessSpec PreprocessFacts Preprocess Ast Peg PegFacts PegSpec PegSemFacts
  Grammar Syntax GrammarFacts ParseTools.
Import ListNotations.

(** ** Completeness of the matcher for the semantics *)

Section Complete.
Context {rule : Type}.
Variable G : rule -> peg rule.
Notation PM := (peg_match G).

Lemma pm_ok_more k k' e p s t r : PM k e p s = POk t r -> k <= k' -> PM k' e p s = POk t r.
Proof. intros H L. rewrite (match_more G k); [exact H|rewrite H; discriminate|exact L]. Qed.
Lemma pm_no_more k k' e p s : PM k e p s = PFail -> k <= k' -> PM k' e p s = PFail.
Proof. intros H L. rewrite (match_more G k); [exact H|rewrite H; discriminate|exact L]. Qed.

Lemma seq_more' k k' l p s : seq_match (PM k) l p s <> PFuel -> k <= k' -> seq_match (PM k') l p s = seq_match (PM k) l p s.
Proof. intros H L. apply seq_more; [|exact H]. intros e q z Hz. apply match_more; assumption. Qed.
Lemma alt_more' k k' l p s : alt_match (PM k) l p s <> PFuel -> k <= k' -> alt_match (PM k') l p s = alt_match (PM k) l p s.
Proof. intros H L. apply alt_more; [|exact H]. intros e q z Hz. apply match_more; assumption. Qed.
Lemma loop_more' keep n m k k' e p s : loop_match (PM k) keep n e p s <> PFuel -> k <= k' -> n <= m ->
  loop_match (PM k') keep m e p s = loop_match (PM k) keep n e p s.
Proof. intros H L Hn. apply loop_more; [|exact H|exact Hn]. intros f q z Hz. apply match_more; assumption. Qed.

Lemma pm_split k e p s t r : PM k e p s = POk t r -> s = t_text t ++ r.
Proof. intros H. pose proof (match_good G k e p s) as Hg. rewrite H in Hg. exact (proj1 Hg). Qed.

Definition agrees (o : option str) (x : pout (tree rule)) : Prop :=
  match o with
  | None => x = PFail
  | Some r => exists t, x = POk t r
  end.

Lemma same_tail (x r : str) : x ++ r = r -> x = [].
Proof.
  intros H. apply (f_equal (@length _)) in H. rewrite app_length in H. destruct x; [reflexivity|cbn in H; lia].
Qed.

(** The statement for repetitions is about the loop. *)
Definition agrees_e (e : peg rule) (s : str) (o : option str) : Prop :=
  match e with
  | PStar e1 => exists k, forall p n, length s < n ->
      exists r ts, o = Some r /\ loop_match (PM k) false n e1 p s = POk ts r
  | _ => True
  end.

Lemma sem_complete e s o : sem G e s o -> exists k, forall p, agrees o (PM k e p s).
Proof.
  intros H. enough ((exists k, forall p, agrees o (PM k e p s)) /\ agrees_e e s o) by tauto.
  induction H; cbn [agrees_e agrees] in *.
  - split; [exists 1; intros p; exists (Tree None p l [])|exact Logic.I].
    cbn [peg_match]. rewrite PyStrFacts.startswith_app. rewrite skipn_app, skipn_all, Nat.sub_diag. reflexivity.
  - split; [exists 1; intros p|exact Logic.I]. cbn [peg_match]. destruct (startswith l s) eqn:E; [|reflexivity].
    exfalso. apply (H (skipn (length l) s)). apply startswith_skipn. exact E.
  - split; [exists 1; intros p; eexists|exact Logic.I]. cbn [peg_match]. rewrite H. reflexivity.
  - split; [exists 1; intros p|exact Logic.I]. cbn [peg_match]. rewrite H. reflexivity.
  - destruct IHsem as [[k IH] _]. split; [exists (S k); intros p|exact Logic.I]. specialize (IH p). cbn [peg_match].
    destruct o as [r0|]; cbn in *; [destruct IH as [[n q x l] ->]; eexists; reflexivity|rewrite IH; reflexivity].
  - split; [exists 1; intros p; eexists; reflexivity|exact Logic.I].
  - destruct IHsem1 as [[k1 IH1] _]. destruct IHsem2 as [[k2 IH2] _]. split; [|exact Logic.I].
    exists (S (Nat.max k1 k2)). intros p. destruct (IH1 p) as [t Ht].
    specialize (IH2 (p + length (t_text t))).
    destruct k2 as [|k2]; [destruct o; [destruct IH2 as [? IH2]|]; discriminate IH2|].
    assert (E : PM (Nat.max k1 (S k2)) e p s = POk t r) by (eapply pm_ok_more; [exact Ht|lia]).
    cbn [peg_match]. cbn [seq_match]. rewrite E. cbn [peg_match] in IH2.
    assert (E2 : seq_match (PM (Nat.max k1 (S k2))) l (p + length (t_text t)) r = seq_match (PM k2) l (p + length (t_text t)) r).
    { apply seq_more'; [|lia]. intros F. rewrite F in IH2. destruct o; [destruct IH2 as [? IH2]|]; discriminate IH2. }
    rewrite E2. destruct (seq_match (PM k2) l _ r) as [| |ts r2]; destruct o as [o|]; cbn in *;
      first [discriminate IH2 | reflexivity | destruct IH2 as [? IH2]; first [discriminate IH2 | injection IH2 as _ ->; eexists; reflexivity]].
  - destruct IHsem as [[k IH] _]. split; [exists (S k); intros p|exact Logic.I]. specialize (IH p).
    cbn [peg_match seq_match]. rewrite IH. reflexivity.
  - split; [exists 1; intros p; reflexivity|exact Logic.I].
  - destruct IHsem as [[k IH] _]. split; [exists (S k); intros p|exact Logic.I]. destruct (IH p) as [t Ht].
    cbn [peg_match alt_match]. rewrite Ht. eexists; reflexivity.
  - destruct IHsem1 as [[k1 IH1] _]. destruct IHsem2 as [[k2 IH2] _]. split; [|exact Logic.I].
    exists (S (Nat.max k1 k2)). intros p. specialize (IH1 p). specialize (IH2 p).
    assert (E : PM (Nat.max k1 k2) e p s = PFail) by (eapply pm_no_more; [exact IH1|lia]).
    cbn [peg_match alt_match]. rewrite E. destruct k2 as [|k2]; [destruct o; [destruct IH2 as [? IH2]|]; discriminate IH2|].
    cbn [peg_match] in IH2.
    assert (E2 : alt_match (PM (Nat.max k1 (S k2))) l p s = alt_match (PM k2) l p s).
    { apply alt_more'; [|lia]. intros F. rewrite F in IH2. destruct o; [destruct IH2 as [? IH2]|]; discriminate IH2. }
    rewrite E2. destruct (alt_match (PM k2) l p s) as [| |t r2]; destruct o as [o|]; cbn in *;
      first [discriminate IH2 | reflexivity | destruct IH2 as [? IH2]; first [discriminate IH2 | injection IH2 as _ ->; eexists; reflexivity]].
  - destruct IHsem as [[k IH] _]. split; [exists (S k); intros p|exact Logic.I]. destruct (IH p) as [t Ht].
    cbn [peg_match]. rewrite Ht. reflexivity.
  - destruct IHsem as [[k IH] _]. split; [exists (S k); intros p|exact Logic.I]. specialize (IH p).
    cbn [peg_match]. rewrite IH. eexists; reflexivity.
  - destruct IHsem as [[k IH] _]. split; [exists (S k); intros p|exact Logic.I]. destruct (IH p) as [t Ht].
    cbn [peg_match]. rewrite Ht. eexists; reflexivity.
  - destruct IHsem as [[k IH] _]. split; [exists (S k); intros p|exact Logic.I]. specialize (IH p).
    cbn [peg_match]. rewrite IH. eexists; reflexivity.
  - destruct IHsem as [[k IH] _].
    assert (L : forall p n, length s < n -> exists r ts, Some s = Some r /\ loop_match (PM k) false n e p s = POk ts r).
    { intros p n Hn. destruct n as [|n]; [lia|]. exists s, []. split; [reflexivity|]. cbn [loop_match].
      specialize (IH p). rewrite IH. reflexivity. }
    split; [exists (S k); intros p|exists k; exact L]. destruct (L p (S (length s))) as (r & ts & E & E2); [lia|].
    injection E as <-. cbn [peg_match]. rewrite E2. eexists; reflexivity.
  - destruct IHsem as [[k IH] _].
    assert (L : forall p n, length s < n -> exists r ts, Some s = Some r /\ loop_match (PM k) false n e p s = POk ts r).
    { intros p n Hn. destruct n as [|n]; [lia|]. exists s, []. split; [reflexivity|]. cbn [loop_match].
      destruct (IH p) as [t Ht]. rewrite Ht. apply pm_split in Ht. symmetry in Ht. apply same_tail in Ht. rewrite Ht. reflexivity. }
    split; [exists (S k); intros p|exists k; exact L]. destruct (L p (S (length s))) as (r & ts & E & E2); [lia|].
    injection E as <-. cbn [peg_match]. rewrite E2. eexists; reflexivity.
  - destruct IHsem1 as [[k1 IH1] _]. destruct IHsem2 as [_ [k2 IH2]].
    assert (L : forall p n, length s < n -> exists r0 ts, o = Some r0 /\ loop_match (PM (Nat.max k1 k2)) false n e p s = POk ts r0).
    { intros p n Hn. destruct n as [|n]; [lia|]. destruct (IH1 p) as [t Ht]. pose proof (pm_split _ _ _ _ _ _ Ht) as Hs.
      destruct (t_text t) as [|c x] eqn:Ex; [cbn in Hs; congruence|].
      destruct (IH2 (p + length (c :: x)) n) as (r0 & ts & Eo & El).
      { rewrite Hs in Hn. cbn in Hn. rewrite app_length in Hn. lia. }
      exists r0, (t :: ts). split; [exact Eo|]. cbn [loop_match].
      rewrite (pm_ok_more k1 (Nat.max k1 k2) e p s t r Ht) by lia. rewrite Ex.
      rewrite (loop_more' false n n k2 (Nat.max k1 k2) e (p + length (c :: x)) r) by (rewrite ?El; (discriminate || lia)). rewrite El. reflexivity. }
    split; [exists (S (Nat.max k1 k2)); intros p|exists (Nat.max k1 k2); exact L].
    destruct (L p (S (length s))) as (r0 & ts & -> & E2); [lia|]. cbn [peg_match]. rewrite E2. eexists; reflexivity.
  - destruct IHsem as [[k IH] _]. split; [exists (S k); intros p|exact Logic.I]. specialize (IH p).
    cbn [peg_match loop_match]. rewrite IH. reflexivity.
  - destruct IHsem1 as [[k1 IH1] _]. destruct IHsem2 as [_ [k2 IH2]]. split; [|exact Logic.I].
    exists (S (Nat.max k1 k2)). intros p. destruct (IH1 p) as [t Ht]. pose proof (pm_split _ _ _ _ _ _ Ht) as Hs.
    cbn [peg_match loop_match]. rewrite (pm_ok_more k1 (Nat.max k1 k2) e p s t r Ht) by lia.
    destruct (t_text t) as [|c x] eqn:Ex.
    + cbn in Hs. subst r. destruct (IH2 p (S (length s))) as (r0 & ts & -> & El); [lia|].
      cbn [loop_match] in El.
      destruct k2 as [|k2]; [cbn in El; discriminate El|].
      destruct (PM (S k2) e p s) as [| |t' s'] eqn:Et.
      * discriminate El.
      * exfalso. pose proof (pm_ok_more k1 (Nat.max k1 (S k2)) e p s t s Ht ltac:(lia)).
        pose proof (pm_no_more (S k2) (Nat.max k1 (S k2)) e p s Et ltac:(lia)). congruence.
      * pose proof (pm_ok_more k1 (Nat.max k1 (S k2)) e p s t s Ht ltac:(lia)) as A1.
        pose proof (pm_ok_more (S k2) (Nat.max k1 (S k2)) e p s t' s' Et ltac:(lia)) as A2.
        assert (t' = t) by congruence. subst t'. rewrite Ex in El. injection El as _ <-. eexists; reflexivity.
    + destruct (IH2 (p + length (c :: x)) (length s)) as (r0 & ts & -> & El).
      { rewrite Hs. cbn. rewrite app_length. lia. }
      assert (K2 : exists ts', loop_match (PM (Nat.max k1 k2)) true (length s) e (p + length (c :: x)) r = POk ts' r0).
      { revert El. generalize (length s) (p + length (c :: x)) r ts. intros n. induction n as [|n IHn]; intros q z us E; [discriminate E|].
        cbn [loop_match] in *. destruct (PM k2 e q z) as [| |t1 z1] eqn:Et; [discriminate E| |].
        - rewrite (pm_no_more k2 (Nat.max k1 k2) e q z Et) by lia. exists []. congruence.
        - rewrite (pm_ok_more k2 (Nat.max k1 k2) e q z t1 z1 Et) by lia. destruct (t_text t1) as [|c1 x1] eqn:Ex1.
          + injection E as _ ->. eexists; reflexivity.
          + destruct (loop_match (PM k2) false n e _ z1) as [| |us1 z2] eqn:El1; try discriminate E.
            injection E as _ ->. destruct (IHn _ _ _ El1) as [ts' ->]. eexists; reflexivity. }
      destruct K2 as [ts' ->]. eexists; reflexivity.
Qed.

(** The matcher decides. *)
Lemma fails k e p s : PM k e p s = PFail -> sem G e s None.
Proof. intros H. pose proof (match_sound G k e p s) as K. rewrite H in K. exact K. Qed.
Lemma eats k e p s t r : PM k e p s = POk t r -> sem G e s (Some r).
Proof. intros H. pose proof (match_sound G k e p s) as K. rewrite H in K. exact K. Qed.
End Complete.

(** ** Nodes *)

Section Makes.
Variables (X : lexicon) (y : symbols) (full : str).
Notation U := (lx_unicode X).
Notation G := (grammar U y).
Notation PM := (peg_match G).
Notation sem := (sem G).

(** The loop of [setup_all]. *)
Fixpoint setup_list (l : list node) : result (list kid) :=
  match l with
  | [] => Ok []
  | a :: r => x <- setup_all X full a (next_qual r) ;; xs <- setup_list r ;; Ok (x :: xs)
  end.

Lemma setup_all_eq k start text kids nxt : setup_all X full (Nd k start text kids) nxt =
  (l <- setup_list kids ;;
   match k with
   | None => Ok (None, SStatic text)
   | Some r => s <- setup X full r start text l nxt ;; Ok (k, s)
   end).
Proof.
  reflexivity.
Qed.

Lemma setup_list_length l : forall ks, setup_list l = Ok ks -> length ks = length l.
Proof.
  induction l as [|a l IH]; intros ks H; cbn in H; [injection H as <-; reflexivity|].
  destruct (setup_all X full a (next_qual l)); [|discriminate H]. cbn in H.
  destruct (setup_list l) as [ks'|]; [|discriminate H]. injection H as <-. cbn. rewrite (IH ks' eq_refl). reflexivity.
Qed.

Lemma next_qual_app a b : next_qual b = QNone -> next_qual (a ++ b) = next_qual a.
Proof. destruct a as [|n a]; [intros H; exact H|reflexivity]. Qed.

Lemma setup_list_app a b ka kb : next_qual b = QNone -> setup_list a = Ok ka -> setup_list b = Ok kb ->
  setup_list (a ++ b) = Ok (ka ++ kb).
Proof.
  intros Hq. revert ka. induction a as [|n a IH]; intros ka Ha Hb; cbn [app].
  - cbn in Ha. injection Ha as <-. exact Hb.
  - cbn [setup_list] in *. rewrite next_qual_app by exact Hq. destruct (setup_all X full n (next_qual a)) as [k|]; [|discriminate Ha].
    cbn [bind] in *. destruct (setup_list a) as [ka'|]; [|discriminate Ha]. cbn [bind] in *. rewrite (IH ka' eq_refl Hb). cbn [bind].
    injection Ha as <-. reflexivity.
Qed.

(** [makes e p x r ks]: where [x ++ r] begins at position [p], [e] matches [x], and the nodes made of it are set
    up to [ks]. The first of them is not a qualifier. *)
Definition sets (l : list node) (ks : list kid) : Prop := next_qual l = QNone /\ setup_list l = Ok ks.
Definition makes (e : peg rule) (p : nat) (x r : str) (ks : list kid) : Prop :=
  exists k t, PM k e p (x ++ r) = POk t r /\ sets (rewrite t) ks.
Definition makes_seq (l : list (peg rule)) (p : nat) (x r : str) (ks : list kid) : Prop :=
  exists k ts, seq_match (PM k) l p (x ++ r) = POk ts r /\ sets (flat_map rewrite ts) ks.
Definition makes_loop (e : peg rule) (p : nat) (x r : str) (ks : list kid) : Prop :=
  exists k ts, (forall keep, loop_match (PM k) keep (S (length x)) e p (x ++ r) = POk ts r) /\ (x <> [] -> ts <> []) /\
    sets (flat_map rewrite ts) ks.

Lemma sets_nil : sets [] [].
Proof. split; reflexivity. Qed.
Lemma sets_app a b ka kb : sets a ka -> sets b kb -> sets (a ++ b) (ka ++ kb).
Proof. intros [Ha Sa] [Hb Sb]. split; [rewrite next_qual_app by exact Hb; exact Ha|apply setup_list_app; assumption]. Qed.

Lemma text_of k e p x r t : PM k e p (x ++ r) = POk t r -> t_text t = x.
Proof. intros H. apply pm_split in H. apply app_inv_tail in H. symmetry. exact H. Qed.

Lemma start_of k e p s t r : PM k e p s = POk t r -> t_start t = p.
Proof. intros H. pose proof (match_good G k e p s) as Hg. rewrite H in Hg. destruct Hg as [_ Ht]. inversion Ht; reflexivity. Qed.

(** What is made implies what is matched. *)
Lemma makes_sem e p x r ks : makes e p x r ks -> sem e (x ++ r) (Some r).
Proof. intros (k & t & H & _). exact (eats _ _ _ _ _ _ _ H). Qed.

Lemma makes_lit l p r : makes (PLit l) p l r [].
Proof.
  exists 1, (Tree None p l []). split; [|apply sets_nil].
  cbn [peg_match]. rewrite PyStrFacts.startswith_app, skipn_app, skipn_all, Nat.sub_diag. reflexivity.
Qed.

Lemma makes_rx z p x r : rx_match z (x ++ r) = Some (length x) -> makes (PRx z) p x r [].
Proof.
  intros H. exists 1, (Tree None p x []). split; [|apply sets_nil]. cbn [peg_match]. rewrite H.
  rewrite firstn_app, firstn_all, Nat.sub_diag, skipn_app, skipn_all, Nat.sub_diag. cbn. rewrite app_nil_r. reflexivity.
Qed.

Lemma seq_nil p r : makes_seq [] p [] r [].
Proof. exists 0, []. split; [reflexivity|apply sets_nil]. Qed.

Lemma seq_cons e l p x1 x2 r k1 k2 :
  makes e p x1 (x2 ++ r) k1 -> makes_seq l (p + length x1) x2 r k2 -> makes_seq (e :: l) p (x1 ++ x2) r (k1 ++ k2).
Proof.
  intros (ka & t & Ha & Sa) (kb & ts & Hb & Sb). exists (Nat.max ka kb), (t :: ts). split; [|cbn [flat_map]; apply sets_app; assumption].
  rewrite <- app_assoc. cbn [seq_match].
  rewrite (pm_ok_more G ka (Nat.max ka kb) _ _ _ _ _ Ha) by lia. rewrite (text_of _ _ _ _ _ _ Ha).
  rewrite (seq_more' G kb (Nat.max ka kb)) by (rewrite ?Hb; (discriminate || lia)). rewrite Hb. reflexivity.
Qed.

Lemma makes_seq_i l p x r ks : makes_seq l p x r ks -> makes (PSeq l) p x r ks.
Proof.
  intros (k & ts & H & Hs). exists (S k), (Tree None p (upto (x ++ r) r) ts). split; [|exact Hs].
  cbn [peg_match]. rewrite H. reflexivity.
Qed.

Lemma makes_alt_first e l p x r ks : makes e p x r ks -> makes (PAlt (e :: l)) p x r ks.
Proof.
  intros (k & t & H & Hs). exists (S k), (Tree None p (t_text t) [t]). split; [cbn [peg_match alt_match]; rewrite H; reflexivity|].
  cbn [rewrite flat_map]. rewrite app_nil_r. exact Hs.
Qed.

Lemma makes_alt_next e l p x r ks : sem e (x ++ r) None -> makes (PAlt l) p x r ks -> makes (PAlt (e :: l)) p x r ks.
Proof.
  intros Hn (k & t & H & Hs). apply sem_complete in Hn. destruct Hn as [kn Hn]. specialize (Hn p). cbn in Hn.
  exists (S (Nat.max kn k)), t. split; [|exact Hs]. cbn [peg_match alt_match].
  rewrite (pm_no_more G kn (Nat.max kn k) _ _ _ Hn) by lia.
  destruct k as [|k]; [discriminate H|]. cbn [peg_match] in H.
  rewrite (alt_more' G k (Nat.max kn (S k))) by (try lia; intros F; rewrite F in H; discriminate H). exact H.
Qed.

Lemma makes_opt e p x r ks : makes e p x r ks -> makes (POpt e) p x r ks.
Proof.
  intros (k & t & H & Hs). exists (S k), (Tree None p (t_text t) [t]). split; [cbn [peg_match]; rewrite H; reflexivity|].
  cbn [rewrite flat_map]. rewrite app_nil_r. exact Hs.
Qed.
Lemma makes_opt_no e p r : sem e r None -> makes (POpt e) p [] r [].
Proof.
  intros H. apply sem_complete in H. destruct H as [k H]. specialize (H p). cbn in H.
  exists (S k), (Tree None p [] []). split; [cbn [peg_match app]; rewrite H; reflexivity|apply sets_nil].
Qed.
Lemma makes_not e p r : sem e r None -> makes (PNot e) p [] r [].
Proof.
  intros H. apply sem_complete in H. destruct H as [k H]. specialize (H p). cbn in H.
  exists (S k), (Tree None p [] []). split; [cbn [peg_match app]; rewrite H; reflexivity|apply sets_nil].
Qed.

Lemma loop_nil e p r : sem e r None -> makes_loop e p [] r [].
Proof.
  intros H. apply sem_complete in H. destruct H as [k H]. specialize (H p). cbn in H.
  exists k, []. split; [intros keep; cbn [loop_match app]; rewrite H; reflexivity|]. split; [congruence|apply sets_nil].
Qed.
Lemma loop_cons e p x1 x2 r k1 k2 : x1 <> [] ->
  makes e p x1 (x2 ++ r) k1 -> makes_loop e (p + length x1) x2 r k2 -> makes_loop e p (x1 ++ x2) r (k1 ++ k2).
Proof.
  intros Hx (ka & t & Ha & Sa) (kb & ts & Hb & _ & Sb). exists (Nat.max ka kb), (t :: ts).
  split; [|split; [discriminate|cbn [flat_map]; apply sets_app; assumption]]. intros keep.
  rewrite <- app_assoc. cbn [loop_match].
  rewrite (pm_ok_more G ka (Nat.max ka kb) _ _ _ _ _ Ha) by lia. rewrite (text_of _ _ _ _ _ _ Ha).
  destruct x1 as [|c x1]; [congruence|].
  rewrite (loop_more' G keep (S (length x2)) (length ((c :: x1) ++ x2)) kb (Nat.max ka kb)).
  - rewrite Hb. reflexivity.
  - rewrite Hb. discriminate.
  - lia.
  - cbn. rewrite app_length. lia.
Qed.

Lemma makes_star e p x r ks : makes_loop e p x r ks -> makes (PStar e) p x r ks.
Proof.
  intros (k & ts & H & _ & Hs). exists (S k), (Tree None p (upto (x ++ r) r) ts). split; [|exact Hs]. cbn [peg_match].
  rewrite (loop_more' G false (S (length x)) (S (length (x ++ r))) k k) by (rewrite ?H; (discriminate || (rewrite ?app_length; lia))).
  rewrite H. reflexivity.
Qed.
Lemma makes_plus e p x r ks : x <> [] -> makes_loop e p x r ks -> makes (PPlus e) p x r ks.
Proof.
  intros Hx (k & ts & H & Hn & Hs). specialize (Hn Hx). exists (S k), (Tree None p (upto (x ++ r) r) ts). split; [|exact Hs]. cbn [peg_match].
  rewrite (loop_more' G true (S (length x)) (S (length (x ++ r))) k k) by (rewrite ?H; (discriminate || (rewrite ?app_length; lia))).
  rewrite H. destruct ts; [congruence|reflexivity].
Qed.

(** *** Rules *)

(** The node of an expression other than a reference has no name. *)
Lemma unnamed k e p s t r : (forall z, e <> PRef z) -> PM k e p s = POk t r ->
  exists q x l, t = Tree None q x l.
Proof.
  intros He H. destruct k as [|k]; [discriminate H|]. destruct e as [l|z|z|l|l|e|e|e|e]; cbn [peg_match] in H.
  - destruct (startswith l s); [|discriminate H]. injection H as <- _. eauto.
  - destruct (rx_match z s); [|discriminate H]. injection H as <- _. eauto.
  - exfalso. apply (He z). reflexivity.
  - destruct (seq_match _ l p s); try discriminate H. injection H as <- _. eauto.
  - destruct (alt_match _ l p s); try discriminate H. injection H as <- _. eauto.
  - destruct (PM k e p s); try discriminate H. injection H as <- _. eauto.
  - destruct (PM k e p s); try discriminate H; injection H as <- _; eauto.
  - destruct (loop_match _ _ _ e p s); try discriminate H. injection H as <- _. eauto.
  - destruct (loop_match _ _ _ e p s) as [| |[|]]; try discriminate H. injection H as <- _. eauto.
Qed.

Lemma not_alias r : forall z, G r <> PRef z.
Proof. destruct r; discriminate. Qed.

Definition inner (e : peg rule) : bool :=
  match e with PSeq (_ :: _) | PAlt _ | PPlus _ => true | _ => false end.

Lemma inner_kids k e p s q x l r : inner e = true -> PM k e p s = POk (Tree None q x l) r -> l <> [].
Proof.
  intros He H. destruct k as [|k]; [discriminate H|]. destruct e as [z|z|z|z|z|e|e|e|e]; try discriminate He; cbn [peg_match] in H.
  - destruct z as [|e z]; [discriminate He|]. cbn [seq_match] in H. destruct (PM k e p s) as [| |t s1]; try discriminate H.
    destruct (seq_match _ z _ s1); try discriminate H. injection H as _ _ <- _. discriminate.
  - destruct (alt_match _ z p s); try discriminate H. injection H as _ _ <- _. discriminate.
  - destruct (loop_match _ _ _ e p s) as [| |[|]]; try discriminate H. injection H as _ _ <- _. discriminate.
Qed.

Lemma reduced_inner r : reduced r = true -> inner (G r) = true.
Proof. destruct r; intros H; try discriminate H; reflexivity. Qed.

Lemma makes_ignored r p x rest : ignored r = true -> sem (PRef r) (x ++ rest) (Some rest) -> makes (PRef r) p x rest [].
Proof.
  intros Hr H. apply sem_complete in H. destruct H as [k H]. destruct (H p) as [t Ht]. exists k, t. split; [exact Ht|].
  destruct k as [|k]; [discriminate Ht|]. cbn [peg_match] in Ht. destruct (PM k (G r) p (x ++ rest)) as [| |[n q z l] s]; try discriminate Ht.
  cbn in Ht. injection Ht as <- _. cbn [rewrite]. rewrite Hr. apply sets_nil.
Qed.

Lemma makes_reduced r p x rest ks : ignored r = false -> reduced r = true -> makes (G r) p x rest ks -> makes (PRef r) p x rest ks.
Proof.
  intros Hi Hr (k & t & H & Hs). destruct (unnamed _ _ _ _ _ _ (not_alias r) H) as (q & z & l & ->).
  pose proof (inner_kids _ _ _ _ _ _ _ _ (reduced_inner r Hr) H) as Hl.
  exists (S k), (Tree (Some r) q z l). split; [cbn [peg_match]; rewrite H; reflexivity|].
  cbn [rewrite] in *. rewrite Hi, Hr. destruct l; [congruence|]. exact Hs.
Qed.

Lemma makes_compact r p x rest k : ignored r = false -> reduced r = false -> compacted r = true ->
  makes (G r) p x rest [k] -> makes (PRef r) p x rest [k].
Proof.
  intros Hi Hr Hc (n & t & H & Hs). destruct (unnamed _ _ _ _ _ _ (not_alias r) H) as (q & z & l & ->).
  exists (S n), (Tree (Some r) q z l). split; [cbn [peg_match]; rewrite H; reflexivity|].
  cbn [rewrite] in *. rewrite Hi, Hr, Hc. destruct (flat_map rewrite l) as [|a [|b m]] eqn:E; [|exact Hs|];
    destruct Hs as [_ Hs]; apply setup_list_length in Hs; discriminate Hs.
Qed.

Lemma makes_node r p x rest ks s : ignored r = false -> reduced r = false -> (compacted r = true -> length ks <> 1) -> r <> R_qualifier ->
  makes (G r) p x rest ks -> setup X full r p x ks QNone = Ok s -> makes (PRef r) p x rest [(Some r, s)].
Proof.
  intros Hi Hr Hc Hq (n & t & H & Hs) E. pose proof (text_of _ _ _ _ _ _ H) as Ht. pose proof (start_of _ _ _ _ _ _ H) as Hp.
  destruct (unnamed _ _ _ _ _ _ (not_alias r) H) as (q & z & l & ->). cbn in Ht, Hp. subst z q.
  exists (S n), (Tree (Some r) p x l). split; [cbn [peg_match]; rewrite H; reflexivity|].
  cbn [rewrite] in *. rewrite Hi, Hr.
  assert (K : sets [Nd (Some r) p x (flat_map rewrite l)] [(Some r, s)]).
  { destruct Hs as [_ Hs]. split; [cbn; destruct r; congruence|]. cbn [setup_list next_qual]. rewrite setup_all_eq, Hs. cbn [bind]. rewrite E. reflexivity. }
  destruct (compacted r) eqn:Ec; [|exact K]. destruct (flat_map rewrite l) as [|a [|b m]] eqn:El; try exact K.
  exfalso. apply (Hc eq_refl). destruct Hs as [_ Hs]. apply setup_list_length in Hs. exact Hs.
Qed.

(** A qualifier at the end: the root of an expression right before it takes it, too. *)
Definition roots (r : rule) : bool :=
  match r with R_expr | R_expr_var | R_expr_factor | R_expr_strict | R_expr_augment | R_expr_bitwise => true | _ => false end.
Definition requal (q : qual) (k : kid) : kid :=
  match k with
  | (Some r, SExpr (ERoot e QNone)) => if roots r then (Some r, SExpr (ERoot e q)) else k
  | _ => k
  end.
Lemma requal_other q r s : roots r = false -> requal q (Some r, s) = (Some r, s).
Proof. intros H. unfold requal. destruct s; try reflexivity. destruct e; try reflexivity. destruct q0; try reflexivity. rewrite H. reflexivity. Qed.
Lemma setup_other r p x ks q : roots r = false -> setup X full r p x ks q = setup X full r p x ks QNone.
Proof. destruct r; intros H; try discriminate H; reflexivity. Qed.
Lemma setup_requal n q k : setup_all X full n QNone = Ok k -> setup_all X full n q = Ok (requal q k).
Proof.
  destruct n as [[r|] p x kids]; rewrite !setup_all_eq; (destruct (setup_list kids) as [l|]; [|discriminate]); cbn [bind]; [|intros [= <-]; reflexivity].
  destruct (roots r) eqn:E.
  - assert (H : forall q, setup X full r p x l q = (e <- one_expr l ;; Ok (SExpr (ERoot e q)))) by (intros z; destruct r; try discriminate E; reflexivity).
    rewrite !H. destruct (one_expr l) as [e|]; [|discriminate]. cbn [bind]. intros [= <-]. cbn [requal]. rewrite E. reflexivity.
  - rewrite (setup_other r p x l q E). destruct (setup X full r p x l QNone) as [s|]; [|discriminate]. cbn [bind]. intros [= <-]. rewrite requal_other by exact E. reflexivity.
Qed.
Lemma setup_qual a n q ks k : next_qual [n] = q -> q <> QNone -> setup_all X full n QNone = Ok (Some R_qualifier, SQual q) -> setup_list a = Ok (ks ++ [k]) ->
  setup_list (a ++ [n]) = Ok (ks ++ [requal q k; (Some R_qualifier, SQual q)]).
Proof.
  intros Hq Hn Hs. revert ks. induction a as [|m a IH]; intros ks H; [cbn in H; destruct ks; discriminate H|]. cbn [setup_list app] in *.
  destruct a as [|m' a].
  - cbn [setup_list app bind] in *. destruct (setup_all X full m (next_qual [])) as [km|] eqn:E; [|discriminate H]. cbn [bind] in H. destruct ks as [|z ks]; [|destruct ks; discriminate H].
    injection H as ->. cbn [next_qual] in E. rewrite Hq, (setup_requal m q k E). cbn [bind next_qual]. rewrite Hs. reflexivity.
  - change (next_qual ((m' :: a) ++ [n])) with (next_qual (m' :: a)). destruct (setup_all X full m (next_qual (m' :: a))) as [km|]; [|discriminate H]. cbn [bind] in H |- *.
    destruct (setup_list (m' :: a)) as [ka|] eqn:Ea; [|discriminate H]. cbn [bind] in H. injection H as H.
    destruct ks as [|z ks].
    + injection H as -> H. subst ka. apply setup_list_length in Ea. discriminate Ea.
    + injection H as -> ->. rewrite (IH ks eq_refl). reflexivity.
Qed.
Lemma seq_snoc k e l : forall p s ts t r r', seq_match (PM k) l p s = POk ts r -> PM k e (p + length (flat_map t_text ts)) r = POk t r' -> seq_match (PM k) (l ++ [e]) p s = POk (ts ++ [t]) r'.
Proof.
  induction l as [|a l IH]; intros p s ts t r r' H He; cbn [seq_match app] in *.
  - injection H as <- <-. cbn [flat_map length] in He. rewrite Nat.add_0_r in He. rewrite He. reflexivity.
  - destruct (PM k a p s) as [| |ta sa]; try discriminate H. destruct (seq_match (PM k) l (p + length (t_text ta)) sa) as [| |ts' r0] eqn:E; try discriminate H. injection H as <- <-.
    cbn [flat_map] in He. rewrite app_length, Nat.add_assoc in He. rewrite (IH _ _ _ _ _ _ E He). reflexivity.
Qed.
Lemma makes_seq_qual l p x c r q ks k : c = 63%N /\ q = QOpt \/ c = 33%N /\ q = QReq -> makes_seq l p x (c :: r) (ks ++ [k]) ->
  makes_seq (l ++ [POpt (PRef R_qualifier)]) p (x ++ [c]) r (ks ++ [requal q k; (Some R_qualifier, SQual q)]).
Proof.
  intros Hc (n & ts & H & Hs1 & Hs2). exists (S (S (S n))), (ts ++ [Tree None (p + length (flat_map t_text ts)) [c] [Tree (Some R_qualifier) (p + length (flat_map t_text ts)) [c] []]]). split.
  - rewrite <- app_assoc. apply (seq_snoc _ _ _ _ _ _ _ (c :: r)).
    + cbn [app]. rewrite (seq_more' G n (S (S (S n)))) by (rewrite ?H; (discriminate || lia)). exact H.
    + destruct Hc as [[-> _]|[-> _]]; reflexivity.
  - rewrite flat_map_app. split.
    + destruct (flat_map rewrite ts); [destruct ks; discriminate Hs2|exact Hs1].
    + apply setup_qual; [| | |exact Hs2]; destruct Hc as [[-> ->]|[-> ->]]; try reflexivity; discriminate.
Qed.

(** The end of parsing. *)
Lemma parse_makes x d : makes (PRef R_document) 0 x [] [(Some R_document, SDoc d)] ->
  exists t, parse U y x = Parsed t /\ (full = x -> build X full t = Ok d).
Proof.
  intros (k & t & H & Hq & Hs). exists t. rewrite app_nil_r in H. split.
  - unfold parse. pose proof (grammar_total U y (64 * S (length x)) R_document 0 x ltac:(lia)) as Ht.
    rewrite <- (match_more G (64 * S (length x)) (Nat.max k (64 * S (length x)))) by (exact Ht || lia).
    rewrite (pm_ok_more G k (Nat.max k (64 * S (length x))) _ _ _ _ _ H) by lia. reflexivity.
  - intros _. unfold build. pose proof (setup_list_length _ _ Hs) as L. destruct (rewrite t) as [|n [|]]; try discriminate L.
    cbn [setup_list next_qual] in Hs. destruct (setup_all X full n QNone) as [[z s]|]; [|discriminate Hs]. cbn in *.
    injection Hs as -> ->. reflexivity.
Qed.
End Makes.
