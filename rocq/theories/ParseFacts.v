(** Consequences for the grammar of hypertag. *)
From Coq Require Import List NArith Bool Arith Lia.
From Verif Require Import PyStr Preprocess Peg PegSpec PegFacts PegSemFacts Grammar Syntax GrammarFacts LocateFacts.
Import ListNotations.

Lemma rules_total U y r s : exists o, sem (grammar U y) (PRef r) s o /\ forall o', sem (grammar U y) (PRef r) s o' -> o' = o.
Proof.
  pose proof (grammar_total U y (52 * S (length s)) r 0 s (le_n _)) as H.
  pose proof (match_sound (grammar U y) (52 * S (length s)) (PRef r) 0 s) as K.
  destruct (peg_match _ _ _ 0 s) as [| |t rest]; [congruence| |]; cbn in K.
  - exists None. split; [exact K|]. intros o' Ho. eapply sem_det; eauto.
  - exists (Some rest). split; [exact K|]. intros o' Ho. eapply sem_det; eauto.
Qed.

Lemma parse_accepts U y s : (exists t, parse U y s = Parsed t) <-> sem (grammar U y) (PRef R_document) s (Some []).
Proof.
  unfold parse. pose proof (match_sound (grammar U y) (64 * S (length s)) (PRef R_document) 0 s) as K.
  pose proof (grammar_total U y (64 * S (length s)) R_document 0 s ltac:(lia)) as H.
  destruct (peg_match _ _ _ 0 s) as [| |t [|c rest]]; [congruence| | |]; cbn in K; (split; [intros [t0 E]; try discriminate E; try exact K|]).
  - intros Q. pose proof (sem_det _ _ _ _ _ K Q). discriminate.
  - eauto.
  - intros Q. pose proof (sem_det _ _ _ _ _ K Q). discriminate.
Qed.

Lemma parse_good U y s t : parse U y s = Parsed t -> s = t_text t /\ tiled 0 t.
Proof.
  unfold parse. pose proof (match_good (grammar U y) (64 * S (length s)) (PRef R_document) 0 s) as K.
  destruct (peg_match _ _ _ 0 s) as [| |t0 [|c rest]]; try discriminate. intros [= <-]. cbn in K. rewrite app_nil_r in K. exact K.
Qed.

Lemma parse_leaves U y s t : parse U y s = Parsed t -> concat (map snd (leaves t)) = s.
Proof. intros H. apply parse_good in H as [-> H]. eapply leaves_text, H. Qed.

Lemma parse_nodes U y s t : parse U y s = Parsed t -> forall n, In n (nodes t) ->
  t_start n + length (t_text n) <= length s /\ firstn (length (t_text n)) (skipn (t_start n) s) = t_text n.
Proof.
  intros H n Hn. apply parse_good in H as [-> H]. pose proof (nodes_slices t [] [] H) as K. rewrite Forall_forall in K.
  destruct (K n Hn) as (K1 & _ & K3). unfold slice in K1. cbn in K1, K3. rewrite app_nil_r in K1. split; assumption.
Qed.
