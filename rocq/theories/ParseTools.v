(** Equations for following the matcher step by step on texts that are known only in part. *)
From Coq Require Import List NArith Bool Arith Lia.
From Verif Require Import PyStr PyStrFacts PreprocessSpec PreprocessFacts Preprocess Peg PegFacts Grammar Syntax GrammarFacts.
Import ListNotations.

Section Equations.
Variables (U : unicode) (y : symbols).
Notation PM := (peg_match (grammar U y)).

Lemma pm_ref k r p s : PM (S k) (PRef r) p s = rename r (PM k (grammar U y r) p s).
Proof. reflexivity. Qed.
Lemma pm_seq k l p s : PM (S k) (PSeq l) p s = wrap p s (seq_match (PM k) l p s).
Proof. reflexivity. Qed.
Lemma pm_alt k l p s : PM (S k) (PAlt l) p s =
  match alt_match (PM k) l p s with POk t rest => POk (Tree None p (t_text t) [t]) rest | o => o end.
Proof. reflexivity. Qed.
Lemma pm_lit k l p s : PM (S k) (PLit l) p s =
  if startswith l s then POk (Tree None p l []) (skipn (length l) s) else PFail.
Proof. reflexivity. Qed.
Lemma pm_nil k p s : PM (S k) (PLit []) p s = POk (Tree None p [] []) s.
Proof. reflexivity. Qed.
Lemma pm_rx k x p s : PM (S k) (PRx x) p s =
  match rx_match x s with Some n => POk (Tree None p (firstn n s) []) (skipn n s) | None => PFail end.
Proof. reflexivity. Qed.
Lemma pm_opt k e p s : PM (S k) (POpt e) p s =
  match PM k e p s with
  | PFuel => PFuel
  | PFail => POk (Tree None p [] []) s
  | POk t rest => POk (Tree None p (t_text t) [t]) rest
  end.
Proof. reflexivity. Qed.
Lemma pm_plus k e p s : PM (S k) (PPlus e) p s =
  match loop_match (PM k) true (S (length s)) e p s with POk [] _ => PFail | o => wrap p s o end.
Proof. reflexivity. Qed.
Lemma pm_star k e p s : PM (S k) (PStar e) p s = wrap p s (loop_match (PM k) false (S (length s)) e p s).
Proof. reflexivity. Qed.
Lemma seq_cons k e l p s : seq_match (PM k) (e :: l) p s =
  match PM k e p s with
  | PFuel => PFuel
  | PFail => PFail
  | POk t s1 => match seq_match (PM k) l (p + length (t_text t)) s1 with
                | PFuel => PFuel
                | PFail => PFail
                | POk ts s2 => POk (t :: ts) s2
                end
  end.
Proof. reflexivity. Qed.
Lemma seq_nil k p s : seq_match (PM k) [] p s = POk [] s.
Proof. reflexivity. Qed.
Lemma alt_cons k e l p s : alt_match (PM k) (e :: l) p s = match PM k e p s with PFail => alt_match (PM k) l p s | o => o end.
Proof. reflexivity. Qed.
Lemma loop_step keep n k e p s : loop_match (PM k) keep (S n) e p s =
  match PM k e p s with
  | PFuel => PFuel
  | PFail => POk [] s
  | POk t s1 =>
      match t_text t with
      | [] => POk (if keep then [t] else []) s
      | _ :: _ => match loop_match (PM k) keep n e (p + length (t_text t)) s1 with
                  | PFuel => PFuel
                  | PFail => PFail
                  | POk ts s2 => POk (t :: ts) s2
                  end
      end
  end.
Proof. reflexivity. Qed.

(** A fixed number of steps suffices if it gives a result. *)
Lemma parse_fixed fuel s t : fuel <= 64 * S (length s) -> PM fuel (PRef R_document) 0 s = POk t [] -> parse U y s = Parsed t.
Proof.
  intros Hf H. unfold parse. rewrite (match_more (grammar U y) fuel); [rewrite H; reflexivity|rewrite H; discriminate|exact Hf].
Qed.

(** Indentation symbols are not newlines. *)
Hypothesis Hy : sane y.

Lemma tail_blocks_nl k p s : PM (S (S (S (S (S (S k)))))) (PRef R_tail_blocks) p (NL :: s) = PFail.
Proof.
  rewrite pm_ref. cbn [grammar]. rewrite pm_alt, alt_cons, pm_seq, seq_cons, pm_ref. cbn [grammar]. rewrite pm_lit.
  assert (E : forall c, In c (symbol_chars y) -> startswith [c] (NL :: s) = false).
  { intros c Hc. cbn. rewrite andb_true_r. apply N.eqb_neq. intros ->. apply Hy, Hc. }
  rewrite E by (cbn; auto). cbn [rename wrap].
  rewrite alt_cons, pm_seq, seq_cons, pm_ref. cbn [grammar]. rewrite pm_lit, E by (cbn; auto). reflexivity.
Qed.
End Equations.

(** Rewriting with the equations for the expression in head position. *)
Ltac pm := first [rewrite pm_ref; cbn [grammar] | rewrite pm_seq | rewrite pm_alt | rewrite pm_nil | rewrite pm_lit
                 | rewrite pm_rx | rewrite pm_opt | rewrite pm_plus | rewrite pm_star].
