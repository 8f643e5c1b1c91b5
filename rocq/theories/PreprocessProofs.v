(** Proofs and sample data of the theorems in PropPreprocess.v. *)
From Coq Require Import List NArith Bool String Lia.
From Verif Require Import PyStr PyStrFacts Indent IndentSpec IndentFacts Preprocess PreprocessSpec PreprocessFacts.
Import ListNotations.
Local Open Scope N_scope.

Lemma c12_symbol_may_be_space_refuted : exists text y, get_parser text = Some y /\
  exists c, In c (symbol_chars y) /\ is_space c = true.
Proof.
  exists (map (fun k => 10088 + N.of_nat k) (seq 0 2200)). eexists. split; [vm_compute; reflexivity|].
  exists 12288. split; [left; reflexivity|reflexivity].
Qed.

Lemma c13_balanced : forall text y out, get_parser text = Some y ->
  preprocess y text = Ok out -> balanced y out.
Proof.
  intros text y out Hy. destruct (get_parser_fresh text) as [y' [E Hf]].
  rewrite Hy in E. injection E as <-. apply preprocess_balanced; auto. eapply get_parser_sane; eauto.
Qed.
Definition script1 : str :=
  u "if x" ++ [NL] ++ u "  p" ++ [NL] ++ [NL] ++ u "   | a" ++ [NL] ++ u "  " ++ [TAB] ++ u "| b  " ++ [NL].
Definition script2 : str :=
  u "if x" ++ [NL] ++ u "  p" ++ [NL] ++ [NL] ++ u "   | a" ++ [NL] ++ u "  | b  " ++ [NL] ++ [TAB; NL] ++ u "end".

Lemma c14_lossless_general : forall text y out, get_parser text = Some y ->
  preprocess y text = Ok out -> decode_script y out = map norm_line (lines text).
Proof.
  intros text y out Hy. destruct (get_parser_fresh text) as [y' [E Hf]].
  rewrite Hy in E. injection E as <-. apply preprocess_decode; auto. eapply get_parser_sane; eauto.
Qed.

Lemma c14_lossless : forall text y out,
  (forall l, In l (lines text) -> ~ blank l -> forall c, In c (leading l) -> c = SP \/ c = TAB) ->
  get_parser text = Some y ->
  preprocess y text = Ok out -> decode_script y out = map rstrip (lines text).
Proof.
  intros text y out Hs Hy. destruct (get_parser_fresh text) as [y' [E Hf]].
  rewrite Hy in E. injection E as <-. apply preprocess_decode_exact; auto. eapply get_parser_sane; eauto.
Qed.

Lemma c14_injective : forall t1 t2 y out,
  (forall t l, t = t1 \/ t = t2 -> In l (lines t) -> ~ blank l -> forall c, In c (leading l) -> c = SP \/ c = TAB) ->
  get_parser t1 = Some y -> get_parser t2 = Some y ->
  preprocess y t1 = Ok out -> preprocess y t2 = Ok out ->
  map rstrip (lines t1) = map rstrip (lines t2).
Proof.
  intros t1 t2 y out Hs H1 H2 P1 P2.
  transitivity (decode_script y out).
  - symmetry. apply (c14_lossless t1 y out); auto. intros l Hl Hb. apply (Hs t1 l (or_introl eq_refl) Hl Hb).
  - apply (c14_lossless t2 y out); auto. intros l Hl Hb. apply (Hs t2 l (or_intror eq_refl) Hl Hb).
Qed.

Lemma c14_other_whitespace_refuted : exists t1 t2 out,
  map rstrip (lines t1) <> map rstrip (lines t2) /\
  preprocess default_symbols t1 = Ok out /\ preprocess default_symbols t2 = Ok out.
Proof.
  exists (u "p" ++ [NL; TAB] ++ u "| a"), (u "p" ++ [NL; 12] ++ u "| a"). eexists.
  split; [vm_compute; discriminate|]. split; vm_compute; reflexivity.
Qed.

Lemma c15_no_assertion : forall y text, preprocess y text <> Raise AssertionError /\
  preprocess y text <> Raise IndexError.
Proof.
  intros y text. split; intros H; apply preprocess_error in H as [k [E _]]; discriminate.
Qed.

Lemma c16_line_numbers : forall text y out, get_parser text = Some y -> preprocess y text = Ok out ->
  List.length (lines out) = S (List.length (lines text)) /\
  forall k l, nth_error (lines text) k = Some l ->
    exists s, (forall c, In c s -> In c (symbol_chars y)) /\
              nth_error (lines out) (S k) = Some (strip l ++ s).
Proof. intros text y out Hy. apply preprocess_lines. eapply get_parser_sane; eauto. Qed.
