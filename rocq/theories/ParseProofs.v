(** Proofs and sample data of the theorems in PropParse.v. *)
From Coq Require Import List NArith Bool Arith String.
From Verif Require Import PyStr Value Ast Preprocess Peg PegSpec PegSemFacts Grammar Syntax SyntaxSpec GrammarFacts LocateFacts ParseFacts SyntaxSamples.
Import ListNotations.

Lemma c53_first_refuted : exists X script line text y j z,
  parse_report X script = Error_near line text /\ get_parser script = Some y /\
  cut_after j script z /\ invalid X y z /\ j < line.
Proof.
  exists demo_lexicon, (u four_lines), 4, (u ")"), default_symbols, 1, (cut 1 (u four_lines)).
  split; [vm_compute; reflexivity|]. split; [vm_compute; reflexivity|]. split; [apply cut_ok|]. split; [vm_compute; reflexivity|repeat constructor].
Qed.

Lemma c53_truncation_refuted : exists X script y z,
  valid X y script /\ get_parser script = Some y /\ cut_after 1 script z /\ invalid X y z.
Proof.
  exists demo_lexicon, (u two_lines), default_symbols, (cut 1 (u two_lines)).
  split; [eexists; vm_compute; reflexivity|]. split; [vm_compute; reflexivity|]. split; [apply cut_ok|vm_compute; reflexivity].
Qed.

Lemma c53_reported_refuted : exists X script y,
  get_parser script = Some y /\ invalid X y script /\ parse_report X script = Error_of AssertionError.
Proof.
  exists demo_lexicon, (u assertion_lines), default_symbols.
  split; [vm_compute; reflexivity|]. split; [vm_compute; reflexivity|vm_compute; reflexivity].
Qed.
