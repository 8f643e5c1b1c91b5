(** Proofs and sample data of the theorems in PropIndent.v. *)
From Coq Require Import List NArith Bool String.
From Verif Require Import PyStr PyStrFacts Indent IndentSpec IndentFacts.
Import ListNotations.
Local Open Scope N_scope.

Lemma c07_line_count : forall t i, ~ In NL i ->
  List.length (lines (add_indent t i)) = List.length (lines t).
Proof.
  intros t i Hi. destruct (lines_cons t) as [h [ls E]].
  rewrite (lines_add_indent t i h ls Hi E), E. cbn [List.length]. now rewrite map_length.
Qed.
Definition text3 : str := u "first" ++ [NL] ++ [NL] ++ u " second" ++ [NL].
Definition text4 : str := u "    a" ++ [NL] ++ u "  " ++ [NL] ++ u "   b" ++ [NL] ++ u "      c".

Lemma c10_reversible : forall t k l, nth_error (lines t) k = Some l -> ~ blank l ->
  exists l', nth_error (lines (del_indent t None)) k = Some l' /\ get_indent t ++ l' = l.
Proof.
  intros t k l Hk Hb. exists (unindent_line (get_indent t) l). split.
  - unfold del_indent. rewrite lines_del_indent by apply get_indent_no_NL.
    now apply map_nth_error.
  - apply del_indent_restore; auto. eapply nth_error_In; eauto.
Qed.
Definition text5 : str := u " first" ++ [NL] ++ u "   second" ++ [NL] ++ u "     third".

Lemma c11_empty_headline_refuted : exists lead body,
  lines body = [] :: [u "  Line 1"] /\ text_layout lead body = u " " ++ [NL] ++ u "Line 1".
Proof. exists 1%nat, (NL :: u "  Line 1"). split; vm_compute; reflexivity. Qed.

Lemma c11_tab_tail_refuted : exists lead body,
  lines body = u "first" :: [TAB :: u "second"] /\
  text_layout lead body = u "first" ++ [NL] ++ TAB :: u "second".
Proof. exists 1%nat, (u "first" ++ [NL] ++ TAB :: u "second"). split; vm_compute; reflexivity. Qed.
