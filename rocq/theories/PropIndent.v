(** Properties C07-C11: indentation of texts. *)
From Coq Require Import List NArith Bool String.
From Verif Require Import PyStr PyStrFacts Indent IndentSpec IndentFacts IndentProofs.
Import ListNotations.
Local Open Scope N_scope.

(** ** C07 *)
Theorem C07_add_indent_lines : forall t i h ls, lines t = h :: ls ->
  add_indent t i = join [NL] (h :: map (indent_line i) ls).
Proof. exact add_indent_lines. Qed.
Print Assumptions C07_add_indent_lines.

Theorem C07_line_count : forall t i, ~ In NL i ->
  List.length (lines (add_indent t i)) = List.length (lines t).
Proof. exact c07_line_count. Qed.
Print Assumptions C07_line_count.
Example C07_example : add_indent text3 (u "  ") = u "first" ++ [NL] ++ [NL] ++ u "   second" ++ [NL].
Proof. vm_compute. reflexivity. Qed.
Example C07_example_hyp : lines text3 = u "first" :: [[]; u " second"; []] /\ ~ In NL (u "  ").
Proof. split; [vm_compute; reflexivity | intros H; cbn in H; intuition discriminate]. Qed.

(** ** C08 *)
Theorem C08_nested : forall t outer inner, ~ In NL inner ->
  add_indent (add_indent t inner) outer = add_indent t (outer ++ inner).
Proof. exact add_indent_add_indent. Qed.
Print Assumptions C08_nested.

(** [is] lists the indentations from the outermost to the innermost block. *)
Theorem C08_nested_blocks : forall t is, (forall i, In i is -> ~ In NL i) ->
  fold_right (fun i t => add_indent t i) t is = add_indent t (List.concat is).
Proof. exact add_indent_fold. Qed.
Print Assumptions C08_nested_blocks.

Example C08_example :
  fold_right (fun i t => add_indent t i) text3 [u "  "; [TAB]; u " "] = add_indent text3 (u "  " ++ [TAB] ++ u " ").
Proof. vm_compute. reflexivity. Qed.
Example C08_example_hyp : forall i, In i [u "  "; [TAB]; u " "] -> ~ In NL i.
Proof.
  intros i H. cbn in H. decompose [or] H; try contradiction; subst i; intros Hn; cbn in Hn; intuition discriminate.
Qed.
(** The hypothesis of C08 is needed: an inner indentation with a newline creates new lines. *)
Example C08_newline_needed : add_indent (add_indent (u "a" ++ [NL] ++ u "b") (NL :: u " ")) (u "  ")
  <> add_indent (u "a" ++ [NL] ++ u "b") (u "  " ++ NL :: u " ").
Proof. vm_compute. discriminate. Qed.

(** ** C09 *)
Theorem C09_common : forall t, common_indent t (get_indent t).
Proof. exact get_indent_common. Qed.
Print Assumptions C09_common.

Theorem C09_longest : forall t p, (exists l, In l (lines t) /\ ~ blank l) ->
  common_indent t p -> is_prefix p (get_indent t).
Proof. exact get_indent_longest. Qed.
Print Assumptions C09_longest.

Theorem C09_blank_text : forall t, (forall l, In l (lines t) -> blank l) -> get_indent t = [].
Proof. exact get_indent_none. Qed.
Print Assumptions C09_blank_text.
Example C09_example : get_indent text4 = u "   ".
Proof. vm_compute. reflexivity. Qed.
Example C09_example_hyp : (exists l, In l (lines text4) /\ ~ blank l) /\ common_indent text4 (u "  ").
Proof.
  split.
  - exists (u "   b"). split; [vm_compute; auto|]. intros H. specialize (H 98 ltac:(cbn; auto)). discriminate.
  - split; [intros c H; cbn in H; intuition (subst; reflexivity)|].
    intros l H _. vm_compute in H. decompose [or] H; try contradiction; subst l; eexists; reflexivity.
Qed.
Example C09_example_blank : forall l, In l (lines (u "  " ++ [NL; TAB])) -> blank l.
Proof. intros l H. vm_compute in H. decompose [or] H; try contradiction; subst l; intros c Hc; cbn in Hc; intuition (subst; reflexivity). Qed.

(** ** C10 *)
Theorem C10_line_wise : forall t i, ~ In NL i ->
  lines (del_indent t (Some i)) = map (unindent_line i) (lines t).
Proof. intros t i H. exact (lines_del_indent t i H). Qed.
Print Assumptions C10_line_wise.

Theorem C10_nothing_left : forall t, get_indent (del_indent t None) = [].
Proof. exact del_indent_none. Qed.
Print Assumptions C10_nothing_left.

(** Putting the removed indentation back on the k-th line restores it if it is not blank. *)
Theorem C10_reversible : forall t k l, nth_error (lines t) k = Some l -> ~ blank l ->
  exists l', nth_error (lines (del_indent t None)) k = Some l' /\ get_indent t ++ l' = l.
Proof. exact c10_reversible. Qed.
Print Assumptions C10_reversible.

Example C10_example : del_indent text4 None = u " a" ++ [NL] ++ u "  " ++ [NL] ++ u "b" ++ [NL] ++ u "   c".
Proof. vm_compute. reflexivity. Qed.
Example C10_example_hyp : nth_error (lines text4) 2 = Some (u "   b") /\ ~ blank (u "   b").
Proof. split; [vm_compute; reflexivity|]. intros H. specialize (H 98 ltac:(cbn; auto)). discriminate. Qed.

(** ** C11 *)

(** [lead] is the column of the headline [h], [ls] are the tail lines. The common indentation [s] of
    the padded headline and of the tail lines, at most one character longer than the marker column,
    is removed from the tail lines and from the padded headline; if the tail is indented less than
    the marker column the headline loses its whole padding and one space. *)
Theorem C11_layout_partial : forall lead body h ls, lines body = h :: ls -> ~ blank h ->
  exists k s,
    s = firstn k (repeatc SP lead ++ h) /\ List.length s = k /\ (k <= S lead)%nat /\ blank s /\
    (forall l, In l ls -> ~ blank l -> is_prefix s l) /\
    (forall p, common_indent (repeatc SP lead ++ body) p -> (List.length p <= S lead)%nat ->
               (List.length p <= k)%nat) /\
    text_layout lead body =
      join [NL] ((if Nat.ltb k lead then drop_space h else skipn (k - lead) h)
                 :: map (unindent_line s) ls).
Proof. exact text_layout_nonblank. Qed.
Print Assumptions C11_layout_partial.

(** Relative indentation of tail lines: a prefix is removed that is the same for all of them. *)
Theorem C11_relative_indentation_partial : forall lead body h ls, lines body = h :: ls -> ~ blank h ->
  exists s, forall k l, nth_error ls k = Some l -> ~ blank l ->
    exists l', nth_error (lines (text_layout lead body)) (S k) = Some l' /\ l = s ++ l'.
Proof. exact text_layout_relative. Qed.
Print Assumptions C11_relative_indentation_partial.

Theorem C11_single_line : forall lead h, ~ In NL h -> ~ blank h ->
  text_layout lead h = match h with c :: r => if is_space c then r else h | [] => [] end.
Proof. exact text_layout_line. Qed.
Print Assumptions C11_single_line.

Theorem C11_empty : forall lead, text_layout lead [] = [].
Proof. exact text_layout_empty. Qed.
Print Assumptions C11_empty.
Example C11_example : text_layout 1 text5 = u "first" ++ [NL] ++ u " second" ++ [NL] ++ u "   third".
Proof. vm_compute. reflexivity. Qed.
Example C11_example_hyp : lines text5 = u " first" :: [u "   second"; u "     third"] /\ ~ blank (u " first").
Proof. split; [vm_compute; reflexivity|]. intros H. specialize (H 102 ltac:(cbn; auto)). discriminate. Qed.
Example C11_example_line : text_layout 4 (u " abc") = u "abc".
Proof. vm_compute. reflexivity. Qed.

(** With an empty headline the padding of the marker stays in the output: C11 needs [~ blank h]. *)
Theorem C11_empty_headline_refuted : exists lead body,
  lines body = [] :: [u "  Line 1"] /\ text_layout lead body = u " " ++ [NL] ++ u "Line 1".
Proof. exact c11_empty_headline_refuted. Qed.
Print Assumptions C11_empty_headline_refuted.

(** With a tab-indented tail the tab is not recognised as common with the marker padding and the tail
    keeps its indentation in the output. *)
Theorem C11_tab_tail_refuted : exists lead body,
  lines body = u "first" :: [TAB :: u "second"] /\
  text_layout lead body = u "first" ++ [NL] ++ TAB :: u "second".
Proof. exact c11_tab_tail_refuted. Qed.
Print Assumptions C11_tab_tail_refuted.
