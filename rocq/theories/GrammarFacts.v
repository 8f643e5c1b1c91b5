(** The grammar of hypertag is well formed: no left recursion and no repetition of an empty match. Hence
    matching ends on every text, after a number of steps proportional to the length of the text and to the
    number of levels of the grammar. *)
From Coq Require Import List NArith Bool Arith Lia.
From Verif Require Import PyStr Preprocess Peg PegFacts Grammar Syntax.
Import ListNotations.

(** Rules that match an empty text. *)
Definition g_nul (r : rule) : bool :=
  match r with
  | R_document | R_attrs_def | R_generic_struct | R_body_struct | R_attrs_val | R_slice_value | R_ws => true
  | _ => false
  end.

(** The longest chain of rules that can be entered at one position. *)
Definition g_rank (r : rule) : nat :=
  match r with
  | R_block_if | R_try_long | R_try_short | R_block_for | R_block_while | R_string_quot1 | R_string_quot2
  | R_string_raw | R_boolean | R_subexpr | R_tuple | R_list | R_dict | R_set | R_embedding_braces
  | R_block_context | R_block_import | R_call | R_index | R_member | R_partial_call | R_op_multiplic
  | R_op_additive | R_op_shift | R_op_empty => 1
  | R_margin_out | R_margin | R_modifier | R_block_assign | R_block_expr | R_tag_use | R_embedding_eval
  | R_clause_if | R_clause_else | R_block_def | R_attr_body | R_rename | R_block_verbat | R_block_normal
  | R_block_markup | R_block_embed | R_special_tag | R_inline_comment | R_head_verbat | R_head_normal
  | R_head_markup | R_block_comment | R_line_verbat | R_attr_short | R_attr_named | R_number_signed | R_comma => 2
  | R_tail_blocks | R_block_try | R_string_format | R_name_id | R_symbol | R_tail_verbat | R_tail_normal
  | R_tail_markup | R_trailer | R_trailer_filt => 3
  | R_block | R_embedding | R_attrs_def | R_body_text | R_headline => 4
  | R_block_control | R_string | R_var_use | R_var_def | R_attr_def | R_name_import | R_cntx_import
  | R_tag_expand | R_attrs_val | R_kwarg => 5
  | R_body_control | R_core_verbat | R_core_normal | R_core_markup => 6
  | R_core_blocks | R_literal | R_target | R_item_import | R_line_markup | R_factor_var => 7
  | R_tags_expand | R_generic_control => 8
  | R_atom | R_targets | R_body_struct | R_line_normal | R_expr_var => 9
  | R_document => 10
  | R_factor | R_block_struct | R_generic_struct | R_factor_strict | R_factor_filt => 11
  | R_pow_expr | R_expr_factor | R_expr_strict | R_filter => 13
  | R_term | R_value_of_attr => 15
  | R_arith_expr | R_attr_unnamed => 17
  | R_shift_expr | R_attr_val => 19
  | R_and_expr => 21
  | R_xor_expr => 23
  | R_or_expr => 25
  | R_pipeline | R_expr_bitwise => 27
  | R_concat_expr | R_dict_pair => 29
  | R_comparison | R_slice_value => 31
  | R_not_test | R_slice => 33
  | R_and_test => 35
  | R_or_test => 37
  | R_ifelse_test => 39
  | R_expr_root => 41
  | R_expr => 43
  | R_expr_tuple | R_arg => 45
  | R_tail_if => 46
  | R_expr_augment | R_args => 47
  | R_expr_assign | R_tail_for | R_subscript => 50
  | _ => 0
  end.

Definition g_top : nat := 51.

Section Total.
Variables (U : unicode) (y : symbols).

Lemma g_nul_ok r : nullable g_nul (grammar U y r) = true -> g_nul r = true.
Proof. destruct r; vm_compute; intros H; try discriminate H; reflexivity. Qed.

Lemma g_rank_ok r : level g_nul g_rank (grammar U y r) <= g_rank r.
Proof. apply Nat.leb_le. destruct r; vm_compute; reflexivity. Qed.

Lemma g_bound_ok r : bounded g_nul g_rank g_top (grammar U y r) = true.
Proof. destruct r; vm_compute; reflexivity. Qed.

Lemma grammar_total fuel r pos s : 52 * S (length s) <= fuel -> peg_match (grammar U y) fuel (PRef r) pos s <> PFuel.
Proof.
  intros H. apply (match_total (grammar U y) g_nul g_rank g_top g_nul_ok g_rank_ok g_bound_ok).
  - destruct r; vm_compute; reflexivity.
  - unfold steps. change (S g_top) with 52.
    assert (B : level g_nul g_rank (PRef r) <= 51) by (apply Nat.leb_le; destruct r; vm_compute; reflexivity). lia.
Qed.

(** The first rule accepts every text, if only its beginning. *)
Lemma document_ok fuel pos s : peg_match (grammar U y) fuel (PRef R_document) pos s <> PFail.
Proof.
  destruct fuel as [|[|[|k]]]; try discriminate.
  change (peg_match (grammar U y) (S (S (S k))) (PRef R_document) pos s) with
    (rename R_document (wrap pos s (seq_match (peg_match (grammar U y) (S k)) [POpt (PRef R_core_blocks); POpt (PRef R_margin)] pos s))).
  assert (Q : forall e p s, peg_match (grammar U y) (S k) (POpt e) p s <> PFail).
  { intros e p s'. cbn [peg_match]. destruct (peg_match _ k e p s'); discriminate. }
  cbn [seq_match]. pose proof (Q (PRef R_core_blocks) pos s) as Q1. destruct (peg_match _ _ _ pos s) as [| |t1 s1]; [discriminate|congruence|].
  pose proof (Q (PRef R_margin) (pos + length (t_text t1)) s1) as Q2. destruct (peg_match _ _ _ _ s1) as [| |t2 s2]; [discriminate|congruence|].
  cbn [wrap]. discriminate.
Qed.
End Total.
