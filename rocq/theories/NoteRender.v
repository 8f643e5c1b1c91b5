(** Nodes with the tag %comment in a DOM. *)
From Coq Require Import List NArith Bool Lia Arith String.
From Verif Require Import PyStr PyStrFacts Html HtmlSpec Indent IndentFacts Value Dom NoteSpec NoteProofs.
Import ListNotations.
Local Open Scope string_scope.
Local Open Scope list_scope.

Lemma spaced_refl s : spaced s s.
Proof. induction s; constructor; assumption. Qed.
Lemma spaced_in s t : spaced s t -> In 62%N t -> In 62%N s.
Proof.
  intros H. induction H as [|c s t H IH|b s t Hb H IH]; intros K; [exact K|destruct K as [->|K]; [left; reflexivity|right; auto]|].
  destruct K as [K|K]; [discriminate K|]. apply in_app_or in K. destruct K as [K|K]; [|right; auto]. apply (proj1 Hb) in K. vm_compute in K. discriminate K.
Qed.
Lemma indented i s : indenting i -> exists s', add_indent_go i (s ++ closing) = s' ++ closing /\ spaced s s'.
Proof.
  intros Hi. induction s as [|c s IH]; [exists []; split; [reflexivity|constructor]|]. destruct IH as (s' & IH & IS).
  change ((c :: s) ++ closing) with (c :: (s ++ closing)). cbn [add_indent_go]. destruct (N.eqb_spec c NL) as [->|D].
  - destruct (s ++ closing) as [|d r] eqn:Er; [destruct s; discriminate Er|]. destruct (N.eqb d NL).
    + exists (NL :: s'). rewrite IH. split; [reflexivity|]. apply spaced_same, IS.
    + exists (NL :: i ++ s'). rewrite IH, app_assoc. split; [reflexivity|]. apply spaced_more; assumption.
  - exists (c :: s'). rewrite IH. split; [reflexivity|]. apply spaced_same, IS.
Qed.
Lemma white_outline (o : bool) : white (if o then [NL] else []).
Proof. destruct o; [intros c [<-|[]]; reflexivity|intros c []]. Qed.
Lemma indented_comment i (o : bool) d : indenting i -> exists pre s',
  add_indent ((if o then [NL] else []) ++ opening ++ d ++ closing) i = pre ++ opening ++ s' ++ closing /\ white pre /\ spaced d s'.
Proof.
  intros Hi. destruct i as [|c i].
  { exists (if o then [NL] else []), d. split; [reflexivity|]. split; [|apply spaced_refl]. apply white_outline. }
  set (j := c :: i) in *. change (add_indent ?t j) with (add_indent_go j t).
  assert (G : forall r, add_indent_go j (opening ++ r) = opening ++ add_indent_go j r).
  { intros r. apply add_indent_go_head. intros H. repeat (destruct H as [H|H]; [discriminate H|]). exact H. }
  destruct (indented j d Hi) as (s' & E & S). destruct o.
  - exists (NL :: j), s'. split; [|split; [|exact S]].
    + change ([NL] ++ opening ++ d ++ closing) with (NL :: (opening ++ d ++ closing)).
      change (add_indent_go j (NL :: (opening ++ d ++ closing))) with (NL :: j ++ add_indent_go j (opening ++ d ++ closing)). rewrite G, E. reflexivity.
    + intros x [<-|H]; [reflexivity|apply (proj1 Hi), H].
  - exists [], s'. split; [|split; [intros x []|exact S]]. change ([] ++ opening ++ d ++ closing) with (opening ++ d ++ closing). rewrite G, E. reflexivity.
Qed.

Lemma comment_rendered P k h i body : comment_node (info_at h i) -> dom_render P k h (body_at h i) = Done body -> ~ In 62%N body ->
  exists pre data, render P (S k) h i = Done (pre ++ opening ++ data ++ closing) /\ white pre /\ spaced (body ++ last_newline body) data /\
    forall rest, read_comment (opening ++ data ++ closing ++ rest) = Some (data, rest).
Proof.
  intros (K & (n & name & T) & A & KW & Hi) HB G. unfold dom_render in HB. cbn [render]. rewrite HB. unfold render_node, render_body. rewrite K, T, A.
  assert (X : expand P (Tag n name KComment) (Done body) [] (match n_kwattrs (info_at h i) with Some kw => kw | None => [] end) = out_of (comment_expand body 0 [])).
  { destruct KW as [->| ->]; reflexivity. }
  rewrite X. destruct (comment_expand body 0 []) as [out|e] eqn:C; [|discriminate C]. rewrite (comment_is _ _ C). cbn [out_of obind].
  set (d := body ++ last_newline body) in *.
  assert (G' : ~ In 62%N d).
  { unfold d. intros H. apply in_app_or in H. destruct H as [H|H]; [exact (G H)|]. destruct (last_newline_is body) as [E|E]; rewrite E in H; [exact H|destruct H as [H|[]]; discriminate H]. }
  assert (R : forall data, spaced d data -> forall rest, read_comment (opening ++ data ++ closing ++ rest) = Some (data, rest)).
  { intros data S rest. apply reads_back. intros H. apply ends_gt in H. exact (G' (spaced_in _ _ S H)). }
  destruct (n_indent (info_at h i)) as [ind|] eqn:I.
  - specialize (Hi ind eq_refl). assert (AB : absolute ind = false).
    { unfold absolute. destruct ind as [|c r]; [reflexivity|]. change (startswith [NL] (c :: r)) with ((NL =? c)%N && true). destruct (N.eqb_spec NL c) as [<-|D]; [|reflexivity]. exfalso. apply (proj2 Hi). left. reflexivity. }
    rewrite AB. cbn [obind]. destruct (indented_comment ind (n_outline (info_at h i)) d Hi) as (pre & data & E & Wp & S). rewrite E. exists pre, data. auto.
  - cbn [obind]. exists (if n_outline (info_at h i) then [NL] else []), d. split; [reflexivity|]. split; [apply white_outline|]. split; [apply spaced_refl|]. apply R, spaced_refl.
Qed.

(** a comment of two lines, with an indentation of two blanks *)
Definition note_heap : heap := [
  {| c_info := {| n_kind := KNode; n_tag := Some (Tag 901 (u "comment") KComment); n_attrs := []; n_kwattrs := None; n_outline := true; n_indent := Some (u "  ") |}; c_body := [1] |};
  {| c_info := {| n_kind := KText (html_escape (u "a --> b" ++ [NL] ++ u "c")); n_tag := None; n_attrs := []; n_kwattrs := None; n_outline := true; n_indent := None |}; c_body := [] |}].
Lemma note_heap_ok : comment_node (info_at note_heap 0).
Proof.
  split; [reflexivity|]. split; [eexists _, _; reflexivity|]. split; [reflexivity|]. split; [left; reflexivity|].
  intros i [= <-]. split; [intros c [<-|[<-|[]]]; reflexivity|]. intros [H|[H|[]]]; discriminate H.
Qed.
