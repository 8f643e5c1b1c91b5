(** Proofs and sample data of the theorems in PropHtml.v. *)
From Coq Require Import List NArith Bool String.
From Verif Require Import PyStr PyStrFacts Html HtmlSpec HtmlFacts.
Import ListNotations.
Local Open Scope N_scope.

Lemma c01_escape_injective : forall s t, html_escape s = html_escape t -> s = t.
Proof. intros s t H. rewrite <- (decode_html_escape s), H. apply decode_html_escape. Qed.

Lemma c03_no_raw_markup : forall v c, In c (quoteattr v) ->
  c <> 60 /\ c <> 62 /\ c <> 10 /\ c <> 13 /\ c <> 9.
Proof.
  intros v c H. apply quoteattr_clean in H. unfold unclean in H. tauto.
Qed.

Lemma c04_boolean_attributes : forall name,
  render_attr HTML name ATrue = Some name /\
  render_attr XHTML name ATrue = Some (name ++ u "=""" ++ name ++ u """") /\
  forall m, render_attr m name AFalse = None.
Proof. intros name; repeat split. Qed.
Definition kw_example : list (str * attrval) :=
  [(u "id", AOther (u "x")); (u "hidden", ATrue); (u "checked", AFalse); (u "title", AOther (u "a ""b"""))].

Lemma c05_element_shape : forall t body kw, m_void t = false ->
  markup_expand t body 0 kw =
  Ok (u "<" ++ open_tag (m_mode t) (m_name t) kw ++ u ">" ++ body ++
      (if startswith [NL] body then [NL] else []) ++ u "</" ++ m_name t ++ u ">").
Proof. intros t body kw H. unfold markup_expand, markup_expand'. now rewrite H. Qed.

Lemma c05_void_element : forall t body kw, m_void t = true ->
  markup_expand t body 0 kw =
  if match body with [] => true | _ => false end
  then Ok (u "<" ++ open_tag (m_mode t) (m_name t) kw ++ u " />") else Raise VoidTag.
Proof. intros t [|c body] kw H; unfold markup_expand, markup_expand'; now rewrite H. Qed.

Lemma c05_positional_rejected : forall t body n kw, n <> O -> markup_expand t body n kw = Raise TypeError.
Proof. intros t body [|n] kw H; [congruence|reflexivity]. Qed.
Definition tag_p := {| m_name := u "p"; m_void := false; m_mode := HTML |}.
Definition tag_br := {| m_name := u "br"; m_void := true; m_mode := HTML |}.

Lemma c05_custom_name_unescaped_refuted :
  exists name s, custom_expand [] [name] [] = Ok s /\ startswith (u "<x onclick=""evil()"">") s = true.
Proof. exists (u "x onclick=""evil()"""); eexists; split; vm_compute; reflexivity. Qed.

Lemma c05_comment_breakout_refuted :
  exists body s, comment_expand body 0 [] = Ok s /\ s = u "<!--a--><b>-->".
Proof. exists (u "a--><b>"); eexists; split; vm_compute; reflexivity. Qed.
