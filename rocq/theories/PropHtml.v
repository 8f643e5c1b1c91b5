(** Properties C01-C05: escaping, attributes and elements. *)
From Coq Require Import List NArith Bool String.
From Verif Require Import PyStr PyStrFacts Html HtmlSpec HtmlFacts HtmlProofs.
Import ListNotations.
Local Open Scope N_scope.

(** ** C01 *)
Theorem C01_escape_safe : forall t, safe_text (html_escape t).
Proof. exact html_escape_safe. Qed.
Print Assumptions C01_escape_safe.

Theorem C01_escape_lossless : forall t, decode (html_escape t) = t.
Proof. exact decode_html_escape. Qed.
Print Assumptions C01_escape_lossless.

Theorem C01_escape_injective : forall s t, html_escape s = html_escape t -> s = t.
Proof. exact c01_escape_injective. Qed.
Print Assumptions C01_escape_injective.

Example C01_example : html_escape (u "a<b>&lt;") = u "a&lt;b&gt;&amp;lt;".
Proof. vm_compute. reflexivity. Qed.

(** ** C02 *)
Theorem C02_escape_app : forall s t, html_escape (s ++ t) = html_escape s ++ html_escape t.
Proof. exact html_escape_app. Qed.
Print Assumptions C02_escape_app.

Theorem C02_escape_pieces : forall l, html_escape (List.concat l) = List.concat (map html_escape l).
Proof. exact html_escape_concat. Qed.
Print Assumptions C02_escape_pieces.

Theorem C02_escape_lines : forall t, split NL (html_escape t) = map html_escape (split NL t).
Proof. exact html_escape_split. Qed.
Print Assumptions C02_escape_lines.

Example C02_example : html_escape (List.concat [u "a<"; u "&b"]) = u "a&lt;&amp;b".
Proof. vm_compute. reflexivity. Qed.

(** ** C03 *)
Theorem C03_quoted_value : forall v rest, read_quoted (quoteattr v ++ rest) = Some (v, rest).
Proof. exact read_quoteattr. Qed.
Print Assumptions C03_quoted_value.

Theorem C03_no_raw_markup : forall v c, In c (quoteattr v) ->
  c <> 60 /\ c <> 62 /\ c <> 10 /\ c <> 13 /\ c <> 9.
Proof. exact c03_no_raw_markup. Qed.
Print Assumptions C03_no_raw_markup.

(** The whole rendered attribute: [name] has no '=' (hypertag names never do). *)
Theorem C03_rendered_attribute : forall m name v s rest, ~ In 61 name ->
  render_attr m name (AOther v) = Some s ->
  exists r, break_at 61 (s ++ rest) = Some (name, r) /\ read_quoted r = Some (v, rest).
Proof. exact render_attr_read. Qed.
Print Assumptions C03_rendered_attribute.

Example C03_example :
  read_quoted (quoteattr (u "a""b'<&amp;" ++ [10]) ++ u " x>") = Some (u "a""b'<&amp;" ++ [10], u " x>").
Proof. vm_compute. reflexivity. Qed.
Example C03_example2 : ~ In 61 (u "href") /\
  render_attr HTML (u "href") (AOther (u "x?a=1&b=2")) = Some (u "href=""x?a=1&amp;b=2""").
Proof. split; [intros H; cbn in H; intuition discriminate | vm_compute; reflexivity]. Qed.

(** ** C04 (boolean attributes, order and separation; merging is in PropExpr) *)
Theorem C04_boolean_attributes : forall name,
  render_attr HTML name ATrue = Some name /\
  render_attr XHTML name ATrue = Some (name ++ u "=""" ++ name ++ u """") /\
  forall m, render_attr m name AFalse = None.
Proof. exact c04_boolean_attributes. Qed.
Print Assumptions C04_boolean_attributes.

(** The reader of an opening tag sees the name and the non-false attributes in order. *)
Theorem C04_attributes_in_order : forall m name kw rest,
  valid_name name -> (forall nv, In nv kw -> valid_name (fst nv)) ->
  read_tag (open_tag m name kw ++ u ">" ++ rest) = Some (IOpen name (flat_map (seen m) kw), rest).
Proof. intros m name kw rest H1 H2. exact (read_tag_open m name kw false rest H1 H2). Qed.
Print Assumptions C04_attributes_in_order.

(** Single spaces: the opening tag is the name followed by each attribute preceded by one space. *)
Theorem C04_single_spaces : forall m name kw,
  (forall nv, In nv kw -> valid_name (fst nv)) ->
  open_tag m name kw = name ++ flat_map (attr_text m) kw.
Proof. exact open_tag_form. Qed.
Print Assumptions C04_single_spaces.
Example C04_example : open_tag HTML (u "p") kw_example = u "p id=""x"" hidden title='a ""b""'".
Proof. vm_compute. reflexivity. Qed.
Example C04_example_hyps : forall nv, In nv kw_example -> valid_name (fst nv).
Proof.
  intros nv H. cbn in H. decompose [or] H; try contradiction; subst nv; cbn; (split; [discriminate|]);
  intros c Hc; cbn in Hc; decompose [or] Hc; try contradiction; subst c; reflexivity.
Qed.

(** ** C05 *)
Theorem C05_element_shape : forall t body kw, m_void t = false ->
  markup_expand t body 0 kw =
  Ok (u "<" ++ open_tag (m_mode t) (m_name t) kw ++ u ">" ++ body ++
      (if startswith [NL] body then [NL] else []) ++ u "</" ++ m_name t ++ u ">").
Proof. exact c05_element_shape. Qed.
Print Assumptions C05_element_shape.

(** The reader sees an opening tag with the attributes, then the unchanged body with the optional
    newline, then the closing tag of the same name. *)
Theorem C05_element_read : forall t body kw s rest,
  m_void t = false -> valid_name (m_name t) -> (forall nv, In nv kw -> valid_name (fst nv)) ->
  markup_expand t body 0 kw = Ok s ->
  exists s1 s2, s ++ rest = 60 :: s1 /\
    read_tag s1 = Some (IOpen (m_name t) (flat_map (seen (m_mode t)) kw),
                        body ++ (if startswith [NL] body then [NL] else []) ++ 60 :: s2) /\
    read_tag s2 = Some (IClose (m_name t), rest).
Proof. exact element_read. Qed.
Print Assumptions C05_element_read.

Theorem C05_void_element : forall t body kw, m_void t = true ->
  markup_expand t body 0 kw =
  if match body with [] => true | _ => false end
  then Ok (u "<" ++ open_tag (m_mode t) (m_name t) kw ++ u " />") else Raise VoidTag.
Proof. exact c05_void_element. Qed.
Print Assumptions C05_void_element.

Theorem C05_positional_rejected : forall t body n kw, n <> O -> markup_expand t body n kw = Raise TypeError.
Proof. exact c05_positional_rejected. Qed.
Print Assumptions C05_positional_rejected.
Example C05_example : markup_expand tag_p (NL :: u "  x") 0 [(u "id", AOther (u "a"))]
  = Ok (u "<p id=""a"">" ++ [NL] ++ u "  x" ++ [NL] ++ u "</p>").
Proof. vm_compute. reflexivity. Qed.
Example C05_example_void : markup_expand tag_br [] 0 [] = Ok (u "<br />") /\
  markup_expand tag_br (u "x") 0 [] = Raise VoidTag.
Proof. split; vm_compute; reflexivity. Qed.
Example C05_example_positional : markup_expand tag_p [] 1 [] = Raise TypeError.
Proof. vm_compute. reflexivity. Qed.

(** Names given to the [custom] tag are not checked: a value reaching the tag name breaks out of the
    element (C05 excludes this by taking names from the tag). *)
Theorem C05_custom_name_unescaped_refuted :
  exists name s, custom_expand [] [name] [] = Ok s /\ startswith (u "<x onclick=""evil()"">") s = true.
Proof. exact c05_custom_name_unescaped_refuted. Qed.
Print Assumptions C05_custom_name_unescaped_refuted.

(** The body of the [comment] tag is not escaped: it can close the comment. *)
Theorem C05_comment_breakout_refuted :
  exists body s, comment_expand body 0 [] = Ok s /\ s = u "<!--a--><b>-->".
Proof. exact c05_comment_breakout_refuted. Qed.
Print Assumptions C05_comment_breakout_refuted.
