(** C73: comments of HTML. *)
From Coq Require Import List NArith Bool String.
From Verif Require Import PyStr Html HtmlSpec Value Dom NoteSpec NoteProofs NoteRender NoteMarkup.
Import ListNotations.
Local Open Scope string_scope.
Local Open Scope list_scope.

(** A browser that reads the output of the tag %comment finds the body as the data of the comment, and whatever follows behind it,
    unless the body itself closes a comment, and only then. *)
Theorem C73_exact : forall body out rest, comment_expand body 0 [] = Ok out ->
  (read_comment (out ++ rest) = Some (body ++ last_newline body, rest) <-> ~ ends_comment body).
Proof. exact comment_exact. Qed.
Print Assumptions C73_exact.
(** Plain text, which is escaped, never closes it. *)
Theorem C73_escaped : forall t out rest, comment_expand (html_escape t) 0 [] = Ok out ->
  read_comment (out ++ rest) = Some (html_escape t ++ last_newline (html_escape t), rest).
Proof. exact comment_escaped. Qed.
Print Assumptions C73_escaped.
Example C73_example : let t := u "a --> b" in let rest := u "<p>" in
  (exists out, comment_expand (html_escape t) 0 [] = Ok out /\ out = u "<!--a --&gt; b-->" /\ read_comment (out ++ rest) = Some (u "a --&gt; b", rest)) /\
  (exists out, comment_expand t 0 [] = Ok out /\ ends_comment t /\ read_comment (out ++ rest) = Some (u "a ", u " b--><p>")) /\
  (exists out, comment_expand (u "->") 0 [] = Ok out /\ read_comment (out ++ rest) = Some ([], u "--><p>")) /\
  (exists out, comment_expand (NL :: u "x-") 0 [] = Ok out /\ out = u "<!--" ++ [NL] ++ u "x-" ++ [NL] ++ u "-->" /\
    read_comment (out ++ rest) = Some ([NL] ++ u "x-" ++ [NL], rest)).
Proof.
  cbv zeta. split; [eexists; repeat split; vm_compute; reflexivity|]. split.
  { eexists. split; [reflexivity|]. split; [right; right; left; exists (u "a "), (u " b"); reflexivity|vm_compute; reflexivity]. }
  split; [eexists; split; [reflexivity|vm_compute; reflexivity]|]. eexists. repeat split; vm_compute; reflexivity.
Qed.
(** The same for a node of a DOM, at any indentation, whose contents render to a text without ">", like all plain text: behind white space
    there is one comment, whose data is this text, indented. *)
Theorem C73_rendered : forall P k h i body, comment_node (info_at h i) -> dom_render P k h (body_at h i) = Done body -> ~ In 62%N body ->
  exists pre data, render P (S k) h i = Done (pre ++ opening ++ data ++ closing) /\ white pre /\ spaced (body ++ last_newline body) data /\
    forall rest, read_comment (opening ++ data ++ closing ++ rest) = Some (data, rest).
Proof. exact comment_rendered. Qed.
Print Assumptions C73_rendered.
Example C73_rendered_example : let P := {| p_str := fun _ => Raise TypeError; p_tagfun := fun _ _ _ _ => Raise TypeError |} in
  comment_node (info_at note_heap 0) /\ dom_render P 1 note_heap (body_at note_heap 0) = Done (NL :: u "a --&gt; b" ++ [NL] ++ u "c") /\
  render P 2 note_heap 0 = Done (NL :: u "  <!--" ++ [NL] ++ u "  a --&gt; b" ++ [NL] ++ u "  c" ++ [NL] ++ u "  -->").
Proof. cbv zeta. split; [exact note_heap_ok|]. split; vm_compute; reflexivity. Qed.
Theorem C73_attributes : forall body npos kw, npos <> 0 \/ kw <> [] -> comment_expand body npos kw = Raise TypeError.
Proof. exact comment_attributes. Qed.
Print Assumptions C73_attributes.
Example C73_attributes_example : comment_expand (u "x") 1 [] = Raise TypeError /\ 1 <> 0.
Proof. split; [reflexivity|discriminate]. Qed.
(** Finding: a comment inside of a comment always closes it (std/html.py 86-94: the body is not changed in any way). *)
Theorem C73_nested : forall body inner a b out, comment_expand body 0 [] = Ok inner -> comment_expand (a ++ inner ++ b) 0 [] = Ok out ->
  forall rest, read_comment (out ++ rest) <> Some ((a ++ inner ++ b) ++ last_newline (a ++ inner ++ b), rest).
Proof. exact nested_wrong. Qed.
Print Assumptions C73_nested.
Theorem C73_nested_refuted : exists inner out, comment_expand (u "x") 0 [] = Ok inner /\ comment_expand (u "a " ++ inner ++ u " b") 0 [] = Ok out /\
  read_comment out = Some (u "a <!--x", u " b-->").
Proof. exact nested_sample. Qed.
Print Assumptions C73_nested_refuted.
(** Nor do elements close it, with escaped text and any values of attributes in them, if no name ends with a hyphen or an exclamation mark. *)
Theorem C73_markup : forall body out rest, contents body -> comment_expand body 0 [] = Ok out ->
  read_comment (out ++ rest) = Some (body ++ last_newline body, rest).
Proof. exact comment_contents. Qed.
Print Assumptions C73_markup.
Example C73_markup_example : contents (u "<p title=""a --&gt; b"">x --&gt; y</p>").
Proof. exact sample_contents. Qed.
(** The condition is needed: attributes that are True leave their name in front of ">". *)
Theorem C73_excluded_hyphens : exists n s out, valid_name n /\ markup_expand note_p (html_escape (u "x")) 0 [(n, ATrue)] = Ok s /\ comment_expand s 0 [] = Ok out /\
  read_comment out = Some (u "<p data", u "x</p>-->").
Proof. exact hyphens_end. Qed.
Print Assumptions C73_excluded_hyphens.
