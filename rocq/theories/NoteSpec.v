(** C73: comments of HTML, as a browser reads them (HTML standard, 13.2.5.43-52): after the opening they end at once with
    ">" or "->", otherwise at the first "-->" or "--!>". *)
From Coq Require Import List NArith Bool String.
From Verif Require Import PyStr Html HtmlSpec Value Dom.
Import ListNotations.
Local Open Scope string_scope.
Local Open Scope list_scope.

Definition opening : str := u "<!--".
Definition closing : str := u "-->".

(** the data of a comment, and what follows it *)
Fixpoint up_to_end (s : str) : option (str * str) :=
  match s with
  | [] => None
  | c :: r =>
      if startswith closing s then Some ([], skipn 3 s)
      else if startswith (u "--!>") s then Some ([], skipn 4 s)
      else match up_to_end r with Some (d, t) => Some (c :: d, t) | None => None end
  end.
Definition read_comment (s : str) : option (str * str) :=
  if startswith opening s then
    let r := skipn 4 s in
    if startswith (u ">") r then Some ([], skipn 1 r)
    else if startswith (u "->") r then Some ([], skipn 2 r)
    else up_to_end r
  else None.

(** the text closes the comment in which it stands *)
Definition ends_comment (t : str) : Prop :=
  (exists r, t = u ">" ++ r) \/ (exists r, t = u "->" ++ r) \/ (exists a r, t = a ++ closing ++ r) \/ (exists a r, t = a ++ u "--!>" ++ r).

(** the newline that std/html.py 93 adds *)
Definition last_newline (body : str) : str := match body with 10%N :: _ => [10%N] | _ => [] end.

(** Indentation: white space behind newlines. *)
Definition white (b : str) : Prop := forall c, In c b -> is_space c = true.
Definition indenting (b : str) : Prop := white b /\ ~ In 10%N b.
Inductive spaced : str -> str -> Prop :=
| spaced_nil : spaced [] []
| spaced_same c s t : spaced s t -> spaced (c :: s) (c :: t)
| spaced_more b s t : indenting b -> spaced s t -> spaced (10%N :: s) (10%N :: b ++ t).

(** A node with the tag %comment and no attributes; its indentation has been made relative. *)
Definition comment_node (f : info) : Prop :=
  n_kind f = KNode /\ (exists n name, n_tag f = Some (Tag n name KComment)) /\ n_attrs f = [] /\ (n_kwattrs f = None \/ n_kwattrs f = Some []) /\
  forall i, n_indent f = Some i -> indenting i.

(** Contents of a document: plain text, and elements whose names, and those of their attributes, do not end with "-" or "!". *)
Definition name_end (n : str) : Prop := last n 0%N <> 45%N /\ last n 0%N <> 33%N.
Inductive contents : str -> Prop :=
| ct_text t : contents (html_escape t)
| ct_app s t : contents s -> contents t -> contents (s ++ t)
| ct_elem m body kw s : contents body -> valid_name (m_name m) -> name_end (m_name m) ->
    (forall nv, In nv kw -> valid_name (fst nv) /\ name_end (fst nv)) -> markup_expand m body 0 kw = Ok s -> contents s.
