(** Model of HTML escaping and of markup tags.
    Sources: src/hypertag/std/html.py, src/hypertag/core/tag.py, xml.sax.saxutils (stdlib). *)
From Coq Require Import List NArith Bool String.
From Verif Require Import PyStr.
Import ListNotations.
Local Open Scope N_scope.

(** std/html.py 14-18: html_escape *)
Definition html_escape (text : str) : str :=
  replace (u "<") (u "&lt;") (replace (u ">") (u "&gt;") (replace (u "&") (u "&amp;") text)).

Definition DQ : char := 34.    (* double quote *)
Definition SQ : char := 39.    (* single quote *)

(** xml.sax.saxutils.escape(data, entities): & > < first, then the extra entities in dict order *)
Definition sax_escape (data : str) : str :=
  let data := replace (u "&") (u "&amp;") data in
  let data := replace (u ">") (u "&gt;") data in
  let data := replace (u "<") (u "&lt;") data in
  let data := replace [NL] (u "&#10;") data in
  let data := replace [CR] (u "&#13;") data in
  replace [TAB] (u "&#9;") data.

(** xml.sax.saxutils.quoteattr(data) *)
Definition quoteattr (data : str) : str :=
  let data := sax_escape data in
  if mem DQ data then
    if mem SQ data then [DQ] ++ replace [DQ] (u "&quot;") data ++ [DQ]
    else [SQ] ++ data ++ [SQ]
  else [DQ] ++ data ++ [DQ].

(** Attribute values as seen by Markup._render_attr: the objects True and False, and any other
    object through str(value) (core/tag.py 120-128). *)
Inductive attrval :=
| ATrue
| AFalse
| AOther (s : str).

Inductive mode := HTML | XHTML.

(** core/tag.py 117-137: Markup._render_attr; None = attribute removed *)
Definition render_attr (m : mode) (name : str) (v : attrval) : option str :=
  match v with
  | ATrue => match m with
             | HTML => Some name
             | XHTML => Some (name ++ u "=" ++ [DQ] ++ name ++ [DQ])
             end
  | AFalse => None
  | AOther s => Some (name ++ u "=" ++ quoteattr s)
  end.

(** filter(None, ...): drops None and empty strings *)
Fixpoint filter_none (l : list (option str)) : list str :=
  match l with
  | [] => []
  | Some [] :: r => filter_none r
  | Some s :: r => s :: filter_none r
  | None :: r => filter_none r
  end.

(** A markup tag: core/tag.py 78-92 *)
Record markup := { m_name : str; m_void : bool; m_mode : mode }.

(** core/tag.py 101-103: contents of the opening tag *)
Definition open_tag (m : mode) (name : str) (kwattrs : list (str * attrval)) : str :=
  join (u " ") (name :: filter_none (map (fun nv => render_attr m (fst nv) (snd nv)) kwattrs)).

(** core/tag.py 99-115: Markup._expand; [body] is body.render() *)
Definition markup_expand' (t : markup) (name : str) (body : str) (kwattrs : list (str * attrval)) : result str :=
  let tag := open_tag (m_mode t) name kwattrs in
  if m_void t then
    match body with
    | [] => Ok (u "<" ++ tag ++ u " />")
    | _ => Raise VoidTag
    end
  else
    let nl := if startswith [NL] body then [NL] else [] in
    Ok (u "<" ++ tag ++ u ">" ++ body ++ nl ++ u "</" ++ name ++ u ">").

(** core/tag.py 94-97: Markup.expand; [npos] = number of positional attributes *)
Definition markup_expand (t : markup) (body : str) (npos : nat) (kwattrs : list (str * attrval)) : result str :=
  match npos with
  | O => markup_expand' t (m_name t) body kwattrs
  | S _ => Raise TypeError
  end.

(** std/html.py 50-70: CustomTag.expand; positional attributes given as strings, the only kind for
    which the join of core/tag.py 103 does not raise TypeError. *)
Definition custom_expand (body : str) (attrs : list str) (kwattrs : list (str * attrval)) : result str :=
  match attrs with
  | [name] => markup_expand' {| m_name := u "custom"; m_void := false; m_mode := HTML |} name body kwattrs
  | _ => Raise TypeError
  end.

(** std/html.py 81-94: the comment tag *)
Definition comment_expand (body : str) (npos : nat) (kwattrs : list (str * attrval)) : result str :=
  match npos, kwattrs with
  | O, [] => let nl := if startswith [NL] body then [NL] else [] in
             Ok (u "<!--" ++ body ++ nl ++ u "-->")
  | _, _ => Raise TypeError
  end.
