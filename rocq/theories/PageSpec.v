(** Specification of whole pages: documents made of nested tags with attributes, one-line texts and comments,
    how they are written as scripts, and the HTML that they stand for. Of the model only strings are
    used. *)
From Coq Require Import List NArith Bool String.
From Verif Require Import PyStr IndentSpec.
Import ListNotations.
Local Open Scope string_scope.
Local Open Scope list_scope.
Local Open Scope N_scope.

(** The three kinds of text: with characters special in HTML escaped, with embedded expressions only, and
    taken literally. *)
Inductive style := Plain | Markup | Verbatim.

(** Layout modifiers, followed by [j] blanks: a block can be appended to what precedes it, or have the
    indentation of the enclosing block. *)
Inductive placement := Own | Append (j : nat) | Dedent (j : nat).

(** [m]: number of blank lines in front, [d]: the modifier. [Note]: a comment. [Leaf]: a tag with an optional text in its line.
    [Node]: a tag with a block below, indented by [w]. *)
Inductive page :=
| Line (m : nat) (d : placement) (k : style) (x : str)
| Note (m : nat) (x : str)
| Leaf (m : nat) (d : placement) (n : str) (attrs : list (str * str)) (c : option (style * str))
| Node (m : nat) (d : placement) (n : str) (attrs : list (str * str)) (w : str) (kids : list page).

Definition blanks (m : nat) : list str := repeat [] m.

(** ** Scripts *)

Definition mark_src (d : placement) : str :=
  match d with Own => [] | Append j => u "..." ++ repeat SP j | Dedent j => u "<" ++ repeat SP j end.
Definition style_mark (k : style) : str :=
  match k with Plain => u "|" | Markup => u "/" | Verbatim => u "!" end.
(** Characters that begin or end an embedded expression are written twice. *)
Definition special (c : char) : bool := (c =? 36) || (c =? 123) || (c =? 125).        (* $ { } *)
Definition double (x : str) : str := flat_map (fun c => if special c then [c; c] else [c]) x.
Definition text_src (k : style) (x : str) : str :=
  style_mark k ++ match k with Verbatim => x | _ => double x end.
Definition attr_src (a : str * str) : str := [SP] ++ fst a ++ u "=""" ++ double (snd a) ++ u """".
Definition tag_src (n : str) (attrs : list (str * str)) : str := n ++ flat_map attr_src attrs.

(** The lines of a script. *)
Fixpoint src (t : page) : list str :=
  match t with
  | Line m d k x => blanks m ++ [mark_src d ++ text_src k x]
  | Note m x => blanks m ++ [u "--" ++ x]
  | Leaf m d n a c => blanks m ++ [mark_src d ++ tag_src n a ++ match c with Some (k, x) => [SP] ++ text_src k x | None => [] end]
  | Node m d n a w kids => blanks m ++ (mark_src d ++ tag_src n a) :: map (indent_line w) (flat_map src kids)
  end.
(** A script with [k] blank lines at the end. *)
Definition script (doc : list page) (k : nat) : str := join [NL] (flat_map src doc ++ blanks k).

(** ** HTML *)

Definition html_char (c : char) : str :=
  if c =? 38 then u "&amp;" else if c =? 60 then u "&lt;" else if c =? 62 then u "&gt;" else [c].
Definition attr_char (c : char) : str :=
  if c =? 10 then u "&#10;" else if c =? 13 then u "&#13;" else if c =? 9 then u "&#9;" else html_char c.

(** Trailing whitespace of a line does not count, nor does the first character of the text if it is
    whitespace. *)
Definition trimmed (x : str) : str :=
  match rstrip x with c :: r => if is_space c then r else c :: r | [] => [] end.
Definition text_html (k : style) (x : str) : str :=
  match k with Plain => flat_map html_char (trimmed x) | _ => trimmed x end.
Definition attr_html (a : str * str) : str := [SP] ++ fst a ++ u "=""" ++ flat_map attr_char (snd a) ++ u """".
Definition open_html (n : str) (attrs : list (str * str)) : str := u "<" ++ n ++ flat_map attr_html attrs.
Definition close_html (n : str) : str := u "</" ++ n ++ u ">".

(** What blocks add to the output: text that continues the current line, and further lines, each with a mark
    that tells if the indentation of the block applies to it. *)
Definition piece := (str * list (bool * str))%type.

(** One behind the other. Text put on an empty line begins that line; the indentation of the block with the
    empty line does not apply to it any more. *)
Fixpoint glue_lines (ls : list (bool * str)) (q : piece) : list (bool * str) :=
  match ls with
  | [] => snd q
  | [(b, l)] => (match l with [] => false | _ => b end, l ++ fst q) :: snd q
  | x :: r => x :: glue_lines r q
  end.
Definition glue (p q : piece) : piece :=
  match snd p with [] => (fst p ++ fst q, snd q) | ls => (fst p, glue_lines ls q) end.

(** The lines [ls] of a block, with [m] blank lines in front and the modifier [d]. *)
Definition lay (m : nat) (d : placement) (ls : list str) : piece :=
  glue ([], map (pair false) (blanks m))
       match d, ls with
       | Append _, l :: r => (l, map (pair true) r)
       | Dedent _, _ => ([], map (pair false) ls)
       | _, _ => ([], map (pair true) ls)
       end.

(** A line in a block indented by [w]. *)
Definition line_at (w : str) (l : bool * str) : str := if fst l then indent_line w (snd l) else snd l.

(** [x] at the end of the last line. *)
Fixpoint tack (ls : list str) (x : str) : list str :=
  match ls with [] => [x] | [l] => [l ++ x] | l :: r => l :: tack r x end.
(** An element with the tags [o] and [c]: its contents stand between the lines of the tags if they begin with
    a new line; otherwise they follow the opening tag, and the closing tag follows them. *)
Definition element (o c : str) (h : str) (ls : list str) : list str :=
  match h, ls with
  | [], _ :: _ => o :: ls ++ [c]
  | _, _ => tack ((o ++ h) :: ls) c
  end.

Section Html.
(** [void n]: the tag has no contents. *)
Variable void : str -> bool.

Fixpoint html (t : page) : piece :=
  match t with
  | Line m d k x => lay m d [text_html k x]
  | Note m x => lay m Own []
  | Leaf m d n a c =>
      lay m d [open_html n a ++
               if void n then u " />"
               else u ">" ++ match c with Some (k, x) => text_html k x | None => [] end ++ close_html n]
  | Node m d n a w kids =>
      let p := fold_right (fun t p => glue (html t) p) ([], []) kids in
      lay m d (element (open_html n a ++ u ">") (close_html n) (fst p) (map (line_at w) (snd p)))
  end.
Definition htmls (doc : list page) : piece := fold_right (fun t p => glue (html t) p) ([], []) doc.
(** The first line begins the output. *)
Definition page_text (p : piece) : str :=
  join [NL] match fst p, snd p with [], _ :: _ => map snd (snd p) | h, ls => h :: map snd ls end.
Definition page_html (doc : list page) (k : nat) : str := page_text (glue (htmls doc) ([], map (pair false) (blanks k))).
End Html.

(** ** Conditions *)

Definition letter (c : char) : bool := ((65 <=? c) && (c <=? 90)) || ((97 <=? c) && (c <=? 122)) || (c =? 95).
Definition digit (c : char) : bool := (48 <=? c) && (c <=? 57).
Definition keywords : list str :=
  [u "from"; u "import"; u "if"; u "else"; u "elif"; u "try"; u "for"; u "while"; u "break"; u "continue";
   u "pass"; u "is"; u "in"; u "not"; u "and"; u "or"].

(** An identifier other than a keyword. Names that begin with "try" are excluded; see the finding on such
    names in DESIGN.md. *)
Definition tag_name (n : str) : Prop :=
  (exists c r, n = c :: r /\ letter c = true /\ forall d, In d r -> letter d || digit d = true) /\
  ~ In n keywords /\ ~ is_prefix (u "try") n.
(** The elements of HTML that have no closing tag, and names in capital letters. *)
Definition void_elements : list str :=
  map u ["area"; "base"; "br"; "col"; "command"; "embed"; "hr"; "img"; "input"; "link"; "meta"; "param"; "source"; "track"; "wbr"]%string.
Definition capitals (n : str) : str := map (fun c => if (97 <=? c) && (c <=? 122) then c - 32 else c) n.
(** Names of attributes: ASCII, with hyphens and dots. *)
Definition attr_name (n : str) : Prop :=
  exists c r, n = c :: r /\ letter c = true /\ forall d, In d r -> letter d || digit d || (d =? 45) || (d =? 46) = true.
(** Values of attributes: no newlines, double quotes or backslashes. *)
Definition attr_ok (a : str * str) : Prop :=
  attr_name (fst a) /\ forall c, In c (snd a) -> c <> NL /\ c <> 34 /\ c <> 92.
Definition attrs_ok (l : list (str * str)) : Prop := NoDup (map fst l) /\ Forall attr_ok l.

Section Wf.
(** Tags that exist; [known n = Some true]: a void tag. *)
Variable known : str -> option bool.

Inductive wf : page -> Prop :=
| wf_line m d k x : ~ In NL x -> wf (Line m d k x)
| wf_note m x : ~ In NL x -> wf (Note m x)
| wf_leaf m d n a c v : tag_name n -> attrs_ok a -> known n = Some v ->
    (forall k x, c = Some (k, x) -> v = false /\ ~ In NL x) -> wf (Leaf m d n a c)
| wf_node m d n a w kids : tag_name n -> attrs_ok a -> known n = Some false ->
    w <> [] -> (forall c, In c w -> c = SP \/ c = TAB) -> kids <> [] -> Forall wf kids -> wf (Node m d n a w kids).
End Wf.

(** Tags without contents. *)
Definition void (known : str -> option bool) (n : str) : bool := match known n with Some v => v | None => false end.

(** ** Comments *)

(** [noted doc doc']: [doc'] is [doc] with further comments, each in its own line, at any place and depth. *)
Inductive noted : list page -> list page -> Prop :=
| noted_nil : noted [] []
| noted_here x d d' : ~ In NL x -> noted d d' -> noted d (Note 0 x :: d')
| noted_next t d d' : noted d d' -> noted (t :: d) (t :: d')
| noted_in m f n a w kids kids' d d' : noted kids kids' -> noted d d' -> noted (Node m f n a w kids :: d) (Node m f n a w kids' :: d').

(** ** Layout modifiers *)

(** The block [t] with [m] blank lines in front and the modifier [d]. *)
Definition place (m : nat) (d : placement) (t : page) : page :=
  match t with
  | Line _ _ k x => Line m d k x
  | Note _ x => Note m x
  | Leaf _ _ n a c => Leaf m d n a c
  | Node _ _ n a w kids => Node m d n a w kids
  end.
Definition shown_block (t : page) : Prop := match t with Note _ _ => False | _ => True end.
Definition modifier_of (t : page) : option placement :=
  match t with Line _ d _ _ | Leaf _ d _ _ _ | Node _ d _ _ _ _ => Some d | Note _ _ => None end.
(** Blocks that begin a new line. *)
Definition begins_line (t : page) : Prop :=
  match modifier_of t with Some (Append _) | None => False | _ => True end.
