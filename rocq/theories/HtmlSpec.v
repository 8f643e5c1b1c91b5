(** Specification side of C01-C06: how a reader of HTML/XML text sees the output.
    Of the model only the types [attrval] and [mode] and, in [attr_text], [quoteattr] are used. *)
From Coq Require Import List NArith Bool String.
From Verif Require Import PyStr Html.
Import ListNotations.
Local Open Scope N_scope.

(** Character references known to the reader. *)
Definition entities : list (str * char) :=
  [(u "&amp;", 38); (u "&lt;", 60); (u "&gt;", 62); (u "&quot;", 34);
   (u "&#10;", 10); (u "&#13;", 13); (u "&#9;", 9)].

Fixpoint match_entity (tbl : list (str * char)) (s : str) : option (char * nat) :=
  match tbl with
  | [] => None
  | (e, c) :: r => if startswith e s then Some (c, List.length e) else match_entity r s
  end.

(** Decoding of character references in character data. *)
Fixpoint decode_go (skip : nat) (s : str) : str :=
  match s with
  | [] => []
  | c :: r =>
      match skip with
      | S k => decode_go k r
      | O => match match_entity entities s with
             | Some (d, n) => d :: decode_go (pred n) r
             | None => c :: decode_go O r
             end
      end
  end.
Definition decode (s : str) : str := decode_go O s.

(** Character data that cannot be taken for markup: no angle brackets, and each ampersand begins
    one of the three basic references. *)
Definition safe_text (s : str) : Prop :=
  ~ In 60 s /\ ~ In 62 s /\
  forall a b, s = a ++ 38 :: b ->
    exists e, In e [u "amp;"; u "lt;"; u "gt;"] /\ exists r, b = e ++ r.

(** Split at the first occurrence of [q]. *)
Fixpoint break_at (q : char) (s : str) : option (str * str) :=
  match s with
  | [] => None
  | c :: r => if c =? q then Some ([], r)
              else match break_at q r with
                   | Some (a, b) => Some (c :: a, b)
                   | None => None
                   end
  end.

(** A quoted attribute value: either quote character, up to the next occurrence of the same
    character; returns the decoded value and the rest of the input. *)
Definition read_quoted (s : str) : option (str * str) :=
  match s with
  | q :: r => if (q =? 34) || (q =? 39) then
                match break_at q r with
                | Some (raw, rest) => Some (decode raw, rest)
                | None => None
                end
              else None
  | [] => None
  end.

(** Characters that may not appear in tag and attribute names: blanks, quotes, and = > / < & *)
Definition name_char (c : char) : bool :=
  negb (is_space c || (c =? 34) || (c =? 39) || (c =? 61) || (c =? 62) || (c =? 47) || (c =? 60) || (c =? 38)).
Definition valid_name (n : str) : Prop := n <> [] /\ forall c, In c n -> name_char c = true.

(** Longest prefix of name characters. *)
Fixpoint read_name (s : str) : str * str :=
  match s with
  | c :: r => if name_char c then let (a, b) := read_name r in (c :: a, b) else ([], s)
  | [] => ([], [])
  end.

(** An attribute seen by the reader: a name, with a value unless it is a bare name. *)
Definition rattr := (str * option str)%type.

(** Attributes of an opening tag, up to '>' or ' />'; fuel bounds the number of attributes.
    Returns the attributes, whether the tag is self-closing, and the rest. *)
Fixpoint read_attrs (fuel : nat) (s : str) : option (list rattr * bool * str) :=
  match fuel with
  | O => None
  | S k =>
      match s with
      | [] => None
      | c :: r =>
          if c =? 62 then Some ([], false, r)                            (* > *)
          else if negb (c =? 32) then None
          else if startswith (u "/>") r then Some ([], true, skipn 2 r)  (*  /> *)
          else
            let (n, r1) := read_name r in
            match n with
            | [] => None
            | _ =>
                if startswith (u "=") r1 then                            (* name= *)
                  match read_quoted (skipn 1 r1) with
                  | Some (v, r2) => match read_attrs k r2 with
                                    | Some (l, sc, rest) => Some ((n, Some v) :: l, sc, rest)
                                    | None => None
                                    end
                  | None => None
                  end
                else match read_attrs k r1 with
                     | Some (l, sc, rest) => Some ((n, None) :: l, sc, rest)
                     | None => None
                     end
            end
      end
  end.

(** Items of a document as seen by the reader. *)
Inductive item :=
| IOpen (name : str) (attrs : list rattr)
| IEmpty (name : str) (attrs : list rattr)     (* self-closing tag *)
| IClose (name : str)
| IChar (c : char).

(** One tag, starting after '<'. *)
Definition read_tag (s : str) : option (item * str) :=
  if startswith (u "/") s then
    let (n, r) := read_name (skipn 1 s) in
    match n with
    | [] => None
    | _ => if startswith (u ">") r then Some (IClose n, skipn 1 r) else None
    end
  else
    let (n, r) := read_name s in
    match n with
    | [] => None
    | _ => match read_attrs (S (List.length r)) r with
           | Some (l, false, rest) => Some (IOpen n l, rest)
           | Some (l, true, rest) => Some (IEmpty n l, rest)
           | None => None
           end
    end.

(** A whole document: None = not well-formed at the lexical level. Fuel = a bound on its length. *)
Fixpoint read_items (fuel : nat) (s : str) : option (list item) :=
  match s with
  | [] => Some []
  | c :: r =>
      match fuel with
      | O => None
      | S k =>
          if c =? 60 then
            match read_tag r with
            | Some (i, rest) => option_map (cons i) (read_items k rest)
            | None => None
            end
          else if c =? 62 then None
          else if c =? 38 then
            match match_entity entities s with
            | Some (d, n) => option_map (cons (IChar d)) (read_items k (skipn n s))
            | None => None
            end
          else option_map (cons (IChar c)) (read_items k r)
      end
  end.
Definition read_document (s : str) : option (list item) := read_items (List.length s) s.

(** Proper nesting: every opening tag is closed by its own closing tag. *)
Inductive well_nested : list item -> Prop :=
| wn_nil : well_nested []
| wn_char c r : well_nested r -> well_nested (IChar c :: r)
| wn_empty n a r : well_nested r -> well_nested (IEmpty n a :: r)
| wn_elem n a b r : well_nested b -> well_nested r -> well_nested (IOpen n a :: b ++ IClose n :: r).

(** Items other than blanks in the character data. *)
Definition visible (i : item) : bool :=
  match i with IChar c => negb (is_space c) | _ => true end.

(** What the reader should see of an attribute given in a script. *)
Definition seen (m : mode) (nv : str * attrval) : list rattr :=
  match snd nv with
  | ATrue => match m with HTML => [(fst nv, None)] | XHTML => [(fst nv, Some (fst nv))] end
  | AFalse => []
  | AOther s => [(fst nv, Some s)]
  end.

(** Text of an attribute in an opening tag, with one space in front. *)
Definition attr_text (m : mode) (nv : str * attrval) : str :=
  match snd nv with
  | ATrue => match m with
             | HTML => 32 :: fst nv
             | XHTML => 32 :: fst nv ++ u "=" ++ u """" ++ fst nv ++ u """"
             end
  | AFalse => []
  | AOther s => 32 :: fst nv ++ u "=" ++ quoteattr s
  end.
