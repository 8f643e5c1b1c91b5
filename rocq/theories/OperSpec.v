(** Specification of expressions as text: how an expression is written, with parentheses where the priorities
    of operators require them (docs/index.md 692-740), and the syntax tree that it stands for. *)
From Coq Require Import List NArith ZArith Bool Arith String.
From Verif Require Import PyStr Value Ast PageSpec.
Import ListNotations.
Local Open Scope string_scope.
Local Open Scope list_scope.
Local Open Scope N_scope.

(** The constants True, False and None. *)
Inductive xconst := CTrue | CFalse | CNone.

(** Quotes around a string. *)
Inductive quot := Single | Double.

(** [XText]: a string in quotes, a text and then embedded expressions, each followed by a text. [XRaw]: a raw
    string. [XNum]: decimal digits. [XTail]: member access, indexing, slices and calls,
    with a qualifier after them. [XDict]: keys and values.
    [XOps]: operators of one priority in a row, with a minus in front. [XPipe]: a pipeline of filters.
    [XCat]: concatenation. [XNot]: repeated n times. *)
Inductive ex :=
| XName (n : str)
| XText (q : quot) (s : str) (l : list (ex * str))
| XRaw (q : quot) (s : str)
| XNum (d : str)
| XConst (c : xconst)
| XList (l : list ex)
| XTuple (l : list ex)
| XSet (l : list ex)
| XDict (l : list (ex * ex))
| XTail (e : ex) (l : list xtail) (q : qual)
| XOps (neg : bool) (e : ex) (l : list (binop * ex))
| XPipe (e : ex) (l : list xfilter)
| XCat (e : ex) (l : list ex)
| XNot (n : nat) (e : ex)
| XAnd (e : ex) (l : list ex)
| XOr (e : ex) (l : list ex)
| XIf (x c : ex) (y : option ex)
with xtail :=
| XMember (n : str)
| XItem (e : ex)
| XSlice (x y z : option ex)
| XCall (args : list (option str * ex))
with xfilter :=
| XFilter (f : ex) (path : list str) (args : option (list (option str * ex))).

(** ** Priorities *)

Definition op_prio (o : binop) : nat :=
  match o with
  | OPow => 13
  | OMul | ODiv | OFloorDiv | OMod => 12
  | OAdd | OSub => 11
  | OShl | OShr => 10
  | OBitAnd => 9
  | OBitXor => 8
  | OBitOr => 7
  | OLt | OGt | OEq | OGe | OLe | ONe | OIs | OIsNot | OIn | ONotIn => 4
  end.

(** Priority of the outermost operator. Unary minus has the priority of + and -. Numbers are put in
    parentheses in front of tail operators, because of the dot in 1.x *)
Definition prio (e : ex) : nat :=
  match e with
  | XName _ | XText _ _ _ | XRaw _ _ | XConst _ | XList _ | XTuple _ | XSet _ | XDict _ => 15
  | XTail _ _ _ | XNum _ => 14
  | XOps _ _ ((o, _) :: _) => op_prio o
  | XOps _ _ [] => 11
  | XPipe _ _ => 6
  | XCat _ _ => 5
  | XNot _ _ => 3
  | XAnd _ _ => 2
  | XOr _ _ => 1
  | XIf _ _ _ => 0
  end.

(** ** Text *)

Definition op_text (o : binop) : str :=
  match o with
  | OAdd => u "+" | OSub => u "-" | OPow => u "**" | OMul => u "*" | ODiv => u "/" | OFloorDiv => u "//"
  | OMod => u "%" | OShl => u "<<" | OShr => u ">>" | OBitAnd => u "&" | OBitOr => u "|" | OBitXor => u "^"
  | OLt => u "<" | OGt => u ">" | OEq => u "==" | OGe => u ">=" | OLe => u "<=" | ONe => u "!="
  | OIs => u "is" | OIsNot => u "is not" | OIn => u "in" | ONotIn => u "not in"
  end.

Definition const_text (c : xconst) : str := match c with CTrue => u "True" | CFalse => u "False" | CNone => u "None" end.
Definition qual_text (q : qual) : str := match q with QNone => [] | QOpt => u "?" | QReq => u "!" end.

(** Strings. In the source, a backslash is doubled, a line break is \n, and the quote is a hexadecimal escape;
    the characters $ { } are doubled. *)
Definition quot_char (q : quot) : char := match q with Single => 39 | Double => 34 end.
Definition str_char (q : quot) (c : char) : str :=
  if special c then [c; c]
  else if c =? 92 then [92; 92]
  else if c =? NL then u "\n"
  else if c =? quot_char q then (match q with Single => u "\x27" | Double => u "\x22" end)
  else [c].
Definition str_text (q : quot) (s : str) : str := flat_map (str_char q) s.

Definition in_parens (x : str) : str := u "(" ++ x ++ u ")".

Section Text.
(** The blanks around every operator. *)
Variable b : str.

(** Operand in a place for priorities from [p] up. *)
Definition operand (text : ex -> str) (p : nat) (e : ex) : str :=
  if (prio e <? p)%nat then in_parens (text e) else text e.
Definition args_text (text : ex -> str) (l : list (option str * ex)) : str :=
  join (u "," ++ b) (map (fun a => match a with
                                   | (Some n, e) => n ++ u "=" ++ text e
                                   | (None, e) => text e
                                   end) l).

Fixpoint text (e : ex) : str :=
  match e with
  | XName n => n
  | XText q s l =>
      [quot_char q] ++ str_text q s ++
      flat_map (fun a => match a with (e, z) => u "{" ++ text e ++ u "}" ++ str_text q z end) l ++ [quot_char q]
  | XRaw q s => u "r" ++ [quot_char q] ++ s ++ [quot_char q]
  | XNum d => d
  | XConst c => const_text c
  | XList l => u "[" ++ join (u "," ++ b) (map text l) ++ u "]"
  | XTuple l => u "(" ++ join (u "," ++ b) (map text l) ++ u ")"
  | XSet l => u "{" ++ join (u "," ++ b) (map (operand text 7) l) ++ u "}"
  | XDict l =>
      u "{" ++ join (u "," ++ b) (map (fun a => match a with (k, v) => operand text 7 k ++ b ++ u ":" ++ b ++ text v end) l) ++ u "}"
  | XTail e l q => operand text 15 e ++ flat_map tail_text l ++ qual_text q
  | XOps neg e l =>
      let p := S (prio (XOps neg e l)) in
      (if neg then u "-" ++ b else []) ++ operand text p e ++
      flat_map (fun a => match a with (o, e) => b ++ op_text o ++ b ++ operand text p e end) l
  | XPipe e l => operand text 7 e ++ flat_map (fun f => b ++ u ":" ++ b ++ filter_text f) l
  | XCat e l => operand text 6 e ++ flat_map (fun e => b ++ operand text 6 e) l
  | XNot n e => flat_map (fun _ => u "not" ++ b) (repeat tt n) ++ operand text 4 e
  | XAnd e l => operand text 3 e ++ flat_map (fun e => b ++ u "and" ++ b ++ operand text 3 e) l
  | XOr e l => operand text 2 e ++ flat_map (fun e => b ++ u "or" ++ b ++ operand text 2 e) l
  | XIf x c y =>
      operand text 1 x ++ b ++ u "if" ++ b ++ operand text 1 c ++
      match y with Some y => b ++ u "else" ++ b ++ text y | None => [] end
  end
with tail_text (t : xtail) : str :=
  match t with
  | XMember n => u "." ++ n
  | XItem e => u "[" ++ operand text 7 e ++ u "]"
  | XSlice x y z =>
      u "[" ++ match x with Some e => operand text 7 e ++ b | None => [] end ++
      u ":" ++ match y with Some e => b ++ operand text 7 e | None => [] end ++
      match z with
      | Some e => match y with Some _ => b | None => [] end ++ u ":" ++ b ++ operand text 7 e
      | None => []
      end ++ u "]"
  | XCall a => u "(" ++ args_text text a ++ u ")"
  end
with filter_text (f : xfilter) : str :=
  match f with
  | XFilter f path a =>
      operand text 15 f ++ flat_map (fun n => u "." ++ n) path ++
      match a with Some a => u "(" ++ args_text text a ++ u ")" | None => [] end
  end.

(** ** Syntax tree *)

(** Parentheses, elements of collections, arguments and indices are roots of expressions of their own. *)
Definition root (e : expr) : expr := ERoot e QNone.
Definition sub (tree : ex -> expr) (p : nat) (e : ex) : expr :=
  if (prio e <? p)%nat then root (tree e) else tree e.
(** A qualifier right after parentheses belongs to the expression inside, too. *)
Definition sub_qual (tree : ex -> expr) (l : list xtail) (q : qual) (e : ex) : expr :=
  if (prio e <? 15)%nat then ERoot (tree e) (match l with [] => q | _ => QNone end) else tree e.

(** A text in quotes is read in pieces: every one of the characters $ { } is a piece, and the characters between
    them are. *)
Fixpoint runs (s : str) : list str :=
  match s with
  | [] => []
  | c :: r =>
      match runs r with
      | (d :: x) :: l => if special c || special d then [c] :: (d :: x) :: l else (c :: d :: x) :: l
      | l => [c] :: l
      end
  end.

Fixpoint decimal (acc : Z) (d : str) : Z :=
  match d with
  | [] => acc
  | c :: r => decimal (10 * acc + Z.of_N (c - 48)) r
  end.

Definition const_value (c : xconst) : val := match c with CTrue => VBool true | CFalse => VBool false | CNone => VNone end.

Fixpoint tree (e : ex) : expr :=
  match e with
  | XName n => EVar n None
  | XText q s l =>
      EFormat (map PText (runs s) ++ flat_map (fun a => match a with (e, z) => PExpr (root (tree e)) :: map PText (runs z) end) l)
  | XRaw _ s => ELit (VStr s)
  | XNum d => ELit (VInt (decimal 0 d))
  | XConst c => ELit (const_value c)
  | XList l => EList (map (fun e => root (tree e)) l)
  | XTuple l => ETuple (map (fun e => root (tree e)) l)
  | XSet l => ESet (map (fun e => root (sub tree 7 e)) l)
  | XDict l => EDict (map (fun a => match a with (k, v) => (root (sub tree 7 k), root (tree v)) end) l)
  | XTail e l q => EFactor (sub_qual tree l q e) (map tail_tree l) q
  | XOps neg e l =>
      let p := S (prio (XOps neg e l)) in
      match l with
      | (OBitAnd, _) :: _ => ESimple OBitAnd (sub tree p e) (map (fun a => match a with (_, e) => sub tree p e end) l)
      | (OBitXor, _) :: _ => ESimple OBitXor (sub tree p e) (map (fun a => match a with (_, e) => sub tree p e end) l)
      | (OBitOr, _) :: _ => ESimple OBitOr (sub tree p e) (map (fun a => match a with (_, e) => sub tree p e end) l)
      | _ => EChain neg (sub tree p e) (map (fun a => match a with (o, e) => (o, sub tree p e) end) l)
      end
  | XPipe e l => EPipe (sub tree 7 e) (map filter_tree l)
  | XCat e l => EConcat (sub tree 6 e :: map (sub tree 6) l)
  | XNot n e => ENot n (sub tree 4 e)
  | XAnd e l => EAnd (sub tree 3 e) (map (sub tree 3) l)
  | XOr e l => EOr (sub tree 2 e) (map (sub tree 2) l)
  | XIf x c y => EIf (sub tree 1 x) (sub tree 1 c) (match y with Some y => Some (tree y) | None => None end)
  end
with tail_tree (t : xtail) : tail :=
  match t with
  | XMember n => TMember n
  | XItem e => TIndex (root (sub tree 7 e))
  | XSlice x y z =>
      TSlice (match x with Some e => Some (root (sub tree 7 e)) | None => None end)
        (match y with Some e => Some (root (sub tree 7 e)) | None => None end)
        (match z with Some e => Some (root (sub tree 7 e)) | None => None end)
  | XCall a => TCall (map (fun a => match a with (n, e) => (n, root (tree e)) end) a)
  end
with filter_tree (f : xfilter) : expr :=
  match f with
  | XFilter f path a =>
      EFactor (match path with [] => sub tree 15 f | _ => EFactor (sub tree 15 f) (map TMember path) QNone end)
        (match a with Some a => [TPartial (map (fun a => match a with (n, e) => (n, root (tree e)) end) a)] | None => [] end)
        QNone
  end.

(** ** Conditions *)

Definition nonempty {A} (l : list A) : bool := match l with [] => false | _ => true end.
Definition id_name (n : str) : bool :=
  match n with c :: r => letter c && forallb (fun d => letter d || digit d) r | [] => false end &&
  negb (existsb (str_eqb n) keywords).
(** Names of variables. Those that begin with the name of a constant are excluded; see the finding. *)
Definition var_name (n : str) : bool :=
  id_name n && negb (startswith (u "True") n) && negb (startswith (u "False") n) && negb (startswith (u "None") n).
(** Right after an embedded expression, ? and ! are qualifiers. *)
Definition not_qual (z : str) : bool := negb (startswith (u "?") z) && negb (startswith (u "!") z).

(** The second and further operands of a concatenation must begin with a letter, a digit or a quote: after a
    blank, a bracket or a dot is a tail operator, and a minus is a subtraction. *)
Definition plain_start (x : str) : bool := match x with c :: _ => letter c || digit c || (c =? 34) || (c =? 39) | [] => false end.
(** After the operator "is", a name that begins with "not" is taken for "is not". *)
Definition op_operand (o : binop) (x : str) : bool :=
  match o with OIs => negb (startswith (u "not") x) | _ => true end.

Fixpoint fine (e : ex) : bool :=
  match e with
  | XName n => var_name n
  | XText _ _ l =>
      forallb (fun a => match a with (e, z) => fine e && negb (startswith (u "{") (text e)) && not_qual z end) l
  | XRaw q s => forallb (fun c => negb (c =? NL) && negb (c =? quot_char q)) s
  | XNum d => nonempty d && forallb digit d
  | XConst _ => true
  | XList l => forallb fine l
  | XTuple l => (2 <=? List.length l)%nat && forallb fine l
  | XSet l => nonempty l && forallb fine l
  | XDict l => forallb (fun a => match a with (k, v) => fine k && fine v end) l
  | XTail e l q => fine e && (nonempty l || match q with QNone => false | _ => true end) && forallb fine_tail l
  | XOps neg e l =>
      let p := prio (XOps neg e l) in
      fine e && (if neg then (p =? 11)%nat else nonempty l) &&
      forallb (fun a => match a with (o, e) => (op_prio o =? p)%nat && fine e && op_operand o (operand text (S p) e) end) l
  | XPipe e l => fine e && nonempty l && forallb fine_filter l
  | XCat e l => fine e && nonempty l && forallb (fun e => fine e && plain_start (operand text 6 e)) l
  | XNot n e => (1 <=? n)%nat && fine e
  | XAnd e l | XOr e l => fine e && nonempty l && forallb fine l
  | XIf x c y => fine x && fine c && match y with Some y => fine y | None => true end
  end
with fine_tail (t : xtail) : bool :=
  match t with
  | XMember n => id_name n
  | XItem e => fine e
  | XSlice x y z =>
      match x with Some e => fine e | None => true end && match y with Some e => fine e | None => true end &&
      match z with Some e => fine e | None => true end
  | XCall a => forallb (fun a => match a with (n, e) => match n with Some n => id_name n | None => true end && fine e end) a
  end
with fine_filter (f : xfilter) : bool :=
  match f with
  | XFilter f path a =>
      fine f && forallb id_name path &&
      match a with
      | Some a => forallb (fun a => match a with (n, e) => match n with Some n => id_name n | None => true end && fine e end) a
      | None => true
      end
  end.
End Text.

Definition blank_text (b : str) : Prop := b <> [] /\ forall c, In c b -> c = SP \/ c = TAB.

(** ** Lines of text *)

(** A text, then expressions in braces, each followed by a text; the characters $ { } of texts are doubled. *)
Definition line_text (b : str) (s : str) (l : list (ex * str)) : str :=
  double s ++ flat_map (fun a => match a with (e, s) => u "{" ++ text b e ++ u "}" ++ double s end) l.
(** What a line stands for: every text is a concatenation of static parts, every expression is one part. *)
Inductive line_parts : str -> list (ex * str) -> list part -> Prop :=
| line_end qs : line_parts (List.concat qs) [] (map PText qs)
| line_expr qs e s l ps : line_parts s l ps -> line_parts (List.concat qs) ((e, s) :: l) (map PText qs ++ PExpr (root (tree e)) :: ps).
(** Right after an expression, ? and ! are qualifiers. Two braces in a row are one brace of the text. *)
Definition line_fine (b : str) (s : str) (l : list (ex * str)) : Prop :=
  ~ In NL s /\ forall e z, In (e, z) l -> fine b e = true /\ startswith (u "{") (text b e) = false /\ ~ In NL z /\
    forall c r, z = c :: r -> c <> 63 /\ c <> 33.
