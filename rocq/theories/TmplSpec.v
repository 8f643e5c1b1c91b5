(** Specification of templates: pages with embedded expressions, variables, conditional blocks, loops, definitions
    of hypertags and their uses; how they are written as scripts, the values of expressions, and the HTML that
    they stand for. Of the model only strings and values are used. *)
From Coq Require Import List NArith ZArith Bool Arith String.
From Verif Require Import PyStr Value Ast IndentSpec PageSpec OperSpec.
Import ListNotations.
Local Open Scope string_scope.
Local Open Scope list_scope.
Local Open Scope N_scope.

(** ** Templates *)

(** A text with expressions, as in OperSpec: a text, then expressions in braces, each followed by a text. *)
Definition mixed : Type := str * list (ex * str).
(** A text of several lines: the one after the marker; the lines below, each with the number of blank lines in
    front of it, its indentation, in spaces, and its text. *)
Definition para : Type := mixed * list (nat * nat * mixed).

(** Shortcuts for attributes, .word and #word, with a literal or an expression in braces. *)
Inductive word := WText (x : str) | WExpr (e : ex).
Inductive sigil := Class | Id.
(** The value of an attribute, an argument without a name, or a default value: a factor without blanks between
    operators, like "text" or x.y[1], or any expression in braces. *)
Inductive given := GBare (e : ex) | GBraced (e : ex).
Definition given_expr (g : given) : ex := match g with GBare e | GBraced e => e end.
(** [AVal]: n=value. [AShort]: shortcuts after a blank. *)
Inductive attr :=
| AVal (n : str) (g : given)
| AShort (l : list (sigil * word)).
(** A tag: its name, shortcuts right after the name, attributes. *)
Definition tagx : Type := str * list (sigil * word) * list attr.
(** The use of a hypertag: its name, arguments without names, then attributes. *)
Definition use : Type := str * list given * list attr.

(** [m]: number of blank lines in front; [w]: indentation of the block below. [TNote]: a comment: its mark, first line
    and lines below. [TLeaf]: a chain of tags with an optional text. [TNode]: a chain of tags with a block. [TIf]: the branches, then "else".
    [TFor]: variables, sequence, block. [TWhile]: condition, block, optional block for a condition that is false at once.
    [TTry]: alternative blocks. [TSet]: an assignment. [TAug]: x += e and
    the like. [TUse]: use of a hypertag with an optional text.
    [TBlock]: use of a hypertag with a block. [TBody]: the place of the body of a hypertag. *)
Inductive tmpl :=
| TLine (m : nat) (k : style) (x : para)
| TNote (m : nat) (h : bool) (x : str) (tl : list (nat * nat * str))
| TLeaf (m : nat) (g : list tagx) (c : option (style * para))
| TNode (m : nat) (g : list tagx) (w : str) (kids : list tmpl)
| TIf (m : nat) (cs : list (ex * (str * list tmpl))) (els : option (str * list tmpl))
| TFor (m : nat) (xs : list str) (e : ex) (w : str) (kids : list tmpl)
| TWhile (m : nat) (e : ex) (w : str) (kids : list tmpl) (els : option (str * list tmpl))
| TTry (m : nat) (alts : list (str * list tmpl))
| TSet (m : nat) (xs : list str) (e : ex)
| TAug (m : nat) (x : str) (o : binop) (e : ex)
| TUse (m : nat) (h : use) (c : option (style * para))
| TBlock (m : nat) (h : use) (w : str) (kids : list tmpl)
| TBody (m : nat) (n : str).

(** Definition of a hypertag: its name, the name of the body, if it has one, parameters with default values. *)
(** [DNote]: a comment between definitions. *)
Inductive def :=
| Def (m : nat) (n : str) (bn : option str) (ps : list (str * option given)) (w : str) (kids : list tmpl)
| DNote (m : nat) (h : bool) (x : str) (tl : list (nat * nat * str)).
Definition defined (ds : list def) : list str := flat_map (fun d => match d with Def _ n _ _ _ _ => [n] | DNote _ _ _ _ => [] end) ds.

(** ** Scripts *)

(** [OL]: a line with the lines of the block below it. [OP]: a line with the lines of a text below it. *)
Inductive ol :=
| OL (m : nat) (l : str) (w : str) (kids : list ol)
| OP (m : nat) (l : str) (tl : list (nat * nat * str)).
Definition tail_src (a : nat * nat * str) : list str := match a with (m, n, x) => blanks m ++ [repeatc SP n ++ x] end.
Fixpoint ol_src (t : ol) : list str :=
  match t with
  | OL m l w kids => blanks m ++ l :: map (indent_line w) (flat_map ol_src kids)
  | OP m l tl => blanks m ++ l :: flat_map tail_src tl
  end.

Definition sigil_text (k : sigil) : str := match k with Class => u "." | Id => u "#" end.
Definition sigil_name (k : sigil) : str := match k with Class => u "class" | Id => u "id" end.

Section Text.
(** The blanks around operators. *)
Variable b : str.

Definition word_text (a : sigil * word) : str :=
  sigil_text (fst a) ++ match snd a with WText x => x | WExpr e => u "{" ++ text b e ++ u "}" end.
Definition given_text (g : given) : str :=
  match g with GBare e => operand (text b) 14 e | GBraced e => u "{" ++ text b e ++ u "}" end.
Definition attr_text (a : attr) : str :=
  [SP] ++
  match a with
  | AVal n g => n ++ u "=" ++ given_text g
  | AShort l => flat_map word_text l
  end.
Definition tag_text (g : tagx) : str :=
  match g with (n, l, a) => n ++ flat_map word_text l ++ flat_map attr_text a end.
Definition use_text (h : use) : str :=
  match h with (n, pos, a) => n ++ flat_map (fun g => [SP] ++ given_text g) pos ++ flat_map attr_text a end.
Definition param_text (p : str * option given) : str :=
  [SP] ++ fst p ++ match snd p with Some g => u "=" ++ given_text g | None => [] end.
Definition chain_text (g : list tagx) : str := join (u " : ") (map tag_text g).
Definition mixed_text (k : style) (x : mixed) : str :=
  match k with Verbatim => fst x | _ => line_text b (fst x) (snd x) end.
Definition body_text (k : style) (x : mixed) : str := style_mark k ++ mixed_text k x.
Definition tail_texts (k : style) (l : list (nat * nat * mixed)) : list (nat * nat * str) :=
  map (fun a => match a with (m, n, x) => (m, n, mixed_text k x) end) l.
(** The mark of a comment. *)
Definition note_mark (h : bool) : str := if h then u "#" else u "--".
(** Conditions and sequences are put in parentheses, unless they are factors. *)
Definition head_text (e : ex) : str := operand (text b) 14 e.
Definition names_text (xs : list str) : str := join (u ", ") xs.

Fixpoint ols (t : tmpl) : list ol :=
  match t with
  | TLine m k x => [OP m (body_text k (fst x)) (tail_texts k (snd x))]
  | TNote m h x tl => [OP m (note_mark h ++ x) tl]
  | TLeaf m g c => 
      [match c with
       | Some (k, x) => OP m (chain_text g ++ [SP] ++ body_text k (fst x)) (tail_texts k (snd x))
       | None => OL m (chain_text g) [] []
       end]
  | TNode m g w kids => [OL m (chain_text g) w (flat_map ols kids)]
  | TIf m cs els =>
      match cs with
      | [] => []
      | (e, (w, kids)) :: r =>
          OL m (u "if " ++ head_text e) w (flat_map ols kids) ::
          map (fun c => match c with (e, (w, kids)) => OL 0 (u "elif " ++ head_text e) w (flat_map ols kids) end) r
      end ++
      match els with Some (w, kids) => [OL 0 (u "else") w (flat_map ols kids)] | None => [] end
  | TFor m xs e w kids => [OL m (u "for " ++ names_text xs ++ u " in " ++ head_text e) w (flat_map ols kids)]
  | TWhile m e w kids els =>
      OL m (u "while " ++ head_text e) w (flat_map ols kids) ::
      match els with Some (w, kids) => [OL 0 (u "else") w (flat_map ols kids)] | None => [] end
  | TTry m alts =>
      match alts with
      | [] => []
      | (w, kids) :: r =>
          OL m (u "try") w (flat_map ols kids) ::
          map (fun a => match a with (w, kids) => OL 0 (u "else") w (flat_map ols kids) end) r
      end
  | TSet m xs e => [OL m (u "$ " ++ names_text xs ++ u " = " ++ text b e) [] []]
  | TAug m x o e => [OL m (u "$ " ++ x ++ [SP] ++ op_text o ++ u "= " ++ text b e) [] []]
  | TUse m h c => 
      [match c with
       | Some (k, x) => OP m (use_text h ++ [SP] ++ body_text k (fst x)) (tail_texts k (snd x))
       | None => OL m (use_text h) [] []
       end]
  | TBlock m h w kids => [OL m (use_text h) w (flat_map ols kids)]
  | TBody m n => [OL m (u "@" ++ n) [] []]
  end.
Definition def_text (n : str) (bn : option str) (ps : list (str * option given)) : str :=
  u "%" ++ n ++ match bn with Some x => u " @" ++ x | None => [] end ++ flat_map param_text ps.
Definition def_ol (d : def) : ol :=
  match d with
  | Def m n bn ps w kids => OL m (def_text n bn ps) w (flat_map ols kids)
  | DNote m h x tl => OP m (note_mark h ++ x) tl
  end.

(** A script: a line with the names of the context, if any; definitions; the template; [k] blank lines. *)
Definition header (names : list str) : list ol :=
  match names with [] => [] | _ => [OL 0 (u "context " ++ join (u ", ") (map (cons 36) names)) [] []] end.
Definition script (names : list str) (ds : list def) (doc : list tmpl) (k : nat) : str :=
  join [NL] (flat_map ol_src (header names ++ map def_ol ds ++ flat_map ols doc) ++ blanks k).
(** Import lines with hypertags [%n] in front of the definitions. *)
Definition import_ol (i : str * list str) : ol := OL 0 (u "from " ++ fst i ++ u " import " ++ join (u ", ") (map (cons 37) (snd i))) [] [].
Definition book (names : list str) (imps : list (str * list str)) (ds : list def) (doc : list tmpl) (k : nat) : str :=
  join [NL] (flat_map ol_src (header names ++ map import_ol imps ++ map def_ol ds ++ flat_map ols doc) ++ blanks k).
Definition template (names : list str) (doc : list tmpl) (k : nat) : str := script names [] doc k.
End Text.

(** ** Values *)

(** A value, an exception, or nothing known. *)
Inductive ans (A : Type) := Is (a : A) | Raises | Open.
Arguments Is {A}. Arguments Raises {A}. Arguments Open {A}.

(** What Python answers. *)
Record py := {
  py_truth : val -> option bool;                                  (* bool(v) of objects, if known *)
  py_text : val -> ans str;                                       (* str(v) *)
  py_op : binop -> val -> val -> ans val;
  py_neg : val -> ans val;
  py_member : val -> str -> ans val;
  py_item : val -> val -> ans val;
  py_slice : val -> val -> val -> val -> ans val;                 (* x[slice(a, b, c)] *)
  py_call : val -> list val -> list (str * val) -> ans val;
  py_iter : val -> ans (list val);                                (* items of objects *)
  py_set : list val -> ans val;
  py_dict : list (val * val) -> ans val
}.

Definition oseq {A B} (x : ans A) (f : A -> ans B) : ans B :=
  match x with Is a => f a | Raises => Raises | Open => Open end.
Notation "x <: r ;; k" := (oseq r (fun x => k)) (at level 61, r at next level, right associativity).
(** A part that may be missing: then nothing is known. *)
Definition given_by {A} (x : option A) : ans A := match x with Some a => Is a | None => Open end.
Definition omap {A B} (f : A -> ans B) : list A -> ans (list B) :=
  fix go (l : list A) : ans (list B) :=
    match l with
    | [] => Is []
    | x :: r => y <: f x ;; ys <: go r ;; Is (y :: ys)
    end.
(** The last ones first. *)
Definition omap_back {A B} (f : A -> ans B) : list A -> ans (list B) :=
  fix go (l : list A) : ans (list B) :=
    match l with
    | [] => Is []
    | x :: r => ys <: go r ;; y <: f x ;; Is (y :: ys)
    end.
Definition oloop {A} (test : A -> ans bool) (one : A -> ans A) : nat -> A -> ans A :=
  fix go n a := match n with
                | O => Open
                | S n => t <: test a ;; if (t : bool) then a <: one a ;; go n a else Is a
                end.
Definition ofold {A B} (f : B -> A -> ans B) : list A -> B -> ans B :=
  fix go (l : list A) (v : B) : ans B :=
    match l with
    | [] => Is v
    | x :: r => w <: f v x ;; go r w
    end.

(** Variables and their values. *)
Definition store := list (str * val).
Fixpoint get (x : str) (r : store) : option val :=
  match r with
  | [] => None
  | (y, v) :: r => if str_eqb x y then Some v else get x r
  end.
Fixpoint set (x : str) (v : val) (r : store) : store :=
  match r with
  | [] => [(x, v)]
  | (y, w) :: r => if str_eqb x y then (y, v) :: r else (y, w) :: set x v r
  end.

Section Values.
Variable P : py.

Definition bool_of (v : val) : ans bool :=
  match v with
  | VNone => Is false
  | VBool b => Is b
  | VInt z => Is (negb (Z.eqb z 0))
  | VStr s => Is (nonempty s)
  | VList l | VTuple l | VSet l => Is (nonempty l)
  | VDict d => Is (nonempty d)
  | VDom l => Is (nonempty l)
  | VObj _ => given_by (py_truth P v)
  | _ => Is true
  end.
Definition text_of (v : val) : ans str :=
  match v with
  | VNone => Raises
  | VStr s => Is s
  | _ => py_text P v
  end.
Definition items_of (v : val) : ans (list val) :=
  match v with
  | VList l | VTuple l | VSet l => Is l
  | VDict d => Is (map fst d)
  | VStr s => Is (map (fun c => VStr [c]) s)
  | VObj _ => py_iter P v
  | VNone | VBool _ | VInt _ => Raises
  | _ => Open
  end.
(** Only functions of Python are called here. *)
Definition call (f : val) (args : list val) (kw : list (str * val)) : ans val :=
  match f with VObj _ => py_call P f args kw | _ => Open end.
Fixpoint distinct (l : list str) : bool :=
  match l with [] => true | x :: r => negb (existsb (str_eqb x) r) && distinct r end.
(** Positional and named arguments. *)
Definition args_of (l : list (option str * val)) : ans (list val * list (str * val)) :=
  let kw := flat_map (fun a => match fst a with Some n => [(n, snd a)] | None => [] end) l in
  if distinct (map fst kw) then Is (flat_map (fun a => match fst a with Some _ => [] | None => [snd a] end) l, kw) else Open.
(** The truth value of every value must be known: it is tested by the code in most places. *)
Definition tested (v : ans val) : ans val := v <: v ;; _ <: bool_of v ;; Is v.
(** The qualifiers: e? is the empty text if e is false or raises, e! raises if e is false. *)
Definition qualify (q : qual) (x : ans val) : ans val :=
  match q with
  | QNone => x
  | QOpt => match x with
            | Raises => Is (VStr [])
            | x => v <: x ;; t <: bool_of v ;; Is (if (t : bool) then v else VStr [])
            end
  | QReq => v <: x ;; t <: bool_of v ;; if (t : bool) then Is v else Raises
  end.

Section Den.
Variable r : store.

Fixpoint den (e : ex) : ans val :=
  tested
  match e with
  | XName n => given_by (get n r)
  | XText _ s l =>
      l <: omap (fun a => match a with (e, z) => v <: den e ;; t <: text_of v ;; Is (t ++ z) end) l ;;
      Is (VStr (s ++ List.concat l))
  | XRaw _ s => Is (VStr s)
  | XNum d => Is (VInt (decimal 0 d))
  | XConst c => Is (const_value c)
  | XList l => l <: omap den l ;; Is (VList l)
  | XTuple l => l <: omap den l ;; Is (VTuple l)
  | XSet l => l <: omap den l ;; py_set P l
  | XDict l => l <: omap (fun a => match a with (k, v) => k <: den k ;; v <: den v ;; Is (k, v) end) l ;; py_dict P l
  | XTail e l q => qualify q (v <: den e ;; ofold (fun v t => den_tail t v) l v)
  | XOps neg e l =>
      v <: den e ;;
      v <: (if neg then match v with VNone => Open | _ => py_neg P v end else Is v) ;;
      ofold (fun v a => match a with (o, e) => w <: den e ;; py_op P o v w end) l v
  | XPipe e l => v <: den e ;; ofold (fun v f => den_filter f v) l v
  | XCat e l =>
      l <: omap (fun e => v <: den e ;; text_of v) (e :: l) ;; Is (VStr (List.concat l))
  | XNot n e => v <: den e ;; if Nat.odd n then t <: bool_of v ;; Is (VBool (negb t)) else Is v
  | XAnd e l => v <: den e ;; ofold (fun v e => t <: bool_of v ;; if (t : bool) then den e else Is v) l v
  | XOr e l => v <: den e ;; ofold (fun v e => t <: bool_of v ;; if (t : bool) then Is v else den e) l v
  | XIf x c y =>
      v <: den c ;; t <: bool_of v ;;
      if (t : bool) then den x else match y with Some y => den y | None => Is (VStr []) end
  end
with den_tail (t : xtail) (v : val) : ans val :=
  match t with
  | XMember n => py_member P v n
  | XItem e => i <: den e ;; py_item P v i
  | XSlice x y z =>
      x <: match x with Some e => den e | None => Is VNone end ;;
      y <: match y with Some e => den e | None => Is VNone end ;;
      z <: match z with Some e => den e | None => Is VNone end ;;
      py_slice P v x y z
  | XCall a =>
      l <: omap (fun a => match a with (n, e) => v <: den e ;; Is (n, v) end) a ;;
      p <: args_of l ;; call v (fst p) (snd p)
  end
with den_filter (f : xfilter) (v : val) : ans val :=
  match f with
  | XFilter f path a =>
      f <: den f ;;
      f <: ofold (fun v n => py_member P v n) path f ;;
      f <: tested (Is f) ;;
      l <: match a with Some a => omap (fun a => match a with (n, e) => v <: den e ;; Is (n, v) end) a | None => Is [] end ;;
      p <: args_of l ;; call f (v :: fst p) (snd p)
  end.

(** A text with the values of its expressions. *)
Definition fill (x : mixed) : ans str :=
  l <: omap (fun a => match a with (e, z) => v <: den e ;; t <: text_of v ;; Is (t ++ z) end) (snd x) ;;
  Is (fst x ++ List.concat l).
End Den.

(** Unpacking. *)
Definition unpack (xs : list str) (v : val) (r : store) : ans store :=
  match xs with
  | [x] => Is (set x v r)
  | _ =>
      l <: items_of v ;;
      if Nat.eqb (List.length l) (List.length xs)
      then Is (fold_left (fun r a => match a with (x, v) => set x v r end) (combine xs l) r) else Raises
  end.
End Values.

(** ** Elements *)

(** What a template gives: texts, blank lines, tags with the values of their attributes, and what hypertags
    give. *)
Inductive shown := Flag (t : bool) | Shown (x : str).
Definition etag : Type := str * list (str * shown).
Inductive elem :=
| EText (m : nat) (x : str)
| EGap (m : nat)
| ELeaf (m : nat) (g : list etag) (c : str)
| ENode (m : nat) (g : list etag) (w : str) (kids : list elem)
| EHyper (m : nat) (kids : list elem).

(** Values are put in double quotes; if they contain one, in single quotes; if they contain both, double quotes
    are written as a character reference. *)
Definition quoted (x : str) : str :=
  if mem 34 x
  then if mem 39 x
       then u """" ++ flat_map (fun c => if c =? 34 then u "&quot;" else attr_char c) x ++ u """"
       else u "'" ++ flat_map attr_char x ++ u "'"
  else u """" ++ flat_map attr_char x ++ u """".
Definition shown_html (a : str * shown) : str :=
  match snd a with
  | Flag true => [SP] ++ fst a
  | Flag false => []
  | Shown x => [SP] ++ fst a ++ u "=" ++ quoted x
  end.

Section Html.
Variable void : str -> bool.

Definition etag_open (g : etag) : str := u "<" ++ fst g ++ flat_map shown_html (snd g).
Fixpoint in_tags (g : list etag) (c : str) : str :=
  match g with
  | [] => c
  | t :: r => etag_open t ++ if void (fst t) then u " />" else u ">" ++ in_tags r c ++ close_html (fst t)
  end.
Definition opening (g : list etag) : str := flat_map (fun t => etag_open t ++ u ">") g.
Definition closing (g : list etag) : str := flat_map (fun t => close_html (fst t)) (rev g).

(** The end tag after a text whose first line is empty is on a line of its own. *)
Definition fence (c : str) : str := if startswith [NL] c then c ++ [NL] else c.
Fixpoint ehtml (t : elem) : list str :=
  match t with
  | EText m x => blanks m ++ lines x
  | EGap m => blanks m
  | ELeaf m g c => blanks m ++ lines (in_tags g (fence c))
  | ENode m g w kids =>
      blanks m ++
      match flat_map ehtml kids with
      | [] => [in_tags g []]
      | ls => [opening g] ++ map (indent_line w) ls ++ [closing g]
      end
  (* a hypertag that gives no line stands for a blank line *)
  | EHyper m kids => blanks m ++ match flat_map ehtml kids with [] => [[]] | ls => ls end
  end.
Definition elems_html (l : list elem) (k : nat) : str := join [NL] (flat_map ehtml l ++ blanks k).
End Html.

(** ** Instances *)

(** The whitespace at the end of a line does not count, nor does the first character of the text, after
    filling in, if it is whitespace. *)
Fixpoint trim_last (l : list (ex * str)) : list (ex * str) :=
  match l with
  | [] => []
  | [(e, z)] => [(e, rstrip z)]
  | a :: r => a :: trim_last r
  end.
Definition trim (x : mixed) : mixed :=
  match x with
  | (s, []) => (rstrip s, [])
  | (s, l) => (s, trim_last l)
  end.
Definition escape (k : style) (x : str) : str := match k with Plain => flat_map html_char x | _ => x end.
(** Several lines, each with the number of blank lines in front, its indentation and its text. *)
Definition para_text (h : str) (tl : list (nat * nat * str)) : str :=
  h ++ flat_map (fun a => match a with (m, n, x) => repeatc NL (S m) ++ repeatc SP n ++ x end) tl.
(** The layout of a text, after filling in. [lead] counts the characters up to the marker, with it; take spaces for
    them. Then [edge] is the whitespace that all lines begin with, not counting blank ones, but not more than the
    marker and one character after it. It is cut off from all lines that begin with it. If it ends left of the marker,
    the first line begins at the marker, and loses the space after it. *)
Fixpoint lead_space (x : str) : str :=
  match x with c :: r => if is_space c then c :: lead_space r else [] | [] => [] end.
Fixpoint common (x y : str) : str :=
  match x, y with c :: x, d :: y => if c =? d then c :: common x y else [] | _, _ => [] end.
Definition edge (lead : nat) (ls : list str) : str :=
  match map lead_space (filter (fun l => negb (forallb is_space l)) ls) with
  | [] => []
  | x :: r => firstn (lead + 1) (fold_left common r x)
  end.
Definition layout (lead : nat) (x : str) : str :=
  match lines x with
  | [] => []
  | h :: ls =>
      let h := repeatc SP lead ++ h in
      let s := edge lead (h :: ls) in
      let h := unindent_line s h in
      join [NL] ((if Nat.ltb (List.length s) lead then drop_space (skipn (lead - List.length s) h) else h) ::
                 map (unindent_line s) ls)
  end.

Section Inst.
Variable P : py.

Definition inst_line (r : store) (k : style) (x : mixed) : ans str := t <: fill P r (trim x) ;; Is (escape k t).
Definition inst_text (r : store) (k : style) (lead : nat) (x : para) : ans str :=
  h <: inst_line r k (fst x) ;;
  tl <: omap (fun a => match a with (m, n, x) => t <: inst_line r k x ;; Is (m, n, t) end) (snd x) ;;
  Is (layout lead (para_text h tl)).

Definition inst_word (r : store) (a : sigil * word) : ans (str * val) :=
  v <: match snd a with WText x => Is (VStr x) | WExpr e => den P r e end ;; Is (sigil_name (fst a), v).
(** An attribute given several times has the values joined by spaces. *)
Definition add_attr (d : store) (a : str * val) : ans store :=
  match get (fst a) d with
  | None => Is (set (fst a) (snd a) d)
  | Some old => match old, snd a with
                | VStr x, VStr y => Is (set (fst a) (VStr (x ++ u " " ++ y)) d)
                | _, _ => Open
                end
  end.
Definition put_word (r : store) (d : store) (a : sigil * word) : ans store := a <: inst_word r a ;; add_attr d a.
Definition put_attr (r : store) (d : store) (a : attr) : ans store :=
  match a with
  | AVal n g => v <: den P r (given_expr g) ;; add_attr d (n, v)
  | AShort l => ofold (put_word r) l d
  end.
Definition inst_attrs (r : store) (l : list (sigil * word)) (a : list attr) : ans store :=
  d <: ofold (put_word r) l [] ;; ofold (put_attr r) a d.
(** The texts of values are needed after everything else has been evaluated: what happens if there is none, is left
    open. *)
Definition show (a : str * val) : ans (str * shown) :=
  match snd a with
  | VBool t => Is (fst a, Flag t)
  | VStr x => Is (fst a, Shown x)
  | v => match py_text P v with Is x => Is (fst a, Shown x) | _ => Open end
  end.
Definition inst_tag (r : store) (g : tagx) : ans etag :=
  match g with (n, l, a) => d <: inst_attrs r l a ;; s <: omap show d ;; Is (n, s) end.

(** Variables of [r] with the values they have in [r']. *)
Definition keep (r r' : store) : store := filter (fun a => existsb (str_eqb (fst a)) (map fst r)) r'.

(** ** Arguments of hypertags *)
Definition inst_given (r : store) (g : given) : ans val := den P r (given_expr g).
Definition inst_use (r : store) (h : use) : ans (list val * store) :=
  match h with (n, pos, a) => pos <: omap (inst_given r) pos ;; kw <: inst_attrs r [] a ;; Is (pos, kw) end.
(** Values of the parameters: values without names first, in order; then those with names; then default values. *)
Fixpoint bind_params (r : store) (ps : list (str * option given)) (pos : list val) (kw : store) : ans store :=
  match ps with
  | [] => match pos with [] => Is [] | _ => Raises end
  | (n, d) :: ps =>
      match pos with
      | v :: pos => match get n kw with Some _ => Raises | None => a <: bind_params r ps pos kw ;; Is ((n, v) :: a) end
      | [] =>
          v <: match get n kw with
               | Some v => Is v
               | None => match d with Some g => inst_given r g | None => Raises end
               end ;;
          a <: bind_params r ps [] kw ;; Is ((n, v) :: a)
      end
  end.
Definition params (r : store) (ps : list (str * option given)) (pos : list val) (kw : store) : ans store :=
  if forallb (fun a => existsb (str_eqb (fst a)) (map fst ps)) kw then bind_params r ps pos kw else Raises.

(** What a hypertag gives: for the variables at its use, arguments without and with names, and the body, if any. *)
Definition meaning : Type := store -> list val -> store -> option (list elem) -> ans (list elem).
Fixpoint find_meaning (n : str) (D : list (str * meaning)) : option meaning :=
  match D with
  | [] => None
  | (y, f) :: D => if str_eqb n y then Some f else find_meaning n D
  end.

Section Insts.
Variable inst : store -> tmpl -> ans (list elem * store).
Definition insts : list tmpl -> store -> ans (list elem * store) :=
  fix go (l : list tmpl) (r : store) : ans (list elem * store) :=
    match l with
    | [] => Is ([], r)
    | t :: l => p <: inst r t ;; q <: go l (snd p) ;; Is (fst p ++ fst q, snd q)
    end.
End Insts.

(** Elements of a template, and the variables after it. Contents are evaluated before the tags around them, inner
    tags before outer ones. Variables introduced inside a block are not known after it. [b]: the blanks around
    operators, which can move the marker of a text; [D]: hypertags; [bd]: the body, inside of a definition. *)
Section Hypertags.
Variable b : str.
(** What loops give that are repeated more often than [lim] times is left open. *)
Variable lim : nat.
Variable D : list (str * meaning).
Variable bd : option (list elem).
Fixpoint inst (r : store) (t : tmpl) {struct t} : ans (list elem * store) :=
  match t with
  | TLine m k x => x <: inst_text r k 1 x ;; Is ([EText m x], r)
  | TNote m h x tl => Is ([EGap m], r)
  | TLeaf m g c =>
      x <: match c with Some (k, x) => inst_text r k (List.length (chain_text b g) + 2) x | None => Is [] end ;;
      g <: omap_back (inst_tag r) g ;;
      Is ([ELeaf m g x], r)
  | TNode m g w kids =>
      p <: insts inst kids r ;;
      g <: omap_back (inst_tag r) g ;;
      Is ([ENode m g w (fst p)], r)
  | TIf m cs els =>
      p <: (fix go (cs : list (ex * (str * list tmpl))) : ans (list elem * store) :=
              match cs with
              | [] => match els with Some (_, kids) => insts inst kids r | None => Is ([], r) end
              | (e, (_, kids)) :: cs =>
                  v <: den P r e ;; t <: bool_of P v ;;
                  if (t : bool) then insts inst kids r else go cs
              end) cs ;;
      Is (EGap m :: fst p, keep r (snd p))
  | TFor m xs e w kids =>
      v <: den P r e ;; l <: items_of P v ;;
      p <: ofold (fun p v =>
                    r1 <: unpack P xs v (snd p) ;;
                    q <: insts inst kids r1 ;;
                    Is (fst p ++ fst q, keep r (snd q))) l ([], r) ;;
      Is (EGap m :: fst p, snd p)
  | TWhile m e w kids els =>
      p <: oloop (fun p => v <: den P (snd (snd p)) e ;; bool_of P v)
                 (fun p => q <: insts inst kids (snd (snd p)) ;; Is (true, (fst (snd p) ++ fst q, keep r (snd q))))
                 lim (false, ([], r)) ;;
      match fst p, els with
      | false, Some (_, kids) => q <: insts inst kids r ;; Is (EGap m :: fst q, keep r (snd q))
      | _, _ => Is (EGap m :: fst (snd p), snd (snd p))
      end
  | TTry m alts => (* the first alternative that raises no exception *)
      es <: (fix go (l : list (str * list tmpl)) : ans (list elem) :=
               match l with
               | [] => Is []
               | (_, kids) :: l => match insts inst kids r with Is p => Is (fst p) | Raises => go l | Open => Open end
               end) alts ;;
      Is (EGap m :: es, r)
  | TSet m xs e => v <: den P r e ;; r <: unpack P xs v r ;; Is ([EGap m], r)
  | TAug m x o e => v <: den P r e ;; a <: den P r (XName x) ;; v <: py_op P o a v ;; Is ([EGap m], set x v r)
  | TUse m h c =>
      x <: match c with
           | Some (k, x) => x <: inst_text r k (List.length (use_text b h) + 2) x ;; Is (Some [EText 0 x])
           | None => Is None
           end ;;
      a <: inst_use r h ;;
      f <: given_by (find_meaning (fst (fst h)) D) ;;
      es <: f r (fst a) (snd a) x ;;
      Is ([EHyper m es], r)
  | TBlock m h w kids =>
      p <: insts inst kids r ;;
      a <: inst_use r h ;;
      f <: given_by (find_meaning (fst (fst h)) D) ;;
      es <: f r (fst a) (snd a) (Some (fst p)) ;;
      Is ([EHyper m es], r)
  | TBody m n => es <: given_by bd ;; Is (EGap m :: es, r)
  end.
End Hypertags.

(** The meaning of a definition. Variables [vis] known at the definition have the values they have at the use; other
    variables are not known inside. Without a body in the definition there can be none at the use. *)
Definition filled (t : elem) : bool := match t with EGap _ => false | _ => true end.
Definition body_given (bn : option str) (bd : option (list elem)) : ans (option (list elem)) :=
  match bn, bd with
  | Some _, Some es => Is (Some es)
  | Some _, None => Is (Some [])
  | None, None => Is None
  | None, Some es => if existsb filled es then Raises else Open
  end.
Definition visible_part (vis : list str) (r : store) : store := filter (fun a => existsb (str_eqb (fst a)) vis) r.
Definition mean (b : str) (lim : nat) (D : list (str * meaning)) (vis : list str) (d : def) : meaning := fun r pos kw bd =>
  match d with
  | Def m n bn ps w kids =>
      let r0 := visible_part vis r in
      a <: params r0 ps pos kw ;;
      bd <: body_given bn bd ;;
      p <: insts (inst b lim D bd) kids (a ++ r0) ;;
      Is (fst p)
  | DNote _ _ _ _ => Open
  end.
(** Definitions may use the earlier ones. *)
Definition learn (b : str) (lim : nat) (vis : list str) (D : list (str * meaning)) (d : def) : list (str * meaning) :=
  match d with Def m n bn ps w kids => (n, mean b lim D vis d) :: D | DNote _ _ _ _ => D end.
Definition meanings (b : str) (lim : nat) (vis : list str) (ds : list def) : list (str * meaning) := fold_left (learn b lim vis) ds [].
(** Those given from elsewhere as well. *)
Definition meanings_on (b : str) (lim : nat) (given : list (str * meaning)) (vis : list str) (ds : list def) : list (str * meaning) :=
  fold_left (learn b lim vis) ds given.
End Inst.

(** Blank lines in front of definitions and comments. *)
Definition gaps (ds : list def) : list elem := map (fun d => match d with Def m _ _ _ _ _ | DNote m _ _ _ => EGap m end) ds.

(** ** Conditions *)

(** The variables of an expression. *)
Fixpoint vars (e : ex) : list str :=
  match e with
  | XName n => [n]
  | XText _ _ l => flat_map (fun a => match a with (e, _) => vars e end) l
  | XRaw _ _ | XNum _ | XConst _ => []
  | XList l | XTuple l | XSet l => flat_map vars l
  | XDict l => flat_map (fun a => match a with (k, v) => vars k ++ vars v end) l
  | XTail e l _ => vars e ++ flat_map tail_vars l
  | XOps _ e l => vars e ++ flat_map (fun a => match a with (_, e) => vars e end) l
  | XPipe e l => vars e ++ flat_map filter_vars l
  | XCat e l | XAnd e l | XOr e l => vars e ++ flat_map vars l
  | XNot _ e => vars e
  | XIf x c y => vars x ++ vars c ++ match y with Some y => vars y | None => [] end
  end
with tail_vars (t : xtail) : list str :=
  match t with
  | XMember _ => []
  | XItem e => vars e
  | XSlice x y z =>
      match x with Some e => vars e | None => [] end ++ match y with Some e => vars e | None => [] end ++
      match z with Some e => vars e | None => [] end
  | XCall a => flat_map (fun a => match a with (_, e) => vars e end) a
  end
with filter_vars (f : xfilter) : list str :=
  match f with
  | XFilter f _ a =>
      vars f ++ match a with Some a => flat_map (fun a => match a with (_, e) => vars e end) a | None => [] end
  end.

Section Wf.
Variable b : str.
Variable known : str -> option bool.
(** Hypertags that can be used; the name of the body, inside of a definition. *)
Variable hy : list str.
Variable bn : option str.

(** An expression in a scope, without newlines. *)
Definition expr_ok (sc : list str) (e : ex) : Prop := fine b e = true /\ incl (vars e) sc.
Definition mixed_ok (sc : list str) (x : mixed) : Prop :=
  line_fine b (fst x) (snd x) /\ forall e z, In (e, z) (snd x) -> incl (vars e) sc.
Definition style_ok (k : style) (x : mixed) : Prop := k = Verbatim -> snd x = [].
(** Lines below the first one are indented, and begin with a visible character. *)
Definition begun (x : str) : bool := match x with c :: _ => negb (is_space c) | [] => false end.
Definition para_ok (sc : list str) (k : style) (p : para) : Prop :=
  style_ok k (fst p) /\ mixed_ok sc (fst p) /\
  Forall (fun a => match a with (m, n, x) =>
            (0 < n)%nat /\ style_ok k x /\ mixed_ok sc x /\ begun (mixed_text b k x) = true end) (snd p).

(** Literal shortcuts consist of letters, digits, underscores and hyphens. *)
Definition word_char (c : char) : bool := letter c || digit c || (c =? 45).
Definition word_ok (sc : list str) (a : sigil * word) : Prop :=
  match snd a with
  | WText x => x <> [] /\ forallb word_char x = true
  | WExpr e => expr_ok sc e
  end.
(** After a blank, a dot and a digit begin a number. *)
Definition not_number (l : list (sigil * word)) : Prop :=
  match l with (Class, WText (c :: _)) :: _ => digit c = false | _ => True end.
(** A brace at the beginning opens an embedded expression. *)
Definition given_ok (sc : list str) (g : given) : Prop :=
  expr_ok sc (given_expr g) /\ match g with GBare _ => startswith (u "{") (given_text b g) = false | GBraced _ => True end.
Definition tattr_ok (sc : list str) (a : attr) : Prop :=
  match a with
  | AVal n g => attr_name n /\ given_ok sc g
  | AShort l => l <> [] /\ Forall (word_ok sc) l /\ not_number l
  end.
(** Names that begin with "else" or "elif" are excluded; see the finding. *)
Definition tag_ok (sc : list str) (g : tagx) : Prop :=
  match g with (n, l, a) => tag_name n /\ ~ is_prefix (u "else") n /\ ~ is_prefix (u "elif") n /\
    Forall (word_ok sc) l /\ Forall (tattr_ok sc) a end.
(** All tags exist; only the last one may be void, and only if [v]. *)
Fixpoint chain_known (v : bool) (g : list tagx) : Prop :=
  match g with
  | [] => False
  | [(n, _, _)] => exists t, known n = Some t /\ (t = true -> v = true)
  | (n, _, _) :: r => known n = Some false /\ chain_known v r
  end.
Definition head_ok (n : str) : Prop := tag_name n /\ ~ is_prefix (u "else") n /\ ~ is_prefix (u "elif") n.
Definition use_ok (sc : list str) (h : use) : Prop :=
  match h with (n, pos, a) => head_ok n /\ Forall (given_ok sc) pos /\ Forall (tattr_ok sc) a end.
(** A path that can be written after [from]: not empty, without white space and quotes. *)
Definition path_ok (x : str) : Prop := x <> [] /\ forall c, In c x -> is_space c = false /\ c <> 34 /\ c <> 39.
Definition import_ok (i : str * list str) : Prop := path_ok (fst i) /\ snd i <> [] /\ forall n, In n (snd i) -> tag_name n.
Definition indent_ok (w : str) : Prop := w <> [] /\ forall c, In c w -> c = SP \/ c = TAB.

(** A comment: any text in the first line, and lines below that are indented and begin with a visible character. *)
Definition note_ok (x : str) (tl : list (nat * nat * str)) : Prop :=
  ~ In NL x /\ Forall (fun a => match a with (m, n, z) => (0 < n)%nat /\ ~ In NL z /\ begun z = true end) tl.

(** In the body of a control block there are no blank lines in front of the first contents; see the finding. *)
Definition gap (t : tmpl) : nat :=
  match t with
  | TLine m _ _ | TNote m _ _ _ | TLeaf m _ _ | TNode m _ _ _ | TIf m _ _ | TFor m _ _ _ _ | TWhile m _ _ _ _ | TTry m _ | TSet m _ _
  | TAug m _ _ _ | TUse m _ _ | TBlock m _ _ _ | TBody m _ => m
  end.
Definition contents (t : tmpl) : bool :=
  match t with TLine _ _ _ | TLeaf _ _ _ | TNode _ _ _ _ | TUse _ _ _ | TBlock _ _ _ _ => true | _ => false end.
Fixpoint calm (l : list tmpl) : Prop :=
  match l with
  | [] => True
  | t :: r => gap t = 0%nat /\ (contents t = true \/ calm r)
  end.

(** Variables that can be assigned in [t] at its own level become known to what follows. *)
Definition after (own : list str) (t : tmpl) : list str :=
  match t with TSet _ xs _ => xs ++ own | _ => own end.
(** Operators that can be combined with an assignment. *)
Definition inplace (o : binop) : bool :=
  match o with
  | OAdd | OSub | OMul | OMod | ODiv | OFloorDiv | OShl | OShr | OBitAnd | OBitOr | OBitXor => true
  | _ => false
  end.
Definition targets_ok (outer xs : list str) : Prop :=
  xs <> [] /\ (forall x, In x xs -> var_name x = true /\ ~ In x outer).

(** [own]: variables introduced at the level of the block, [outer]: those of the blocks of tags around it,
    which must not be assigned here; see the finding. Inside of "try" no variable known before is assigned. *)
Inductive wft (outer own : list str) : tmpl -> Prop :=
| wft_line m k x : para_ok (own ++ outer) k x -> wft outer own (TLine m k x)
| wft_note m h x tl : note_ok x tl -> wft outer own (TNote m h x tl)
| wft_leaf m g c : Forall (tag_ok (own ++ outer)) g -> chain_known (match c with Some _ => false | None => true end) g ->
    (forall k x, c = Some (k, x) -> para_ok (own ++ outer) k x) ->
    wft outer own (TLeaf m g c)
| wft_node m g w kids : Forall (tag_ok (own ++ outer)) g -> chain_known false g -> indent_ok w -> kids <> [] ->
    wfts (own ++ outer) [] kids -> wft outer own (TNode m g w kids)
| wft_if m cs els : cs <> [] ->
    Forall (fun c => expr_ok (own ++ outer) (fst c)) cs -> wfb outer own (map snd cs) ->
    wfb outer own (match els with Some y => [y] | None => [] end) ->
    wft outer own (TIf m cs els)
| wft_for m xs e w kids : expr_ok (own ++ outer) e -> targets_ok outer xs -> indent_ok w -> kids <> [] -> calm kids ->
    wfts outer (xs ++ own) kids -> wft outer own (TFor m xs e w kids)
| wft_while m e w kids els : expr_ok (own ++ outer) e -> indent_ok w -> kids <> [] -> calm kids -> wfts outer own kids ->
    wfb outer own (match els with Some y => [y] | None => [] end) -> wft outer own (TWhile m e w kids els)
| wft_try m alts : alts <> [] -> wfb (own ++ outer) [] alts -> wft outer own (TTry m alts)
| wft_set m xs e : expr_ok (own ++ outer) e -> targets_ok outer xs -> wft outer own (TSet m xs e)
| wft_aug m x o e : expr_ok (own ++ outer) e -> In x own -> targets_ok outer [x] -> inplace o = true -> wft outer own (TAug m x o e)
| wft_call m h c : use_ok (own ++ outer) h -> In (fst (fst h)) hy ->
    (forall k x, c = Some (k, x) -> para_ok (own ++ outer) k x) ->
    wft outer own (TUse m h c)
| wft_block m h w kids : use_ok (own ++ outer) h -> In (fst (fst h)) hy -> indent_ok w -> kids <> [] -> calm kids ->
    wfts (own ++ outer) [] kids -> wft outer own (TBlock m h w kids)
| wft_body m n : bn = Some n -> wft outer own (TBody m n)
with wfts (outer own : list str) : list tmpl -> Prop :=
| wfts_nil : wfts outer own []
| wfts_cons t l : wft outer own t -> wfts outer (after own t) l -> wfts outer own (t :: l)
with wfb (outer own : list str) : list (str * list tmpl) -> Prop :=
| wfb_nil : wfb outer own []
| wfb_cons w kids l : indent_ok w -> kids <> [] -> calm kids -> wfts outer own kids -> wfb outer own l ->
    wfb outer own ((w, kids) :: l).
End Wf.

(** How often the body of a hypertag is put in place, at most: it may be once; see the finding. *)
Fixpoint uses (t : tmpl) : nat :=
  let all := fix all (l : list tmpl) : nat := match l with [] => 0 | t :: l => uses t + all l end%nat in
  match t with
  | TLine _ _ _ | TNote _ _ _ _ | TLeaf _ _ _ | TSet _ _ _ | TAug _ _ _ _ | TUse _ _ _ => 0%nat
  | TNode _ _ _ kids | TBlock _ _ _ kids => all kids
  | TIf _ cs els =>
      Nat.max ((fix go (cs : list (ex * (str * list tmpl))) : nat :=
                  match cs with [] => 0 | (_, (_, kids)) :: cs => Nat.max (all kids) (go cs) end%nat) cs)
              match els with Some (_, kids) => all kids | None => 0%nat end
  | TFor _ _ _ _ kids => (2 * all kids)%nat
  | TWhile _ _ _ kids els => (2 * (all kids + match els with Some (_, kids) => all kids | None => 0%nat end))%nat
  | TTry _ alts =>
      (2 * (fix go (l : list (str * list tmpl)) : nat := match l with [] => 0 | (_, kids) :: l => all kids + go l end%nat) alts)%nat
  | TBody _ _ => 1%nat
  end.
Definition uses_all (l : list tmpl) : nat := list_sum (map uses l).

(** Definitions, where the variables [vis] are known. *)
Inductive wfd (b : str) (known : str -> option bool) (vis : list str) : list str -> list def -> Prop :=
| wfd_nil hy : wfd b known vis hy []
| wfd_note hy m h x tl ds : note_ok x tl -> wfd b known vis hy ds -> wfd b known vis hy (DNote m h x tl :: ds)
| wfd_cons hy m n bn ps w kids ds :
    let own := map fst ps in
    let body := match bn with Some x => [x] | None => [] end in
    head_ok n -> known n = None -> ~ In n hy ->
    NoDup (body ++ own) -> (forall x, In x (body ++ own) -> var_name x = true /\ ~ In x vis) ->
    (forall x g, In (x, Some g) ps -> given_ok b vis g) ->
    indent_ok w -> kids <> [] -> calm kids -> (uses_all kids <= 1)%nat ->
    wfts b known hy bn (body ++ vis) own kids ->
    wfd b known vis (n :: hy) ds -> wfd b known vis hy (Def m n bn ps w kids :: ds).
