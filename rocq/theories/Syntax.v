(** From a script to the abstract syntax tree: rewriting of the raw tree of the parser
    (src/hypertag/nifty/parsing.py 270-320 with the settings of core/ast.py 1918-1944), the setup() methods
    of the nodes (core/ast.py) and HypertagAST.__init__ (1969-1997). *)
From Coq Require Import List NArith ZArith Bool Arith Ascii String.
From Verif Require Import PyStr Value Ast Preprocess Peg Grammar.
Import ListNotations.
Local Open Scope string_scope.
Local Open Scope list_scope.
Local Open Scope N_scope.

(** What the Python interpreter contributes: the Unicode tables and float() of a numeric literal. *)
Record lexicon := { lx_unicode : unicode; lx_float : str -> val }.

(** ** Parsing *)

(** Outcome of Grammar.parse(text): a tree, IncompleteParseError or ParseError. [NoFuel] is not an outcome
    of the Python code. *)
Inductive parsed :=
| Parsed (t : tree rule)
| Incomplete
| NoMatch
| NoFuel.

(** Expression.parse of Parsimonious: the default rule is the first one, and the whole text must be
    matched. *)
Definition parse (U : unicode) (y : symbols) (text : str) : parsed :=
  match peg_match (grammar U y) (64 * S (List.length text)) (PRef R_document) 0 text with
  | POk t [] => Parsed t
  | POk _ (_ :: _) => Incomplete
  | PFail => NoMatch
  | PFuel => NoFuel
  end.

(** ** Rewriting *)

(** Nodes of the rewritten tree: type, start of the position, text() and children. The type [None] stands for
    "(reduced)" strings (nifty/parsing.py 262-267). *)
Inductive node :=
| Nd (kind : option rule) (start : nat) (text : str) (kids : list node).

Definition n_kind (n : node) := let 'Nd k _ _ _ := n in k.
Definition n_text (n : node) := let 'Nd _ _ x _ := n in x.

(** core/ast.py 1922-1923 _ignore_ *)
Definition ignored (r : rule) : bool :=
  match r with
  | R_nl | R_ws | R_space | R_gap | R_comma | R_verbatim | R_inline_comment | R_mark_struct
  | R_mark_verbat | R_mark_normal | R_mark_markup | R_mark_embed | R_mark_eval | R_mark_def
  | R_mark_comment => true
  | _ => false
  end.

(** core/ast.py 1926-1933 _reduce_ *)
Definition reduced (r : rule) : bool :=
  match r with
  | R_modifier | R_block_control | R_target | R_core_blocks | R_tail_blocks | R_headline | R_body_text
  | R_generic_control | R_generic_struct | R_item_import | R_rename | R_try_long | R_try_short
  | R_special_tag | R_head_verbat | R_head_normal | R_head_markup | R_tail_for | R_tail_if
  | R_tail_verbat | R_tail_normal | R_tail_markup | R_core_verbat | R_core_normal | R_core_markup
  | R_attrs_def | R_attrs_val | R_attr_val | R_value_of_attr | R_args | R_arg | R_expr_assign
  | R_embedding | R_embedding_braces | R_embedding_eval | R_expr_root | R_subexpr | R_slice
  | R_subscript | R_trailer | R_trailer_filt | R_atom | R_literal | R_dict_pair | R_string
  | R_string_quot1 | R_string_quot2 => true
  | _ => false
  end.

(** core/ast.py 1937-1939 _compact_ *)
Definition compacted (r : rule) : bool :=
  match r with
  | R_factor_filt | R_factor_strict | R_factor_var | R_factor | R_pow_expr | R_term | R_arith_expr
  | R_shift_expr | R_and_expr | R_xor_expr | R_or_expr | R_concat_expr | R_pipeline | R_comparison
  | R_not_test | R_and_test | R_or_test | R_ifelse_test | R_expr_tuple | R_block_struct => true
  | _ => false
  end.

(** ParsimoniousTree.rewrite and _rewriteNode: nifty/parsing.py 269-298. The result is a list: empty for a
    removed node, the children for a reduced one. *)
Fixpoint rewrite (t : tree rule) : list node :=
  let 'Tree name start text kids := t in
  let flat := flat_map rewrite kids in
  match name with
  | None => flat
  | Some r =>
      if ignored r then []
      else if reduced r then
        match kids, text with
        | _ :: _, _ => flat
        | [], [] => []
        | [], _ :: _ => [Nd None start text []]
        end
      else if compacted r then
        match flat with [n] => [n] | _ => [Nd (Some r) start text flat] end
      else [Nd (Some r) start text flat]
  end.

(** ** Setup of nodes *)

(** What setup() makes of a node, for the kinds of nodes that the language distinguishes. *)
Inductive syn :=
| SExpr (e : expr)
| SOper (o : binop)
| SNeg
| SNot
| SQual (q : qual)
| STail (t : tail)
| SSlice (e : option expr)                           (* slice_value *)
| SStatic (value : str)                              (* static nodes *)
| SKwarg (name : str) (e : expr)
| SAttr (name : option str) (e : option expr) (body : bool)
| STarget (t : target)
| SLine (l : line)
| STagexp (x : tagexp)
| STags (l : list tagexp)
| SImport (i : iitem)
| SIndent (c : char)
| SDedent (c : char)
| SBlock (b : block)
| SBody (y : body)
| SIf (e : expr) (y : option body)                   (* clause_if *)
| SElse (y : option body)                            (* clause_else *)
| SItem (i : item)
| SDoc (d : document).

Notation "'kid'" := (option rule * syn)%type (only parsing).

(** A tree of a shape that the grammar does not produce; in Python an attribute or an item would be missing
    or of a wrong class. *)
Definition odd {A} : result A := Raise AttributeError.

Fixpoint mapr {A B} (f : A -> result B) (l : list A) : result (list B) :=
  match l with
  | [] => Ok []
  | a :: r => b <- f a ;; bs <- mapr f r ;; Ok (b :: bs)
  end.

(** Accessors *)
Definition as_expr (k : kid) : result expr := match snd k with SExpr e => Ok e | _ => odd end.
Definition as_static (k : kid) : result str := match snd k with SStatic s => Ok s | _ => odd end.
Definition as_target (k : kid) : result target := match snd k with STarget t => Ok t | _ => odd end.
Definition as_tail (k : kid) : result tail := match snd k with STail t => Ok t | _ => odd end.
Definition as_import (k : kid) : result iitem := match snd k with SImport i => Ok i | _ => odd end.
Definition as_tagexp (k : kid) : result tagexp := match snd k with STagexp x => Ok x | _ => odd end.
Definition as_body (k : kid) : result body :=
  match snd k with
  | SBody y => Ok y
  | SBlock b => Ok (YBlock b)
  | SElse y => Ok (YElse y)
  | _ => odd
  end.
Definition as_arg (k : kid) : result (option str * expr) :=
  match snd k with
  | SKwarg n e => Ok (Some n, e)
  | SExpr e => Ok (None, e)
  | _ => odd
  end.

(** Children of a line of text and of a formatted string, as rendered by _render_all (351-352). A qualifier
    renders to an empty string (1491-1492). *)
Fixpoint parts_of (l : list kid) : result (list part) :=
  match l with
  | [] => Ok []
  | (_, s) :: r =>
      ps <- parts_of r ;;
      match s with
      | SStatic x => Ok (PText x :: ps)
      | SExpr e => Ok (PExpr e :: ps)
      | SQual _ => Ok ps
      | _ => odd
      end
  end.

Definition item_of (k : kid) : result item :=
  match k with
  | (Some R_margin, SStatic s) => Ok (NMargin s)
  | (_, SLine l) => Ok (NLine l)
  | (_, SIndent c) => Ok (NIndent c)
  | (_, SDedent c) => Ok (NDedent c)
  | (_, SItem i) => Ok i
  | _ => odd
  end.

Definition titem_of (k : kid) : result titem :=
  match k with
  | (Some R_margin, SStatic s) => Ok (TxMargin s)
  | (_, SLine l) => Ok (TxLine l)
  | (_, SIndent c) => Ok (TxIndent c)
  | (_, SDedent c) => Ok (TxDedent c)
  | _ => odd
  end.

(** x1 OP1 x2 OP2 x3: core/ast.py 1556-1577 *)
Fixpoint chain_of (l : list kid) : result (list (binop * expr)) :=
  match l with
  | [] => Ok []
  | (_, SOper o) :: (_, SExpr e) :: r => t <- chain_of r ;; Ok ((o, e) :: t)
  | _ => Raise AssertionError                          (* 1564 *)
  end.

Fixpoint pairs_of (l : list kid) : result (list (expr * expr)) :=
  match l with
  | [] => Ok []
  | (_, SExpr a) :: (_, SExpr b) :: r => t <- pairs_of r ;; Ok ((a, b) :: t)
  | _ => Raise AssertionError                          (* 1726 *)
  end.

(** Tails of a factor, with an optional qualifier at the end: 1500-1505. *)
Fixpoint tails_of (l : list kid) : result (list tail * qual) :=
  match l with
  | [] => Ok ([], QNone)
  | [(_, SQual q)] => Ok ([], q)
  | (_, STail t) :: r => x <- tails_of r ;; Ok (t :: fst x, snd x)
  | _ => Raise AssertionError                          (* 1513 *)
  end.

(** The attributes of an occurrence of a tag: 1150-1161. *)
Fixpoint attrs_of (unnamed : list expr) (named : list (str * expr)) (l : list kid)
  : result (list expr * list (str * expr)) :=
  match l with
  | [] => Ok (unnamed, named)
  | (_, SAttr None (Some e) _) :: r =>
      match named with
      | [] => attrs_of (unnamed ++ [e]) named r
      | _ :: _ => Raise SyntaxError                    (* 1157 *)
      end
  | (_, SAttr (Some n) (Some e) _) :: r => attrs_of unnamed (named ++ [(n, e)]) r
  | _ => odd
  end.

(** Clauses of an if block: 878-883. *)
Fixpoint clauses_of (l : list kid) : result (list (expr * option body) * option body) :=
  match l with
  | [] => Ok ([], None)
  | [(_, SElse y)] => Ok ([], Some (YElse y))
  | (_, SIf e y) :: r => x <- clauses_of r ;; Ok ((e, y) :: fst x, snd x)
  | _ => odd
  end.

(** ' '.join(text.split()) and the table of operators: 1529-1545 *)
Fixpoint words_go (cur : str) (s : str) : list str :=
  match s with
  | [] => match cur with [] => [] | _ => [rev cur] end
  | c :: r => if is_space c then match cur with [] => words_go [] r | _ => rev cur :: words_go [] r end
              else words_go (c :: cur) r
  end.
Definition words (s : str) : list str := words_go [] s.

Definition oper_of (text : str) : option binop :=
  let t := join [SP] (words text) in
  let is x := str_eqb t (u x) in
  if is "+" then Some OAdd else if is "-" then Some OSub else if is "**" then Some OPow
  else if is "*" then Some OMul else if is "//" then Some OFloorDiv else if is "%" then Some OMod
  else if is "<<" then Some OShl else if is ">>" then Some OShr else if is "&" then Some OBitAnd
  else if is "|" then Some OBitOr else if is "^" then Some OBitXor else if is "<" then Some OLt
  else if is ">" then Some OGt else if is "==" then Some OEq else if is ">=" then Some OGe
  else if is "<=" then Some OLe else if is "!=" then Some ONe else if is "<>" then Some ONe
  else if is "is" then Some OIs else if is "is not" then Some OIsNot else if is "/" then Some ODiv
  else if is "in" then Some OIn else if is "not in" then Some ONotIn else if is "" then Some OAdd
  else None.

(** xblock_assign.opers: 994-1005 *)
Definition inplace_of (text : str) : option binop :=
  let is x := str_eqb text (u x) in
  if is "+" then Some OAdd else if is "-" then Some OSub else if is "*" then Some OMul
  else if is "%" then Some OMod else if is "/" then Some ODiv else if is "//" then Some OFloorDiv
  else if is "<<" then Some OShl else if is ">>" then Some OShr else if is "&" then Some OBitAnd
  else if is "|" then Some OBitOr else if is "^" then Some OBitXor else None.

(** int(s) of a literal: None unless all the characters are decimal digits. Limits on the number of digits
    in recent versions of Python are not modelled. *)
Definition digit_value (U : unicode) (c : char) : option N :=
  if between 48 57 c then Some (c - 48) else if 128 <=? c then u_digit U c else None.
Fixpoint int_go (U : unicode) (acc : N) (s : str) : option N :=
  match s with
  | [] => Some acc
  | c :: r => match digit_value U c with Some d => int_go U (10 * acc + d) r | None => None end
  end.

(** xnumber.setup: 1751-1758 *)
Definition number_of (X : lexicon) (s : str) : val :=
  match s, int_go (lx_unicode X) 0 s with
  | _ :: _, Some n => VInt (Z.of_N n)
  | _, _ => lx_float X s
  end.

(** decode_escapes: core/ast.py 36-52. A name in braces, \N{...}, cannot occur, because text_quot1 and
    text_quot2 do not contain braces. *)
Definition hex (c : char) : option N :=
  if between 48 57 c then Some (c - 48) else if between 97 102 c then Some (c - 87)
  else if between 65 70 c then Some (c - 55) else None.
Fixpoint hex_go (acc : N) (s : str) : option N :=
  match s with
  | [] => Some acc
  | c :: r => match hex c with Some d => hex_go (16 * acc + d) r | None => None end
  end.
Definition octal (c : char) : option N := if between 48 55 c then Some (c - 48) else None.
Definition simple_escape (c : char) : option char :=
  if c =? 92 then Some 92 else if c =? 39 then Some 39 else if c =? 34 then Some 34
  else if c =? 97 then Some 7 else if c =? 98 then Some 8 else if c =? 102 then Some 12
  else if c =? 110 then Some 10 else if c =? 114 then Some 13 else if c =? 116 then Some 9
  else if c =? 118 then Some 11 else None.

(** codecs.decode of n hexadecimal digits; UnicodeDecodeError is a ValueError. *)
Definition decode_hex (s : str) : result char :=
  match hex_go 0 s with
  | Some n => if n <=? 1114111 then Ok n else Raise ValueError
  | None => Raise ValueError
  end.

Fixpoint decode_go (fuel : nat) (s : str) : result str :=
  match fuel with
  | O => Ok []
  | S k =>
      match s with
      | [] => Ok []
      | c :: r =>
          if negb (c =? 92) then x <- decode_go k r ;; Ok (c :: x)
          else
            match r with
            | [] => Ok [c]
            | d :: r' =>
                let hexa n := (v <- decode_hex (firstn n r') ;; x <- decode_go k (skipn n r') ;; Ok (v :: x)) in
                if (d =? 85) && Nat.leb 8 (List.length r') then hexa 8%nat
                else if (d =? 117) && Nat.leb 4 (List.length r') then hexa 4%nat
                else if (d =? 120) && Nat.leb 2 (List.length r') then hexa 2%nat
                else match octal d with
                     | Some a =>
                         match r' with
                         | e :: r2 =>
                             match octal e with
                             | Some b =>
                                 match r2 with
                                 | f :: r3 =>
                                     match octal f with
                                     | Some g => x <- decode_go k r3 ;; Ok (64 * a + 8 * b + g :: x)
                                     | None => x <- decode_go k r2 ;; Ok (8 * a + b :: x)
                                     end
                                 | [] => Ok [8 * a + b]
                                 end
                             | None => x <- decode_go k r' ;; Ok (a :: x)
                             end
                         | [] => Ok [a]
                         end
                     | None =>
                         match simple_escape d with
                         | Some v => x <- decode_go k r' ;; Ok (v :: x)
                         | None => x <- decode_go k r ;; Ok (c :: x)
                         end
                     end
            end
      end
  end.
Definition decode_escapes (s : str) : result str := decode_go (List.length s) s.

(** node.column: nifty/parsing.py 146-149 *)
Definition column (full : str) (start : nat) : nat :=
  S (span (fun c => negb (c =? NL)) (rev (firstn start full))).

Definition drop_last {A} (l : list A) : list A := firstn (Nat.pred (List.length l)) l.

Definition one_expr (l : list kid) : result expr :=
  match l with [k] => as_expr k | _ => Raise AssertionError end.

(** Every setup() method, given the children that are already set up, and the text of the qualifier that
    follows the node, if any ([nxt]; see 1317-1320). *)
Definition setup (X : lexicon) (full : str) (r : rule) (start : nat) (text : str) (kids : list kid) (nxt : qual)
  : result syn :=
  match r with
  (* static nodes: 354-367, 1552, 1773-1790 *)
  | R_name_id | R_name_xml | R_symbol | R_path_import | R_op_inplace | R_text | R_dedent | R_append
  | R_margin => Ok (SStatic text)
  | R_margin_out => Ok (SStatic (drop_last text))                               (* 1800-1801 *)
  | R_text_quot1 | R_text_quot2 => v <- decode_escapes text ;; Ok (SStatic v)     (* 1780-1781 *)
  | R_escape =>                                                                  (* 1804-1807 *)
      match text with
      | [a; b] => if a =? b then Ok (SStatic [a]) else Raise AssertionError
      | _ => Raise AssertionError
      end
  | R_indent_s => Ok (SIndent SP)                                                (* 1834-1841 *)
  | R_indent_t => Ok (SIndent TAB)
  | R_dedent_s => Ok (SDedent SP)
  | R_dedent_t => Ok (SDedent TAB)
  (* literals: 1739-1768 *)
  | R_number => Ok (SExpr (ELit (number_of X text)))
  | R_string_raw => Ok (SExpr (ELit (VStr (drop_last (skipn 2 text)))))
  | R_boolean => Ok (SExpr (ELit (VBool (str_eqb text (u "True")))))
  | R_none => Ok (SExpr (ELit VNone))
  | R_attr_short_lit => Ok (SExpr (ELit (VStr text)))
  | R_string_format => ps <- parts_of kids ;; Ok (SExpr (EFormat ps))            (* 1732-1734 *)
  (* collections: 1708-1730 *)
  | R_list => l <- mapr as_expr kids ;; Ok (SExpr (EList l))
  | R_tuple | R_expr_tuple => l <- mapr as_expr kids ;; Ok (SExpr (ETuple l))
  | R_set => l <- mapr as_expr kids ;; Ok (SExpr (ESet l))
  | R_dict => l <- pairs_of kids ;; Ok (SExpr (EDict l))
  (* names: 1345-1346, 1379-1382 *)
  | R_tag_use => Ok (SExpr (ETag text None))
  | R_var_use =>
      Ok (SExpr (EVar (match text with c :: s => if c =? 36 then s else text | [] => text end) None))
  | R_var_def =>
      Ok (STarget (TVar (match text with c :: s => if c =? 36 then s else text | [] => text end) false None None))
  (* roots: 1311-1338 *)
  | R_expr | R_expr_var | R_expr_factor | R_expr_strict | R_expr_augment | R_expr_bitwise =>
      e <- one_expr kids ;; Ok (SExpr (ERoot e nxt))
  (* tail operators: 1430-1492 *)
  | R_call => l <- mapr as_arg kids ;; Ok (STail (TCall l))
  | R_partial_call => l <- mapr as_arg kids ;; Ok (STail (TPartial l))
  | R_slice_value =>
      match kids with
      | [] => Ok (SSlice None)
      | [k] => e <- as_expr k ;; Ok (SSlice (Some e))
      | _ => Raise AssertionError
      end
  | R_index =>
      match kids with
      | [(_, SExpr e)] => Ok (STail (TIndex e))
      | [(_, SSlice a); (_, SSlice b)] => Ok (STail (TSlice a b None))
      | [(_, SSlice a); (_, SSlice b); (_, SSlice c)] => Ok (STail (TSlice a b c))
      | _ => odd
      end
  | R_member => match kids with [k] => n <- as_static k ;; Ok (STail (TMember n)) | _ => odd end
  | R_qualifier => Ok (SQual (if str_eqb text (u "?") then QOpt else QReq))
  (* factors: 1494-1520 *)
  | R_factor | R_factor_var | R_factor_strict | R_factor_filt | R_filter =>
      match kids with
      | k :: l => e <- as_expr k ;; x <- tails_of l ;; Ok (SExpr (EFactor e (fst x) (snd x)))
      | [] => odd
      end
  (* operators: 1525-1554 *)
  | R_op_multiplic | R_op_additive | R_op_power | R_op_shift | R_op_comp =>
      match oper_of text with Some o => Ok (SOper o) | None => Raise KeyError end
  | R_neg => Ok SNeg
  | R_not => Ok SNot
  (* chains: 1556-1651 *)
  | R_pow_expr | R_term | R_shift_expr | R_comparison | R_arith_expr =>
      match kids with
      | (_, SNeg) :: k :: l => e <- as_expr k ;; x <- chain_of l ;; Ok (SExpr (EChain true e x))
      | k :: l => e <- as_expr k ;; x <- chain_of l ;; Ok (SExpr (EChain false e x))
      | [] => odd
      end
  | R_and_expr => l <- mapr as_expr kids ;; match l with e :: l => Ok (SExpr (ESimple OBitAnd e l)) | [] => odd end
  | R_xor_expr => l <- mapr as_expr kids ;; match l with e :: l => Ok (SExpr (ESimple OBitXor e l)) | [] => odd end
  | R_or_expr => l <- mapr as_expr kids ;; match l with e :: l => Ok (SExpr (ESimple OBitOr e l)) | [] => odd end
  | R_pipeline => l <- mapr as_expr kids ;; match l with e :: l => Ok (SExpr (EPipe e l)) | [] => odd end
  | R_concat_expr => l <- mapr as_expr kids ;; Ok (SExpr (EConcat l))
  | R_not_test =>
      match rev kids with
      | k :: l =>
          if forallb (fun k => match snd k with SNot => true | _ => false end) l
          then e <- as_expr k ;; Ok (SExpr (ENot (List.length l) e)) else Raise AssertionError
      | [] => odd
      end
  | R_and_test => l <- mapr as_expr kids ;; match l with e :: l => Ok (SExpr (EAnd e l)) | [] => odd end
  | R_or_test => l <- mapr as_expr kids ;; match l with e :: l => Ok (SExpr (EOr e l)) | [] => odd end
  | R_ifelse_test =>
      l <- mapr as_expr kids ;;
      match l with
      | [a; b] => Ok (SExpr (EIf a b None))
      | [a; b; c] => Ok (SExpr (EIf a b (Some c)))
      | _ => Raise AssertionError
      end
  (* attributes: 1230-1277 *)
  | R_attr_body => match kids with [k] => n <- as_static k ;; Ok (SAttr (Some n) None true) | _ => Raise AssertionError end
  | R_attr_def =>
      match kids with
      | [k] => n <- as_static k ;; Ok (SAttr (Some n) None false)
      | [k; e] => n <- as_static k ;; e <- as_expr e ;; Ok (SAttr (Some n) (Some e) false)
      | _ => Raise AssertionError
      end
  | R_attr_named =>
      match kids with
      | k :: e :: ([] | [_]) =>
          match snd e with
          | SExpr e => n <- as_static k ;; Ok (SAttr (Some n) (Some e) false)
          | _ => Raise AssertionError
          end
      | _ => Raise AssertionError
      end
  | R_attr_unnamed =>
      match kids with [k] => e <- as_expr k ;; Ok (SAttr None (Some e) false) | _ => Raise AssertionError end
  | R_attr_short =>
      match text, kids with
      | c :: _, k :: ([] | [_]) =>
          if mem c (u ".#") then
            match snd k with
            | SExpr e => Ok (SAttr (Some (if c =? 46 then u "class" else u "id")) (Some e) false)
            | _ => Raise AssertionError
            end
          else Raise AssertionError
      | _, _ => Raise AssertionError
      end
  | R_kwarg =>
      match kids with
      | [k; e] => n <- as_static k ;; e <- as_expr e ;; Ok (SKwarg n e)
      | _ => Raise AssertionError
      end
  (* tags: 1114-1206 *)
  | R_null => Ok (STagexp XNull)
  | R_tag_expand =>
      match kids with
      | (Some R_name_id, SStatic n) :: l => x <- attrs_of [] [] l ;; Ok (STagexp (XTag n None (fst x) (snd x)))
      | l => x <- attrs_of [] [] l ;; Ok (STagexp (XTag (u "div") None (fst x) (snd x)))
      end
  | R_tags_expand => l <- mapr as_tagexp kids ;; Ok (STags l)
  | R_pass => Ok (SBlock BPass)
  (* lines: 1083-1109 *)
  | R_line_verbat => Ok (SLine (LVerbat text))
  | R_line_markup => ps <- parts_of kids ;; Ok (SLine (LMarkup ps))
  | R_line_normal =>
      match kids with [(_, SLine (LMarkup ps))] => Ok (SLine (LNormal ps)) | _ => Raise AssertionError end
  (* targets: 1035-1065 *)
  | R_targets => l <- mapr as_target kids ;; Ok (STarget (TTargets l))
  (* bodies: 1069-1081 *)
  | R_body_control | R_body_struct => l <- mapr item_of kids ;; Ok (SBody (YItems l))
  (* blocks: 431-1033 *)
  | R_document => l <- mapr item_of kids ;; Ok (SDoc l)
  | R_block =>
      match kids with
      | [(Some R_margin_out, SStatic m); (_, SBlock b)] => Ok (SItem (NBlock m MNone b))
      | [(Some R_margin_out, SStatic m); (_, SStatic x); (_, SBlock b)] =>
          Ok (SItem (NBlock m (if str_eqb x (u "...") then MAppend else if str_eqb x (u "<") then MDedent
                               else MNone) b))
      | _ => Raise AssertionError
      end
  | R_block_verbat | R_block_normal | R_block_markup =>
      l <- mapr titem_of kids ;; Ok (SBlock (BText (column full start) l))
  | R_block_comment => Ok (SBlock BComment)
  | R_block_embed => match kids with k :: _ => e <- as_expr k ;; Ok (SBlock (BEmbed e)) | [] => odd end
  | R_block_struct =>
      match kids with
      | [(_, STags t); k] => b <- as_body k ;; Ok (SBlock (BStruct t b))
      | _ => Raise AssertionError
      end
  | R_block_def =>
      match kids with
      | k :: l =>
          n <- as_static k ;;
          match rev l with
          | b :: ra =>
              b <- as_body b ;;
              attrs <- mapr (fun k => match snd k with
                                      | SAttr (Some n) e x => Ok (n, e, x)
                                      | _ => Raise AssertionError
                                      end) (rev ra) ;;
              (* len(self.attr_names) < len(self.attrs) *)
              if negb (Nat.eqb (List.length (nodup (list_eq_dec N.eq_dec) (map (fun a => fst (fst a)) attrs)))
                               (List.length attrs))
              then Raise SyntaxError                                               (* 574-575 *)
              else
                let regular := map (fun a => {| a_name := fst (fst a); a_default := snd (fst a); a_slot := None |}) in
                match attrs with
                | (n0, _, true) :: rest => Ok (SBlock (BDef None n (Some (n0, None)) (regular rest) b))
                | _ => Ok (SBlock (BDef None n None (regular attrs) b))
                end
          | [] => odd
          end
      | [] => odd
      end
  | R_block_import =>
      match kids with
      | (Some R_path_import, SStatic p) :: l => l <- mapr as_import l ;; Ok (SBlock (BImport p l))
      | _ => odd
      end
  | R_block_context => l <- mapr as_import kids ;; Ok (SBlock (BContext l))
  | R_wild_import => Ok (SImport (IWild None))
  | R_name_import | R_cntx_import =>
      match kids with
      | [s] => s <- as_static s ;; Ok (SImport (IName s None None))
      | [s; n] => s <- as_static s ;; n <- as_static n ;; Ok (SImport (IName s (Some n) None))
      | _ => odd
      end
  | R_block_try => l <- mapr as_body kids ;; Ok (SBlock (BTry l))
  | R_clause_if =>
      match kids with
      | [k] => e <- as_expr k ;; Ok (SIf e None)
      | [k; y] => e <- as_expr k ;; y <- as_body y ;; Ok (SIf e (Some y))
      | _ => Raise AssertionError
      end
  | R_clause_else =>
      match kids with
      | [] => Ok (SElse None)
      | [y] => y <- as_body y ;; Ok (SElse (Some y))
      | _ => odd
      end
  | R_block_if => x <- clauses_of kids ;; Ok (SBlock (BIf (fst x) (snd x)))
  | R_block_while =>
      match kids with
      | [(_, SIf e y)] => Ok (SBlock (BWhile e y None))
      | [(_, SIf e y); (_, SElse z)] => Ok (SBlock (BWhile e y (Some (YElse z))))
      | _ => odd
      end
  | R_block_for =>
      match kids with
      | (Some R_targets, STarget t) :: k :: l =>
          e <- as_expr k ;;
          body <- match l with [] => Ok None | b :: _ => b <- as_body b ;; Ok (Some b) end ;;
          els <- match rev l with
                 | (_, SElse y) :: _ => Ok (Some (YElse y))
                 | _ => Ok None
                 end ;;
          Ok (SBlock (BFor t e body els))
      | _ => Raise AssertionError
      end
  | R_block_expr => e <- one_expr kids ;; Ok (SBlock (BExpr e))
  | R_block_assign =>
      let kids := match rev kids with (Some R_qualifier, _) :: l => rev l | _ => kids end in
      match kids with
      | [(_, STarget t); k] => e <- as_expr k ;; Ok (SBlock (BAssign t None e))
      | [(_, STarget t); o; k] =>
          o <- as_static o ;; e <- as_expr k ;;
          match inplace_of o with
          | None => Raise KeyError
          | Some b =>
              match t with
              | TTargets [TVar n _ rd wr] => Ok (SBlock (BAssign (TTargets [TVar n true rd wr]) (Some b) e))
              | _ => Raise SyntaxError                                            (* 1021-1022 *)
              end
          end
      | _ => Raise AssertionError
      end
  (* removed, reduced, or not reachable from the first rule *)
  | _ => odd
  end.

(** The qualifier that follows a node, if any. *)
Definition next_qual (l : list node) : qual :=
  match l with
  | Nd (Some R_qualifier) _ x _ :: _ => if str_eqb x (u "?") then QOpt else QReq
  | _ => QNone
  end.

(** Tree.node._setup_all: nifty/parsing.py 178-181, with the links between siblings set by _enrich (207-220). *)
Fixpoint setup_all (X : lexicon) (full : str) (n : node) (nxt : qual) : result kid :=
  match n with
  | Nd k start text kids =>
      l <- (fix go (l : list node) : result (list kid) :=
              match l with
              | [] => Ok []
              | a :: r => x <- setup_all X full a (next_qual r) ;; xs <- go r ;; Ok (x :: xs)
              end) kids ;;
      match k with
      | None => Ok (None, SStatic text)
      | Some r => s <- setup X full r start text l nxt ;; Ok (k, s)
      end
  end.

(** The document out of a raw tree: Tree.__init__ (nifty/parsing.py 62-93) and core/ast.py 1993-1997. *)
Definition build (X : lexicon) (full : str) (t : tree rule) : result document :=
  match rewrite t with
  | [n] =>
      k <- setup_all X full n QNone ;;
      match snd k with SDoc d => Ok d | _ => Raise AssertionError end
  | _ => odd
  end.

(** ** Scripts *)

(** Outcome of Tree.__init__ for a preprocessed text: the document, IncompleteParseError, or another
    error. *)
Inductive outcome :=
| Good (d : document)
| Bad                                                (* IncompleteParseError *)
| Fails (e : exn).

Definition parse_flat (X : lexicon) (y : symbols) (flat : str) : outcome :=
  match flat with
  | [] => Good []                                    (* 1993-1994: "workaround" for an empty text *)
  | _ :: _ =>
      match parse (lx_unicode X) y flat with
      | Parsed t => match build X flat t with Ok d => Good d | Raise e => Fails e end
      | Incomplete => Bad
      | NoMatch => Fails ParseError
      | NoFuel => Fails ParseError
      end
  end.

(** _locate_error: core/ast.py 2000-2027. The loop halves the distance, so the number of lines suffices as a
    bound for the number of iterations. *)
Fixpoint locate_go (X : lexicon) (y : symbols) (lines : list str) (n : nat) (good bad : nat) : result nat :=
  match n with
  | O => Ok bad
  | S k =>
      if Nat.ltb (good + 1) bad then
        let mid := Nat.div (good + bad) 2 in
        flat <- preprocess y (join [NL] (firstn mid lines)) ;;
        match parse_flat X y flat with
        | Good _ => locate_go X y lines k mid bad
        | Bad => locate_go X y lines k good mid
        | Fails e => Raise e
        end
      else Ok bad
  end.

Definition locate_error (X : lexicon) (y : symbols) (script : str) : result nat :=
  let lines := split NL script in
  locate_go X y lines (List.length lines) 0 (List.length lines).

(** The beginning of the line that is put in the message: core/ast.py 1985-1988 and 2026-2027. *)
Definition error_text (script : str) (line : nat) : str :=
  let x := strip (nth (line - 1) (split NL script) []) in
  firstn 15 x ++ (if Nat.ltb 15 (List.length x) then u "..." else []).

(** What the constructor of HypertagAST ends with: a document, SyntaxErrorEx('invalid syntax near line ...')
    with the line and its text, or another error. *)
Inductive report :=
| Tree_of (d : document)
| Error_near (line : nat) (text : str)
| Error_of (e : exn).

(** HypertagAST.__init__: core/ast.py 1969-1997. *)
Definition parse_report (X : lexicon) (script : str) : report :=
  match get_parser script with
  | None => Error_of ValueError                      (* chr() out of range, see Preprocess.v *)
  | Some y =>
      match preprocess y script with
      | Raise e => Error_of e
      | Ok flat =>
          match parse_flat X y flat with
          | Good d => Tree_of d
          | Fails e => Error_of e
          | Bad => match locate_error X y script with
                   | Ok line => Error_near line (error_text script line)
                   | Raise e => Error_of e
                   end
          end
      end
  end.

Definition parse_script (X : lexicon) (script : str) : result document :=
  match parse_report X script with
  | Tree_of d => Ok d
  | Error_near _ _ => Raise SyntaxError
  | Error_of e => Raise e
  end.
