(** Abstract syntax of Hypertag: the tree of core/ast.py after parsing, rewriting (removal, reduction
    and compactification of nodes, nifty/parsing.py 300-345) and setup() of the nodes. Fields that are
    None in Python until semantic analysis (slots) are [None] here in the same way, so one type serves
    before and after analysis. Positions in the source text are dropped, except for the column of text
    blocks, which matters for the output. *)
From Coq Require Import List NArith ZArith Bool.
From Verif Require Import PyStr Value.
Import ListNotations.

(** Identity of a Slot object (core/structs.py 409-448). *)
Notation slot := nat (only parsing).

(** Binary operators: core/ast.py 1525-1545 (static_operator.ops), 994-1005 (xblock_assign.opers) and
    1622-1636. *)
Inductive binop :=
| OAdd | OSub | OPow | OMul | ODiv | OFloorDiv | OMod | OShl | OShr | OBitAnd | OBitOr | OBitXor
| OLt | OGt | OEq | OGe | OLe | ONe | OIs | OIsNot | OIn | ONotIn.

(** Qualifiers: core/ast.py 1282-1331 *)
Inductive qual :=
| QNone
| QOpt                                      (* ? *)
| QReq.                                     (* ! *)

Inductive expr :=
| ELit (v : val)                                          (* 1739-1768 *)
| EFormat (parts : list part)                             (* 1732-1734 *)
| EVar (name : str) (r : option slot)                     (* 1365-1416, xvar_use; r = slot_read *)
| ETag (symbol : str) (r : option slot)                   (* 1340-1362 *)
| EList (l : list expr)                                   (* 1708-1710 *)
| ETuple (l : list expr)                                  (* 1712-1717 *)
| ESet (l : list expr)                                    (* 1719-1721 *)
| EDict (l : list (expr * expr))                          (* 1723-1730 *)
| EFactor (atom : expr) (tails : list tail) (q : qual)    (* 1494-1520 *)
| EChain (neg : bool) (head : expr) (ops : list (binop * expr))   (* 1556-1596, 1649-1651 *)
| ESimple (o : binop) (head : expr) (l : list expr)       (* 1612-1637 *)
| EPipe (head : expr) (filters : list expr)               (* 1638-1646 *)
| EConcat (l : list expr)                                 (* 1598-1610 *)
| ENot (n : nat) (e : expr)                               (* 1653-1659; n = number of nots *)
| EAnd (head : expr) (l : list expr)                      (* 1661-1669 *)
| EOr (head : expr) (l : list expr)                       (* 1670-1678 *)
| EIf (x c : expr) (y : option expr)                      (* 1680-1691: x if c else y *)
| ERoot (e : expr) (q : qual)                             (* 1311-1338 *)
with tail :=
| TCall (args : list (option str * expr))                 (* 1435-1445, 1266-1277; a name in a keyword argument *)
| TPartial (args : list (option str * expr))              (* 1447-1452 *)
| TIndex (e : expr)                                       (* 1460-1476, one child *)
| TSlice (a b c : option expr)                            (* 1454-1480, 2 or 3 children *)
| TMember (name : str)                                    (* 1482-1489 *)
with part :=
| PText (s : str)                                         (* static text: 1778-1807 *)
| PExpr (e : expr).                                       (* expression rendered with STR: 1322-1324 *)

(** Lines of text: core/ast.py 1083-1109 *)
Inductive line :=
| LVerbat (s : str)
| LNormal (parts : list part)
| LMarkup (parts : list part).

(** Children of text blocks: core/ast.py 464-500, 1790, 1814-1841 *)
Inductive titem :=
| TxLine (l : line)
| TxMargin (s : str)
| TxIndent (c : char)
| TxDedent (c : char).

(** Targets of assignments: core/ast.py 1035-1065 (xtargets) and 1365-1425 (xvar_def). [read] is set by
    an in-place operator; [r], [w] are slot_read and slot_write. *)
Inductive target :=
| TVar (name : str) (read : bool) (r w : option slot)
| TTargets (l : list target).

(** Occurrence of a tag: core/ast.py 1114-1202. Attributes are already divided into unnamed and named
    ones, as done in setup(), which also rejects unnamed attributes after named ones. *)
Inductive tagexp :=
| XNull
| XTag (name : str) (t : option slot) (unnamed : list expr) (named : list (str * expr)).

(** Regular attribute of a hypertag definition: core/ast.py 1211-1243 *)
Record attrdef := { a_name : str; a_default : option expr; a_slot : option slot }.

(** Items of import and context blocks: core/ast.py 676-770. The annotation is the ValueSlot: the
    slot and its value. *)
Inductive iitem :=
| IWild (slots : option (list (slot * val)))
| IName (symbol : str) (rename : option str) (s : option (slot * val)).

(** Layout modifier of a block: core/ast.py 431-461 *)
Inductive modifier := MNone | MAppend | MDedent.

(** Blocks. A [body] is anything that stands in the place of a body of another block; a clause_else
    may lack its body. *)
Inductive block :=
| BText (lead : nat) (items : list titem)                 (* 464-504 *)
| BComment                                                (* 505-507 *)
| BEmbed (e : expr)                                       (* 509-529 *)
| BStruct (tags : list tagexp) (b : body)                 (* 531-551 *)
| BDef (d : option (nat * slot)) (name : str) (abody : option (str * option slot))
       (aregul : list attrdef) (b : body)                 (* 553-675; d = number of the definition, slot *)
| BImport (path : str) (items : list iitem)               (* 676-742 *)
| BContext (items : list iitem)                           (* 744-769 *)
| BTry (branches : list body)                             (* 852-872 *)
| BIf (clauses : list (expr * option body)) (els : option body)   (* 874-908 *)
| BWhile (test : expr) (b : option body) (els : option body)      (* 910-931 *)
| BFor (ts : target) (e : expr) (b : option body) (els : option body)   (* 933-971; setup takes the third
      child for the body whatever it is (941), so without a body the clause_else serves as both *)
| BExpr (e : expr)                                        (* 973-986 *)
| BAssign (ts : target) (o : option binop) (e : expr)     (* 988-1033 *)
| BPass                                                   (* 1204-1206 *)
with body :=
| YItems (l : list item)                                  (* body_control, body_struct: 1069-1081 *)
| YBlock (b : block)                                      (* a text block, @-block or tagged block *)
| YElse (b : option body)                                 (* clause_else: 905-908 *)
with item :=
| NLine (l : line)
| NIndent (c : char)                                      (* 1814-1841 *)
| NDedent (c : char)
| NMargin (s : str)                                       (* xmargin, only at the end of a document *)
| NBlock (margin : str) (m : modifier) (b : block).       (* 431-461; margin without its last newline *)

(** The document: core/ast.py 379-425. *)
Definition document := list item.
