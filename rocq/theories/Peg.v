(** Model of the part of Parsimonious 0.8.1 (expressions.py) that hypertag relies on: matching of a
    parsing expression grammar. Hypertag pins this version in setup.cfg; the library is not a part of
    /repo, so this file follows the published code of the library. Left out: the packrat cache (matching
    is a pure function of the expression and the position, so the cache changes only the time), and the
    bookkeeping of the furthest error position (hypertag uses only the type of the error). *)
From Coq Require Import List NArith Bool Arith.
From Verif Require Import PyStr.
Import ListNotations.

(** Regular expressions, as far as used by the grammar. Repetition is needed for character classes
    only. [RxEdge] is a word boundary after a word character. *)
Inductive rx :=
| RxEps
| RxChr (p : char -> bool)
| RxStar (p : char -> bool)
| RxSeq (a b : rx)
| RxAlt (a b : rx)
| RxEdge (word : char -> bool).

(** Length of the longest prefix of characters in class [p]. *)
Fixpoint span (p : char -> bool) (s : str) : nat :=
  match s with
  | [] => 0
  | c :: r => if p c then S (span p r) else 0
  end.

(** n, n-1, ..., 0 *)
Fixpoint down (n : nat) : list nat :=
  match n with
  | O => [0]
  | S k => n :: down k
  end.

(** Lengths of all matches at the beginning of [s], in the order in which the backtracking matcher of
    Python (module re) tries them: repetition is greedy and alternatives are tried from left to right. *)
Fixpoint rx_all (x : rx) (s : str) : list nat :=
  match x with
  | RxEps => [0]
  | RxChr p => match s with c :: _ => if p c then [1] else [] | [] => [] end
  | RxStar p => down (span p s)
  | RxSeq a b => flat_map (fun n => map (Nat.add n) (rx_all b (skipn n s))) (rx_all a s)
  | RxAlt a b => rx_all a s ++ rx_all b s
  | RxEdge word => match s with c :: _ => if word c then [] else [0] | [] => [0] end
  end.

(** re.match: the first of the matches. *)
Definition rx_match (x : rx) (s : str) : option nat :=
  match rx_all x s with n :: _ => Some n | [] => None end.

(** Expressions of the library: Literal, Regex, reference to a rule, Sequence, OneOf, Not, Optional,
    ZeroOrMore, OneOrMore. *)
Inductive peg (rule : Type) :=
| PLit (l : str)
| PRx (x : rx)
| PRef (r : rule)
| PSeq (l : list (peg rule))
| PAlt (l : list (peg rule))
| PNot (e : peg rule)
| POpt (e : peg rule)
| PStar (e : peg rule)
| PPlus (e : peg rule).
Arguments PLit {rule} l.
Arguments PRx {rule} x.
Arguments PRef {rule} r.
Arguments PSeq {rule} l.
Arguments PAlt {rule} l.
Arguments PNot {rule} e.
Arguments POpt {rule} e.
Arguments PStar {rule} e.
Arguments PPlus {rule} e.

(** Nodes of the raw syntax tree (Parsimonious nodes.py): expr_name, start, text, children. Instead of
    the end position the matched text is kept: end = start + length of the text. *)
Inductive tree (rule : Type) :=
| Tree (name : option rule) (start : nat) (text : str) (kids : list (tree rule)).
Arguments Tree {rule} name start text kids.

Definition t_name {rule} (t : tree rule) := let 'Tree n _ _ _ := t in n.
Definition t_start {rule} (t : tree rule) := let 'Tree _ p _ _ := t in p.
Definition t_text {rule} (t : tree rule) := let 'Tree _ _ x _ := t in x.
Definition t_kids {rule} (t : tree rule) := let 'Tree _ _ _ l := t in l.

(** Outcome of a match: [PFail] = no match (None in Python), [POk t rest] = node and the text that
    follows it, [PFuel] = the model ran out of steps. *)
Inductive pout (rule : Type) :=
| PFuel
| PFail
| POk (a : rule) (rest : str).
Arguments PFuel {rule}.
Arguments PFail {rule}.
Arguments POk {rule} a rest.

(** Text between a position and a later one, given what follows each of them: text[pos:end]. *)
Definition upto (s rest : str) : str := firstn (length s - length rest) s.

Section Run.
Context {rule : Type}.
Variable G : rule -> peg rule.

Section Step.
(** Matching of a member expression at a position, with the text that begins there. *)
Variable M : peg rule -> nat -> str -> pout (tree rule).

(** Sequence._uncached_match: children in order, None as soon as one of them fails. *)
Fixpoint seq_match (l : list (peg rule)) (pos : nat) (s : str) : pout (list (tree rule)) :=
  match l with
  | [] => POk [] s
  | e :: r =>
      match M e pos s with
      | PFuel => PFuel
      | PFail => PFail
      | POk t s1 =>
          match seq_match r (pos + length (t_text t)) s1 with
          | PFuel => PFuel
          | PFail => PFail
          | POk ts s2 => POk (t :: ts) s2
          end
      end
  end.

(** OneOf._uncached_match: the first member that matches. *)
Fixpoint alt_match (l : list (peg rule)) (pos : nat) (s : str) : pout (tree rule) :=
  match l with
  | [] => PFail
  | e :: r =>
      match M e pos s with
      | PFail => alt_match r pos s
      | o => o
      end
  end.

(** The loop of ZeroOrMore ([keep] = false: an empty match ends the loop and is dropped) and of
    OneOrMore ([keep] = true: it ends the loop and is kept). [n] bounds the number of iterations;
    every iteration but the last one consumes a character. *)
Fixpoint loop_match (keep : bool) (n : nat) (e : peg rule) (pos : nat) (s : str)
  : pout (list (tree rule)) :=
  match n with
  | O => PFuel
  | S k =>
      match M e pos s with
      | PFuel => PFuel
      | PFail => POk [] s
      | POk t s1 =>
          match t_text t with
          | [] => POk (if keep then [t] else []) s
          | _ :: _ =>
              match loop_match keep k e (pos + length (t_text t)) s1 with
              | PFuel => PFuel
              | PFail => PFail
              | POk ts s2 => POk (t :: ts) s2
              end
          end
      end
  end.
End Step.

(** A node for an anonymous compound expression. *)
Definition wrap (pos : nat) (s : str) (o : pout (list (tree rule))) : pout (tree rule) :=
  match o with
  | PFuel => PFuel
  | PFail => PFail
  | POk ts rest => POk (Tree None pos (upto s rest) ts) rest
  end.

(** The expression of a rule carries the name of the rule, so the node made by it does. *)
Definition rename (r : rule) (o : pout (tree rule)) : pout (tree rule) :=
  match o with
  | POk (Tree _ p x l) rest => POk (Tree (Some r) p x l) rest
  | o => o
  end.

(** Expression.match_core and the _uncached_match methods of all the classes. *)
Fixpoint peg_match (fuel : nat) (e : peg rule) (pos : nat) (s : str) : pout (tree rule) :=
  match fuel with
  | O => PFuel
  | S k =>
      match e with
      | PLit l => if startswith l s then POk (Tree None pos l []) (skipn (length l) s) else PFail
      | PRx x => match rx_match x s with
                 | Some n => POk (Tree None pos (firstn n s) []) (skipn n s)
                 | None => PFail
                 end
      | PRef r => rename r (peg_match k (G r) pos s)
      | PSeq l => wrap pos s (seq_match (peg_match k) l pos s)
      | PAlt l => match alt_match (peg_match k) l pos s with
                  | POk t rest => POk (Tree None pos (t_text t) [t]) rest
                  | o => o
                  end
      | PNot e1 => match peg_match k e1 pos s with
                   | PFuel => PFuel
                   | PFail => POk (Tree None pos [] []) s
                   | POk _ _ => PFail
                   end
      | POpt e1 => match peg_match k e1 pos s with
                   | PFuel => PFuel
                   | PFail => POk (Tree None pos [] []) s
                   | POk t rest => POk (Tree None pos (t_text t) [t]) rest
                   end
      | PStar e1 => wrap pos s (loop_match (peg_match k) false (S (length s)) e1 pos s)
      | PPlus e1 => match loop_match (peg_match k) true (S (length s)) e1 pos s with
                    | POk [] _ => PFail
                    | o => wrap pos s o
                    end
      end
  end.

End Run.
