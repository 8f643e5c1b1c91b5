(** Specification of parsing, independent of the matcher: the usual big-step semantics of parsing expression
    grammars (B. Ford, 2004), with the treatment of empty matches in repetitions that Parsimonious
    documents, and what it means that a tree covers a text. *)
From Coq Require Import List NArith Bool Arith.
From Verif Require Import PyStr Peg.
Import ListNotations.

Section Sem.
Context {rule : Type}.
Variable G : rule -> peg rule.

(** [sem e s (Some rest)]: [e] matches a prefix of [s] that leaves [rest]. [sem e s None]: it does not match. *)
Inductive sem : peg rule -> str -> option str -> Prop :=
| sem_lit l r : sem (PLit l) (l ++ r) (Some r)
| sem_lit_no l s : (forall r, s <> l ++ r) -> sem (PLit l) s None
| sem_rx x s n : rx_match x s = Some n -> sem (PRx x) s (Some (skipn n s))
| sem_rx_no x s : rx_match x s = None -> sem (PRx x) s None
| sem_ref r s o : sem (G r) s o -> sem (PRef r) s o
| sem_seq_nil s : sem (PSeq []) s (Some s)
| sem_seq_cons e l s r o : sem e s (Some r) -> sem (PSeq l) r o -> sem (PSeq (e :: l)) s o
| sem_seq_no e l s : sem e s None -> sem (PSeq (e :: l)) s None
| sem_alt_nil s : sem (PAlt []) s None
| sem_alt_first e l s r : sem e s (Some r) -> sem (PAlt (e :: l)) s (Some r)
| sem_alt_next e l s o : sem e s None -> sem (PAlt l) s o -> sem (PAlt (e :: l)) s o
| sem_not e s r : sem e s (Some r) -> sem (PNot e) s None
| sem_not_no e s : sem e s None -> sem (PNot e) s (Some s)
| sem_opt e s r : sem e s (Some r) -> sem (POpt e) s (Some r)
| sem_opt_no e s : sem e s None -> sem (POpt e) s (Some s)
| sem_star_no e s : sem e s None -> sem (PStar e) s (Some s)
| sem_star_empty e s : sem e s (Some s) -> sem (PStar e) s (Some s)
| sem_star_more e s r o : sem e s (Some r) -> r <> s -> sem (PStar e) r o -> sem (PStar e) s o
| sem_plus_no e s : sem e s None -> sem (PPlus e) s None
| sem_plus e s r o : sem e s (Some r) -> sem (PStar e) r o -> sem (PPlus e) s o.

(** Leaves of a tree, with their positions. *)
Fixpoint leaves (t : tree rule) : list (nat * str) :=
  match t with
  | Tree _ p x [] => [(p, x)]
  | Tree _ _ _ l => flat_map leaves l
  end.

(** All nodes of a tree. *)
Fixpoint nodes (t : tree rule) : list (tree rule) :=
  match t with Tree _ _ _ l => t :: flat_map nodes l end.

End Sem.
