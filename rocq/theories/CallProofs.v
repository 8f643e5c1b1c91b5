(** Proofs and sample data of the theorems in PropCall.v. *)
From Coq Require Import List NArith ZArith Bool Lia Arith String.
From Verif Require Import PyStr PyStrFacts Html PyDict Value Dom Ast Machine Eval Translate MachineFacts ExprSpec ExprFacts BindFacts Ref Samples.
Import ListNotations.
Local Open Scope list_scope.

(** .a id=x .b class="c d" *)
Definition attrs1 : list (str * expr) := [(u "class", slit "a"); (u "id", slit "x"); (u "class", slit "b"); (u "class", slit "c d")].
Definition vals1 : list (str * val) := [(u "class", VStr (u "a")); (u "id", VStr (u "x")); (u "class", VStr (u "b")); (u "class", VStr (u "c d"))].

(** % H @body a b=2 c=a *)
Definition h1 : hdef :=
  {| h_name := u "H"; h_body := Some (u "body", 0);
     h_regul := [(u "a", None, 1); (u "b", Some (lit 2), 2); (u "c", Some (lit 3), 3)]; h_block := YItems [] |}.
Definition bind1 (attrs : list val) (kw : list (str * val)) := append_attrs ref_prims (expand_n ref_prims 3) h1 (VDom []) attrs kw 0 (with_vals []).

(** $ x, (y, z) = [1, "ab"] *)
Definition tvar (x : nat) : target := TVar (u "v") false None (Some x).
Definition targets1 : target := TTargets [tvar 1; TTargets [tvar 2; tvar 3]].
