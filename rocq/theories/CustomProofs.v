(** Proofs about the tag %custom. *)
From Coq Require Import List NArith Bool String.
From Verif Require Import PyStr PyStrFacts Html HtmlSpec HtmlFacts HtmlProofs.
Import ListNotations.
Local Open Scope N_scope.

Lemma custom_as_element name body kw : custom_expand body [name] kw = markup_expand {| m_name := name; m_void := false; m_mode := HTML |} body 0 kw.
Proof. reflexivity. Qed.
Lemma custom_read name body kw s rest : valid_name name -> (forall nv, In nv kw -> valid_name (fst nv)) -> custom_expand body [name] kw = Ok s ->
  exists s1 s2, s ++ rest = 60 :: s1 /\
    read_tag s1 = Some (IOpen name (flat_map (seen HTML) kw), body ++ (if startswith [NL] body then [NL] else []) ++ 60 :: s2) /\
    read_tag s2 = Some (IClose name, rest).
Proof.
  intros Hn Hk H. rewrite custom_as_element in H. exact (element_read {| m_name := name; m_void := false; m_mode := HTML |} body kw s rest eq_refl Hn Hk H).
Qed.
Lemma custom_one body attrs kw : List.length attrs <> 1%nat -> custom_expand body attrs kw = Raise TypeError.
Proof. destruct attrs as [|a [|b r]]; intros H; [reflexivity|contradiction H; reflexivity|reflexivity]. Qed.
