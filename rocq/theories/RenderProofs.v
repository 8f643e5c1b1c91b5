(** Proofs and sample data of the theorems in PropRender.v. *)
From Coq Require Import List NArith Bool Lia Arith String.
From Verif Require Import PyStr Html HtmlSpec PyDict Value Dom DomSpec DomFacts RenderFacts MarkupFacts.
Import ListNotations.
Local Open Scope nat_scope.
Definition prims0 : rprims := {| p_str := fun _ => Ok (u "?"); p_tagfun := fun _ b _ _ => Ok b |}.
Definition elem (name : string) (void : bool) (kw : list (str * val)) (outline : bool) (ind : option str) : info :=
  {| n_kind := KNode; n_tag := Some (Tag (N.of_nat (String.length name)) (u name) (KMarkup void HTML)); n_attrs := [];
     n_kwattrs := Some kw; n_outline := outline; n_indent := ind |}.
Definition txt (s : str) (outline : bool) (ind : option str) : info :=
  {| n_kind := KText s; n_tag := None; n_attrs := []; n_kwattrs := None; n_outline := outline; n_indent := ind |}.

(** div with a text of two lines, one of them with an escaped character, and a void element *)
Definition doc_text : str := u "a &lt; b" ++ [NL] ++ u "c".
Definition doc_heap : heap :=
  [ {| c_info := txt doc_text true (Some (u "  ")); c_body := [] |};
    {| c_info := elem "br" true [] true (Some (u "  ")); c_body := [] |};
    {| c_info := elem "div" false [(u "title", VStr (u "<""" ++ [NL]))] false (Some (u " ")); c_body := [0; 1] |} ].
Definition doc_tree : tree :=
  T 2 (elem "div" false [(u "title", VStr (u "<""" ++ [NL]))] false (Some (u " ")))
    [T 0 (txt doc_text true (Some (u "  "))) []; T 1 (elem "br" true [] true (Some (u "  "))) []].

Lemma c26_sum_of_indents : forall P k h ts l,
  Forall (repr h) ts -> heights ts <= k -> Forall plain ts -> Forall relative ts -> raws P [] 0 ts = Some l ->
  dom_render P k h (map root ts) = Done (layout (total_indent ts) l).
Proof.
  intros P k h ts l R F Pl Re E. rewrite (dom_render_srenders P ts k h R F). apply renders_raws; assumption.
Qed.

Lemma c26_enclose : forall k f ts ls q h,
  Forall (repr h) ts -> NoDup (all_ids ts) -> heights ts <= k ->
  Forall2 (placed None) ts ls -> abs_indent q -> Forall (nested q) ls -> (forall s, n_kind f <> KText s) ->
  exists h' ts', new_node k f (map root ts) (Some q) h = (Done (List.length h), h') /\
    repr h' (T (List.length h) (with_indent f (Some q)) ts') /\
    map unindent ts' = map unindent ts /\
    placed None (T (List.length h) (with_indent f (Some q)) ts') (L (Some q) ls) /\
    (forall i, i < List.length h -> ~ In i (all_ids ts) -> nth_error h' i = nth_error h i).
Proof.
  intros k f ts ls q h R ND F Pl A Ne NT. destruct (new_node_spec k f ts ls q h R ND F Pl A Ne NT) as (h' & ts' & E & R' & U & P' & C).
  exists h', ts'. split; [exact E|]. split; [exact R'|]. split; [exact U|]. split; [|exact C]. apply placed_abs; [reflexivity|exact A|exact P'].
Qed.

(** div at the left margin with an indented text, as translated from a script *)
Definition abs_heap : heap :=
  [ {| c_info := txt doc_text true (Some (NL :: u "    ")); c_body := [] |} ].
Definition abs_text : tree := T 0 (txt doc_text true (Some (NL :: u "    "))) [].
