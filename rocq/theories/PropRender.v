(** Properties C06 and C26: the rendered text. *)
From Coq Require Import List NArith Bool Lia Arith String.
From Verif Require Import PyStr Html HtmlSpec PyDict Value Dom DomSpec DomFacts RenderFacts MarkupFacts RenderProofs.
Import ListNotations.
Local Open Scope nat_scope.

(** ** C06: the output of a tree of markup elements is read back as the same nested elements *)
Theorem C06_well_formed : forall P k h t s,
  repr h t -> height t <= k -> markup_tree P t -> render P k h (root t) = Done s ->
  exists l, read_document s = Some l /\ well_nested l /\ filter visible l = content P t.
Proof. exact markup_well_formed. Qed.
Print Assumptions C06_well_formed.

Example C06_example :
  repr doc_heap doc_tree /\ markup_tree prims0 doc_tree /\
  render prims0 2 doc_heap 2 = Done (u "<div title='&lt;""&#10;'>" ++ [NL] ++ u "   a &lt; b" ++ [NL] ++ u "   c"
                                     ++ [NL] ++ u "   <br />" ++ [NL] ++ u " </div>") /\
  content prims0 doc_tree = [IOpen (u "div") [(u "title", Some (u "<""" ++ [NL]))]; IChar 97; IChar 60; IChar 98; IChar 99;
                             IEmpty (u "br") []; IClose (u "div")].
Proof.
  assert (V : forall n, forallb name_char n = true -> n <> [] -> valid_name n).
  { intros n F N. split; [exact N|]. intros c I. rewrite forallb_forall in F. apply F, I. }
  assert (B : forall i, forallb (fun c => is_space c && negb (N.eqb c NL)) i = true -> ~ In NL i /\ forall c, In c i -> is_space c = true).
  { intros i F. rewrite forallb_forall in F. split; [intros J; apply F in J; discriminate|].
    intros c J. apply F in J. apply andb_prop in J. apply J. }
  split; [repeat constructor|]. split; [|split; vm_compute; reflexivity].
  eapply markup_elem with (av := [(u "title", AOther (u "<""" ++ [NL]))]); try reflexivity.
  - discriminate.
  - apply B. reflexivity.
  - apply V; [reflexivity|discriminate].
  - intros nv [<-|[]]. apply V; [reflexivity|discriminate].
  - constructor; [|constructor; [|constructor]].
    + eapply markup_text; [reflexivity| |apply B; reflexivity]. unfold doc_text. change (u "a &lt; b" ++ [NL] ++ u "c") with (html_escape (u "a < b" ++ [NL] ++ u "c")).
      apply HtmlFacts.html_escape_safe.
    + eapply markup_elem with (av := []); try reflexivity; [discriminate|apply B; reflexivity|apply V; [reflexivity|discriminate]|intros nv []|constructor].
Qed.

(** ** C26: lines are indented by the position of their block in the tree *)

(** Rendering with relative indentations: between a newline and a character that follows it comes the
    sum of the indentations of all nodes that contain both. *)
Theorem C26_sum_of_indents : forall P k h ts l,
  Forall (repr h) ts -> heights ts <= k -> Forall plain ts -> Forall relative ts -> raws P [] 0 ts = Some l ->
  dom_render P k h (map root ts) = Done (layout (total_indent ts) l).
Proof. exact c26_sum_of_indents. Qed.
Print Assumptions C26_sum_of_indents.

(** A new node with an absolute indentation, put around nodes with deeper ones: each of those gets
    the relative form of its own indentation; nothing else of them changes. *)
Theorem C26_enclose : forall k f ts ls q h,
  Forall (repr h) ts -> NoDup (all_ids ts) -> heights ts <= k ->
  Forall2 (placed None) ts ls -> abs_indent q -> Forall (nested q) ls -> (forall s, n_kind f <> KText s) ->
  exists h' ts', new_node k f (map root ts) (Some q) h = (Done (List.length h), h') /\
    repr h' (T (List.length h) (with_indent f (Some q)) ts') /\
    map unindent ts' = map unindent ts /\
    placed None (T (List.length h) (with_indent f (Some q)) ts') (L (Some q) ls) /\
    (forall i, i < List.length h -> ~ In i (all_ids ts) -> nth_error h' i = nth_error h i).
Proof. exact c26_enclose. Qed.
Print Assumptions C26_enclose.

(** A whole document of nodes carrying absolute indentations: each line is indented by the absolute
    indentation of its block. *)
Theorem C26_document : forall P k k' ts ls h l,
  Forall (repr h) ts -> NoDup (all_ids ts) -> heights ts <= k -> S (heights ts) <= k' ->
  Forall2 (placed None) ts ls -> Forall (nested [NL]) ls -> Forall plain ts -> raws P [] 0 ts = Some l ->
  exists h', new_root k (map root ts) h = (Done (List.length h), h') /\
    render P k' h' (List.length h) = Done (drop_newline (layout (fun pos => tl (in_force [NL] ls pos)) l)).
Proof. exact document_spec. Qed.
Print Assumptions C26_document.
Example C26_example : exists h1 h2,
  new_node 5 (elem "div" false [] true None) [0] (Some [NL]) abs_heap = (Done 1, h1) /\
  new_root 5 [1] h1 = (Done 2, h2) /\
  render prims0 5 h2 2 = Done (u "<div>" ++ [NL] ++ u "    a &lt; b" ++ [NL] ++ u "    c" ++ [NL] ++ u "</div>") /\
  Forall2 (placed None) [abs_text] [L (Some (NL :: u "    ")) []] /\ nested [NL] (L (Some (NL :: u "    ")) []) /\ plain abs_text.
Proof.
  eexists _, _. split; [vm_compute; reflexivity|]. split; [vm_compute; reflexivity|]. split; [vm_compute; reflexivity|].
  assert (A : abs_indent (NL :: u "    ")).
  { eexists. split; [reflexivity|]. intros J. cbn in J. intuition discriminate. }
  split; [|split; [|reflexivity]].
  - constructor; [|constructor]. apply placed_abs; [reflexivity|exact A|constructor].
  - apply (nested_block [NL] (u "    ")); [exact A|constructor].
Qed.
