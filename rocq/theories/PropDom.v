(** Properties C19-C25: traversal, selection, copying, pruning, altering, flattening, slicing. *)
From Coq Require Import List NArith Bool Sorting Lia Arith String.
From Verif Require Import PyStr PyStrFacts Html HtmlSpec PyDict Value Dom DomSpec DomFacts DomProofs.
Import ListNotations.
Local Open Scope nat_scope.

(** ** A small document used in the examples: div(p(text), br), with a class on the p *)

(** ** C19 *)
Theorem C19_walk : forall skip o ts h fuel,
  o <> OtherOrder -> Forall (repr h) ts -> heights ts <= fuel ->
  exists l, dom_walk skip o fuel h (map root ts) = Done l /\ lists_nodes o ts (visited skip ts) l.
Proof. exact walk_lists. Qed.
Print Assumptions C19_walk.

(** The traversal of a tree in which no node is repeated visits no node twice. *)
Theorem C19_once : forall skip o ts h fuel l,
  Forall (repr h) ts -> heights ts <= fuel -> NoDup (all_ids ts) ->
  dom_walk skip o fuel h (map root ts) = Done l -> NoDup l /\ incl l (all_ids ts).
Proof. exact c19_once. Qed.
Print Assumptions C19_once.

(** Any other value of [order] yields no node at all. *)
Theorem C19_other_order : forall skip ts h fuel, Forall (repr h) ts -> heights ts <= fuel ->
  dom_walk skip OtherOrder fuel h (map root ts) = Done [].
Proof. exact c19_other_order. Qed.
Print Assumptions C19_other_order.

Example C19_example :
  dom_walk (fun _ => false) Pre 4 ex_heap [3] = Done [3; 1; 0; 2] /\
  dom_walk (fun _ => false) Post 4 ex_heap [3] = Done [0; 1; 2; 3] /\
  dom_walk (fun i => Nat.eqb i 1) Pre 4 ex_heap [3] = Done [3; 2] /\
  Forall (repr ex_heap) [ex_div] /\ heights [ex_div] <= 4 /\ NoDup (all_ids [ex_div]).
Proof.
  repeat split; try reflexivity; try apply ex_repr; try (cbn; lia).
  cbn. repeat constructor; cbn; lia.
Qed.

(** ** C20 *)
Theorem C20_select_partial : forall veq h ts t attr value attrs o fuel,
  o <> OtherOrder -> Forall (repr h) ts -> heights ts <= fuel -> NoDup (dkeys attrs) ->
  (forall p x, sub ts p = Some x -> testable t attr attrs (label x)) ->
  exists l, select veq fuel h (map root ts) t attr value attrs o = Done l /\
    lists_nodes o ts (fun p => exists x, sub ts p = Some x /\ satisfies veq t attr value attrs (label x)) l.
Proof. exact select_lists. Qed.
Print Assumptions C20_select_partial.

(** Without an attribute criterion selection works in every document. *)
Theorem C20_select_tag_partial : forall veq h ts t o fuel,
  o <> OtherOrder -> Forall (repr h) ts -> heights ts <= fuel ->
  exists l, select veq fuel h (map root ts) t None None [] o = Done l /\
    lists_nodes o ts (fun p => exists x, sub ts p = Some x /\ has_tag t (label x)) l.
Proof. exact c20_select_tag. Qed.
Print Assumptions C20_select_tag_partial.

(** Finding: a search by attribute alone fails on every document that contains a text node, because
    kwattrs of a text is None. *)
Theorem C20_attr_search_refuted : exists h ts,
  Forall (repr h) ts /\ heights ts <= 3 /\
  (exists x p, sub ts p = Some x /\ satisfies sveq TANone (Some (u "class")) (Some (VStr (u "x"))) [] (label x)) /\
  select sveq 3 h (map root ts) TANone (Some (u "class")) (Some (VStr (u "x"))) [] Pre = Exc TypeError.
Proof. exact c20_attr_search_refuted. Qed.
Print Assumptions C20_attr_search_refuted.

(** In general: the search raises TypeError as soon as one visited node has no attributes and the tag
    criterion holds for it. *)
Theorem C20_attr_search_fails : forall veq h ts attr value attrs o fuel p x,
  o <> OtherOrder -> Forall (repr h) ts -> heights ts <= fuel ->
  sub ts p = Some x -> n_kwattrs (label x) = None ->
  select veq fuel h (map root ts) TANone (Some attr) value attrs o = Exc TypeError.
Proof. exact c20_attr_search_fails. Qed.
Print Assumptions C20_attr_search_fails.

Example C20_example :
  select sveq 4 ex_heap [3] (TAStr (u "p")) (Some (u "class")) (Some (VStr (u "x"))) [] Pre = Done [1] /\
  select sveq 4 ex_heap [3] (TAStr (u "br")) None None [] Pre = Done [2] /\
  (forall p x, sub [ex_div] p = Some x -> testable (TAStr (u "p")) (Some (u "class")) [] (label x)).
Proof.
  repeat split; try (vm_compute; reflexivity). intros p x Sx.
  assert (H : n_kwattrs (label x) <> None \/ n_tag (label x) = None).
  { assert (I : In (label x) (flat_map labels [ex_div])) by (apply labels_sub with p; exact Sx).
    cbn -[In] in I. destruct I as [<-|[<-|[<-|[<-|[]]]]]; try (left; discriminate); right; reflexivity. }
  destruct H as [H|H]; [left; exact H|]. right; right. intros (_ & t' & E & _). congruence.
Qed.

(** ** C21 *)
Theorem C21_skip_partial : forall veq t attr value attrs ts h fuel,
  NoDup (dkeys attrs) -> Forall (repr h) ts -> heights ts <= fuel ->
  (forall p x, sub ts p = Some x -> testable t attr attrs (label x)) ->
  exists h' ts' bad,
    skip_nodes veq fuel (map root ts) t attr value attrs h = (Done (map root ts'), h') /\
    Forall (repr h') ts' /\
    (forall p x, sub ts p = Some x -> (bad (label x) = true <-> satisfies veq t attr value attrs (label x))) /\
    map erase ts' = flat_map (prune bad) (map erase ts) /\
    Forall (repr h') ts /\
    (forall i, i < List.length h -> nth_error h' i = nth_error h i) /\
    (forall i, In i (all_ids ts') -> List.length h <= i) /\ NoDup (all_ids ts').
Proof. exact c21_skip. Qed.
Print Assumptions C21_skip_partial.

Example C21_example : exists h',
  skip_nodes sveq 4 [3] (TAStr (u "p")) None None [] ex_heap = (Done [4], h') /\
  Forall (repr h') [T 4 (node_info "div" false []) [T 7 (node_info "br" true []) []]].
Proof. eexists. split; [vm_compute; reflexivity|]. repeat constructor. Qed.

(** Finding: skip() by attribute fails in the same way as select(). *)
Theorem C21_attr_skip_refuted : exists h ts,
  Forall (repr h) ts /\ heights ts <= 3 /\
  fst (skip_nodes sveq 3 (map root ts) TANone (Some (u "class")) (Some (VStr (u "x"))) [] h) = Exc TypeError.
Proof. exact c21_attr_skip_refuted. Qed.
Print Assumptions C21_attr_skip_refuted.

(** ** C22 *)
Theorem C22_copy : forall ts fuel h, Forall (repr h) ts -> heights ts <= fuel ->
  exists e ts', dom_copy fuel (map root ts) h = (Done (map root ts'), h ++ e) /\
    Forall (repr (h ++ e)) ts' /\ map erase ts' = map erase ts /\
    (forall i, In i (all_ids ts') -> List.length h <= i) /\ NoDup (all_ids ts').
Proof. exact dom_copy_spec. Qed.
Print Assumptions C22_copy.

Theorem C22_same_text : forall P ts fuel h l h', Forall (repr h) ts -> heights ts <= fuel ->
  dom_copy fuel (map root ts) h = (Done l, h') ->
  dom_render P fuel h' l = dom_render P fuel h (map root ts) /\
  dom_render P fuel h' (map root ts) = dom_render P fuel h (map root ts).
Proof. exact c22_same_text. Qed.
Print Assumptions C22_same_text.

(** Whatever is later done to the nodes of the copy (and to nodes created later), the original renders
    to the same text; and the other way round. *)
Theorem C22_independent : forall P ts fuel h l h' h2, Forall (repr h) ts -> heights ts <= fuel ->
  dom_copy fuel (map root ts) h = (Done l, h') ->
  ((forall i, i < List.length h -> nth_error h2 i = nth_error h' i) ->
     dom_render P fuel h2 (map root ts) = dom_render P fuel h (map root ts)) /\
  ((forall i, List.length h <= i < List.length h' -> nth_error h2 i = nth_error h' i) ->
     dom_render P fuel h2 l = dom_render P fuel h (map root ts)).
Proof. exact c22_independent. Qed.
Print Assumptions C22_independent.
Example C22_example :
  dom_render ex_prims 4 ex_heap [3] = Done (u "<div><p class=""x"">hello</p><br /></div>") /\
  exists h', dom_copy 4 [3] ex_heap = (Done [4], h') /\
    dom_render ex_prims 4 (put_body h' 4 []) [3] = Done (u "<div><p class=""x"">hello</p><br /></div>") /\
    dom_render ex_prims 4 (put_body h' 4 []) [4] = Done (u "<div></div>").
Proof. split; [reflexivity|]. eexists. split; [vm_compute; reflexivity|]. split; vm_compute; reflexivity. Qed.

(** ** C23 *)
(** The code: with order='preorder' the children are altered before the nodes are replaced... *)
Theorem C23_preorder_is_bottom_up : forall transform g skip,
  (forall h t, repr h t -> transform (root t) h = (Done (map INode (map root (g t))), h)) -> selective g ->
  forall ts k h, NoDup (all_ids ts) -> Forall (repr h) ts -> heights ts <= k ->
  exists h', dom_alter transform skip Pre k (map root ts) h = (Done (map root (flat_map (bottom_up g skip) ts)), h') /\
    Forall (repr h') (flat_map (bottom_up g skip) ts) /\
    (forall i, ~ In i (all_ids ts) -> nth_error h' i = nth_error h i).
Proof. exact c23_preorder_is_bottom_up. Qed.
Print Assumptions C23_preorder_is_bottom_up.

(** ... and with order='postorder' the nodes are replaced before the children are altered. *)
Theorem C23_postorder_is_top_down : forall transform g skip,
  (forall h t, repr h t -> transform (root t) h = (Done (map INode (map root (g t))), h)) -> selective g ->
  forall ts k h, List.length (all_ids ts) <= k -> NoDup (all_ids ts) -> Forall (repr h) ts ->
  exists h' ts', dom_alter transform skip Post k (map root ts) h = (Done (map root ts'), h') /\
    Forall (repr h') ts' /\ top_down g skip ts ts' /\
    (forall i, ~ In i (all_ids ts) -> nth_error h' i = nth_error h i).
Proof. exact c23_postorder_is_top_down. Qed.
Print Assumptions C23_postorder_is_top_down.

(** Finding: DOM.alter documents that replacement takes place "before recursive calls" if
    order='preorder'; the opposite happens. *)
Theorem C23_documented_preorder_refuted : exists transform g ts h,
  (forall h t, repr h t -> transform (root t) h = (Done (map INode (map root (g t))), h)) /\ selective g /\
  Forall (repr h) ts /\ NoDup (all_ids ts) /\ heights ts <= 4 /\
  exists l h', dom_alter transform (fun _ => false) Pre 4 (map root ts) h = (Done l, h') /\
    forall ts', top_down g (fun _ => false) ts ts' -> map root ts' <> l.
Proof. exact c23_documented_preorder_refuted. Qed.
Print Assumptions C23_documented_preorder_refuted.

Theorem C23_documented_postorder_refuted : exists transform g ts h,
  (forall h t, repr h t -> transform (root t) h = (Done (map INode (map root (g t))), h)) /\ selective g /\
  Forall (repr h) ts /\ NoDup (all_ids ts) /\ heights ts <= 4 /\
  exists l h', dom_alter transform (fun _ => false) Post 4 (map root ts) h = (Done l, h') /\
    map root (flat_map (bottom_up g (fun _ => false)) ts) <> l.
Proof. exact c23_documented_postorder_refuted. Qed.
Print Assumptions C23_documented_postorder_refuted.

(** ** C24: the laws below determine the result of DOM( *items ) for every nested sequence. *)
Theorem C24_flatten :
  (forall l, flatten (map INode l) = Ok l) /\
  (forall a b x y, flatten a = Ok x -> flatten b = Ok y -> flatten (a ++ b) = Ok (x ++ y)) /\
  (forall a l b, flatten (a ++ ISeq l :: b) = flatten (a ++ l ++ b)) /\
  (forall a b, flatten (a ++ INone :: b) = flatten (a ++ b)).
Proof. exact c24_flatten. Qed.
Print Assumptions C24_flatten.

Theorem C24_bad_items : forall l, flatten l = Raise TypeError <-> bad_in l.
Proof. exact c24_bad_items. Qed.
Print Assumptions C24_bad_items.

Theorem C24_total : forall l, ~ bad_in l -> exists ns, flatten l = Ok ns.
Proof. exact c24_total. Qed.
Print Assumptions C24_total.

Theorem C24_idempotent : forall l ns, flatten l = Ok ns -> flatten (map INode ns) = Ok ns.
Proof. exact c24_idempotent. Qed.
Print Assumptions C24_idempotent.

Example C24_example : flatten [INode 1; INone; ISeq [ISeq []; INode 2; ISeq [INode 3; INone]]; INode 4] = Ok [1; 2; 3; 4] /\
  flatten [INode 1; ISeq [IBad]] = Raise TypeError /\ ~ bad_in [INode 1; INone; ISeq [INode 2]].
Proof.
  repeat split; try reflexivity. intros H. apply C24_bad_items in H. discriminate.
Qed.

(** ** C25: dom[a:b] should behave as the DOM of the selected nodes *)
Theorem C25_index_partial : forall nodes i n, nth_error nodes i = Some n <-> getindex nodes i = Ok n.
Proof. exact c25_index. Qed.
Print Assumptions C25_index_partial.
Theorem C25_index_error : forall nodes i, List.length nodes <= i <-> getindex nodes i = Raise IndexError.
Proof. exact c25_index_error. Qed.
Print Assumptions C25_index_error.
(** What is in the slice, one level too deep: the nodes at the positions from a to b - 1. *)
Theorem C25_slice_contents_partial : forall nodes a b, exists l, getslice nodes a b = [NList l] /\ forall i n, nth_error l i = Some n <-> i < b - a /\ nth_error nodes (a + i) = Some n.
Proof. exact c25_slice_contents. Qed.
Print Assumptions C25_slice_contents_partial.
Example C25_ex : getindex [4; 5; 6] 1 = Ok 5 /\ getindex [4; 5; 6] 3 = Raise IndexError /\ getslice [4; 5; 6; 7] 1 3 = [NList [5; 6]].
Proof. repeat split. Qed.

(** Finding: the result of slicing has always length 1 and cannot be rendered. *)
Theorem C25_slice_refuted :
  (exists nodes a b, dom_len (getslice nodes a b) <> List.length (firstn (b - a) (skipn a nodes))) /\
  (forall P fuel h nodes a b, items_render P fuel h (getslice nodes a b) = Exc AttributeError) /\
  (forall nodes a b, dom_len (getslice nodes a b) = 1).
Proof. exact c25_slice_refuted. Qed.
Print Assumptions C25_slice_refuted.
