(** C66 layout modifiers. *)
From Coq Require Import List NArith ZArith Bool Arith String.
From Verif Require Import PyStr Html IndentSpec PyDict Value Dom Ast Machine Analyse Syntax Runtime RuntimeSpec PageSpec PageDoc PageFacts HtmlTags Ref ConfRef PageSamples LayoutProofs Translate DedentFacts.
Import ListNotations.
Local Open Scope string_scope.
Local Open Scope list_scope.

(** A block with the modifier [...] follows the preceding ones without a newline, except for those of the [g] blank lines in
    between; without the modifier there is one more. [a]: the blocks before, [r]: the blocks behind. *)
Theorem C66_append : forall (W : Type) (E : env W) (P : prims W) known n j tags vars ctx file package (m : mach W),
  page_runtime E P known n j m -> called_with tags vars ctx ->
  forall a g i t r k, Forall (wf known) a -> Exists begins_line a -> shown_block t -> wf known t -> Forall (wf known) r ->
  exists A B,
    (exists m', render_script E P n (S j) tags vars (script a 0) file package m = (Done A, m')) /\
    (exists m', render_script E P n (S j) tags vars (script (place 0 Own t :: r) k) file package m = (Done B, m')) /\
    (exists m', render_script E P n (S j) tags vars (script (a ++ place g (Append i) t :: r) k) file package m = (Done (A ++ repeatc NL g ++ B), m')) /\
    (exists m', render_script E P n (S j) tags vars (script (a ++ place g Own t :: r) k) file package m = (Done (A ++ repeatc NL (S g) ++ B), m')).
Proof. exact @append_runs. Qed.
Print Assumptions C66_append.

(** Alone in an element, it stands between the tags in their line; its further lines are indented. *)
Theorem C66_inline : forall (W : Type) (E : env W) (P : prims W) known n j tags vars ctx file package (m : mach W),
  page_runtime E P known n j m -> called_with tags vars ctx ->
  forall q a w i t, wf known (Node 0 Own q a w [place 0 (Append i) t]) -> shown_block t ->
  exists l r,
    (exists m', render_script E P n (S j) tags vars (script [place 0 Own t] 0) file package m = (Done (join [NL] (l :: r)), m')) /\
    Forall (fun x => ~ In NL x) (l :: r) /\
    (exists m', render_script E P n (S j) tags vars (script [Node 0 Own q a w [place 0 (Append i) t]] 0) file package m =
      (Done (join [NL] ((open_html q a ++ u ">" ++ l) :: map (indent_line w) r) ++ close_html q), m')).
Proof. exact @inline_runs. Qed.
Print Assumptions C66_inline.

(** Blocks without modifiers stand in lines of their own between the tags of an element, indented. *)
Theorem C66_contents : forall (W : Type) (E : env W) (P : prims W) known n j tags vars ctx file package (m : mach W),
  page_runtime E P known n j m -> called_with tags vars ctx ->
  forall q a w t r, wf known (Node 0 Own q a w (place 0 Own t :: r)) -> shown_block t ->
  Forall (fun t => modifier_of t = Some Own \/ modifier_of t = None) r ->
  exists ls,
    (exists m', render_script E P n (S j) tags vars (script (place 0 Own t :: r) 0) file package m = (Done (join [NL] ls), m')) /\
    Forall (fun x => ~ In NL x) ls /\
    (exists m', render_script E P n (S j) tags vars (script [Node 0 Own q a w (place 0 Own t :: r)] 0) file package m =
      (Done (join [NL] ((open_html q a ++ u ">") :: map (indent_line w) ls ++ [close_html q])), m')).
Proof. exact @contents_run. Qed.
Print Assumptions C66_contents.

(** With the modifier [<] they do so without the indentation. *)
Theorem C66_dedent : forall (W : Type) (E : env W) (P : prims W) known n j tags vars ctx file package (m : mach W),
  page_runtime E P known n j m -> called_with tags vars ctx ->
  forall q a w i t r, wf known (Node 0 Own q a w (place 0 (Dedent i) t :: r)) -> shown_block t ->
  Forall (fun t => (exists j, modifier_of t = Some (Dedent j)) \/ modifier_of t = None) r ->
  exists B,
    (exists m', render_script E P n (S j) tags vars (script (place 0 (Dedent i) t :: r) 0) file package m = (Done B, m')) /\
    (exists m', render_script E P n (S j) tags vars (script [Node 0 Own q a w (place 0 (Dedent i) t :: r)] 0) file package m =
      (Done (join [NL] [open_html q a ++ u ">"; B; close_html q]), m')).
Proof. exact @dedent_runs. Qed.
Print Assumptions C66_dedent.

(** A page with modifiers at several depths; its HTML is that of C56. *)
Example C66_page_wf : Forall (wf html_known) layout_page.
Proof. apply wfb_all. vm_compute. reflexivity. Qed.
Example C66_script : script layout_page 0 = u "ul
  < li
      ... | a
      ...b | c
      <| d
  ... li
   | e

   ...  / <i>
   ...!f
...p

... | g
| h".
Proof. vm_compute. reflexivity. Qed.
Example C66_html : page_html (void html_known) layout_page 0 = u "<ul>
<li>a<b>c</b>
d</li><li>
   e
  <i>f
  </li>
</ul><p></p>
g
h".
Proof. vm_compute. reflexivity. Qed.
Example C66_run : fst (render_script html_env conf_prims 40 5 [] [] (script layout_page 0) None None mach0) = Done (page_html (void html_known) layout_page 0).
Proof. vm_compute. reflexivity. Qed.
Example C66_hypotheses : exists t, In t layout_page /\ shown_block t /\ Exists begins_line layout_page /\ wf html_known (Node 0 Own (u "p") [] (u "  ") [place 0 (Append 1) t]) /\
  wf html_known (Node 0 Own (u "p") [] (u "  ") [place 0 (Dedent 1) t]).
Proof. eexists. split; [left; reflexivity|]. split; [exact Logic.I|]. split; [apply Exists_cons_hd; exact Logic.I|]. split; apply wfb_ok; vm_compute; reflexivity. Qed.

(** docs/index.md 362-405: the examples there. *)
Example C66_docs_append : fst (render_script html_env conf_prims 40 5 [] [] (u "i   | word1
... | word2
... b | word3") None None mach0) = Done (u "<i>word1</i>word2<b>word3</b>").
Proof. vm_compute. reflexivity. Qed.
Example C66_docs_inline : fst (render_script html_env conf_prims 40 5 [] [] (u "p
    ... | Using ""..."" modifier, a block with no predecessors
    ... |  can be inlined into its parent.") None None mach0) =
  Done (u "<p>Using ""..."" modifier, a block with no predecessors can be inlined into its parent.</p>").
Proof. vm_compute. reflexivity. Qed.
Example C66_docs_multiline : fst (render_script html_env conf_prims 40 5 [] [] (u "p
    i  | When appending blocks...
    ...|  the indentation in
         a multiline block
         is still preserved!") None None mach0) = Done (u "<p>
    <i>When appending blocks...</i> the indentation in
    a multiline block
    is still preserved!
</p>").
Proof. vm_compute. reflexivity. Qed.
Example C66_docs_dedent : fst (render_script html_env conf_prims 40 5 [] [] (u "div
    < p
        < i | This line's output indentation is equal to the parent's and grandparent's.") None None mach0) = Done (u "<div>
<p>
<i>This line's output indentation is equal to the parent's and grandparent's.</i>
</p>
</div>").
Proof. vm_compute. reflexivity. Qed.

(** Every node that a block with the modifier [<] gives, be it a conditional block or a loop, has an empty indentation. *)
Theorem C66_dedent_nodes : forall (W : Type) (P : prims W) ex lp s margin b (m : mach W) l m',
  tr_item P ex lp s (NBlock margin MDedent b) m = (Done l, m') ->
  exists mg m1 r m2, tr_static margin m = (Done mg, m1) /\ tr_block P ex lp s b m1 = (Done r, m2) /\
    let nodes := match r with Some l => l | None => [] end in
    l = mg ++ nodes /\ List.length (m_heap m') = List.length (m_heap m2) /\
    forall i, In i nodes -> (i < List.length (m_heap m2))%nat -> n_indent (info_at (m_heap m') i) = Some [].
Proof. exact dedented_nodes. Qed.
Print Assumptions C66_dedent_nodes.
Example C66_dedent_loop : fst (render_script html_env conf_prims 40 5 [] [] (u "div
    < for x in [1, 2]
        p
            | {x}
        i | {x}") None None mach0) = Done (u "<div>
<p>
    1
</p>
<i>1</i>
<p>
    2
</p>
<i>2</i>
</div>").
Proof. vm_compute. reflexivity. Qed.

(** In front of a control block the modifier [...] has no effect, since the blocks inside have marked their
    own beginning already. *)
Theorem C66_control_refuted : exists script1 script2, script1 = u "| a
... if True
    | b" /\ script2 = u "| a
if True
    | b" /\
  fst (render_script html_env conf_prims 40 5 [] [] script1 None None mach0) = fst (render_script html_env conf_prims 40 5 [] [] script2 None None mach0) /\
  fst (render_script html_env conf_prims 40 5 [] [] script1 None None mach0) = Done (u "a
b").
Proof. exact append_control. Qed.
Print Assumptions C66_control_refuted.

(** Inside a control block the modifier [<] has no effect, since the control block sets the indentation
    anew. *)
Theorem C66_inside_control_refuted : exists script1 script2, script1 = u "p
    if True
        < | b" /\ script2 = u "p
    if True
        | b" /\
  fst (render_script html_env conf_prims 40 5 [] [] script1 None None mach0) = fst (render_script html_env conf_prims 40 5 [] [] script2 None None mach0) /\
  fst (render_script html_env conf_prims 40 5 [] [] script1 None None mach0) = Done (u "<p>
    b
</p>").
Proof. exact dedent_in_control. Qed.
Print Assumptions C66_inside_control_refuted.
