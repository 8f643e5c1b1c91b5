(** Layout modifiers: how blocks with a modifier stand to the blocks around them. *)
From Coq Require Import List NArith ZArith Bool Lia Arith String.
From Verif Require Import PyStr PyStrFacts PyDict Html Indent IndentSpec IndentFacts Value Ast Machine Analyse Syntax Runtime RuntimeSpec PageSpec PageDoc PageRender PageFlat
  PageFacts HtmlTags Ref ConfRef PageSamples.
Import ListNotations.
Local Open Scope string_scope.
Local Open Scope list_scope.
Local Open Scope nat_scope.

(** The output without the newline in front. *)
Definition drop_nl (t : str) : str := match t with c :: r => if (c =? NL)%N then r else t | [] => [] end.
Lemma page_text_ptx p : flatp p -> page_text p = drop_nl (ptx [] p).
Proof.
  intros [FL _]. unfold page_text, ptx. destruct p as [h ls]. cbn [fst snd] in *. rewrite (map_ext _ _ line_at_nil). destruct h as [|c h].
  - destruct ls as [|l0 ls]; [reflexivity|]. cbn [map]. rewrite nlines_tl by discriminate. reflexivity.
  - assert (E : (c =? NL)%N = false). { destruct (N.eqb_spec c NL) as [->|]; [|reflexivity]. destruct FL. left. reflexivity. }
    destruct ls as [|l0 ls].
    + cbn [map nlines flat_map join]. rewrite app_nil_r. cbn [drop_nl]. rewrite E. reflexivity.
    + cbn [map]. rewrite nlines_tl by discriminate. rewrite (join_cons [NL] (c :: h)) by discriminate. cbn [app drop_nl]. rewrite E. reflexivity.
Qed.
Lemma drop_nl_app x y : x <> [] -> drop_nl (x ++ y) = drop_nl x ++ y.
Proof. destruct x as [|c x]; intros H; [destruct H; reflexivity|]. cbn [app drop_nl]. destruct (c =? NL)%N; reflexivity. Qed.

Section Facts.
  Variable known : str -> option bool.
  Local Notation void := (PageSpec.void known).

  Lemma page_html_ptx doc k : Forall (wf known) doc -> page_html void doc k = drop_nl (ptx [] (htmls void doc) ++ repeatc NL k).
  Proof.
    intros H. unfold page_html. rewrite page_text_ptx.
    - rewrite ptx_glue, ptx_blanks, nlines_blanks. reflexivity.
    - apply flatp_glue; [apply htmls_flat, H|]. split; [intros []|]. cbn [snd]. intros x I. apply in_map_iff in I. destruct I as (l & <- & I). apply (blanks_no_NL k l I).
  Qed.
  Lemma ptx_htmls_app d a b : ptx d (htmls void (a ++ b)) = ptx d (htmls void a) ++ ptx d (htmls void b).
  Proof. induction a as [|t a IH]; [reflexivity|]. cbn [app htmls fold_right]. rewrite !ptx_glue. unfold htmls in IH. rewrite IH, app_assoc. reflexivity. Qed.
  Lemma ptx_htmls_cons d t a : ptx d (htmls void (t :: a)) = ptx d (html void t) ++ ptx d (htmls void a).
  Proof. apply ptx_glue. Qed.

  (** The lines of a block by itself. *)
  Definition own_lines (t : page) : list str :=
    match t with
    | Line _ _ k x => [text_html k x]
    | Note _ _ => []
    | Leaf _ _ n a c => [open_html n a ++ if void n then u " />" else u ">" ++ match c with Some (k, x) => text_html k x | None => [] end ++ close_html n]
    | Node _ _ n a w kids => let p := htmls void kids in element (open_html n a ++ u ">") (close_html n) (fst p) (map (line_at w) (snd p))
    end.
  Lemma html_own m d t : shown_block t -> html void (place m d t) = lay m d (own_lines t).
  Proof. destruct t; intros H; [reflexivity|destruct H|reflexivity|reflexivity]. Qed.
  Lemma own_lines_ne t : shown_block t -> exists l r, own_lines t = l :: r.
  Proof.
    destruct t as [m d k x|m x|m d n a c|m d n a w kids]; intros H; [eexists _, []; reflexivity|destruct H|eexists _, []; reflexivity|].
    cbn [own_lines]. unfold element. destruct (fst _); [destruct (map _ _)|]; cbn [tack]; [eexists _, []; reflexivity|eexists _, _; reflexivity|].
    destruct (map (line_at w) _); eexists _, _; reflexivity.
  Qed.
  Lemma place_wf m d t : wf known t -> wf known (place m d t).
  Proof. intros H. destruct H; cbn; econstructor; eassumption. Qed.
  Lemma own_lines_flat t : wf known t -> forall l, In l (own_lines t) -> ~ In NL l.
  Proof.
    intros H. destruct H as [m d k x Hx|m x Hx|m d n a c v Hn Ha Hk Hc|m d n a w kids Hn Ha Hk Hw0 Hw Hk0 Hkids]; cbn [own_lines]; intros l I.
    - destruct I as [<-|[]]. apply text_html_no_NL, Hx.
    - destruct I.
    - destruct I as [<-|[]]. exact (leaf_no_NL known n a c v Hn Ha Hc).
    - pose proof (htmls_flat known kids Hkids) as [K1 K2]. revert I. apply element_no_NL.
      + rewrite in_app_iff. intros [J|J]; [apply (open_html_no_NL _ _ Hn Ha J)|cbn in J; intuition discriminate].
      + apply (close_html_no_NL _ Hn).
      + exact K1.
      + intros z Z. apply in_map_iff in Z. destruct Z as (y & <- & Z). apply line_at_no_NL; [apply (blank_no_NL w Hw)|apply K2, Z].
  Qed.

  Lemma begins_text t : begins_line t -> exists c x, ptx [] (html void t) = c :: x.
  Proof.
    intros H. assert (V : shown_block t) by (destruct t; try exact Logic.I; destruct H).
    assert (E : exists m d, t = place m d t /\ outlined d = true).
    { destruct t as [m d k x|m x|m d n a c|m d n a w kids]; try destruct H; exists m, d; split; try reflexivity; destruct d; try reflexivity; destruct H. }
    destruct E as (m & d & E & O). rewrite E, html_own by exact V. destruct (own_lines_ne t V) as (l & r & ->). rewrite ptx_lay, O.
    rewrite nlines_blanks. destruct m; cbn [repeatc repeat app]; eexists _, _; reflexivity.
  Qed.
  Lemma begins_texts a : Exists begins_line a -> ptx [] (htmls void a) <> [].
  Proof.
    intros H E. induction H as [t a H|t a H IH]; rewrite ptx_htmls_cons in E; apply app_eq_nil in E; destruct E as [E1 E2]; [|apply IH, E2].
    destruct (begins_text t H) as (c & x & F). rewrite F in E1. discriminate.
  Qed.

  (** The text of a block at the left margin. *)
  Lemma top_text t : shown_block t -> exists y, (forall m d, ptx [] (html void (place m d t)) = repeatc NL m ++ (if outlined d then [NL] else []) ++ y).
  Proof.
    intros V. destruct (own_lines_ne t V) as (l & r & E). exists (l ++ nlines r). intros m' d'. rewrite html_own, E, ptx_lay, nlines_blanks by exact V.
    assert (Em : margin_of d' [] = []) by (destruct d'; reflexivity). rewrite Em.
    rewrite (map_ext (indent_line []) (fun l => l)) by apply indent_line_nil. rewrite map_id. f_equal. f_equal.
    rewrite indent_line_nil. destruct (outlined d'); reflexivity.
  Qed.

  Lemma appended a m d t r k : Forall (wf known) a -> Exists begins_line a -> shown_block t -> wf known t -> Forall (wf known) r ->
    page_html void (a ++ place m d t :: r) k = page_html void a 0 ++ repeatc NL m ++ (if outlined d then [NL] else []) ++ page_html void (place 0 Own t :: r) k.
  Proof.
    intros Ha Hb V Ht Hr. rewrite !page_html_ptx; [|constructor; [apply place_wf, Ht|exact Hr]|exact Ha|apply Forall_app; split; [exact Ha|constructor; [apply place_wf, Ht|exact Hr]]].
    rewrite ptx_htmls_app, <- !app_assoc, drop_nl_app by (apply begins_texts, Hb). rewrite drop_nl_app by (apply begins_texts, Hb). rewrite <- !app_assoc. f_equal.
    cbn [repeatc repeat app]. destruct (top_text t V) as (y & Hy). rewrite !ptx_htmls_cons, !Hy. cbn [repeatc repeat app outlined drop_nl]. rewrite <- !app_assoc. reflexivity.
  Qed.

  (** Elements *)
  Lemma node_text n a w kids : wf known (Node 0 Own n a w kids) ->
    page_html void [Node 0 Own n a w kids] 0 =
    open_html n a ++ u ">" ++ ptx w (htmls void kids) ++ (if startswith [NL] (ptx w (htmls void kids)) then [NL] else []) ++ close_html n.
  Proof.
    intros H. rewrite page_html_ptx by (constructor; [exact H|constructor]). rewrite ptx_htmls_cons. change (htmls void []) with (@nil char, @nil (bool * str)).
    cbn [ptx fst snd map nlines flat_map app repeatc repeat]. rewrite !app_nil_r.
    inversion H as [| | |? ? ? ? ? ? Hn Ha Hk Hw0 Hw Hk0 Hkids]; subst. pose proof (htmls_flat known kids Hkids) as [K1 K2].
    change (html void (Node 0 Own n a w kids)) with (lay 0 Own (element (open_html n a ++ u ">") (close_html n) (fst (htmls void kids)) (map (line_at w) (snd (htmls void kids))))).
    destruct (element_text (open_html n a ++ u ">") (close_html n) _ (map (line_at w) (snd (htmls void kids))) K1) as (l & r & E & F). rewrite E, ptx_lay.
    cbn [outlined margin_of blanks repeat nlines flat_map app]. rewrite indent_line_nil.
    rewrite (map_ext (indent_line []) (fun l => l)) by apply indent_line_nil. rewrite map_id. unfold drop_nl. rewrite N.eqb_refl. rewrite F. unfold ptx. rewrite <- !app_assoc. reflexivity.
  Qed.

  (** An appended block, alone in an element. *)
  Lemma inlined n a w j t : wf known (Node 0 Own n a w [place 0 (Append j) t]) -> shown_block t ->
    exists l r, page_html void [place 0 Own t] 0 = join [NL] (l :: r) /\ Forall (fun x => ~ In NL x) (l :: r) /\
      page_html void [Node 0 Own n a w [place 0 (Append j) t]] 0 = join [NL] ((open_html n a ++ u ">" ++ l) :: map (indent_line w) r) ++ close_html n.
  Proof.
    intros H V. rewrite node_text by exact H. inversion H as [| | |? ? ? ? ? ? Hn Ha Hk Hw0 Hw Hk0 Hkids]; subst. inversion Hkids as [|? ? Ht _]; subst.
    apply (place_wf 0 Own) in Ht. assert (Et : place 0 Own (place 0 (Append j) t) = place 0 Own t) by (destruct t; reflexivity). rewrite Et in Ht.
    assert (FL : forall l, In l (own_lines t) -> ~ In NL l).
    { intros l I. apply (own_lines_flat (place 0 Own t) Ht). destruct t; exact I. }
    destruct (own_lines_ne t V) as (l & r & E). rewrite E in FL. exists l, r.
    assert (J : forall h z, h ++ nlines z = join [NL] (h :: z)).
    { intros h z. destruct z as [|y z]; [cbn; now rewrite app_nil_r|]. rewrite nlines_tl by discriminate. rewrite (join_cons [NL] h (y :: z)) by discriminate. reflexivity. }
    split; [|split; [apply Forall_forall, FL|]].
    - rewrite page_html_ptx by (constructor; [exact Ht|constructor]). rewrite ptx_htmls_cons, html_own, E, ptx_lay by exact V.
      cbn [outlined margin_of blanks repeat nlines flat_map app]. rewrite indent_line_nil. rewrite (map_ext (indent_line []) (fun l => l)) by apply indent_line_nil. rewrite map_id.
      cbn [repeatc repeat ptx htmls fold_right fst snd map nlines flat_map]. unfold drop_nl. rewrite N.eqb_refl, !app_nil_r. apply J.
    - rewrite ptx_htmls_cons, html_own, E, ptx_lay by exact V. cbn [outlined margin_of blanks repeat nlines flat_map app].
      cbn [ptx htmls fold_right fst snd map nlines flat_map]. rewrite !app_nil_r.
      rewrite <- J. rewrite <- !app_assoc. do 3 f_equal. fold (nlines (map (indent_line w) r)).
      destruct l as [|c l].
      + destruct r as [|c r]; [reflexivity|].
        (* the lines of an element or of a text of several lines begin with a nonempty line *)
        exfalso. destruct t as [m d k x|m x|m d n1 a1 c1|m d n1 a1 w1 kids1]; cbn [own_lines] in E; try discriminate.
        unfold element in E. destruct (fst _); [destruct (map _ _)|]; cbn [tack app] in E; try discriminate. destruct (map (line_at w1) _); discriminate.
      + cbn [app startswith]. destruct (N.eqb_spec NL c) as [<-|]; [|reflexivity]. destruct (FL (NL :: l) (or_introl eq_refl)). left. reflexivity.
  Qed.

  (** Contents without modifiers, and contents of dedented blocks. *)
  Definition margin_lines (t : page) : list str := match t with Line m _ _ _ | Note m _ | Leaf m _ _ _ _ | Node m _ _ _ _ _ => blanks m end ++ own_lines t.
  Lemma margin_place m d t : shown_block t -> margin_lines (place m d t) = blanks m ++ own_lines t.
  Proof. destruct t; intros H; [reflexivity|destruct H|reflexivity|reflexivity]. Qed.
  Lemma ptx_own d t : modifier_of t = Some Own \/ modifier_of t = None -> ptx d (html void t) = nlines (map (indent_line d) (margin_lines t)).
  Proof.
    intros H. destruct (modifier_of t) as [f|] eqn:E.
    - assert (f = Own) by (destruct H; congruence). subst f. assert (V : shown_block t) by (destruct t; try exact Logic.I; discriminate).
      destruct (own_lines_ne t V) as (l & r & El). unfold margin_lines. rewrite El, map_app, nlines_app.
      assert (Et : exists m, t = place m Own t /\ match t with Line m _ _ _ | Note m _ | Leaf m _ _ _ _ | Node m _ _ _ _ _ => blanks m end = blanks m).
      { destruct t as [m g k x|m x|m g n a c|m g n a w kids]; cbn in E; try discriminate; injection E as ->; exists m; split; reflexivity. }
      destruct Et as (m & Et & Em). rewrite Em. rewrite Et at 1. rewrite html_own, El, ptx_lay by exact V. rewrite indent_blanks. reflexivity.
    - destruct t; try discriminate. unfold margin_lines. cbn [html own_lines]. rewrite ptx_note, app_nil_r, indent_blanks. reflexivity.
  Qed.
  Lemma ptx_dedent d t : (exists j, modifier_of t = Some (Dedent j)) \/ modifier_of t = None -> ptx d (html void t) = nlines (margin_lines t).
  Proof.
    intros H. destruct (modifier_of t) as [f|] eqn:E.
    - assert (exists j, f = Dedent j) as [j ->] by (destruct H as [[j H]|H]; [exists j|]; congruence). assert (V : shown_block t) by (destruct t; try exact Logic.I; discriminate).
      destruct (own_lines_ne t V) as (l & r & El). unfold margin_lines. rewrite El, nlines_app.
      assert (Et : exists m, t = place m (Dedent j) t /\ match t with Line m _ _ _ | Note m _ | Leaf m _ _ _ _ | Node m _ _ _ _ _ => blanks m end = blanks m).
      { destruct t as [m g k x|m x|m g n a c|m g n a w kids]; cbn in E; try discriminate; injection E as ->; exists m; split; reflexivity. }
      destruct Et as (m & Et & Em). rewrite Em. rewrite Et at 1. rewrite html_own, El, ptx_lay by exact V. cbn [outlined margin_of].
      rewrite (map_ext (indent_line []) (fun l => l)) by apply indent_line_nil. rewrite map_id, indent_line_nil. reflexivity.
    - destruct t; try discriminate. unfold margin_lines. cbn [html own_lines]. rewrite ptx_note, app_nil_r. reflexivity.
  Qed.
  Lemma margin_lines_flat t : wf known t -> forall l, In l (margin_lines t) -> ~ In NL l.
  Proof.
    intros H l I. unfold margin_lines in I. apply in_app_or in I. destruct I as [I|I]; [|apply (own_lines_flat t H l I)].
    destruct t; apply (blanks_no_NL _ _ I).
  Qed.

  Lemma own_contents n a w t r : wf known (Node 0 Own n a w (place 0 Own t :: r)) -> shown_block t ->
    Forall (fun t => modifier_of t = Some Own \/ modifier_of t = None) r ->
    exists ls, page_html void (place 0 Own t :: r) 0 = join [NL] ls /\ Forall (fun x => ~ In NL x) ls /\
      page_html void [Node 0 Own n a w (place 0 Own t :: r)] 0 = join [NL] ((open_html n a ++ u ">") :: map (indent_line w) ls ++ [close_html n]).
  Proof.
    intros H V Hr. rewrite node_text by exact H. inversion H as [| | |? ? ? ? ? ? Hn Ha Hk Hw0 Hw Hk0 Hkids]; subst. set (kids := place 0 Own t :: r) in *.
    assert (HK : Forall (fun t => modifier_of t = Some Own \/ modifier_of t = None) kids).
    { constructor; [|exact Hr]. destruct t; try destruct V; left; reflexivity. }
    assert (PT : forall d, ptx d (htmls void kids) = nlines (map (indent_line d) (flat_map margin_lines kids))).
    { intros d. clear -HK. induction HK as [|s kids Hs HK IH]; [reflexivity|]. rewrite ptx_htmls_cons, IH, (ptx_own d s Hs). cbn [flat_map]. rewrite map_app, nlines_app. reflexivity. }
    exists (flat_map margin_lines kids).
    assert (NE : exists l z, flat_map margin_lines kids = l :: z).
    { destruct (own_lines_ne t V) as (l & z & E). exists l. unfold kids. cbn [flat_map]. rewrite margin_place, E by exact V. eexists. reflexivity. }
    destruct NE as (l & z & NE). split; [|split].
    - rewrite page_html_ptx by exact Hkids. rewrite PT, (map_ext (indent_line []) (fun l => l)) by apply indent_line_nil. rewrite map_id, NE, nlines_tl by discriminate.
      cbn [repeatc repeat app drop_nl]. rewrite app_nil_r. unfold drop_nl. rewrite N.eqb_refl. reflexivity.
    - apply Forall_forall. intros x I. apply in_flat_map in I. destruct I as (s & I1 & I2). rewrite Forall_forall in Hkids. apply (margin_lines_flat s (Hkids s I1) x I2).
    - rewrite PT, NE. cbn [map]. assert (S1 : forall x y, startswith [NL] (nlines (x :: y)) = true) by reflexivity. rewrite S1.
      rewrite join_cons by (destruct z; discriminate). rewrite <- !app_assoc. f_equal. f_equal.
      change ([NL] ++ join [NL] ((indent_line w l :: map (indent_line w) z) ++ [close_html n])) with (NL :: join [NL] ((indent_line w l :: map (indent_line w) z) ++ [close_html n])).
      rewrite <- nlines_tl by discriminate. rewrite nlines_app. f_equal. cbn [nlines flat_map app]. rewrite app_nil_r. reflexivity.
  Qed.

  Lemma dedented_contents n a w j t r : wf known (Node 0 Own n a w (place 0 (Dedent j) t :: r)) -> shown_block t ->
    Forall (fun t => (exists j, modifier_of t = Some (Dedent j)) \/ modifier_of t = None) r ->
    page_html void [Node 0 Own n a w (place 0 (Dedent j) t :: r)] 0 =
    join [NL] [open_html n a ++ u ">"; page_html void (place 0 (Dedent j) t :: r) 0; close_html n].
  Proof.
    intros H V Hr. rewrite node_text by exact H. inversion H as [| | |? ? ? ? ? ? Hn Ha Hk Hw0 Hw Hk0 Hkids]; subst. set (kids := place 0 (Dedent j) t :: r) in *.
    assert (HK : Forall (fun t => (exists j, modifier_of t = Some (Dedent j)) \/ modifier_of t = None) kids).
    { constructor; [|exact Hr]. destruct t; try destruct V; left; exists j; reflexivity. }
    assert (PT : forall d, ptx d (htmls void kids) = nlines (flat_map margin_lines kids)).
    { intros d. clear -HK. induction HK as [|s kids Hs HK IH]; [reflexivity|]. rewrite ptx_htmls_cons, IH, (ptx_dedent d s Hs). cbn [flat_map]. rewrite nlines_app. reflexivity. }
    assert (NE : exists l z, flat_map margin_lines kids = l :: z).
    { destruct (own_lines_ne t V) as (l & z & E). exists l. unfold kids. cbn [flat_map]. rewrite margin_place, E by exact V. eexists. reflexivity. }
    destruct NE as (l & z & NE).
    rewrite page_html_ptx by exact Hkids. rewrite !PT, NE. assert (S1 : forall x y, startswith [NL] (nlines (x :: y)) = true) by reflexivity. rewrite S1.
    rewrite nlines_tl by discriminate. cbn [repeatc repeat app]. rewrite app_nil_r. unfold drop_nl. rewrite N.eqb_refl.
    cbn [join]. rewrite <- !app_assoc. reflexivity.
  Qed.
End Facts.

Section Scripts.
  Context {W : Type}.
  Variable E : env W.
  Variable P : prims W.
  Variable known : str -> option bool.
  Variables n j : nat.
  Variables tags vars ctx : list (str * val).
  Variables file package : option str.
  Variable m : mach W.
  Hypothesis R : page_runtime E P known n j m.
  Hypothesis C : called_with tags vars ctx.
  Local Notation gives src t := (exists m', render_script E P n (S j) tags vars src file package m = (Done t, m')).

  Lemma runs doc k : doc <> [] -> Forall (wf known) doc -> gives (script doc k) (page_html (void known) doc k).
  Proof. intros D H. exact (PageDoc.render_page E P known doc k n j tags vars ctx file package m R C D H). Qed.

  Lemma append_runs a g i t r k : Forall (wf known) a -> Exists begins_line a -> shown_block t -> wf known t -> Forall (wf known) r ->
    exists A B, gives (script a 0) A /\ gives (script (place 0 Own t :: r) k) B /\
      gives (script (a ++ place g (Append i) t :: r) k) (A ++ repeatc NL g ++ B) /\
      gives (script (a ++ place g Own t :: r) k) (A ++ repeatc NL (S g) ++ B).
  Proof.
    intros Ha Hb V Ht Hr. exists (page_html (void known) a 0), (page_html (void known) (place 0 Own t :: r) k).
    assert (Ne : a <> []) by (intros ->; inversion Hb).
    assert (Hp : forall x y, Forall (wf known) (place x y t :: r)) by (intros x y; constructor; [apply place_wf, Ht|exact Hr]).
    split; [apply runs; assumption|]. split; [apply runs; [discriminate|apply Hp]|]. split.
    - assert (K := appended known a g (Append i) t r k Ha Hb V Ht Hr). cbn [outlined app] in K. rewrite <- K. apply runs; [intros X; apply app_eq_nil in X; destruct X; contradiction|].
      apply Forall_app. split; [exact Ha|apply Hp].
    - assert (K := appended known a g Own t r k Ha Hb V Ht Hr). cbn [outlined] in K.
      replace (repeatc NL (S g) ++ page_html (void known) (place 0 Own t :: r) k) with (repeatc NL g ++ [NL] ++ page_html (void known) (place 0 Own t :: r) k).
      + rewrite <- K. apply runs; [intros X; apply app_eq_nil in X; destruct X; contradiction|]. apply Forall_app. split; [exact Ha|apply Hp].
      + rewrite app_assoc. f_equal. unfold repeatc. change [NL] with (repeat NL 1). rewrite <- repeat_app. f_equal. lia.
  Qed.

  Lemma inline_runs q a w i t : wf known (Node 0 Own q a w [place 0 (Append i) t]) -> shown_block t ->
    exists l r, gives (script [place 0 Own t] 0) (join [NL] (l :: r)) /\ Forall (fun x => ~ In NL x) (l :: r) /\
      gives (script [Node 0 Own q a w [place 0 (Append i) t]] 0) (join [NL] ((open_html q a ++ u ">" ++ l) :: map (indent_line w) r) ++ close_html q).
  Proof.
    intros H V. destruct (inlined known q a w i t H V) as (l & r & E1 & F & E2). exists l, r. rewrite <- E1, <- E2. split; [|split; [exact F|]].
    - apply runs; [discriminate|]. inversion H as [| | |? ? ? ? ? ? Hn Ha Hk Hw0 Hw Hk0 Hkids]; subst. inversion Hkids as [|? ? Ht _]; subst.
      constructor; [|constructor]. apply (place_wf known 0 Own) in Ht. destruct t; exact Ht.
    - apply runs; [discriminate|constructor; [exact H|constructor]].
  Qed.

  Lemma contents_run q a w t r : wf known (Node 0 Own q a w (place 0 Own t :: r)) -> shown_block t ->
    Forall (fun t => modifier_of t = Some Own \/ modifier_of t = None) r ->
    exists ls, gives (script (place 0 Own t :: r) 0) (join [NL] ls) /\ Forall (fun x => ~ In NL x) ls /\
      gives (script [Node 0 Own q a w (place 0 Own t :: r)] 0) (join [NL] ((open_html q a ++ u ">") :: map (indent_line w) ls ++ [close_html q])).
  Proof.
    intros H V Hr. destruct (own_contents known q a w t r H V Hr) as (ls & E1 & F & E2). exists ls. rewrite <- E1, <- E2. split; [|split; [exact F|]].
    - apply runs; [discriminate|]. inversion H; subst. assumption.
    - apply runs; [discriminate|constructor; [exact H|constructor]].
  Qed.

  Lemma dedent_runs q a w i t r : wf known (Node 0 Own q a w (place 0 (Dedent i) t :: r)) -> shown_block t ->
    Forall (fun t => (exists j, modifier_of t = Some (Dedent j)) \/ modifier_of t = None) r ->
    exists B, gives (script (place 0 (Dedent i) t :: r) 0) B /\
      gives (script [Node 0 Own q a w (place 0 (Dedent i) t :: r)] 0) (join [NL] [open_html q a ++ u ">"; B; close_html q]).
  Proof.
    intros H V Hr. exists (page_html (void known) (place 0 (Dedent i) t :: r) 0). rewrite <- (dedented_contents known q a w i t r H V Hr). split.
    - apply runs; [discriminate|]. inversion H; subst. assumption.
    - apply runs; [discriminate|constructor; [exact H|constructor]].
  Qed.
End Scripts.

(** Modifiers of, or inside, control blocks. *)
Lemma append_control : exists script1 script2, script1 = u "| a
... if True
    | b" /\ script2 = u "| a
if True
    | b" /\
  fst (render_script html_env conf_prims 40 5 [] [] script1 None None mach0) = fst (render_script html_env conf_prims 40 5 [] [] script2 None None mach0) /\
  fst (render_script html_env conf_prims 40 5 [] [] script1 None None mach0) = Done (u "a
b").
Proof. eexists _, _. split; [reflexivity|]. split; [reflexivity|]. split; vm_compute; reflexivity. Qed.
Lemma dedent_in_control : exists script1 script2, script1 = u "p
    if True
        < | b" /\ script2 = u "p
    if True
        | b" /\
  fst (render_script html_env conf_prims 40 5 [] [] script1 None None mach0) = fst (render_script html_env conf_prims 40 5 [] [] script2 None None mach0) /\
  fst (render_script html_env conf_prims 40 5 [] [] script1 None None mach0) = Done (u "<p>
    b
</p>").
Proof. eexists _, _. split; [reflexivity|]. split; [reflexivity|]. split; vm_compute; reflexivity. Qed.
