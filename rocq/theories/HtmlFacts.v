(** Proofs about escaping, attributes and elements. *)
From Coq Require Import List NArith Bool String Lia Arith.
From Verif Require Import PyStr PyStrFacts Html HtmlSpec.
Import ListNotations.
Local Open Scope N_scope.

(** ** html_escape *)

Definition esc (c : char) : str :=
  if c =? 38 then u "&amp;" else if c =? 62 then u "&gt;" else if c =? 60 then u "&lt;" else [c].

Lemma html_escape_flat t : html_escape t = flat_map esc t.
Proof.
  unfold html_escape. change (u "<") with [60]. change (u ">") with [62]. change (u "&") with [38].
  rewrite !replace_single, !flat_map_flat_map.
  apply flat_map_ext'. intros c. unfold esc.
  destruct (N.eqb_spec c 38) as [->|H38]; [reflexivity|].
  simpl. destruct (N.eqb_spec c 62) as [->|H62]; [reflexivity|].
  simpl. destruct (N.eqb_spec c 60) as [->|H60]; reflexivity.
Qed.

Lemma html_escape_app a b : html_escape (a ++ b) = html_escape a ++ html_escape b.
Proof. rewrite !html_escape_flat. apply flat_map_app. Qed.

Lemma html_escape_concat l : html_escape (List.concat l) = List.concat (map html_escape l).
Proof.
  induction l as [|x l IH]; [reflexivity|]. simpl. now rewrite html_escape_app, IH.
Qed.

(** ** decoding *)

Lemma decode_go_skip k s : (k <= List.length s)%nat -> decode_go k s = decode_go 0 (skipn k s).
Proof.
  revert s; induction k as [|k IH]; intros s H; [reflexivity|].
  destruct s as [|c s]; simpl in *; [lia|]. apply IH; lia.
Qed.

Lemma decode_plain c r : c <> 38 -> decode (c :: r) = c :: decode r.
Proof.
  intros H. unfold decode. cbn [decode_go].
  assert (E : match_entity entities (c :: r) = None).
  { unfold entities. cbn [match_entity startswith u].
    apply N.eqb_neq in H. rewrite N.eqb_sym in H. cbn in H |- *.
    repeat (rewrite H; cbn [andb]). reflexivity. }
  now rewrite E.
Qed.

Lemma decode_entity e c r : In (e, c) entities -> decode (e ++ r) = c :: decode r.
Proof.
  unfold decode. intros H. simpl in H.
  destruct H as [H|[H|[H|[H|[H|[H|[H|[]]]]]]]]; injection H as <- <-; reflexivity.
Qed.

Definition step_ok (f : char -> str) : Prop := forall c r, decode (f c ++ r) = c :: decode r.

Lemma decode_flat_map f v r : step_ok f -> decode (flat_map f v ++ r) = v ++ decode r.
Proof.
  intros H; induction v as [|c v IH]; [reflexivity|]. simpl. now rewrite <- app_assoc, H, IH.
Qed.

Lemma decode_flat_map' f v : step_ok f -> decode (flat_map f v) = v.
Proof. intros H. rewrite <- (app_nil_r (flat_map f v)), decode_flat_map by auto. apply app_nil_r. Qed.

Lemma esc_ok : step_ok esc.
Proof.
  intros c r. unfold esc.
  destruct (N.eqb_spec c 38) as [->|H38]; [apply decode_entity; simpl; tauto|].
  destruct (N.eqb_spec c 62) as [->|H62]; [apply decode_entity; simpl; tauto|].
  destruct (N.eqb_spec c 60) as [->|H60]; [apply decode_entity; simpl; tauto|].
  now apply decode_plain.
Qed.

Lemma decode_html_escape t : decode (html_escape t) = t.
Proof. rewrite html_escape_flat. apply decode_flat_map', esc_ok. Qed.

(** ** safety *)

Lemma In_flat_map_char {A} (f : A -> str) l c : In c (flat_map f l) -> exists x, In x l /\ In c (f x).
Proof. intros H. apply in_flat_map in H. exact H. Qed.

Lemma esc_no_lt c : ~ In 60 (esc c).
Proof.
  unfold esc. destruct (N.eqb_spec c 38); [intros H; cbn in H; intuition discriminate|].
  destruct (N.eqb_spec c 62); [intros H; cbn in H; intuition discriminate|].
  destruct (N.eqb_spec c 60); [intros H; cbn in H; intuition discriminate|].
  intros [H|[]]; congruence.
Qed.

Lemma esc_no_gt c : ~ In 62 (esc c).
Proof.
  unfold esc. destruct (N.eqb_spec c 38); [intros H; cbn in H; intuition discriminate|].
  destruct (N.eqb_spec c 62); [intros H; cbn in H; intuition discriminate|].
  destruct (N.eqb_spec c 60); [intros H; cbn in H; intuition discriminate|].
  intros [H|[]]; congruence.
Qed.

Definition amp_ok (s : str) : Prop :=
  forall a b, s = a ++ 38 :: b ->
    exists e, In e [u "amp;"; u "lt;"; u "gt;"] /\ exists r, b = e ++ r.

Lemma amp_ok_nil : amp_ok [].
Proof. intros [|? ?] b H; discriminate. Qed.

Lemma amp_ok_plain c s : c <> 38 -> amp_ok s -> amp_ok (c :: s).
Proof.
  intros H Hs [|x a] b E; simpl in E; inversion E; subst; [congruence|].
  eapply Hs; eauto.
Qed.

Lemma amp_ok_app_plain p s : ~ In 38 p -> amp_ok s -> amp_ok (p ++ s).
Proof.
  induction p as [|c p IH]; intros H Hs; [exact Hs|]. simpl.
  apply amp_ok_plain; [intros ->; apply H; left; auto|]. apply IH; auto. intros Hc; apply H; right; auto.
Qed.

Lemma amp_ok_ref e s : In e [u "amp;"; u "lt;"; u "gt;"] -> amp_ok s -> amp_ok (38 :: e ++ s).
Proof.
  intros He Hs [|x a] b E; simpl in E; inversion E as [[E1 E2]].
  - exists e; split; auto. exists s; congruence.
  - assert (Hp : amp_ok (e ++ s)).
    { apply amp_ok_app_plain; auto. simpl in He.
      destruct He as [<-|[<-|[<-|[]]]]; intros H; cbn in H; intuition discriminate. }
    eapply Hp; eauto.
Qed.

Lemma amp_ok_escape t : amp_ok (flat_map esc t).
Proof.
  induction t as [|c t IH]; [apply amp_ok_nil|]. simpl. unfold esc at 1.
  destruct (N.eqb_spec c 38) as [->|H38]; [apply (amp_ok_ref (u "amp;")); simpl; auto|].
  destruct (N.eqb_spec c 62) as [->|H62]; [apply (amp_ok_ref (u "gt;")); simpl; auto|].
  destruct (N.eqb_spec c 60) as [->|H60]; [apply (amp_ok_ref (u "lt;")); simpl; auto|].
  apply amp_ok_plain; auto.
Qed.

Lemma html_escape_safe t : safe_text (html_escape t).
Proof.
  rewrite html_escape_flat. split; [|split].
  - intros H. apply In_flat_map_char in H as [x [_ H]]. exact (esc_no_lt x H).
  - intros H. apply In_flat_map_char in H as [x [_ H]]. exact (esc_no_gt x H).
  - apply amp_ok_escape.
Qed.

(** ** quoteattr *)

Definition sesc (c : char) : str :=
  if c =? 38 then u "&amp;" else if c =? 62 then u "&gt;" else if c =? 60 then u "&lt;"
  else if c =? 10 then u "&#10;" else if c =? 13 then u "&#13;" else if c =? 9 then u "&#9;" else [c].

Lemma sax_escape_flat v : sax_escape v = flat_map sesc v.
Proof.
  unfold sax_escape. change (u "<") with [60]. change (u ">") with [62]. change (u "&") with [38].
  unfold NL, CR, TAB.
  rewrite !replace_single, !flat_map_flat_map.
  apply flat_map_ext'. intros c. unfold sesc.
  destruct (N.eqb_spec c 38) as [->|H38]; [reflexivity|]. simpl.
  destruct (N.eqb_spec c 62) as [->|H62]; [reflexivity|]. simpl.
  destruct (N.eqb_spec c 60) as [->|H60]; [reflexivity|]. simpl.
  destruct (N.eqb_spec c 10) as [->|H10]; [reflexivity|]. simpl.
  destruct (N.eqb_spec c 13) as [->|H13]; [reflexivity|]. simpl.
  destruct (N.eqb_spec c 9) as [->|H9]; reflexivity.
Qed.

Lemma sesc_ok : step_ok sesc.
Proof.
  intros c r. unfold sesc.
  destruct (N.eqb_spec c 38) as [->|H38]; [apply decode_entity; simpl; tauto|].
  destruct (N.eqb_spec c 62) as [->|H62]; [apply decode_entity; simpl; tauto|].
  destruct (N.eqb_spec c 60) as [->|H60]; [apply decode_entity; simpl; tauto|].
  destruct (N.eqb_spec c 10) as [->|H10]; [apply decode_entity; simpl; tauto|].
  destruct (N.eqb_spec c 13) as [->|H13]; [apply decode_entity; simpl; tauto|].
  destruct (N.eqb_spec c 9) as [->|H9]; [apply decode_entity; simpl; tauto|].
  now apply decode_plain.
Qed.

(** with the double quotes replaced too *)
Definition qesc (c : char) : str := if c =? 34 then u "&quot;" else sesc c.

Lemma sesc_dq_flat c : flat_map (fun x => if x =? 34 then u "&quot;" else [x]) (sesc c) = qesc c.
Proof.
  unfold qesc, sesc.
  destruct (N.eqb_spec c 38) as [->|H38]; [reflexivity|].
  destruct (N.eqb_spec c 62) as [->|H62]; [reflexivity|].
  destruct (N.eqb_spec c 60) as [->|H60]; [reflexivity|].
  destruct (N.eqb_spec c 10) as [->|H10]; [reflexivity|].
  destruct (N.eqb_spec c 13) as [->|H13]; [reflexivity|].
  destruct (N.eqb_spec c 9) as [->|H9]; [reflexivity|].
  simpl. destruct (c =? 34); reflexivity.
Qed.

Lemma qesc_ok : step_ok qesc.
Proof.
  intros c r. unfold qesc. destruct (N.eqb_spec c 34) as [->|H]; [apply decode_entity; simpl; tauto|].
  apply sesc_ok.
Qed.

Lemma qesc_no_dq c : ~ In 34 (qesc c).
Proof.
  unfold qesc, sesc.
  destruct (N.eqb_spec c 34); [intros H; cbn in H; intuition discriminate|].
  repeat match goal with |- context [if ?b then _ else _] =>
    destruct b; [intros H; cbn in H; intuition discriminate|] end.
  intros [H|[]]; congruence.
Qed.

(** The three forms of a quoted value. *)
Lemma quoteattr_form v : exists q f,
  quoteattr v = q :: flat_map f v ++ [q] /\ (q = 34 \/ q = 39) /\ (f = sesc \/ f = qesc) /\
  ~ In q (flat_map f v).
Proof.
  unfold quoteattr. rewrite sax_escape_flat.
  destruct (mem DQ (flat_map sesc v)) eqn:Ed.
  - destruct (mem SQ (flat_map sesc v)) eqn:Es.
    + exists 34, qesc. repeat split; auto.
      * rewrite replace_single, flat_map_flat_map. unfold DQ.
        rewrite (flat_map_ext' _ qesc) by (intros; apply sesc_dq_flat). reflexivity.
      * intros H. apply In_flat_map_char in H as [x [_ H]]. exact (qesc_no_dq x H).
    + exists 39, sesc. repeat split; auto. apply mem_not_In in Es. exact Es.
  - exists 34, sesc. repeat split; auto. apply mem_not_In in Ed. exact Ed.
Qed.

Lemma break_at_app q a b : ~ In q a -> break_at q (a ++ q :: b) = Some (a, b).
Proof.
  induction a as [|c a IH]; intros H; simpl.
  - now rewrite N.eqb_refl.
  - destruct (N.eqb_spec c q) as [->|Hc]; [exfalso; apply H; left; auto|].
    rewrite IH; auto. intros Hq; apply H; right; auto.
Qed.

Lemma read_quoteattr v rest : read_quoted (quoteattr v ++ rest) = Some (v, rest).
Proof.
  destruct (quoteattr_form v) as [q [f [E [Hq [Hf Hn]]]]].
  rewrite E. simpl. rewrite <- app_assoc. simpl.
  rewrite break_at_app by assumption.
  replace ((q =? 34) || (q =? 39)) with true by (destruct Hq as [-> | ->]; reflexivity).
  assert (Hok : step_ok f) by (destruct Hf as [-> | ->]; [apply sesc_ok | apply qesc_ok]).
  now rewrite decode_flat_map'.
Qed.

Definition unclean (c : char) : Prop := c = 60 \/ c = 62 \/ c = 10 \/ c = 13 \/ c = 9.

Lemma sesc_clean c d : In d (sesc c) -> ~ unclean d.
Proof.
  unfold sesc, unclean.
  destruct (N.eqb_spec c 38); [intros H; cbn in H; intuition (subst; discriminate)|].
  destruct (N.eqb_spec c 62); [intros H; cbn in H; intuition (subst; discriminate)|].
  destruct (N.eqb_spec c 60); [intros H; cbn in H; intuition (subst; discriminate)|].
  destruct (N.eqb_spec c 10); [intros H; cbn in H; intuition (subst; discriminate)|].
  destruct (N.eqb_spec c 13); [intros H; cbn in H; intuition (subst; discriminate)|].
  destruct (N.eqb_spec c 9); [intros H; cbn in H; intuition (subst; discriminate)|].
  intros [<-|[]]. intuition.
Qed.

Lemma qesc_clean c d : In d (qesc c) -> ~ unclean d.
Proof.
  unfold qesc. destruct (N.eqb_spec c 34).
  - unfold unclean. intros H; cbn in H; intuition (subst; discriminate).
  - apply sesc_clean.
Qed.

Lemma quoteattr_clean v d : In d (quoteattr v) -> ~ unclean d.
Proof.
  destruct (quoteattr_form v) as [q [f [E [Hq [Hf _]]]]]. rewrite E.
  intros [<-|H].
  - unfold unclean. destruct Hq as [-> | ->]; intuition discriminate.
  - apply in_app_or in H as [H|[<-|[]]].
    + apply In_flat_map_char in H as [x [_ H]].
      destruct Hf as [-> | ->]; [eapply sesc_clean | eapply qesc_clean]; eauto.
    + unfold unclean. destruct Hq as [-> | ->]; intuition discriminate.
Qed.

(** ** opening tags *)

Lemma name_char_not c : name_char c = true ->
  is_space c = false /\ c <> 34 /\ c <> 39 /\ c <> 61 /\ c <> 62 /\ c <> 47 /\ c <> 60 /\ c <> 38.
Proof.
  unfold name_char. rewrite negb_true_iff, !orb_false_iff, !N.eqb_neq. tauto.
Qed.

Lemma read_name_app n r : (forall c, In c n -> name_char c = true) ->
  match r with [] => True | c :: _ => name_char c = false end ->
  read_name (n ++ r) = (n, r).
Proof.
  intros Hn Hr; induction n as [|c n IH]; simpl.
  - destruct r as [|c r]; [reflexivity|]. simpl. now rewrite Hr.
  - rewrite (Hn c) by (left; auto). rewrite IH; auto. intros d Hd; apply Hn; right; auto.
Qed.

Lemma open_tag_form m name kw : (forall nv, In nv kw -> valid_name (fst nv)) ->
  open_tag m name kw = name ++ flat_map (attr_text m) kw.
Proof.
  intros H. unfold open_tag.
  assert (E : forall n0 l, (forall nv, In nv l -> valid_name (fst nv)) ->
     join (u " ") (n0 :: filter_none (map (fun nv => render_attr m (fst nv) (snd nv)) l))
     = n0 ++ flat_map (attr_text m) l).
  { intros n0 l; revert n0; induction l as [|[n v] l IH]; intros n0 Hl; [simpl; now rewrite app_nil_r|].
    assert (Hn : valid_name n) by (apply (Hl (n, v)); left; auto).
    assert (Hl' : forall nv, In nv l -> valid_name (fst nv)) by (intros; apply Hl; right; auto).
    destruct Hn as [Hne _]. destruct n as [|c n]; [congruence|].
    cbn [map flat_map fst snd]. unfold attr_text at 1; cbn [fst snd].
    destruct v as [| |s]; [destruct m| |]; cbn [render_attr filter_none app].
    - rewrite join_cons by discriminate. rewrite IH by auto. simpl. reflexivity.
    - rewrite join_cons by discriminate. rewrite IH by auto. simpl. reflexivity.
    - now apply IH.
    - rewrite join_cons by discriminate. rewrite IH by auto. simpl. reflexivity. }
  now apply E.
Qed.

Lemma read_quoted_plain n rest : (forall c, In c n -> name_char c = true) ->
  read_quoted (34 :: n ++ 34 :: rest) = Some (n, rest).
Proof.
  intros H. simpl. rewrite break_at_app.
  - f_equal. f_equal. induction n as [|c n IH]; [reflexivity|].
    rewrite decode_plain, IH; auto; [intros d Hd; apply H; right; auto|].
    apply (name_char_not c); apply H; left; auto.
  - intros Hi. apply H in Hi. apply name_char_not in Hi. tauto.
Qed.

Definition tag_end (sc : bool) : str := if sc then u " />" else u ">".

Lemma read_attrs_ok m kw : (forall nv, In nv kw -> valid_name (fst nv)) ->
  forall fuel sc rest, (List.length kw < fuel)%nat ->
  read_attrs fuel (flat_map (attr_text m) kw ++ tag_end sc ++ rest)
  = Some (flat_map (seen m) kw, sc, rest).
Proof.
  induction kw as [|[n v] kw IH]; intros H fuel sc rest Hf.
  - destruct fuel as [|k]; [simpl in Hf; lia|]. destruct sc; reflexivity.
  - assert (Hn : valid_name n) by (apply (H (n, v)); left; auto).
    assert (H' : forall nv, In nv kw -> valid_name (fst nv)) by (intros; apply H; right; auto).
    destruct Hn as [Hne Hc]. cbn [flat_map]. unfold attr_text at 1, seen at 1. cbn [fst snd].
    destruct fuel as [|k]; [simpl in Hf; lia|].
    assert (Hk : (List.length kw < k)%nat) by (simpl in Hf; lia).
    assert (Hs : forall r, startswith (u "/>") (n ++ r) = false).
    { intros r. destruct n as [|c n]; [congruence|].
      assert (Hc' : c <> 47) by (apply (name_char_not c), Hc; left; auto).
      cbn [app startswith u]. apply N.eqb_neq in Hc'. rewrite N.eqb_sym in Hc'.
      cbn in Hc' |- *. now rewrite Hc'. }
    set (tail := flat_map (attr_text m) kw ++ tag_end sc ++ rest).
    assert (Hhd : exists x y, tail = x :: y /\ (x = 32 \/ x = 62)).
    { unfold tail. clear - H'. induction kw as [|[a b] kw IH]; [destruct sc; simpl; eauto|].
      cbn [flat_map]. unfold attr_text at 1. cbn [fst snd].
      destruct b as [| |t]; [destruct m| |]; try (simpl; eexists _, _; split; [reflexivity|auto]).
      apply IH. intros; apply H'; right; auto. }
    destruct v as [| |s]; [destruct m| |].
    + cbn [render_attr app]. rewrite <- app_assoc. fold tail.
      cbn [read_attrs]. change (32 =? 62) with false. change (32 =? 32) with true. cbn [negb].
      rewrite Hs. destruct Hhd as [x [y [Ey Hx]]].
      rewrite read_name_app; [|exact Hc|rewrite Ey; destruct Hx as [-> | ->]; reflexivity].
      destruct n as [|c n]; [congruence|].
      replace (startswith (u "=") tail) with false by (rewrite Ey; destruct Hx as [-> | ->]; reflexivity).
      unfold tail. rewrite IH by auto. reflexivity.
    + cbn [render_attr]. rewrite <- app_assoc. fold tail.
      match goal with |- read_attrs _ ?x = _ =>
        replace x with (32 :: n ++ 61 :: 34 :: n ++ 34 :: tail) end;
        [|simpl; rewrite <- !app_assoc; simpl; rewrite <- !app_assoc; reflexivity].
      cbn [read_attrs]. change (32 =? 62) with false. change (32 =? 32) with true. cbn [negb].
      rewrite Hs. rewrite read_name_app; [|exact Hc|reflexivity].
      destruct n as [|c n]; [congruence|].
      change (startswith (u "=") (61 :: 34 :: (c :: n) ++ 34 :: tail)) with true.
      change (skipn 1 (61 :: 34 :: (c :: n) ++ 34 :: tail)) with (34 :: (c :: n) ++ 34 :: tail).
      cbv iota. rewrite read_quoted_plain by exact Hc. unfold tail. rewrite IH by auto. reflexivity.
    + cbn [render_attr app]. apply IH; auto.
    + cbn [render_attr]. rewrite <- app_assoc. fold tail.
      match goal with |- read_attrs _ ?x = _ =>
        replace x with (32 :: n ++ 61 :: quoteattr s ++ tail) end;
        [|simpl; rewrite <- !app_assoc; reflexivity].
      cbn [read_attrs]. change (32 =? 62) with false. change (32 =? 32) with true. cbn [negb].
      rewrite Hs. rewrite read_name_app; [|exact Hc|reflexivity].
      destruct n as [|c n]; [congruence|].
      change (startswith (u "=") (61 :: quoteattr s ++ tail)) with true.
      change (skipn 1 (61 :: quoteattr s ++ tail)) with (quoteattr s ++ tail).
      cbv iota. rewrite read_quoteattr. unfold tail. rewrite IH by auto. reflexivity.
Qed.

Lemma flat_map_attr_length m kw : (forall nv, In nv kw -> valid_name (fst nv)) ->
  (List.length (flat_map (seen m) kw) <= List.length (flat_map (attr_text m) kw))%nat.
Proof.
  induction kw as [|[n v] kw IH]; intros H; [reflexivity|].
  assert (H' : forall nv, In nv kw -> valid_name (fst nv)) by (intros; apply H; right; auto).
  specialize (IH H'). cbn [flat_map]. unfold attr_text at 1, seen at 1; cbn [fst snd].
  destruct v as [| |s]; [destruct m| |]; cbn [render_attr]; rewrite ?app_length; cbn [List.length app]; lia.
Qed.

Lemma filter_false_kw m kw :
  flat_map (attr_text m) (filter (fun nv => match snd nv with AFalse => false | _ => true end) kw)
  = flat_map (attr_text m) kw /\
  flat_map (seen m) (filter (fun nv => match snd nv with AFalse => false | _ => true end) kw)
  = flat_map (seen m) kw.
Proof.
  induction kw as [|[n v] kw [IH1 IH2]]; [split; reflexivity|].
  cbn [filter snd]. destruct v; cbn [flat_map]; rewrite ?IH1, ?IH2; split; reflexivity.
Qed.

Lemma read_tag_open m name kw sc rest :
  valid_name name -> (forall nv, In nv kw -> valid_name (fst nv)) ->
  read_tag (open_tag m name kw ++ tag_end sc ++ rest)
  = Some (if sc then IEmpty name (flat_map (seen m) kw) else IOpen name (flat_map (seen m) kw), rest).
Proof.
  intros [Hne Hc] Hkw. rewrite open_tag_form by auto.
  destruct (filter_false_kw m kw) as [E1 E2]. rewrite <- E1, <- E2.
  set (kw' := filter _ kw) in *.
  assert (Hkw' : forall nv, In nv kw' -> valid_name (fst nv) /\ snd nv <> AFalse).
  { unfold kw'. intros nv Hi. apply filter_In in Hi as [Hi Hs]. split; [auto|].
    destruct (snd nv); congruence. }
  rewrite <- app_assoc.
  set (tail := flat_map (attr_text m) kw' ++ tag_end sc ++ rest).
  assert (Hhd : match tail with [] => True | c :: _ => name_char c = false end).
  { unfold tail. destruct kw' as [|[a b] l]; [destruct sc; reflexivity|].
    destruct (Hkw' (a, b)) as [_ Hb]; [left; auto|]. cbn [snd] in Hb.
    cbn [flat_map]. unfold attr_text at 1. cbn [fst snd].
    destruct b; [destruct m; reflexivity|congruence|reflexivity]. }
  assert (Hs : startswith (u "/") (name ++ tail) = false).
  { destruct name as [|c n]; [congruence|].
    assert (Hc' : c <> 47) by (apply (name_char_not c), Hc; left; auto).
    cbn [app startswith u]. apply N.eqb_neq in Hc'. rewrite N.eqb_sym in Hc'.
    cbn in Hc' |- *. now rewrite Hc'. }
  unfold read_tag. rewrite Hs. rewrite read_name_app by assumption.
  destruct name as [|c0 n0]; [congruence|].
  unfold tail. rewrite read_attrs_ok.
  - destruct sc; reflexivity.
  - intros nv Hi; apply Hkw'; auto.
  - rewrite app_length.
    assert (L : (List.length kw' <= List.length (flat_map (attr_text m) kw'))%nat).
    { clear - Hkw'. induction kw' as [|[a b] l IH]; [simpl; lia|].
      destruct (Hkw' (a, b)) as [_ Hb]; [left; auto|]. cbn [snd] in Hb.
      cbn [flat_map List.length]. rewrite app_length. unfold attr_text at 1. cbn [fst snd].
      assert (IH' := IH (fun nv Hi => Hkw' nv (or_intror Hi))).
      destruct b; [destruct m| |]; cbn [render_attr List.length]; try lia; congruence. }
    lia.
Qed.

Lemma read_tag_close name rest : valid_name name ->
  read_tag (u "/" ++ name ++ u ">" ++ rest) = Some (IClose name, rest).
Proof.
  intros [Hne Hc]. unfold read_tag.
  change (startswith (u "/") (u "/" ++ name ++ u ">" ++ rest)) with true. cbv iota.
  change (skipn 1 (u "/" ++ name ++ u ">" ++ rest)) with (name ++ u ">" ++ rest).
  rewrite read_name_app; [|exact Hc|reflexivity].
  destruct name as [|c n]; [congruence|]. reflexivity.
Qed.

Lemma break_at_eq q a b : ~ In q a -> break_at q (a ++ [q] ++ b) = Some (a, b).
Proof. apply break_at_app. Qed.

Lemma render_attr_read m name v s rest : ~ In 61 name ->
  render_attr m name (AOther v) = Some s ->
  exists r, break_at 61 (s ++ rest) = Some (name, r) /\ read_quoted r = Some (v, rest).
Proof.
  intros H E. cbn [render_attr] in E. injection E as <-.
  exists (quoteattr v ++ rest). split.
  - rewrite <- (app_assoc name). cbn [u app]. now apply break_at_app.
  - apply read_quoteattr.
Qed.

Lemma element_read t body kw s rest :
  m_void t = false -> valid_name (m_name t) -> (forall nv, In nv kw -> valid_name (fst nv)) ->
  markup_expand t body 0 kw = Ok s ->
  exists s1 s2, s ++ rest = 60 :: s1 /\
    read_tag s1 = Some (IOpen (m_name t) (flat_map (seen (m_mode t)) kw),
                        body ++ (if startswith [NL] body then [NL] else []) ++ 60 :: s2) /\
    read_tag s2 = Some (IClose (m_name t), rest).
Proof.
  intros Hv Hn Hk E. unfold markup_expand, markup_expand' in E. rewrite Hv in E.
  match type of E with Ok ?x = Ok s => assert (Es : s = x) by congruence end. subst s. clear E.
  eexists _, (u "/" ++ m_name t ++ u ">" ++ rest). split; [|split].
  - change (u "</") with (u "<" ++ u "/"). rewrite <- !app_assoc. reflexivity.
  - exact (read_tag_open (m_mode t) (m_name t) kw false _ Hn Hk).
  - now apply read_tag_close.
Qed.

Lemma html_escape_split t : split NL (html_escape t) = map html_escape (split NL t).
Proof.
  rewrite html_escape_flat. induction t as [|c t IH]; [reflexivity|].
  destruct (N.eqb_spec c NL) as [->|Hc].
  - change (flat_map esc (NL :: t)) with (NL :: flat_map esc t).
    rewrite !split_cons_sep, IH. simpl. reflexivity.
  - change (flat_map esc (c :: t)) with (esc c ++ flat_map esc t).
    destruct (split NL t) as [|h r] eqn:E; [destruct (split_not_nil NL t E)|].
    rewrite (split_app_no_sep NL (esc c) (flat_map esc t) (html_escape h) (map html_escape r)).
    + rewrite (split_cons_other NL c t h r) by assumption.
      simpl. f_equal. rewrite !html_escape_flat. reflexivity.
    + unfold esc, NL. destruct (c =? 38); [intros H; cbn in H; intuition discriminate|].
      destruct (c =? 62); [intros H; cbn in H; intuition discriminate|].
      destruct (c =? 60); [intros H; cbn in H; intuition discriminate|].
      intros [H|[]]. apply Hc. exact H.
    + exact IH.
Qed.
