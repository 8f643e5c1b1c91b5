(** Proofs about pages: the preprocessed text of a script. *)
From Coq Require Import List NArith Bool Arith Lia String.
From Verif Require Import PyStr PyStrFacts IndentSpec Indent IndentFacts Preprocess PreprocessSpec PreprocessFacts PageSpec.
Import ListNotations.
Local Open Scope list_scope.
Local Open Scope N_scope.

(** Induction over pages. *)
Section Ind.
  Variable P : page -> Prop.
  Hypothesis HL : forall m d k x, P (Line m d k x).
  Hypothesis HC : forall m x, P (Note m x).
  Hypothesis HF : forall m d n a c, P (Leaf m d n a c).
  Hypothesis HN : forall m d n a w kids, Forall P kids -> P (Node m d n a w kids).
  Fixpoint page_ind' (t : page) : P t :=
    match t with
    | Line m d k x => HL m d k x
    | Note m x => HC m x
    | Leaf m d n a c => HF m d n a c
    | Node m d n a w kids => HN m d n a w kids
        ((fix go (l : list page) : Forall P l :=
            match l with [] => Forall_nil P | x :: r => Forall_cons x (page_ind' x) (go r) end) kids)
    end.
End Ind.

Definition code (k : style) (x : str) : str := match k with Verbatim => x | _ => double x end.
Definition text_flat (k : style) (x : str) : str := style_mark k ++ code k (rstrip x).
Definition leaf_flat (c : option (style * str)) : str :=
  match c with Some (k, x) => SP :: text_flat k x | None => [] end.

Section Flat.
Variable y : symbols.
Definition inds (w : str) : str := map (ind_sym y) w.
Definition deds (w : str) : str := map (ded_sym y) (rev w).

Fixpoint flat (t : page) : str :=
  match t with
  | Line m d k x => repeatc NL (S m) ++ mark_src d ++ text_flat k x
  | Note m x => repeatc NL (S m) ++ u "--" ++ rstrip x
  | Leaf m d n a c => repeatc NL (S m) ++ mark_src d ++ tag_src n a ++ leaf_flat c
  | Node m d n a w kids => repeatc NL (S m) ++ mark_src d ++ tag_src n a ++ inds w ++ flat_map flat kids ++ deds w
  end.

(** The plan of the preprocessor, as one text. *)
Definition ptext (cur : str) (ls : list str) : str := fst (enc y cur ls) ++ flat_map (cons NL) (snd (enc y cur ls)).

Lemma ptext_blanks cur k : ptext cur (blanks k) = deds cur ++ repeatc NL k.
Proof.
  unfold ptext, deds. assert (E : enc y cur (blanks k) = (map (ded_sym y) (rev cur), blanks k)).
  { induction k as [|k IH]; [reflexivity|]. cbn [blanks repeat enc blankb forallb]. fold (blanks k). rewrite IH. reflexivity. }
  rewrite E. cbn [fst snd]. f_equal. clear. induction k as [|k IH]; [reflexivity|]. cbn [blanks repeat flat_map app]. fold (blanks k). rewrite IH. reflexivity.
Qed.

Lemma enc_line cur m l r : blankb l = false ->
  enc y cur (blanks m ++ l :: r) = (syms y cur (leading l), blanks m ++ (strip l ++ fst (enc y (leading l) r)) :: snd (enc y (leading l) r)).
Proof.
  intros Hb. induction m as [|m IH]; cbn [blanks repeat app enc].
  - rewrite Hb. destruct (enc y (leading l) r) as [s o]. reflexivity.
  - cbn [blankb forallb]. fold (blanks m). rewrite IH. reflexivity.
Qed.

Lemma ptext_line cur m l r : blankb l = false ->
  ptext cur (blanks m ++ l :: r) = syms y cur (leading l) ++ repeatc NL (S m) ++ strip l ++ ptext (leading l) r.
Proof.
  intros Hb. unfold ptext. rewrite enc_line by exact Hb. cbn [fst snd]. f_equal. rewrite flat_map_app. cbn [flat_map].
  assert (E : flat_map (cons NL) (blanks m) = repeatc NL m) by (clear; induction m as [|m IH]; [reflexivity|cbn [blanks repeat flat_map app]; fold (blanks m); rewrite IH; reflexivity]).
  rewrite E. change (repeatc NL (S m)) with (NL :: repeatc NL m).
  assert (R : forall z, repeatc NL m ++ NL :: z = NL :: repeatc NL m ++ z).
  { clear. induction m as [|m IH]; intros z; [reflexivity|]. change (repeatc NL (S m)) with (NL :: repeatc NL m). cbn [app]. rewrite IH. reflexivity. }
  rewrite <- app_comm_cons, R, <- !app_assoc. reflexivity.
Qed.

Lemma compat_line cur m l r : blankb l = false -> startswith cur (leading l) || startswith (leading l) cur = true ->
  compat (leading l) r -> compat cur (blanks m ++ l :: r).
Proof.
  intros Hb Hc Hr. induction m as [|m IH]; cbn [blanks repeat app compat blankb forallb].
  - rewrite Hb. split; assumption.
  - exact IH.
Qed.
Lemma compat_blanks cur k : compat cur (blanks k).
Proof. induction k as [|k IH]; [exact Logic.I|exact IH]. Qed.

(** *** Lines of scripts *)

Definition blankish (w : str) : Prop := forall c, In c w -> c = SP \/ c = TAB.
Lemma blankish_space w : blankish w -> forall c, In c w -> is_space c = true.
Proof. intros H c I. destruct (H c I) as [-> | ->]; reflexivity. Qed.

(** A line that begins with a visible character. *)
Definition visible_line (l : str) : Prop := exists c r, l = c :: r /\ is_space c = false.

Lemma leading_line i l : blankish i -> visible_line l -> leading (i ++ l) = i.
Proof.
  intros Hi (c & r & -> & Hc). induction i as [|x i IH]; cbn [app leading]; [rewrite Hc; reflexivity|].
  rewrite (blankish_space _ Hi x (or_introl eq_refl)). rewrite IH; [reflexivity|]. intros z Hz. apply Hi. right. exact Hz.
Qed.
Lemma blankb_line i l : visible_line l -> blankb (i ++ l) = false.
Proof.
  intros (c & r & -> & Hc). unfold blankb. rewrite forallb_app. cbn. rewrite Hc. apply andb_false_r.
Qed.
Lemma strip_line i l : blankish i -> visible_line l -> strip (i ++ l) = rstrip l.
Proof.
  intros Hi (c & r & -> & Hc). unfold strip. rewrite lstrip_app_space by (intros z Hz; apply (blankish_space _ Hi), Hz).
  rewrite lstrip_nonspace by exact Hc. reflexivity.
Qed.

Lemma rstrip_visible a x : visible_line a -> (forall z, In z a -> is_space z = false) -> rstrip (a ++ x) = a ++ rstrip x.
Proof.
  intros _ H. destruct (rstrip_decomp x) as (w & E & Hw). destruct (rstrip_cases x) as [N|(r & z & E2 & Hz)].
  - rewrite N in *. rewrite E. cbn [app]. rewrite rstrip_app_space by exact Hw. rewrite app_nil_r.
    destruct (rev a) as [|z b] eqn:Er; [apply (f_equal (@rev _)) in Er; rewrite rev_involutive in Er; subst; reflexivity|].
    apply (f_equal (@rev _)) in Er. rewrite rev_involutive in Er. cbn [rev] in Er. subst a. apply rstrip_nonspace. apply H. apply in_or_app. right. left. reflexivity.
  - apply rstrip_app_nonblank. intros K. assert (I : In z x).
    { rewrite E, E2. apply in_or_app. left. apply in_or_app. right. left. reflexivity. }
    rewrite (K z I) in Hz. discriminate.
Qed.

Lemma double_rev_space x : double (rev x) = rev (double x).
Proof.
  induction x as [|c x IH]; [reflexivity|]. cbn [rev]. unfold double in *. rewrite flat_map_app. cbn [flat_map]. rewrite IH, rev_app_distr.
  destruct (special c); reflexivity.
Qed.
Lemma special_space c : is_space c = true -> special c = false.
Proof.
  intros H. unfold special. destruct (N.eqb_spec c 36) as [->|]; [discriminate|]. destruct (N.eqb_spec c 123) as [->|]; [discriminate|].
  destruct (N.eqb_spec c 125) as [->|]; [discriminate|]. reflexivity.
Qed.
Lemma lstrip_double x : lstrip (double x) = double (lstrip x).
Proof.
  induction x as [|c x IH]; [reflexivity|]. cbn [lstrip]. destruct (is_space c) eqn:E.
  - unfold double. cbn [flat_map]. rewrite (special_space c E). cbn [app lstrip]. rewrite E. exact IH.
  - unfold double. cbn [flat_map]. destruct (special c); cbn [app lstrip]; rewrite E; reflexivity.
Qed.
Lemma rstrip_double x : rstrip (double x) = double (rstrip x).
Proof. unfold rstrip. rewrite <- double_rev_space, lstrip_double, <- double_rev_space. reflexivity. Qed.
Lemma rstrip_code k x : rstrip (code k x) = code k (rstrip x).
Proof. destruct k; [apply rstrip_double|apply rstrip_double|reflexivity]. Qed.

Lemma mark_visible k : exists c, style_mark k = [c] /\ is_space c = false.
Proof. destruct k; eexists; split; reflexivity. Qed.
Lemma rstrip_text k x : rstrip (text_src k x) = text_flat k x.
Proof.
  unfold text_src, text_flat. fold (code k x). rewrite rstrip_visible, rstrip_code; [reflexivity| |].
  - destruct (mark_visible k) as (c & -> & H). exists c, []. split; [reflexivity|exact H].
  - destruct (mark_visible k) as (c & -> & H). intros z [<-|[]]. exact H.
Qed.
Lemma text_visible k x : visible_line (text_src k x).
Proof. unfold text_src. destruct (mark_visible k) as (c & -> & H). eexists c, _. split; [reflexivity|exact H]. Qed.

Lemma letter_space c : letter c = true -> is_space c = false.
Proof.
  intros H. unfold is_space. unfold letter in H. apply orb_true_iff in H.
  assert (R : 65 <= c <= 122).
  { destruct H as [H|H]; [apply orb_true_iff in H; destruct H as [H|H]; apply andb_true_iff in H; destruct H as [A1 A2]; apply N.leb_le in A1, A2; lia|].
    apply N.eqb_eq in H. lia. }
  clear H. repeat (apply orb_false_iff; split); try (apply N.eqb_neq; lia); apply andb_false_iff; rewrite !N.leb_gt; lia.
Qed.
Lemma digit_space c : digit c = true -> is_space c = false.
Proof.
  intros H. unfold digit in H. apply andb_true_iff in H. destruct H as [A1 A2]. apply N.leb_le in A1, A2. unfold is_space.
  repeat (apply orb_false_iff; split); try (apply N.eqb_neq; lia); apply andb_false_iff; rewrite !N.leb_gt; lia.
Qed.

Lemma tag_visible n a x : tag_name n -> visible_line (tag_src n a ++ x).
Proof. intros ((c & r & -> & Hc & _) & _). eexists c, _. split; [reflexivity|apply letter_space, Hc]. Qed.

Lemma name_last n : tag_name n -> exists r z, n = r ++ [z] /\ is_space z = false.
Proof.
  intros ((c & r & -> & Hc & Hr) & _). destruct (rev r) as [|z q] eqn:E.
  - apply (f_equal (@rev _)) in E. rewrite rev_involutive in E. subst r. exists [], c. split; [reflexivity|apply letter_space, Hc].
  - apply (f_equal (@rev _)) in E. rewrite rev_involutive in E. cbn [rev] in E. exists (c :: rev q), z. split; [rewrite E; reflexivity|].
    assert (I : In z r) by (rewrite E; apply in_or_app; right; left; reflexivity). specialize (Hr z I). apply orb_true_iff in Hr.
    destruct Hr as [Hr|Hr]; [apply letter_space, Hr|apply digit_space, Hr].
Qed.
Lemma tag_last n a : tag_name n -> exists r z, tag_src n a = r ++ [z] /\ is_space z = false.
Proof.
  intros Hn. unfold tag_src. destruct (rev a) as [|z q] eqn:E.
  - apply (f_equal (@rev _)) in E. rewrite rev_involutive in E. subst a. cbn [flat_map]. rewrite app_nil_r. apply name_last, Hn.
  - apply (f_equal (@rev _)) in E. rewrite rev_involutive in E. cbn [rev] in E. subst a. rewrite flat_map_app. cbn [flat_map]. rewrite app_nil_r. unfold attr_src at 2.
    exists (n ++ flat_map attr_src (rev q) ++ [SP] ++ fst z ++ u "=""" ++ double (snd z)), 34. split; [|reflexivity].
    change (u """") with [34]. rewrite <- !app_assoc. reflexivity.
Qed.
Lemma rstrip_tag n a : tag_name n -> rstrip (tag_src n a) = tag_src n a.
Proof. intros Hn. destruct (tag_last n a Hn) as (r & z & -> & Hz). apply rstrip_nonspace, Hz. Qed.

Lemma rstrip_leaf n a c : tag_name n ->
  rstrip (tag_src n a ++ match c with Some (k, x) => [SP] ++ text_src k x | None => [] end) = tag_src n a ++ leaf_flat c.
Proof.
  intros Hn. destruct c as [[k x]|]; cbn [leaf_flat]; [|rewrite app_nil_r; apply rstrip_tag, Hn].
  rewrite app_assoc. rewrite rstrip_app_nonblank.
  - rewrite rstrip_text, <- app_assoc. reflexivity.
  - intros K. destruct (text_visible k x) as (z & r & E & Hz). rewrite E in K. rewrite (K z (or_introl eq_refl)) in Hz. discriminate.
Qed.

Lemma mark_visible_line d l : visible_line l -> visible_line (mark_src d ++ l).
Proof.
  intros H. destruct d as [|j|j]; [exact H| |]; eexists _, _; (split; [reflexivity|reflexivity]).
Qed.
Lemma rstrip_mark d l : visible_line l -> rstrip (mark_src d ++ l) = mark_src d ++ rstrip l.
Proof. intros (c & r & -> & Hc). apply rstrip_app_nonblank. intros K. rewrite (K c (or_introl eq_refl)) in Hc. discriminate. Qed.
Lemma mark_no_NL d : ~ In NL (mark_src d).
Proof.
  destruct d as [|j|j]; [intros []| |]; intros H; unfold mark_src in H; apply in_app_or in H; (destruct H as [H|H]; [cbn in H; repeat (destruct H as [H|H]; [discriminate|]); exact H|]);
    apply repeat_spec in H; discriminate.
Qed.

(** *** The whole text *)

Section Known.
Variable known : str -> option bool.

Lemma syms_inds i w : syms y i (i ++ w) = inds w.
Proof. unfold syms. rewrite startswith_app, skipn_app, skipn_all, Nat.sub_diag. reflexivity. Qed.
Lemma syms_deds i e : syms y (i ++ e) i = deds e.
Proof.
  unfold syms, deds. destruct (startswith (i ++ e) i) eqn:E.
  - apply startswith_length in E as L. rewrite app_length in L. destruct e as [|c e]; [|cbn in L; lia]. rewrite app_nil_r, skipn_all. reflexivity.
  - rewrite skipn_app, skipn_all, Nat.sub_diag. reflexivity.
Qed.
Lemma deds_app a b : deds (a ++ b) = deds b ++ deds a.
Proof. unfold deds. rewrite rev_app_distr, map_app. reflexivity. Qed.

(** [o]: the text without the closing symbols, [e]: the indentation still open. *)
Definition opens (t : page) (o e : str) : Prop :=
  flat t = o ++ deds e /\ blankish e /\
  forall i cur rest, blankish i -> startswith cur i || startswith i cur = true ->
    (compat (i ++ e) rest -> compat cur (map (indent_line i) (src t) ++ rest)) /\
    ptext cur (map (indent_line i) (src t) ++ rest) = syms y cur i ++ o ++ ptext (i ++ e) rest.

Lemma map_blanks i m : map (indent_line i) (blanks m) = blanks m.
Proof. induction m as [|m IH]; [reflexivity|]. cbn [blanks repeat map indent_line]. fold (blanks m). rewrite IH. reflexivity. Qed.
Lemma indent_visible i l : visible_line l -> indent_line i l = i ++ l.
Proof. intros (c & r & -> & _). reflexivity. Qed.

Lemma opens_line t m l o : src t = blanks m ++ [l] -> visible_line l -> flat t = repeatc NL (S m) ++ o -> rstrip l = o -> opens t (flat t) [].
Proof.
  intros Es Hv Ef Hr. split; [unfold deds; cbn; rewrite app_nil_r; reflexivity|]. split; [intros c []|]. intros i cur rest Hi Hc.
  rewrite Es, map_app, map_blanks. cbn [map]. rewrite indent_visible by exact Hv. rewrite <- app_assoc. cbn [app]. rewrite app_nil_r.
  assert (El : leading (i ++ l) = i) by (apply leading_line; assumption). split.
  - intros K. apply compat_line; rewrite ?El; [apply blankb_line, Hv|exact Hc|exact K].
  - rewrite ptext_line by apply blankb_line, Hv. rewrite El, strip_line by assumption. rewrite Hr, Ef, <- app_assoc. reflexivity.
Qed.

Lemma indent_line_app i w l : indent_line i (indent_line w l) = indent_line (i ++ w) l.
Proof. destruct l as [|c l]; [reflexivity|]. cbn [indent_line]. destruct (w ++ c :: l) eqn:E; [destruct w; discriminate|]. cbn [indent_line]. rewrite <- E, app_assoc. reflexivity. Qed.

Lemma compat_down i e : startswith (i ++ e) i || startswith i (i ++ e) = true.
Proof. rewrite startswith_app. apply orb_true_r. Qed.

Lemma opens_all ts : Forall (fun t => exists o e, opens t o e) ts -> ts <> [] -> exists o e,
  flat_map flat ts = o ++ deds e /\ blankish e /\
  forall i cur rest, blankish i -> startswith cur i || startswith i cur = true ->
    (compat (i ++ e) rest -> compat cur (map (indent_line i) (flat_map src ts) ++ rest)) /\
    ptext cur (map (indent_line i) (flat_map src ts) ++ rest) = syms y cur i ++ o ++ ptext (i ++ e) rest.
Proof.
  intros H. induction H as [|t ts (o & e & Ef & He & H) Ht IH]; intros N; [congruence|].
  destruct ts as [|t' ts].
  - exists o, e. cbn [flat_map]. rewrite !app_nil_r. split; [exact Ef|]. split; [exact He|exact H].
  - destruct IH as (o' & e' & Ef' & He' & H'); [discriminate|]. exists (o ++ deds e ++ o'), e'.
    remember (t' :: ts) as ts' eqn:E. cbn [flat_map]. split; [rewrite Ef, Ef', <- !app_assoc; reflexivity|]. split; [exact He'|].
    intros i cur rest Hi Hc. rewrite map_app, <- app_assoc. destruct (H i cur (map (indent_line i) (flat_map src ts') ++ rest) Hi Hc) as [C P].
    destruct (H' i (i ++ e) rest Hi (compat_down i e)) as [C' P']. split; [intros K; apply C, C', K|].
    rewrite P, P', syms_deds. rewrite <- !app_assoc. reflexivity.
Qed.

Lemma flat_opens t : wf known t -> exists o e, opens t o e.
Proof.
  induction t as [m d k x|m x|m d n a c|m d n a w kids IH] using page_ind'; intros Hw; inversion Hw; subst.
  - eexists _, _. eapply opens_line; [reflexivity|apply mark_visible_line, text_visible|reflexivity|]. rewrite rstrip_mark by apply text_visible. rewrite rstrip_text. reflexivity.
  - eexists _, _. eapply opens_line; [reflexivity| |reflexivity|].
    + eexists 45, _. split; reflexivity.
    + apply rstrip_visible; [eexists 45, _; split; reflexivity|]. intros z [<-|[<-|[]]]; reflexivity.
  - eexists _, _. eapply opens_line; [reflexivity|apply mark_visible_line, tag_visible; assumption|reflexivity|]. rewrite rstrip_mark by (apply tag_visible; assumption). rewrite rstrip_leaf by assumption. reflexivity.
  - destruct (opens_all kids) as (o & e & Ef & He & H); [|assumption|].
    { rewrite Forall_forall in *. intros t I. apply IH; [exact I|]. match goal with K : forall x, In x kids -> wf known x |- _ => apply K, I end. }
    exists (repeatc NL (S m) ++ mark_src d ++ tag_src n a ++ inds w ++ o), (w ++ e). split; [|split].
    + cbn [flat]. rewrite Ef, deds_app, <- !app_assoc. reflexivity.
    + intros z I. apply in_app_or in I. destruct I; auto.
    + intros i cur rest Hi Hc. cbn [src]. rewrite map_app, map_blanks. cbn [map]. rewrite map_map.
      rewrite (map_ext _ _ (indent_line_app i w)). rewrite <- app_assoc. cbn [app].
      assert (Hv0 : visible_line (tag_src n a)) by (rewrite <- (app_nil_r (tag_src n a)); apply tag_visible; assumption).
      pose proof (mark_visible_line d _ Hv0) as Hv.
      rewrite indent_visible by exact Hv. assert (El : leading (i ++ mark_src d ++ tag_src n a) = i) by (apply leading_line; assumption).
      assert (Hiw : blankish (i ++ w)) by (intros z I; apply in_app_or in I; destruct I; auto).
      destruct (H (i ++ w) i rest Hiw) as [C P]; [rewrite startswith_app; reflexivity|]. rewrite <- !app_assoc in C, P. split.
      * intros K. apply compat_line; rewrite ?El; [apply blankb_line, Hv|exact Hc|]. apply C, K.
      * rewrite ptext_line by apply blankb_line, Hv. rewrite El, strip_line by assumption. rewrite P, syms_inds, rstrip_mark by exact Hv0. rewrite rstrip_tag by assumption.
        rewrite <- !app_assoc. reflexivity.
Qed.

Lemma src_no_NL t : wf known t -> forall l, In l (src t) -> ~ In NL l.
Proof.
  assert (Hd : forall x, ~ In NL x -> ~ In NL (double x)).
  { intros x Hx I. unfold double in I. apply in_flat_map in I. destruct I as (c & Ic & I). apply Hx. destruct (special c); [destruct I as [<-|[<-|[]]]|destruct I as [<-|[]]]; exact Ic. }
  assert (Hb : forall m l, In l (blanks m) -> ~ In NL l) by (intros m l I; apply repeat_spec in I; subst; intros []).
  assert (Ht : forall k x, ~ In NL x -> ~ In NL (text_src k x)).
  { intros k x Hx I. unfold text_src in I. apply in_app_or in I. destruct I as [I|I]; [destruct k; destruct I as [I|[]]; discriminate|]. destruct k; [exact (Hd x Hx I)|exact (Hd x Hx I)|exact (Hx I)]. }
  assert (Hl : forall c, letter c = true -> c <> NL) by (intros c H ->; discriminate).
  assert (Hg : forall n a, tag_name n -> attrs_ok a -> ~ In NL (tag_src n a)).
  { intros n a ((c & r & -> & Hc & Hr) & _) [_ Ha] I. unfold tag_src in I. apply in_app_or in I. destruct I as [[->|I]|I].
    - discriminate Hc.
    - specialize (Hr _ I). discriminate Hr.
    - apply in_flat_map in I. destruct I as (z & Iz & I). rewrite Forall_forall in Ha. destruct (Ha z Iz) as [(d & q & E & Hd1 & Hq) Hv]. unfold attr_src in I.
      apply in_app_or in I. destruct I as [[I|[]]|I]; [discriminate|]. apply in_app_or in I. destruct I as [I|I].
      + rewrite E in I. destruct I as [->|I]; [discriminate|]. specialize (Hq _ I). discriminate.
      + apply in_app_or in I. destruct I as [[I|[I|[]]]|I]; try discriminate. apply in_app_or in I. destruct I as [I|[I|[]]]; [|discriminate].
        revert I. apply Hd. intros K. destruct (Hv _ K) as [K1 _]. congruence. }
  pose proof mark_no_NL as Hm.
  induction t as [m d k x|m x|m d n a c|m d n a w kids IH] using page_ind'; intros Hw l Hin; inversion Hw; subst; cbn [src] in Hin; apply in_app_or in Hin;
    (destruct Hin as [Hin|Hin]; [exact (Hb _ _ Hin)|]); destruct Hin as [<-|Hin].
  - intros I. apply in_app_or in I. destruct I as [I|I]; [exact (Hm d I)|revert I; apply Ht; assumption].
  - destruct Hin.
  - intros I. apply in_app_or in I. destruct I as [[I|[I|[]]]|I]; try discriminate. contradiction.
  - destruct Hin.
  - intros I. apply in_app_or in I. destruct I as [I|I]; [exact (Hm d I)|]. apply in_app_or in I. destruct I as [I|I]; [revert I; apply Hg; assumption|]. destruct c as [[k x]|]; [|destruct I].
    destruct I as [I|I]; [discriminate|]. revert I. apply Ht. match goal with K : forall _ _, _ -> _ /\ _ |- _ => apply (K k x eq_refl) end.
  - destruct Hin.
  - intros I. apply in_app_or in I. destruct I as [I|I]; [exact (Hm d I)|revert I; apply Hg; assumption].
  - apply in_map_iff in Hin. destruct Hin as (z & <- & Iz). apply in_flat_map in Iz. destruct Iz as (t & It & Iz).
    rewrite Forall_forall in IH. assert (Nz : ~ In NL z) by (refine (IH t It _ z Iz); match goal with K : Forall _ kids |- _ => rewrite Forall_forall in K; apply K, It end).
    destruct z as [|d0 z]; [exact (fun I => I)|]. cbn [indent_line]. intros I. apply in_app_or in I. destruct I as [I|I]; [|contradiction].
    match goal with K : forall _, In _ w -> _ |- _ => destruct (K _ I); discriminate end.
Qed.

Lemma preprocess_script doc k : doc <> [] -> Forall (wf known) doc ->
  preprocess y (script doc k) = Ok (flat_map flat doc ++ repeatc NL k).
Proof.
  intros Hd Hw. destruct (opens_all doc) as (o & e & Ef & He & H); [|exact Hd|].
  { rewrite Forall_forall in *. intros t I. apply flat_opens, Hw, I. }
  destruct (H [] [] (blanks k)) as [C P]; [intros c []|reflexivity|].
  assert (M : map (indent_line []) (flat_map src doc) = flat_map src doc).
  { rewrite <- (map_id (flat_map src doc)) at 2. apply map_ext. intros [|c l]; reflexivity. }
  rewrite M in C, P. rewrite preprocess_cases. unfold script, lines.
  assert (El : split NL (join [NL] (flat_map src doc ++ blanks k)) = flat_map src doc ++ blanks k).
  { apply split_join.
    - destruct doc as [|t doc]; [congruence|]. cbn [flat_map]. intros E. apply app_eq_nil in E. destruct E as [E _]. apply app_eq_nil in E. destruct E as [E _].
      destruct t; cbn [src] in E; apply app_eq_nil in E; destruct E; discriminate.
    - intros l I. apply in_app_or in I. destruct I as [I|I].
      + apply in_flat_map in I. destruct I as (t & It & I). rewrite Forall_forall in Hw. exact (src_no_NL t (Hw t It) l I).
      + apply repeat_spec in I. subst. intros []. }
  rewrite El. rewrite (proj2 (first_bad_none _ _) (C (compat_blanks _ _))).
  change (plan_text y (flat_map src doc ++ blanks k)) with (ptext [] (flat_map src doc ++ blanks k)). rewrite P. cbn [app].
  rewrite ptext_blanks, Ef, <- app_assoc. reflexivity.
Qed.
End Known.
End Flat.
