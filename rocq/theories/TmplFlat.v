(** Proofs about templates: the preprocessed text of a script given by its lines and blocks. *)
From Coq Require Import List NArith Bool Arith Lia String.
From Verif Require Import PyStr PyStrFacts Value Ast IndentSpec Indent IndentFacts Preprocess PreprocessSpec PreprocessFacts PageSpec PageFlat OperSpec TmplSpec.
Import ListNotations.
Local Open Scope list_scope.
Local Open Scope N_scope.

Section Ind.
  Variable P : ol -> Prop.
  Hypothesis HO : forall m l w kids, Forall P kids -> P (OL m l w kids).
  Hypothesis HP : forall m l tl, P (OP m l tl).
  Fixpoint ol_ind' (t : ol) : P t :=
    match t with
    | OL m l w kids => HO m l w kids
        ((fix go (l : list ol) : Forall P l :=
            match l with [] => Forall_nil P | x :: r => Forall_cons x (ol_ind' x) (go r) end) kids)
    | OP m l tl => HP m l tl
    end.
End Ind.

Definition tail_ok (a : nat * nat * str) : Prop := visible_line (snd a) /\ ~ In NL (snd a).
Inductive ol_ok : ol -> Prop :=
| ol_para m l tl : visible_line l -> ~ In NL l -> Forall tail_ok tl -> ol_ok (OP m l tl)
| ol_line m l w : visible_line l -> ~ In NL l -> ol_ok (OL m l w [])
| ol_node m l w kids : visible_line l -> ~ In NL l -> indent_ok w -> Forall ol_ok kids -> ol_ok (OL m l w kids).

Section Flat.
Variable y : symbols.

Fixpoint tail_flat (cur : nat) (tl : list (nat * nat * str)) : str :=
  match tl with
  | [] => deds y (repeatc SP cur)
  | (m, n, x) :: tl => syms y (repeatc SP cur) (repeatc SP n) ++ repeatc NL (S m) ++ rstrip x ++ tail_flat n tl
  end.
Fixpoint oflat (t : ol) : str :=
  match t with
  | OL m l w kids =>
      repeatc NL (S m) ++ rstrip l ++ match kids with [] => [] | _ => inds y w ++ flat_map oflat kids ++ deds y w end
  | OP m l tl => repeatc NL (S m) ++ rstrip l ++ tail_flat 0 tl
  end.

Definition oopens (t : ol) (o e : str) : Prop :=
  oflat t = o ++ deds y e /\ blankish e /\
  forall i cur rest, blankish i -> startswith cur i || startswith i cur = true ->
    (compat (i ++ e) rest -> compat cur (map (indent_line i) (ol_src t) ++ rest)) /\
    ptext y cur (map (indent_line i) (ol_src t) ++ rest) = syms y cur i ++ o ++ ptext y (i ++ e) rest.

Lemma oopens_all ts : Forall (fun t => exists o e, oopens t o e) ts -> ts <> [] -> exists o e,
  flat_map oflat ts = o ++ deds y e /\ blankish e /\
  forall i cur rest, blankish i -> startswith cur i || startswith i cur = true ->
    (compat (i ++ e) rest -> compat cur (map (indent_line i) (flat_map ol_src ts) ++ rest)) /\
    ptext y cur (map (indent_line i) (flat_map ol_src ts) ++ rest) = syms y cur i ++ o ++ ptext y (i ++ e) rest.
Proof.
  intros H. induction H as [|t ts (o & e & Ef & He & H) Ht IH]; intros N; [congruence|].
  destruct ts as [|t' ts].
  - exists o, e. cbn [flat_map]. rewrite !app_nil_r. split; [exact Ef|]. split; [exact He|exact H].
  - destruct IH as (o' & e' & Ef' & He' & H'); [discriminate|]. exists (o ++ deds y e ++ o'), e'.
    remember (t' :: ts) as ts' eqn:E. cbn [flat_map]. split; [rewrite Ef, Ef', <- !app_assoc; reflexivity|]. split; [exact He'|].
    intros i cur rest Hi Hc. rewrite map_app, <- app_assoc. destruct (H i cur (map (indent_line i) (flat_map ol_src ts') ++ rest) Hi Hc) as [C P].
    destruct (H' i (i ++ e) rest Hi (compat_down i e)) as [C' P']. split; [intros K; apply C, C', K|].
    rewrite P, P', syms_deds. rewrite <- !app_assoc. reflexivity.
Qed.

Lemma oopens_line m l w : visible_line l -> oopens (OL m l w []) (oflat (OL m l w [])) [].
Proof.
  intros Hv. split; [unfold deds; cbn [rev map]; rewrite app_nil_r; reflexivity|]. split; [intros c []|]. intros i cur rest Hi Hc.
  cbn [ol_src flat_map map oflat]. rewrite map_app, map_blanks. cbn [map]. rewrite indent_visible by exact Hv. rewrite <- app_assoc. cbn [app]. rewrite !app_nil_r.
  assert (El : leading (i ++ l) = i) by (apply leading_line; assumption). split.
  - intros K. apply compat_line; rewrite ?El; [apply blankb_line, Hv|exact Hc|exact K].
  - rewrite ptext_line by apply blankb_line, Hv. rewrite El, strip_line by assumption. rewrite <- !app_assoc. reflexivity.
Qed.

Lemma sp_app a b : repeatc SP (a + b) = repeatc SP a ++ repeatc SP b.
Proof. unfold repeatc. apply repeat_app. Qed.
Lemma sp_blankish n : blankish (repeatc SP n).
Proof. intros c I. apply repeat_spec in I. left. exact I. Qed.
Lemma blankish_app i j : blankish i -> blankish j -> blankish (i ++ j).
Proof. intros H1 H2 z I. apply in_app_or in I. destruct I; auto. Qed.
Lemma syms_sp i cur n : syms y (i ++ repeatc SP cur) (i ++ repeatc SP n) = syms y (repeatc SP cur) (repeatc SP n) /\
  startswith (i ++ repeatc SP cur) (i ++ repeatc SP n) || startswith (i ++ repeatc SP n) (i ++ repeatc SP cur) = true.
Proof.
  destruct (Nat.le_gt_cases cur n) as [H|H].
  - replace n with (cur + (n - cur))%nat by lia. rewrite sp_app, app_assoc, !syms_inds, startswith_app. split; reflexivity.
  - replace cur with (n + (cur - n))%nat by lia. rewrite sp_app, app_assoc, !syms_deds, startswith_app. split; [reflexivity|apply orb_true_r].
Qed.
Lemma tail_opens tl : Forall tail_ok tl -> forall cur, exists o e, tail_flat cur tl = o ++ deds y (repeatc SP e) /\
  forall i rest, blankish i ->
    (compat (i ++ repeatc SP e) rest -> compat (i ++ repeatc SP cur) (map (indent_line i) (flat_map tail_src tl) ++ rest)) /\
    ptext y (i ++ repeatc SP cur) (map (indent_line i) (flat_map tail_src tl) ++ rest) = o ++ ptext y (i ++ repeatc SP e) rest.
Proof.
  intros H. induction H as [|[[m n] x] tl [Hv Hn] Ht IH]; intros cur.
  - exists [], cur. split; [reflexivity|]. intros i rest Hi. split; [exact (fun K => K)|reflexivity].
  - cbn [snd] in Hv, Hn. destruct (IH n) as (o & e & Ef & H). exists (syms y (repeatc SP cur) (repeatc SP n) ++ repeatc NL (S m) ++ rstrip x ++ o), e.
    split; [cbn [tail_flat]; rewrite Ef, <- !app_assoc; reflexivity|]. intros i rest Hi. destruct (H i rest Hi) as [C P].
    assert (Hin : blankish (i ++ repeatc SP n)) by (apply blankish_app; [exact Hi|apply sp_blankish]).
    assert (El : leading ((i ++ repeatc SP n) ++ x) = i ++ repeatc SP n) by (apply leading_line; assumption).
    assert (Hl : indent_line i (repeatc SP n ++ x) = (i ++ repeatc SP n) ++ x).
    { rewrite <- app_assoc. destruct (repeatc SP n ++ x) as [|c r] eqn:E; [|reflexivity]. apply app_eq_nil in E. destruct E as [_ E]. destruct Hv as (c & r & Ev & _). congruence. }
    destruct (syms_sp i cur n) as [Es Ec].
    cbn [flat_map tail_src]. rewrite !map_app, map_blanks. cbn [map]. rewrite Hl. rewrite <- !app_assoc. cbn [app]. rewrite (app_assoc i (repeatc SP n) x). split.
    + intros K. apply compat_line; rewrite ?El; [apply blankb_line, Hv|exact Ec|apply C, K].
    + rewrite ptext_line by apply blankb_line, Hv. rewrite El, Es, strip_line by assumption. rewrite P. reflexivity.
Qed.
Lemma oopens_para m l tl : visible_line l -> Forall tail_ok tl -> exists o e, oopens (OP m l tl) o e.
Proof.
  intros Hv Ht. destruct (tail_opens tl Ht 0) as (o & e & Ef & H). exists (repeatc NL (S m) ++ rstrip l ++ o), (repeatc SP e).
  split; [cbn [oflat]; rewrite Ef, <- !app_assoc; reflexivity|]. split; [apply sp_blankish|]. intros i cur rest Hi Hc.
  assert (El : leading (i ++ l) = i) by (apply leading_line; assumption). destruct (H i rest Hi) as [C P]. cbn [repeatc repeat] in C, P. rewrite app_nil_r in C, P.
  cbn [ol_src]. rewrite map_app, map_blanks. cbn [map]. rewrite indent_visible by exact Hv. rewrite <- app_assoc. cbn [app]. split.
  - intros K. apply compat_line; rewrite ?El; [apply blankb_line, Hv|exact Hc|apply C, K].
  - rewrite ptext_line by apply blankb_line, Hv. rewrite El, strip_line by assumption. rewrite P, <- !app_assoc. reflexivity.
Qed.

Lemma oflat_opens t : ol_ok t -> exists o e, oopens t o e.
Proof.
  induction t as [m l w kids IH|m l tl] using ol_ind'; intros Hw; [|inversion Hw; subst; apply oopens_para; assumption].
  destruct kids as [|t0 kids0]; [eexists _, _; apply oopens_line; inversion Hw; subst; assumption|].
  inversion Hw as [| |m' l' w' kids' Hv Hn [Hw1 Hw2] Hk]; subst. remember (t0 :: kids0) as kids eqn:Ek.
  destruct (oopens_all kids) as (o & e & Ef & He & H); [|subst; discriminate|].
  { rewrite Forall_forall in *. intros t I. apply IH; [exact I|apply Hk, I]. }
  exists (repeatc NL (S m) ++ rstrip l ++ inds y w ++ o), (w ++ e). split; [|split].
  - cbn [oflat]. rewrite Ek. rewrite <- Ek. rewrite Ef, deds_app, <- !app_assoc. reflexivity.
  - intros z I. apply in_app_or in I. destruct I; auto.
  - intros i cur rest Hi Hc. cbn [ol_src]. rewrite map_app, map_blanks. cbn [map]. rewrite map_map.
    rewrite (map_ext _ _ (indent_line_app i w)). rewrite <- app_assoc. cbn [app].
    rewrite indent_visible by exact Hv. assert (El : leading (i ++ l) = i) by (apply leading_line; assumption).
    assert (Hiw : blankish (i ++ w)) by (intros z I; apply in_app_or in I; destruct I; auto).
    destruct (H (i ++ w) i rest Hiw) as [C P]; [rewrite startswith_app; reflexivity|]. rewrite <- !app_assoc in C, P. split.
    + intros K. apply compat_line; rewrite ?El; [apply blankb_line, Hv|exact Hc|]. apply C, K.
    + rewrite ptext_line by apply blankb_line, Hv. rewrite El, strip_line by assumption. rewrite P, syms_inds.
      rewrite <- !app_assoc. reflexivity.
Qed.

Lemma ol_src_no_NL t : ol_ok t -> forall l, In l (ol_src t) -> ~ In NL l.
Proof.
  induction t as [m l w kids IH|m l tl] using ol_ind'; intros Hw z Hin; cbn [ol_src] in Hin.
  2: { inversion Hw as [? ? ? Hv Hn Ht| |]; subst. apply in_app_or in Hin. destruct Hin as [Hin|[<-|Hin]]; [apply repeat_spec in Hin; subst; intros []|exact Hn|].
       apply in_flat_map in Hin. destruct Hin as ([[m' n'] x] & Ia & Hin). rewrite Forall_forall in Ht. destruct (Ht _ Ia) as [_ Hx]. cbn [snd tail_src] in *.
       apply in_app_or in Hin. destruct Hin as [Hin|[<-|[]]]; [apply repeat_spec in Hin; subst; intros []|].
       intros J. apply in_app_or in J. destruct J as [J|J]; [apply repeat_spec in J; discriminate|contradiction]. }
  apply in_app_or in Hin.
  destruct Hin as [Hin|Hin]; [apply repeat_spec in Hin; subst; intros []|]. destruct Hin as [<-|Hin]; [inversion Hw; assumption|].
  apply in_map_iff in Hin. destruct Hin as (q & <- & Iq). apply in_flat_map in Iq. destruct Iq as (t & It & Iq).
  rewrite Forall_forall in IH.
  inversion Hw as [| |m' l' w' kids' Hv Hn [Hw1 Hw2] Hk]; subst; [destruct It|]. rewrite Forall_forall in Hk.
  specialize (IH t It (Hk t It) q Iq). destruct q as [|d q]; [exact (fun I => I)|]. cbn [indent_line]. intros I. apply in_app_or in I. destruct I as [I|I]; [|contradiction].
  destruct (Hw2 _ I); discriminate.
Qed.

Lemma preprocess_lines os k : os <> [] -> Forall ol_ok os ->
  preprocess y (join [NL] (flat_map ol_src os ++ blanks k)) = Ok (flat_map oflat os ++ repeatc NL k).
Proof.
  intros Hd Hw. destruct (oopens_all os) as (o & e & Ef & He & H); [|exact Hd|].
  { rewrite Forall_forall in *. intros t I. apply oflat_opens, Hw, I. }
  destruct (H [] [] (blanks k)) as [C P]; [intros c []|reflexivity|].
  assert (M : map (indent_line []) (flat_map ol_src os) = flat_map ol_src os).
  { rewrite <- (map_id (flat_map ol_src os)) at 2. apply map_ext. intros [|c l]; reflexivity. }
  rewrite M in C, P. rewrite preprocess_cases. unfold lines.
  assert (El : split NL (join [NL] (flat_map ol_src os ++ blanks k)) = flat_map ol_src os ++ blanks k).
  { apply split_join.
    - destruct os as [|[m l w kids|m l tl] os]; [congruence| |]; cbn [flat_map ol_src]; intros E; apply app_eq_nil in E; destruct E as [E _]; apply app_eq_nil in E; destruct E as [E _];
      apply app_eq_nil in E; destruct E; discriminate.
    - intros l I. apply in_app_or in I. destruct I as [I|I].
      + apply in_flat_map in I. destruct I as (t & It & I). rewrite Forall_forall in Hw. exact (ol_src_no_NL t (Hw t It) l I).
      + apply repeat_spec in I. subst. intros []. }
  rewrite El. rewrite (proj2 (first_bad_none _ _) (C (compat_blanks _ _))).
  change (plan_text y (flat_map ol_src os ++ blanks k)) with (ptext y [] (flat_map ol_src os ++ blanks k)). rewrite P. cbn [app].
  rewrite ptext_blanks, Ef, <- app_assoc. reflexivity.
Qed.
End Flat.
