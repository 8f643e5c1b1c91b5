(** Contents of a hypertag in place of its use. *)
From Coq Require Import List NArith ZArith Bool Arith Lia String.
From Verif Require Import PyStr PyStrFacts IndentSpec Value PageSpec OperSpec OperParse TmplSpec TmplExpr TmplLines TmplScope TmplDoc TmplReadSpec BookSpec MoreSpec MoreFacts OrderFacts MoveSpec MoveFacts InlineSpec.
Import ListNotations.
Local Open Scope list_scope.

Section Inline.
Variables (Q : py) (b : str) (lim : nat).

Lemma insts_app I1 l l' r : insts I1 (l ++ l') r = (p <: insts I1 l r ;; q <: insts I1 l' (snd p) ;; Is (fst p ++ fst q, snd q)).
Proof.
  revert r. induction l as [|t l IH]; intros r.
  - cbn [app insts oseq snd fst]. destruct (insts I1 l' r) as [[es s]| |]; reflexivity.
  - cbn [app insts]. destruct (I1 r t) as [[es s]| |]; [|reflexivity|reflexivity]. cbn [oseq snd fst]. rewrite IH. destruct (insts I1 l s) as [[es1 s1]| |]; [|reflexivity|reflexivity].
    cbn [oseq snd fst]. destruct (insts I1 l' s1) as [[es2 s2]| |]; [|reflexivity|reflexivity]. cbn [oseq snd fst]. rewrite app_assoc. reflexivity.
Qed.

Lemma sub_nil (r : store) : sub [] r. Proof. intros x v K. discriminate K. Qed.

(** ** Lines *)
Lemma lines_some x : lines x <> [].
Proof. apply split_not_nil. Qed.
Lemma app_some {A} (l l' : list A) : l' <> [] -> l ++ l' <> [].
Proof. intros H K. apply app_eq_nil in K. exact (H (proj2 K)). Qed.
Lemma bears_lines void D bd r t es r' : contents t = true -> inst Q b lim D bd r t = Is (es, r') -> flat_map (ehtml void) es <> [].
Proof.
  destruct t as [m k x|m h x tl|m g c|m g w kids|m cs els|m xs e w kids|m e w kids els|m alts|m xs e|m x o e|m h c|m h w kids|m n]; try discriminate; intros _; cbn [inst].
  - destruct (inst_text Q r k 1 x); try discriminate. intros [= <- _]. cbn [flat_map ehtml]. rewrite app_nil_r. apply app_some, lines_some.
  - destruct (match c with Some (k, x) => _ | None => _ end) as [x| |]; try discriminate. cbn [oseq]. destruct (omap_back (inst_tag Q r) g); try discriminate. intros [= <- _]. cbn [flat_map ehtml]. rewrite app_nil_r. apply app_some, lines_some.
  - destruct (insts (inst Q b lim D bd) kids r) as [p| |]; try discriminate. cbn [oseq]. destruct (omap_back (inst_tag Q r) g); try discriminate. intros [= <- _]. cbn [flat_map ehtml]. rewrite app_nil_r. apply app_some.
    destruct (flat_map (ehtml void) (fst p)); discriminate.
  - destruct (match c with Some (k, x) => _ | None => _ end) as [x| |]; try discriminate. cbn [oseq]. destruct (inst_use Q r h) as [a| |]; try discriminate. cbn [oseq]. destruct (find_meaning _ D) as [f|]; try discriminate. cbn [given_by oseq].
    destruct (f r (fst a) (snd a) x) as [es1| |]; try discriminate. intros [= <- _]. cbn [flat_map ehtml]. rewrite app_nil_r. apply app_some. destruct (flat_map (ehtml void) es1); discriminate.
  - destruct (insts (inst Q b lim D bd) kids r) as [p| |]; try discriminate. cbn [oseq]. destruct (inst_use Q r h) as [a| |]; try discriminate. cbn [oseq]. destruct (find_meaning _ D) as [f|]; try discriminate. cbn [given_by oseq].
    destruct (f r (fst a) (snd a) (Some (fst p))) as [es1| |]; try discriminate. intros [= <- _]. cbn [flat_map ehtml]. rewrite app_nil_r. apply app_some. destruct (flat_map (ehtml void) es1); discriminate.
Qed.
Lemma bears_some void D bd l : existsb contents l = true -> forall r es r', insts (inst Q b lim D bd) l r = Is (es, r') -> flat_map (ehtml void) es <> [].
Proof.
  induction l as [|t l IH]; [discriminate|]. cbn [existsb insts]. intros H r es r'. destruct (inst Q b lim D bd r t) as [[es1 r1]| |] eqn:E1; try discriminate. cbn [oseq fst snd].
  destruct (insts (inst Q b lim D bd) l r1) as [[es2 r2]| |] eqn:E2; try discriminate. intros [= <- _]. rewrite flat_map_app. apply orb_true_iff in H. destruct H as [H|H].
  - intros K. apply app_eq_nil in K. exact (bears_lines void _ _ _ _ _ _ H E1 (proj1 K)).
  - apply app_some, (IH H _ _ _ E2).
Qed.

(** ** Definitions *)
Lemma le_after {A} (x y z : ans A) : le x y -> le y z -> le x z.
Proof. intros [->| ->] H; [left; reflexivity|exact H]. Qed.
Lemma le_means_after D D1 D2 : le_means D D1 -> le_means D1 D2 -> le_means D D2.
Proof.
  intros H K n f E. destruct (H _ _ E) as (g & Eg & L). destruct (K _ _ Eg) as (h & Eh & L'). exists h. split; [exact Eh|]. intros r pos kw bd. exact (le_after _ _ _ (L r pos kw bd) (L' r pos kw bd)).
Qed.
Variable known : str -> option bool.
Variable vis : list str.
Notation learned := (fold_left (learn Q b lim vis)).
Lemma le_learned ds : forall D, wfd b known vis (map fst D) ds -> le_means D (learned ds D).
Proof.
  induction ds as [|d ds IH]; intros D H; [apply le_means_refl|]. cbn [fold_left]. inversion H; subst; cbn [learn]; [apply IH; assumption|].
  eapply le_means_after; [|apply IH; cbn [map fst]; assumption]. apply le_new; [apply le_means_refl|assumption].
Qed.
Lemma wfd_from p : forall D s, wfd b known vis (map fst D) (p ++ s) -> wfd b known vis (map fst (learned p D)) s.
Proof.
  induction p as [|d p IH]; intros D s H; [exact H|]. cbn [app] in H. cbn [fold_left]. inversion H; subst; cbn [learn]; apply IH; cbn [map fst]; assumption.
Qed.

(** ** Arguments *)
Definition evals (r : store) (l : list (str * given)) : ans store := omap (fun a => v <: inst_given Q r (snd a) ;; Is (fst a, v)) l.
Lemma evals_names r l : forall a, evals r l = Is a -> map fst a = map fst l.
Proof.
  unfold evals. induction l as [|[p g] l IH]; intros a; cbn [omap]; [intros [= <-]; reflexivity|]. cbn [fst snd]. destruct (inst_given Q r g) as [v| |]; try discriminate. cbn [oseq].
  destruct (omap _ l) as [a1| |]; try discriminate. intros [= <-]. cbn [map fst]. rewrite (IH _ eq_refl). reflexivity.
Qed.
Lemma order_vals r ps : forall pos l rest, in_order ps pos = Some (l, rest) -> omap (inst_given Q r) pos = (a <: evals r l ;; Is (map snd a)).
Proof.
  unfold evals. induction ps as [|[p d] ps IH]; intros pos l rest; destruct pos as [|g pos]; cbn [in_order]; try discriminate; try (intros [= <- _]; reflexivity).
  destruct (in_order ps pos) as [[l1 rest1]|] eqn:E; [|discriminate]. intros [= <- <-]. cbn [omap fst snd]. destruct (inst_given Q r g) as [v| |]; [|reflexivity|reflexivity]. cbn [oseq].
  rewrite (IH _ _ _ E). destruct (omap _ l1) as [a1| |]; reflexivity.
Qed.
Lemma order_names ps : forall pos l rest, in_order ps pos = Some (l, rest) -> map fst ps = map fst l ++ map fst rest.
Proof.
  induction ps as [|[p d] ps IH]; intros pos l rest; destruct pos as [|g pos]; cbn [in_order]; try discriminate; try (intros [= <- <-]; reflexivity).
  destruct (in_order ps pos) as [[l1 rest1]|] eqn:E; [|discriminate]. intros [= <- <-]. cbn [map fst app]. rewrite (IH _ _ _ E). reflexivity.
Qed.
Lemma set_end x v (d : store) : get x d = None -> set x v d = d ++ [(x, v)].
Proof. induction d as [|[y w] d IH]; [reflexivity|]. cbn [get set]. destruct (str_eqb x y); [discriminate|]. intros H. rewrite (IH H). reflexivity. Qed.
Lemma named_vals r a : forall kw d, named a = Some kw -> distinct (map fst kw) = true -> (forall x, In x (map fst kw) -> get x d = None) ->
  ofold (put_attr Q r) a d = (x <: evals r kw ;; Is (d ++ x)).
Proof.
  unfold evals. induction a as [|[x g|l] a IH]; intros kw d; cbn [named]; try discriminate; [intros [= <-] _ _; cbn; rewrite app_nil_r; reflexivity|].
  destruct (named a) as [kw1|]; [|discriminate]. intros [= <-]. cbn [map fst distinct]. intros H K. apply andb_true_iff in H. destruct H as [H1 H2]. cbn [ofold put_attr omap fst snd]. unfold inst_given at 1.
  destruct (den Q r (given_expr g)) as [v| |]; [|reflexivity|reflexivity]. cbn [oseq]. unfold add_attr at 1. cbn [fst snd]. rewrite (K x (or_introl eq_refl)). cbn [oseq].
  rewrite (IH kw1 _ eq_refl H2).
  - rewrite (set_end _ _ _ (K x (or_introl eq_refl))). destruct (omap _ kw1) as [a1| |]; [|reflexivity|reflexivity]. cbn [oseq]. rewrite <- app_assoc. reflexivity.
  - intros y Hy. rewrite get_put. destruct (str_eqb y x) eqn:E; [|apply K; right; exact Hy]. apply str_eqb_eq in E. subst y. exfalso. apply negb_true_iff in H1.
    assert (J : existsb (str_eqb x) (map fst kw1) = true) by (apply existsb_exists; exists x; split; [exact Hy|apply str_eqb_refl]). rewrite H1 in J. discriminate J.
Qed.
Lemma order_bound r0 r K ps : forall pos l rest a, in_order ps pos = Some (l, rest) -> evals r l = Is a -> (forall x, In x (map fst l) -> get x K = None) ->
  bind_params Q r0 ps (map snd a) K = (x <: bind_params Q r0 rest [] K ;; Is (a ++ x)).
Proof.
  unfold evals. induction ps as [|[p d] ps IH]; intros pos l rest a; destruct pos as [|g pos]; cbn [in_order]; try discriminate.
  - intros [= <- <-] [= <-] _. reflexivity.
  - intros [= <- <-] [= <-] _. cbn [map]. destruct (bind_params Q r0 ((p, d) :: ps) [] K); reflexivity.
  - destruct (in_order ps pos) as [[l1 rest1]|] eqn:E; [|discriminate]. intros [= <- <-]. cbn [omap fst snd]. destruct (inst_given Q r g) as [v| |]; try discriminate. cbn [oseq].
    destruct (omap _ l1) as [a1| |] eqn:Ea; try discriminate. intros [= <-] H. cbn [map snd bind_params fst]. rewrite (H p (or_introl eq_refl)). rewrite (IH _ _ _ _ E Ea ltac:(intros x Hx; apply H; right; exact Hx)).
    destruct (bind_params Q r0 rest1 [] K); reflexivity.
Qed.
Lemma default_bound r0 K rest : forall df, defaults (map fst K) rest = Some df -> ler (fun x a => sub x (K ++ a)) (bind_params Q r0 rest [] K) (evals r0 df).
Proof.
  unfold evals. induction rest as [|[p d] rest IH]; intros df; cbn [defaults bind_params]; [intros [= <-]; eexists; split; [reflexivity|apply sub_nil]|]. rewrite get_dom. destruct (get p K) as [v|] eqn:Ep; cbn [oseq].
  - intros F. specialize (IH _ F). destruct (bind_params Q r0 rest [] K) as [x| |]; cbn [oseq ler] in *; [|exact IH|exact Logic.I]. destruct IH as (a & -> & H). exists a. split; [reflexivity|].
    intros y w. cbn [get]. destruct (str_eqb y p) eqn:E; [|apply H]. intros [= <-]. apply str_eqb_eq in E. subst y. rewrite get_join, Ep. reflexivity.
  - destruct d as [g|]; [|discriminate]. destruct (defaults (map fst K) rest) as [df1|]; [|discriminate]. intros [= <-]. specialize (IH _ eq_refl). cbn [omap fst snd].
    destruct (inst_given Q r0 g) as [v| |]; cbn [oseq ler]; [|reflexivity|exact Logic.I].
    destruct (bind_params Q r0 rest [] K) as [x| |]; cbn [oseq ler] in *; [|rewrite IH; reflexivity|exact Logic.I]. destruct IH as (a & -> & H). eexists. split; [reflexivity|].
    intros y w. cbn [get]. rewrite get_join. cbn [get]. destruct (str_eqb y p) eqn:E.
    + intros [= <-]. apply str_eqb_eq in E. subst y. rewrite Ep. reflexivity.
    + intros J. apply H in J. rewrite get_join in J. exact J.
Qed.
Lemma default_names names rest : forall df, defaults names rest = Some df -> forall x, In x (map fst df) -> In x (map fst rest) /\ ~ In x names.
Proof.
  induction rest as [|[p d] rest IH]; intros df; cbn [defaults]; [intros [= <-] x []|]. destruct (existsb (str_eqb p) names) eqn:E; [intros F x Hx; destruct (IH _ F x Hx); split; [right; assumption|assumption]|].
  destruct d as [g|]; [|discriminate]. destruct (defaults names rest) as [df1|]; [|discriminate]. intros [= <-] x [<-|Hx]; [|destruct (IH _ eq_refl x Hx); split; [right; assumption|assumption]].
  split; [left; reflexivity|]. intros J. assert (C : existsb (str_eqb p) names = true) by (apply existsb_exists; exists p; split; [exact J|apply str_eqb_refl]). rewrite C in E. discriminate E.
Qed.
Lemma default_nodup names rest : forall df, defaults names rest = Some df -> NoDup (map fst rest) -> NoDup (map fst df).
Proof.
  induction rest as [|[p d] rest IH]; intros df; cbn [defaults]; [intros [= <-] _; constructor|]. intros F H. inversion H; subst. destruct (existsb (str_eqb p) names); [exact (IH _ F H3)|].
  destruct d as [g|]; [|discriminate]. destruct (defaults names rest) as [df1|] eqn:E; [|discriminate]. injection F as <-. cbn [map fst]. constructor; [|exact (IH _ eq_refl H3)]. intros J. exact (H2 (proj1 (default_names _ _ _ E _ J))).
Qed.
Lemma distinct_nodup l : distinct l = true -> NoDup l.
Proof.
  induction l as [|x l IH]; [constructor|]. cbn [distinct]. intros H. apply andb_true_iff in H. destruct H as [H1 H2]. constructor; [|exact (IH H2)]. intros J. apply negb_true_iff in H1.
  assert (C : existsb (str_eqb x) l = true) by (apply existsb_exists; exists x; split; [exact J|apply str_eqb_refl]). rewrite C in H1. discriminate H1.
Qed.
Lemma fit_names ps pos a l : fit ps pos a = Some l -> NoDup (map fst ps) -> NoDup (map fst l) /\ forall x, In x (map fst l) -> In x (map fst ps).
Proof.
  unfold fit. destruct (in_order ps pos) as [[lp rest]|] eqn:E1; [|discriminate]. destruct (named a) as [kw|] eqn:E2; [|discriminate]. destruct (_ && _) eqn:E3; [|discriminate]. apply andb_true_iff in E3. destruct E3 as [E3 E4].
  destruct (defaults (map fst kw) rest) as [df|] eqn:E5; [|discriminate]. intros [= <-] H. pose proof (order_names _ _ _ _ E1) as En. rewrite En in H |- *. rewrite !map_app.
  assert (K1 : forall x, In x (map fst kw) -> In x (map fst rest)).
  { intros x Hx. rewrite forallb_forall in E4. specialize (E4 x Hx). apply existsb_exists in E4. destruct E4 as (y & J1 & J2). apply str_eqb_eq in J2. subst y. exact J1. }
  assert (K2 : forall x, In x (map fst kw ++ map fst df) -> In x (map fst rest)).
  { intros x Hx. apply in_app_or in Hx. destruct Hx as [Hx|Hx]; [exact (K1 x Hx)|exact (proj1 (default_names _ _ _ E5 x Hx))]. }
  split; [|intros x Hx; apply in_app_or in Hx; apply in_or_app; destruct Hx as [Hx|Hx]; [left; exact Hx|right; exact (K2 x Hx)]].
  assert (K3 : NoDup (map fst rest)) by (clear - H; induction (map fst lp) as [|y q IH]; [exact H|]; inversion H; subst; apply IH; assumption).
  assert (K4 : NoDup (map fst kw ++ map fst df)).
  { apply distinct_nodup in E3. pose proof (default_nodup _ _ _ E5 K3) as K5. pose proof (default_names _ _ _ E5) as K6. revert E3 K6. generalize (map fst kw). intros q. induction q as [|y q IH]; intros J1 J2; [exact K5|].
    inversion J1; subst. cbn [app]. constructor; [|apply IH; [assumption|intros x Hx; split; [exact (proj1 (J2 x Hx))|intros Z; exact (proj2 (J2 x Hx) (or_intror Z))]]].
    intros Z. apply in_app_or in Z. destruct Z as [Z|Z]; [contradiction|]. exact (proj2 (J2 y Z) (or_introl eq_refl)). }
  clear - H K2 K4. induction (map fst lp) as [|y q IH]; [exact K4|]. cbn [app] in *. inversion H; subst. constructor; [|apply IH; assumption]. intros Z. apply H2. apply in_app_or in Z. apply in_or_app. destruct Z as [Z|Z]; [left; exact Z|right; exact (K2 y Z)].
Qed.
(** All arguments, in the order in which they are evaluated; default values with other variables. *)
Lemma fit_vals r0 r1 n ps pos a l : fit ps pos a = Some l -> NoDup (map fst ps) -> sub r0 r1 ->
  ler sub (p <: inst_use Q r1 (n, pos, a) ;; params Q r0 ps (fst p) (snd p)) (evals r1 l).
Proof.
  intros F Nd S1. pose proof F as F0. unfold fit in F. destruct (in_order ps pos) as [[lp rest]|] eqn:E1; [|discriminate]. destruct (named a) as [kw|] eqn:E2; [|discriminate]. destruct (_ && _) eqn:E3; [|discriminate]. apply andb_true_iff in E3. destruct E3 as [E3 E4].
  destruct (defaults (map fst kw) rest) as [df|] eqn:E5; [|discriminate]. injection F as <-. cbn [inst_use]. rewrite (order_vals _ _ _ _ _ E1).
  assert (Ea : forall r k k', evals r (k ++ k') = (x <: evals r k ;; y <: evals r k' ;; Is (x ++ y))).
  { unfold evals. intros r k k'. induction k as [|[p g] k IH]; [cbn [app omap oseq]; destruct (omap _ k'); reflexivity|]. cbn [app omap fst snd]. destruct (inst_given Q r g); [|reflexivity|reflexivity]. cbn [oseq]. rewrite IH.
    destruct (omap _ k); [|reflexivity|reflexivity]. cbn [oseq]. destruct (omap _ k'); reflexivity. }
  rewrite !Ea. destruct (evals r1 lp) as [a1| |] eqn:V1; cbn [oseq ler]; [|reflexivity|exact Logic.I]. unfold inst_attrs. cbn [ofold oseq].
  rewrite (named_vals r1 a kw [] E2 E3 ltac:(reflexivity)). destruct (evals r1 kw) as [K| |] eqn:V2; cbn [oseq ler app fst snd]; [|reflexivity|exact Logic.I].
  pose proof (evals_names _ _ _ V2) as N2. pose proof (order_names _ _ _ _ E1) as N1.
  assert (Kr : forall x, In x (map fst kw) -> In x (map fst rest)).
  { intros x Hx. rewrite forallb_forall in E4. specialize (E4 x Hx). apply existsb_exists in E4. destruct E4 as (y & J1 & J2). apply str_eqb_eq in J2. subst y. exact J1. }
  unfold params. assert (G : forallb (fun x : str * val => existsb (str_eqb (fst x)) (map fst ps)) K = true).
  { apply forallb_forall. intros [x v] Hx. apply existsb_exists. exists x. split; [|apply str_eqb_refl]. rewrite N1. apply in_or_app. right. apply Kr. rewrite <- N2. apply in_map_iff. exists (x, v). split; [reflexivity|exact Hx]. }
  rewrite G. rewrite (order_bound r0 r1 K _ _ _ _ _ E1 V1).
  2: { intros x Hx. pose proof (get_dom x K) as Gd. destruct (get x K); [|reflexivity]. exfalso. apply existsb_exists in Gd. destruct Gd as (y & J1 & J2). apply str_eqb_eq in J2. subst y. rewrite N2 in J1. apply Kr in J1.
    rewrite N1 in Nd. clear - Nd Hx J1. induction (map fst lp) as [|y q IH]; [contradiction|]. inversion Nd; subst. destruct Hx as [<-|Hx]; [apply H1, in_or_app; right; exact J1|exact (IH H2 Hx)]. }
  rewrite <- N2 in E5. pose proof (default_bound r0 K rest df E5) as B.
  assert (Le : le (evals r0 df) (evals r1 df)). { apply le_omap, Forall_forall. intros [p g] _. apply le_bind; [apply den_le, S1|]. intros v. apply le_refl. }
  destruct (bind_params Q r0 rest [] K) as [x| |]; cbn [oseq ler] in *; [| |exact Logic.I].
  - destruct B as (a3 & B1 & B2). rewrite B1 in Le. destruct Le as [Le|Le]; [discriminate Le|]. rewrite <- Le. cbn [oseq]. eexists. split; [reflexivity|]. apply sub_join, B2.
  - rewrite B in Le. destruct Le as [Le|Le]; [discriminate Le|]. rewrite <- Le. reflexivity.
Qed.

(** ** Assignments in place of parameters *)
Section Params.
Variables (D : list (str * meaning)) (bd : option (list elem)).
Notation inst1 := (inst Q b lim D bd).
Variable r1 : store.
Definition set_ok (l : list (str * given)) (rs : store) (a : store) (p : list elem * store) : Prop :=
  fst p = map (fun _ => EGap 0) l /\ sub r1 (snd p) /\ sub a (snd p) /\ forall x, ~ In x (map fst l) -> get x (snd p) = get x rs.
Lemma sub_new p v rs : get p r1 = None -> sub r1 rs -> sub r1 (set p v rs).
Proof. intros N1 H x w E. rewrite get_put. destruct (str_eqb x p) eqn:F; [|apply H, E]. apply str_eqb_eq in F. subst x. rewrite N1 in E. discriminate E. Qed.
Lemma sets l : forall rs, NoDup (map fst l) -> (forall x, In x (map fst l) -> get x r1 = None) -> sub r1 rs -> ler (set_ok l rs) (evals r1 l) (insts inst1 (assigns l) rs).
Proof.
  unfold evals. induction l as [|[p g] l IH]; intros rs N1 N2 S1.
  - eexists. split; [reflexivity|]. split; [reflexivity|]. split; [exact S1|]. split; [intros x v K; discriminate K|reflexivity].
  - inversion N1; subst. change (assigns ((p, g) :: l)) with (TSet 0 [p] (given_expr g) :: assigns l). cbn [insts inst omap fst snd].
    destruct (den_le Q r1 rs S1 (given_expr g)) as [E|E]; unfold inst_given at 1; [rewrite E; exact Logic.I|].
    destruct (den Q r1 (given_expr g)) as [v| |]; cbn [oseq ler]; [|rewrite <- E; reflexivity|exact Logic.I]. rewrite <- E. cbn [oseq unpack fst snd].
    assert (K : ler (set_ok l (set p v rs)) (omap (fun a => v <: inst_given Q r1 (snd a) ;; Is (fst a, v)) l) (insts inst1 (assigns l) (set p v rs))).
    { apply IH; [assumption|intros x Hx; apply N2; right; exact Hx|apply sub_new; [apply N2; left; reflexivity|exact S1]]. }
    destruct (omap _ l) as [a| |]; cbn [ler oseq] in *; [|rewrite K; reflexivity|exact Logic.I]. destruct K as ([es s] & -> & H1' & H2' & H3' & H4'). cbn [fst snd oseq app] in *.
    eexists. split; [reflexivity|]. split; [cbn [fst map]; rewrite H1'; reflexivity|]. cbn [snd]. split; [exact H2'|]. split.
    + intros y w. cbn [get]. destruct (str_eqb y p) eqn:F; [|apply H3']. intros [= <-]. apply str_eqb_eq in F. subst y. rewrite H4', get_put, str_eqb_refl; [reflexivity|assumption].
    + intros y Hy. cbn [map fst] in Hy. rewrite H4'; [|intros J; apply Hy; right; exact J]. rewrite get_put. destruct (str_eqb y p) eqn:F; [|reflexivity]. apply str_eqb_eq in F. subst y. destruct Hy. left. reflexivity.
Qed.
End Params.

(** ** Variables after a template *)
Lemma get_none_set x y v (r : store) : x <> y -> get x r = None -> get x (set y v r) = None.
Proof. intros N1 H. rewrite get_put. destruct (str_eqb x y) eqn:F; [apply str_eqb_eq in F; congruence|exact H]. Qed.
Lemma get_none_keep x (r s : store) : get x r = None -> get x (keep r s) = None.
Proof. intros H. unfold keep. rewrite (get_part (fun y => existsb (str_eqb y) _)), get_dom, H. reflexivity. Qed.
Lemma get_none_unpack x xs v (r s : store) : ~ In x xs -> get x r = None -> unpack Q xs v r = Is s -> get x s = None.
Proof.
  intros N1 H. assert (F : forall ps r, (forall y, In y (map fst ps) -> x <> y) -> get x r = None -> get x (fold_left (fun r (a : str * val) => match a with (x, v) => set x v r end) ps r) = None).
  { induction ps as [|[y w] ps IH]; intros r2 K1 K2; [exact K2|]. cbn [fold_left]. apply IH; [intros z Hz; apply K1; right; exact Hz|]. apply get_none_set; [apply K1; left; reflexivity|exact K2]. }
  assert (G : (l <: items_of Q v ;; if Nat.eqb (List.length l) (List.length xs) then Is (fold_left (fun r a => match a with (x, v) => set x v r end) (combine xs l) r) else Raises) = Is s -> get x s = None).
  { destruct (items_of Q v) as [l| |]; try discriminate. cbn [oseq]. destruct (Nat.eqb _ _); [|discriminate]. intros [= <-]. apply F; [|exact H]. intros y Hy <-. apply N1.
    apply in_map_iff in Hy. destruct Hy as ([z w] & <- & Hy). exact (in_combine_l _ _ _ _ Hy). }
  destruct xs as [|y [|y2 xs]]; [exact G| |exact G]. cbn [unpack]. intros [= <-]. apply get_none_set; [|exact H]. intros <-. apply N1. left. reflexivity.
Qed.
Lemma new_inst D bd t r es s x : inst Q b lim D bd r t = Is (es, s) -> ~ In x (writes t) -> get x r = None -> get x s = None.
Proof.
  destruct t as [m k y|m h y tl|m g c|m g w kids|m cs els|m xs e w kids|m e w kids els|m alts|m xs e|m y o e|m h c|m h w kids|m n]; cbn [inst]; intros E N1 H.
  - destruct (inst_text Q r k 1 y); try discriminate. injection E as _ <-. exact H.
  - injection E as _ <-. exact H.
  - destruct (match c with Some (k, x) => _ | None => _ end) as [y| |]; try discriminate. cbn [oseq] in E. destruct (omap_back (inst_tag Q r) g); try discriminate. injection E as _ <-. exact H.
  - destruct (insts _ kids r) as [p| |]; try discriminate. cbn [oseq] in E. destruct (omap_back (inst_tag Q r) g); try discriminate. injection E as _ <-. exact H.
  - match type of E with (oseq ?z _) = _ => destruct z as [p| |]; try discriminate end. cbn [oseq] in E. injection E as _ <-. apply get_none_keep, H.
  - destruct (den Q r e) as [v| |]; try discriminate. cbn [oseq] in E. destruct (items_of Q v) as [l| |]; try discriminate. cbn [oseq] in E.
    match type of E with (oseq (ofold ?f l ?z) _) = _ => assert (F : forall l p q, get x (snd p) = None -> ofold f l p = Is q -> get x (snd q) = None) end.
    { clear l E. induction l as [|a l IH]; intros p q K; cbn [ofold]; [intros [= <-]; exact K|]. destruct (unpack Q xs a (snd p)) as [s1| |]; try discriminate. cbn [oseq].
      destruct (insts _ kids s1) as [q1| |]; try discriminate. cbn [oseq]. apply IH. cbn [snd]. apply get_none_keep, H. }
    match type of E with (oseq (ofold ?f l ?z) _) = _ => destruct (ofold f l z) as [p| |] eqn:Ep; try discriminate end. cbn [oseq] in E. injection E as _ <-. exact (F l ([], r) p H Ep).
  - match type of E with (oseq (oloop ?t ?f lim ?z) _) = _ => assert (F : forall n p q, get x (snd (snd p)) = None -> oloop t f n p = Is q -> get x (snd (snd q)) = None) end.
    { clear E. induction n as [|n IH]; intros p q K; cbn [oloop]; [discriminate|]. match goal with |- oseq ?z _ = _ -> _ => destruct z as [[|]| |]; try discriminate end; cbn [oseq]; [|intros [= <-]; exact K].
      destruct (insts _ kids (snd (snd p))) as [q1| |]; try discriminate. cbn [oseq]. apply IH. cbn [snd]. apply get_none_keep, H. }
    match type of E with (oseq (oloop ?t ?f lim ?z) _) = _ => destruct (oloop t f lim z) as [[[|] p]| |] eqn:Ep; try discriminate end; cbn [oseq fst snd] in E.
    + injection E as _ <-. exact (F lim (false, ([], r)) _ H Ep).
    + destruct els as [[w1 kids1]|]; [|injection E as _ <-; exact (F lim (false, ([], r)) _ H Ep)]. destruct (insts _ kids1 r) as [q| |]; try discriminate. cbn [oseq] in E. injection E as _ <-. apply get_none_keep, H.
  - match type of E with (oseq ?z _) = _ => destruct z as [p| |]; try discriminate end. cbn [oseq] in E. injection E as _ <-. exact H.
  - destruct (den Q r e) as [v| |]; try discriminate. cbn [oseq] in E. destruct (unpack Q xs v r) as [s1| |] eqn:Eu; try discriminate. cbn [oseq] in E. injection E as _ <-. exact (get_none_unpack _ _ _ _ _ N1 H Eu).
  - destruct (den Q r e) as [v| |]; try discriminate. cbn [oseq] in E. destruct (den Q r (XName y)) as [a| |]; try discriminate. cbn [oseq] in E. destruct (py_op Q o a v) as [w| |]; try discriminate. cbn [oseq] in E. injection E as _ <-.
    apply get_none_set; [|exact H]. intros <-. apply N1. left. reflexivity.
  - match type of E with (oseq ?z _) = _ => destruct z as [p| |]; try discriminate end. cbn [oseq] in E. destruct (inst_use Q r h) as [a| |]; try discriminate. cbn [oseq] in E. destruct (given_by _) as [f| |]; try discriminate. cbn [oseq] in E.
    destruct (f r _ _ _); try discriminate. injection E as _ <-. exact H.
  - match type of E with (oseq ?z _) = _ => destruct z as [p| |]; try discriminate end. cbn [oseq] in E. destruct (inst_use Q r h) as [a| |]; try discriminate. cbn [oseq] in E. destruct (given_by _) as [f| |]; try discriminate. cbn [oseq] in E.
    destruct (f r _ _ _); try discriminate. injection E as _ <-. exact H.
  - destruct (given_by bd); try discriminate. injection E as _ <-. exact H.
Qed.
Lemma new_insts D bd l : forall r es s x, insts (inst Q b lim D bd) l r = Is (es, s) -> ~ In x (flat_map writes l) -> get x r = None -> get x s = None.
Proof.
  induction l as [|t l IH]; intros r es s x; cbn [insts flat_map]; [intros [= _ <-] _ H; exact H|]. destruct (inst Q b lim D bd r t) as [[es1 r1]| |] eqn:E1; try discriminate. cbn [oseq fst snd].
  destruct (insts (inst Q b lim D bd) l r1) as [[es2 r2]| |] eqn:E2; try discriminate. intros [= _ <-] N1 H. eapply IH; [exact E2|intros K; apply N1, in_or_app; right; exact K|].
  eapply new_inst; [exact E1|intros K; apply N1, in_or_app; left; exact K|exact H].
Qed.

(** ** Elements with the same lines *)
Lemma visible_sub (r : store) : sub (visible_part vis r) r.
Proof. intros x v. unfold visible_part. rewrite (get_part (fun y => existsb (str_eqb y) vis)). destruct (existsb (str_eqb x) vis); [auto|discriminate]. Qed.
Lemma ler_and {A B} (R : A -> B -> Prop) (Z : A -> Prop) x y : ler R x y -> (forall a, x = Is a -> Z a) -> ler (fun a c => R a c /\ Z a) x y.
Proof. intros H K. destruct x as [a| |]; cbn [ler] in *; [|exact H|exact H]. destruct H as (c & H1 & H2). exists c. split; [exact H1|]. split; [exact H2|apply K; reflexivity]. Qed.
Lemma ler_weak {A B} (R R' : A -> B -> Prop) x y : ler R x y -> (forall a c, R a c -> R' a c) -> ler R' x y.
Proof. intros H K. destruct x as [a| |]; cbn [ler] in *; [|exact H|exact H]. destruct H as (c & H1 & H2). exists c. split; [exact H1|apply K, H2]. Qed.
Definition els (l l' : list elem) : Prop := (forall void, flat_map (ehtml void) l = flat_map (ehtml void) l') /\ existsb filled l = existsb filled l'.
Lemma els_refl l : els l l. Proof. split; reflexivity. Qed.
Lemma els_app l1 l2 l1' l2' : els l1 l1' -> els l2 l2' -> els (l1 ++ l2) (l1' ++ l2').
Proof. intros [H1 H2] [K1 K2]. split; [intros void; rewrite !flat_map_app, H1, K1; reflexivity|rewrite !existsb_app, H2, K2; reflexivity]. Qed.
Lemma els_gap m l l' : els l l' -> els (EGap m :: l) (EGap m :: l').
Proof. apply (els_app [_] l [_] l'), els_refl. Qed.
Lemma els_node m g w l l' : els l l' -> els [ENode m g w l] [ENode m g w l'].
Proof. intros [H _]. split; [|reflexivity]. intros void. cbn [flat_map ehtml]. rewrite H. reflexivity. Qed.
Lemma els_hyper m l l' : els l l' -> els [EHyper m l] [EHyper m l'].
Proof. intros [H _]. split; [|reflexivity]. intros void. cbn [flat_map ehtml]. rewrite H. reflexivity. Qed.
Definition bodies (x y : option (list elem)) : Prop := match x, y with Some l, Some l' => els l l' | None, None => True | _, _ => False end.
Definition leb (f g : meaning) : Prop := forall r r' pos kw x y, sub r r' -> bodies x y -> ler els (f r pos kw x) (g r' pos kw y).
Definition lebs (D D' : list (str * meaning)) : Prop := forall n f, find_meaning n D = Some f -> exists g, find_meaning n D' = Some g /\ leb f g.

(** ** Templates with others in place of uses *)

(** As [ler]; unless [strict], templates that raise an exception do not matter. *)
Definition lers {A B} (strict : bool) (R : A -> B -> Prop) (x : ans A) (y : ans B) : Prop :=
  match x with Open => True | Raises => if strict then y = Raises else True | Is a => exists c, y = Is c /\ R a c end.
Lemma ler_lers {A B} s (R : A -> B -> Prop) x y : ler R x y -> lers s R x y.
Proof. destruct x; [intros H; exact H|destruct s; [intros H; exact H|intros _; exact Logic.I]|intros _; exact Logic.I]. Qed.
Lemma lers_bind {A B A' B'} s (R : A -> B -> Prop) (R' : A' -> B' -> Prop) x y f g :
  lers s R x y -> (forall a c, R a c -> lers s R' (f a) (g c)) -> lers s R' (oseq x f) (oseq y g).
Proof.
  intros H K. destruct x as [a| |]; cbn [lers oseq] in *; [|destruct s; [rewrite H; reflexivity|exact Logic.I]|exact Logic.I]. destruct H as (c & -> & H). apply K, H.
Qed.
Lemma le_lers {A A' B'} s (R' : A' -> B' -> Prop) (x y : ans A) f g : le x y -> (forall a, lers s R' (f a) (g a)) -> lers s R' (oseq x f) (oseq y g).
Proof. intros [->| ->] H; [exact Logic.I|]. destruct y; cbn [oseq lers]; [apply H|destruct s; [reflexivity|exact Logic.I]|exact Logic.I]. Qed.
Lemma lers_fold {A B C} s (R : A -> B -> Prop) (f : A -> C -> ans A) g l : (forall a c v, R a c -> lers s R (f a v) (g c v)) -> forall a c, R a c -> lers s R (ofold f l a) (ofold g l c).
Proof. intros H. induction l as [|v l IH]; intros a c K; [exists c; split; [reflexivity|exact K]|]. cbn [ofold]. apply (lers_bind s R); [apply H, K|exact IH]. Qed.
Lemma lers_loop {A B} s (R : A -> B -> Prop) t t' k k' : (forall a c, R a c -> le (t a) (t' c)) -> (forall a c, R a c -> lers s R (k a) (k' c)) ->
  forall n a c, R a c -> lers s R (oloop t k n a) (oloop t' k' n c).
Proof.
  intros Ht Hs. induction n as [|n IH]; intros a c K; [exact Logic.I|]. cbn [oloop]. apply le_lers; [apply Ht, K|]. intros []; [|exists c; split; [reflexivity|exact K]].
  apply (lers_bind s R); [apply Hs, K|exact IH].
Qed.
Section Replaced.
Variables (strict : bool) (fresh : list str) (V : store).
Notation lerz := (lers strict).
Definition free (r : store) : Prop := forall x, In x fresh -> get x r = None.
(** The larger store has the values of [V]. *)
Definition rel (r r' : store) : Prop := free r /\ sub r r' /\ sub V r'.
Definition rel2 (p p' : list elem * store) : Prop := els (fst p) (fst p') /\ rel (snd p) (snd p').
Lemma done_rel es es' r r' : els es es' -> rel r r' -> lerz rel2 (Is (es, r)) (Is (es', r')).
Proof. intros H K. eexists. split; [reflexivity|]. split; [exact H|exact K]. Qed.
Lemma rel_keep r r' s s' : rel r r' -> rel s s' -> rel (keep r s) (keep r' s').
Proof. intros (H1 & H2 & H3) (K1 & K2 & K3). split; [intros x Hx; apply get_none_keep, H1, Hx|]. split; [apply sub_keep; assumption|apply keeps_keep; assumption]. Qed.
Lemma rel_unpack xs v r r' : (forall x, In x xs -> ~ In x fresh /\ ~ In x (map fst V)) -> rel r r' -> lerz rel (unpack Q xs v r) (unpack Q xs v r').
Proof.
  intros H (K1 & K2 & K3). pose proof (both_unpack Q [] xs v r r' ltac:(intros x _ []) (conj (sub_nil r) K2)) as L.
  pose proof (both_unpack Q V xs v r' r' ltac:(intros x Hx; exact (proj2 (H x Hx))) (conj K3 (sub_refl r'))) as L'. apply ler_lers.
  pose proof (ler_and _ free _ _ L ltac:(intros s E x Hx; eapply get_none_unpack; [intros J; exact (proj1 (H x J) Hx)|apply K1, Hx|exact E])) as L2.
  destruct (unpack Q xs v r) as [s| |]; cbn [ler] in *; [|exact L2|exact Logic.I]. destruct L2 as (s' & Es & [_ J1] & J2). rewrite Es in L' |- *. exists s'. split; [reflexivity|].
  destruct L' as (s2 & E2 & J3 & _). split; [exact J2|]. split; [exact J1|exact J3].
Qed.
Definition calm_of (l : list str) : Prop := forall x, In x l -> ~ In x fresh /\ ~ In x (map fst V).
Lemma calm_app l l' : calm_of (l ++ l') -> calm_of l /\ calm_of l'.
Proof. intros H. split; intros x Hx; apply H, in_or_app; [left|right]; exact Hx. Qed.
Lemma ler_single D' bd' x t r' : lerz rel2 x (inst Q b lim D' bd' r' t) -> lerz rel2 x (insts (inst Q b lim D' bd') [t] r').
Proof.
  intros H. cbn [insts]. destruct x as [p| |]; cbn [lers] in *; [|destruct strict; [rewrite H; reflexivity|exact Logic.I]|exact Logic.I]. destruct H as ([es s] & -> & H1 & H2). cbn [oseq fst snd]. eexists. split; [reflexivity|].
  split; [|exact H2]. cbn [fst]. rewrite app_nil_r. exact H1.
Qed.

Variables (D D' : list (str * meaning)) (bd bd' : option (list elem)) 
  (uses : nat -> use -> option (list tmpl)) (blocks : nat -> use -> list tmpl -> option (list tmpl)) (inner : nat -> str -> list tmpl) (deep : bool).
Hypothesis DD : lebs D D'.
Notation inst1 := (inst Q b lim D bd).
Notation inst2 := (inst Q b lim D' bd').
Notation ex := (replaced uses blocks inner deep).
Notation wr := (outer blocks deep).
Hypothesis HU : forall m h l r r', uses m h = Some l -> rel r r' -> lerz rel2 (inst1 r (TUse m h None)) (insts inst2 l r').
Hypothesis HK : forall m h w l k r r', blocks m h l = Some k -> rel r r' -> lerz rel2 (inst1 r (TBlock m h w l)) (insts inst2 k r').
Hypothesis HT : forall m y r r', rel r r' -> lerz rel2 (inst1 r (TBody m y)) (insts inst2 (inner m y) r').
Hypothesis HY : forall m alts r r', deep = false -> rel r r' -> lerz rel2 (inst1 r (TTry m alts)) (insts inst2 [TTry m alts] r').
Hypothesis HS : deep = true -> strict = true.
Definition exp_block (t : tmpl) : Prop := calm_of (wr t) -> forall r r', rel r r' -> lerz rel2 (inst1 r t) (insts inst2 (ex t) r').
Lemma exp_kids l : Forall exp_block l -> calm_of (flat_map wr l) -> forall r r', rel r r' -> lerz rel2 (insts inst1 l r) (insts inst2 (flat_map ex l) r').
Proof.
  induction 1 as [|t l H Hl IH]; intros A r r' B; [apply done_rel; [apply els_refl|exact B]|]. cbn [flat_map] in A. apply calm_app in A. destruct A as [A1 A2]. cbn [insts flat_map]. rewrite insts_app.
  apply (lers_bind strict rel2); [apply H; assumption|]. intros p p' [K1 K2]. apply (lers_bind strict rel2); [apply IH; assumption|]. intros q q' [K3 K4]. apply done_rel; [apply els_app; assumption|exact K4].
Qed.
Lemma leb_use h k r r' (a : list val * store) x y : rel r r' -> bodies x y ->
  lerz rel2 (f <: given_by (find_meaning h D) ;; es <: f r (fst a) (snd a) x ;; Is ([EHyper k es], r)) (f <: given_by (find_meaning h D') ;; es <: f r' (fst a) (snd a) y ;; Is ([EHyper k es], r')).
Proof.
  intros B Bx. destruct (find_meaning h D) as [f|] eqn:Ef; [|exact Logic.I]. destruct (DD _ _ Ef) as (g & Eg & K). rewrite Eg. cbn [given_by oseq].
  apply (lers_bind strict els); [apply ler_lers, K; [exact (proj1 (proj2 B))|exact Bx]|]. intros es es' J. apply done_rel; [apply els_hyper, J|exact B].
Qed.
Lemma exp_inst t : exp_block t.
Proof.
  induction t as [m k x|m h x tl|m g c|m g w l IH|m cs els1 IHc IHe|m xs e w l IH|m e w l els1 IH IHe|m alts IHa|m xs e|m x o e|m h c|m h w l IH|m y] using tmpl_ind';
    intros A r r' B; pose proof (proj1 (proj2 B)) as S2.
  11: {
    assert (G : lerz rel2 (inst1 r (TUse m h c)) (insts inst2 [TUse m h c] r')).
    { apply ler_single. cbn [inst]. apply (lers_bind strict bodies).
      - destruct c as [[k x]|]; [|eexists; split; [reflexivity|exact Logic.I]]. apply le_lers; [apply text_le, S2|]. intros z. eexists. split; [reflexivity|apply els_refl].
      - intros x y Bx. apply le_lers; [apply use_le, S2|]. intros a. apply leb_use; assumption. }
    cbn [replaced]. destruct c as [[k x]|]; [exact G|]. destruct (uses m h) as [l|] eqn:El; [exact (HU _ _ _ _ _ El B)|exact G]. }
  12: { cbn [replaced]. apply HT. exact B. }
  11: { cbn [replaced]. destruct (blocks m h l) as [k|] eqn:Ek; [exact (HK _ _ _ _ _ _ _ Ek B)|]. apply ler_single. cbn [inst]. cbn [outer] in A. rewrite Ek in A.
    apply (lers_bind strict rel2); [apply exp_kids; assumption|]. intros p p' [K1 K2]. apply le_lers; [apply use_le, S2|]. intros a. apply leb_use; [exact B|exact K1]. }
  8: { cbn [replaced]. destruct (bool_dec deep true) as [Ed|Ed].
    2: { apply not_true_is_false in Ed. assert (X : forall T (x y : T), (if deep then x else y) = y) by (intros T x y; rewrite Ed; reflexivity). rewrite X. apply HY; assumption. }
    assert (X : forall T (x y : T), (if deep then x else y) = x) by (intros T x y; rewrite Ed; reflexivity). rewrite X. pose proof (HS Ed) as Hs. cbn [outer] in A. rewrite X in A. apply ler_single. cbn [inst].
    assert (K : ler els ((fix go (l : list (str * list tmpl)) : ans (list elem) :=
               match l with [] => Is [] | (_, kids) :: l => match insts inst1 kids r with Is p => Is (fst p) | Raises => go l | Open => Open end end) alts)
      ((fix go (l : list (str * list tmpl)) : ans (list elem) :=
               match l with [] => Is [] | (_, kids) :: l => match insts inst2 kids r' with Is p => Is (fst p) | Raises => go l | Open => Open end end)
         (map (fun a : str * list tmpl => match a with (w, l) => (w, flat_map ex l) end) alts))).
    { induction IHa as [|[w l] alts Ha IHa IHs]; [eexists; split; [reflexivity|apply els_refl]|]. cbn [flat_map] in A. apply calm_app in A. destruct A as [A1 A2].
      cbn [map]. pose proof (exp_kids l Ha A1 r r' B) as L. rewrite Hs in L. destruct (insts inst1 l r) as [p| |]; cbn [lers] in L.
      - destruct L as (p' & -> & [L1 _]). eexists. split; [reflexivity|exact L1].
      - rewrite L. apply IHs, A2.
      - exact Logic.I. }
    apply (lers_bind strict els); [apply ler_lers; exact K|]. intros es es' J. apply done_rel; [apply els_gap, J|exact B]. }
  all: cbn [replaced]; apply ler_single; cbn [inst]; cbn [outer] in A.
  - apply le_lers; [apply text_le, S2|]. intros y. apply done_rel; [apply els_refl|exact B].
  - apply done_rel; [apply els_refl|exact B].
  - apply le_lers; [destruct c as [[k y]|]; [apply text_le, S2|apply le_refl]|]. intros y. apply le_lers; [apply le_omap_back; intros a; apply tag_le, S2|]. intros g'. apply done_rel; [apply els_refl|exact B].
  - apply (lers_bind strict rel2); [apply exp_kids; assumption|]. intros p p' [K1 K2]. apply le_lers; [apply le_omap_back; intros a; apply tag_le, S2|]. intros g'. apply done_rel; [apply els_node, K1|exact B].
  - apply calm_app in A. destruct A as [A1 A2]. apply (lers_bind strict rel2).
    + induction IHc as [|[e [w l]] cs Hc IHc IHs].
      * destruct els1 as [[w l]|]; [apply exp_kids; assumption|apply done_rel; [apply els_refl|exact B]].
      * cbn [flat_map] in A1. apply calm_app in A1. destruct A1 as [A0 A1]. apply le_lers; [apply den_le, S2|]. intros v. apply le_lers; [apply le_refl|]. intros []; [apply exp_kids; assumption|apply IHs, A1].
    + intros p p' [K1 K2]. apply done_rel; [apply els_gap, K1|apply rel_keep; assumption].
  - apply calm_app in A. destruct A as [A1 A2]. apply le_lers; [apply den_le, S2|]. intros v. apply le_lers; [apply le_refl|]. intros vs. apply (lers_bind strict rel2).
    + apply lers_fold; [|split; [apply els_refl|exact B]]. intros p p' y [K1 K2]. apply (lers_bind strict rel); [apply rel_unpack; assumption|]. intros s s' Bs.
      apply (lers_bind strict rel2); [apply exp_kids; assumption|]. intros q q' [K3 K4]. apply done_rel; [apply els_app; assumption|apply rel_keep; assumption].
    + intros p p' [K1 K2]. apply done_rel; [apply els_gap, K1|exact K2].
  - apply calm_app in A. destruct A as [A1 A2]. apply (lers_bind strict (fun p p' => fst p = fst p' /\ rel2 (snd p) (snd p'))).
    + apply lers_loop; [| |split; [reflexivity|split; [apply els_refl|exact B]]]; intros p p' [K0 [K1 K2]].
      * apply le_bind; [apply den_le, K2|]. intros v. apply le_refl.
      * apply (lers_bind strict rel2); [apply exp_kids; assumption|]. intros q q' [K3 K4]. eexists. split; [reflexivity|]. split; [reflexivity|]. split; [cbn [fst snd]; apply els_app; assumption|apply rel_keep; assumption].
    + intros [f [es s]] [f' [es' s']] [K0 [K1 K2]]. cbn [fst snd] in *. subst f'.
      assert (G : lerz rel2 (Is (EGap m :: es, s)) (Is (EGap m :: es', s'))) by (apply done_rel; [apply els_gap, K1|exact K2]).
      destruct f; [exact G|]. destruct els1 as [[w1 kids1]|]; [|exact G].
      apply (lers_bind strict rel2); [apply exp_kids; assumption|]. intros q q' [K3 K4]. apply done_rel; [apply els_gap, K3|apply rel_keep; assumption].
  - apply le_lers; [apply den_le, S2|]. intros v. apply (lers_bind strict rel); [apply rel_unpack; assumption|]. intros s s' Bs. apply done_rel; [apply els_refl|exact Bs].
  - apply le_lers; [apply den_le, S2|]. intros v. apply le_lers; [apply (den_le Q r r' S2 (XName x))|]. intros a. apply le_lers; [apply le_refl|]. intros w. apply done_rel; [apply els_refl|].
    split; [intros y Hy; apply get_none_set; [intros ->; exact (proj1 (A x (or_introl eq_refl)) Hy)|exact (proj1 B y Hy)]|]. split; [apply sub_put, S2|apply keeps_put; [exact (proj2 (A x (or_introl eq_refl)))|exact (proj2 (proj2 B))]].
Qed.
Lemma exp_insts l r r' : calm_of (flat_map wr l) -> rel r r' -> lerz rel2 (insts inst1 l r) (insts inst2 (flat_map ex l) r').
Proof. intros A B. apply exp_kids; [apply Forall_forall; intros t _; apply exp_inst|exact A|exact B]. Qed.
End Replaced.

Lemma outer_writes blocks deep x t : In x (outer blocks deep t) -> In x (writes t).
Proof.
  assert (L : forall l, Forall (fun t => In x (outer blocks deep t) -> In x (writes t)) l -> In x (flat_map (outer blocks deep) l) -> In x (flat_map writes l)).
  { induction 1 as [|t0 l H Hl IH]; [intros []|]. cbn [flat_map]. intros K. apply in_app_or in K. apply in_or_app. destruct K as [K|K]; [left; exact (H K)|right; exact (IH K)]. }
  induction t as [m k z|m h z tl|m g c|m g w l IH|m cs els1 IHc IHe|m xs e w l IH|m e w l els1 IH IHe|m alts IHa|m xs e|m z o e|m h c|m h w l IH|m y] using tmpl_ind'; cbn [outer writes]; try (intros K; exact K).
  - apply L, IH.
  - intros K. apply in_app_or in K. apply in_or_app. destruct K as [K|K]; [left|right; destruct els1 as [[w l]|]; [exact (L _ IHe K)|exact K]].
    induction IHc as [|[e [w l]] cs Hc IHc IHs]; [exact K|]. cbn [flat_map] in *. apply in_app_or in K. apply in_or_app. destruct K as [K|K]; [left; exact (L _ Hc K)|right; exact (IHs K)].
  - intros K. apply in_app_or in K. apply in_or_app. destruct K as [K|K]; [left; exact K|right; exact (L _ IH K)].
  - intros K. apply in_app_or in K. apply in_or_app. destruct K as [K|K]; [left; exact (L _ IH K)|right; destruct els1 as [[w1 l1]|]; [exact (L _ IHe K)|exact K]].
  - destruct deep; [|intros K; exact K]. intros K.
    induction IHa as [|[w l] alts Ha IHa IHs]; [exact K|]. cbn [flat_map] in *. apply in_app_or in K. apply in_or_app. destruct K as [K|K]; [left; exact (L _ Ha K)|right; exact (IHs K)].
  - destruct (blocks m h l); [intros []|apply L, IH].
Qed.
Lemma outer_all blocks deep x l : In x (flat_map (outer blocks deep) l) -> In x (flat_map writes l).
Proof. rewrite !in_flat_map. intros (t & H1 & H2). exists t. split; [exact H1|exact (outer_writes _ _ _ _ H2)]. Qed.

(** Nothing replaced. *)
Lemma replaced_none t : replaced no_use no_block the_body true t = [t].
Proof.
  assert (L : forall l, Forall (fun t => replaced no_use no_block the_body true t = [t]) l -> flat_map (replaced no_use no_block the_body true) l = l) by (induction 1 as [|t0 l H Hl IH]; [reflexivity|]; cbn [flat_map]; rewrite H, IH; reflexivity).
  induction t as [m k x|m h x tl|m g c|m g w l IH|m cs els1 IHc IHe|m xs e w l IH|m e w l els1 IH IHe|m alts IHa|m xs e|m x o e|m h c|m h w l IH|m y] using tmpl_ind'; cbn [replaced]; try reflexivity.
  - rewrite (L _ IH). reflexivity.
  - do 2 f_equal; [|destruct els1 as [[w l]|]; [pose proof (L _ IHe) as J; cbn [snd] in J; rewrite J; reflexivity|reflexivity]].
    induction IHc as [|[e [w l]] cs Hc IHc IHs]; [reflexivity|]. cbn [map]. pose proof (L _ Hc) as J. cbn [snd] in J. rewrite IHs, J. reflexivity.
  - rewrite (L _ IH). reflexivity.
  - rewrite (L _ IH). destruct els1 as [[w1 l1]|]; [pose proof (L _ IHe) as J; cbn [snd] in J; rewrite J; reflexivity|reflexivity].
  - do 2 f_equal. induction IHa as [|[w l] alts Ha IHa IHs]; [reflexivity|]. cbn [map]. pose proof (L _ Ha) as J. cbn [snd] in J. rewrite IHs, J. reflexivity.
  - destruct c as [[k x]|]; reflexivity.
  - rewrite (L _ IH). reflexivity.
Qed.
Lemma same_insts D D' bd bd' l r r' : lebs D D' -> bodies bd bd' -> sub r r' ->
  ler (fun p p' => els (fst p) (fst p') /\ sub (snd p) (snd p')) (insts (inst Q b lim D bd) l r) (insts (inst Q b lim D' bd') l r').
Proof.
  intros H K J. assert (E : flat_map (replaced no_use no_block the_body true) l = l) by (induction l as [|t l IH]; [reflexivity|]; cbn [flat_map]; rewrite replaced_none, IH; reflexivity). rewrite <- E at 2.
  eapply ler_weak; [apply (exp_insts true [] [] D D' bd bd' no_use no_block the_body true H)|].
  - intros m h l0 r1 r2 Z. discriminate Z.
  - intros m h w l0 k r1 r2 Z. discriminate Z.
  - intros m y r1 r2 B. apply ler_single. cbn [inst]. destruct bd as [x|], bd' as [x'|]; try contradiction K; [|exact Logic.I]. apply done_rel; [apply els_gap, K|exact B].
  - intros m alts r1 r2 Z. discriminate Z.
  - reflexivity.
  - intros x _. split; intros [].
  - split; [intros x []|]. split; [exact J|apply sub_nil].
  - intros p p' [Z1 [_ [Z2 _]]]. split; assumption.
Qed.
Lemma mean_leb D D' d : lebs D D' -> leb (mean Q b lim D vis d) (mean Q b lim D' vis d).
Proof.
  intros H r r' pos kw x y S1 Bx. destruct d as [m n bn ps w kids|m h z tl]; [|exact Logic.I]. unfold mean. cbv zeta.
  assert (S2 : sub (visible_part vis r) (visible_part vis r')) by (apply sub_visible; [intros z Hz; exact Hz|exact S1]).
  apply le_ler; [apply params_le, S2|]. intros a. apply (ler_bind bodies).
  - destruct bn as [z|], x as [l|], y as [l'|]; try contradiction Bx; cbn [body_given].
    + eexists. split; [reflexivity|exact Bx].
    + eexists. split; [reflexivity|apply els_refl].
    + destruct Bx as [_ Bx]. rewrite Bx. destruct (existsb filled l'); [reflexivity|exact Logic.I].
    + eexists. split; [reflexivity|exact Logic.I].
  - intros x1 y1 B1. eapply ler_bind; [apply same_insts; [exact H|exact B1|apply sub_join, S2]|]. intros p p' [Z1 _]. eexists. split; [reflexivity|exact Z1].
Qed.
Lemma learn_leb ds : forall D D', lebs D D' -> lebs (learned ds D) (learned ds D').
Proof.
  induction ds as [|d ds IH]; intros D D' H; [exact H|]. cbn [fold_left]. apply IH. destruct d as [m n bn ps w kids|m h x tl]; [|exact H]. cbn [learn].
  intros y f. cbn [find_meaning]. destruct (str_eqb y n); [|apply H]. intros [= <-]. eexists. split; [reflexivity|]. apply mean_leb, H.
Qed.

(** ** Blank lines *)
Definition raise1 (k : nat) (e : elem) : elem :=
  match e with
  | EText m x => EText (k + m) x
  | EGap m => EGap (k + m)
  | ELeaf m g c => ELeaf (k + m) g c
  | ENode m g w l => ENode (k + m) g w l
  | EHyper m l => EHyper (k + m) l
  end.
Definition raised (k : nat) (l : list elem) : list elem := match l with e :: l => raise1 k e :: l | [] => [] end.
Lemma lift_inst D bd k t r : inst Q b lim D bd r (lift k t) = (p <: inst Q b lim D bd r t ;; Is (raised k (fst p), snd p)).
Proof.
  destruct t as [m y x|m h x tl|m g c|m g w l|m cs els1|m xs e w l|m e w l els1|m alts|m xs e|m x o e|m h c|m h w l|m y]; cbn [lift inst];
    repeat (match goal with
            | |- context [match fst ?p with _ => _ end] => destruct (fst p)
            | |- context [match els1 with _ => _ end] => destruct els1 as [[? ?]|]
            | |- oseq ?x _ = oseq (oseq ?x _) _ => destruct x; cbn [oseq fst snd raised raise1]
            end); reflexivity.
Qed.
Lemma blanks_more k m : blanks (k + m) = blanks k ++ blanks m.
Proof. apply repeat_app. Qed.
Lemma raised_lines void k l : l <> [] -> flat_map (ehtml void) (raised k l) = blanks k ++ flat_map (ehtml void) l.
Proof. destruct l as [|e l]; [congruence|]. intros _. cbn [raised flat_map]. rewrite app_assoc. f_equal. destruct e; cbn [raise1 ehtml]; rewrite blanks_more, <- ?app_assoc; reflexivity. Qed.
Lemma raised_filled k l : existsb filled (raised k l) = existsb filled l.
Proof. destruct l as [|[] l]; reflexivity. Qed.
Lemma inst_some D bd r t es s : inst Q b lim D bd r t = Is (es, s) -> es <> [].
Proof.
  destruct t as [m y x|m h x tl|m g c|m g w l|m cs els1|m xs e w l|m e w l els1|m alts|m xs e|m x o e|m h c|m h w l|m y]; cbn [inst];
    repeat (match goal with
            | |- context [match fst ?p with _ => _ end] => destruct (fst p)
            | |- context [match els1 with _ => _ end] => destruct els1 as [[? ?]|]
            | |- oseq ?x _ = _ -> _ => destruct x; cbn [oseq]; [|discriminate|discriminate]
            end); intros [= <- _]; discriminate.
Qed.
Lemma lift_lines D bd k l r es s : l <> [] -> insts (inst Q b lim D bd) l r = Is (es, s) ->
  exists es', insts (inst Q b lim D bd) (lift_first k l) r = Is (es', s) /\ (forall void, flat_map (ehtml void) es' = blanks k ++ flat_map (ehtml void) es) /\ existsb filled es' = existsb filled es.
Proof.
  destruct l as [|t l]; [congruence|]. intros _. cbn [lift_first insts]. rewrite lift_inst. destruct (inst Q b lim D bd r t) as [[es1 r1]| |] eqn:E1; try discriminate. cbn [oseq fst snd].
  destruct (insts (inst Q b lim D bd) l r1) as [[es2 r2]| |]; try discriminate. cbn [oseq fst snd]. intros [= <- <-]. eexists. split; [reflexivity|]. split.
  - intros void. rewrite !flat_map_app, (raised_lines void k es1 (inst_some _ _ _ _ _ _ E1)), app_assoc. reflexivity.
  - rewrite !existsb_app, raised_filled. reflexivity.
Qed.
Lemma lift_raises D bd k l r : insts (inst Q b lim D bd) l r = Raises -> insts (inst Q b lim D bd) (lift_first k l) r = Raises.
Proof.
  destruct l as [|t l]; [intros H; exact H|]. cbn [lift_first insts]. rewrite lift_inst. destruct (inst Q b lim D bd r t) as [[es1 r1]| |]; try discriminate; [|reflexivity]. cbn [oseq fst snd].
  destruct (insts (inst Q b lim D bd) l r1) as [[es2 r2]| |]; try discriminate. reflexivity.
Qed.

(** ** The contents in place of the use *)
Lemma filled_contents D bd l : existsb contents l = true -> forall r es s, insts (inst Q b lim D bd) l r = Is (es, s) -> existsb filled es = true.
Proof.
  induction l as [|t l IH]; [discriminate|]. cbn [existsb insts]. intros H r es s. destruct (inst Q b lim D bd r t) as [[es1 r1]| |] eqn:E1; try discriminate. cbn [oseq fst snd].
  destruct (insts (inst Q b lim D bd) l r1) as [[es2 r2]| |] eqn:E2; try discriminate. intros [= <- _]. rewrite existsb_app. apply orb_true_iff in H. apply orb_true_iff. destruct H as [H|H]; [left|right; exact (IH H _ _ _ E2)].
  destruct t as [m y x|m h x tl|m g c|m g w k|m cs els1|m xs e w k|m e w k els1|m alts|m xs e|m x o e|m h c|m h w k|m y]; try discriminate H; cbn [inst] in E1; revert E1;
    repeat (match goal with |- oseq ?x _ = _ -> _ => destruct x; cbn [oseq]; [|discriminate|discriminate] end); intros [= <- _]; reflexivity.
Qed.
Lemma lev_weak V D D' : levs [] D D' -> levs V D D'.
Proof. intros H n f E. destruct (H _ _ E) as (g & Eg & L). exists g. split; [exact Eg|]. intros r r' pos kw bd B. apply L. split; [intros x v K; discriminate K|exact (proj2 B)]. Qed.
Lemma gaps_none {A} void (l : list A) : flat_map (ehtml void) (map (fun _ => EGap 0) l) = [].
Proof. induction l as [|a l IH]; [reflexivity|exact IH]. Qed.
Lemma gaps_filled {A} (l : list A) : existsb filled (map (fun _ => EGap 0) l) = false.
Proof. induction l as [|a l IH]; [reflexivity|exact IH]. Qed.

Section NoBody.
Variables (ds : list def) (n : str) (ps : list (str * option given)) (m0 : nat) (w0 : str) (kids : list tmpl).
Hypothesis Hd : wfd b known vis [] ds.
Hypothesis Hi : In (Def m0 n None ps w0 kids) ds.
Hypothesis Hb : existsb contents kids = true.
Hypothesis Nd : NoDup (map fst ps).
Notation D := (meanings Q b lim vis ds).
Notation inst1 := (inst Q b lim D None).
Definition fresh_names : list str := map fst ps ++ flat_map writes kids.
Lemma means_self : levs [] D D.
Proof. unfold meanings. eapply learn_lev; [intros x []|intros x Hv; exact Hv|exact Hd|]. intros y f K. discriminate K. Qed.

(** The use itself, without blank lines. *)
Definition use_ok (m : nat) (p p' : list elem * store) : Prop :=
  (forall void, flat_map (ehtml void) (fst p) = blanks m ++ flat_map (ehtml void) (fst p')) /\ existsb filled (fst p) = existsb filled (fst p') /\ rel fresh_names [] (snd p) (snd p').
Lemma use_inlined m pos at1 l r1 r' : fit ps pos at1 = Some l -> rel fresh_names [] r1 r' -> ler (use_ok m) (inst1 r1 (TUse m (n, pos, at1) None)) (insts inst1 (assigns l ++ kids) r').
Proof.
  intros F (N1 & S1 & _). rewrite (insts_app _ (assigns l)). destruct (fit_names _ _ _ _ F Nd) as [Nl Il].
  pose proof (fit_vals (visible_part vis r1) r1 n ps pos at1 l F Nd (visible_sub r1)) as K0.
  pose proof (sets D None r1 l r' Nl ltac:(intros x K; apply N1, in_or_app; left; exact (Il x K)) S1) as K. cbn [inst oseq]. set (ua := inst_use Q r1 (n, pos, at1)) in *. cbn [fst].
  destruct (find_meaning n D) as [g|] eqn:Eg.
  2: { destruct ua as [vs| |]; cbn [given_by oseq ler fst snd] in *; [exact Logic.I| |exact Logic.I]. rewrite K0 in K. cbn [ler] in K. rewrite K. reflexivity. }
  destruct (find_learned Q b lim vis n ds [] g Eg) as [(p & s & m1 & bn1 & ps1 & w1 & k1 & Es & ->)|J]; [|discriminate J].
  destruct (wfd_names _ _ _ _ _ Hd) as [Nn _].
  assert (Es' : In (Def m1 n bn1 ps1 w1 k1) ds) by (rewrite Es; apply in_or_app; right; left; reflexivity).
  pose proof (same_def _ _ _ _ _ _ _ _ _ _ _ _ Nn Hi Es') as Q1. injection Q1 as <- <- <- <- <-.
  set (D0 := learned p []) in *.
  assert (LM0 : le_means D0 D).
  { unfold meanings. rewrite Es, fold_left_app. apply le_learned. apply (wfd_from p []). rewrite <- Es. exact Hd. }
  destruct ua as [vs| |]; cbn [given_by oseq mean ler] in *; [| |exact Logic.I].
  2: { rewrite K0 in K. cbn [ler] in K. rewrite K. reflexivity. }
  destruct (params Q (visible_part vis r1) ps (fst vs) (snd vs)) as [a| |]; cbn [oseq ler] in *; [|rewrite K0 in K; cbn [ler] in K; rewrite K; reflexivity|exact Logic.I].
  destruct K0 as (a' & K0 & Ka). rewrite K0 in K. destruct K as ([gs r2] & -> & K1 & K2 & K3' & K4). cbn [fst snd body_given oseq] in *. pose proof (sub_trans _ _ _ Ka K3') as K3.
  assert (B2 : both [] (a ++ visible_part vis r1) r2).
  { split; [apply sub_nil|]. intros x v. rewrite get_join. destruct (get x a) as [v1|] eqn:Ea; [intros [= <-]; exact (K3 _ _ Ea)|]. intros K. apply K2, (visible_sub r1), K. }
  pose proof (lev_insts Q b lim [] D D None means_self kids _ _ ltac:(intros x _ []) B2) as K5.
  destruct (le_insts Q b lim D0 D None LM0 kids (a ++ visible_part vis r1)) as [E2|E2]; rewrite E2; [exact Logic.I|].
  destruct (insts inst1 kids (a ++ visible_part vis r1)) as [[es2 r3]| |] eqn:E3; cbn [oseq ler] in *; [|rewrite K5; reflexivity|exact Logic.I].
  destruct K5 as ([es4 r4] & E4 & K6 & K7). rewrite E4. cbn [fst snd oseq] in *. subst es4.
  eexists. split; [reflexivity|]. split; [|split].
  - intros void. cbn [fst]. rewrite K1, !flat_map_app, gaps_none. cbn [flat_map ehtml app]. rewrite app_nil_r. f_equal.
    pose proof (bears_some void D None kids Hb _ _ _ E3) as K11. destruct (flat_map (ehtml void) es2); [congruence|reflexivity].
  - cbn [fst]. rewrite K1, existsb_app, gaps_filled, (filled_contents _ _ _ Hb _ _ _ E3). reflexivity.
  - cbn [snd]. split; [exact N1|]. split; [|apply sub_nil]. pose proof (lev_insts Q b lim r1 D D None (lev_weak r1 D D means_self) kids r2 r2) as K8. rewrite E4 in K8. cbn [ler] in K8.
    destruct K8 as (c & K9 & K10); [|split; [exact K2|apply sub_refl]|injection K9 as <-; exact (proj1 (proj2 K10))].
    intros x Hw Hr. specialize (N1 x (in_or_app _ _ _ (or_intror Hw))). pose proof (get_dom x r1) as Gd. rewrite N1 in Gd.
    assert (Gt : existsb (str_eqb x) (map fst r1) = true) by (apply existsb_exists; exists x; split; [exact Hr|apply str_eqb_refl]). rewrite Gt in Gd. discriminate Gd.
Qed.
Lemma some_kids l : assigns l ++ kids <> [].
Proof. intros J. apply app_eq_nil in J. destruct J as [_ J]. pose proof Hb as K. rewrite J in K. discriminate K. Qed.
Theorem inline_lines doc r : (forall x, In x fresh_names -> get x r = None) -> (forall x, In x fresh_names -> ~ In x (flat_map writes doc)) ->
  ler (fun p p' => forall void, flat_map (ehtml void) (fst p) = flat_map (ehtml void) (fst p')) (insts inst1 doc r) (insts inst1 (flat_map (expand n ps kids) doc) r).
Proof.
  intros H K. assert (DD : lebs D D) by (unfold meanings; apply learn_leb; intros y f J; discriminate J).
  eapply ler_weak; [apply (exp_insts true fresh_names [] D D None None (chosen n ps kids) no_block the_body true DD)|].
  - intros m h l r1 r' E B. destruct h as [[y pos] at1]. cbn [chosen] in E. destruct (str_eqb y n) eqn:En; [|discriminate E]. destruct (fit ps pos at1) as [l1|] eqn:F; [|discriminate E]. injection E as <-.
    apply str_eqb_eq in En. subst y. pose proof (use_inlined m pos at1 l1 r1 r' F B) as L. destruct (inst1 r1 (TUse m (n, pos, at1) None)) as [[es s]| |]; cbn [ler] in *; [|exact (lift_raises _ _ _ _ _ L)|exact Logic.I].
    destruct L as ([es1 s1] & L1 & L2 & L3 & L4). cbn [fst snd] in *. destruct (lift_lines D None m _ _ _ _ (some_kids l1) L1) as (es2 & Z1 & Z2 & Z3).
    exists (es2, s1). split; [exact Z1|]. split; [split; [intros void; cbn [fst]; rewrite L2, Z2; reflexivity|cbn [fst]; rewrite L3, Z3; reflexivity]|exact L4].
  - intros m h w l k r1 r2 Z. discriminate Z.
  - intros m y r1 r2 B. exact Logic.I.
  - intros m alts r1 r2 Z. discriminate Z.
  - reflexivity.
  - intros x H1. split; [intros H2; exact (K x H2 (outer_all _ _ _ _ H1))|intros []].
  - split; [exact H|]. split; [apply sub_refl|apply sub_nil].
  - intros p p' [[J _] _]. exact J.
Qed.
End NoBody.

(** ** Hypertags with a body *)
Section WithBody.
Variables (own : list str) (ds : list def) (n y0 : str) (ps : list (str * option given)) (m0 : nat) (w0 : str) (kids : list tmpl).
Hypothesis Hd : wfd b known vis [] ds.
Hypothesis Hi : In (Def m0 n (Some y0) ps w0 kids) ds.
Hypothesis Nd : NoDup (map fst ps).
Hypothesis No : forall x, In x own -> ~ In x (fresh_names ps kids).
Notation D := (meanings Q b lim vis ds).
Notation inst1 := (inst Q b lim D None).
Lemma leb_self : lebs D D.
Proof. unfold meanings. apply learn_leb. intros y f J. discriminate J. Qed.
Lemma frame_insts l r1 r2 es s : (forall x, In x (flat_map writes l) -> ~ In x (map fst r1)) -> sub r1 r2 -> insts inst1 l r2 = Is (es, s) -> sub r1 s.
Proof.
  intros A H E. pose proof (lev_insts Q b lim r1 D D None (lev_weak r1 D D (means_self ds Hd)) l r2 r2 A (conj H (sub_refl r2))) as K. rewrite E in K. cbn [ler] in K.
  destruct K as (c & K1 & K2). injection K1 as <-. exact (proj1 (proj2 K2)).
Qed.
(** The body in its place: it gives the same wherever the variables of the use are seen. *)
Lemma in_names x (r : store) : get x r = None -> ~ In x (map fst r).
Proof.
  intros H Hr. pose proof (get_dom x r) as Gd. rewrite H in Gd.
  assert (Gt : existsb (str_eqb x) (map fst r) = true) by (apply existsb_exists; exists x; split; [exact Hr|apply str_eqb_refl]). rewrite Gt in Gd. discriminate Gd.
Qed.
Lemma put_body l es s1 r1 r r2 : l <> [] -> (forall x, In x (flat_map writes l) -> In x own) -> free own r1 -> free own r -> insts inst1 l r1 = Is (es, s1) -> (forall x, In x (flat_map writes kids) -> ~ In x (map fst r1)) -> sub r1 r2 -> sub r r2 ->
  lers true (rel2 own r1) (insts (inst Q b lim D (Some es)) kids r) (insts inst1 (with_body kids l) r2).
Proof.
  intros Nl Wl O1 O2 E A S1 S2. unfold with_body. apply (exp_insts true own r1 D D (Some es) None no_use no_block (fun m _ => lift_first m l) true leb_self).
  - intros m h k r' r'' Z. discriminate Z.
  - intros m h w k k' r' r'' Z. discriminate Z.
  - intros m y r' r'' (B1 & B2 & B3). cbn [inst]. pose proof (lev_insts Q b lim [] D D None (means_self ds Hd) l r1 r'' ltac:(intros x _ []) (conj (sub_nil _) B3)) as K. rewrite E in K. cbn [ler] in K.
    destruct K as ([es' s'] & E' & K1 & _). cbn [fst] in K1. subst es'. destruct (lift_lines D None m _ _ _ _ Nl E') as (es2 & Z1 & Z2 & Z3). exists (es2, s'). split; [exact Z1|]. split.
    + split; [intros void; cbn [fst]; rewrite Z2; reflexivity|cbn [fst]; rewrite Z3; reflexivity].
    + cbn [snd]. split; [exact B1|]. split; [apply (frame_insts l r' r'' es s')|apply (frame_insts l r1 r'' es s')]; try assumption; intros x Hx; apply in_names; [apply B1|apply O1]; exact (Wl x Hx).
  - intros m alts r' r'' Z. discriminate Z.
  - reflexivity.
  - intros x Hx. apply outer_all in Hx. split; [intros Ho; apply (No x Ho), in_or_app; right; exact Hx|exact (A x Hx)].
  - split; [exact O2|]. split; assumption.
Qed.
Definition use_ok2 (m : nat) (p p' : list elem * store) : Prop :=
  (forall void, flat_map (ehtml void) (fst p) = blanks m ++ flat_map (ehtml void) (fst p')) /\ existsb filled (fst p) = existsb filled (fst p') /\ rel (fresh_names ps kids ++ own) [] (snd p) (snd p').
Lemma use_block m pos at1 w body l r1 r' : fit ps pos at1 = Some l -> rel (fresh_names ps kids ++ own) [] r1 r' -> body <> [] -> (forall x, In x (flat_map writes body) -> In x own) -> existsb contents (with_body kids body) = true ->
  lers false (use_ok2 m) (inst1 r1 (TBlock m (n, pos, at1) w body)) (insts inst1 (assigns l ++ with_body kids body) r').
Proof.
  intros F (N0 & S1 & _) Nb Wb Hb. assert (N1 : free (fresh_names ps kids) r1) by (intros x Hx; apply N0, in_or_app; left; exact Hx). assert (O1 : free own r1) by (intros x Hx; apply N0, in_or_app; right; exact Hx). rewrite (insts_app _ (assigns l)). destruct (fit_names _ _ _ _ F Nd) as [Nl Il].
  pose proof (fit_vals (visible_part vis r1) r1 n ps pos at1 l F Nd (visible_sub r1)) as K0.
  pose proof (sets D None r1 l r' Nl ltac:(intros x K; apply N1, in_or_app; left; exact (Il x K)) S1) as K. cbn [inst].
  destruct (insts inst1 body r1) as [[eb sb]| |] eqn:Eb; cbn [oseq]; [|exact Logic.I|exact Logic.I]. set (ua := inst_use Q r1 (n, pos, at1)) in *. cbn [fst].
  destruct ua as [vs| |]; cbn [oseq]; [|exact Logic.I|exact Logic.I].
  destruct (find_meaning n D) as [g|] eqn:Eg; cbn [given_by oseq]; [|exact Logic.I].
  destruct (find_learned Q b lim vis n ds [] g Eg) as [(p & s & m1 & bn1 & ps1 & w1 & k1 & Es & ->)|J]; [|discriminate J].
  destruct (wfd_names _ _ _ _ _ Hd) as [Nn _].
  assert (Es' : In (Def m1 n bn1 ps1 w1 k1) ds) by (rewrite Es; apply in_or_app; right; left; reflexivity).
  pose proof (same_def _ _ _ _ _ _ _ _ _ _ _ _ Nn Hi Es') as Q1. injection Q1 as <- <- <- <- <-.
  set (D0 := learned p []) in *.
  assert (LM0 : le_means D0 D).
  { unfold meanings. rewrite Es, fold_left_app. apply le_learned. apply (wfd_from p []). rewrite <- Es. exact Hd. }
  cbn [mean oseq] in *.
  destruct (params Q (visible_part vis r1) ps (fst vs) (snd vs)) as [a| |]; cbn [oseq ler] in *; [|exact Logic.I|exact Logic.I].
  destruct K0 as (a' & K0 & Ka). rewrite K0 in K. destruct K as ([gs r2] & -> & K1 & K2 & K3' & K4). cbn [fst snd body_given oseq] in *. pose proof (sub_trans _ _ _ Ka K3') as K3.
  assert (B2 : sub (a ++ visible_part vis r1) r2).
  { intros x v. rewrite get_join. destruct (get x a) as [v1|] eqn:Ea; [intros [= <-]; exact (K3 _ _ Ea)|]. intros K. apply K2, (visible_sub r1), K. }
  assert (Ak : forall x, In x (flat_map writes kids) -> ~ In x (map fst r1)).
  { intros x Hw Hr. specialize (N1 x (in_or_app _ _ _ (or_intror Hw))). pose proof (get_dom x r1) as Gd. rewrite N1 in Gd.
    assert (Gt : existsb (str_eqb x) (map fst r1) = true) by (apply existsb_exists; exists x; split; [exact Hr|apply str_eqb_refl]). rewrite Gt in Gd. discriminate Gd. }
  assert (O2 : free own (a ++ visible_part vis r1)).
  { intros x Hx. rewrite get_join. destruct (get x a) as [v1|] eqn:Ea.
    - exfalso. specialize (Ka _ _ Ea). apply (No x Hx), in_or_app. left. apply Il. rewrite <- (evals_names _ _ _ K0). pose proof (get_dom x a') as Gd. rewrite Ka in Gd. apply existsb_exists in Gd.
      destruct Gd as (z & Z1 & Z2). apply str_eqb_eq in Z2. subst z. exact Z1.
    - destruct (get x (visible_part vis r1)) as [v|] eqn:Ev; [|reflexivity]. apply (visible_sub r1) in Ev. rewrite (O1 x Hx) in Ev. discriminate Ev. }
  pose proof (put_body body eb sb r1 (a ++ visible_part vis r1) r2 Nb Wb O1 O2 Eb Ak K2 B2) as K5.
  destruct (le_insts Q b lim D0 D (Some eb) LM0 kids (a ++ visible_part vis r1)) as [E2|E2]; rewrite E2; [exact Logic.I|].
  destruct (insts (inst Q b lim D (Some eb)) kids (a ++ visible_part vis r1)) as [[es2 r3]| |] eqn:E3; cbn [oseq lers] in *; [|exact Logic.I|exact Logic.I].
  destruct K5 as ([es4 r4] & E4 & [K6 K6'] & (_ & _ & K7)). rewrite E4. cbn [fst snd oseq] in *.
  eexists. split; [reflexivity|]. split; [|split].
  - intros void. cbn [fst]. rewrite K1, !flat_map_app, gaps_none. cbn [flat_map ehtml app]. rewrite app_nil_r, K6. f_equal.
    pose proof (bears_some void D None _ Hb _ _ _ E4) as K11. destruct (flat_map (ehtml void) es4); [congruence|reflexivity].
  - cbn [fst]. rewrite K1, existsb_app, gaps_filled, (filled_contents _ _ _ Hb _ _ _ E4). cbn [existsb filled orb]. reflexivity.
  - cbn [snd]. split; [exact N0|]. split; [exact K7|apply sub_nil].
Qed.
Theorem block_lines doc r : (forall x, In x (fresh_names ps kids ++ own) -> get x r = None) -> (forall x, In x (fresh_names ps kids ++ own) -> ~ In x (flat_map (writes_outside own n ps kids) doc)) ->
  lers false (fun p p' => forall void, flat_map (ehtml void) (fst p) = flat_map (ehtml void) (fst p')) (insts inst1 doc r) (insts inst1 (flat_map (expand_blocks own n ps kids) doc) r).
Proof.
  intros H K. assert (G : lers false (rel2 (fresh_names ps kids ++ own) []) (insts inst1 doc r) (insts inst1 (flat_map (expand_blocks own n ps kids) doc) r)).
  { apply (exp_insts false (fresh_names ps kids ++ own) [] D D None None no_use (chosen_block own n ps kids) the_body false leb_self).
    - intros m h l r1 r2 Z. discriminate Z.
    - intros m h w body k r1 r' E B. destruct h as [[y pos] at1]. cbn [chosen_block] in E. destruct (str_eqb y n) eqn:En; [|discriminate E]. cbn [andb] in E.
      destruct body as [|t body]; [discriminate E|]. set (bo := t :: body) in *. destruct (forallb (fun x => existsb (str_eqb x) own) (flat_map writes bo)) eqn:Wb; [|discriminate E]. cbn [andb] in E.
      assert (Wo : forall x, In x (flat_map writes bo) -> In x own) by (intros x Hx; rewrite forallb_forall in Wb; specialize (Wb x Hx); apply existsb_exists in Wb; destruct Wb as (z & Z1 & Z2); apply str_eqb_eq in Z2; subst z; exact Z1).
      destruct (existsb contents (with_body kids bo)) eqn:Cb; [|discriminate E]. destruct (fit ps pos at1) as [l1|] eqn:F; [|discriminate E]. injection E as <-.
      apply str_eqb_eq in En. subst y. pose proof (use_block m pos at1 w bo l1 r1 r' F B ltac:(discriminate) Wo Cb) as L.
      destruct (inst1 r1 (TBlock m (n, pos, at1) w bo)) as [[es s]| |]; cbn [lers] in *; [|exact Logic.I|exact Logic.I].
      destruct L as ([es1 s1] & L1 & L2 & L3 & L4). cbn [fst snd] in *.
      assert (Ns : assigns l1 ++ with_body kids bo <> []) by (intros J; apply app_eq_nil in J; destruct J as [_ J]; rewrite J in Cb; discriminate Cb).
      destruct (lift_lines D None m _ _ _ _ Ns L1) as (es2 & Z1 & Z2 & Z3).
      exists (es2, s1). split; [exact Z1|]. split; [split; [intros void; cbn [fst]; rewrite L2, Z2; reflexivity|cbn [fst]; rewrite L3, Z3; reflexivity]|exact L4].
    - intros m y r1 r2 B. exact Logic.I.
    - intros m alts r1 r2 _ B. apply ler_single. pose proof (same_insts D D None None [TTry m alts] r1 r2 leb_self Logic.I (proj1 (proj2 B))) as L. cbn [insts] in L. cbn [inst] in L |- *.
      match type of L with ler _ (oseq (oseq ?x _) _) (oseq (oseq ?x' _) _) => destruct x as [e1| |], x' as [e2| |]; cbn [oseq ler fst snd] in L |- * end; try exact Logic.I; try discriminate L;
        try (destruct L as (c & L & _); discriminate L).
      destruct L as (c & L & L1 & _). injection L as <-. cbn [fst] in L1. rewrite !app_nil_r in L1. apply done_rel; [exact L1|exact B].
    - discriminate.
    - intros x H1. split; [intros H2; exact (K x H2 H1)|intros []].
    - split; [exact H|]. split; [apply sub_refl|apply sub_nil]. }
  destruct (insts inst1 doc r) as [p| |]; cbn [lers] in *; [|exact Logic.I|exact Logic.I]. destruct G as (p' & G1 & [[J _] _]). exists p'. split; [exact G1|exact J].
Qed.
End WithBody.
End Inline.
