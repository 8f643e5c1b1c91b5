(** Variables that are known in addition do not matter. *)
From Coq Require Import List NArith ZArith Bool Arith Lia String.
From Verif Require Import PyStr PyStrFacts Value PageSpec OperSpec OperParse TmplSpec TmplExpr TmplLines TmplScope TmplDoc TmplReadSpec BookSpec MoreSpec MoreFacts MoveSpec.
Import ListNotations.
Local Open Scope list_scope.

Definition sub (r r' : store) : Prop := forall x v, get x r = Some v -> get x r' = Some v.
Lemma sub_refl r : sub r r. Proof. intros x v H. exact H. Qed.
Lemma sub_trans r1 r2 r3 : sub r1 r2 -> sub r2 r3 -> sub r1 r3. Proof. intros H K x v E. apply K, H, E. Qed.
Lemma le_omap {A B} (f g : A -> ans B) l : Forall (fun a => le (f a) (g a)) l -> le (omap f l) (omap g l).
Proof. induction 1 as [|a l H Hl IH]; [apply le_refl|]. cbn [omap]. apply le_bind; [exact H|]. intros y. apply le_bind; [exact IH|]. intros ys. apply le_refl. Qed.
Lemma le_omap_back {A B} (f g : A -> ans B) l : (forall a, le (f a) (g a)) -> le (omap_back f l) (omap_back g l).
Proof. intros H. induction l as [|a l IH]; [apply le_refl|]. cbn [omap_back]. apply le_bind; [exact IH|]. intros y. apply le_bind; [apply H|]. intros ys. apply le_refl. Qed.
Lemma le_ofold {A B} (f g : A -> B -> ans A) l : Forall (fun v => forall a, le (f a v) (g a v)) l -> forall a, le (ofold f l a) (ofold g l a).
Proof. induction 1 as [|v l H Hl IH]; intros a; [apply le_refl|]. cbn [ofold]. apply le_bind; [apply H|exact IH]. Qed.

Section Move.
Variable Q : py.
Lemma le_tested x y : le x y -> le (tested Q x) (tested Q y).
Proof. intros H. apply le_bind; [exact H|]. intros a. apply le_refl. Qed.
Lemma le_qualify q x y : le x y -> le (qualify Q q x) (qualify Q q y).
Proof. intros [->| ->]; [|apply le_refl]. left. destruct q; reflexivity. Qed.

Section Stores.
Variables (r r' : store).
Hypothesis RR : sub r r'.
Notation den1 := (den Q r).
Notation den2 := (den Q r').
Definition le_den (e : ex) : Prop := le (den1 e) (den2 e).
Lemma le_else y : p_else le_den y -> forall d, le (match y with Some e => den1 e | None => Is d end) (match y with Some e => den2 e | None => Is d end).
Proof. destruct y; intros H d; [exact H|apply le_refl]. Qed.
Lemma le_args a : p_args le_den a -> le (omap (fun a : option str * ex => let (n, e) := a in v <: den1 e ;; Is (n, v)) a) (omap (fun a : option str * ex => let (n, e) := a in v <: den2 e ;; Is (n, v)) a).
Proof. intros H. apply le_omap. eapply Forall_impl; [|exact H]. intros [n e] K. apply le_bind; [exact K|]. intros v. apply le_refl. Qed.
Lemma le_tail t : p_tail le_den t -> forall v, le (den_tail Q r t v) (den_tail Q r' t v).
Proof.
  destruct t as [n|e|x y z|a]; intros H v.
  - apply le_refl.
  - rewrite !den_index. apply le_bind; [exact H|]. intros i. apply le_refl.
  - rewrite !den_slice. destruct H as (H1 & H2 & H3). apply le_bind; [apply le_else, H1|]. intros a. apply le_bind; [apply le_else, H2|]. intros b. apply le_bind; [apply le_else, H3|]. intros c. apply le_refl.
  - rewrite !den_call. apply le_bind; [apply le_args, H|]. intros l. apply le_refl.
Qed.
Lemma le_filter f : p_filter le_den f -> forall v, le (den_filter Q r f v) (den_filter Q r' f v).
Proof.
  destruct f as [f path a]. intros [H1 H2] v. rewrite !den_xfilter. apply le_bind; [exact H1|]. intros g. apply le_eq. intros g1. apply le_eq. intros g2.
  apply le_bind; [destruct a as [a|]; [apply le_args, H2|apply le_refl]|]. intros l. apply le_refl.
Qed.
Lemma den_le e : le (den1 e) (den2 e).
Proof.
  change (le_den e). induction e as [n|q x l F|q x|d|k|l F|l F|l F|l F|e l q IH F|n e l IH F|e l IH F|e l IH F|n e IH|e l IH F|e l IH F|x c' y IHx IHc IHy] using ex_all;
    unfold le_den in *; try apply le_refl.
  - cbn [den]. apply le_tested. destruct (get n r) as [v|] eqn:E; [|left; reflexivity]. rewrite (RR _ _ E). apply le_refl.
  - cbn [den]. apply le_tested, le_bind; [|intros a; apply le_refl]. apply le_omap. eapply Forall_impl; [|exact F]. intros [e z] K. apply le_bind; [exact K|]. intros v. apply le_refl.
  - cbn [den]. apply le_tested, le_bind; [apply le_omap, F|]. intros a. apply le_refl.
  - cbn [den]. apply le_tested, le_bind; [apply le_omap, F|]. intros a. apply le_refl.
  - cbn [den]. apply le_tested, le_bind; [apply le_omap, F|]. intros a. apply le_refl.
  - rewrite !den_dict. apply le_tested, le_bind; [|intros a; apply le_refl]. apply le_omap. eapply Forall_impl; [|exact F]. intros [a b] [K1 K2]. apply le_bind; [exact K1|]. intros v. apply le_bind; [exact K2|]. intros w. apply le_refl.
  - rewrite !den_tails. apply le_tested, le_qualify, le_bind; [exact IH|]. intros v. apply le_ofold. eapply Forall_impl; [|exact F]. intros t K a. apply le_tail, K.
  - cbn [den]. apply le_tested, le_bind; [exact IH|]. intros v. apply le_eq. intros w. apply le_ofold. eapply Forall_impl; [|exact F]. intros [o e1] K a. apply le_bind; [exact K|]. intros b. apply le_refl.
  - rewrite !den_pipe. apply le_tested, le_bind; [exact IH|]. intros v. apply le_ofold. eapply Forall_impl; [|exact F]. intros t K a. apply le_filter, K.
  - cbn [den]. apply le_tested, le_bind; [|intros a; apply le_refl]. apply le_omap. constructor; [apply le_bind; [exact IH|intros v; apply le_refl]|]. eapply Forall_impl; [|exact F]. intros a K. apply le_bind; [exact K|]. intros v. apply le_refl.
  - cbn [den]. apply le_tested, le_bind; [exact IH|]. intros v. apply le_refl.
  - cbn [den]. apply le_tested, le_bind; [exact IH|]. intros v. apply le_ofold. eapply Forall_impl; [|exact F]. intros e1 K a. apply le_eq. intros []; [exact K|apply le_refl].
  - cbn [den]. apply le_tested, le_bind; [exact IH|]. intros v. apply le_ofold. eapply Forall_impl; [|exact F]. intros e1 K a. apply le_eq. intros []; [apply le_refl|exact K].
  - cbn [den]. apply le_tested, le_bind; [exact IHc|]. intros v. apply le_eq. intros []; [exact IHx|]. apply le_else, IHy.
Qed.
Lemma all_le {A} (P : A -> Prop) l : (forall a, P a) -> Forall P l.
Proof. intros H. apply Forall_forall. intros a _. apply H. Qed.
Lemma fill_le x : le (fill Q r x) (fill Q r' x).
Proof. apply le_bind; [|intros a; apply le_refl]. apply le_omap, all_le. intros [e z]. apply le_bind; [apply den_le|]. intros v. apply le_refl. Qed.
Lemma line_le k x : le (inst_line Q r k x) (inst_line Q r' k x).
Proof. apply le_bind; [apply fill_le|]. intros a. apply le_refl. Qed.
Lemma text_le k n x : le (inst_text Q r k n x) (inst_text Q r' k n x).
Proof.
  apply le_bind; [apply line_le|]. intros h. apply le_bind; [|intros a; apply le_refl]. apply le_omap, all_le. intros [[a c] y]. apply le_bind; [apply line_le|]. intros t. apply le_refl.
Qed.
Lemma word_le d a : le (put_word Q r d a) (put_word Q r' d a).
Proof.
  apply le_bind; [|intros c; apply le_refl]. apply le_bind; [|intros c; apply le_refl]. destruct (snd a); [apply le_refl|apply den_le].
Qed.
Lemma attr_le d a : le (put_attr Q r d a) (put_attr Q r' d a).
Proof. destruct a as [n g|l]; [apply le_bind; [apply den_le|intros v; apply le_refl]|]. apply le_fold. intros e v. apply word_le. Qed.
Lemma attrs_le l a : le (inst_attrs Q r l a) (inst_attrs Q r' l a).
Proof. apply le_bind; [apply le_fold; intros e v; apply word_le|]. intros d. apply le_fold. intros e v. apply attr_le. Qed.
Lemma tag_le g : le (inst_tag Q r g) (inst_tag Q r' g).
Proof. destruct g as [[n l] a]. apply le_bind; [apply attrs_le|]. intros d. apply le_refl. Qed.
Lemma use_le h : le (inst_use Q r h) (inst_use Q r' h).
Proof. destruct h as [[n pos] a]. apply le_bind; [apply le_omap, all_le; intros g; apply den_le|]. intros p. apply le_bind; [apply attrs_le|]. intros kw. apply le_refl. Qed.
Lemma bind_le ps : forall pos kw, le (bind_params Q r ps pos kw) (bind_params Q r' ps pos kw).
Proof.
  induction ps as [|[n d] ps IH]; intros pos kw; [apply le_refl|]. cbn [bind_params]. destruct pos as [|v pos].
  - apply le_bind; [|intros v; apply le_bind; [apply IH|intros a; apply le_refl]]. destruct (get n kw); [apply le_refl|]. destruct d; [apply den_le|apply le_refl].
  - destruct (get n kw); [apply le_refl|]. apply le_bind; [apply IH|]. intros a. apply le_refl.
Qed.
Lemma params_le ps pos kw : le (params Q r ps pos kw) (params Q r' ps pos kw).
Proof. unfold params. destruct (forallb _ kw); [apply bind_le|apply le_refl]. Qed.
End Stores.

(** Answers whose values are related, unless the first one is open. *)
Definition ler {A B} (R : A -> B -> Prop) (x : ans A) (y : ans B) : Prop :=
  match x with Open => True | Raises => y = Raises | Is a => exists c, y = Is c /\ R a c end.
Lemma ler_bind {A B A' B'} (R : A -> B -> Prop) (R' : A' -> B' -> Prop) x y f g :
  ler R x y -> (forall a c, R a c -> ler R' (f a) (g c)) -> ler R' (oseq x f) (oseq y g).
Proof. intros H K. destruct x as [a| |]; [|cbn in H; subst y; reflexivity|exact Logic.I]. destruct H as (c & -> & H). exact (K _ _ H). Qed.
Lemma le_ler {A B B'} (R : B -> B' -> Prop) (x y : ans A) f g : le x y -> (forall a, ler R (f a) (g a)) -> ler R (oseq x f) (oseq y g).
Proof. intros [->| ->] K; [exact Logic.I|]. destruct y; [apply K|reflexivity|exact Logic.I]. Qed.
Lemma ler_le {A B C} (R : A -> B -> Prop) x y (f : A -> ans C) g : ler R x y -> (forall a c, R a c -> le (f a) (g c)) -> le (oseq x f) (oseq y g).
Proof. intros H K. destruct x as [a| |]; [|cbn in H; subst y; apply le_refl|left; reflexivity]. destruct H as (c & -> & H). exact (K _ _ H). Qed.
Lemma ler_fold {A B C} (R : A -> B -> Prop) (f : A -> C -> ans A) g l : (forall a c v, R a c -> ler R (f a v) (g c v)) -> forall a c, R a c -> ler R (ofold f l a) (ofold g l c).
Proof. intros H. induction l as [|v l IH]; intros a c K; [exists c; split; [reflexivity|exact K]|]. cbn [ofold]. apply (ler_bind R); [apply H, K|exact IH]. Qed.
Lemma ler_loop {A B} (R : A -> B -> Prop) t t' s s' : (forall a c, R a c -> le (t a) (t' c)) -> (forall a c, R a c -> ler R (s a) (s' c)) ->
  forall n a c, R a c -> ler R (oloop t s n a) (oloop t' s' n c).
Proof.
  intros Ht Hs. induction n as [|n IH]; intros a c K; [exact Logic.I|]. cbn [oloop]. apply le_ler; [apply Ht, K|]. intros []; [|exists c; split; [reflexivity|exact K]].
  apply (ler_bind R); [apply Hs, K|exact IH].
Qed.

(** ** Stores *)
Lemma get_part f x (r : store) : get x (filter (fun a => f (fst a)) r) = if (f x : bool) then get x r else None.
Proof.
  induction r as [|[y v] r IH]; [destruct (f x); reflexivity|]. cbn [filter fst get]. destruct (str_eqb x y) eqn:E.
  - apply str_eqb_eq in E. subst y. destruct (f x) eqn:F; [cbn [get]; rewrite str_eqb_refl; reflexivity|exact IH].
  - destruct (f y); [cbn [get]; rewrite E; exact IH|exact IH].
Qed.
Lemma get_dom x (r : store) : existsb (str_eqb x) (map fst r) = match get x r with Some _ => true | None => false end.
Proof. induction r as [|[y v] r IH]; [reflexivity|]. cbn [map fst existsb get]. destruct (str_eqb x y); [reflexivity|exact IH]. Qed.
Lemma get_put x y v (r : store) : get x (set y v r) = if str_eqb x y then Some v else get x r.
Proof.
  induction r as [|[z w] r IH]; cbn [set get]; [reflexivity|]. destruct (str_eqb y z) eqn:E; cbn [get].
  - apply str_eqb_eq in E. subst z. destruct (str_eqb x y); reflexivity.
  - rewrite IH. destruct (str_eqb x z) eqn:F, (str_eqb x y) eqn:G; try reflexivity. apply str_eqb_eq in F, G. subst. rewrite str_eqb_refl in E. discriminate.
Qed.
Lemma get_join x (a r : store) : get x (a ++ r) = match get x a with Some v => Some v | None => get x r end.
Proof. induction a as [|[y v] a IH]; [reflexivity|]. cbn [app get]. destruct (str_eqb x y); [reflexivity|exact IH]. Qed.
Lemma sub_keep r1 r2 s1 s2 : sub r1 r2 -> sub s1 s2 -> sub (keep r1 s1) (keep r2 s2).
Proof.
  intros H K x v. unfold keep. rewrite !(get_part (fun y => existsb (str_eqb y) _)), !get_dom. destruct (get x r1) as [w|] eqn:E; [|discriminate]. rewrite (H _ _ E). apply K.
Qed.
Lemma sub_put y v r1 r2 : sub r1 r2 -> sub (set y v r1) (set y v r2).
Proof. intros H x w. rewrite !get_put. destruct (str_eqb x y); [auto|apply H]. Qed.
Lemma sub_join a r1 r2 : sub r1 r2 -> sub (a ++ r1) (a ++ r2).
Proof. intros H x v. rewrite !get_join. destruct (get x a); [auto|apply H]. Qed.
Lemma sub_visible vis vis' r1 r2 : incl vis vis' -> sub r1 r2 -> sub (visible_part vis r1) (visible_part vis' r2).
Proof.
  intros H K x v. unfold visible_part. rewrite !(get_part (fun y => existsb (str_eqb y) _)). destruct (existsb (str_eqb x) vis) eqn:E; [|discriminate].
  assert (E' : existsb (str_eqb x) vis' = true) by (apply existsb_exists in E; destruct E as (y & I1 & I2); apply existsb_exists; exists y; split; [apply H, I1|exact I2]).
  rewrite E'. apply K.
Qed.

Variables (b : str) (lim : nat).
Variable V : store.
Notation dom := (map fst V).
Lemma dom_get x v : get x V = Some v -> In x dom.
Proof.
  intros H. assert (K : existsb (str_eqb x) dom = true) by (rewrite get_dom, H; reflexivity). apply existsb_exists in K. destruct K as (y & I1 & I2). apply str_eqb_eq in I2. subst y. exact I1.
Qed.
Lemma keeps_put y v r : ~ In y dom -> sub V r -> sub V (set y v r).
Proof.
  intros N1 H x w E. rewrite get_put. destruct (str_eqb x y) eqn:F; [|apply H, E]. apply str_eqb_eq in F. subst y. destruct (N1 (dom_get _ _ E)).
Qed.
Lemma keeps_keep r s : sub V r -> sub V s -> sub V (keep r s).
Proof. intros H K x v E. unfold keep. rewrite (get_part (fun y => existsb (str_eqb y) _)), get_dom, (H _ _ E). apply K, E. Qed.
Lemma keeps_join a r : (forall x, In x (map fst a) -> ~ In x dom) -> sub V r -> sub V (a ++ r).
Proof.
  intros H K x v E. rewrite get_join. destruct (get x a) as [w|] eqn:F; [|apply K, E]. exfalso. apply (H x); [|exact (dom_get _ _ E)].
  assert (L : existsb (str_eqb x) (map fst a) = true) by (rewrite get_dom, F; reflexivity). apply existsb_exists in L. destruct L as (y & I1 & I2). apply str_eqb_eq in I2. subst y. exact I1.
Qed.
Lemma keeps_visible vis r : incl dom vis -> sub V r -> sub V (visible_part vis r).
Proof.
  intros H K x v E. unfold visible_part. rewrite (get_part (fun y => existsb (str_eqb y) _)).
  assert (E' : existsb (str_eqb x) vis = true) by (apply existsb_exists; exists x; split; [apply H, (dom_get _ _ E)|apply str_eqb_refl]). rewrite E'. apply K, E.
Qed.
(** A store and a larger one, both with the values of [V]. *)
Definition both (r r' : store) : Prop := sub V r /\ sub r r'.
Definition both2 (p p' : list elem * store) : Prop := fst p = fst p' /\ both (snd p) (snd p').
Lemma both_keep r r' s s' : both r r' -> both s s' -> both (keep r s) (keep r' s').
Proof. intros [H1 H2] [K1 K2]. split; [apply keeps_keep; assumption|apply sub_keep; assumption]. Qed.
Lemma both_unpack xs v r r' : (forall x, In x xs -> ~ In x dom) -> both r r' -> ler both (unpack Q xs v r) (unpack Q xs v r').
Proof.
  intros H B. assert (P : forall x w s s', ~ In x dom -> both s s' -> both (set x w s) (set x w s')) by (intros x w s s' N1 [K1 K2]; split; [apply keeps_put; assumption|apply sub_put, K2]).
  assert (F : forall ps s s', (forall x, In x (map fst ps) -> ~ In x dom) -> both s s' ->
    both (fold_left (fun r (a : str * val) => match a with (x, v) => set x v r end) ps s) (fold_left (fun r (a : str * val) => match a with (x, v) => set x v r end) ps s')).
  { induction ps as [|[x w] ps IH]; intros s s' N1 K; [exact K|]. cbn [fold_left]. apply IH; [intros y Hy; apply N1; right; exact Hy|]. apply P; [apply N1; left; reflexivity|exact K]. }
  assert (G : ler both (l <: items_of Q v ;; if Nat.eqb (List.length l) (List.length xs) then Is (fold_left (fun r a => match a with (x, v) => set x v r end) (combine xs l) r) else Raises)
    (l <: items_of Q v ;; if Nat.eqb (List.length l) (List.length xs) then Is (fold_left (fun r a => match a with (x, v) => set x v r end) (combine xs l) r') else Raises)).
  { apply le_ler; [apply le_refl|]. intros l. destruct (Nat.eqb _ _); [|reflexivity]. eexists. split; [reflexivity|]. apply F; [|exact B]. intros x Hx. apply H.
    apply in_map_iff in Hx. destruct Hx as ([y w] & <- & Hx). exact (in_combine_l _ _ _ _ Hx). }
  destruct xs as [|x [|x2 xs]]; [exact G| |exact G]. eexists. split; [reflexivity|]. apply P; [apply H; left; reflexivity|exact B].
Qed.

Definition lev (f g : meaning) : Prop := forall r r' pos kw bd, both r r' -> le (f r pos kw bd) (g r' pos kw bd).
Definition levs (D D' : list (str * meaning)) : Prop := forall n f, find_meaning n D = Some f -> exists g, find_meaning n D' = Some g /\ lev f g.
Section Means.
Variables (D D' : list (str * meaning)) (bd : option (list elem)).
Hypothesis DD : levs D D'.
Notation inst1 := (inst Q b lim D bd).
Notation inst2 := (inst Q b lim D' bd).
Definition apart (l : list str) : Prop := forall x, In x l -> ~ In x dom.
Lemma apart_app l l' : apart (l ++ l') -> apart l /\ apart l'.
Proof. intros H. split; intros x Hx; apply H, in_or_app; [left|right]; exact Hx. Qed.
Definition lev_block (t : tmpl) : Prop := apart (writes t) -> forall r r', both r r' -> ler both2 (inst1 r t) (inst2 r' t).
Lemma done2 es r r' : both r r' -> ler both2 (Is (es, r)) (Is (es, r')).
Proof. intros H. eexists. split; [reflexivity|split; [reflexivity|exact H]]. Qed.
Lemma lev_kids l : Forall lev_block l -> apart (flat_map writes l) -> forall r r', both r r' -> ler both2 (insts inst1 l r) (insts inst2 l r').
Proof.
  induction 1 as [|t l H Hl IH]; intros A r r' B; [apply done2, B|]. cbn [flat_map] in A. apply apart_app in A. destruct A as [A1 A2]. cbn [insts].
  apply (ler_bind both2); [apply H; assumption|]. intros p p' [K1 K2]. apply (ler_bind both2); [apply IH; assumption|]. intros q q' [K3 K4]. rewrite K1, K3. apply done2, K4.
Qed.
Lemma lev_use h k r r' (a : list val * store) x : both r r' ->
  ler both2 (f <: given_by (find_meaning h D) ;; es <: f r (fst a) (snd a) x ;; Is ([EHyper k es], r)) (f <: given_by (find_meaning h D') ;; es <: f r' (fst a) (snd a) x ;; Is ([EHyper k es], r')).
Proof.
  intros B. destruct (find_meaning h D) as [f|] eqn:Ef; [|exact Logic.I]. destruct (DD _ _ Ef) as (g & Eg & K). rewrite Eg. cbn [given_by oseq].
  apply le_ler; [apply K, B|]. intros es. apply done2, B.
Qed.
Lemma lev_inst t : lev_block t.
Proof.
  induction t as [m k x|m h x tl|m g c|m g w kids IH|m cs els IHc IHe|m xs e w kids IH|m e w kids els IH IHe|m alts IHa|m xs e|m x o e|m h c|m h w kids IH|m n] using tmpl_ind';
    intros A r r' B; cbn [inst]; cbn [writes] in A; pose proof (proj2 B) as S2.
  - apply le_ler; [apply text_le, S2|]. intros y. apply done2, B.
  - apply done2, B.
  - apply le_ler; [destruct c as [[k y]|]; [apply text_le, S2|apply le_refl]|]. intros y. apply le_ler; [apply le_omap_back; intros a; apply tag_le, S2|]. intros g'. apply done2, B.
  - apply (ler_bind both2); [apply lev_kids; assumption|]. intros p p' [K1 K2]. apply le_ler; [apply le_omap_back; intros a; apply tag_le, S2|]. intros g'. rewrite K1. apply done2, B.
  - apply apart_app in A. destruct A as [A1 A2]. apply (ler_bind both2).
    + induction IHc as [|[e [w kids]] cs Hc IHc IHs].
      * destruct els as [[w kids]|]; [apply lev_kids; assumption|apply done2, B].
      * cbn [flat_map] in A1. apply apart_app in A1. destruct A1 as [A0 A1]. apply le_ler; [apply den_le, S2|]. intros v. apply le_ler; [apply le_refl|]. intros []; [apply lev_kids; assumption|apply IHs, A1].
    + intros p p' [K1 K2]. rewrite K1. apply done2, both_keep; assumption.
  - apply apart_app in A. destruct A as [A1 A2]. apply le_ler; [apply den_le, S2|]. intros v. apply le_ler; [apply le_refl|]. intros l. apply (ler_bind both2).
    + apply ler_fold; [|split; [reflexivity|exact B]]. intros p p' y [K1 K2]. apply (ler_bind both); [apply both_unpack; assumption|]. intros s s' Bs.
      apply (ler_bind both2); [apply lev_kids; assumption|]. intros q q' [K3 K4]. rewrite K1, K3. apply done2, both_keep; assumption.
    + intros p p' [K1 K2]. rewrite K1. apply done2, K2.
  - apply apart_app in A. destruct A as [A1 A2]. apply (ler_bind (fun p p' => fst p = fst p' /\ both2 (snd p) (snd p'))).
    + apply ler_loop; [| |split; [reflexivity|split; [reflexivity|exact B]]]; intros p p' [K0 [K1 K2]].
      * apply le_bind; [apply den_le, K2|]. intros v. apply le_refl.
      * apply (ler_bind both2); [apply lev_kids; assumption|]. intros q q' [K3 K4]. eexists. split; [reflexivity|]. split; [reflexivity|]. split; [cbn [fst snd]; rewrite K1, K3; reflexivity|apply both_keep; assumption].
    + intros [f [es s]] [f' [es' s']] [K0 [K1 K2]]. cbn [fst snd] in *. subst f' es'. destruct f; [apply done2, K2|]. destruct els as [[w1 kids1]|]; [|apply done2, K2].
      apply (ler_bind both2); [apply lev_kids; assumption|]. intros q q' [K3 K4]. rewrite K3. apply done2, both_keep; assumption.
  - assert (K : le ((fix go (l : list (str * list tmpl)) : ans (list elem) :=
               match l with [] => Is [] | (_, kids) :: l => match insts inst1 kids r with Is p => Is (fst p) | Raises => go l | Open => Open end end) alts)
      ((fix go (l : list (str * list tmpl)) : ans (list elem) :=
               match l with [] => Is [] | (_, kids) :: l => match insts inst2 kids r' with Is p => Is (fst p) | Raises => go l | Open => Open end end) alts)).
    { induction IHa as [|[w kids] alts Ha IHa IHs]; [apply le_refl|]. cbn [flat_map] in A. apply apart_app in A. destruct A as [A1 A2].
      pose proof (lev_kids kids Ha A1 r r' B) as L. destruct (insts inst1 kids r) as [p| |]; cbn [ler] in L.
      - destruct L as (p' & -> & [L1 _]). rewrite L1. apply le_refl.
      - rewrite L. apply IHs, A2.
      - left. reflexivity. }
    apply le_ler; [exact K|]. intros es. apply done2, B.
  - apply le_ler; [apply den_le, S2|]. intros v. apply (ler_bind both); [apply both_unpack; assumption|]. intros s s' Bs. apply done2, Bs.
  - apply le_ler; [apply den_le, S2|]. intros v. apply le_ler; [apply (den_le r r' S2 (XName x))|]. intros a. apply le_ler; [apply le_refl|]. intros w. apply done2. split; [apply keeps_put; [apply A; left; reflexivity|exact (proj1 B)]|apply sub_put, S2].
  - apply le_ler; [destruct c as [[k y]|]; [apply le_bind; [apply text_le, S2|intros z; apply le_refl]|apply le_refl]|]. intros x. apply le_ler; [apply use_le, S2|]. intros a. apply lev_use, B.
  - apply (ler_bind both2); [apply lev_kids; assumption|]. intros p p' [K1 K2]. apply le_ler; [apply use_le, S2|]. intros a. rewrite K1. apply lev_use, B.
  - apply le_ler; [apply le_refl|]. intros es. apply done2, B.
Qed.
Lemma lev_insts l r r' : apart (flat_map writes l) -> both r r' -> ler both2 (insts inst1 l r) (insts inst2 l r').
Proof. intros A B. apply lev_kids; [|exact A|exact B]. apply Forall_forall. intros t _. apply lev_inst. Qed.
End Means.

(** ** Definitions *)
Lemma params_names r ps pos kw a : params Q r ps pos kw = Is a -> map fst a = map fst ps.
Proof.
  unfold params. destruct (forallb _ kw); [|discriminate]. revert pos a. induction ps as [|[n d] ps IH]; intros pos a; cbn [bind_params].
  - destruct pos; [intros [= <-]; reflexivity|discriminate].
  - destruct pos as [|v pos].
    + destruct (match get n kw with Some v => Is v | None => match d with Some g => inst_given Q r g | None => Raises end end) as [v| |]; try discriminate. cbn [oseq].
      destruct (bind_params Q r ps [] kw) as [a1| |] eqn:E; try discriminate. intros [= <-]. cbn [map fst]. rewrite (IH _ _ E). reflexivity.
    + destruct (get n kw); [discriminate|]. destruct (bind_params Q r ps pos kw) as [a1| |] eqn:E; try discriminate. intros [= <-]. cbn [map fst]. rewrite (IH _ _ E). reflexivity.
Qed.
Variables (vis vis' : list str).
Hypothesis Vv : incl dom vis.
Hypothesis vv : incl vis vis'.
Lemma mean_lev D D' m n bn ps w kids : levs D D' -> apart (map fst ps) -> apart (flat_map writes kids) ->
  lev (mean Q b lim D vis (Def m n bn ps w kids)) (mean Q b lim D' vis' (Def m n bn ps w kids)).
Proof.
  intros H A1 A2 r r' pos kw bd B. unfold mean. cbv zeta. assert (S2 : sub (visible_part vis r) (visible_part vis' r')) by (apply sub_visible; [exact vv|exact (proj2 B)]).
  destruct (params_le (visible_part vis r) (visible_part vis' r') S2 ps pos kw) as [E|E]; [left; rewrite E; reflexivity|]. rewrite E.
  destruct (params Q (visible_part vis' r') ps pos kw) as [a| |] eqn:Ea; [|apply le_refl|apply le_refl]. cbn [oseq]. apply le_eq. intros b1.
  apply (ler_le both2); [apply lev_insts; [exact H|exact A2|]|intros p p' [K _]; rewrite K; apply le_refl].
  split; [|apply sub_join, S2]. apply keeps_join; [|apply keeps_visible; [exact Vv|exact (proj1 B)]]. intros x Hx. apply A1. rewrite (params_names _ _ _ _ _ Ea) in Hx. exact Hx.
Qed.
Variable known : str -> option bool.
Lemma wft_writes hy bn t : forall outer own, wft b known hy bn outer own t -> forall x, In x (writes t) -> ~ In x outer.
Proof.
  assert (L : forall l, Forall (fun t => forall outer own, wft b known hy bn outer own t -> forall x, In x (writes t) -> ~ In x outer) l ->
    forall outer own, wfts b known hy bn outer own l -> forall x, In x (flat_map writes l) -> ~ In x outer).
  { induction 1 as [|t0 l H Hl IH]; intros outer own K x Hx; [contradiction|]. inversion K; subst. cbn [flat_map] in Hx. apply in_app_or in Hx. destruct Hx as [Hx|Hx]; [eapply H; eassumption|eapply IH; eassumption]. }
  assert (Bl : forall l, Forall (fun a : str * list tmpl => Forall (fun t => forall outer own, wft b known hy bn outer own t -> forall x, In x (writes t) -> ~ In x outer) (snd a)) l ->
    forall outer own, wfb b known hy bn outer own l -> forall x, In x (flat_map (fun a : str * list tmpl => match a with (_, kids) => flat_map writes kids end) l) -> ~ In x outer).
  { induction 1 as [|[w kids] l H Hl IH]; intros outer own K x Hx; [contradiction|]. inversion K; subst. cbn [flat_map] in Hx. apply in_app_or in Hx. destruct Hx as [Hx|Hx]; [eapply L; eassumption|eapply IH; eassumption]. }
  induction t as [m k x|m h x tl|m g c|m g w kids IH|m cs els IHc IHe|m xs e w kids IH|m e w kids els IH IHe|m alts IHa|m xs e|m x o e|m h c|m h w kids IH|m n] using tmpl_ind';
    intros outer own K y Hy; cbn [writes] in Hy; try contradiction; inversion K; subst.
  - intros Z. eapply L; [exact IH|eassumption|exact Hy|]. apply in_or_app. right. exact Z.
  - apply in_app_or in Hy. destruct Hy as [Hy|Hy].
    + apply (Bl (map snd cs)) with (own := own); [|assumption|].
      * clear - IHc. induction IHc; constructor; assumption.
      * clear - Hy. induction cs as [|[e [w kids]] cs IH]; [contradiction|]. cbn [flat_map map snd] in *. apply in_app_or in Hy. apply in_or_app. destruct Hy as [Hy|Hy]; [left; exact Hy|right; exact (IH Hy)].
    + destruct els as [[w kids]|]; [|contradiction]. match goal with A : wfb _ _ _ _ _ _ [(w, kids)] |- _ => inversion A; subst end. eapply L; eassumption.
  - apply in_app_or in Hy. destruct Hy as [Hy|Hy]; [|eapply L; eassumption]. match goal with A : targets_ok _ _ |- _ => exact (proj2 (proj2 A y Hy)) end.
  - apply in_app_or in Hy. destruct Hy as [Hy|Hy]; [eapply L; eassumption|]. destruct els as [[w1 kids1]|]; [|contradiction].
    match goal with A : wfb _ _ _ _ _ _ [(w1, kids1)] |- _ => inversion A; subst end. eapply L; eassumption.
  - intros Z. eapply Bl; [exact IHa|eassumption|exact Hy|]. apply in_or_app. right. exact Z.
  - match goal with A : targets_ok _ _ |- _ => exact (proj2 (proj2 A y Hy)) end.
  - match goal with A : targets_ok _ _ |- _ => exact (proj2 (proj2 A y Hy)) end.
  - intros Z. eapply L; [exact IH|eassumption|exact Hy|]. apply in_or_app. right. exact Z.
Qed.
Lemma wfts_writes hy bn l outer own : wfts b known hy bn outer own l -> forall x, In x (flat_map writes l) -> ~ In x outer.
Proof.
  revert own. induction l as [|t l IH]; intros own K x Hx; [contradiction|]. inversion K; subst. cbn [flat_map] in Hx. apply in_app_or in Hx. destruct Hx as [Hx|Hx]; [eapply wft_writes; eassumption|eapply IH; eassumption].
Qed.
Lemma learn_lev ds : forall hy D D', wfd b known vis hy ds -> levs D D' -> levs (fold_left (learn Q b lim vis) ds D) (fold_left (learn Q b lim vis') ds D').
Proof.
  induction ds as [|d ds IH]; intros hy D D' K L; [exact L|]. cbn [fold_left]. inversion K; subst; cbn [learn]; eapply IH; try eassumption.
  intros y f. cbn [find_meaning]. destruct (str_eqb y n); [|apply L]. intros [= <-]. eexists. split; [reflexivity|]. apply mean_lev; [exact L| |].
  - intros x Hx Hy. match goal with A : forall x, In x (body ++ own) -> _ |- _ => destruct (A x (in_or_app _ _ _ (or_intror Hx))) as [_ N1] end. apply N1, Vv, Hy.
  - intros x Hx Hy. eapply wfts_writes; [eassumption|exact Hx|]. apply in_or_app. right. apply Vv, Hy.
Qed.
End Move.
