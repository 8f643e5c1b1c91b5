(** The names of variables do not matter. *)
From Coq Require Import List NArith ZArith Bool Arith Lia String.
From Verif Require Import PyStr PyStrFacts Value PageSpec OperSpec OperParse TmplSpec TmplExpr TmplLines TmplScope TmplDoc TmplReadSpec BookSpec MoreSpec MoreFacts MoveSpec MoveFacts RenameSpec RenameFacts VarSpec.
Import ListNotations.
Local Open Scope list_scope.

Lemma oseq_ext {A B} (x y : ans A) (k l : A -> ans B) : x = y -> (forall a, k a = l a) -> oseq x k = oseq y l.
Proof. intros -> H. destruct y; [apply H|reflexivity|reflexivity]. Qed.
Lemma oseq_assoc {A B C} (x : ans A) (k : A -> ans B) (l : B -> ans C) : oseq (oseq x k) l = oseq x (fun a => oseq (k a) l).
Proof. destruct x; reflexivity. Qed.
Lemma oseq_is {A} (x : ans A) : oseq x Is = x.
Proof. destruct x; reflexivity. Qed.
Lemma omap_on {A B C} (k : B -> ans C) (l : A -> ans C) h s : Forall (fun a => k (h a) = l a) s -> omap k (map h s) = omap l s.
Proof. induction 1 as [|a s H Hs IH]; [reflexivity|]. cbn [map omap]. rewrite H. apply oseq_ext; [reflexivity|]. intros y. rewrite IH. reflexivity. Qed.
Lemma omap_back_on {A B C} (k : B -> ans C) (l : A -> ans C) h s : (forall a, k (h a) = l a) -> omap_back k (map h s) = omap_back l s.
Proof. intros H. induction s as [|a s IH]; [reflexivity|]. cbn [map omap_back]. rewrite IH. apply oseq_ext; [reflexivity|]. intros y. rewrite H. reflexivity. Qed.
Lemma ofold_on {A B C} (k : C -> B -> ans C) (l : C -> A -> ans C) h s : Forall (fun a => forall c, k c (h a) = l c a) s -> forall c, ofold k (map h s) c = ofold l s c.
Proof. induction 1 as [|a s H Hs IH]; intros c; [reflexivity|]. cbn [map ofold]. rewrite H. apply oseq_ext; [reflexivity|]. intros d. apply IH. Qed.
(** Steps that commute with a change of the state. *)
Lemma ofold_state {A B C S} (z : C -> S) (h : A -> B) (k : S -> B -> ans S) (l : C -> A -> ans C) s :
  (forall c a, k (z c) (h a) = (d <: l c a ;; Is (z d))) -> forall c, ofold k (map h s) (z c) = (d <: ofold l s c ;; Is (z d)).
Proof. intros H. induction s as [|a s IH]; intros c; [reflexivity|]. cbn [map ofold]. rewrite H, !oseq_assoc. apply oseq_ext; [reflexivity|]. intros d. cbn [oseq]. apply IH. Qed.
Lemma oloop_state {C S} (z : C -> S) t t' k l : (forall c, t' (z c) = t c) -> (forall c, k (z c) = (d <: l c ;; Is (z d))) -> forall n c, oloop t' k n (z c) = (d <: oloop t l n c ;; Is (z d)).
Proof.
  intros Ht H. induction n as [|n IH]; intros c; [reflexivity|]. cbn [oloop]. rewrite Ht, !oseq_assoc. apply oseq_ext; [reflexivity|]. intros []; [|reflexivity]. rewrite H, !oseq_assoc.
  apply oseq_ext; [reflexivity|]. intros d. cbn [oseq]. apply IH.
Qed.

Section Names.
Variables (Q : py) (f : str -> str).
Hypothesis inj : forall x y, f x = f y -> x = y.
Definition rs (r : store) : store := map (fun a => (f (fst a), snd a)) r.
Lemma eqb_new x y : str_eqb (f x) (f y) = str_eqb x y.
Proof.
  destruct (str_eqb x y) eqn:E; [apply str_eqb_eq in E; subst y; apply str_eqb_refl|]. destruct (str_eqb (f x) (f y)) eqn:K; [|reflexivity].
  apply str_eqb_eq in K. apply inj in K. subst y. rewrite str_eqb_refl in E. discriminate E.
Qed.
Lemma exists_new x l : existsb (str_eqb (f x)) (map f l) = existsb (str_eqb x) l.
Proof. induction l as [|y l IH]; [reflexivity|]. cbn [map existsb]. rewrite eqb_new, IH. reflexivity. Qed.
Lemma get_new x r : get (f x) (rs r) = get x r.
Proof. induction r as [|[y v] r IH]; [reflexivity|]. cbn [rs map get fst snd]. rewrite eqb_new. destruct (str_eqb x y); [reflexivity|exact IH]. Qed.
Lemma set_new x v r : set (f x) v (rs r) = rs (set x v r).
Proof. induction r as [|[y w] r IH]; [reflexivity|]. cbn [rs map set fst snd]. rewrite eqb_new. destruct (str_eqb x y); [reflexivity|]. cbn [map fst snd]. f_equal. exact IH. Qed.
Lemma names_new r : map fst (rs r) = map f (map fst r).
Proof. unfold rs. rewrite !map_map. reflexivity. Qed.
Lemma filter_new l r : filter (fun a : str * val => existsb (str_eqb (fst a)) (map f l)) (rs r) = rs (filter (fun a => existsb (str_eqb (fst a)) l) r).
Proof. induction r as [|[y v] r IH]; [reflexivity|]. cbn [rs map filter fst snd]. rewrite exists_new. destruct (existsb (str_eqb y) l); [cbn [map fst snd]; f_equal|]; exact IH. Qed.
Lemma keep_new r r' : keep (rs r) (rs r') = rs (keep r r').
Proof. unfold keep. rewrite names_new. apply filter_new. Qed.
Lemma unpack_new xs v r : unpack Q (map f xs) v (rs r) = (s <: unpack Q xs v r ;; Is (rs s)).
Proof.
  assert (K : forall vs xs r, fold_left (fun r (a : str * val) => match a with (x, v) => set x v r end) (combine (map f xs) vs) (rs r) = rs (fold_left (fun r (a : str * val) => match a with (x, v) => set x v r end) (combine xs vs) r)).
  { induction vs as [|w vs IH]; intros [|x ys] s; try reflexivity. cbn [map combine fold_left]. rewrite set_new. apply IH. }
  assert (L : (l <: items_of Q v ;; if Nat.eqb (List.length l) (List.length (map f xs)) then Is (fold_left (fun r a => match a with (x, v) => set x v r end) (combine (map f xs) l) (rs r)) else Raises) =
    (s <: (l <: items_of Q v ;; if Nat.eqb (List.length l) (List.length xs) then Is (fold_left (fun r a => match a with (x, v) => set x v r end) (combine xs l) r) else Raises) ;; Is (rs s))).
  { rewrite oseq_assoc. apply oseq_ext; [reflexivity|]. intros l. rewrite map_length. destruct (Nat.eqb _ _); [|reflexivity]. rewrite K. reflexivity. }
  destruct xs as [|x [|y xs]]; [exact L|cbn [map unpack oseq]; rewrite set_new; reflexivity|exact L].
Qed.

(** ** Expressions *)
Section Values.
Variable r : store.
Notation den1 := (den Q r).
Notation den2 := (den Q (rs r)).
Notation vx := (var_ex f).
Definition same_den (e : ex) : Prop := den2 (vx e) = den1 e.
Lemma same_else y : p_else same_den y -> forall d, match (match y with Some e => Some (vx e) | None => None end) with Some e => den2 e | None => Is d end = match y with Some e => den1 e | None => Is d end.
Proof. destruct y; intros H d; [exact H|reflexivity]. Qed.
Lemma same_args a : p_args same_den a -> omap (fun a : option str * ex => let (n, e) := a in v <: den2 e ;; Is (n, v)) (map (fun a : option str * ex => match a with (n, e) => (n, vx e) end) a) =
  omap (fun a : option str * ex => let (n, e) := a in v <: den1 e ;; Is (n, v)) a.
Proof. intros H. apply omap_on. eapply Forall_impl; [|exact H]. intros [n e] K. cbn [snd] in K. unfold same_den in K. rewrite K. reflexivity. Qed.
Lemma same_tail t : p_tail same_den t -> forall v, den_tail Q (rs r) (var_tail f t) v = den_tail Q r t v.
Proof.
  destruct t as [n|e|x y z|a]; intros H v; cbn [var_tail].
  - reflexivity.
  - rewrite !den_index. apply oseq_ext; [exact H|reflexivity].
  - rewrite !den_slice. destruct H as (H1 & H2 & H3). apply oseq_ext; [apply same_else, H1|]. intros a. apply oseq_ext; [apply same_else, H2|]. intros b. apply oseq_ext; [apply same_else, H3|]. reflexivity.
  - rewrite !den_call. apply oseq_ext; [apply same_args, H|reflexivity].
Qed.
Lemma same_filter t : p_filter same_den t -> forall v, den_filter Q (rs r) (var_filter f t) v = den_filter Q r t v.
Proof.
  destruct t as [g path a]. intros [H1 H2] v. cbn [var_filter]. rewrite !den_xfilter. apply oseq_ext; [exact H1|]. intros g1. apply oseq_ext; [reflexivity|]. intros g2. apply oseq_ext; [reflexivity|]. intros g3.
  apply oseq_ext; [destruct a as [a|]; [apply same_args, H2|reflexivity]|reflexivity].
Qed.
Lemma tested_ext x y : x = y -> tested Q x = tested Q y.
Proof. intros ->. reflexivity. Qed.
Lemma den_new e : den2 (vx e) = den1 e.
Proof.
  change (same_den e). induction e as [n|q x l F|q x|d|k|l F|l F|l F|l F|e l q IH F|n e l IH F|e l IH F|e l IH F|n e IH|e l IH F|e l IH F|x c' y IHx IHc IHy] using ex_all;
    unfold same_den in *; cbn [var_ex]; try reflexivity.
  - cbn [den]. rewrite get_new. reflexivity.
  - cbn [den]. apply tested_ext, oseq_ext; [|reflexivity]. apply omap_on. eapply Forall_impl; [|exact F]. intros [e z] K. cbn [fst] in K. rewrite K. reflexivity.
  - cbn [den]. apply tested_ext, oseq_ext; [apply omap_on, F|reflexivity].
  - cbn [den]. apply tested_ext, oseq_ext; [apply omap_on, F|reflexivity].
  - cbn [den]. apply tested_ext, oseq_ext; [apply omap_on, F|reflexivity].
  - rewrite !den_dict. apply tested_ext, oseq_ext; [|reflexivity]. apply omap_on. eapply Forall_impl; [|exact F]. intros [a b] [K1 K2]. cbn [fst snd] in *. rewrite K1, K2. reflexivity.
  - rewrite !den_tails. apply tested_ext. f_equal. apply oseq_ext; [exact IH|]. intros v. apply ofold_on. eapply Forall_impl; [|exact F]. intros t K a. apply same_tail, K.
  - cbn [den]. apply tested_ext, oseq_ext; [exact IH|]. intros v. apply oseq_ext; [reflexivity|]. intros w. apply ofold_on. eapply Forall_impl; [|exact F]. intros [o e1] K a. cbn [snd] in K. rewrite K. reflexivity.
  - rewrite !den_pipe. apply tested_ext, oseq_ext; [exact IH|]. intros v. apply ofold_on. eapply Forall_impl; [|exact F]. intros t K a. apply same_filter, K.
  - cbn [den]. apply tested_ext, oseq_ext; [|reflexivity]. change (vx e :: map vx l) with (map vx (e :: l)). apply omap_on. constructor; [rewrite IH; reflexivity|]. eapply Forall_impl; [|exact F]. intros a K. rewrite K. reflexivity.
  - cbn [den]. apply tested_ext, oseq_ext; [exact IH|reflexivity].
  - cbn [den]. apply tested_ext, oseq_ext; [exact IH|]. intros v. apply ofold_on. eapply Forall_impl; [|exact F]. intros e1 K a. apply oseq_ext; [reflexivity|]. intros []; [exact K|reflexivity].
  - cbn [den]. apply tested_ext, oseq_ext; [exact IH|]. intros v. apply ofold_on. eapply Forall_impl; [|exact F]. intros e1 K a. apply oseq_ext; [reflexivity|]. intros []; [reflexivity|exact K].
  - cbn [den]. apply tested_ext, oseq_ext; [exact IHc|]. intros v. apply oseq_ext; [reflexivity|]. intros []; [exact IHx|]. apply same_else, IHy.
Qed.
Lemma given_new g : den2 (given_expr (var_given f g)) = den1 (given_expr g).
Proof. destruct g; apply den_new. Qed.
Lemma trim_new x : trim (var_mixed f x) = var_mixed f (trim x).
Proof.
  destruct x as [s l]. unfold var_mixed. cbn [fst snd]. destruct l as [|[e z] l]; [reflexivity|]. cbn [map trim fst snd]. f_equal. revert e z. induction l as [|[e1 z1] l IH]; intros e z; [reflexivity|].
  change (map (fun a : ex * str => let (e0, z0) := a in (vx e0, z0)) ((e1, z1) :: l)) with ((vx e1, z1) :: map (fun a : ex * str => let (e0, z0) := a in (vx e0, z0)) l).
  change (trim_last ((vx e, z) :: (vx e1, z1) :: map (fun a : ex * str => let (e0, z0) := a in (vx e0, z0)) l)) with ((vx e, z) :: trim_last ((vx e1, z1) :: map (fun a : ex * str => let (e0, z0) := a in (vx e0, z0)) l)).
  rewrite (IH e1 z1). reflexivity.
Qed.
Lemma line_new k x : inst_line Q (rs r) k (var_mixed f x) = inst_line Q r k x.
Proof.
  unfold inst_line. rewrite trim_new. apply oseq_ext; [|reflexivity]. unfold fill. cbn [var_mixed fst snd]. apply oseq_ext; [|reflexivity]. apply omap_on, Forall_forall. intros [e z] _. rewrite den_new. reflexivity.
Qed.
Lemma text_new k i x : inst_text Q (rs r) k i (var_para f x) = inst_text Q r k i x.
Proof.
  unfold inst_text. cbn [var_para fst snd]. rewrite line_new. apply oseq_ext; [reflexivity|]. intros h. apply oseq_ext; [|reflexivity]. apply omap_on, Forall_forall. intros [[m n] y] _. rewrite line_new. reflexivity.
Qed.
Lemma word_new a : inst_word Q (rs r) (var_word f a) = inst_word Q r a.
Proof. destruct a as [s [x|e]]; [reflexivity|]. unfold inst_word. cbn [var_word fst snd]. rewrite den_new. reflexivity. Qed.
Lemma tag_new g : inst_tag Q (rs r) (var_tag f g) = inst_tag Q r g.
Proof.
  destruct g as [[n l] a]. cbn [var_tag inst_tag]. apply oseq_ext; [|reflexivity]. unfold inst_attrs. apply oseq_ext.
  - apply ofold_on, Forall_forall. intros w _ d. unfold put_word. rewrite word_new. reflexivity.
  - intros d. apply ofold_on, Forall_forall. intros [x g|k] _ c; cbn [var_attr put_attr]; [rewrite given_new; reflexivity|]. apply ofold_on, Forall_forall. intros w _ d1. unfold put_word. rewrite word_new. reflexivity.
Qed.

(** ** Arguments *)
Hypothesis sigils : forall s, f (sigil_name s) = sigil_name s.
Lemma add_new d n v : add_attr (rs d) (f n, v) = (s <: add_attr d (n, v) ;; Is (rs s)).
Proof. unfold add_attr. cbn [fst snd]. rewrite get_new. destruct (get n d) as [[]|]; try reflexivity; [destruct v; try reflexivity|]; cbn [oseq]; rewrite set_new; reflexivity. Qed.
Lemma put_word_new d a : put_word Q (rs r) (rs d) (var_word f a) = (s <: put_word Q r d a ;; Is (rs s)).
Proof.
  unfold put_word. rewrite word_new, oseq_assoc. destruct a as [s w]. unfold inst_word. cbn [fst snd]. rewrite !oseq_assoc. apply oseq_ext; [reflexivity|]. intros v. cbn [oseq].
  rewrite <- (sigils s) at 1. apply add_new.
Qed.
Lemma use_new h : inst_use Q (rs r) (var_use f h) = (p <: inst_use Q r h ;; Is (fst p, rs (snd p))).
Proof.
  destruct h as [[n pos] a]. cbn [var_use inst_use]. rewrite oseq_assoc.
  assert (E : omap (inst_given Q (rs r)) (map (var_given f) pos) = omap (inst_given Q r) pos) by (apply omap_on, Forall_forall; intros g _; apply given_new). rewrite E.
  apply oseq_ext; [reflexivity|]. intros vs. unfold inst_attrs. cbn [ofold oseq]. rewrite oseq_assoc. change (@nil (str * val)) with (rs []) at 1.
  rewrite (ofold_state rs (var_arg f) (put_attr Q (rs r)) (put_attr Q r)); [rewrite oseq_assoc; reflexivity|].
  intros d [x g|l]; cbn [var_arg put_attr]; [rewrite given_new, oseq_assoc; apply oseq_ext; [reflexivity|]; intros v; apply add_new|].
  apply ofold_state. intros c w. apply put_word_new.
Qed.
Lemma bind_new ps : forall pos kw, bind_params Q (rs r) (map (var_param f) ps) pos (rs kw) = (a <: bind_params Q r ps pos kw ;; Is (rs a)).
Proof.
  induction ps as [|[n d] ps IH]; intros pos kw; cbn [map var_param fst snd bind_params]; [destruct pos; reflexivity|]. rewrite get_new. destruct pos as [|v pos].
  - rewrite oseq_assoc. apply oseq_ext.
    + destruct (get n kw); [reflexivity|]. destruct d as [g|]; [apply given_new|reflexivity].
    + intros v. rewrite IH, !oseq_assoc. apply oseq_ext; reflexivity.
  - destruct (get n kw); [reflexivity|]. rewrite IH, !oseq_assoc. apply oseq_ext; reflexivity.
Qed.
Lemma params_new ps pos kw : params Q (rs r) (map (var_param f) ps) pos (rs kw) = (a <: params Q r ps pos kw ;; Is (rs a)).
Proof.
  unfold params. assert (E : forallb (fun a : str * val => existsb (str_eqb (fst a)) (map fst (map (var_param f) ps))) (rs kw) = forallb (fun a => existsb (str_eqb (fst a)) (map fst ps)) kw).
  { rewrite map_map. cbn [var_param fst]. rewrite <- (map_map fst f). induction kw as [|[y v] kw IH]; [reflexivity|]. cbn [rs map forallb fst snd]. rewrite exists_new. f_equal. exact IH. }
  rewrite E. destruct (forallb _ kw); [apply bind_new|reflexivity].
Qed.
End Values.
Hypothesis sigils : forall s, f (sigil_name s) = sigil_name s.

(** ** Templates *)
Variables (b : str) (lim : nat).
Definition like (x y : meaning) : Prop := forall r pos kw bd, y (rs r) pos (rs kw) bd = x r pos kw bd.
Fixpoint likes (D D' : list (str * meaning)) : Prop :=
  match D, D' with
  | [], [] => True
  | (n, x) :: D, (n', y) :: D' => n = n' /\ like x y /\ likes D D'
  | _, _ => False
  end.
Lemma find_likes n : forall D D', likes D D' -> match find_meaning n D, find_meaning n D' with Some x, Some y => like x y | None, None => True | _, _ => False end.
Proof.
  induction D as [|[k x] D IH]; intros [|[k' y] D']; cbn [likes]; try contradiction; [intros _; exact Logic.I|]. intros (<- & H & K). cbn [find_meaning]. destruct (str_eqb n k); [exact H|apply IH, K].
Qed.
Lemma fixed_new x : fixed (var_para f x) = fixed x.
Proof. destruct x as [[s [|]] [|]]; reflexivity. Qed.
Lemma text_at r k i j x : fixed x || Nat.eqb i j = true -> inst_text Q (rs r) k (i + 2) (var_para f x) = inst_text Q r k (j + 2) x.
Proof. intros H. rewrite text_new. apply orb_true_iff in H. destruct H as [H|H]; [apply fixed_text, H|]. apply Nat.eqb_eq in H. subst j. reflexivity. Qed.

Section Means.
Variables (D D' : list (str * meaning)) (bd : option (list elem)).
Hypothesis DD : likes D D'.
Notation inst1 := (inst Q b lim D bd).
Notation inst2 := (inst Q b lim D' bd).
Definition mv (p : list elem * store) : list elem * store := (fst p, rs (snd p)).
Definition moves (t : tmpl) : Prop := level f b t = true -> forall r, inst2 (rs r) (var_tmpl f t) = (p <: inst1 r t ;; Is (mv p)).
Lemma moves_kids l : Forall moves l -> forallb (level f b) l = true -> forall r, insts inst2 (map (var_tmpl f) l) (rs r) = (p <: insts inst1 l r ;; Is (mv p)).
Proof.
  induction 1 as [|t l H Hl IH]; intros S1 r; [reflexivity|]. cbn [forallb] in S1. apply andb_true_iff in S1. destruct S1 as [S1 S2].
  cbn [insts map]. rewrite (H S1), !oseq_assoc. apply oseq_ext; [reflexivity|]. intros p. cbn [oseq mv snd fst]. rewrite (IH S2), !oseq_assoc. apply oseq_ext; [reflexivity|]. intros q. reflexivity.
Qed.
Lemma use_moves {A} h (r : store) (a : list val * store) bd1 (k : list elem -> ans A) :
  (f0 <: given_by (find_meaning h D') ;; es <: f0 (rs r) (fst a) (rs (snd a)) bd1 ;; k es) = (f0 <: given_by (find_meaning h D) ;; es <: f0 r (fst a) (snd a) bd1 ;; k es).
Proof.
  pose proof (find_likes h D D' DD) as H. destruct (find_meaning h D) as [x|], (find_meaning h D') as [y|]; try contradiction; [|reflexivity]. cbn [given_by oseq]. rewrite H. reflexivity.
Qed.
Lemma inst_new t : moves t.
Proof.
  induction t as [m k x|m h x tl|m c x|m c w kids IH|m cs els IHc IHe|m xs e w kids IH|m e w kids els IH IHe|m alts IHa|m xs e|m x o e|m h c|m h w kids IH|m n] using tmpl_ind';
    intros S1 r; cbn [var_tmpl inst]; cbn [level] in S1.
  - rewrite text_new, oseq_assoc. apply oseq_ext; reflexivity.
  - reflexivity.
  - rewrite oseq_assoc. apply oseq_ext; [destruct x as [[k y]|]; [apply text_at, S1|reflexivity]|]. intros y. rewrite (omap_back_on _ (inst_tag Q r)) by (intros g; apply tag_new). rewrite oseq_assoc. apply oseq_ext; reflexivity.
  - rewrite (moves_kids _ IH S1), !oseq_assoc. apply oseq_ext; [reflexivity|]. intros p. cbn [oseq]. rewrite (omap_back_on _ (inst_tag Q r)) by (intros g; apply tag_new). rewrite oseq_assoc. apply oseq_ext; reflexivity.
  - apply andb_true_iff in S1. destruct S1 as [S1 S2].
    match goal with |- oseq ?x _ = oseq (oseq ?y _) _ => assert (K : x = (p <: y ;; Is (mv p))) end.
    { induction IHc as [|[e [w kids]] cs Hc IHc IHs].
      - cbn [map]. destruct els as [[w kids]|]; [apply moves_kids; assumption|reflexivity].
      - cbn [forallb] in S1. apply andb_true_iff in S1. destruct S1 as [S0 S1]. cbn [map]. rewrite den_new, oseq_assoc. apply oseq_ext; [reflexivity|]. intros v. rewrite oseq_assoc. apply oseq_ext; [reflexivity|].
        intros []; [apply moves_kids; assumption|exact (IHs S1)]. }
    rewrite K, !oseq_assoc. apply oseq_ext; [reflexivity|]. intros p. cbn [oseq mv fst snd]. rewrite keep_new. reflexivity.
  - rewrite den_new, !oseq_assoc. apply oseq_ext; [reflexivity|]. intros v. rewrite !oseq_assoc. apply oseq_ext; [reflexivity|]. intros vs. rewrite !oseq_assoc. change (@nil elem, rs r) with (mv ([], r)).
    rewrite <- (map_id vs) at 1. erewrite (ofold_state mv (fun v => v)).
    + rewrite oseq_assoc. apply oseq_ext; reflexivity.
    + intros p y. cbn [mv fst snd]. rewrite unpack_new, !oseq_assoc. apply oseq_ext; [reflexivity|]. intros s. cbn [oseq]. rewrite (moves_kids _ IH S1), !oseq_assoc. apply oseq_ext; [reflexivity|]. intros q. cbn [oseq mv fst snd].
      rewrite keep_new. reflexivity.
  - apply andb_true_iff in S1. destruct S1 as [S1 S2]. set (z := fun p : bool * (list elem * store) => (fst p, mv (snd p))). change (false, (@nil elem, rs r)) with (z (false, ([], r))).
    erewrite (oloop_state z).
    + rewrite !oseq_assoc. apply oseq_ext; [reflexivity|]. intros [t [es s]]. cbn [oseq z mv fst snd]. destruct t; [destruct els as [[w1 kids1]|]; reflexivity|]. destruct els as [[w1 kids1]|]; [|reflexivity].
      rewrite (moves_kids kids1 IHe S2), !oseq_assoc. apply oseq_ext; [reflexivity|]. intros q. cbn [oseq mv fst snd]. rewrite keep_new. reflexivity.
    + intros c. cbn [z mv fst snd]. rewrite den_new. reflexivity.
    + intros c. cbn [z mv fst snd]. rewrite (moves_kids _ IH S1), !oseq_assoc. apply oseq_ext; [reflexivity|]. intros q. cbn [oseq mv fst snd]. rewrite keep_new. reflexivity.
  - match goal with |- oseq ?x _ = oseq (oseq ?y _) _ => assert (K : x = y) end.
    { induction IHa as [|[w kids] alts Ha IHa IHs]; [reflexivity|]. cbn [forallb] in S1. apply andb_true_iff in S1. destruct S1 as [S0 S1]. cbn [map]. rewrite (moves_kids kids Ha S0).
      destruct (insts inst1 kids r); [reflexivity|exact (IHs S1)|reflexivity]. }
    rewrite K, oseq_assoc. apply oseq_ext; reflexivity.
  - rewrite den_new, !oseq_assoc. apply oseq_ext; [reflexivity|]. intros v. rewrite unpack_new, !oseq_assoc. apply oseq_ext; reflexivity.
  - change (XName (f x)) with (var_ex f (XName x)). rewrite !den_new, !oseq_assoc. apply oseq_ext; [reflexivity|]. intros v. rewrite oseq_assoc. apply oseq_ext; [reflexivity|]. intros a. rewrite oseq_assoc.
    apply oseq_ext; [reflexivity|]. intros y. rewrite set_new. reflexivity.
  - rewrite !oseq_assoc. apply oseq_ext.
    + destruct c as [[k x]|]; [|reflexivity]. cbn [var_content]. rewrite (text_at _ _ _ (List.length (use_text b h)) _ S1). reflexivity.
    + intros x. rewrite (use_new r sigils), !oseq_assoc. apply oseq_ext; [reflexivity|]. intros a. cbn [oseq fst snd]. replace (fst (fst (var_use f h))) with (fst (fst h)) by (destruct h as [[? ?] ?]; reflexivity).
      rewrite use_moves, !oseq_assoc. apply oseq_ext; [reflexivity|]. intros g. rewrite oseq_assoc. apply oseq_ext; reflexivity.
  - rewrite (moves_kids _ IH S1), !oseq_assoc. apply oseq_ext; [reflexivity|]. intros p. cbn [oseq mv fst snd]. rewrite (use_new r sigils), !oseq_assoc. apply oseq_ext; [reflexivity|]. intros a. cbn [oseq fst snd].
    replace (fst (fst (var_use f h))) with (fst (fst h)) by (destruct h as [[? ?] ?]; reflexivity).
    rewrite use_moves, !oseq_assoc. apply oseq_ext; [reflexivity|]. intros g. rewrite oseq_assoc. apply oseq_ext; reflexivity.
  - rewrite oseq_assoc. apply oseq_ext; reflexivity.
Qed.
Lemma insts_new l r : forallb (level f b) l = true -> insts inst2 (map (var_tmpl f) l) (rs r) = (p <: insts inst1 l r ;; Is (mv p)).
Proof. intros S1. apply moves_kids; [|exact S1]. apply Forall_forall. intros t _. apply inst_new. Qed.
End Means.

Lemma mean_new D D' vis d : likes D D' -> level_def f b d = true -> like (mean Q b lim D vis d) (mean Q b lim D' (map f vis) (var_def f d)).
Proof.
  intros H S1 r pos kw bd. destruct d as [m n bn ps w kids|m h x tl]; [|reflexivity]. cbn [level_def] in S1. cbn [var_def]. unfold mean. cbv zeta. unfold visible_part. rewrite filter_new, (params_new _), oseq_assoc.
  apply oseq_ext; [reflexivity|]. intros a. cbn [oseq]. apply oseq_ext; [destruct bn; reflexivity|]. intros b1. unfold rs at 1 2. rewrite <- map_app. rewrite (insts_new D D' b1 H kids _ S1), !oseq_assoc. apply oseq_ext; reflexivity.
Qed.
Lemma learn_new vis ds : forallb (level_def f b) ds = true -> forall D D', likes D D' -> likes (fold_left (learn Q b lim vis) ds D) (fold_left (learn Q b lim (map f vis)) (map (var_def f) ds) D').
Proof.
  induction ds as [|d ds IH]; intros S1 D D' L; [exact L|]. cbn [forallb] in S1. apply andb_true_iff in S1. destruct S1 as [S0 S1]. cbn [map fold_left]. apply (IH S1).
  destruct d as [m n bn ps w kids|m h x tl]; [|exact L]. cbn [learn var_def likes]. split; [reflexivity|]. split; [exact (mean_new D D' vis (Def m n bn ps w kids) L S0)|exact L].
Qed.
Lemma var_gaps ds : gaps (map (var_def f) ds) = gaps ds.
Proof. unfold gaps. rewrite map_map. apply map_ext. intros []; reflexivity. Qed.
Lemma var_defined ds : defined (map (var_def f) ds) = defined ds.
Proof. unfold defined. induction ds as [|d ds IH]; [reflexivity|]. cbn [map flat_map]. rewrite IH. destruct d; reflexivity. Qed.
End Names.
