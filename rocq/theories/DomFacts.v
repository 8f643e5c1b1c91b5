(** Proofs about the DOM: heap representation, traversal, selection, copying, pruning, altering. *)
From Coq Require Import List NArith Bool Sorting Lia Arith.
From Verif Require Import PyStr PyStrFacts Html HtmlSpec PyDict Value Dom DomSpec.
Import ListNotations.
Local Open Scope nat_scope.

(** ** Induction on trees *)
Section TreeInd.
  Variable Q : tree -> Prop.
  Hypothesis step : forall i f ts, Forall Q ts -> Q (T i f ts).
  Fixpoint tree_ind' (t : tree) : Q t :=
    match t with
    | T i f ts => step i f ts ((fix go (l : list tree) : Forall Q l :=
                                  match l with
                                  | [] => Forall_nil Q
                                  | x :: r => Forall_cons x (tree_ind' x) (go r)
                                  end) ts)
    end.
End TreeInd.

Lemma Forall_impl_in {A} (P R : A -> Prop) l : Forall P l -> (forall x, In x l -> P x -> R x) -> Forall R l.
Proof. intros H. induction H; intros I; constructor; [apply I; [left; reflexivity|assumption]|apply IHForall; intros; apply I; [right; assumption|assumption]]. Qed.

Lemma ids_kid t x i f ts : t = T i f ts -> In x ts -> incl (ids x) (ids t).
Proof. intros -> I j J. cbn. right. apply in_flat_map. exists x. split; assumption. Qed.

(** ** Representation *)
Lemma repr_inv h i f ts : repr h (T i f ts) ->
  nth_error h i = Some {| c_info := f; c_body := map root ts |} /\ Forall (repr h) ts.
Proof. intros R. inversion R; subst. split; assumption. Qed.

Lemma repr_frame h h' t : repr h t -> (forall i, In i (ids t) -> nth_error h' i = nth_error h i) -> repr h' t.
Proof.
  induction t as [i f ts IH] using tree_ind'. intros R F. apply repr_inv in R. destruct R as [Rc Rk]. constructor.
  - rewrite F by (left; reflexivity). assumption.
  - rewrite Forall_forall in *. intros x I. apply IH; [assumption|apply Rk; assumption|].
    intros j J. apply F. right. apply in_flat_map. exists x. split; assumption.
Qed.

Lemma repr_frames h h' ts : Forall (repr h) ts -> (forall i, In i (all_ids ts) -> nth_error h' i = nth_error h i) -> Forall (repr h') ts.
Proof.
  intros R F. rewrite Forall_forall in *. intros x I. apply repr_frame with h; [apply R; assumption|].
  intros j J. apply F. apply in_flat_map. exists x. split; assumption.
Qed.

Lemma repr_lt h t : repr h t -> forall i, In i (ids t) -> i < List.length h.
Proof.
  induction t as [i f ts IH] using tree_ind'. intros R j J. apply repr_inv in R. destruct R as [Rc Rk]. cbn in J. destruct J as [<-|J].
  - apply nth_error_Some. rewrite Rc. discriminate.
  - apply in_flat_map in J. destruct J as (x & I & J). rewrite Forall_forall in *. apply (IH x I); [apply Rk; assumption|assumption].
Qed.

Lemma reprs_lt h ts : Forall (repr h) ts -> forall i, In i (all_ids ts) -> i < List.length h.
Proof.
  intros R j J. apply in_flat_map in J. destruct J as (x & I & J). rewrite Forall_forall in R.
  apply repr_lt with x; [apply R; assumption|assumption].
Qed.

Lemma repr_app h e t : repr h t -> repr (h ++ e) t.
Proof. intros R. apply repr_frame with h; [exact R|]. intros i I. apply nth_error_app1. apply (repr_lt h t R i I). Qed.

Lemma reprs_app h e ts : Forall (repr h) ts -> Forall (repr (h ++ e)) ts.
Proof. intros R. eapply Forall_impl; [|exact R]. intros t. apply repr_app. Qed.

Lemma repr_cell h i f ts : repr h (T i f ts) -> cell_at h i = {| c_info := f; c_body := map root ts |}.
Proof. intros R. apply repr_inv in R. unfold cell_at. apply nth_error_nth, R. Qed.
Lemma repr_info h i f ts : repr h (T i f ts) -> info_at h i = f.
Proof. intros R. unfold info_at. rewrite (repr_cell _ _ _ _ R). reflexivity. Qed.
Lemma repr_body h i f ts : repr h (T i f ts) -> body_at h i = map root ts.
Proof. intros R. unfold body_at. rewrite (repr_cell _ _ _ _ R). reflexivity. Qed.
Lemma repr_info' h t : repr h t -> info_at h (root t) = label t.
Proof. destruct t. apply repr_info. Qed.
Lemma repr_kids h i f ts : repr h (T i f ts) -> Forall (repr h) ts.
Proof. intros R. apply (repr_inv _ _ _ _ R). Qed.

(** ** Heap updates *)
Lemma upd_length h i c : List.length (upd h i c) = List.length h.
Proof. revert i. induction h as [|x h IH]; intros [|i]; cbn; auto. Qed.
Lemma upd_same h i c : i < List.length h -> nth_error (upd h i c) i = Some c.
Proof. revert i. induction h as [|x h IH]; intros [|i] H; cbn in *; try lia; [reflexivity|]. apply IH. lia. Qed.
Lemma upd_other h i j c : i <> j -> nth_error (upd h i c) j = nth_error h j.
Proof. revert i j. induction h as [|x h IH]; intros [|i] [|j] H; cbn; try reflexivity; try lia. apply IH. lia. Qed.

Lemma height_T i f ts : height (T i f ts) = S (heights ts).
Proof. reflexivity. Qed.
Lemma heights_cons t ts : heights (t :: ts) = Nat.max (height t) (heights ts).
Proof. reflexivity. Qed.
Lemma heights_in ts x : In x ts -> height x <= heights ts.
Proof.
  induction ts as [|t ts IH]; intros I; [destruct I|]. rewrite heights_cons. destruct I as [->|I]; [lia|].
  specialize (IH I). lia.
Qed.

(** ** Traversal *)

(** Positions listed by a traversal of the trees numbered from [n]. *)
Section Positions.
  Variable skip : nid -> bool.
  Variable o : order.
  Definition pre_if (l : list path) : list path := match o with Pre => l | _ => [] end.
  Definition post_if (l : list path) : list path := match o with Post => l | _ => [] end.
  Fixpoint tpos (t : tree) : list path :=
    let (i, _, ts) := t in
    if skip i then []
    else pre_if [[]] ++
         (fix go (n : nat) (l : list tree) : list path :=
            match l with
            | [] => []
            | x :: r => map (cons n) (tpos x) ++ go (S n) r
            end) 0 ts
         ++ post_if [[]].
  Fixpoint fpos (n : nat) (l : list tree) : list path :=
    match l with
    | [] => []
    | x :: r => map (cons n) (tpos x) ++ fpos (S n) r
    end.
  Lemma tpos_T i f ts : tpos (T i f ts) = if skip i then [] else pre_if [[]] ++ fpos 0 ts ++ post_if [[]].
  Proof. reflexivity. Qed.
End Positions.

(** [sub] extended with the empty position of a single tree *)
Definition tsub (t : tree) (p : path) : option tree :=
  match p with [] => Some t | _ => sub (kids t) p end.
Lemma sub_cons ts n p : sub ts (n :: p) = match nth_error ts n with Some t => tsub t p | None => None end.
Proof. cbn. destruct (nth_error ts n); [|reflexivity]. destruct p; reflexivity. Qed.

Definition rootat (ts : list tree) (p : path) : option nid := option_map root (sub ts p).
Definition trootat (t : tree) (p : path) : option nid := option_map root (tsub t p).

Lemma walk_go skip o k h ts :
  (fix go (l : list nid) : out (list nid) :=
     match l with
     | [] => Done []
     | x :: r => a <~ walk skip o k h x ;; b <~ go r ;; Done (a ++ b)
     end) ts = dom_walk skip o k h ts.
Proof. induction ts as [|x r IH]; cbn; [reflexivity|]. rewrite IH. reflexivity. Qed.

Lemma walk_S skip o k h i : walk skip o (S k) h i =
  if skip i then Done []
  else l <~ dom_walk skip o k h (body_at h i) ;;
       Done ((match o with Pre => [i] | _ => [] end) ++ l ++ (match o with Post => [i] | _ => [] end)).
Proof. cbn [walk]. rewrite walk_go. reflexivity. Qed.

Definition roots_at (t : tree) (ps : list path) : list (option nid) := map (trootat t) ps.

Lemma fpos_roots skip o ts0 : forall l n,
  (forall k x, nth_error l k = Some x -> nth_error ts0 (n + k) = Some x) ->
  map (rootat ts0) (fpos skip o n l) = flat_map (fun x => map (trootat x) (tpos skip o x)) l.
Proof.
  induction l as [|x l IH]; intros n H; cbn; [reflexivity|]. rewrite map_app, IH.
  - f_equal. rewrite map_map. apply map_ext. intros p. unfold rootat, trootat. rewrite sub_cons.
    specialize (H 0 x eq_refl). rewrite Nat.add_0_r in H. rewrite H. reflexivity.
  - intros k y K. specialize (H (S k) y K). rewrite Nat.add_succ_r in H. exact H.
Qed.

Lemma walk_tpos skip o t : forall h fuel, repr h t -> height t <= fuel ->
  exists l, walk skip o fuel h (root t) = Done l /\ map Some l = map (trootat t) (tpos skip o t).
Proof.
  induction t as [i f ts IH] using tree_ind'. intros h fuel R F.
  destruct fuel as [|k]; [cbn in F; lia|]. rewrite height_T in F. cbn [root]. rewrite walk_S, tpos_T.
  destruct (skip i); [exists []; split; reflexivity|]. rewrite (repr_body _ _ _ _ R).
  apply repr_kids in R.
  assert (G : exists l, dom_walk skip o k h (map root ts) = Done l /\
                map Some l = flat_map (fun x => map (trootat x) (tpos skip o x)) ts).
  { assert (F' : heights ts <= k) by lia. clear F. induction ts as [|x ts IHt]; [exists []; split; reflexivity|].
    inversion IH; subst. inversion R; subst. rewrite heights_cons in F'.
    destruct (H1 h k H3 ltac:(lia)) as (a & Ea & Ma). destruct (IHt H2 H4 ltac:(lia)) as (b & Eb & Mb).
    exists (a ++ b). cbn. rewrite Ea. cbn. rewrite Eb. cbn. split; [reflexivity|]. rewrite map_app, Ma, Mb. reflexivity. }
  destruct G as (l & El & Ml). rewrite El. cbn [obind]. eexists. split; [reflexivity|].
  rewrite !map_app, Ml. f_equal; [destruct o; reflexivity|]. f_equal; [|destruct o; reflexivity].
  rewrite <- (fpos_roots skip o ts ts 0) by (intros; assumption). apply map_ext_in. intros p I.
  unfold trootat, rootat, tsub. destruct p as [|a p]; [|reflexivity].
  exfalso. clear - I. revert I. generalize 0. induction ts as [|x ts IHt]; intros n I; cbn in I; [exact I|].
  apply in_app_or in I. destruct I as [I|I]; [|exact (IHt _ I)]. apply in_map_iff in I. destruct I as (q & E & _). discriminate.
Qed.

Lemma dom_walk_fpos skip o ts h fuel : Forall (repr h) ts -> heights ts <= fuel ->
  exists l, dom_walk skip o fuel h (map root ts) = Done l /\ map Some l = map (rootat ts) (fpos skip o 0 ts).
Proof.
  intros R F. rewrite (fpos_roots skip o ts ts 0) by (intros; assumption).
  induction ts as [|x ts IH]; [exists []; split; reflexivity|]. inversion R; subst. rewrite heights_cons in F.
  destruct (walk_tpos skip o x h fuel H1 ltac:(lia)) as (a & Ea & Ma). destruct (IH H2 ltac:(lia)) as (b & Eb & Mb).
  exists (a ++ b). cbn. rewrite Ea. cbn. rewrite Eb. cbn. split; [reflexivity|]. rewrite map_app, Ma, Mb. reflexivity.
Qed.

(** *** Order of the positions *)
Lemma before_cons o a p q : o <> OtherOrder -> before o p q -> before o (a :: p) (a :: q).
Proof.
  intros O. destruct o; [| |contradiction]; intros [(x & r & E)|(c & b & p' & d & q' & -> & -> & L)].
  - left. exists x, r. rewrite E. reflexivity.
  - right. exists (a :: c), b, p', d, q'. repeat split. exact L.
  - left. exists x, r. rewrite E. reflexivity.
  - right. exists (a :: c), b, p', d, q'. repeat split. exact L.
Qed.

Lemma before_heads o a b p q : o <> OtherOrder -> a < b -> before o (a :: p) (b :: q).
Proof. intros O L. destruct o; [| |contradiction]; right; exists [], a, p, b, q; repeat split; exact L. Qed.

Lemma sorted_app {A} (R : A -> A -> Prop) l m : StronglySorted R l -> StronglySorted R m ->
  (forall x y, In x l -> In y m -> R x y) -> StronglySorted R (l ++ m).
Proof.
  intros L M H. induction L as [|x l L IH F]; cbn; [exact M|]. constructor.
  - apply IH. intros; apply H; [right; assumption|assumption].
  - rewrite Forall_forall in *. intros y I. apply in_app_or in I. destruct I as [I|I]; [apply F; exact I|].
    apply H; [left; reflexivity|exact I].
Qed.

Lemma sorted_map_cons o a l : o <> OtherOrder -> StronglySorted (before o) l -> StronglySorted (before o) (map (cons a) l).
Proof.
  intros O H. induction H as [|x l H IH F]; cbn; constructor; [exact IH|].
  rewrite Forall_forall in *. intros y I. apply in_map_iff in I. destruct I as (z & <- & I). apply before_cons; [exact O|]. apply F, I.
Qed.

Lemma fpos_head skip o l : forall n p, In p (fpos skip o n l) -> exists a q, p = a :: q /\ n <= a.
Proof.
  induction l as [|x l IH]; intros n p I; cbn in I; [destruct I|]. apply in_app_or in I. destruct I as [I|I].
  - apply in_map_iff in I. destruct I as (q & <- & _). exists n, q. split; [reflexivity|lia].
  - destruct (IH _ _ I) as (a & q & E & G). exists a, q. split; [exact E|lia].
Qed.

Lemma fpos_sorted' skip o l : o <> OtherOrder -> Forall (fun t => StronglySorted (before o) (tpos skip o t)) l ->
  forall n, StronglySorted (before o) (fpos skip o n l).
Proof.
  intros O H. induction H as [|x l Hx H IH]; intros n; cbn; [constructor|].
  apply sorted_app; [apply sorted_map_cons; assumption|apply IH|].
  intros p q P Q. apply in_map_iff in P. destruct P as (p' & <- & _). destruct (fpos_head _ _ _ _ _ Q) as (a & q' & -> & G).
  apply before_heads; [exact O|lia].
Qed.

Lemma tpos_sorted skip o t : o <> OtherOrder -> StronglySorted (before o) (tpos skip o t).
Proof.
  intros O. induction t as [i f ts IH] using tree_ind'. rewrite tpos_T. destruct (skip i); [constructor|].
  pose proof (fpos_sorted' skip o ts O IH 0) as S0.
  destruct o; [| |contradiction]; cbn.
  - rewrite app_nil_r. constructor; [exact S0|]. rewrite Forall_forall. intros p I.
    destruct (fpos_head _ _ _ _ _ I) as (a & q & -> & _). left. exists a, q. reflexivity.
  - apply sorted_app; [exact S0|repeat constructor|]. intros p q P [<-|[]].
    destruct (fpos_head _ _ _ _ _ P) as (a & p' & -> & _). left. exists a, p'. reflexivity.
Qed.

Lemma fpos_sorted skip o l n : o <> OtherOrder -> StronglySorted (before o) (fpos skip o n l).
Proof. intros O. apply fpos_sorted'; [exact O|]. rewrite Forall_forall. intros t _. apply tpos_sorted, O. Qed.

Lemma fpos_other skip ts : fpos skip OtherOrder 0 ts = [].
Proof.
  assert (H : forall t, tpos skip OtherOrder t = []).
  { induction t as [i f l IH] using tree_ind'. rewrite tpos_T. destruct (skip i); [reflexivity|]. cbn. rewrite app_nil_r.
    generalize 0. induction IH as [|x l E IH IHl]; intros n; cbn; [reflexivity|]. rewrite E, IHl. reflexivity. }
  generalize 0. induction ts as [|x l IH]; intros n; cbn; [reflexivity|]. rewrite H, IH. reflexivity.
Qed.

(** *** Completeness of the positions *)
Definition tvisited (skip : nid -> bool) (t : tree) (p : path) : Prop :=
  tsub t p <> None /\ forall q r x, p = q ++ r -> tsub t q = Some x -> skip (root x) = false.

Lemma tsub_cons t n p : tsub t (n :: p) = match nth_error (kids t) n with Some x => tsub x p | None => None end.
Proof. unfold tsub. rewrite sub_cons. reflexivity. Qed.

Lemma fpos_in skip o p l : forall n, In p (fpos skip o n l) <->
  exists k x q, p = (n + k) :: q /\ nth_error l k = Some x /\ In q (tpos skip o x).
Proof.
  induction l as [|x l IH]; intros n; cbn.
  - split; [intros []|]. intros (k & x & q & _ & E & _). destruct k; discriminate.
  - rewrite in_app_iff, in_map_iff, IH. split.
    + intros [(q & <- & I)|(k & y & q & -> & E & I)].
      * exists 0, x, q. rewrite Nat.add_0_r. repeat split. exact I.
      * exists (S k), y, q. rewrite Nat.add_succ_r. repeat split; assumption.
    + intros (k & y & q & -> & E & I). destruct k as [|k].
      * left. injection E as <-. exists q. rewrite Nat.add_0_r. split; [reflexivity|exact I].
      * right. exists k, y, q. rewrite Nat.add_succ_r. repeat split; assumption.
Qed.

Lemma tvisited_cons skip t n q : tvisited skip t (n :: q) <->
  skip (root t) = false /\ exists x, nth_error (kids t) n = Some x /\ tvisited skip x q.
Proof.
  unfold tvisited. rewrite tsub_cons. split.
  - intros (S & V). split.
    + apply (V [] (n :: q) t); reflexivity.
    + destruct (nth_error (kids t) n) as [x|] eqn:E; [|congruence]. exists x. split; [reflexivity|]. split; [exact S|].
      intros q' r y -> Q. apply (V (n :: q') r y); [reflexivity|]. rewrite tsub_cons, E. exact Q.
  - intros (Sk & x & E & S & V). rewrite E. split; [exact S|]. intros q' r y P Q. destruct q' as [|a q'].
    + injection Q as <-. exact Sk.
    + cbn in P. injection P as <- ->. rewrite tsub_cons, E in Q. apply (V q' r y); [reflexivity|exact Q].
Qed.

Lemma tpos_in skip o t : o <> OtherOrder -> forall p, In p (tpos skip o t) <-> tvisited skip t p.
Proof.
  intros O. induction t as [i f ts IH] using tree_ind'. intros p. rewrite tpos_T.
  assert (E0 : tvisited skip (T i f ts) [] <-> skip i = false).
  { unfold tvisited. cbn. split.
    - intros (_ & V). apply (V [] [] (T i f ts)); reflexivity.
    - intros H. split; [discriminate|]. intros q r x P. destruct q; [|discriminate]. intros [= <-]. exact H. }
  destruct (skip i) eqn:Sk.
  - split; [intros []|]. intros V. destruct p as [|n q].
    + apply E0 in V. congruence.
    + apply tvisited_cons in V. destruct V as [V _]. cbn in V. congruence.
  - rewrite !in_app_iff, fpos_in. destruct p as [|n q].
    + split; [intros _; apply E0; reflexivity|]. intros _. destruct o; [left; left; reflexivity|right; right; left; reflexivity|contradiction].
    + rewrite tvisited_cons. cbn [root kids]. split.
      * intros [I|[(k & x & q' & [= -> ->] & E & I)|I]]; [exfalso; destruct o; cbn in I; intuition discriminate| |exfalso; destruct o; cbn in I; intuition discriminate].
        cbn in *. split; [exact Sk|]. exists x. split; [exact E|]. rewrite Forall_forall in IH.
        apply (IH x); [apply nth_error_In with k; exact E|exact I].
      * intros (_ & x & E & V). right; left. exists n, x, q. repeat split; [exact E|]. rewrite Forall_forall in IH.
        apply (IH x); [apply nth_error_In with n; exact E|exact V].
Qed.

Lemma fpos_visited skip o ts : o <> OtherOrder -> forall p, In p (fpos skip o 0 ts) <-> visited skip ts p.
Proof.
  intros O p. rewrite fpos_in. unfold visited. split.
  - intros (k & x & q & -> & E & I). apply (tpos_in skip o x O) in I. destruct I as (S & V). cbn [Nat.add].
    rewrite sub_cons, E. split; [exact S|]. intros q' r t P Q. destruct q' as [|a q']; [discriminate|].
    cbn in P. injection P as <- ->. rewrite sub_cons, E in Q. apply (V q' r t); [reflexivity|exact Q].
  - intros (S & V). destruct p as [|n q]; [contradiction S; reflexivity|]. rewrite sub_cons in S.
    destruct (nth_error ts n) as [x|] eqn:E; [|contradiction S; reflexivity]. exists n, x, q. repeat split; [exact E|].
    apply (tpos_in skip o x O). split; [exact S|]. intros q' r t -> Q. apply (V (n :: q') r t); [reflexivity|].
    rewrite sub_cons, E. exact Q.
Qed.

Lemma walk_lists skip o ts h fuel : o <> OtherOrder -> Forall (repr h) ts -> heights ts <= fuel ->
  exists l, dom_walk skip o fuel h (map root ts) = Done l /\ lists_nodes o ts (visited skip ts) l.
Proof.
  intros O R F. destruct (dom_walk_fpos skip o ts h fuel R F) as (l & E & M). exists l. split; [exact E|].
  exists (fpos skip o 0 ts). split; [apply fpos_sorted, O|]. split; [apply fpos_visited, O|exact M].
Qed.

(** The order on positions is total and irreflexive, so a strictly sorted list of positions is
    determined by its elements. *)
Lemma before_irrefl o p : o <> OtherOrder -> ~ before o p p.
Proof.
  intros O H. assert (A : forall (q : path) x r, q <> q ++ x :: r).
  { induction q as [|a q IH]; intros x r E; cbn in E; [discriminate|]. injection E as E. exact (IH _ _ E). }
  destruct o; [| |contradiction]; destruct H as [(x & r & E)|(c & a & p' & b & q' & E1 & E2 & L)];
    try (exact (A _ _ _ E)); rewrite E1 in E2; apply app_inv_head in E2; injection E2; lia.
Qed.

(** ** Selection *)
Lemma subtree_repr h x t : repr h t -> subtree x t -> repr h x.
Proof.
  intros R Sx. induction Sx as [|x t i f ts I Sx IH]; [exact R|]. apply IH. apply repr_kids in R.
  rewrite Forall_forall in R. apply R, I.
Qed.

Lemma sub_repr h p : forall ts t, Forall (repr h) ts -> sub ts p = Some t -> repr h t.
Proof.
  induction p as [|n p IH]; intros ts t R E; [discriminate|]. cbn in E.
  destruct (nth_error ts n) as [x|] eqn:N; [|discriminate].
  assert (Rx : repr h x) by (rewrite Forall_forall in R; apply R; apply nth_error_In with n; exact N).
  destruct p as [|m p]; [injection E as <-; exact Rx|]. apply IH with (kids x); [|exact E]. destruct x. apply repr_kids in Rx. exact Rx.
Qed.

Lemma str_eqb_eq' : forall a b, str_eqb a b = true <-> a = b.
Proof. intros a b. apply str_eqb_eq. Qed.

Definition attr_ok (veq : val -> val -> bool) (d : list (str * val)) (a : str) (v : option val) : Prop :=
  exists w, dget str_eqb a d = Some w /\ match v with Some x => veq w x = true | None => True end.

Lemma test_attrs_some veq d attrs : exists b, test_attrs veq (Some d) attrs = Ok b /\
  (b = true <-> forall a v, In (a, v) attrs -> attr_ok veq d a v).
Proof.
  induction attrs as [|[a v] r (b & E & B)]; cbn.
  - exists true. split; [reflexivity|]. split; [intros _ a v []|reflexivity].
  - destruct (dget str_eqb a d) as [w|] eqn:G.
    + destruct v as [x|].
      * destruct (veq w x) eqn:V.
        -- exists b. split; [exact E|]. rewrite B. split.
           ++ intros H a' v' [[= <- <-]|I]; [|apply H; exact I]. exists w. split; assumption.
           ++ intros H a' v' I. apply H. right. exact I.
        -- exists false. split; [reflexivity|]. split; [discriminate|]. intros H.
           destruct (H a (Some x) (or_introl eq_refl)) as (w' & G' & V'). congruence.
      * exists b. split; [exact E|]. rewrite B. split.
        -- intros H a' v' [[= <- <-]|I]; [|apply H; exact I]. exists w. split; [exact G|exact Logic.I].
        -- intros H a' v' I. apply H. right. exact I.
    + exists false. split; [reflexivity|]. split; [discriminate|]. intros H.
      destruct (H a v (or_introl eq_refl)) as (w' & G' & _). congruence.
Qed.

Lemma constraint_attrs attr value attrs a v : NoDup (dkeys attrs) ->
  (In (a, v) (match attr with None => attrs | Some a => dset str_eqb a value attrs end)
   <-> criterion attr value attrs a v).
Proof.
  intros ND. unfold criterion. destruct attr as [n|].
  - assert (ND' : NoDup (dkeys (dset str_eqb n value attrs))) by (apply nodup_dset; [exact str_eqb_eq'|exact ND]).
    split.
    + intros I. apply (dget_nodup str_eqb str_eqb_eq' _ _ _ ND') in I. rewrite (dget_dset str_eqb str_eqb_eq') in I.
      destruct (str_eqb a n) eqn:E.
      * left. apply str_eqb_eq in E. injection I as <-. subst. split; reflexivity.
      * right. apply str_eqb_neq in E. split; [congruence|exact I].
    + intros [([= <-] & ->)|(NE & G)].
      * apply (dget_In str_eqb str_eqb_eq'). rewrite (dget_dset_same str_eqb str_eqb_eq'). reflexivity.
      * apply (dget_In str_eqb str_eqb_eq'). rewrite (dget_dset_other str_eqb str_eqb_eq'); [exact G|congruence].
  - split.
    + intros I. right. split; [discriminate|]. apply (dget_nodup str_eqb str_eqb_eq' _ _ _ ND I).
    + intros [(E & _)|(_ & G)]; [discriminate|]. apply (dget_In str_eqb str_eqb_eq' _ _ _ G).
Qed.

Definition tag_ok (c : ctag) (f : info) : bool :=
  match c with
  | CAny => true
  | CTag t => match n_tag f with Some t' => tag_is t t' | None => false end
  | CName n => match n_tag f with Some t' => str_eqb (t_name t') n | None => false end
  | CBadTag => false
  end.

Lemma tag_ok_spec t attr value attrs f : tag_ok (fst (constraint t attr value attrs)) f = true <-> has_tag t f.
Proof.
  unfold constraint. cbn [fst]. destruct t as [|[|c s]|t]; cbn.
  - split; reflexivity.
  - split; [discriminate|]. intros [H _]. contradiction H. reflexivity.
  - destruct (n_tag f) as [t'|].
    + rewrite str_eqb_eq. split.
      * intros E. split; [discriminate|]. exists t'. split; [reflexivity|exact E].
      * intros (_ & x & [= <-] & E). exact E.
    + split; [discriminate|]. intros (_ & x & E & _). discriminate.
  - destruct (n_tag f) as [t'|].
    + unfold tag_is. rewrite N.eqb_eq. split.
      * intros E. exists t'. split; [reflexivity|congruence].
      * intros (x & [= <-] & E). congruence.
    + split; [discriminate|]. intros (x & E & _). discriminate.
Qed.

Lemma test_spec veq t attr value attrs f : NoDup (dkeys attrs) -> testable t attr attrs f ->
  exists b, test veq f (fst (constraint t attr value attrs)) (snd (constraint t attr value attrs)) = Ok b /\
    (b = true <-> satisfies veq t attr value attrs f).
Proof.
  intros ND Te.
  assert (E : test veq f (fst (constraint t attr value attrs)) (snd (constraint t attr value attrs)) =
              if tag_ok (fst (constraint t attr value attrs)) f
              then test_attrs veq (n_kwattrs f) (snd (constraint t attr value attrs)) else Ok false) by reflexivity.
  rewrite E. clear E. pose proof (tag_ok_spec t attr value attrs f) as TO. destruct (tag_ok _ f).
  2:{ exists false. split; [reflexivity|]. split; [discriminate|]. intros [H _]. apply TO in H. discriminate. }
  assert (HT : has_tag t f) by (apply TO; reflexivity).
  unfold satisfies. destruct Te as [Te|[[-> ->]|Te]]; [| |contradiction].
  - destruct (n_kwattrs f) as [d|] eqn:K; [|congruence].
    destruct (test_attrs_some veq d (snd (constraint t attr value attrs))) as (b & E & B).
    exists b. split; [exact E|]. rewrite B. split.
    + intros H. split; [exact HT|]. intros a v C. apply (constraint_attrs attr value attrs a v ND) in C.
      destruct (H a v C) as (w & G & V). exists d, w. repeat split; assumption.
    + intros [_ H] a v C. apply (constraint_attrs attr value attrs a v ND) in C.
      destruct (H a v C) as (d' & w & [= <-] & G & V). exists w. split; assumption.
  - cbn [snd constraint]. exists true. split; [reflexivity|]. split; [|reflexivity]. intros _. split; [exact HT|].
    intros a v [[C _]|[_ C]]; discriminate.
Qed.

Lemma filter_test_spec veq o h ts t attr value attrs : Forall (repr h) ts -> NoDup (dkeys attrs) ->
  forall ps l, StronglySorted (before o) ps -> map Some l = map (rootat ts) ps ->
  (forall p x, In p ps -> sub ts p = Some x -> testable t attr attrs (label x)) ->
  exists l' ps', filter_test veq h (fst (constraint t attr value attrs)) (snd (constraint t attr value attrs)) l = Ok l' /\
    map Some l' = map (rootat ts) ps' /\ StronglySorted (before o) ps' /\
    forall p, In p ps' <-> In p ps /\ exists x, sub ts p = Some x /\ satisfies veq t attr value attrs (label x).
Proof.
  intros R ND. induction ps as [|p ps IH]; intros l So M Te.
  - destruct l; [|discriminate]. exists [], []. split; [reflexivity|]. split; [reflexivity|]. split; [constructor|]. intros p; cbn; tauto.
  - destruct l as [|i l]; [discriminate|]. cbn in M. injection M as Mi Ml. inversion So as [|? ? So' Fo]; subst.
    destruct (IH l So' Ml) as (l' & ps' & E' & M' & S' & I').
    { intros q x I. apply Te. right. exact I. }
    unfold rootat in Mi. destruct (sub ts p) as [x|] eqn:Sp; [|discriminate]. cbn in Mi. injection Mi as ->.
    assert (Lx : info_at h (root x) = label x) by (apply repr_info'; apply sub_repr with p ts; assumption).
    destruct (test_spec veq t attr value attrs (label x) ND (Te p x (or_introl eq_refl) Sp)) as (b & Eb & Bb).
    cbn [filter_test]. rewrite Lx, Eb. cbn [bind]. rewrite E'. cbn [bind]. destruct b.
    + exists (root x :: l'), (p :: ps'). split; [reflexivity|]. split.
      { cbn. rewrite M'. unfold rootat at 2. rewrite Sp. reflexivity. }
      split.
      { constructor; [exact S'|]. rewrite Forall_forall in *. intros q Q. apply Fo. apply I' in Q. apply Q. }
      intros q. cbn. rewrite I'. split.
      * intros [<-|[Q H]]; [split; [left; reflexivity|]; exists x; split; [exact Sp|apply Bb; reflexivity]|].
        split; [right; exact Q|exact H].
      * intros [[<-|Q] H]; [left; reflexivity|right; split; assumption].
    + exists l', ps'. repeat split; try assumption.
      * right. apply I', H.
      * apply I', H.
      * intros [[<-|Q] (y & Y & SY)]; [|apply I'; split; [exact Q|exists y; split; assumption]].
        exfalso. rewrite Sp in Y. injection Y as <-. apply Bb in SY. discriminate.
Qed.

Lemma visited_all ts p : visited (fun _ => false) ts p <-> sub ts p <> None.
Proof. unfold visited. split; [intros [H _]; exact H|]. intros H. split; [exact H|]. intros; reflexivity. Qed.

Lemma select_lists veq h ts t attr value attrs o fuel : o <> OtherOrder -> Forall (repr h) ts -> heights ts <= fuel ->
  NoDup (dkeys attrs) -> (forall p x, sub ts p = Some x -> testable t attr attrs (label x)) ->
  exists l, select veq fuel h (map root ts) t attr value attrs o = Done l /\
    lists_nodes o ts (fun p => exists x, sub ts p = Some x /\ satisfies veq t attr value attrs (label x)) l.
Proof.
  intros O R F ND Te. destruct (dom_walk_fpos (fun _ => false) o ts h fuel R F) as (l & E & M).
  destruct (filter_test_spec veq o h ts t attr value attrs R ND (fpos (fun _ => false) o 0 ts) l) as (l' & ps' & E' & M' & S' & I').
  - apply fpos_sorted, O.
  - exact M.
  - intros p x _. apply Te.
  - unfold select. destruct (constraint t attr value attrs) as [c cs]. rewrite E. cbn [obind fst snd] in *. rewrite E'.
    exists l'. split; [reflexivity|]. exists ps'. split; [exact S'|]. split; [|exact M'].
    intros p. rewrite I', (fpos_visited _ _ _ O), visited_all. split; [intros [_ H]; exact H|]. intros (x & Sx & H).
    split; [congruence|]. exists x. split; assumption.
Qed.

(** ** Copying *)
Lemma upd_app_mid h c c' e : upd (h ++ c :: e) (List.length h) c' = h ++ c' :: e.
Proof. induction h as [|x h IH]; cbn; [reflexivity|]. rewrite IH. reflexivity. Qed.

Lemma NoDup_app' {A} (a b : list A) : NoDup a -> NoDup b -> (forall x, In x a -> In x b -> False) -> NoDup (a ++ b).
Proof.
  intros Ha Hb D. induction Ha as [|x a N Ha IH]; cbn; [exact Hb|]. constructor.
  - rewrite in_app_iff. intros [I|I]; [contradiction|]. apply (D x); [left; reflexivity|exact I].
  - apply IH. intros y I. apply D. right. exact I.
Qed.

Lemma NoDup_app_inv {A} (a b : list A) : NoDup (a ++ b) -> NoDup a /\ NoDup b /\ (forall x, In x a -> In x b -> False).
Proof.
  induction a as [|x a IH]; cbn; intros H; [split; [constructor|]; split; [exact H|intros x []]|].
  inversion H as [|? ? N H']; subst. destruct (IH H') as (Ha & Hb & D). rewrite in_app_iff in N. split.
  - constructor; [tauto|exact Ha].
  - split; [exact Hb|]. intros y [<-|I] J; [tauto|]. exact (D y I J).
Qed.

Definition copied (h : heap) (ts : list tree) (e : heap) (ts' : list tree) : Prop :=
  Forall (repr (h ++ e)) ts' /\ map erase ts' = map erase ts /\
  (forall i, In i (all_ids ts') -> List.length h <= i) /\ NoDup (all_ids ts').

Lemma hmap_copy k ts : (forall t h, In t ts -> repr h t -> exists e t',
    copy k (root t) h = (Done (root t'), h ++ e) /\ copied h [t] e [t']) ->
  forall h, Forall (repr h) ts -> exists e ts', hmap (copy k) (map root ts) h = (Done (map root ts'), h ++ e) /\ copied h ts e ts'.
Proof.
  induction ts as [|t ts IH]; intros H h R.
  - exists [], []. cbn. rewrite app_nil_r. split; [reflexivity|]. repeat split; try constructor. intros i [].
  - inversion R as [|? ? Rt Rts]; subst.
    destruct (H t h (or_introl eq_refl) Rt) as (e1 & t' & E1 & C1). destruct C1 as (R1 & S1 & I1 & N1).
    destruct (IH (fun x h I => H x h (or_intror I)) (h ++ e1)) as (e2 & ts' & E2 & (R2 & S2 & I2 & N2)).
    { apply reprs_app. exact Rts. }
    exists (e1 ++ e2), (t' :: ts'). cbn [map hmap]. unfold hbind. rewrite E1, E2. rewrite <- app_assoc. split; [reflexivity|].
    rewrite <- app_assoc in R2.
    inversion R1 as [|? ? R1' _]; subst. unfold all_ids in *. cbn [flat_map] in *. rewrite app_nil_r in I1, N1. split.
    + constructor; [|exact R2]. rewrite app_assoc. apply repr_app. exact R1'.
    + split; [cbn in S1 |- *; injection S1 as ->; rewrite S2; reflexivity|]. split.
      * intros i J. apply in_app_or in J. destruct J as [J|J]; [apply I1; exact J|]. apply I2 in J. rewrite app_length in J. lia.
      * apply NoDup_app'; [exact N1|exact N2|]. intros i J K. apply I2 in K. apply (repr_lt _ _ R1') in J. lia.
Qed.

Lemma copy_spec t : forall k h, repr h t -> height t <= k ->
  exists e t', copy k (root t) h = (Done (root t'), h ++ e) /\ copied h [t] e [t'].
Proof.
  induction t as [i f ts IH] using tree_ind'. intros k h R F. destruct k as [|k]; [cbn in F; lia|].
  rewrite height_T in F. cbn [copy root].
  pose proof (repr_cell _ _ _ _ R) as Ec. pose proof (repr_app h [cell_at h i] _ R) as R1.
  pose proof (repr_body _ _ _ _ R1) as Eb. pose proof (repr_kids _ _ _ _ R1) as Rk.
  destruct (hmap_copy k ts) with (h := h ++ [cell_at h i]) as (e & ts' & E & (R2 & S2 & I2 & N2)).
  { intros t h' I R'. rewrite Forall_forall in IH. apply (IH t I); [exact R'|]. pose proof (heights_in ts t I). lia. }
  { exact Rk. }
  unfold hbind. rewrite Eb, E. rewrite Ec. unfold put_body.
  assert (Hi : info_at ((h ++ [cell_at h i]) ++ e) (List.length h) = f).
  { unfold info_at, cell_at at 1. rewrite <- app_assoc. rewrite app_nth2 by lia. rewrite Nat.sub_diag. cbn. rewrite Ec. reflexivity. }
  rewrite Ec in Hi. rewrite Hi.
  exists ({| c_info := f; c_body := map root ts' |} :: e), (T (List.length h) f ts').
  split. { rewrite <- app_assoc. cbn [app]. rewrite upd_app_mid. reflexivity. }
  rewrite app_length in I2. cbn in I2. unfold copied. unfold all_ids in *. cbn [flat_map ids]. rewrite app_nil_r. split.
  - constructor; [|constructor]. constructor.
    + rewrite nth_error_app2 by lia. rewrite Nat.sub_diag. reflexivity.
    + apply repr_frames with ((h ++ [cell_at h i]) ++ e); [exact R2|]. intros j J. apply I2 in J. rewrite <- app_assoc. cbn [app].
      rewrite !nth_error_app2 by lia. replace (j - List.length h) with (S (j - List.length h - 1)) by lia. reflexivity.
  - split; [cbn; rewrite S2; reflexivity|]. split.
    + intros j [<-|J]; [lia|]. apply I2 in J. lia.
    + constructor; [|exact N2]. intros J. apply I2 in J. lia.
Qed.

Lemma dom_copy_spec ts k h : Forall (repr h) ts -> heights ts <= k ->
  exists e ts', dom_copy k (map root ts) h = (Done (map root ts'), h ++ e) /\ copied h ts e ts'.
Proof.
  intros R F. apply hmap_copy; [|exact R]. intros t h' I R'. apply copy_spec; [exact R'|]. pose proof (heights_in ts t I). lia.
Qed.

(** ** Rendering depends on the shape only *)
Section RenderShape.
  Variable P : rprims.
  Fixpoint srender (s : shape) : out str :=
    let (f, ss) := s in
    render_node P f ((fix go (l : list shape) : out str :=
                        match l with
                        | [] => Done []
                        | x :: r => a <~ srender x ;; b <~ go r ;; Done (a ++ b)
                        end) ss).
  Fixpoint srenders (l : list shape) : out str :=
    match l with
    | [] => Done []
    | x :: r => a <~ srender x ;; b <~ srenders r ;; Done (a ++ b)
    end.
  Lemma srender_Sh f ss : srender (Sh f ss) = render_node P f (srenders ss).
  Proof. reflexivity. Qed.

  Lemma render_srender t : forall k h, repr h t -> height t <= k -> render P k h (root t) = srender (erase t).
  Proof.
    induction t as [i f ts IH] using tree_ind'. intros k h R F. destruct k as [|k]; [cbn in F; lia|].
    rewrite height_T in F. cbn [render root erase]. rewrite srender_Sh, (repr_info _ _ _ _ R), (repr_body _ _ _ _ R).
    f_equal. apply repr_kids in R. assert (F' : heights ts <= k) by lia. clear F.
    induction ts as [|x ts IHt]; cbn; [reflexivity|]. inversion IH; subst. inversion R; subst. rewrite heights_cons in F'.
    rewrite H1 by (assumption || lia). rewrite IHt by (assumption || lia). reflexivity.
  Qed.

  Lemma dom_render_srenders ts k h : Forall (repr h) ts -> heights ts <= k -> dom_render P k h (map root ts) = srenders (map erase ts).
  Proof.
    unfold dom_render. induction ts as [|x ts IH]; intros R F; cbn; [reflexivity|]. inversion R; subst. rewrite heights_cons in F.
    rewrite render_srender by (assumption || lia). rewrite IH by (assumption || lia). reflexivity.
  Qed.
End RenderShape.

Lemma height_erase_eq : forall t t', erase t = erase t' -> height t = height t'.
Proof.
  induction t as [i f ts IH] using tree_ind'. intros [i' f' ts'] E. cbn in E. injection E as _ E. rewrite !height_T. f_equal.
  revert ts' E. induction IH as [|x ts Hx IH IHt]; intros [|y ts'] E; cbn in E; try discriminate; [reflexivity|].
  injection E as E1 E2. rewrite !heights_cons. rewrite (Hx _ E1), (IHt _ E2). reflexivity.
Qed.
Lemma heights_erase_eq ts : forall ts', map erase ts = map erase ts' -> heights ts = heights ts'.
Proof.
  induction ts as [|x ts IH]; intros [|y ts'] E; cbn in E; try discriminate; [reflexivity|]. injection E as E1 E2.
  rewrite !heights_cons. rewrite (height_erase_eq _ _ E1), (IH _ E2). reflexivity.
Qed.

(** ** Altering *)
Lemma flatten_app a b : flatten (a ++ b) = (x <- flatten a ;; y <- flatten b ;; Ok (x ++ y)).
Proof.
  unfold flatten. induction a as [|z a IH].
  - cbn. match goal with |- ?x = _ => change x with (flatten1 (ISeq b)) end. destruct (flatten1 (ISeq b)); reflexivity.
  - cbn [app]. change (flatten1 (ISeq (z :: a ++ b))) with (p <- flatten1 z ;; q <- flatten1 (ISeq (a ++ b)) ;; Ok (p ++ q)).
    change (flatten1 (ISeq (z :: a))) with (p <- flatten1 z ;; q <- flatten1 (ISeq a) ;; Ok (p ++ q)).
    rewrite IH. destruct (flatten1 z); cbn [bind]; [|reflexivity]. destruct (flatten1 (ISeq a)); cbn [bind]; [|reflexivity].
    destruct (flatten1 (ISeq b)); cbn [bind]; [|reflexivity]. rewrite app_assoc. reflexivity.
Qed.

Lemma flatten_nodes l : flatten (map INode l) = Ok l.
Proof.
  induction l as [|x l IH]; [reflexivity|]. change (map INode (x :: l)) with ([INode x] ++ map INode l). rewrite flatten_app, IH. reflexivity.
Qed.

Lemma subtree_ids x t : subtree x t -> incl (ids x) (ids t).
Proof.
  intros Sx. induction Sx as [|x t i f ts I Sx IH]; [apply incl_refl|]. intros j J. cbn. right. apply in_flat_map.
  exists t. split; [exact I|apply IH, J].
Qed.

Lemma NoDup_flat_map_in {A B} (f : A -> list B) l x : NoDup (flat_map f l) -> In x l -> NoDup (f x).
Proof.
  induction l as [|y l IH]; cbn; intros H I; [destruct I|]. apply NoDup_app_inv in H. destruct H as (H1 & H2 & _).
  destruct I as [->|I]; [exact H1|apply IH; assumption].
Qed.

Section AlterFacts.
  Variable transform : nid -> hm (list ditem).
  Variable skip : nid -> bool.
  Variable g : tree -> list tree.
  (** trees on which the transform function does not fail *)
  Variable ok : tree -> Prop.
  Hypothesis transform_g : forall h t, repr h t -> ok t -> transform (root t) h = (Done (map INode (map root (g t))), h).
  Hypothesis g_sel : selective g.

  Lemma g_repr h t : repr h t -> NoDup (ids t) -> Forall (repr h) (g t).
  Proof.
    intros R ND. destruct (g_sel t ND) as [Hs _]. rewrite Forall_forall in *. intros x I. apply subtree_repr with t; [exact R|]. apply Hs, I.
  Qed.
  Lemma g_ids t : NoDup (ids t) -> incl (all_ids (g t)) (ids t) /\ NoDup (all_ids (g t)).
  Proof.
    intros ND. destruct (g_sel t ND) as [Hs HN]. split; [|exact HN]. intros j J. apply in_flat_map in J. destruct J as (x & I & J).
    rewrite Forall_forall in Hs. apply (subtree_ids x t (Hs x I) j J).
  Qed.

  Lemma flat_map_ids_sub {A} (fs gs : A -> list nid) l :
    (forall x, In x l -> incl (gs x) (fs x) /\ NoDup (gs x)) -> NoDup (flat_map fs l) ->
    incl (flat_map gs l) (flat_map fs l) /\ NoDup (flat_map gs l).
  Proof.
    induction l as [|x l IH]; cbn; intros H ND; [split; [intros j []|constructor]|]. apply NoDup_app_inv in ND. destruct ND as (N1 & N2 & D).
    destruct (H x (or_introl eq_refl)) as [I1 M1]. destruct (IH (fun y I => H y (or_intror I)) N2) as [I2 M2]. split.
    - intros j J. rewrite in_app_iff in *. destruct J as [J|J]; [left; apply I1, J|right; apply I2, J].
    - apply NoDup_app'; [exact M1|exact M2|]. intros j J K. apply (D j); [apply I1, J|apply I2, K].
  Qed.

  Lemma all_ids_flat_map {A} (f : A -> list tree) l : all_ids (flat_map f l) = flat_map (fun x => all_ids (f x)) l.
  Proof. unfold all_ids. induction l as [|x l IH]; cbn; [reflexivity|]. rewrite flat_map_app, IH. reflexivity. Qed.

  Lemma flat_map_g_ids ts : NoDup (all_ids ts) -> incl (all_ids (flat_map g ts)) (all_ids ts) /\ NoDup (all_ids (flat_map g ts)).
  Proof.
    intros ND. rewrite all_ids_flat_map. unfold all_ids at 2. apply flat_map_ids_sub; [|exact ND]. intros x I.
    apply g_ids. apply (NoDup_flat_map_in ids ts x ND I).
  Qed.

  Lemma replace_spec ts h : Forall (repr h) ts -> Forall ok ts ->
    replace_nodes transform (map root ts) h = (Done (map root (flat_map g ts)), h).
  Proof.
    intros R O. unfold replace_nodes.
    assert (E : hmap transform (map root ts) h = (Done (map (fun t => map INode (map root (g t))) ts), h)).
    { induction ts as [|t ts IH]; [reflexivity|]. inversion R; subst. inversion O; subst. cbn [map hmap]. unfold hbind at 1.
      rewrite transform_g by assumption. unfold hbind at 1. rewrite IH by assumption. reflexivity. }
    unfold hbind. rewrite E.
    assert (F : flatten (List.concat (map (fun t => map INode (map root (g t))) ts)) = Ok (map root (flat_map g ts))).
    { clear E R O. induction ts as [|t ts IH]; [reflexivity|]. cbn [map List.concat flat_map]. rewrite flatten_app, flatten_nodes, IH. cbn.
      rewrite map_app. reflexivity. }
    rewrite F. reflexivity.
  Qed.

  (** *** order = 'preorder' *)
  Definition inner (t : tree) : tree :=
    let (i, f, ts) := t in T i f (if skip i then ts else flat_map (bottom_up g skip) ts).
  Lemma bottom_up_inner t : bottom_up g skip t = g (inner t).
  Proof. destruct t; reflexivity. Qed.
  Lemma flat_map_inner ts : flat_map (bottom_up g skip) ts = flat_map g (map inner ts).
  Proof. induction ts as [|t ts IH]; cbn; [reflexivity|]. rewrite bottom_up_inner, IH. reflexivity. Qed.
  Lemma root_inner t : root (inner t) = root t.
  Proof. destruct t; reflexivity. Qed.
  Lemma roots_inner ts : map root (map inner ts) = map root ts.
  Proof. rewrite map_map. apply map_ext, root_inner. Qed.

  Lemma inner_ids t : NoDup (ids t) -> incl (ids (inner t)) (ids t) /\ NoDup (ids (inner t)).
  Proof.
    induction t as [i f ts IH] using tree_ind'. intros ND. cbn [inner]. destruct (skip i); [split; [apply incl_refl|exact ND]|].
    cbn [ids] in *. inversion ND as [|? ? N ND']; subst.
    assert (G : incl (all_ids (map inner ts)) (all_ids ts) /\ NoDup (all_ids (map inner ts))).
    { unfold all_ids. rewrite !flat_map_concat_map, map_map, <- !flat_map_concat_map.
      apply (flat_map_ids_sub ids (fun x => ids (inner x))); [|exact ND'].
      intros x I. rewrite Forall_forall in IH. apply IH; [exact I|]. apply (NoDup_flat_map_in ids ts x ND' I). }
    destruct G as [G1 G2]. rewrite flat_map_inner. destruct (flat_map_g_ids (map inner ts) G2) as [K1 K2]. split.
    - intros j [<-|J]; [left; reflexivity|right]. apply G1, K1, J.
    - constructor; [|exact K2]. intros J. apply N. apply G1, K1, J.
  Qed.

  (** the trees on which transform is called *)
  Fixpoint oks (t : tree) : Prop :=
    let (i, f, ts) := t in
    skip i = true \/ ((fix all (l : list tree) : Prop := match l with [] => True | x :: r => (oks x /\ ok (inner x)) /\ all r end) ts).
  Lemma oks_T i f ts : oks (T i f ts) -> skip i = true \/ Forall (fun x => oks x /\ ok (inner x)) ts.
  Proof.
    intros [H|H]; [left; exact H|right]. induction ts as [|x ts IH]; constructor; [apply H|]. apply IH, H.
  Qed.

  Definition framed (h h' : heap) (js : list nid) : Prop :=
    forall j, ~ In j js -> nth_error h' j = nth_error h j.

  Lemma hiter_frame (step : nid -> hm unit) (tr : tree -> tree -> Prop) ts :
    (forall t h, In t ts -> repr h t -> exists h' t', step (root t) h = (Done tt, h') /\ repr h' t' /\ tr t t' /\ framed h h' (ids t)
        /\ incl (ids t') (ids t)) ->
    NoDup (all_ids ts) -> forall h, Forall (repr h) ts ->
    exists h' ts', hiter step (map root ts) h = (Done tt, h') /\ Forall (repr h') ts' /\ Forall2 tr ts ts' /\ framed h h' (all_ids ts)
        /\ Forall2 (fun t t' => incl (ids t') (ids t)) ts ts'.
  Proof.
    induction ts as [|t ts IH]; intros H ND h R.
    - exists h, []. cbn. repeat split; try constructor.
    - inversion R as [|? ? Rt Rts]; subst. unfold all_ids in ND. cbn [flat_map] in ND. apply NoDup_app_inv in ND. destruct ND as (N1 & N2 & D).
      destruct (H t h (or_introl eq_refl) Rt) as (h1 & t' & E1 & R1 & T1 & F1 & I1).
      destruct (IH (fun x h I => H x h (or_intror I)) N2 h1) as (h2 & ts' & E2 & R2 & T2 & F2 & I2).
      { apply repr_frames with h; [exact Rts|]. intros j J. apply F1. intros K. exact (D j K J). }
      exists h2, (t' :: ts'). cbn [map hiter]. unfold hbind. rewrite E1, E2. split; [reflexivity|]. split.
      { constructor; [|exact R2]. apply repr_frame with h1; [exact R1|]. intros j J. apply F2. intros K. apply (D j); [apply I1, J|exact K]. }
      split; [constructor; assumption|]. split; [|constructor; assumption].
      intros j J. unfold all_ids in *. cbn [flat_map] in J. rewrite in_app_iff in J. rewrite F2 by tauto. apply F1. tauto.
  Qed.

  Lemma alter_pre t : NoDup (ids t) -> oks t -> forall k h, repr h t -> height t <= k ->
    exists h', alter transform skip Pre k (root t) h = (Done tt, h') /\ repr h' (inner t) /\ framed h h' (ids t).
  Proof.
    induction t as [i f ts IH] using tree_ind'. intros ND OK k h R F. destruct k as [|k]; [cbn in F; lia|].
    rewrite height_T in F. cbn [alter root inner]. destruct (skip i) eqn:Sk.
    { exists h. split; [reflexivity|]. split; [exact R|]. intros j _. reflexivity. }
    rewrite (repr_body _ _ _ _ R). destruct ts as [|t0 ts0].
    { cbn. exists h. split; [reflexivity|]. split; [exact R|]. intros j _. reflexivity. }
    remember (t0 :: ts0) as ts eqn:Ets. assert (NE : map root ts <> []) by (subst; discriminate).
    assert (Em : forall (x y : out unit * heap), match map root ts with [] => x | _ :: _ => y end = y).
    { intros x y. destruct (map root ts); [contradiction|reflexivity]. }
    assert (G : hbind (hiter (alter transform skip Pre k) (map root ts)) (fun _ =>
                  hbind (replace_nodes transform (map root ts)) (fun l h => (Done tt, put_body h i l))) h =
                match map root ts with [] => (Done tt, h) | _ :: _ =>
                   hbind (hiter (alter transform skip Pre k) (map root ts)) (fun _ =>
                  hbind (replace_nodes transform (map root ts)) (fun l h => (Done tt, put_body h i l))) h end)
      by (rewrite Em; reflexivity).
    assert (G2 : match map root ts with [] => (Done tt, h) | n :: l =>
                   hbind (hiter (alter transform skip Pre k) (n :: l)) (fun _ =>
                  hbind (replace_nodes transform (n :: l)) (fun l h => (Done tt, put_body h i l))) h end =
                 hbind (hiter (alter transform skip Pre k) (map root ts)) (fun _ =>
                  hbind (replace_nodes transform (map root ts)) (fun l h => (Done tt, put_body h i l))) h).
    { destruct (map root ts); [contradiction|reflexivity]. }
    rewrite G2. clear G G2 Em NE Ets. 
    apply oks_T in OK. destruct OK as [OK|OK]; [congruence|].
    cbn [ids] in ND. inversion ND as [|? ? Ni ND']; subst. pose proof (repr_kids _ _ _ _ R) as Rk.
    destruct (hiter_frame (alter transform skip Pre k) (fun t t' => t' = inner t) ts) with (h := h) as (h1 & ts' & E1 & R1 & T1 & F1 & I1).
    { intros t h' I R'. rewrite Forall_forall in IH, OK. pose proof (heights_in ts t I) as Ht.
      pose proof (NoDup_flat_map_in ids ts t ND' I) as Nt.
      destruct (IH t I Nt (proj1 (OK t I)) k h' R') as (h2 & E2 & R2 & F2); [lia|].
      exists h2, (inner t). repeat split; try assumption. apply (inner_ids t Nt). }
    { exact ND'. }
    { exact Rk. }
    assert (Et : ts' = map inner ts).
    { clear - T1. induction T1 as [|x y l l' E T1 IHT]; [reflexivity|]. cbn. rewrite E, IHT. reflexivity. }
    subst ts'. unfold hbind at 1. rewrite E1. unfold hbind. rewrite <- (roots_inner ts).
    rewrite replace_spec; [|exact R1|].
    2:{ rewrite Forall_forall in *. intros x I. apply in_map_iff in I. destruct I as (y & <- & I). apply (OK y I). }
    assert (Ni1 : nth_error h1 i = Some {| c_info := f; c_body := map root ts |}).
    { rewrite F1 by exact Ni. apply (repr_inv _ _ _ _ R). }
    assert (Ff : info_at h1 i = f). { unfold info_at, cell_at. rewrite (nth_error_nth _ _ _ Ni1). reflexivity. }
    assert (Li : i < List.length h1). { apply nth_error_Some. rewrite Ni1. discriminate. }
    assert (NDi : NoDup (all_ids (map inner ts)) /\ incl (all_ids (map inner ts)) (all_ids ts)).
    { unfold all_ids. rewrite !flat_map_concat_map, map_map, <- !flat_map_concat_map.
      destruct (flat_map_ids_sub ids (fun x => ids (inner x)) ts) as [Q1 Q2]; [|exact ND'|split; assumption].
      intros x I. apply inner_ids. apply (NoDup_flat_map_in ids ts x ND' I). }
    destruct NDi as [NDi INi]. destruct (flat_map_g_ids _ NDi) as [K1 K2].
    eexists. split; [reflexivity|]. unfold put_body. rewrite Ff. rewrite flat_map_inner. split.
    - constructor.
      + rewrite upd_same by exact Li. reflexivity.
      + apply repr_frames with h1.
        * rewrite Forall_forall. intros x I. apply in_flat_map in I. destruct I as (y & Iy & Ix).
          assert (Ry : Forall (repr h1) (g y)).
          { apply g_repr; [rewrite Forall_forall in R1; apply R1, Iy|]. apply (NoDup_flat_map_in ids _ y NDi Iy). }
          rewrite Forall_forall in Ry. apply Ry, Ix.
        * intros j J. apply upd_other. intros <-. apply Ni. apply INi, K1, J.
    - intros j J. cbn [ids] in J. rewrite upd_other by (intros <-; apply J; left; reflexivity). apply F1. intros K. apply J. right. exact K.
  Qed.

  Lemma dom_alter_pre ts : NoDup (all_ids ts) -> Forall (fun x => oks x /\ ok (inner x)) ts -> forall k h, Forall (repr h) ts -> heights ts <= k ->
    exists h', dom_alter transform skip Pre k (map root ts) h = (Done (map root (flat_map (bottom_up g skip) ts)), h') /\
      Forall (repr h') (flat_map (bottom_up g skip) ts) /\ framed h h' (all_ids ts).
  Proof.
    intros ND OK k h R F. rewrite flat_map_inner.
    destruct (hiter_frame (alter transform skip Pre k) (fun t t' => t' = inner t) ts) with (h := h) as (h1 & ts' & E1 & R1 & T1 & F1 & I1).
    { intros t h' I R'. rewrite Forall_forall in OK. pose proof (heights_in ts t I) as Ht.
      pose proof (NoDup_flat_map_in ids ts t ND I) as Nt.
      destruct (alter_pre t Nt (proj1 (OK t I)) k h' R') as (h2 & E2 & R2 & F2); [lia|].
      exists h2, (inner t). repeat split; try assumption. apply (inner_ids t Nt). }
    { exact ND. }
    { exact R. }
    assert (Et : ts' = map inner ts).
    { clear - T1. induction T1 as [|x y l l' E T1 IHT]; [reflexivity|]. cbn. rewrite E, IHT. reflexivity. }
    subst ts'. cbn [dom_alter]. unfold hbind at 1. rewrite E1. rewrite <- (roots_inner ts).
    rewrite replace_spec; [|exact R1|].
    2:{ rewrite Forall_forall in *. intros x I. apply in_map_iff in I. destruct I as (y & <- & I). apply (OK y I). }
    exists h1. split; [reflexivity|]. split; [|exact F1].
    rewrite Forall_forall. intros x I. apply in_flat_map in I. destruct I as (y & Iy & Ix).
    assert (Ry : Forall (repr h1) (g y)).
    { apply g_repr; [rewrite Forall_forall in R1; apply R1, Iy|]. apply in_map_iff in Iy. destruct Iy as (z & <- & Iz).
      apply inner_ids. apply (NoDup_flat_map_in ids _ z ND Iz). }
    rewrite Forall_forall in Ry. apply Ry, Ix.
  Qed.

  (** *** order = 'postorder' *)
  Hypothesis always_ok : forall t, ok t.

  Lemma flat_map_length_le {A B} (f : A -> list B) l x : In x l -> List.length (f x) <= List.length (flat_map f l).
  Proof.
    induction l as [|y l IH]; intros I; [destruct I|]. cbn. rewrite app_length. destruct I as [->|I]; [lia|]. specialize (IH I). lia.
  Qed.

  Lemma alter_post k : forall t h, List.length (ids t) <= k -> NoDup (ids t) -> repr h t ->
    exists h' t', alter transform skip Post k (root t) h = (Done tt, h') /\ repr h' t' /\ inside g skip t t' /\ framed h h' (ids t)
      /\ incl (ids t') (ids t).
  Proof.
    induction k as [|k IH]; intros [i f ts] h F ND R; [cbn in F; lia|]. cbn [alter root].
    destruct (skip i) eqn:Sk.
    { exists h, (T i f ts). split; [reflexivity|]. split; [exact R|]. split; [constructor; exact Sk|].
      split; [intros j _; reflexivity|apply incl_refl]. }
    cbn [ids] in ND, F. inversion ND as [|? ? Ni ND']; subst. cbn in F.
    rewrite (repr_body _ _ _ _ R). pose proof (repr_kids _ _ _ _ R) as Rk. destruct ts as [|t0 ts0].
    { cbn. exists h, (T i f []). split; [reflexivity|]. split; [exact R|].
      split; [constructor; [exact Sk|]; econstructor; [reflexivity|constructor]|].
      split; [intros j _; reflexivity|apply incl_refl]. }
    remember (t0 :: ts0) as ts eqn:Ets.
    assert (G2 : match map root ts with [] => (Done tt, h) | n :: l =>
                   hbind (replace_nodes transform (n :: l)) (fun l h => hiter (alter transform skip Post k) l (put_body h i l)) h end =
                 hbind (replace_nodes transform (map root ts)) (fun l h => hiter (alter transform skip Post k) l (put_body h i l)) h).
    { subst ts. reflexivity. }
    rewrite G2. clear G2 Ets. unfold hbind. rewrite replace_spec; [|exact Rk|rewrite Forall_forall; intros; apply always_ok].
    destruct (flat_map_g_ids ts ND') as [K1 K2].
    destruct (repr_inv _ _ _ _ R) as [Ri _]. assert (Li : i < List.length h) by (apply nth_error_Some; rewrite Ri; discriminate).
    unfold put_body. rewrite (repr_info _ _ _ _ R).
    destruct (hiter_frame (alter transform skip Post k) (inside g skip) (flat_map g ts))
      with (h := upd h i {| c_info := f; c_body := map root (flat_map g ts) |}) as (h1 & ts' & E1 & R1 & T1 & F1 & I1).
    { intros t h' I R'. apply IH; [|apply (NoDup_flat_map_in ids _ t K2 I)|exact R'].
      pose proof (flat_map_length_le ids (flat_map g ts) t I) as Q. pose proof (NoDup_incl_length K2 K1) as Q2. unfold all_ids in *. lia. }
    { exact K2. }
    { apply repr_frames with h; [|intros j J; apply upd_other; intros <-; apply Ni, K1, J].
      rewrite Forall_forall. intros x I. apply in_flat_map in I. destruct I as (y & Iy & Ix).
      assert (Ry : Forall (repr h) (g y)).
      { apply g_repr; [rewrite Forall_forall in Rk; apply Rk, Iy|]. apply (NoDup_flat_map_in ids _ y ND' Iy). }
      rewrite Forall_forall in Ry. apply Ry, Ix. }
    assert (Er : map root ts' = map root (flat_map g ts)).
    { clear - T1. induction T1 as [|x y l l' E T1 IHT]; [reflexivity|]. cbn. rewrite IHT. f_equal. destruct E; reflexivity. }
    assert (Ii : incl (all_ids ts') (all_ids (flat_map g ts))).
    { clear - I1. unfold all_ids. induction I1 as [|x y l l' E I1 IHI]; [apply incl_refl|]. cbn. apply incl_app.
      - apply incl_appl. exact E.
      - apply incl_appr. exact IHI. }
    exists h1, (T i f ts'). rewrite E1. split; [reflexivity|]. split.
    { constructor; [|exact R1]. rewrite F1; [|intros J; apply Ni, K1, J]. rewrite upd_same by exact Li. rewrite Er. reflexivity. }
    split; [constructor; [exact Sk|]; econstructor; [reflexivity|exact T1]|]. split.
    - intros j J. cbn [ids] in J. rewrite F1; [|intros K; apply J; right; apply K1, K]. apply upd_other. intros <-. apply J. left. reflexivity.
    - intros j [<-|J]; [left; reflexivity|right]. apply K1, Ii, J.
  Qed.

  Lemma dom_alter_post ts k h : List.length (all_ids ts) <= k -> NoDup (all_ids ts) -> Forall (repr h) ts ->
    exists h' ts', dom_alter transform skip Post k (map root ts) h = (Done (map root ts'), h') /\ Forall (repr h') ts' /\
      top_down g skip ts ts' /\ framed h h' (all_ids ts).
  Proof.
    intros F ND R. cbn [dom_alter]. unfold hbind at 1. rewrite replace_spec; [|exact R|rewrite Forall_forall; intros; apply always_ok].
    destruct (flat_map_g_ids ts ND) as [K1 K2].
    destruct (hiter_frame (alter transform skip Post k) (inside g skip) (flat_map g ts)) with (h := h) as (h1 & ts' & E1 & R1 & T1 & F1 & I1).
    { intros t h' I R'. apply alter_post; [|apply (NoDup_flat_map_in ids _ t K2 I)|exact R'].
      pose proof (flat_map_length_le ids (flat_map g ts) t I) as Q. pose proof (NoDup_incl_length K2 K1) as Q2. unfold all_ids in *. lia. }
    { exact K2. }
    { rewrite Forall_forall. intros x I. apply in_flat_map in I. destruct I as (y & Iy & Ix).
      assert (Ry : Forall (repr h) (g y)).
      { apply g_repr; [rewrite Forall_forall in R; apply R, Iy|]. apply (NoDup_flat_map_in ids _ y ND Iy). }
      rewrite Forall_forall in Ry. apply Ry, Ix. }
    assert (Er : map root ts' = map root (flat_map g ts)).
    { clear - T1. induction T1 as [|x y l l' E T1 IHT]; [reflexivity|]. cbn. rewrite IHT. f_equal. destruct E; reflexivity. }
    exists h1, ts'. unfold hbind. rewrite E1. rewrite Er. split; [reflexivity|]. split; [exact R1|]. split; [econstructor; [reflexivity|exact T1]|].
    intros j J. apply F1. intros K. apply J, K1, K.
  Qed.
End AlterFacts.

(** ** Pruning *)
Section SkipFacts.
  Variable bad : info -> bool.
  Definition g_drop (t : tree) : list tree := if bad (label t) then [] else [t].
  Lemma g_drop_selective : selective g_drop.
  Proof.
    intros t ND. unfold g_drop. destruct (bad (label t)).
    - split; constructor.
    - split; [repeat constructor|]. unfold all_ids. cbn. rewrite app_nil_r. exact ND.
  Qed.
  Lemma g_drop_prune t : map erase (bottom_up g_drop (fun _ => false) t) = prune bad (erase t).
  Proof.
    induction t as [i f ts IH] using tree_ind'. cbn [bottom_up erase prune]. unfold g_drop at 1. cbn [label].
    destruct (bad f); [reflexivity|]. cbn. f_equal. f_equal.
    induction IH as [|x ts Hx IH IHt]; cbn; [reflexivity|]. rewrite map_app, Hx, IHt. reflexivity.
  Qed.
  Lemma g_drop_prunes ts : map erase (flat_map (bottom_up g_drop (fun _ => false)) ts) = flat_map (prune bad) (map erase ts).
  Proof. induction ts as [|x ts IH]; cbn; [reflexivity|]. rewrite map_app, g_drop_prune, IH. reflexivity. Qed.
End SkipFacts.

Lemma erase_label t t' : erase t = erase t' -> label t = label t'.
Proof. destruct t, t'. cbn. congruence. Qed.

(** labels of all nodes *)
Inductive in_tree (f : info) : tree -> Prop :=
| in_root i ts : in_tree f (T i f ts)
| in_kid i f' ts t : In t ts -> in_tree f t -> in_tree f (T i f' ts).

Lemma in_tree_sub f p : forall ts t, sub ts p = Some t -> label t = f -> exists x, In x ts /\ in_tree f x.
Proof.
  induction p as [|n p IH]; intros ts t E L; [discriminate|]. cbn in E. destruct (nth_error ts n) as [x|] eqn:N; [|discriminate].
  exists x. split; [apply nth_error_In with n; exact N|]. destruct p as [|m p].
  - injection E as ->. destruct t as [i f' ts']. cbn in L. subst. constructor.
  - destruct (IH (kids x) t E L) as (y & I & H). destruct x as [i f' ts']. apply in_kid with y; assumption.
Qed.

Lemma in_tree_sub_inv f x : in_tree f x -> forall ts, In x ts -> exists p t, sub ts p = Some t /\ label t = f.
Proof.
  intros H. induction H as [i ts|i f' ts t I H IH]; intros l J; apply In_nth_error in J; destruct J as (n & N).
  - exists [n], (T i f ts). cbn. rewrite N. split; reflexivity.
  - destruct (IH ts I) as (p & y & E & L). exists (n :: p), y. rewrite sub_cons, N. split; [|exact L].
    destruct p as [|m p]; [discriminate|]. exact E.
Qed.

Lemma in_tree_erase f t : in_tree f t -> forall t', erase t = erase t' -> in_tree f t'.
Proof.
  intros H. induction H as [i ts|i f' ts t I H IH]; intros [j g ts'] E; cbn in E; injection E as -> E.
  - constructor.
  - assert (J : exists t', In t' ts' /\ erase t = erase t').
    { clear - I E. revert ts' E. induction ts as [|x ts IHt]; intros [|y ts'] E; cbn in E; try discriminate; [destruct I|].
      injection E as E1 E2. destruct I as [->|I]; [exists y; split; [left; reflexivity|exact E1]|].
      destruct (IHt I ts' E2) as (t' & J & Et). exists t'. split; [right; exact J|exact Et]. }
    destruct J as (t' & J & Et). apply in_kid with t'; [exact J|apply IH, Et].
Qed.

Section SkipNodes.
  Variables (veq : val -> val -> bool) (t : tagarg) (attr : option str) (value : option val) (attrs : list attrarg).
  Definition testb (f : info) : bool :=
    match test veq f (fst (constraint t attr value attrs)) (snd (constraint t attr value attrs)) with
    | Ok b => b
    | Raise _ => false
    end.
  Definition okt (x : tree) : Prop := testable t attr attrs (label x).

  Lemma oks_all x : (forall f, in_tree f x -> testable t attr attrs f) -> oks (fun _ => false) (g_drop testb) okt x /\ okt (inner (fun _ => false) (g_drop testb) x).
  Proof.
    induction x as [i f ts IH] using tree_ind'. intros H. split.
    - cbn. right. assert (K : forall y, In y ts -> forall f', in_tree f' y -> testable t attr attrs f').
      { intros y I f' J. apply H. apply in_kid with y; assumption. }
      clear H. induction IH as [|y ts Hy IH IHt]; [exact I|]. split; [apply Hy; apply K; left; reflexivity|].
      apply IHt. intros z I. apply K. right. exact I.
    - unfold okt. cbn. apply H. constructor.
  Qed.

  Lemma skip_spec ts h fuel : NoDup (dkeys attrs) -> Forall (repr h) ts -> heights ts <= fuel ->
    (forall p x, sub ts p = Some x -> testable t attr attrs (label x)) ->
    exists h' ts', skip_nodes veq fuel (map root ts) t attr value attrs h = (Done (map root ts'), h') /\
      Forall (repr h') ts' /\ map erase ts' = flat_map (prune testb) (map erase ts) /\
      (forall i, i < List.length h -> nth_error h' i = nth_error h i) /\
      (forall i, In i (all_ids ts') -> List.length h <= i) /\ NoDup (all_ids ts').
  Proof.
    intros ND R F Te. unfold skip_nodes.
    assert (Ec : constraint t attr value attrs = (fst (constraint t attr value attrs), snd (constraint t attr value attrs))) by (destruct (constraint t attr value attrs); reflexivity).
    rewrite Ec. set (c := fst (constraint t attr value attrs)) in *. set (cs := snd (constraint t attr value attrs)) in *.
    destruct (dom_copy_spec ts fuel h R F) as (e & us & E1 & (R1 & S1 & I1 & N1)). unfold hbind at 1. rewrite E1.
    assert (Tu : forall x, In x us -> forall f, in_tree f x -> testable t attr attrs f).
    { intros x I f J.
      assert (K : exists y, In y ts /\ erase x = erase y).
      { clear - I S1. revert ts S1. induction us as [|z us IHu]; intros [|y ts] S1; cbn in S1; try discriminate; [destruct I|].
        injection S1 as A B. destruct I as [->|I]; [exists y; split; [left; reflexivity|exact A]|].
        destruct (IHu I ts B) as (y' & J & Ey). exists y'. split; [right; exact J|exact Ey]. }
      destruct K as (y & Iy & Ey). destruct (in_tree_sub_inv f y (in_tree_erase f x J y Ey) ts Iy) as (p & z & Sz & Lz).
      rewrite <- Lz. exact (Te p z Sz). }
    match goal with |- context [dom_alter ?f _ _ _ _ _] => set (drop := f) end.
    assert (Htr : forall h t0, repr h t0 -> okt t0 -> drop (root t0) h = (Done (map INode (map root (g_drop testb t0))), h)).
    { intros h0 t0 R0 O0. unfold drop. rewrite (repr_info' _ _ R0). unfold g_drop, testb.
      destruct (test_spec veq t attr value attrs (label t0) ND O0) as (b & Eb & _). fold c cs in Eb |- *. rewrite Eb. destruct b; reflexivity. }
    destruct (dom_alter_pre drop (fun _ => false) (g_drop testb) okt Htr (g_drop_selective testb) us N1) with (k := fuel) (h := h ++ e) as (h' & E2 & R2 & F2).
    { rewrite Forall_forall. intros x I. apply oks_all. intros f J. apply (Tu x I f J). }
    { exact R1. }
    { rewrite (heights_erase_eq _ _ S1). exact F. }
    exists h', (flat_map (bottom_up (g_drop testb) (fun _ => false)) us). rewrite E2. split; [reflexivity|]. split; [exact R2|].
    rewrite g_drop_prunes, S1. split; [reflexivity|]. split.
    - intros i L. rewrite F2; [apply nth_error_app1; exact L|]. intros J. apply I1 in J. lia.
    - assert (G : incl (all_ids (map (inner (fun _ => false) (g_drop testb)) us)) (all_ids us) /\ NoDup (all_ids (map (inner (fun _ => false) (g_drop testb)) us))).
      { unfold all_ids. rewrite !flat_map_concat_map, map_map, <- !flat_map_concat_map.
        apply (flat_map_ids_sub ids (fun x => ids (inner (fun _ => false) (g_drop testb) x))); [|exact N1].
        intros x I. apply inner_ids; [apply g_drop_selective|]. apply (NoDup_flat_map_in ids us x N1 I). }
      destruct G as [G1 G2]. rewrite flat_map_inner.
      destruct (flat_map_g_ids (g_drop testb) (g_drop_selective testb) _ G2) as [K1 K2]. split; [|exact K2].
      intros i J. apply I1, G1, K1, J.
  Qed.

  Lemma testb_spec f : NoDup (dkeys attrs) -> testable t attr attrs f -> (testb f = true <-> satisfies veq t attr value attrs f).
  Proof. intros ND Te. unfold testb. destruct (test_spec veq t attr value attrs f ND Te) as (b & E & B). rewrite E. exact B. Qed.
End SkipNodes.

(** ** Flattening *)
Lemma flatten_cons x l : flatten (x :: l) = (a <- flatten1 x ;; b <- flatten l ;; Ok (a ++ b)).
Proof. reflexivity. Qed.
Section DitemInd.
  Variable Q : ditem -> Prop.
  Hypotheses (H0 : Q INone) (H1 : forall n, Q (INode n)) (H2 : Q IBad) (H3 : forall l, Forall Q l -> Q (ISeq l)).
  Fixpoint ditem_ind' (x : ditem) : Q x :=
    match x with
    | INone => H0
    | INode n => H1 n
    | IBad => H2
    | ISeq l => H3 l ((fix go (l : list ditem) : Forall Q l :=
                         match l with [] => Forall_nil Q | x :: r => Forall_cons x (ditem_ind' x) (go r) end) l)
    end.
End DitemInd.

Lemma flatten1_dec x : (exists l, flatten1 x = Ok l) \/ flatten1 x = Raise TypeError.
Proof.
  induction x as [|n| |l IH] using ditem_ind'; [left; eexists; reflexivity|left; eexists; reflexivity|right; reflexivity|].
  change (flatten1 (ISeq l)) with (flatten l). induction IH as [|x l Hx IH IHl]; [left; exists []; reflexivity|]. rewrite flatten_cons.
  destruct Hx as [(a & ->)| ->]; [|right; reflexivity]. cbn [bind]. destruct IHl as [(b & ->)| ->]; [left; eexists; reflexivity|right; reflexivity].
Qed.

Lemma flatten_ok x r : flatten (x :: r) = Raise TypeError <-> flatten1 x = Raise TypeError \/ flatten r = Raise TypeError.
Proof.
  rewrite flatten_cons. destruct (flatten1_dec x) as [(a & E)|E]; rewrite E; cbn [bind].
  - assert (D : (exists l, flatten r = Ok l) \/ flatten r = Raise TypeError) by apply (flatten1_dec (ISeq r)).
    destruct D as [(b & Eb)|Eb]; rewrite Eb; cbn; split; auto; try discriminate. intros [?|?]; discriminate.
  - split; auto.
Qed.
