(** Python dictionaries as association lists in insertion order (Python >= 3.7): assigning to an
    existing key keeps its position, deletion removes the entry, a new key goes to the end. *)
From Coq Require Import List Bool.
Import ListNotations.

Section Dict.
  Context {K V : Type} (eqb : K -> K -> bool).

  (** d.get(k) *)
  Fixpoint dget (k : K) (d : list (K * V)) : option V :=
    match d with
    | [] => None
    | (k', v) :: r => if eqb k k' then Some v else dget k r
    end.

  (** d[k] = v *)
  Fixpoint dset (k : K) (v : V) (d : list (K * V)) : list (K * V) :=
    match d with
    | [] => [(k, v)]
    | (k', v') :: r => if eqb k k' then (k', v) :: r else (k', v') :: dset k v r
    end.

  (** del d[k], for a key that is present *)
  Fixpoint ddel (k : K) (d : list (K * V)) : list (K * V) :=
    match d with
    | [] => []
    | (k', v') :: r => if eqb k k' then r else (k', v') :: ddel k r
    end.

  (** k in d *)
  Definition dmem (k : K) (d : list (K * V)) : bool :=
    match dget k d with Some _ => true | None => false end.

  (** d.update(e) *)
  Definition dupdate (d e : list (K * V)) : list (K * V) :=
    fold_left (fun d kv => dset (fst kv) (snd kv) d) e d.

  (** dict(pairs) *)
  Definition dict_of (pairs : list (K * V)) : list (K * V) := dupdate [] pairs.

  Definition dkeys (d : list (K * V)) : list K := map fst d.

  Hypothesis eqb_eq : forall a b, eqb a b = true <-> a = b.

  Lemma eqb_refl' a : eqb a a = true.
  Proof. apply eqb_eq. reflexivity. Qed.
  Lemma eqb_neq' a b : eqb a b = false <-> a <> b.
  Proof.
    split.
    - intros H E. apply eqb_eq in E. congruence.
    - intros H. destruct (eqb a b) eqn:E; [|reflexivity]. apply eqb_eq in E. contradiction.
  Qed.

  Lemma dget_dset k k' v d : dget k (dset k' v d) = if eqb k k' then Some v else dget k d.
  Proof.
    induction d as [|[a b] d IH]; cbn; [reflexivity|].
    destruct (eqb k' a) eqn:E; cbn.
    - apply eqb_eq in E. subst a. destruct (eqb k k'); reflexivity.
    - destruct (eqb k a) eqn:F; [|exact IH].
      destruct (eqb k k') eqn:G; [|reflexivity]. exfalso.
      apply eqb_eq in F. apply eqb_eq in G. subst. rewrite eqb_refl' in E. discriminate.
  Qed.

  Lemma dget_dset_same k v d : dget k (dset k v d) = Some v.
  Proof. rewrite dget_dset, eqb_refl'. reflexivity. Qed.

  Lemma dget_dset_other k k' v d : k <> k' -> dget k (dset k' v d) = dget k d.
  Proof. intros H. rewrite dget_dset. apply eqb_neq' in H. rewrite H. reflexivity. Qed.

  Lemma dkeys_dset k v d : dkeys (dset k v d) = if dmem k d then dkeys d else dkeys d ++ [k].
  Proof.
    unfold dkeys, dmem. induction d as [|[a b] d IH]; cbn; [reflexivity|].
    destruct (eqb k a); cbn; [reflexivity|]. rewrite IH. destruct (dget k d); reflexivity.
  Qed.

  Lemma dget_In k v d : dget k d = Some v -> In (k, v) d.
  Proof.
    induction d as [|[a b] d IH]; cbn; [discriminate|]. destruct (eqb k a) eqn:E.
    - intros [= ->]. apply eqb_eq in E. subst. left; reflexivity.
    - intros H. right. exact (IH H).
  Qed.

  Lemma dget_keys k d : dget k d <> None <-> In k (dkeys d).
  Proof.
    unfold dkeys. induction d as [|[a b] d IH]; cbn.
    - split; [intros H; exfalso; apply H; reflexivity|intros []].
    - destruct (eqb k a) eqn:E.
      + apply eqb_eq in E. subst. split; [intros _; left; reflexivity|discriminate].
      + rewrite IH. split; [auto|]. intros [->|H]; [|exact H]. rewrite eqb_refl' in E. discriminate.
  Qed.

  Lemma dmem_keys k d : dmem k d = true <-> In k (dkeys d).
  Proof.
    rewrite <- dget_keys. unfold dmem. destruct (dget k d); split; try discriminate; congruence.
  Qed.

  Lemma nodup_dset k v d : NoDup (dkeys d) -> NoDup (dkeys (dset k v d)).
  Proof.
    intros H. rewrite dkeys_dset. destruct (dmem k d) eqn:E; [exact H|].
    assert (N : ~ In k (dkeys d)) by (rewrite <- dmem_keys, E; discriminate).
    clear E. induction (dkeys d) as [|a l IH]; cbn; [constructor; [intros []|constructor]|].
    inversion H; subst. constructor.
    - rewrite in_app_iff. intros [?|[?|[]]]; [contradiction|subst; apply N; left; reflexivity].
    - apply IH; [assumption|]. intro; apply N; right; assumption.
  Qed.

  Lemma dget_nodup k v d : NoDup (dkeys d) -> In (k, v) d -> dget k d = Some v.
  Proof.
    induction d as [|[a b] d IH]; cbn; intros H I; [destruct I|]. inversion H; subst.
    destruct I as [[= -> ->]|I].
    - rewrite eqb_refl'. reflexivity.
    - destruct (eqb k a) eqn:E; [|apply IH; assumption]. apply eqb_eq in E. subst.
      exfalso. apply H2. unfold dkeys. apply (in_map fst) in I. exact I.
  Qed.

  Lemma dget_ddel k k' d : NoDup (dkeys d) -> dget k (ddel k' d) = if eqb k k' then None else dget k d.
  Proof.
    induction d as [|[a b] d IH]; cbn; intros H; [destruct (eqb k k'); reflexivity|].
    inversion H; subst. destruct (eqb k' a) eqn:E.
    - apply eqb_eq in E. subst a. destruct (eqb k k') eqn:F; [|reflexivity].
      apply eqb_eq in F. subst. destruct (dget k' d) eqn:G; [|reflexivity]. exfalso. apply H2.
      apply dget_keys. rewrite G. discriminate.
    - cbn. rewrite IH by assumption. destruct (eqb k a) eqn:F; [|reflexivity].
      destruct (eqb k k') eqn:G; [|reflexivity]. apply eqb_eq in F. apply eqb_eq in G. subst.
      rewrite eqb_refl' in E. discriminate.
  Qed.

  Lemma nodup_ddel k d : NoDup (dkeys d) -> NoDup (dkeys (ddel k d)).
  Proof.
    induction d as [|[a b] d IH]; cbn; intros H; [constructor|]. inversion H; subst.
    destruct (eqb k a); [assumption|]. cbn. constructor; [|apply IH; assumption].
    intros I. apply H2. clear - I. unfold dkeys in *. induction d as [|[a' b'] d IH]; cbn in *; [exact I|].
    destruct (eqb k a'); cbn in *; [right; exact I|]. destruct I; auto.
  Qed.

  Lemma dget_app k d e : dget k (d ++ e) = match dget k d with Some v => Some v | None => dget k e end.
  Proof. induction d as [|[a b] d IH]; cbn; [reflexivity|]. destruct (eqb k a); [reflexivity|exact IH]. Qed.

  Lemma dget_dupdate k e : forall d, dget k (dupdate d e) = match dget k (rev e) with Some v => Some v | None => dget k d end.
  Proof.
    unfold dupdate. induction e as [|[a b] e IH]; intros d; cbn; [reflexivity|].
    rewrite IH, dget_app, dget_dset. cbn. destruct (dget k (rev e)); [reflexivity|]. destruct (eqb k a); reflexivity.
  Qed.

  Lemma nodup_dupdate e : forall d, NoDup (dkeys d) -> NoDup (dkeys (dupdate d e)).
  Proof. unfold dupdate. induction e as [|[a b] e IH]; intros d H; cbn; [exact H|]. apply IH, nodup_dset, H. Qed.

  Lemma nodup_dict_of e : NoDup (dkeys (dict_of e)).
  Proof. apply nodup_dupdate. constructor. Qed.

  Lemma dget_dict_of k e : dget k (dict_of e) = dget k (rev e).
  Proof. unfold dict_of. rewrite dget_dupdate. cbn. destruct (dget k (rev e)); reflexivity. Qed.
End Dict.
