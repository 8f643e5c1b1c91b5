(** Symbols of Python modules. *)
From Coq Require Import List NArith Bool Lia Arith.
From Verif Require Import PyStr PyStrFacts PyDict Value Dom Ast Machine Analyse Runtime RuntimeSpec.
Import ListNotations.
Local Open Scope N_scope.

Definition check_tag (nt : str * tag) : result unit := let (n, t) := nt in if str_eqb n (t_name t) then Ok tt else Raise ImportError.
Definition key_tag (nt : str * tag) : result (str * val) :=
  let (n, t) := nt in match n with [] => Raise IndexError | c :: _ => Ok (if c =? 37 then n else TAG n, VTag t) end.

Lemma check_ok l : (forall nt, In nt l -> fst nt = t_name (snd nt)) <-> exists r, rmap check_tag l = Ok r.
Proof.
  induction l as [|[n t] l IH]; cbn [rmap]; [split; [eexists; reflexivity|intros _ ? []]|]. cbn [check_tag]. split.
  - intros H. rewrite (proj2 (str_eqb_eq n (t_name t)) (H (n, t) (or_introl eq_refl))). cbn [bind]. destruct (proj1 IH) as (r & ->); [intros x I; apply H; right; exact I|]. eexists. reflexivity.
  - intros (r & E). destruct (str_eqb n (t_name t)) eqn:En; [|discriminate]. cbn [bind] in E. destruct (rmap check_tag l) as [r'|] eqn:Er; [|discriminate].
    intros x [<-|I]; [apply str_eqb_eq, En|]. apply (proj2 IH); [eexists; reflexivity|exact I].
Qed.
Lemma key_ok l : (forall nt, In nt l -> fst nt <> []) -> rmap key_tag l = Ok (map (fun nt => (marked_tag (fst nt), VTag (snd nt))) l).
Proof.
  induction l as [|[n t] l IH]; intros H; [reflexivity|]. cbn [rmap key_tag map fst snd]. pose proof (H (n, t) (or_introl eq_refl)) as Hn. cbn [fst] in Hn. destruct n as [|c n]; [congruence|].
  cbn [bind]. rewrite IH by (intros x I; apply H; right; exact I). cbn [bind]. reflexivity.
Qed.
Lemma key_no l r : rmap key_tag l = Ok r -> forall nt, In nt l -> fst nt <> [].
Proof.
  revert r. induction l as [|[n t] l IH]; intros r E nt I; [destruct I|]. cbn [rmap key_tag] in E. destruct n as [|c n]; [discriminate|]. cbn [bind] in E.
  destruct (rmap key_tag l) as [r'|] eqn:Er; [|discriminate]. destruct I as [<-|I]; [discriminate|exact (IH _ eq_refl _ I)].
Qed.

Lemma py_module_eq p : py_module p = bind (rmap check_tag (py_tags p)) (fun _ => bind (rmap key_tag (py_tags p)) (fun tags =>
  Ok {| mod_symbols := dupdate str_eqb (dict_of str_eqb (map (fun nv => (VAR (fst nv), snd nv)) (py_dir p))) tags; mod_state := None; mod_dom := None;
        mod_file := py_file p; mod_package := py_package p |})).
Proof. reflexivity. Qed.
Theorem python_loaded p : (exists md, py_module p = Ok md) <-> forall n t, In (n, t) (py_tags p) -> n = t_name t /\ n <> [].
Proof.
  rewrite py_module_eq. split.
  - intros (md & E). destruct (rmap check_tag (py_tags p)) as [r|] eqn:E1; [|discriminate]. cbn [bind] in E. destruct (rmap key_tag (py_tags p)) as [r2|] eqn:E2; [|discriminate].
    intros n t I. split; [exact (proj2 (check_ok _) (ex_intro _ _ E1) _ I)|exact (key_no _ _ E2 _ I)].
  - intros H. destruct (proj1 (check_ok (py_tags p))) as (r & ->); [intros [n t] I; apply (H n t I)|]. cbn [bind]. rewrite key_ok by (intros [n t] I; apply (H n t I)). cbn [bind]. eexists. reflexivity.
Qed.
Lemma python_symbols_eq p md : py_module p = Ok md ->
  mod_symbols md = dupdate str_eqb (dict_of str_eqb (map (fun nv => (VAR (fst nv), snd nv)) (py_dir p))) (map (fun nt => (marked_tag (fst nt), VTag (snd nt))) (py_tags p)).
Proof.
  intros E. pose proof (proj1 (python_loaded p) (ex_intro _ _ E)) as H. rewrite py_module_eq in E.
  destruct (rmap check_tag (py_tags p)); [|discriminate]. cbn [bind] in E. rewrite key_ok in E by (intros [n t] I; apply (H n t I)). cbn [bind] in E. injection E as <-. reflexivity.
Qed.
Lemma dget_rev_in {A} (l : list (str * A)) y v : dget str_eqb y (rev l) = Some v -> In (y, v) l.
Proof. intros H. apply (dget_In str_eqb str_eqb_eq) in H. apply in_rev, H. Qed.
Lemma in_dget_rev {A} (l : list (str * A)) y v : NoDup (map fst l) -> In (y, v) l -> dget str_eqb y (rev l) = Some v.
Proof. intros Hn I. apply (dget_nodup str_eqb str_eqb_eq); [unfold dkeys; rewrite map_rev; apply NoDup_rev, Hn|]. apply in_rev in I. exact I. Qed.

Theorem python_symbols p md : py_module p = Ok md -> NoDup (map fst (py_dir p)) -> NoDup (map (fun nt => marked_tag (fst nt)) (py_tags p)) ->
  (forall x v, In (x, v) (py_dir p) -> dget str_eqb (36 :: x) (mod_symbols md) = Some v) /\
  (forall n t, In (n, t) (py_tags p) -> dget str_eqb (marked_tag n) (mod_symbols md) = Some (VTag t)) /\
  (forall y v, dget str_eqb y (mod_symbols md) = Some v ->
    (exists x, y = 36 :: x /\ In (x, v) (py_dir p)) \/ exists n t, y = marked_tag n /\ v = VTag t /\ In (n, t) (py_tags p)).
Proof.
  intros E N1 N2. rewrite (python_symbols_eq p md E).
  assert (G : forall y, dget str_eqb y (dupdate str_eqb (dict_of str_eqb (map (fun nv => (VAR (fst nv), snd nv)) (py_dir p))) (map (fun nt => (marked_tag (fst nt), VTag (snd nt))) (py_tags p))) =
    match dget str_eqb y (rev (map (fun nt => (marked_tag (fst nt), VTag (snd nt))) (py_tags p))) with Some v => Some v | None => dget str_eqb y (rev (map (fun nv => (VAR (fst nv), snd nv)) (py_dir p))) end).
  { intros y. rewrite (dget_dupdate str_eqb str_eqb_eq). rewrite (dget_dict_of str_eqb str_eqb_eq). reflexivity. }
  assert (N1' : NoDup (map fst (map (fun nv : str * val => (VAR (fst nv), snd nv)) (py_dir p)))).
  { rewrite map_map. cbn [fst]. clear -N1. induction (py_dir p) as [|[x v] l IH]; [constructor|]. cbn [map fst] in *. inversion N1; subst. constructor; [|apply IH; assumption].
    intros I. apply in_map_iff in I. destruct I as ([z w] & Ez & I). injection Ez as ->. apply (in_map fst) in I. contradiction. }
  split; [|split].
  - intros x v I. rewrite G. destruct (dget str_eqb (36 :: x) (rev (map (fun nt => (marked_tag (fst nt), VTag (snd nt))) (py_tags p)))) as [w|] eqn:Ew.
    + apply dget_rev_in in Ew. apply in_map_iff in Ew. destruct Ew as ([n t] & Ew & _). exfalso. cbn [fst snd] in Ew. injection Ew as Ek _. unfold marked_tag in Ek. destruct n as [|c n]; [discriminate|].
      destruct (N.eqb_spec c 37) as [->|]; discriminate.
    + apply in_dget_rev; [exact N1'|]. apply in_map_iff. exists (x, v). auto.
  - intros n t I. rewrite G. rewrite (in_dget_rev _ (marked_tag n) (VTag t)); [reflexivity|rewrite map_map; exact N2|]. apply in_map_iff. exists (n, t). auto.
  - intros y v. rewrite G. destruct (dget str_eqb y (rev (map (fun nt => (marked_tag (fst nt), VTag (snd nt))) (py_tags p)))) as [w|] eqn:Ew.
    + intros [= <-]. right. apply dget_rev_in, in_map_iff in Ew. destruct Ew as ([n t] & Ew & I). cbn [fst snd] in Ew. injection Ew as <- <-. exists n, t. auto.
    + intros H. left. apply dget_rev_in, in_map_iff in H. destruct H as ([x w] & Ex & I). cbn [fst snd] in Ex. injection Ex as <- <-. exists x. auto.
Qed.
