(** Lemmas for C04 (merging), C37 and C39-C43. *)
From Coq Require Import List NArith ZArith Bool Arith Lia.
From Verif Require Import PyStr PyStrFacts Html PyDict Value Dom Ast Machine MachineFacts Eval Translate ExprSpec.
Import ListNotations.

Section Facts.
  Context {W : Type}.
  Variable P : prims W.
  Variable expand : hyper -> val -> list val -> list (str * val) -> nat -> M W (list nid).
  Notation ev s := (eval P expand s).
  Notation tr := (truth P).

  Lemma bind_eq {A B} (x : M W A) (f : A -> M W B) m : (a <* x ;; f a) m =
    match x m with (Done a, m1) => f a m1 | (Exc e, m1) => (Exc e, m1) | (Fuel, m1) => (Fuel, m1) end.
  Proof. reflexivity. Qed.
  Lemma with_same_world (m : mach W) : with_world m (m_world m) = m.
  Proof. destruct m. reflexivity. Qed.

  Lemma quiet_tr : quiet_truth P -> forall v m, exists r, tr v m = (r, m).
  Proof.
    intros Q v m. destruct v; try (eexists; reflexivity). cbn. unfold lift_p.
    destruct (Q (VObj n) (m_heap m) (m_world m)) as [r ->]. exists r. rewrite with_same_world. reflexivity.
  Qed.
  Lemma sound_tr : sound_truth P -> forall v m, exists b, tr v m = (Done b, m).
  Proof.
    intros Q v m. destruct v; try (eexists; reflexivity). cbn. unfold lift_p.
    destruct (Q (VObj n) (m_heap m) (m_world m)) as [b ->]. exists b. rewrite with_same_world. reflexivity.
  Qed.

  (** ** Qualifiers *)
  Lemma qualified_none : sound_truth P -> forall x m, qualified P QNone x m = x m.
  Proof.
    intros Q x m. unfold qualified. destruct (x m) as [[v|e|] m1]; [|reflexivity|reflexivity].
    unfold mbind. destruct (sound_tr Q v m1) as [b ->]. destruct b; reflexivity.
  Qed.
  Lemma qualified_out : sound_truth P -> forall q x m o m', qualified P q x m = (o, m') -> o <> Fuel ->
    exists r, x m = (r, m') /\ qual_out tr m' q r o.
  Proof.
    intros Q q x m o m'. unfold qualified. destruct (x m) as [[v|e|] m1].
    - unfold mbind. destruct (sound_tr Q v m1) as [b E]. rewrite E. destruct b.
      + intros [= <- <-] _. exists (Done v). split; [reflexivity|]. apply qual_true, E.
      + destruct q; intros [= <- <-] _; exists (Done v); (split; [reflexivity|]).
        * apply qual_none, E.
        * apply qual_opt, E.
        * apply qual_req, E.
    - destruct q; intros [= <- <-] _; exists (Exc e); (split; [reflexivity|]).
      + apply qual_exc. discriminate.
      + apply qual_opt_exc.
      + apply qual_exc. discriminate.
    - intros [= <- <-] N. contradiction N; reflexivity.
  Qed.

  (** ** and, or *)
  Definition logic_go (stop : bool) (s : nat) : list expr -> val -> M W val :=
    fix go (l : list expr) (res : val) : M W val :=
      match l with
      | [] => ret res
      | e :: r => logic_step P stop (ev s e) res (go r)
      end.
  Lemma logic_more (b : bool) x l m m1 v o m' : x m = (Done v, m1) -> tr v m1 = (Done (negb b), m1) ->
    logic_out tr b l m1 o m' -> logic_out tr b (x :: l) m o m'.
  Proof.
    intros E T H. destruct H as [pre y post m0 m2 w m3 A B C|pre y post m0 m2 e m3 A B|pre y post m0 m2 w e m3 A B C D].
    - apply (logic_value tr b (x :: pre) y post m m2 w m3); [|exact B|exact C]. econstructor; eassumption.
    - apply (logic_exc tr b (x :: pre) y post m m2 e m3); [|exact B]. econstructor; eassumption.
    - apply (logic_bool tr b (x :: pre) y post m m2 w e m3); [|exact B|exact C|exact D]. econstructor; eassumption.
  Qed.
  Lemma logic_go_out : quiet_truth P -> forall stop s l (x : M W val) m0 res m o m',
    x m0 = (Done res, m) -> logic_go stop s l res m = (o, m') -> o <> Fuel ->
    logic_out tr stop (x :: map (ev s) l) m0 o m'.
  Proof.
    intros Q stop s l. induction l as [|e r IH]; intros x m0 res m o m' X E N; cbn in E |- *.
    - injection E as <- <-. apply (logic_value tr stop [] x []) with m0; [constructor|exact X|left; reflexivity].
    - unfold logic_step in E. destruct (quiet_tr Q res m) as [t T]. unfold mbind in E at 1. rewrite T in E.
      destruct t as [b|e0|].
      + destruct (Bool.eqb b stop) eqn:B.
        * apply eqb_prop in B. subst b. injection E as <- <-.
          apply (logic_value tr stop [] x (map (ev s) (e :: r))) with m0; [constructor|exact X|right; exact T].
        * rewrite (bind_done _ _ _ _ _ T), B in E.
          assert (T' : tr res m = (Done (negb stop), m)).
          { rewrite T. destruct b, stop; try discriminate; reflexivity. }
          apply bind_inv in E. destruct E as [(v & m1 & E1 & E2)|[(e1 & E & ->)|(_ & ->)]].
          -- eapply logic_more; [exact X|exact T'|]. apply (IH _ _ _ _ _ _ E1 E2 N).
          -- eapply logic_more; [exact X|exact T'|]. apply (logic_exc tr stop [] (ev s e) (map (ev s) r)) with m; [constructor|exact E].
          -- contradiction N; reflexivity.
      + injection E as <- <-. apply (logic_bool tr stop [] x (map (ev s) (e :: r)) m0 m0 res e0 m); [constructor|exact X|discriminate|exact T].
      + injection E as <- <-. contradiction N; reflexivity.
  Qed.
  Lemma logic_chain : quiet_truth P -> forall stop s h l m o m',
    (v <* ev s h ;; logic_go stop s l v) m = (o, m') -> o <> Fuel -> logic_out tr stop (map (ev s) (h :: l)) m o m'.
  Proof.
    intros Q stop s h l m o m' E N. apply bind_inv in E. destruct E as [(v & m1 & E1 & E2)|[(e1 & E & ->)|(_ & ->)]].
    - apply (logic_go_out Q stop s l (ev s h) m v m1 o m' E1 E2 N).
    - apply (logic_exc tr stop [] (ev s h) (map (ev s) l) m m e1 m'); [constructor|exact E].
    - contradiction N; reflexivity.
  Qed.

  (** ** Chains *)
  Notation apply := (fun o v w => lift_p (p_binop P o v w)).
  Lemma left_assoc_ext (ap : binop -> val -> val -> M W val) ops : forall (x y : M W val), (forall m, x m = y m) ->
    forall m, left_assoc ap x ops m = left_assoc ap y ops m.
  Proof.
    induction ops as [|[o z] r IH]; intros x y H m; cbn; [apply H|]. apply IH. intros m'. unfold operation, seq. rewrite H. reflexivity.
  Qed.
  Lemma fold_left_assoc s ops : forall (x : M W val) m,
    (v <* x ;; mfold (fun v oe => let (o, e) := (oe : binop * expr) in w <* ev s e ;; lift_p (p_binop P o v w)) ops v) m
    = left_assoc apply x (map (fun oe => (fst oe, ev s (snd oe))) ops) m.
  Proof.
    induction ops as [|[o e] r IH]; intros x m.
    - cbn. unfold mbind. destruct (x m) as [[v|e|] m1]; reflexivity.
    - cbn [map left_assoc fst snd]. rewrite <- IH. cbn [mfold]. unfold mbind, operation, seq.
      destruct (x m) as [[v|e0|] m1]; [|reflexivity|reflexivity].
      destruct (ev s e m1) as [[w|e0|] m2]; reflexivity.
  Qed.
  Lemma fold_simple_assoc s o l : forall (x : M W val) m,
    (v <* x ;; mfold (fun v e => w <* ev s e ;; lift_p (p_binop P o v w)) l v) m
    = left_assoc apply x (map (fun e => (o, ev s e)) l) m.
  Proof.
    induction l as [|e r IH]; intros x m.
    - cbn. unfold mbind. destruct (x m) as [[v|e|] m1]; reflexivity.
    - cbn [map left_assoc]. rewrite <- IH. cbn [mfold]. unfold mbind, operation, seq.
      destruct (x m) as [[v|e0|] m1]; [|reflexivity|reflexivity].
      destruct (ev s e m1) as [[w|e0|] m2]; reflexivity.
  Qed.
  Lemma chain_left s h ops m : eval P expand s (EChain false h ops) m = left_assoc apply (ev s h) (map (fun oe => (fst oe, ev s (snd oe))) ops) m.
  Proof. rewrite <- fold_left_assoc. cbn [eval]. unfold mbind. destruct (ev s h m) as [[v|e|] m1]; reflexivity. Qed.

  Lemma python_left (ap : binop -> val -> val -> M W val) x ops m : ops <> [] ->
    Forall (fun oy => is_power (fst oy) = false /\ is_comparison (fst oy) = false) ops \/ List.length ops = 1 ->
    python_chain tr ap x ops m = left_assoc ap x ops m.
  Proof.
    intros N [H|H]; unfold python_chain.
    - destruct H as [|[o y] r [H1 H2] _]; [contradiction N; reflexivity|]. cbn [forallb fst] in *. rewrite H1, H2. reflexivity.
    - destruct ops as [|[o y] [|z r]]; try discriminate. cbn [forallb fst].
      destruct (is_power o); cbn; [reflexivity|]. destruct (is_comparison o); [|reflexivity].
      cbn [andb left_assoc]. unfold compare, operation, seq. cbn [compare_from]. destruct (x m) as [[v|e|] m1]; [|reflexivity|reflexivity]. unfold seq.
      destruct (y m1) as [[w|e|] m2]; [|reflexivity|reflexivity]. destruct (ap o v w m2) as [[c|e|] m3]; reflexivity.
  Qed.

  (** ** Pipelines *)
  Notation args_of s := (mmap (fun ne => let (n, e) := (ne : option str * expr) in v <* ev s e ;; ret (n, v))).
  Lemma args_names s args : forall m items m', args_of s args m = (Done items, m') -> map fst items = map fst args.
  Proof.
    induction args as [|[n e] r IH]; intros m items m' H; cbn in H.
    - injection H as <- _. reflexivity.
    - apply bind_done_inv in H. destruct H as (y & m1 & E1 & H). apply bind_done_inv in E1. destruct E1 as (v & m2 & _ & E1).
      injection E1 as <- _. apply bind_done_inv in H. destruct H as (ys & m3 & E2 & H). injection H as <- _.
      cbn. f_equal. apply (IH _ _ _ E2).
  Qed.

  (** the names of keyword arguments *)
  Definition kw_names {B} (args : list (option str * B)) : list str := flat_map (fun ne => match fst ne with Some n => [n] | None => [] end) args.
  Lemma kw_names_fst {B C} (l : list (option str * B)) (r : list (option str * C)) : map fst l = map fst r -> kw_names l = kw_names r.
  Proof. revert r. induction l as [|[n x] l IH]; intros [|[k y] r] H; try discriminate; [reflexivity|]. cbn in H. injection H as -> H. unfold kw_names in *. cbn [flat_map fst]. rewrite (IH _ H). reflexivity. Qed.

  Lemma dupdate_new (e : list (str * val)) : forall d, NoDup (map fst d ++ map fst e) -> dupdate str_eqb d e = d ++ e.
  Proof.
    unfold dupdate. induction e as [|[k v] e IH]; intros d H; cbn; [rewrite app_nil_r; reflexivity|].
    assert (N : dset str_eqb k v d = d ++ [(k, v)]).
    { clear IH. induction d as [|[a b] d IH]; [reflexivity|]. cbn in *. inversion H; subst.
      destruct (str_eqb k a) eqn:E; [|rewrite IH by assumption; reflexivity]. apply str_eqb_eq in E. subst. exfalso.
      apply H2, in_or_app. right. left. reflexivity. }
    rewrite N, IH; [rewrite <- app_assoc; reflexivity|]. rewrite map_app. cbn. rewrite <- app_assoc. exact H.
  Qed.
  Lemma split_args_spec items : NoDup (kw_names items) -> split_args items = (positional items, keywords items).
  Proof.
    intros H. unfold split_args. f_equal.
    - clear H. induction items as [|[[n|] v] r IH]; cbn in *; [reflexivity|exact IH|rewrite IH; reflexivity].
    - assert (E : flat_map (fun nv : option str * val => match fst nv with None => [] | Some n => [(n, snd nv)] end) items = keywords items).
      { clear H. induction items as [|[[n|] v] r IH]; cbn in *; [reflexivity|rewrite IH; reflexivity|exact IH]. }
      assert (K : map fst (keywords items) = kw_names items).
      { clear H E. induction items as [|[[n|] v] r IH]; cbn in *; [reflexivity|f_equal; exact IH|exact IH]. }
      unfold dict_of. etransitivity; [|apply (dupdate_new (keywords items) [])]; [f_equal; exact E|cbn; rewrite K; exact H].
  Qed.

  Definition filter_expr (fa : expr * option (list (option str * expr))) : expr :=
    EFactor (fst fa) (match snd fa with Some args => [TPartial args] | None => [] end) QNone.
  Definition filter_parts s (fa : expr * option (list (option str * expr))) : M W val * M W (list (option str * val)) :=
    (ev s (fst fa), match snd fa with Some args => args_of s args | None => ret [] end).
  Definition fine_filter (fa : expr * option (list (option str * expr))) : Prop :=
    match snd fa with Some args => NoDup (kw_names args) | None => True end.

  Lemma eval_factor s a ts q : ev s (EFactor a ts q) = qualified P q (v <* ev s a ;; mfold (fun v t => apply_tail P expand s t v) ts v).
  Proof. reflexivity. Qed.
  Lemma tail_partial s args f : args <> [] ->
    apply_tail P expand s (TPartial args) f = (items <* args_of s args ;; ret (partial_of f items)).
  Proof. destruct args; [intros N; contradiction N; reflexivity|reflexivity]. Qed.
  Lemma one_filter : sound_truth P -> forall s fa v m, fine_filter fa ->
    (f <* ev s (filter_expr fa) ;; call_value P expand f [v] []) m =
    seq (fst (filter_parts s fa)) (fun g => seq (snd (filter_parts s fa)) (fun a => call_value P expand g (v :: positional a) (keywords a))) m.
  Proof.
    intros Q s [f args] v m N. unfold filter_expr, filter_parts. cbn [fst snd]. rewrite eval_factor. unfold mbind at 1.
    rewrite (qualified_none Q). unfold mbind at 1, seq at 1.
    destruct (ev s f m) as [[g|e|] m1]; [|reflexivity|reflexivity].
    destruct args as [args|]; cbn [mfold].
    - unfold mbind at 1. destruct args as [|a r].
      + reflexivity.
      + rewrite tail_partial by discriminate. unfold fine_filter in N. cbn [snd] in N. set (args := a :: r) in *.
        unfold seq, mbind at 1. destruct (args_of s args m1) as [[items|e|] m2] eqn:E; [|reflexivity|reflexivity].
        unfold ret at 1, partial_of. rewrite split_args_spec by (rewrite (kw_names_fst items args (args_names _ _ _ _ _ E)); exact N).
        reflexivity.
    - reflexivity.
  Qed.
  Lemma pipeline_spec : sound_truth P -> forall s fs, Forall fine_filter fs -> forall (x : M W val) m,
    (v <* x ;; mfold (fun v e => f <* ev s e ;; call_value P expand f [v] []) (map filter_expr fs) v) m
    = pipe (call_value P expand) x (map (filter_parts s) fs) m.
  Proof.
    intros Q s fs F. induction F as [|fa fs N _ IH]; intros x m.
    - cbn. unfold mbind. destruct (x m) as [[v|e|] m1]; reflexivity.
    - cbn [map pipe]. destruct (filter_parts s fa) as [f args] eqn:E. rewrite <- IH. cbn [mfold]. rewrite (bind_eq x), (bind_eq (seq x _)). unfold seq at 1.
      destruct (x m) as [[v|e|] m1]; [|reflexivity|reflexivity]. rewrite bind_eq, (one_filter Q s fa v m1 N), E. reflexivity.
  Qed.
End Facts.

Section Statements.
  Context {W : Type}.
  Variable P : prims W.
  Variable expand : hyper -> val -> list val -> list (str * val) -> nat -> M W (list nid).
  Notation ev s := (eval P expand s).
  Notation tr := (truth P).

  Lemma root_qualified : sound_truth P -> forall s e q m o m', ev s (ERoot e q) m = (o, m') -> o <> Fuel ->
    exists r, ev s e m = (r, m') /\ qual_out tr m' q r o.
  Proof. intros Q s e q m o m' E N. exact (qualified_out P Q q (ev s e) m o m' E N). Qed.
  Lemma factor_qualified : sound_truth P -> forall s a ts q m o m', ev s (EFactor a ts q) m = (o, m') -> o <> Fuel ->
    exists r, ev s (EFactor a ts QNone) m = (r, m') /\ qual_out tr m' q r o.
  Proof.
    intros Q s a ts q m o m' E N. rewrite eval_factor in E |- *. rewrite (qualified_none P Q). exact (qualified_out P Q q _ m o m' E N).
  Qed.
  Lemma root_optional : sound_truth P -> forall s e m o m', ev s (ERoot e QOpt) m = (o, m') -> o <> Fuel ->
    exists v, o = Done v /\ (v = VStr [] \/ ev s e m = (Done v, m') /\ tr v m' = (Done true, m')).
  Proof.
    intros Q s e m o m' E N. destruct (root_qualified Q s e QOpt m o m' E N) as (r & R & H). inversion H; subst.
    - exists v. split; [reflexivity|]. right. split; assumption.
    - exists (VStr []). split; [reflexivity|]. left. reflexivity.
    - exists (VStr []). split; [reflexivity|]. left. reflexivity.
    - contradiction H0. reflexivity.
  Qed.
  Lemma root_required : sound_truth P -> forall s e m o m', ev s (ERoot e QReq) m = (o, m') -> o <> Fuel ->
    (exists v, o = Done v /\ ev s e m = (Done v, m') /\ tr v m' = (Done true, m')) \/
    (o = Exc FalseValue /\ exists v, ev s e m = (Done v, m') /\ tr v m' = (Done false, m')) \/
    (exists x, o = Exc x /\ ev s e m = (Exc x, m')).
  Proof.
    intros Q s e m o m' E N. destruct (root_qualified Q s e QReq m o m' E N) as (r & R & H). inversion H; subst.
    - left. exists v. auto.
    - right; left. split; [reflexivity|]. exists v. auto.
    - right; right. exists e0. auto.
  Qed.

  Lemma and_spec : quiet_truth P -> forall s h l m o m', ev s (EAnd h l) m = (o, m') -> o <> Fuel -> logic_out tr false (map (ev s) (h :: l)) m o m'.
  Proof. intros Q s h l m o m' E N. exact (logic_chain P expand Q false s h l m o m' E N). Qed.
  Lemma or_spec : quiet_truth P -> forall s h l m o m', ev s (EOr h l) m = (o, m') -> o <> Fuel -> logic_out tr true (map (ev s) (h :: l)) m o m'.
  Proof. intros Q s h l m o m' E N. exact (logic_chain P expand Q true s h l m o m' E N). Qed.
  Lemma ifelse_spec s x c y m v m1 b m2 : ev s c m = (Done v, m1) -> tr v m1 = (Done b, m2) ->
    ev s (EIf x c y) m = if b then ev s x m2 else match y with Some y => ev s y m2 | None => (Done (VStr []), m2) end.
  Proof.
    intros E T. change (ev s (EIf x c y) m) with ((v <* ev s c ;; b <* tr v ;; if (b : bool) then ev s x else match y with Some y => ev s y | None => ret (VStr []) end) m).
    rewrite bind_eq, E, bind_eq, T. destruct b; [reflexivity|]. destruct y; reflexivity.
  Qed.
  Lemma not_spec s n e m v m1 b m2 : Nat.odd n = true -> ev s e m = (Done v, m1) -> tr v m1 = (Done b, m2) ->
    ev s (ENot n e) m = (Done (VBool (negb b)), m2).
  Proof.
    intros O E T. change (ev s (ENot n e) m) with ((v <* ev s e ;; if Nat.odd n then b <* tr v ;; ret (VBool (negb b)) else ret v) m).
    rewrite bind_eq, E, O, bind_eq, T. reflexivity.
  Qed.

  Notation apply := (fun o v w => lift_p (p_binop P o v w)).
  Lemma chain_python s h ops m : ops <> [] ->
    Forall (fun oe : binop * expr => is_power (fst oe) = false /\ is_comparison (fst oe) = false) ops \/ List.length ops = 1 ->
    ev s (EChain false h ops) m = python_chain tr apply (ev s h) (map (fun oe => (fst oe, ev s (snd oe))) ops) m.
  Proof.
    intros N H. rewrite python_left.
    - apply chain_left.
    - destruct ops; [contradiction N; reflexivity|discriminate].
    - destruct H as [H|H]; [left|right; rewrite map_length; exact H]. rewrite Forall_map. exact H.
  Qed.
  Lemma simple_python s o h l m : l <> [] -> is_power o = false -> is_comparison o = false ->
    ev s (ESimple o h l) m = python_chain tr apply (ev s h) (map (fun e => (o, ev s e)) l) m.
  Proof.
    intros N H1 H2. rewrite python_left.
    - rewrite <- fold_simple_assoc. reflexivity.
    - destruct l; [contradiction N; reflexivity|discriminate].
    - left. rewrite Forall_map. apply Forall_forall. intros e _. split; assumption.
  Qed.
  Lemma chain_minus s h ops m : ev s (EChain true h ops) m =
    left_assoc apply (seq (ev s h) (fun v => match v with VNone => ret VNone | _ => lift_p (p_neg P v) end))
      (map (fun oe => (fst oe, ev s (snd oe))) ops) m.
  Proof.
    rewrite <- fold_left_assoc.
    change (ev s (EChain true h ops) m) with ((v <* ev s h ;; v <* match v with VNone => ret VNone | _ => lift_p (p_neg P v) end ;;
      mfold (fun v oe => let (o, e) := (oe : binop * expr) in w <* ev s e ;; lift_p (p_binop P o v w)) ops v) m).
    rewrite bind_eq, (bind_eq (seq _ _)). unfold seq. destruct (ev s h m) as [[v|e|] m1]; reflexivity.
  Qed.
  Lemma pipe_spec : sound_truth P -> forall s x fs m, Forall fine_filter fs ->
    ev s (EPipe x (map filter_expr fs)) m = pipe (call_value P expand) (ev s x) (map (filter_parts P expand s) fs) m.
  Proof. intros Q s x fs m F. rewrite <- (pipeline_spec P expand Q s fs F). reflexivity. Qed.
End Statements.
