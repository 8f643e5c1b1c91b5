(** Proofs about the choice of symbols and the preprocessor. *)
From Coq Require Import List NArith Bool Lia Arith FinFun.
From Verif Require Import PyStr PyStrFacts Indent IndentSpec IndentFacts Preprocess PreprocessSpec.
Import ListNotations.
Local Open Scope N_scope.

(** ** choice of symbols *)

Lemma next_code_spec fuel text code c : next_code fuel text code = Some c ->
  code <= c /\ ~ In c text /\ forall d, code <= d < c -> In d text.
Proof.
  revert code; induction fuel as [|k IH]; intros code H; simpl in H; [discriminate|].
  destruct (mem code text) eqn:E.
  - apply IH in H as [H1 [H2 H3]]. repeat split; auto; [lia|].
    intros d Hd. destruct (N.eq_dec d code) as [->|Hn]; [now apply mem_In|]. apply H3; lia.
  - injection H as <-. apply mem_not_In in E. repeat split; auto; [lia|]. intros d Hd; lia.
Qed.

(** Pigeonhole: among [S (length text)] consecutive codes one is not in the text. *)
Lemma next_code_none fuel text code : next_code fuel text code = None ->
  forall d, code <= d < code + N.of_nat fuel -> In d text.
Proof.
  revert code; induction fuel as [|k IH]; intros code H d Hd; [simpl in Hd; lia|].
  simpl in H. destruct (mem code text) eqn:E; [|discriminate].
  destruct (N.eq_dec d code) as [->|Hn]; [now apply mem_In|].
  apply (IH (code + 1)); auto. lia.
Qed.

Definition range (code : N) (n : nat) : list N := map (fun k => code + N.of_nat k) (seq 0 n).

Lemma range_NoDup code n : NoDup (range code n).
Proof.
  unfold range. apply Injective_map_NoDup; [|apply seq_NoDup].
  intros a b H. lia.
Qed.

Lemma next_code_total text code : exists c, next_code (S (List.length text)) text code = Some c.
Proof.
  destruct (next_code (S (List.length text)) text code) as [c|] eqn:E; [eauto|].
  exfalso. pose proof (next_code_none _ _ _ E) as H.
  assert (L : (List.length (range code (S (List.length text))) <= List.length text)%nat).
  { apply NoDup_incl_length; [apply range_NoDup|]. intros d Hd. unfold range in Hd.
    apply in_map_iff in Hd as [k [<- Hk]]. apply in_seq in Hk. apply H. lia. }
  unfold range in L. rewrite map_length, seq_length in L. lia.
Qed.

Lemma pick_codes_total n text code :
  exists l, pick_codes n (S (List.length text)) text code = Some l.
Proof.
  revert code; induction n as [|n IH]; intros code; cbn [pick_codes]; [eauto|].
  destruct (next_code_total text code) as [c ->]. destruct (IH (c + 1)) as [l ->]. eauto.
Qed.

Lemma pick_codes_spec n fuel text code l : pick_codes n fuel text code = Some l ->
  List.length l = n /\ NoDup l /\ (forall c, In c l -> code <= c /\ ~ In c text).
Proof.
  revert code l; induction n as [|n IH]; intros code l H; cbn [pick_codes] in H.
  - injection H as <-. repeat split; try constructor; contradiction.
  - destruct (next_code fuel text code) as [c|] eqn:E; [|discriminate].
    destruct (pick_codes n fuel text (c + 1)) as [r|] eqn:E2; [|discriminate]. injection H as <-.
    apply next_code_spec in E as [E1 [E3 _]]. apply IH in E2 as [L [ND Hr]].
    repeat split; [simpl; lia| | |].
    + constructor; auto. intros Hc. apply Hr in Hc. lia.
    + destruct H as [<-|H]; [lia|]. apply Hr in H. lia.
    + destruct H as [<-|H]; [assumption|]. apply Hr in H. tauto.
Qed.

Lemma filter_length_le {A} (f : A -> bool) l : (List.length (filter f l) <= List.length l)%nat.
Proof. induction l as [|x l IH]; [constructor|]. cbn [filter]. destruct (f x); cbn [List.length]; lia. Qed.

(** All codes passed over or chosen are characters of the text or chosen. *)
Lemma pick_codes_cover fuel text : forall n code l, pick_codes n fuel text code = Some l ->
  forall c, In c l -> forall d, code <= d <= c -> In d (text ++ l).
Proof.
  induction n as [|n IH]; intros code l H c Hc d Hd; cbn [pick_codes] in H.
  - injection H as <-. destruct Hc.
  - destruct (next_code fuel text code) as [c0|] eqn:E; [|discriminate].
    destruct (pick_codes n fuel text (c0 + 1)) as [r|] eqn:E2; [|discriminate]. injection H as <-.
    apply next_code_spec in E as [E1 [E3 E4]]. rewrite in_app_iff.
    destruct (N.lt_trichotomy d c0) as [Hlt|[->|Hgt]].
    + left. apply E4. lia.
    + right; left; auto.
    + destruct Hc as [<-|Hc]; [lia|].
      assert (Hi := IH _ _ E2 c Hc d ltac:(lia)). apply in_app_iff in Hi. simpl. tauto.
Qed.
Lemma pick_codes_few n fuel text code l : pick_codes n fuel text code = Some l ->
  forall c, In c l -> c < code + N.of_nat (List.length (filter (N.leb code) text)) + N.of_nat n.
Proof.
  (* the codes code..c are distinct and each is in the text or in the list *)
  intros H c Hc.
  pose proof (pick_codes_cover fuel text) as Hcov.
  assert (Hall := Hcov _ _ _ H c Hc).
  destruct (pick_codes_spec _ _ _ _ _ H) as [Ll [_ Hge]].
  assert (Hcc : code <= c) by (apply Hge; auto).
  assert (L : (List.length (range code (S (N.to_nat (c - code)))) <= List.length (filter (N.leb code) text ++ l))%nat).
  { apply NoDup_incl_length; [apply range_NoDup|]. intros d Hd. unfold range in Hd.
    apply in_map_iff in Hd as [k [<- Hk]]. apply in_seq in Hk. apply in_or_app.
    destruct (in_app_or _ _ _ (Hall (code + N.of_nat k) ltac:(lia))) as [I|I]; [left|right; exact I].
    apply filter_In. split; [exact I|]. apply N.leb_le. lia. }
  unfold range in L. rewrite map_length, seq_length, app_length, Ll in L. lia.
Qed.
(** They lie in a range of |text| + n codes. *)
Lemma pick_codes_bound n fuel text code l : pick_codes n fuel text code = Some l ->
  forall c, In c l -> c < code + N.of_nat (List.length text) + N.of_nat n.
Proof.
  intros H c Hc. pose proof (pick_codes_few _ _ _ _ _ H c Hc) as B. assert (L := filter_length_le (N.leb code) text). lia.
Qed.

Lemma get_parser_fresh text : exists y, get_parser text = Some y /\ fresh y text.
Proof.
  unfold get_parser.
  destruct (negb (existsb (fun c => mem c text) (symbol_list default_symbols))) eqn:E.
  - exists default_symbols. split; [reflexivity|]. split.
    + unfold symbol_chars, default_symbols; cbn. repeat constructor; cbn; intuition discriminate.
    + intros c Hc Hi. apply negb_true_iff in E.
      assert (E' : existsb (fun c => mem c text) (symbol_list default_symbols) = true).
      { apply existsb_exists. exists c. split; [exact Hc|]. now apply mem_In. }
      congruence.
  - destruct (pick_codes_total 4 text (INDENT_S default_symbols)) as [l El]. rewrite El.
    apply pick_codes_spec in El as [L [ND H]].
    destruct l as [|a [|b [|c [|d [|e l]]]]]; try discriminate.
    eexists; split; [reflexivity|]. split; [exact ND|]. intros x Hx. apply H. exact Hx.
Qed.

Lemma get_parser_few text y : get_parser text = Some y ->
  forall c, In c (symbol_chars y) -> 10088 <= c < 10092 + N.of_nat (List.length (filter (N.leb 10088) text)).
Proof.
  unfold get_parser.
  destruct (negb (existsb (fun c => mem c text) (symbol_list default_symbols))) eqn:E.
  - intros H; injection H as <-. intros c Hc. cbn in Hc. lia.
  - destruct (pick_codes 4 (S (List.length text)) text (INDENT_S default_symbols)) as [l|] eqn:El; [|discriminate].
    assert (B := pick_codes_few _ _ _ _ _ El). apply pick_codes_spec in El as [L [ND H]].
    destruct l as [|a [|b [|c [|d [|e l]]]]]; try discriminate.
    intros Hy; injection Hy as <-. intros x Hx.
    specialize (B x Hx). specialize (H x Hx).
    change (INDENT_S default_symbols) with 10088 in *. lia.
Qed.
Lemma get_parser_bound text y : get_parser text = Some y ->
  forall c, In c (symbol_chars y) -> 10088 <= c < 10092 + N.of_nat (List.length text).
Proof.
  intros H c Hc. pose proof (get_parser_few _ _ H c Hc) as B. assert (L := filter_length_le (N.leb 10088) text). lia.
Qed.

(** ** the plan of the output *)

(** Symbols between indentation [cur] and [ind]. *)
Definition ind_sym (y : symbols) (ch : char) : char := if ch =? SP then INDENT_S y else INDENT_T y.
Definition ded_sym (y : symbols) (ch : char) : char := if ch =? SP then DEDENT_S y else DEDENT_T y.
Definition syms (y : symbols) (cur ind : str) : str :=
  if startswith cur ind then map (ind_sym y) (skipn (List.length cur) ind)
  else map (ded_sym y) (rev (skipn (List.length ind) cur)).

Fixpoint enc (y : symbols) (cur : str) (ls : list str) : str * list str :=
  match ls with
  | [] => (map (ded_sym y) (rev cur), [])
  | l :: r => if blankb l then let (s, o) := enc y cur r in (s, [] :: o)
              else let (s, o) := enc y (leading l) r in
                   (syms y cur (leading l), (strip l ++ s) :: o)
  end.

(** Lines in order, each compatible with the previous indentation. *)
Fixpoint compat (cur : str) (ls : list str) : Prop :=
  match ls with
  | [] => True
  | l :: r => if blankb l then compat cur r
              else (startswith cur (leading l) || startswith (leading l) cur = true) /\ compat (leading l) r
  end.

Lemma blankb_blank l : blankb l = true <-> blank l.
Proof. unfold blankb, blank. apply forallb_forall. Qed.

Lemma blankb_false l : blankb l = false <-> ~ blank l.
Proof. rewrite <- blankb_blank. destruct (blankb l); split; congruence. Qed.

Lemma leading_blank l : blank (leading l).
Proof.
  induction l as [|c l IH]; simpl; [intros c []|]. destruct (is_space c) eqn:E; [|intros d []].
  intros d [<-|Hd]; auto.
Qed.

Lemma leading_lstrip l : l = leading l ++ lstrip l.
Proof.
  induction l as [|c l IH]; [reflexivity|]. simpl. destruct (is_space c) eqn:E; [|reflexivity].
  simpl. now rewrite <- IH.
Qed.

Lemma lstrip_rstrip_comm l : lstrip (rstrip l) = rstrip (lstrip l).
Proof.
  destruct (blank_dec l) as [Hb|Hb].
  - assert (E1 : rstrip l = []) by now apply blank_rstrip.
    assert (E2 : lstrip l = []) by (apply lstrip_nil; exact Hb). rewrite E1, E2. reflexivity.
  - rewrite (leading_lstrip l) at 1.
    assert (Hn : ~ all_space (lstrip l)).
    { intros H. apply Hb. rewrite (leading_lstrip l). intros c Hc.
      apply in_app_or in Hc as [Hc|Hc]; [now apply (leading_blank l)|auto]. }
    rewrite rstrip_app_nonblank by assumption. rewrite lstrip_app_space by apply leading_blank.
    destruct (lstrip l) as [|c r] eqn:E; [reflexivity|].
    assert (Hc : is_space c = false).
    { clear - E. revert E. induction l as [|d l IH]; simpl; [discriminate|].
      destruct (is_space d) eqn:Ed; [exact IH|]. intros H; injection H as -> _. exact Ed. }
    destruct (rstrip (c :: r)) as [|d q] eqn:Er; [reflexivity|].
    destruct (rstrip_decomp (c :: r)) as [w [Ew _]]. rewrite Er in Ew. injection Ew as -> _.
    simpl. now rewrite Hc.
Qed.

(** The three local variables of the loop body. *)
Lemma step_tail l : lstrip (rstrip l) = strip l.
Proof. apply lstrip_rstrip_comm. Qed.

Lemma step_indent l : ~ blank l ->
  firstn (List.length (rstrip l) - List.length (lstrip (rstrip l))) (rstrip l) = leading l.
Proof.
  intros Hb.
  assert (Hn : ~ all_space (lstrip l)).
  { intros H. apply Hb. rewrite (leading_lstrip l). intros c Hc.
    apply in_app_or in Hc as [Hc|Hc]; [now apply (leading_blank l)|auto]. }
  assert (E : rstrip l = leading l ++ rstrip (lstrip l)).
  { rewrite (leading_lstrip l) at 1. now apply rstrip_app_nonblank. }
  rewrite lstrip_rstrip_comm, E, app_length.
  replace (List.length (leading l) + List.length (rstrip (lstrip l)) - List.length (rstrip (lstrip l)))%nat
    with (List.length (leading l)) by lia.
  rewrite firstn_app, Nat.sub_diag, firstn_all. simpl. apply app_nil_r.
Qed.

Lemma strip_nonempty l : nonempty (lstrip (rstrip l)) = negb (blankb l).
Proof.
  rewrite lstrip_rstrip_comm.
  destruct (blankb l) eqn:E.
  - apply blankb_blank in E. assert (E2 : lstrip l = []) by (apply lstrip_nil; exact E). now rewrite E2.
  - apply blankb_false in E. destruct (rstrip (lstrip l)) eqn:E2; [|reflexivity].
    exfalso. apply E. apply rstrip_nil in E2. rewrite (leading_lstrip l). intros c Hc.
    apply in_app_or in Hc as [Hc|Hc]; [now apply (leading_blank l)|auto].
Qed.

Lemma startswith_eq_len a b : startswith a b = true -> List.length a = List.length b -> a = b.
Proof.
  rewrite startswith_spec. intros [r ->]. rewrite app_length. intros H.
  destruct r; [symmetry; apply app_nil_r|simpl in H; lia].
Qed.

Lemma skipn_len_nil {A} (l : list A) : skipn (List.length l) l = [].
Proof. apply skipn_all. Qed.

Lemma pp_indent_ok y n cur ind : startswith cur ind || startswith ind cur = true ->
  pp_indent y n cur ind = Ok (syms y cur ind, ind).
Proof.
  intros H. unfold pp_indent, syms.
  destruct (str_eqb ind cur) eqn:E.
  - apply str_eqb_eq in E. subst ind. rewrite startswith_refl, skipn_len_nil. reflexivity.
  - destruct (startswith cur ind) eqn:E1; [reflexivity|].
    rewrite orb_false_l in H. rewrite H. reflexivity.
Qed.

Lemma pp_indent_err y n cur ind : startswith cur ind || startswith ind cur = false ->
  pp_indent y n cur ind = Raise (IndentationError n).
Proof.
  intros H. apply orb_false_iff in H as [H1 H2]. unfold pp_indent.
  destruct (str_eqb ind cur) eqn:E.
  - apply str_eqb_eq in E. subst ind. rewrite startswith_refl in H1. discriminate.
  - now rewrite H1, H2.
Qed.

Definition done_text (st : pp) : str := join [NL] (rev (pp_lines st)).

Lemma done_append rl s m t : rl <> [] ->
  join [NL] (rev ((repeatc NL m ++ t) :: append_last rl s))
  = join [NL] (rev rl) ++ s ++ repeatc NL m ++ NL :: t.
Proof.
  intros H. destruct rl as [|l r]; [congruence|]. cbn [append_last rev].
  assert (J : forall a x, join [NL] ((a ++ [x])) = match a with [] => x | _ => join [NL] a ++ NL :: x end).
  { induction a as [|b a IH]; intros x; [reflexivity|]. cbn [app].
    rewrite join_cons by (destruct a; discriminate). rewrite IH.
    destruct a as [|b' a]; [reflexivity|]. rewrite (join_cons [NL] b) by discriminate.
    now rewrite <- !app_assoc. }
  assert (R : forall k z, NL :: repeatc NL k ++ z = repeatc NL k ++ NL :: z).
  { induction k as [|k IH]; intros z; [reflexivity|].
    change (repeatc NL (S k)) with (NL :: repeatc NL k). cbn [app]. now rewrite IH. }
  rewrite J. destruct (rev r ++ [l ++ s]) as [|p q] eqn:E; [destruct (rev r); discriminate|].
  rewrite <- E. rewrite !J. destruct (rev r) as [|a b]; rewrite <- ?app_assoc; cbn [app]; rewrite <- ?app_assoc; cbn [app]; now rewrite R.
Qed.

Lemma append_last_nil rl s : rl <> [] -> append_last rl s <> [].
Proof. destruct rl; [congruence|discriminate]. Qed.

Lemma compat_nil_cur cur : startswith cur [] || startswith [] cur = true.
Proof. simpl. apply orb_true_r. Qed.

Lemma syms_to_nil y cur : syms y cur [] = map (ded_sym y) (rev cur).
Proof. unfold syms. destruct cur as [|c cur]; [reflexivity|]. reflexivity. Qed.

(** Main lemma: what the loop appends to the output. *)
Lemma pp_loop_ok y ls : forall st total,
  (pp_linenum st + List.length ls = total)%nat -> pp_lines st <> [] -> compat (pp_current st) ls ->
  exists st', pp_loop y total st (ls ++ [[]]) = Ok st' /\ pp_current st' = [] /\ pp_margin st' = O /\
    done_text st' = done_text st ++ fst (enc y (pp_current st) ls) ++ repeatc NL (pp_margin st)
                    ++ flat_map (cons NL) (snd (enc y (pp_current st) ls)) ++ [NL].
Proof.
  induction ls as [|l ls IH]; intros st total Ht Hl Hc.
  - cbn [app pp_loop]. unfold pp_step. cbn [rstrip rev lstrip nonempty negb andb List.length].
    change (rstrip []) with (@nil N). cbn [lstrip nonempty negb andb List.length Nat.sub firstn].
    replace (Nat.leb (S (pp_linenum st)) total) with false by (symmetry; apply Nat.leb_gt; simpl in Ht; lia).
    rewrite (pp_indent_ok y _ (pp_current st) [] (compat_nil_cur _)). cbn [bind fst snd].
    eexists; split; [reflexivity|]. cbn [pp_current pp_margin pp_lines]. repeat split.
    unfold done_text. cbn [pp_lines]. rewrite done_append by assumption.
    cbn [enc fst snd flat_map]. rewrite syms_to_nil. reflexivity.
  - cbn [app pp_loop compat enc] in *. unfold pp_step at 1. rewrite strip_nonempty, negb_involutive.
    assert (Hle : Nat.leb (S (pp_linenum st)) total = true) by (apply Nat.leb_le; simpl in Ht; lia).
    rewrite Hle, andb_true_r.
    destruct (blankb l) eqn:Eb.
    + cbn [bind]. destruct (IH {| pp_lines := pp_lines st; pp_linenum := S (pp_linenum st);
          pp_current := pp_current st; pp_margin := S (pp_margin st) |} total) as [st' [E1 [E2 [E3 E4]]]];
        cbn [pp_linenum pp_lines pp_current pp_margin] in *; auto; [simpl in Ht; lia|].
      exists st'. repeat split; auto. rewrite E4. unfold done_text at 1. cbn [pp_lines].
      fold (done_text st). destruct (enc y (pp_current st) ls) as [s o]. cbn [fst snd flat_map].
      f_equal. f_equal. change (repeatc NL (S (pp_margin st))) with (NL :: repeatc NL (pp_margin st)).
      clear. induction (pp_margin st) as [|m IHm]; [reflexivity|].
      change (repeatc NL (S m)) with (NL :: repeatc NL m). cbn [app] in *. now rewrite IHm.
    + destruct Hc as [Hc1 Hc2]. apply blankb_false in Eb.
      rewrite step_indent by assumption. rewrite pp_indent_ok by assumption. cbn [bind fst snd].
      match goal with |- context [pp_loop y total ?s _] => set (st1 := s) end.
      destruct (IH st1 total) as [st' [E1 [E2 [E3 E4]]]]; subst st1;
        cbn [pp_linenum pp_lines pp_current pp_margin] in *; auto; [simpl in Ht; lia|discriminate|].
      exists st'. repeat split; auto. rewrite E4. unfold done_text at 1. cbn [pp_lines].
      rewrite done_append by assumption. fold (done_text st).
      destruct (enc y (leading l) ls) as [s o]. cbn [fst snd flat_map repeatc repeat app].
      rewrite lstrip_rstrip_comm. change (strip l) with (strip l). unfold strip.
      rewrite ?lstrip_rstrip_comm. rewrite <- !app_assoc. reflexivity.
Qed.

(** ** errors *)

(** First line that does not fit, with its number from zero. *)
Fixpoint first_bad (cur : str) (ls : list str) : option nat :=
  match ls with
  | [] => None
  | l :: r => if blankb l then option_map S (first_bad cur r)
              else if startswith cur (leading l) || startswith (leading l) cur
                   then option_map S (first_bad (leading l) r) else Some O
  end.

Lemma first_bad_none cur ls : first_bad cur ls = None <-> compat cur ls.
Proof.
  revert cur; induction ls as [|l ls IH]; intros cur; cbn [first_bad compat]; [tauto|].
  destruct (blankb l).
  - rewrite <- IH. destruct (first_bad cur ls); cbn; split; congruence.
  - destruct (startswith cur (leading l) || startswith (leading l) cur) eqn:E.
    + rewrite <- IH. destruct (first_bad (leading l) ls); cbn; split; try congruence; try tauto.
      intros [_ H]; congruence.
    + split; [discriminate|]. intros [H _]; discriminate.
Qed.

Lemma pp_loop_err y ls : forall st total k,
  (pp_linenum st + List.length ls = total)%nat -> first_bad (pp_current st) ls = Some k ->
  pp_loop y total st (ls ++ [[]]) = Raise (IndentationError (S (pp_linenum st + k))).
Proof.
  induction ls as [|l ls IH]; intros st total k Ht Hk; [discriminate|].
  cbn [first_bad app pp_loop] in *. unfold pp_step at 1. rewrite strip_nonempty, negb_involutive.
  assert (Hle : Nat.leb (S (pp_linenum st)) total = true) by (apply Nat.leb_le; simpl in Ht; lia).
  rewrite Hle, andb_true_r. destruct (blankb l) eqn:Eb.
  - cbn [bind]. destruct (first_bad (pp_current st) ls) as [j|] eqn:Ej; [|discriminate].
    injection Hk as <-. rewrite (IH _ total j); cbn [pp_linenum pp_current]; auto; [|simpl in Ht; lia].
    f_equal. f_equal. lia.
  - apply blankb_false in Eb. rewrite step_indent by assumption.
    destruct (startswith (pp_current st) (leading l) || startswith (leading l) (pp_current st)) eqn:E.
    + rewrite pp_indent_ok by assumption. cbn [bind fst snd].
      destruct (first_bad (leading l) ls) as [j|] eqn:Ej; [|discriminate].
      injection Hk as <-. rewrite (IH _ total j); cbn [pp_linenum pp_current]; auto; [|simpl in Ht; lia].
      f_equal. f_equal. lia.
    + rewrite pp_indent_err by assumption. cbn [bind]. injection Hk as <-. f_equal. f_equal. lia.
Qed.

(** The output of the preprocessor. *)
Definition plan_text (y : symbols) (ls : list str) : str :=
  fst (enc y [] ls) ++ flat_map (cons NL) (snd (enc y [] ls)).

Lemma preprocess_cases y text :
  preprocess y text = match first_bad [] (lines text) with
                      | Some k => Raise (IndentationError (S k))
                      | None => Ok (plan_text y (lines text))
                      end.
Proof.
  unfold preprocess. change (split NL text) with (lines text).
  assert (Ht : (pp_linenum pp_init + List.length (lines text)
                = Nat.pred (List.length (lines text ++ [[]])))%nat).
  { rewrite app_length. cbn [pp_linenum pp_init List.length]. lia. }
  destruct (first_bad [] (lines text)) as [k|] eqn:E.
  - rewrite (pp_loop_err y (lines text) pp_init _ k Ht E). reflexivity.
  - apply first_bad_none in E.
    destruct (pp_loop_ok y (lines text) pp_init _ Ht ltac:(discriminate) E) as [st [E1 [E2 [E3 E4]]]].
    rewrite E1. cbn [bind]. rewrite E2, E3. cbn [nonempty repeatc repeat]. rewrite app_nil_r.
    fold (done_text st). rewrite E4. unfold done_text at 1. cbn [pp_lines pp_init pp_current pp_margin rev app join repeatc repeat].
    rewrite app_assoc, rev_app_distr. cbn [rev app]. rewrite N.eqb_refl, rev_involutive. reflexivity.
Qed.

(** Relation of [first_bad] to the specification. *)
Lemma startswith_is_prefix a b : startswith a b = true <-> is_prefix a b.
Proof. apply startswith_spec. Qed.

Lemma compatible_b a b : compatible a b <-> startswith a b || startswith b a = true.
Proof. unfold compatible. now rewrite orb_true_iff, !startswith_is_prefix. Qed.

(** Indentation of the last non-blank line, [cur] if there is none. *)
Definition last_indent_from (cur : str) (ls : list str) : str :=
  match filter (fun l => negb (blankb l)) (rev ls) with l :: _ => leading l | [] => cur end.

Lemma last_indent_from_cons cur l ls : last_indent_from cur (l :: ls) =
  last_indent_from (if blankb l then cur else leading l) ls.
Proof.
  unfold last_indent_from. cbn [rev]. rewrite filter_app. cbn [filter].
  destruct (filter (fun l0 => negb (blankb l0)) (rev ls)); [|destruct (negb (blankb l)); reflexivity].
  destruct (blankb l); reflexivity.
Qed.

Definition bad_from (cur : str) (ls : list str) (k : nat) : Prop :=
  exists l, nth_error ls k = Some l /\ ~ blank l /\ ~ compatible (last_indent_from cur (firstn k ls)) (leading l).

Lemma bad_from_S cur l ls k : bad_from cur (l :: ls) (S k) <->
  bad_from (if blankb l then cur else leading l) ls k.
Proof. unfold bad_from. cbn [nth_error firstn]. now setoid_rewrite last_indent_from_cons. Qed.

Lemma bad_from_0 cur l ls : bad_from cur (l :: ls) 0 <-> ~ blank l /\ ~ compatible cur (leading l).
Proof.
  unfold bad_from. cbn [nth_error firstn]. change (last_indent_from cur []) with cur. split.
  - intros [x [E [H1 H2]]]. injection E as <-. auto.
  - intros [H1 H2]. exists l. auto.
Qed.

Lemma first_bad_some cur ls k : first_bad cur ls = Some k <->
  bad_from cur ls k /\ forall j, (j < k)%nat -> ~ bad_from cur ls j.
Proof.
  revert cur k; induction ls as [|l ls IH]; intros cur k; cbn [first_bad].
  - split; [discriminate|]. intros [[x [H _]] _]. destruct k; discriminate.
  - assert (Hstep : ~ bad_from cur (l :: ls) 0 ->
      (option_map S (first_bad (if blankb l then cur else leading l) ls) = Some k <->
       bad_from cur (l :: ls) k /\ forall j, (j < k)%nat -> ~ bad_from cur (l :: ls) j)).
    { intros H0. destruct k as [|k].
      - split; [|tauto]. destruct (first_bad _ ls); discriminate.
      - rewrite bad_from_S. specialize (IH (if blankb l then cur else leading l) k).
        assert (E : option_map S (first_bad (if blankb l then cur else leading l) ls) = Some (S k) <->
                    first_bad (if blankb l then cur else leading l) ls = Some k).
        { destruct (first_bad _ ls); cbn; split; congruence. }
        rewrite E, IH. split; intros [H1 H2]; (split; [exact H1|]); intros j Hj.
        + destruct j as [|j]; [exact H0|]. rewrite bad_from_S. apply H2. lia.
        + rewrite <- bad_from_S. apply H2. lia. }
    destruct (blankb l) eqn:Eb.
    + apply Hstep. rewrite bad_from_0. apply blankb_blank in Eb. tauto.
    + destruct (startswith cur (leading l) || startswith (leading l) cur) eqn:E.
      * apply Hstep. rewrite bad_from_0, compatible_b. tauto.
      * assert (H0 : bad_from cur (l :: ls) 0).
        { apply bad_from_0. rewrite compatible_b. apply blankb_false in Eb. split; [auto|congruence]. }
        split.
        -- intros H; injection H as <-. split; [exact H0|]. intros j Hj; lia.
        -- intros [H1 H2]. destruct k as [|k]; [reflexivity|]. exfalso. apply (H2 O); [lia|exact H0].
Qed.

Lemma bad_from_nil ls k : bad_from [] ls k <-> bad_line ls k.
Proof. reflexivity. Qed.

Lemma preprocess_error y text e : preprocess y text = Raise e <->
  exists k, e = IndentationError (S k) /\ bad_line (lines text) k /\
            forall j, (j < k)%nat -> ~ bad_line (lines text) j.
Proof.
  rewrite preprocess_cases. destruct (first_bad [] (lines text)) as [k|] eqn:E.
  - apply first_bad_some in E as [E1 E2]. split.
    + intros H; injection H as <-. exists k. auto.
    + intros [j [-> [H1 H2]]]. f_equal. f_equal. f_equal.
      destruct (Nat.lt_trichotomy j k) as [L|[->|L]]; [|reflexivity|].
      * exfalso. apply (E2 j L). exact H1.
      * exfalso. apply (H2 k L). exact E1.
  - split; [discriminate|]. intros [k [_ H]].
    assert (F : first_bad [] (lines text) = Some k) by (apply first_bad_some; exact H). congruence.
Qed.

Lemma preprocess_ok_iff y text : (exists out, preprocess y text = Ok out) <->
  forall k, ~ bad_line (lines text) k.
Proof.
  rewrite preprocess_cases. destruct (first_bad [] (lines text)) as [k|] eqn:E.
  - apply first_bad_some in E as [E1 E2]. split; [intros [o H]; discriminate|]. intros H. destruct (H k E1).
  - split; [|eauto]. intros _ k Hk.
    (* take the least one *)
    assert (Hex : exists j, bad_from [] (lines text) j /\ forall i, (i < j)%nat -> ~ bad_from [] (lines text) i).
    { assert (D : forall n, {bad_from [] (lines text) n} + {~ bad_from [] (lines text) n}).
      { intros n. unfold bad_from. destruct (nth_error (lines text) n) as [l|] eqn:El.
        - destruct (blank_dec l) as [Hb|Hb]; [right; intros [x [Ex [Hx _]]]; congruence|].
          destruct (startswith (last_indent_from [] (firstn n (lines text))) (leading l) ||
                    startswith (leading l) (last_indent_from [] (firstn n (lines text)))) eqn:Ec.
          + right. intros [x [Ex [_ Hx]]]. injection Ex as <-. apply Hx. now apply compatible_b.
          + left. exists l. repeat split; auto. rewrite compatible_b. congruence.
        - right. intros [x [Ex _]]. discriminate. }
      clear E. revert Hk. induction k as [k IHk] using lt_wf_ind. intros Hk.
      assert (C : (exists j, (j < k)%nat /\ bad_from [] (lines text) j) \/
                  forall j, (j < k)%nat -> ~ bad_from [] (lines text) j).
      { clear - D. induction k as [|k IH]; [right; intros; lia|].
        destruct IH as [[j [H1 H2]]|H]; [left; exists j; split; [lia|auto]|].
        destruct (D k) as [Hd|Hd]; [left; exists k; split; [lia|auto]|].
        right. intros j Hj. destruct (Nat.eq_dec j k) as [->|]; [auto|apply H; lia]. }
      destruct C as [[j [H1 H2]]|C]; [eapply IHk; eauto|]. exists k; auto. }
    destruct Hex as [j Hj]. apply first_bad_some in Hj. congruence.
Qed.

(** ** structure of the output *)

Lemma lines_flat s o : ~ In NL s -> (forall x, In x o -> ~ In NL x) ->
  lines (s ++ flat_map (cons NL) o) = s :: o.
Proof.
  intros Hs Ho.
  assert (E : s ++ flat_map (cons NL) o = join [NL] (s :: o)).
  { clear. revert s; induction o as [|x o IH]; intros s; [apply app_nil_r|].
    rewrite join_cons by discriminate. rewrite <- IH. reflexivity. }
  rewrite E. apply lines_join; [discriminate|]. intros l [<-|Hl]; auto.
Qed.

Definition all_symbols (y : symbols) (s : str) : Prop := forall c, In c s -> In c (symbol_chars y).

Lemma ded_syms_symbols y l : all_symbols y (map (ded_sym y) l).
Proof.
  intros c Hc. apply in_map_iff in Hc as [x [<- _]]. unfold ded_sym, symbol_chars.
  destruct (x =? SP); simpl; auto.
Qed.
Lemma ind_syms_symbols y l : all_symbols y (map (ind_sym y) l).
Proof.
  intros c Hc. apply in_map_iff in Hc as [x [<- _]]. unfold ind_sym, symbol_chars.
  destruct (x =? SP); simpl; auto.
Qed.
Lemma syms_symbols y a b : all_symbols y (syms y a b).
Proof. unfold syms. destruct (startswith a b); [apply ind_syms_symbols|apply ded_syms_symbols]. Qed.

Lemma enc_structure y : forall ls cur,
  all_symbols y (fst (enc y cur ls)) /\ List.length (snd (enc y cur ls)) = List.length ls /\
  forall k l, nth_error ls k = Some l ->
    exists s, all_symbols y s /\ nth_error (snd (enc y cur ls)) k = Some (strip l ++ s).
Proof.
  induction ls as [|l ls IH]; intros cur; cbn [enc].
  - cbn [fst snd]. split; [apply ded_syms_symbols|]. split; [reflexivity|]. intros [|k] l H; discriminate.
  - destruct (blankb l) eqn:Eb.
    + destruct (IH cur) as [H1 [H2 H3]]. destruct (enc y cur ls) as [s o]. cbn [fst snd] in *.
      split; [exact H1|]. split; [simpl; lia|]. intros [|k] x Hx; cbn [nth_error] in *; [|auto].
      injection Hx as <-. exists []. split; [intros c []|].
      apply blankb_blank in Eb. unfold strip.
      assert (E2 : lstrip l = []) by (apply lstrip_nil; exact Eb). now rewrite E2.
    + destruct (IH (leading l)) as [H1 [H2 H3]]. destruct (enc y (leading l) ls) as [s o]. cbn [fst snd] in *.
      split; [apply syms_symbols|]. split; [simpl; lia|]. intros [|k] x Hx; cbn [nth_error] in *; [|auto].
      injection Hx as <-. exists s. auto.
Qed.

Lemma strip_In c l : In c (strip l) -> In c l.
Proof.
  unfold strip. intros H. destruct (rstrip_decomp (lstrip l)) as [w [E _]].
  destruct (lstrip_decomp l) as [w' [E' _]]. rewrite E'. apply in_or_app; right. rewrite E. apply in_or_app; auto.
Qed.

(** newline is not a symbol *)
Definition sane (y : symbols) : Prop := ~ In NL (symbol_chars y).

Lemma plan_lines y text : sane y ->
  lines (plan_text y (lines text)) = fst (enc y [] (lines text)) :: snd (enc y [] (lines text)).
Proof.
  intros Hy. unfold plan_text. destruct (enc_structure y (lines text) []) as [H1 [H2 H3]].
  apply lines_flat.
  - intros H. apply Hy, H1, H.
  - intros x Hx. apply In_nth_error in Hx as [k Hk].
    destruct (nth_error (lines text) k) as [l|] eqn:El.
    2:{ apply nth_error_None in El. assert (L : (k < List.length (snd (enc y [] (lines text))))%nat)
          by (apply nth_error_Some; congruence). lia. }
    destruct (H3 k l El) as [s [Hs Hn]]. rewrite Hk in Hn. injection Hn as ->.
    rewrite in_app_iff. intros [H|H]; [|apply Hy, Hs, H].
    apply strip_In in H. apply (lines_no_NL text l); auto. eapply nth_error_In; eauto.
Qed.

(** A line with the newline in it also yields the symbol condition. *)
Lemma preprocess_lines y text out : sane y -> preprocess y text = Ok out ->
  List.length (lines out) = S (List.length (lines text)) /\
  forall k l, nth_error (lines text) k = Some l ->
    exists s, all_symbols y s /\ nth_error (lines out) (S k) = Some (strip l ++ s).
Proof.
  intros Hy H. rewrite preprocess_cases in H. destruct (first_bad [] (lines text)); [discriminate|].
  injection H as <-. rewrite plan_lines by assumption.
  destruct (enc_structure y (lines text) []) as [H1 [H2 H3]]. split; [simpl; lia|].
  intros k l Hk. cbn [nth_error]. auto.
Qed.

(** ** balance *)

(** Stack machine for the symbols. *)
Fixpoint run (y : symbols) (st : list char) (s : str) : option (list char) :=
  match s with
  | [] => Some st
  | c :: r =>
      if c =? INDENT_S y then run y (SP :: st) r
      else if c =? INDENT_T y then run y (TAB :: st) r
      else if c =? DEDENT_S y then match st with SP0 :: st' => if SP0 =? SP then run y st' r else None | [] => None end
      else if c =? DEDENT_T y then match st with T0 :: st' => if T0 =? TAB then run y st' r else None | [] => None end
      else run y st r
  end.

Lemma run_app y a b st : run y st (a ++ b) = match run y st a with Some st' => run y st' b | None => None end.
Proof.
  revert st; induction a as [|c a IH]; intros st; [reflexivity|]. cbn [app run].
  destruct (c =? INDENT_S y); [apply IH|]. destruct (c =? INDENT_T y); [apply IH|].
  destruct (c =? DEDENT_S y).
  { destruct st as [|x st]; [reflexivity|]. destruct (x =? SP); [apply IH|reflexivity]. }
  destruct (c =? DEDENT_T y).
  { destruct st as [|x st]; [reflexivity|]. destruct (x =? TAB); [apply IH|reflexivity]. }
  apply IH.
Qed.

Lemma distinct_symbols y : NoDup (symbol_chars y) ->
  INDENT_S y <> DEDENT_S y /\ INDENT_S y <> INDENT_T y /\ INDENT_S y <> DEDENT_T y /\
  DEDENT_S y <> INDENT_T y /\ DEDENT_S y <> DEDENT_T y /\ INDENT_T y <> DEDENT_T y.
Proof.
  unfold symbol_chars. intros H. inversion H as [|? ? H1 H2]; subst. inversion H2 as [|? ? H3 H4]; subst.
  inversion H4 as [|? ? H5 H6]; subst. simpl in *. intuition.
Qed.

(** Runs that empty the stack are balanced words followed by closers. *)
Fixpoint closed (y : symbols) (st : list char) (s : str) : Prop :=
  match st with
  | [] => balanced y s
  | x :: st' => exists a b, s = a ++ (if x =? SP then DEDENT_S y else DEDENT_T y) :: b /\
                            balanced y a /\ closed y st' b
  end.

Lemma closed_char y c s st : ~ In c (symbol_chars y) -> closed y st s -> closed y st (c :: s).
Proof.
  intros Hc. destruct st as [|x st]; cbn [closed].
  - intros H. now apply bal_char.
  - intros [a [b [-> [H1 H2]]]]. exists (c :: a), b. repeat split; auto. now apply bal_char.
Qed.

Lemma closed_open_space y a b st : balanced y a -> closed y st b -> closed y st (INDENT_S y :: a ++ DEDENT_S y :: b).
Proof.
  intros Ha. destruct st as [|x st]; cbn [closed].
  - intros Hb. now apply bal_space.
  - intros [p [q [-> [H1 H2]]]]. exists (INDENT_S y :: a ++ DEDENT_S y :: p), q. repeat split; auto.
    + cbn [app]. f_equal. now rewrite <- app_assoc.
    + now apply bal_space.
Qed.
Lemma closed_open_tab y a b st : balanced y a -> closed y st b -> closed y st (INDENT_T y :: a ++ DEDENT_T y :: b).
Proof.
  intros Ha. destruct st as [|x st]; cbn [closed].
  - intros Hb. now apply bal_tab.
  - intros [p [q [-> [H1 H2]]]]. exists (INDENT_T y :: a ++ DEDENT_T y :: p), q. repeat split; auto.
    + cbn [app]. f_equal. now rewrite <- app_assoc.
    + now apply bal_tab.
Qed.

Lemma run_closed y s : NoDup (symbol_chars y) -> forall st, (forall x, In x st -> x = SP \/ x = TAB) ->
  run y st s = Some [] -> closed y st s.
Proof.
  intros Hd. destruct (distinct_symbols y Hd) as [D1 [D2 [D3 [D4 [D5 D6]]]]].
  induction s as [|c s IH]; intros st Hst H; cbn [run] in H.
  - injection H as ->. constructor.
  - destruct (N.eqb_spec c (INDENT_S y)) as [->|E1].
    { apply IH in H; [|intros x [<-|Hx]; auto]. cbn [closed] in H.
      change (SP =? SP) with true in H. cbv iota in H.
      destruct H as [a [b [-> [H1 H2]]]]. now apply closed_open_space. }
    destruct (N.eqb_spec c (INDENT_T y)) as [->|E2].
    { apply IH in H; [|intros x [<-|Hx]; auto]. cbn [closed] in H.
      change (TAB =? SP) with false in H. cbv iota in H.
      destruct H as [a [b [-> [H1 H2]]]]. now apply closed_open_tab. }
    destruct (N.eqb_spec c (DEDENT_S y)) as [->|E3].
    { destruct st as [|x st]; [discriminate|]. destruct (N.eqb_spec x SP) as [->|Hx]; [|discriminate].
      cbn [closed]. exists [], s. change (SP =? SP) with true. split; [reflexivity|]. split; [constructor|].
      apply IH; auto. intros; apply Hst; right; auto. }
    destruct (N.eqb_spec c (DEDENT_T y)) as [->|E4].
    { destruct st as [|x st]; [discriminate|]. destruct (N.eqb_spec x TAB) as [->|Hx]; [|discriminate].
      cbn [closed]. exists [], s. change (TAB =? SP) with false. split; [reflexivity|]. split; [constructor|].
      apply IH; auto. intros; apply Hst; right; auto. }
    apply closed_char; auto. unfold symbol_chars. simpl. intuition.
Qed.

Lemma run_no_symbols y st s : (forall c, In c s -> ~ In c (symbol_chars y)) -> run y st s = Some st.
Proof.
  induction s as [|c s IH]; intros H; [reflexivity|]. cbn [run].
  assert (Hc : ~ In c (symbol_chars y)) by (apply H; left; auto). unfold symbol_chars in Hc. simpl in Hc.
  destruct (N.eqb_spec c (INDENT_S y)); [exfalso; intuition|].
  destruct (N.eqb_spec c (INDENT_T y)); [exfalso; intuition|].
  destruct (N.eqb_spec c (DEDENT_S y)); [exfalso; intuition|].
  destruct (N.eqb_spec c (DEDENT_T y)); [exfalso; intuition|].
  apply IH. intros d Hd; apply H; right; auto.
Qed.

Lemma run_indents y l st : NoDup (symbol_chars y) ->
  run y st (map (ind_sym y) l) = Some (rev (map norm_char l) ++ st).
Proof.
  intros Hd. destruct (distinct_symbols y Hd) as [D1 [D2 [D3 [D4 [D5 D6]]]]].
  revert st; induction l as [|c l IH]; intros st; [reflexivity|].
  cbn [map run rev].
  assert (E1 : ind_sym y c = if c =? SP then INDENT_S y else INDENT_T y) by reflexivity.
  assert (E2 : norm_char c = if c =? SP then SP else TAB) by reflexivity.
  rewrite E1, E2. clear E1 E2. destruct (c =? SP).
  - rewrite N.eqb_refl, IH, <- app_assoc. reflexivity.
  - replace (INDENT_T y =? INDENT_S y) with false by (symmetry; apply N.eqb_neq; congruence).
    rewrite N.eqb_refl, IH, <- app_assoc. reflexivity.
Qed.

Lemma run_dedents y l st : NoDup (symbol_chars y) ->
  run y (map norm_char l ++ st) (map (ded_sym y) l) = Some st.
Proof.
  intros Hd. destruct (distinct_symbols y Hd) as [D1 [D2 [D3 [D4 [D5 D6]]]]].
  revert st; induction l as [|c l IH]; intros st; [reflexivity|].
  cbn [map run app].
  assert (E1 : ded_sym y c = if c =? SP then DEDENT_S y else DEDENT_T y) by reflexivity.
  assert (E2 : norm_char c = if c =? SP then SP else TAB) by reflexivity.
  rewrite E1, E2. clear E1 E2. destruct (c =? SP).
  - replace (DEDENT_S y =? INDENT_S y) with false by (symmetry; apply N.eqb_neq; congruence).
    replace (DEDENT_S y =? INDENT_T y) with false by (symmetry; apply N.eqb_neq; congruence).
    rewrite N.eqb_refl. change (SP =? SP) with true. cbv iota. apply IH.
  - replace (DEDENT_T y =? INDENT_S y) with false by (symmetry; apply N.eqb_neq; congruence).
    replace (DEDENT_T y =? INDENT_T y) with false by (symmetry; apply N.eqb_neq; congruence).
    replace (DEDENT_T y =? DEDENT_S y) with false by (symmetry; apply N.eqb_neq; congruence).
    rewrite N.eqb_refl. change (TAB =? TAB) with true. cbv iota. apply IH.
Qed.

(** Stack for an indentation: innermost character first. *)
Definition stk (ind : str) : list char := rev (map norm_char ind).

Lemma run_syms y cur ind : NoDup (symbol_chars y) ->
  startswith cur ind || startswith ind cur = true ->
  run y (stk cur) (syms y cur ind) = Some (stk ind).
Proof.
  intros Hd H. unfold syms, stk. destruct (startswith cur ind) eqn:E.
  - apply startswith_spec in E as [r ->]. rewrite skipn_app_exact, run_indents by assumption.
    rewrite map_app, rev_app_distr. reflexivity.
  - cbn [orb] in H. apply startswith_spec in H as [r ->]. rewrite skipn_app_exact.
    rewrite map_app, rev_app_distr, <- (map_rev norm_char r). now rewrite run_dedents.
Qed.

Lemma run_enc y : NoDup (symbol_chars y) -> sane y -> forall ls cur,
  compat cur ls -> (forall l c, In l ls -> In c l -> ~ In c (symbol_chars y)) ->
  run y (stk cur) (fst (enc y cur ls) ++ flat_map (cons NL) (snd (enc y cur ls))) = Some [].
Proof.
  intros Hd Hy. induction ls as [|l ls IH]; intros cur Hc Hf; cbn [enc compat] in *.
  - cbn [fst snd flat_map]. rewrite app_nil_r. unfold stk. rewrite <- map_rev.
    rewrite <- (app_nil_r (map norm_char (rev cur))). now apply run_dedents.
  - assert (Hnl : forall st r, run y st (NL :: r) = run y st r).
    { intros st r. change (NL :: r) with ([NL] ++ r). rewrite run_app, run_no_symbols; [reflexivity|].
      intros c [<-|[]]. exact Hy. }
    destruct (blankb l) eqn:Eb.
    + specialize (IH cur Hc ltac:(intros; eapply Hf; eauto; right; auto)).
      destruct (enc y cur ls) as [s o]. cbn [fst snd flat_map app] in *.
      rewrite run_app in *. destruct (run y (stk cur) s); [|discriminate]. now rewrite Hnl.
    + destruct Hc as [Hc1 Hc2].
      specialize (IH (leading l) Hc2 ltac:(intros; eapply Hf; eauto; right; auto)).
      destruct (enc y (leading l) ls) as [s o]. cbn [fst snd flat_map] in *.
      rewrite run_app, run_syms by assumption. cbn [app]. rewrite Hnl.
      rewrite <- app_assoc, run_app, run_no_symbols; [exact IH|].
      intros c Hcs. apply strip_In in Hcs. eapply Hf; eauto. left; auto.
Qed.

Lemma lines_In t l c : In l (lines t) -> In c l -> In c t.
Proof.
  intros Hl Hc. rewrite <- (join_lines t). clear - Hl Hc. revert Hl.
  induction (lines t) as [|x ls IH]; intros Hl; [destruct Hl|].
  destruct ls as [|y ls]; [destruct Hl as [->|[]]; exact Hc|].
  rewrite join_cons by discriminate. rewrite !in_app_iff.
  destruct Hl as [->|Hl]; [auto|]. right; right. now apply IH.
Qed.

Lemma preprocess_balanced y text out : fresh y text -> sane y ->
  preprocess y text = Ok out -> balanced y out.
Proof.
  intros [Hd Hf] Hy H. rewrite preprocess_cases in H.
  destruct (first_bad [] (lines text)) as [k|] eqn:E; [discriminate|]. injection H as <-.
  apply first_bad_none in E. apply (run_closed y _ Hd []); [intros x []|].
  apply (run_enc y Hd Hy (lines text) []); auto.
  intros l c Hl Hc Hs. apply (Hf c Hs). eapply lines_In; eauto.
Qed.

(** ** decoding *)

Lemma is_symbol_In y c : is_symbol y c = true <-> In c (symbol_chars y).
Proof. unfold is_symbol. apply mem_In. Qed.

Lemma filter_content y t s : (forall c, In c t -> ~ In c (symbol_chars y)) -> all_symbols y s ->
  filter (fun c => negb (is_symbol y c)) (t ++ s) = t.
Proof.
  intros Ht Hs. rewrite filter_app.
  replace (filter _ s) with (@nil N).
  - rewrite app_nil_r. induction t as [|c t IH]; [reflexivity|]. cbn [filter].
    replace (is_symbol y c) with false.
    + cbn [negb]. f_equal. apply IH. intros d Hd; apply Ht; right; auto.
    + symmetry. apply not_true_iff_false. rewrite is_symbol_In. apply Ht; left; auto.
  - symmetry. induction s as [|c s IH]; [reflexivity|]. cbn [filter].
    replace (is_symbol y c) with true by (symmetry; apply is_symbol_In, Hs; left; auto).
    cbn [negb]. apply IH. intros d Hd; apply Hs; right; auto.
Qed.

Lemma dec_indent_app y cur a b : dec_indent y cur (a ++ b) = dec_indent y (dec_indent y cur a) b.
Proof. revert cur; induction a as [|c a IH]; intros cur; [reflexivity|]. cbn [app dec_indent]. apply IH. Qed.

Lemma dec_indent_content y cur t : (forall c, In c t -> ~ In c (symbol_chars y)) -> dec_indent y cur t = cur.
Proof.
  revert cur; induction t as [|c t IH]; intros cur H; [reflexivity|]. cbn [dec_indent].
  assert (Hc : ~ In c (symbol_chars y)) by (apply H; left; auto). unfold symbol_chars in Hc. simpl in Hc.
  destruct (N.eqb_spec c (INDENT_S y)); [exfalso; intuition|].
  destruct (N.eqb_spec c (INDENT_T y)); [exfalso; intuition|].
  destruct (N.eqb_spec c (DEDENT_S y)); [exfalso; intuition|].
  destruct (N.eqb_spec c (DEDENT_T y)); [exfalso; intuition|].
  cbn [orb]. apply IH. intros d Hd; apply H; right; auto.
Qed.

Lemma dec_indent_ind y l cur : NoDup (symbol_chars y) ->
  dec_indent y cur (map (ind_sym y) l) = cur ++ map norm_char l.
Proof.
  intros Hd. destruct (distinct_symbols y Hd) as [D1 [D2 [D3 [D4 [D5 D6]]]]].
  revert cur; induction l as [|c l IH]; intros cur; [symmetry; apply app_nil_r|].
  cbn [map dec_indent]. rewrite IH.
  assert (E1 : ind_sym y c = if c =? SP then INDENT_S y else INDENT_T y) by reflexivity.
  assert (E2 : norm_char c = if c =? SP then SP else TAB) by reflexivity.
  rewrite E1, E2. clear E1 E2. destruct (c =? SP).
  - rewrite N.eqb_refl, <- app_assoc. reflexivity.
  - replace (INDENT_T y =? INDENT_S y) with false by (symmetry; apply N.eqb_neq; congruence).
    rewrite N.eqb_refl, <- app_assoc. reflexivity.
Qed.

Lemma dec_indent_ded y l cur : NoDup (symbol_chars y) ->
  dec_indent y (cur ++ rev (map norm_char l)) (map (ded_sym y) l) = cur.
Proof.
  intros Hd. destruct (distinct_symbols y Hd) as [D1 [D2 [D3 [D4 [D5 D6]]]]].
  revert cur; induction l as [|c l IH]; intros cur; [apply app_nil_r|].
  cbn [map dec_indent rev].
  match goal with |- dec_indent y ?e _ = _ => replace e with (cur ++ rev (map norm_char l)); [apply IH|] end.
  assert (R : removelast (cur ++ rev (map norm_char l) ++ [norm_char c]) = cur ++ rev (map norm_char l)).
  { rewrite app_assoc, removelast_app by discriminate. apply app_nil_r. }
  unfold ded_sym. destruct (c =? SP).
  - replace (DEDENT_S y =? INDENT_S y) with false by (symmetry; apply N.eqb_neq; congruence).
    replace (DEDENT_S y =? INDENT_T y) with false by (symmetry; apply N.eqb_neq; congruence).
    rewrite N.eqb_refl. cbn [orb]. now rewrite R.
  - replace (DEDENT_T y =? INDENT_S y) with false by (symmetry; apply N.eqb_neq; congruence).
    replace (DEDENT_T y =? INDENT_T y) with false by (symmetry; apply N.eqb_neq; congruence).
    rewrite N.eqb_refl, orb_true_r. now rewrite R.
Qed.

Lemma dec_indent_syms y cur ind : NoDup (symbol_chars y) ->
  startswith cur ind || startswith ind cur = true ->
  dec_indent y (map norm_char cur) (syms y cur ind) = map norm_char ind.
Proof.
  intros Hd H. unfold syms. destruct (startswith cur ind) eqn:E.
  - apply startswith_spec in E as [r ->]. rewrite skipn_app_exact, dec_indent_ind by assumption.
    now rewrite map_app.
  - cbn [orb] in H. apply startswith_spec in H as [r ->]. rewrite skipn_app_exact, map_app.
    rewrite <- (rev_involutive (map norm_char r)), <- map_rev. now apply dec_indent_ded.
Qed.

Lemma strip_nil_blank l : strip l = [] <-> blank l.
Proof.
  unfold strip. rewrite <- lstrip_rstrip_comm.
  assert (E := strip_nonempty l). destruct (lstrip (rstrip l)); destruct (blankb l) eqn:Eb; try discriminate.
  - apply blankb_blank in Eb. tauto.
  - apply blankb_false in Eb. split; [discriminate|tauto].
Qed.

Lemma dec_enc y : NoDup (symbol_chars y) -> forall ls cur,
  compat cur ls -> (forall l c, In l ls -> In c l -> ~ In c (symbol_chars y)) ->
  forall t, (forall c, In c t -> ~ In c (symbol_chars y)) ->
  forall cur0 , cur0 = map norm_char cur ->
  tl (dec_lines y cur0 ((t ++ fst (enc y cur ls)) :: snd (enc y cur ls))) = map norm_line ls.
Proof.
  intros Hd. induction ls as [|l ls IH]; intros cur Hc Hf t Ht cur0 ->; [reflexivity|].
  cbn [enc compat] in *.
  assert (Hf' : forall l0 c, In l0 ls -> In c l0 -> ~ In c (symbol_chars y))
    by (intros; eapply Hf; eauto; right; auto).
  destruct (blankb l) eqn:Eb.
  - destruct (enc_structure y ls cur) as [Hsym _].
    (* the symbols stay on the line before the blank one: shift the decoder over it *)
    assert (IH' := IH cur Hc Hf' t Ht (map norm_char cur) eq_refl).
    destruct (enc y cur ls) as [s o] eqn:Ee. cbn [fst snd] in *.
    cbn [dec_lines tl map] in *. unfold norm_line at 1. rewrite Eb. cbn [filter].
    cbn [dec_indent]. f_equal. exact IH'.
  - destruct Hc as [Hc1 Hc2].
    assert (Hst : forall c, In c (strip l) -> ~ In c (symbol_chars y)).
    { intros c Hcs. apply strip_In in Hcs. eapply Hf; eauto. left; auto. }
    assert (IH' := IH (leading l) Hc2 Hf' (strip l) Hst (map norm_char (leading l)) eq_refl).
    destruct (enc_structure y ls (leading l)) as [Hsym _].
    destruct (enc y (leading l) ls) as [s o] eqn:Ee. cbn [fst snd] in *.
    cbn [dec_lines tl map] in *.
    rewrite (dec_indent_app y _ t), (dec_indent_content y _ t Ht), (dec_indent_syms y cur _ Hd Hc1).
    unfold norm_line at 1. rewrite Eb. rewrite (filter_content y (strip l) s Hst Hsym).
    destruct (strip l) as [|c0 r0] eqn:Es.
    + exfalso. apply blankb_false in Eb. apply Eb. now apply strip_nil_blank.
    + f_equal. exact IH'.
Qed.

Lemma preprocess_decode y text out : fresh y text -> sane y ->
  preprocess y text = Ok out -> decode_script y out = map norm_line (lines text).
Proof.
  intros [Hd Hf] Hy H. rewrite preprocess_cases in H.
  destruct (first_bad [] (lines text)) as [k|] eqn:E; [discriminate|]. injection H as <-.
  apply first_bad_none in E. unfold decode_script. rewrite plan_lines by assumption.
  apply (dec_enc y Hd (lines text) [] E) with (t := []); auto.
  intros l c Hl Hc Hs. apply (Hf c Hs). eapply lines_In; eauto.
Qed.

(** Indentation by spaces and tabs only. *)
Definition space_tab_indented (text : str) : Prop :=
  forall l, In l (lines text) -> ~ blank l -> forall c, In c (leading l) -> c = SP \/ c = TAB.

Lemma norm_line_exact l : (~ blank l -> forall c, In c (leading l) -> c = SP \/ c = TAB) ->
  norm_line l = rstrip l.
Proof.
  intros H. unfold norm_line. destruct (blankb l) eqn:Eb.
  - symmetry. apply blank_rstrip. now apply blankb_blank.
  - apply blankb_false in Eb.
    assert (Hn : ~ all_space (lstrip l)).
    { intros Hs. apply Eb. rewrite (leading_lstrip l). intros c Hc.
      apply in_app_or in Hc as [Hc|Hc]; [now apply (leading_blank l)|auto]. }
    rewrite (leading_lstrip l) at 3. rewrite rstrip_app_nonblank by assumption. unfold strip. f_equal.
    specialize (H Eb). induction (leading l) as [|c r IH]; [reflexivity|]. cbn [map]. f_equal.
    + destruct (H c (or_introl eq_refl)) as [-> | ->]; reflexivity.
    + apply IH. intros d Hd; apply H; right; auto.
Qed.

Lemma preprocess_decode_exact y text out : fresh y text -> sane y -> space_tab_indented text ->
  preprocess y text = Ok out -> decode_script y out = map rstrip (lines text).
Proof.
  intros Hf Hy Hs H. rewrite (preprocess_decode y text out Hf Hy H). apply map_ext_in.
  intros l Hl. apply norm_line_exact. intros Hb c Hc. eapply Hs; eauto.
Qed.

Lemma get_parser_sane text y : get_parser text = Some y -> sane y.
Proof.
  intros H Hn. apply (get_parser_bound text y H) in Hn. unfold NL in Hn. lia.
Qed.
