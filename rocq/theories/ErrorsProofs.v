(** Last steps of the proofs of C63 and its samples. *)
From Coq Require Import List NArith ZArith Bool Arith Lia String.
From Verif Require Import PyStr PyStrFacts IndentSpec Preprocess PreprocessSpec PreprocessFacts Errors ErrorsSpec ErrorsFacts Peg PegSpec PegFacts Grammar Syntax ParseFacts BalanceFacts SyntaxSamples.
Import ListNotations.
Local Open Scope list_scope.

Lemma named_iff (p : rule -> bool) (n : tree rule) : named p n = true <-> exists r, t_name n = Some r /\ p r = true.
Proof. unfold named. destruct (t_name n) as [r|]; split; [eauto|intros (r' & E & H); injection E as ->; exact H|discriminate|intros (r' & E & _); discriminate]. Qed.

Lemma skipn_plus {A} a b (l : list A) : skipn (a + b) l = skipn b (skipn a l).
Proof. revert l. induction a as [|a IH]; intros [|x l]; [reflexivity..|cbn [skipn Nat.add]; destruct b; reflexivity|apply IH]. Qed.

Lemma parsed_place U text out t n f v s : (forall c, In c (symbol_chars default_symbols) -> u_digit U c = None) ->
  get_parser text = Some default_symbols -> preprocess default_symbols text = Ok out -> parse U default_symbols out = Parsed t ->
  (forall w, In w (nodes t) -> t_name w = Some R_string_raw \/ t_name w = Some R_path_import -> forall c, In c (t_text w) -> ~ In c (symbol_chars default_symbols)) ->
  In n (nodes t) -> (forall r, In r [R_indent_s; R_dedent_s; R_indent_t; R_dedent_t] -> t_name n <> Some r) ->
  t_text n = f ++ v :: s -> ~ In v (symbol_chars default_symbols) -> v <> NL -> all_symbols default_symbols s ->
  let m := make_msg default_symbols out (t_start n) (t_start n + List.length (t_text n)) in
  exists k p q, nth_error (lines text) k = Some (p ++ q) /\ rep_line m = S k /\ rep_column m = Z.of_nat (S (List.length p)) /\
    (exists p0, p = p0 ++ [v]) /\ (~ In NL f -> exists p0, p = p0 ++ f ++ [v]) /\
    visible default_symbols (firstn (t_start n) out ++ f ++ [v]) = visible default_symbols (List.concat (firstn k (lines text)) ++ p).
Proof.
  intros HU Hg Hp Ht Hw In' Hn Et Hv Hv' Hs. destruct (parse_nodes _ _ _ _ Ht n In') as [L S0].
  assert (B : balanced default_symbols (t_text n)).
  { apply (parse_balanced U HU out t Ht); [|exact In'|].
    - intros w Iw Nw. apply named_iff in Nw as (r & Er & Hr). unfold free. apply (Hw w Iw). destruct r; try discriminate; auto.
    - destruct (named is_mark n) eqn:E; [|reflexivity]. apply named_iff in E as (r & Er & Hr). exfalso. apply (Hn r); [|exact Er]. destruct r; try discriminate; cbn; auto. }
  assert (Eo : out = firstn (t_start n) out ++ (f ++ v :: s) ++ skipn (t_start n + List.length (t_text n)) out).
  { rewrite <- Et, <- S0 at 1. rewrite <- (firstn_skipn (t_start n) out) at 1. f_equal. rewrite <- (firstn_skipn (List.length (t_text n)) (skipn (t_start n) out)) at 1. f_equal. symmetry. apply skipn_plus. }
  rewrite Et in B. pose proof (place default_symbols text out _ f v s _ Hg Hp Eo B Hv Hv' Hs) as P. cbn zeta in P |- *.
  assert (La : List.length (firstn (t_start n) out) = t_start n) by (rewrite firstn_length; lia).
  rewrite app_length, La, <- Et in P. exact P.
Qed.

Lemma excerpt full start stop y : start <= stop <= List.length full ->
  let x := firstn (stop - start) (skipn start full) in
  (List.length x <= 20 -> rep_text (make_msg y full start stop) = x) /\
  (20 < List.length x -> rep_text (make_msg y full start stop) = firstn 20 x ++ u "...").
Proof.
  intros H x. assert (Lx : List.length x = stop - start) by (unfold x; rewrite firstn_length, skipn_length; lia).
  unfold make_msg. cbn [rep_text]. unfold node_text. cbv zeta. split; intros L.
  - rewrite Nat.min_l by lia. rewrite Nat.ltb_irrefl. reflexivity.
  - rewrite Nat.min_r by lia. destruct (Nat.ltb_spec (start + 20) stop); [|lia]. unfold x. rewrite firstn_firstn. replace (start + 20 - start) with 20 by lia. rewrite Nat.min_l by lia. reflexivity.
Qed.

(** ** Samples *)
(** A script, its translation, the nodes of the given name with their texts and reports. *)
Definition reports (text : str) (p : rule -> bool) : list (str * nat * Z) :=
  match get_parser text with
  | Some y =>
      match preprocess y text with
      | Ok out =>
          match parse ascii_only y out with
          | Parsed t => flat_map (fun n => match t_name n with
                          | Some r => if p r then let m := make_msg y out (t_start n) (t_start n + List.length (t_text n)) in [(t_text n, rep_line m, rep_column m)] else []
                          | None => [] end) (nodes t)
          | _ => [] end
      | _ => [] end
  | None => [] end.


Definition two_lines : str := u "p" ++ [NL] ++ u "  b | {xx}".
Definition raw_lines : str := u "$ x = r'a" ++ [NL] ++ u "  b' + r'" ++ [NL] ++ u "'".

(** The first node of the tree that passes a test. *)
Definition pick (p : tree rule -> bool) (o : parsed) : tree rule :=
  match o with Parsed t => match find p (nodes t) with Some n => n | None => t end | _ => Tree None 0 [] [] end.
Definition is_use (n : tree rule) : bool := match t_name n with Some R_var_use => true | _ => false end.
Definition is_raw (n : tree rule) : bool := match t_name n with Some R_string_raw => true | _ => false end.
Definition translated (text : str) : str := match preprocess default_symbols text with Ok out => out | _ => [] end.

Lemma begin_finding : exists text out t n p q,
  get_parser text = Some default_symbols /\ preprocess default_symbols text = Ok out /\ parse ascii_only default_symbols out = Parsed t /\ In n (nodes t) /\
  t_name n = Some R_var_use /\ nth_error (lines text) 1 = Some (p ++ t_text n ++ q) /\ t_text n = u "xx" /\ ~ In 120%N (p ++ q ++ List.concat (firstn 1 (lines text))) /\
  let m := make_msg default_symbols out (t_start n) (t_start n + List.length (t_text n)) in rep_line m = 2 /\ rep_column m <> Z.of_nat (S (List.length p)).
Proof.
  exists two_lines, (translated two_lines). destruct (parse ascii_only default_symbols (translated two_lines)) as [t| | |] eqn:E; try (exfalso; revert E; vm_compute; discriminate).
  exists t, (pick is_use (Parsed t)), (u "  b | {"), (u "}"). rewrite <- E. repeat split; try (vm_compute; reflexivity).
  - apply (find_some is_use). revert E. vm_compute. intros K. injection K as <-. reflexivity.
  - vm_compute. intuition discriminate.
  - vm_compute. discriminate.
Qed.

Lemma raw_finding : ~ forall text out t n f v s,
  get_parser text = Some default_symbols -> preprocess default_symbols text = Ok out -> parse ascii_only default_symbols out = Parsed t -> In n (nodes t) ->
  t_name n = Some R_string_raw -> t_text n = f ++ v :: s -> ~ In v (symbol_chars default_symbols) -> v <> NL -> all_symbols default_symbols s ->
  let m := make_msg default_symbols out (t_start n) (t_start n + List.length (t_text n)) in
  exists k p q, nth_error (lines text) k = Some (p ++ q) /\ rep_line m = S k /\ rep_column m = Z.of_nat (S (List.length p)) /\ (exists p0, p = p0 ++ [v]).
Proof.
  intros H. destruct (parse ascii_only default_symbols (translated raw_lines)) as [t| | |] eqn:E; try (exfalso; revert E; vm_compute; discriminate).
  specialize (H raw_lines (translated raw_lines) t (pick is_raw (Parsed t)) (u "r'a" ++ [INDENT_S default_symbols; INDENT_S default_symbols; NL] ++ u "b") 39%N []).
  rewrite <- E in H. destruct H as (k & p & q & H1 & H2 & H3 & p0 & H4); try (vm_compute; reflexivity); try exact E.
  - apply (find_some is_raw). revert E. vm_compute. intros K. injection K as <-. reflexivity.
  - vm_compute. intuition discriminate.
  - discriminate.
  - intros c [].
  - subst p. replace k with 1 in H1 by (revert H2; vm_compute; intros K; injection K as <-; reflexivity). clear H2.
    replace (rep_column _) with 3%Z in H3 by (vm_compute; reflexivity). rewrite app_length in H3. cbn [List.length] in H3. destruct p0 as [|c1 [|c2 p0]]; cbn [List.length] in H3; try lia.
    cbn in H1. discriminate.
Qed.
