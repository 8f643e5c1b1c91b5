(** Proofs about comments of HTML. *)
From Coq Require Import List NArith Bool Lia Arith String.
From Verif Require Import PyStr PyStrFacts Html HtmlSpec HtmlFacts HtmlProofs NoteSpec.
Import ListNotations.
Local Open Scope string_scope.
Local Open Scope list_scope.

Definition inner_end (t : str) : Prop := (exists a r, t = a ++ closing ++ r) \/ (exists a r, t = a ++ u "--!>" ++ r).
Lemma inner_cons c t : inner_end t -> inner_end (c :: t).
Proof. intros [(a & r & ->)|(a & r & ->)]; [left|right]; exists (c :: a), r; reflexivity. Qed.

Lemma end_at_once rest : up_to_end (closing ++ rest) = Some ([], rest).
Proof. reflexivity. Qed.
Lemma up_to_cons c r : startswith closing (c :: r) = false -> startswith (u "--!>") (c :: r) = false ->
  up_to_end (c :: r) = match up_to_end r with Some (d, t) => Some (c :: d, t) | None => None end.
Proof. intros H K. cbn [up_to_end]. rewrite H, K. reflexivity. Qed.
Lemma no_close c t rest : ~ inner_end (c :: t) -> startswith closing ((c :: t) ++ closing ++ rest) = false.
Proof.
  intros N. destruct (startswith closing _) eqn:S; [|reflexivity]. exfalso. apply startswith_spec in S. destruct S as [x S].
  destruct t as [|d [|e t]]; [discriminate S|discriminate S|]. injection S as -> -> -> _. apply N. left. exists [], t. reflexivity.
Qed.
Lemma no_bang c t rest : ~ inner_end (c :: t) -> startswith (u "--!>") ((c :: t) ++ closing ++ rest) = false.
Proof.
  intros N. destruct (startswith (u "--!>") _) eqn:S; [|reflexivity]. exfalso. apply startswith_spec in S. destruct S as [x S].
  destruct t as [|d [|e [|f t]]]; [discriminate S|discriminate S|discriminate S|]. injection S as -> -> -> -> _. apply N. right. exists [], t. reflexivity.
Qed.
Lemma up_to_closing t rest : ~ inner_end t -> up_to_end (t ++ closing ++ rest) = Some (t, rest).
Proof.
  induction t as [|c t IH]; intros N; [apply end_at_once|].
  change ((c :: t) ++ closing ++ rest) with (c :: (t ++ closing ++ rest)). rewrite up_to_cons; [|exact (no_close c t rest N)|exact (no_bang c t rest N)].
  rewrite IH; [reflexivity|]. intros H. apply N, inner_cons, H.
Qed.
Lemma up_to_short mark a : mark = closing \/ mark = u "--!>" -> forall r, exists d t, up_to_end (a ++ mark ++ r) = Some (d, t) /\ List.length d <= List.length a.
Proof.
  intros M. induction a as [|c a IH]; intros r.
  - destruct M as [->| ->]; exists []; eexists; split; try reflexivity; cbn; lia.
  - change ((c :: a) ++ mark ++ r) with (c :: (a ++ mark ++ r)). cbn [up_to_end]. destruct (startswith closing _); [eexists [], _; split; [reflexivity|cbn; lia]|].
    destruct (startswith (u "--!>") _); [eexists [], _; split; [reflexivity|cbn; lia]|].
    destruct (IH r) as (d & t & -> & L). exists (c :: d), t. split; [reflexivity|cbn; lia].
Qed.

Lemma start_gt t rest : startswith (u ">") (t ++ closing ++ rest) = true -> exists r, t = u ">" ++ r.
Proof. intros S. apply startswith_spec in S. destruct S as [x S]. destruct t as [|c t]; [discriminate S|]. injection S as -> _. exists t. reflexivity. Qed.
Lemma start_dash_gt t rest : startswith (u "->") (t ++ closing ++ rest) = true -> exists r, t = u "->" ++ r.
Proof. intros S. apply startswith_spec in S. destruct S as [x S]. destruct t as [|c [|d t]]; [discriminate S|discriminate S|]. injection S as -> -> _. exists t. reflexivity. Qed.

Lemma read_opening s : read_comment (opening ++ s) =
  if startswith (u ">") s then Some ([], skipn 1 s) else if startswith (u "->") s then Some ([], skipn 2 s) else up_to_end s.
Proof. reflexivity. Qed.
Lemma reads_back t rest : read_comment (opening ++ t ++ closing ++ rest) = Some (t, rest) <-> ~ ends_comment t.
Proof.
  rewrite read_opening. split.
  - intros H [(r & ->)|[(r & ->)|[(a & r & ->)|(a & r & ->)]]].
    + discriminate H.
    + discriminate H.
    + destruct (startswith (u ">") _); [injection H as H _; symmetry in H; apply app_eq_nil in H; destruct H as [_ H]; discriminate H|].
      destruct (startswith (u "->") _); [injection H as H _; symmetry in H; apply app_eq_nil in H; destruct H as [_ H]; discriminate H|].
      rewrite <- !app_assoc in H. destruct (up_to_short closing a (or_introl eq_refl) (r ++ closing ++ rest)) as (d & t & E & L).
      rewrite E in H. injection H as -> _. rewrite !app_length in L. cbn [closing u] in L. cbn in L. lia.
    + destruct (startswith (u ">") _); [injection H as H _; symmetry in H; apply app_eq_nil in H; destruct H as [_ H]; discriminate H|].
      destruct (startswith (u "->") _); [injection H as H _; symmetry in H; apply app_eq_nil in H; destruct H as [_ H]; discriminate H|].
      rewrite <- !app_assoc in H. destruct (up_to_short (u "--!>") a (or_intror eq_refl) (r ++ closing ++ rest)) as (d & t & E & L).
      rewrite E in H. injection H as -> _. rewrite !app_length in L. cbn in L. lia.
  - intros N. destruct (startswith (u ">") _) eqn:S1; [exfalso; apply N; left; exact (start_gt _ _ S1)|].
    destruct (startswith (u "->") _) eqn:S2; [exfalso; apply N; right; left; exact (start_dash_gt _ _ S2)|].
    apply up_to_closing. intros [H|H]; apply N; [right; right; left|right; right; right]; exact H.
Qed.

Lemma inside_newline mark t : last mark 0%N <> 10%N -> mark <> [] -> (exists a r, t ++ [10%N] = a ++ mark ++ r) -> exists a r, t = a ++ mark ++ r.
Proof.
  intros L N (a & r & H). destruct r as [|c r] using rev_ind.
  - exfalso. rewrite app_nil_r in H. destruct (exists_last N) as (mk & z & ->). rewrite last_last in L. rewrite app_assoc in H. apply app_inj_tail in H. destruct H as [_ H]. congruence.
  - rewrite app_assoc in H. rewrite app_assoc in H. apply app_inj_tail in H. destruct H as [H _]. exists a, r. rewrite app_assoc. exact H.
Qed.
Lemma ends_newline body : ends_comment (body ++ last_newline body) <-> ends_comment body.
Proof.
  assert (C : last_newline body = [] \/ last_newline body = [10%N] /\ exists r, body = 10%N :: r).
  { destruct body as [|c b]; [left; reflexivity|]. destruct (N.eqb_spec c 10) as [->|D]; [right; split; [reflexivity|exists b; reflexivity]|left].
    cbn. destruct c as [|[[[[]|[]|]|[[]|[]|]|]|[[[]|[]|]|[[]|[]|]|]|]]; try reflexivity; congruence. }
  destruct C as [->|[-> (b & ->)]]; [rewrite app_nil_r; reflexivity|]. split.
  - intros [(r & H)|[(r & H)|[H|H]]]; [discriminate H|discriminate H|right; right; left|right; right; right].
    + apply inside_newline; [discriminate|discriminate|exact H].
    + apply inside_newline; [discriminate|discriminate|exact H].
  - intros [(r & H)|[(r & H)|[(a & r & ->)|(a & r & ->)]]]; [discriminate H|discriminate H|right; right; left|right; right; right]; exists a, (r ++ [10%N]); rewrite <- !app_assoc; reflexivity.
Qed.
Lemma comment_is body out : comment_expand body 0 [] = Ok out -> out = opening ++ (body ++ last_newline body) ++ closing.
Proof.
  unfold comment_expand. intros [= <-]. unfold opening, closing. do 4 f_equal. rewrite <- app_assoc. f_equal. f_equal.
  destruct body as [|c b]; [reflexivity|]. change (startswith [NL] (c :: b)) with ((NL =? c)%N && true). destruct (N.eqb_spec NL c) as [<-|D]; [reflexivity|].
  cbn. destruct c as [|[[[[]|[]|]|[[]|[]|]|]|[[[]|[]|]|[[]|[]|]|]|]]; try reflexivity.
Qed.

Lemma last_newline_is body : last_newline body = [] \/ last_newline body = [10%N].
Proof.
  destruct body as [|c b]; [left; reflexivity|]. destruct (N.eqb_spec c 10) as [->|D]; [right; reflexivity|left].
  cbn. destruct c as [|[[[[]|[]|]|[[]|[]|]|]|[[[]|[]|]|[[]|[]|]|]|]]; try reflexivity; congruence.
Qed.
Lemma comment_exact body out rest : comment_expand body 0 [] = Ok out ->
  (read_comment (out ++ rest) = Some (body ++ last_newline body, rest) <-> ~ ends_comment body).
Proof.
  intros H. rewrite (comment_is _ _ H), <- !app_assoc. rewrite (app_assoc body (last_newline body)). rewrite reads_back, ends_newline. reflexivity.
Qed.
Lemma ends_gt t : ends_comment t -> In 62%N t.
Proof.
  intros [(r & ->)|[(r & ->)|[(a & r & ->)|(a & r & ->)]]]; [left; reflexivity|right; left; reflexivity| |]; apply in_or_app; right; apply in_or_app; left; cbn; tauto.
Qed.
Lemma escaped_ends t : ~ ends_comment (html_escape t).
Proof. intros H. apply ends_gt in H. exact (proj1 (proj2 (html_escape_safe t)) H). Qed.
Lemma comment_escaped t out rest : comment_expand (html_escape t) 0 [] = Ok out ->
  read_comment (out ++ rest) = Some (html_escape t ++ last_newline (html_escape t), rest).
Proof. intros H. apply (comment_exact _ _ _ H), escaped_ends. Qed.
Lemma nested_ends body out a b : comment_expand body 0 [] = Ok out -> ends_comment (a ++ out ++ b).
Proof.
  intros H. rewrite (comment_is _ _ H). right. right. left. exists (a ++ opening ++ body ++ last_newline body), b. rewrite <- !app_assoc. reflexivity.
Qed.
Lemma nested_wrong body inner a b out : comment_expand body 0 [] = Ok inner -> comment_expand (a ++ inner ++ b) 0 [] = Ok out ->
  forall rest, read_comment (out ++ rest) <> Some ((a ++ inner ++ b) ++ last_newline (a ++ inner ++ b), rest).
Proof. intros H K rest R. apply (comment_exact _ _ rest K) in R. apply R. exact (nested_ends _ _ a b H). Qed.
Lemma comment_attributes body npos kw : npos <> 0 \/ kw <> [] -> comment_expand body npos kw = Raise TypeError.
Proof. intros [H|H]; destruct npos, kw; congruence || reflexivity. Qed.
Lemma nested_sample : exists inner out, comment_expand (u "x") 0 [] = Ok inner /\ comment_expand (u "a " ++ inner ++ u " b") 0 [] = Ok out /\
  read_comment out = Some (u "a <!--x", u " b-->").
Proof. do 2 eexists. split; [reflexivity|]. split; [reflexivity|]. vm_compute. reflexivity. Qed.
