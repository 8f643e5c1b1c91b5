(** Elements inside of comments. *)
From Coq Require Import List NArith Bool Lia Arith String.
From Verif Require Import PyStr PyStrFacts Html HtmlSpec HtmlFacts HtmlProofs NoteSpec NoteProofs.
Import ListNotations.
Local Open Scope string_scope.
Local Open Scope list_scope.

(** ">" never follows "-" or "!", nor stands first, unless [p] *)
Definition okc (c : char) : bool := negb (c =? 45)%N && negb (c =? 33)%N.
Fixpoint mild (p : bool) (s : str) : bool :=
  match s with
  | [] => true
  | c :: r => (if (c =? 62)%N then p else true) && mild (okc c) r
  end.
Lemma mild_weak p s : mild false s = true -> mild p s = true.
Proof. destruct s as [|c r]; [reflexivity|]. cbn. destruct (c =? 62)%N; [discriminate|exact (fun H => H)]. Qed.
Lemma mild_app s t : mild false t = true -> forall p, mild p s = true -> mild p (s ++ t) = true.
Proof.
  intros T. induction s as [|c s IH]; intros p H; [apply mild_weak, T|]. cbn [mild app] in *. apply andb_true_iff in H. destruct H as [H1 H2]. rewrite H1. cbn [andb]. apply IH, H2.
Qed.
Lemma mild_free s : ~ In 62%N s -> forall p, mild p s = true.
Proof.
  induction s as [|c s IH]; intros H p; [reflexivity|]. cbn [mild]. destruct (N.eqb_spec c 62) as [->|D]; [exfalso; apply H; left; reflexivity|].
  apply IH. intros K. apply H. right. exact K.
Qed.
Definition closed (s : str) : Prop := s <> [] /\ ~ In 62%N s /\ okc (last s 0%N) = true.
Lemma mild_closed s : closed s -> forall p, mild p (s ++ [62%N]) = true.
Proof.
  intros (N & H & L). induction s as [|c s IH]; [congruence|]. intros p. cbn [mild app]. destruct (N.eqb_spec c 62) as [->|D]; [exfalso; apply H; left; reflexivity|]. cbn [andb].
  destruct s as [|d s]; [cbn [last] in L; cbn; rewrite L; reflexivity|]. apply IH; [discriminate|intros K; apply H; right; exact K|exact L].
Qed.
Lemma not_mild a x r : x = 45%N \/ x = 33%N -> forall p, mild p (a ++ x :: 62%N :: r) = false.
Proof.
  intros X. induction a as [|c a IH]; intros p.
  - destruct X as [->| ->]; reflexivity.
  - cbn [mild app]. rewrite IH. apply andb_false_r.
Qed.
Lemma mild_ends s : mild false s = true -> ~ ends_comment s.
Proof.
  intros M [(r & ->)|[(r & ->)|[(a & r & ->)|(a & r & ->)]]].
  - discriminate M.
  - discriminate M.
  - replace (a ++ closing ++ r) with ((a ++ [45%N]) ++ 45%N :: 62%N :: r) in M by (rewrite <- app_assoc; reflexivity). rewrite not_mild in M; [discriminate M|left; reflexivity].
  - replace (a ++ u "--!>" ++ r) with ((a ++ [45%N; 45%N]) ++ 33%N :: 62%N :: r) in M by (rewrite <- app_assoc; reflexivity). rewrite not_mild in M; [discriminate M|right; reflexivity].
Qed.

Lemma closed_app a b : ~ In 62%N a -> closed b -> closed (a ++ b).
Proof.
  intros H (N & K & L). split; [intros E; apply app_eq_nil in E; tauto|]. split; [intros X; apply in_app_or in X; tauto|].
  destruct (exists_last N) as (b' & c & ->). rewrite app_assoc, last_last. rewrite last_last in L. exact L.
Qed.
Lemma closed_name n : valid_name n -> name_end n -> closed n.
Proof.
  intros [N V] [E1 E2]. split; [exact N|]. split; [intros H; apply V in H; discriminate H|]. unfold okc. apply N.eqb_neq in E1, E2. rewrite E1, E2. reflexivity.
Qed.
Lemma closed_quoted v : closed (quoteattr v).
Proof.
  destruct (quoteattr_form v) as (q & f & E & Q & _). split; [rewrite E; discriminate|]. split.
  - intros H. apply c03_no_raw_markup in H. tauto.
  - rewrite E, app_comm_cons, last_last. destruct Q as [->| ->]; reflexivity.
Qed.
Lemma closed_attr m n v s : closed n -> render_attr m n v = Some s -> closed s.
Proof.
  intros C. destruct v as [| |w]; cbn [render_attr].
  - destruct m; intros [= <-]; [exact C|]. apply closed_app; [apply C|]. apply (closed_app [61%N; DQ] (n ++ [DQ])); [intros [H|[H|[]]]; discriminate H|].
    apply closed_app; [apply C|]. split; [discriminate|]. split; [intros [H|[]]; discriminate H|reflexivity].
  - discriminate.
  - intros [= <-]. apply closed_app; [apply C|]. apply (closed_app [61%N] (quoteattr w)); [intros [H|[]]; discriminate H|apply closed_quoted].
Qed.
Lemma closed_filter l : (forall s, In (Some s) l -> closed s) -> forall s, In s (filter_none l) -> closed s.
Proof.
  induction l as [|[[|c x]|] l IH]; intros H s K; cbn [filter_none] in K; [destruct K| | |].
  - apply IH; [|exact K]. intros y Y. apply H. right. exact Y.
  - destruct K as [<-|K]; [apply H; left; reflexivity|]. apply IH; [|exact K]. intros y Y. apply H. right. exact Y.
  - apply IH; [|exact K]. intros y Y. apply H. right. exact Y.
Qed.
Lemma closed_join l : forall x, closed x -> (forall s, In s l -> closed s) -> closed (join (u " ") (x :: l)).
Proof.
  induction l as [|y l IH]; intros x X H; [exact X|]. change (join (u " ") (x :: y :: l)) with (x ++ u " " ++ join (u " ") (y :: l)).
  apply closed_app; [apply X|]. apply closed_app; [intros [K|[]]; discriminate K|]. apply IH; [apply H; left; reflexivity|]. intros s K. apply H. right. exact K.
Qed.
Lemma closed_tag m n kw : closed n -> (forall nv, In nv kw -> closed (fst nv)) -> closed (open_tag m n kw).
Proof.
  intros C H. apply closed_join; [exact C|]. apply closed_filter. intros s K. apply in_map_iff in K. destruct K as ((a & v) & E & K). exact (closed_attr _ _ _ _ (H _ K) E).
Qed.

Lemma contents_mild s : contents s -> mild false s = true.
Proof.
  intros H. induction H as [t|s t _ IH1 _ IH2|m body kw s _ IH V E K X].
  - apply mild_free. apply (html_escape_safe t).
  - apply mild_app; assumption.
  - assert (C := closed_name _ V E). assert (T := closed_tag (m_mode m) (m_name m) kw C (fun nv H => closed_name _ (proj1 (K nv H)) (proj2 (K nv H)))).
    unfold markup_expand, markup_expand' in X. destruct (m_void m).
    + destruct body; [|discriminate X]. injection X as <-. set (tag := open_tag (m_mode m) (m_name m) kw) in *.
      apply (mild_app (u "<") (tag ++ u " />")); [|reflexivity]. apply (mild_app tag (u " />")); [reflexivity|]. apply mild_free. apply T.
    + injection X as <-. set (tag := open_tag (m_mode m) (m_name m) kw) in *. set (nl := if startswith [NL] body then [NL] else []). assert (L : mild false nl = true) by (unfold nl; destruct (startswith _ _); reflexivity).
      apply (mild_app (u "<") (tag ++ u ">" ++ body ++ nl ++ u "</" ++ m_name m ++ u ">")); [|reflexivity]. rewrite app_assoc.
      apply (mild_app (tag ++ u ">")); [|apply mild_closed, T]. apply (mild_app body (nl ++ u "</" ++ m_name m ++ u ">")); [|exact IH]. apply (mild_app nl (u "</" ++ m_name m ++ u ">")); [|exact L].
      apply (mild_app (u "</") (m_name m ++ u ">")); [|reflexivity]. apply mild_closed, C.
Qed.
Lemma comment_contents body out rest : contents body -> comment_expand body 0 [] = Ok out ->
  read_comment (out ++ rest) = Some (body ++ last_newline body, rest).
Proof. intros C H. apply (comment_exact _ _ _ H), mild_ends, contents_mild, C. Qed.

Definition note_p : markup := {| m_name := u "p"; m_void := false; m_mode := HTML |}.
Lemma name_ok n : n <> [] -> forallb name_char n = true -> name_end n -> valid_name n /\ name_end n.
Proof. intros N H E. split; [split; [exact N|]|exact E]. apply forallb_forall, H. Qed.
Lemma sample_contents : contents (u "<p title=""a --&gt; b"">x --&gt; y</p>").
Proof.
  apply (ct_elem note_p (html_escape (u "x --> y")) [(u "title", AOther (u "a --> b"))]).
  - apply ct_text.
  - apply name_ok; [discriminate|reflexivity|split; discriminate].
  - split; discriminate.
  - intros nv [<-|[]]. apply name_ok; [discriminate|reflexivity|split; discriminate].
  - vm_compute. reflexivity.
Qed.
Lemma hyphens_end : exists n s out, valid_name n /\ markup_expand note_p (html_escape (u "x")) 0 [(n, ATrue)] = Ok s /\ comment_expand s 0 [] = Ok out /\
  read_comment out = Some (u "<p data", u "x</p>-->").
Proof.
  exists (u "data--"). do 2 eexists. split; [split; [discriminate|]; apply forallb_forall; reflexivity|]. split; [vm_compute; reflexivity|]. split; [reflexivity|]. vm_compute. reflexivity.
Qed.
