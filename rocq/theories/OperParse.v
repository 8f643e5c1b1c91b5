(** Proofs about expressions as text: what the parser makes of the text of an expression. *)
From Coq Require Import List NArith ZArith Bool Arith Lia String ZifyBool.
From Verif Require Import PyStr PyStrFacts Value Ast Preprocess PreprocessSpec Peg PegFacts PegSpec PegSemFacts
  Grammar Syntax GrammarFacts ParseRun PageSpec PageFlat PageParse OperSpec.
Import ListNotations.
Local Open Scope string_scope.
Local Open Scope list_scope.
Local Open Scope N_scope.

(** ** Induction *)

Section Ind.
Variable P : ex -> Prop.
Definition p_args (l : list (option str * ex)) : Prop := Forall (fun a => P (snd a)) l.
Definition p_oargs (a : option (list (option str * ex))) : Prop := match a with Some a => p_args a | None => True end.
Definition p_else (y : option ex) : Prop := match y with Some y => P y | None => True end.
Definition p_tail (t : xtail) : Prop :=
  match t with XMember _ => True | XItem e => P e | XSlice x y z => p_else x /\ p_else y /\ p_else z | XCall a => p_args a end.
Definition p_filter (f : xfilter) : Prop :=
  match f with XFilter f _ a => P f /\ p_oargs a end.
Hypothesis Hname : forall n, P (XName n).
Hypothesis Htext : forall q s l, Forall (fun a => P (fst a)) l -> P (XText q s l).
Hypothesis Hraw : forall q s, P (XRaw q s).
Hypothesis Hnum : forall d, P (XNum d).
Hypothesis Hconst : forall c, P (XConst c).
Hypothesis Hlist : forall l, Forall P l -> P (XList l).
Hypothesis Htuple : forall l, Forall P l -> P (XTuple l).
Hypothesis Hset : forall l, Forall P l -> P (XSet l).
Hypothesis Hdict : forall l, Forall (fun a => P (fst a) /\ P (snd a)) l -> P (XDict l).
Hypothesis Htail : forall e l q, P e -> Forall p_tail l -> P (XTail e l q).
Hypothesis Hops : forall n e l, P e -> Forall (fun a => P (snd a)) l -> P (XOps n e l).
Hypothesis Hpipe : forall e l, P e -> Forall p_filter l -> P (XPipe e l).
Hypothesis Hcat : forall e l, P e -> Forall P l -> P (XCat e l).
Hypothesis Hnot : forall n e, P e -> P (XNot n e).
Hypothesis Hand : forall e l, P e -> Forall P l -> P (XAnd e l).
Hypothesis Hor : forall e l, P e -> Forall P l -> P (XOr e l).
Hypothesis Hif : forall x c y, P x -> P c -> p_else y -> P (XIf x c y).

Fixpoint ex_all (e : ex) : P e :=
  let list_all := fix go (l : list ex) : Forall P l :=
    match l with [] => Forall_nil _ | e :: r => Forall_cons _ (ex_all e) (go r) end in
  let args_all := fix go (l : list (option str * ex)) : p_args l :=
    match l with [] => Forall_nil _ | (n, e) :: r => @Forall_cons _ (fun a => P (snd a)) (n, e) r (ex_all e) (go r) end in
  let else_all := fun y : option ex => match y as y return p_else y with Some y => ex_all y | None => Logic.I end in
  match e with
  | XName n => Hname n
  | XText q s l => Htext q s l
      ((fix go (l : list (ex * str)) : Forall (fun a => P (fst a)) l :=
        match l with [] => Forall_nil _ | (e, z) :: r => @Forall_cons _ (fun a => P (fst a)) (e, z) r (ex_all e) (go r) end) l)
  | XRaw q s => Hraw q s
  | XNum d => Hnum d
  | XConst c => Hconst c
  | XList l => Hlist l (list_all l)
  | XTuple l => Htuple l (list_all l)
  | XSet l => Hset l (list_all l)
  | XDict l => Hdict l
      ((fix go (l : list (ex * ex)) : Forall (fun a => P (fst a) /\ P (snd a)) l :=
        match l with [] => Forall_nil _ | (k, v) :: r => @Forall_cons _ (fun a => P (fst a) /\ P (snd a)) (k, v) r (conj (ex_all k) (ex_all v)) (go r) end) l)
  | XTail e l q => Htail e l q (ex_all e)
      ((fix go (l : list xtail) : Forall p_tail l :=
        match l with
        | [] => Forall_nil _
        | t :: r => Forall_cons _ (match t as t return p_tail t with XMember n => Logic.I | XItem e => ex_all e | XSlice x y z => conj (else_all x) (conj (else_all y) (else_all z)) | XCall a => args_all a end) (go r)
        end) l)
  | XOps n e l => Hops n e l (ex_all e)
      ((fix go (l : list (binop * ex)) : Forall (fun a => P (snd a)) l :=
        match l with [] => Forall_nil _ | (o, e) :: r => @Forall_cons _ (fun a => P (snd a)) (o, e) r (ex_all e) (go r) end) l)
  | XPipe e l => Hpipe e l (ex_all e)
      ((fix go (l : list xfilter) : Forall p_filter l :=
        match l with
        | [] => Forall_nil _
        | t :: r => Forall_cons _ (match t as t return p_filter t with
                                   | XFilter f _ a => conj (ex_all f) (match a as a return p_oargs a with Some a => args_all a | None => Logic.I end)
                                   end) (go r)
        end) l)
  | XCat e l => Hcat e l (ex_all e) (list_all l)
  | XNot n e => Hnot n e (ex_all e)
  | XAnd e l => Hand e l (ex_all e) (list_all l)
  | XOr e l => Hor e l (ex_all e) (list_all l)
  | XIf x c y => Hif x c y (ex_all x) (ex_all c) (else_all y)
  end.
End Ind.

Section Expr.
Variables (X : lexicon) (y : symbols) (full : str).
Notation U := (lx_unicode X).
Notation G := (grammar U y).
Notation sem := (sem G).
Notation makes := (makes X y full).
Notation makes_seq := (makes_seq X y full).
Notation makes_loop := (makes_loop X y full).

(** ** Sequences and repetitions *)

Lemma seq2 e1 e2 p x1 x2 r k1 k2 : makes e1 p x1 (x2 ++ r) k1 ->
  makes e2 (p + List.length x1)%nat x2 r k2 ->
  makes (PSeq [e1; e2]) p (x1 ++ x2) r (k1 ++ k2).
Proof.
  intros M1 M2. apply makes_seq_i. apply (seq_eq X y full _ p (x1 ++ x2 ++ []) _ r (k1 ++ k2 ++ [])); [rewrite app_nil_r; reflexivity|rewrite app_nil_r; reflexivity|].
  apply seq_cons; [rewrite ?app_nil_r, <- ?app_assoc; exact M1|].
  apply seq_cons; [rewrite ?app_nil_r, <- ?app_assoc; exact M2|].
  apply seq_nil.
Qed.
Lemma seq3 e1 e2 e3 p x1 x2 x3 r k1 k2 k3 : makes e1 p x1 (x2 ++ x3 ++ r) k1 ->
  makes e2 (p + List.length x1)%nat x2 (x3 ++ r) k2 ->
  makes e3 (p + List.length x1 + List.length x2)%nat x3 r k3 ->
  makes (PSeq [e1; e2; e3]) p (x1 ++ x2 ++ x3) r (k1 ++ k2 ++ k3).
Proof.
  intros M1 M2 M3. apply makes_seq_i. apply (seq_eq X y full _ p (x1 ++ x2 ++ x3 ++ []) _ r (k1 ++ k2 ++ k3 ++ [])); [rewrite app_nil_r; reflexivity|rewrite app_nil_r; reflexivity|].
  apply seq_cons; [rewrite ?app_nil_r, <- ?app_assoc; exact M1|].
  apply seq_cons; [rewrite ?app_nil_r, <- ?app_assoc; exact M2|].
  apply seq_cons; [rewrite ?app_nil_r, <- ?app_assoc; exact M3|].
  apply seq_nil.
Qed.
Lemma seq4 e1 e2 e3 e4 p x1 x2 x3 x4 r k1 k2 k3 k4 : makes e1 p x1 (x2 ++ x3 ++ x4 ++ r) k1 ->
  makes e2 (p + List.length x1)%nat x2 (x3 ++ x4 ++ r) k2 ->
  makes e3 (p + List.length x1 + List.length x2)%nat x3 (x4 ++ r) k3 ->
  makes e4 (p + List.length x1 + List.length x2 + List.length x3)%nat x4 r k4 ->
  makes (PSeq [e1; e2; e3; e4]) p (x1 ++ x2 ++ x3 ++ x4) r (k1 ++ k2 ++ k3 ++ k4).
Proof.
  intros M1 M2 M3 M4. apply makes_seq_i. apply (seq_eq X y full _ p (x1 ++ x2 ++ x3 ++ x4 ++ []) _ r (k1 ++ k2 ++ k3 ++ k4 ++ [])); [rewrite app_nil_r; reflexivity|rewrite app_nil_r; reflexivity|].
  apply seq_cons; [rewrite ?app_nil_r, <- ?app_assoc; exact M1|].
  apply seq_cons; [rewrite ?app_nil_r, <- ?app_assoc; exact M2|].
  apply seq_cons; [rewrite ?app_nil_r, <- ?app_assoc; exact M3|].
  apply seq_cons; [rewrite ?app_nil_r, <- ?app_assoc; exact M4|].
  apply seq_nil.
Qed.
Lemma seq5 e1 e2 e3 e4 e5 p x1 x2 x3 x4 x5 r k1 k2 k3 k4 k5 : makes e1 p x1 (x2 ++ x3 ++ x4 ++ x5 ++ r) k1 ->
  makes e2 (p + List.length x1)%nat x2 (x3 ++ x4 ++ x5 ++ r) k2 ->
  makes e3 (p + List.length x1 + List.length x2)%nat x3 (x4 ++ x5 ++ r) k3 ->
  makes e4 (p + List.length x1 + List.length x2 + List.length x3)%nat x4 (x5 ++ r) k4 ->
  makes e5 (p + List.length x1 + List.length x2 + List.length x3 + List.length x4)%nat x5 r k5 ->
  makes (PSeq [e1; e2; e3; e4; e5]) p (x1 ++ x2 ++ x3 ++ x4 ++ x5) r (k1 ++ k2 ++ k3 ++ k4 ++ k5).
Proof.
  intros M1 M2 M3 M4 M5. apply makes_seq_i. apply (seq_eq X y full _ p (x1 ++ x2 ++ x3 ++ x4 ++ x5 ++ []) _ r (k1 ++ k2 ++ k3 ++ k4 ++ k5 ++ [])); [rewrite app_nil_r; reflexivity|rewrite app_nil_r; reflexivity|].
  apply seq_cons; [rewrite ?app_nil_r, <- ?app_assoc; exact M1|].
  apply seq_cons; [rewrite ?app_nil_r, <- ?app_assoc; exact M2|].
  apply seq_cons; [rewrite ?app_nil_r, <- ?app_assoc; exact M3|].
  apply seq_cons; [rewrite ?app_nil_r, <- ?app_assoc; exact M4|].
  apply seq_cons; [rewrite ?app_nil_r, <- ?app_assoc; exact M5|].
  apply seq_nil.
Qed.
Lemma seq6 e1 e2 e3 e4 e5 e6 p x1 x2 x3 x4 x5 x6 r k1 k2 k3 k4 k5 k6 : makes e1 p x1 (x2 ++ x3 ++ x4 ++ x5 ++ x6 ++ r) k1 ->
  makes e2 (p + List.length x1)%nat x2 (x3 ++ x4 ++ x5 ++ x6 ++ r) k2 ->
  makes e3 (p + List.length x1 + List.length x2)%nat x3 (x4 ++ x5 ++ x6 ++ r) k3 ->
  makes e4 (p + List.length x1 + List.length x2 + List.length x3)%nat x4 (x5 ++ x6 ++ r) k4 ->
  makes e5 (p + List.length x1 + List.length x2 + List.length x3 + List.length x4)%nat x5 (x6 ++ r) k5 ->
  makes e6 (p + List.length x1 + List.length x2 + List.length x3 + List.length x4 + List.length x5)%nat x6 r k6 ->
  makes (PSeq [e1; e2; e3; e4; e5; e6]) p (x1 ++ x2 ++ x3 ++ x4 ++ x5 ++ x6) r (k1 ++ k2 ++ k3 ++ k4 ++ k5 ++ k6).
Proof.
  intros M1 M2 M3 M4 M5 M6. apply makes_seq_i. apply (seq_eq X y full _ p (x1 ++ x2 ++ x3 ++ x4 ++ x5 ++ x6 ++ []) _ r (k1 ++ k2 ++ k3 ++ k4 ++ k5 ++ k6 ++ [])); [rewrite app_nil_r; reflexivity|rewrite app_nil_r; reflexivity|].
  apply seq_cons; [rewrite ?app_nil_r, <- ?app_assoc; exact M1|].
  apply seq_cons; [rewrite ?app_nil_r, <- ?app_assoc; exact M2|].
  apply seq_cons; [rewrite ?app_nil_r, <- ?app_assoc; exact M3|].
  apply seq_cons; [rewrite ?app_nil_r, <- ?app_assoc; exact M4|].
  apply seq_cons; [rewrite ?app_nil_r, <- ?app_assoc; exact M5|].
  apply seq_cons; [rewrite ?app_nil_r, <- ?app_assoc; exact M6|].
  apply seq_nil.
Qed.
Lemma seq7 e1 e2 e3 e4 e5 e6 e7 p x1 x2 x3 x4 x5 x6 x7 r k1 k2 k3 k4 k5 k6 k7 : makes e1 p x1 (x2 ++ x3 ++ x4 ++ x5 ++ x6 ++ x7 ++ r) k1 ->
  makes e2 (p + List.length x1)%nat x2 (x3 ++ x4 ++ x5 ++ x6 ++ x7 ++ r) k2 ->
  makes e3 (p + List.length x1 + List.length x2)%nat x3 (x4 ++ x5 ++ x6 ++ x7 ++ r) k3 ->
  makes e4 (p + List.length x1 + List.length x2 + List.length x3)%nat x4 (x5 ++ x6 ++ x7 ++ r) k4 ->
  makes e5 (p + List.length x1 + List.length x2 + List.length x3 + List.length x4)%nat x5 (x6 ++ x7 ++ r) k5 ->
  makes e6 (p + List.length x1 + List.length x2 + List.length x3 + List.length x4 + List.length x5)%nat x6 (x7 ++ r) k6 ->
  makes e7 (p + List.length x1 + List.length x2 + List.length x3 + List.length x4 + List.length x5 + List.length x6)%nat x7 r k7 ->
  makes (PSeq [e1; e2; e3; e4; e5; e6; e7]) p (x1 ++ x2 ++ x3 ++ x4 ++ x5 ++ x6 ++ x7) r (k1 ++ k2 ++ k3 ++ k4 ++ k5 ++ k6 ++ k7).
Proof.
  intros M1 M2 M3 M4 M5 M6 M7. apply makes_seq_i. apply (seq_eq X y full _ p (x1 ++ x2 ++ x3 ++ x4 ++ x5 ++ x6 ++ x7 ++ []) _ r (k1 ++ k2 ++ k3 ++ k4 ++ k5 ++ k6 ++ k7 ++ [])); [rewrite app_nil_r; reflexivity|rewrite app_nil_r; reflexivity|].
  apply seq_cons; [rewrite ?app_nil_r, <- ?app_assoc; exact M1|].
  apply seq_cons; [rewrite ?app_nil_r, <- ?app_assoc; exact M2|].
  apply seq_cons; [rewrite ?app_nil_r, <- ?app_assoc; exact M3|].
  apply seq_cons; [rewrite ?app_nil_r, <- ?app_assoc; exact M4|].
  apply seq_cons; [rewrite ?app_nil_r, <- ?app_assoc; exact M5|].
  apply seq_cons; [rewrite ?app_nil_r, <- ?app_assoc; exact M6|].
  apply seq_cons; [rewrite ?app_nil_r, <- ?app_assoc; exact M7|].
  apply seq_nil.
Qed.

Lemma loop_items {A} (body : peg rule) (tx : A -> str) (gd : A -> list (option rule * syn) -> Prop) (Q Q' : str -> Prop) l :
  (forall r, Q r -> sem body r None) -> (forall r, Q r -> Q' r) ->
  (forall a, In a l -> tx a <> []) -> (forall a r, In a l -> Q' (tx a ++ r)) ->
  (forall a, In a l -> forall p r, Q' r -> exists ks, makes body p (tx a) r ks /\ gd a ks) ->
  forall p r, Q r -> exists kss, makes_loop body p (flat_map tx l) r (List.concat kss) /\ Forall2 gd l kss.
Proof.
  intros Hn HQ. induction l as [|a l IH]; intros Hx Hq Hb p r Hr.
  - exists []. split; [apply loop_nil, Hn, Hr|constructor].
  - destruct (IH ltac:(intros; apply Hx; right; assumption) ltac:(intros; apply Hq; right; assumption) ltac:(intros; apply Hb; [right|]; assumption) (p + List.length (tx a))%nat r Hr) as (kss & K & F).
    destruct (Hb a (or_introl eq_refl) p (flat_map tx l ++ r)) as (ks & M & Hg).
    { destruct l as [|a' l]; [apply HQ, Hr|]. cbn [flat_map]. rewrite <- app_assoc. apply Hq. right. left. reflexivity. }
    exists (ks :: kss). split; [|constructor; assumption]. cbn [flat_map List.concat]. apply loop_cons; [apply Hx; left; reflexivity|exact M|exact K].
Qed.

(** ** Blanks *)

Variable b : str.
Hypothesis Hb : blank_text b.

Lemma b_first : exists c b', b = c :: b' /\ (c = SP \/ c = TAB).
Proof. destruct Hb as [Hn Hc]. destruct b as [|c b']; [congruence|]. exists c, b'. split; [reflexivity|]. apply Hc. left. reflexivity. Qed.
Lemma b_cls c : In c b -> cls_blank c = true.
Proof. intros I. apply (proj2 Hb) in I. destruct I as [-> | ->]; reflexivity. Qed.
Notation nonblank := (starts (fun c => cls_blank c = false)).
Lemma skip_eq (a s : str) : skipn (List.length a) (a ++ s) = s.
Proof. rewrite skipn_app, skipn_all, Nat.sub_diag. reflexivity. Qed.
Lemma ws_b s : nonblank s -> sem (PRef R_ws) (b ++ s) (Some s).
Proof.
  intros H. apply sem_ref. cbn [grammar]. pose proof (sem_rx G rx_ws (b ++ s) _ (rx_star_stop cls_blank b s b_cls H)) as K. rewrite skip_eq in K. exact K.
Qed.
Lemma space_b s : nonblank s -> sem (PRef R_space) (b ++ s) (Some s).
Proof.
  intros H. apply sem_ref. cbn [grammar]. pose proof (sem_rx G rx_space (b ++ s) _ (rx_plus_stop cls_blank b s (proj1 Hb) b_cls H)) as K. rewrite skip_eq in K. exact K.
Qed.
Lemma makes_ws p s : nonblank s -> makes (PRef R_ws) p [] s [].
Proof. intros H. apply makes_ignored; [reflexivity|]. apply sem_ws_none, H. Qed.
Lemma makes_ws_b p s : nonblank s -> makes (PRef R_ws) p b s [].
Proof. intros H. apply makes_ignored; [reflexivity|]. apply ws_b, H. Qed.
Lemma makes_space_b p s : nonblank s -> makes (PRef R_space) p b s [].
Proof. intros H. apply makes_ignored; [reflexivity|]. apply space_b, H. Qed.

(** ** What follows an expression *)

Definition closer (c : char) : Prop := c = 41 \/ c = 93 \/ c = 125 \/ c = 44 \/ c = NL \/ (10088 <= c /\ u_digit U c = None).
Inductive token : nat -> str -> Prop :=
| tok_word l w s : In (l, w) [(0%nat, u "if"); (0%nat, u "else"); (1%nat, u "or"); (2%nat, u "and")] -> token l (w ++ b ++ s)
| tok_op o s : token (op_prio o) (op_text o ++ b ++ s)
| tok_cat s : plain_start s = true -> token 5 s
| tok_pipe s : token 6 (u ":" ++ s).
Definition foll (L : nat) (r : str) : Prop :=
  starts closer r \/ exists l s, (l < L)%nat /\ token l s /\ r = b ++ s.

Lemma foll_mono L L' r : (L <= L')%nat -> foll L r -> foll L' r.
Proof. intros HL [H|(l & s & Hl & T & E)]; [left; exact H|right; exists l, s; repeat split; [lia|exact T|exact E]]. Qed.
Lemma plain_starts s : plain_start s = true -> starts (fun c => letter c || digit c || (c =? 34) || (c =? 39) = true) s.
Proof. intros H. destruct s as [|c s]; [discriminate H|]. constructor. exact H. Qed.
Lemma token_nonblank l s : token l s -> nonblank s.
Proof.
  intros [l' w s' H|o s' |s' H|s'].
  - cbn in H. repeat (destruct H as [H|H]; [injection H as <- <-; constructor; reflexivity|]). destruct H.
  - destruct o; constructor; reflexivity.
  - apply plain_starts in H. revert H. apply starts_imp. intros c H. unfold letter, digit in H. unfold cls_blank, cls_in, SP, TAB. cbn. lia.
  - constructor. reflexivity.
Qed.
Lemma foll_stop L r : foll L r -> stop r.
Proof.
  intros [H|(l & s & _ & _ & ->)].
  - revert H. apply starts_imp. intros c H. unfold closer, NL in H. unfold cls_id, cls_az, between. lia.
  - destruct b_first as (c & b' & -> & [-> | ->]); constructor; reflexivity.
Qed.

Definition tok_at (L : nat) (s : str) : Prop := starts closer s \/ exists l, (l < L)%nat /\ token l s.

Lemma closer_nonblank s : starts closer s -> nonblank s.
Proof. apply starts_imp. intros c H. unfold closer, NL in H. unfold cls_blank, cls_in, SP, TAB. cbn. lia. Qed.
Lemma after_ws L r : foll L r -> exists s, tok_at L s /\ sem (PRef R_ws) r (Some s).
Proof.
  intros [H|(l & s & Hl & T & ->)].
  - exists r. split; [left; exact H|]. apply sem_ws_none, closer_nonblank, H.
  - exists s. split; [right; exists l; split; assumption|]. apply ws_b. eapply token_nonblank, T.
Qed.
Lemma after_space L r : foll L r -> sem (PRef R_space) r None \/ exists l s, (l < L)%nat /\ token l s /\ sem (PRef R_space) r (Some s).
Proof.
  intros [H|(l & s & Hl & T & ->)].
  - left. apply sem_ref. cbn [grammar]. apply sem_rx_no, rx_first; [reflexivity|]. revert H. apply starts_imp. intros c H. unfold closer, NL in H.
    cbn. unfold cls_blank, cls_in, SP, TAB. cbn. lia.
  - right. exists l, s. split; [exact Hl|]. split; [exact T|]. apply space_b. eapply token_nonblank, T.
Qed.

Ltac no_lit := apply lit_no; vm_compute; (exact Logic.I || lia).
Ltac no_go :=
  match goal with
  | |- PegSpec.sem _ (PRef _) _ None => apply sem_ref; cbn [grammar]
  | |- PegSpec.sem _ (PAlt []) _ None => apply sem_alt_nil
  | |- PegSpec.sem _ (PAlt _) _ None => apply sem_alt_next
  | |- PegSpec.sem _ (PLit _) _ None => no_lit
  end.
Ltac closers := let c := fresh "c" in let r := fresh "r" in let H := fresh "H" in
  intros [|c r H]; [|unfold closer, NL in H]; repeat no_go.
Ltac by_run := apply (fails G 60 _ 0); vm_compute; reflexivity.
(** The cases of a token of priority lower than a given number. *)
Ltac tokens T Hl :=
  let c := fresh "c" in let b' := fresh "b'" in let E := fresh "E" in let H := fresh "H" in let o := fresh "o" in let z := fresh "z" in
  destruct b_first as (c & b' & E & H);
  destruct T as [? ? ? T|o ?|z T|?];
  [cbn in T; repeat (destruct T as [T|T]; [injection T as <- <-; try (exfalso; cbn in Hl; lia); rewrite E; destruct H as [-> | ->]|]); try (destruct T; fail)
  |destruct o; try (exfalso; cbn in Hl; lia); rewrite E; destruct H as [-> | ->]
  |try (exfalso; cbn in Hl; lia); apply plain_starts in T
  |try (exfalso; cbn in Hl; lia)].
Ltac plain T := let c := fresh "c" in let r := fresh "r" in let H := fresh "H" in
  destruct T as [|c r H]; [|unfold letter, digit in H]; repeat no_go.

Lemma op13 s : tok_at 13 s -> sem (PRef R_op_power) s None.
Proof. intros [H|(l & Hl & T)]; [revert H; closers|]. tokens T Hl; try by_run. plain T. Qed.
Lemma op12 s : tok_at 12 s -> sem (PRef R_op_multiplic) s None.
Proof. intros [H|(l & Hl & T)]; [revert H; closers|]. tokens T Hl; try by_run. plain T. Qed.
Lemma op11 s : tok_at 11 s -> sem (PRef R_op_additive) s None.
Proof. intros [H|(l & Hl & T)]; [revert H; closers|]. tokens T Hl; try by_run. plain T. Qed.
Lemma op10 s : tok_at 10 s -> sem (PRef R_op_shift) s None.
Proof. intros [H|(l & Hl & T)]; [revert H; closers|]. tokens T Hl; try by_run. plain T. Qed.
Lemma op9 s : tok_at 9 s -> sem (PLit (u "&")) s None.
Proof. intros [H|(l & Hl & T)]; [revert H; closers|]. tokens T Hl; try by_run. plain T. Qed.
Lemma op8 s : tok_at 8 s -> sem (PLit (u "^")) s None.
Proof. intros [H|(l & Hl & T)]; [revert H; closers|]. tokens T Hl; try by_run. plain T. Qed.
Lemma op7 s : tok_at 7 s -> sem (PLit (u "|")) s None.
Proof. intros [H|(l & Hl & T)]; [revert H; closers|]. tokens T Hl; try by_run. plain T. Qed.
Lemma op6 s : tok_at 6 s -> sem (PLit (u ":")) s None.
Proof. intros [H|(l & Hl & T)]; [revert H; closers|]. tokens T Hl; try by_run. plain T. Qed.
Lemma op4 s : tok_at 4 s -> sem (PRef R_op_comp) s None.
Proof.
  intros [H|(l & Hl & T)].
  - apply sem_ref. cbn [grammar]. apply sem_rx_no, rx_first; [reflexivity|]. revert H. apply starts_imp. intros c H. unfold closer, NL in H.
    change (nf rx_op_comp c) with (negb (61 =? c) && (negb (33 =? c) && (negb (60 =? c) && (negb (62 =? c) && (negb (60 =? c) && (negb (60 =? c) && (negb (62 =? c) && (negb (110 =? c) && (negb (105 =? c) && (negb (105 =? c) && negb (105 =? c))))))))))). lia.
  - tokens T Hl; by_run.
Qed.

Lemma ops_end L O l r : (forall s, tok_at L s -> sem O s None) -> foll L r -> sem (PSeq (PRef R_ws :: O :: l)) r None.
Proof. intros HO Hr. destruct (after_ws L r Hr) as (s & Hs & W). eapply sem_seq_cons; [exact W|]. apply sem_seq_no, HO, Hs. Qed.

Lemma cat_end r : foll 5 r -> sem (PSeq [PRef R_space; PRef R_pipeline]) r None.
Proof.
  intros Hr. destruct (after_space 5 r Hr) as [H|(l & s & Hl & T & W)]; [apply sem_seq_no, H|].
  eapply sem_seq_cons; [exact W|]. apply sem_seq_no. tokens T Hl; by_run.
Qed.
Lemma word_end L w l r : (In (L, w) [(0%nat, u "if"); (1%nat, u "or"); (2%nat, u "and")]) -> foll L r ->
  sem (PSeq (PRef R_space :: PLit w :: l)) r None.
Proof.
  intros Hw Hr. destruct (after_space L r Hr) as [H|(l' & s & Hl & T & W)]; [apply sem_seq_no, H|].
  eapply sem_seq_cons; [exact W|]. apply sem_seq_no. cbn in Hw.
  repeat (destruct Hw as [Hw|Hw]; [injection Hw as <- <-; try lia; tokens T Hl; by_run|]). destruct Hw.
Qed.
Lemma else_end l r : foll 0 r -> sem (PSeq (PRef R_space :: PLit (u "else") :: l)) r None.
Proof. intros Hr. destruct (after_space 0 r Hr) as [H|(l' & s & Hl & T & W)]; [apply sem_seq_no, H|lia]. Qed.
Lemma if_end l r : foll 0 r -> sem (PSeq (PRef R_space :: PLit (u "if") :: l)) r None.
Proof. intros Hr. apply (word_end 0); [cbn; tauto|exact Hr]. Qed.
Lemma trailer_end l r : foll 14 r -> sem (PSeq (PRef R_ws :: PRef R_trailer :: l)) r None.
Proof.
  intros Hr. destruct (after_ws 14 r Hr) as (s & Hs & W). eapply sem_seq_cons; [exact W|]. apply sem_seq_no.
  assert (K : forall l, sem (PSeq (PLit (u "(") :: l)) s None /\ sem (PSeq (PLit (u "[") :: l)) s None /\ sem (PSeq (PLit (u ".") :: l)) s None).
  { intros l'. destruct Hs as [H|(l2 & Hl & T)].
    - repeat split; apply sem_seq_no; revert H; closers.
    - tokens T Hl; repeat split; apply sem_seq_no; try by_run; plain T. }
  apply sem_ref. cbn [grammar]. repeat (apply sem_alt_next; [apply sem_ref; cbn [grammar]; apply K|]). apply sem_alt_nil.
Qed.
Lemma qualifier_end L r : foll L r -> sem (PRef R_qualifier) r None.
Proof.
  intros Hr. apply sem_ref. cbn [grammar]. apply sem_rx_no, rx_first; [reflexivity|]. destruct Hr as [H|(l & s & _ & _ & ->)].
  - revert H. apply starts_imp. intros c H. unfold closer, NL in H. change (nf rx_qualifier c) with (negb (mem c [63; 33])). cbn. lia.
  - destruct b_first as (c & b' & -> & [-> | ->]); constructor; reflexivity.
Qed.

(** ** Rules by priority *)

Definition rule_of (L : nat) : rule :=
  match L with
  | 0 => R_ifelse_test | 1 => R_or_test | 2 => R_and_test | 3 => R_not_test | 4 => R_comparison | 5 => R_concat_expr
  | 6 => R_pipeline | 7 => R_or_expr | 8 => R_xor_expr | 9 => R_and_expr | 10 => R_shift_expr | 11 => R_arith_expr
  | 12 => R_term | 13 => R_pow_expr | 14 => R_factor | _ => R_atom
  end%nat.

Definition nominus (s : str) : Prop := starts (fun c => c <> 45 /\ cls_blank c = false) s.
Definition nonot (s : str) : Prop := sem (PSeq [PRef R_not; PRef R_space]) s None.

Lemma then_nil e e' p x r k : makes e p x r [k] -> makes e' (p + List.length x)%nat [] r [] -> makes (PSeq [e; e']) p x r [k].
Proof.
  intros M1 M2. apply (makes_eq X y full _ p (x ++ []) _ r ([k] ++ [])); [apply app_nil_r|reflexivity|]. apply seq2; [exact M1|exact M2].
Qed.

Lemma step L p x r k : (L <= 14)%nat -> foll L r -> (L = 11%nat -> nominus (x ++ r)) -> (L = 3%nat -> nonot (x ++ r)) ->
  makes (PRef (rule_of (S L))) p x r [k] -> makes (PRef (rule_of L)) p x r [k].
Proof.
  intros HL Hr Hm Ht M.
  destruct L as [|[|[|[|[|[|[|[|[|[|[|[|[|[|[|L]]]]]]]]]]]]]]]; [..|lia]; cbn [rule_of] in *; (apply makes_compact; [reflexivity|reflexivity|reflexivity|]); cbn [grammar].
  - apply then_nil; [exact M|]. apply makes_opt_no, if_end, Hr.
  - apply then_nil; [exact M|]. apply makes_star, loop_nil, (word_end 1); [cbn; tauto|exact Hr].
  - apply then_nil; [exact M|]. apply makes_star, loop_nil, (word_end 2); [cbn; tauto|exact Hr].
  - change [k] with ([] ++ [k]). apply (seq2 _ _ p [] x); [|cbn [List.length]; rewrite Nat.add_0_r; exact M].
    apply makes_star, loop_nil, Ht. reflexivity.
  - apply then_nil; [exact M|]. apply makes_star, loop_nil, (ops_end 4); [exact op4|exact Hr].
  - apply then_nil; [exact M|]. apply makes_star, loop_nil, cat_end, Hr.
  - apply then_nil; [exact M|]. apply makes_star, loop_nil, (ops_end 6); [exact op6|exact Hr].
  - apply then_nil; [exact M|]. apply makes_star, loop_nil, (ops_end 7); [exact op7|exact Hr].
  - apply then_nil; [exact M|]. apply makes_star, loop_nil, (ops_end 8); [exact op8|exact Hr].
  - apply then_nil; [exact M|]. apply makes_star, loop_nil, (ops_end 9); [exact op9|exact Hr].
  - apply then_nil; [exact M|]. apply makes_star, loop_nil, (ops_end 10); [exact op10|exact Hr].
  - specialize (Hm eq_refl). apply (makes_eq X y full _ p ([] ++ [] ++ x ++ []) _ r ([] ++ [] ++ [k] ++ [])); [apply app_nil_r|reflexivity|].
    apply seq4.
    + apply makes_opt_no. cbn [app]. inversion Hm as [E|c z [Hc _] E]; apply sem_ref; cbn [grammar]; no_lit.
    + apply makes_ws. cbn [app]. revert Hm. apply starts_imp. intros c [_ H]. exact H.
    + cbn [List.length app]. rewrite !Nat.add_0_r. exact M.
    + apply makes_star, loop_nil, (ops_end 11); [exact op11|exact Hr].
  - apply then_nil; [exact M|]. apply makes_star, loop_nil, (ops_end 12); [exact op12|exact Hr].
  - apply then_nil; [exact M|]. apply makes_star, loop_nil, (ops_end 13); [exact op13|exact Hr].
  - apply (makes_eq X y full _ p (x ++ [] ++ []) _ r ([k] ++ [] ++ [])); [apply app_nil_r|reflexivity|].
    apply seq3; [exact M| |].
    + apply makes_star, loop_nil, trailer_end, Hr.
    + apply makes_opt_no. eapply qualifier_end, Hr.
Qed.

Lemma climb d : forall L L' p x r k, L' = (L + d)%nat -> (L' <= 15)%nat -> foll L r -> ((12 <= L')%nat -> nominus (x ++ r)) -> ((4 <= L')%nat -> nonot (x ++ r)) ->
  makes (PRef (rule_of L')) p x r [k] -> makes (PRef (rule_of L)) p x r [k].
Proof.
  induction d as [|d IH]; intros L L' p x r k E HL Hr Hm Ht M.
  - rewrite Nat.add_0_r in E. subst L'. exact M.
  - apply step; [lia|exact Hr|intros ->; apply Hm; lia|intros ->; apply Ht; lia|].
    apply (IH (S L) L'); [lia|exact HL|apply (foll_mono L); [lia|exact Hr]|exact Hm|exact Ht|exact M].
Qed.

(** ** Names *)

Lemma id_parts n : id_name n = true -> exists c r, n = c :: r /\ letter c = true /\ (forall d, In d r -> idc d) /\ ~ In n keywords.
Proof.
  unfold id_name. rewrite andb_true_iff, negb_true_iff. intros [H K]. destruct n as [|c r]; [discriminate H|]. apply andb_true_iff in H. destruct H as [Hc Hr].
  exists c, r. split; [reflexivity|]. split; [exact Hc|]. split; [intros d I; rewrite forallb_forall in Hr; apply Hr, I|].
  intros I. assert (T : existsb (str_eqb (c :: r)) keywords = true).
  { apply existsb_exists. exists (c :: r). split; [exact I|]. apply str_eqb_eq. reflexivity. }
  congruence.
Qed.
Lemma id_chars n : id_name n = true -> forall d, In d n -> idc d.
Proof. intros H. destruct (id_parts n H) as (c & r & -> & Hc & Hr & _). intros d [<-|I]; [unfold idc; rewrite Hc; reflexivity|apply Hr, I]. Qed.

Lemma id_free n f : id_name n = true -> stop f -> rx_match (rx_reserved U) (n ++ f) = None.
Proof.
  intros Hn Hf. unfold rx_match. assert (E : rx_all (rx_reserved U) (n ++ f) = []); [|rewrite E; reflexivity].
  unfold rx_reserved. cbn [rx_all]. apply flat_map_none. intros m I. apply rx_alts_in in I. destruct I as (z & Iz & Hz).
  assert (exists l, In l keywords /\ z = rx_lit l) as (l & Il & ->).
  { destruct Iz as [<-|Iz]; [exists (u "from"); split; [left; reflexivity|reflexivity]|]. apply in_map_iff in Iz. destruct Iz as (l & <- & Il). exists l. split; [right; exact Il|reflexivity]. }
  destruct (rx_lit_in l _ _ Hz) as [-> (r & E)]. rewrite E, skipn_app, skipn_all, Nat.sub_diag. cbn [app skipn].
  destruct (id_parts n Hn) as (c0 & r0 & _ & _ & _ & Hk).
  destruct (name_word n l f r Hf (keyword_letters l Il) E) as [[-> _]|(d & q & En & ->)].
  - exfalso. exact (Hk Il).
  - rewrite (idc_word X d); [reflexivity|]. apply (id_chars n Hn). rewrite En. apply in_or_app. right. left. reflexivity.
Qed.
Lemma id_node n p f : id_name n = true -> stop f -> makes (PRef R_name_id) p n f [(Some R_name_id, SStatic n)].
Proof.
  intros Hn Hf. node_of (@nil (option rule * syn)); [|reflexivity]. cbn [grammar].
  apply (seq2 _ _ p [] n f [] []); [apply makes_not, sem_ref; cbn [grammar]; apply sem_rx_no, id_free; assumption|].
  apply makes_rx. destruct (id_parts n Hn) as (c & r & -> & Hc & Hr & _). unfold rx_match, rx_name_id. cbn [rx_all app].
  rewrite (letter_cls c Hc). cbn [flat_map skipn]. rewrite span_stop; [|intros d I; apply idc_cls, Hr, I|exact Hf]. destruct (List.length r) eqn:E; cbn; rewrite ?E; reflexivity.
Qed.
Lemma no_name c s : cls_id_start c = false -> sem (PRef R_name_id) (c :: s) None.
Proof.
  intros H. apply sem_ref. cbn [grammar]. destruct (rx_match (rx_reserved U) (c :: s)) as [m|] eqn:E.
  - apply sem_seq_no. eapply sem_not, sem_ref, sem_rx, E.
  - eapply sem_seq_cons; [apply sem_not_no, sem_ref, sem_rx_no, E|]. apply sem_seq_no, sem_rx_no. unfold rx_match, rx_name_id. cbn [rx_all]. rewrite H. reflexivity.
Qed.

(** ** The beginning of an expression *)

Definition astop (s : str) : Prop := starts (fun c => cls_id c = false /\ c <> 34 /\ c <> 39) s.
(** Not the rest of a keyword argument after its name. *)
Definition eqsafe (s : str) : Prop := sem (PSeq [PRef R_ws; PLit (u "="); PRef R_ws; PRef R_expr]) s None.
Definition rest_ok (s : str) : Prop := astop s /\ eqsafe s.

Lemma astop_stop s : astop s -> stop s.
Proof. apply starts_imp. intros c [H _]. exact H. Qed.
Lemma b_astop s : astop (b ++ s).
Proof. destruct b_first as (c & b' & -> & [-> | ->]); constructor; repeat split; discriminate. Qed.
Lemma foll_rest L r : foll L r -> rest_ok r.
Proof.
  intros [H|(l & s & _ & T & ->)].
  - split.
    + revert H. apply starts_imp. intros c H. unfold closer, NL in H. unfold cls_id, cls_az, between. lia.
    + eapply sem_seq_cons; [apply sem_ws_none, closer_nonblank, H|]. apply sem_seq_no. revert H. closers.
  - split; [apply b_astop|]. eapply sem_seq_cons; [apply ws_b; eapply token_nonblank, T|]. assert (Hl : True) by exact Logic.I.
    destruct b_first as (c & b' & E & H).
    destruct T as [? ? ? T|o ?|z T|?].
    + cbn in T. repeat (destruct T as [T|T]; [injection T as <- <-; apply sem_seq_no; by_run|]). destruct T.
    + destruct o; try (apply sem_seq_no; by_run). eapply sem_seq_cons; [apply (sem_lit G [61])|].
      eapply sem_seq_cons; [apply sem_ws_none; constructor; reflexivity|]. apply sem_seq_no. apply (fails G 200 _ 0). vm_compute. reflexivity.
    + apply plain_starts in T. apply sem_seq_no. plain T.
    + apply sem_seq_no; by_run.
Qed.
Lemma bracket_rest c s : c = 40 \/ c = 91 \/ c = 46 \/ c = 63 \/ c = 33 -> rest_ok (c :: s).
Proof.
  intros H. split.
  - constructor. destruct H as [->|[->|[->|[->| ->]]]]; repeat split; discriminate.
  - destruct H as [->|[->|[->|[->| ->]]]]; (eapply sem_seq_cons; [apply sem_ws_none; constructor; reflexivity|]; apply sem_seq_no; by_run).
Qed.

Definition plainc (c : char) : Prop := c = 40 \/ c = 34 \/ c = 91 \/ c = 123 \/ c = 39 \/ digit c = true.
Inductive opens (p : nat) (s : str) : Prop :=
| op_char c z : s = c :: z -> plainc c -> opens p s
| op_name n z : s = n ++ z -> id_name n = true -> rest_ok z -> opens p s
| op_raw q z : s = 114 :: quot_char q :: z -> opens p s
| op_minus z : s = 45 :: z -> (p <= 11)%nat -> opens p s
| op_not z : s = u "not" ++ b ++ z -> (p <= 3)%nat -> opens p s.

Lemma opens_mono p q s : (q <= p)%nat -> opens p s -> opens q s.
Proof.
  intros Hq [c z E H|n z E H1 H2|q' z E|z E H|z E H].
  - eapply op_char; eassumption.
  - eapply op_name; eassumption.
  - eapply op_raw; eassumption.
  - eapply op_minus; [exact E|lia].
  - eapply op_not; [exact E|lia].
Qed.
Lemma opens_in_parens p x r : opens p (in_parens x ++ r).
Proof. eapply op_char; [reflexivity|left; reflexivity]. Qed.
Lemma opens_operand p e r : (forall r, rest_ok r -> opens (prio e) (text b e ++ r)) -> rest_ok r -> opens p (operand (text b) p e ++ r).
Proof.
  intros H Hr. unfold operand. destruct (Nat.ltb_spec (prio e) p) as [Hp|Hp]; [apply opens_in_parens|]. apply (opens_mono (prio e)); [exact Hp|apply H, Hr].
Qed.

Lemma tok_rest l s : token l s -> rest_ok (b ++ s).
Proof. intros T. apply (foll_rest (S l)). right. exists l, s. repeat split; [lia|exact T]. Qed.

Lemma var_id n : var_name n = true -> id_name n = true.
Proof. unfold var_name. rewrite !andb_true_iff. tauto. Qed.
Lemma opens_text e : fine b e = true -> forall r, rest_ok r -> opens (prio e) (text b e ++ r).
Proof.
  induction e as [n|q s l _|q s|d|c|l _|l _|l _|l _|e l q IH _|n e l IH _|e l IH _|e l IH _|n e IH|e l IH _|e l IH _|x c y' IHx _ _] using ex_all; intros Hf r Hr; cbn [fine] in Hf.
  - eapply op_name; [reflexivity|apply var_id, Hf|exact Hr].
  - eapply op_char; [reflexivity|]. unfold plainc. destruct q; cbn [quot_char]; tauto.
  - eapply op_raw. reflexivity.
  - destruct d as [|c d]; [discriminate Hf|]. eapply op_char; [reflexivity|]. do 5 right. cbn in Hf. apply andb_true_iff in Hf. tauto.
  - eapply op_name; [reflexivity|destruct c; reflexivity|exact Hr].
  - eapply op_char; [reflexivity|]. right. right. left. reflexivity.
  - eapply op_char; [reflexivity|]. left. reflexivity.
  - eapply op_char; [reflexivity|]. do 3 right. left. reflexivity.
  - eapply op_char; [reflexivity|]. do 3 right. left. reflexivity.
  - rewrite !andb_true_iff in Hf. destruct Hf as [[Hf1 Hf2] Hf3]. cbn [text prio]. rewrite <- !app_assoc. apply (opens_mono 15); [lia|]. apply opens_operand; [apply IH, Hf1|].
    destruct l as [|t l]; [destruct q; [discriminate Hf2| |]; apply bracket_rest; tauto|]. destruct t; cbn [flat_map tail_text]; rewrite <- !app_assoc; apply bracket_rest; tauto.
  - set (q := prio (XOps n e l)) in *. rewrite !andb_true_iff in Hf. destruct Hf as [[Hf1 Hf2] Hf3]. cbn [text]. fold q. destruct n.
    + apply Nat.eqb_eq in Hf2. rewrite <- app_assoc. eapply op_minus; [rewrite <- app_assoc; reflexivity|]. unfold q in *. cbn [prio] in *. lia.
    + cbn [app]. rewrite <- app_assoc. apply (opens_mono (S q)); [lia|]. apply opens_operand; [apply IH, Hf1|].
      destruct l as [|[o e'] l]; [discriminate Hf2|]. cbn [flat_map]. rewrite <- !app_assoc. eapply tok_rest, tok_op.
  - rewrite !andb_true_iff in Hf. destruct Hf as [[Hf1 Hf2] Hf3]. cbn [text prio]. rewrite <- app_assoc. apply (opens_mono 7); [lia|]. apply opens_operand; [apply IH, Hf1|].
    destruct l as [|t l]; [discriminate Hf2|]. cbn [flat_map]. rewrite <- !app_assoc. eapply tok_rest, tok_pipe.
  - rewrite !andb_true_iff in Hf. destruct Hf as [[Hf1 Hf2] Hf3]. cbn [text prio]. rewrite <- app_assoc. apply (opens_mono 6); [lia|]. apply opens_operand; [apply IH, Hf1|].
    destruct l as [|t l]; [discriminate Hf2|]. cbn [flat_map]. rewrite <- !app_assoc. eapply tok_rest, tok_cat. cbn [forallb] in Hf3. rewrite !andb_true_iff in Hf3. destruct Hf3 as [[_ H] _].
    destruct (operand (text b) 6 t); [discriminate H|exact H].
  - rewrite andb_true_iff in Hf. destruct Hf as [Hf1 Hf2]. destruct n as [|n]; [discriminate Hf1|]. cbn [text prio repeat flat_map]. rewrite <- !app_assoc. eapply op_not; [reflexivity|lia].
  - rewrite !andb_true_iff in Hf. destruct Hf as [[Hf1 Hf2] Hf3]. cbn [text prio]. rewrite <- app_assoc. apply (opens_mono 3); [lia|]. apply opens_operand; [apply IH, Hf1|].
    destruct l as [|t l]; [discriminate Hf2|]. cbn [flat_map]. rewrite <- !app_assoc. eapply tok_rest, (tok_word 2). cbn. tauto.
  - rewrite !andb_true_iff in Hf. destruct Hf as [[Hf1 Hf2] Hf3]. cbn [text prio]. rewrite <- app_assoc. apply (opens_mono 2); [lia|]. apply opens_operand; [apply IH, Hf1|].
    destruct l as [|t l]; [discriminate Hf2|]. cbn [flat_map]. rewrite <- !app_assoc. eapply tok_rest, (tok_word 1). cbn. tauto.
  - rewrite !andb_true_iff in Hf. destruct Hf as [[Hf1 Hf2] Hf3]. cbn [text prio]. rewrite <- !app_assoc. apply (opens_mono 1); [lia|]. apply opens_operand; [apply IHx, Hf1|].
    eapply tok_rest, (tok_word 0). cbn. tauto.
Qed.

(** What an opening excludes. *)
Lemma opens_nominus p s : (12 <= p)%nat -> opens p s -> nominus s.
Proof.
  intros Hp [c z -> H|n z -> H _|q z ->|z E H|z E H]; try lia; [| |constructor; repeat split; discriminate].
  - constructor. unfold plainc, digit in H. unfold cls_blank, cls_in, SP, TAB. cbn. lia.
  - apply id_parts in H. destruct H as (c & r & -> & Hc & _). constructor. apply letter_ascii in Hc. unfold cls_blank, cls_in, SP, TAB. cbn. lia.
Qed.
Lemma opens_nonblank p s : opens p s -> nonblank s.
Proof.
  intros [c z -> H|n z -> H _|q z ->|z -> H|z -> H]; try (constructor; reflexivity).
  - constructor. unfold plainc, digit in H. unfold cls_blank, cls_in, SP, TAB. cbn. lia.
  - apply id_parts in H. destruct H as (c & r & -> & Hc & _). constructor. apply letter_ascii in Hc. unfold cls_blank, cls_in, SP, TAB. cbn. lia.
Qed.
Lemma id_word_no n f l e es : id_name n = true -> stop f -> In l keywords -> (forall d s, idc d -> sem e (d :: s) None) -> sem (PSeq (PLit l :: e :: es)) (n ++ f) None.
Proof.
  intros Hn Hf Hl He. destruct (startswith l (n ++ f)) eqn:E.
  - apply PegFacts.startswith_app in E. destruct (name_word n l f _ Hf (keyword_letters l Hl) E) as [[-> _]|(d & q & En & Er)].
    + exfalso. destruct (id_parts l Hn) as (_ & _ & _ & _ & _ & K). exact (K Hl).
    + rewrite E. eapply sem_seq_cons; [apply sem_lit|]. rewrite Er. apply sem_seq_no, He. apply (id_chars n Hn). rewrite En. apply in_or_app. right. left. reflexivity.
  - apply sem_seq_no, sem_lit_no. intros r K. rewrite K, PyStrFacts.startswith_app in E. discriminate.
Qed.
Lemma opens_nonot p s : (4 <= p)%nat -> opens p s -> nonot s.
Proof.
  intros Hp [c z -> H|n z -> H [Hz _]|q z ->|z -> H|z E H]; try lia.
  - unfold nonot. apply sem_seq_no. unfold plainc, digit in H. repeat no_go.
  - unfold nonot. assert (K : sem (PSeq [PLit (u "not"); PRef R_space]) (n ++ z) None).
    { apply id_word_no; [exact H|apply astop_stop, Hz|cbn; tauto|]. intros d s Hd. apply space_idc, Hd. }
    inversion K as [| | | | | |e l s r o K1 K2|e l s K1| | | | | | | | | | | |]; subst; [eapply sem_seq_cons; [apply sem_ref; exact K1|exact K2]|apply sem_seq_no, sem_ref; exact K1].
  - apply sem_seq_no. by_run.
  - apply sem_seq_no. by_run.
Qed.
(** Not a keyword argument. *)
Lemma opens_nokw p s : opens p s -> sem (PRef R_kwarg) s None.
Proof.
  intros [c z -> H|n z -> H [Hz K]|q z ->|z -> H|z -> H]; apply sem_ref; cbn [grammar].
  - apply sem_seq_no, no_name. unfold plainc, digit in H. unfold cls_id_start, cls_az, between. lia.
  - eapply sem_seq_cons; [|exact K]. apply (makes_sem X y full _ 0 _ _ _ (id_node n 0 z H (astop_stop z Hz))).
  - eapply sem_seq_cons; [apply (makes_sem X y full _ 0 _ _ _ (id_node (u "r") 0 (quot_char q :: z) eq_refl ltac:(destruct q; constructor; reflexivity)))|].
    eapply sem_seq_cons; [apply sem_ws_none; destruct q; constructor; reflexivity|]. apply sem_seq_no. destruct q; by_run.
  - apply sem_seq_no. by_run.
  - apply sem_seq_no. destruct b_first as (c & b' & -> & [-> | ->]); by_run.
Qed.

(** ** Atoms *)

Definition mk (R : rule) (p : nat) (x r : str) (t : expr) : Prop := exists k, makes (PRef R) p x r [(k, SExpr t)].

Lemma rx_none x s : rx_all x s = [] -> rx_match x s = None.
Proof. intros H. unfold rx_match. rewrite H. reflexivity. Qed.
Lemma number_no c s : cls_digit U c = false -> c <> 46 -> sem (PRef R_number) (c :: s) None.
Proof.
  intros H1 H2. apply sem_ref. cbn [grammar]. apply sem_rx_no, rx_first; [reflexivity|]. constructor.
  change (nf (rx_number U) c) with (negb (46 =? c) && negb (cls_digit U c)). rewrite H1. lia.
Qed.
Lemma raw_no c n f z l : id_name n = true -> astop f -> (c = 39 \/ c = 34) -> z = RxSeq (rx_lit (114 :: [c])) l -> rx_match z (n ++ f) = None.
Proof.
  intros Hn Hf Hc ->. apply rx_none. cbn [rx_all]. apply flat_map_none. intros m I. exfalso.
  change (rx_all _ _) with (rx_all (rx_lit [114; c]) (n ++ f)) in I. apply rx_lit_in in I. destruct I as [_ (r & E)].
  destruct (id_parts n Hn) as (a & n' & -> & Ha & Hn' & _). cbn [app] in E. injection E as -> E. destruct n' as [|d n'].
  - cbn in E. subst f. inversion Hf as [|d q [_ Hd]]; subst. lia.
  - injection E as -> E. assert (K : idc c) by (apply Hn'; left; reflexivity). unfold idc, letter, digit in K. lia.
Qed.
Lemma const_no n f w : (forall c, In c w -> letter c = true) -> id_name n = true -> stop f -> startswith w n = false -> sem (PLit w) (n ++ f) None.
Proof.
  intros Hw Hn Hf Hs. apply sem_lit_no. intros r E. destruct (name_word n w f r Hf Hw E) as [[-> _]|(d & m & -> & _)].
  - assert (K : startswith w (w ++ []) = true) by apply PyStrFacts.startswith_app. rewrite app_nil_r in K. congruence.
  - rewrite PyStrFacts.startswith_app in Hs. discriminate.
Qed.
Lemma literal_no n f : var_name n = true -> astop f -> sem (PRef R_literal) (n ++ f) None.
Proof.
  intros Hn Hf. pose proof (var_id n Hn) as Hi. destruct (id_parts n Hi) as (a & n' & En & Ha & _). apply letter_ascii in Ha.
  unfold var_name in Hn. rewrite !andb_true_iff, !negb_true_iff in Hn. destruct Hn as [[[_ H1] H2] H3].
  apply sem_ref. cbn [grammar]. apply sem_alt_next.
  { rewrite En. cbn [app]. apply number_no; [unfold cls_digit, between; lia|lia]. }
  apply sem_alt_next.
  { apply sem_ref. cbn [grammar]. apply sem_alt_next; [|apply sem_alt_next; [|apply sem_alt_nil]].
    - rewrite En. cbn [app]. repeat (no_go || apply sem_seq_no).
    - apply sem_ref. cbn [grammar]. apply sem_alt_next; [|apply sem_alt_next; [|apply sem_alt_nil]].
      + apply sem_rx_no. eapply (raw_no 39); [exact Hi|exact Hf|left; reflexivity|reflexivity].
      + apply sem_rx_no. eapply (raw_no 34); [exact Hi|exact Hf|right; reflexivity|reflexivity]. }
  apply sem_alt_next.
  { apply sem_ref. cbn [grammar]. apply sem_alt_next; [|apply sem_alt_next; [|apply sem_alt_nil]].
    - apply const_no; [|exact Hi|apply astop_stop, Hf|exact H1]. intros c I. cbn in I. repeat (destruct I as [<-|I]; [reflexivity|]). destruct I.
    - apply const_no; [|exact Hi|apply astop_stop, Hf|exact H2]. intros c I. cbn in I. repeat (destruct I as [<-|I]; [reflexivity|]). destruct I. }
  apply sem_alt_next; [|apply sem_alt_nil]. apply sem_ref. cbn [grammar].
  apply const_no; [|exact Hi|apply astop_stop, Hf|exact H3]. intros c I. cbn in I. repeat (destruct I as [<-|I]; [reflexivity|]). destruct I.
Qed.

Lemma name_atom n p r : var_name n = true -> astop r -> makes (PRef R_atom) p n r [(Some R_var_use, SExpr (EVar n None))].
Proof.
  intros Hn Hr. pose proof (var_id n Hn) as Hi. apply makes_reduced; [reflexivity|reflexivity|]. cbn [grammar].
  apply makes_alt_next; [apply literal_no; assumption|]. apply makes_alt_first.
  destruct (id_parts n Hi) as (a & n' & En & Ha & _). apply letter_ascii in Ha.
  node_of [(Some R_name_id, SStatic n)].
  - cbn [grammar]. apply (makes_eq X y full _ p ([] ++ n ++ []) _ r ([] ++ [(Some R_name_id, SStatic n)] ++ [])); [apply app_nil_r|reflexivity|].
    apply seq3; [|cbn [List.length app]; rewrite Nat.add_0_r; apply id_node; [exact Hi|apply astop_stop, Hr]|apply makes_plit].
    apply makes_opt_no. rewrite En. cbn [app]. repeat no_go.
  - cbn [setup]. rewrite En. destruct (N.eqb_spec a 36) as [->|]; [lia|reflexivity].
Qed.

(** Strings. *)
Definition quot_rule (q : quot) : rule := match q with Single => R_text_quot1 | Double => R_text_quot2 end.
Lemma quot_grammar q : G (quot_rule q) = PRx (rx_plus (qtext y [quot_char q])).
Proof. destruct q; [|exact (G_text_quot2 X y)]. unfold qtext. change [36; 123; 125; quot_char Single] with (u "${}'"). reflexivity. Qed.
Lemma quot_stop q : qtext y [quot_char q] (quot_char q) = false.
Proof. unfold qtext. apply cls_not_in, in_or_app. right. cbn. tauto. Qed.
Lemma quot_ord q : special (quot_char q) = false.
Proof. destruct q; reflexivity. Qed.

(** The text of one character that is not special, read back. *)
Lemma decode_char q c s k : special c = false -> decode_go (List.length (str_char q c) + k) (str_char q c ++ s) = (x <- decode_go (match str_char q c with [_] => k | [_; _] => S k | _ => 3 + k end) s ;; Ok (c :: x)).
Proof.
  intros Hc. unfold str_char. rewrite Hc. destruct (N.eqb_spec c 92) as [->|H92]; [reflexivity|]. destruct (N.eqb_spec c NL) as [->|Hn]; [reflexivity|].
  destruct (N.eqb_spec c (quot_char q)) as [->|Hq]; [destruct q; reflexivity|]. cbn [app List.length Nat.add decode_go]. destruct (N.eqb_spec c 92); [congruence|]. reflexivity.
Qed.
Lemma decode_text q s : (forall c, In c s -> special c = false) -> forall k, (List.length (str_text q s) <= k)%nat -> decode_go k (str_text q s) = Ok s.
Proof.
  induction s as [|c s IH]; intros Hs k Hk; [destruct k; reflexivity|]. unfold str_text in *. cbn [flat_map] in *. rewrite app_length in Hk.
  replace k with (List.length (str_char q c) + (k - List.length (str_char q c)))%nat by lia. rewrite decode_char by (apply Hs; left; reflexivity).
  rewrite IH; [reflexivity|intros d I; apply Hs; right; exact I|].
  destruct (str_char q c) as [|a [|a' [|a'' l]]]; lia.
Qed.
Lemma str_char_in q c d : special c = false -> In d (str_char q c) -> special d = false /\ d <> NL /\ d <> quot_char q /\ (d = c \/ d < 128).
Proof.
  intros Hc. unfold str_char. rewrite Hc. destruct (N.eqb_spec c 92) as [->|H92].
  { intros [<-|[<-|[]]]; destruct q; cbn; repeat split; try discriminate; lia. }
  destruct (N.eqb_spec c NL) as [->|Hn].
  { intros [<-|[<-|[]]]; destruct q; cbn; repeat split; try discriminate; lia. }
  destruct (N.eqb_spec c (quot_char q)) as [->|Hq].
  { destruct q; intros I; cbn in I; repeat (destruct I as [<-|I]; [cbn; repeat split; try discriminate; lia|]); destruct I. }
  intros [<-|[]]. repeat split; try assumption. left. reflexivity.
Qed.
Lemma str_char_some q c : str_char q c <> [].
Proof. unfold str_char. destruct (special c), (c =? 92), (c =? NL), (c =? quot_char q), q; discriminate. Qed.

Lemma run_piece q a p r : a <> [] -> (forall c, In c a -> special c = false) -> no_sym y (str_text q a) -> starts (fun c => qtext y [quot_char q] c = false) r ->
  makes (piece (quot_rule q)) p (str_text q a) r [(Some (quot_rule q), SStatic a)].
Proof.
  intros Hn Ha Hs Hr.
  assert (K : forall d, In d (str_text q a) -> special d = false /\ d <> NL /\ d <> quot_char q).
  { intros d I. apply in_flat_map in I. destruct I as (c & Ic & Id). destruct (str_char_in q c d (Ha c Ic) Id) as (K1 & K2 & K3 & _). tauto. }
  assert (Hne : str_text q a <> []).
  { destruct a as [|c a]; [congruence|]. unfold str_text. cbn [flat_map]. intros E. apply app_eq_nil in E. destruct E as [E _]. exact (str_char_some q c E). }
  assert (Hst : starts (fun c => special c = false) (str_text q a ++ r)).
  { destruct (str_text q a) as [|d x]; [congruence|]. constructor. apply K. left. reflexivity. }
  apply makes_alt_next; [apply no_escape, Hst|]. apply makes_alt_next; [apply no_embedding, Hst|]. apply makes_alt_first.
  apply makes_node with (ks := []); [destruct q; reflexivity|destruct q; reflexivity|destruct q; discriminate|destruct q; discriminate| |].
  - rewrite quot_grammar. apply makes_rx, rx_plus_stop; [exact Hne| |exact Hr].
    intros d I. apply (text_ordinary y (str_text q a) [quot_char q]); [exact Hs|intros J; apply K in J; tauto| |exact I|apply K, I]. intros d' J [<-|[]]. apply K in J. tauto.
  - replace (setup X full (quot_rule q) p (str_text q a) [] QNone) with (v <- decode_escapes (str_text q a) ;; Ok (SStatic v)) by (destruct q; reflexivity).
    unfold decode_escapes. rewrite decode_text; [reflexivity|exact Ha|lia].
Qed.

Lemma runs_front a d : (forall c, In c a -> special c = false) -> starts (fun c => special c = true) d -> runs (a ++ d) = match a with [] => runs d | _ => a :: runs d end.
Proof.
  induction a as [|c a IH]; intros Ha Hd; [reflexivity|]. cbn [app runs]. rewrite IH; [|intros x I; apply Ha; right; exact I|exact Hd].
  assert (Hc : special c = false) by (apply Ha; left; reflexivity).
  destruct a as [|c' a].
  - destruct Hd as [|x d Hx]; [reflexivity|]. cbn [runs]. destruct (runs d) as [|[|e z] l]; rewrite ?Hx; cbn [orb]; rewrite ?Hx, ?orb_true_r; reflexivity.
  - rewrite Hc, (Ha c') by (right; left; reflexivity). reflexivity.
Qed.
Lemma runs_special c d : special c = true -> runs (c :: d) = [c] :: runs d.
Proof. intros H. cbn [runs]. destruct (runs d) as [|[|e z] l]; try reflexivity. rewrite H. reflexivity. Qed.
Lemma str_text_app q s z : str_text q (s ++ z) = str_text q s ++ str_text q z.
Proof. apply flat_map_app. Qed.

(** A text, and then other pieces. *)
Lemma str_loop q n : forall s, (List.length s <= n)%nat -> forall x2 r ks2, no_sym y (str_text q s) -> starts (fun c => qtext y [quot_char q] c = false) (x2 ++ r) ->
  (forall p, makes_loop (piece (quot_rule q)) p x2 r ks2) ->
  exists ks, (forall p, makes_loop (piece (quot_rule q)) p (str_text q s ++ x2) r (ks ++ ks2)) /\ parts_of ks = Ok (map PText (runs s)).
Proof.
  induction n as [|n IH]; intros s Hn x2 r ks2 Hs Hr M2.
  - destruct s; [|cbn in Hn; lia]. exists []. split; [apply M2|reflexivity].
  - destruct (run s) as (a & d & -> & Ha & Hd & _). rewrite str_text_app in *. assert (Hs' := Hs). unfold no_sym in Hs'.
    destruct a as [|c a].
    + cbn [app] in *. destruct d as [|c d]; [exists []; split; [apply M2|reflexivity]|].
      assert (Hc : special c = true) by (inversion Hd; assumption).
      assert (E : str_text q (c :: d) = [c; c] ++ str_text q d) by (unfold str_text; cbn [flat_map]; unfold str_char at 1; rewrite Hc; reflexivity).
      change (str_text q [] ++ str_text q (c :: d)) with (str_text q (c :: d)) in *. rewrite E in *.
      destruct (IH d ltac:(cbn in Hn; lia) x2 r ks2) as (ks & K & Kp); [intros z I; apply Hs'; right; right; exact I|exact Hr|exact M2|].
      exists ((Some R_escape, SStatic [c]) :: ks). split; [|rewrite runs_special by exact Hc; cbn [parts_of]; rewrite Kp; reflexivity].
      intros p. rewrite <- app_assoc. change (((Some R_escape, SStatic [c]) :: ks) ++ ks2) with ([(Some R_escape, SStatic [c])] ++ ks ++ ks2). apply loop_cons; [discriminate| |apply K].
      apply makes_alt_first, escape_piece, Hc.
    + destruct (IH d ltac:(rewrite app_length in Hn; cbn in Hn; lia) x2 r ks2) as (ks & K & Kp); [intros z I; apply Hs', in_or_app; right; exact I|exact Hr|exact M2|].
      exists ((Some (quot_rule q), SStatic (c :: a)) :: ks). split; [|rewrite runs_front by assumption; cbn [parts_of map]; rewrite Kp; reflexivity].
      intros p. rewrite <- app_assoc. change (((Some (quot_rule q), SStatic (c :: a)) :: ks) ++ ks2) with ([(Some (quot_rule q), SStatic (c :: a))] ++ ks ++ ks2). apply loop_cons; [| |apply K].
      * unfold str_text. cbn [flat_map]. intros E. apply app_eq_nil in E. destruct E as [E _]. exact (str_char_some q c E).
      * apply run_piece; [discriminate|exact Ha|intros z I; apply Hs', in_or_app; left; exact I|]. rewrite <- app_assoc.
        destruct Hd as [|e d He]; [exact Hr|]. unfold str_text. cbn [flat_map]. unfold str_char at 1. rewrite He. constructor. apply text_special, He.
Qed.
Lemma parts_app ks1 ps1 ks2 ps2 : parts_of ks1 = Ok ps1 -> parts_of ks2 = Ok ps2 -> parts_of (ks1 ++ ks2) = Ok (ps1 ++ ps2).
Proof.
  revert ps1. induction ks1 as [|[r s] ks1 IH]; intros ps1 H1 H2; [injection H1 as <-; exact H2|].
  cbn [parts_of app] in *. destruct (parts_of ks1) as [z|]; [|discriminate]. rewrite (IH z eq_refl H2). cbn [bind] in *.
  destruct s; try discriminate H1; injection H1 as <-; reflexivity.
Qed.

Lemma quot_atom q x p r ks ps : (forall p, makes_loop (piece (quot_rule q)) p x (quot_char q :: r) ks) -> parts_of ks = Ok ps ->
  makes (PRef R_atom) p ([quot_char q] ++ x ++ [quot_char q]) r [(Some R_string_format, SExpr (EFormat ps))].
Proof.
  intros M Hp. apply makes_reduced; [reflexivity|reflexivity|]. cbn [grammar]. apply makes_alt_first.
  apply makes_reduced; [reflexivity|reflexivity|]. cbn [grammar]. apply makes_alt_next; [destruct q; by_run|]. apply makes_alt_first.
  apply makes_reduced; [reflexivity|reflexivity|]. cbn [grammar]. apply makes_alt_first.
  apply makes_node with (ks := ks); [reflexivity|reflexivity|discriminate|discriminate| |cbn [setup]; rewrite Hp; reflexivity].
  cbn [grammar]. destruct q.
  - apply makes_alt_first. apply makes_reduced; [reflexivity|reflexivity|]. cbn [grammar].
    apply (makes_eq X y full _ p (u "'" ++ x ++ u "'") _ r ([] ++ ks ++ [])); [reflexivity|apply app_nil_r|].
    apply seq3; [apply makes_lit|apply makes_star; apply M|apply makes_lit].
  - apply makes_alt_next; [by_run|]. apply makes_alt_first. apply makes_reduced; [reflexivity|reflexivity|]. cbn [grammar].
    apply (makes_eq X y full _ p (u """" ++ x ++ u """") _ r ([] ++ ks ++ [])); [reflexivity|apply app_nil_r|].
    apply seq3; [apply makes_lit|apply makes_star; apply M|apply makes_lit].
Qed.

Lemma rx_head x1 x2 s n m l1 l2 : rx_all x1 s = n :: l1 -> rx_all x2 (skipn n s) = m :: l2 -> exists l, rx_all (RxSeq x1 x2) s = (n + m)%nat :: l.
Proof. intros H1 H2. cbn [rx_all]. rewrite H1. cbn [flat_map]. rewrite H2. cbn [map app]. eexists. reflexivity. Qed.
Lemma down_head n : exists l, down n = n :: l.
Proof. destruct n; cbn; eexists; reflexivity. Qed.
Lemma raw_rx q s r : forallb (fun c => negb (c =? NL) && negb (c =? quot_char q)) s = true ->
  rx_match (match q with Single => rx_raw1 | Double => rx_raw2 end) ((u "r" ++ [quot_char q] ++ s ++ [quot_char q]) ++ r) = Some (List.length (u "r" ++ [quot_char q] ++ s ++ [quot_char q])).
Proof.
  intros Hs. rewrite forallb_forall in Hs.
  assert (Hp : span (cls_not [quot_char q]) (s ++ quot_char q :: r) = List.length s).
  { apply span_stop.
    - intros c I. apply Hs in I. apply cls_not_out. intros [J|[]]. rewrite <- J in I. rewrite N.eqb_refl, andb_false_r in I. discriminate.
    - constructor. apply cls_not_in. left. reflexivity. }
  rewrite <- !app_assoc. rewrite !app_length. cbn [List.length].
  assert (E2 : exists l, rx_all (RxSeq (RxStar (cls_not [quot_char q])) (rx_lit [quot_char q])) (s ++ quot_char q :: r) = (List.length s + 1)%nat :: l).
  { destruct (down_head (List.length s)) as (l & El). apply (rx_head _ _ _ (List.length s) 1 l []); [cbn [rx_all]; rewrite Hp; exact El|]. rewrite skip_eq. destruct q; reflexivity. }
  destruct E2 as (l2 & E2).
  assert (E3 : exists l, rx_all (RxSeq (rx_lit (114 :: [quot_char q])) (RxSeq (RxStar (cls_not [quot_char q])) (rx_lit [quot_char q]))) (114 :: quot_char q :: s ++ quot_char q :: r) = (2 + (List.length s + 1))%nat :: l).
  { apply (rx_head _ _ _ 2 (List.length s + 1)%nat [] l2); [destruct q; reflexivity|exact E2]. }
  destruct E3 as (l3 & E3). replace (match q with Single => rx_raw1 | Double => rx_raw2 end) with (RxSeq (rx_lit (114 :: [quot_char q])) (RxSeq (RxStar (cls_not [quot_char q])) (rx_lit [quot_char q]))) by (destruct q; reflexivity).
  unfold rx_match. change (u "r" ++ [quot_char q] ++ s ++ [quot_char q] ++ r) with (114 :: quot_char q :: s ++ quot_char q :: r). rewrite E3. reflexivity.
Qed.
Lemma raw_atom q s p r : forallb (fun c => negb (c =? NL) && negb (c =? quot_char q)) s = true ->
  makes (PRef R_atom) p (u "r" ++ [quot_char q] ++ s ++ [quot_char q]) r [(Some R_string_raw, SExpr (ELit (VStr s)))].
Proof.
  intros Hs. pose proof (raw_rx q s r Hs) as Hr. apply makes_reduced; [reflexivity|reflexivity|]. cbn [grammar]. apply makes_alt_first.
  apply makes_reduced; [reflexivity|reflexivity|]. cbn [grammar]. apply makes_alt_next; [by_run|]. apply makes_alt_first.
  apply makes_reduced; [reflexivity|reflexivity|]. cbn [grammar]. apply makes_alt_next; [by_run|]. apply makes_alt_first.
  node_of (@nil (option rule * syn)).
  - cbn [grammar]. destruct q; [apply makes_alt_first|apply makes_alt_next; [apply sem_rx_no; reflexivity|]; apply makes_alt_first]; apply makes_rx; exact Hr.
  - cbn [setup]. do 4 f_equal. cbn [u app skipn]. unfold drop_last. rewrite app_length, Nat.add_1_r. cbn [Nat.pred]. rewrite firstn_app, Nat.sub_diag, firstn_all. apply app_nil_r.
Qed.

(** What follows a number. *)
Definition numend : str -> Prop := starts (fun c => cls_digit U c = false /\ c <> 46 /\ cls_in (u "eE") c = false).
Lemma foll_numend L r : foll L r -> numend r.
Proof.
  intros [H|(l & s & _ & _ & ->)]; [|destruct b_first as (c & b' & -> & [-> | ->]); constructor; repeat split; try reflexivity; discriminate].
  revert H. apply starts_imp. intros c H. unfold closer, NL in H. split; [|split; [lia|unfold cls_in; cbn; lia]].
  unfold cls_digit, between. destruct H as [H|[H|[H|[H|[H|[H Hu]]]]]]; [rewrite H; reflexivity..|]. rewrite Hu. lia.
Qed.
Lemma digits_span d r : forallb digit d = true -> numend r -> span (cls_digit U) (d ++ r) = List.length d.
Proof.
  intros Hd Hr. rewrite forallb_forall in Hd. apply span_stop.
  - intros c I. apply Hd in I. unfold cls_digit, between. unfold digit in I. rewrite I. reflexivity.
  - revert Hr. apply starts_imp. intros c H. apply H.
Qed.

Lemma number_rx d r : d <> [] -> forallb digit d = true -> numend r -> rx_match (rx_number U) (d ++ r) = Some (List.length d).
Proof.
  intros Hn Hd Hr. pose proof (digits_span d r Hd Hr) as Hs. destruct d as [|c d]; [congruence|].
  assert (Hc : digit c = true) by (cbn in Hd; apply andb_true_iff in Hd; tauto).
  assert (Hk : cls_digit U c = true) by (unfold cls_digit, between; unfold digit in Hc; rewrite Hc; reflexivity).
  assert (Hf : starts (fun c => c <> 46 /\ cls_in (u "eE") c = false) r) by (revert Hr; apply starts_imp; intros c' H; apply H).
  set (D := cls_digit U) in *.
  assert (H1 : exists l, rx_all (rx_plus D) ((c :: d) ++ r) = List.length (c :: d) :: l).
  { unfold rx_plus. cbn [app span] in Hs. rewrite Hk in Hs. injection Hs as Hs. destruct (down_head (List.length d)) as (l & E).
    apply (rx_head (RxChr D) (RxStar D) _ 1 (List.length d) [] l).
    - cbn [rx_all app]. rewrite Hk. reflexivity.
    - cbn [rx_all app skipn]. rewrite Hs. exact E. }
  destruct H1 as (l1 & H1).
  assert (H2 : exists l, rx_all (rx_opt (RxSeq (rx_lit (u ".")) (RxStar D))) r = 0%nat :: l).
  { unfold rx_opt. cbn [rx_all]. assert (E : rx_all (rx_lit (u ".")) r = []); [|rewrite E; eexists; reflexivity].
    destruct Hf as [|c' r' [Hf _]]; [reflexivity|]. apply nf_all. change (nf (rx_lit (u ".")) c') with (negb (46 =? c')). lia. }
  destruct H2 as (l2 & H2).
  assert (H3 : exists l, rx_all (rx_opt (RxSeq (RxChr (cls_in (u "eE"))) (RxSeq rx_sign (rx_plus D)))) r = 0%nat :: l).
  { unfold rx_opt. cbn [rx_all]. assert (E : rx_all (RxChr (cls_in (u "eE"))) r = []).
    - destruct Hf as [|c' r' [_ Hf]]; [reflexivity|]. cbn [rx_all]. rewrite Hf. reflexivity.
    - cbn [rx_all] in E. rewrite E. eexists; reflexivity. }
  destruct H3 as (l3 & H3).
  assert (K : skipn (List.length (c :: d)) ((c :: d) ++ r) = r) by apply skip_eq.
  destruct (rx_head _ _ _ _ _ _ _ H1 ltac:(rewrite K; exact H2)) as (l4 & H4).
  assert (H5 : rx_all (RxSeq (rx_lit (u ".")) (rx_plus D)) ((c :: d) ++ r) = []).
  { apply nf_all. change (nf (RxSeq (rx_lit (u ".")) (rx_plus D)) c) with (negb (46 =? c)). unfold digit in Hc. lia. }
  rewrite Nat.add_0_r in H4.
  assert (H6 : rx_all (RxAlt (RxSeq (rx_lit (u ".")) (rx_plus D)) (RxSeq (rx_plus D) (rx_opt (RxSeq (rx_lit (u ".")) (RxStar D))))) ((c :: d) ++ r) = List.length (c :: d) :: l4).
  { cbn [rx_all]. cbn [rx_all] in H5, H4. rewrite H5. exact H4. }
  destruct (rx_head _ _ _ _ _ _ _ H6 ltac:(rewrite K; exact H3)) as (l7 & H7). rewrite Nat.add_0_r in H7.
  unfold rx_match, rx_number. fold D. rewrite H7. reflexivity.
Qed.
Lemma int_decimal d : forallb digit d = true -> forall acc, exists n, int_go U acc d = Some n /\ Z.of_N n = decimal (Z.of_N acc) d.
Proof.
  induction d as [|c d IH]; intros Hd acc; cbn [int_go decimal]; [exists acc; split; reflexivity|].
  cbn in Hd. apply andb_true_iff in Hd. destruct Hd as [Hc Hd]. unfold digit_value, between. unfold digit in Hc. rewrite Hc.
  destruct (IH Hd (10 * acc + (c - 48))) as (n & E & K). exists n. split; [exact E|]. rewrite K. f_equal. lia.
Qed.
Lemma number_atom d p r : d <> [] -> forallb digit d = true -> numend r -> mk R_atom p d r (tree (XNum d)).
Proof.
  intros Hn Hd Hr. exists (Some R_number). apply makes_reduced; [reflexivity|reflexivity|]. cbn [grammar]. apply makes_alt_first.
  apply makes_reduced; [reflexivity|reflexivity|]. cbn [grammar]. apply makes_alt_first. node_of (@nil (option rule * syn)).
  - cbn [grammar]. apply makes_rx, number_rx; assumption.
  - cbn [setup tree]. unfold number_of. destruct d as [|c d]; [congruence|]. destruct (int_decimal (c :: d) Hd 0) as (n & -> & K). cbn [Z.of_N] in K. rewrite K. reflexivity.
Qed.

(** ** Roots and parentheses *)

Lemma one_node R p x r t : ignored R = false -> reduced R = false -> compacted R = false -> R <> R_qualifier ->
  (forall k, setup X full R p x [(k, SExpr t)] QNone = Ok (SExpr (root t))) -> (exists k, makes (G R) p x r [(k, SExpr t)]) -> mk R p x r (root t).
Proof.
  intros H1 H2 H3 H4 H5 (k & M). exists (Some R). eapply makes_node; [exact H1|exact H2|congruence|exact H4|exact M|apply H5].
Qed.
Lemma expr_root p x r t : mk R_ifelse_test p x r t -> mk R_expr_root p x r t.
Proof.
  intros (k & M). exists k. apply makes_reduced; [reflexivity|reflexivity|]. cbn [grammar]. apply then_nil; [exact M|apply makes_plit].
Qed.
Lemma expr_root_node p x r t : mk R_ifelse_test p x r t -> makes (PRef R_expr) p x r [(Some R_expr, SExpr (root t))].
Proof.
  intros M. destruct (expr_root _ _ _ _ M) as (k & M'). node_of [(k, SExpr t)]; [|reflexivity]. cbn [grammar]. apply then_nil; [exact M'|apply makes_plit].
Qed.
Lemma expr_node p x r t : mk R_ifelse_test p x r t -> mk R_expr p x r (root t).
Proof. intros M. exists (Some R_expr). apply expr_root_node, M. Qed.
Lemma mk_sem R p x r t : mk R p x r t -> sem (PRef R) (x ++ r) (Some r).
Proof. intros (k & M). eapply makes_sem, M. Qed.

(** In brackets, before a closing bracket or a comma. *)
Notation level0 x r t := (forall p, mk R_ifelse_test p x r t) (only parsing).

Lemma no_paren s : sem (PRef R_literal) (40 :: s) None /\ sem (PRef R_var_use) (40 :: s) None /\ sem (PRef R_tag_use) (40 :: s) None.
Proof. repeat split; by_run. Qed.
Lemma subexpr p x r t : nonblank (x ++ 41 :: r) -> level0 x (41 :: r) t -> makes (PRef R_atom) p (in_parens x) r [(Some R_expr, SExpr (root t))].
Proof.
  intros Hx M. pose proof (expr_root_node _ _ _ _ (M (p + 1)%nat)) as Me. set (k := Some R_expr) in *. apply makes_reduced; [reflexivity|reflexivity|]. cbn [grammar].
  do 3 (apply makes_alt_next; [apply no_paren|]). apply makes_alt_first. apply makes_reduced; [reflexivity|reflexivity|]. cbn [grammar].
  apply (makes_eq X y full _ p (u "(" ++ [] ++ x ++ [] ++ u ")") _ r ([] ++ [] ++ [(k, SExpr (root t))] ++ [] ++ [])); [reflexivity|reflexivity|].
  apply seq5; [apply makes_lit|apply makes_ws; exact Hx|cbn [List.length app]; rewrite Nat.add_0_r; exact Me|apply makes_ws; constructor; reflexivity|apply makes_lit].
Qed.

(** ** The induction *)

Definition mka (p : nat) (x r : str) (t : expr) : Prop := exists R, roots R = false /\ makes (PRef R_atom) p x r [(Some R, SExpr t)].
Definition good (e : ex) : Prop := fine b e = true -> no_sym y (text b e) -> forall p r,
  if (prio e =? 15)%nat then astop r -> mka p (text b e) r (tree e) else foll (prio e) r -> mk (rule_of (prio e)) p (text b e) r (tree e).

Lemma good_low e : (prio e =? 15)%nat = false -> (fine b e = true -> no_sym y (text b e) -> forall p r, foll (prio e) r -> mk (rule_of (prio e)) p (text b e) r (tree e)) -> good e.
Proof. intros E H Hf Hs p r. rewrite E. apply H; assumption. Qed.
Lemma good_high e : (prio e =? 15)%nat = true -> (fine b e = true -> no_sym y (text b e) -> forall p r, astop r -> mka p (text b e) r (tree e)) -> good e.
Proof. intros E H Hf Hs p r. rewrite E. apply H; assumption. Qed.
Lemma ops_low n e l : (prio (XOps n e l) =? 15)%nat = false.
Proof. destruct l as [|[o z] l]; [reflexivity|]. destruct o; reflexivity. Qed.
Lemma prio_le e : (prio e <= 15)%nat.
Proof. destruct e as [| | | | | | | | | |n e [|[o z] l]| | | | | |]; cbn; try lia. destruct o; cbn; lia. Qed.
Lemma op_prio_le o : (4 <= op_prio o <= 13)%nat.
Proof. destruct o; cbn; lia. Qed.

Lemma good_level e : good e -> fine b e = true -> no_sym y (text b e) -> forall L p r, (L <= prio e)%nat -> (L <= 14)%nat -> foll L r -> mk (rule_of L) p (text b e) r (tree e).
Proof.
  intros He Hf Hs L p r HL HL' Hr. pose proof (opens_text e Hf r (foll_rest _ _ Hr)) as Ho. pose proof (prio_le e) as Hp.
  assert (K : mk (rule_of (prio e)) p (text b e) r (tree e)).
  { specialize (He Hf Hs p r). destruct (Nat.eqb_spec (prio e) 15) as [E|E].
    - destruct (He (proj1 (foll_rest _ _ Hr))) as (R & _ & M). rewrite E. exists (Some R). exact M.
    - apply He, (foll_mono L); [exact HL|exact Hr]. }
  destruct K as (k & M).
  - exists k. apply (climb (prio e - L) L (prio e)); [lia|exact Hp|exact Hr| | |exact M].
    + intros H. eapply opens_nominus; [exact H|exact Ho].
    + intros H. eapply opens_nonot; [exact H|exact Ho].
Qed.
Lemma good_parens e p r : good e -> fine b e = true -> no_sym y (text b e) -> makes (PRef R_atom) p (in_parens (text b e)) r [(Some R_expr, SExpr (root (tree e)))].
Proof.
  intros He Hf Hs. assert (Hc : foll 0 (41 :: r)) by (left; constructor; left; reflexivity). apply subexpr.
  - eapply opens_nonblank, opens_text; [exact Hf|apply (foll_rest 0), Hc].
  - intros q. apply (good_level e He Hf Hs 0); [lia|lia|exact Hc].
Qed.

Lemma no_sym_app x1 x2 : no_sym y (x1 ++ x2) <-> no_sym y x1 /\ no_sym y x2.
Proof.
  split.
  - intros H. split; intros c I; apply H, in_or_app; tauto.
  - intros [H1 H2] c I. apply in_app_or in I. destruct I; [apply H1|apply H2]; assumption.
Qed.
Lemma no_sym_flat {A} (f : A -> str) l a : no_sym y (flat_map f l) -> In a l -> no_sym y (f a).
Proof. intros H I c J. apply H, in_flat_map. exists a. split; assumption. Qed.
Lemma no_sym_operand L e : no_sym y (operand (text b) L e) -> no_sym y (text b e).
Proof. unfold operand, in_parens. destruct (prio e <? L)%nat; [|exact (fun H => H)]. rewrite !no_sym_app. tauto. Qed.

Lemma good_atom e p r : good e -> fine b e = true -> no_sym y (operand (text b) 15 e) -> astop r -> mk R_atom p (operand (text b) 15 e) r (sub tree 15 e).
Proof.
  intros He Hf Hs Hr. pose proof (no_sym_operand _ _ Hs) as Hs'. unfold operand, sub. pose proof (prio_le e) as Hp. destruct (Nat.ltb_spec (prio e) 15) as [H|H].
  - exists (Some R_expr). apply good_parens; assumption.
  - assert (E : prio e = 15%nat) by lia. specialize (He Hf Hs' p r). rewrite E in He. destruct (He Hr) as (R & _ & M). exists (Some R). exact M.
Qed.
Lemma good_atom_qual e p r : good e -> fine b e = true -> no_sym y (operand (text b) 15 e) -> astop r ->
  exists k, makes (PRef R_atom) p (operand (text b) 15 e) r [(k, SExpr (sub tree 15 e))] /\
    forall q, requal q (k, SExpr (sub tree 15 e)) = (k, SExpr (sub_qual tree [] q e)).
Proof.
  intros He Hf Hs Hr. pose proof (no_sym_operand _ _ Hs) as Hs'. unfold operand, sub, sub_qual. pose proof (prio_le e) as Hp. destruct (Nat.ltb_spec (prio e) 15) as [H|H].
  - exists (Some R_expr). split; [apply good_parens; assumption|]. intros q. reflexivity.
  - assert (E : prio e = 15%nat) by lia. specialize (He Hf Hs' p r). rewrite E in He. destruct (He Hr) as (R & HR & M). exists (Some R). split; [exact M|]. intros q. apply requal_other, HR.
Qed.
Lemma good_operand e L p r : good e -> fine b e = true -> no_sym y (operand (text b) L e) -> (L <= 14)%nat -> foll L r ->
  mk (rule_of L) p (operand (text b) L e) r (sub tree L e).
Proof.
  intros He Hf Hs HL Hr. pose proof (no_sym_operand _ _ Hs) as Hs'. unfold operand, sub. destruct (Nat.ltb_spec (prio e) L) as [H|H].
  - pose proof (good_parens e p r He Hf Hs') as M. exists (Some R_expr). apply (climb (15 - L) L 15); [lia|lia|exact Hr| | |exact M].
    + intros _. constructor. split; [discriminate|reflexivity].
    + intros _. apply sem_seq_no. by_run.
  - apply good_level; try assumption.
Qed.
Lemma operand_opens e L r : fine b e = true -> rest_ok r -> opens L (operand (text b) L e ++ r).
Proof. intros Hf Hr. apply opens_operand; [apply opens_text, Hf|exact Hr]. Qed.

(** ** Chains of operators *)

Definition op_rule (L : nat) : rule :=
  match L with 13 => R_op_power | 12 => R_op_multiplic | 11 => R_op_additive | 10 => R_op_shift | _ => R_op_comp end%nat.
Definition is_chain (L : nat) : bool := existsb (Nat.eqb L) [13; 12; 11; 10; 4]%nat.

Lemma word_prefix w : (forall c, In c w -> letter c = true) -> forall x r, stop r -> startswith w (x ++ r) = true -> startswith w x = true.
Proof.
  intros Hw. induction w as [|c w IH]; intros x r Hr H; [reflexivity|]. destruct x as [|d x].
  - exfalso. cbn [app] in H. destruct Hr as [|d r Hd]; [discriminate H|]. cbn [startswith] in H. apply andb_true_iff in H. destruct H as [H _].
    apply N.eqb_eq in H. subst d. pose proof (Hw c (or_introl eq_refl)) as K. rewrite idc_cls in Hd; [discriminate Hd|]. unfold idc. rewrite K. reflexivity.
  - cbn [app startswith] in *. apply andb_true_iff in H. destruct H as [-> H]. apply (IH ltac:(intros; apply Hw; right; assumption) x r Hr H).
Qed.
Lemma rx_plus_in p s m : In m (rx_all (rx_plus p) s) -> (1 <= m <= span p s)%nat.
Proof.
  unfold rx_plus. cbn [rx_all]. destruct s as [|c s]; [intros []|]. destruct (p c) eqn:E; [|intros []]. cbn [flat_map skipn span]. rewrite app_nil_r, E. intros I.
  apply in_map_iff in I. destruct I as (k & <- & I). assert (K : forall n k, In k (down n) -> (k <= n)%nat).
  { induction n as [|n IH]; intros k' J; cbn in J; destruct J as [<-|J]; try lia; try (destruct J; fail). apply IH in J. lia. }
  apply K in I. lia.
Qed.
Lemma is_not_no z : starts (fun c => is_space c = false) z -> startswith (u "not") z = false ->
  rx_all (RxSeq (rx_lit (u "is")) (RxSeq (rx_plus is_space) (rx_lit (u "not")))) (u "is" ++ b ++ z) = [].
Proof.
  intros Hz Hn. cbn [rx_all rx_lit]. apply flat_map_none. intros m I.
  assert (E : m = 2%nat). { apply (rx_lit_in (u "is")) in I. destruct I as [-> _]. reflexivity. }
  subst m. cbn [skipn]. match goal with |- map _ ?l = [] => assert (K : l = []); [|rewrite K; reflexivity] end. apply flat_map_none. intros m J.
  change (In m (rx_all (rx_plus is_space) (b ++ z))) in J. change (skipn 2 (u "is" ++ b ++ z)) with (b ++ z).
  apply rx_plus_in in J. rewrite span_stop in J; [|intros c I'; apply (proj2 Hb) in I'; destruct I' as [-> | ->]; reflexivity|exact Hz].
  change (map (Nat.add m) (rx_all (rx_lit (u "not")) (skipn m (b ++ z))) = []).
  destruct (rx_all (rx_lit (u "not")) (skipn m (b ++ z))) as [|q l] eqn:E; [reflexivity|]. exfalso.
  destruct (rx_lit_in (u "not") (skipn m (b ++ z)) q) as [-> (r & Er)].
  { rewrite E. left. reflexivity. }
  rewrite skipn_app in Er. destruct (Nat.eq_dec m (List.length b)) as [->|Hm].
  - rewrite skipn_all, Nat.sub_diag in Er. cbn [skipn app] in Er. rewrite Er in Hn. discriminate Hn.
  - assert (Hin : forall c, In c (skipn m b) -> c = SP \/ c = TAB).
    { intros c I'. apply (proj2 Hb). rewrite <- (firstn_skipn m b). apply in_or_app. right. exact I'. }
    destruct (skipn m b) as [|c b'] eqn:Eb.
    + assert (L : List.length (skipn m b) = 0%nat) by (rewrite Eb; reflexivity). rewrite skipn_length in L. lia.
    + injection Er as -> _. destruct (Hin 110 (or_introl eq_refl)); discriminate.
Qed.
Ltac by_make := eexists 10%nat, _; split; [vm_compute; reflexivity|split; vm_compute; reflexivity].
Lemma oper_node o p z : is_chain (op_prio o) = true -> starts (fun c => is_space c = false) z -> (o = OIs -> startswith (u "not") z = false) ->
  makes (PRef (op_rule (op_prio o))) p (op_text o) (b ++ z) [(Some (op_rule (op_prio o)), SOper o)].
Proof.
  intros Hc Hz Hn. destruct (match o with OIs => true | _ => false end) eqn:E.
  - destruct o; try discriminate E. specialize (Hn eq_refl). cbn [op_prio op_rule op_text]. node_of (@nil (option rule * syn)); [|reflexivity]. cbn [grammar].
    apply makes_rx. unfold rx_match, rx_op_comp. cbn [rx_alts].
    pose proof (is_not_no z Hz Hn) as K.
    set (x := RxSeq (rx_lit (u "is")) (RxSeq (rx_plus is_space) (rx_lit (u "not")))) in *.
    set (s := u "is" ++ b ++ z) in *.
    cbn [rx_all]. rewrite K. reflexivity.
  - destruct b_first as (c & b' & Eb & Hc'). destruct o; try discriminate E; try discriminate Hc; rewrite Eb; destruct Hc' as [-> | ->]; cbn [op_prio op_rule]; by_make.
Qed.
Lemma opens_nospace p s : opens p s -> starts (fun c => is_space c = false) s.
Proof.
  intros [c z -> H|n z -> H _|q z ->|z -> H|z -> H]; try (constructor; reflexivity).
  - constructor. destruct H as [->|[->|[->|[->|[->|H]]]]]; try reflexivity. apply digit_space, H.
  - apply id_parts in H. destruct H as (c & r & -> & Hc & _). constructor. apply letter_space, Hc.
Qed.

Definition is_kids {A} (f : A -> list (option rule * syn) -> Prop) (l : list A) (ks : list (option rule * syn)) : Prop :=
  exists kss, Forall2 f l kss /\ ks = List.concat kss.
Definition kid_op (f : ex -> expr) (a : binop * ex) (ks : list (option rule * syn)) : Prop :=
  exists k1 k2, ks = [(k1, SOper (fst a)); (k2, SExpr (f (snd a)))].
Definition kid_ex {A} (f : A -> expr) (a : A) (ks : list (option rule * syn)) : Prop := exists k, ks = [(k, SExpr (f a))].

Lemma kids_op f l ks : is_kids (kid_op f) l ks -> chain_of ks = Ok (map (fun a => match a with (o, e) => (o, f e) end) l) /\ List.length ks = (2 * List.length l)%nat.
Proof.
  intros (kss & H & ->). induction H as [|[o e] k l kss (k1 & k2 & ->) H IH]; [split; reflexivity|]. destruct IH as [IH1 IH2].
  cbn [List.concat app chain_of fst snd]. rewrite IH1. split; [reflexivity|]. cbn [List.length]. rewrite IH2. lia.
Qed.
Lemma kids_ex {A} (f : A -> expr) l ks : is_kids (kid_ex f) l ks -> mapr as_expr ks = Ok (map f l) /\ List.length ks = List.length l.
Proof.
  intros (kss & H & ->). induction H as [|e k l kss (k1 & ->) H IH]; [split; reflexivity|]. destruct IH as [IH1 IH2].
  cbn [List.concat app mapr]. rewrite IH1. split; [reflexivity|]. cbn [List.length]. rewrite IH2. reflexivity.
Qed.

(** The operators of one level after the first operand. *)
Lemma ops_loop L l : is_chain L = true ->
  Forall (fun a => good (snd a)) l ->
  forallb (fun a => match a with (o, e) => (op_prio o =? L)%nat && fine b e && op_operand o (operand (text b) (S L) e) end) l = true ->
  no_sym y (flat_map (fun a => match a with (o, e) => b ++ op_text o ++ b ++ operand (text b) (S L) e end) l) ->
  forall p r, foll L r -> exists ks,
    makes (PStar (PSeq [PRef R_ws; PRef (op_rule L); PRef R_ws; PRef (rule_of (S L))])) p
      (flat_map (fun a => match a with (o, e) => b ++ op_text o ++ b ++ operand (text b) (S L) e end) l) r ks /\ is_kids (kid_op (sub tree (S L))) l ks.
Proof.
  intros HL Hg Hf Hs p r Hr. set (tx := fun a => match a with (o, e) => b ++ op_text o ++ b ++ operand (text b) (S L) e end) in *.
  rewrite Forall_forall in Hg. rewrite forallb_forall in Hf.
  assert (HL' : (L <= 13)%nat). { unfold is_chain in HL. cbn in HL. lia. }
  destruct (loop_items (PSeq [PRef R_ws; PRef (op_rule L); PRef R_ws; PRef (rule_of (S L))]) tx (kid_op (sub tree (S L))) (foll L) (foll (S L)) l) with (p := p) (r := r) as (kss & K & F).
  - intros s Hs'. apply (ops_end L); [|exact Hs']. unfold is_chain in HL. cbn in HL. intros z.
    destruct (Nat.eqb_spec L 13) as [->|_]; [apply op13|]. destruct (Nat.eqb_spec L 12) as [->|_]; [apply op12|].
    destruct (Nat.eqb_spec L 11) as [->|_]; [apply op11|]. destruct (Nat.eqb_spec L 10) as [->|_]; [apply op10|].
    destruct (Nat.eqb_spec L 4) as [->|_]; [apply op4|discriminate HL].
  - intros s. apply foll_mono. lia.
  - intros [o e] _. unfold tx. destruct b_first as (c & b' & -> & _). discriminate.
  - intros [o e] s I. apply Hf in I. rewrite !andb_true_iff in I. destruct I as [[I _] _]. apply Nat.eqb_eq in I. unfold tx. rewrite <- !app_assoc.
    right. exists (op_prio o), (op_text o ++ b ++ operand (text b) (S L) e ++ s). split; [lia|]. split; [apply tok_op|reflexivity].
  - intros [o e] I q s Hq. pose proof (Hf _ I) as J. rewrite !andb_true_iff in J. destruct J as [[J1 J2] J3]. apply Nat.eqb_eq in J1.
    pose proof (no_sym_flat tx l _ Hs I) as Hn. unfold tx in Hn. rewrite !no_sym_app in Hn. destruct Hn as (_ & _ & _ & Hn).
    pose proof (Hg _ I) as He. cbn [snd] in He.
    pose proof (operand_opens e (S L) s J2 (foll_rest _ _ Hq)) as Ho.
    destruct (good_operand e (S L) (q + List.length b + List.length (op_text o) + List.length b) s He J2 Hn ltac:(lia) Hq) as (k & M).
    exists ([] ++ [(Some (op_rule L), SOper o)] ++ [] ++ [(k, SExpr (sub tree (S L) e))]). split; [|exists (Some (op_rule L)), k; reflexivity].
    unfold tx. apply seq4.
    + apply makes_ws_b. apply (token_nonblank (op_prio o)). apply tok_op.
    + replace (op_rule L) with (op_rule (op_prio o)) by (rewrite J1; reflexivity). apply oper_node; [rewrite J1; exact HL|apply (opens_nospace (S L)), Ho|].
      intros ->. cbn [op_operand] in J3. apply negb_true_iff in J3. destruct (startswith (u "not") (operand (text b) (S L) e ++ s)) eqn:E; [|reflexivity].
      apply word_prefix in E; [congruence| |apply (foll_stop (S L)), Hq]. intros c Ic. cbn in Ic. repeat (destruct Ic as [<-|Ic]; [reflexivity|]). destruct Ic.
    + apply makes_ws_b. eapply opens_nonblank, Ho.
    + exact M.
  - exact Hr.
  - exists (List.concat kss). split; [apply makes_star; exact K|exists kss; split; [exact F|reflexivity]].
Qed.
Lemma sub_loop {A} (g : A -> ex) L (body : peg rule) sep l : (L <= 13)%nat -> sep <> [] ->
  (forall r, foll L r -> sem body r None) ->
  (forall e s, In e l -> foll (S L) (sep ++ operand (text b) (S L) (g e) ++ s)) ->
  (forall e q s k, In e l -> opens (S L) (operand (text b) (S L) (g e) ++ s) ->
    makes (PRef (rule_of (S L))) (q + List.length sep) (operand (text b) (S L) (g e)) s [k] ->
    makes body q (sep ++ operand (text b) (S L) (g e)) s [k]) ->
  Forall (fun a => good (g a)) l -> (forall a, In a l -> fine b (g a) = true) ->
  no_sym y (flat_map (fun e => sep ++ operand (text b) (S L) (g e)) l) ->
  forall p r, foll L r -> exists ks,
    makes (PStar body) p (flat_map (fun e => sep ++ operand (text b) (S L) (g e)) l) r ks /\ is_kids (kid_ex (fun a => sub tree (S L) (g a))) l ks.
Proof.
  intros HL Hsep Hend Hsf Hbody Hg Hf Hs p r Hr. set (tx := fun e => sep ++ operand (text b) (S L) (g e)) in *. rewrite Forall_forall in Hg.
  destruct (loop_items body tx (kid_ex (fun a => sub tree (S L) (g a))) (foll L) (foll (S L)) l) with (p := p) (r := r) as (kss & K & F).
  - exact Hend.
  - intros s. apply foll_mono. lia.
  - intros e _. unfold tx. destruct sep; [congruence|discriminate].
  - intros e s I. unfold tx. rewrite <- app_assoc. apply Hsf, I.
  - intros e I q s Hq. pose proof (no_sym_flat tx l _ Hs I) as Hn. unfold tx in Hn. rewrite !no_sym_app in Hn. destruct Hn as (_ & Hn).
    pose proof (operand_opens (g e) (S L) s (Hf _ I) (foll_rest _ _ Hq)) as Ho.
    destruct (good_operand (g e) (S L) (q + List.length sep) s (Hg _ I) (Hf _ I) Hn ltac:(lia) Hq) as (k & M).
    exists [(k, SExpr (sub tree (S L) (g e)))]. split; [|exists k; reflexivity]. apply Hbody; assumption.
  - exact Hr.
  - exists (List.concat kss). split; [apply makes_star; exact K|exists kss; split; [exact F|reflexivity]].
Qed.

(** Between operands: blanks, a literal and blanks. *)
Lemma body4 L R0 R1 w q x s k : (forall p z, nonblank z -> makes (PRef R0) p b z []) -> (forall p z, nonblank z -> makes (PRef R1) p b z []) ->
  starts (fun c => cls_blank c = false) w -> w <> [] -> nonblank (x ++ s) ->
  makes (PRef (rule_of (S L))) (q + List.length (b ++ w ++ b)) x s [k] ->
  makes (PSeq [PRef R0; PLit w; PRef R1; PRef (rule_of (S L))]) q ((b ++ w ++ b) ++ x) s [k].
Proof.
  intros H0 H1 Hw Hw' Hx M. apply (makes_eq X y full _ q (b ++ w ++ b ++ x) _ s ([] ++ [] ++ [] ++ [k])); [rewrite <- !app_assoc; reflexivity|reflexivity|].
  rewrite !app_length, !Nat.add_assoc in M.
  apply seq4; [apply H0|apply makes_lit|apply H1, Hx|exact M]. destruct Hw; [congruence|]. constructor. assumption.
Qed.

(** ** Cases of the induction: operators *)

Lemma compact_node R p x r ks t : ignored R = false -> reduced R = false -> compacted R = true -> R <> R_qualifier -> List.length ks <> 1%nat ->
  makes (G R) p x r ks -> setup X full R p x ks QNone = Ok (SExpr t) -> mk R p x r t.
Proof. intros H1 H2 H3 H4 H5 M S. exists (Some R). eapply makes_node; [exact H1|exact H2|intros _; exact H5|exact H4|exact M|exact S]. Qed.

Lemma chain_rule L : is_chain L = true -> L <> 11%nat ->
  G (rule_of L) = PSeq [PRef (rule_of (S L)); PStar (PSeq [PRef R_ws; PRef (op_rule L); PRef R_ws; PRef (rule_of (S L))])] /\
  ignored (rule_of L) = false /\ reduced (rule_of L) = false /\ compacted (rule_of L) = true /\ rule_of L <> R_qualifier.
Proof.
  intros H H'. unfold is_chain in H. cbn in H.
  assert (K : L = 13%nat \/ L = 12%nat \/ L = 10%nat \/ L = 4%nat) by lia.
  destruct K as [->|[->|[->| ->]]]; repeat split; discriminate.
Qed.
Lemma chain_setup L p x k1 e1 ks t : is_chain L = true -> chain_of ks = Ok t ->
  setup X full (rule_of L) p x ((k1, SExpr e1) :: ks) QNone = Ok (SExpr (EChain false e1 t)).
Proof.
  intros H E. unfold is_chain in H. cbn in H.
  assert (K : L = 13%nat \/ L = 12%nat \/ L = 10%nat \/ L = 4%nat \/ L = 11%nat) by lia.
  destruct K as [->|[->|[->|[->| ->]]]]; cbn [setup rule_of as_expr snd bind]; rewrite E; reflexivity.
Qed.

Definition ops_text (L : nat) (l : list (binop * ex)) : str :=
  flat_map (fun a => match a with (o, e) => b ++ op_text o ++ b ++ operand (text b) (S L) e end) l.
Lemma chain_foll L l r : l <> [] -> (forall o e, In (o, e) l -> op_prio o = L) -> foll (S L) (ops_text L l ++ r).
Proof.
  intros Hl H. destruct l as [|[o e] l]; [congruence|]. unfold ops_text. cbn [flat_map]. rewrite <- !app_assoc. right. exists (op_prio o). eexists. split.
  - rewrite (H o e (or_introl eq_refl)). lia.
  - split; [apply tok_op|reflexivity].
Qed.

Lemma tree_chain n e l L : is_chain L = true -> prio (XOps n e l) = L ->
  tree (XOps n e l) = EChain n (sub tree (S L) e) (map (fun a => match a with (o, e) => (o, sub tree (S L) e) end) l).
Proof.
  intros H E. cbn [tree]. rewrite E. destruct l as [|[o z] l]; [reflexivity|]. destruct o; try reflexivity; cbn in E; subst L; discriminate H.
Qed.

Lemma case_chain e l L : is_chain L = true -> L <> 11%nat -> prio (XOps false e l) = L -> good e -> Forall (fun a => good (snd a)) l -> good (XOps false e l).
Proof.
  intros HL H11 HP He Hl. apply good_low; [apply ops_low|]. intros Hf Hs p r Hr. cbn [fine] in Hf. rewrite (tree_chain _ _ _ L HL HP). cbn [text] in *. rewrite HP in *.
  rewrite !andb_true_iff in Hf. destruct Hf as [[Hf1 Hf2] Hf3]. cbn [app] in *. apply no_sym_app in Hs. destruct Hs as [Hs1 Hs2].
  destruct (chain_rule L HL H11) as (EG & R1 & R2 & R3 & R4).
  assert (HL' : (L <= 13)%nat) by (unfold is_chain in HL; cbn in HL; lia). destruct (Nat.eqb_spec L 15) as [|_]; [lia|].
  assert (Ho : forall o z, In (o, z) l -> op_prio o = L).
  { intros o z I. rewrite forallb_forall in Hf3. apply Hf3 in I. rewrite !andb_true_iff in I. destruct I as [[I _] _]. apply Nat.eqb_eq, I. }
  assert (Hne : l <> []) by (destruct l; [discriminate Hf2|discriminate]).
  destruct (good_operand e (S L) p (ops_text L l ++ r) He Hf1 Hs1 ltac:(lia) (chain_foll L l r Hne Ho)) as (k & M).
  destruct (ops_loop L l HL Hl Hf3 Hs2 (p + List.length (operand (text b) (S L) e)) r Hr) as (ks & Ml & K). destruct (kids_op _ _ _ K) as [K1 K2].
  apply (compact_node _ _ _ _ ([(k, SExpr (sub tree (S L) e))] ++ ks)); try assumption.
  - cbn [app List.length]. rewrite K2. destruct l; [congruence|cbn; lia].
  - rewrite EG. apply seq2; [exact M|exact Ml].
  - cbn [app]. apply chain_setup; assumption.
Qed.

Lemma case_arith n e l : prio (XOps n e l) = 11%nat -> good e -> Forall (fun a => good (snd a)) l -> good (XOps n e l).
Proof.
  intros HP He Hl. apply good_low; [apply ops_low|]. intros Hf Hs p r Hr. cbn [fine] in Hf. rewrite (tree_chain _ _ _ 11 eq_refl HP). cbn [text] in *. rewrite HP in *. cbn [Nat.eqb] in Hr.
  rewrite !andb_true_iff in Hf. destruct Hf as [[Hf1 Hf2] Hf3]. apply no_sym_app in Hs. destruct Hs as [_ Hs]. apply no_sym_app in Hs. destruct Hs as [Hs1 Hs2].
  assert (Ho : forall o z, In (o, z) l -> op_prio o = 11%nat).
  { intros o z I. rewrite forallb_forall in Hf3. apply Hf3 in I. rewrite !andb_true_iff in I. destruct I as [[I _] _]. apply Nat.eqb_eq, I. }
  assert (Hr' : foll 12 (ops_text 11 l ++ r)).
  { destruct l as [|a l']; [apply (foll_mono 11); [lia|exact Hr]|]. apply chain_foll; [discriminate|exact Ho]. }
  pose proof (operand_opens e 12 (ops_text 11 l ++ r) Hf1 (foll_rest _ _ Hr')) as Hop.
  set (pre := if n then u "-" ++ b else []) in *.
  destruct (good_operand e 12 (p + List.length pre) (ops_text 11 l ++ r) He Hf1 Hs1 ltac:(lia) Hr') as (k & M).
  destruct (ops_loop 11 l eq_refl Hl Hf3 Hs2 (p + List.length pre + List.length (operand (text b) 12 e)) r Hr) as (ks & Ml & K). destruct (kids_op _ _ _ K) as [K1 K2].
  destruct n.
  - apply (compact_node R_arith_expr _ _ _ ([(Some R_neg, SNeg)] ++ [] ++ [(k, SExpr (sub tree 12 e))] ++ ks)); try reflexivity; try discriminate.
    + cbn [grammar]. subst pre. cbv iota. rewrite <- app_assoc. cbv iota in M, Ml. rewrite app_length, Nat.add_assoc in M, Ml. apply seq4; [| |exact M|exact Ml].
      * apply makes_opt. node_of (@nil (option rule * syn)); [apply makes_lit|reflexivity].
      * apply makes_ws_b. eapply opens_nonblank, Hop.
    + cbn [app setup rule_of as_expr snd bind]. rewrite K1. reflexivity.
  - apply (compact_node R_arith_expr _ _ _ ([] ++ [] ++ [(k, SExpr (sub tree 12 e))] ++ ks)); try reflexivity; try discriminate.
    + cbn [app List.length]. rewrite K2. destruct l; [discriminate Hf2|cbn; lia].
    + cbn [grammar]. subst pre. cbv iota. apply (makes_eq X y full _ p ([] ++ [] ++ operand (text b) 12 e ++ ops_text 11 l) _ r ([] ++ [] ++ [(k, SExpr (sub tree 12 e))] ++ ks)); [reflexivity|reflexivity|].
      cbn [List.length] in M, Ml. pose proof (opens_nominus 12 _ ltac:(lia) Hop) as Hm. apply seq4.
      * apply makes_opt_no. cbn [app]. inversion Hm as [E|c z [Hc _] E]; apply sem_ref; cbn [grammar]; no_lit.
      * apply makes_ws. cbn [app]. eapply opens_nonblank, Hop.
      * cbn [List.length]. rewrite !Nat.add_0_r in *. exact M.
      * cbn [List.length]. rewrite !Nat.add_0_r in *. exact Ml.
    + cbn [app setup rule_of as_expr snd bind]. rewrite K1. reflexivity.
Qed.

Lemma tok_two o x s : foll (S (op_prio o)) ((b ++ op_text o ++ b) ++ x ++ s).
Proof. rewrite <- !app_assoc. right. exists (op_prio o). eexists. split; [lia|]. split; [apply tok_op|reflexivity]. Qed.

Definition simple_op (L : nat) : binop := match L with 9 => OBitAnd | 8 => OBitXor | _ => OBitOr end%nat.
Lemma case_simple e l L : (L = 7 \/ L = 8 \/ L = 9)%nat -> prio (XOps false e l) = L -> good e -> Forall (fun a => good (snd a)) l -> good (XOps false e l).
Proof.
  intros HL HP He Hl. apply good_low; [apply ops_low|]. intros Hf Hs p r Hr. cbn [fine] in Hf. cbn [text tree] in *. rewrite HP in *.
  rewrite !andb_true_iff in Hf. destruct Hf as [[Hf1 Hf2] Hf3]. cbn [app] in *. apply no_sym_app in Hs. destruct Hs as [Hs1 Hs2].
  destruct (Nat.eqb_spec L 15) as [|_]; [lia|]. rewrite forallb_forall in Hf3.
  assert (Ho : forall o z, In (o, z) l -> o = simple_op L /\ op_prio (simple_op L) = L /\ fine b z = true).
  { intros o z I. apply Hf3 in I. rewrite !andb_true_iff in I. destruct I as [[I I2] _]. apply Nat.eqb_eq in I. split; [|split; [destruct HL as [->|[->| ->]]; reflexivity|exact I2]].
    destruct HL as [->|[->| ->]]; destruct o; try discriminate I; reflexivity. }
  assert (Hne : l <> []) by (destruct l; [discriminate Hf2|discriminate]).
  set (sep := b ++ op_text (simple_op L) ++ b).
  assert (Et : flat_map (fun a => match a with (o, e) => b ++ op_text o ++ b ++ operand (text b) (S L) e end) l = flat_map (fun a => sep ++ operand (text b) (S L) (snd a)) l).
  { rewrite !flat_map_concat_map. f_equal. apply map_ext_in. intros [o z] I. destruct (Ho o z I) as [-> _]. unfold sep. rewrite <- !app_assoc. reflexivity. }
  rewrite Et in *.
  assert (Hr' : foll (S L) (flat_map (fun a => sep ++ operand (text b) (S L) (snd a)) l ++ r)).
  { destruct l as [|[o z] l']; [congruence|]. cbn [flat_map snd]. rewrite <- (app_assoc (sep ++ _)), <- app_assoc. destruct (Ho o z (or_introl eq_refl)) as (_ & E & _). rewrite <- E at 1. apply tok_two. }
  destruct (good_operand e (S L) p _ He Hf1 Hs1 ltac:(lia) Hr') as (k & M).
  destruct (sub_loop snd L (PSeq [PRef R_ws; PLit (op_text (simple_op L)); PRef R_ws; PRef (rule_of (S L))]) sep l) with (p := (p + List.length (operand (text b) (S L) e))%nat) (r := r) as (ks & Ml & K).
  - lia.
  - unfold sep. destruct b_first as (c & b' & -> & _). discriminate.
  - intros s Hs'. apply (ops_end L); [|exact Hs']. intros z. destruct HL as [->|[->| ->]]; [apply op7|apply op8|apply op9].
  - intros [o z] s I. destruct (Ho o z I) as (_ & E & _). rewrite <- E at 1. apply tok_two.
  - intros [o z] q s k' I Hop M'. apply body4; [intros; apply makes_ws_b; assumption|intros; apply makes_ws_b; assumption| | |eapply opens_nonblank, Hop|exact M'].
    + destruct HL as [->|[->| ->]]; constructor; reflexivity.
    + destruct HL as [->|[->| ->]]; discriminate.
  - exact Hl.
  - intros [o z] I. apply (Ho o z I).
  - exact Hs2.
  - exact Hr.
  - destruct (kids_ex _ _ _ K) as [K1 K2].
    assert (Em : map (fun a : binop * ex => match a with (_, e) => sub tree (S L) e end) l = map (fun a => sub tree (S L) (snd a)) l).
    { apply map_ext. intros [o z]. reflexivity. }
    assert (Ks : mapr as_expr ([(k, SExpr (sub tree (S L) e))] ++ ks) = Ok (sub tree (S L) e :: map (fun a => sub tree (S L) (snd a)) l)).
    { cbn [app mapr as_expr snd bind]. rewrite K1. reflexivity. }
    rewrite Em. apply (compact_node _ _ _ _ ([(k, SExpr (sub tree (S L) e))] ++ ks)).
    + destruct HL as [->|[->| ->]]; reflexivity.
    + destruct HL as [->|[->| ->]]; reflexivity.
    + destruct HL as [->|[->| ->]]; reflexivity.
    + destruct HL as [->|[->| ->]]; discriminate.
    + cbn [app List.length]. rewrite K2. destruct l; [congruence|cbn; lia].
    + assert (EG : G (rule_of L) = PSeq [PRef (rule_of (S L)); PStar (PSeq [PRef R_ws; PLit (op_text (simple_op L)); PRef R_ws; PRef (rule_of (S L))])]).
      { destruct HL as [->|[->| ->]]; reflexivity. }
      rewrite EG. apply seq2; [exact M|exact Ml].
    + destruct l as [|[o z] l']; [congruence|]. destruct (Ho o z (or_introl eq_refl)) as (-> & _).
      destruct HL as [->|[->| ->]]; cbn [rule_of simple_op setup]; rewrite Ks; reflexivity.
Qed.

Lemma case_ops n e l : good e -> Forall (fun a => good (snd a)) l -> good (XOps n e l).
Proof.
  intros He Hl Hf. pose proof Hf as Hf'. cbn [fine] in Hf'. rewrite !andb_true_iff in Hf'. destruct Hf' as [[_ Hn] _].
  destruct (Nat.eq_dec (prio (XOps n e l)) 11) as [E|E]; [revert Hf; apply case_arith; assumption|].
  destruct n; [apply Nat.eqb_eq in Hn; congruence|]. destruct l as [|[o z] l]; [discriminate Hn|].
  destruct (is_chain (op_prio o)) eqn:Hc.
  - revert Hf. apply (case_chain _ _ (op_prio o)); [exact Hc|exact E|reflexivity|exact He|exact Hl].
  - revert Hf. apply (case_simple _ _ (op_prio o)); [|reflexivity|exact He|exact Hl]. destruct o; try discriminate Hc; cbn; tauto.
Qed.

Lemma forallb_all {A} (f : A -> bool) l : forallb f l = true -> forall a, In a l -> f a = true.
Proof. rewrite forallb_forall. exact (fun H => H). Qed.

(** Concatenation, "and", "or": the operands of the level, at least one after the first. *)
Lemma case_row e l L body sep (t : expr -> list expr -> expr) (mkx : ex -> list ex -> ex) :
  (L <= 13)%nat -> sep <> [] -> G (rule_of L) = PSeq [PRef (rule_of (S L)); PStar body] ->
  ignored (rule_of L) = false -> reduced (rule_of L) = false -> compacted (rule_of L) = true -> rule_of L <> R_qualifier ->
  (forall r, foll L r -> sem body r None) ->
  (forall e s, In e l -> fine b e = true -> foll (S L) (sep ++ operand (text b) (S L) e ++ s)) ->
  (forall e q s k, In e l -> opens (S L) (operand (text b) (S L) e ++ s) ->
    makes (PRef (rule_of (S L))) (q + List.length sep) (operand (text b) (S L) e) s [k] ->
    makes body q (sep ++ operand (text b) (S L) e) s [k]) ->
  (forall k p x a ks m, mapr as_expr ks = Ok m -> setup X full (rule_of L) p x ((k, SExpr a) :: ks) QNone = Ok (SExpr (t a m))) ->
  good e -> Forall good l -> fine b e = true -> (forall e, In e l -> fine b e = true) -> l <> [] ->
  no_sym y (operand (text b) (S L) e ++ flat_map (fun e => sep ++ operand (text b) (S L) e) l) ->
  forall p r, foll L r -> mk (rule_of L) p (operand (text b) (S L) e ++ flat_map (fun e => sep ++ operand (text b) (S L) e) l) r (t (sub tree (S L) e) (map (sub tree (S L)) l)).
Proof.
  intros HL Hsep EG R1 R2 R3 R4 Hend Hsf Hbody Hset He Hl Hf1 Hf2 Hne Hs p r Hr. apply no_sym_app in Hs. destruct Hs as [Hs1 Hs2].
  assert (Hr' : foll (S L) (flat_map (fun a => sep ++ operand (text b) (S L) a) l ++ r)).
  { destruct l as [|z l']; [congruence|]. cbn [flat_map]. rewrite <- (app_assoc (sep ++ _)), <- app_assoc. apply Hsf; [left; reflexivity|apply Hf2; left; reflexivity]. }
  destruct (good_operand e (S L) p _ He Hf1 Hs1 ltac:(lia) Hr') as (k & M).
  destruct (sub_loop (fun e => e) L body sep l HL Hsep Hend ltac:(intros z s I; apply Hsf; [exact I|apply Hf2, I]) Hbody Hl Hf2 Hs2 (p + List.length (operand (text b) (S L) e)) r Hr) as (ks & Ml & K).
  destruct (kids_ex _ _ _ K) as [K1 K2]. apply (compact_node _ _ _ _ ([(k, SExpr (sub tree (S L) e))] ++ ks)); try assumption.
  - cbn [app List.length]. rewrite K2. destruct l; [congruence|cbn; lia].
  - rewrite EG. apply seq2; [exact M|exact Ml].
  - cbn [app]. apply Hset, K1.
Qed.
Lemma flat_ext {A} (f g : A -> str) l : (forall a, f a = g a) -> flat_map f l = flat_map g l.
Proof. intros H. rewrite !flat_map_concat_map. f_equal. apply map_ext, H. Qed.

Lemma row_fine e l : fine b e && nonempty l && forallb (fine b) l = true -> fine b e = true /\ l <> [] /\ forall e, In e l -> fine b e = true.
Proof.
  rewrite !andb_true_iff. intros [[H1 H2] H3]. split; [exact H1|]. split; [destruct l; [discriminate H2|discriminate]|]. apply forallb_all, H3.
Qed.
Lemma word_foll L w x s : In (L, w) [(0%nat, u "if"); (0%nat, u "else"); (1%nat, u "or"); (2%nat, u "and")] -> foll (S L) ((b ++ w ++ b) ++ x ++ s).
Proof. intros H. rewrite <- !app_assoc. right. exists L. eexists. split; [lia|]. split; [apply tok_word, H|reflexivity]. Qed.
Lemma b_nonempty x : b ++ x <> [].
Proof. destruct b_first as (c & b' & -> & _). discriminate. Qed.

Lemma case_and e l : good e -> Forall good l -> good (XAnd e l).
Proof.
  intros He Hl. apply good_low; [reflexivity|]. intros Hf Hs p r Hr. cbn [fine] in Hf. apply row_fine in Hf. destruct Hf as (Hf1 & Hne & Hf2). cbn [prio Nat.eqb] in Hr. cbn [text tree prio] in *.
  rewrite (flat_ext _ (fun e => (b ++ u "and" ++ b) ++ operand (text b) 3 e)) in * by (intros; rewrite <- !app_assoc; reflexivity).
  apply (case_row e l 2 (PSeq [PRef R_space; PLit (u "and"); PRef R_space; PRef R_not_test]) (b ++ u "and" ++ b) EAnd XAnd); try assumption; try reflexivity; try discriminate.
  - lia.
  - apply b_nonempty.
  - intros s Hs'. apply (word_end 2); [cbn; tauto|exact Hs'].
  - intros z s _ _. apply word_foll. cbn. tauto.
  - intros z q s k I Hop M. apply (body4 2); [intros; apply makes_space_b; assumption|intros; apply makes_space_b; assumption|constructor; reflexivity|discriminate|eapply opens_nonblank, Hop|exact M].
  - intros k q x a ks m E. cbn [setup rule_of mapr as_expr snd bind]. rewrite E. reflexivity.
Qed.
Lemma case_or e l : good e -> Forall good l -> good (XOr e l).
Proof.
  intros He Hl. apply good_low; [reflexivity|]. intros Hf Hs p r Hr. cbn [fine] in Hf. apply row_fine in Hf. destruct Hf as (Hf1 & Hne & Hf2). cbn [prio Nat.eqb] in Hr. cbn [text tree prio] in *.
  rewrite (flat_ext _ (fun e => (b ++ u "or" ++ b) ++ operand (text b) 2 e)) in * by (intros; rewrite <- !app_assoc; reflexivity).
  apply (case_row e l 1 (PSeq [PRef R_space; PLit (u "or"); PRef R_space; PRef R_and_test]) (b ++ u "or" ++ b) EOr XOr); try assumption; try reflexivity; try discriminate.
  - lia.
  - apply b_nonempty.
  - intros s Hs'. apply (word_end 1); [cbn; tauto|exact Hs'].
  - intros z s _ _. apply word_foll. cbn. tauto.
  - intros z q s k I Hop M. apply (body4 1); [intros; apply makes_space_b; assumption|intros; apply makes_space_b; assumption|constructor; reflexivity|discriminate|eapply opens_nonblank, Hop|exact M].
  - intros k q x a ks m E. cbn [setup rule_of mapr as_expr snd bind]. rewrite E. reflexivity.
Qed.
Lemma case_cat e l : good e -> Forall good l -> good (XCat e l).
Proof.
  intros He Hl. apply good_low; [reflexivity|]. intros Hf Hs p r Hr. cbn [fine] in Hf. rewrite !andb_true_iff in Hf. destruct Hf as [[Hf1 Hne] Hf2]. cbn [prio Nat.eqb] in Hr. cbn [text tree prio] in *.
  rewrite forallb_forall in Hf2. assert (Hf3 : forall z, In z l -> fine b z = true /\ plain_start (operand (text b) 6 z) = true).
  { intros z I. apply Hf2 in I. apply andb_true_iff, I. }
  apply (case_row e l 5 (PSeq [PRef R_space; PRef R_pipeline]) b (fun a m => EConcat (a :: m)) XCat); try assumption; try reflexivity; try discriminate.
  - lia.
  - apply Hb.
  - apply cat_end.
  - intros z s I _. right. exists 5%nat. eexists. split; [lia|]. split; [apply tok_cat|reflexivity]. destruct (Hf3 z I) as [_ H]. destruct (operand (text b) 6 z); [discriminate H|exact H].
  - intros z q s k I Hop M. change [k] with ([] ++ [k]). apply seq2; [apply makes_space_b; eapply opens_nonblank, Hop|exact M].
  - intros k q x a ks m E. cbn [setup rule_of mapr as_expr snd bind]. rewrite E. reflexivity.
  - intros z I. apply Hf3, I.
  - destruct l; [discriminate Hne|discriminate].
Qed.

Lemma nots n : forall p r, nonot r -> nonblank r ->
  makes (PStar (PSeq [PRef R_not; PRef R_space])) p (flat_map (fun _ => u "not" ++ b) (repeat tt n)) r (repeat (Some R_not, SNot) n).
Proof.
  intros p r Hr Hn. apply makes_star. revert p. induction n as [|n IH]; intros p; cbn [repeat flat_map].
  - apply loop_nil, Hr.
  - change ((Some R_not, SNot) :: repeat (Some R_not, SNot) n) with (([(Some R_not, SNot)] ++ []) ++ repeat (Some R_not, SNot) n).
    apply loop_cons; [discriminate| |apply IH]. apply seq2.
    + node_of (@nil (option rule * syn)); [apply makes_lit|reflexivity].
    + apply makes_space_b. destruct n as [|n]; [exact Hn|]. cbn [repeat flat_map]. rewrite <- !app_assoc. constructor. reflexivity.
Qed.
Lemma case_not n e : good e -> good (XNot n e).
Proof.
  intros He. apply good_low; [reflexivity|]. intros Hf Hs p r Hr. cbn [fine] in Hf. apply andb_true_iff in Hf. destruct Hf as [Hn Hf]. cbn [prio Nat.eqb] in Hr. cbn [text tree prio] in *.
  apply no_sym_app in Hs. destruct Hs as [_ Hs]. assert (Hr' : foll 4 r) by (apply (foll_mono 3); [lia|exact Hr]).
  pose proof (operand_opens e 4 r Hf (foll_rest _ _ Hr')) as Ho.
  destruct (good_operand e 4 (p + List.length (flat_map (fun _ => u "not" ++ b) (repeat tt n))) r He Hf Hs ltac:(lia) Hr') as (k & M).
  apply (compact_node R_not_test _ _ _ (repeat (Some R_not, SNot) n ++ [(k, SExpr (sub tree 4 e))])); try reflexivity; try discriminate.
  - rewrite app_length, repeat_length. cbn [List.length]. destruct n; [discriminate Hn|lia].
  - cbn [grammar]. apply seq2; [|exact M]. apply nots; [eapply opens_nonot; [|exact Ho]; lia|eapply opens_nonblank, Ho].
  - cbn [setup]. rewrite rev_app_distr. cbn [rev app].
    assert (Er : rev (repeat (Some R_not, SNot) n) = repeat (Some R_not, SNot) n).
    { clear. induction n as [|n IH]; [reflexivity|]. cbn [repeat rev]. rewrite IH. clear IH. induction n as [|n IH]; [reflexivity|]. cbn [repeat app]. rewrite IH. reflexivity. }
    rewrite Er, repeat_length.
    assert (Ef : forallb (fun k : option rule * syn => match snd k with SNot => true | _ => false end) (repeat (Some R_not, SNot) n) = true).
    { apply forallb_forall. intros a I. apply repeat_spec in I. subst a. reflexivity. }
    rewrite Ef. reflexivity.
Qed.

Lemma case_if x c y' : good x -> good c -> p_else good y' -> good (XIf x c y').
Proof.
  intros Hx Hc Hy. apply good_low; [reflexivity|]. intros Hf Hs p r Hr. cbn [fine] in Hf. rewrite !andb_true_iff in Hf. destruct Hf as [[Hfx Hfc] Hfy]. cbn [prio Nat.eqb] in Hr. cbn [text tree prio] in *.
  apply no_sym_app in Hs. destruct Hs as [Hsx Hs]. apply no_sym_app in Hs. destruct Hs as [_ Hs]. apply no_sym_app in Hs. destruct Hs as [_ Hs].
  apply no_sym_app in Hs. destruct Hs as [_ Hs]. apply no_sym_app in Hs. destruct Hs as [Hsc Hsy].
  set (tl := match y' with Some y' => b ++ u "else" ++ b ++ text b y' | None => [] end) in *.
  assert (Hr1 : foll 1 (tl ++ r)).
  { destruct y' as [y'|]; subst tl; [|apply (foll_mono 0); [lia|exact Hr]]. cbv iota. rewrite <- !app_assoc. right. exists 0%nat. eexists. split; [lia|]. split; [apply (tok_word 0 (u "else")); cbn; tauto|reflexivity]. }
  pose proof (operand_opens c 1 (tl ++ r) Hfc (foll_rest _ _ Hr1)) as Hoc.
  assert (Hr2 : foll 1 (b ++ u "if" ++ b ++ operand (text b) 1 c ++ tl ++ r)).
  { right. exists 0%nat. eexists. split; [lia|]. split; [apply (tok_word 0 (u "if")); cbn; tauto|reflexivity]. }
  set (P1 := (p + List.length (operand (text b) 1 x))%nat). set (P2 := (P1 + List.length b + List.length (u "if") + List.length b)%nat).
  destruct (good_operand x 1 p _ Hx Hfx Hsx ltac:(lia) Hr2) as (kx & Mx).
  destruct (good_operand c 1 P2 _ Hc Hfc Hsc ltac:(lia) Hr1) as (kc & Mc).
  assert (T : exists ky, makes (POpt (PSeq [PRef R_space; PLit (u "else"); PRef R_space; PRef R_ifelse_test])) (P2 + List.length (operand (text b) 1 c)) tl r ky /\
    mapr as_expr ky = Ok (match y' with Some y' => [tree y'] | None => [] end)).
  { destruct y' as [y'|]; subst tl; cbv iota.
    - cbn [p_else] in Hy. apply no_sym_app in Hsy. destruct Hsy as [_ Hsy]. apply no_sym_app in Hsy. destruct Hsy as [_ Hsy]. apply no_sym_app in Hsy. destruct Hsy as [_ Hsy].
      destruct (good_level y' Hy Hfy Hsy 0 (P2 + List.length (operand (text b) 1 c) + List.length b + List.length (u "else") + List.length b) r ltac:(lia) ltac:(lia) Hr) as (ky & My).
      pose proof (opens_text y' Hfy r (foll_rest _ _ Hr)) as Hoy. apply (opens_mono _ 0) in Hoy; [|lia].
      exists ([] ++ [] ++ [] ++ [(ky, SExpr (tree y'))]). split; [|reflexivity]. apply makes_opt. apply seq4.
      + apply makes_space_b. constructor. reflexivity.
      + apply makes_lit.
      + apply makes_space_b. eapply opens_nonblank, Hoy.
      + exact My.
    - exists []. split; [|reflexivity]. apply makes_opt_no, else_end, Hr. }
  destruct T as (ky & My & Ky).
  apply (compact_node R_ifelse_test _ _ _ ([(kx, SExpr (sub tree 1 x))] ++ ([] ++ [] ++ [] ++ [(kc, SExpr (sub tree 1 c))] ++ ky))); try reflexivity; try discriminate.
  - cbn [grammar]. apply seq2; [|apply makes_opt; apply seq5].
    + rewrite <- !app_assoc. exact Mx.
    + apply makes_space_b. constructor. reflexivity.
    + apply makes_lit.
    + apply makes_space_b. eapply opens_nonblank, Hoc.
    + exact Mc.
    + exact My.
  - cbn [app setup mapr as_expr snd bind]. rewrite Ky. destruct y'; reflexivity.
Qed.

(** ** Cases of the induction: atoms *)

Lemma join_cons sep (x : str) l : join sep (x :: l) = x ++ flat_map (fun z => sep ++ z) l.
Proof.
  revert x. induction l as [|z l IH]; intros x; [cbn; rewrite app_nil_r; reflexivity|].
  change (join sep (x :: z :: l)) with (x ++ sep ++ join sep (z :: l)). rewrite IH. cbn [flat_map]. rewrite <- !app_assoc. reflexivity.
Qed.
Lemma flat_snoc sep l : forall x : str, exists l' z, x :: l = l' ++ [z] /\ x ++ flat_map (fun z => sep ++ z) l = flat_map (fun z => z ++ sep) l' ++ z.
Proof.
  induction l as [|w l IH]; intros x.
  - exists [], x. split; [reflexivity|]. cbn. apply app_nil_r.
  - destruct (IH w) as (l' & z & E1 & E2). exists (x :: l'), z. split; [cbn [app]; rewrite <- E1; reflexivity|].
    cbn [flat_map]. rewrite <- !app_assoc. rewrite <- E2. reflexivity.
Qed.
Lemma join_snoc sep l (z : str) : join sep (l ++ [z]) = flat_map (fun z => z ++ sep) l ++ z.
Proof.
  destruct l as [|x l]; [cbn; reflexivity|]. cbn [app]. rewrite join_cons. destruct (flat_snoc sep (l ++ [z]) x) as (l' & z' & E1 & E2). rewrite E2.
  change (x :: l ++ [z]) with ((x :: l) ++ [z]) in E1. apply app_inj_tail in E1. destruct E1 as [<- <-]. reflexivity.
Qed.

Lemma comma_b p s : nonblank s -> makes (PRef R_comma) p (u "," ++ b) s [].
Proof.
  intros H. apply makes_ignored; [reflexivity|]. apply sem_ref. cbn [grammar]. rewrite <- app_assoc.
  eapply sem_seq_cons; [apply sem_ws_none; constructor; reflexivity|]. eapply sem_seq_cons; [apply (sem_lit G [44])|].
  eapply sem_seq_cons; [apply ws_b, H|]. apply sem_seq_nil.
Qed.
Lemma comma_no c s : c = 41 \/ c = 93 \/ c = 125 -> sem (PRef R_comma) (c :: s) None.
Proof.
  intros H. apply sem_ref. cbn [grammar]. eapply sem_seq_cons; [apply sem_ws_none; constructor; destruct H as [->|[->| ->]]; reflexivity|].
  apply sem_seq_no. destruct H as [->|[->| ->]]; no_lit.
Qed.

(** An element of a collection, an argument: an expression before a comma or a closing bracket. *)
Lemma element e p r : good e -> fine b e = true -> no_sym y (text b e) -> starts closer r -> mk R_expr p (text b e) r (root (tree e)).
Proof. intros He Hf Hs Hr. apply expr_node. apply (good_level e He Hf Hs 0); [lia|lia|left; exact Hr]. Qed.
Lemma element_opens e r : fine b e = true -> starts closer r -> opens 0 (text b e ++ r).
Proof. intros Hf Hr. apply (opens_mono (prio e)); [lia|]. apply opens_text; [exact Hf|]. apply (foll_rest 0). left. exact Hr. Qed.

Lemma elements_loop l : Forall good l -> (forall e, In e l -> fine b e = true /\ no_sym y (text b e)) -> forall p s,
  sem (PSeq [PRef R_expr; PRef R_comma]) s None -> nonblank s ->
  exists ks, makes_loop (PSeq [PRef R_expr; PRef R_comma]) p (flat_map (fun e => text b e ++ u "," ++ b) l) s ks /\ is_kids (kid_ex (fun e => root (tree e))) l ks.
Proof.
  intros Hg Hf. induction l as [|e l IH]; intros p s Hs Hn.
  - exists []. split; [apply loop_nil, Hs|exists []; split; [constructor|reflexivity]].
  - inversion Hg as [|? ? He Hl]; subst. destruct (Hf e (or_introl eq_refl)) as [Hfe Hse].
    destruct (IH Hl ltac:(intros; apply Hf; right; assumption) (p + List.length (text b e ++ u "," ++ b))%nat s Hs Hn) as (ks & M & kss & K & ->).
    assert (Hc : starts closer ((u "," ++ b) ++ flat_map (fun e => text b e ++ u "," ++ b) l ++ s)) by (constructor; unfold closer; tauto).
    destruct (element e p _ He Hfe Hse Hc) as (k & Me).
    exists (([(k, SExpr (root (tree e)))] ++ []) ++ List.concat kss). split; [|exists ([(k, SExpr (root (tree e)))] :: kss); split; [constructor; [exists k; reflexivity|exact K]|reflexivity]].
    cbn [flat_map]. apply loop_cons; [|apply seq2; [exact Me|apply comma_b]|exact M].
    + intros E. apply app_eq_nil in E. destruct E as [_ E]. discriminate E.
    + destruct l as [|e2 l2]; [exact Hn|]. cbn [flat_map]. rewrite <- !app_assoc. eapply opens_nonblank, element_opens; [apply Hf; right; left; reflexivity|]. constructor. unfold closer. tauto.
Qed.

Lemma elements_end e c r : good e -> fine b e = true -> no_sym y (text b e) -> c = 41 \/ c = 93 -> sem (PSeq [PRef R_expr; PRef R_comma]) (text b e ++ c :: r) None.
Proof.
  intros He Hf Hs Hc. assert (K : starts closer (c :: r)) by (constructor; unfold closer; tauto).
  eapply sem_seq_cons; [eapply mk_sem, (element e 0); assumption|]. apply sem_seq_no, comma_no. tauto.
Qed.

(** The text of the elements, with the last one apart. *)
Lemma row_text l e : join (u "," ++ b) (map (text b) (l ++ [e])) = flat_map (fun e => text b e ++ u "," ++ b) l ++ text b e.
Proof. rewrite map_app. cbn [map]. rewrite join_snoc. f_equal. induction l as [|a l IH]; [reflexivity|]. cbn [map flat_map]. rewrite IH. reflexivity. Qed.
Lemma row_sym l : no_sym y (join (u "," ++ b) (map (text b) l)) -> forall e, In e l -> no_sym y (text b e).
Proof.
  intros H e I. destruct l as [|a l]; [destruct I|]. cbn [map] in H. rewrite join_cons, no_sym_app in H. destruct H as [H1 H2].
  destruct I as [<-|I]; [exact H1|]. apply (no_sym_flat _ _ (text b e)) in H2; [|apply in_map, I]. apply no_sym_app in H2. tauto.
Qed.
Lemma row_nonblank l e c r : (forall a, In a (l ++ [e]) -> fine b a = true) -> closer c -> nonblank (flat_map (fun e => text b e ++ u "," ++ b) l ++ text b e ++ c :: r).
Proof.
  intros Hf Hc. destruct l as [|a l]; cbn [flat_map app].
  - eapply opens_nonblank, element_opens; [apply Hf; left; reflexivity|constructor; exact Hc].
  - rewrite <- !app_assoc. eapply opens_nonblank, element_opens; [apply Hf; left; reflexivity|]. constructor. unfold closer. tauto.
Qed.

(** The elements and the last one, up to the closing bracket. *)
Lemma kids_snoc {A} (f : A -> expr) l a ks k : is_kids (kid_ex f) l ks -> mapr as_expr (ks ++ [(k, SExpr (f a))]) = Ok (map f (l ++ [a])).
Proof. intros H. destruct (kids_ex _ _ _ H) as [E _]. rewrite map_app. apply mapr_app; [exact E|reflexivity]. Qed.

Lemma case_list l : Forall good l -> good (XList l).
Proof.
  intros Hl. apply good_high; [reflexivity|]. intros Hf Hs p r _. cbn [fine] in Hf. pose proof (forallb_all _ _ Hf) as Hf'. cbn [text tree prio rule_of] in *.
  apply no_sym_app in Hs. destruct Hs as [_ Hs]. apply no_sym_app in Hs. destruct Hs as [Hs _]. pose proof (row_sym l Hs) as Hs'.
  exists R_list. split; [reflexivity|]. apply makes_reduced; [reflexivity|reflexivity|]. cbn [grammar].
  do 5 (apply makes_alt_next; [by_run|]). apply makes_alt_first.
  destruct l as [|a0 l0] eqn:E0.
  - node_of (@nil (option rule * syn)); [|reflexivity]. cbn [grammar].
    apply (makes_eq X y full _ p (u "[" ++ [] ++ [] ++ [] ++ u "]") _ r ([] ++ [] ++ [] ++ [] ++ [])); [reflexivity|reflexivity|].
    apply seq5; [apply makes_lit|apply makes_ws; constructor; reflexivity|apply makes_star, loop_nil; by_run|apply makes_opt_no; by_run|apply makes_lit].
  - assert (Hne : l <> []) by congruence. rewrite <- E0 in *. clear E0 a0 l0.
    destruct (exists_last Hne) as (l' & e & ->). rewrite row_text.
    apply Forall_app in Hl. destruct Hl as [Hl He]. apply Forall_inv in He.
    assert (Hfe : fine b e = true) by (apply Hf', in_or_app; right; left; reflexivity).
    assert (Hse : no_sym y (text b e)) by (apply Hs', in_or_app; right; left; reflexivity).
    assert (Hc : starts closer (93 :: r)) by (constructor; unfold closer; tauto).
    destruct (elements_loop l' Hl ltac:(intros z I; split; [apply Hf'|apply Hs']; apply in_or_app; left; exact I) (p + 1 + 0)%nat (text b e ++ 93 :: r)) as (ks & Ml & K).
    { apply elements_end; tauto. } { eapply opens_nonblank, element_opens; assumption. }
    destruct (element e (p + 1 + 0 + List.length (flat_map (fun e => text b e ++ u "," ++ b) l')) (93 :: r) He Hfe Hse Hc) as (k & Me).
    node_of (ks ++ [(k, SExpr (root (tree e)))]).
    + cbn [grammar].
      apply (makes_eq X y full _ p (u "[" ++ [] ++ flat_map (fun e => text b e ++ u "," ++ b) l' ++ text b e ++ u "]") _ r ([] ++ [] ++ ks ++ [(k, SExpr (root (tree e)))] ++ []));
        [cbn [app]; rewrite <- !app_assoc; reflexivity|reflexivity|].
      apply seq5; [apply makes_lit| |apply makes_star; exact Ml| |apply makes_lit].
      * apply makes_ws. cbn [app]. apply row_nonblank; [exact Hf'|unfold closer; tauto].
      * apply makes_opt. apply (makes_eq X y full _ _ (text b e ++ []) _ _ ([(k, SExpr (root (tree e)))] ++ [])); [apply app_nil_r|reflexivity|].
        apply seq2; [exact Me|]. apply makes_ws. constructor. reflexivity.
    + cbn [setup]. rewrite (kids_snoc (fun e => root (tree e)) l' e ks k K). reflexivity.
Qed.

Lemma case_tuple l : Forall good l -> good (XTuple l).
Proof.
  intros Hl. apply good_high; [reflexivity|]. intros Hf Hs p r _. cbn [fine] in Hf. apply andb_true_iff in Hf. destruct Hf as [Hlen Hf]. pose proof (forallb_all _ _ Hf) as Hf'. cbn [text tree prio rule_of] in *.
  apply no_sym_app in Hs. destruct Hs as [_ Hs]. apply no_sym_app in Hs. destruct Hs as [Hs _]. pose proof (row_sym l Hs) as Hs'.
  assert (Hne : l <> []) by (destruct l; [discriminate Hlen|discriminate]).
  destruct (exists_last Hne) as (l' & e & ->). rewrite app_length in Hlen. cbn [List.length] in Hlen. rewrite row_text.
  apply Forall_app in Hl. destruct Hl as [Hl He]. apply Forall_inv in He.
  assert (Hfe : fine b e = true) by (apply Hf', in_or_app; right; left; reflexivity).
  assert (Hse : no_sym y (text b e)) by (apply Hs', in_or_app; right; left; reflexivity).
  assert (Hc : starts closer (41 :: r)) by (constructor; unfold closer; tauto).
  destruct (elements_loop l' Hl ltac:(intros z I; split; [apply Hf'|apply Hs']; apply in_or_app; left; exact I) (p + 1 + 0)%nat (text b e ++ 41 :: r)) as (ks & Ml & K).
  { apply elements_end; tauto. } { eapply opens_nonblank, element_opens; assumption. }
  destruct (element e (p + 1 + 0 + List.length (flat_map (fun e => text b e ++ u "," ++ b) l')) (41 :: r) He Hfe Hse Hc) as (k & Me).
  exists R_tuple. split; [reflexivity|]. apply makes_reduced; [reflexivity|reflexivity|]. cbn [grammar].
  do 3 (apply makes_alt_next; [apply no_paren|]).
  apply makes_alt_next.
  { destruct l' as [|a l']; [cbn in Hlen; lia|]. cbn [flat_map]. rewrite <- !app_assoc. apply sem_ref. cbn [grammar]. eapply sem_seq_cons; [apply (sem_lit G [40])|].
    assert (Hfa : fine b a = true) by (apply Hf'; left; reflexivity). assert (Hsa : no_sym y (text b a)) by (apply Hs'; left; reflexivity).
    inversion Hl as [|? ? Ha _]; subst.
    match goal with |- PegSpec.sem _ _ (_ ++ ?s) _ => assert (Hca : starts closer s) by (constructor; unfold closer; tauto) end.
    eapply sem_seq_cons; [apply sem_ws_none; eapply opens_nonblank, element_opens; assumption|].
    eapply sem_seq_cons; [eapply mk_sem, (element a 0); eassumption|].
    eapply sem_seq_cons; [apply sem_ws_none; constructor; reflexivity|]. apply sem_seq_no. no_lit. }
  apply makes_alt_first. node_of (ks ++ [(k, SExpr (root (tree e)))]).
  - cbn [grammar].
    apply (makes_eq X y full _ p (u "(" ++ [] ++ (flat_map (fun e => text b e ++ u "," ++ b) l' ++ text b e) ++ u ")") _ r ([] ++ [] ++ (ks ++ [(k, SExpr (root (tree e)))]) ++ []));
      [reflexivity|cbn [app]; rewrite app_nil_r; reflexivity|].
    apply seq4; [apply makes_lit| | |apply makes_lit].
    + apply makes_ws. cbn [app]. rewrite <- app_assoc. apply row_nonblank; [exact Hf'|unfold closer; tauto].
    + apply makes_opt, seq2; [|].
      * apply makes_plus; [|exact Ml]. destruct l' as [|a l']; [cbn in Hlen; lia|]. cbn [flat_map]. intros E. apply app_eq_nil in E. destruct E as [E _]. apply app_eq_nil in E. destruct E as [_ E]. discriminate E.
      * apply makes_opt. apply (makes_eq X y full _ _ (text b e ++ []) _ _ ([(k, SExpr (root (tree e)))] ++ [])); [apply app_nil_r|reflexivity|].
        apply seq2; [exact Me|]. apply makes_ws. constructor. reflexivity.
  - cbn [setup]. rewrite (kids_snoc (fun e => root (tree e)) l' e ks k K). reflexivity.
Qed.

Lemma case_name n : good (XName n).
Proof. apply good_high; [reflexivity|]. intros Hf _ p r Hr. exists R_var_use. split; [reflexivity|]. apply name_atom; assumption. Qed.
(** The expression in braces. *)
Lemma augment_good e p r : good e -> fine b e = true -> no_sym y (text b e) -> starts (fun c => closer c /\ c <> 44) r ->
  makes (PRef R_expr_augment) p (text b e) r [(Some R_expr_augment, SExpr (root (tree e)))].
Proof.
  intros He Hf Hs Hr. assert (Hc : foll 0 r) by (left; revert Hr; apply starts_imp; unfold closer; tauto).
  assert (Me : forall p, mk R_ifelse_test p (text b e) r (tree e)) by (intros p'; apply (good_level e He Hf Hs 0); [lia|lia|exact Hc]).
  destruct (expr_root _ _ _ _ (Me p)) as (k & M). node_of [(k, SExpr (tree e))]; [|reflexivity]. cbn [grammar]. apply makes_alt_next.
  { apply sem_ref. cbn [grammar]. eapply sem_seq_cons; [eapply mk_sem, expr_node, (Me 0%nat)|].
    eapply sem_seq_cons; [apply sem_ws_none, closer_nonblank; revert Hr; apply starts_imp; unfold closer; tauto|]. apply sem_seq_no. destruct Hr as [|c r' [_ H]]; [no_lit|]. no_lit. }
  apply makes_alt_first. exact M.
Qed.
Lemma braces_good e p r : good e -> fine b e = true -> no_sym y (text b e) -> starts (fun c => c <> 63 /\ c <> 33) r ->
  makes (PRef R_embedding) p (u "{" ++ text b e ++ u "}") r [(Some R_expr_augment, SExpr (root (tree e)))].
Proof.
  intros He Hf Hs Hr. apply makes_reduced; [reflexivity|reflexivity|]. cbn [grammar]. apply makes_alt_first. apply makes_reduced; [reflexivity|reflexivity|]. cbn [grammar].
  apply (makes_eq X y full _ p (u "{" ++ [] ++ text b e ++ [] ++ u "}" ++ []) _ r ([] ++ [] ++ [(Some R_expr_augment, SExpr (root (tree e)))] ++ [] ++ [] ++ [])); [reflexivity|reflexivity|].
  apply seq6; [apply makes_lit| |apply augment_good; [exact He|exact Hf|exact Hs|constructor; unfold closer; split; [tauto|discriminate]]|apply makes_ws; constructor; reflexivity|apply makes_lit|].
  - apply makes_ws. eapply opens_nonblank, element_opens; [exact Hf|constructor; unfold closer; tauto].
  - apply makes_opt_no, sem_ref. cbn [grammar]. apply sem_rx_no, rx_first; [reflexivity|]. revert Hr. apply starts_imp. intros c H.
    change (nf rx_qualifier c) with (negb (mem c [63; 33])). cbn. lia.
Qed.

Definition str_rest (q : quot) (l : list (ex * str)) : str := flat_map (fun a => match a with (e, z) => u "{" ++ text b e ++ u "}" ++ str_text q z end) l.
Definition str_parts (l : list (ex * str)) : list part := flat_map (fun a => match a with (e, z) => PExpr (root (tree e)) :: map PText (runs z) end) l.
Lemma str_not_qual q z l r : not_qual z = true -> starts (fun c => c <> 63 /\ c <> 33) (str_text q z ++ str_rest q l ++ quot_char q :: r).
Proof.
  intros H. destruct z as [|c z].
  - cbn [str_text flat_map app]. destruct l as [|[e z] l]; [constructor; destruct q; split; discriminate|]. cbn [str_rest flat_map]. rewrite <- !app_assoc. constructor. split; discriminate.
  - assert (Hc : c <> 63 /\ c <> 33).
    { unfold not_qual in H. apply andb_true_iff in H. rewrite !negb_true_iff in H. destruct H as [H1 H2]. split; intros ->; discriminate. }
    unfold str_text. cbn [flat_map]. unfold str_char at 1. destruct (special c); [constructor; exact Hc|]. destruct (c =? 92); [constructor; split; discriminate|]. destruct (c =? NL); [constructor; split; discriminate|].
    destruct (c =? quot_char q); [destruct q; constructor; split; discriminate|constructor; exact Hc].
Qed.
Lemma str_next q l r : starts (fun c => qtext y [quot_char q] c = false) (str_rest q l ++ quot_char q :: r).
Proof.
  destruct l as [|[e z] l]; [constructor; apply quot_stop|]. cbn [str_rest flat_map]. rewrite <- !app_assoc. constructor. apply text_special. reflexivity.
Qed.
Lemma open_escape e s : startswith (u "{") (text b e) = false -> sem (PRef R_escape) ((u "{" ++ text b e ++ u "}") ++ s) None.
Proof.
  intros Ho. assert (E : exists c q, (u "{" ++ text b e ++ u "}") ++ s = 123 :: c :: q /\ c <> 123).
  { destruct (text b e) as [|c q].
    - eexists 125, _. split; [reflexivity|discriminate].
    - exists c, (q ++ u "}" ++ s). split; [rewrite <- !app_assoc; reflexivity|]. intros ->. discriminate Ho. }
  destruct E as (c & q & Ec & Hc). rewrite Ec. apply sem_ref. cbn [grammar]. apply sem_rx_no. unfold rx_match, rx_escape. cbn. destruct c as [|c]; [reflexivity|]. destruct (Pos.eqb_spec 123 c) as [<-|_]; [congruence|reflexivity].
Qed.
Lemma str_tail q l r : Forall (fun a => good (fst a)) l -> no_sym y (str_rest q l) ->
  forallb (fun a => match a with (e, z) => fine b e && negb (startswith (u "{") (text b e)) && not_qual z end) l = true ->
  exists ks, (forall p, makes_loop (piece (quot_rule q)) p (str_rest q l) (quot_char q :: r) ks) /\ parts_of ks = Ok (str_parts l).
Proof.
  intros Hg. induction Hg as [|[e z] l He Hg IH]; intros Hs Hf.
  - exists []. split; [|reflexivity]. intros p. apply loop_nil. apply (no_piece X y (quot_rule q) (qtext y [quot_char q]) (quot_grammar q)). constructor. split; [apply quot_ord|apply quot_stop].
  - cbn [forallb] in Hf. rewrite !andb_true_iff, negb_true_iff in Hf. destruct Hf as [[[Hf1 Hf2] Hf3] Hf4]. cbn [fst] in He.
    cbn [str_rest flat_map] in Hs. fold (str_rest q l) in Hs. rewrite !no_sym_app in Hs. destruct Hs as [(_ & Hs1 & _ & Hs2) Hs3].
    destruct (IH Hs3 Hf4) as (ks2 & M2 & P2).
    destruct (str_loop q (List.length z) z (le_n _) (str_rest q l) (quot_char q :: r) ks2) as (ks1 & M1 & P1); [exact Hs2|apply str_next|exact M2|].
    exists ((Some R_expr_augment, SExpr (root (tree e))) :: ks1 ++ ks2). split.
    + intros p. cbn [str_rest flat_map]. fold (str_rest q l). rewrite <- !app_assoc. change ((Some R_expr_augment, SExpr (root (tree e))) :: ks1 ++ ks2) with ([(Some R_expr_augment, SExpr (root (tree e)))] ++ ks1 ++ ks2).
      rewrite (app_assoc (text b e)), (app_assoc (u "{")). apply loop_cons; [discriminate| |apply M1].
      apply makes_alt_next; [|apply makes_alt_first, braces_good; try assumption; rewrite <- app_assoc; apply str_not_qual, Hf3].
      apply open_escape, Hf2.
    + cbn [parts_of]. rewrite (parts_app _ _ _ _ P1 P2). reflexivity.
Qed.

Lemma case_text q s l : Forall (fun a => good (fst a)) l -> good (XText q s l).
Proof.
  intros Hg. apply good_high; [reflexivity|]. intros Hf Hs p r _. exists R_string_format. split; [reflexivity|]. cbn [text tree fine] in *. fold (str_rest q l) in *.
  rewrite !no_sym_app in Hs. destruct Hs as (_ & Hs1 & Hs2 & _). destruct (str_tail q l r Hg Hs2 Hf) as (ks2 & M2 & P2).
  destruct (str_loop q (List.length s) s (le_n _) (str_rest q l) (quot_char q :: r) ks2) as (ks1 & M1 & P1); [exact Hs1|apply str_next|exact M2|].
  rewrite (app_assoc (str_text q s)). apply (quot_atom q _ p r (ks1 ++ ks2)); [exact M1|]. apply parts_app; assumption.
Qed.
Lemma case_raw q s : good (XRaw q s).
Proof. apply good_high; [reflexivity|]. intros Hf _ p r _. exists R_string_raw. split; [reflexivity|]. cbn [text tree]. apply raw_atom. exact Hf. Qed.
Lemma case_num d : good (XNum d).
Proof.
  apply good_low; [reflexivity|]. intros Hf _ p r Hr. cbn [fine] in Hf. apply andb_true_iff in Hf. destruct Hf as [Hn Hd]. cbn [prio Nat.eqb] in Hr. cbn [text prio rule_of].
  destruct (number_atom d p r ltac:(destruct d; [discriminate Hn|discriminate]) Hd (foll_numend _ _ Hr)) as (k & M). exists k. apply (step 14); [lia|exact Hr|lia|lia|exact M].
Qed.

Lemma case_const c : good (XConst c).
Proof.
  apply good_high; [reflexivity|]. intros _ _ p r _. cbn [text tree]. destruct c; cbn [const_text const_value].
  - exists R_boolean. split; [reflexivity|]. apply makes_reduced; [reflexivity|reflexivity|]. cbn [grammar]. apply makes_alt_first.
    apply makes_reduced; [reflexivity|reflexivity|]. cbn [grammar]. do 2 (apply makes_alt_next; [by_run|]). apply makes_alt_first.
    node_of (@nil (option rule * syn)); [|reflexivity]. cbn [grammar]. apply makes_alt_first, makes_lit.
  - exists R_boolean. split; [reflexivity|]. apply makes_reduced; [reflexivity|reflexivity|]. cbn [grammar]. apply makes_alt_first.
    apply makes_reduced; [reflexivity|reflexivity|]. cbn [grammar]. do 2 (apply makes_alt_next; [by_run|]). apply makes_alt_first.
    node_of (@nil (option rule * syn)); [|reflexivity]. cbn [grammar]. apply makes_alt_next; [by_run|]. apply makes_alt_first, makes_lit.
  - exists R_none. split; [reflexivity|]. apply makes_reduced; [reflexivity|reflexivity|]. cbn [grammar]. apply makes_alt_first.
    apply makes_reduced; [reflexivity|reflexivity|]. cbn [grammar]. do 3 (apply makes_alt_next; [by_run|]). apply makes_alt_first.
    node_of (@nil (option rule * syn)); [|reflexivity]. cbn [grammar]. apply makes_lit.
Qed.

(** An operand of priority 7 up: before a closing bracket or a comma it is an expression, before a colon the key of a
    pair. *)
Lemma operand7 e p r : good e -> fine b e = true -> no_sym y (operand (text b) 7 e) -> foll 7 r ->
  makes (PRef R_expr_bitwise) p (operand (text b) 7 e) r [(Some R_expr_bitwise, SExpr (root (sub tree 7 e)))].
Proof.
  intros He Hf Hs Hr. destruct (good_operand e 7 p r He Hf Hs ltac:(lia) Hr) as (k & M). node_of [(k, SExpr (sub tree 7 e))]; [|reflexivity].
  cbn [grammar]. apply then_nil; [exact M|apply makes_plit].
Qed.
Lemma element7 e p r : good e -> fine b e = true -> no_sym y (operand (text b) 7 e) -> starts closer r ->
  mk R_expr p (operand (text b) 7 e) r (root (sub tree 7 e)).
Proof.
  intros He Hf Hs Hr. assert (Hl : forall L, foll L r) by (intros L; left; exact Hr). apply expr_node.
  destruct (good_operand e 7 p r He Hf Hs ltac:(lia) (Hl 7%nat)) as (k & M). exists k. apply (climb 7 0 7); [reflexivity|lia|apply Hl|lia| |exact M].
  intros _. eapply opens_nonot; [|apply operand_opens; [exact Hf|apply (foll_rest 0), Hl]]. lia.
Qed.
Lemma nonblank7 e r : fine b e = true -> rest_ok r -> nonblank (operand (text b) 7 e ++ r).
Proof. intros Hf Hr. eapply opens_nonblank, operand_opens; assumption. Qed.
(** A pair does not begin here. *)
Lemma no_pair e r l : good e -> fine b e = true -> no_sym y (operand (text b) 7 e) -> starts closer r ->
  sem (PSeq (PRef R_dict_pair :: l)) (operand (text b) 7 e ++ r) None.
Proof.
  intros He Hf Hs Hr. apply sem_seq_no, sem_ref. cbn [grammar]. eapply sem_seq_cons; [eapply makes_sem, (operand7 e 0); try assumption; left; exact Hr|].
  eapply sem_seq_cons; [apply sem_ws_none, closer_nonblank, Hr|]. apply sem_seq_no. destruct Hr as [|c r Hc]; [no_lit|]. unfold closer, NL in Hc. no_lit.
Qed.
Lemma no_brace s : sem (PRef R_literal) (123 :: s) None /\ sem (PRef R_var_use) (123 :: s) None /\ sem (PRef R_tag_use) (123 :: s) None /\
  sem (PRef R_subexpr) (123 :: s) None /\ sem (PRef R_tuple) (123 :: s) None /\ sem (PRef R_list) (123 :: s) None.
Proof. repeat split; by_run. Qed.
Lemma opens_notclose p s : opens p s -> sem (PLit (u "}")) s None.
Proof.
  intros [c z -> H|n z -> H _|q z ->|z -> H|z -> H]; try no_lit.
  - unfold plainc, digit in H. no_lit.
  - apply id_parts in H. destruct H as (c & r & -> & Hc & _). apply letter_ascii in Hc. cbn [app]. no_lit.
Qed.

Lemma case_set l : Forall good l -> good (XSet l).
Proof.
  intros Hl. apply good_high; [reflexivity|]. intros Hf Hs p r _. cbn [fine] in Hf. apply andb_true_iff in Hf. destruct Hf as [Hne Hf]. pose proof (forallb_all _ _ Hf) as Hf'.
  cbn [text tree] in *. apply no_sym_app in Hs. destruct Hs as [_ Hs]. apply no_sym_app in Hs. destruct Hs as [Hs _].
  destruct l as [|e l]; [discriminate Hne|]. clear Hne. cbn [map] in Hs |- *. rewrite join_cons in Hs |- *.
  assert (Em : flat_map (fun z : str => (u "," ++ b) ++ z) (map (operand (text b) 7) l) = flat_map (fun e => (u "," ++ b) ++ operand (text b) 7 e) l).
  { clear. induction l as [|a l IH]; [reflexivity|]. cbn [map flat_map]. rewrite IH. reflexivity. }
  rewrite Em in *. clear Em. apply no_sym_app in Hs. destruct Hs as [Hs1 Hs2]. inversion Hl as [|? ? He Hl']; subst.
  assert (Hfe : fine b e = true) by (apply Hf'; left; reflexivity).
  set (tx := fun e => (u "," ++ b) ++ operand (text b) 7 e) in *.
  assert (Hcl : starts closer (flat_map tx l ++ u "}" ++ r)).
  { destruct l; [|unfold tx; cbn [flat_map]; rewrite <- !app_assoc]; constructor; unfold closer; tauto. }
  pose proof (operand_opens e 7 _ Hfe (foll_rest 0 _ (or_introl Hcl))) as Ho.
  exists R_set. split; [reflexivity|]. apply makes_reduced; [reflexivity|reflexivity|]. cbn [grammar].
  pose proof no_brace as NB. do 6 (apply makes_alt_next; [apply NB|]). clear NB.
  apply makes_alt_next.
  { rewrite <- !app_assoc. apply sem_ref. cbn [grammar]. eapply sem_seq_cons; [apply (sem_lit G [123])|].
    eapply sem_seq_cons; [apply sem_ws_none; eapply opens_nonblank, Ho|].
    eapply sem_seq_cons; [apply sem_star_no; apply no_pair; assumption|].
    eapply sem_seq_cons; [apply sem_opt_no; apply no_pair; assumption|]. apply sem_seq_no. eapply opens_notclose, Ho. }
  apply makes_alt_first.
  destruct (element7 e (p + 1 + 0) _ He Hfe Hs1 Hcl) as (k & Me).
  destruct (loop_items (PSeq [PRef R_comma; PRef R_expr]) tx (kid_ex (fun e => root (sub tree 7 e))) (fun r => exists s, r = 125 :: s) (starts closer) l) with (p := (p + 1 + 0 + List.length (operand (text b) 7 e))%nat) (r := u "}" ++ r) as (kss & K & F).
  - intros z (s & ->). apply sem_seq_no, comma_no. tauto.
  - intros z (s & ->). constructor. unfold closer. tauto.
  - discriminate.
  - intros a z _. constructor. unfold closer. tauto.
  - intros a I q z Hz. pose proof (no_sym_flat tx l _ Hs2 I) as Hn. unfold tx in Hn. apply no_sym_app in Hn. destruct Hn as [_ Hn]. rewrite Forall_forall in Hl'.
    destruct (element7 a (q + List.length (u "," ++ b)) z (Hl' _ I) (Hf' _ (or_intror I)) Hn Hz) as (k2 & M2).
    exists ([] ++ [(k2, SExpr (root (sub tree 7 a)))]). split; [|exists k2; reflexivity]. unfold tx.
    apply seq2; [apply comma_b, nonblank7; [apply Hf'; right; exact I|apply (foll_rest 0); left; exact Hz]|exact M2].
  - exists r. reflexivity.
  - node_of ([(k, SExpr (root (sub tree 7 e)))] ++ List.concat kss).
    + cbn [grammar].
      apply (makes_eq X y full _ p (u "{" ++ [] ++ operand (text b) 7 e ++ flat_map tx l ++ [] ++ [] ++ u "}") _ r ([] ++ [] ++ [(k, SExpr (root (sub tree 7 e)))] ++ List.concat kss ++ [] ++ [] ++ []));
        [cbn [app]; rewrite <- !app_assoc; reflexivity|rewrite !app_nil_r; reflexivity|].
      apply seq7; [apply makes_lit|apply makes_ws; eapply opens_nonblank, Ho|exact Me|apply makes_star; exact K|apply makes_ws; constructor; reflexivity| |apply makes_lit].
      apply makes_opt_no. by_run.
    + cbn [app setup]. destruct (kids_ex (fun e => root (sub tree 7 e)) l (List.concat kss)) as [E _]; [exists kss; split; [exact F|reflexivity]|].
      cbn [mapr as_expr snd bind]. rewrite E. reflexivity.
Qed.

Definition pair_text (a : ex * ex) : str := match a with (k, v) => operand (text b) 7 k ++ b ++ u ":" ++ b ++ text b v end.
Definition pair_tree (a : ex * ex) : expr * expr := match a with (k, v) => (root (sub tree 7 k), root (tree v)) end.
Definition kid_pair (a : ex * ex) (ks : list (option rule * syn)) : Prop := exists k1 k2, ks = [(k1, SExpr (fst (pair_tree a))); (k2, SExpr (snd (pair_tree a)))].
Lemma pair_make a p r : good (fst a) -> good (snd a) -> fine b (fst a) = true -> fine b (snd a) = true -> no_sym y (pair_text a) -> starts closer r ->
  exists ks, makes (PRef R_dict_pair) p (pair_text a) r ks /\ kid_pair a ks.
Proof.
  destruct a as [k v]. cbn [fst snd pair_text]. intros Gk Gv Fk Fv Hs Hr. rewrite !no_sym_app in Hs. destruct Hs as (Sk & _ & _ & _ & Sv).
  assert (Hk : foll 7 (b ++ u ":" ++ b ++ text b v ++ r)) by (right; exists 6%nat; eexists; split; [lia|]; split; [apply tok_pipe|reflexivity]).
  pose proof (operand7 k p _ Gk Fk Sk Hk) as Mk.
  destruct (element v (p + List.length (operand (text b) 7 k) + List.length b + List.length (u ":") + List.length b) r Gv Fv Sv Hr) as (kv & Mv).
  exists ([(Some R_expr_bitwise, SExpr (root (sub tree 7 k)))] ++ [] ++ [] ++ [] ++ [(kv, SExpr (root (tree v)))]). split; [|eexists _, _; reflexivity].
  apply makes_reduced; [reflexivity|reflexivity|]. cbn [grammar].
  apply seq5; [exact Mk|apply makes_ws_b; constructor; reflexivity|apply makes_lit|apply makes_ws_b; eapply opens_nonblank, element_opens; assumption|exact Mv].
Qed.
Lemma pair_nonblank a r : fine b (fst a) = true -> nonblank (pair_text a ++ r).
Proof.
  destruct a as [k v]. cbn [fst pair_text]. intros F. rewrite <- !app_assoc. apply nonblank7; [exact F|]. apply (foll_rest 7). right. exists 6%nat. eexists. split; [lia|]. split; [apply tok_pipe|reflexivity].
Qed.
Lemma kids_pair l ks : is_kids kid_pair l ks -> pairs_of ks = Ok (map pair_tree l).
Proof.
  intros (kss & H & ->). induction H as [|a k l kss (k1 & k2 & ->) H IH]; [reflexivity|]. cbn [List.concat app pairs_of]. rewrite IH. destruct a. reflexivity.
Qed.
Lemma case_dict l : Forall (fun a => good (fst a) /\ good (snd a)) l -> good (XDict l).
Proof.
  intros Hl. apply good_high; [reflexivity|]. intros Hf Hs p r _. cbn [fine] in Hf. pose proof (forallb_all _ _ Hf) as Hf'.
  cbn [text tree] in *. apply no_sym_app in Hs. destruct Hs as [_ Hs]. apply no_sym_app in Hs. destruct Hs as [Hs _].
  change (map _ l) with (map pair_text l) in Hs. change (map (fun a : ex * ex => let (k, v) := a in operand (text b) 7 k ++ b ++ u ":" ++ b ++ text b v) l) with (map pair_text l).
  change (map (fun a : ex * ex => let (k, v) := a in (root (sub tree 7 k), root (tree v))) l) with (map pair_tree l).
  exists R_dict. split; [reflexivity|]. apply makes_reduced; [reflexivity|reflexivity|]. cbn [grammar].
  pose proof no_brace as NB. do 6 (apply makes_alt_next; [apply NB|]). clear NB. apply makes_alt_first.
  destruct l as [|a0 l0] eqn:E0.
  - node_of (@nil (option rule * syn)); [|reflexivity]. cbn [grammar].
    apply (makes_eq X y full _ p (u "{" ++ [] ++ [] ++ [] ++ u "}") _ r ([] ++ [] ++ [] ++ [] ++ [])); [reflexivity|reflexivity|].
    apply seq5; [apply makes_lit|apply makes_ws; constructor; reflexivity|apply makes_star, loop_nil; by_run|apply makes_opt_no; by_run|apply makes_lit].
  - assert (Hne : l <> []) by congruence. rewrite <- E0 in *. clear E0 a0 l0.
    destruct (exists_last Hne) as (l' & a & ->). clear Hne.
    assert (Er : join (u "," ++ b) (map pair_text (l' ++ [a])) = flat_map (fun a => pair_text a ++ u "," ++ b) l' ++ pair_text a).
    { rewrite map_app. cbn [map]. rewrite join_snoc. f_equal. clear. induction l' as [|a l IH]; [reflexivity|]. cbn [map flat_map]. rewrite IH. reflexivity. }
    rewrite Er in *. clear Er. apply no_sym_app in Hs. destruct Hs as [Hs1 Hs2].
    apply Forall_app in Hl. destruct Hl as [Hl Ha]. apply Forall_inv in Ha. destruct Ha as [Ga1 Ga2].
    assert (Hfa : forall a', In a' (l' ++ [a]) -> fine b (fst a') = true /\ fine b (snd a') = true).
    { intros [k v] I. apply Hf' in I. apply andb_true_iff in I. exact I. }
    assert (Hc : starts closer (u "}" ++ r)) by (constructor; unfold closer; tauto).
    set (tx := fun a => pair_text a ++ u "," ++ b) in *.
    assert (Ia : In a (l' ++ [a])) by (apply in_or_app; right; left; reflexivity).
    destruct (pair_make a (p + 1 + 0 + List.length (flat_map tx l')) _ Ga1 Ga2 (proj1 (Hfa _ Ia)) (proj2 (Hfa _ Ia)) Hs2 Hc) as (ka & Ma & Ka).
    destruct (loop_items (PSeq [PRef R_dict_pair; PRef R_comma]) tx kid_pair (fun z => z = pair_text a ++ u "}" ++ r) nonblank l') with (p := (p + 1 + 0)%nat) (r := pair_text a ++ u "}" ++ r) as (kss & K & F).
    + intros z ->. eapply sem_seq_cons; [eapply makes_sem, Ma|]. apply sem_seq_no, comma_no. tauto.
    + intros z ->. apply pair_nonblank, Hfa, Ia.
    + intros a' _ E. unfold tx in E. apply app_eq_nil in E. destruct E as [_ E]. discriminate E.
    + intros a' z I. unfold tx. rewrite <- !app_assoc. apply pair_nonblank, Hfa, in_or_app. left. exact I.
    + intros a' I q z Hz. rewrite Forall_forall in Hl. destruct (Hl _ I) as [G1 G2]. destruct (Hfa a' ltac:(apply in_or_app; left; exact I)) as [F1 F2].
      pose proof (no_sym_flat tx l' _ Hs1 I) as Hn. unfold tx in Hn. apply no_sym_app in Hn. destruct Hn as [Hn _].
      destruct (pair_make a' q ((u "," ++ b) ++ z) G1 G2 F1 F2 Hn ltac:(constructor; unfold closer; tauto)) as (ks & M & Kp).
      exists (ks ++ []). split; [|rewrite app_nil_r; exact Kp]. unfold tx. apply seq2; [exact M|apply comma_b, Hz].
    + reflexivity.
    + node_of (List.concat kss ++ ka).
      * cbn [grammar].
        apply (makes_eq X y full _ p (u "{" ++ [] ++ flat_map tx l' ++ (pair_text a ++ []) ++ u "}") _ r ([] ++ [] ++ List.concat kss ++ (ka ++ []) ++ []));
          [cbn [app]; rewrite <- !app_assoc; reflexivity|cbn [app]; rewrite !app_nil_r; reflexivity|].
        apply seq5; [apply makes_lit| |apply makes_star; rewrite <- !app_assoc; exact K| |apply makes_lit].
        -- apply makes_ws. destruct l' as [|a' l']; cbn [flat_map app]; [|unfold tx at 1]; rewrite <- !app_assoc; apply pair_nonblank, Hfa; left; reflexivity.
        -- apply makes_opt, seq2; [exact Ma|]. apply makes_ws. constructor. reflexivity.
      * cbn [setup]. rewrite (kids_pair (l' ++ [a])); [reflexivity|]. exists (kss ++ [ka]). split; [apply Forall2_app; [exact F|constructor; [exact Ka|constructor]]|].
        rewrite concat_app. cbn [List.concat]. rewrite app_nil_r. reflexivity.
Qed.

(** ** Cases of the induction: calls, indices, members, filters *)

Definition arg_text (a : option str * ex) : str := match a with (Some n, e) => n ++ u "=" ++ text b e | (None, e) => text b e end.
Definition arg_fine (a : option str * ex) : bool := match a with (n, e) => match n with Some n => id_name n | None => true end && fine b e end.
Definition arg_tree (a : option str * ex) : option str * expr := match a with (n, e) => (n, root (tree e)) end.
Definition kid_arg (a : option str * ex) (ks : list (option rule * syn)) : Prop := exists k, ks = [k] /\ as_arg k = Ok (arg_tree a).

Lemma arg_make a p r : good (snd a) -> arg_fine a = true -> no_sym y (arg_text a) -> starts closer r -> exists ks, makes (PRef R_arg) p (arg_text a) r ks /\ kid_arg a ks.
Proof.
  intros Hg Hf Hs Hr. destruct a as [[n|] e]; cbn [arg_text arg_fine snd] in *.
  - apply andb_true_iff in Hf. destruct Hf as [Hn Hf]. apply no_sym_app in Hs. destruct Hs as [_ Hs]. apply no_sym_app in Hs. destruct Hs as [_ Hs].
    destruct (element e (p + List.length n + 0 + 1 + 0) r Hg Hf Hs Hr) as (k & Me).
    exists [(Some R_kwarg, SKwarg n (root (tree e)))]. split; [|eexists; split; reflexivity].
    apply makes_reduced; [reflexivity|reflexivity|]. cbn [grammar]. apply makes_alt_first.
    node_of [(Some R_name_id, SStatic n); (k, SExpr (root (tree e)))]; [|reflexivity]. cbn [grammar].
    apply (makes_eq X y full _ p (n ++ [] ++ u "=" ++ [] ++ text b e) _ r ([(Some R_name_id, SStatic n)] ++ [] ++ [] ++ [] ++ [(k, SExpr (root (tree e)))])); [reflexivity|reflexivity|].
    apply seq5; [apply id_node; [exact Hn|constructor; reflexivity]|apply makes_ws; constructor; reflexivity|apply makes_lit|apply makes_ws; cbn [app]; eapply opens_nonblank, element_opens; assumption|exact Me].
  - destruct (element e p r Hg Hf Hs Hr) as (k & Me). exists [(k, SExpr (root (tree e)))]. split; [|eexists; split; reflexivity].
    apply makes_reduced; [reflexivity|reflexivity|]. cbn [grammar]. apply makes_alt_next; [eapply opens_nokw, element_opens; assumption|]. apply makes_alt_first. exact Me.
Qed.
Lemma arg_nonblank a r : arg_fine a = true -> starts closer r -> nonblank (arg_text a ++ r).
Proof.
  intros Hf Hr. destruct a as [[n|] e]; cbn [arg_text arg_fine] in *.
  - apply andb_true_iff in Hf. destruct Hf as [Hn _]. apply id_parts in Hn. destruct Hn as (c & z & -> & Hc & _). constructor. apply letter_ascii in Hc. unfold cls_blank, cls_in, SP, TAB. cbn. lia.
  - eapply opens_nonblank, element_opens; assumption.
Qed.
Lemma args_join a l : args_text b (text b) (a :: l) = arg_text a ++ flat_map (fun a => u "," ++ b ++ arg_text a) l.
Proof.
  unfold args_text. cbn [map]. rewrite join_cons. f_equal.
  induction l as [|a' l IH]; [reflexivity|]. cbn [map flat_map]. rewrite IH, <- !app_assoc. destruct a' as [[n|] e]; reflexivity.
Qed.
Lemma kids_arg l ks : is_kids kid_arg l ks -> mapr as_arg ks = Ok (map arg_tree l).
Proof.
  intros (kss & H & ->). induction H as [|a k l kss (k1 & -> & E) H IH]; [reflexivity|]. cbn [List.concat app mapr]. rewrite E. cbn [bind]. rewrite IH. reflexivity.
Qed.

Lemma call_make l p r : p_args good l -> forallb arg_fine l = true -> no_sym y (args_text b (text b) l) ->
  exists ks, makes (PSeq [PLit (u "("); PRef R_ws; POpt (PSeq [PRef R_args; PRef R_ws]); PLit (u ")")]) p (u "(" ++ args_text b (text b) l ++ u ")") r ks /\ mapr as_arg ks = Ok (map arg_tree l).
Proof.
  intros Hg Hf Hs. pose proof (forallb_all _ _ Hf) as Hf'. destruct l as [|a l].
  - exists ([] ++ [] ++ [] ++ []). split; [|reflexivity].
    apply (makes_eq X y full _ p (u "(" ++ [] ++ [] ++ u ")") _ r ([] ++ [] ++ [] ++ [])); [reflexivity|reflexivity|].
    apply seq4; [apply makes_lit|apply makes_ws; constructor; reflexivity|apply makes_opt_no; by_run|apply makes_lit].
  - rewrite args_join in *. apply no_sym_app in Hs. destruct Hs as [Hs1 Hs2]. inversion Hg as [|? ? Hga Hgl]; subst.
    set (tx := fun a => u "," ++ b ++ arg_text a) in *.
    assert (Hcl : forall s, starts closer (flat_map tx l ++ 41 :: s)).
    { intros s. destruct l; [|unfold tx; cbn [flat_map]; rewrite <- !app_assoc]; constructor; unfold closer; tauto. }
    destruct (arg_make a (p + 1 + 0) _ Hga (Hf' _ (or_introl eq_refl)) Hs1 (Hcl r)) as (ka & Ma & (kd & -> & Ka)).
    destruct (loop_items (PSeq [PRef R_comma; PRef R_arg]) tx kid_arg (fun r => exists s, r = 41 :: s) (starts closer) l) with (p := (p + 1 + 0 + List.length (arg_text a))%nat) (r := 41 :: r) as (kss & K & F).
    + intros z (s & ->). apply sem_seq_no, comma_no. tauto.
    + intros z (s & ->). constructor. unfold closer. tauto.
    + discriminate.
    + intros a' z _. constructor. unfold closer. tauto.
    + intros a' I q z Hz. pose proof (no_sym_flat tx l _ Hs2 I) as Hn. unfold tx in Hn. apply no_sym_app in Hn. destruct Hn as [_ Hn]. apply no_sym_app in Hn. destruct Hn as [_ Hn].
      unfold p_args in Hgl. rewrite Forall_forall in Hgl.
      destruct (arg_make a' (q + List.length (u "," ++ b)) z (Hgl _ I) (Hf' _ (or_intror I)) Hn Hz) as (k2 & M2 & K2).
      exists k2. split; [|exact K2]. unfold tx. apply (makes_eq X y full _ q ((u "," ++ b) ++ arg_text a') _ z ([] ++ k2)); [rewrite <- app_assoc; reflexivity|reflexivity|].
      apply seq2; [apply comma_b, arg_nonblank; [apply Hf'; right; exact I|exact Hz]|exact M2].
    + exists r. reflexivity.
    + exists ([] ++ [] ++ (([kd] ++ List.concat kss ++ []) ++ []) ++ []). split.
      * apply (makes_eq X y full _ p (u "(" ++ [] ++ ((arg_text a ++ flat_map tx l ++ []) ++ []) ++ u ")") _ r ([] ++ [] ++ (([kd] ++ List.concat kss ++ []) ++ []) ++ [])); [rewrite !app_nil_r; reflexivity|reflexivity|].
        apply seq4; [apply makes_lit| | |apply makes_lit].
        -- apply makes_ws. rewrite !app_nil_r, <- app_assoc. apply arg_nonblank; [apply Hf'; left; reflexivity|apply Hcl].
        -- apply makes_opt, seq2; [|apply makes_ws; constructor; reflexivity]. apply makes_reduced; [reflexivity|reflexivity|]. cbn [grammar].
           apply seq3; [exact Ma|apply makes_star; exact K|].
           apply makes_opt_no. eapply sem_seq_cons; [apply sem_ws_none; constructor; reflexivity|]. apply sem_seq_no. no_lit.
      * cbn [app mapr]. rewrite Ka. cbn [bind]. rewrite !app_nil_r. rewrite (kids_arg l) by (exists kss; split; [exact F|reflexivity]). reflexivity.
Qed.

Definition kid_tail (t : xtail) (ks : list (option rule * syn)) : Prop := exists k, ks = [(k, STail (tail_tree t))].

Lemma member_make n p r : id_name n = true -> stop r -> makes (PRef R_member) p (u "." ++ n) r [(Some R_member, STail (TMember n))].
Proof.
  intros Hn Hr. node_of [(Some R_name_id, SStatic n)]; [|reflexivity]. cbn [grammar].
  apply (makes_eq X y full _ p (u "." ++ [] ++ n) _ r ([] ++ [] ++ [(Some R_name_id, SStatic n)])); [reflexivity|reflexivity|].
  apply seq3; [apply makes_lit| |cbn [List.length app]; rewrite Nat.add_0_r; apply id_node; assumption].
  apply makes_ws. apply id_parts in Hn. destruct Hn as (c & z & -> & Hc & _). constructor. apply letter_ascii in Hc. unfold cls_blank, cls_in, SP, TAB. cbn. lia.
Qed.

Lemma index_make e p r : good e -> fine b e = true -> no_sym y (operand (text b) 7 e) -> makes (PRef R_index) p (u "[" ++ operand (text b) 7 e ++ u "]") r [(Some R_index, STail (TIndex (root (sub tree 7 e))))].
Proof.
  intros He Hf Hs. set (x := operand (text b) 7 e) in *. assert (Hc : starts closer (93 :: r)) by (constructor; unfold closer; tauto).
  assert (Hr : forall L, foll L (93 :: r)) by (intros L; left; exact Hc).
  pose proof (operand_opens e 7 (93 :: r) Hf (foll_rest 0 _ (Hr 0%nat))) as Ho. fold x in Ho. pose proof (opens_nonblank _ _ Ho) as Hn.
  assert (H7 : forall q, mk R_or_expr q x (93 :: r) (sub tree 7 e)) by (intros q; apply (good_operand e 7); [exact He|exact Hf|exact Hs|lia|apply Hr]).
  assert (H0 : forall q, mk R_ifelse_test q x (93 :: r) (sub tree 7 e)).
  { intros q. destruct (H7 q) as (k & M). exists k. apply (climb 7 0 7); [reflexivity|lia|apply Hr|lia| |exact M]. intros _. eapply opens_nonot; [|exact Ho]. lia. }
  destruct (expr_root _ _ _ _ (H0 (p + 1 + 0)%nat)) as (k & M).
  node_of [(Some R_expr_augment, SExpr (root (sub tree 7 e)))]; [|reflexivity]. cbn [grammar].
  apply (makes_eq X y full _ p (u "[" ++ x ++ u "]") _ r ([] ++ [(Some R_expr_augment, SExpr (root (sub tree 7 e)))] ++ [])); [reflexivity|reflexivity|].
  apply seq3; [apply makes_lit| |apply makes_lit]. apply makes_reduced; [reflexivity|reflexivity|]. cbn [grammar].
  assert (Hend : sem (PRef R_ws) (93 :: r) (Some (93 :: r))) by (apply sem_ws_none; constructor; reflexivity).
  apply makes_alt_next.
  { apply sem_ref. cbn [grammar]. eapply sem_seq_cons.
    - apply sem_ref. cbn [grammar]. eapply sem_seq_cons; [apply sem_ws_none; exact Hn|]. eapply sem_seq_cons; [|apply sem_seq_nil].
      apply sem_opt. eapply sem_seq_cons; [|eapply sem_seq_cons; [exact Hend|apply sem_seq_nil]].
      apply sem_ref. cbn [grammar]. eapply sem_seq_cons; [eapply mk_sem, (H7 0%nat)|]. eapply sem_seq_cons; [apply (sem_lit G [])|apply sem_seq_nil].
    - apply sem_seq_no. no_lit. }
  apply makes_alt_first.
  apply (makes_eq X y full _ _ ([] ++ x ++ []) _ _ ([] ++ [(Some R_expr_augment, SExpr (root (sub tree 7 e)))] ++ [])); [apply app_nil_r|reflexivity|].
  apply seq3; [apply makes_ws; exact Hn| |apply makes_ws; constructor; reflexivity].
  node_of [(k, SExpr (sub tree 7 e))]; [|reflexivity]. cbn [grammar]. apply makes_alt_next.
  { apply sem_ref. cbn [grammar app]. eapply sem_seq_cons; [eapply mk_sem, expr_node, (H0 0%nat)|]. eapply sem_seq_cons; [exact Hend|]. apply sem_seq_no. no_lit. }
  apply makes_alt_first. exact M.
Qed.

(** The parts of a slice. *)
Lemma slice_none c p r : c = 58 \/ c = 93 -> makes (PRef R_slice_value) p [] (c :: r) [(Some R_slice_value, SSlice None)].
Proof.
  intros Hc. node_of (@nil (option rule * syn)); [|reflexivity]. cbn [grammar]. apply (seq2 _ _ p [] [] _ [] []).
  - apply makes_ws. constructor. destruct Hc as [-> | ->]; reflexivity.
  - apply makes_opt_no. destruct Hc as [-> | ->]; by_run.
Qed.
Lemma slice_some e pre post c p r : good e -> fine b e = true -> no_sym y (operand (text b) 7 e) -> pre = [] \/ pre = b -> post = b /\ c = 58 \/ post = [] /\ c = 93 ->
  makes (PRef R_slice_value) p (pre ++ operand (text b) 7 e ++ post) (c :: r) [(Some R_slice_value, SSlice (Some (root (sub tree 7 e))))].
Proof.
  intros He Hf Hs Hpre Hpost.
  assert (Hr : foll 7 (post ++ c :: r)).
  { destruct Hpost as [[-> ->]|[-> ->]]; [right; exists 6%nat; eexists; split; [lia|]; split; [apply tok_pipe|reflexivity]|left; constructor; unfold closer; tauto]. }
  assert (Hn : nonblank (operand (text b) 7 e ++ post ++ c :: r)) by (apply nonblank7; [exact Hf|apply (foll_rest 7), Hr]).
  node_of [(Some R_expr_bitwise, SExpr (root (sub tree 7 e)))]; [|reflexivity]. cbn [grammar].
  apply (makes_eq X y full _ p (pre ++ operand (text b) 7 e ++ post) _ (c :: r) ([] ++ ([(Some R_expr_bitwise, SExpr (root (sub tree 7 e)))] ++ []))); [reflexivity|reflexivity|].
  apply seq2; [|apply makes_opt, seq2].
  - rewrite <- app_assoc. destruct Hpre as [-> | ->]; [apply makes_ws|apply makes_ws_b]; exact Hn.
  - apply operand7; assumption.
  - destruct Hpost as [[-> ->]|[-> ->]]; [apply makes_ws_b|apply makes_ws]; constructor; reflexivity.
Qed.
Lemma slice_make x z w p r : p_else good x -> p_else good z -> p_else good w -> fine_tail b (XSlice x z w) = true -> no_sym y (tail_text b (XSlice x z w)) ->
  makes (PRef R_index) p (tail_text b (XSlice x z w)) r [(Some R_index, STail (tail_tree (XSlice x z w)))].
Proof.
  intros Gx Gz Gw Hf Hs. cbn [fine_tail] in Hf. rewrite !andb_true_iff in Hf. destruct Hf as [[Fx Fz] Fw]. cbn [tail_text] in *.
  apply no_sym_app in Hs. destruct Hs as [_ Hs]. apply no_sym_app in Hs. destruct Hs as [Sx Hs]. apply no_sym_app in Hs. destruct Hs as [_ Hs]. apply no_sym_app in Hs. destruct Hs as [Sz Hs].
  apply no_sym_app in Hs. destruct Hs as [Sw _].
  set (vx := match x with Some e => operand (text b) 7 e ++ b | None => [] end) in *.
  set (ot := fun o : option ex => match o with Some e => Some (root (sub tree 7 e)) | None => None end).
  assert (Mx : forall q s, makes (PRef R_slice_value) q vx (58 :: s) [(Some R_slice_value, SSlice (ot x))]).
  { intros q s. subst vx. destruct x as [e|]; [|apply slice_none; tauto]. cbn [p_else] in Gx. apply no_sym_app in Sx. destruct Sx as [Sx _].
    apply (slice_some e [] b 58); [exact Gx|exact Fx|exact Sx|left; reflexivity|left; split; reflexivity]. }
  destruct w as [w|].
  - set (vz := match z with Some e => b ++ operand (text b) 7 e | None => [] end) in *. rewrite !no_sym_app in Sw. destruct Sw as (_ & _ & _ & Sw). cbn [p_else] in Gw.
    set (vb := match z with Some _ => b | None => [] end).
    assert (Mz : forall q s, makes (PRef R_slice_value) q (vz ++ vb) (58 :: s) [(Some R_slice_value, SSlice (ot z))]).
    { intros q s. subst vz vb. destruct z as [e|]; [|apply slice_none; tauto]. cbn [p_else] in Gz. apply no_sym_app in Sz. destruct Sz as [_ Sz]. rewrite <- app_assoc.
      apply (slice_some e b b 58); [exact Gz|exact Fz|exact Sz|right; reflexivity|left; split; reflexivity]. }
    assert (Mw : forall q s, makes (PRef R_slice_value) q (b ++ operand (text b) 7 w) (93 :: s) [(Some R_slice_value, SSlice (ot (Some w)))]).
    { intros q s. rewrite <- (app_nil_r (operand (text b) 7 w)). apply (slice_some w b [] 93); [exact Gw|exact Fw|exact Sw|right; reflexivity|right; split; reflexivity]. }
    node_of ([(Some R_slice_value, SSlice (ot x))] ++ [] ++ [(Some R_slice_value, SSlice (ot z))] ++ ([] ++ [(Some R_slice_value, SSlice (ot (Some w)))])); [|reflexivity]. cbn [grammar].
    apply (makes_eq X y full _ p (u "[" ++ (vx ++ u ":" ++ (vz ++ vb) ++ (u ":" ++ b ++ operand (text b) 7 w)) ++ u "]") _ r
      ([] ++ ([(Some R_slice_value, SSlice (ot x))] ++ [] ++ [(Some R_slice_value, SSlice (ot z))] ++ ([] ++ [(Some R_slice_value, SSlice (ot (Some w)))])) ++ []));
      [subst vb; rewrite <- !app_assoc; reflexivity|reflexivity|].
    apply seq3; [apply makes_lit| |apply makes_lit]. apply makes_reduced; [reflexivity|reflexivity|]. cbn [grammar]. apply makes_alt_first.
    apply makes_reduced; [reflexivity|reflexivity|]. cbn [grammar].
    apply seq4; [apply Mx|apply makes_lit|apply Mz|apply makes_opt, seq2; [apply makes_lit|apply Mw]].
  - set (vz := match z with Some e => b ++ operand (text b) 7 e | None => [] end) in *.
    assert (Mz : forall q s, makes (PRef R_slice_value) q vz (93 :: s) [(Some R_slice_value, SSlice (ot z))]).
    { intros q s. subst vz. destruct z as [e|]; [|apply slice_none; tauto]. cbn [p_else] in Gz. apply no_sym_app in Sz. destruct Sz as [_ Sz]. rewrite <- (app_nil_r (operand (text b) 7 e)).
      apply (slice_some e b [] 93); [exact Gz|exact Fz|exact Sz|right; reflexivity|right; split; reflexivity]. }
    node_of ([(Some R_slice_value, SSlice (ot x))] ++ [] ++ [(Some R_slice_value, SSlice (ot z))] ++ []); [|reflexivity]. cbn [grammar].
    apply (makes_eq X y full _ p (u "[" ++ (vx ++ u ":" ++ vz ++ []) ++ u "]") _ r
      ([] ++ ([(Some R_slice_value, SSlice (ot x))] ++ [] ++ [(Some R_slice_value, SSlice (ot z))] ++ []) ++ []));
      [rewrite !app_nil_r, <- !app_assoc; reflexivity|reflexivity|].
    apply seq3; [apply makes_lit| |apply makes_lit]. apply makes_reduced; [reflexivity|reflexivity|]. cbn [grammar]. apply makes_alt_first.
    apply makes_reduced; [reflexivity|reflexivity|]. cbn [grammar].
    apply seq4; [apply Mx|apply makes_lit|apply Mz|apply makes_opt_no; by_run].
Qed.

Lemma tail_make t p r : p_tail good t -> fine_tail b t = true -> no_sym y (tail_text b t) -> stop r -> exists ks, makes (PRef R_trailer) p (tail_text b t) r ks /\ kid_tail t ks.
Proof.
  intros Hg Hf Hs Hr. destruct t as [n|e|x z w|a].
  3: { exists [(Some R_index, STail (tail_tree (XSlice x z w)))]. split; [|eexists; reflexivity]. apply makes_reduced; [reflexivity|reflexivity|]. cbn [grammar].
    apply makes_alt_next; [cbn [tail_text]; rewrite <- !app_assoc; by_run|]. apply makes_alt_first. apply slice_make; [apply Hg..|exact Hf|exact Hs]. }
  all: cbn [fine_tail tail_text p_tail] in *.
  - exists [(Some R_member, STail (TMember n))]. split; [|eexists; reflexivity]. apply makes_reduced; [reflexivity|reflexivity|]. cbn [grammar].
    do 2 (apply makes_alt_next; [by_run|]). apply makes_alt_first. apply member_make; assumption.
  - exists [(Some R_index, STail (TIndex (root (sub tree 7 e))))]. split; [|eexists; reflexivity]. apply makes_reduced; [reflexivity|reflexivity|]. cbn [grammar].
    apply makes_alt_next; [by_run|]. apply makes_alt_first. apply index_make; [exact Hg|exact Hf|]. apply no_sym_app in Hs. destruct Hs as [_ Hs]. apply no_sym_app in Hs. tauto.
  - destruct (call_make a p r Hg Hf) as (ks & M & K). { apply no_sym_app in Hs. destruct Hs as [_ Hs]. apply no_sym_app in Hs. tauto. }
    exists [(Some R_call, STail (TCall (map arg_tree a)))]. split; [|eexists; reflexivity]. apply makes_reduced; [reflexivity|reflexivity|]. cbn [grammar].
    apply makes_alt_first. node_of ks; [exact M|]. cbn [setup]. rewrite K. reflexivity.
Qed.
Lemma kids_tail l ks : is_kids kid_tail l ks -> tails_of ks = Ok (map tail_tree l, QNone) /\ List.length ks = List.length l.
Proof.
  intros (kss & H & ->). induction H as [|a k l kss (k1 & ->) H IH]; [split; reflexivity|]. destruct IH as [IH1 IH2]. cbn [List.concat app tails_of]. rewrite IH1. split; [reflexivity|].
  cbn [List.length]. rewrite IH2. reflexivity.
Qed.
Lemma tail_first t r : exists c z, tail_text b t ++ r = c :: z /\ (c = 40 \/ c = 91 \/ c = 46).
Proof. destruct t; cbn [tail_text]; rewrite <- !app_assoc; eexists _, _; (split; [reflexivity|tauto]). Qed.

Lemma qual_end c r l : c = 63 \/ c = 33 -> sem (PSeq (PRef R_ws :: PRef R_trailer :: l)) (c :: r) None.
Proof. intros [-> | ->]; (eapply sem_seq_cons; [apply sem_ws_none; constructor; reflexivity|]; apply sem_seq_no; by_run). Qed.
Lemma kids_tail_qual l ks q k : is_kids kid_tail l ks -> tails_of (ks ++ [(k, SQual q)]) = Ok (map tail_tree l, q).
Proof.
  intros (kss & H & ->). induction H as [|a k' l kss (k1 & ->) H IH]; [reflexivity|]. cbn [List.concat app tails_of map].
  destruct (List.concat kss ++ [(k, SQual q)]) eqn:E; rewrite IH; reflexivity.
Qed.
Lemma kids_tail_last l ks : is_kids kid_tail l ks -> l <> [] -> exists ks' k t, ks = ks' ++ [(k, STail t)].
Proof.
  intros (kss & H & ->) Hl. destruct (exists_last Hl) as (l' & t & ->). apply Forall2_app_inv_l in H. destruct H as (kss1 & kss2 & _ & H2 & ->).
  inversion H2 as [|? ks ? ? (k & ->) H3]; subst. inversion H3; subst. exists (List.concat kss1), k, (tail_tree t). rewrite concat_app. reflexivity.
Qed.

Lemma case_tail e l q : good e -> Forall (p_tail good) l -> good (XTail e l q).
Proof.
  intros He Hl. apply good_low; [reflexivity|]. intros Hf Hs p r Hr. cbn [fine] in Hf. rewrite !andb_true_iff in Hf. destruct Hf as [[Hf1 Hne] Hf2]. pose proof (forallb_all _ _ Hf2) as Hf'.
  cbn [prio Nat.eqb] in Hr. cbn [text tree prio rule_of] in *. apply no_sym_app in Hs. destruct Hs as [Hs1 Hs2]. apply no_sym_app in Hs2. destruct Hs2 as [Hs2 _]. rewrite Forall_forall in Hl.
  assert (Ha : forall t s, astop (tail_text b t ++ s)).
  { intros t s. destruct (tail_first t s) as (c & z & -> & H). apply (bracket_rest c z). tauto. }
  assert (Hq : q = QNone /\ l <> [] \/ exists c, qual_text q = [c] /\ (c = 63 /\ q = QOpt \/ c = 33 /\ q = QReq)).
  { destruct q; [left; split; [reflexivity|]; destruct l; discriminate|right; exists 63; split; [reflexivity|tauto]|right; exists 33; split; [reflexivity|tauto]]. }
  assert (Hend : forall l, sem (PSeq (PRef R_ws :: PRef R_trailer :: l)) (qual_text q ++ r) None).
  { intros l'. destruct Hq as [[-> _]|(c & -> & Hc)]; [apply trailer_end, Hr|]. apply qual_end. tauto. }
  assert (Hst : stop (qual_text q ++ r)).
  { destruct Hq as [[-> _]|(c & -> & Hc)]; [eapply foll_stop, Hr|]. constructor. destruct Hc as [[-> _]|[-> _]]; reflexivity. }
  assert (Har : astop (flat_map (tail_text b) l ++ qual_text q ++ r)).
  { destruct l as [|t l']; [|cbn [flat_map]; rewrite <- app_assoc; apply Ha]. destruct Hq as [[_ H]|(c & -> & Hc)]; [congruence|]. apply (bracket_rest c). tauto. }
  destruct (good_atom_qual e p _ He Hf1 Hs1 Har) as (k & M & Kq).
  destruct (loop_items (PSeq [PRef R_ws; PRef R_trailer]) (tail_text b) kid_tail (fun s => s = qual_text q ++ r) (fun r => stop r) l) with (p := (p + List.length (operand (text b) 15 e))%nat) (r := qual_text q ++ r) as (kss & K & F).
  - intros s ->. apply Hend.
  - intros s ->. exact Hst.
  - intros t _ E. destruct (tail_first t []) as (c & z & Ez & _). rewrite E in Ez. discriminate Ez.
  - intros t s _. apply astop_stop, Ha.
  - intros t I q' s Hq'. destruct (tail_make t q' s (Hl _ I) (Hf' _ I) (no_sym_flat _ _ _ Hs2 I) Hq') as (ks & Mt & Kt). exists ks. split; [|exact Kt].
    change ks with ([] ++ ks). change (tail_text b t) with ([] ++ tail_text b t). apply seq2; [|cbn [List.length]; rewrite Nat.add_0_r; exact Mt].
    apply makes_ws. destruct (tail_first t s) as (c & z & -> & H). constructor. destruct H as [->|[->| ->]]; reflexivity.
  - reflexivity.
  - assert (Ik : is_kids kid_tail l (List.concat kss)) by (exists kss; split; [exact F|reflexivity]).
    destruct (kids_tail l (List.concat kss) Ik) as [K1 K2].
    destruct Hq as [[-> Hn]|(c & Ec & Hc)].
    + cbn [qual_text app] in *. assert (Es : sub_qual tree l QNone e = sub tree 15 e) by (unfold sub_qual, sub, root; destruct l; reflexivity). rewrite Es.
      apply (compact_node R_factor _ _ _ ([(k, SExpr (sub tree 15 e))] ++ List.concat kss ++ [])); try reflexivity; try discriminate.
      * cbn [app List.length]. rewrite app_nil_r, K2. destruct l; [congruence|cbn; lia].
      * cbn [grammar]. apply seq3; [rewrite app_nil_l; exact M|apply makes_star; exact K|apply makes_opt_no; eapply qualifier_end, Hr].
      * cbn [app setup as_expr snd bind]. rewrite app_nil_r, K1. reflexivity.
    + rewrite Ec in *. cbn [app] in *.
      assert (Ms : ParseRun.makes_seq X y full [PRef R_atom; PStar (PSeq [PRef R_ws; PRef R_trailer])] p (operand (text b) 15 e ++ flat_map (tail_text b) l) (c :: r) ([(k, SExpr (sub tree 15 e))] ++ List.concat kss)).
      { rewrite <- (app_nil_r (flat_map _ l)), <- (app_nil_r (List.concat kss)). apply seq_cons; [rewrite <- app_assoc; exact M|]. apply seq_cons; [apply makes_star; exact K|apply seq_nil]. }
      assert (Mk : exists kk, as_expr kk = Ok (sub_qual tree l q e) /\ ParseRun.makes_seq X y full ([PRef R_atom; PStar (PSeq [PRef R_ws; PRef R_trailer])] ++ [POpt (PRef R_qualifier)]) p ((operand (text b) 15 e ++ flat_map (tail_text b) l) ++ [c]) r
        (kk :: List.concat kss ++ [(Some R_qualifier, SQual q)])).
      { destruct l as [|t l'].
        - inversion F; subst. cbn [List.concat app] in *. exists (k, SExpr (sub_qual tree [] q e)). split; [reflexivity|]. rewrite <- Kq. exact (makes_seq_qual X y full _ p _ c r q [] _ Hc Ms).
        - destruct (kids_tail_last _ _ Ik ltac:(discriminate)) as (ks' & k' & t' & E). rewrite E in *. exists (k, SExpr (sub tree 15 e)). split; [reflexivity|].
          assert (Er : requal q (k', STail t') = (k', STail t')) by (destruct k'; reflexivity). rewrite <- (app_assoc ks'). cbn [app]. rewrite <- Er at 1. exact (makes_seq_qual X y full _ p _ c r q ((k, SExpr (sub tree 15 e)) :: ks') _ Hc Ms). }
      destruct Mk as (kk & Ek & Mk). apply (compact_node R_factor _ _ _ (kk :: List.concat kss ++ [(Some R_qualifier, SQual q)])); try reflexivity; try discriminate.
      * cbn [List.length]. rewrite app_length. cbn [List.length]. lia.
      * cbn [grammar]. rewrite app_assoc. apply makes_seq_i. exact Mk.
      * cbn [setup]. rewrite Ek. cbn [bind]. rewrite (kids_tail_qual l _ q _ Ik). reflexivity.
Qed.

Lemma filt_end r : starts (fun c => c <> 91 /\ c <> 46) r -> sem (PRef R_trailer_filt) r None.
Proof.
  intros H. assert (K : forall l, sem (PSeq (PLit (u "[") :: l)) r None /\ sem (PSeq (PLit (u ".") :: l)) r None).
  { intros l. destruct H as [|c z [H1 H2]]; split; apply sem_seq_no; no_lit. }
  apply sem_ref. cbn [grammar]. repeat (apply sem_alt_next; [apply sem_ref; cbn [grammar]; apply K|]). apply sem_alt_nil.
Qed.
Definition kid_member (n : str) (ks : list (option rule * syn)) : Prop := ks = [(Some R_member, STail (TMember n))].
Lemma kids_member l ks : is_kids kid_member l ks -> tails_of ks = Ok (map TMember l, QNone) /\ List.length ks = List.length l.
Proof.
  intros (kss & H & ->). induction H as [|a k l kss -> H IH]; [split; reflexivity|]. destruct IH as [IH1 IH2]. cbn [List.concat app tails_of]. rewrite IH1. split; [reflexivity|].
  cbn [List.length]. rewrite IH2. reflexivity.
Qed.
Notation fstop := (starts (fun c => cls_id c = false /\ c <> 34 /\ c <> 39 /\ c <> 91 /\ c <> 46)).

Lemma foll_fstop L r : foll L r -> fstop r /\ starts (fun c => c <> 40) r.
Proof.
  intros [H|(l & s & _ & _ & ->)].
  - split; revert H; apply starts_imp; intros c H; unfold closer, NL in H; [unfold cls_id, cls_az, between|]; lia.
  - destruct b_first as (c & b' & -> & [-> | ->]); split; constructor; repeat split; discriminate.
Qed.

Lemma filt_make e l p r : good e -> fine b e = true -> no_sym y (operand (text b) 15 e) -> forallb id_name l = true -> fstop r ->
  mk R_factor_filt p (operand (text b) 15 e ++ flat_map (fun n => u "." ++ n) l) r (match l with [] => sub tree 15 e | _ => EFactor (sub tree 15 e) (map TMember l) QNone end).
Proof.
  intros He Hf Hs Hn Hr. pose proof (forallb_all _ _ Hn) as Hn'.
  assert (Ha : astop (flat_map (fun n => u "." ++ n) l ++ r)).
  { destruct l as [|n l]; [revert Hr; apply starts_imp; tauto|]. cbn [flat_map]. rewrite <- !app_assoc. apply bracket_rest. tauto. }
  destruct (good_atom e p _ He Hf Hs Ha) as (k & M).
  destruct (loop_items (PRef R_trailer_filt) (fun n => u "." ++ n) kid_member fstop (fun r => stop r) l) with (p := (p + List.length (operand (text b) 15 e))%nat) (r := r) as (kss & K & F).
  - intros s H. apply filt_end. revert H. apply starts_imp. tauto.
  - intros s. apply starts_imp. tauto.
  - discriminate.
  - intros n s _. constructor. reflexivity.
  - intros n I q s Hq. exists [(Some R_member, STail (TMember n))]. split; [|reflexivity]. apply makes_reduced; [reflexivity|reflexivity|]. cbn [grammar].
    apply makes_alt_next; [by_run|]. apply makes_alt_first. apply member_make; [apply Hn', I|exact Hq].
  - exact Hr.
  - destruct (kids_member l (List.concat kss)) as [K1 K2]; [exists kss; split; [exact F|reflexivity]|].
    destruct l as [|n l].
    + inversion F; subst. exists k. apply makes_compact; try reflexivity. cbn [grammar flat_map] in *. rewrite app_nil_r. apply then_nil; [exact M|apply makes_star; exact K].
    + apply (compact_node R_factor_filt _ _ _ ([(k, SExpr (sub tree 15 e))] ++ List.concat kss)); try reflexivity; try discriminate.
      * cbn [app List.length]. rewrite K2. discriminate.
      * cbn [grammar]. apply seq2; [exact M|apply makes_star; exact K].
      * cbn [app setup as_expr snd bind]. rewrite K1. reflexivity.
Qed.

Lemma filter_make f p r : p_filter good f -> fine_filter b f = true -> no_sym y (filter_text b f) -> foll 7 r -> mk R_filter p (filter_text b f) r (filter_tree f).
Proof.
  intros Hg Hf Hs Hr. destruct f as [f l a]. cbn [p_filter fine_filter filter_text filter_tree] in *. destruct Hg as [Hg Ha].
  rewrite !andb_true_iff in Hf. destruct Hf as [[Hf Hl] Hfa]. apply no_sym_app in Hs. destruct Hs as [Hs1 Hs]. apply no_sym_app in Hs. destruct Hs as [Hs2 Hs3].
  destruct (foll_fstop _ _ Hr) as [Hr1 Hr2].
  exists (Some R_filter). destruct a as [a|].
  - apply no_sym_app in Hs3. destruct Hs3 as [_ Hs3]. apply no_sym_app in Hs3. destruct Hs3 as [Hs3 _].
    destruct (filt_make f l p (u "(" ++ args_text b (text b) a ++ u ")" ++ r) Hg Hf Hs1 Hl ltac:(constructor; repeat split; discriminate)) as (k & M).
    destruct (call_make a (p + List.length (operand (text b) 15 f ++ flat_map (fun n => u "." ++ n) l)) r Ha Hfa Hs3) as (ks & Mc & Kc).
    rewrite app_assoc.
    node_of ([(k, SExpr (match l with [] => sub tree 15 f | _ => EFactor (sub tree 15 f) (map TMember l) QNone end))] ++ [(Some R_partial_call, STail (TPartial (map arg_tree a)))]); [|reflexivity].
    cbn [grammar]. apply seq2; [rewrite <- !app_assoc; exact M|]. apply makes_opt. node_of ks; [exact Mc|]. cbn [setup]. rewrite Kc. reflexivity.
  - destruct (filt_make f l p r Hg Hf Hs1 Hl Hr1) as (k & M). rewrite app_nil_r.
    node_of [(k, SExpr (match l with [] => sub tree 15 f | _ => EFactor (sub tree 15 f) (map TMember l) QNone end))]; [|reflexivity].
    cbn [grammar]. apply then_nil; [exact M|]. apply makes_opt_no. apply sem_ref. cbn [grammar]. apply sem_seq_no. destruct Hr2; no_lit.
Qed.
Lemma filter_opens f r : fine_filter b f = true -> foll 7 r -> opens 15 (filter_text b f ++ r).
Proof.
  intros Hf Hr. destruct f as [f l a]. cbn [fine_filter filter_text] in *. rewrite !andb_true_iff in Hf. destruct Hf as [[Hf _] _]. rewrite <- !app_assoc.
  apply operand_opens; [exact Hf|]. destruct l as [|n l]; [|cbn [flat_map]; rewrite <- !app_assoc; apply bracket_rest; tauto].
  destruct a as [a|]; [rewrite <- !app_assoc; apply bracket_rest; tauto|apply (foll_rest 7), Hr].
Qed.

Lemma case_pipe e l : good e -> Forall (p_filter good) l -> good (XPipe e l).
Proof.
  intros He Hl. apply good_low; [reflexivity|]. intros Hf Hs p r Hr. cbn [fine] in Hf. rewrite !andb_true_iff in Hf. destruct Hf as [[Hf1 Hne] Hf2]. pose proof (forallb_all _ _ Hf2) as Hf'.
  cbn [prio Nat.eqb] in Hr. cbn [text tree prio rule_of] in *. apply no_sym_app in Hs. destruct Hs as [Hs1 Hs2]. rewrite Forall_forall in Hl.
  set (tx := fun f => b ++ u ":" ++ b ++ filter_text b f) in *.
  assert (Ht : forall f s, foll 7 (tx f ++ s)).
  { intros f s. unfold tx. rewrite <- !app_assoc. right. exists 6%nat. eexists. split; [lia|]. split; [apply tok_pipe|reflexivity]. }
  assert (Hr' : foll 7 (flat_map tx l ++ r)).
  { destruct l as [|f l']; [discriminate Hne|]. cbn [flat_map]. rewrite <- app_assoc. apply Ht. }
  destruct (good_operand e 7 p _ He Hf1 Hs1 ltac:(lia) Hr') as (k & M).
  destruct (loop_items (PSeq [PRef R_ws; PLit (u ":"); PRef R_ws; PRef R_filter]) tx (kid_ex filter_tree) (foll 6) (foll 7) l) with (p := (p + List.length (operand (text b) 7 e))%nat) (r := r) as (kss & K & F).
  - intros s. apply (ops_end 6), op6.
  - intros s. apply foll_mono. lia.
  - intros f _. unfold tx. apply b_nonempty.
  - intros f s _. apply Ht.
  - intros f I q s Hq. pose proof (no_sym_flat _ _ _ Hs2 I) as Hn. unfold tx in Hn. rewrite !no_sym_app in Hn. destruct Hn as (_ & _ & _ & Hn).
    destruct (filter_make f (q + List.length b + List.length (u ":") + List.length b) s (Hl _ I) (Hf' _ I) Hn Hq) as (k' & M').
    exists ([] ++ [] ++ [] ++ [(k', SExpr (filter_tree f))]). split; [|exists k'; reflexivity]. unfold tx. apply seq4; [apply makes_ws_b; constructor; reflexivity|apply makes_lit| |exact M'].
    apply makes_ws_b. eapply opens_nonblank, filter_opens; [apply Hf', I|exact Hq].
  - exact Hr.
  - destruct (kids_ex filter_tree l (List.concat kss)) as [K1 K2]; [exists kss; split; [exact F|reflexivity]|].
    apply (compact_node R_pipeline _ _ _ ([(k, SExpr (sub tree 7 e))] ++ List.concat kss)); try reflexivity; try discriminate.
    + cbn [app List.length]. rewrite K2. destruct l; [discriminate Hne|cbn; lia].
    + cbn [grammar]. apply seq2; [exact M|apply makes_star; exact K].
    + cbn [app setup mapr as_expr snd bind]. rewrite K1. reflexivity.
Qed.

(** ** Every expression *)

Theorem every_good e : good e.
Proof.
  induction e using ex_all; [apply case_name|apply case_text|apply case_raw|apply case_num|apply case_const|apply case_list|apply case_tuple|apply case_set|apply case_dict|apply case_tail|apply case_ops|apply case_pipe|apply case_cat|apply case_not|apply case_and|apply case_or|apply case_if]; assumption.
Qed.

Theorem expr_make e p r : fine b e = true -> no_sym y (text b e) -> foll 0 r -> mk R_ifelse_test p (text b e) r (tree e).
Proof. intros Hf Hs Hr. apply (good_level e (every_good e) Hf Hs 0); [lia|lia|exact Hr]. Qed.

(** The expression in braces. *)
Lemma augment_make e p r : fine b e = true -> no_sym y (text b e) -> starts (fun c => closer c /\ c <> 44) r ->
  makes (PRef R_expr_augment) p (text b e) r [(Some R_expr_augment, SExpr (root (tree e)))].
Proof. apply augment_good, every_good. Qed.
Lemma braces_make e p r : fine b e = true -> no_sym y (text b e) -> starts (fun c => c <> 63 /\ c <> 33) r ->
  makes (PRef R_embedding) p (u "{" ++ text b e ++ u "}") r [(Some R_expr_augment, SExpr (root (tree e)))].
Proof. apply braces_good, every_good. Qed.

(** ** A factor before a blank or the end of the line *)

Definition sfollow : str -> Prop := starts (fun c => c = SP \/ c = NL \/ (10088 <= c /\ u_digit U c = None /\ cls_xml c = false)).
Lemma sfollow_v r : sfollow r -> vfollow r.
Proof. apply starts_imp. intros c H. tauto. Qed.
Lemma sfollow_astop r : sfollow r -> astop r.
Proof. apply starts_imp. intros c H. unfold SP, NL in H. unfold cls_id, cls_word, cls_az, cls_in, between. cbn. lia. Qed.
Lemma sfollow_numend r : sfollow r -> numend r.
Proof.
  apply starts_imp. intros c H. unfold SP, NL in H. split; [|split; [lia|unfold cls_in; cbn; lia]].
  unfold cls_digit, between. destruct H as [->|[->|(H & Hu & _)]]; [reflexivity..|]. rewrite Hu. lia.
Qed.
Lemma strict_atom e p r : fine b e = true -> no_sym y (operand (text b) 15 e) -> sfollow r -> mk R_factor_strict p (operand (text b) 15 e) r (sub tree 15 e).
Proof.
  intros Hf Hs Hr. destruct (good_atom e p r (every_good e) Hf Hs (sfollow_astop r Hr)) as (k & M). exists k. apply makes_compact; [reflexivity|reflexivity|reflexivity|]. cbn [grammar].
  apply (makes_eq X y full _ p (operand (text b) 15 e ++ [] ++ []) _ r ([(k, SExpr (sub tree 15 e))] ++ [] ++ [])); [rewrite !app_nil_r; reflexivity|reflexivity|].
  apply seq3; [exact M|apply makes_star, loop_nil, no_trailer, sfollow_v, Hr|apply makes_opt_no, no_qualifier, sfollow_v, Hr].
Qed.
Lemma strict_num d p r : d <> [] -> forallb digit d = true -> sfollow r -> mk R_factor_strict p d r (tree (XNum d)).
Proof.
  intros Hn Hd Hr. destruct (number_atom d p r Hn Hd (sfollow_numend r Hr)) as (k & M). exists k. apply makes_compact; [reflexivity|reflexivity|reflexivity|]. cbn [grammar].
  apply (makes_eq X y full _ p (d ++ [] ++ []) _ r ([(k, SExpr (tree (XNum d)))] ++ [] ++ [])); [rewrite !app_nil_r; reflexivity|reflexivity|].
  apply seq3; [exact M|apply makes_star, loop_nil, no_trailer, sfollow_v, Hr|apply makes_opt_no, no_qualifier, sfollow_v, Hr].
Qed.
Lemma strict_tail e l q p r : fine b (XTail e l q) = true -> no_sym y (text b (XTail e l q)) -> sfollow r -> mk R_factor_strict p (text b (XTail e l q)) r (tree (XTail e l q)).
Proof.
  intros Hf Hs Hr. pose proof (every_good e) as He. assert (Hl : Forall (p_tail good) l) by (rewrite Forall_forall; intros t _; destruct t as [n|z|x z w|a]; cbn; [exact Logic.I|apply every_good|destruct x, z, w; cbn; repeat split; apply every_good|unfold p_args; rewrite Forall_forall; intros z _; apply every_good]).
  cbn [fine] in Hf. rewrite !andb_true_iff in Hf. destruct Hf as [[Hf1 Hne] Hf2]. pose proof (forallb_all _ _ Hf2) as Hf'.
  cbn [text tree] in *. apply no_sym_app in Hs. destruct Hs as [Hs1 Hs2]. apply no_sym_app in Hs2. destruct Hs2 as [Hs2 _]. rewrite Forall_forall in Hl.
  assert (Ha : forall t s, astop (tail_text b t ++ s)).
  { intros t s. destruct (tail_first t s) as (c & z & -> & H). apply (bracket_rest c z). tauto. }
  assert (Hq : q = QNone /\ l <> [] \/ exists c, qual_text q = [c] /\ (c = 63 /\ q = QOpt \/ c = 33 /\ q = QReq)).
  { destruct q; [left; split; [reflexivity|]; destruct l; discriminate|right; exists 63; split; [reflexivity|tauto]|right; exists 33; split; [reflexivity|tauto]]. }
  assert (Hend : sem (PRef R_trailer) (qual_text q ++ r) None).
  { destruct Hq as [[-> _]|(c & -> & Hc)]; [apply no_trailer, sfollow_v, Hr|]. destruct Hc as [[-> _]|[-> _]]; by_run. }
  assert (Hst : stop (qual_text q ++ r)).
  { destruct Hq as [[-> _]|(c & -> & Hc)]; [apply astop_stop, sfollow_astop, Hr|]. constructor. destruct Hc as [[-> _]|[-> _]]; reflexivity. }
  assert (Har : astop (flat_map (tail_text b) l ++ qual_text q ++ r)).
  { destruct l as [|t l']; [|cbn [flat_map]; rewrite <- app_assoc; apply Ha]. destruct Hq as [[_ H]|(c & -> & Hc)]; [congruence|]. apply (bracket_rest c). tauto. }
  destruct (good_atom_qual e p _ He Hf1 Hs1 Har) as (k & M & Kq).
  destruct (loop_items (PRef R_trailer) (tail_text b) kid_tail (fun s => s = qual_text q ++ r) (fun r => stop r) l) with (p := (p + List.length (operand (text b) 15 e))%nat) (r := qual_text q ++ r) as (kss & K & F).
  - intros s ->. apply Hend.
  - intros s ->. exact Hst.
  - intros t _ E. destruct (tail_first t []) as (c & z & Ez & _). rewrite E in Ez. discriminate Ez.
  - intros t s _. apply astop_stop, Ha.
  - intros t I q' s Hq'. destruct (tail_make t q' s (Hl _ I) (Hf' _ I) (no_sym_flat _ _ _ Hs2 I) Hq') as (ks & Mt & Kt). exists ks. split; [exact Mt|exact Kt].
  - reflexivity.
  - assert (Ik : is_kids kid_tail l (List.concat kss)) by (exists kss; split; [exact F|reflexivity]).
    destruct (kids_tail l (List.concat kss) Ik) as [K1 K2].
    destruct Hq as [[-> Hn]|(c & Ec & Hc)].
    + cbn [qual_text app] in *. assert (Es : sub_qual tree l QNone e = sub tree 15 e) by (unfold sub_qual, sub, root; destruct l; reflexivity). rewrite Es.
      apply (compact_node R_factor_strict _ _ _ ([(k, SExpr (sub tree 15 e))] ++ List.concat kss ++ [])); try reflexivity; try discriminate.
      * cbn [app List.length]. rewrite app_nil_r, K2. destruct l; [congruence|cbn; lia].
      * cbn [grammar]. apply seq3; [rewrite app_nil_l; exact M|apply makes_star; exact K|apply makes_opt_no; apply no_qualifier, sfollow_v, Hr].
      * cbn [app setup as_expr snd bind]. rewrite app_nil_r, K1. reflexivity.
    + rewrite Ec in *. cbn [app] in *.
      assert (Ms : ParseRun.makes_seq X y full [PRef R_atom; PStar (PRef R_trailer)] p (operand (text b) 15 e ++ flat_map (tail_text b) l) (c :: r) ([(k, SExpr (sub tree 15 e))] ++ List.concat kss)).
      { rewrite <- (app_nil_r (flat_map _ l)), <- (app_nil_r (List.concat kss)). apply seq_cons; [rewrite <- app_assoc; exact M|]. apply seq_cons; [apply makes_star; exact K|apply seq_nil]. }
      assert (Mk : exists kk, as_expr kk = Ok (sub_qual tree l q e) /\ ParseRun.makes_seq X y full ([PRef R_atom; PStar (PRef R_trailer)] ++ [POpt (PRef R_qualifier)]) p ((operand (text b) 15 e ++ flat_map (tail_text b) l) ++ [c]) r
        (kk :: List.concat kss ++ [(Some R_qualifier, SQual q)])).
      { destruct l as [|t l'].
        - inversion F; subst. cbn [List.concat app] in *. exists (k, SExpr (sub_qual tree [] q e)). split; [reflexivity|]. rewrite <- Kq. exact (makes_seq_qual X y full _ p _ c r q [] _ Hc Ms).
        - destruct (kids_tail_last _ _ Ik ltac:(discriminate)) as (ks' & k' & t' & E). rewrite E in *. exists (k, SExpr (sub tree 15 e)). split; [reflexivity|].
          assert (Er : requal q (k', STail t') = (k', STail t')) by (destruct k'; reflexivity). rewrite <- (app_assoc ks'). cbn [app]. rewrite <- Er at 1. exact (makes_seq_qual X y full _ p _ c r q ((k, SExpr (sub tree 15 e)) :: ks') _ Hc Ms). }
      destruct Mk as (kk & Ek & Mk). apply (compact_node R_factor_strict _ _ _ (kk :: List.concat kss ++ [(Some R_qualifier, SQual q)])); try reflexivity; try discriminate.
      * cbn [List.length]. rewrite app_length. cbn [List.length]. lia.
      * cbn [grammar]. rewrite app_assoc. apply makes_seq_i. exact Mk.
      * cbn [setup]. rewrite Ek. cbn [bind]. rewrite (kids_tail_qual l _ q _ Ik). reflexivity.
Qed.
Lemma strict_make e p r : fine b e = true -> no_sym y (operand (text b) 14 e) -> sfollow r -> mk R_factor_strict p (operand (text b) 14 e) r (sub tree 14 e).
Proof.
  intros Hf Hs Hr. pose proof (prio_le e) as Hp. destruct (Nat.eqb_spec (prio e) 14) as [E|E].
  - unfold operand, sub in *. rewrite E in *. cbn [Nat.ltb Nat.leb] in *.
    destruct e as [n|q s l|q s|d|c|l|l|l|l|e l q|n e l|e l|e l|n e|e l|e l|x c y']; try discriminate E.
    + cbn [fine] in Hf. rewrite andb_true_iff in Hf. destruct Hf as [Hn Hd]. apply strict_num; [destruct d; [discriminate Hn|discriminate]|exact Hd|exact Hr].
    + apply strict_tail; assumption.
    + exfalso. destruct l as [|[o z] l]; [discriminate E|]. destruct o; discriminate E.
  - assert (E1 : operand (text b) 14 e = operand (text b) 15 e /\ sub tree 14 e = sub tree 15 e).
    { unfold operand, sub. destruct (Nat.ltb_spec (prio e) 14), (Nat.ltb_spec (prio e) 15); try lia; split; reflexivity. }
    destruct E1 as [E1 E2]. rewrite E1, E2 in *. apply strict_atom; assumption.
Qed.
End Expr.
