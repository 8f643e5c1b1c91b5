(** decode_escapes computes the meaning of escape sequences. *)
From Coq Require Import List NArith ZArith Bool Arith String Lia.
From Verif Require Import PyStr Value Ast Peg Preprocess Grammar Syntax PageSpec OperSpec OperParse OperProofs Ref ConfRef EscSpec.
Import ListNotations.
Local Open Scope string_scope.
Local Open Scope list_scope.
Local Open Scope N_scope.

(** ** Digits *)
Lemma between_iff a b c : between a b c = true <-> a <= c <= b.
Proof. unfold between. rewrite andb_true_iff, !N.leb_le. tauto. Qed.
Lemma between_no a b c : between a b c = false <-> ~ (a <= c <= b).
Proof. rewrite <- between_iff. destruct (between a b c); split; congruence. Qed.
Lemma hex_digit c d : hex c = Some d <-> digit_of 16 c d.
Proof.
  unfold hex, digit_of. destruct (between 48 57 c) eqn:E1; [apply between_iff in E1|apply between_no in E1].
  { split; [intros H; injection H as <-; lia|intros H; f_equal; lia]. }
  destruct (between 97 102 c) eqn:E2; [apply between_iff in E2|apply between_no in E2].
  { split; [intros H; injection H as <-; lia|intros H; f_equal; lia]. }
  destruct (between 65 70 c) eqn:E3; [apply between_iff in E3|apply between_no in E3].
  { split; [intros H; injection H as <-; lia|intros H; f_equal; lia]. }
  split; [discriminate|lia].
Qed.
Lemma octal_iff c d : octal c = Some d <-> digit_of 8 c d.
Proof.
  unfold octal, digit_of. destruct (between 48 55 c) eqn:E1; [apply between_iff in E1|apply between_no in E1].
  { split; [intros H; injection H as <-; lia|intros H; f_equal; lia]. }
  split; [discriminate|lia].
Qed.
Lemma octal_none c : octal c = None <-> ~ octal_digit c.
Proof.
  unfold octal, octal_digit. destruct (between 48 55 c) eqn:E1; [apply between_iff in E1|apply between_no in E1]; split; try discriminate; tauto.
Qed.
Lemma hex_snoc s : forall acc c, hex_go acc (s ++ [c]) = match hex_go acc s with Some n => match hex c with Some d => Some (16 * n + d) | None => None end | None => None end.
Proof.
  induction s as [|a s IH]; intros acc c; cbn [app hex_go]; [destruct (hex c); reflexivity|]. destruct (hex a); [apply IH|reflexivity].
Qed.
Lemma hex_numeral s : forall n, hex_go 0 s = Some n <-> numeral 16 s n.
Proof.
  induction s as [|c s IH] using rev_ind; intros n.
  - split; [intros H; injection H as <-; constructor|]. inversion 1 as [E|s m c d _ _ E]; [reflexivity|destruct s; discriminate].
  - rewrite hex_snoc. split.
    + destruct (hex_go 0 s) as [m|]; [|discriminate]. destruct (hex c) as [d|] eqn:Ec; [|discriminate]. intros H. injection H as <-.
      exact (num_snoc 16 s m c d (proj1 (IH m) eq_refl) (proj1 (hex_digit c d) Ec)).
    + inversion 1 as [E|s' m c' d H1 H2 E]; [destruct s; discriminate|]. apply app_inj_tail in E. destruct E as [-> ->].
      apply IH in H1. rewrite H1. apply hex_digit in H2. rewrite H2. reflexivity.
Qed.

(** ** Octal numerals of up to three digits *)
Lemma numeral_snoc b s c n : numeral b (s ++ [c]) n -> exists m d, numeral b s m /\ digit_of b c d /\ n = b * m + d.
Proof.
  inversion 1 as [E|s' m c' d H1 H2 E]; [destruct s; discriminate|]. apply app_inj_tail in E. destruct E as [-> ->]. eauto.
Qed.
Lemma numeral_nil b n : numeral b [] n -> n = 0.
Proof. inversion 1 as [E|s m c d _ _ E]; [reflexivity|destruct s; discriminate]. Qed.
Lemma oct1 a n : numeral 8 [a] n -> octal a = Some n.
Proof. intros H. apply (numeral_snoc 8 []) in H. destruct H as (m & d & H1 & H2 & ->). apply numeral_nil in H1. subst m. apply octal_iff in H2. rewrite H2. reflexivity. Qed.
Lemma oct2 a b n : numeral 8 [a; b] n -> exists x y, octal a = Some x /\ octal b = Some y /\ n = 8 * x + y.
Proof.
  intros H. apply (numeral_snoc 8 [a]) in H. destruct H as (m & d & H1 & H2 & ->). apply oct1 in H1. apply octal_iff in H2. eauto 6.
Qed.
Lemma oct3 a b c n : numeral 8 [a; b; c] n -> exists x y z, octal a = Some x /\ octal b = Some y /\ octal c = Some z /\ n = 64 * x + 8 * y + z.
Proof.
  intros H. apply (numeral_snoc 8 [a; b]) in H. destruct H as (m & d & H1 & H2 & ->). apply oct2 in H1. destruct H1 as (x & y & Ha & Hb & ->).
  apply octal_iff in H2. exists x, y, d. repeat split; try assumption. lia.
Qed.
Lemma mk1 a x : octal a = Some x -> numeral 8 [a] x.
Proof. intros H. apply octal_iff in H. replace x with (8 * 0 + x) by lia. apply (num_snoc 8 []); [constructor|exact H]. Qed.
Lemma mk2 a b x y : octal a = Some x -> octal b = Some y -> numeral 8 [a; b] (8 * x + y).
Proof. intros Ha Hb. apply octal_iff in Hb. apply (num_snoc 8 [a]); [apply mk1, Ha|exact Hb]. Qed.
Lemma mk3 a b c x y z : octal a = Some x -> octal b = Some y -> octal c = Some z -> numeral 8 [a; b; c] (64 * x + 8 * y + z).
Proof.
  intros Ha Hb Hc. apply octal_iff in Hc. replace (64 * x + 8 * y + z) with (8 * (8 * x + y) + z) by lia. apply (num_snoc 8 [a; b]); [apply mk2; assumption|exact Hc].
Qed.

(** ** The table of single characters *)
Lemma single_iff c v : simple_escape c = Some v <-> In (c, v) single.
Proof.
  unfold simple_escape, single. split.
  - repeat (match goal with |- context [c =? ?k] => destruct (N.eqb_spec c k) as [->|] end; [intros H; injection H as <-; cbn; tauto|]). discriminate.
  - intros I. cbn in I. repeat (destruct I as [I|I]; [injection I as <- <-; reflexivity|]). destruct I.
Qed.
Lemma single_none c : simple_escape c = None <-> forall v, ~ In (c, v) single.
Proof.
  split.
  - intros H v I. apply single_iff in I. congruence.
  - intros H. destruct (simple_escape c) as [v|] eqn:E; [|reflexivity]. apply single_iff in E. destruct (H v E).
Qed.

(** ** Both directions *)
Lemma decode_hex_iff s v : decode_hex s = Ok v <-> numeral 16 s v /\ v <= 0x10FFFF.
Proof.
  unfold decode_hex. rewrite <- hex_numeral. destruct (hex_go 0 s) as [n|]; [|split; [discriminate|intros [H _]; discriminate]].
  destruct (n <=? 1114111) eqn:E; [apply N.leb_le in E|apply N.leb_gt in E].
  - split; [intros H; injection H as <-; split; [reflexivity|exact E]|intros [H _]; congruence].
  - split; [discriminate|intros [H L]; injection H as ->; lia].
Qed.
Lemma is_letter d r n : In (d, n) lettered -> (n <= List.length r)%nat ->
  forall k, decode_go (S k) (92 :: d :: r) = (v <- decode_hex (firstn n r) ;; x <- decode_go k (skipn n r) ;; Ok (v :: x)).
Proof.
  intros I L k. apply Nat.leb_le in L. cbn in I. repeat (destruct I as [I|I]; [injection I as <- <-; cbn [decode_go N.eqb Pos.eqb negb]; rewrite ?L; cbn [andb]; reflexivity|]). destruct I.
Qed.
Lemma not_letter d (r : str) : (forall n, In (d, n) lettered -> (List.length r < n)%nat) ->
  (d =? 85) && Nat.leb 8 (List.length r) = false /\ (d =? 117) && Nat.leb 4 (List.length r) = false /\ (d =? 120) && Nat.leb 2 (List.length r) = false.
Proof.
  intros H. repeat split; match goal with |- (d =? ?k) && _ = false => destruct (N.eqb_spec d k) as [->|]; [|reflexivity] end; apply Nat.leb_gt, H; cbn; tauto.
Qed.
Lemma lettered_one d n m : In (d, n) lettered -> In (d, m) lettered -> m = n.
Proof. intros I J. cbn in I, J. destruct I as [I|[I|[I|[]]]]; destruct J as [J|[J|[J|[]]]]; congruence. Qed.
Lemma letter_dec d (r : str) : (exists n, In (d, n) lettered /\ (n <= List.length r)%nat) \/ (forall n, In (d, n) lettered -> (List.length r < n)%nat).
Proof.
  destruct (in_dec N.eq_dec d (map fst lettered)) as [I|I].
  - apply in_map_iff in I. destruct I as ([d' n] & <- & I). cbn [fst]. destruct (le_lt_dec n (List.length r)) as [L|L]; [left; eauto|right].
    intros m J. rewrite (lettered_one d' n m I J). exact L.
  - right. intros n J. destruct I. apply in_map_iff. exists (d, n). split; [reflexivity|exact J].
Qed.
(** The octal escapes and the rest. *)
Lemma decode_step k d r : (forall n, In (d, n) lettered -> (List.length r < n)%nat) ->
  decode_go (S k) (92 :: d :: r) =
    match octal d with
    | Some a =>
        match r with
        | e :: r2 =>
            match octal e with
            | Some b =>
                match r2 with
                | f :: r3 =>
                    match octal f with
                    | Some g => x <- decode_go k r3 ;; Ok (64 * a + 8 * b + g :: x)
                    | None => x <- decode_go k r2 ;; Ok (8 * a + b :: x)
                    end
                | [] => Ok [8 * a + b]
                end
            | None => x <- decode_go k r ;; Ok (a :: x)
            end
        | [] => Ok [a]
        end
    | None =>
        match simple_escape d with
        | Some v => x <- decode_go k r ;; Ok (v :: x)
        | None => x <- decode_go k (d :: r) ;; Ok (92 :: x)
        end
    end.
Proof.
  intros H. destruct (not_letter d r H) as (H1 & H2 & H3). cbn [decode_go N.eqb Pos.eqb negb]. rewrite H1, H2, H3. reflexivity.
Qed.
Lemma not_lettered_octal d x (r : str) : octal d = Some x -> forall n, In (d, n) lettered -> (List.length r < n)%nat.
Proof. intros H n I. cbn in I. repeat (destruct I as [I|I]; [injection I as <- <-; discriminate H|]). destruct I. Qed.
Lemma not_lettered_single d v (r : str) : In (d, v) single -> forall n, In (d, n) lettered -> (List.length r < n)%nat.
Proof. intros H n I. apply single_iff in H. cbn in I. repeat (destruct I as [I|I]; [injection I as <- <-; discriminate H|]). destruct I. Qed.
Lemma single_octal d v : In (d, v) single -> octal d = None.
Proof. intros I. cbn in I. repeat (destruct I as [I|I]; [injection I as <- <-; reflexivity|]). destruct I. Qed.

Lemma decode_sound k : forall s t, (List.length s <= k)%nat -> decode_go k s = Ok t -> means s t.
Proof.
  induction k as [|k IH]; intros s t L D.
  - destruct s; [|cbn in L; lia]. injection D as <-. constructor.
  - destruct s as [|c r]; [injection D as <-; constructor|]. cbn [List.length] in L.
    destruct (N.eqb_spec c 92) as [->|Hc].
    2:{ cbn [decode_go] in D. destruct (N.eqb_spec c 92) as [|_]; [congruence|]. cbn [negb] in D. destruct (decode_go k r) as [x|e] eqn:E; [|discriminate]. injection D as <-.
        apply means_char; [exact Hc|]. apply IH; [lia|exact E]. }
    destruct r as [|d r]; [injection D as <-; apply means_back; [exact I|constructor]|]. cbn [List.length] in L.
    destruct (letter_dec d r) as [(n & Hn & Ln)|Hn].
    + rewrite (is_letter d r n Hn Ln) in D. destruct (decode_hex (firstn n r)) as [v|e] eqn:Ev; [|discriminate]. cbn [bind] in D.
      destruct (decode_go k (skipn n r)) as [x|e] eqn:E; [|discriminate]. injection D as <-. apply decode_hex_iff in Ev. destruct Ev as [Ev Lv].
      rewrite <- (firstn_skipn n r). apply (means_code d n); [exact Hn|apply firstn_length_le, Ln|exact Ev|exact Lv|]. apply IH; [rewrite skipn_length; lia|exact E].
    + rewrite (decode_step k d r Hn) in D. destruct (octal d) as [a|] eqn:Ea.
      * destruct r as [|e r2].
        { injection D as <-. apply (means_octal [d] a []); [discriminate|cbn; lia|apply mk1, Ea|right; exact I|constructor]. }
        destruct (octal e) as [b|] eqn:Eb.
        -- destruct r2 as [|f r3].
           { injection D as <-. apply (means_octal [d; e] (8 * a + b) []); [discriminate|cbn; lia|apply mk2; assumption|right; exact I|constructor]. }
           cbn [List.length] in L. destruct (octal f) as [g|] eqn:Eg.
           ++ destruct (decode_go k r3) as [x|?] eqn:E; [|discriminate]. injection D as <-.
              apply (means_octal [d; e; f] _ r3); [discriminate|cbn; lia|apply mk3; assumption|left; reflexivity|]. apply IH; [lia|exact E].
           ++ destruct (decode_go k (f :: r3)) as [x|?] eqn:E; [|discriminate]. injection D as <-.
              apply (means_octal [d; e] _ (f :: r3)); [discriminate|cbn; lia|apply mk2; assumption|right; apply octal_none, Eg|]. apply IH; [cbn; lia|exact E].
        -- destruct (decode_go k (e :: r2)) as [x|?] eqn:E; [|discriminate]. injection D as <-.
           apply (means_octal [d] _ (e :: r2)); [discriminate|cbn; lia|apply mk1; assumption|right; apply octal_none, Eb|]. apply IH; [lia|exact E].
      * destruct (simple_escape d) as [v|] eqn:Es.
        -- destruct (decode_go k r) as [x|?] eqn:E; [|discriminate]. injection D as <-. apply means_single; [apply single_iff, Es|]. apply IH; [lia|exact E].
        -- destruct (decode_go k (d :: r)) as [x|?] eqn:E; [|discriminate]. injection D as <-. apply means_back; [|apply IH; [cbn; lia|exact E]].
           split; [apply single_none, Es|]. split; [apply octal_none, Ea|exact Hn].
Qed.
Lemma decode_complete s t : means s t -> forall k, (List.length s <= k)%nat -> decode_go k s = Ok t.
Proof.
  induction 1 as [|c s t Hc H IH|c v s t Hc H IH|c n ds v s t Hc Ln Hv Lv H IH|ds v s t Hd Ld Hv He H IH|s t Hs H IH]; intros k L; cbn [List.length] in L.
  - destruct k; reflexivity.
  - destruct k as [|k]; [lia|]. cbn [decode_go]. destruct (N.eqb_spec c 92) as [|_]; [congruence|]. cbn [negb]. rewrite IH by lia. reflexivity.
  - destruct k as [|k]; [lia|]. rewrite decode_step by exact (not_lettered_single _ _ s Hc). rewrite (single_octal _ _ Hc). apply single_iff in Hc. rewrite Hc, IH by lia. reflexivity.
  - destruct k as [|k]; [lia|]. rewrite app_length in L. rewrite (is_letter c (ds ++ s) n Hc) by (rewrite app_length; lia).
    rewrite firstn_app, skipn_app, <- Ln, Nat.sub_diag, firstn_all, skipn_all, firstn_O, app_nil_r. cbn [app skipn].
    rewrite (proj2 (decode_hex_iff ds v)) by (split; assumption). cbn [bind]. rewrite IH by lia. reflexivity.
  - destruct k as [|k]; [lia|]. rewrite app_length in L. destruct ds as [|a [|b [|c [|]]]]; try (cbn in Ld; lia); [congruence| | |]; cbn [app List.length] in *.
    + apply oct1 in Hv. rewrite decode_step by exact (not_lettered_octal _ _ s Hv). rewrite Hv. destruct He as [He|He]; [discriminate|]. destruct s as [|e s].
      * inversion H; subst. reflexivity.
      * apply octal_none in He. rewrite He, IH by lia. reflexivity.
    + apply oct2 in Hv. destruct Hv as (x & y & Ha & Hb & ->). rewrite decode_step by exact (not_lettered_octal _ _ _ Ha). rewrite Ha, Hb. destruct He as [He|He]; [discriminate|].
      destruct s as [|e s]; [inversion H; subst; reflexivity|]. apply octal_none in He. rewrite He, IH by lia. reflexivity.
    + apply oct3 in Hv. destruct Hv as (x & y & z & Ha & Hb & Hc & ->). rewrite decode_step by exact (not_lettered_octal _ _ _ Ha). rewrite Ha, Hb, Hc, IH by lia. reflexivity.
  - destruct k as [|k]; [lia|]. destruct s as [|d s]; [inversion H; subst; reflexivity|]. destruct Hs as (H1 & H2 & H3). rewrite decode_step by exact H3.
    apply octal_none in H2. apply single_none in H1. rewrite H2, H1, IH by lia. reflexivity.
Qed.

Lemma decode_means s t : decode_escapes s = Ok t <-> means s t.
Proof. split; [apply decode_sound; reflexivity|intros H; apply decode_complete; [exact H|reflexivity]]. Qed.
Lemma decode_raises s : (exists e, decode_escapes s = Raise e) <-> forall t, ~ means s t.
Proof.
  split.
  - intros [e E] t H. apply decode_means in H. congruence.
  - intros H. destruct (decode_escapes s) as [t|e] eqn:E; [|eauto]. apply decode_means in E. destruct (H t E).
Qed.
Lemma decode_error k : forall s e, decode_go k s = Raise e -> e = ValueError.
Proof.
  assert (H16 : forall s e, decode_hex s = Raise e -> e = ValueError).
  { intros s e. unfold decode_hex. destruct (hex_go 0 s) as [n|]; [destruct (n <=? 1114111)|]; congruence. }
  induction k as [|k IH]; intros s e D; [discriminate|]. destruct s as [|c r]; [discriminate|].
  assert (B : forall r (f : str -> str), (x <- decode_go k r ;; Ok (f x)) = Raise e -> e = ValueError).
  { intros r' f. destruct (decode_go k r') as [x|e'] eqn:E; [discriminate|]. intros H. injection H as <-. exact (IH _ _ E). }
  destruct (N.eqb_spec c 92) as [->|Hc].
  2:{ cbn [decode_go] in D. destruct (N.eqb_spec c 92) as [|_]; [congruence|]. exact (B _ (cons c) D). }
  destruct r as [|d r]; [discriminate|]. destruct (letter_dec d r) as [(n & Hn & Ln)|Hn].
  - rewrite (is_letter d r n Hn Ln) in D. destruct (decode_hex (firstn n r)) as [v|e'] eqn:Ev; [exact (B _ (cons v) D)|]. injection D as <-. exact (H16 _ _ Ev).
  - rewrite (decode_step k d r Hn) in D. destruct (octal d) as [a|].
    + destruct r as [|x r2]; [discriminate|]. destruct (octal x) as [b|]; [|exact (B _ (cons a) D)]. destruct r2 as [|f r3]; [discriminate|].
      destruct (octal f); [exact (B _ (cons _) D)|exact (B _ (cons _) D)].
    + destruct (simple_escape d); exact (B _ (cons _) D).
Qed.
Lemma decode_fails s : decode_escapes s = Raise ValueError <-> forall t, ~ means s t.
Proof.
  rewrite <- decode_raises. split; [eauto|]. intros [e E]. rewrite E. f_equal. exact (decode_error _ _ _ E).
Qed.
Lemma means_one s t t' : means s t -> means s t' -> t = t'.
Proof. intros H H'. apply decode_means in H, H'. congruence. Qed.

(** ** Every text can be written *)
Lemma written q s : (forall c, In c s -> special c = false) -> means (str_text q s) s /\ ~ In (quot_char q) (str_text q s) /\ ~ In NL (str_text q s).
Proof.
  intros H. split; [apply decode_means; unfold decode_escapes; apply decode_text; [exact H|reflexivity]|].
  assert (K : forall d, In d (str_text q s) -> d <> NL /\ d <> quot_char q).
  { intros d I. unfold str_text in I. apply in_flat_map in I. destruct I as (c & Ic & Id). destruct (str_char_in q c d (H c Ic) Id) as (_ & K2 & K3 & _). tauto. }
  split; intros I; apply K in I; tauto.
Qed.
Lemma runs_concat s : List.concat (runs s) = s.
Proof.
  induction s as [|c s IH]; [reflexivity|]. cbn [runs]. destruct (runs s) as [|[|d x] l]; cbn [List.concat app] in *.
  - rewrite <- IH. reflexivity.
  - rewrite IH. reflexivity.
  - destruct (special c || special d); cbn [List.concat app]; rewrite <- IH; reflexivity.
Qed.
Lemma literal_script X q s : exists col ps l,
  parse_script X (u "| {" ++ [quot_char q] ++ str_text q s ++ [quot_char q] ++ u "}") = Ok [NBlock [] MNone (BText col [TxLine (LNormal ps)])] /\
  exprs ps = [ERoot (EFormat (map PText l)) QNone] /\ List.concat l = s.
Proof.
  destruct (one_expression X (u " ") (XText q s [])) as (col & ps & H1 & H2); [exact sample_blanks|reflexivity|destruct q; reflexivity|].
  exists col, ps, (runs s). split; [|split; [rewrite H2; cbn [tree flat_map]; rewrite ?app_nil_r; reflexivity|apply runs_concat]].
  rewrite <- H1. cbn [text flat_map]. rewrite <- !app_assoc. reflexivity.
Qed.

(** ** Findings *)
(** The quote cannot be escaped by a backslash, although the escape has a meaning. *)
Lemma quote_finding : exists x t, means x t /\ parse_script conf_lexicon (u "| {""" ++ x ++ u """}") = Raise SyntaxError /\
  parse_script conf_lexicon (u "| {'" ++ x ++ u "'}") = Raise SyntaxError.
Proof.
  exists (u "\'\"""), (u "'"""). split; [apply decode_means; reflexivity|]. split; vm_compute; reflexivity.
Qed.
(** A character by name is read as an embedded expression. *)
Lemma name_finding : exists col, parse_script conf_lexicon (u "| {""\N{DASH}""}") =
  Ok [NBlock [] MNone (BText col [TxLine (LNormal [PText (u " "); PExpr (ERoot (EFormat [PText (u "\N"); PExpr (ERoot (EVar (u "DASH") None) QNone)]) QNone)])])].
Proof. eexists. vm_compute. reflexivity. Qed.
(** A code with wrong digits is an exception of another kind. *)
Lemma digits_finding : parse_script conf_lexicon (u "| {""\xzz""}") = Raise ValueError.
Proof. vm_compute. reflexivity. Qed.
