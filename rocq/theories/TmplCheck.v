(** A decision procedure for the conditions on templates, used in examples. *)
From Coq Require Import List NArith ZArith Bool Arith Lia String.
From Verif Require Import PyStr PyStrFacts Value Ast IndentSpec PageSpec PageFacts OperSpec TmplSpec TmplLines.
Import ListNotations.
Local Open Scope string_scope.
Local Open Scope list_scope.
Local Open Scope N_scope.

Notation given := TmplSpec.given.
Definition inb (x : str) (l : list str) : bool := existsb (str_eqb x) l.
Definition inclb (l l' : list str) : bool := forallb (fun x => inb x l') l.
Lemma inb_ok x l : inb x l = true -> In x l.
Proof. intros H. apply existsb_exists in H. destruct H as (y & I & E). apply str_eqb_eq in E. subst. exact I. Qed.
Lemma inb_no x l : inb x l = false -> ~ In x l.
Proof. intros H I. assert (E : inb x l = true) by (apply existsb_exists; exists x; split; [exact I|apply str_eqb_refl]). congruence. Qed.
Lemma inclb_ok l l' : inclb l l' = true -> incl l l'.
Proof. intros H x I. unfold inclb in H. rewrite forallb_forall in H. apply inb_ok, H, I. Qed.
Lemma attr_nameb_ok n : attr_nameb n = true -> attr_name n.
Proof.
  unfold attr_nameb. destruct n as [|c r]; [discriminate|]. intros H. apply andb_prop in H. destruct H as [Hc Hr]. exists c, r. split; [reflexivity|]. split; [exact Hc|].
  rewrite forallb_forall in Hr. exact Hr.
Qed.

Section Check.
Variable b : str.
Variable known : str -> option bool.

Definition expr_okb (sc : list str) (e : ex) : bool := fine b e && inclb (vars e) sc.
Lemma expr_okb_ok sc e : expr_okb sc e = true -> expr_ok b sc e.
Proof. intros H. apply andb_prop in H. destruct H as [H1 H2]. split; [exact H1|apply inclb_ok, H2]. Qed.
Definition mixed_okb (sc : list str) (x : mixed) : bool :=
  no_nlb (fst x) && forallb (fun a => match a with (e, z) => expr_okb sc e && negb (startswith (u "{") (text b e)) && no_nlb z && match z with c :: _ => negb ((c =? 63) || (c =? 33)) | [] => true end end) (snd x).
Lemma mixed_okb_ok sc x : mixed_okb sc x = true -> mixed_ok b sc x.
Proof.
  intros H. apply andb_prop in H. destruct H as [H1 H2]. rewrite forallb_forall in H2.
  assert (K : forall e z, In (e, z) (snd x) -> expr_ok b sc e /\ startswith (u "{") (text b e) = false /\ ~ In NL z /\ forall c r, z = c :: r -> c <> 63 /\ c <> 33).
  { intros e z I. specialize (H2 _ I). cbn in H2. apply andb_prop in H2. destruct H2 as [H2 H3]. apply andb_prop in H2. destruct H2 as [H2 H4].
    apply andb_prop in H2. destruct H2 as [H2 H5]. split; [apply expr_okb_ok, H2|]. split; [apply negb_true_iff, H5|]. split; [apply no_nlb_ok, H4|]. intros c r ->. apply negb_true_iff, orb_false_iff in H3. destruct H3 as [K1 K2]. apply N.eqb_neq in K1, K2. auto. }
  split; [split; [apply no_nlb_ok, H1|]|]; intros e z I; destruct (K e z I) as ([F V] & Z); [split; [exact F|exact Z]|exact V].
Qed.
Definition style_okb (k : style) (x : mixed) : bool := match k, snd x with Verbatim, _ :: _ => false | _, _ => true end.
Lemma style_okb_ok k x : style_okb k x = true -> style_ok k x.
Proof. intros H ->. unfold style_okb in H. destruct (snd x); [reflexivity|discriminate]. Qed.
Definition word_okb (sc : list str) (a : sigil * word) : bool :=
  match snd a with WText x => nonempty x && forallb word_char x | WExpr e => expr_okb sc e end.
Lemma word_okb_ok sc a : word_okb sc a = true -> word_ok b sc a.
Proof.
  unfold word_okb, word_ok. destruct (snd a) as [x|e]; [|apply expr_okb_ok]. intros H. apply andb_prop in H. destruct H as [H1 H2]. split; [intros ->; discriminate|exact H2].
Qed.
Definition not_numberb (l : list (sigil * word)) : bool := match l with (Class, WText (c :: _)) :: _ => negb (digit c) | _ => true end.
Definition given_okb (sc : list str) (g : given) : bool :=
  expr_okb sc (given_expr g) && match g with GBare _ => negb (startswith (u "{") (given_text b g)) | GBraced _ => true end.
Lemma given_okb_ok sc g : given_okb sc g = true -> given_ok b sc g.
Proof.
  unfold given_okb, given_ok. intros H. apply andb_prop in H. destruct H as [H1 H2]. split; [apply expr_okb_ok, H1|]. destruct g; [apply negb_true_iff, H2|exact Logic.I].
Qed.
Definition tattr_okb (sc : list str) (a : attr) : bool :=
  match a with
  | AVal n g => attr_nameb n && given_okb sc g
  | AShort l => nonempty l && forallb (word_okb sc) l && not_numberb l
  end.
Lemma mem_no c z : negb (mem c z) = true -> ~ In c z.
Proof. intros H I. apply mem_In in I. rewrite I in H. discriminate. Qed.
Lemma forallb_Forall {A} (f : A -> bool) (Q : A -> Prop) l : (forall x, f x = true -> Q x) -> forallb f l = true -> Forall Q l.
Proof. intros K H. rewrite forallb_forall in H. apply Forall_forall. intros x I. apply K, H, I. Qed.
Lemma tattr_okb_ok sc a : tattr_okb sc a = true -> tattr_ok b sc a.
Proof.
  destruct a as [n g|l]; unfold tattr_okb, tattr_ok; intros H.
  - apply andb_prop in H. destruct H as [H1 H2]. split; [apply attr_nameb_ok, H1|apply given_okb_ok, H2].
  - apply andb_prop in H. destruct H as [H H3]. apply andb_prop in H. destruct H as [H1 H2]. split; [intros ->; discriminate|].
    split; [exact (forallb_Forall _ _ _ (word_okb_ok sc) H2)|]. unfold not_number. destruct l as [|[[] [[|c r]|]] l]; try exact Logic.I. apply negb_true_iff, H3.
Qed.
Definition tag_okb (sc : list str) (g : tagx) : bool :=
  match g with (n, l, a) => name_okb n && negb (startswith (u "else") n) && negb (startswith (u "elif") n) && forallb (word_okb sc) l && forallb (tattr_okb sc) a end.
Lemma no_prefix x n : negb (startswith x n) = true -> ~ is_prefix x n.
Proof. intros H [r ->]. rewrite PyStrFacts.startswith_app in H. discriminate. Qed.
Lemma tag_okb_ok sc g : tag_okb sc g = true -> tag_ok b sc g.
Proof.
  destruct g as [[n l] a]. unfold tag_okb, tag_ok. intros H. apply andb_prop in H. destruct H as [H H5]. apply andb_prop in H. destruct H as [H H4]. apply andb_prop in H. destruct H as [H H3].
  apply andb_prop in H. destruct H as [H1 H2]. split; [apply name_okb_ok, H1|]. split; [apply no_prefix, H2|]. split; [apply no_prefix, H3|].
  split; [exact (forallb_Forall _ _ _ (word_okb_ok sc) H4)|exact (forallb_Forall _ _ _ (tattr_okb_ok sc) H5)].
Qed.
Fixpoint chain_knownb (v : bool) (g : list tagx) : bool :=
  match g with
  | [] => false
  | [(n, _, _)] => match known n with Some t => implb t v | None => false end
  | (n, _, _) :: r => match known n with Some false => true | _ => false end && chain_knownb v r
  end.
Lemma chain_knownb_ok v g : chain_knownb v g = true -> chain_known known v g.
Proof.
  induction g as [|[[n l] a] g IH]; [discriminate|]. destruct g as [|t g].
  - cbn. destruct (known n) as [t|]; [|discriminate]. intros H. exists t. split; [reflexivity|]. intros ->. exact H.
  - intros H. change (match known n with Some false => true | _ => false end && chain_knownb v (t :: g) = true) in H. apply andb_prop in H. destruct H as [H1 H2].
    change (known n = Some false /\ chain_known known v (t :: g)). split; [|exact (IH H2)]. destruct (known n) as [[|]|]; try discriminate. reflexivity.
Qed.
Definition indent_okb (w : str) : bool := nonempty w && forallb (fun c => (c =? SP) || (c =? TAB)) w.
Lemma indent_okb_ok w : indent_okb w = true -> indent_ok w.
Proof.
  intros H. apply andb_prop in H. destruct H as [H1 H2]. split; [intros ->; discriminate|]. rewrite forallb_forall in H2. intros c I. specialize (H2 c I). apply orb_prop in H2.
  destruct H2 as [K|K]; apply N.eqb_eq in K; auto.
Qed.
Fixpoint calmb (l : list tmpl) : bool := match l with [] => true | t :: r => Nat.eqb (gap t) 0 && (contents t || calmb r) end.
Lemma calmb_ok l : calmb l = true -> calm l.
Proof.
  induction l as [|t l IH]; [intros _; exact Logic.I|]. cbn. intros H. apply andb_prop in H. destruct H as [H1 H2]. split; [apply Nat.eqb_eq, H1|].
  apply orb_prop in H2. destruct H2 as [K|K]; [left; exact K|right; exact (IH K)].
Qed.
Definition targets_okb (outer xs : list str) : bool := nonempty xs && forallb (fun x => var_name x && negb (inb x outer)) xs.
Lemma targets_okb_ok outer xs : targets_okb outer xs = true -> targets_ok outer xs.
Proof.
  intros H. apply andb_prop in H. destruct H as [H1 H2]. split; [intros ->; discriminate|]. rewrite forallb_forall in H2. intros x I. specialize (H2 x I). apply andb_prop in H2.
  destruct H2 as [K1 K2]. split; [exact K1|]. apply inb_no, negb_true_iff, K2.
Qed.

Definition head_okb (n : str) : bool := name_okb n && negb (startswith (u "else") n) && negb (startswith (u "elif") n).
Lemma head_okb_ok n : head_okb n = true -> head_ok n.
Proof.
  intros H. apply andb_prop in H. destruct H as [H H3]. apply andb_prop in H. destruct H as [H1 H2]. split; [apply name_okb_ok, H1|]. split; apply no_prefix; assumption.
Qed.
Definition use_okb (sc : list str) (h : use) : bool :=
  match h with (n, pos, a) => head_okb n && forallb (given_okb sc) pos && forallb (tattr_okb sc) a end.
Lemma use_okb_ok sc h : use_okb sc h = true -> use_ok b sc h.
Proof.
  destruct h as [[n pos] a]. unfold use_okb, use_ok. intros H. apply andb_prop in H. destruct H as [H H3]. apply andb_prop in H. destruct H as [H1 H2]. split; [apply head_okb_ok, H1|].
  split; [exact (forallb_Forall _ _ _ (given_okb_ok sc) H2)|exact (forallb_Forall _ _ _ (tattr_okb_ok sc) H3)].
Qed.

Ltac split_and := repeat match goal with K : _ && _ = true |- _ => apply andb_prop in K; destruct K end.
Lemma nonempty_ne {A} (l : list A) : nonempty l = true -> l <> [].
Proof. intros H ->. discriminate. Qed.
Definition para_okb (sc : list str) (k : style) (p : para) : bool :=
  style_okb k (fst p) && mixed_okb sc (fst p) &&
  forallb (fun a => match a with (m, n, x) => Nat.ltb 0 n && style_okb k x && mixed_okb sc x && begun (mixed_text b k x) end) (snd p).
Lemma para_okb_ok sc k p : para_okb sc k p = true -> para_ok b sc k p.
Proof.
  intros H. unfold para_okb in H. split_and. split; [apply style_okb_ok; assumption|]. split; [apply mixed_okb_ok; assumption|].
  eapply forallb_Forall; [|eassumption]. intros [[m n] x] K. split_and. split; [apply Nat.ltb_lt; assumption|]. split; [apply style_okb_ok; assumption|]. split; [apply mixed_okb_ok; assumption|assumption].
Qed.
Definition note_okb (x : str) (tl : list (nat * nat * str)) : bool :=
  no_nlb x && forallb (fun a => match a with (m, n, z) => Nat.ltb 0 n && no_nlb z && begun z end) tl.
Lemma note_okb_ok x tl : note_okb x tl = true -> note_ok x tl.
Proof.
  unfold note_okb. intros H. apply andb_prop in H. destruct H as [H1 H2]. split; [apply no_nlb_ok; exact H1|]. rewrite forallb_forall in H2. apply Forall_forall. intros [[m n] z] I.
  specialize (H2 _ I). cbn beta iota in H2. apply andb_prop in H2. destruct H2 as [H2 H4]. apply andb_prop in H2. destruct H2 as [H2 H3]. split; [apply Nat.ltb_lt, H2|]. split; [apply no_nlb_ok, H3|exact H4].
Qed.
Section Lists.
Variable f : list str -> list str -> tmpl -> bool.
Definition wftsb (outer : list str) : list str -> list tmpl -> bool :=
  fix go (own : list str) (l : list tmpl) : bool :=
    match l with [] => true | t :: l => f outer own t && go (after own t) l end.
End Lists.
Section Blocks.
Variables (hy : list str) (bn : option str).
Fixpoint wftb (outer own : list str) (t : tmpl) {struct t} : bool :=
  match t with
  | TLine m k x => para_okb (own ++ outer) k x
  | TNote m h x tl => note_okb x tl
  | TLeaf m g c => forallb (tag_okb (own ++ outer)) g && chain_knownb (match c with Some _ => false | None => true end) g &&
      match c with Some (k, x) => para_okb (own ++ outer) k x | None => true end
  | TNode m g w kids => forallb (tag_okb (own ++ outer)) g && chain_knownb false g && indent_okb w && nonempty kids && wftsb wftb (own ++ outer) [] kids
  | TIf m cs els => nonempty cs && forallb (fun c => match c with (e, (w, kids)) =>
        expr_okb (own ++ outer) e && (indent_okb w && nonempty kids && calmb kids && wftsb wftb outer own kids) end) cs &&
      match els with Some (w, kids) => indent_okb w && nonempty kids && calmb kids && wftsb wftb outer own kids | None => true end
  | TFor m xs e w kids => expr_okb (own ++ outer) e && targets_okb outer xs && indent_okb w && nonempty kids && calmb kids && wftsb wftb outer (xs ++ own) kids
  | TWhile m e w kids els => expr_okb (own ++ outer) e && indent_okb w && nonempty kids && calmb kids && wftsb wftb outer own kids &&
      match els with Some (w, kids) => indent_okb w && nonempty kids && calmb kids && wftsb wftb outer own kids | None => true end
  | TTry m alts => nonempty alts && forallb (fun a => match a with (w, kids) => indent_okb w && nonempty kids && calmb kids && wftsb wftb (own ++ outer) [] kids end) alts
  | TSet m xs e => expr_okb (own ++ outer) e && targets_okb outer xs
  | TAug m x o e => expr_okb (own ++ outer) e && inb x own && targets_okb outer [x] && inplace o
  | TUse m h c => use_okb (own ++ outer) h && inb (fst (fst h)) hy && match c with Some (k, x) => para_okb (own ++ outer) k x | None => true end
  | TBlock m h w kids => use_okb (own ++ outer) h && inb (fst (fst h)) hy && indent_okb w && nonempty kids && calmb kids && wftsb wftb (own ++ outer) [] kids
  | TBody m n => match bn with Some x => str_eqb x n | None => false end
  end.
Lemma wftsb_ok l : Forall (fun t => forall outer own, wftb outer own t = true -> wft b known hy bn outer own t) l ->
  forall outer own, wftsb wftb outer own l = true -> wfts b known hy bn outer own l.
Proof.
  intros H. induction H as [|t l Ht H IH]; intros outer own K; [constructor|]. cbn [wftsb] in K. apply andb_prop in K. destruct K. constructor; [apply Ht|apply IH]; assumption.
Qed.
Lemma wftb_ok t : forall outer own, wftb outer own t = true -> wft b known hy bn outer own t.
Proof.
  induction t as [m k x|m h x tl|m g c|m g w kids IH|m cs els IHc IHe|m xs e w kids IH|m e w kids els IH IHe|m alts IHa|m xs e|m x o e|m h c|m h w kids IH|m n] using tmpl_ind'; intros outer own H; cbn [wftb] in H; split_and.
  - constructor. apply para_okb_ok; assumption.
  - constructor. apply note_okb_ok. assumption.
  - constructor; [eapply forallb_Forall; [apply tag_okb_ok|eassumption]|apply chain_knownb_ok; assumption|]. intros k x ->. split_and. apply para_okb_ok; assumption.
  - constructor; [eapply forallb_Forall; [apply tag_okb_ok|eassumption]|apply chain_knownb_ok; assumption|apply indent_okb_ok; assumption|apply nonempty_ne; assumption|apply wftsb_ok; assumption].
  - constructor; [apply nonempty_ne; assumption| | |].
    + match goal with K : forallb _ cs = true |- _ => rewrite forallb_forall in K; rename K into Kc end. apply Forall_forall. intros [e [w kids]] I. specialize (Kc _ I). cbn in Kc.
      split_and. apply expr_okb_ok. assumption.
    + match goal with K : forallb _ cs = true |- _ => rename K into Kc end. clear - Kc IHc. induction cs as [|[e [w kids]] cs IHs]; [constructor|]. inversion IHc; subst.
      cbn [forallb] in Kc. split_and. cbn [map snd]. constructor; [apply indent_okb_ok; assumption|apply nonempty_ne; assumption|apply calmb_ok; assumption|apply wftsb_ok; assumption|].
      apply IHs; assumption.
    + destruct els as [[w kids]|]; [|constructor]. split_and. constructor; [apply indent_okb_ok; assumption|apply nonempty_ne; assumption|apply calmb_ok; assumption|apply wftsb_ok; assumption|constructor].
  - constructor; [apply expr_okb_ok; assumption|apply targets_okb_ok; assumption|apply indent_okb_ok; assumption|apply nonempty_ne; assumption|apply calmb_ok; assumption|apply wftsb_ok; assumption].
  - constructor; [apply expr_okb_ok; assumption|apply indent_okb_ok; assumption|apply nonempty_ne; assumption|apply calmb_ok; assumption|apply wftsb_ok; assumption|].
    destruct els as [[w1 kids1]|]; [|constructor]. split_and. constructor; [apply indent_okb_ok; assumption|apply nonempty_ne; assumption|apply calmb_ok; assumption|apply wftsb_ok; assumption|constructor].
  - constructor; [apply nonempty_ne; assumption|]. match goal with K : forallb _ alts = true |- _ => rename K into Kc end. clear - Kc IHa. induction alts as [|[w kids] alts IHs]; [constructor|]. inversion IHa; subst.
    cbn [forallb] in Kc. split_and. constructor; [apply indent_okb_ok; assumption|apply nonempty_ne; assumption|apply calmb_ok; assumption|apply wftsb_ok; assumption|].
    apply IHs; assumption.
  - constructor; [apply expr_okb_ok; assumption|apply targets_okb_ok; assumption].
  - constructor; [apply expr_okb_ok; assumption|apply inb_ok; assumption|apply targets_okb_ok; assumption|assumption].
  - constructor; [apply use_okb_ok; assumption|apply inb_ok; assumption|]. intros k x ->. split_and. apply para_okb_ok; assumption.
  - constructor; [apply use_okb_ok; assumption|apply inb_ok; assumption|apply indent_okb_ok; assumption|apply nonempty_ne; assumption|apply calmb_ok; assumption|apply wftsb_ok; assumption].
  - constructor. destruct bn as [x|]; [|discriminate]. apply str_eqb_eq in H. subst. reflexivity.
Qed.
Theorem check_ok outer own l : wftsb wftb outer own l = true -> wfts b known hy bn outer own l.
Proof. apply wftsb_ok, Forall_forall. intros t _. apply wftb_ok. Qed.
End Blocks.

Fixpoint distinctb (l : list str) : bool := match l with [] => true | x :: r => negb (inb x r) && distinctb r end.
Lemma distinctb_ok l : distinctb l = true -> NoDup l.
Proof. induction l as [|x l IH]; [constructor|]. cbn. intros H. apply andb_prop in H. destruct H as [H1 H2]. constructor; [apply inb_no, negb_true_iff, H1|exact (IH H2)]. Qed.
Fixpoint wfdb (vis hy : list str) (ds : list def) : bool :=
  match ds with
  | [] => true
  | DNote m h x tl :: ds => note_okb x tl && wfdb vis hy ds
  | Def m n bn ps w kids :: ds =>
      let own := map fst ps in
      let body := match bn with Some x => [x] | None => [] end in
      head_okb n && match known n with None => true | _ => false end && negb (inb n hy) && distinctb (body ++ own) &&
      forallb (fun x => var_name x && negb (inb x vis)) (body ++ own) &&
      forallb (fun p => match snd p with Some g => given_okb vis g | None => true end) ps &&
      indent_okb w && nonempty kids && calmb kids && Nat.leb (uses_all kids) 1 && wftsb (wftb hy bn) (body ++ vis) own kids && wfdb vis (n :: hy) ds
  end.
Theorem check_defs vis ds : forall hy, wfdb vis hy ds = true -> wfd b known vis hy ds.
Proof.
  induction ds as [|[m n bn ps w kids|m h x tl] ds IH]; intros hy H; [constructor| |cbn [wfdb] in H; apply andb_prop in H; destruct H as [H1 H2]; constructor; [apply note_okb_ok, H1|apply IH, H2]]. cbn [wfdb] in H. cbv zeta in H. split_and. constructor.
  - apply head_okb_ok. assumption.
  - destruct (known n); [discriminate|reflexivity].
  - apply inb_no, negb_true_iff. assumption.
  - apply distinctb_ok. assumption.
  - match goal with K : forallb _ (_ ++ _) = true |- _ => rewrite forallb_forall in K; rename K into Kc end. intros x I. specialize (Kc x I). apply andb_prop in Kc. destruct Kc as [K1 K2].
    split; [exact K1|]. apply inb_no, negb_true_iff, K2.
  - match goal with K : forallb _ ps = true |- _ => rewrite forallb_forall in K; rename K into Kc end. intros x g I. apply given_okb_ok. exact (Kc _ I).
  - apply indent_okb_ok. assumption.
  - apply nonempty_ne. assumption.
  - apply calmb_ok. assumption.
  - apply Nat.leb_le. assumption.
  - apply check_ok. assumption.
  - apply IH. assumption.
Qed.
End Check.
