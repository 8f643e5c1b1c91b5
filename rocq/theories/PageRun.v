(** Analysis and translation of the syntax trees of pages. *)
From Coq Require Import List NArith ZArith Bool Lia Arith String.
From Verif Require Import PyStr PyStrFacts Html HtmlFacts Indent IndentSpec IndentFacts PyDict Value Dom DomSpec DomFacts Ast Peg Grammar Syntax
  PageSpec PageFlat PageParse PageRender Machine Eval Translate Structs StructsSpec StructsFacts Analyse MachineFacts ScopeFacts LocalFacts RenderFacts ExportFacts.
Import ListNotations.
Local Open Scope string_scope.
Local Open Scope list_scope.
Local Open Scope nat_scope.

(** ** Analysis *)
Lemma rmap_same {A} (f : A -> result A) l : Forall (fun x => f x = Ok x) l -> rmap f l = Ok l.
Proof. intros H. induction H as [|x l Hx H IH]; [reflexivity|]. cbn [rmap]. rewrite Hx. cbn [bind]. rewrite IH. reflexivity. Qed.

Lemma an_textp c qs : rmap (an_part c) (textp qs) = Ok (textp qs).
Proof. apply rmap_same, Forall_forall. intros p I. apply in_map_iff in I. destruct I as (q & <- & _). reflexivity. Qed.
Lemma an_titems c k z l : titems k z l -> rmap (an_titem c) l = Ok l.
Proof.
  intros H. destruct k; destruct H as [[_ ->]|[_ H]]; try reflexivity.
  - destruct H as (qs & -> & _). cbn [rmap an_titem an_line]. rewrite an_textp. reflexivity.
  - destruct H as (qs & -> & _). cbn [rmap an_titem an_line]. rewrite an_textp. reflexivity.
  - subst l. reflexivity.
Qed.
Lemma an_attrs c a es : Forall2 attr_expr a es -> rmap (an_named c) es = Ok es.
Proof.
  intros H. apply rmap_same. induction H as [|x [n e] a es (_ & qs & E & _) H IH]; constructor; [|exact IH].
  cbn [snd] in E. subst e. cbn [an_named].
  assert (E : an_expr c (ERoot (EFormat (textp qs)) QNone) = (e <- (l <- rmap (an_part c) (textp qs) ;; Ok (EFormat l)) ;; Ok (ERoot e QNone))) by reflexivity.
  rewrite E, an_textp. reflexivity.
Qed.

Section Analysis.
  Context {W : Type}.
  Variable import_module : str -> M W module.
  Variable context : list (str * val).
  Variable known : str -> option bool.

  Definition slots_of (d : multidict sinfo) (n : str) : option nat := option_map sl_id (md_get (TAG n) d).
  Definition has_tags (d : multidict sinfo) : Prop := forall n v, known n = Some v -> exists x, md_get (TAG n) d = Some x.

  (** computations that leave the machine and the names alone *)
  Definition keeps {A} (x : AM (W := W) A) (c : ctx) (m : mach W) (Q : A -> Prop) : Prop :=
    exists a c', x c m = (Done (a, c'), m) /\ c_md c' = c_md c /\ c_regular c' = c_regular c /\ c_control c' = c_control c /\ c_hyper c' = c_hyper c /\ Q a.

  Lemma abind_done {A B} (x : AM (W := W) A) (f : A -> AM B) c m a c' m' : x c m = (Done (a, c'), m') -> abind x f c m = f a c' m'.
  Proof. intros E. unfold abind, mbind. rewrite E. reflexivity. Qed.

  Lemma keeps_items kids : forall is, Forall2 (fun t i => wf known t -> forall c m, has_tags (c_md c) -> keeps (an_item import_module context i) c m (like (slots_of (c_md c)) t)) kids is ->
    Forall (wf known) kids -> forall c m, has_tags (c_md c) ->
    keeps (amap (an_item import_module context) is) c m (Forall2 (like (slots_of (c_md c))) kids).
  Proof.
    intros is H. induction H as [|t i kids is Ht H IH]; intros Hw c m HT.
    - exists [], c. repeat split. constructor.
    - inversion Hw; subst. destruct (Ht H2 c m HT) as (i' & c1 & E1 & M1 & R1 & C1 & H1 & L1).
      assert (HT1 : has_tags (c_md c1)) by (rewrite M1; exact HT).
      destruct (IH H3 c1 m HT1) as (is' & c2 & E2 & M2 & R2 & C2 & H2' & L2).
      exists (i' :: is'), c2. cbn [amap]. rewrite (abind_done _ _ _ _ _ _ _ E1), (abind_done _ _ _ _ _ _ _ E2).
      split; [reflexivity|]. rewrite M2, R2, C2, H2'. repeat split; try assumption. constructor; [exact L1|]. rewrite <- M1. exact L2.
  Qed.
  Lemma amap_app_done {A B} (g : A -> AM (W := W) B) l1 : forall l2 c m r1 c1 m1 r2 c2 m2, amap g l1 c m = (Done (r1, c1), m1) -> amap g l2 c1 m1 = (Done (r2, c2), m2) ->
    amap g (l1 ++ l2) c m = (Done (r1 ++ r2, c2), m2).
  Proof.
    induction l1 as [|x l1 IH]; intros l2 c m r1 c1 m1 r2 c2 m2 E1 E2.
    - cbn in E1. unfold aret, ret in E1. injection E1 as <- <- <-. exact E2.
    - cbn [app amap] in *. apply abind_inv in E1. destruct E1 as (y & c3 & m3 & Ey & E1). apply abind_inv in E1. destruct E1 as (ys & c4 & m4 & Eys & E1).
      apply aret_inv in E1. destruct E1 as (-> & -> & ->). rewrite (abind_done _ _ _ _ _ _ _ Ey). rewrite (abind_done _ _ _ _ _ _ _ (IH _ _ _ _ _ _ _ _ _ Eys E2)). reflexivity.
  Qed.
  Lemma amap_marks l : Forall (fun i => match i with NIndent _ | NDedent _ | NMargin _ => True | _ => False end) l ->
    forall c m, amap (an_item import_module context) l c m = (Done (l, c), m).
  Proof.
    intros H c m. induction H as [|i l Hi H IH]; [reflexivity|]. cbn [amap].
    assert (E : an_item import_module context i c m = (Done (i, c), m)) by (destruct i; try contradiction; reflexivity).
    rewrite (abind_done _ _ _ _ _ _ _ E), (abind_done _ _ _ _ _ _ _ IH). reflexivity.
  Qed.

  Lemma reset_here (d : multidict sinfo) : md_reset (md_position d) d = Ok d.
  Proof.
    unfold md_reset, md_position. rewrite Nat.ltb_irrefl, skipn_all, firstn_all. cbn [rev unlink_all bind]. destruct d; reflexivity.
  Qed.

  (** a block with one tag *)
  Lemma an_struct n a es y v (Q : body -> Prop) c m : Forall2 attr_expr a es -> known n = Some v -> has_tags (c_md c) ->
    keeps (an_body import_module context y) (enter_regular c) m Q ->
    keeps (an_block import_module context (BStruct [XTag n None [] es] y)) c m (fun b => exists y', b = BStruct [XTag n (slots_of (c_md c) n) [] es] y' /\ Q y').
  Proof.
    intros Ha Hk HT (y1 & c1 & E1 & M1 & R1 & C1 & H1 & Q1). unfold keeps. destruct (HT n v Hk) as (x & Ex).
    exists (BStruct [XTag n (slots_of (c_md c) n) [] es] y1), (leave_regular c1).
    cbn [an_block]. unfold abind at 1, mbind at 1, amod at 1. unfold ret at 1. cbn [fst snd].
    unfold abind at 1, mbind at 1, aposition at 1. unfold ret at 1. cbn [fst snd].
    assert (Et : aread (W := W) (fun c0 => rmap (an_tag c0) [XTag n None [] es]) (enter_regular c) m = (Done ([XTag n (slots_of (c_md c) n) [] es], enter_regular c), m)).
    { unfold aread, mbind. cbn [rmap an_tag]. rewrite (an_attrs _ a es Ha). cbn [bind]. unfold c_get. cbn [enter_regular c_md]. rewrite Ex. cbn [bind of_result].
      unfold slots_of. rewrite Ex. reflexivity. }
    rewrite (abind_done _ _ _ _ _ _ _ Et). rewrite (abind_done _ _ _ _ _ _ _ E1).
    assert (Er : areset (W := W) (md_position (c_md (enter_regular c))) c1 m = (Done (tt, c1), m)).
    { unfold areset, mbind. rewrite <- M1, reset_here. cbn [of_result]. unfold ret. destruct c1; reflexivity. }
    rewrite (abind_done _ _ _ _ _ _ _ Er). split; [reflexivity|]. cbn. rewrite M1, R1, C1, H1. repeat split. exists y1. split; [reflexivity|exact Q1].
  Qed.

  Lemma an_page t : forall i, like (fun _ => None) t i -> wf known t -> forall c m, has_tags (c_md c) ->
    keeps (an_item import_module context i) c m (like (slots_of (c_md c)) t).
  Proof.
    assert (NB : forall mg md b c m (Q : block -> Prop), (forall c', c_md c' = c_md c -> has_tags (c_md c') -> keeps (an_block import_module context b) c' m Q) -> has_tags (c_md c) ->
      keeps (an_item import_module context (NBlock mg md b)) c m (fun i => exists b', i = NBlock mg md b' /\ Q b')).
    { intros mg md b c m Q Hb HT. unfold keeps. cbn [an_item]. unfold abind at 1, mbind at 1, amod at 1, ret at 1. cbn [fst snd].
      set (c1 := if c_prolog c && negb (prolog_block b) then end_prolog c else c).
      assert (M0 : c_md c1 = c_md c /\ c_regular c1 = c_regular c /\ c_control c1 = c_control c /\ c_hyper c1 = c_hyper c).
      { unfold c1. destruct (c_prolog c && negb (prolog_block b)); repeat split. }
      destruct M0 as (M0 & R0 & C0 & H0). destruct (Hb c1 M0) as (b' & c2 & E & M1 & R1 & C1 & H1 & Q1); [rewrite M0; exact HT|].
      exists (NBlock mg md b'), c2. rewrite (abind_done _ _ _ _ _ _ _ E). split; [reflexivity|]. rewrite M1, R1, C1, H1. repeat split; try assumption.
      exists b'. split; [reflexivity|exact Q1]. }
    assert (TX : forall k z col l c m, titems k z l -> keeps (an_block import_module context (BText col l)) c m (fun b => b = BText col l)).
    { intros k z col l c m Hl. exists (BText col l), c. cbn [an_block]. unfold abind at 1, mbind at 1, aread, mbind. rewrite (an_titems c k z l Hl). repeat split. }
    assert (WK : forall {A} (x : AM (W := W) A) c m (Q Q' : A -> Prop), keeps x c m Q -> (forall a, Q a -> Q' a) -> keeps x c m Q').
    { intros A x c m Q Q' (a & c' & E & M1 & R1 & C1 & H1 & q) K. exists a, c'. repeat split; try assumption. apply K, q. }
    induction t as [m0 f k x|m0 x|m0 f n a cc|m0 f n a w kids IH] using page_ind'; intros i Hl Hw c m HT; inversion Hl; subst.
    - eapply WK; [apply NB with (Q := fun b => b = BText col l); [|exact HT]|].
      + intros c' _ _. eapply TX. eassumption.
      + intros i (b' & -> & ->). constructor. assumption.
    - eapply WK; [apply NB with (Q := fun b => b = BComment); [|exact HT]|].
      + intros c' _ _. exists BComment, c'. repeat split.
      + intros i (b' & -> & ->). constructor.
    - inversion Hw as [| |? ? ? ? ? v Hn Ha Hk Hc|]; subst.
      eapply WK; [apply NB with (Q := fun b' => exists y', b' = BStruct [XTag n (slots_of (c_md c) n) [] es] y' /\ y' = b)|].
      + intros c' E' HT'. rewrite <- E'. eapply an_struct; try eassumption.
        destruct cc as [[k x]|]; cbn [leaf_body] in *.
        * match goal with K : exists col l, _ |- _ => destruct K as (col & l & -> & Hl') end.
          destruct (TX k (rstrip x) col l (enter_regular c') m Hl') as (b2 & c2 & E & M1 & R1 & C1 & H1 & ->).
          exists (YBlock (BText col l)), c2. cbn [an_body]. rewrite (abind_done _ _ _ _ _ _ _ E). repeat split; assumption.
        * subst b. exists (YItems []), (enter_regular c'). repeat split.
      + exact HT.
      + intros i (b' & -> & y' & -> & ->). constructor; assumption.
    - inversion Hw as [| | |? ? ? ? ? ? Hn Ha Hk Hw0 Hww Hk0 Hkids]; subst.
      match goal with K : Forall2 (like (fun _ => None)) kids is |- _ => rename K into Fl end.
      assert (FK : Forall2 (fun t i => wf known t -> forall c m, has_tags (c_md c) -> keeps (an_item import_module context i) c m (like (slots_of (c_md c)) t)) kids is).
      { clear -IH Fl. induction Fl as [|t i kids is Ht H IHk]; constructor; inversion IH; subst; [|apply IHk; assumption]. auto. }
      eapply WK; [apply NB with (Q := fun b' => exists y', b' = BStruct [XTag n (slots_of (c_md c) n) [] es] y' /\
          exists is', y' = YItems (map NIndent w ++ is' ++ map NDedent (rev w)) /\ Forall2 (like (slots_of (c_md c))) kids is')|].
      + intros c' E' HT'. rewrite <- E'. eapply an_struct; try eassumption.
        destruct (keeps_items kids is FK Hkids (enter_regular c') m HT') as (is' & c2 & E2 & M2 & R2 & C2 & H2 & L2).
        exists (YItems (map NIndent w ++ is' ++ map NDedent (rev w))), c2. cbn [an_body].
        rewrite (abind_done _ _ _ _ (map NIndent w ++ is' ++ map NDedent (rev w)) c2 m).
        * repeat split; try assumption. exists is'. split; [reflexivity|exact L2].
        * apply amap_app_done with (enter_regular c') m.
          { apply amap_marks, Forall_forall. intros z Z. apply in_map_iff in Z. destruct Z as (? & <- & _). exact Logic.I. }
          apply amap_app_done with c2 m; [exact E2|]. apply amap_marks, Forall_forall. intros z Z. apply in_map_iff in Z. destruct Z as (? & <- & _). exact Logic.I.
      + exact HT.
      + intros i (b' & -> & y' & -> & is' & -> & L). constructor; assumption.
  Qed.
End Analysis.
