(** Scripts that import hypertags from scripts in the same folder: from the files to the HTML. *)
From Coq Require Import List NArith ZArith Bool Lia Arith String.
From Verif Require Import PyStr PyStrFacts Html PyDict Structs StructsSpec StructsFacts Value Dom DomSpec DomFacts Ast Grammar Syntax Machine Eval Translate Analyse MachineFacts ScopeFacts
  LocalFacts RenderFacts RuntimeSpec ExportFacts PageSpec PageRender PageTree PageRun PageDoc OperSpec TmplSpec TmplParse TmplExpr TmplRender TmplTree TmplTag TmplScope TmplRun TmplDef TmplImport TmplDoc FrameFacts Paths PathsFacts Runtime BookSpec LoadFacts.
Import ListNotations.
Local Open Scope string_scope.
Local Open Scope list_scope.
Local Open Scope nat_scope.

(** ** What scripts offer *)
Lemma find_meaning_In n D f : find_meaning n D = Some f -> In (n, f) D.
Proof.
  induction D as [|[y g] D IH]; cbn [find_meaning]; [discriminate|]. destruct (str_eqb n y) eqn:E; [|intros H; right; exact (IH H)]. intros [= ->]. apply str_eqb_eq in E. subst y. left. reflexivity.
Qed.
Lemma pick_names D ns : forall l, pick D ns = Is l -> map fst l = ns /\ forall n f, In (n, f) l -> In (n, f) D.
Proof.
  induction ns as [|n ns IH]; intros l; cbn [pick]; [intros [= <-]; split; [reflexivity|intros ? ? []]|].
  destruct (find_meaning n D) as [f|] eqn:E; [|discriminate]. cbn. destruct (pick D ns) as [l'| |]; try discriminate. intros [= <-]. destruct (IH l' eq_refl) as [H1 H2]. split; [cbn; rewrite H1; reflexivity|].
  intros n' f' [[= <- <-]|J]; [exact (find_meaning_In _ _ _ E)|exact (H2 _ _ J)].
Qed.
Lemma pick_raises D ns : pick D ns <> Raises.
Proof. induction ns as [|n ns IH]; cbn [pick]; [discriminate|]. destruct (find_meaning n D); [|discriminate]. cbn. destruct (pick D ns); [discriminate|congruence|discriminate]. Qed.
Lemma gather_names ex imps : forall g, gather ex imps = Is g -> map (fun i => (fst i, map fst (snd i))) g = imps /\
  forall p l, In (p, l) g -> exists D, ex p = Is D /\ forall n f, In (n, f) l -> In (n, f) D.
Proof.
  induction imps as [|[p ns] imps IH]; intros g; cbn [gather]; [intros [= <-]; split; [reflexivity|intros ? ? []]|].
  destruct (ex p) as [D| |] eqn:E; try discriminate. cbn. destruct (pick D ns) as [l| |] eqn:Ep; try discriminate. cbn. destruct (gather ex imps) as [g'| |]; try discriminate. intros [= <-].
  destruct (IH g' eq_refl) as [H1 H2]. destruct (pick_names _ _ _ Ep) as [P1 P2]. split; [cbn; rewrite H1, P1; reflexivity|].
  intros p' l' [[= <- <-]|J]; [exists D; auto|exact (H2 _ _ J)].
Qed.
Lemma gather_raises ex imps : gather ex imps = Raises -> exists l1 p ns l2 g, imps = l1 ++ (p, ns) :: l2 /\ gather ex l1 = Is g /\ ex p = Raises.
Proof.
  induction imps as [|[p ns] imps IH]; cbn [gather]; [discriminate|]. destruct (ex p) as [D| |] eqn:E; cbn; [| |discriminate].
  - destruct (pick D ns) as [l| |] eqn:Ep; cbn; [|destruct (pick_raises _ _ Ep)|discriminate]. destruct (gather ex imps) as [g'| |]; cbn; try discriminate. intros _.
    destruct (IH eq_refl) as (l1 & p' & ns' & l2 & g & -> & Hg & Hp). exists ((p, ns) :: l1), p', ns', l2, ((p, l) :: g). split; [reflexivity|]. split; [|exact Hp]. cbn [gather]. rewrite E. cbn. rewrite Ep. cbn. rewrite Hg. reflexivity.
  - intros _. exists [], p, ns, imps, []. auto.
Qed.
Lemma gather_given (g : list (str * list (str * meaning))) imps : map (fun i => (fst i, map fst (snd i))) g = imps -> map fst (flat_map snd g) = flat_map snd imps.
Proof. intros <-. induction g as [|[p l] g IH]; [reflexivity|]. cbn [flat_map map fst snd]. rewrite map_app, IH. reflexivity. Qed.
Lemma most_le lib p s : find_source p lib = Some s -> List.length (defined (src_defs s)) <= most lib.
Proof.
  intros H. unfold most. induction lib as [|[q s'] lib IH]; [discriminate|]. cbn [find_source map list_max fold_right] in *. destruct (str_eqb p q).
  - injection H as ->. cbn [snd]. unfold list_max. cbn. lia.
  - specialize (IH H). unfold list_max in *. cbn. lia.
Qed.

Section Book.
Context {W : Type}.
Variables (E : env W) (P : prims W) (Q : py) (X : lexicon).
Variable known : str -> option bool.
Variables (b : str) (lim : nat) (lib : library) (dir : str) (vars : store) (b0 : list (str * val)) (n : nat).
Hypothesis AG : agrees P Q.
Hypothesis escaping : p_escape P = Some html_escape.
Hypothesis parses : forall s, e_parse E s = parse_script X s.
Hypothesis loader : exists rest, e_loaders E = LHy :: rest.
Hypothesis blanks : blank_text b.
Hypothesis folder : folder_ok dir.
Hypothesis ND : NoDup (map fst b0).
Hypothesis HT : forall y v, known y = Some v -> exists t, In (TAG y, VTag t) b0 /\ t_name t = y /\ t_kind t = KMarkup v HTML.
Hypothesis HV : forall y v, In (y, v) vars -> In (VAR y, v) b0 /\ y <> u "__file__" /\ y <> u "__package__".
(** The files of the library, and their contents. *)
Hypothesis files : forall p s, find_source p lib = Some s -> part_ok p /\ source_ok b known (map fst vars) s /\ plain_symbols X (source_text b [] s) /\
  forall h w, fst (e_exists E (file_of dir p) h w) = Done true /\ fst (e_read E (file_of dir p) h w) = Done (source_text b [] s).

Definition Jr (c : caches) : Prop := rt_builtins c = Some b0.
Definition tag_of : str -> tag := find_tag b0.
Definition imp (k : nat) (f : str) (package : option str) : str -> M W module := fun path =>
  Runtime.import_module E (run_script E P n k [] []) path {| r_file := Some f; r_package := package |}.
Definition globals_of (file package : option str) : list (str * val) :=
  dset str_eqb (VAR (u "__package__")) (str_or_none package) (dset str_eqb (VAR (u "__file__")) (str_or_none file) b0).

Lemma tags_known : forall y v, known y = Some v -> t_name (tag_of y) = y /\ t_kind (tag_of y) = KMarkup v HTML.
Proof. intros y v K. destruct (HT y v K) as (t & I & N & M). unfold tag_of, find_tag. rewrite (dget_nodup str_eqb str_eqb_eq _ _ _ ND I). split; assumption. Qed.
Lemma globals_nodup f q : NoDup (map fst (globals_of f q)).
Proof. apply (nodup_dset str_eqb str_eqb_eq), (nodup_dset str_eqb str_eqb_eq). exact ND. Qed.
Lemma globals_tags f q y v : known y = Some v -> dget str_eqb (TAG y) (rev (globals_of f q)) = Some (VTag (tag_of y)).
Proof.
  intros K. destruct (HT y v K) as (t & I & N & M). apply dget_rev_nodup; [apply globals_nodup|]. unfold tag_of, find_tag. rewrite (dget_nodup str_eqb str_eqb_eq _ _ _ ND I).
  apply in_dset_other; [discriminate|]. apply in_dset_other; [discriminate|exact I].
Qed.
Lemma globals_vars f q y v : get y vars = Some v -> dget str_eqb (VAR y) (rev (globals_of f q)) = Some v.
Proof.
  intros G. apply get_In in G. destruct (HV y v G) as (J & N1 & N2). apply dget_rev_nodup; [apply globals_nodup|].
  apply in_dset_other; [intros K; apply VAR_inj in K; congruence|]. apply in_dset_other; [intros K; apply VAR_inj in K; congruence|exact J].
Qed.

Lemma import_oks imps : (forall p ns, In (p, ns) imps -> part_ok p /\ ns <> [] /\ forall x, In x ns -> tag_name x) -> Forall import_ok (map relative imps).
Proof.
  intros H. apply Forall_map, Forall_forall. intros [p ns] I. destruct (H p ns I) as ((P1 & P2) & N1 & N2). unfold relative, import_ok, path_ok. cbn [fst snd]. split; [|auto].
  split; [discriminate|]. intros c [<-|J]; [repeat split; discriminate|]. destruct (P2 c J) as (C1 & C2 & C3 & _). auto.
Qed.
Lemma imports_raw (g : list (str * list (str * meaning))) imps : map (fun i => (fst i, map fst (snd i))) g = imps ->
  map raw_import (map relative imps) = map (fun i => raw_import (fst i, map fst (snd i))) (map (fun i => ((46%N :: fst i), snd i)) g).
Proof. intros <-. rewrite !map_map. reflexivity. Qed.
Lemma dotted_given (g : list (str * list (str * meaning))) : flat_map snd (map (fun i => ((46%N :: fst i), snd i)) g) = flat_map snd g.
Proof. induction g as [|x g IH]; [reflexivity|]. cbn [map flat_map snd]. rewrite IH. reflexivity. Qed.

(** What is done up to the translation of the script found. *)
Lemma import_found k f package p s : dirname f = dir -> find_source p lib = Some s -> forall a, exists a' q,
  m_rt a' = m_rt a /\ grows a a' /\
  imp k f package (DOT :: p) a = (md <* run_script E P n k [] [] (source_text b [] s) (Some (file_of dir p)) q ;; _ <* cache_hy (file_of dir p) md ;; ret md) a'.
Proof.
  intros Hf Hs a. destruct (files p s Hs) as (Hp & _ & _ & Hr). unfold imp, Runtime.import_module. destruct loader as (rest & ->). cbn [map first_of load]. 
  destruct (absolute_part package p Hp) as (pp & Ea).
  set (q := match nonempty pp with Some x => Some (rsplit1_head DOT x) | None => None end).
  destruct (e_exists E (file_of dir p) (m_heap a) (m_world a)) as [o1 w1] eqn:E1. destruct (e_read E (file_of dir p) (m_heap a) w1) as [o2 w2] eqn:E2.
  pose proof (proj1 (Hr (m_heap a) (m_world a))) as X1. rewrite E1 in X1. cbn [fst] in X1. subst o1.
  pose proof (proj2 (Hr (m_heap a) w1)) as X2. rewrite E2 in X2. cbn [fst] in X2. subst o2.
  exists (with_world (with_world a w1) w2), q. split; [reflexivity|]. split; [apply grows_same; [apply le_n|exists []; symmetry; apply app_nil_r|reflexivity]|].
  unfold mbind at 1. unfold load_hy. unfold mbind at 1. change (startswith [DOT] (DOT :: p)) with true. cbv iota. unfold find_relative. rewrite (root_folder dir f package folder Hf). cbn [r_package].
  rewrite join_part by exact Hp. unfold mbind at 1. cbn [of_result]. unfold ret at 1. unfold mbind at 1. rewrite Ea. cbn [of_result]. unfold ret at 1. unfold ret at 1.
  rewrite chop_folder by exact folder. change (dir ++ [SLASH] ++ p ++ script_ext) with (file_of dir p).
  unfold mbind at 1. unfold existing. destruct (file_of dir p) as [|c fl] eqn:Ef; [destruct folder as [Fd _]; unfold file_of in Ef; destruct dir; [congruence|discriminate]|]. cbn [nonempty]. rewrite <- Ef in *. clear Ef c fl.
  unfold mbind at 1. unfold lift_p at 1. rewrite E1. unfold ret at 1. fold q. unfold mbind at 1. unfold lift_p at 1. cbn [m_heap m_world with_world]. rewrite E2.
  unfold mbind. destruct (run_script E P n k [] [] (source_text b [] s) (Some (file_of dir p)) q (with_world (with_world a w1) w2)) as [[md|e|] a2]; try reflexivity.
Qed.

(** A source read and translated. *)
Definition scripts_offer (d k : nat) (f : str) (package : option str) : Prop := forall p,
  (forall D y g, exports Q b lim lib vars d p = Is D -> In (y, g) D -> offered P (imp k f package) known tag_of Jr (lim + d * most lib) (DOT :: p) y g) /\
  (exports Q b lim lib vars d p = Raises -> forall a, Jr (m_rt a) -> fails (imp k f package (DOT :: p) a)).
Lemma source_translated k f package d names vals ctx r (s : source) (m : mach W) :
  dirname f = dir -> Forall2 (fun x v => dget str_eqb (VAR x) ctx = Some v) names vals -> r = combine names vals ++ vars ->
  (forall x, In x names -> id_name x = true) -> plain_symbols X (source_text b names s) -> source_ok b known (map fst r) s ->
  scripts_offer d k f package -> List.length (defined (src_defs s)) + (lim + d * most lib) <= n -> Jr (m_rt m) ->
  exists doc, parse_script X (source_text b names s) = Ok (raw_header names ++ doc) /\
    let G := globals_of (Some f) package ++ context_vars names vals in
    match s with Source imps ds ts j =>
      let tr := translate (imp k f package) ctx P n G doc m in
      (forall g, gather (exports Q b lim lib vars d) imps = Is g ->
        let D := known_tags Q b lim (map fst r) g ds in
        let i0 := insts (inst Q b lim D None) ts r in
        (forall es r', i0 = Is (es, r') -> exists i out s' m', tr = (Done (i, out, s'), m') /\
          dom_render (p_ren P) (depth_bound (m_heap m')) (m_heap m') [i] = Done (elems_html (void known) (gaps ds ++ es) j) /\
          grows m m' /\ Jr (m_rt m') /\ forall y g, In (y, g) D -> offers P known tag_of (List.length (defined ds) + (lim + d * most lib)) m m' s' out y (fun _ => g r')) /\
        (i0 = Raises -> fails tr)) /\
      (gather (exports Q b lim lib vars d) imps = Raises -> fails tr)
    end.
Proof.
  intros Hf HC Hr Hn Hu Hs Hof Ln HJ. destruct s as [imps ds ts j]. cbn [source_text source_ok src_defs] in *. destruct Hs as (S1 & S2 & S3 & S4 & S5 & S6).
  destruct (parse_book X b known (map fst r) (rev (flat_map snd imps)) (rev (defined ds) ++ rev (flat_map snd imps)) names (map relative imps) ds ts j (map fst r) blanks Hu) as (dis & is & Ep & Hrd & Hrs); [|exact Hn|exact (import_oks imps S2)|exact S5|exact S6|].
  { destruct S1 as [S1|S1]; [left; intros K; apply map_eq_nil in K; exact (S1 K)|right; exact S1]. }
  exists (map raw_import (map relative imps) ++ dis ++ is ++ margin_items j). split; [exact Ep|]. set (G := globals_of (Some f) package ++ context_vars names vals).
  assert (GT : forall y v, known y = Some v -> dget str_eqb (TAG y) (rev G) = Some (VTag (tag_of y))).
  { intros y v K. unfold G. rewrite context_tag. exact (globals_tags _ _ y v K). }
  assert (Offs : forall imps g, gather (exports Q b lim lib vars d) imps = Is g ->
    Forall (fun i => Forall (fun nf => offered P (imp k f package) known tag_of Jr (lim + d * most lib) (fst i) (fst nf) (snd nf)) (snd i)) (map (fun i => ((46%N :: fst i), snd i)) g)).
  { intros imps' g Hg. destruct (gather_names _ _ _ Hg) as [_ G2]. apply Forall_map, Forall_forall. intros [p l] I. cbn [fst snd]. destruct (G2 p l I) as (D' & E1 & E2). apply Forall_forall. intros [y h] J. cbn [fst snd].
    exact (proj1 (Hof p) D' y h E1 (E2 y h J)). }
  split.
  - intros g Hg. destruct (gather_names _ _ _ Hg) as [G1 _]. pose proof (gather_given _ _ G1) as G3. rewrite (imports_raw _ _ G1).
    set (g' := map (fun i => ((46%N :: fst i), snd i)) g). assert (Eg : flat_map snd g' = flat_map snd g) by apply dotted_given.
    destruct (translate_book P Q AG escaping (imp k f package) ctx known tag_of tags_known b lim Jr (lim + d * most lib) ltac:(lia) g' ds ts j dis is n G r m Hrd Hrs (Offs _ _ Hg)) as [T1 T2].
    + rewrite Eg, G3. exact S3.
    + rewrite Eg, G3. exact S4.
    + exact HJ.
    + rewrite Eg, G3. exact S5.
    + rewrite Eg, G3. exact S6.
    + exact Ln.
    + exact GT.
    + intros y v K. unfold G. subst r. rewrite get_app in K. pose proof (context_get ctx names vals HC (globals_of (Some f) package) y) as C. destruct (get y (combine names vals)) as [w|].
      * injection K as <-. exact C.
      * rewrite C. exact (globals_vars _ _ y v K).
    + rewrite Eg in T1, T2. split; [exact T1|exact T2].
  - intros Hg. destruct (gather_raises _ _ Hg) as (l1 & p & ns & l2 & g & -> & Hg1 & Hp). destruct (gather_names _ _ _ Hg1) as [G1 _]. pose proof (gather_given _ _ G1) as G3.
    rewrite flat_map_app, <- G3 in S3, S4. rewrite !map_app, (imports_raw _ _ G1), <- app_assoc. cbn [map app].
    set (g' := map (fun i => ((46%N :: fst i), snd i)) g). assert (Eg : flat_map snd g' = flat_map snd g) by apply dotted_given. unfold relative at 1. cbn [fst snd].
    apply (translate_book_fails P (imp k f package) ctx known tag_of Jr (lim + d * most lib)); [exact (Offs _ _ Hg1)| | |exact HJ|exact GT| |].
    + rewrite Eg. apply NoDup_app_inv in S3. exact (proj1 S3).
    + rewrite Eg. intros y I. apply S4, in_or_app. left. exact I.
    + destruct (S2 p ns) as (_ & H & _); [apply in_or_app; right; left; reflexivity|exact H].
    + exact (proj2 (Hof p) Hp).
Qed.

Lemma lib_offered d : lim + d * most lib <= n -> forall k f package, d <= k -> dirname f = dir -> scripts_offer d k f package.
Proof.
  induction d as [|d IH]; intros Ln k f package Hk Hf p; [split; discriminate|]. destruct k as [|k]; [lia|]. cbn [exports].
  destruct (find_source p lib) as [s|] eqn:Fs; [|split; discriminate]. destruct (files p s Fs) as (Hp & Hok & Hu & _). pose proof (most_le _ _ _ Fs) as Hm. cbn [given_by oseq].
  assert (Start : forall a, Jr (m_rt a) -> exists a' q doc, grows a a' /\ Jr (m_rt a') /\
    (match s with Source imps ds ts j =>
      let tr := translate (imp k (file_of dir p) q) [] P n (globals_of (Some (file_of dir p)) q) doc a' in
      (forall g, gather (exports Q b lim lib vars d) imps = Is g ->
        let D := known_tags Q b lim (map fst vars) g ds in
        let i0 := insts (inst Q b lim D None) ts vars in
        (forall es r', i0 = Is (es, r') -> exists i out s' m', tr = (Done (i, out, s'), m') /\
          grows a' m' /\ Jr (m_rt m') /\ forall y g, In (y, g) D -> offers P known tag_of (List.length (defined ds) + (lim + d * most lib)) a' m' s' out y (fun _ => g r')) /\
        (i0 = Raises -> fails tr)) /\
      (gather (exports Q b lim lib vars d) imps = Raises -> fails tr)
    end) /\
    imp (S k) f package (DOT :: p) a =
      (r <* translate (imp k (file_of dir p) q) [] P n (globals_of (Some (file_of dir p)) q) doc ;;
       let '(root, symbols, s) := (r : nid * list (str * val) * nat) in
       let md := {| mod_symbols := symbols; mod_state := Some s; mod_dom := Some root; mod_file := Some (file_of dir p); mod_package := q |} in
       _ <* cache_hy (file_of dir p) md ;; ret md) a').
  { intros a HJ. destruct (import_found (S k) f package p s Hf Fs a) as (a' & q & Er & Ga & Ei).
    assert (HJ' : Jr (m_rt a')) by (rewrite Er; exact HJ).
    destruct (source_translated k (file_of dir p) q d [] [] [] vars s a' (dirname_file dir p folder Hp) (Forall2_nil _) eq_refl (fun _ F => match F with end) Hu Hok) as (doc & Ep & T).
    { apply IH; [cbn in Ln; lia|lia|exact (dirname_file dir p folder Hp)]. }
    { cbn in Ln. lia. } { exact HJ'. }
    exists a', q, doc. split; [exact Ga|]. split; [exact HJ'|]. split.
    - cbn [context_vars combine map] in T. rewrite app_nil_r in T. destruct s as [imps ds ts j]. destruct T as [T1 T2]. split; [|exact T2]. intros g Hg. destruct (T1 g Hg) as [T3 T4]. split; [|exact T4].
      intros es r' Hi. destruct (T3 es r' Hi) as (i & out & s' & m' & Et & _ & T). exists i, out, s', m'. split; [exact Et|exact T].
    - rewrite Ei. cbn [run_script]. unfold mbind at 1. rewrite (clash_free render_params) by (exact (fun _ _ F => match F with end) || exact own_render). unfold mbind at 1. unfold import_builtins. unfold mbind at 1. unfold get_rt at 1. rewrite HJ'. unfold ret at 1.
      fold (globals_of (Some (file_of dir p)) q). rewrite (clash_free module_params) by (exact (fun _ _ F => match F with end) || exact own_module). unfold mbind at 1. rewrite parses, Ep. cbn [of_result]. unfold ret at 1. rewrite (clash_free ast_params) by (exact (fun _ _ F => match F with end) || exact own_ast). unfold mbind at 1. change (make_context [] []) with (Ok (@nil (str * val))). cbn [of_result]. unfold ret at 1.
      cbn [raw_header app]. fold (imp k (file_of dir p) q). unfold mbind at 1. unfold mbind at 2. destruct (translate (imp k (file_of dir p) q) [] P n (globals_of (Some (file_of dir p)) q) doc a') as [[[[i out] s']|e|] m']; reflexivity. }
  destruct s as [imps ds ts j]. cbn [src_defs] in *. split.
  - intros D y g Hx Hi a HJ. destruct (Start a HJ) as (a' & q & doc & Ga & HJ' & [T _] & Ei). clear Start. destruct (gather (exports Q b lim lib vars d) imps) as [gs| |] eqn:Eg; cbn [oseq] in Hx; try discriminate.
    destruct (T gs eq_refl) as [T1 _]. clear T. cbn [oseq] in Hx. destruct (insts _ ts vars) as [[es r']| |] eqn:Ed; cbn [oseq snd] in Hx; try discriminate.
    injection Hx as <-.
    destruct (T1 es r' eq_refl) as (i & out & s' & m' & Et & Gm & Jm & Of). apply in_map_iff in Hi. destruct Hi as ([y' g'] & [= -> <-] & Hi). cbn [snd].
    destruct (Of y g' Hi) as (h & o & hd & O1 & O2 & O3 & O4 & O5 & O6).
    set (md := {| mod_symbols := out; mod_state := Some s'; mod_dom := Some i; mod_file := Some (file_of dir p); mod_package := q |}).
    set (rt := {| rt_hy := dset str_eqb (file_of dir p) md (rt_hy (m_rt m')); rt_py := rt_py (m_rt m'); rt_builtins := rt_builtins (m_rt m') |}).
    set (a1 := Mach (m_heap m') (m_states m') (m_defs m') (m_next m') rt (m_world m')).
    assert (G1 : grows m' a1) by (apply grows_same; [apply le_n|exists []; symmetry; apply app_nil_r|reflexivity]).
    exists a1, md, h, s', o, hd. split; [rewrite Ei; unfold mbind at 1; rewrite Et; reflexivity|].
    split; [exact Jm|]. split; [exact (grows_trans _ _ _ Ga (grows_trans _ _ _ Gm G1))|]. split; [reflexivity|]. split; [exact O1|]. split; [exact O2|]. split; [exact O3|].
    destruct Ga as (N1 & _). split; [intros x J; specialize (O4 x J); cbn [m_next a1]; lia|]. split.
    + intros s0 x v J. destruct (O5 s0 x v J) as [O5a O5b]. split; [cbn [m_next a1]; lia|exact O5b].
    + intros k' Lk. apply O6. cbn in Lk. lia.
  - intros Hx a HJ. destruct (Start a HJ) as (a' & q & doc & _ & _ & [T Tr] & Ei). clear Start. rewrite Ei. apply fails_bind. destruct (gather (exports Q b lim lib vars d) imps) as [gs| |] eqn:Eg; cbn [oseq] in Hx; [|exact (Tr eq_refl)|discriminate].
    destruct (T gs eq_refl) as [_ T2]. cbn [oseq] in Hx. destruct (insts _ ts vars) as [[es r']| |]; cbn [oseq] in Hx; try discriminate. exact (T2 eq_refl).
Qed.
End Book.

(** ** The runtime *)
Section Runtime.
Context {W : Type}.
Variables (E : env W) (P : prims W) (Q : py).

(** As for templates; in the folder [dir] there are the files of [lib], whose contents do not change; relative paths are
    looked up by the loader of scripts. *)
Definition book_runtime (X : lexicon) (known : str -> option bool) (vars : store) (b : str) (lib : library) (dir : str) (n k : nat) (m : mach W) : Prop :=
  agrees P Q /\ p_escape P = Some html_escape /\ (forall s, e_parse E s = parse_script X s) /\ (exists rest, e_loaders E = LHy :: rest) /\ folder_ok dir /\
  (forall p s, find_source p lib = Some s -> part_ok p /\ source_ok b known (map fst vars) s /\ plain_symbols X (source_text b [] s) /\
     forall h w, fst (e_exists E (file_of dir p) h w) = Done true /\ fst (e_read E (file_of dir p) h w) = Done (source_text b [] s)) /\
  exists b0 m1, import_builtins E (run_script E P n k [] []) m = (Done b0, m1) /\ rt_builtins (m_rt m1) = Some b0 /\ NoDup (map fst b0) /\
    (forall y v, known y = Some v -> exists t, In (TAG y, VTag t) b0 /\ t_name t = y /\ t_kind t = KMarkup v HTML) /\
    (forall y v, In (y, v) vars -> In (VAR y, v) b0 /\ y <> u "__file__" /\ y <> u "__package__").

Theorem render_book X known b lim lib dir d names vals vars s n k tags args ctx f package (m : mach W) :
  book_runtime X known vars b lib dir n k m -> called_with tags args ctx ->
  Forall2 (fun x v => dget str_eqb (VAR x) ctx = Some v) names vals ->
  blank_text b -> plain_symbols X (source_text b names s) -> List.length (defined (src_defs s)) + (lim + d * most lib) <= n -> d <= k -> in_folder dir f ->
  (forall x, In x names -> id_name x = true) -> source_ok b known (names ++ map fst vars) s ->
  let i0 := inst_source Q b lim (exports Q b lim lib vars d) (combine names vals ++ vars) s in
  (forall es r', i0 = Is (es, r') ->
    exists m', render_script E P n (S k) tags args (source_text b names s) (Some f) package m = (Done (elems_html (void known) (gaps (src_defs s) ++ es) (src_blank s)), m')) /\
  (i0 = Raises -> exists e m', render_script E P n (S k) tags args (source_text b names s) (Some f) package m = (Exc e, m')).
Proof.
  intros (AG & He & Hp & Hl & Hd & Hfs & b0 & m1 & Hb & HJ & ND & HT & HV) [Ha Hc] HC Hbl Hu Ln Hk Hf Hn Hok i0.
  apply (dirname_in _ _ Hd) in Hf.
  assert (Dm : map fst (combine names vals ++ vars) = names ++ map fst vars).
  { rewrite map_app, combine_fst; [reflexivity|]. clear -HC. induction HC; [reflexivity|]. cbn. f_equal. assumption. }
  destruct (source_translated E P Q X known b lim lib dir vars b0 n AG He Hbl ND HT HV k f package d names vals ctx _ s m1 Hf HC eq_refl Hn Hu) as (doc & Ep & T).
  { rewrite Dm. exact Hok. }
  { apply (lib_offered E P Q X known b lim lib dir vars b0 n); try assumption. lia. }
  { exact Ln. } { exact HJ. }
  destruct s as [imps ds ts j]. cbn [src_defs src_blank] in *. unfold i0. cbn [inst_source].
  assert (Eh := translate_header W P (imp E P n k f package) ctx n (globals_of b0 (Some f) package) names vals doc m1 HC).
  set (tr1 := translate (imp E P n k f package) ctx P n (globals_of b0 (Some f) package) (raw_header names ++ doc) m1) in Eh.
  assert (Run : forall (o : out (nid * list (str * val) * nat)) m', without_symbols tr1 = without_symbols (o, m') -> exists z,
    render_script E P n (S k) tags args (source_text b names (Source imps ds ts j)) (Some f) package m =
    match o with Done (i, _, _) => (dom_render (p_ren P) (depth_bound (m_heap m')) (m_heap m') [i], m') | Exc _ => (Exc z, m') | Fuel => (Fuel, m') end).
  { intros o m' Eo. unfold render_script. cbn [run_script]. unfold mbind at 1. rewrite (clash_free render_params) by (exact Ha || exact own_render). unfold mbind at 1. rewrite Hb. rewrite (clash_free module_params) by (exact Ha || exact own_module). unfold mbind at 1. rewrite Hp, Ep. cbn [of_result]. unfold ret at 1. rewrite (clash_free ast_params) by (exact Ha || exact own_ast). unfold mbind at 1. rewrite Hc. cbn [of_result]. unfold ret at 1.
    unfold mbind at 1. fold (globals_of b0 (Some f) package). fold (imp E P n k f package). fold tr1. destruct tr1 as [[[[i1 o1] s1]|e1|] m2]; destruct o as [[[i2 o2] s2]|e2|]; cbn [without_symbols] in Eo; try discriminate.
    - injection Eo as -> -> ->. exists ImportError. reflexivity.
    - injection Eo as Ee ->. exists e1. reflexivity.
    - injection Eo as ->. exists ImportError. reflexivity. }
  destruct T as [T Tr]. assert (Fl : fails (translate (imp E P n k f package) ctx P n (globals_of b0 (Some f) package ++ context_vars names vals) doc m1) ->
    exists e m', render_script E P n (S k) tags args (source_text b names (Source imps ds ts j)) (Some f) package m = (Exc e, m')).
  { intros (e & m' & Et). rewrite Et in Eh. destruct (Run _ _ Eh) as (z & R). exists z, m'. exact R. }
  destruct (gather (exports Q b lim lib vars d) imps) as [g| |] eqn:Eg; [|split; [discriminate|intros _; exact (Fl (Tr eq_refl))]|split; discriminate]. destruct (T g eq_refl) as [T1 T2]. split.
  - intros es r' Hi. destruct (T1 es r' Hi) as (i & out & s' & m' & Et & Er & _). rewrite Et in Eh. destruct (Run _ _ Eh) as (z & R). exists m'. rewrite R. cbv iota beta. rewrite Er. reflexivity.
  - intros Hi. exact (Fl (T2 Hi)).
Qed.
End Runtime.
