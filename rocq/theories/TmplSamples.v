(** A template, a runtime and the answers of Python, used in examples only. *)
From Coq Require Import List NArith ZArith Bool Arith String.
From Verif Require Import PyStr PyStrFacts PyDict Html Value Dom Ast Machine Analyse Syntax Runtime Ref ConfRef HtmlTags PageSpec PageParse PageSamples OperSpec
  TmplSpec TmplParse TmplExpr TmplDoc.
Import ListNotations.
Local Open Scope string_scope.
Local Open Scope list_scope.

Definition answer {A} (r : result A) : ans A := match r with Ok a => Is a | Raise _ => Raises end.
(** What the Python of ConfRef.v answers. *)
Definition conf_py : py := {|
  py_truth := fun v => match truth_of v with Ok t => Some t | Raise _ => None end;
  py_text := fun v => answer (text_of_val v);
  py_op := fun o v w => answer (ref_binop o v w);
  py_neg := fun v => match int_of v with Some z => Is (VInt (- z)) | None => Raises end;
  py_member := fun v n => answer (conf_getattr v n);
  py_item := fun v i => answer (conf_getitem v i);
  py_slice := fun v i j k => answer (conf_slice v i j k);
  py_call := fun f a k => answer (conf_call f a k);
  py_iter := fun _ => Raises;
  py_set := fun l => Is (VSet (fold_left (fun s v => if existsb (val_eqb v) s then s else s ++ [v]) l []));
  py_dict := fun l => Is (VDict (dict_of val_eqb l)) |}.

Lemma answer_pure {A} (r : result A) h (w : unit) : tells (answer r) (pure r h w) w.
Proof. destruct r as [a|e]; [reflexivity|exists e; reflexivity]. Qed.
Lemma conf_agrees : agrees conf_prims conf_py.
Proof.
  split; try (intros; apply answer_pure); try (intros; reflexivity).
  - intros v t h w H. cbn in *. unfold pure. injection H as <-. reflexivity.
  - intros v. cbn. destruct (text_of_val v) as [t|e]; [reflexivity|exists e; reflexivity].
  - intros x h w. cbn. destruct (int_of x); [reflexivity|exists TypeError; reflexivity].
  - intros x h w. exists TypeError. reflexivity.
Qed.

(** Built-in functions used in the sample. *)
Definition sample_vars : store := [(u "len", VObj 1); (u "upper", VObj 36); (u "range", VObj 3)].
Definition tmpl_builtins_ok (k : nat) : bool :=
  match builtins_of k with
  | Done b => nodupb (map fst b) &&
      forallb (fun nt => match dget str_eqb (TAG (fst nt)) b with
                         | Some (VTag t) => str_eqb (t_name t) (fst nt) && match t_kind (snd nt), t_kind t with KMarkup a HTML, KMarkup b HTML => Bool.eqb a b | _, _ => false end
                         | _ => false
                         end) html_registry &&
      forallb (fun yv => match dget str_eqb (VAR (fst yv)) b, snd yv with Some (VObj a), VObj b => N.eqb a b | _, _ => false end &&
                         negb (str_eqb (fst yv) (u "__file__")) && negb (str_eqb (fst yv) (u "__package__"))) sample_vars
  | _ => false
  end.
Lemma tmpl_runtime : template_runtime html_env conf_prims conf_py conf_lexicon html_known sample_vars 40 4 mach0.
Proof.
  split; [exact conf_agrees|]. split; [reflexivity|]. split; [reflexivity|].
  assert (K : tmpl_builtins_ok 4 = true) by (vm_compute; reflexivity). unfold tmpl_builtins_ok, builtins_of in K.
  destruct (import_builtins html_env (run_script html_env conf_prims 40 4 [] []) mach0) as [[b|e|] m1]; try discriminate. cbn [fst] in K.
  exists b, m1. split; [reflexivity|]. apply andb_prop in K. destruct K as [K K3]. apply andb_prop in K. destruct K as [K1 K2]. split; [apply nodupb_NoDup, K1|]. split.
  - intros y v Hy. destruct (html_known_In y v Hy) as (t & I & N & Kd). rewrite forallb_forall in K2. specialize (K2 _ I). cbn [fst snd] in K2. rewrite Kd in K2.
    destruct (dget str_eqb (TAG y) b) as [[]|] eqn:Eg; try discriminate. apply (dget_In str_eqb str_eqb_eq) in Eg.
    apply andb_prop in K2. destruct K2 as [K2 K4]. eexists. split; [exact Eg|]. split; [apply str_eqb_eq, K2|].
    destruct (t_kind t0) as [| |? []| | |]; try discriminate. apply eqb_prop in K4. subst. reflexivity.
  - intros y v I. rewrite forallb_forall in K3. specialize (K3 _ I). cbn [fst snd] in K3. apply andb_prop in K3. destruct K3 as [K3 N2]. apply andb_prop in K3. destruct K3 as [K3 N1].
    destruct (dget str_eqb (VAR y) b) as [[]|] eqn:Eg; try discriminate. destruct v; try discriminate. apply N.eqb_eq in K3. subst. apply (dget_In str_eqb str_eqb_eq) in Eg.
    split; [exact Eg|]. split; intros ->; discriminate.
Qed.

Definition nm (s : string) : ex := XName (u s).
Definition num (s : string) : ex := XNum (u s).
Definition call1 (f : string) (e : ex) : ex := XTail (nm f) [XCall [(None, e)]] QNone.
(** A heading, a table with a loop over rows, conditions, assignments and comments. *)
Definition sample_tmpl : list tmpl :=
  [TNote 0 true (u " a template") [(0%nat, 4%nat, u "in {two"); (1%nat, 2%nat, u "-- lines")];
   TSet 0 [u "n"] (num "0");
   TLeaf 1 [(u "h1", [(Class, WText (u "big-1")); (Id, WExpr (nm "id"))], [AVal (u "class") (GBare (XText Double (u "a") [(nm "id", u "b")])); AShort [(Class, WText (u "z"))]])]
     (Some (Plain, ((u " Hello ", [(XPipe (nm "title") [XFilter (nm "upper") [] None], u ", "); (XOps false (nm "n") [(OAdd, num "1")], u "  ")]), [])));
   TNode 0 [(u "table", [], []); (u "tr", [], [AVal (u "width") (GBraced (num "10")); AVal (u "hidden") (GBraced (XOps false (num "1") [(OEq, num "1")]))])] (u "  ")
     [TFor 1 [u "x"; u "y"] (nm "rows") (u "    ")
        [TIf 0 [(XOps false (nm "x") [(OEq, num "1")], (u "  ", [TLine 0 Plain ((u " <one>", []), []); TLine 1 Plain (([], [(nm "y", [])]), [])]));
                (nm "y", (u " ", [TLeaf 0 [(u "td", [], []); (u "img", [], [AVal (u "title") (GBare (XText Double [] [(nm "y", u " >")]))])] None]))]
           (Some (u "  ", [TSet 0 [u "z"] (nm "x"); TNote 0 false (u "") []; TLeaf 0 [(u "b", [], [])] (Some (Plain, (([], [(nm "z", [])]), [])))]));
         TLine 0 Plain ((u " {", [(call1 "len" (nm "y"), u "}")]), [])];
      TLine 1 Plain ((u " ", [(nm "empty", u "  ")]), [])];
   TFor 0 [u "x"] (XList [num "1"; num "2"; num "3"]) (u "  ") [TAug 0 (u "n") OAdd (nm "x")];
   TIf 0 [(nm "empty", (u "  ", [TLine 0 Plain ((u "no", []), [])]))] None;
   TLine 0 Plain ((u " n = ", [(nm "n", u ".")]), [])].
Definition sample_names : list str := map u ["title"; "rows"; "id"; "empty"].
Definition sample_vals : list val :=
  [VStr (u "A<B"); VList [VTuple [VInt 1; VStr (u "a&")]; VTuple [VInt 2; VStr (u "b ""'")]; VTuple [VInt 3; VStr []]]; VStr (u "i"); VStr []].

(** Other lines: markup and verbatim texts. *)
Definition markup_tmpl : list tmpl :=
  [TLine 0 Markup ((u " <b>", [(nm "title", u "</b>")]), []); TLine 0 Verbatim ((u " {title} ", []), []);
   TLeaf 0 [(u "p", [], [])] (Some (Markup, ((u " &amp;", [(nm "rows", [])]), [])))].
Definition markup_names : list str := map u ["title"; "rows"].
Definition markup_vals : list val := [VStr (u "<i>x</i>"); VInt 7].

(** Constants, sets, dicts, slices and qualifiers. *)
Definition forms_tmpl : list tmpl :=
  [TSet 0 [u "d"] (XDict [(XText Double (u "a") [], XList [num "1"; num "2"; num "3"]); (num "5", XConst CNone)]);
   TLine 0 Plain ((u " ", [(XTail (nm "d") [XItem (XText Double (u "a") []); XSlice (Some (num "1")) None None] QNone, u " "); (XTail (nm "d") [XItem (num "5")] QOpt, u " x")]), []);
   TLine 0 Plain ((u " ", [(XTail (nm "title") [XSlice None (Some (num "2")) None] QReq, u " "); (XTail (nm "empty") [] QOpt, u " y")]), []);
   TIf 0 [(XConst CFalse, (u "  ", [TLine 0 Plain ((u " no", []), [])]));
          (XTail (XSet [num "1"; num "1"]) [] QOpt, (u "  ", [TLine 0 Plain ((u " ", [(call1 "len" (XSet [num "1"; nm "title"; num "1"]), u " yes")]), [])]))] None].
Definition forms_names : list str := map u ["title"; "empty"].
Definition forms_vals : list val := [VStr (u "abc"); VStr []].

(** Strings with escapes, quotes and expressions, raw strings, values of attributes without braces. *)
Definition bare_tmpl : list tmpl :=
  [TSet 0 [u "s"] (XText Single (u "it's \ $5 {" ++ [NL; 34]%N) [(XCat (nm "title") [XText Double (u "'") []], u "}")]);
   TLeaf 0 [(u "a", [], [AVal (u "href") (GBare (XTail (nm "title") [XSlice (Some (num "1")) None None] QNone)); AVal (u "width") (GBare (num "10"));
                        AVal (u "alt") (GBare (XText Single (u "<") [(call1 "len" (nm "s"), u "'>")])); AVal (u "rel") (GBare (XRaw Double (u "c:\n{s}")));
                        AVal (u "id") (GBare (XOr (nm "empty") [XCat (nm "title") [num "7"]]))])]
     (Some (Plain, ((u " ", [(XTail (nm "s") [XSlice None (Some (num "11")) None] QNone, u " "); (XRaw Single (u "\"), [])]), [])))].
Definition bare_defs : list def :=
  [Def 0 (u "item") None [(u "x", Some (GBare (num "5"))); (u "y", Some (GBare (XText Single (u "'") [])))] (u "  ") [TLine 0 Plain ((u " ", [(nm "x", u ", "); (nm "y", [])]), [])]].
Definition bare_doc : list tmpl :=
  [TUse 0 (u "item", [], []) None; TUse 0 (u "item", [GBare (nm "title"); GBare (XRaw Single (u "{"))], []) None;
   TUse 0 (u "item", [GBare (call1 "len" (nm "title"))], [AVal (u "y") (GBare (num "1"))]) None].

(** Exceptions: a required value that is empty, in a text, an attribute, a condition; a loop over a number;
    too many targets; and what is not evaluated. *)
Definition error_tmpl (k : nat) : list tmpl :=
  [TLine 0 Plain ((u " first", []), []);
   TIf 0 [(XConst CFalse, (u "  ", [TLine 0 Plain (([], [(XTail (nm "empty") [] QReq, [])]), [])]))] None;
   match k with
   | 0 => TLine 0 Plain ((u " ", [(XTail (nm "empty") [] QReq, u " x")]), [])
   | 1 => TNode 0 [(u "p", [], [AVal (u "a") (GBraced (num "1"))]); (u "b", [(Id, WExpr (XTail (nm "empty") [] QReq))], [])] (u "  ") [TLine 0 Plain ((u " x", []), [])]
   | 2 => TIf 0 [(XOps false (nm "title") [(OSub, num "1")], (u "  ", [TLine 0 Plain ((u " x", []), [])]))] None
   | 3 => TFor 0 [u "x"] (num "3") (u "  ") [TLine 0 Plain ((u " x", []), [])]
   | 4 => TSet 0 [u "x"; u "y"] (XList [num "3"])
   | _ => TLine 0 Plain ((u " last", []), [])
   end].
Definition error_uses (k : nat) : list tmpl :=
  [TLine 0 Plain ((u " first", []), []);
   match k with
   | 0 => TUse 0 (u "item", [], []) None
   | 1 => TUse 0 (u "item", [GBraced (num "1"); GBraced (num "2"); GBraced (num "3")], []) None
   | 2 => TUse 0 (u "item", [GBraced (num "1")], [AVal (u "z") (GBraced (num "3"))]) None
   | 3 => TUse 0 (u "item", [GBraced (num "1")], []) (Some (Plain, ((u " body", []), [])))
   | 4 => TUse 0 (u "item", [GBraced (num "1")], [AVal (u "x") (GBraced (num "3"))]) None
   | _ => TUse 0 (u "item", [GBraced (num "1")], []) None
   end].

(** Two definitions, the second with a body and a use of the first one. *)
Definition sample_defs : list def :=
  [Def 0 (u "item") None [(u "x", None); (u "y", Some (GBare (XText Double (u "<") [(nm "title", u ">")])))] (u "  ")
     [TIf 0 [(XOps false (nm "x") [(OEq, num "2")], (u "  ", [TLine 0 Plain ((u " two", []), [])]))]
        (Some (u "  ", [TLeaf 0 [(u "li", [(Class, WExpr (nm "y"))], [])] (Some (Plain, ((u " ", [(nm "x", u ": "); (nm "y", [])]), [])))]))];
   Def 1 (u "box") (Some (u "body")) [(u "head", None); (u "n", Some (GBraced (XOps false (call1 "len" (nm "title")) [(OMul, num "2")])))] (u "    ")
     [TSet 0 [u "k"] (XOps false (nm "n") [(OAdd, num "1")]);
      TLeaf 0 [(u "h2", [], [])] (Some (Plain, ((u " ", [(nm "head", u " "); (nm "k", [])]), [])));
      TNode 1 [(u "div", [(Class, WText (u "box"))], [])] (u "  ") [TNote 0 false (u "") []; TBody 0 (u "body")];
      TUse 0 (u "item", [GBraced (nm "k")], [AVal (u "y") (GBare (XText Double (u "end") []))]) None]].
Definition sample_doc : list tmpl :=
  [TSet 0 [u "k"] (num "0");
   TBlock 1 (u "box", [GBare (XText Double (u "T ") [(nm "title", [])])], []) (u "  ")
     [TFor 0 [u "x"] (nm "rows") (u "  ") [TUse 0 (u "item", [GBraced (nm "x")], []) None];
      TLeaf 0 [(u "p", [], [])] (Some (Plain, ((u " ", [(nm "k", [])]), [])))];
   TNode 0 [(u "section", [], [])] (u "  ")
     [TUse 0 (u "box", [], [AVal (u "n") (GBraced (nm "k")); AVal (u "head") (GBare (XText Double (u "a&") []))]) (Some (Markup, ((u " <i>", [(nm "title", u "</i>")]), [])));
      TUse 1 (u "item", [GBare (XText Double (u "one") []); GBraced (XList [])], []) None;
      TUse 0 (u "box", [GBraced (nm "title")], []) None];
   TLine 0 Plain ((u " k = ", [(nm "k", [])]), [])].
Definition def_names : list str := map u ["title"; "rows"].
Definition def_vals : list val := [VStr (u "A&B"); VList [VInt 1; VInt 2]].

(** Texts of several lines: with less and more indentation than the marker, blank lines, no text after the marker. *)
Definition lines_defs : list def :=
  [Def 0 (u "box") (Some (u "body")) [] (u "  ") [TNode 0 [(u "div", [], [])] (u "  ") [TBody 0 (u "body"); TLine 0 Plain ((u " end", []), [(1, 4, (u "of", []))])]]].
Definition lines_tmpl : list tmpl :=
  [TLine 0 Plain ((u " first", []), [(0, 2, (u "second <", [(nm "title", u "> ")])); (1, 5, ([], [(nm "id", [])])); (0, 1, (u "low", []))]);
   TLeaf 0 [(u "p", [], [])] (Some (Plain, ((u " a", []), [(0, 4, (u "b", [])); (0, 6, ([], [(nm "title", u ".")]))])));
   TLeaf 0 [(u "pre", [], [])] (Some (Markup, (([], []), [(0, 2, (u "x = ", [(nm "id", [])])); (2, 4, (u "y", []))])));
   TLeaf 0 [(u "p", [], [])] (Some (Plain, (([], []), [(0, 4, (u "deep", []))])));
   TNode 1 [(u "div", [], [])] (u " ") [TLine 0 Verbatim ((u " {", []), [(0, 2, (u "}", []))]); TUse 0 (u "box", [], []) (Some (Plain, ((u " in", []), [(0, 6, (u "the", [])); (0, 7, (u "box", []))])))]].
(** Lines that begin in the column of the space after the marker, or after the margin of the text there. *)
Definition margin_tmpl : list tmpl :=
  [TLeaf 0 [(u "p", [], [])] (Some (Plain, ((u " a", []), [(0, 3, (u "b", []))])));
   TLeaf 0 [(u "p", [], [])] (Some (Plain, ((u "   a", []), [(0, 5, (u "b", []))])));
   TLeaf 0 [(u "p", [], [])] (Some (Plain, ((u "a", []), [(0, 9, (u "b", []))])))].
(** Values with line breaks. *)
Definition break_names : list str := [u "v"].
Definition break_vals : list val := [VStr (u "x
 <y>
	z
")].
Definition break_tmpl : list tmpl :=
  [TNode 0 [(u "div", [], [])] (u "  ")
     [TLeaf 0 [(u "p", [], [])] (Some (Plain, ((u " ", [(nm "v", [])]), [])));
      TLine 0 Markup ((u "  ", [(nm "v", u ".")]), [(0, 4, ([], [(nm "v", u "..")]))]);
      TLeaf 0 [(u "p", [], [])] (Some (Plain, (([], []), [(0, 2, ([], [(nm "v", [])]))])))]].

(** Loops with a condition: one with two rounds, one with none and a block for this case, one inside of it. *)
Definition while_names : list str := [u "k"].
Definition while_vals : list val := [VInt 2].
Definition while_tmpl : list tmpl :=
  [TNode 0 [(u "ul", [], [])] (u "  ")
     [TSet 0 [u "n"] (nm "k");
      TWhile 0 (nm "n") (u "  ")
        [TLeaf 0 [(u "li", [], [])] (Some (Plain, ((u " ", [(nm "n", [])]), [])));
         TSet 0 [u "j"] (XOps false (nm "n") [(OSub, num "1")]);
         TSet 0 [u "n"] (nm "j")]
        (Some (u "    ", [TLine 0 Plain ((u " not shown", []), [])]))];
   TWhile 1 (XOps false (nm "k") [(ONe, num "2")]) (u " ")
     [TLine 0 Plain ((u " not shown", []), [])]
     (Some (u "    ",
        [TWhile 0 (nm "k") (u "  ") [TSet 0 [u "k"] (XOps false (nm "k") [(OSub, num "1")]); TLine 0 Plain ((u " <", [(nm "k", u ">")]), [])] None;
         TLine 0 Plain ((u " k = ", [(nm "k", [])]), [])]));
   TLine 0 Plain ((u " k = ", [(nm "k", [])]), [])].

(** Alternatives: one that fails after some output, one with alternatives of its own that all fail, one not reached;
    one that succeeds at once; none that succeeds inside of a tag. *)
Definition try_tmpl : list tmpl :=
  [TTry 0
     [(u "  ", [TLeaf 0 [(u "p", [], [])] (Some (Plain, ((u " ", [(nm "title", [])]), [])));
                TNode 0 [(u "div", [], [])] (u "  ") [TSet 0 [u "j"] (num "1"); TLine 0 Plain ((u " ", [(XTail (nm "empty") [] QReq, [])]), [])]]);
      (u " ", [TLine 0 Plain ((u " <", [(nm "title", u ">")]), []);
               TTry 0 [(u " ", [TLine 0 Plain ((u " ", [(XOps false (nm "title") [(OSub, num "1")], [])]), [])]); (u " ", [TLine 0 Plain ((u " ", [(XTail (nm "empty") [] QReq, [])]), [])])]]);
      (u "  ", [TLine 0 Plain ((u " not shown", []), [])])];
   TTry 1 [(u "  ", [TSet 0 [u "n"] (num "1"); TLine 0 Plain ((u " n = ", [(nm "n", [])]), [])]); (u "  ", [TLine 0 Plain ((u " not shown", []), [])])];
   TNode 0 [(u "ul", [], [])] (u "  ") [TTry 0 [(u "  ", [TLine 0 Plain ((u " ", [(XTail (nm "empty") [] QReq, [])]), [])])]];
   TLine 0 Plain ((u " ", [(nm "title", [])]), [])].

(** ** Templates outside the conditions *)

Definition model_script (names : list str) (vals : list val) (ds : list def) (doc : list tmpl) : out str :=
  fst (render_script html_env conf_prims 40 5 [] (combine names vals) (script (u " ") names ds doc 0) None None mach0).
Definition spec_script (names : list str) (vals : list val) (ds : list def) (doc : list tmpl) : ans str :=
  p <: insts (inst conf_py (u " ") 30 (meanings conf_py (u " ") 30 (names ++ map fst sample_vars) ds) None) doc (combine names vals ++ sample_vars) ;;
  Is (elems_html (void html_known) (gaps ds ++ fst p) 0).
(** Run and meaning are the same: HTML or an exception. *)
Definition same_answer (o : out str) (a : ans str) : bool :=
  match o, a with Done x, Is y => str_eqb x y | Exc _, Raises => true | _, _ => false end.
Definition model_html (names : list str) (vals : list val) (doc : list tmpl) : out str := model_script names vals [] doc.
Definition spec_html (names : list str) (vals : list val) (doc : list tmpl) : ans str := spec_script names vals [] doc.
Definition page_of (s : str) : out str := fst (render_script html_env conf_prims 40 5 [] [] s None None mach0).
Definition gap_tmpl : list tmpl :=
  [TLine 0 Plain ((u " a", []), []); TIf 0 [(num "1", (u "  ", [TLine 1 Plain ((u " b", []), [])]))] None].
Definition outer_tmpl : list tmpl :=
  [TSet 0 [u "n"] (num "1");
   TNode 0 [(u "p", [], [])] (u "  ")
     [TIf 0 [(num "1", (u "  ", [TSet 0 [u "n"] (num "2")]))] None; TLine 0 Plain ((u " ", [(nm "n", [])]), [])]].
Definition loop_tmpl : list tmpl :=
  [TSet 0 [u "n"] (num "1");
   TNode 0 [(u "p", [], [])] (u "  ")
     [TFor 0 [u "x"] (XList []) (u "  ") [TSet 0 [u "n"] (num "2")]; TLine 0 Plain ((u " ", [(nm "n", [])]), [])]].
Definition kept_tmpl : list tmpl :=
  [TSet 0 [u "n"] (num "1");
   TTry 0 [(u "  ", [TSet 0 [u "n"] (num "2"); TFor 0 [u "x"] (num "3") (u "  ") [TLine 0 Plain ((u " x", []), [])]]); (u "  ", [TLine 0 Plain ((u " ", [(nm "n", [])]), [])])]].
Definition twice_defs (m : nat) (kids : list tmpl) : list def := [Def 0 (u "H") (Some (u "body")) [] (u "  ") (TBody m (u "body") :: kids)].
Definition twice_doc : list tmpl := [TUse 0 (u "H", [], []) (Some (Plain, ((u " text", []), [])))].
(** The sample with plain texts only. *)
Fixpoint as_plain (t : tmpl) : tmpl :=
  match t with
  | TNode m g w kids => TNode m g w (map as_plain kids)
  | TUse m h (Some (_, x)) => TUse m h (Some (Plain, x))
  | _ => t
  end.
