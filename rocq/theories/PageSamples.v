(** A page and a runtime, used in examples only. *)
From Coq Require Import List NArith ZArith Bool String.
From Verif Require Import PyStr PyStrFacts PyDict Html Value Dom Ast Machine Analyse Syntax Runtime Ref ConfRef HtmlTags PageSpec PageParse PageDoc.
Import ListNotations.
Local Open Scope string_scope.
Local Open Scope list_scope.

(** The runtime of ConfRef.v with all HTML tags. *)
Definition py_html_all : pymodule := {|
  py_file := Some (u "/h/hypertag/html.py"); py_package := Some (u "hypertag"); py_dir := []; py_tags := html_registry |}.
Definition html_modules : list (string * pymodule) :=
  [("builtins", py_builtins); ("hypertag.builtins", py_hypertag); ("hypertag.html", py_html_all)].
Definition html_env : env unit := {|
  e_loaders := e_loaders conf_env; e_builtins := e_builtins conf_env; e_resolve := None; e_cwd := e_cwd conf_env;
  e_exists := e_exists conf_env; e_read := e_read conf_env; e_package := e_package conf_env;
  e_pymodule := fun p => pure (Ok (get p html_modules));
  e_parse := parse_script conf_lexicon
|}.

(** All HTML tags, in lower and in upper case. *)
Definition html_known (n : str) : option bool :=
  match dget str_eqb n html_registry with
  | Some t => match t_kind t with KMarkup v _ => Some v | _ => None end
  | None => None
  end.

Lemma html_known_In n v : html_known n = Some v -> exists t, In (n, t) html_registry /\ t_name t = n /\ t_kind t = KMarkup v HTML.
Proof.
  unfold html_known. destruct (dget str_eqb n html_registry) as [t|] eqn:E; [|discriminate]. apply (dget_In str_eqb str_eqb_eq) in E.
  assert (K : forallb (fun nt => str_eqb (t_name (snd nt)) (fst nt) && match t_kind (snd nt) with KMarkup _ HTML => true | _ => false end) html_registry = true) by (vm_compute; reflexivity).
  rewrite forallb_forall in K. specialize (K _ E). cbn [fst snd] in K. apply andb_prop in K. destruct K as [K1 K2]. apply str_eqb_eq in K1.
  intros Hv. exists t. split; [exact E|]. split; [exact K1|]. destruct (t_kind t); try discriminate. injection Hv as ->. destruct m; try discriminate. reflexivity.
Qed.

Fixpoint nodupb (l : list str) : bool := match l with [] => true | x :: r => negb (existsb (str_eqb x) r) && nodupb r end.
Lemma nodupb_NoDup l : nodupb l = true -> NoDup l.
Proof.
  induction l as [|x l IH]; intros H; constructor; cbn in H; apply andb_prop in H; destruct H as [H1 H2]; [|apply IH, H2].
  intros I. assert (E : existsb (str_eqb x) l = true) by (apply existsb_exists; exists x; split; [exact I|apply str_eqb_refl]). rewrite E in H1. discriminate.
Qed.

Definition builtins_of (k : nat) : out (list (str * val)) := fst (import_builtins html_env (run_script html_env conf_prims 40 k [] []) mach0).
Definition builtins_ok (k : nat) : bool :=
  match builtins_of k with
  | Done b => nodupb (map fst b) &&
      forallb (fun nt => match dget str_eqb (TAG (fst nt)) b with
                         | Some (VTag t) => str_eqb (t_name t) (fst nt) && match t_kind (snd nt), t_kind t with KMarkup a _, KMarkup b _ => Bool.eqb a b | _, _ => false end
                         | _ => false
                         end) html_registry
  | _ => false
  end.
Lemma html_runtime : page_runtime html_env conf_prims html_known 40 4 mach0.
Proof.
  split; [reflexivity|]. split; [exists conf_lexicon; reflexivity|].
  assert (K : builtins_ok 4 = true) by (vm_compute; reflexivity). unfold builtins_ok, builtins_of in K.
  destruct (import_builtins html_env (run_script html_env conf_prims 40 4 [] []) mach0) as [[b|e|] m1]; try discriminate. cbn [fst] in K.
  exists b, m1. split; [reflexivity|]. apply andb_prop in K. destruct K as [K1 K2]. split; [apply nodupb_NoDup, K1|].
  intros y v Hy. destruct (html_known_In y v Hy) as (t & I & N & Kd). rewrite forallb_forall in K2. specialize (K2 _ I). cbn [fst snd] in K2. rewrite Kd in K2.
  destruct (dget str_eqb (TAG y) b) as [[]|] eqn:Eg; try discriminate. apply (dget_In str_eqb str_eqb_eq) in Eg.
  apply andb_prop in K2. destruct K2 as [K2 K3]. eexists. split; [exact Eg|]. split; [apply str_eqb_eq, K2|].
  destruct (t_kind t0); try discriminate. apply eqb_prop in K3. subst. eexists. reflexivity.
Qed.

Definition sample_page : list page :=
  [Note 0 (u " a page");
   Node 0 Own (u "div") [(u "class", u "x & {y}"); (u "data-id", u "<1>")] (u "  ")
     [Leaf 0 Own (u "h1") [] (Some (Plain, u " A < B $5"));
      Leaf 1 Own (u "img") [(u "src", u "a.png")] None;
      Note 0 (u "- { ( ");
      Node 0 Own (u "p") [] (u "  ") [Line 0 Own Markup (u " <b>{</b>  "); Line 2 Own Verbatim (u "$x {y}")]];
   Leaf 0 Own (u "P") [] None; Node 0 Own (u "table") [] (u " ") [Note 0 (u "")]].

(** Blocks with layout modifiers. *)
Definition layout_page : list page :=
  [Node 0 Own (u "ul") [] (u "  ")
     [Node 0 (Dedent 1) (u "li") [] (u "    ")
        [Line 0 (Append 1) Plain (u " a"); Leaf 0 (Append 0) (u "b") [] (Some (Plain, u " c")); Line 0 (Dedent 0) Plain (u " d")];
      Node 0 (Append 1) (u "li") [] (u " ") [Line 0 Own Plain (u " e"); Line 1 (Append 2) Markup (u " <i>"); Line 0 (Append 0) Verbatim (u "f")]];
   Leaf 0 (Append 0) (u "p") [] None; Line 1 (Append 1) Plain (u " g"); Line 0 Own Plain (u " h")].
