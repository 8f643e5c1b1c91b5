(** Small pieces of scripts, used in examples and witnesses only. *)
From Coq Require Import List NArith ZArith Bool String.
From Verif Require Import PyStr Html PyDict Value Dom Ast Machine Eval Translate Analyse Ref.
Import ListNotations.
Local Open Scope list_scope.

Definition lit (z : Z) : expr := ELit (VInt z).
Definition slit (t : string) : expr := ELit (VStr (u t)).
(** a variable with its slot; before analysis *)
Definition var (x : nat) : expr := EVar (u "v") (Some x).
Definition name (n : string) : expr := EVar (u n) None.
(** a call that fails with ValueError *)
Definition failing : expr := EFactor (ELit (VObj 4)) [TCall []] QNone.
Definition call (f : N) (args : list expr) : expr := EFactor (ELit (VObj f)) [TCall (map (fun e => (None, e)) args)] QNone.
Definition line1 (t : string) : item := NLine (LMarkup [PText (u t)]).
Definition shown (e : expr) : item := NLine (LMarkup [PExpr e]).
Definition blk (b : block) : item := NBlock [] MNone b.
Definition into (x : nat) : target := TTargets [TVar (u "v") false None (Some x)].
Definition def_ (n : string) : target := TTargets [TVar (u n) false None None].
(** | text *)
Definition text (t : string) : block := BText 0 [TxLine (LMarkup [PText (u t)])].
Definition text_of (e : expr) : block := BText 0 [TxLine (LMarkup [PExpr e])].
(** a body indented by [n] spaces *)
Definition body_in (n : nat) (l : list item) : body := YItems (repeat (NIndent SP) n ++ l ++ repeat (NDedent SP) n).

(** a machine with one state holding the given values *)
Definition with_vals (vals : list (nat * val)) : mach unit :=
  Mach [] [{| s_vals := vals; s_indent := [NL] |}] [] 100 {| rt_hy := []; rt_py := []; rt_builtins := None |} tt.

Definition ex := expand_n ref_prims 10.
Definition run_block (b : block) (m : mach unit) := tr_block ref_prims ex 20 0 b m.
Definition run_body (y : body) (m : mach unit) := tr_body ref_prims ex 20 0 y m.
Definition run_expr (e : expr) (m : mach unit) := eval ref_prims ex 0 e m.

(** the texts of the text nodes created, in order *)
Definition texts_of (m : mach unit) : list str :=
  flat_map (fun c => match n_kind (c_info c) with KText t => [t] | _ => [] end) (m_heap m).
Definition texts (m : mach unit) (l : list nat) : list str :=
  flat_map (fun i => match n_kind (info_at (m_heap m) i) with KText t => [t] | _ => [] end) l.
Definition rendered (m : mach unit) (l : list nat) : out str := dom_render (p_ren ref_prims) (depth_bound (m_heap m)) (m_heap m) l.

(** tags *)
Definition html_tag (id : N) (n : string) : val := VTag (Tag id (u n) (KMarkup false HTML)).
Definition gdiv : str * val := (TAG (u "div"), html_tag 2 "div").
Definition gp : str * val := (TAG (u "p"), html_tag 4 "p").

(** a whole script: globals, document; no imports *)
Definition no_import (_ : str) : M unit module := exc ModuleNotFound.
Definition script (globals : list (str * val)) (d : document) := translate no_import [] ref_prims 20 globals d mach0.
Definition script_text (globals : list (str * val)) (d : document) : out str :=
  match script globals d with
  | (Done (root, _, _), m) => rendered m [root]
  | (Exc e, _) => Exc e
  | (Fuel, _) => Fuel
  end.
Definition tagged (n : string) (y : body) : block := BStruct [XTag (u n) None [] []] y.
