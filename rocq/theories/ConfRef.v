(** The environment in which the tests of the repository run (tests/test_main.py), as far as they need it:
    Python built-in functions, the modules hypertag.builtins and hypertag.html, and the sample modules of
    hypertag/tests. For conformance examples only; no theorem depends on it. *)
From Coq Require Import List NArith ZArith Bool String.
From Verif Require Import PyStr Html Indent PyDict Builtins Value Dom Ast Machine Translate Analyse Paths Peg Grammar Syntax Runtime Ref.
Import ListNotations.
Local Open Scope list_scope.

(** str.lower and str.upper for ASCII *)
Definition low (c : N) : N := if (65 <=? c)%N && (c <=? 90)%N then (c + 32)%N else c.
Definition up (c : N) : N := if (97 <=? c)%N && (c <=? 122)%N then (c - 32)%N else c.

(** repr() with dicts and sets *)
Fixpoint show (v : val) : result str :=
  let join := fix join (l : list val) : result str :=
    match l with
    | [] => Ok []
    | [v] => show v
    | v :: r => a <- show v ;; b <- join r ;; Ok (a ++ u ", " ++ b)
    end in
  match v with
  | VList l => x <- join l ;; Ok (u "[" ++ x ++ u "]")
  | VTuple [v] => x <- show v ;; Ok (u "(" ++ x ++ u ",)")
  | VTuple l => x <- join l ;; Ok (u "(" ++ x ++ u ")")
  | VSet l => x <- join l ;; Ok (u "{" ++ x ++ u "}")
  | VDict l =>
      x <- (fix go (l : list (val * val)) : result str :=
              match l with
              | [] => Ok []
              | [(k, v)] => a <- show k ;; b <- show v ;; Ok (a ++ u ": " ++ b)
              | (k, v) :: r => a <- show k ;; b <- show v ;; c <- go r ;; Ok (a ++ u ": " ++ b ++ u ", " ++ c)
              end) l ;; Ok (u "{" ++ x ++ u "}")
  | _ => repr_val v
  end.
Definition text_of_val (v : val) : result str := match v with VStr s => Ok s | _ => show v end.

Definition kwarg (n : string) (kw : list (str * val)) : option val :=
  match List.find (fun p => str_eqb (u n) (fst p)) kw with Some (_, v) => Some v | None => None end.
Definition int_of_text (s : str) : option Z :=
  match s with
  | [] => None
  | _ => if forallb (fun c => (48 <=? c)%N && (c <=? 57)%N) s
         then Some (fold_left (fun a c => (a * 10 + Z.of_N (c - 48))%Z) s 0%Z) else None
  end.
Fixpoint steps (n : nat) (z d : Z) : list val :=
  match n with O => [] | S k => VInt z :: steps k (z + d)%Z d end.
Fixpoint text_leb (a b : str) : bool :=
  match a, b with
  | [], _ => true
  | _, [] => false
  | x :: a, y :: b => (x <? y)%N || ((x =? y)%N && text_leb a b)
  end.
Definition val_leb (a b : val) : bool :=
  match a, b with VStr a, VStr b => text_leb a b | VInt a, VInt b => Z.leb a b | _, _ => false end.
Fixpoint insert_val (v : val) (l : list val) : list val :=
  match l with [] => [v] | w :: r => if val_leb v w then v :: l else w :: insert_val v r end.

(** x[a:b:c] with a negative step, for strings, and with step 1 *)
Definition conf_slice (v a b c : val) : result val :=
  match v, c with
  | _, VInt 1 => ref_slice v a b VNone
  | VStr s, VInt (-1) =>
      match a, b with
      | VInt i, VInt j =>
          let i := Z.min i (Z.of_nat (List.length s) - 1) in
          Ok (VStr (flat_map (fun k => match nth_error s k with Some c => [c] | None => [] end)
                             (rev (seq (Z.to_nat (j + 1)) (Z.to_nat (i - j))))))
      | _, _ => Raise TypeError
      end
  | _, _ => ref_slice v a b c
  end.

Definition truth_of (v : val) : result bool :=
  Ok match v with
     | VNone => false
     | VBool b => b
     | VInt z => negb (Z.eqb z 0)
     | VStr s => negb (Nat.eqb (List.length s) 0)
     | VList l | VTuple l | VSet l => negb (Nat.eqb (List.length l) 0)
     | VDict l => negb (Nat.eqb (List.length l) 0)
     | _ => true
     end.

(** Text functions registered both as tags and as variables: std/builtins.py 19-76 *)
Definition text_function (code : N) (t : str) (args : list val) (kw : list (str * val)) : result str :=
  match code, args, kw with
  | 30%N, [], [] => Ok (doctype (u "html"))
  | 30%N, [VStr v], [] => Ok (doctype v)
  | 31%N, [], [] => Ok (dedent true t)
  | 32%N, [], [] => Ok (unique true t)
  | 33%N, [], [] => Ok (merge t)
  | 34%N, [], [] => Ok (inline t)
  | 35%N, [], [] => Ok (map low t)
  | 36%N, [], [] => Ok (map up t)
  | _, _, _ => Raise TypeError
  end.

Definition conf_call (f : val) (args : list val) (kw : list (str * val)) : result val :=
  match f, args, kw with
  | VObj 3, [VInt a; VInt b; VInt c], [] =>
      if (0 <? c)%Z then Ok (VList (steps (Z.to_nat ((b - a + c - 1) / c)) a c)) else Raise ValueError
  | VObj 5, [VStr s], [] => match int_of_text s with Some z => Ok (VInt z) | None => Raise ValueError end
  | VObj 7, [v], [(_, VInt start)] =>
      l <- items_of v ;;
      Ok (VList (map (fun iv => VTuple [fst iv; snd iv]) (combine (range_from (List.length l) start) l)))
  | VObj 20, [VInt z], [] => Ok (VInt (Z.abs z))
  | VObj 21, [VStr [c]], [] => Ok (VInt (Z.of_N c))
  | VObj 22, [v], [] => l <- items_of v ;; Ok (VList l)
  | VObj 23, [v], _ =>
      l <- items_of v ;;
      let l := fold_right insert_val [] l in
      Ok (VList (match kwarg "reverse" kw with Some (VBool true) => rev l | _ => l end))
  | VObj 24, [VStr s], [] => Ok (VStr (map up s))
  | VObj 25, [k; dflt; VDict d], [] =>
      Ok (match List.find (fun kv => val_eqb k (fst kv)) d with Some (_, x) => x | None => dflt end)
  | VObj 26, [VInt a], [] => Ok (VInt (a * 155))
  | VObj 37, seqs, _ =>
      ls <- (fix go l := match l with [] => Ok [] | v :: r => x <- items_of v ;; xs <- go r ;; Ok (x :: xs) end) seqs ;;
      let mode := match kwarg "stop" kw with Some (VStr s) => if str_eqb s (u "longest") then StopLongest else StopNever | _ => StopFirst end in
      Ok (VList (map VTuple (cycle mode ls 100)))
  | VObj 38, [v], _ =>
      l <- items_of v ;;
      let first := match kwarg "first" kw with Some (VBool b) => b | _ => true end in
      Ok (VList (map (fun p => VTuple [fst p; VBool (snd p)]) (changes (fun a b => negb (val_eqb a b)) first l)))
  | VObj 39, [VStr s; VInt n], _ =>
      let d := match kwarg "maxdrop" kw with Some (VInt d) => d | _ => 10%Z end in
      r <- crop s n (u "...") false d 0 ;; Ok (VStr r)
  | VObj c, VStr t :: args, _ =>
      if (30 <=? c)%N && (c <=? 36)%N then r <- text_function c t args kw ;; Ok (VStr r) else ref_call f (VStr t :: args) kw
  | _, _, _ => ref_call f args kw
  end.

Definition conf_getattr (v : val) (n : str) : result val :=
  match v with
  | VObj 2 => if str_eqb n (u "upper") then Ok (VObj 24) else Raise AttributeError
  | VDict _ => if str_eqb n (u "get") then Ok (VPartial (VObj 25) [v] []) else Raise AttributeError
  | _ => Raise AttributeError
  end.

(** dom[i]: core/dom.py 93-96 *)
Definition conf_getitem (v i : val) : result val :=
  match v, i with
  | VDom l, VInt z =>
      match index_of (List.length l) z with
      | Some k => n <- getindex l k ;; Ok (VNode n)
      | None => Raise IndexError
      end
  | _, _ => ref_getitem v i
  end.

Definition conf_prims : prims unit := {|
  p_ren := {| p_str := text_of_val; p_tagfun := text_function |};
  p_escape := Some html_escape;
  p_truth := fun v => pure (truth_of v);
  p_text := fun v => pure (text_of_val v);
  p_binop := fun o v w => pure (ref_binop o v w);
  p_iadd := fun v w => pure (ref_binop OAdd v w);
  p_neg := fun v => pure (match int_of v with Some z => Ok (VInt (- z)) | None => Raise TypeError end);
  p_getattr := fun v n => pure (conf_getattr v n);
  p_getitem := fun v i => pure (conf_getitem v i);
  p_getslice := fun v a b c => pure (conf_slice v a b c);
  p_call := fun f args kw => pure (conf_call f args kw);
  p_iter := fun _ => pure (Raise TypeError);
  p_mkset := fun l => pure (Ok (VSet (fold_left (fun s v => if existsb (val_eqb v) s then s else s ++ [v]) l [])));
  p_mkdict := fun l => pure (Ok (VDict (dict_of val_eqb l)))
|}.

(** The modules imported as built-ins. Only a part of the tags of std/html.py 35-41 is listed, to keep the
    examples fast. *)
Fixpoint words (s : string) (acc : string) : list string :=
  match s with
  | EmptyString => [acc]
  | String c r => if Ascii.eqb c (Ascii.ascii_of_nat 32) then acc :: words r EmptyString else words r (append acc (String c EmptyString))
  end.
Definition void_names : list string := words "br hr img input link meta" "".
Definition nonvoid_names : list string := words "a b body div em ol s strong style title u form h1 h2 head html i li p pre script span table td tr ul" "".
Definition html_pair (void : bool) (k : N) (n : string) : list (str * tag) :=
  [(u n, Tag (1000 + 2 * k) (u n) (KMarkup void HTML)); (map up (u n), Tag (1001 + 2 * k) (map up (u n)) (KMarkup void HTML))].
Fixpoint html_pairs (k : N) (l : list (bool * string)) : list (str * tag) :=
  match l with [] => [] | (v, n) :: r => html_pair v k n ++ html_pairs (k + 1) r end.
Definition html_tags : list (str * tag) :=
  html_pairs 0 (map (pair false) nonvoid_names ++ map (pair true) void_names) ++
  [(u "custom", Tag 900 (u "custom") KCustom); (u "comment", Tag 901 (u "comment") KComment)].
Definition py_names (l : list (string * N)) : list (str * val) := map (fun p => (u (fst p), VObj (snd p))) l.
Definition fun_tags (l : list (string * N)) : list (str * tag) := map (fun p => (u (fst p), Tag (snd p) (u (fst p)) (KFun (snd p)))) l.
Definition text_names : list (string * N) :=
  [("doctype", 30); ("dedent", 31); ("unique", 32); ("merge", 33); ("inline", 34); ("lower", 35); ("upper", 36)]%N%string.

Definition py_builtins : pymodule := {|
  py_file := None; py_package := Some [];
  py_dir := py_names [("len", 1); ("str", 2); ("range", 3); ("int", 5); ("sum", 6); ("enumerate", 7); ("abs", 20); ("ord", 21);
                      ("list", 22); ("sorted", 23)]%N%string;
  py_tags := [] |}.
Definition py_hypertag : pymodule := {|
  py_file := Some (u "/h/hypertag/builtins.py"); py_package := Some (u "hypertag");
  py_dir := py_names (text_names ++ [("cycle", 37); ("changes", 38); ("crop", 39); ("truncate", 39)]%N%string);
  py_tags := fun_tags text_names |}.
Definition py_html : pymodule := {|
  py_file := Some (u "/h/hypertag/html.py"); py_package := Some (u "hypertag"); py_dir := []; py_tags := html_tags |}.
Definition py_sample1 : pymodule := {|
  py_file := Some (u "/h/hypertag/tests/sample1.py"); py_package := Some (u "hypertag.tests");
  py_dir := [(u "x", VInt 155); (u "f", VObj 26)]; py_tags := [] |}.

(** hypertag/tests/*.hy *)
Definition sample2 : string := "from .package1.sample3 import %G, $y

$x = 5

%H @body y=5:
    | {x+y}
    @body
    | {x*y}

$x = 155
$z = 155 + y
".
Definition sample3 : string := "%print_data item
    h2 : b | Data".
Definition sample4 : string := "from sample2 import $x as y, %G as H

$x = y * 2

%G @body
    | in G
    H @body
".
Definition package1_sample3 : string := "$y = 15

%G @body x=9:
    | {x+y}
    @body
    | {x*y}
".
Definition conf_files : list (string * string) :=
  [("/h/hypertag/tests/sample2.hy", sample2); ("/h/hypertag/tests/sample3.hy", sample3);
   ("/h/hypertag/tests/sample4.hy", sample4); ("/h/hypertag/tests/package1/sample3.hy", package1_sample3)]%string.
Definition conf_packages : list (string * string) :=
  [("hypertag", "/h/hypertag/__init__.py"); ("hypertag.tests", "/h/hypertag/tests/__init__.py");
   ("hypertag.tests.package1", "/h/hypertag/tests/package1/__init__.py")]%string.
Definition conf_modules : list (string * pymodule) :=
  [("builtins", py_builtins); ("hypertag.builtins", py_hypertag); ("hypertag.html", py_html); ("hypertag.tests.sample1", py_sample1)]%string.

Definition get {A} (n : str) (l : list (string * A)) : option A :=
  match List.find (fun p => str_eqb (u (fst p)) n) l with Some (_, v) => Some v | None => None end.

(** Every character outside ASCII is a letter, except for the ornamental brackets U+2768 - U+2775, and there
    are no floating point numbers. *)
Definition conf_lexicon : lexicon :=
  {| lx_unicode := {| u_digit := fun _ => None; u_alnum := fun c => negb ((10088 <=? c)%N && (c <=? 10101)%N) |}; lx_float := fun _ => VObj 99 |}.
Definition conf_env : env unit := {|
  e_loaders := [LHy; LPy];
  e_builtins := [u "builtins"; u "hypertag.builtins"; u "hypertag.html"];
  e_resolve := None;
  e_cwd := pure (Ok (u "/w"));
  e_exists := fun p => pure (Ok match get p conf_files with Some _ => true | None => false end);
  e_read := fun p => pure match get p conf_files with Some t => Ok (u t) | None => Raise (OtherError 2) end;
  e_package := fun p => pure match get p conf_packages with Some t => Ok (u t) | None => Raise ModuleNotFound end;
  e_pymodule := fun p => pure (Ok (get p conf_modules));
  e_parse := parse_script conf_lexicon
|}.

(** HyperHTML().render(script, **vars) of tests/test_main.py, or with the package and file of the test module *)
Definition conf_render (vars : list (str * val)) (in_package : bool) (script : str) : out str :=
  fst (render_script conf_env conf_prims 40 5 [] vars script
         (if in_package then Some (u "/w/tests/test_main.py") else None)
         (if in_package then Some (u "tests") else None) mach0).

Lemma exn_dec : forall a b : exn, {a = b} + {a <> b}.
Proof. decide equality; decide equality. Defined.
Definition same (clean : str -> str) (o : out str) (expected : str) : bool :=
  match o with Done t => str_eqb (clean t) expected | _ => false end.
Definition raises (o : out str) (e : exn) : bool :=
  match o with Exc e' => if exn_dec e e' then true else false | _ => false end.
Fixpoint part_of (fuel : nat) (a b : str) : bool :=
  startswith a b || match fuel, b with S k, _ :: b => part_of k a b | _, _ => false end.
Definition holds (o : out str) (part : str) : bool :=
  match o with Done t => part_of (List.length t) part t | _ => false end.
