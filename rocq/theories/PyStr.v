(** Python strings as lists of Unicode code points, and the string methods used by hypertag.
    The str type of Python 3 is a finite sequence of code points; [N] is not bounded by
    0x10FFFF here, which only enlarges the set of inputs the theorems speak about. *)
From Coq Require Import List NArith Bool Ascii String Arith.
Import ListNotations.
Local Open Scope N_scope.

Notation char := N (only parsing).
Notation str := (list N) (only parsing).

(** ASCII literals; used in the model to write the literals of the Python source. *)
Fixpoint u (x : string) : str :=
  match x with
  | EmptyString => []
  | String a r => N_of_ascii a :: u r
  end.

Definition NL : char := 10.    (* '\n' *)
Definition TAB : char := 9.    (* '\t' *)
Definition CR : char := 13.    (* '\r' *)
Definition SP : char := 32.    (* ' ' *)

(** str.isspace() of a one-character string; the same set is stripped by str.strip() and matched
    by \s in a str regex (CPython: _PyUnicode_IsWhitespace). *)
Definition is_space (c : char) : bool :=
  ((9 <=? c) && (c <=? 13)) || ((28 <=? c) && (c <=? 32)) || (c =? 133) || (c =? 160)
  || (c =? 5760) || ((8192 <=? c) && (c <=? 8202)) || (c =? 8232) || (c =? 8233)
  || (c =? 8239) || (c =? 8287) || (c =? 12288).

(** Line boundaries of str.splitlines() (CPython: _PyUnicode_IsLinebreak). *)
Definition is_linebreak (c : char) : bool :=
  ((10 <=? c) && (c <=? 13)) || ((28 <=? c) && (c <=? 30)) || (c =? 133)
  || (c =? 8232) || (c =? 8233).

Fixpoint str_eqb (a b : str) : bool :=
  match a, b with
  | [], [] => true
  | x :: a', y :: b' => (x =? y) && str_eqb a' b'
  | _, _ => false
  end.

(** c in s *)
Definition mem (c : char) (s : str) : bool := existsb (N.eqb c) s.

(** s.startswith(p) *)
Fixpoint startswith (p s : str) : bool :=
  match p, s with
  | [], _ => true
  | x :: p', y :: s' => (x =? y) && startswith p' s'
  | _ :: _, [] => false
  end.

(** s.split(c) for a one-character separator. *)
Fixpoint split (c : char) (s : str) : list str :=
  match s with
  | [] => [[]]
  | x :: r =>
      if x =? c then [] :: split c r
      else match split c r with
           | [] => [[x]]          (* unreachable: split never returns [] *)
           | l :: ls => (x :: l) :: ls
           end
  end.

(** sep.join(ls) *)
Fixpoint join (sep : str) (ls : list str) : str :=
  match ls with
  | [] => []
  | [l] => l
  | l :: r => l ++ sep ++ join sep r
  end.

(** s.lstrip() *)
Fixpoint lstrip (s : str) : str :=
  match s with
  | [] => []
  | c :: r => if is_space c then lstrip r else s
  end.

(** s.rstrip() *)
Definition rstrip (s : str) : str := rev (lstrip (rev s)).

(** s.strip() *)
Definition strip (s : str) : str := rstrip (lstrip s).

(** s.replace(old, new), [old] non-empty: left-to-right, non-overlapping.
    [skip] counts the characters of a matched occurrence still to be passed over. *)
Fixpoint replace_go (old new : str) (skip : nat) (s : str) : str :=
  match s with
  | [] => []
  | c :: r =>
      match skip with
      | S k => replace_go old new k r
      | O => if startswith old s then new ++ replace_go old new (pred (List.length old)) r
             else c :: replace_go old new O r
      end
  end.
Definition replace (old new s : str) : str := replace_go old new O s.

(** n * c *)
Definition repeatc (c : char) (n : nat) : str := repeat c n.

(** s.splitlines() : a line break is any character of [is_linebreak], "\r\n" counts as one, and no
    empty last line is produced. *)
Fixpoint splitlines_go (cur : str) (s : str) : list str :=
  match s with
  | [] => match cur with [] => [] | _ => [rev cur] end
  | c :: r =>
      if is_linebreak c then
        match r with
        | d :: r' => if (c =? CR) && (d =? NL) then rev cur :: splitlines_go [] r'
                     else rev cur :: splitlines_go [] r
        | [] => rev cur :: splitlines_go [] r
        end
      else splitlines_go (c :: cur) r
  end.
Definition splitlines (s : str) : list str := splitlines_go [] s.

(** s.rsplit(sep, 1)[0] for a one-character separator: the part before the last separator, or the
    whole string if there is none. *)
Fixpoint after_first (c : char) (s : str) : option str :=
  match s with
  | [] => None
  | x :: r => if x =? c then Some r else after_first c r
  end.
Definition rsplit1_head (c : char) (s : str) : str :=
  match after_first c (rev s) with
  | Some r => rev r
  | None => s
  end.

(** Results of operations that may raise. [exn] lists the exception classes that the modelled code
    can raise; error messages are dropped except for the line number of IndentationError. *)
Inductive exn :=
| IndentationError (line : nat)
| AssertionError
| AttributeError
| TypeError
| KeyError
| ValueError
| NameError
| UnboundLocalError
| IndexError
| ImportError
| SyntaxError
| UndefinedTag
| NotATag
| NoneString
| FalseValue
| VoidTag
| ParseError
| ModuleNotFound
| OtherError (code : nat).

Inductive result (A : Type) :=
| Ok (a : A)
| Raise (e : exn).
Arguments Ok {A} a.
Arguments Raise {A} e.

Definition bind {A B} (r : result A) (f : A -> result B) : result B :=
  match r with Ok a => f a | Raise e => Raise e end.
Notation "x <- r ;; k" := (bind r (fun x => k)) (at level 61, r at next level, right associativity).
