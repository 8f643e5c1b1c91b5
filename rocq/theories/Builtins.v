(** Model of the general-purpose functions of std/builtins.py (lines 10-155).
    [lower] and [upper] are not modelled: they are str.lower/str.upper (Unicode tables). *)
From Coq Require Import List NArith ZArith Bool String.
From Verif Require Import PyStr Indent.
Import ListNotations.

(** doctype(text, value)                                              [builtins.py 19-22] *)
Definition doctype (value : str) : str := u "<!DOCTYPE " ++ value ++ u ">".

(** re.compile('(?m)^\s+').sub('', text)              [builtins.py 15, 33: _re_dedent.sub]
    [bol] = the current position is the beginning of the text, or directly after a newline, or
    inside a match started at such a position (greedy \s+, which also runs over newlines). *)
Fixpoint sub_indent (bol : bool) (s : str) : str :=
  match s with
  | [] => []
  | c :: r =>
      if bol && is_space c then sub_indent true r
      else c :: sub_indent (N.eqb c NL) r
  end.

(** dedent(text, full)                                                [builtins.py 24-34] *)
Definition dedent (full : bool) (text : str) : str :=
  if full then sub_indent true text else del_indent text None.

(** nifty.util.unique(seq): elements with duplicates removed        [nifty/util.py 210-215] *)
Fixpoint unique_list (seen : list str) (l : list str) : list str :=
  match l with
  | [] => []
  | x :: r => if existsb (str_eqb x) seen then unique_list seen r
              else x :: unique_list (x :: seen) r
  end.

(** unique(text, strip)                                               [builtins.py 36-47] *)
Definition unique (do_strip : bool) (text : str) : str :=
  let ls := splitlines text in
  let ls := if do_strip
            then filter (fun l => negb (str_eqb l [])) (map strip ls)
            else ls in
  join [NL] (unique_list [] ls).

(** re.compile('\s+').sub(' ', text)                        [builtins.py 16, 55: _re_merge.sub]
    [inrun] = the previous character belongs to a match already replaced. *)
Fixpoint sub_spaces (inrun : bool) (s : str) : str :=
  match s with
  | [] => []
  | c :: r =>
      if is_space c
      then (if inrun then sub_spaces true r else SP :: sub_spaces true r)
      else c :: sub_spaces false r
  end.

(** merge(text)                                                       [builtins.py 49-55] *)
Definition merge (text : str) : str := strip (sub_spaces false text).

(** inline(text)                                                      [builtins.py 58-65] *)
Definition inline (text : str) : str := replace [NL] (u "&#10;") text.

(** crop(s, length, end, killwords, maxdrop, leeway)                [builtins.py 126-152]
    Simplified: [s] is a str by typing (the isinstance assertion holds); numbers are integers. *)
Definition crop (s : str) (length : Z) (end_ : str) (killwords : bool) (maxdrop leeway : Z)
  : result str :=
  let len (x : str) := Z.of_nat (List.length x) in
  if negb (len end_ <=? length)%Z then Raise AssertionError
  else if negb (0 <=? leeway)%Z then Raise AssertionError
  else if (len s <=? length + leeway)%Z then Ok s
  else
    let maxlen := (length - len end_)%Z in
    let cut := firstn (Z.to_nat maxlen) s in
    if killwords then Ok (cut ++ end_)
    else
      let res := rsplit1_head SP cut in
      let res := if (len res <? maxlen - maxdrop)%Z then cut else res in
      Ok (res ++ end_).

(** itertools.cycle over a finite iterable: the saved items and those left in the current round. *)
Definition cyc (A : Type) : Type := list A * list A.
Definition cyc_next {A} (c : cyc A) : option (A * cyc A) :=
  match snd c with
  | x :: r => Some (x, (fst c, r))
  | [] => match fst c with [] => None | x :: r => Some (x, (fst c, r)) end
  end.

(** one step of zip( *cycles ): the tuple of next items; None when some iterator is exhausted *)
Fixpoint zip_next {A} (cs : list (cyc A)) : option (list A * list (cyc A)) :=
  match cs with
  | [] => Some ([], [])
  | c :: r =>
      match cyc_next c with
      | None => None
      | Some (x, c') =>
          match zip_next r with
          | None => None
          | Some (xs, r') => Some (x :: xs, c' :: r')
          end
      end
  end.

(** the first [k] items of zip( *cycles ), or fewer if it ends earlier *)
Fixpoint zip_take {A} (k : nat) (cs : list (cyc A)) : list (list A) :=
  match k with
  | O => []
  | S k' => match zip_next cs with
            | None => []
            | Some (t, cs') => t :: zip_take k' cs'
            end
  end.

(** the [stop] argument of cycle(): 'first', 'longest', anything else *)
Inductive stop_mode := StopFirst | StopLongest | StopNever.

(** cycle( *sequences, stop )                                         [builtins.py 79-107]
    The result is an iterator; [cycle mode seqs k] is the list of items obtained by asking it for
    at most [k] items.  Sequences are finite lists (an infinite first sequence would make list()
    diverge). *)
Definition cycle {A} (mode : stop_mode) (seqs : list (list A)) (k : nat) : list (list A) :=
  match seqs with
  | [] => []
  | s0 :: _ =>
      let limit := match mode with
                   | StopFirst => Some (List.length s0)
                   | StopLongest => Some (List.list_max (map (@List.length A) seqs))
                   | StopNever => None
                   end in
      let n := match limit with Some l => Nat.min k l | None => k end in
      zip_take n (map (fun s => (s, s)) seqs)
  end.

(** changes(seq, first)                                             [builtins.py 109-124]
    [neq] is the Python operator != on items. *)
Fixpoint changes_from {A} (neq : A -> A -> bool) (prev : A) (l : list A) : list (A * bool) :=
  match l with
  | [] => []
  | x :: r => (x, neq x prev) :: changes_from neq x r
  end.
Definition changes {A} (neq : A -> A -> bool) (first : bool) (l : list A) : list (A * bool) :=
  match l with
  | [] => []
  | x :: r => (x, first) :: changes_from neq x r
  end.
