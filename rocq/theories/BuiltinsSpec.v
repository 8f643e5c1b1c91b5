(** Specification side of C54, C55. *)
From Coq Require Import List NArith Bool.
From Verif Require Import PyStr IndentSpec Builtins.
Import ListNotations.
Local Open Scope N_scope.

(** Words: maximal runs of non-whitespace characters.  [cur] is the word being read. *)
Definition flush (cur : str) : list str := match cur with [] => [] | _ => [cur] end.
Fixpoint words_from (cur : str) (s : str) : list str :=
  match s with
  | [] => flush cur
  | c :: r => if is_space c then flush cur ++ words_from [] r else words_from (cur ++ [c]) r
  end.
Definition words (s : str) : list str := words_from [] s.

(** The items of [l] that do not occur earlier in [l]. *)
Fixpoint keep_first_after (before l : list str) : list str :=
  match l with
  | [] => []
  | x :: r => if in_dec (list_eq_dec N.eq_dec) x before
              then keep_first_after (before ++ [x]) r
              else x :: keep_first_after (before ++ [x]) r
  end.
Definition keep_first (l : list str) : list str := keep_first_after [] l.

(** Boolean form of [blank]. *)
Definition blank_line (l : str) : bool := forallb is_space l.

(** Effect of full dedent on lines: blank lines disappear, other lines lose their leading
    whitespace; a blank last line leaves an empty one (if anything precedes it). *)
Definition dedented (ls : list str) : list str :=
  let kept := map lstrip (filter (fun l => negb (blank_line l)) ls) in
  match kept with
  | [] => [[]]
  | _ => if blank_line (last ls []) then kept ++ [[]] else kept
  end.

(** Non-whitespace characters. *)
Definition ink (s : str) : str := filter (fun c => negb (is_space c)) s.

(** i-th item of the infinite repetition of [s]. *)
Definition cyclic {A} (s : list A) (i : nat) : option A := nth_error s (Nat.modulo i (List.length s)).

(** Number of tuples given by cycle(), cut off after [k]: the number of items of the sequence that the stop mode
    selects; without a stop there is no end. *)
Definition cycle_length {A} (mode : stop_mode) (seqs : list (list A)) (k : nat) : nat :=
  match mode with
  | StopFirst => Nat.min k (match seqs with s :: _ => List.length s | [] => 0%nat end)
  | StopLongest => Nat.min k (fold_right Nat.max 0%nat (map (@List.length A) seqs))
  | StopNever => k
  end.
