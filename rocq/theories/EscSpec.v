(** Escape sequences in strings, after the table of the Python Language Reference (2.4.1), without \N{...}
    and without a backslash at the end of a line, neither of which can occur inside a Hypertag string. *)
From Coq Require Import List NArith Bool.
From Verif Require Import PyStr.
Import ListNotations.
Local Open Scope N_scope.

(** One character after the backslash: the backslash itself, the two quotes, and the letters a b f n r t v. *)
Definition single : list (char * char) :=
  [(92, 92); (39, 39); (34, 34); (97, 7); (98, 8); (102, 12); (110, 10); (114, 13); (116, 9); (118, 11)].
(** Hexadecimal codes: x with two digits, u with four, U with eight. *)
Definition lettered : list (char * nat) := [(120, 2%nat); (117, 4%nat); (85, 8%nat)].

(** [digit_of base c d]: [c] is a digit of value [d]. *)
Definition digit_of (base : N) (c : char) (d : N) : Prop :=
  d < base /\ (48 <= c <= 57 /\ d = c - 48 \/ 97 <= c <= 122 /\ d = c - 97 + 10 \/ 65 <= c <= 90 /\ d = c - 65 + 10).
(** A numeral, most significant digit first. *)
Inductive numeral (base : N) : str -> N -> Prop :=
| num_nil : numeral base [] 0
| num_snoc s n c d : numeral base s n -> digit_of base c d -> numeral base (s ++ [c]) (base * n + d).

Definition octal_digit (c : char) : Prop := 48 <= c <= 55.
(** An octal escape is as long as possible, but has three digits at most. *)
Definition octal_end (digits rest : str) : Prop :=
  List.length digits = 3%nat \/ match rest with [] => True | c :: _ => ~ octal_digit c end.

(** A backslash that does not begin an escape sequence. *)
Definition no_escape (rest : str) : Prop :=
  match rest with
  | [] => True
  | c :: r => (forall v, ~ In (c, v) single) /\ ~ octal_digit c /\ forall n, In (c, n) lettered -> (List.length r < n)%nat
  end.

(** [means s t]: the text [s] between the quotes stands for [t]. *)
Inductive means : str -> str -> Prop :=
| means_nil : means [] []
| means_char c s t : c <> 92 -> means s t -> means (c :: s) (c :: t)
| means_single c v s t : In (c, v) single -> means s t -> means (92 :: c :: s) (v :: t)
| means_code c n digits v s t : In (c, n) lettered -> List.length digits = n -> numeral 16 digits v -> v <= 0x10FFFF ->
    means s t -> means (92 :: c :: digits ++ s) (v :: t)
| means_octal digits v s t : digits <> [] -> (List.length digits <= 3)%nat -> numeral 8 digits v -> octal_end digits s ->
    means s t -> means (92 :: digits ++ s) (v :: t)
| means_back s t : no_escape s -> means s t -> means (92 :: s) (92 :: t).
