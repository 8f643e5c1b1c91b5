(** A concrete instance of the Python operations, for examples and conformance tests only: integers,
    booleans, strings, lists, tuples, dicts and a few functions. No theorem depends on it. *)
From Coq Require Import List NArith ZArith Bool String.
From Verif Require Import PyStr Html Indent PyDict Builtins Value Dom Ast Machine.
Import ListNotations.
Local Open Scope list_scope.

(** str(z) *)
Fixpoint digits (fuel : nat) (n : N) (acc : str) : str :=
  match fuel with
  | O => acc
  | S k => let acc := (48 + n mod 10)%N :: acc in if (n <? 10)%N then acc else digits k (n / 10)%N acc
  end.
Definition dec (n : N) : str := digits (S (N.to_nat (N.log2 n))) n [].
Definition dec_z (z : Z) : str :=
  match z with Z0 => u "0" | Zpos p => dec (Npos p) | Zneg p => u "-" ++ dec (Npos p) end.

Fixpoint repr_val (v : val) : result str :=
  match v with
  | VNone => Ok (u "None")
  | VBool true => Ok (u "True")
  | VBool false => Ok (u "False")
  | VInt z => Ok (dec_z z)
  | VStr s => Ok (u "'" ++ s ++ u "'")
  | VList l =>
      x <- (fix go (l : list val) : result str :=
              match l with
              | [] => Ok []
              | [v] => repr_val v
              | v :: r => a <- repr_val v ;; b <- go r ;; Ok (a ++ u ", " ++ b)
              end) l ;; Ok (u "[" ++ x ++ u "]")
  | VTuple [v] => x <- repr_val v ;; Ok (u "(" ++ x ++ u ",)")
  | VTuple l =>
      x <- (fix go (l : list val) : result str :=
              match l with
              | [] => Ok []
              | [v] => repr_val v
              | v :: r => a <- repr_val v ;; b <- go r ;; Ok (a ++ u ", " ++ b)
              end) l ;; Ok (u "(" ++ x ++ u ")")
  | _ => Raise TypeError
  end.
Definition str_val (v : val) : result str :=
  match v with VStr s => Ok s | _ => repr_val v end.

(** v == w *)
Fixpoint val_eqb (v w : val) {struct v} : bool :=
  let all := fix all (l m : list val) {struct l} : bool :=
    match l, m with
    | [], [] => true
    | a :: l, b :: m => val_eqb a b && all l m
    | _, _ => false
    end in
  match v, w with
  | VNone, VNone => true
  | VBool a, VBool b => Bool.eqb a b
  | VInt a, VInt b => Z.eqb a b
  | VBool a, VInt b | VInt b, VBool a => Z.eqb (Z.b2z a) b
  | VStr a, VStr b => str_eqb a b
  | VList a, VList b | VTuple a, VTuple b => all a b
  | VObj a, VObj b => N.eqb a b
  | _, _ => false
  end.

Definition int_of (v : val) : option Z :=
  match v with VInt z => Some z | VBool b => Some (Z.b2z b) | _ => None end.
Definition items_of (v : val) : result (list val) :=
  match v with
  | VList l | VTuple l | VSet l => Ok l
  | VDict d => Ok (map fst d)
  | VStr s => Ok (map (fun c => VStr [c]) s)
  | _ => Raise TypeError
  end.
Definition less (v w : val) : result bool :=
  match int_of v, int_of w with
  | Some a, Some b => Ok (Z.ltb a b)
  | _, _ => Raise TypeError
  end.
Definition contains (v w : val) : result bool := l <- items_of w ;; Ok (existsb (val_eqb v) l).

Definition ref_binop (o : binop) (v w : val) : result val :=
  match o with
  | OEq => Ok (VBool (val_eqb v w))
  | ONe => Ok (VBool (negb (val_eqb v w)))
  | OIs => Ok (VBool (val_eqb v w))
  | OIsNot => Ok (VBool (negb (val_eqb v w)))
  | OLt => b <- less v w ;; Ok (VBool b)
  | OGt => b <- less w v ;; Ok (VBool b)
  | OLe => b <- less w v ;; Ok (VBool (negb b))
  | OGe => b <- less v w ;; Ok (VBool (negb b))
  | OIn => b <- contains v w ;; Ok (VBool b)
  | ONotIn => b <- contains v w ;; Ok (VBool (negb b))
  | _ =>
      match int_of v, int_of w with
      | Some a, Some b =>
          match o with
          | OAdd => Ok (VInt (a + b))
          | OSub => Ok (VInt (a - b))
          | OMul => Ok (VInt (a * b))
          | OPow => if Z.ltb b 0 then Raise TypeError else Ok (VInt (a ^ b))
          | OFloorDiv => if Z.eqb b 0 then Raise (OtherError 0) else Ok (VInt (a / b))
          | OMod => if Z.eqb b 0 then Raise (OtherError 0) else Ok (VInt (a mod b))
          | ODiv => if Z.eqb b 0 then Raise (OtherError 0)
                    else if Z.eqb (a mod b) 0 then Ok (VInt (a / b)) else Raise TypeError
          | OShl => Ok (VInt (Z.shiftl a b))
          | OShr => Ok (VInt (Z.shiftr a b))
          | OBitAnd => Ok (VInt (Z.land a b))
          | OBitOr => Ok (VInt (Z.lor a b))
          | OBitXor => Ok (VInt (Z.lxor a b))
          | _ => Raise TypeError
          end
      | _, _ =>
          match o, v, w with
          | OAdd, VStr a, VStr b => Ok (VStr (a ++ b))
          | OAdd, VList a, VList b => Ok (VList (a ++ b))
          | OMul, VStr a, VInt n => Ok (VStr (List.concat (repeat a (Z.to_nat n))))
          | OMul, VList a, VInt n => Ok (VList (List.concat (repeat a (Z.to_nat n))))
          | _, _, _ => Raise TypeError
          end
      end
  end.

Definition index_of (n : nat) (z : Z) : option nat :=
  let z := if Z.ltb z 0 then (z + Z.of_nat n)%Z else z in
  if Z.ltb z 0 then None else Some (Z.to_nat z).
Definition ref_getitem (v i : val) : result val :=
  match v, i with
  | VDict d, _ => match find (fun kv => val_eqb i (fst kv)) d with
                  | Some (_, x) => Ok x
                  | None => Raise KeyError
                  end
  | VStr s, VInt z =>
      match index_of (List.length s) z with
      | Some k => match nth_error s k with Some c => Ok (VStr [c]) | None => Raise IndexError end
      | None => Raise IndexError
      end
  | (VList l | VTuple l), VInt z =>
      match index_of (List.length l) z with
      | Some k => match nth_error l k with Some c => Ok c | None => Raise IndexError end
      | None => Raise IndexError
      end
  | _, _ => Raise TypeError
  end.

Definition clip (n : nat) (dflt : nat) (v : val) : result nat :=
  match v with
  | VNone => Ok dflt
  | VInt z => Ok (match index_of n z with Some k => Nat.min n k | None => 0 end)
  | _ => Raise TypeError
  end.
Definition slice_list {A} (l : list A) (a b c : val) : result (list A) :=
  match c with
  | VNone =>
      i <- clip (List.length l) 0 a ;; j <- clip (List.length l) (List.length l) b ;;
      Ok (firstn (j - i) (skipn i l))
  | _ => Raise TypeError
  end.
Definition ref_slice (v a b c : val) : result val :=
  match v with
  | VStr s => x <- slice_list s a b c ;; Ok (VStr x)
  | VList l => x <- slice_list l a b c ;; Ok (VList x)
  | VTuple l => x <- slice_list l a b c ;; Ok (VTuple x)
  | _ => Raise TypeError
  end.

Fixpoint range_from (n : nat) (z : Z) : list val :=
  match n with O => [] | S k => VInt z :: range_from k (z + 1)%Z end.

(** Functions: 1 len, 2 str, 3 range, 4 a function that always fails, 5 int (of an int), 6 sum,
    7 enumerate; methods of a string are not available. *)
Definition ref_call (f : val) (args : list val) (kw : list (str * val)) : result val :=
  match f, args, kw with
  | VObj 1, [VStr s], [] => Ok (VInt (Z.of_nat (List.length s)))
  | VObj 1, [v], [] => l <- items_of v ;; Ok (VInt (Z.of_nat (List.length l)))
  | VObj 2, [v], [] => s <- str_val v ;; Ok (VStr s)
  | VObj 3, [VInt n], [] => Ok (VList (range_from (Z.to_nat n) 0))
  | VObj 3, [VInt a; VInt b], [] => Ok (VList (range_from (Z.to_nat (b - a)) a))
  | VObj 4, _, _ => Raise ValueError
  | VObj 5, [VInt n], [] => Ok (VInt n)
  | VObj 6, [v], [] =>
      l <- items_of v ;;
      Ok (VInt (fold_left (fun a x => match x with VInt z => (a + z)%Z | _ => a end) l 0%Z))
  | VObj 7, [v], [] =>
      l <- items_of v ;;
      Ok (VList (map (fun iv => VTuple [fst iv; snd iv]) (combine (range_from (List.length l) 0) l)))
  | _, _, _ => Raise TypeError
  end.

Definition pure {W A} (r : result A) : prim W A := fun _ w => (out_of r, w).

(** An object number 13 has no truth value: its __bool__ raises ValueError. *)
Definition ref_prims_of (W : Type) : prims W := {|
  p_ren := {| p_str := str_val; p_tagfun := fun _ b _ _ => Ok b |};
  p_escape := Some html_escape;
  p_truth := fun v => pure (match v with VObj 13 => Raise ValueError | _ => Ok true end);
  p_text := fun v => pure (str_val v);
  p_binop := fun o v w => pure (ref_binop o v w);
  p_iadd := fun v w => pure (ref_binop OAdd v w);
  p_neg := fun v => pure (match int_of v with Some z => Ok (VInt (- z)) | None => Raise TypeError end);
  p_getattr := fun _ _ => pure (Raise AttributeError);
  p_getitem := fun v i => pure (ref_getitem v i);
  p_getslice := fun v a b c => pure (ref_slice v a b c);
  p_call := fun f args kw => pure (ref_call f args kw);
  p_iter := fun _ => pure (Raise TypeError);
  p_mkset := fun l => pure (Ok (VSet l));
  p_mkdict := fun l => pure (Ok (VDict (dict_of val_eqb l)))
|}.
Definition ref_prims : prims unit := ref_prims_of unit.

(** An empty machine *)
Definition mach0 : mach unit :=
  Mach [] [] [] 0 {| rt_hy := []; rt_py := []; rt_builtins := None |} tt.
