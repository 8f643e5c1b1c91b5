(** Model of the indentation utilities of src/hypertag/core/dom.py 27-62. *)
From Coq Require Import List NArith Bool.
From Verif Require Import PyStr.
Import ListNotations.
Local Open Scope N_scope.

(** re.compile(r'\n(?=.)').sub('\n' + indent, text): core/dom.py 27, 33. '.' does not match '\n'.
    The replacement is a template in Python; an indentation has no backslash, so it is literal. *)
Fixpoint add_indent_go (indent s : str) : str :=
  match s with
  | [] => []
  | c :: r =>
      if c =? NL then
        match r with
        | [] => [NL]
        | d :: _ => if d =? NL then NL :: add_indent_go indent r
                    else NL :: indent ++ add_indent_go indent r
        end
      else c :: add_indent_go indent r
  end.

(** core/dom.py 27-33 *)
Definition add_indent (text indent : str) : str :=
  match indent with
  | [] => text
  | _ => add_indent_go indent text
  end.

Definition nonempty {A} (l : list A) : bool := match l with [] => false | _ => true end.

(** zip( *lines ): the list of columns, as many as the shortest line has characters *)
Fixpoint zip_cols (n : nat) (lines : list str) : list (list char) :=
  match n with
  | O => []
  | S k => map (fun l => hd 0 l) lines :: zip_cols k (map (@tl char) lines)
  end.

Definition list_min (l : list N) : N := match l with [] => 0 | x :: r => fold_left N.min r x end.
Definition list_max (l : list N) : N := match l with [] => 0 | x :: r => fold_left N.max r x end.

Definition min_len (lines : list str) : nat :=
  match lines with
  | [] => O
  | l :: r => fold_left Nat.min (map (@List.length char) r) (List.length l)
  end.

(** core/dom.py 57-59: index of the first column that stops the loop *)
Fixpoint stop_col (cols : list (list char)) (i : nat) : option nat :=
  match cols with
  | [] => None
  | col :: r =>
      if negb (is_space (hd 0 col)) || negb (list_min col =? list_max col) then Some i
      else stop_col r (S i)
  end.

(** core/dom.py 46-62 *)
Definition get_indent (text : str) : str :=
  let lines := filter nonempty (map rstrip (split NL text)) in
  match lines with
  | [] => []
  | l0 :: _ =>
      match stop_col (zip_cols (min_len lines) lines) 0 with
      | Some i => firstn i l0
      | None => firstn (min_len lines) l0
      end
  end.

(** core/dom.py 43-44, with a given [indent] *)
Definition del_indent_by (text indent : str) : str :=
  let text := if startswith indent text then skipn (List.length indent) text else text in
  replace (NL :: indent) [NL] text.

(** core/dom.py 37-44 *)
Definition del_indent (text : str) (indent : option str) : str :=
  del_indent_by text (match indent with None => get_indent text | Some i => i end).

(** core/ast.py 469-500: block_text.render, the layout part. [lead] is self.column, [body] the
    concatenation of the rendered children. *)
Definition text_layout (lead : nat) (body : str) : str :=
  let output := repeatc SP lead ++ body in
  let sub_indent := firstn (lead + 1) (get_indent output) in
  let output := del_indent_by output sub_indent in
  if Nat.ltb (List.length sub_indent) lead then
    let drop := Nat.sub lead (List.length sub_indent) in
    let drop := match nth_error output drop with
                | Some c => if c =? SP then S drop else drop
                | None => drop
                end in
    skipn drop output
  else output.
