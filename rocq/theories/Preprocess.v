(** Model of Grammar.get_parser and Grammar.preprocess: src/hypertag/core/ast.py 148-275. *)
From Coq Require Import List NArith Bool Arith.
From Verif Require Import PyStr Indent.
Import ListNotations.
Local Open Scope N_scope.

(** The special symbols: core/ast.py 154-166 *)
Record symbols := { INDENT_S : char; DEDENT_S : char; INDENT_T : char; DEDENT_T : char }.

Definition symbol_list (y : symbols) : list char :=
  [INDENT_S y; DEDENT_S y; INDENT_T y; DEDENT_T y].

(** core/ast.py 155 CHARS_DEFAULT, 278 Grammar.default *)
Definition default_symbols : symbols :=
  {| INDENT_S := 10088; DEDENT_S := 10089; INDENT_T := 10090; DEDENT_T := 10091 |}.

(** core/ast.py 192-193: while chr(code) in text: code += 1.  Fuel: None = out of fuel. chr() is
    the identity; CPython raises ValueError above 0x10FFFF, see [get_parser_small]. *)
Fixpoint next_code (fuel : nat) (text : str) (code : N) : option N :=
  match fuel with
  | O => None
  | S k => if mem code text then next_code k text (code + 1) else Some code
  end.

(** core/ast.py 191-195 *)
Fixpoint pick_codes (n : nat) (fuel : nat) (text : str) (code : N) : option (list N) :=
  match n with
  | O => Some []
  | S k => match next_code fuel text code with
           | None => None
           | Some c => match pick_codes k fuel text (c + 1) with
                       | None => None
                       | Some l => Some (c :: l)
                       end
           end
  end.

(** core/ast.py 177-197 *)
Definition get_parser (text : str) : option symbols :=
  if negb (existsb (fun c => mem c text) (symbol_list default_symbols)) then Some default_symbols
  else match pick_codes 4 (S (List.length text)) text (INDENT_S default_symbols) with
       | Some [a; b; c; d] => Some {| INDENT_S := a; DEDENT_S := b; INDENT_T := c; DEDENT_T := d |}
       | _ => None
       end.

(** Local variables of preprocess: core/ast.py 215-218.
    [pp_lines] is the list of output lines reversed (last line first). *)
Record pp := { pp_lines : list str; pp_linenum : nat; pp_current : str; pp_margin : nat }.

Definition pp_init : pp := {| pp_lines := [[]]; pp_linenum := 0; pp_current := []; pp_margin := 0 |}.

(** lines[-1] += symbols *)
Definition append_last (rlines : list str) (x : str) : list str :=
  match rlines with
  | [] => []
  | l :: r => (l ++ x) :: r
  end.

(** core/ast.py 237-253: conversion of the indentation of a code line; returns the symbols to be
    appended to the last output line and the new current indentation *)
Definition pp_indent (y : symbols) (linenum : nat) (current indent : str) : result (str * str) :=
  if str_eqb indent current then Ok ([], current)
  else if startswith current indent then
    Ok (map (fun ch => if ch =? SP then INDENT_S y else INDENT_T y)
            (skipn (List.length current) indent), indent)
  else if startswith indent current then
    Ok (map (fun ch => if ch =? SP then DEDENT_S y else DEDENT_T y)
            (rev (skipn (List.length indent) current)), indent)
  else Raise (IndentationError linenum).

(** core/ast.py 223-258: one iteration of the loop *)
Definition pp_step (y : symbols) (total : nat) (st : pp) (line : str) : result pp :=
  let linenum := S (pp_linenum st) in
  let line := rstrip line in
  let tail := lstrip line in
  let indent := firstn (Nat.sub (List.length line) (List.length tail)) line in
  if negb (nonempty tail) && Nat.leb linenum total then
    Ok {| pp_lines := pp_lines st; pp_linenum := linenum; pp_current := pp_current st;
          pp_margin := S (pp_margin st) |}
  else
    si <- pp_indent y linenum (pp_current st) indent ;;
    Ok {| pp_lines := (repeatc NL (pp_margin st) ++ tail) :: append_last (pp_lines st) (fst si);
          pp_linenum := linenum; pp_current := snd si; pp_margin := 0 |}.

Fixpoint pp_loop (y : symbols) (total : nat) (st : pp) (script : list str) : result pp :=
  match script with
  | [] => Ok st
  | l :: r => st' <- pp_step y total st l ;; pp_loop y total st' r
  end.

(** core/ast.py 200-275 *)
Definition preprocess (y : symbols) (text : str) : result str :=
  let script := split NL text ++ [[]] in
  let total := Nat.pred (List.length script) in
  st <- pp_loop y total pp_init script ;;
  if nonempty (pp_current st) then Raise AssertionError           (* 260 *)
  else
    let output := join [NL] (rev (pp_lines st)) ++ repeatc NL (pp_margin st) in
    match rev output with
    | c :: r => if c =? NL then Ok (rev r) else Raise AssertionError   (* 266-267 *)
    | [] => Raise IndexError                                      (* output[-1] *)
    end.
