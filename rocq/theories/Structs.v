(** Model of core/structs.py: Stack, MultiDict (lines 23-182) and the namespace part of Context.
    Names are strings, values of any type.  Not modelled: the [indentation] attribute of a Stack
    (never used by semantic analysis), __unicode__/__repr__. *)
From Coq Require Import List NArith Bool.
From Verif Require Import PyStr PyDict.
Import ListNotations.

Section MultiDict.
  Context {V : Type}.

  (** stack: triples (name, value, index_of_previous), bottom first; lookup: {name: index}
                                                               [structs.py 101-106] *)
  Record multidict := MD {
    md_stack : list (str * V * option nat);
    md_lookup : list (str * nat)
  }.

  (** MultiDict()                                               [structs.py 104-106] *)
  Definition md_empty : multidict := MD [] [].

  (** name in md                                                [structs.py 108-109] *)
  Definition md_contains (name : str) (m : multidict) : bool := dmem str_eqb name (md_lookup m).

  (** md.get(name)                                              [structs.py 116-119]
      (an index outside of the stack would be an IndexError; it is shown unreachable) *)
  Definition md_get (name : str) (m : multidict) : option V :=
    match dget str_eqb name (md_lookup m) with
    | None => None
    | Some i => match nth_error (md_stack m) i with Some (_, v, _) => Some v | None => None end
    end.

  (** md[name]                                                  [structs.py 111-114] *)
  Definition md_getitem (name : str) (m : multidict) : result V :=
    match dget str_eqb name (md_lookup m) with
    | None => Raise KeyError
    | Some i => match nth_error (md_stack m) i with
                | Some (_, v, _) => Ok v
                | None => Raise IndexError
                end
    end.

  (** md.push(name, value)                                      [structs.py 127-130] *)
  Definition md_push (name : str) (v : V) (m : multidict) : multidict :=
    let prev := dget str_eqb name (md_lookup m) in
    MD (md_stack m ++ [(name, v, prev)])
       (dset str_eqb name (List.length (md_stack m)) (md_lookup m)).

  (** if prev is None: del lookup[name] else: lookup[name] = prev   [structs.py 136-137, 162-163] *)
  Definition unlink (name : str) (prev : option nat) (lookup : list (str * nat))
    : result (list (str * nat)) :=
    match prev with
    | None => if dmem str_eqb name lookup then Ok (ddel str_eqb name lookup) else Raise KeyError
    | Some p => Ok (dset str_eqb name p lookup)
    end.

  (** md.pop()                                                  [structs.py 132-138] *)
  Definition md_pop (m : multidict) : result (str * V * multidict) :=
    match rev (md_stack m) with
    | [] => Raise IndexError
    | (name, v, prev) :: rest =>
        lookup <- unlink name prev (md_lookup m) ;;
        Ok (name, v, MD (rev rest) lookup)
    end.

  (** md.pushall(symbols)                                       [structs.py 140-143] *)
  Definition md_pushall (symbols : list (str * V)) (m : multidict) : multidict :=
    fold_left (fun m nv => md_push (fst nv) (snd nv) m) symbols m.

  (** md.pushnew(symbols)                                       [structs.py 145-148] *)
  Definition md_pushnew (symbols : list (str * V)) (m : multidict) : multidict :=
    fold_left (fun m nv => if md_contains (fst nv) m then m else md_push (fst nv) (snd nv) m) symbols m.

  (** md.position()                                             [structs.py 150-152] *)
  Definition md_position (m : multidict) : nat := List.length (md_stack m).

  (** for i in range(size-1, position-1, -1): ...               [structs.py 160-163]
      over the elements to be removed, topmost first *)
  Fixpoint unlink_all (elems : list (str * V * option nat)) (lookup : list (str * nat))
    : result (list (str * nat)) :=
    match elems with
    | [] => Ok lookup
    | (name, _, prev) :: r => lookup <- unlink name prev lookup ;; unlink_all r lookup
    end.

  (** md.reset(position), position >= 0                         [structs.py 154-164] *)
  Definition md_reset (position : nat) (m : multidict) : result multidict :=
    if Nat.ltb (List.length (md_stack m)) position then Raise (OtherError 0)
    else
      lookup <- unlink_all (rev (skipn position (md_stack m))) (md_lookup m) ;;
      Ok (MD (firstn position (md_stack m)) lookup).

  (** md.asdict(start_position)                                 [structs.py 167-170] *)
  Definition md_asdict (start : nat) (m : multidict) : list (str * V) :=
    dict_of str_eqb (map fst (skipn start (md_stack m))).
End MultiDict.
Arguments multidict V : clear implicits.
