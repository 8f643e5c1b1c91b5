(** The template engine for Django: django/backend.py. Django's own BaseEngine is not modelled: the file names that
    iter_template_filenames yields, opening a file, and the values of csrf_input_lazy and csrf_token_lazy are parameters. *)
From Coq Require Import List NArith Bool String.
From Verif Require Import PyStr PyDict Value Machine Runtime.
Import ListNotations.
Local Open Scope string_scope.
Local Open Scope list_scope.

(** Template: backend.py 64-69; the engine is the runtime *)
Record template := { t_view : str; t_filename : option str }.

(** Hypertag.from_string: backend.py 43-45 *)
Definition from_string (code : str) : template := {| t_view := code; t_filename := None |}.

(** The template, or TemplateDoesNotExist with the files that were tried. *)
Inductive lookup := Found (t : template) | DoesNotExist (tried : list str).

Section Engine.
  Context {W : Type}.
  Variable E : env W.
  Variable P : prims W.
  (** open(name, 'rt').read(); None on FileNotFoundError *)
  Variable open_file : str -> prim W (option str).
  Variables csrf_input csrf_token : val -> val.

  (** Hypertag.get_template: backend.py 47-61; [files]: what iter_template_filenames yields *)
  Fixpoint try_files (files tried : list str) : M W lookup :=
    match files with
    | [] => ret (DoesNotExist tried)
    | f :: files =>
        script <* lift_p (open_file f) ;;
        match script with
        | Some script => ret (Found {| t_view := script; t_filename := Some f |})
        | None => try_files files (tried ++ [f])
        end
    end.
  Definition get_template (files : list str) : M W lookup := try_files files [].

  (** The dictionary after lines 72-79 of backend.py: Template.render up to the call of the engine *)
  Definition prepare (t : template) (context : list (str * val)) (request : option val) : list (str * val) :=
    let context := match request with
                   | Some r =>
                       dset str_eqb (u "csrf_token") (csrf_token r)
                         (dset str_eqb (u "csrf_input") (csrf_input r) (dset str_eqb (u "request") r context))
                   | None => context
                   end in
    match nonempty (t_filename t) with
    | Some f => if dmem str_eqb (u "__file__") context then context else dset str_eqb (u "__file__") (VStr f) context
    | None => context
    end.

  (** Values that are passed as __file__, __package__ and __tags__: a string or None, a dictionary of tags or None.
      Others are not modelled. *)
  Definition as_path (v : option val) : option (option str) :=
    match v with
    | None | Some VNone => Some None
    | Some (VStr s) => Some (Some s)
    | Some _ => None
    end.
  Fixpoint as_pairs (d : list (val * val)) : option (list (str * val)) :=
    match d with
    | [] => Some []
    | (VStr n, v) :: d => match as_pairs d with Some l => Some ((n, v) :: l) | None => None end
    | _ => None
    end.
  Definition as_tags (v : option val) : option (list (str * val)) :=
    match v with
    | None | Some VNone => Some []
    | Some (VDict d) => as_pairs d
    | Some _ => None
    end.

  (** engine.render(view, **context): backend.py 81. Keywords that are parameters of Runtime.render (runtime.py 366)
      are taken out; None if their values are not modelled. *)
  Definition own_keyword (n : str) : bool := existsb (str_eqb n) (map u ["__file__"; "__package__"; "__tags__"]).
  Definition call_render (n k : nat) (view : str) (context : list (str * val)) : option (M W str) :=
    match as_tags (dget str_eqb (u "__tags__") context), as_path (dget str_eqb (u "__file__") context), as_path (dget str_eqb (u "__package__") context) with
    | Some tags, Some file, Some package =>
        Some (render_script E P n k tags (filter (fun nv => negb (own_keyword (fst nv))) context) view file package)
    | _, _, _ => None
    end.

  (** Template.render: backend.py 71-81. The second component is the dictionary of the caller afterwards, if one was
      given: it is changed in place. *)
  Definition template_render (n k : nat) (t : template) (context : option (list (str * val))) (request : option val)
    : option (M W str) * option (list (str * val)) :=
    match context with
    | None => (call_render n k (t_view t) (prepare t [] request), None)
    | Some c => let c := prepare t c request in (call_render n k (t_view t) c, Some c)
    end.
End Engine.
