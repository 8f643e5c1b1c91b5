(** Modules, loaders and the runtime: core/runtime.py, and HypertagAST.make_context of core/ast.py. *)
From Coq Require Import List NArith Bool String.
From Verif Require Import PyStr PyDict Value Dom Ast Machine Translate Analyse Paths.
Import ListNotations.
Local Open Scope N_scope.

(** The properties of a referring module that loaders read. *)
Record referrer := { r_file : option str; r_package : option str }.
(** RootModule(): runtime.py 121-122 *)
Definition root_module : referrer := {| r_file := None; r_package := None |}.

(** A Python module as seen by PyModule.__init__ (runtime.py 83-104). [py_dir]: the names of
    dir(module) other than "__tags__", with their values; [py_tags]: the items of __tags__, empty if the
    attribute is missing or false. Modules whose __tags__ is not a dict of Tag instances are not
    modelled. *)
Record pymodule := {
  py_file : option str;
  py_package : option str;
  py_dir : list (str * val);
  py_tags : list (str * tag)
}.

Inductive lkind := LHy | LPy.

(** The operating system and the Python import system, and the settings of the runtime. *)
Record env (W : Type) := {
  e_loaders : list lkind;                               (* runtime.loaders; each kind at most once *)
  e_builtins : list str;                                (* runtime.BUILTINS *)
  e_resolve : option (str -> referrer -> prim W (option str));    (* HyLoader.resolve *)
  e_cwd : prim W str;                                   (* os.getcwd() *)
  e_exists : str -> prim W bool;                        (* os.path.exists(path) *)
  e_read : str -> prim W str;                           (* open(path).read() *)
  e_package : str -> prim W str;                        (* importlib.import_module(name).__file__ *)
  e_pymodule : str -> prim W (option pymodule);         (* importlib.import_module(name); None on
                                                           ModuleNotFoundError *)
  e_parse : str -> result document                      (* HypertagAST(script, module) *)
}.
Arguments e_loaders {W} e.
Arguments e_builtins {W} e.
Arguments e_resolve {W} e.
Arguments e_cwd {W} e.
Arguments e_exists {W} e.
Arguments e_read {W} e.
Arguments e_package {W} e.
Arguments e_pymodule {W} e.
Arguments e_parse {W} e.

Definition SLASH : char := 47.                          (* PATH_SEP *)
Definition script_ext : str := u ".hy".                 (* HyLoader.SCRIPT_EXTENSION *)

(** name if name[0] in (MARK_TAG, MARK_VAR) else mark + name: ast.py 2021-2025 *)
Definition marked (mark : str -> str) (n : str) : result str :=
  match n with
  | [] => Raise IndexError
  | c :: _ => Ok (if (c =? 37) || (c =? 36) then n else mark n)
  end.
Definition mark_all (mark : str -> str) (l : list (str * val)) : result (list (str * val)) :=
  rmap (fun nv => let (n, v) := (nv : str * val) in y <- marked mark n ;; Ok (y, v)) l.
(** HypertagAST.make_context: ast.py 2011-2027 *)
Definition make_context (tags vars : list (str * val)) : result (list (str * val)) :=
  t <- mark_all TAG tags ;;
  v <- mark_all VAR vars ;;
  Ok (dupdate str_eqb (dict_of str_eqb t) v).

(** A call f(...,  **kw) that gives the parameters [ps] by position: Python raises TypeError if one of them occurs
    among the names of [kw]. *)
Definition no_clash (ps : list str) (kw : list (str * val)) : result unit :=
  if existsb (fun nv => existsb (str_eqb (fst nv)) ps) kw then Raise TypeError else Ok tt.
(** Parameters of Runtime.render and Runtime.translate (runtime.py 354, 366), of HyModule.translate (114) and of
    HypertagAST.translate (ast.py 2037) *)
Definition render_params : list str := map u ["self"; "__script__"; "__file__"; "__package__"; "__tags__"]%string.
Definition module_params : list str := map u ["self"; "builtins"; "__tags__"]%string.
Definition ast_params : list str := map u ["self"; "__builtins__"; "__tags__"]%string.

(** PyModule.__init__: runtime.py 83-104 *)
Definition py_module (p : pymodule) : result module :=
  let symbols := dict_of str_eqb (map (fun nv => (VAR (fst nv), snd nv)) (py_dir p)) in
  _ <- rmap (fun nt => let (n, t) := (nt : str * tag) in
                       if str_eqb n (t_name t) then Ok tt else Raise ImportError) (py_tags p) ;;
  tags <- rmap (fun nt => let (n, t) := (nt : str * tag) in
                          match n with
                          | [] => Raise IndexError
                          | c :: _ => Ok (if c =? 37 then n else TAG n, VTag t)
                          end) (py_tags p) ;;
  Ok {| mod_symbols := dupdate str_eqb symbols tags; mod_state := None; mod_dom := None;
        mod_file := py_file p; mod_package := py_package p |}.

(** s.rstrip('/') *)
Fixpoint strip_slashes_rev (s : str) : str :=
  match s with c :: r => if c =? SLASH then strip_slashes_rev r else s | [] => [] end.
Fixpoint all_slashes (s : str) : bool :=
  match s with c :: r => (c =? SLASH) && all_slashes r | [] => true end.
(** os.path.dirname of POSIX systems: everything before the last slash, without trailing slashes unless
    it consists of slashes only *)
Definition dirname (p : str) : str :=
  match after_first SLASH (rev p) with
  | None => []
  | Some r => let head := SLASH :: r in                  (* reversed *)
              if all_slashes head then rev head else rev (strip_slashes_rev head)
  end.
(** path.rsplit('.', 1)[1] of a path with a dot *)
Fixpoint before_first (c : char) (s : str) : str :=
  match s with x :: r => if x =? c then [] else x :: before_first c r | [] => [] end.
Definition rsplit1_last (c : char) (s : str) : str := rev (before_first c (rev s)).
Definition endswith (p s : str) : bool := startswith (rev p) (rev s).

(** a truth test of a string or None *)
Definition nonempty (s : option str) : option str := match s with Some [] => None | _ => s end.
Definition str_or_none (s : option str) : val := match s with Some s => VStr s | None => VNone end.

(** ref_root: runtime.py 231; None also when the name of the folder is empty, as only its truth is
    tested *)
Definition ref_root (r : referrer) : option str :=
  match nonempty (r_file r) with Some f => nonempty (Some (dirname f)) | None => None end.

(** What HyLoader.load finds out before it reads a file: the module itself, or a location and a
    python_path. *)
Inductive found :=
| Cached (md : module)
| Located (location : option str) (python_path : option str).

Section Runtime.
  Context {W : Type}.
  Variable E : env W.

  Definition get_rt : M W caches := fun m => (Done (m_rt m), m).
  Definition set_rt (r : caches) : M W unit := fun m =>
    (Done tt, Mach (m_heap m) (m_states m) (m_defs m) (m_next m) r (m_world m)).
  Definition cache_hy (location : str) (md : module) : M W unit :=
    r <* get_rt ;;
    set_rt {| rt_hy := dset str_eqb location md (rt_hy r); rt_py := rt_py r; rt_builtins := rt_builtins r |}.
  Definition cache_py (location : str) (md : option module) : M W unit :=
    r <* get_rt ;;
    set_rt {| rt_hy := rt_hy r; rt_py := dset str_eqb location md (rt_py r); rt_builtins := rt_builtins r |}.
  Definition cache_builtins (b : list (str * val)) : M W unit :=
    r <* get_rt ;;
    set_rt {| rt_hy := rt_hy r; rt_py := rt_py r; rt_builtins := Some b |}.

  (** Loader.load for a PyLoader: runtime.py 144-157 with 185-196; None is cached as well *)
  Definition load_py (path : str) (r : referrer) : M W (option module) :=
    location <* of_result (make_absolute path (r_package r)) ;;
    match location with
    | None => ret None
    | Some l =>
        rt <* get_rt ;;
        match dget str_eqb l (rt_py rt) with
        | Some x => ret x
        | None =>
            p <* lift_p (e_pymodule E l) ;;
            x <* match p with
                 | Some p => md <* of_result (py_module p) ;; ret (Some md)
                 | None => ret None
                 end ;;
            _ <* cache_py l x ;;
            ret x
        end
    end.

  (** if location in self.cache: return self.cache[location] *)
  Definition unless_cached (l : option str) (k : M W found) : M W found :=
    rt <* get_rt ;;
    match l with
    | Some l => match dget str_eqb l (rt_hy rt) with Some md => ret (Cached md) | None => k end
    | None => k
    end.
  (** if location and not os.path.exists(location): location = None *)
  Definition existing (l : option str) : M W (option str) :=
    match nonempty l with
    | Some l => b <* lift_p (e_exists E l) ;; ret (if (b : bool) then Some l else None)
    | None => ret None
    end.

  (** HyLoader.load, relative paths: runtime.py 233-237 *)
  Definition find_relative (path : str) (r : referrer) : M W found :=
    match ref_root r with
    | Some root =>
        l <* of_result (join_path (Some root) path SLASH script_ext) ;;
        p <* of_result (make_absolute path (r_package r)) ;;
        ret (Located l p)
    | None => ret (Located None None)
    end.
  (** absolute paths, step 4: runtime.py 268-271 *)
  Definition find_near (path : str) (r : referrer) : M W found :=
    match ref_root r with
    | Some root =>
        l <* of_result (join_path (Some root) (DOT :: path) SLASH script_ext) ;;
        p <* of_result (make_absolute (DOT :: path) (r_package r)) ;;
        ret (Located l p)
    | None => ret (Located None None)
    end.
  (** step 3: runtime.py 261-266 *)
  Definition find_here (path : str) (r : referrer) : M W found :=
    cwd <* lift_p (e_cwd E) ;;
    l <* of_result (join_path (Some cwd) (DOT :: path) SLASH script_ext) ;;
    unless_cached l (
      l <* existing l ;;
      match l with Some l => ret (Located (Some l) None) | None => find_near path r end).
  (** step 2: runtime.py 248-259 *)
  Definition find_package (path : str) (r : referrer) : M W found :=
    if mem DOT path then
      f <* lift_p (e_package E (rsplit1_head DOT path)) ;;
      let root := if endswith (u ".py") f then dirname f else f in
      let name := rsplit1_last DOT path in
      l <* existing (Some (root ++ [SLASH] ++ name ++ script_ext)) ;;
      match l with
      | Some l => ret (Located (Some l) (Some (root ++ [DOT] ++ name)))
      | None => find_here path r
      end
    else find_here path r.
  (** step 1: runtime.py 241-246 *)
  Definition find_absolute (path : str) (r : referrer) : M W found :=
    match e_resolve E with
    | Some resolve =>
        l <* lift_p (resolve path r) ;;
        unless_cached l (
          l <* existing l ;;
          match l with Some l => ret (Located (Some l) None) | None => find_package path r end)
    | None => find_package path r
    end.

  Section Load.
    (** runtime.translate(script, location, package) *)
    Variable run : str -> option str -> option str -> M W module.

    (** HyLoader.load: runtime.py 227-284. [module.location] is not modelled. *)
    Definition load_hy (path : str) (r : referrer) : M W (option module) :=
      f <* (if startswith [DOT] path then find_relative path r else find_absolute path r) ;;
      match f with
      | Cached md => ret (Some md)
      | Located l python_path =>
          l <* existing l ;;
          match l with
          | None => ret None
          | Some l =>
              let package := match nonempty python_path with
                             | Some p => Some (rsplit1_head DOT p)
                             | None => None
                             end in
              script <* lift_p (e_read E l) ;;
              md <* run script (Some l) package ;;
              _ <* cache_hy l md ;;
              ret (Some md)
          end
      end.
    Definition load (k : lkind) : str -> referrer -> M W (option module) :=
      match k with LHy => load_hy | LPy => load_py end.

    (** for loader in loaders: ...: runtime.py 348-352 *)
    Fixpoint first_of (loaders : list (str -> referrer -> M W (option module))) (path : str) (r : referrer)
      : M W module :=
      match loaders with
      | [] => exc ModuleNotFound
      | f :: fs =>
          x <* f path r ;;
          match x with Some md => ret md | None => first_of fs path r end
      end.
    (** Runtime.import_module: runtime.py 343-352 *)
    Definition import_module (path : str) (r : referrer) : M W module :=
      match path with
      | [] => exc AssertionError
      | _ => first_of (map load (e_loaders E)) path r
      end.

    (** Runtime.import_builtins: runtime.py 330-341. The dictionary is stored in the runtime before the
        modules are imported, and grows there. *)
    Definition import_builtins : M W (list (str * val)) :=
      rt <* get_rt ;;
      match rt_builtins rt with
      | Some b => ret b
      | None =>
          _ <* cache_builtins [] ;;
          _ <* miter (fun path =>
                        md <* import_module path root_module ;;
                        rt <* get_rt ;;
                        cache_builtins (dupdate str_eqb (match rt_builtins rt with Some b => b | None => [] end)
                                                (mod_symbols md))) (e_builtins E) ;;
          rt <* get_rt ;;
          ret (match rt_builtins rt with Some b => b | None => [] end)
      end.
  End Load.

  (** Runtime.translate: runtime.py 354-364, with HyModule.translate (114-118). [n] bounds hypertag
      expansion as in [Analyse.translate], [k] the depth of nested imports: a script that imports itself
      makes Python fail with RecursionError, here [Fuel] for every [k]. [vars]: the keyword arguments without
      __tags__, __file__ and __package__. *)
  Fixpoint run_script (P : prims W) (n k : nat) (tags vars : list (str * val)) (script : str) (file package : option str)
    : M W module :=
    match k with
    | O => nofuel
    | S k =>
        let run := run_script P n k [] [] in
        _ <* of_result (no_clash render_params vars) ;;
        b <* import_builtins run ;;
        let b := dset str_eqb (VAR (u "__file__")) (str_or_none file) b in
        let b := dset str_eqb (VAR (u "__package__")) (str_or_none package) b in
        _ <* of_result (no_clash module_params vars) ;;
        d <* of_result (e_parse E script) ;;
        _ <* of_result (no_clash ast_params vars) ;;
        context <* of_result (make_context tags vars) ;;
        r <* translate (fun path => import_module run path {| r_file := file; r_package := package |})
               context P n b d ;;
        let '(root, symbols, s) := (r : nid * list (str * val) * nat) in
        ret {| mod_symbols := symbols; mod_state := Some s; mod_dom := Some root;
               mod_file := file; mod_package := package |}
    end.
  (** Runtime.render: runtime.py 366-369 *)
  Definition render_script (P : prims W) (n k : nat) (tags vars : list (str * val)) (script : str)
    (file package : option str) : M W str :=
    md <* run_script P n k tags vars script file package ;;
    match mod_dom md with
    | Some root => fun m => (dom_render (p_ren P) (depth_bound (m_heap m)) (m_heap m) [root], m)
    | None => exc AttributeError                           (* unreachable: run_script sets mod_dom *)
    end.
End Runtime.
