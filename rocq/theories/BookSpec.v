(** Specification side of C64: scripts that import hypertags from scripts in the same folder. *)
From Coq Require Import List NArith Bool String.
From Verif Require Import PyStr Value PageSpec OperSpec TmplSpec.
Import ListNotations.
Local Open Scope string_scope.
Local Open Scope list_scope.
Local Open Scope N_scope.

(** A script: the lines [from .p import %a, %b]; definitions; the template; blank lines. A library: scripts by name. *)
Inductive source := Source (imps : list (str * list str)) (ds : list def) (doc : list tmpl) (k : nat).
Definition library : Type := list (str * source).
Fixpoint find_source (p : str) (lib : library) : option source :=
  match lib with
  | [] => None
  | (q, s) :: lib => if str_eqb p q then Some s else find_source p lib
  end.
Definition src_defs (s : source) : list def := match s with Source _ ds _ _ => ds end.
Definition src_blank (s : source) : nat := match s with Source _ _ _ k => k end.
Definition relative (i : str * list str) : str * list str := (46 :: fst i, snd i).
Definition source_text (b : str) (names : list str) (s : source) : str :=
  match s with Source imps ds doc k => book b names (map relative imps) ds doc k end.
(** The file of script [p] in the folder [dir]. *)
Definition file_of (dir p : str) : str := dir ++ u "/" ++ p ++ u ".hy".

Section Meaning.
Variables (P : py) (b : str) (lim : nat) (lib : library).

Section Gather.
Variable exports : str -> ans (list (str * meaning)).
(** The hypertags [ns] among [D]; those of all import lines, in their order. *)
Fixpoint pick (D : list (str * meaning)) (ns : list str) : ans (list (str * meaning)) :=
  match ns with
  | [] => Is []
  | n :: ns => f <: given_by (find_meaning n D) ;; l <: pick D ns ;; Is ((n, f) :: l)
  end.
Fixpoint gather (imps : list (str * list str)) : ans (list (str * list (str * meaning))) :=
  match imps with
  | [] => Is []
  | (p, ns) :: imps => D <: exports p ;; l <: pick D ns ;; g <: gather imps ;; Is ((p, l) :: g)
  end.
(** The hypertags known to a script, and the script itself from the variables [r]. *)
Definition known_tags (vis : list str) (g : list (str * list (str * meaning))) (ds : list def) : list (str * meaning) :=
  meanings_on P b lim (rev (flat_map snd g)) vis ds.
Definition inst_source (r : store) (s : source) : ans (list elem * store) :=
  match s with
  | Source imps ds doc _ =>
      g <: gather imps ;;
      insts (inst P b lim (known_tags (map fst r) g ds) None) doc r
  end.
End Gather.

(** The hypertags other scripts get from script [p], with imports nested at most [d] deep. Their variables have the values
    they had at the end of [p]: what the user of the hypertag calls the same is another variable. *)
Fixpoint exports (vars : store) (d : nat) (p : str) : ans (list (str * meaning)) :=
  match d with
  | O => Open
  | S d =>
      s <: given_by (find_source p lib) ;;
      match s with
      | Source imps ds doc _ =>
          g <: gather (exports vars d) imps ;;
          let D := known_tags (map fst vars) g ds in
          p <: insts (inst P b lim D None) doc vars ;;
          Is (map (fun nf => (fst nf, fun _ => snd nf (snd p))) D)
      end
  end.
End Meaning.

(** ** Well-formed scripts *)
Definition part_ok (p : str) : Prop := p <> [] /\ forall c, In c p -> is_space c = false /\ c <> 34 /\ c <> 39 /\ c <> 46 /\ c <> 47.
(** A file right in the folder. *)
Definition in_folder (dir f : str) : Prop := exists x, f = dir ++ u "/" ++ x /\ ~ In 47 x.
Definition folder_ok (dir : str) : Prop := dir <> [] /\ last dir 0 <> 47.
Definition source_ok (b : str) (known : str -> option bool) (vis : list str) (s : source) : Prop :=
  match s with
  | Source imps ds doc _ =>
      let given := flat_map snd imps in
      (imps <> [] \/ ds <> [] \/ doc <> []) /\
      (forall p ns, In (p, ns) imps -> part_ok p /\ ns <> [] /\ forall n, In n ns -> tag_name n) /\
      NoDup given /\ (forall n, In n given -> known n = None) /\
      wfd b known vis (rev given) ds /\
      wfts b known (rev (defined ds) ++ rev given) None [] vis doc
  end.
Definition most (lib : library) : nat := list_max (map (fun x => List.length (defined (src_defs (snd x)))) lib).
