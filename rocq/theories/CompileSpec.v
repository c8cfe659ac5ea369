(** Vocabulary for the properties of whole compilations (C27-C29, C35, C46): the import graph, what a
    file means on its own, and the definitions written in a file.  Nothing here is compiler code. *)
From Coq Require Import String ZArith List Bool Relations.
From Verif Require Import Base FrontModel CompileModel.
Import ListNotations.
Open Scope string_scope.
Open Scope Z_scope.
Open Scope list_scope.

(** File [p] is there, parses, and is [s]. *)
Definition contains (fs : filesystem) (p : string) (s : source) : Prop := get p fs = Some (Some s).
(** File [p] has an import statement for file [q]. *)
Definition imports (fs : filesystem) (p q : string) : Prop :=
  exists s, contains fs p s /\ In q (s_imports s).
(** [q] is [p], or imported by it directly or indirectly. *)
Definition reaches (fs : filesystem) : string -> string -> Prop :=
  clos_refl_trans string (imports fs).

(** All of [l] imported into a unit, each without error. *)
Fixpoint import_all (u : comp_unit) (l : list comp_unit) : option comp_unit :=
  match l with
  | [] => Some u
  | o :: r => match add_import u o with (true, u') => import_all u' r | _ => None end
  end.

(** [means fs p u]: file [p], looked at on its own, compiles to the unit [u]: its imports compile (in
    this same sense), their names do not clash, and its definitions are accepted with what the imports
    define in view.  No other file, no order of compilation and no earlier result enters. *)
Inductive means (fs : filesystem) : string -> comp_unit -> Prop :=
| means_file p s pkg os u ts ns :
    contains fs p s ->
    visit_info s = Ok pkg ->
    all_mean fs (s_imports s) os ->
    import_all (new_unit p pkg) os = Some u ->
    visit_tops wrap64 (u_types u) (u_names u) (s_tops s) = Ok (ts, ns) ->
    means fs p
      {| u_path := p; u_package := pkg;
         u_local_imports := u_local_imports u; u_global_imports := u_global_imports u;
         u_types := ts; u_names := ns;
         u_local_types := skipn (length (u_types u)) ts;
         u_local_names := skipn (length (u_names u)) ns |}
with all_mean (fs : filesystem) : list string -> list comp_unit -> Prop :=
| am_nil : all_mean fs [] []
| am_cons p u l us : means fs p u -> all_mean fs l us -> all_mean fs (p :: l) (u :: us).

Scheme means_mind := Minimality for means Sort Prop
  with all_mean_mind := Minimality for all_mean Sort Prop.
Combined Scheme means_ind2 from means_mind, all_mean_mind.

(** The package statement of a file. *)
Definition package_of (fs : filesystem) (p : string) (pkg : string) : Prop :=
  exists s parts, contains fs p s /\ s_packages s = [parts] /\ pkg = String.concat "." parts.

(** The definitions written in a file, with their positions: structs (those defined inside others
    included), enums, enum members. *)
Fixpoint defs_elem (e : a_elem) : list (string * pos) :=
  match e with AeStructDef d => defs_struct d | _ => [] end
with defs_struct (d : a_struct) : list (string * pos) :=
  match d with AStruct p name _ body => (name, p) :: defs_body body end
with defs_body (b : a_body) : list (string * pos) :=
  match b with
  | ABNil => []
  | ABEmpty r | ABVoid _ _ r | ABConst _ _ _ _ _ r => defs_body r
  | ABEmb e _ _ r | ABNormal e _ _ _ _ _ r => defs_elem e ++ defs_body r
  end.
Definition defs_top (t : a_top) : list (string * pos) :=
  match t with
  | ATStruct d => defs_struct d
  | ATEnum d => (en_name d, en_pos d) :: map (fun v => (ev_name v, ev_pos v)) (en_vals d)
  end.
Definition defs_source (s : source) : list (string * pos) := flat_map defs_top (s_tops s).
(** Name [n] is defined in file [p] at position [x]. *)
Definition defines (fs : filesystem) (p n : string) (x : pos) : Prop :=
  exists s, contains fs p s /\ In (n, x) (defs_source s).
(** The names a file defines at top level as types, in order. *)
Definition top_name (t : a_top) : string :=
  match t with ATStruct (AStruct _ n _ _) => n | ATEnum d => en_name d end.

(** Positions are as the parser gives them: in the file itself, no two definitions at one place. *)
Definition well_located (fs : filesystem) : Prop :=
  forall p s, contains fs p s ->
    (forall n x, In (n, x) (defs_source s) -> p_file x = p) /\
    NoDup (map snd (defs_source s)).
