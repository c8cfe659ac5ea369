(** Model of the compilation of a file and its imports.
    Source: /repo/compiler/compilation_runtime.go, /repo/definition/compilation_unit.go,
    /repo/compiler/info_visitor.go, /repo/compiler/import_visitor.go.  Definitions only.

    Simplifications: a file system is a finite map from path strings to parsed files; the path of an
    import is given already resolved (import_visitor.go:51, fileio/path.go:43-53, which also yields
    the path in every position); reading and parsing are one step that can fail; errors and warnings
    carry no text. *)
From Coq Require Import String ZArith List Bool.
From Verif Require Import Base FrontModel.
Import ListNotations.
Open Scope string_scope.
Open Scope Z_scope.
Open Scope list_scope.

(** A parsed file (grammar rule proto): import paths, package statements, file options and
    definitions, each in source order. *)
Record source : Type :=
  { s_imports : list string;
    s_packages : list (list string);
    s_options : a_opts;
    s_tops : list a_top }.
(** A file that is there but cannot be read or parsed is [None]. *)
Definition filesystem : Type := list (string * option source).

(** ** definition/compilation_unit.go *)
(** CompilationUnit, 9-24.  Imported units are identified by their paths. *)
Record comp_unit : Type :=
  { u_path : string;
    u_package : string;
    u_local_imports : list string;
    u_global_imports : list string;
    u_types : types_t;          (* GlobalTypes *)
    u_names : names_t;          (* GlobalNames *)
    u_local_types : types_t;    (* LocalTypes *)
    u_local_names : names_t }.  (* LocalNames *)
(** NewCompilationUnit, 26-38. *)
Definition new_unit (path pkg : string) : comp_unit :=
  {| u_path := path; u_package := pkg; u_local_imports := []; u_global_imports := [];
     u_types := []; u_names := []; u_local_types := []; u_local_names := [] |}.

(** Position of a type: struct.go:12, enum.go:24. *)
Definition ctype_pos (c : ctype) : pos :=
  match c with CTStruct s => cs_pos s | CTEnum e => ce_pos e end.
(** The duplicate check shared by AddLocalType, AddLocalName, AddGlobalType and AddGlobalName. *)
Definition name_clash (ns : names_t) (n : string) (p : pos) : bool :=
  match get n ns with Some prev => negb (pos_eqb (named_pos prev) p) | None => false end.
(** AddGlobalName, 117-129, over all names of the other unit (148-159); the flag says that all of
    them were accepted. *)
Fixpoint add_global_names (ns : names_t) (l : names_t) : bool * names_t :=
  match l with
  | [] => (true, ns)
  | (n, v) :: r =>
      if name_clash ns n (named_pos v)
      then let (_, ns') := add_global_names ns r in (false, ns')
      else add_global_names (put n v ns) r
  end.
(** AddGlobalType, 98-110, over all types of the other unit (160-170). *)
Fixpoint add_global_types (ns : names_t) (ts : types_t) (l : types_t) : bool * names_t * types_t :=
  match l with
  | [] => (true, ns, ts)
  | (_, c) :: r =>
      let n := ctype_name c in
      if name_clash ns n (ctype_pos c)
      then let '(_, ns', ts') := add_global_types ns ts r in (false, ns', ts')
      else add_global_types (put n (NPos (ctype_pos c)) ns) (put n c ts) r
  end.
(** A set of paths kept as an OrderedMap. *)
Definition put_path (l : list string) (p : string) : list string := if mem p l then l else l ++ [p].
(** AddImport, 132-189; the flag is false if it returns an error. *)
Definition add_import (c other : comp_unit) : bool * comp_unit :=
  if mem (u_path other) (u_global_imports c) then
    (true,
     {| u_path := u_path c; u_package := u_package c;
        u_local_imports := put_path (u_local_imports c) (u_path other);
        u_global_imports := u_global_imports c; u_types := u_types c; u_names := u_names c;
        u_local_types := u_local_types c; u_local_names := u_local_names c |})
  else
    let (ok1, ns1) := add_global_names (u_names c) (u_names other) in
    let '(ok2, ns2, ts2) := add_global_types ns1 (u_types c) (u_types other) in
    let ok := ok1 && ok2 in
    (ok,
     {| u_path := u_path c; u_package := u_package c;
        u_local_imports :=
          if ok then put_path (u_local_imports c) (u_path other) else u_local_imports c;
        u_global_imports :=
          if ok then fold_left put_path (u_global_imports other)
                       (put_path (u_global_imports c) (u_path other))
          else u_global_imports c;
        u_types := ts2; u_names := ns2;
        u_local_types := u_local_types c; u_local_names := u_local_names c |}).

(** ** compiler/info_visitor.go *)
(** FileOptionValidator: option_validator.go:14-20, 52-94. *)
Definition file_option_valid (name : string) (v : literal) : bool :=
  if String.eqb name "omit_empty" then match v with BoolL _ => true | _ => false end
  else if existsb (String.eqb name)
            ["csharp_namespace"; "cpp_namespace"; "go_package"; "java_package"; "kotlin_package"]
       then match v with StrL _ => true | _ => false end
  else true.
(** info_visitor.go:76-121. *)
Fixpoint visit_file_options (l : a_opts) (acc : list (string * literal)) : res (list (string * literal)) :=
  match l with
  | [] => Ok acc
  | (name, v) :: r =>
      do v' <- visit_lit v;
      if file_option_valid name v' then
        if has name acc then Fail else visit_file_options r (put name v' acc)
      else Fail
  end.
(** definition/package.go String: the parts joined by dots. *)
Definition package_string (l : list string) : string := String.concat "." l.
(** VisitProto, 24-130: exactly one package statement; valid options. *)
Definition visit_info (s : source) : res string :=
  match s_packages s with
  | [pkg] => do _ <- visit_file_options (s_options s) []; Ok (package_string pkg)
  | _ => Fail
  end.

(** ** compiler/compilation_runtime.go *)
(** CompilationRuntime, 11-15; of Packages only the keys are looked at. *)
Record runtime : Type :=
  { r_units : list (string * comp_unit);
    r_packages : list string;
    r_stack : list string }.
Definition new_runtime : runtime := {| r_units := []; r_packages := []; r_stack := [] |}.

(** The entry of an OrderedMap, updated in place (units are held by pointer). *)
Fixpoint update {V} (k : string) (v : V) (m : list (string * V)) : list (string * V) :=
  match m with
  | [] => []
  | (k', v') :: r => if String.eqb k k' then (k', v) :: r else (k', v') :: update k v r
  end.

(** The imports of a unit, 108-160: [rec] is r.Compile; the flag says that no error was collected.
    [None]: out of fuel (see [compile]). *)
Fixpoint compile_imports (rec : runtime -> string -> option (res unit * runtime))
  (l : list string) (r : runtime) (u : comp_unit) (ok : bool)
  : option (res (bool * comp_unit) * runtime) :=
  match l with
  | [] => Some (Ok (ok, u), r)
  | p :: rest =>
      match rec r p with
      | None => None
      | Some (Panic, r') => Some (Panic, r')
      | Some (Fail, r') => compile_imports rec rest r' u false
      | Some (Ok _, r') =>
          match get p (r_units r') with
          | None => compile_imports rec rest r' u ok   (* otherUnit == nil, 147-150 *)
          | Some other =>
              let (ok', u') := add_import u other in
              compile_imports rec rest r' u' (ok && ok')
          end
      end
  end.

(** Compile, 34-70, and compile, 72-178.  [fuel] bounds the depth of recursion; C27 shows that one
    more than the number of files is always enough.  On success the unit is in [r_units]. *)
Fixpoint compile (fuel : nat) (fs : filesystem) (r : runtime) (path : string)
  : option (res unit * runtime) :=
  match fuel with
  | O => None
  | S fuel =>
      match get path fs with
      | None => Some (Fail, r)                              (* GetFileExistingStatus, 59-62 *)
      | Some content =>
          if mem path (r_stack r) then Some (Fail, r)       (* precheckFilePath, 180-186 *)
          else if has path (r_units r) then Some (Ok tt, r) (* 187-191 *)
          else
            match content with
            | None => Some (Fail, r)                        (* 64-67, 85-88 *)
            | Some src =>
                match visit_info src with
                | Panic => Some (Panic, r)
                | Fail => Some (Fail, r)
                | Ok pkg =>
                    if mem pkg (r_packages r) then Some (Fail, r)  (* precheckPackageName *)
                    else
                      let r1 := {| r_units := r_units r; r_packages := r_packages r ++ [pkg];
                                   r_stack := r_stack r ++ [path] |} in
                      match compile_imports (compile fuel fs) (s_imports src) r1 (new_unit path pkg) true with
                      | None => None
                      | Some (Panic, r2) => Some (Panic, r2)
                      | Some (Fail, r2) => Some (Fail, r2)
                      | Some (Ok (false, _), r2) => Some (Fail, r2)          (* 162-164 *)
                      | Some (Ok (true, u), r2) =>
                          let r3 := {| r_units := put path u (r_units r2);
                                       r_packages := r_packages r2;
                                       r_stack := filter (fun q => negb (String.eqb path q)) (r_stack r2) |} in
                          match visit_tops wrap64 (u_types u) (u_names u) (s_tops src) with
                          | Panic => Some (Panic, r3)
                          | Fail => Some (Fail, r3)
                          | Ok (ts, ns) =>
                              let u' := {| u_path := u_path u; u_package := u_package u;
                                           u_local_imports := u_local_imports u;
                                           u_global_imports := u_global_imports u;
                                           u_types := ts; u_names := ns;
                                           u_local_types := skipn (length (u_types u)) ts;
                                           u_local_names := skipn (length (u_names u)) ns |} in
                              Some (Ok tt, {| r_units := update path u' (r_units r3);
                                              r_packages := r_packages r3; r_stack := r_stack r3 |})
                          end
                      end
                end
            end
      end
  end.

(** compiler/compiler.go:7-11 Compile, with enough fuel: the units in order, or failure. *)
Definition compile_file (fs : filesystem) (path : string) : res (list (string * comp_unit)) :=
  match compile (S (length fs)) fs new_runtime path with
  | Some (Ok _, r) => Ok (r_units r)
  | Some (Fail, _) => Fail
  | Some (Panic, _) => Panic
  | None => Fail
  end.
