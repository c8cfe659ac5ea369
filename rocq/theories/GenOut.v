(** What a run of a code generator writes: which files, in which order, which types each of them
    declares and what each of them imports.  Models generator/gen/gen_dispatcher.go:230-238
    (AcceptGenCtx), generator/gen/gen_ctx.go:44-69 (WritePackage, WriteFile) and, of the nine targets,
    Generate, GenerateUnit, GenerateStruct and GenerateEnum.  The text of the declarations is not part
    of this model (C61, C67, C68 are about it); generating the code of one type is taken to succeed. *)
From Coq Require Import String Ascii ZArith List Bool.
From Verif Require Import Base FrontModel CompileModel.
From Verif Require Package.
Import ListNotations.
Open Scope string_scope.
Open Scope list_scope.

(** ** The types as the generators see them *)
(** definition/struct.go:11-19, definition/enum.go:17-29: the name, the file of the unit it belongs to
    (StructBelongs, EnumBelongs) and, of a struct, the struct and enum types of its normal fields (for
    an array the element type), embedded structs being replaced by their fields; other fields have no
    part in this model. *)
Inductive gty : Type :=
| GEnum (own n : string)
| GStruct (own n : string) (fs : gtys)
with gtys : Type := GNil | GCons (t : gty) (r : gtys).
Scheme gty_mind := Induction for gty Sort Prop with gtys_mind := Induction for gtys Sort Prop.
Combined Scheme gty_mut from gty_mind, gtys_mind.

(** GetTypeName, GetBelongs. *)
Definition gname (t : gty) : string := match t with GEnum _ n | GStruct _ n _ => n end.
Definition gown (t : gty) : string := match t with GEnum o _ | GStruct o _ _ => o end.
Fixpoint gapp (a b : gtys) : gtys := match a with GNil => b | GCons t r => GCons t (gapp r b) end.

Definition genv : Type := list (string * gty).

(** compiler/proto_visitor.go:1948-1986, 2070-2110 (VisitType_, VisitArrayElementType) for what a field's
    type is; 278-445 (VisitStructBody) with addField: normal fields as they come, an embedded struct replaced by
    its fields (345-356). *)
Fixpoint resolve_elem (own : string) (env : genv) (e : a_elem) : option gty :=
  match e with
  | AeBasic _ | AeString | AeBytes => None
  | AeStructRef n | AeEnumRef n | AeIdent n => get n env
  | AeStructDef d => Some (resolve_struct own env d)
  end
with resolve_struct (own : string) (env : genv) (d : a_struct) : gty :=
  match d with AStruct _ name _ body => GStruct own name (resolve_body own env body) end
with resolve_body (own : string) (env : genv) (b : a_body) : gtys :=
  match b with
  | ABNil => GNil
  | ABEmpty r | ABVoid _ _ r | ABConst _ _ _ _ _ r => resolve_body own env r
  | ABEmb e _ _ r =>
      match resolve_elem own env e with
      | Some (GStruct _ _ fs) => gapp fs (resolve_body own env r)
      | _ => resolve_body own env r
      end
  | ABNormal e _ _ _ _ _ r =>
      match resolve_elem own env e with
      | Some t => GCons t (resolve_body own env r)
      | None => resolve_body own env r
      end
  end.
Definition resolve_top (own : string) (env : genv) (t : a_top) : string * gty :=
  match t with
  | ATStruct (AStruct p n sz b) => (n, resolve_struct own env (AStruct p n sz b))
  | ATEnum d => (en_name d, GEnum own (en_name d))
  end.
(** compiler/proto_visitor.go:44-100 (VisitProto, VisitTopLevelDef): the definitions in turn, each seeing the ones before. *)
Fixpoint resolve_tops (own : string) (env : genv) (l : list a_top) : genv :=
  match l with
  | [] => []
  | t :: r => let d := resolve_top own env t in d :: resolve_tops own (env ++ [d]) r
  end.

(** ** The units *)
(** definition/compilation_unit.go:9-24: path, package, file options, LocalImports, LocalTypes. *)
Record gunit : Type :=
  { g_path : string;
    g_package : list string;
    g_opts : list (string * literal);
    g_imports : list string;
    g_tops : genv }.

(** The units of a compilation (CompileModel.v), in the order the runtime holds them; [acc] are the top
    level types of the units before.  A unit sees those of them that its GlobalTypes has. *)
Fixpoint program (fs : filesystem) (us : list (string * comp_unit)) (acc : genv) : list gunit :=
  match us with
  | [] => []
  | (q, u) :: r =>
      match get q fs with
      | Some (Some s) =>
          let tops := resolve_tops q (filter (fun e => has (fst e) (u_types u)) acc) (s_tops s) in
          {| g_path := q; g_package := hd [] (s_packages s);
             g_opts := match visit_file_options (s_options s) [] with Ok o => o | _ => [] end;
             g_imports := u_local_imports u; g_tops := tops |} :: program fs r (acc ++ tops)
      | _ => program fs r acc
      end
  end.

(** ** The generators *)
Inductive target : Type :=
| TC | TCpp | TCSharp | TCommonJS | TESM | TGo | TJava | TKotlin | TPython.

(** Does generating a struct generate the types of its fields?  The template "normalField" calls
    GenerateType on them in c.go:831-843, cpp.go:914-926, csharp.go:794-801, commonjs.go:1429-1436,
    golang.go:777-783, java.go:746-753 and python.go:534-541; the one of esm.go:1279-1285 does not, and
    the GenerateStruct of kotlin.go:268-270 only returns a name. *)
Definition visits_fields (t : target) : bool :=
  match t with TESM | TKotlin => false | _ => true end.

(** GenTypes as the list of its keys (util/ordered_map.go Put: an old key keeps its place). *)
Definition put_name (n : string) (l : list string) : list string := if mem n l then l else l ++ [n].

(** GenerateStruct and GenerateEnum (golang.go:631-653, 1095-1117; the same in the other targets):
    nothing if the name is in GenTypes or GenStack, else the code of the type, which generates its
    fields' types first, then GenTypes.Put. *)
Fixpoint gen_type (visit : bool) (stack st : list string) (t : gty) : list string :=
  match t with
  | GEnum _ n => if mem n st || mem n stack then st else put_name n st
  | GStruct _ n fs =>
      if mem n st || mem n stack then st
      else put_name n (if visit then gen_fields visit (n :: stack) st fs else st)
  end
with gen_fields (visit : bool) (stack st : list string) (fs : gtys) : list string :=
  match fs with
  | GNil => st
  | GCons t r => gen_fields visit stack (gen_type visit stack st t) r
  end.
Definition gen_all (visit : bool) (st : list string) (l : genv) : list string :=
  fold_left (fun st d => gen_type visit [] st (snd d)) l st.

(** One call of WriteFile: the file name it is given, the package or namespace its declarations are in,
    the packages or namespaces it imports, and the types it declares. *)
Record write : Type :=
  { w_file : string; w_package : string; w_imports : list string; w_decls : list string }.

Definition opt_str (k : string) (o : list (string * literal)) : option string :=
  match get k o with Some (StrL t) => Some t | _ => None end.
(** LocalTypes.Len() == 0 && gen.MatchOption(unit.Options, "omit_empty", true), gen_util.go:8-17. *)
Definition omitted (u : gunit) : bool :=
  match g_tops u with
  | [] => match get "omit_empty" (g_opts u) with Some (BoolL true) => true | _ => false end
  | _ => false
  end.
(** golang.go:413-419, java.go:238-244: the option replaces the package. *)
Definition out_package (t : target) (u : gunit) : list string :=
  match t with
  | TGo => match opt_str "go_package" (g_opts u) with Some s => Package.split "/" s | None => g_package u end
  | TJava => match opt_str "java_package" (g_opts u) with Some s => Package.split "." s | None => g_package u end
  | _ => g_package u
  end.
(** The name a unit goes by in the imports of the generated code: golang.go:336-341 (without -relpath),
    java.go:218-224, kotlin.go:62-71, csharp.go:213-221 (before ToPascalCase, which is left out), and
    for the targets whose imports are paths of files the package the path is made of (C31). *)
Definition unit_ns (t : target) (u : gunit) : string :=
  match t with
  | TGo => String.concat "/" (out_package TGo u)
  | TJava => String.concat "." (out_package TJava u)
  | TKotlin => match opt_str "kotlin_package" (g_opts u) with
               | Some s => s | None => String.concat "." (g_package u) end
  | TCSharp => match opt_str "csharp_namespace" (g_opts u) with
               | Some s => s | None => String.concat "." (g_package u) end
  | _ => String.concat "." (g_package u)
  end.
(** strings.ReplaceAll(pkg, ".", "/"), kotlin.go:126. *)
Fixpoint dots_to_slashes (s : string) : string :=
  match s with
  | EmptyString => ""
  | String c r => String (if Ascii.eqb c "." then "/"%char else c) (dots_to_slashes r)
  end.

Definition find_unit (all : list gunit) (p : string) : option gunit :=
  find (fun u => String.eqb (g_path u) p) all.
Definition ns_of (t : target) (all : list gunit) (p : string) : list string :=
  match find_unit all p with Some u => [unit_ns t u] | None => [] end.

(** golang.go:165-213 resolveImports: the files of the units the types of all fields, those of the
    fields' structs included, belong to; a unit that is not generated yet is an error (None).  Names are
    unique (C35), so LocalNames.Has(tyName) says that the type belongs to the unit. *)
Fixpoint go_dfs (done : list string) (me : string) (fs : gtys) (acc : list string) : option (list string) :=
  match fs with
  | GNil => Some acc
  | GCons t r =>
      match go_ty done me t acc with Some acc => go_dfs done me r acc | None => None end
  end
with go_ty (done : list string) (me : string) (t : gty) (acc : list string) : option (list string) :=
  match t with
  | GEnum o _ =>
      if String.eqb o me then Some acc else if mem o done then Some (put_name o acc) else None
  | GStruct o _ fs =>
      match go_dfs done me fs acc with
      | Some acc =>
          if String.eqb o me then Some acc else if mem o done then Some (put_name o acc) else None
      | None => None
      end
  end.
Fixpoint go_imports (done : list string) (me : string) (l : genv) (acc : list string) : option (list string) :=
  match l with
  | [] => Some acc
  | (_, GStruct _ _ fs) :: r =>
      match go_dfs done me fs acc with Some acc => go_imports done me r acc | None => None end
  | (_, GEnum _ _) :: r => go_imports done me r acc
  end.
(** kotlin.go:78-86. *)
Definition kotlin_imports (all : list gunit) (u : gunit) : list string :=
  fold_left (fun acc p =>
    fold_left (fun acc ns =>
      if String.eqb ns "" || String.eqb ns (unit_ns TKotlin u) then acc else put_name ns acc)
      (ns_of TKotlin all p) acc) (g_imports u) [].
(** The import statements of the file templates: range over LocalImports (c.go:340-347, cpp.go:350-357,
    csharp.go:213-221, commonjs.go:301-303, esm.go:290-292, java.go:217-224, python.go:174-180).  The
    .bb.c and .bb.cpp files include their own headers, which have these; they are given the same list. *)
Definition local_imports (t : target) (all : list gunit) (u : gunit) : list string :=
  flat_map (ns_of t all) (g_imports u).

(** The state of a run: GenTypes, GenUnits (with their GeneratedTypes), the files of the units generated
    so far (Go's GenUnitsByPkg; the other targets have no use for it), and the calls of WriteFile so far. *)
Record gstate : Type :=
  { x_types : list string; x_units : list (string * list string); x_done : list string;
    x_writes : list write }.

(** definition/package.go String. *)
Definition pkg_string (l : list string) : string := String.concat "." l.
Definition pkg_file (l : list string) (ext : string) : string :=
  Package.to_file_path (Package.new_package l) ext.

(** java.go:262-286: one top level type after the other, a file for every type that this added to
    GenTypes. *)
Fixpoint java_types (mk : string -> write) (l : genv) (st : list string) (ws : list write)
  : list string * list write :=
  match l with
  | [] => (st, ws)
  | (_, ty) :: r =>
      let st' := gen_type true [] st ty in
      java_types mk r st' (ws ++ map mk (skipn (length st) st'))
  end.

(** GenerateUnit: c.go:459-513, cpp.go:521-585, csharp.go:300-346, commonjs.go:1020-1068,
    esm.go:944-991, golang.go:408-482, java.go:233-290, kotlin.go:73-136, python.go:225-262.
    The flag says that no error was returned. *)
Definition generate_unit (t : target) (single : bool) (all : list gunit) (x : gstate) (u : gunit)
  : bool * gstate :=
  if omitted u then (true, x)
  else
    let pkg := out_package t u in
    let ns := unit_ns t u in
    match t with
    | TKotlin =>
        let imps := kotlin_imports all u in
        let file n := (match dots_to_slashes ns with EmptyString => "" | d => d ++ "/" end ++ n ++ ".kt")%string in
        (true, {| x_types := x_types x; x_units := x_units x; x_done := x_done x;
                  x_writes := x_writes x ++
                    map (fun d => {| w_file := file (gname (snd d)); w_package := ns; w_imports := imps;
                                     w_decls := [gname (snd d)] |}) (g_tops u) |})
    | TJava =>
        if has (pkg_string pkg) (x_units x) then (false, x)
        else
          let mk n := {| w_file := pkg_file pkg ("/" ++ n ++ ".java")%string; w_package := ns;
                         w_imports := local_imports t all u; w_decls := [n] |} in
          let (st, ws) := java_types mk (g_tops u) (x_types x) (x_writes x) in
          (true, {| x_types := st; x_units := put (pkg_string pkg) [] (x_units x);
                    x_done := x_done x ++ [g_path u]; x_writes := ws |})
    | _ =>
        if (match t with TGo => has (pkg_string pkg) (x_units x) | _ => false end) then (false, x)
        else
          let st := gen_all (visits_fields t) (x_types x) (g_tops u) in
          let decls := skipn (length (x_types x)) st in
          let x1 := {| x_types := st; x_units := put (pkg_string pkg) decls (x_units x);
                       x_done := x_done x ++ [g_path u]; x_writes := x_writes x |} in
          if single then (true, x1)
          else
            match (match t with
                   | TGo => match go_imports (x_done x1) (g_path u) (g_tops u) [] with
                            | Some l => Some (flat_map (ns_of TGo all) l) | None => None end
                   | _ => Some (local_imports t all u)
                   end) with
            | None => (false, x1)
            | Some imps =>
                let w file := {| w_file := file; w_package := ns; w_imports := imps; w_decls := decls |} in
                let files :=
                  match t with
                  | TC => [pkg_file pkg ".bb.h"; pkg_file pkg ".bb.c"]
                  | TCpp => [pkg_file pkg ".bb.hpp"; pkg_file pkg ".bb.cpp"]
                  | TCSharp => [pkg_file pkg ".bb.cs"]
                  | TCommonJS | TESM => [pkg_file pkg ".bb.js"]
                  | TGo => [pkg_file pkg ("/" ++ Package.pname (Package.new_package pkg) ++ ".bb.go")%string]
                  | _ => [pkg_file pkg "_bb.py"]
                  end in
                (true, {| x_types := x_types x1; x_units := x_units x1; x_done := x_done x1;
                          x_writes := x_writes x1 ++ map w files |})
            end
    end.

(** AcceptGenCtx, gen_dispatcher.go:230-238: the units in turn, up to the first error. *)
Fixpoint accept (t : target) (single : bool) (all us : list gunit) (x : gstate) : bool * gstate :=
  match us with
  | [] => (true, x)
  | u :: r => match generate_unit t single all x u with
              | (true, x') => accept t single all r x'
              | (false, x') => (false, x')
              end
  end.

(** Generate: c.go:151-202, cpp.go:150-201, csharp.go:136-196, commonjs.go:184-265, esm.go:197-278,
    golang.go:215-265, java.go:137-198, kotlin.go:25-55, python.go:75-126.  With -single everything goes
    to WriteFile with an empty name (c.go:181-195 ranges over GenTypes and so does python.go:107-121, the
    others over GenUnits; golang.go:239 asks for at least one unit); Java and Kotlin ignore the option. *)
Definition generate (t : target) (single : bool) (us : list gunit) : bool * list write :=
  let (ok, x) := accept t single us us {| x_types := []; x_units := []; x_done := []; x_writes := [] |} in
  let one l := [{| w_file := ""; w_package := ""; w_imports := []; w_decls := l |}] in
  let extra :=
    if single then
      match t with
      | TJava | TKotlin => []
      | TC | TPython => one (x_types x)
      | TGo => match x_units x with [] => [] | _ => one (flat_map snd (x_units x)) end
      | _ => one (flat_map snd (x_units x))
      end
    else [] in
  (ok, x_writes x ++ extra).
