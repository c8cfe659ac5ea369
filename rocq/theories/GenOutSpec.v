(** What the files of a run should be, said in terms of the source files alone. *)
From Coq Require Import String Ascii ZArith List Bool Relations.
From Verif Require Import Base FrontModel CompileModel CompileSpec GenOut.
From Verif Require Package.
Import ListNotations.
Open Scope string_scope.
Open Scope list_scope.

(** The types for which a source file needs code: its top level types, and the structs defined where a
    field's type is named.  A struct that is defined only to be embedded is replaced by its fields.
    Each comes after the ones its definition contains. *)
Fixpoint types_elem (e : a_elem) : list string :=
  match e with AeStructDef d => types_struct d | _ => [] end
with types_struct (d : a_struct) : list string :=
  match d with AStruct _ n _ b => types_body b ++ [n] end
with types_body (b : a_body) : list string :=
  match b with
  | ABNil => []
  | ABEmpty r | ABVoid _ _ r | ABConst _ _ _ _ _ r => types_body r
  | ABEmb e _ _ r => embedded_elem e ++ types_body r
  | ABNormal e _ _ _ _ _ r => types_elem e ++ types_body r
  end
with embedded_elem (e : a_elem) : list string :=
  match e with AeStructDef (AStruct _ _ _ b) => types_body b | _ => [] end.
Definition types_top (t : a_top) : list string :=
  match t with ATStruct d => types_struct d | ATEnum d => [en_name d] end.
Definition types_source (s : source) : list string := flat_map types_top (s_tops s).

(** The options of a source file that matter here. *)
Definition str_option (k : string) (s : source) : option string :=
  match get k (s_options s) with Some (LStr t) => Some t | _ => None end.
(** A file without definitions that asks not to be written. *)
Definition not_wanted (s : source) : bool :=
  match s_tops s with
  | [] => match get "omit_empty" (s_options s) with Some (LBool true) => true | _ => false end
  | _ => false
  end.
Definition package_parts (s : source) : list string := hd [] (s_packages s).
(** The package the generated code is in: the one of the file, unless Go and Java are told otherwise. *)
Definition target_package (t : target) (s : source) : list string :=
  match t with
  | TGo => match str_option "go_package" s with Some x => Package.split "/" x | None => package_parts s end
  | TJava => match str_option "java_package" s with Some x => Package.split "." x | None => package_parts s end
  | _ => package_parts s
  end.
Definition kotlin_dir (s : source) : string :=
  match String.concat "/" (Package.split "." (match str_option "kotlin_package" s with
                         | Some x => x | None => String.concat "." (package_parts s) end)) with
  | EmptyString => "" | d => (d ++ "/")%string
  end.

(** The files that should be written for a source file, each with the types it declares. *)
Definition source_files (t : target) (s : source) : list (string * list string) :=
  if not_wanted s then []
  else
    let base := String.concat "/" (target_package t s) in
    let all := types_source s in
    match t with
    | TC => [((base ++ ".bb.h")%string, all); ((base ++ ".bb.c")%string, all)]
    | TCpp => [((base ++ ".bb.hpp")%string, all); ((base ++ ".bb.cpp")%string, all)]
    | TCSharp => [((base ++ ".bb.cs")%string, all)]
    | TCommonJS => [((base ++ ".bb.js")%string, all)]
    | TPython => [((base ++ "_bb.py")%string, all)]
    | TGo => [((base ++ "/" ++ last (target_package t s) "" ++ ".bb.go")%string, all)]
    | TJava => map (fun n => ((base ++ "/" ++ n ++ ".java")%string, [n])) all
    | TESM => [((base ++ ".bb.js")%string, all)]
    | TKotlin => map (fun n => ((kotlin_dir s ++ n ++ ".kt")%string, [n])) all
    end.

(** [a] comes before [b] in [l]. *)
Definition before (a b : string) (l : list string) : Prop := exists l1 l2, l = l1 ++ b :: l2 /\ In a l1.

(** The structs among a type and the types of its fields, at any depth. *)
Fixpoint node_of (o n : string) (fs : gtys) (t : gty) : Prop :=
  match t with
  | GEnum _ _ => False
  | GStruct o' n' fs' => (o = o' /\ n = n' /\ fs = fs') \/ node_in o n fs fs'
  end
with node_in (o n : string) (fs : gtys) (l : gtys) : Prop :=
  match l with GNil => False | GCons t r => node_of o n fs t \/ node_in o n fs r end.
Fixpoint field_type (t : gty) (l : gtys) : Prop :=
  match l with GNil => False | GCons x r => t = x \/ field_type t r end.

(** ** Names a written file can refer to *)
(** The type [n] is declared in file [w], in another one of the same package or namespace, or in one of
    those it imports; where what is imported is passed on ([far]: an include file brings its own
    includes, a star import the names the module has itself from star imports, the exports of a CommonJS
    module those of the ones it requires) also in those that these import, and so on. *)
Inductive sees (far : bool) (ws : list write) (w : write) (n : string) : Prop :=
| Sees_own : In n (w_decls w) -> sees far ws w n
| Sees_package w' : In w' ws -> w_package w' = w_package w -> In n (w_decls w') -> sees far ws w n
| Sees_import w' : In w' ws -> In (w_package w') (w_imports w) -> In n (w_decls w') -> sees far ws w n
| Sees_far w' : far = true -> In w' ws -> In (w_package w') (w_imports w) -> sees far ws w' n -> sees far ws w n.
Definition passes_on (t : target) : bool :=
  match t with TC | TCpp | TPython | TCommonJS => true | _ => false end.
(** The name the code of a source file goes by in the imports of the others. *)
Definition source_ns (t : target) (s : source) : string :=
  match t with
  | TGo => String.concat "/" (target_package TGo s)
  | TJava => String.concat "." (target_package TJava s)
  | TKotlin => match str_option "kotlin_package" s with Some x => x | None => String.concat "." (package_parts s) end
  | TCSharp => match str_option "csharp_namespace" s with Some x => x | None => String.concat "." (package_parts s) end
  | _ => String.concat "." (package_parts s)
  end.
