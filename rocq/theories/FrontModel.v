(** Model of the front end: from the parse tree of a file to checked struct and enum definitions.
    Source: /repo/compiler/proto_visitor.go (line numbers below are in that file unless another is
    named).  Definitions only.

    Simplifications: a compile error ([Fail]) ends the visit at once, where the code may go on to
    collect further errors before reporting failure (44-60, 278-426); warnings and method bodies
    (expressions, which the visitor rejects only for a constant it cannot read: Text.v) are dropped; float literals are given by
    their bit pattern.  OrderedMap is the association list of OrderedMap.v (C30). *)
From Coq Require Import String Ascii ZArith List Bool.
From Verif Require Import Base Schema NameStyle.
Import ListNotations.
Open Scope string_scope.
Open Scope Z_scope.
Open Scope list_scope.

(** ** Parse trees (parser/bubbler.g4) *)

(** definition/position.go: File, Line, Column. *)
Record pos : Type := { p_file : string; p_line : Z; p_col : Z }.
(** definition/position.go:47-49 PositionEquals. *)
Definition pos_eqb (a b : pos) : bool :=
  String.eqb (p_file a) (p_file b) && (p_line a =? p_line b) && (p_col a =? p_col b).

(** Grammar rule basicType. *)
Inductive a_basic : Type :=
| Bool_ | Int8 | Int16 | Int32 | Int64 | Uint8 | Uint16 | Uint32 | Uint64 | Float32 | Float64.
(** VisitBasicType, 1988-2023, and the constants of definition/type.go:146-158. *)
Definition basic_of (b : a_basic) : basic :=
  match b with
  | Bool_ => BBool
  | Int8 => BInt 8 | Int16 => BInt 16 | Int32 => BInt 32 | Int64 => BInt 64
  | Uint8 => BUint 8 | Uint16 => BUint 16 | Uint32 => BUint 32 | Uint64 => BUint 64
  | Float32 => BFloat 32 | Float64 => BFloat 64
  end.

(** Grammar rule constant; int literals are unsigned (INT_LIT) with an optional sign. *)
Inductive a_lit : Type :=
| LInt (neg : bool) (n : N)
| LFloat (bits : N)
| LBool (b : bool)
| LStr (s : string).

(** Right-hand side of a constant field or enum member: constant or ident. *)
Inductive a_const : Type := ACLit (l : a_lit) | ACIdent (s : string).

(** Rule size_: byte part and bit part, an absent part being 0. *)
Definition a_size : Type := (N * N)%type.
Definition a_opts : Type := list (string * a_lit).

(** Rule fieldMethod: get/set, optional name, type. *)
Record a_method : Type := { m_get : bool; m_name : option string; m_type : a_basic }.

(** Rules type_ / arrayElementType, structDef, structBody (one constructor per structElement). *)
Inductive a_elem : Type :=
| AeBasic (b : a_basic)
| AeString
| AeBytes
| AeStructRef (n : string)
| AeStructDef (d : a_struct)
| AeEnumRef (n : string)
| AeIdent (n : string)
with a_struct : Type :=
| AStruct (p : pos) (name : string) (size : option a_size) (body : a_body)
with a_body : Type :=
| ABNil
| ABEmpty (rest : a_body)
| ABVoid (size : a_size) (opts : a_opts) (rest : a_body)
| ABConst (b : a_basic) (name : option string) (size : option a_size) (c : a_const) (opts : a_opts)
          (rest : a_body)
| ABEmb (e : a_elem) (arr : option N) (opts : a_opts) (rest : a_body)
| ABNormal (e : a_elem) (arr : option N) (name : string) (size : option a_size) (opts : a_opts)
           (methods : list a_method) (rest : a_body).

Scheme a_elem_mind := Induction for a_elem Sort Prop
  with a_struct_mind := Induction for a_struct Sort Prop
  with a_body_mind := Induction for a_body Sort Prop.
Combined Scheme ast_ind from a_elem_mind, a_struct_mind, a_body_mind.

(** Rule enumDef: members with optional value. *)
Record a_enumval : Type := { ev_pos : pos; ev_name : string; ev_val : option a_const }.
Record a_enum : Type :=
  { en_pos : pos; en_name : string; en_size : a_size; en_vals : list a_enumval }.
Inductive a_top : Type := ATStruct (d : a_struct) | ATEnum (d : a_enum).

(** ** Checked definitions *)

(** What the visitor asks of a type: definition/type.go GetTypeBitSize, GetTypeDynamic; [t_elem]
    is the type itself as in Schema.v. *)
Record fty : Type := { t_elem : elem; t_bits : Z; t_dyn : bool }.

(** definition/field.go: the four kinds of fields.  [methods] are the keys of FieldMethods, [arr]
    is the length of an array type. *)
Inductive nfield : Type :=
| NNormal (name : string) (methods : list string) (t : fty) (arr : option Z) (bits : Z) (big : bool)
| NVoid (bits : Z)
| NConst (name : string) (b : basic) (bits : Z) (big : bool) (lit : Z)
| NEmb (sname : string).

(** definition/struct.go:11-19. *)
Record cstruct : Type :=
  { cs_pos : pos; cs_name : string; cs_bits : Z; cs_dyn : bool; cs_fields : list nfield }.
(** definition/enum.go:9-29. *)
Record cenum : Type :=
  { ce_pos : pos; ce_name : string; ce_bits : Z; ce_vals : list (string * Z) }.
Inductive ctype : Type := CTStruct (s : cstruct) | CTEnum (e : cenum).

(** The struct as the code generators of Schema.v see it. *)
Fixpoint erase (l : list nfield) : fields :=
  match l with
  | [] => FNil
  | NNormal _ _ t None n big :: r => FOne (t_elem t) n big (erase r)
  | NNormal _ _ t (Some len) n big :: r => FArr (t_elem t) (Z.to_nat len) n big (erase r)
  | NVoid n :: r => FVoid n (erase r)
  | NConst _ b n big z :: r => FConst b n big z (erase r)
  | NEmb _ :: r => FEmb (erase r)
  end.

Definition fty_struct (s : cstruct) : fty :=
  {| t_elem := EStruct (erase (cs_fields s)); t_bits := cs_bits s; t_dyn := cs_dyn s |}.
Definition fty_enum (e : cenum) : fty :=
  {| t_elem := EEnum (ce_bits e); t_bits := ce_bits e; t_dyn := false |}.
(** A visited type_: a struct keeps its definition, for embedding. *)
Inductive vtype : Type := VTStruct (s : cstruct) | VTOther (t : fty).
Definition fty_of (v : vtype) : fty :=
  match v with VTStruct s => fty_struct s | VTOther t => t end.
Definition vtype_of (c : ctype) : vtype :=
  match c with CTStruct s => VTStruct s | CTEnum e => VTOther (fty_enum e) end.

(** Entry of GlobalNames: a plain position, or an enum value (definition/enum.go:9-15). *)
Inductive named : Type := NPos (p : pos) | NEnumVal (p : pos) (v : Z).
Definition named_pos (n : named) : pos := match n with NPos p => p | NEnumVal p _ => p end.

(** ** Maps *)
Section Maps.
  Context {V : Type}.
  Fixpoint get (k : string) (m : list (string * V)) : option V :=
    match m with
    | [] => None
    | (k', v) :: r => if String.eqb k k' then Some v else get k r
    end.
  Definition has (k : string) (m : list (string * V)) : bool :=
    match get k m with Some _ => true | None => false end.
  (** util/ordered_map.go Put: no effect if the key is present. *)
  Definition put (k : string) (v : V) (m : list (string * V)) : list (string * V) :=
    if has k m then m else m ++ [(k, v)].
End Maps.

Definition mem (k : string) (l : list string) : bool := existsb (String.eqb k) l.

(** ** Names: util/name_style.go:65-90 *)
Fixpoint is_capitalized (s : string) : bool :=
  match s with
  | EmptyString => false
  | String c r => if is_us c then is_capitalized r else is_upper c
  end.
Fixpoint is_uncapitalized (s : string) : bool :=
  match s with
  | EmptyString => false
  | String c r => if is_us c then is_uncapitalized r else is_lower c
  end.

(** ** int64 arithmetic.  Every sum and product of sizes goes through [w64]; the compiler's is
    [sext 64]. *)
Definition wrap64 (z : Z) : Z := sext 64 z.

Section Visitor.
Variable w64 : Z -> Z.

(** compiler/literal_visitor.go:128-146 VisitIntLit: strconv.ParseInt(_, 0, 64). *)
Definition int_lit (n : N) : res Z :=
  if Z.of_N n <? 2 ^ 63 then Ok (Z.of_N n) else Fail.

Inductive literal : Type := IntL (z : Z) | FloatL (z : Z) | BoolL (b : bool) | StrL (s : string).
(** compiler/literal_visitor.go:25-119 VisitConstant. *)
Definition visit_lit (l : a_lit) : res literal :=
  match l with
  | LInt neg n => do z <- int_lit n; Ok (IntL (if neg then - z else z))
  | LFloat z => Ok (FloatL (Z.of_N z))
  | LBool b => Ok (BoolL b)
  | LStr s => Ok (StrL s)
  end.

(** VisitSize_, 867-907. *)
Definition visit_size (s : a_size) : res Z :=
  do by_ <- int_lit (fst s);
  do bi <- int_lit (snd s);
  let total := w64 (w64 (by_ * 8) + bi) in
  if total =? 0 then Fail else Ok total.
(** "size := 0; if ctx.Size_() != nil ..." (102-113, 480-491, 717-728). *)
Definition visit_opt_size (s : option a_size) : res Z :=
  match s with None => Ok 0 | Some s => visit_size s end.

(** VisitStructName, VisitEnumName, VisitEnumValueName, VisitFieldName, VisitMethodName: 244-276,
    2441-2508, 917-949, 1219-1250. *)
Definition cap_name (s : string) : res string := if is_capitalized s then Ok s else Fail.
Definition uncap_name (s : string) : res string := if is_uncapitalized s then Ok s else Fail.

(** FieldOptionValidator: compiler/option_validator.go:23, 52-94; unknown options only warn. *)
Definition option_valid (name : string) (v : literal) : bool :=
  if String.eqb name "order" then
    match v with StrL s => String.eqb s "big" || String.eqb s "little" | _ => false end
  else true.
(** VisitFieldOptions, 951-994. *)
Fixpoint visit_options (l : a_opts) (acc : list (string * literal))
  : res (list (string * literal)) :=
  match l with
  | [] => Ok acc
  | (name, v) :: r =>
      do v' <- visit_lit v;
      if option_valid name v' then
        if has name acc then Fail else visit_options r (put name v' acc)
      else Fail
  end.
(** gen.MatchOption(options, "order", "big"), as called by every generator. *)
Definition order_big (o : list (string * literal)) : bool :=
  match get "order" o with Some (StrL s) => String.eqb s "big" | _ => false end.

(** MethodVisitor.VisitFieldMethods, 1049-1127, with VisitFieldMethod 1129-1217: methods are grouped
    by name; a group has at most one get and one set, of the same type.  Result: the groups. *)
Definition basic_eqb (a b : basic) : bool :=
  match a, b with
  | BBool, BBool => true
  | BUint x, BUint y | BInt x, BInt y | BFloat x, BFloat y => x =? y
  | _, _ => false
  end.
Fixpoint upd (k : string) (v : bool * bool * basic) (m : list (string * (bool * bool * basic)))
  : list (string * (bool * bool * basic)) :=
  match m with
  | [] => []
  | (k', v') :: r => if String.eqb k k' then (k', v) :: r else (k', v') :: upd k v r
  end.
Fixpoint visit_methods (l : list a_method) (acc : list (string * (bool * bool * basic)))
  : res (list (string * (bool * bool * basic))) :=
  match l with
  | [] => Ok acc
  | m :: r =>
      do name <- match m_name m with Some n => uncap_name n | None => Fail end;
      match get name acc with
      | Some (g, s, t) =>
          if (if m_get m then g else s) then Fail
          else if basic_eqb t (basic_of (m_type m))
               then visit_methods r (upd name (g || m_get m, s || negb (m_get m), t) acc)
               else Fail
      | None => visit_methods r (put name (m_get m, negb (m_get m), basic_of (m_type m)) acc)
      end
  end.

(** Named lookups: VisitStructType 2108-2147 (the panic: the error returned by VisitStructName for a
    lower-case name is asserted to be a string, 2113), VisitEnumType 2149-2183, VisitType_ 1966-1983. *)
Definition names_t : Type := list (string * named).
Definition types_t : Type := list (string * ctype).
Definition visit_struct_ref (ts : types_t) (n : string) : res vtype :=
  if is_capitalized n then
    match get n ts with Some (CTStruct s) => Ok (VTStruct s) | _ => Fail end
  else Panic.
Definition visit_enum_ref (ts : types_t) (n : string) : res vtype :=
  if is_capitalized n then
    match get n ts with Some (CTEnum e) => Ok (VTOther (fty_enum e)) | _ => Fail end
  else Panic.
Definition visit_ident (ts : types_t) (n : string) : res vtype :=
  match get n ts with Some c => Ok (vtype_of c) | None => Fail end.

(** definition/compilation_unit.go:67-81 AddLocalName, on the GlobalNames map (LocalNames gets the
    same entry, see CompileModel.v). *)
Definition add_name (ns : names_t) (n : string) (v : named) : res names_t :=
  match get n ns with
  | Some prev => if pos_eqb (named_pos prev) (named_pos v) then Ok ns else Fail
  | None => Ok (ns ++ [(n, v)])
  end.

(** definition/type.go Array.GetTypeBitSize / GetTypeDynamic. *)
Definition type_bits (t : fty) (arr : option Z) : Z :=
  match arr with
  | None => t_bits t
  | Some len => if t_dyn t then -1 else w64 (t_bits t * len)
  end.
(** VisitArrayType, 2025-2068: the length. *)
Definition visit_arr (arr : option N) : res (option Z) :=
  match arr with
  | None => Ok None
  | Some n => do z <- int_lit n; if z =? 0 then Fail else Ok (Some z)
  end.

(** VisitFieldNormal, 493-538: the size of a normal field. Go's % is Z.rem. *)
Definition normal_size (v : vtype) (arr : option Z) (size : Z) : res Z :=
  let ts := type_bits (fty_of v) arr in
  if size =? 0 then Ok ts
  else if ts =? -1 then Fail
  else if ts <? size then Fail
  else
    match arr with
    | Some len =>
        if len =? 0 then Panic  (* integer division by zero *)
        else if Z.rem size len =? 0 then Ok size else Fail
    | None =>
        match v with
        | VTStruct _ => if size =? ts then Ok size else Fail
        | VTOther _ => Ok size
        end
    end.

(** VisitFieldConstant, 745-838: the literal, and whether it suits the type. *)
Definition visit_const (ns : names_t) (c : a_const) : res literal :=
  match c with
  | ACLit l => visit_lit l
  | ACIdent n => match get n ns with Some (NEnumVal _ v) => Ok (IntL v) | _ => Fail end
  end.
Definition const_match (b : basic) (l : literal) : bool :=
  match l, b with
  | BoolL _, BBool => true
  | IntL z, BUint _ => negb (z <? 0)
  | IntL _, BInt _ => true
  | FloatL _, BFloat _ => true
  | _, _ => false
  end.
Definition lit_num (l : literal) : Z :=
  match l with IntL z => z | FloatL z => z | BoolL b => if b then 1 else 0 | StrL _ => 0 end.

(** ** VisitStructBody, 278-426 *)
(** addName, 283-295: [seen] is the map names. *)
Definition body_name (seen : list string) (n : string) : res (list string) :=
  if mem n seen then Fail else Ok (seen ++ [n]).
Fixpoint body_names (seen : list string) (l : list string) : res (list string) :=
  match l with
  | [] => Ok seen
  | n :: r => do s <- body_name seen n; body_names s r
  end.
(** addField, 298-379, for a field that is not to be flattened ([FieldBelongs] is set, or it is not
    an embedded one). *)
Definition names_of (f : nfield) : list string :=
  match f with
  | NNormal name ms _ _ _ _ => name :: ms
  | NVoid _ => []
  | NConst name _ _ _ _ => if String.eqb name "" then [] else [name]
  | NEmb n => [n]
  end.
Definition add_field (st : list string * list nfield) (f : nfield)
  : res (list string * list nfield) :=
  do seen <- body_names (fst st) (names_of f);
  Ok (seen, snd st ++ [f]).
Fixpoint add_fields (st : list string * list nfield) (l : list nfield)
  : res (list string * list nfield) :=
  match l with
  | [] => Ok st
  | f :: r => do st' <- add_field st f; add_fields st' r
  end.
(** An embedded field met for the first time: the marker, then a copy of each field (320-353). *)
Definition add_embedded (st : list string * list nfield) (s : cstruct)
  : res (list string * list nfield) :=
  do st' <- add_field st (NEmb (cs_name s)); add_fields st' (cs_fields s).

(** definition/field.go GetFieldBitSize: 0 for embedded fields. *)
Definition nbits (f : nfield) : Z :=
  match f with
  | NNormal _ _ _ _ n _ => n
  | NVoid n => n
  | NConst _ _ n _ _ => n
  | NEmb _ => 0
  end.

(** definition/struct.go:79-97 SumFieldBitSize. *)
Definition ndyn (f : nfield) : bool :=
  match f with NNormal _ _ t _ _ _ => t_dyn t | _ => false end.
Fixpoint sum_bits (l : list nfield) (acc : Z) : Z :=
  match l with
  | [] => acc
  | f :: r => sum_bits r (if 0 <? nbits f then w64 (acc + nbits f) else acc)
  end.
Definition sum_dyn (l : list nfield) : bool := existsb ndyn l.

(** isMustAlignedType, 156-171: struct, string, bytes, or an array of these. *)
Definition must_align (f : nfield) : bool :=
  match f with
  | NNormal _ _ t _ _ _ =>
      match t_elem t with EStruct _ | EString | EBytes => true | _ => false end
  | _ => false
  end.
(** definition/struct.go:99-114 ForEachField with the check of 153-191. *)
Fixpoint check_align (l : list nfield) (start : Z) : bool :=
  match l with
  | [] => true
  | f :: r =>
      negb (must_align f && negb (Z.rem start 8 =? 0)) &&
      check_align r (if nbits f =? -1 then start else w64 (start + nbits f))
  end.

(** VisitStructDef, 153-238: the checks made once the fields are known. *)
Definition check_struct (p : pos) (name : string) (size : Z) (fs : list nfield) : res cstruct :=
  match fs with
  | [] => Fail
  | _ =>
      if check_align fs 0 then
        let fixed := sum_bits fs 0 in
        let dyn := sum_dyn fs in
        if Z.rem fixed 8 =? 0 then
          if size =? 0 then
            Ok {| cs_pos := p; cs_name := name; cs_bits := fixed; cs_dyn := dyn; cs_fields := fs |}
          else if dyn then Fail
          else if fixed =? size then
            Ok {| cs_pos := p; cs_name := name; cs_bits := size; cs_dyn := false; cs_fields := fs |}
          else Fail
        else Fail
      else Fail
  end.

(** VisitType_ 1948-1986 / VisitArrayElementType 2070-2106, VisitStructDef 76-238, VisitStructBody
    278-426 with VisitFieldNormal 456-607, VisitFieldEmbedded 609-654, VisitFieldVoid 656-693,
    VisitFieldConstant 695-865.  [ts] is GlobalTypes (it does not change inside a definition), [ns]
    GlobalNames. *)
Fixpoint visit_elem (ts : types_t) (ns : names_t) (e : a_elem) : res (vtype * names_t) :=
  match e with
  | AeBasic b =>
      let b := basic_of b in
      Ok (VTOther {| t_elem := EBasic b; t_bits := basic_bits b; t_dyn := false |}, ns)
  | AeString => Ok (VTOther {| t_elem := EString; t_bits := -1; t_dyn := true |}, ns)
  | AeBytes => Ok (VTOther {| t_elem := EBytes; t_bits := -1; t_dyn := true |}, ns)
  | AeStructRef n => do v <- visit_struct_ref ts n; Ok (v, ns)
  | AeStructDef d => do (s, ns') <- visit_struct ts ns d; Ok (VTStruct s, ns')
  | AeEnumRef n => do v <- visit_enum_ref ts n; Ok (v, ns)
  | AeIdent n => do v <- visit_ident ts n; Ok (v, ns)
  end
with visit_struct (ts : types_t) (ns : names_t) (d : a_struct) : res (cstruct * names_t) :=
  match d with
  | AStruct p name size body =>
      do name <- cap_name name;
      do ns1 <- add_name ns name (NPos p);
      do sz <- visit_opt_size size;
      do (st, ns2) <- visit_body ts ns1 body ([], []);
      do s <- check_struct p name sz (snd st);
      Ok (s, ns2)
  end
with visit_body (ts : types_t) (ns : names_t) (b : a_body) (st : list string * list nfield)
  : res ((list string * list nfield) * names_t) :=
  match b with
  | ABNil => Ok (st, ns)
  | ABEmpty r => visit_body ts ns r st
  | ABVoid size opts r =>
      do sz <- visit_size size;
      do _ <- visit_options opts [];
      do st' <- add_field st (NVoid sz);
      visit_body ts ns r st'
  | ABConst ab name size c opts r =>
      let b := basic_of ab in
      do name <- match name with Some n => uncap_name n | None => Ok "" end;
      do sz <- visit_opt_size size;
      do n <- (if sz =? 0 then Ok (basic_bits b) else if basic_bits b <? sz then Fail else Ok sz);
      do l <- visit_const ns c;
      if const_match b l then
        do o <- visit_options opts [];
        do st' <- add_field st (NConst name b n (order_big o) (lit_num l));
        visit_body ts ns r st'
      else Fail
  | ABEmb e arr opts r =>
      do (v, ns') <- visit_elem ts ns e;
      do a <- visit_arr arr;
      match v, a with
      | VTStruct s, None =>
          do _ <- visit_options opts [];
          do st' <- add_embedded st s;
          visit_body ts ns' r st'
      | _, _ => Fail
      end
  | ABNormal e arr name size opts ms r =>
      do (v, ns') <- visit_elem ts ns e;
      do a <- visit_arr arr;
      do name <- uncap_name name;
      do sz <- visit_opt_size size;
      do n <- normal_size v a sz;
      do o <- visit_options opts [];
      do groups <- match ms, v, a with
                   | [], _, _ => Ok []
                   | _, VTOther {| t_elem := EBasic _ |}, None => visit_methods ms []
                   | _, _, _ => Fail
                   end;
      do st' <- add_field st (NNormal name (map fst groups) (fty_of v) a n (order_big o));
      visit_body ts ns' r st'
  end.

(** ** Enums: VisitEnumDef 2189-2282, VisitEnumBody 2284-2341, VisitEnumValue 2353-2439 *)
Definition visit_enumval (ns : names_t) (v : a_enumval) : res Z :=
  match ev_val v with
  | None => Ok (-1)
  | Some (ACLit l) =>
      do x <- visit_lit l; match x with IntL z => Ok z | _ => Fail end
  | Some (ACIdent n) => match get n ns with Some (NEnumVal _ z) => Ok z | _ => Fail end
  end.
(** addValue, 2287-2309; [acc] is the map values with positions. *)
Fixpoint visit_enumvals (ns : names_t) (l : list a_enumval) (acc : list (string * (Z * pos)))
  : res (list (string * (Z * pos))) :=
  match l with
  | [] => Ok acc
  | v :: r =>
      do name <- cap_name (ev_name v);
      do z <- visit_enumval ns v;
      if has name acc then Fail
      else
        let z' := if z =? -1 then
                    match rev acc with [] => 0 | (_, (l, _)) :: _ => w64 (l + 1) end
                  else z in
        visit_enumvals ns r (put name (z', ev_pos v) acc)
  end.
Fixpoint add_enum_names (ns : names_t) (l : list (string * (Z * pos))) : res names_t :=
  match l with
  | [] => Ok ns
  | (n, (z, p)) :: r => do ns' <- add_name ns n (NEnumVal p z); add_enum_names ns' r
  end.
Definition visit_enum (ns : names_t) (d : a_enum) : res (cenum * names_t) :=
  do name <- cap_name (en_name d);
  do ns1 <- add_name ns name (NPos (en_pos d));
  do sz <- visit_size (en_size d);
  do vals <- visit_enumvals ns1 (en_vals d) [];
  match vals with
  | [] => Fail
  | _ =>
      do ns2 <- add_enum_names ns1 vals;
      Ok ({| ce_pos := en_pos d; ce_name := name; ce_bits := sz;
             ce_vals := map (fun x => (fst x, fst (snd x))) vals |}, ns2)
  end.

(** VisitProto, 44-60: the definitions of a file in order, each becoming visible to the later ones
    (AddLocalType; its error is ignored, and cannot occur since AddLocalName accepted the name at the
    same position). *)
Definition ctype_name (c : ctype) : string :=
  match c with CTStruct s => cs_name s | CTEnum e => ce_name e end.
Fixpoint visit_tops (ts : types_t) (ns : names_t) (l : list a_top) : res (types_t * names_t) :=
  match l with
  | [] => Ok (ts, ns)
  | ATStruct d :: r =>
      do (s, ns') <- visit_struct ts ns d;
      visit_tops (put (cs_name s) (CTStruct s) ts) ns' r
  | ATEnum d :: r =>
      do (e, ns') <- visit_enum ns d;
      visit_tops (put (ce_name e) (CTEnum e) ts) ns' r
  end.
End Visitor.
