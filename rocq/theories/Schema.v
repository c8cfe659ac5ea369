(** Abstract syntax of a compiled bubbler struct, and of the values of its fields.

    Models definition/type.go, definition/field.go, definition/struct.go, definition/enum.go.
    Simplifications: names, methods, options other than byte order, and source positions are
    dropped; a struct is the list of its fields; types are expanded in place (a struct type is its
    field list).  Arrays cannot be nested (bubbler.g4:103-105: arrayElementType has no array). *)
From Coq Require Import ZArith List Bool.
From Verif Require Import Base.
Import ListNotations.
Open Scope Z_scope.

(** definition/type.go:85-188 BasicType; the argument is the type's width in bits. *)
Inductive basic : Type :=
| BBool
| BUint (w : Z)
| BInt (w : Z)
| BFloat (w : Z).

(** Field element types (definition/type.go, struct.go, enum.go), and field lists
    (definition/field.go; struct.go:11-19 StructFields).  In the field constructors [bits] is
    FieldBitSize (-1 for variable-size types) and [big] tells whether option order="big" is set. *)
Inductive elem : Type :=
| EBasic (b : basic)
| EEnum (bits : Z)
| EString
| EBytes
| EStruct (fs : fields)
with fields : Type :=
| FNil
| FOne (e : elem) (bits : Z) (big : bool) (rest : fields)               (* NormalField, non-array type *)
| FArr (e : elem) (len : nat) (bits : Z) (big : bool) (rest : fields)   (* NormalField, array type *)
| FVoid (bits : Z) (rest : fields)                                      (* VoidField *)
| FConst (b : basic) (bits : Z) (big : bool) (lit : Z) (rest : fields)  (* ConstantField, integer literal *)
| FEmb (rest : fields).                                                 (* EmbeddedField: virtual marker *)

Scheme elem_mind := Induction for elem Sort Prop
  with fields_mind := Induction for fields Sort Prop.
Combined Scheme schema_ind from elem_mind, fields_mind.

(** Values.  Numbers: bool is 0/1, floats are their IEEE bit pattern, enums their numeric value.
    A struct value lists the values of its normal fields in order. *)
Inductive val : Type :=
| VNum (z : Z)
| VStr (bs : list Z)      (* string or bytes *)
| VStruct (vs : list val)
| VArr (vs : list val).

(** definition/type.go:130-181 basicTypeMap: TypeBitSize. *)
Definition basic_bits (b : basic) : Z :=
  match b with BBool => 8 | BUint w => w | BInt w => w | BFloat w => w end.

(** definition/struct.go:79-97 SumFieldBitSize, first result: sum of the positive field sizes. *)
Fixpoint fixed_bits (fs : fields) : Z :=
  match fs with
  | FNil => 0
  | FOne _ n _ r => (if 0 <? n then n else 0) + fixed_bits r
  | FArr _ _ n _ r => (if 0 <? n then n else 0) + fixed_bits r
  | FVoid n r => (if 0 <? n then n else 0) + fixed_bits r
  | FConst _ n _ _ r => (if 0 <? n then n else 0) + fixed_bits r
  | FEmb r => fixed_bits r
  end.

(** GetTypeDynamic: definition/type.go (String/Bytes true, Basic/Enum false, Array = element),
    definition/struct.go:79-97 SumFieldBitSize second result. *)
Fixpoint elem_dyn (e : elem) : bool :=
  match e with
  | EBasic _ => false
  | EEnum _ => false
  | EString => true
  | EBytes => true
  | EStruct fs => fields_dyn fs
  end
with fields_dyn (fs : fields) : bool :=
  match fs with
  | FNil => false
  | FOne e _ _ r => elem_dyn e || fields_dyn r
  | FArr e _ _ _ r => elem_dyn e || fields_dyn r
  | FVoid _ r => fields_dyn r
  | FConst _ _ _ _ r => fields_dyn r
  | FEmb r => fields_dyn r
  end.

(** GetTypeBitSize: definition/type.go, enum.go:58-60, struct.go:45-47. *)
Definition elem_bits (e : elem) : Z :=
  match e with
  | EBasic b => basic_bits b
  | EEnum n => n
  | EString => -1
  | EBytes => -1
  | EStruct fs => fixed_bits fs
  end.

(** definition/struct.go:99-114 ForEachField: how a field moves the fixed start bit. *)
Definition next_from (from bits : Z) : Z := if bits =? -1 then from else from + bits.

(** What the compiler accepts and the generators can rely on (see FrontModel.v for the visitor
    that enforces it).  [wf_fields fs from]: the fields [fs], the first starting at fixed bit
    [from].  Stronger than the compiler in two documented points: enums have at most 64 bits, and
    an array of structs is not declared smaller than its elements. *)
Definition wf_basic (b : basic) : Prop :=
  match b with
  | BBool => True
  | BUint w | BInt w => w = 8 \/ w = 16 \/ w = 32 \/ w = 64
  | BFloat w => w = 32 \/ w = 64
  end.

Definition is_fixed_scalar (e : elem) : bool :=
  match e with EBasic _ | EEnum _ => true | _ => false end.

Fixpoint wf_elem (e : elem) : Prop :=
  match e with
  | EBasic b => wf_basic b
  | EEnum n => 1 <= n <= 64
  | EString => True
  | EBytes => True
  | EStruct fs => wf_fields fs 0 /\ fixed_bits fs mod 8 = 0
  end
with wf_fields (fs : fields) (from : Z) : Prop :=
  match fs with
  | FNil => True
  | FOne e n _ r =>
      wf_elem e /\
      (if is_fixed_scalar e then 1 <= n <= elem_bits e
       else from mod 8 = 0 /\ n = elem_bits e) /\
      wf_fields r (next_from from n)
  | FArr e len n _ r =>
      wf_elem e /\ (0 < len)%nat /\
      (if is_fixed_scalar e then exists eb, 1 <= eb <= elem_bits e /\ n = Z.of_nat len * eb
       else from mod 8 = 0 /\
            n = if elem_dyn e then -1 else Z.of_nat len * elem_bits e) /\
      wf_fields r (next_from from n)
  | FVoid n r => 1 <= n /\ wf_fields r (from + n)
  | FConst b n _ _ r => wf_basic b /\ 1 <= n <= basic_bits b /\ wf_fields r (from + n)
  | FEmb r => wf_fields r from
  end.

(** A whole struct definition. *)
Definition wf_struct (fs : fields) : Prop := wf_fields fs 0 /\ fixed_bits fs mod 8 = 0.

(** No field is directly (not through an array) a struct of dynamic size. *)
Fixpoint nd_elem (e : elem) : Prop :=
  match e with EStruct fs => nd_fields fs | _ => True end
with nd_fields (fs : fields) : Prop :=
  match fs with
  | FNil => True
  | FOne e _ _ r =>
      (match e with EStruct s => fields_dyn s = false | _ => True end) /\ nd_elem e /\ nd_fields r
  | FArr e _ _ _ r => nd_elem e /\ nd_fields r
  | FVoid _ r | FConst _ _ _ _ r | FEmb r => nd_fields r
  end.
