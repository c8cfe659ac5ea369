(** Independent specification of the wire format.  No generator code here.

    The wire image of a message is a list of bits, bit k being bit k%8 (least significant first)
    of byte k/8; [None] marks bits the format leaves alone (void fields). *)
From Coq Require Import ZArith List Bool.
From Verif Require Import Base Schema.
Import ListNotations.
Open Scope Z_scope.

(** Which bit of an [n]-bit value is carried by field bit [k].  Little endian: bit k.  Big endian:
    the value is cut into bytes from its most significant end; the last, possibly partial, byte
    carries the lowest bits. *)
Definition value_bit (n : Z) (big : bool) (k : Z) : Z :=
  if big then Z.max 0 (n - 8 * (k / 8 + 1)) + k mod 8 else k.

(** The [n] field bits of value [z]. *)
Definition field_bits (n : Z) (big : bool) (z : Z) : list bool :=
  map (fun k => Z.testbit z (value_bit n big (Z.of_nat k))) (seq 0 (Z.to_nat n)).

(** Base-128 variable length integer: groups of 7 bits, least significant first, top bit set on
    all but the last byte. [fuel] bounds the number of continuation bytes; 10 suffices for any
    length below 2^63. *)
Fixpoint varint_fuel (fuel : nat) (n : Z) : list Z :=
  match fuel with
  | O => [n]
  | S f => if n <? 128 then [n] else (n mod 128 + 128) :: varint_fuel f (n / 128)
  end.
Definition varint (n : Z) : list Z := varint_fuel 10 n.

Definition raw_bytes (l : list Z) : list (option bool) := map Some (bits_of_bytes l).

(** Field bits of a constant: the type's full-width representation in the given byte order, of
    which the first [n] bits are sent. *)
Definition const_bits (w n : Z) (big : bool) (z : Z) : list bool :=
  map (fun k => Z.testbit z (value_bit w big (Z.of_nat k))) (seq 0 (Z.to_nat n)).

(** Wire image of one element occupying [n] bits, and of a list of fields. *)
Fixpoint image_elem (e : elem) (n : Z) (big : bool) (v : val) {struct e} : list (option bool) :=
  match e, v with
  | EBasic _, VNum z => map Some (field_bits n big z)
  | EEnum _, VNum z => map Some (field_bits n big z)
  | EString, VStr bs => raw_bytes (bs ++ [0])
  | EBytes, VStr bs => raw_bytes (varint (zlen bs) ++ bs)
  | EStruct fs, VStruct vs => image_fields fs vs
  | _, _ => []
  end
with image_fields (fs : fields) (vs : list val) {struct fs} : list (option bool) :=
  match fs with
  | FNil => []
  | FOne e n big r =>
      match vs with
      | v :: vs' =>
          image_elem e n big v ++
          (* a directly nested struct of dynamic size is followed by a gap as long as its own
             fixed part: its fixed part is counted in the outer struct as well *)
          (match e with
           | EStruct s => if fields_dyn s then repeat None (Z.to_nat (fixed_bits s)) else []
           | _ => []
           end) ++
          image_fields r vs'
      | [] => []
      end
  | FArr e len n big r =>
      match vs with
      | VArr arr :: vs' =>
          flat_map (image_elem e (n / Z.of_nat len) big) arr ++ image_fields r vs'
      | _ => []
      end
  | FVoid n r => repeat None (Z.to_nat n) ++ image_fields r vs
  | FConst b n big z r => map Some (const_bits (basic_bits b) n big z) ++ image_fields r vs
  | FEmb r => image_fields r vs
  end.

(** Values of a struct type that the target language can store: right shape, every number within
    its declared type (not necessarily its declared field width). *)
Definition storable_num (e : elem) (z : Z) : Prop :=
  match e with
  | EBasic BBool => z = 0 \/ z = 1
  | EBasic (BUint w) => 0 <= z < 2 ^ w
  | EBasic (BInt w) => - 2 ^ (w - 1) <= z < 2 ^ (w - 1)
  | EBasic (BFloat w) => 0 <= z < 2 ^ w
  | EEnum bits => 0 <= z < 2 ^ 64
  | _ => False
  end.

Fixpoint storable_elem (e : elem) (v : val) : Prop :=
  match e with
  | EBasic _ | EEnum _ => match v with VNum z => storable_num e z | _ => False end
  | EString => match v with VStr bs => bytes_ok bs /\ ~ In 0 bs | _ => False end
  | EBytes => match v with VStr bs => bytes_ok bs /\ zlen bs < 2 ^ 63 | _ => False end
  | EStruct fs => match v with VStruct vs => storable_fields fs vs | _ => False end
  end
with storable_fields (fs : fields) (vs : list val) : Prop :=
  match fs with
  | FNil => vs = []
  | FOne e _ _ r => match vs with v :: vs' => storable_elem e v /\ storable_fields r vs' | [] => False end
  | FArr e len _ _ r =>
      match vs with
      | VArr arr :: vs' => length arr = len /\ Forall (storable_elem e) arr /\ storable_fields r vs'
      | _ => False
      end
  | FVoid _ r | FConst _ _ _ _ r | FEmb r => storable_fields r vs
  end.

(** Reduction of a number to an [n]-bit field. *)
Definition norm_num (b : elem) (n z : Z) : Z :=
  match b with
  | EBasic (BInt _) => sext n z
  | _ => z mod 2 ^ n
  end.

(** The value a receiver is entitled to: every number reduced to its field width. *)
Fixpoint norm_elem (e : elem) (n : Z) (v : val) {struct e} : val :=
  match e with
  | EBasic _ | EEnum _ => match v with VNum z => VNum (norm_num e n z) | _ => v end
  | EString | EBytes => v
  | EStruct fs => match v with VStruct vs => VStruct (norm_fields fs vs) | _ => v end
  end
with norm_fields (fs : fields) (vs : list val) {struct fs} : list val :=
  match fs with
  | FNil => []
  | FOne e n _ r => match vs with v :: vs' => norm_elem e n v :: norm_fields r vs' | [] => [] end
  | FArr e len n _ r =>
      match vs with
      | VArr arr :: vs' => VArr (map (norm_elem e (n / Z.of_nat len)) arr) :: norm_fields r vs'
      | _ => []
      end
  | FVoid _ r | FConst _ _ _ _ r | FEmb r => norm_fields r vs
  end.

(** Values that fit their declared field widths. *)
Definition fits_num (e : elem) (n z : Z) : Prop :=
  match e with
  | EBasic BBool => z = 0 \/ z = 1
  | EBasic (BInt _) => - 2 ^ (n - 1) <= z < 2 ^ (n - 1)
  | EBasic _ | EEnum _ => 0 <= z < 2 ^ n
  | _ => False
  end.

Fixpoint fits_elem (e : elem) (n : Z) (v : val) {struct e} : Prop :=
  match e with
  | EBasic _ | EEnum _ => match v with VNum z => fits_num e n z | _ => False end
  | EString => match v with VStr bs => bytes_ok bs /\ ~ In 0 bs | _ => False end
  | EBytes => match v with VStr bs => bytes_ok bs /\ zlen bs < 2 ^ 63 | _ => False end
  | EStruct fs => match v with VStruct vs => fits_fields fs vs | _ => False end
  end
with fits_fields (fs : fields) (vs : list val) {struct fs} : Prop :=
  match fs with
  | FNil => vs = []
  | FOne e n _ r => match vs with v :: vs' => fits_elem e n v /\ fits_fields r vs' | [] => False end
  | FArr e len n _ r =>
      match vs with
      | VArr arr :: vs' =>
          length arr = len /\ Forall (fits_elem e (n / Z.of_nat len)) arr /\ fits_fields r vs'
      | _ => False
      end
  | FVoid _ r | FConst _ _ _ _ r | FEmb r => fits_fields r vs
  end.

(** The number a receiver compares with a constant: the [n] bits read as the constant's type, seen as an
    unsigned number of that type's width. *)
Definition const_num (b : basic) (n p : Z) : Z :=
  match b with BInt w => sext n p mod 2 ^ w | _ => p end.
(** The bits sent for constant [z] are those of an [n]-bit number that reads back as [z]. *)
Definition received (b : basic) (n : Z) (big : bool) (z : Z) : Prop :=
  exists p, 0 <= p < 2 ^ n /\ const_bits (basic_bits b) n big z = field_bits n big p /\ const_num b n p = z.
(** Every constant of the schema, at any depth, is of that kind. *)
Fixpoint consts_ok_elem (e : elem) : Prop :=
  match e with EStruct fs => consts_ok fs | _ => True end
with consts_ok (fs : fields) : Prop :=
  match fs with
  | FNil => True
  | FOne e _ _ r => consts_ok_elem e /\ consts_ok r
  | FArr e _ _ _ r => consts_ok_elem e /\ consts_ok r
  | FVoid _ r | FEmb r => consts_ok r
  | FConst b n big z r => received b n big z /\ consts_ok r
  end.

(** Schemas whose wire form is canonical: no byte strings (whose length prefix has redundant forms)
    and one-bit bools. *)
Fixpoint exact_elem (e : elem) (n : Z) : Prop :=
  match e with
  | EBasic BBool => n = 1
  | EBytes => False
  | EStruct fs => exact_fields fs
  | _ => True
  end
with exact_fields (fs : fields) : Prop :=
  match fs with
  | FNil => True
  | FOne e n _ r => exact_elem e n /\ exact_fields r
  | FArr e len n _ r => exact_elem e (n / Z.of_nat len) /\ exact_fields r
  | FVoid _ r | FConst _ _ _ _ r | FEmb r => exact_fields r
  end.

(** [value_at data pos n big p]: the [n]-bit number the bits of [data] from bit [pos] on stand for,
    read in the given byte order, is [p]. *)
Definition value_at (data : list Z) (pos n : Z) (big : bool) (p : Z) : Prop :=
  0 <= p < 2 ^ n /\ matches data pos (map Some (field_bits n big p)).

(** Every array of bools uses one bit per element. *)
Fixpoint bool_arrays_1bit_elem (e : elem) : Prop :=
  match e with EStruct fs => bool_arrays_1bit fs | _ => True end
with bool_arrays_1bit (fs : fields) : Prop :=
  match fs with
  | FNil => True
  | FOne e _ _ r => bool_arrays_1bit_elem e /\ bool_arrays_1bit r
  | FArr e len n _ r =>
      bool_arrays_1bit_elem e /\ (e = EBasic BBool -> n = Z.of_nat len) /\ bool_arrays_1bit r
  | FVoid _ r | FConst _ _ _ _ r | FEmb r => bool_arrays_1bit r
  end.

(** [fapp a b]: the fields of [a] followed by those of [b]. *)
Fixpoint fapp (a b : fields) : fields :=
  match a with
  | FNil => b
  | FOne e n big r => FOne e n big (fapp r b)
  | FArr e len n big r => FArr e len n big (fapp r b)
  | FVoid n r => FVoid n (fapp r b)
  | FConst c n big z r => FConst c n big z (fapp r b)
  | FEmb r => FEmb (fapp r b)
  end.

(** Nothing of variable size follows a struct of dynamic size that is nested directly (not through an array);
    inside array elements there is no such struct at all. *)
Fixpoint lone_elem (e : elem) : Prop :=
  match e with EStruct fs => lone_fields fs | _ => True end
with lone_fields (fs : fields) : Prop :=
  match fs with
  | FNil => True
  | FOne e _ _ r =>
      lone_elem e /\
      (match e with EStruct s => fields_dyn s = true -> fields_dyn r = false | _ => True end) /\ lone_fields r
  | FArr e _ _ _ r => nd_elem e /\ lone_fields r
  | FVoid _ r | FConst _ _ _ _ r | FEmb r => lone_fields r
  end.

(** Bytes of the message taken up by the directly nested structs of dynamic size. *)
Fixpoint hidden_bytes (fs : fields) (vs : list val) : Z :=
  match fs with
  | FNil => 0
  | FOne e _ _ r =>
      match vs with
      | v :: vs' =>
          (match e, v with
           | EStruct s, VStruct ws => if fields_dyn s then zlen (image_fields s ws) / 8 else 0
           | _, _ => 0
           end) + hidden_bytes r vs'
      | [] => 0
      end
  | FArr _ _ _ _ r => match vs with _ :: vs' => hidden_bytes r vs' | [] => 0 end
  | FVoid _ r | FConst _ _ _ _ r | FEmb r => hidden_bytes r vs
  end.
