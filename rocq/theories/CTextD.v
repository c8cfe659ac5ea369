(** The text of the C statements that unpack fixed-size fields.
    Source: /repo/generator/target/c/c.go (line numbers below are in that file).
    Comments, indentation, structs of variable size, floats, array loops and enums whose width has no unsigned type are
    not modelled, as in CText.v. *)
From Coq Require Import ZArith Lia Bool String Ascii List.
Import ListNotations.
From Verif Require Import Base Schema GoModel CfBits TgtModel Literals CText.
Open Scope string_scope.
Open Scope Z_scope.
Open Scope list_scope.

(** generateHex of a uint64. *)
Definition hexulit (dn : bool) (v : Z) : chars := emit_int OC dn (make_int_lit false v BHex).
(** typeSizeToIntStr, 1487-1490. *)
Definition int_name (w : Z) : chars := cs "int" ++ fmtd w ++ cs "_t".
(** Template decodeData, 2596-2598. *)
Definition cdata_at (pos : Z) : chars := cs "((const uint8_t*)data)[" ++ fmtd pos ++ cs "]".
(** The expression for bits [b, e) of the data, generateDecodeImpl, 3170-3221. *)
Definition dec_part_text (dn : bool) (b e : Z) : chars :=
  let sep := Z.min e (cf_next8 b) in
  let p1 := if b <? sep then binop (binop (cdata_at (b / 8)) "&" (binlit dn (cf_mask b sep))) ">>" (fmtd (b mod 8)) else [] in
  if sep <? e then
    binop p1 "|" (binop (binop (cdata_at (sep / 8)) "&" (binlit dn (cf_mask sep e))) "<<" (fmtd (e - b - e mod 8)))
  else p1.
(** fieldProcessor, 3053-3087, in the loop of generateDecodeImpl: one assignment to [lv] for 8 bits of the field. *)
Fixpoint dec_loop_text (fuel : nat) (dn : bool) (w from n ff : Z) (big : bool) (lv : chars) : list chars :=
  match fuel with
  | O => []
  | S f =>
      if ff <? n then
        let i := ff / 8 in
        let sh := if big then Z.max 0 (n - 8 * (i + 1)) else i * 8 in
        (lv ++ (if i =? 0 then cs " = " else cs " |= ") ++
         binop (cs "(" ++ uint_name w ++ cs ")" ++ dec_part_text dn (from + ff) (Z.min (from + n) (from + ff + 8))) "<<" (declit dn sh) ++ cs ";") ::
        dec_loop_text f dn w from n (ff + 8) big lv
      else []
  end.
(** Templates decodeNormalFieldNoCast and decodeNormalFieldCast, 2555-2561; chosen 3034-3038. *)
Definition dec_view_text (b : basic) (name : chars) : chars :=
  match b with
  | BUint _ => name
  | _ => cs "(*(" ++ uint_name (basic_bits b) ++ cs "*)(&(" ++ name ++ cs ")))"
  end.
(** Templates signExtendShift and signExtendArith, 2600-2606; 3091-3122. *)
Definition sign_text (dn arith : bool) (b : basic) (n : Z) (name : chars) : list chars :=
  match b with
  | BInt w =>
      if n <? w then
        if arith then
          let m := hexulit dn (Z.shiftl 1 (n - 1)) in [name ++ cs " = ((" ++ name ++ cs ") ^ " ++ m ++ cs ") - " ++ m ++ cs ";"]
        else [name ++ cs " = (" ++ int_name w ++ cs ")((" ++ name ++ cs ") << " ++ fmtd (w - n) ++ cs ") >> " ++ fmtd (w - n) ++ cs ";"]
      else []
  | _ => []
  end.
(** BasicType case of generateDecodeNormalFieldImpl, 3029-3124. *)
Definition dec_basic_text (dn arith : bool) (b : basic) (n : Z) (big : bool) (from : Z) (name : chars) : list chars :=
  dec_loop_text (Z.to_nat n) dn (basic_bits b) from n 0 big (dec_view_text b name) ++ sign_text dn arith b n name.
(** Templates decodeNormalFieldTempVarDecl and decodeNormalFieldTempVarAssignEnum, 2543-2545 and 2551-2553. *)
Definition decl_text (w k : Z) : chars := uint_name w ++ cs " " ++ temp_name k ++ cs ";".
Definition assign_enum_text (enum name : chars) (k : Z) : chars := name ++ cs " = (enum " ++ enum ++ cs ")" ++ temp_name k ++ cs ";".
(** One element of an unrolled array of enums, 2932-2956; the temporary of [w] bits is declared before the first. *)
Definition dec_enum_elem_text (dn arith : bool) (w : Z) (enum : chars) (n : Z) (big : bool) (from k : Z) (name : chars) : list chars :=
  dec_basic_text dn arith (BUint w) n big from (temp_name k) ++ [assign_enum_text enum name k].
(** Enum case of generateDecodeNormalField, 2738-2771. *)
Definition dec_enum_text (dn arith : bool) (w : Z) (enum : chars) (n : Z) (big : bool) (from : Z) (name : chars) : list chars :=
  decl_text w from :: dec_enum_elem_text dn arith w enum n big from from name.
(** GenerateBoolLiteral and GenerateIntLiteral, 3398-3407; [base]: the base the constant was written in. *)
Definition const_lit (dn : bool) (b : basic) (z : Z) (base : ibase) : chars :=
  match b with
  | BBool => if z =? 0 then cs "false" else cs "true"
  | _ => emit_int OC dn (make_int_lit true z base)
  end.
(** generateDecodeConstantField, 2672-2713, with template decodeConstantField (2527-2529). *)
Definition dec_const_text (dn arith : bool) (b : basic) (n : Z) (big : bool) (from z : Z) (base : ibase) : list chars :=
  decl_text (enum_temp_bits n) from :: dec_basic_text dn arith b n big from (temp_name from) ++
  [cs "if (" ++ temp_name from ++ cs " != " ++ const_lit dn b z base ++ cs ") return -1;"].

(** ** All the fields of a struct *)

(** Names of the fields: the member's name and, for enums, the enum's. *)
Record fname : Type := { f_name : chars; f_enum : chars }.

(** Unrolled arrays, 2904-2958. *)
Fixpoint dec_elems_text (dn arith : bool) (e : elem) (w eb : Z) (big : bool) (from k : Z) (f : fname) (len : nat) (i : Z) : list chars :=
  match len with
  | O => []
  | S m =>
      match e with
      | EEnum _ => dec_enum_elem_text dn arith w (f_enum f) eb big (from + i * eb) k (elem_name (f_name f) i)
      | EBasic b => dec_basic_text dn arith b eb big (from + i * eb) (elem_name (f_name f) i)
      | _ => []
      end ++ dec_elems_text dn arith e w eb big from k f m (i + 1)
  end.
Fixpoint dec_text (dn arith : bool) (base : Z -> ibase) (fs : fields) (names : list fname) (from : Z) : list chars :=
  match fs with
  | FNil => []
  | FOne e n big r =>
      match names with
      | f :: names =>
          match e with
          | EBasic b => dec_basic_text dn arith b n big from (field_name (f_name f))
          | EEnum _ => dec_enum_text dn arith (enum_temp_bits n) (f_enum f) n big from (field_name (f_name f))
          | _ => []
          end ++ dec_text dn arith base r names (next_from from n)
      | [] => []
      end
  | FArr e len n big r =>
      match names with
      | f :: names =>
          match e with EEnum _ => [decl_text (elem_width e) from] | _ => [] end ++
          dec_elems_text dn arith e (elem_width e) (Z.quot n (Z.of_nat len)) big from from f len 0 ++ dec_text dn arith base r names (next_from from n)
      | [] => []
      end
  | FVoid n r => dec_text dn arith base r names (next_from from n)          (* 2715-2717: an empty line *)
  | FConst b n big z r => dec_const_text dn arith b n big from z (base from) ++ dec_text dn arith base r names (next_from from n)
  | FEmb r => dec_text dn arith base r names from
  end.
