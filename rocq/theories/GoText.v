(** The text of the Go statements that pack and unpack fixed-size fields.
    Source: /repo/generator/target/golang/golang.go (line numbers below are in that file).
    The loops that decide which bits go where are those of GoModel.v; here is what is printed for them.
    Comments ("// pos kind: field", 1186, 1916) and indentation are not modelled; a field name is given in the
    PascalCase form the templates print (ToPascalCase, NameStyle.v). *)
From Coq Require Import ZArith Lia Bool String Ascii List.
Import ListNotations.
From Verif Require Import Base Schema GoModel Literals.
Open Scope string_scope.
Open Scope Z_scope.
Open Scope list_scope.

(** generateHex, generateDec (79-87) of an int64; [dn] is -decnum.  "%d" of an int64. *)
Definition hexlit (dn : bool) (v : Z) : chars := emit_int OGo dn (make_int_lit true v BHex).
Definition declit (dn : bool) (v : Z) : chars := emit_int OGo dn (make_int_lit true v BDec).
Definition fmtd (v : Z) : chars := fmt_int 10 v.
(** typeSizeToUintStr, typeSizeToIntStr with typeMap (1158-1180, 501-513). *)
Definition uint_name (w : Z) : chars :=
  if w =? 8 then cs "uint8" else if w =? 16 then cs "uint16" else if w =? 32 then cs "uint32" else cs "uint64".
Definition int_name (w : Z) : chars :=
  if w =? 8 then cs "int8" else if w =? 16 then cs "int16" else if w =? 32 then cs "int32" else cs "int64".

(** Templates encodeStructFieldName / decodeStructFieldName (1368-1371, 2203-2206), the array element
    "((%s)[%d])" (1685, 2538) and encodeTempVarName / decodeTempVarName (1364-1366, 2199-2201). *)
Definition field_name (f : chars) : chars := cs "this." ++ f.
Definition elem_name (f : chars) (i : Z) : chars := cs "((" ++ field_name f ++ cs ")[" ++ fmtd i ++ cs "])".
Definition temp_name (from : Z) : chars := cs "tempFieldAtPos" ++ fmtd from.

(** data[[offset + ]pos]: 1897-1900, 1422 and decodeData 2280-2282. *)
Definition data_at (dyn : bool) (pos : Z) : chars :=
  cs "data[" ++ (if dyn then cs "offset + " else []) ++ fmtd pos ++ cs "]".

(** strings.Join(parts, " | "), 1901. *)
Fixpoint join_or (l : list chars) : chars :=
  match l with [] => [] | [x] => x | x :: r => x ++ cs " | " ++ join_or r end.

(** One operand, 1886-1890. *)
Definition part_text (dn : bool) (fd : Z -> chars) (p : part) : chars :=
  let part := cs "(((" ++ fd (p_src p) ++ cs ") >> " ++ fmtd (p_shr p) ++ cs ") & " ++ hexlit dn (p_mask p) ++ cs ")" in
  if p_shl p =? 0 then part else cs "(" ++ part ++ cs " << " ++ fmtd (p_shl p) ++ cs ")".
(** One assignment: 1896-1908 and the template encodeImpl, 1421-1423. *)
Definition chunk_text (dn dyn : bool) (fd : Z -> chars) (c : chunk) : chars :=
  data_at dyn (c_pos c) ++ cs " = byte(" ++
  cs "(uint64(" ++ data_at dyn (c_pos c) ++ cs ") & ^uint64(" ++ hexlit dn (c_mask c) ++ cs ")) | (uint64(" ++
  join_or (map (part_text dn fd) (c_parts c)) ++ cs ") & uint64(" ++ hexlit dn (c_mask c) ++ cs "))" ++ cs ")".
(** generateEncodeImpl, 1872-1912. *)
Definition encode_text (dn dyn : bool) (fd : Z -> chars) (from to : Z) : list chars :=
  map (chunk_text dn dyn fd) (gen_encode_impl from to).

(** BasicType case of generateEncodeNormalFieldImpl, 1788-1841, with encodeNormalFieldCast (1389-1391): a field
    that does not have an unsigned integer type is seen through a pointer. *)
Definition cast_name (b : basic) (name : chars) : chars :=
  match b with
  | BUint _ => name
  | _ => cs "(*(*" ++ uint_name (basic_bits b) ++ cs ")(unsafe.Pointer(&" ++ name ++ cs ")))"
  end.
Definition field_data_text (dn : bool) (n : Z) (big : bool) (name : chars) (i : Z) : chars :=
  cs "(" ++ name ++ cs " >> " ++ declit dn (if big then Z.max 0 (n - 8 * (i + 1)) else 8 * i) ++ cs ")".
Definition enc_basic_text (dn dyn : bool) (b : basic) (n : Z) (big : bool) (from : Z) (name : chars) : list chars :=
  encode_text dn dyn (field_data_text dn n big (cast_name b name)) from (from + n).
(** generateEncodeConstantField, 1468-1493. *)
Definition enc_const_text (dn dyn : bool) (b : basic) (n : Z) (big : bool) (from z : Z) : list chars :=
  encode_text dn dyn (fun i => hexlit dn (const_data (basic_bits b) big z i)) from (from + n).
(** Enum case of generateEncodeNormalField, 1517-1539: a local copy in an unsigned type. *)
Definition enc_enum_text (dn dyn : bool) (n : Z) (big : bool) (from : Z) (name : chars) : list chars :=
  let w := enum_temp_bits n in
  (temp_name from ++ cs " := " ++ uint_name w ++ cs "(" ++ name ++ cs ")") ::
  enc_basic_text dn dyn (BUint w) n big from (temp_name from).

(** ** Decoding *)

(** generateDecodeImpl, 2808-2832: one byte of the field; the loop of dec_parts. *)
Fixpoint dec_part_texts (dn dyn : bool) (fuel : nat) (from field_from chunk_size consumed : Z) : list chars :=
  match fuel with
  | O => []
  | S f =>
      if consumed <? chunk_size then
        let data_bit := from + field_from + consumed in
        let part_size := Z.min (chunk_size - consumed) (8 - Z.land data_bit 7) in
        let part := cs "(((" ++ data_at dyn (data_bit / 8) ++ cs ") >> " ++ fmtd (Z.land data_bit 7) ++ cs ") & " ++
                    hexlit dn (Z.shiftl 1 part_size - 1) ++ cs ")" in
        (if consumed =? 0 then part else cs "(" ++ part ++ cs " << " ++ fmtd consumed ++ cs ")") ::
        dec_part_texts dn dyn f from field_from chunk_size (consumed + part_size)
      else []
  end.
(** fieldProcessor, 2700-2735, with decodeNormalFieldNoCast and decodeNormalFieldCast (2229-2235). *)
Definition target_text (b : basic) (name : chars) : chars :=
  match b with
  | BUint _ => name
  | _ => cs "*(*" ++ uint_name (basic_bits b) ++ cs ")(unsafe.Pointer(&(" ++ name ++ cs ")))"
  end.
Fixpoint dec_chunk_texts (dn dyn : bool) (fuel : nat) (b : basic) (from n field_from : Z) (big : bool) (name : chars) : list chars :=
  match fuel with
  | O => []
  | S f =>
      if field_from <? n then
        let i := field_from / 8 in
        let sh := if big then Z.max 0 (n - 8 * (i + 1)) else i * 8 in
        (target_text b name ++ (if i =? 0 then cs " = " else cs " |= ") ++
         cs "(" ++ uint_name (basic_bits b) ++ cs "(" ++
         join_or (dec_part_texts dn dyn 8 from field_from (Z.min 8 (n - field_from)) 0) ++ cs ") << " ++ declit dn sh ++ cs ")") ::
        dec_chunk_texts dn dyn f b from n (field_from + 8) big name
      else []
  end.
(** signExtendShift, signExtendArith (2284-2290) and 2740-2775. *)
Definition sign_text (c : cfg) (dn : bool) (b : basic) (n : Z) (name : chars) : list chars :=
  match b with
  | BInt w =>
      if n <? w then
        match sx c with
        | SxDefault | SxShift =>
            [name ++ cs " = " ++ int_name w ++ cs "((" ++ name ++ cs ") << " ++ fmtd (w - n) ++ cs ") >> " ++ fmtd (w - n)]
        | SxArith =>
            let m := emit_int OGo dn (make_int_lit false (Z.shiftl 1 (n - 1)) BHex) in
            [name ++ cs " = ((" ++ name ++ cs ") ^ " ++ m ++ cs ") - " ++ m]
        end
      else []
  | _ => []
  end.
(** BasicType case of generateDecodeNormalFieldImpl, 2682-2776. *)
Definition dec_basic_text (c : cfg) (dn dyn : bool) (b : basic) (n : Z) (big : bool) (from : Z) (name : chars) : list chars :=
  dec_chunk_texts dn dyn (Z.to_nat n) b from n 0 big name ++ sign_text c dn b n name.
(** Enum case of generateDecodeNormalField, 2405-2436. *)
Definition dec_enum_text (c : cfg) (dn dyn : bool) (enum : chars) (n : Z) (big : bool) (from : Z) (name : chars) : list chars :=
  let w := enum_temp_bits n in
  [cs "var " ++ temp_name from ++ cs " " ++ uint_name w] ++
  dec_basic_text c dn dyn (BUint w) n big from (temp_name from) ++
  [name ++ cs " = " ++ enum ++ cs "(" ++ temp_name from ++ cs ")"].

(** ** All the fields of a struct *)

(** Names of the fields: the field's name and, for enums, the enum's. *)
Record fname : Type := { f_name : chars; f_enum : chars }.

(** Unrolled arrays of basic types and enums, 1541-1543, 1678-1735 and 2443-2447, 2529-2612. *)
Fixpoint enc_elems_text (dn dyn : bool) (e : elem) (tw eb : Z) (big : bool) (from temp : Z) (f : chars) (len : nat) (i : Z) : list chars :=
  match len with
  | O => []
  | S k =>
      match e with
      | EEnum _ =>
          (temp_name temp ++ cs " = " ++ uint_name tw ++ cs "(" ++ elem_name f i ++ cs ")") ::
          enc_basic_text dn dyn (BUint tw) eb big (from + i * eb) (temp_name temp)
      | EBasic b => enc_basic_text dn dyn b eb big (from + i * eb) (elem_name f i)
      | _ => []
      end ++ enc_elems_text dn dyn e tw eb big from temp f k (i + 1)
  end.
Fixpoint enc_text (dn : bool) (fs : fields) (names : list fname) (from : Z) : list chars :=
  match fs with
  | FNil => []
  | FOne e n big r =>
      match names with
      | f :: names =>
          match e with
          | EBasic b => enc_basic_text dn false b n big from (field_name (f_name f))
          | EEnum _ => enc_enum_text dn false n big from (field_name (f_name f))
          | _ => []
          end ++ enc_text dn r names (next_from from n)
      | [] => []
      end
  | FArr e len n big r =>
      match names with
      | f :: names =>
          let eb := Z.quot n (Z.of_nat len) in
          let tw := 8 * ((elem_bits e + 7) / 8) in
          match e with
          | EEnum _ => [cs "var " ++ temp_name from ++ cs " " ++ uint_name tw]
          | _ => []
          end ++ enc_elems_text dn false e tw eb big from from (f_name f) len 0 ++ enc_text dn r names (next_from from n)
      | [] => []
      end
  | FVoid n r => enc_text dn r names (next_from from n)          (* 1495-1497: an empty line *)
  | FConst b n big z r => enc_const_text dn false b n big from z ++ enc_text dn r names (next_from from n)
  | FEmb r => enc_text dn r names from
  end.

Fixpoint dec_elems_text (c : cfg) (dn dyn : bool) (e : elem) (tw eb : Z) (big : bool) (from temp : Z) (f : fname) (len : nat) (i : Z) : list chars :=
  match len with
  | O => []
  | S k =>
      match e with
      | EEnum _ =>
          dec_basic_text c dn dyn (BUint tw) eb big (from + i * eb) (temp_name temp) ++
          [elem_name (f_name f) i ++ cs " = " ++ f_enum f ++ cs "(" ++ temp_name temp ++ cs ")"]
      | EBasic b => dec_basic_text c dn dyn b eb big (from + i * eb) (elem_name (f_name f) i)
      | _ => []
      end ++ dec_elems_text c dn dyn e tw eb big from temp f k (i + 1)
  end.
(** generateDecodeConstantField, 2340-2377, with decodeConstantField (2208-2212); [base]: the base the constant
    was written in. *)
Definition dec_const_text (c : cfg) (dn dyn : bool) (b : basic) (n : Z) (big : bool) (from z : Z) (base : ibase) : list chars :=
  [cs "var " ++ temp_name from ++ cs " " ++ uint_name (enum_temp_bits n)] ++
  dec_basic_text c dn dyn b n big from (temp_name from) ++
  [cs "if " ++ temp_name from ++ cs " != " ++ emit_int OGo dn (make_int_lit true z base) ++ cs " {"; cs "    return -1"; cs "}"].
Fixpoint dec_text (c : cfg) (dn : bool) (base : Z -> ibase) (fs : fields) (names : list fname) (from : Z) : list chars :=
  match fs with
  | FNil => []
  | FOne e n big r =>
      match names with
      | f :: names =>
          match e with
          | EBasic b => dec_basic_text c dn false b n big from (field_name (f_name f))
          | EEnum _ => dec_enum_text c dn false (f_enum f) n big from (field_name (f_name f))
          | _ => []
          end ++ dec_text c dn base r names (next_from from n)
      | [] => []
      end
  | FArr e len n big r =>
      match names with
      | f :: names =>
          let eb := Z.quot n (Z.of_nat len) in
          let tw := 8 * ((elem_bits e + 7) / 8) in
          match e with
          | EEnum _ => [cs "var " ++ temp_name from ++ cs " " ++ uint_name tw]
          | _ => []
          end ++ dec_elems_text c dn false e tw eb big from from f len 0 ++ dec_text c dn base r names (next_from from n)
      | [] => []
      end
  | FVoid n r => dec_text c dn base r names (next_from from n)
  | FConst b n big z r => dec_const_text c dn false b n big from z (base from) ++ dec_text c dn base r names (next_from from n)
  | FEmb r => dec_text c dn base r names from
  end.
