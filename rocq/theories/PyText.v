(** The text of the Python statements that pack and unpack fixed-size fields.
    Source: /repo/generator/target/python/python.go (line numbers below are in that file).
    The loops that decide which bits go where are those of GoModel.v (the two generators share them); here is what is
    printed for them.  Comments ("# pos kind: field"), indentation and the statements of a struct of variable size
    ("data[offset+...]") are not modelled, nor are floats (struct.pack); a field name is given in the snake_case form the
    templates print (Tosnake_case, NameStyle.v). *)
From Coq Require Import ZArith Lia Bool String Ascii List.
Import ListNotations.
From Verif Require Import Base Schema GoModel Literals.
Open Scope string_scope.
Open Scope Z_scope.
Open Scope list_scope.

(** generateHex, generateDec (44-52) of an int64, generateHex of a uint64; [dn] is -decnum.  "%d" of an int64. *)
Definition hexlit (dn : bool) (v : Z) : chars := emit_int OPy dn (make_int_lit true v BHex).
Definition hexulit (dn : bool) (v : Z) : chars := emit_int OPy dn (make_int_lit false v BHex).
Definition declit (dn : bool) (v : Z) : chars := emit_int OPy dn (make_int_lit true v BDec).
Definition fmtd (v : Z) : chars := fmt_int 10 v.

(** Templates encodeStructFieldName / decodeStructFieldName (1082-1085, 1852-1855), the array element "%s[%d]" (1361, 2181)
    and encodeTempVarName / decodeTempVarName (1078-1080, 1848-1850). *)
Definition att (f : chars) : chars := "_"%char :: f.
Definition field_name (f : chars) : chars := cs "self." ++ att f.
Definition elem_name (f : chars) (i : Z) : chars := field_name f ++ cs "[" ++ fmtd i ++ cs "]".
Definition temp_name (from : Z) : chars := cs "temp_field_at_pos_" ++ fmtd from.
(** data[pos]: 1565-1567, 1137-1139 and decodeData 1928-1930. *)
Definition data_at (pos : Z) : chars := cs "data[" ++ fmtd pos ++ cs "]".
(** strings.Join(parts, " | "), 1569, 2411. *)
Fixpoint join_or (l : list chars) : chars :=
  match l with [] => [] | [x] => x | x :: r => x ++ cs " | " ++ join_or r end.

(** One operand, 1552-1559. *)
Definition part_text (dn : bool) (fd : Z -> chars) (p : part) : chars :=
  let part := cs "(((" ++ fd (p_src p) ++ cs ") >> " ++ fmtd (p_shr p) ++ cs ") & " ++ hexlit dn (p_mask p) ++ cs ")" in
  if p_shl p =? 0 then part else cs "(" ++ part ++ cs " << " ++ fmtd (p_shl p) ++ cs ")".
(** One assignment: 1564-1579 and the template encodeImpl, 1137-1139. *)
Definition chunk_text (dn : bool) (fd : Z -> chars) (c : chunk) : chars :=
  data_at (c_pos c) ++ cs " = (" ++ data_at (c_pos c) ++ cs " & ~" ++ hexlit dn (c_mask c) ++ cs ") | ((" ++
  join_or (map (part_text dn fd) (c_parts c)) ++ cs ") & " ++ hexlit dn (c_mask c) ++ cs ")".
(** generateEncodeImpl, 1541-1585. *)
Definition encode_text (dn : bool) (fd : Z -> chars) (from to : Z) : list chars :=
  map (chunk_text dn fd) (gen_encode_impl from to).
(** BasicType case of generateEncodeNormalFieldImpl, 1453-1508, for types other than floats; the parentheses are those of
    GenerateBinopExpr (2485-2499). *)
Definition field_data_text (dn : bool) (n : Z) (big : bool) (name : chars) (i : Z) : chars :=
  cs "(" ++ name ++ cs " >> " ++ declit dn (if big then Z.max 0 (n - 8 * (i + 1)) else 8 * i) ++ cs ")".
Definition enc_basic_text (dn : bool) (n : Z) (big : bool) (from : Z) (name : chars) : list chars :=
  encode_text dn (field_data_text dn n big name) from (from + n).
(** generateEncodeConstantField, 1158-1182. *)
Definition enc_const_text (dn : bool) (b : basic) (n : Z) (big : bool) (from z : Z) : list chars :=
  encode_text dn (fun i => hexlit dn (const_data (basic_bits b) big z i)) from (from + n).
(** Enum case of generateEncodeNormalField, 1207-1225, with encodeNormalFieldTempVarAssignEnum (1091-1093): the member's
    value goes to a local variable first.  [k]: the position in the variable's name. *)
Definition enc_enum_text (dn : bool) (n : Z) (big : bool) (from k : Z) (name : chars) : list chars :=
  (temp_name k ++ cs " = " ++ name ++ cs ".value") :: enc_basic_text dn n big from (temp_name k).

(** ** Decoding *)

(** generateDecodeImpl, 2396-2410: one byte of the field. *)
Fixpoint dec_part_texts (dn : bool) (fuel : nat) (from field_from chunk_size consumed : Z) : list chars :=
  match fuel with
  | O => []
  | S f =>
      if consumed <? chunk_size then
        let data_bit := from + field_from + consumed in
        let part_size := Z.min (chunk_size - consumed) (8 - Z.land data_bit 7) in
        let part := cs "(((" ++ data_at (data_bit / 8) ++ cs ") >> " ++ fmtd (Z.land data_bit 7) ++ cs ") & " ++
                    hexlit dn (Z.shiftl 1 part_size - 1) ++ cs ")" in
        (if consumed =? 0 then part else cs "(" ++ part ++ cs " << " ++ fmtd consumed ++ cs ")") ::
        dec_part_texts dn f from field_from chunk_size (consumed + part_size)
      else []
  end.
(** fieldProcessor, 2281-2325, with decodeImpl (1932-1934): the parts are not put in parentheses before "<<". *)
Fixpoint dec_chunk_texts (dn : bool) (fuel : nat) (from n field_from : Z) (big : bool) (name : chars) : list chars :=
  match fuel with
  | O => []
  | S f =>
      if field_from <? n then
        let i := field_from / 8 in
        let sh := if big then Z.max 0 (n - 8 * (i + 1)) else i * 8 in
        (name ++ (if i =? 0 then cs " = " else cs " |= ") ++ cs "(" ++
         join_or (dec_part_texts dn 8 from field_from (Z.min 8 (n - field_from)) 0) ++ cs " << " ++ declit dn sh ++ cs ")") ::
        dec_chunk_texts dn f from n (field_from + 8) big name
      else []
  end.
(** signExtendArith (1936-1938), 2329-2348. *)
Definition sign_text (dn : bool) (b : basic) (n : Z) (name : chars) : list chars :=
  match b with
  | BInt _ => let m := hexulit dn (Z.shiftl 1 (n - 1)) in [name ++ cs " = ((" ++ name ++ cs ") ^ " ++ m ++ cs ") - " ++ m]
  | _ => []
  end.
(** BasicType case of generateDecodeNormalFieldImpl, 2281-2348. *)
Definition dec_basic_text (dn : bool) (b : basic) (n : Z) (big : bool) (from : Z) (name : chars) : list chars :=
  dec_chunk_texts dn (Z.to_nat n) from n 0 big name ++ sign_text dn b n name.
(** Enum case of generateDecodeNormalField, 2012-2031, with decodeNormalFieldTempVarAssignEnum (1875-1877). *)
Definition dec_enum_text (dn : bool) (enum : chars) (n : Z) (big : bool) (from k : Z) (name : chars) : list chars :=
  dec_basic_text dn (BUint 64) n big from (temp_name k) ++ [name ++ cs " = " ++ enum ++ cs "(" ++ temp_name k ++ cs ")"].
(** generateDecodeConstantField, 1957-1987, with decodeConstantField (1857-1860); [base]: the base the constant was
    written in. *)
Definition dec_const_text (dn : bool) (b : basic) (n : Z) (big : bool) (from z : Z) (base : ibase) : list chars :=
  dec_basic_text dn b n big from (temp_name from) ++
  [cs "if " ++ temp_name from ++ cs " != " ++ emit_int OPy dn (make_int_lit true z base) ++ cs ":"; cs "            return False, 0"].

(** ** All the fields of a struct *)

(** Names of the fields: the field's name and, for enums, the enum's. *)
Record fname : Type := { f_name : chars; f_enum : chars }.

(** Unrolled arrays of basic types and enums, 1354-1399 and 2174-2219. *)
Fixpoint enc_elems_text (dn : bool) (e : elem) (eb : Z) (big : bool) (from k : Z) (f : chars) (len : nat) (i : Z) : list chars :=
  match len with
  | O => []
  | S m =>
      match e with
      | EEnum _ => enc_enum_text dn eb big (from + i * eb) k (elem_name f i)
      | EBasic _ => enc_basic_text dn eb big (from + i * eb) (elem_name f i)
      | _ => []
      end ++ enc_elems_text dn e eb big from k f m (i + 1)
  end.
Fixpoint enc_text (dn : bool) (fs : fields) (names : list fname) (from : Z) : list chars :=
  match fs with
  | FNil => []
  | FOne e n big r =>
      match names with
      | f :: names =>
          match e with
          | EBasic _ => enc_basic_text dn n big from (field_name (f_name f))
          | EEnum _ => enc_enum_text dn n big from from (field_name (f_name f))
          | _ => []
          end ++ enc_text dn r names (next_from from n)
      | [] => []
      end
  | FArr e len n big r =>
      match names with
      | f :: names => enc_elems_text dn e (Z.quot n (Z.of_nat len)) big from from (f_name f) len 0 ++ enc_text dn r names (next_from from n)
      | [] => []
      end
  | FVoid n r => enc_text dn r names (next_from from n)          (* 1184-1186: an empty line *)
  | FConst b n big z r => enc_const_text dn b n big from z ++ enc_text dn r names (next_from from n)
  | FEmb r => enc_text dn r names from
  end.
Fixpoint dec_elems_text (dn : bool) (e : elem) (eb : Z) (big : bool) (from k : Z) (f : fname) (len : nat) (i : Z) : list chars :=
  match len with
  | O => []
  | S m =>
      match e with
      | EEnum _ => dec_enum_text dn (f_enum f) eb big (from + i * eb) k (elem_name (f_name f) i)
      | EBasic b => dec_basic_text dn b eb big (from + i * eb) (elem_name (f_name f) i)
      | _ => []
      end ++ dec_elems_text dn e eb big from k f m (i + 1)
  end.
Fixpoint dec_text (dn : bool) (base : Z -> ibase) (fs : fields) (names : list fname) (from : Z) : list chars :=
  match fs with
  | FNil => []
  | FOne e n big r =>
      match names with
      | f :: names =>
          match e with
          | EBasic b => dec_basic_text dn b n big from (field_name (f_name f))
          | EEnum _ => dec_enum_text dn (f_enum f) n big from from (field_name (f_name f))
          | _ => []
          end ++ dec_text dn base r names (next_from from n)
      | [] => []
      end
  | FArr e len n big r =>
      match names with
      | f :: names => dec_elems_text dn e (Z.quot n (Z.of_nat len)) big from from f len 0 ++ dec_text dn base r names (next_from from n)
      | [] => []
      end
  | FVoid n r => dec_text dn base r names (next_from from n)
  | FConst b n big z r => dec_const_text dn b n big from z (base from) ++ dec_text dn base r names (next_from from n)
  | FEmb r => dec_text dn base r names from
  end.
