(** The text of the C statements that pack fixed-size fields.
    Source: /repo/generator/target/c/c.go (line numbers below are in that file).
    Comments ("// pos kind: field"), indentation and the statements of a struct of variable size ("data[offset + ...]")
    are not modelled, nor are floats, array loops (bb_write_field_bits) and enums whose width has no unsigned type; a field
    name is given in the snake_case form the templates print (Tosnake_case, NameStyle.v). *)
From Coq Require Import ZArith Lia Bool String Ascii List.
Import ListNotations.
From Verif Require Import Base Schema GoModel CfBits Literals.
Open Scope string_scope.
Open Scope Z_scope.
Open Scope list_scope.

(** generateDec, generateHex, generateBin (74-87); [dn] is -decnum.  "%d" of an int64. *)
Definition declit (dn : bool) (v : Z) : chars := emit_int OC dn (make_int_lit true v BDec).
Definition hexlit (dn : bool) (v : Z) : chars := emit_int OC dn (make_int_lit true v BHex).
Definition binlit (dn : bool) (v : Z) : chars := emit_int OC dn (make_int_lit true v BBin).
Definition fmtd (v : Z) : chars := fmt_int 10 v.

(** Templates encodeStructFieldName (1648-1651) and encodeTempVarName (1644-1646), the array element "((%s)[%d])" (1957, 1992). *)
Definition field_name (f : chars) : chars := cs "ptr->" ++ f.
Definition elem_name (f : chars) (i : Z) : chars := cs "((" ++ field_name f ++ cs ")[" ++ fmtd i ++ cs "])".
Definition temp_name (from : Z) : chars := cs "temp_field_at_pos_" ++ fmtd from.
(** typeSizeToUintStr, 1482-1485. *)
Definition uint_name (w : Z) : chars := cs "uint" ++ fmtd w ++ cs "_t".
(** GenerateBinopExpr, 3302-3332, other than "**". *)
Definition binop (a : chars) (op : string) (b : chars) : chars := cs "(" ++ a ++ cs " " ++ cs op ++ cs " " ++ b ++ cs ")".

(** The expression for bits [b, e) of the field, 2164-2227; [fd i]: the text for its byte [i]. *)
Definition part_text (dn : bool) (fd : Z -> chars) (b e : Z) : chars :=
  let nj := Z.min e (cf_next8 b) in
  let p1 := if b <? e then binop (binop (fd (b / 8)) "&" (binlit dn (cf_mask b nj))) ">>" (fmtd (b mod 8)) else [] in
  let j := if b <? e then nj else b in
  if j <? e then
    let nj2 := Z.min e (cf_next8 j) in
    binop p1 "|" (binop (binop (fd (j / 8)) "&" (binlit dn (cf_mask j nj2))) "<<" (fmtd (8 - nj2 mod 8)))
  else p1.
(** The byte of the buffer: template encodeImpl, 1693-1695. *)
Definition data_at (pos : Z) : chars := cs "((uint8_t*)data)[" ++ fmtd pos ++ cs "]".
(** generateEncodeImpl, 2149-2272: one assignment for every byte of [from, to). *)
Fixpoint enc_loop_text (fuel : nat) (dn : bool) (fd : Z -> chars) (from to i : Z) : list chars :=
  match fuel with
  | O => []
  | S f =>
      if i <? to then
        let ni := Z.min to (cf_next8 i) in
        (data_at (i / 8) ++ (if i mod 8 =? 0 then cs " = " else cs " |= ") ++
         binop (binop (part_text dn fd (i - from) (ni - from)) "<<" (fmtd (i mod 8))) "&" (binlit dn (cf_mask i ni)) ++ cs ";") ::
        enc_loop_text f dn fd from to (cf_next8 i)
      else []
  end.
Definition encode_text (dn : bool) (fd : Z -> chars) (from n : Z) : list chars :=
  enc_loop_text (Z.to_nat n) dn fd from (from + n) from.
(** BasicType case of generateEncodeNormalFieldImpl, 2049-2117, other than floats. *)
Definition field_data_text (dn : bool) (n : Z) (big : bool) (name : chars) (i : Z) : chars :=
  binop name ">>" (declit dn (if big then Z.max 0 (n - 8 * (i + 1)) else 8 * i)).
(** The name, viewed as an unsigned integer if it is none: 2050-2062, template encodeNormalFieldCast, 1669-1671. *)
Definition view_text (b : basic) (name : chars) : chars :=
  match b with
  | BUint _ => name
  | _ => cs "(*((" ++ uint_name (basic_bits b) ++ cs "*)(&(" ++ name ++ cs "))))"
  end.
Definition enc_basic_text (dn : bool) (b : basic) (n : Z) (big : bool) (from : Z) (name : chars) : list chars :=
  encode_text dn (field_data_text dn n big (view_text b name)) from n.
(** generateEncodeConstantField, 1747-1771. *)
Definition enc_const_text (dn : bool) (b : basic) (n : Z) (big : bool) (from z : Z) : list chars :=
  encode_text dn (fun i => hexlit dn (const_data (basic_bits b) big z i)) from n.
(** Enum case of generateEncodeNormalField, 1795-1819: the number goes to a temporary of [w] bits first. *)
Definition enc_enum_text (dn : bool) (w n : Z) (big : bool) (from : Z) (name : chars) : list chars :=
  (uint_name w ++ cs " " ++ temp_name from ++ cs " = (" ++ uint_name w ++ cs ")" ++ name ++ cs ";") ::
  enc_basic_text dn (BUint w) n big from (temp_name from).
(** One element of an unrolled array of enums, 1983-1999: the temporary is declared before the first. *)
Definition enc_enum_elem_text (dn : bool) (w n : Z) (big : bool) (from k : Z) (name : chars) : list chars :=
  (temp_name k ++ cs " = (" ++ uint_name w ++ cs ")" ++ name ++ cs ";") :: enc_basic_text dn (BUint w) n big from (temp_name k).

(** ** All the fields of a struct *)

(** Unrolled arrays of basic types and enums, 1950-2010. *)
Fixpoint enc_elems_text (dn : bool) (e : elem) (w eb : Z) (big : bool) (from k : Z) (f : chars) (len : nat) (i : Z) : list chars :=
  match len with
  | O => []
  | S m =>
      match e with
      | EEnum _ => enc_enum_elem_text dn w eb big (from + i * eb) k (elem_name f i)
      | EBasic b => enc_basic_text dn b eb big (from + i * eb) (elem_name f i)
      | _ => []
      end ++ enc_elems_text dn e w eb big from k f m (i + 1)
  end.
Definition elem_width (e : elem) : Z := 8 * ((elem_bits e + 7) / 8).
Fixpoint enc_text (dn : bool) (fs : fields) (names : list chars) (from : Z) : list chars :=
  match fs with
  | FNil => []
  | FOne e n big r =>
      match names with
      | f :: names =>
          match e with
          | EBasic b => enc_basic_text dn b n big from (field_name f)
          | EEnum _ => enc_enum_text dn (enum_temp_bits n) n big from (field_name f)
          | _ => []
          end ++ enc_text dn r names (next_from from n)
      | [] => []
      end
  | FArr e len n big r =>
      match names with
      | f :: names =>
          match e with EEnum _ => [uint_name (elem_width e) ++ cs " " ++ temp_name from ++ cs ";"] | _ => [] end ++
          enc_elems_text dn e (elem_width e) (Z.quot n (Z.of_nat len)) big from from f len 0 ++ enc_text dn r names (next_from from n)
      | [] => []
      end
  | FVoid n r => enc_text dn r names (next_from from n)          (* 1773-1775: an empty line *)
  | FConst b n big z r => enc_const_text dn b n big from z ++ enc_text dn r names (next_from from n)
  | FEmb r => enc_text dn r names from
  end.
