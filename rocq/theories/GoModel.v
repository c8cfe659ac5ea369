(** Model of the Go target: the statements the generator emits, and what they do when run.
    Source: /repo/generator/target/golang/golang.go (line numbers below are in that file unless
    another file is named). Definitions only. *)
From Coq Require Import ZArith List Bool.
From Verif Require Import Base Schema.
Import ListNotations.
Open Scope Z_scope.

(** generator/gen/gen_option.go:11-46 GenOptions: the two options that change the codec.
    SignExtMethod: gen_option.go:13-18. *)
Inductive signext : Type := SxDefault | SxShift | SxArith.
Record cfg : Type := { unroll : Z; sx : signext }.

(** util/bitwise.go:7-16 HighBit (int64; the wrap-around of negative arguments is not modelled). *)
Definition highbit (v : Z) : Z :=
  let v := v - 1 in
  let v := Z.lor v (Z.shiftr v 1) in
  let v := Z.lor v (Z.shiftr v 2) in
  let v := Z.lor v (Z.shiftr v 4) in
  let v := Z.lor v (Z.shiftr v 8) in
  let v := Z.lor v (Z.shiftr v 16) in
  let v := Z.lor v (Z.shiftr v 32) in
  v + 1.

(** Width of the unsigned temporary an enum field goes through: 1517-1523 and 2406-2412
    (HighBit of the field's bytes). *)
Definition enum_temp_bits (n : Z) : Z := 8 * highbit ((n + 7) / 8).

(** typeSizeMapUint (1158-1163): has an unsigned type of that many bits.  A missing key yields
    the zero TypeID, which is Bool, and the generated assignment does not compile. *)
Definition has_uint (w : Z) : bool := (w =? 8) || (w =? 16) || (w =? 32) || (w =? 64).

(** ** Encoding one basic field: generateEncodeImpl, 1872-1912 *)

(** One operand of the packed expression: "(((fieldData(p_src)) >> p_shr) & p_mask) << p_shl"
    (1886-1890). *)
Record part : Type := { p_src : Z; p_shr : Z; p_mask : Z; p_shl : Z }.

(** One generated assignment (1896-1908):
    data[[offset +] c_pos] = byte((uint64(data[..]) & ^uint64(c_mask)) | (uint64(parts) & uint64(c_mask))) *)
Record chunk : Type := { c_pos : Z; c_mask : Z; c_parts : list part }.

(** Inner loop, 1880-1894; [fuel] bounds the iterations (each consumes at least one bit). *)
Fixpoint gen_parts (fuel : nat) (field_from data_from chunk_size consumed : Z) : list part :=
  match fuel with
  | O => []
  | S f =>
      if consumed <? chunk_size then
        let source_bit := field_from + consumed in
        let part_size := Z.min (chunk_size - consumed) (8 - Z.land source_bit 7) in
        {| p_src := source_bit / 8;
           p_shr := Z.land source_bit 7;
           p_mask := Z.shiftl 1 part_size - 1;
           p_shl := Z.land data_from 7 + consumed |}
        :: gen_parts f field_from data_from chunk_size (consumed + part_size)
      else []
  end.

(** Outer loop, 1875-1910. *)
Fixpoint gen_chunks (fuel : nat) (from size field_from : Z) : list chunk :=
  match fuel with
  | O => []
  | S f =>
      if field_from <? size then
        let data_from := from + field_from in
        let chunk_size := Z.min (size - field_from) (8 - Z.land data_from 7) in
        {| c_pos := data_from / 8;
           c_mask := Z.shiftl (Z.shiftl 1 chunk_size - 1) (Z.land data_from 7);
           c_parts := gen_parts 8 field_from data_from chunk_size 0 |}
        :: gen_chunks f from size (field_from + chunk_size)
      else []
  end.

(** generateEncodeImpl(from, to): 1872-1912. *)
Definition gen_encode_impl (from to : Z) : list chunk :=
  gen_chunks (Z.to_nat (to - from)) from (to - from) 0.

(** Value of one operand; arithmetic is that of an unsigned integer type of [w] bits. *)
Definition run_part (w : Z) (fd : Z -> Z) (p : part) : Z :=
  Z.shiftl (Z.land (Z.shiftr (fd (p_src p)) (p_shr p)) (p_mask p)) (p_shl p) mod 2 ^ w.

Definition run_parts (w : Z) (fd : Z -> Z) (ps : list part) : Z :=
  fold_left (fun acc p => Z.lor acc (run_part w fd p)) ps 0.

(** Effect of one generated assignment. [base] is the run-time offset. *)
Definition run_chunk (w : Z) (fd : Z -> Z) (base : Z) (c : chunk) (buf : list Z) : res (list Z) :=
  do old <- rd buf (base + c_pos c);
  wr buf (base + c_pos c)
     (Z.lor (Z.ldiff old (c_mask c)) (Z.land (run_parts w fd (c_parts c)) (c_mask c)) mod 256).

Fixpoint run_chunks (w : Z) (fd : Z -> Z) (base : Z) (cs : list chunk) (buf : list Z)
  : res (list Z) :=
  match cs with
  | [] => Ok buf
  | c :: cs' => do b <- run_chunk w fd base c buf; run_chunks w fd base cs' b
  end.

(** fieldData callbacks of generateEncodeNormalFieldImpl, 1804-1840: little endian "v >> 8*i",
    big endian "v >> max(0, fieldBitSize-8*(i+1))"; [p] is the field reinterpreted as unsigned. *)
Definition field_data (n : Z) (big : bool) (p : Z) (i : Z) : Z :=
  Z.shiftr p (if big then Z.max 0 (n - 8 * (i + 1)) else 8 * i).

(** BasicType case of generateEncodeNormalFieldImpl, 1788-1841: the field cast to the unsigned
    type of its own width [w], then the assignments. *)
Definition enc_basic (w n : Z) (big : bool) (from base z : Z) (buf : list Z) : res (list Z) :=
  run_chunks w (field_data n big (z mod 2 ^ w)) base (gen_encode_impl from (from + n)) buf.

(** generateEncodeConstantField, 1468-1493: binary.Write of the literal in the type's width,
    fieldData(i) is the i-th byte as a literal. *)
Definition const_data (w : Z) (big : bool) (z : Z) (i : Z) : Z :=
  Z.shiftr (z mod 2 ^ w) (8 * (if big then w / 8 - 1 - i else i)) mod 256.
Definition enc_const (b : basic) (n : Z) (big : bool) (from base z : Z) (buf : list Z)
  : res (list Z) :=
  run_chunks 64 (const_data (basic_bits b) big z) base (gen_encode_impl from (from + n)) buf.

(** ** Bit helpers emitted for array loops: bbWriteFieldBits, 270-296 *)
Definition helper_value_bit (n : Z) (big : bool) (fb : Z) : Z :=
  if big then
    let vb := n - 8 * (fb / 8 + 1) + fb mod 8 in
    if vb <? fb mod 8 then fb mod 8 else vb
  else fb.

Fixpoint write_bits_loop (cnt : nat) (bit_from n value fb : Z) (big : bool) (buf : list Z)
  : res (list Z) :=
  match cnt with
  | O => Ok buf
  | S c =>
      let vb := helper_value_bit n big fb in
      let db := bit_from + fb in
      let mask := Z.shiftl 1 (Z.land db 7) in
      do old <- rd buf (db / 8);
      let cleared := Z.ldiff old mask in
      let b := if Z.land value (Z.shiftl 1 vb) =? 0 then cleared else Z.lor cleared mask in
      do buf' <- wr buf (db / 8) b;
      write_bits_loop c bit_from n value (fb + 1) big buf'
  end.

(** 270-296; [value] is a uint64. *)
Definition write_field_bits (bit_from n value : Z) (big : bool) (buf : list Z) : res (list Z) :=
  if n <=? 0 then Ok buf
  else
    let value := if n <? 64 then Z.land value (Z.shiftl 1 n - 1) else value in
    write_bits_loop (Z.to_nat n) bit_from n value 0 big buf.

(** bbReadFieldBits, 298-320. *)
Fixpoint read_bits_loop (cnt : nat) (bit_from n out fb : Z) (big : bool) (buf : list Z) : res Z :=
  match cnt with
  | O => Ok out
  | S c =>
      let vb := helper_value_bit n big fb in
      let db := bit_from + fb in
      do b <- rd buf (db / 8);
      let out' := if Z.land b (Z.shiftl 1 (Z.land db 7)) =? 0 then out
                  else Z.lor out (Z.shiftl 1 vb mod 2 ^ 64) in
      read_bits_loop c bit_from n out' (fb + 1) big buf
  end.
Definition read_field_bits (bit_from n : Z) (big : bool) (buf : list Z) : res Z :=
  if n <=? 0 then Ok 0 else read_bits_loop (Z.to_nat n) bit_from n 0 0 big buf.

(** ** Strings and byte strings *)

(** Go's copy(data[p:], src): slicing panics if p > len(data), copies min(len) bytes. *)
Definition copy_at (buf : list Z) (p : Z) (src : list Z) : res (list Z) :=
  if (p <? 0) || (zlen buf <? p) then Panic
  else
    let k := Z.to_nat p in
    Ok (firstn k buf ++ firstn (length buf - k) src ++ skipn (k + length src) buf).

(** encodeNormalFieldString, 1392-1399. *)
Definition enc_string (from_byte : Z) (bs : list Z) (off : Z) (buf : list Z)
  : res (list Z * Z) :=
  let temp := zlen bs in
  do b1 <- copy_at buf (off + from_byte) bs;
  do b2 <- wr b1 (off + from_byte + temp) 0;
  Ok (b2, off + temp + 1).

(** encodeNormalFieldBytes, 1402-1419: the length loop... *)
Fixpoint enc_varint (fuel : nat) (from_byte temp off : Z) (buf : list Z) : res (list Z * Z) :=
  match fuel with
  | O => Panic
  | S f =>
      do b <- wr buf (off + from_byte) (Z.lor (Z.land temp 127) 128);
      let temp := Z.shiftr temp 7 in
      let off := off + 1 in
      if temp =? 0 then Ok (b, off) else enc_varint f from_byte temp off b
  end.
(** ...and the whole statement block. [fuel] 10 covers every length below 2^63 (proved). *)
Definition enc_bytes (from_byte : Z) (bs : list Z) (off : Z) (buf : list Z)
  : res (list Z * Z) :=
  do (b1, off1) <- enc_varint 10 from_byte (zlen bs) off buf;
  do last <- rd b1 (off1 - 1 + from_byte);
  do b2 <- wr b1 (off1 - 1 + from_byte) (Z.ldiff last 128);
  do b3 <- copy_at b2 (off1 + from_byte) bs;
  Ok (b3, off1 + zlen bs).

(** shouldUseLoop, 1559 / 2447. *)
Definition use_loop (c : cfg) (len : nat) : bool :=
  (0 <=? unroll c) && (unroll c <? Z.of_nat len).

(** Calling EncodeTo/Decode on a sub-slice data[p:]. *)
Definition in_slice {A} (buf : list Z) (p : Z) (f : list Z -> res (list Z * A))
  : res (list Z * A) :=
  if (p <? 0) || (zlen buf <? p) then Panic
  else
    do (sub, a) <- f (skipn (Z.to_nat p) buf);
    Ok (firstn (Z.to_nat p) buf ++ sub, a).

(** Run [f i v] for each value of the list with its index, threading buffer and offset. *)
Fixpoint iter_enc (f : Z -> val -> Z -> list Z -> res (list Z * Z)) (i : Z) (vs : list val)
  (off : Z) (buf : list Z) : res (list Z * Z) :=
  match vs with
  | [] => Ok (buf, off)
  | v :: vs' => do (b, o) <- f i v off buf; iter_enc f (i + 1) vs' o b
  end.

(** uint64 value expression used by the bit loops: uint64(x) / bool test / float reinterpret,
    1652-1676. *)
Definition loop_value (z : Z) : Z := z mod 2 ^ 64.

(** ** EncodeTo.

    [enc_elem c dyn e w n big from v off buf]: generateEncodeNormalFieldImpl (1742-1849) for one
    element of type [e] in a field slot of [n] bits starting at fixed bit [from]; [dyn] is
    structDynamic of the enclosing struct; [w] is the width of the unsigned temporary (only used for
    enums).
    [enc_fields c dyn fs vs from off buf]: the statements of the fields in order (ForEachField,
    definition/struct.go:99-114; generateEncodeNormalField 1502-1740). *)
Fixpoint enc_elem (c : cfg) (dyn : bool) (e : elem) (w n : Z) (big : bool) (from : Z) (v : val)
  (off : Z) (buf : list Z) {struct e} : res (list Z * Z) :=
  let base := if dyn then off else 0 in
  match e, v with
  | EBasic b, VNum z =>
      do b' <- enc_basic (basic_bits b) n big from base z buf; Ok (b', off)
  | EEnum _, VNum z =>
      if has_uint w then do b' <- enc_basic w n big from base z buf; Ok (b', off)
      else Panic
  | EString, VStr bs => enc_string (from / 8) bs off buf
  | EBytes, VStr bs => enc_bytes (from / 8) bs off buf
  | EStruct fs, VStruct vs =>
      (* encodeNormalFieldStruct, 1374-1376: [offset +=] X.EncodeTo(data[[offset +] from/8:]) *)
      do (b', o) <- in_slice buf (base + from / 8)
                       (fun sub => enc_fields c (fields_dyn fs) fs vs 0 0 sub);
      Ok (b', if fields_dyn fs then off + (o + fixed_bits fs / 8) else off)
  | _, _ => Panic
  end
with enc_fields (c : cfg) (dyn : bool) (fs : fields) (vs : list val) (from off : Z)
  (buf : list Z) {struct fs} : res (list Z * Z) :=
  let base := if dyn then off else 0 in
  match fs with
  | FNil => Ok (buf, off)
  | FOne e n big r =>
      match vs with
      | v :: vs' =>
          do (b, o) <- enc_elem c dyn e (enum_temp_bits n) n big from v off buf;
          enc_fields c dyn r vs' (next_from from n) o b
      | [] => Panic
      end
  | FArr e len n big r =>
      match vs with
      | VArr arr :: vs' =>
          (* 1541-1543; Go division truncates: -1/len is 0 or -1 *)
          let eb := Z.quot n (Z.of_nat len) in
          let tw := 8 * ((elem_bits e + 7) / 8) in
          do (b, o) <-
            (if use_loop c len then
               if elem_dyn e then
                 (* dynamic loop, 1571-1627: body generated once with subFrom = from *)
                 iter_enc (fun _ v o b => enc_elem c dyn e tw eb big from v o b) 0 arr off buf
               else
                 match e with
                 | EStruct s =>
                     (* encodeArrayLoopStruct, 1427-1431 and 1646-1655 *)
                     iter_enc (fun i v o b =>
                         do (b', _) <- in_slice b (base + from / 8 + i * (eb / 8))
                              (fun sub => match v with
                                          | VStruct ws => enc_fields c (fields_dyn s) s ws 0 0 sub
                                          | _ => Panic
                                          end);
                         Ok (b', o)) 0 arr off buf
                 | _ =>
                     (* bbWriteFieldBits loop, 1628-1677 *)
                     iter_enc (fun i v o b =>
                         match v with
                         | VNum z =>
                             do b' <- write_field_bits (8 * base + (from + i * eb)) eb
                                        (loop_value z) big b;
                             Ok (b', o)
                         | _ => Panic
                         end) 0 arr off buf
                 end
             else
               (* unrolled, 1678-1735 *)
               iter_enc (fun i v o b => enc_elem c dyn e tw eb big (from + i * eb) v o b)
                        0 arr off buf);
          enc_fields c dyn r vs' (next_from from n) o b
      | _ => Panic
      end
  | FVoid n r => enc_fields c dyn r vs (next_from from n) off buf
  | FConst b n big z r =>
      do b' <- enc_const b n big from base z buf;
      enc_fields c dyn r vs (next_from from n) off b'
  | FEmb r => enc_fields c dyn r vs from off buf
  end.

(** EncodeTo, 1290-1300: returns [offset +] StructBitSize/8. *)
Definition encode_to (c : cfg) (fs : fields) (vs : list val) (buf : list Z) : res (list Z * Z) :=
  do (b, o) <- enc_fields c (fields_dyn fs) fs vs 0 0 buf;
  Ok (b, o + fixed_bits fs / 8).

(** EncodeSize, 1194-1281. *)
Fixpoint bytes_size_loop (fuel : nat) (length size : Z) : Z :=
  match fuel with
  | O => size
  | S f =>
      let length := Z.shiftr length 7 in
      if length =? 0 then size else bytes_size_loop f length (size + 1)
  end.
Definition bytes_size (bs : list Z) : Z := zlen bs + bytes_size_loop 10 (zlen bs) 1.

Fixpoint esize_elem (e : elem) (v : val) {struct e} : Z :=
  match e, v with
  | EString, VStr bs => zlen bs + 1
  | EBytes, VStr bs => bytes_size bs
  | EStruct fs, VStruct vs =>
      (* nested EncodeSize(), called only when the struct is dynamic (1228-1240, 1258-1261) *)
      if fields_dyn fs then fixed_bits fs / 8 + esize_fields fs vs else 0
  | _, _ => 0
  end
with esize_fields (fs : fields) (vs : list val) {struct fs} : Z :=
  match fs with
  | FNil => 0
  | FOne e _ _ r =>
      match vs with v :: vs' => esize_elem e v + esize_fields r vs' | [] => 0 end
  | FArr e _ _ _ r =>
      match vs with
      | VArr arr :: vs' => fold_right (fun v a => esize_elem e v + a) 0 arr + esize_fields r vs'
      | _ => 0
      end
  | FVoid _ r | FConst _ _ _ _ r | FEmb r => esize_fields r vs
  end.
Definition encode_size (fs : fields) (vs : list val) : Z :=
  if fields_dyn fs then fixed_bits fs / 8 + esize_fields fs vs else fixed_bits fs / 8.

(** Encode, 1283-1288. *)
Definition encode (c : cfg) (fs : fields) (vs : list val) : res (list Z) :=
  do (b, _) <- encode_to c fs vs (repeat 0 (Z.to_nat (encode_size fs vs)));
  Ok b.

(** ** DecodeSize, 1950-2136 *)
(** A statement either continues with a new offset or returns a value. *)
Inductive dstep : Type := DOff (off : Z) | DRet (r : Z).

(** String scan, 2080-2089 (array variants 1957-1977): walks data from [off+from]; running out at
    length [l] returns -(off+from+l+1).  [rest] is data[off+from:] (empty if past the end). *)
Fixpoint str_scan (rest : list Z) (l : Z) : Z + Z :=
  match rest with
  | [] => inr l
  | b :: t => if b =? 0 then inl l else str_scan t (l + 1)
  end.

Definition dsize_string (data : list Z) (from_byte off : Z) : dstep :=
  match str_scan (skipn (Z.to_nat (off + from_byte)) data) 0 with
  | inl l => DOff (off + l + 1)
  | inr l => DRet (- (off + from_byte + l + 1))
  end.

(** Varint scan of the byte-string case, 2090-2113: [inl (value, bytes read)] or how it fails. *)
Inductive vscan : Type := VDone (v cnt : Z) | VMore (cnt : Z) | VBad.
Fixpoint vi_scan (rest : list Z) (shift acc cnt : Z) : vscan :=
  match rest with
  | [] => VMore cnt
  | b :: t =>
      if Z.land b 128 =? 0 then
        if 63 <=? shift then VBad
        else VDone (Z.lor acc (Z.shiftl (Z.land b 127) shift mod 2 ^ 64)) (cnt + 1)
      else
        if 63 <=? shift then VBad
        else vi_scan t (shift + 7) (Z.lor acc (Z.shiftl (Z.land b 127) shift mod 2 ^ 64)) (cnt + 1)
  end.

Definition max_int : Z := 2 ^ 63 - 1.

Definition dsize_bytes (data : list Z) (from_byte off : Z) : dstep :=
  match vi_scan (skipn (Z.to_nat (off + from_byte)) data) 0 0 0 with
  | VMore cnt => DRet (- (off + cnt + from_byte + 1))
  | VBad => DRet (-1)
  | VDone v cnt =>
      if max_int <? v then DRet (-1)
      else
        let off := off + cnt in
        let base := off + from_byte in
        if zlen data - base <? v then
          if max_int - base <? v then DRet (-1) else DRet (- (base + v))
        else DOff (off + v)
  end.

Fixpoint iter_dsize (f : Z -> dstep) (n : nat) (off : Z) : dstep :=
  match n with
  | O => DOff off
  | S n' => match f off with DOff o => iter_dsize f n' o | DRet r => DRet r end
  end.

(** DecodeSize body (2109-2136): [dsize_fields fs from off data].  [dsize_elem] is
    decoderSizeField (1950-2105) for one element; it is instantiated only for fields whose
    FieldBitSize is negative (2117: "lt $field.GetFieldBitSize 0").  The Go [-unroll] threshold
    only decides whether the same block is repeated textually or in a for loop. *)
Fixpoint dsize_elem (e : elem) (from_byte off : Z) (data : list Z) {struct e} : dstep :=
  match e with
  | EString => dsize_string data from_byte off
  | EBytes => dsize_bytes data from_byte off
  | EStruct fs =>
      if fields_dyn fs then
        let sub_off := off + from_byte in
        let sub := if sub_off <? zlen data then skipn (Z.to_nat sub_off) data else [] in
        let sub_size :=
          match dsize_fields fs 0 0 sub with
          | DRet r => r
          | DOff o =>
              let n := o + fixed_bits fs / 8 in if zlen sub <? n then - n else n
          end in
        if sub_size <? 0 then DRet (- sub_off + sub_size) else DOff (off + sub_size)
      else DOff off
  | _ => DOff off
  end
with dsize_fields (fs : fields) (from off : Z) (data : list Z) {struct fs} : dstep :=
  match fs with
  | FNil => DOff off
  | FOne e n _ r =>
      match (if n <? 0 then dsize_elem e (from / 8) off data else DOff off) with
      | DRet x => DRet x
      | DOff o => dsize_fields r (next_from from n) o data
      end
  | FArr e len n _ r =>
      match (if n <? 0 then iter_dsize (fun o => dsize_elem e (from / 8) o data) len off
             else DOff off) with
      | DRet x => DRet x
      | DOff o => dsize_fields r (next_from from n) o data
      end
  | FVoid n r => dsize_fields r (next_from from n) off data
  | FConst _ n _ _ r => dsize_fields r (next_from from n) off data
  | FEmb r => dsize_fields r from off data
  end.

(** DecodeSize(data): static structs compare the length only (2129-2134), which is the same
    formula with offset 0. *)
Definition decode_size (fs : fields) (data : list Z) : Z :=
  match dsize_fields fs 0 0 data with
  | DRet r => r
  | DOff o => let n := o + fixed_bits fs / 8 in if zlen data <? n then - n else n
  end.

(** ** Decoding one basic field: generateDecodeImpl, 2808-2832 *)
(** Inner loop: the chunk expression, byte arithmetic. *)
Fixpoint dec_parts (fuel : nat) (from field_from chunk_size consumed : Z) (base : Z)
  (acc : Z) (data : list Z) : res Z :=
  match fuel with
  | O => Ok acc
  | S f =>
      if consumed <? chunk_size then
        let data_bit := from + field_from + consumed in
        let part_size := Z.min (chunk_size - consumed) (8 - Z.land data_bit 7) in
        let part_mask := Z.shiftl 1 part_size - 1 in
        do b <- rd data (base + data_bit / 8);
        let part := Z.shiftl (Z.land (Z.shiftr b (Z.land data_bit 7)) part_mask) consumed mod 256 in
        dec_parts f from field_from chunk_size (consumed + part_size) base (Z.lor acc part) data
      else Ok acc
  end.

(** Outer loop with fieldProcessor (2700-2735): "=" for the first byte, then "|=", each
    tyUint(expr) << shift. [w] is the width of tyUint. *)
Fixpoint dec_chunks (fuel : nat) (w from n field_from : Z) (big : bool) (base acc : Z)
  (data : list Z) : res Z :=
  match fuel with
  | O => Ok acc
  | S f =>
      if field_from <? n then
        let chunk_size := Z.min 8 (n - field_from) in
        do e <- dec_parts 8 from field_from chunk_size 0 base 0 data;
        let i := field_from / 8 in
        let sh := if big then Z.max 0 (n - 8 * (i + 1)) else i * 8 in
        let t := Z.shiftl e sh mod 2 ^ w in
        dec_chunks f w from n (field_from + 8) big base
                   (if i =? 0 then t else Z.lor acc t) data
      else Ok acc
  end.

(** BasicType case of generateDecodeNormalFieldImpl, 2682-2737: unsigned bit pattern; [init] is
    what the variable held before. *)
Definition dec_pattern (w n : Z) (big : bool) (from base : Z) (init : Z) (data : list Z) : res Z :=
  dec_chunks (Z.to_nat n) w from n 0 big base init data.

(** Sign extension of the inline path, 2740-2775. [p] is the pattern in the intW variable.
    signExtendShift (2283-2285): intW((x) << s) >> s;  signExtendArith (2287-2289):
    ((x) ^ mask) - mask, in intW arithmetic. *)
Definition sx_shift (w n p : Z) : Z :=
  let s := w - n in Z.shiftr (sext w (Z.shiftl (sext w p) s)) s.
Definition sx_arith (w n p : Z) : Z :=
  let m := Z.shiftl 1 (n - 1) in sext w (Z.lxor (sext w p) m - m).
Definition dec_int (c : cfg) (w n p : Z) : Z :=
  if n <? w then
    match sx c with SxDefault | SxShift => sx_shift w n p | SxArith => sx_arith w n p end
  else sext w p.

(** Value of a decoded basic field: reinterpretation of the pattern at the field's type.  A bool
    variable is written through a *uint8, so it keeps the raw pattern. *)
Definition dec_value (c : cfg) (b : basic) (n p : Z) : Z :=
  match b with
  | BInt w => dec_int c w n p
  | _ => p
  end.

(** Conversions of the array bit loop: decodeBasicValueExpr 122-142, decodeIntValueExpr 146-167,
    intSignExtShift/Arith 2310-2317.  [v] is the uint64 read. *)
Definition loop_dec_value (c : cfg) (e : elem) (n v : Z) : Z :=
  match e with
  | EBasic BBool => if v =? 0 then 0 else 1
  | EBasic (BUint w) => v mod 2 ^ w
  | EBasic (BInt w) =>
      if 64 <=? n then sext w v
      else match sx c with
           | SxShift =>
               sext w (Z.shiftr (sext 64 (Z.shiftl v (64 - n) mod 2 ^ 64)) (64 - n))
           | _ =>
               let m := Z.shiftl 1 (n - 1) in
               sext w (sext 64 (sext 64 (Z.lxor v m) - m))
           end
  | EBasic (BFloat w) => v mod 2 ^ w
  | EEnum bits => v mod 2 ^ enum_temp_bits bits
  | _ => v
  end.

(** decodeNormalFieldString, 2241-2250: no bounds checks of its own. *)
Definition dec_string (data : list Z) (from_byte off : Z) : res (val * Z) :=
  match str_scan (skipn (Z.to_nat (off + from_byte)) data) 0 with
  | inr _ => Panic
  | inl l =>
      Ok (VStr (firstn (Z.to_nat l) (skipn (Z.to_nat (off + from_byte)) data)), off + l + 1)
  end.

(** decodeNormalFieldBytes, 2252-2275: int arithmetic, no bounds checks of its own. *)
Fixpoint dvi_scan (rest : list Z) (shift acc cnt : Z) : res (Z * Z) :=
  match rest with
  | [] => Panic
  | b :: t =>
      let acc' := Z.lor acc (sext 64 (Z.shiftl (Z.land b 127) shift)) in
      if Z.land b 128 =? 0 then Ok (acc', cnt + 1) else dvi_scan t (shift + 7) acc' (cnt + 1)
  end.
Definition dec_bytes (data : list Z) (from_byte off : Z) : res (val * Z) :=
  do (len, cnt) <- dvi_scan (skipn (Z.to_nat (off + from_byte)) data) 0 0 0;
  let off := off + cnt in
  let p := off + from_byte in
  if (len <? 0) || (zlen data <? p + len) then Panic
  else Ok (VStr (firstn (Z.to_nat len) (skipn (Z.to_nat p) data)), off + len).

Fixpoint iter_dec (f : Z -> Z -> res (val * Z)) (n : nat) (i off : Z) : res (list val * Z) :=
  match n with
  | O => Ok ([], off)
  | S n' =>
      do (v, o) <- f i off;
      do (vs, o') <- iter_dec f n' (i + 1) o;
      Ok (v :: vs, o')
  end.

(** Calling a nested Decode on data[p:]: decodeNormalFieldStruct 2218-2231, decodeArrayLoopStruct
    2295-2301; the nested Decode first runs its own DecodeSize (decoderFunc 1928-1943). *)
Definition dec_nested (s : fields) (f : list Z -> res (list val * Z)) (data : list Z) (p : Z)
  : res (list val * Z) :=
  if (p <? 0) || (zlen data <? p) then Panic
  else
    let sub := skipn (Z.to_nat p) data in
    if decode_size s sub <? 0 then Fail
    else do (vs, o) <- f sub; Ok (vs, o + fixed_bits s / 8).

(** generateDecodeConstantField, 2340-2381: the constant is read into a temporary declared as the unsigned
    type of HighBit((n+7)/8) bytes, by the statements for a field of the constant's own type, and compared
    with the literal.  When is that Go?
    - a literal that the temporary's type cannot hold is a compile error;
    - unsigned types are assigned without a cast (2689), so the temporary must have that very type;
    - signed types are stored through a *uintW cast of the temporary's address (2692): with a smaller
      temporary that overruns it; "temp = intW(temp << s) >> s" (2268, -signext=shift, the default) assigns
      an int to a uint, the arith form (2272) does not;
    - bool constants compare a uint with true/false; float constants compare the bit pattern with a floating
      literal (an error unless the literal is integral; simplification: counted as an error anyway, the
      comparison could not succeed). *)
Definition const_compiles (c : cfg) (b : basic) (n z : Z) : bool :=
  let tw := enum_temp_bits n in
  (0 <=? z) && (z <? 2 ^ tw) &&
  match b with
  | BUint w => tw =? w
  | BInt w => (tw =? w) && ((n =? w) || match sx c with SxArith => true | _ => false end)
  | _ => false
  end.
(** The temporary's value: the pattern, and for narrow signed types "(temp ^ mask) - mask" in the unsigned
    type (signExtendArith, 2271-2273; mask = 1 << (n-1), 2765). *)
Definition const_value (b : basic) (n p : Z) : Z :=
  match b with
  | BInt w => if n <? w then (Z.lxor p (Z.shiftl 1 (n - 1)) - Z.shiftl 1 (n - 1)) mod 2 ^ w else p
  | _ => p
  end.

(** ** Decode: generateDecodeNormalFieldImpl 2618-2790 ([dec_elem]) and the fields in order,
    generateDecodeNormalField 2391-2616, generateDecodeConstantField 2340-2377 ([dec_fields]). *)
Fixpoint dec_elem (c : cfg) (dyn : bool) (e : elem) (w n : Z) (big : bool) (from off : Z)
  (data : list Z) {struct e} : res (val * Z) :=
  let base := if dyn then off else 0 in
  match e with
  | EBasic b =>
      do p <- dec_pattern (basic_bits b) n big from base 0 data;
      Ok (VNum (dec_value c b n p), off)
  | EEnum _ =>
      if has_uint w then do p <- dec_pattern w n big from base 0 data; Ok (VNum p, off)
      else Panic
  | EString => dec_string data (from / 8) off
  | EBytes => dec_bytes data (from / 8) off
  | EStruct fs =>
      do (vs, sz) <- dec_nested fs (fun sub => dec_fields c (fields_dyn fs) fs 0 0 sub)
                                 data (base + from / 8);
      Ok (VStruct vs, if fields_dyn fs then off + sz else off)
  end
with dec_fields (c : cfg) (dyn : bool) (fs : fields) (from off : Z) (data : list Z)
  {struct fs} : res (list val * Z) :=
  let base := if dyn then off else 0 in
  match fs with
  | FNil => Ok ([], off)
  | FOne e n big r =>
      do (v, o) <- dec_elem c dyn e (enum_temp_bits n) n big from off data;
      do (vs, o') <- dec_fields c dyn r (next_from from n) o data;
      Ok (v :: vs, o')
  | FArr e len n big r =>
      let eb := Z.quot n (Z.of_nat len) in
      let tw := 8 * ((elem_bits e + 7) / 8) in
      do (arr, o) <-
        (if use_loop c len then
           if elem_dyn e then
             iter_dec (fun _ o => dec_elem c dyn e tw eb big from o data) len 0 off
           else
             match e with
             | EStruct s =>
                 iter_dec (fun i o =>
                   do (vs, _) <- dec_nested s (fun sub => dec_fields c (fields_dyn s) s 0 0 sub)
                                    data (base + from / 8 + i * (eb / 8));
                   Ok (VStruct vs, o)) len 0 off
             | _ =>
                 iter_dec (fun i o =>
                   do v <- read_field_bits (8 * base + (from + i * eb)) eb big data;
                   Ok (VNum (loop_dec_value c e eb v), o)) len 0 off
             end
         else
           iter_dec (fun i o => dec_elem c dyn e tw eb big (from + i * eb) o data) len 0 off);
      do (vs, o') <- dec_fields c dyn r (next_from from n) o data;
      Ok (VArr arr :: vs, o')
  | FVoid n r => dec_fields c dyn r (next_from from n) off data
  | FConst b n big z r =>
      if const_compiles c b n z then
        do p <- dec_pattern (basic_bits b) n big from base 0 data;
        if const_value b n p =? z then dec_fields c dyn r (next_from from n) off data else Fail
      else Panic
  | FEmb r => dec_fields c dyn r from off data
  end.

(** Decode, decoderFunc 1928-1943: [Fail] is "return -1". *)
Definition decode (c : cfg) (fs : fields) (data : list Z) : res (list val * Z) :=
  if decode_size fs data <? 0 then Fail
  else
    do (vs, o) <- dec_fields c (fields_dyn fs) fs 0 0 data;
    Ok (vs, o + fixed_bits fs / 8).

(** The generated Go text compiles: an array of enums that is unrolled must have an element type whose
    byte size is 1, 2, 4 or 8 (see has_uint; typeSizeMapUint 1158-1163), and see const_compiles for constants. *)
Fixpoint go_ok_elem (c : cfg) (e : elem) : Prop :=
  match e with EStruct fs => go_ok c fs | _ => True end
with go_ok (c : cfg) (fs : fields) : Prop :=
  match fs with
  | FNil => True
  | FOne e _ _ r => go_ok_elem c e /\ go_ok c r
  | FArr e len _ _ r =>
      go_ok_elem c e /\
      (match e with
       | EEnum bits => use_loop c len = true \/ has_uint (8 * ((bits + 7) / 8)) = true
       | _ => True
       end) /\ go_ok c r
  | FConst b n _ z r => const_compiles c b n z = true /\ go_ok c r
  | FVoid _ r | FEmb r => go_ok c r
  end.
