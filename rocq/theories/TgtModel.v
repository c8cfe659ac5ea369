(** The codec every target generates, with what differs between targets as parameters.

    All nine generators walk the fields of a struct in the same order with the same fixed start bits
    (definition/struct.go:99-114 ForEachField) and emit one block of statements per field; what differs
    is the statements for a number, a string, a byte string and a constant, and a few points of the
    walk.  This file models the walk once; CTarget.v, PyTarget.v, KtTarget.v and JavaTarget.v give the
    parameters of each target.  (The Go target has its own model, GoModel.v.)

    Positions: [start] is the byte at which this struct begins in the buffer (a pointer, slice or
    explicit "start" argument in the generated code), [off] the run-time variable "offset", [from] the
    fixed start bit of the field.  Definitions only. *)
From Coq Require Import ZArith List Bool.
From Verif Require Import Base Schema GoModel.
Import ListNotations.
Open Scope Z_scope.

Record tgt : Type := {
  (** shouldUseLoop, as a function of the array length. *)
  t_loop : nat -> bool;
  (** The Kotlin walk (kotlin_encode.go, kotlin_decode.go): positions include "offset" only after the
      first field of variable size, decodeSize visits every field of dynamic type, and the offset
      advances by encodeSize()/decodeSize() instead of the nested call's result. *)
  t_kt : bool;
  (** Loops over arrays of fixed-size elements add "start" to their positions (false: java.go:1682-1704,
      2719-2741). *)
  t_lstart : bool;
  (** Encode one number of type [e] inline: temporary of [w] bits, field of [n] bits at bit [from] after
      byte [base]; arguments e w n big from base z buf. *)
  t_escalar : elem -> Z -> Z -> bool -> Z -> Z -> Z -> list Z -> res (list Z);
  (** Encode a constant: b n big from base literal buf. *)
  t_econst : basic -> Z -> bool -> Z -> Z -> Z -> list Z -> res (list Z);
  (** Encode one array element in a loop: e n big bitposition z buf. *)
  t_eloop : elem -> Z -> bool -> Z -> Z -> list Z -> res (list Z);
  (** Encode a string / a byte string at byte [pos]: new buffer and bytes written. *)
  t_estring : Z -> list Z -> list Z -> res (list Z * Z);
  t_ebytes : Z -> list Z -> list Z -> res (list Z * Z);
  (** Contribution of a byte string to encodeSize. *)
  t_bsize : list Z -> Z;
  (** Decoding counterparts. *)
  t_dscalar : elem -> Z -> Z -> bool -> Z -> Z -> list Z -> res Z;
  t_dconst : basic -> Z -> bool -> Z -> Z -> Z -> list Z -> res bool;
  t_dloop : elem -> Z -> bool -> Z -> list Z -> res Z;
  t_dstring : Z -> list Z -> res (list Z * Z);
  t_dbytes : Z -> list Z -> res (list Z * Z);
  (** Decode begins by running decodeSize and fails if that is negative (false: C and C++). *)
  t_checked : bool;
  (** decodeSize of a string / byte string: data, fixed byte, offset. *)
  t_sstring : list Z -> Z -> Z -> res dstep;
  t_sbytes : list Z -> Z -> Z -> res dstep;
  (** The bytes a nested decodeSize sees, called at byte [p] of [data] by decodeSize (false) or at the
      head of a nested decode (true). *)
  t_sub : bool -> list Z -> Z -> res (list Z)
}.


Definition t_dyn0 (T : tgt) (fs : fields) : bool := negb (t_kt T) && fields_dyn fs.

(** encodeSize. *)
Fixpoint tsize_elem (T : tgt) (e : elem) (v : val) {struct e} : Z :=
  match e, v with
  | EString, VStr bs => zlen bs + 1
  | EBytes, VStr bs => t_bsize T bs
  | EStruct fs, VStruct vs => if fields_dyn fs then fixed_bits fs / 8 + tsize_fields T fs vs else 0
  | _, _ => 0
  end
with tsize_fields (T : tgt) (fs : fields) (vs : list val) {struct fs} : Z :=
  match fs with
  | FNil => 0
  | FOne e _ _ r => match vs with v :: vs' => tsize_elem T e v + tsize_fields T r vs' | [] => 0 end
  | FArr e _ _ _ r =>
      match vs with
      | VArr arr :: vs' => fold_right (fun v a => tsize_elem T e v + a) 0 arr + tsize_fields T r vs'
      | _ => 0
      end
  | FVoid _ r | FConst _ _ _ _ r | FEmb r => tsize_fields T r vs
  end.
Definition tsize (T : tgt) (fs : fields) (vs : list val) : Z :=
  if fields_dyn fs then fixed_bits fs / 8 + tsize_fields T fs vs else fixed_bits fs / 8.

(** encode(data, start). *)
Fixpoint tenc_elem (T : tgt) (dyn : bool) (e : elem) (w n : Z) (big : bool) (from : Z) (v : val)
  (start off : Z) (buf : list Z) {struct e} : res (list Z * Z) :=
  let base := start + (if dyn then off else 0) in
  match e, v with
  | EBasic _, VNum z | EEnum _, VNum z =>
      do b' <- t_escalar T e w n big from base z buf; Ok (b', off)
  | EString, VStr bs => do (b', k) <- t_estring T (start + off + from / 8) bs buf; Ok (b', off + k)
  | EBytes, VStr bs => do (b', k) <- t_ebytes T (start + off + from / 8) bs buf; Ok (b', off + k)
  | EStruct fs, VStruct vs =>
      do (b', o) <- tenc_fields T (t_dyn0 T fs) fs vs 0 (base + from / 8) 0 buf;
      Ok (b', if fields_dyn fs
              then off + (if t_kt T then tsize T fs vs else o + fixed_bits fs / 8)
              else off)
  | _, _ => Panic
  end
with tenc_fields (T : tgt) (dyn : bool) (fs : fields) (vs : list val) (from start off : Z)
  (buf : list Z) {struct fs} : res (list Z * Z) :=
  let boff := if dyn then off else 0 in
  match fs with
  | FNil => Ok (buf, off)
  | FOne e n big r =>
      match vs with
      | v :: vs' =>
          do (b, o) <- tenc_elem T dyn e (enum_temp_bits n) n big from v start off buf;
          tenc_fields T (dyn || (n =? -1)) r vs' (next_from from n) start o b
      | [] => Panic
      end
  | FArr e len n big r =>
      match vs with
      | VArr arr :: vs' =>
          let eb := Z.quot n (Z.of_nat len) in
          let tw := 8 * ((elem_bits e + 7) / 8) in
          let lst := if t_lstart T then start else 0 in
          do (b, o) <-
            (if elem_dyn e then
               iter_enc (fun _ v o b => tenc_elem T true e tw eb big from v start o b) 0 arr off buf
             else if t_loop T len then
               match e with
               | EStruct s =>
                   iter_enc (fun i v o b =>
                     match v with
                     | VStruct ws =>
                         do (b', _) <- tenc_fields T (t_dyn0 T s) s ws 0
                                         (lst + boff + from / 8 + i * (eb / 8)) 0 b;
                         Ok (b', o)
                     | _ => Panic
                     end) 0 arr off buf
               | _ =>
                   iter_enc (fun i v o b =>
                     match v with
                     | VNum z =>
                         do b' <- t_eloop T e eb big (8 * (lst + boff) + (from + i * eb)) z b;
                         Ok (b', o)
                     | _ => Panic
                     end) 0 arr off buf
               end
             else
               iter_enc (fun i v o b => tenc_elem T dyn e tw eb big (from + i * eb) v start o b)
                        0 arr off buf);
          tenc_fields T (dyn || (n =? -1)) r vs' (next_from from n) start o b
      | _ => Panic
      end
  | FVoid n r => tenc_fields T dyn r vs (next_from from n) start off buf
  | FConst b n big z r =>
      do b' <- t_econst T b n big from (start + boff) z buf;
      tenc_fields T dyn r vs (next_from from n) start off b'
  | FEmb r => tenc_fields T dyn r vs from start off buf
  end.

(** encode(data, start) returns the number of bytes; encode() allocates encodeSize() zero bytes. *)
Definition tencode_to (T : tgt) (fs : fields) (vs : list val) (start : Z) (buf : list Z) : res (list Z * Z) :=
  do (b, o) <- tenc_fields T (t_dyn0 T fs) fs vs 0 start 0 buf;
  Ok (b, o + fixed_bits fs / 8).
Definition tencode (T : tgt) (fs : fields) (vs : list val) : res (list Z) :=
  do (b, _) <- tencode_to T fs vs 0 (repeat 0 (Z.to_nat (tsize T fs vs)));
  Ok b.

Fixpoint iter_tds (f : Z -> res dstep) (n : nat) (off : Z) : res dstep :=
  match n with
  | O => Ok (DOff off)
  | S n' => do d <- f off; match d with DOff o => iter_tds f n' o | DRet r => Ok (DRet r) end
  end.

(** decodeSize(data). *)
Fixpoint tds_elem (T : tgt) (e : elem) (fb off : Z) (data : list Z) {struct e} : res dstep :=
  match e with
  | EString => t_sstring T data fb off
  | EBytes => t_sbytes T data fb off
  | EStruct fs =>
      if fields_dyn fs then
        do sub <- t_sub T false data (off + fb);
        do d <- tds_fields T fs 0 0 sub;
        let sz := match d with
                  | DRet r => r
                  | DOff o => let n := o + fixed_bits fs / 8 in if zlen sub <? n then - n else n
                  end in
        Ok (if sz <? 0 then DRet (- (off + fb) + sz) else DOff (off + sz))
      else Ok (DOff off)
  | _ => Ok (DOff off)
  end
with tds_fields (T : tgt) (fs : fields) (from off : Z) (data : list Z) {struct fs} : res dstep :=
  match fs with
  | FNil => Ok (DOff off)
  | FOne e n _ r =>
      do d <- (if (n <? 0) || (t_kt T && elem_dyn e) then tds_elem T e (from / 8) off data else Ok (DOff off));
      match d with
      | DRet x => Ok (DRet x)
      | DOff o => tds_fields T r (next_from from n) o data
      end
  | FArr e len n _ r =>
      do d <- (if (n <? 0) || (t_kt T && elem_dyn e)
               then iter_tds (fun o => tds_elem T e (from / 8) o data) len off else Ok (DOff off));
      match d with
      | DRet x => Ok (DRet x)
      | DOff o => tds_fields T r (next_from from n) o data
      end
  | FVoid n r => tds_fields T r (next_from from n) off data
  | FConst _ n _ _ r => tds_fields T r (next_from from n) off data
  | FEmb r => tds_fields T r from off data
  end.
Definition tdecode_size (T : tgt) (fs : fields) (data : list Z) : res Z :=
  do d <- tds_fields T fs 0 0 data;
  Ok match d with
     | DRet r => r
     | DOff o => let n := o + fixed_bits fs / 8 in if zlen data <? n then - n else n
     end.

(** The check at the head of decode; the size is 0 if there is no check. *)
Definition tcheck (T : tgt) (fs : fields) (data : list Z) (start : Z) : res Z :=
  if t_checked T then
    do sub <- t_sub T true data start;
    do sz <- tdecode_size T fs sub;
    if sz <? 0 then Fail else Ok sz
  else Ok 0.

(** decode(data, start). *)
Fixpoint tdec_elem (T : tgt) (dyn : bool) (e : elem) (w n : Z) (big : bool) (from start off : Z)
  (data : list Z) {struct e} : res (val * Z) :=
  let base := start + (if dyn then off else 0) in
  match e with
  | EBasic _ | EEnum _ => do z <- t_dscalar T e w n big from base data; Ok (VNum z, off)
  | EString => do (bs, k) <- t_dstring T (start + off + from / 8) data; Ok (VStr bs, off + k)
  | EBytes => do (bs, k) <- t_dbytes T (start + off + from / 8) data; Ok (VStr bs, off + k)
  | EStruct fs =>
      do sz <- tcheck T fs data (base + from / 8);
      do (vs, o) <- tdec_fields T (t_dyn0 T fs) fs 0 (base + from / 8) 0 data;
      Ok (VStruct vs, if fields_dyn fs
                      then off + (if t_kt T then sz else o + fixed_bits fs / 8)
                      else off)
  end
with tdec_fields (T : tgt) (dyn : bool) (fs : fields) (from start off : Z) (data : list Z)
  {struct fs} : res (list val * Z) :=
  let boff := if dyn then off else 0 in
  match fs with
  | FNil => Ok ([], off)
  | FOne e n big r =>
      do (v, o) <- tdec_elem T dyn e (enum_temp_bits n) n big from start off data;
      do (vs, o') <- tdec_fields T (dyn || (n =? -1)) r (next_from from n) start o data;
      Ok (v :: vs, o')
  | FArr e len n big r =>
      let eb := Z.quot n (Z.of_nat len) in
      let tw := 8 * ((elem_bits e + 7) / 8) in
      let lst := if t_lstart T then start else 0 in
      do (arr, o) <-
        (if elem_dyn e then
           iter_dec (fun _ o => tdec_elem T true e tw eb big from start o data) len 0 off
         else if t_loop T len then
           match e with
           | EStruct s =>
               iter_dec (fun i o =>
                 do _ <- tcheck T s data (lst + boff + from / 8 + i * (eb / 8));
                 do (vs, _) <- tdec_fields T (t_dyn0 T s) s 0 (lst + boff + from / 8 + i * (eb / 8)) 0 data;
                 Ok (VStruct vs, o)) len 0 off
           | _ =>
               iter_dec (fun i o =>
                 do z <- t_dloop T e eb big (8 * (lst + boff) + (from + i * eb)) data;
                 Ok (VNum z, o)) len 0 off
           end
         else
           iter_dec (fun i o => tdec_elem T dyn e tw eb big (from + i * eb) start o data) len 0 off);
      do (vs, o') <- tdec_fields T (dyn || (n =? -1)) r (next_from from n) start o data;
      Ok (VArr arr :: vs, o')
  | FVoid n r => tdec_fields T dyn r (next_from from n) start off data
  | FConst b n big z r =>
      do ok <- t_dconst T b n big from (start + boff) z data;
      if ok then tdec_fields T dyn r (next_from from n) start off data else Fail
  | FEmb r => tdec_fields T dyn r from start off data
  end.

(** [Fail] is "return -1" (Python: (False, ...)). *)
Definition tdecode (T : tgt) (fs : fields) (start : Z) (data : list Z) : res (list val * Z) :=
  do _ <- tcheck T fs data start;
  do (vs, o) <- tdec_fields T (t_dyn0 T fs) fs 0 start 0 data;
  Ok (vs, o + fixed_bits fs / 8).


(** ** What a schema must satisfy for a target, field by field.

    [r_scalar e w n big from]: a field of [n] bits at bit [from] going through a [w]-bit temporary;
    [r_const b n big from z]; [r_loop e n big from]: an element of an array coded in a loop;
    [r_nested]: arrays coded in loops may occur in nested structs (or at start <> 0). *)
Record treq : Type := {
  r_scalar : elem -> Z -> Z -> bool -> Z -> Prop;
  r_const : basic -> Z -> bool -> Z -> Z -> Prop;
  r_loop : elem -> Z -> bool -> Z -> Prop;
  r_nested : Prop
}.

(** [req_fields lp R top fs from]: every field of [fs], the first at fixed bit [from], satisfies [R];
    [lp] tells which array lengths are coded as loops, [top] that the struct starts at byte 0. *)
Fixpoint req_elem (lp : nat -> bool) (R : treq) (e : elem) (w n : Z) (big : bool) (from : Z) : Prop :=
  match e with
  | EBasic _ | EEnum _ => r_scalar R e w n big from
  | EString | EBytes => True
  | EStruct fs => req_fields lp R False fs 0
  end
with req_fields (lp : nat -> bool) (R : treq) (top : Prop) (fs : fields) (from : Z) : Prop :=
  match fs with
  | FNil => True
  | FOne e n big r =>
      req_elem lp R e (enum_temp_bits n) n big from /\ req_fields lp R top r (next_from from n)
  | FArr e len n big r =>
      let eb := n / Z.of_nat len in
      (if elem_dyn e then req_elem lp R e 0 0 big 0
       else if lp len then
         (top \/ r_nested R) /\
         match e with
         | EStruct s => req_fields lp R False s 0
         | _ => forall i, 0 <= i < Z.of_nat len -> r_loop R e eb big (from + i * eb)
         end
       else
         match e with
         | EStruct s => req_fields lp R False s 0
         | _ => forall i, 0 <= i < Z.of_nat len ->
                  r_scalar R e (8 * ((elem_bits e + 7) / 8)) eb big (from + i * eb)
         end) /\
      req_fields lp R top r (next_from from n)
  | FVoid n r => req_fields lp R top r (from + n)
  | FConst b n big z r => r_const R b n big from z /\ req_fields lp R top r (from + n)
  | FEmb r => req_fields lp R top r from
  end.

(** Every number in the values satisfies [p] (element type, field bits, number) and every string [q]. *)
Fixpoint nums_elem (p : elem -> Z -> Z -> Prop) (q : list Z -> Prop) (e : elem) (n : Z) (v : val) {struct e} : Prop :=
  match e with
  | EBasic _ | EEnum _ => match v with VNum z => p e n z | _ => False end
  | EString => match v with VStr bs => q bs | _ => False end
  | EBytes => True
  | EStruct fs => match v with VStruct vs => nums_fields p q fs vs | _ => False end
  end
with nums_fields (p : elem -> Z -> Z -> Prop) (q : list Z -> Prop) (fs : fields) (vs : list val) {struct fs} : Prop :=
  match fs with
  | FNil => True
  | FOne e n _ r => match vs with v :: vs' => nums_elem p q e n v /\ nums_fields p q r vs' | [] => False end
  | FArr e len n _ r =>
      match vs with
      | VArr arr :: vs' => Forall (nums_elem p q e (n / Z.of_nat len)) arr /\ nums_fields p q r vs'
      | _ => False
      end
  | FVoid _ r | FConst _ _ _ _ r | FEmb r => nums_fields p q r vs
  end.
