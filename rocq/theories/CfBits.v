(** Bit packing shared by the C, C++, C#, Java, ES-module and CommonJS targets.  The six generators
    contain the same text for generateEncodeImpl and generateDecodeImpl and the same run-time
    helpers; line numbers are given for generator/target/c/c.go, and the other copies are
    cpp/cpp.go:2294,3422; csharp/csharp.go:1987,3336; java/java.go:1954,3051;
    esm/esm_encode.go:641, esm/esm_decode.go:803; commonjs/commonjs.go:2470,3586.
    Definitions only. *)
From Coq Require Import ZArith List Bool.
From Verif Require Import Base Schema GoModel.
Import ListNotations.
Open Scope Z_scope.

(** "((1 << (((hi - 1) & 7) + 1)) - 1) & ^((1 << (lo & 7)) - 1)": c.go:2155, 2178, 2201, 3171. *)
Definition cf_mask (lo hi : Z) : Z :=
  Z.land (Z.shiftl 1 (Z.land (hi - 1) 7 + 1) - 1) (Z.lnot (Z.shiftl 1 (Z.land lo 7) - 1)).

(** "(x + 8) & ^7": the next multiple of eight. *)
Definition cf_next8 (x : Z) : Z := Z.land (x + 8) (-8).

(** The expression packed into one byte (c.go:2164-2227): field bits [begin, end) of the value whose
    bytes are [fd 0], [fd 1], ... *)
Definition cf_part (fd : Z -> Z) (b e : Z) : Z :=
  let nj := Z.min e (cf_next8 b) in
  let p1 := if b <? e then Z.shiftr (Z.land (fd (b / 8)) (cf_mask b nj)) (b mod 8) else 0 in
  let j := if b <? e then nj else b in
  if j <? e then
    let nj2 := Z.min e (cf_next8 j) in
    Z.lor p1 (Z.shiftl (Z.land (fd (j / 8)) (cf_mask j nj2)) (8 - nj2 mod 8))
  else p1.

(** generateEncodeImpl, c.go:2149-2272: one assignment per byte of [from, to); [plain] decides
    between "=" and "|=" from the position and the mask of the assignment.  [base] is the run-time
    offset. *)
Fixpoint cf_enc_loop (fuel : nat) (plain : Z -> Z -> bool) (fd : Z -> Z) (base from to i : Z) (buf : list Z)
  : res (list Z) :=
  match fuel with
  | O => Ok buf
  | S f =>
      if i <? to then
        let ni := Z.min to (cf_next8 i) in
        let m := cf_mask i ni in
        let x := Z.land (Z.shiftl (cf_part fd (i - from) (ni - from)) (i mod 8)) m in
        do old <- rd buf (base + i / 8);
        do buf' <- wr buf (base + i / 8) ((if plain i m then x else Z.lor old x) mod 256);
        cf_enc_loop f plain fd base from to (cf_next8 i) buf'
      else Ok buf
  end.
(** Inline statements: "=" when the byte is entered at its first bit (c.go:2158-2163). *)
Definition cf_enc (fd : Z -> Z) (from n base : Z) (buf : list Z) : res (list Z) :=
  cf_enc_loop (Z.to_nat n) (fun i _ => i mod 8 =? 0) fd base from (from + n) from buf.

(** bb_write_field_bits, c.go:208-264: "=" only when the mask covers the whole byte. *)
Definition cf_helper_data (n value : Z) (big : bool) (i : Z) : Z :=
  Z.land (Z.shiftr value (if big then (let s := n - 8 * (i + 1) in if s <? 0 then 0 else s) else 8 * i)) 255.
Definition cf_write_bits (bit_from n value : Z) (big : bool) (buf : list Z) : res (list Z) :=
  if n <=? 0 then Ok buf
  else
    let value := if n <? 64 then Z.land value (Z.shiftl 1 n - 1) else value in
    cf_enc_loop (Z.to_nat n) (fun _ m => m =? 255) (cf_helper_data n value big) 0 bit_from (bit_from + n) bit_from buf.

(** generateDecodeImpl, c.go:3154-3232: the expression for data bits [begin, end). *)
Definition cf_dec_part (base b e : Z) (data : list Z) : res Z :=
  let sep := Z.min e (cf_next8 b) in
  do p1 <- (if b <? sep then
              do d <- rd data (base + b / 8);
              Ok (Z.shiftr (Z.land d (cf_mask b sep)) (b mod 8))
            else Ok 0);
  if sep <? e then
    do d <- rd data (base + sep / 8);
    Ok (Z.lor p1 (Z.shiftl (Z.land d (cf_mask sep e)) (e - b - e mod 8)))
  else Ok p1.

(** The loop with fieldProcessor (c.go:3039-3083): "=" for the first byte and "|=" afterwards, each
    (tyUint)(expr) << shift, in a variable of [w] bits. *)
Fixpoint cf_dec_loop (fuel : nat) (w from n ff : Z) (big : bool) (base acc : Z) (data : list Z) : res Z :=
  match fuel with
  | O => Ok acc
  | S f =>
      if ff <? n then
        do e <- cf_dec_part base (from + ff) (Z.min (from + n) (from + ff + 8)) data;
        let i := ff / 8 in
        let sh := if big then Z.max 0 (n - 8 * (i + 1)) else i * 8 in
        let t := Z.shiftl (e mod 2 ^ w) sh mod 2 ^ w in
        cf_dec_loop f w from n (ff + 8) big base (if i =? 0 then t else Z.lor acc t) data
      else Ok acc
  end.
Definition cf_dec (w n : Z) (big : bool) (from base : Z) (data : list Z) : res Z :=
  cf_dec_loop (Z.to_nat n) w from n 0 big base 0 data.

(** bb_read_field_bits, c.go:267-303. *)
Fixpoint cf_read_loop (fuel : nat) (bit_from n i idx : Z) (big : bool) (out : Z) (data : list Z) : res Z :=
  match fuel with
  | O => Ok out
  | S f =>
      if i <? bit_from + n then
        do p <- cf_dec_part 0 i (if bit_from + n <? i + 8 then bit_from + n else i + 8) data;
        let sh := if big then (let s := n - 8 * (idx + 1) in if s <? 0 then 0 else s) else 8 * idx in
        cf_read_loop f bit_from n (i + 8) (idx + 1) big (Z.lor out (Z.shiftl p sh mod 2 ^ 64)) data
      else Ok out
  end.
Definition cf_read_bits (bit_from n : Z) (big : bool) (data : list Z) : res Z :=
  if n <=? 0 then Ok 0 else cf_read_loop (Z.to_nat n) bit_from n bit_from 0 big 0 data.
