(** The Kotlin target (generator/target/kotlin; kotlin_encode.go and kotlin_decode.go are abbreviated to
    enc and dec below, kotlin.go holds the run-time helpers).

    Byte is signed in Kotlin; a byte is represented here by its value modulo 256.  Enum properties are
    nullable and fromNumber gives null for a number that is not a member: null is represented by the
    number -1, which no member has after decoding (numbers are read as 64-bit unsigned); writing null
    raises.  Strings are represented by their UTF-8 bytes; [repl] is what decodeToString makes of bytes
    that are not UTF-8.  Array code is the same statement in a loop or unrolled (enc:226-243), so the
    model treats every array as a loop. *)
From Coq Require Import ZArith List Bool Lia.
From Verif Require Import Base BaseProofs Schema SpecWire GoModel GoBitProofs GoEncProofs GoDecProofs GoRound
  TgtModel TgtEncProofs TgtDecProofs TgtPrims PyTarget.
Import ListNotations.
Open Scope Z_scope.
Ltac Zify.zify_post_hook ::= Z.to_euclidean_division_equations.

(** bbWriteFieldBits, kotlin.go:632-648. *)
Definition kt_bit (n : Z) (big : bool) (fb : Z) : Z :=
  if big then Z.max 0 (n - 8 * (Z.shiftr fb 3 + 1)) + Z.land fb 7 else fb.
Fixpoint kt_write_loop (cnt : nat) (bit_from n value fb : Z) (big : bool) (buf : list Z) : res (list Z) :=
  match cnt with
  | O => Ok buf
  | S c =>
      let target := bit_from + fb in
      let mask := Z.shiftl 1 (Z.land target 7) in
      let index := Z.shiftr target 3 in
      let one := Z.land (Z.shiftr value (kt_bit n big fb)) 1 in
      do old <- rd buf index;
      do buf' <- wr buf index (if one =? 0 then Z.ldiff old mask else Z.lor old mask);
      kt_write_loop c bit_from n value (fb + 1) big buf'
  end.
Definition kt_write_bits (bit_from n value : Z) (big : bool) (buf : list Z) : res (list Z) :=
  if n <=? 0 then Ok buf
  else
    let value := if n <? 64 then Z.land value (Z.shiftl 1 n - 1) else value in
    kt_write_loop (Z.to_nat n) bit_from n value 0 big buf.

(** bbReadFieldBits, kotlin.go:650-662. *)
Fixpoint kt_read_loop (cnt : nat) (bit_from n fb : Z) (big : bool) (value : Z) (data : list Z) : res Z :=
  match cnt with
  | O => Ok value
  | S c =>
      let source := bit_from + fb in
      do b <- rd data (Z.shiftr source 3);
      let one := Z.land (Z.shiftr b (Z.land source 7)) 1 in
      kt_read_loop c bit_from n (fb + 1) big
        (if one =? 0 then value else Z.lor value (Z.shiftl 1 (kt_bit n big fb) mod 2 ^ 64)) data
  end.
Definition kt_read_bits (bit_from n : Z) (big : bool) (data : list Z) : res Z :=
  kt_read_loop (Z.to_nat n) bit_from n 0 big 0 data.

(** basicToULong, enc:195-207, and "!!.number.toULong()", enc:113, 147: the number modulo 2^64; null
    raises. *)
Definition kt_enc (e : elem) (n : Z) (big : bool) (pos z : Z) (buf : list Z) : res (list Z) :=
  match e with
  | EEnum _ => if z =? -1 then Panic else kt_write_bits pos n (z mod 2 ^ 64) big buf
  | _ => kt_write_bits pos n (z mod 2 ^ 64) big buf
  end.

(** signExtend, dec:256-262, bbSignExtend, kotlin.go:664-668, then toByte/toShort/toInt. *)
Definition kt_int (arith : bool) (w n p : Z) : Z :=
  let m := Z.shiftl 1 (n - 1) in
  if arith && (n <? 64) then sext w (sext 64 ((Z.lxor p m - m) mod 2 ^ 64))
  else if 64 <=? n then sext w (sext 64 p)
  else sext w (Z.shiftr (sext 64 (Z.shiftl p (64 - n) mod 2 ^ 64)) (64 - n)).
(** decodeBasic, dec:226-254; fromNumber, dec:140, 165. *)
Definition kt_value (arith : bool) (known : Z -> Z -> bool) (e : elem) (n p : Z) : res Z :=
  match e with
  | EBasic BBool => Ok (if p =? 0 then 0 else 1)
  | EBasic (BUint w) => Ok (p mod 2 ^ w)
  | EBasic (BInt w) => Ok (kt_int arith w n p)
  | EBasic (BFloat w) => Ok (p mod 2 ^ w)
  | EEnum bits => Ok (if known bits p then p else -1)
  | _ => Panic
  end.

(** emitEncodeBytes, enc:181-193: the top bit is set as long as more groups follow. *)
Fixpoint kt_varint (fuel : nat) (len pos : Z) (buf : list Z) : res (list Z * Z) :=
  match fuel with
  | O => Panic
  | S f =>
      let part := Z.land len 127 in
      let len := Z.shiftr len 7 in
      let part := if len =? 0 then part else Z.lor part 128 in
      do b <- wr buf pos part;
      if len =? 0 then Ok (b, pos + 1) else kt_varint f len (pos + 1) b
  end.
Definition kt_ebytes (pos : Z) (bs : list Z) (buf : list Z) : res (list Z * Z) :=
  do (b1, p1) <- kt_varint 10 (zlen bs) pos buf;
  do b2 <- g_copy b1 p1 bs;
  Ok (b2, p1 + zlen bs - pos).

(** bbVarUIntSize, kotlin.go:674-682. *)
Fixpoint kt_varsize (fuel : nat) (len size : Z) : Z :=
  match fuel with
  | O => size
  | S f => if len <? 128 then size else kt_varsize f (Z.shiftr len 7) (size + 1)
  end.
Definition kt_bsize (bs : list Z) : Z := zlen bs + kt_varsize 10 (zlen bs) 1.

(** Length loops, dec:85-101, 206-219: 32-bit signed arithmetic; decodeSize gives up when the shift
    exceeds 28, before looking for another byte. *)
Definition kt_put (acc p s : Z) : res Z := Ok (Z.lor acc (sext 32 (Z.shiftl p (s mod 32)))).

Definition kt_tgt (arith : bool) (known : Z -> Z -> bool) (repl : list Z -> list Z) : tgt := {|
  t_loop := fun _ => true;
  t_kt := true;
  t_lstart := true;
  t_escalar := fun e _ n big from base z buf => kt_enc e n big (8 * base + from) z buf; (* enc:110-113, 209-217 *)
  t_econst := fun b n big from base z buf => kt_write_bits (8 * base + from) n (z mod 2 ^ 64) big buf; (* enc:90-96 *)
  t_eloop := kt_enc;                                                                     (* enc:141-150 *)
  t_estring := g_estring;                                                                (* enc:119-126 *)
  t_ebytes := kt_ebytes;
  t_bsize := kt_bsize;
  t_dscalar := fun e _ n big from base data =>
    do p <- kt_read_bits (8 * base + from) n big data; kt_value arith known e n p;       (* dec:132-141 *)
  t_dconst := fun b n big from base z data =>
    do p <- kt_read_bits (8 * base + from) n big data; Ok (p =? (z mod 2 ^ 64) mod 2 ^ n);  (* dec:119-125 *)
  t_dloop := fun e n big pos data =>
    do p <- kt_read_bits pos n big data; kt_value arith known e n p;                     (* dec:152-166 *)
  t_dstring := g_dstring (fun l => Ok (if utf8_ok l then l else repl l));                (* dec:195-203 *)
  t_dbytes := g_dbytes kt_put true;
  t_checked := true;                                                                     (* dec:34 *)
  t_sstring := fun data fb off => Ok (dsize_string data fb off);                         (* dec:74-84 *)
  t_sbytes := g_sbytes true kt_put (fun s => 28 <? s) (sext 32);                         (* dec:85-103 *)
  t_sub := fun _ data p => Ok (skipn (Z.to_nat p) data)
|}.

(** Constants are written by value, so for big-endian fields narrower than their type they differ from
    the other targets. *)
Definition kt_req : treq :=
  {| r_scalar := fun _ _ _ _ _ => True;
     r_const := fun b n big from z => big = false \/ n = basic_bits b;
     r_loop := fun _ _ _ _ => True;
     r_nested := True |}.

(** ** Proofs *)
Lemma kt_bit_eq n big fb : 0 <= fb -> kt_bit n big fb = helper_value_bit n big fb.
Proof.
  intros H. unfold kt_bit, helper_value_bit. destruct big; auto. rewrite land7, Z.shiftr_div_pow2 by lia.
  change (2 ^ 3) with 8. destruct (Z.ltb_spec (n - 8 * (fb / 8 + 1) + fb mod 8) (fb mod 8)); lia.
Qed.

Lemma land1_eqb x k : 0 <= k -> (Z.land (Z.shiftr x k) 1 =? 0) = negb (Z.testbit x k).
Proof.
  intros H. change 1 with (Z.ones 1). rewrite Z.land_ones by lia. change (2 ^ 1) with 2.
  rewrite <- Z.bit0_mod, Z.shiftr_spec by lia. rewrite Z.add_0_l. destruct (Z.testbit x k); reflexivity.
Qed.

Lemma helper_value_bit_nonneg n big fb : 0 <= fb -> 0 <= helper_value_bit n big fb.
Proof. intros H. unfold helper_value_bit. destruct big; auto. destruct (Z.ltb_spec (n - 8 * (fb / 8 + 1) + fb mod 8) (fb mod 8)); lia. Qed.

Lemma ldiff_lor_mask a m : Z.lor (Z.ldiff a m) m = Z.lor a m.
Proof.
  apply Z.bits_inj'. intros k Hk. rewrite !Z.lor_spec, Z.ldiff_spec.
  destruct (Z.testbit a k), (Z.testbit m k); reflexivity.
Qed.

Lemma kt_write_loop_eq cnt : forall bit_from n value fb big buf, 0 <= fb ->
  kt_write_loop cnt bit_from n value fb big buf = write_bits_loop cnt bit_from n value fb big buf.
Proof.
  induction cnt; intros bit_from n value fb big buf H; cbn [kt_write_loop write_bits_loop]; auto.
  rewrite kt_bit_eq, land1_eqb, land_pow2_eqb by auto using helper_value_bit_nonneg.
  rewrite !Z.shiftr_div_pow2 by lia. change (2 ^ 3) with 8.
  destruct (rd buf ((bit_from + fb) / 8)); cbn [bind]; auto.
  rewrite ldiff_lor_mask.
  destruct (wr buf ((bit_from + fb) / 8) (if negb (Z.testbit value (helper_value_bit n big fb))
    then Z.ldiff a (Z.shiftl 1 (Z.land (bit_from + fb) 7)) else Z.lor a (Z.shiftl 1 (Z.land (bit_from + fb) 7)))); cbn [bind]; auto.
  apply IHcnt. lia.
Qed.

Lemma kt_write_bits_ok pos n z big buf : 0 <= pos -> 1 <= n <= 64 -> bytes_ok buf -> pos + n <= 8 * zlen buf ->
  exists b, kt_write_bits pos n (z mod 2 ^ 64) big buf = Ok b /\ overlay buf pos (map Some (field_bits n big z)) b.
Proof.
  intros Hp Hn Hb Hl. destruct (write_field_bits_overlay pos n z big buf) as (b & E & O); auto.
  exists b. split; [|auto]. rewrite <- E. unfold kt_write_bits, write_field_bits, loop_value.
  destruct (Z.leb_spec n 0); [lia|]. apply kt_write_loop_eq. lia.
Qed.

Lemma kt_read_loop_eq cnt : forall bit_from n fb big value data, 0 <= fb -> 0 <= bit_from ->
  kt_read_loop cnt bit_from n fb big value data = read_bits_loop cnt bit_from n value fb big data.
Proof.
  induction cnt; intros bit_from n fb big value data H Hb; cbn [kt_read_loop read_bits_loop]; auto.
  rewrite kt_bit_eq by auto. rewrite !Z.shiftr_div_pow2 by lia. change (2 ^ 3) with 8.
  destruct (rd data ((bit_from + fb) / 8)); cbn [bind]; auto.
  rewrite land1_eqb, land_pow2_eqb by (rewrite land7; lia).
  destruct (Z.testbit a (Z.land (bit_from + fb) 7)); apply IHcnt; lia.
Qed.

Lemma kt_read_bits_ok pos n big data : 0 <= pos -> 1 <= n <= 64 -> bytes_ok data -> pos + n <= 8 * zlen data ->
  kt_read_bits pos n big data = Ok (read_value data pos n big).
Proof.
  intros. unfold kt_read_bits. rewrite kt_read_loop_eq by lia. rewrite <- read_field_bits_ok by auto.
  unfold read_field_bits. destruct (Z.leb_spec n 0); [lia|reflexivity].
Qed.

Lemma kt_int_ok arith w n p : 1 <= n <= w -> w <= 64 -> 0 <= p < 2 ^ n -> kt_int arith w n p = sext n p.
Proof.
  intros Hn Hw Hp. unfold kt_int.
  assert (M : forall x, sext 64 (x mod 2 ^ 64) = sext 64 x).
  { intros x. apply sext_congr. apply Z.mod_mod. lia. }
  destruct (Z.ltb_spec n 64); destruct (Z.leb_spec 64 n); try lia; rewrite ?andb_false_r, ?andb_true_r.
  - destruct arith.
    + rewrite xor_sub_sext by lia. rewrite M. rewrite (sext_fit n 64) by lia. apply sext_fit; lia.
    + rewrite M. pose proof (sx_shift_ok 64 n p ltac:(lia)) as S. unfold sx_shift in S.
      replace (sext 64 (Z.shiftl p (64 - n))) with (sext 64 (Z.shiftl (sext 64 p) (64 - n))).
      * rewrite S. apply sext_fit. lia.
      * apply sext_congr. rewrite !Z.shiftl_mul_pow2 by lia.
        rewrite Z.mul_mod, sext_mod, <- Z.mul_mod by lia. reflexivity.
  - assert (n = 64) by lia. subst. apply sext_fit. lia.
Qed.

Lemma mod_fit z n w : 0 <= n <= w -> (z mod 2 ^ n) mod 2 ^ w = z mod 2 ^ n.
Proof.
  intros H. apply Z.mod_small. pose proof (Z.mod_pos_bound z (2 ^ n) (pow2_pos n ltac:(lia))).
  assert (2 ^ n <= 2 ^ w) by (apply Z.pow_le_mono_r; lia). lia.
Qed.

Lemma kt_value_ok arith known e n z : wf_elem e -> is_fixed_scalar e = true -> 1 <= n <= elem_bits e -> storable_num e z ->
  py_vp known e n z -> kt_value arith known e n (z mod 2 ^ n) = Ok (norm_num e n z).
Proof.
  intros We Se Hn Sz V. pose proof (Z.mod_pos_bound z (2 ^ n) (pow2_pos n ltac:(lia))) as B.
  assert (2 <= 2 ^ n) by (change 2 with (2 ^ 1) at 1; apply Z.pow_le_mono_r; lia).
  destruct e as [b|bits| | |]; try discriminate Se.
  - destruct b; cbn [kt_value norm_num elem_bits basic_bits storable_num wf_elem] in *; f_equal.
    + rewrite Z.mod_small by lia. destruct Sz as [->| ->]; reflexivity.
    + apply mod_fit; lia.
    + rewrite kt_int_ok; auto; try lia; [|cbn in We; lia]. unfold sext. rewrite Z.mod_mod by lia. reflexivity.
    + apply mod_fit; lia.
  - cbn [kt_value norm_num py_vp] in *. rewrite V. reflexivity.
Qed.

Lemma kt_varint_ok fuel : forall n pos buf f, (fuel <= f)%nat -> 0 <= n < 2 ^ (7 * Z.of_nat fuel) -> 0 < Z.of_nat fuel ->
  0 <= pos -> bytes_ok buf -> pos + zlen (varint_fuel f n) <= zlen buf ->
  exists b, kt_varint fuel n pos buf = Ok (b, pos + zlen (varint_fuel f n)) /\
    overlay buf (8 * pos) (raw_bytes (varint_fuel f n)) b.
Proof.
  induction fuel; intros n pos buf f Hfuel Hn Hpos Hp Hok Hlen; [cbn in Hpos; lia|].
  destruct f as [|f]; [lia|]. cbn [varint_fuel] in *. cbn [kt_varint]. rewrite land127, shiftr7.
  destruct (Z.ltb_spec n 128).
  - replace (n / 128) with 0 by lia. cbn [Z.eqb]. replace (n mod 128) with n by lia. rewrite zlen_one in *.
    destruct (wr_overlay buf pos n) as (b & E & O); auto; try lia. rewrite E. cbn [bind]. exists b. auto.
  - rewrite zlen_cons in *. pose proof (zlen_nonneg (varint_fuel f (n / 128))).
    destruct (Z.eqb_spec (n / 128) 0); [lia|]. rewrite lor128 by lia.
    destruct (wr_overlay buf pos (n mod 128 + 128)) as (b1 & E1 & O1); auto; try lia. rewrite E1. cbn [bind].
    pose proof (overlay_length _ _ _ _ O1). pose proof (overlay_bytes _ _ _ _ O1).
    assert (Hn2 : 0 <= n / 128 < 2 ^ (7 * Z.of_nat fuel)).
    { split; [lia|]. apply Z.div_lt_upper_bound; [lia|].
      replace 128 with (2 ^ 7) by reflexivity. rewrite <- Z.pow_add_r by lia.
      replace (7 + 7 * Z.of_nat fuel) with (7 * Z.of_nat (S fuel)) by lia. lia. }
    assert (0 < Z.of_nat fuel).
    { destruct fuel; [cbn in Hn2; lia|lia]. }
    destruct (IHfuel (n / 128) (pos + 1) b1 f) as (b2 & E2 & O2); try lia; auto.
    exists b2. split; [rewrite E2; do 2 f_equal; lia|].
    change (n mod 128 + 128 :: varint_fuel f (n / 128)) with ([n mod 128 + 128] ++ varint_fuel f (n / 128)).
    rewrite raw_bytes_app. eapply overlay_app; [exact O1|].
    rewrite zlen_raw_bytes, zlen_one. replace (8 * pos + 8 * 1) with (8 * (pos + 1)) by lia. exact O2.
Qed.

Lemma kt_ebytes_ok p bs buf : bytes_ok bs -> zlen bs < 2 ^ 63 -> 0 <= p -> bytes_ok buf ->
  p + zlen (varint (zlen bs) ++ bs) <= zlen buf ->
  exists b, kt_ebytes p bs buf = Ok (b, bytes_size bs) /\ overlay buf (8 * p) (raw_bytes (varint (zlen bs) ++ bs)) b.
Proof.
  intros Hb Hl Hp Ho Hs. pose proof (zlen_nonneg bs). pose proof (zlen_nonneg (varint (zlen bs))).
  rewrite bytes_size_ok. rewrite zlen_app in *. unfold kt_ebytes.
  destruct (kt_varint_ok 10 (zlen bs) p buf 10) as (b1 & E1 & O1); auto; try lia.
  { change (varint_fuel 10 (zlen bs)) with (varint (zlen bs)). lia. }
  rewrite E1. cbn [bind]. change (varint_fuel 10 (zlen bs)) with (varint (zlen bs)) in *.
  pose proof (overlay_length _ _ _ _ O1) as L1. pose proof (overlay_bytes _ _ _ _ O1).
  assert (zlen b1 = zlen buf) by (unfold zlen in *; lia).
  destruct (copy_overlay b1 (p + zlen (varint (zlen bs))) bs) as (b2 & E2 & O2); auto; try lia.
  rewrite g_copy_in by lia. rewrite E2. cbn [bind]. exists b2. split; [do 2 f_equal; lia|].
  rewrite raw_bytes_app. eapply overlay_app; [exact O1|]. rewrite zlen_raw_bytes.
  replace (8 * p + 8 * zlen (varint (zlen bs))) with (8 * (p + zlen (varint (zlen bs)))) by lia. exact O2.
Qed.

Lemma kt_varsize_ok f : forall n s, 0 <= n -> kt_varsize f n s = s - 1 + zlen (varint_fuel f n).
Proof.
  induction f; intros n s Hn; cbn [kt_varsize varint_fuel].
  - rewrite zlen_one. lia.
  - destruct (Z.ltb_spec n 128); [rewrite zlen_one; lia|]. rewrite shiftr7, IHf, zlen_cons by lia. lia.
Qed.

Lemma kt_put_ok : put_ok kt_put 31.
Proof.
  intros acc p s Hs Ha Hp Hv. unfold kt_put. pose proof (pow2_pos s ltac:(lia)).
  rewrite (Z.mod_small s 32) by lia.
  rewrite sext_id; [rewrite lor_disjoint by lia; reflexivity|lia|].
  rewrite Z.shiftl_mul_pow2 by lia. change (2 ^ (32 - 1)) with (2 ^ 31). nia.
Qed.

Lemma kt_enc_spec arith known repl : enc_spec (kt_tgt arith known repl) kt_req false (2 ^ 31).
Proof.
  assert (KE : forall e n big pos z buf, wf_elem e -> is_fixed_scalar e = true -> 1 <= n <= elem_bits e -> storable_num e z ->
    0 <= pos -> bytes_ok buf -> pos + n <= 8 * zlen buf ->
    exists b, kt_enc e n big pos z buf = Ok b /\ overlay buf pos (map Some (field_bits n big z)) b).
  { intros e n big pos z buf We Se Hn Sz Hp Hok Hl. pose proof (elem_bits_le e We Se).
    destruct (kt_write_bits_ok pos n z big buf) as (b & E & O); auto; try lia.
    exists b. split; auto. destruct e; try discriminate Se; cbn [kt_enc]; auto.
    cbn in Sz. destruct (Z.eqb_spec z (-1)); [lia|exact E]. }
  constructor; cbn [kt_tgt t_escalar t_econst t_eloop t_estring t_ebytes t_bsize t_lstart].
  - intros e w n big from base lim z buf We Se Hn Sz _ Hb Hf (Hok & _ & _ & Hl & Hl2 & _). apply KE; auto; lia.
  - intros b n big from base lim z buf Wb Hn Hr Hb Hf (Hok & _ & _ & Hl & Hl2 & _).
    pose proof (basic_bits_range b Wb). rewrite const_field_bits by (auto; lia). apply kt_write_bits_ok; auto; lia.
  - intros e n big from base lim z buf We Se Hn Sz _ Hb Hf (Hok & _ & _ & Hl & Hl2 & _). apply KE; auto; lia.
  - intros p lim bs buf Hbs Hn0 Hp (Hok & _ & _ & Hl & Hl2 & _). apply g_estring_ok; auto; lia.
  - intros p lim bs buf Hbs Hn Hp (Hok & _ & _ & Hl & Hl2 & _). apply kt_ebytes_ok; auto; lia.
  - intros bs _ Hl. unfold kt_bsize. rewrite kt_varsize_ok by apply zlen_nonneg. rewrite bytes_size_ok, zlen_app.
    change (varint_fuel 10 (zlen bs)) with (varint (zlen bs)). lia.
  - reflexivity.
Qed.

Lemma kt_dec_spec arith known repl :
  dec_spec (kt_tgt arith known repl) kt_req (py_vp known) (fun bs => utf8_ok bs = true) (2 ^ 31).
Proof.
  assert (FL : forall data pos n big z, matches data pos (map Some (field_bits n big z)) -> 1 <= n -> pos + n <= 8 * zlen data).
  { intros data pos n big z (L & _) Hn. unfold zlen in L at 1. rewrite map_length in L.
    unfold field_bits in L. rewrite map_length, seq_length in L. lia. }
  constructor; cbn [kt_tgt t_dscalar t_dconst t_dloop t_dstring t_dbytes t_sstring t_sbytes t_sub t_lstart t_kt t_checked].
  - intros e w n big from base z data We Se Hn Sz G V Hb Hf Hok Hx M. pose proof (elem_bits_le e We Se).
    pose proof (FL _ _ _ _ _ M ltac:(lia)).
    rewrite kt_read_bits_ok by (auto; lia). cbn [bind]. rewrite (read_value_matches _ _ _ _ z) by (auto; lia).
    apply kt_value_ok; auto; lia.
  - intros b n big from base z data Wb Hn Hr Hb Hf Hok Hx M.
    pose proof (basic_bits_range b Wb). rewrite const_field_bits in M by (auto; lia).
    pose proof (FL _ _ _ _ _ M ltac:(lia)).
    rewrite kt_read_bits_ok by (auto; lia). cbn [bind]. rewrite (read_value_matches _ _ _ _ z) by (auto; lia).
    f_equal. apply Z.eqb_eq. replace (2 ^ 64) with (2 ^ n * 2 ^ (64 - n)) by (rewrite <- Z.pow_add_r by lia; f_equal; lia).
    pose proof (pow2_pos n ltac:(lia)). pose proof (pow2_pos (64 - n) ltac:(lia)).
    rewrite Z.rem_mul_r by lia. rewrite Z.add_mod, Z.mul_comm, Z.mod_mul by lia. rewrite Z.add_0_r, !Z.mod_mod by lia. reflexivity.
  - intros e n big from base z data We Se Hn Sz _ V Hb Hf Hok Hx M. pose proof (elem_bits_le e We Se).
    pose proof (FL _ _ _ _ _ M ltac:(lia)).
    rewrite kt_read_bits_ok by (auto; lia). cbn [bind]. rewrite (read_value_matches _ _ _ _ z) by (auto; lia).
    apply kt_value_ok; auto; lia.
  - intros p bs data Hbs Hn0 Hu Hp Hok Hx M. apply g_dstring_ok; auto. rewrite Hu. reflexivity.
  - intros p bs data Hbs Hl Hp Hok Hx M. apply (g_dbytes_ok kt_put true 31); auto; [lia|apply kt_put_ok].
  - intros fb off bs data Hbs Hn0 Hf Ho Hok Hx M. f_equal. apply (dsize_string_match bs data fb off); auto.
  - intros fb off bs data Hbs Hl Hf Ho Hok Hx M. apply (g_sbytes_ok true kt_put _ _ 31); auto; [lia|apply kt_put_ok| |].
    + intros s Hs Hm. destruct (Z.ltb_spec 28 s); [lia|reflexivity].
    + intros x Hx2. apply sext_id; lia.
  - reflexivity.
  - reflexivity.
  - reflexivity.
Qed.
