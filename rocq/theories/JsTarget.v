(** The two JavaScript targets: CommonJS (generator/target/commonjs/commonjs.go, cited here) and ES modules
    (generator/target/esm/esm.go, esm_encode.go, esm_decode.go).  The statements they emit for encoding and
    decoding are the same, so one model serves both.

    Numbers of types up to 32 bits are JavaScript Numbers, and the operators on them work on 32-bit
    signed integers with shift distances modulo 32; numbers of 64-bit types are BigInts, without a bound.  Enum
    variables hold a Number or a name; decoding stores the name, Enum[number], which is undefined (here -1) for
    a number that has none.  Strings are represented by their UTF-8 bytes, see JsString.v.
    Reading outside an array gives undefined and writing there does nothing or extends it: Panic here, nothing
    is claimed about it.  Mixing Number and BigInt raises: Panic.  Bit positions in loops are computed with
    32-bit operators, so the model is faithful for buffers below 2^28 bytes. *)
From Coq Require Import ZArith List Bool Lia.
From Verif Require Import Base BaseProofs Schema SpecWire GoModel GoBitProofs GoEncProofs GoDecProofs GoRound
  GoEncMain GoPrefix GoCore CfBits CfBitProofs TgtModel TgtEncProofs TgtDecProofs TgtPrims PyTarget KtTarget CTarget
  JavaTarget CsTarget JsString.
Import ListNotations.
Open Scope Z_scope.
Ltac Zify.zify_post_hook ::= Z.to_euclidean_division_equations.

(** "x >> s" on a Number. *)
Definition js_shr (x s : Z) : Z := Z.shiftr (sext 32 x) (s mod 32).
(** Inline encoding, 2054-2100, 2350-2440: fieldData for types up to 32 bits (also enums, 2100-2190, whose
    temporary is treated as uint32) and for 64-bit types. *)
Definition js_data (n : Z) (big : bool) (z i : Z) : Z := js_shr z (if big then Z.max 0 (n - 8 * (i + 1)) else 8 * i).
Definition js_escalar (e : elem) (w n : Z) (big : bool) (from base z : Z) (buf : list Z) : res (list Z) :=
  match e with
  | EBasic b => cf_enc (if 32 <? basic_bits b then field_data n big z else js_data n big z) from n base buf
  | EEnum _ => cf_enc (js_data n big z) from n base buf
  | _ => Panic
  end.

(** Array loops, 2215-2248: the element as a BigInt; 64-bit integers through BigInt.asUintN(64, x). *)
Definition js_eloop (e : elem) (n : Z) (big : bool) (pos z : Z) (buf : list Z) : res (list Z) :=
  match e with
  | EBasic b => cf_write_bits pos n (if 32 <? basic_bits b then z mod 2 ^ 64 else z) big buf
  | EEnum _ => cf_write_bits pos n z big buf
  | _ => Panic
  end.

(** encodeNormalFieldBytes, 1971-1983. *)
Fixpoint js_varint (fuel : nat) (len pos : Z) (buf : list Z) : res (list Z * Z) :=
  match fuel with
  | O => Panic
  | S f =>
      let byte := len mod 128 in
      let len := len / 128 in
      do b <- wr buf pos (Z.lor byte (if 0 <? len then 128 else 0));
      if 0 <? len then js_varint f len (pos + 1) b else Ok (b, pos + 1)
  end.
Definition js_ebytes (pos : Z) (bs : list Z) (buf : list Z) : res (list Z * Z) :=
  do (b1, p1) <- js_varint 10 (zlen bs) pos buf;
  do b2 <- g_copy b1 p1 bs;
  Ok (b2, p1 + zlen bs - pos).
(** encode_size of a byte string, 1777-1785. *)
Fixpoint js_varsize (fuel : nat) (len : Z) : Z :=
  match fuel with
  | O => 0
  | S f => 1 + (if 0 <? len / 128 then js_varsize f (len / 128) else 0)
  end.
Definition js_bsize (bs : list Z) : Z := zlen bs + js_varsize 10 (zlen bs).

(** Inline decoding of a Number, 3437-3490 and generateDecodeImpl 3586-3660: "x = (e) << s" then "x |= (e) << s". *)
Fixpoint js_dec_loop (fuel : nat) (from n ff : Z) (big : bool) (base acc : Z) (data : list Z) : res Z :=
  match fuel with
  | O => Ok acc
  | S f =>
      if ff <? n then
        do e <- cf_dec_part base (from + ff) (Z.min (from + n) (from + ff + 8)) data;
        let i := ff / 8 in
        let sh := if big then Z.max 0 (n - 8 * (i + 1)) else i * 8 in
        let t := sext 32 (Z.shiftl e (sh mod 32)) in
        js_dec_loop f from n (ff + 8) big base (if i =? 0 then t else Z.lor acc t) data
      else Ok acc
  end.
Definition js_dec (n : Z) (big : bool) (from base : Z) (data : list Z) : res Z :=
  js_dec_loop (Z.to_nat n) from n 0 big base 0 data.
(** The same with BigInts; 128 stands for "unbounded", fields have at most 64 bits. *)
Definition js_dec_big (n : Z) (big : bool) (from base : Z) (data : list Z) : res Z := cf_dec 128 n big from base data.

(** Sign extension, 3515-3545: "(x ^ m) - m"; for 32-bit fields "(x >>> 31) ? -(~x + 1) : x", where ">>>" raises
    for a BigInt.  float: DataView.setUint32 / setBigUint64 take the value modulo 2^32 / 2^64 (3955-3960). *)
Definition js_int (n p : Z) : Z :=
  if n =? 32 then (if p <? 0 then - (Z.lnot p + 1) else p)
  else sext 32 (Z.lxor p (Z.shiftl 1 (n - 1))) - Z.shiftl 1 (n - 1).
Definition js_dscalar (known : Z -> Z -> bool) (e : elem) (w n : Z) (big : bool) (from base : Z) (data : list Z) : res Z :=
  match e with
  | EBasic BBool => do p <- js_dec n big from base data; Ok (if p =? 0 then 0 else 1)
  | EBasic (BUint t) => if 32 <? t then js_dec_big n big from base data else js_dec n big from base data
  | EBasic (BInt t) =>
      if 32 <? t then
        do p <- js_dec_big n big from base data;
        if n =? 32 then Panic else Ok (Z.lxor p (Z.shiftl 1 (n - 1)) - Z.shiftl 1 (n - 1))
      else do p <- js_dec n big from base data; Ok (js_int n p)
  | EBasic (BFloat t) =>
      if 32 <? t then js_dec_big n big from base data
      else do p <- js_dec n big from base data; Ok (p mod 2 ^ 32)
  | EEnum bits => do p <- js_dec n big from base data; jv_enum known bits p
  | _ => Panic
  end.

(** Constants, 3044-3080: compared with "!==", which is true whenever one side is a Number and the other a
    BigInt.  The literal is a BigInt exactly if it does not fit 32 bits (3820-3833).  float: the bit pattern is
    compared with the literal, [feq p z] ("p equals the number with bits z"); a BigInt pattern never equals it. *)
Definition js_big_literal (z : Z) : bool := (2 ^ 31 - 1 <? z) || (z <? - 2 ^ 31).
Definition js_dconst (known : Z -> Z -> bool) (feq : Z -> Z -> bool) (b : basic) (n : Z) (big : bool) (from base z : Z) (data : list Z)
  : res bool :=
  match b with
  | BFloat t => if 32 <? t then do _ <- js_dec_big n big from base data; Ok false
                else do p <- js_dec n big from base data; Ok (feq p z)
  | BBool => do v <- js_dscalar known (EBasic b) 8 n big from base data; Ok (v =? z)
  | _ => do v <- js_dscalar known (EBasic b) 8 n big from base data;
         Ok (if Bool.eqb (32 <? basic_bits b) (js_big_literal z) then v =? z else false)
  end.

(** Array loops, 3240-3285, decodeBasicValueExpr 139-160. *)
Definition js_dloop (known : Z -> Z -> bool) (e : elem) (n : Z) (big : bool) (pos : Z) (data : list Z) : res Z :=
  do v <- cf_read_bits pos n big data;
  match e with
  | EBasic BBool => Ok (if v =? 0 then 0 else 1)
  | EBasic (BInt _) => Ok (sext n v)
  | EBasic (BUint _) => Ok v
  | EBasic (BFloat w) => Ok (v mod 2 ^ w)
  | EEnum bits => jv_enum known bits v
  | _ => Panic
  end.

(** decodeNormalFieldString, 2962-2970. *)
Definition js_dstring (pos : Z) (data : list Z) : res (list Z * Z) :=
  let '(us, k) := js_utf8_decode (skipn (Z.to_nat pos) data) in
  if zlen data <=? pos + k then Fail
  else
    do z <- rd data (pos + k);
    if z =? 0 then Ok (js_utf8 us, k + 1) else Fail.

(** The length of a byte string, 2770-2790 and 2972-2986. *)
Fixpoint js_scan (rest : list Z) (shift acc cnt : Z) : vscan :=
  match rest with
  | [] => VMore cnt
  | b :: t =>
      if (shift =? 28) && negb (Z.land b 240 =? 0) then VBad
      else
        let acc := acc + Z.land b 127 * 2 ^ shift in
        if Z.land b 128 =? 0 then VDone acc (cnt + 1)
        else if 28 <? shift + 7 then VBad
        else js_scan t (shift + 7) acc (cnt + 1)
  end.
Definition js_sbytes (data : list Z) (fb off : Z) : res dstep :=
  Ok match js_scan (skipn (Z.to_nat (off + fb)) data) 0 0 0 with
     | VMore cnt => DRet (- (off + cnt + fb + 1))
     | VBad => DRet (-1)
     | VDone v cnt =>
         if zlen data <? off + cnt + fb + v then DRet (- (off + cnt + fb + v)) else DOff (off + cnt + v)
     end.
Definition js_dbytes (pos : Z) (data : list Z) : res (list Z * Z) :=
  match js_scan (skipn (Z.to_nat pos) data) 0 0 0 with
  | VDone v cnt =>
      if zlen data - (pos + cnt) <? v then Fail
      else Ok (firstn (Z.to_nat v) (skipn (Z.to_nat (pos + cnt)) data), cnt + v)
  | _ => Fail
  end.

Definition js_tgt (loop : nat -> bool) (known : Z -> Z -> bool) (feq : Z -> Z -> bool) : tgt := {|
  t_loop := loop;                                      (* 2165, 3195 *)
  t_kt := false;
  t_lstart := true;                                    (* 2196, 3247 *)
  t_escalar := js_escalar;
  t_econst := c_econst;                                (* 2020-2048 *)
  t_eloop := js_eloop;
  t_estring := g_estring;                              (* 1963-1969 *)
  t_ebytes := js_ebytes;
  t_bsize := js_bsize;
  t_dscalar := js_dscalar known;
  t_dconst := js_dconst known feq;
  t_dloop := js_dloop known;
  t_dstring := js_dstring;
  t_dbytes := js_dbytes;
  t_checked := true;                                   (* 2600-2660 *)
  t_sstring := fun data fb off => Ok (dsize_string data fb off);   (* 2755-2763 *)
  t_sbytes := js_sbytes;
  t_sub := fun _ data p => Ok (skipn (Z.to_nat p) data)            (* "data.length - start" *)
|}.

Definition js_ereq : treq :=
  {| r_scalar := fun e w n big from => cf_good n from /\ (forall bits, e = EEnum bits -> n <= 32);
     r_const := fun b n big from z => cf_good n from;
     r_loop := fun e n big from => cf_good n from;
     r_nested := True |}.
Definition js_dreq : treq :=
  {| r_scalar := fun e w n big from =>
       match e with
       | EBasic (BInt 64) => n <> 32
       | EEnum _ => n <= 32
       | _ => True
       end;
     r_const := fun b n big from z =>
       (big = false \/ n = basic_bits b) /\
       match b with
       | BUint w => 0 <= z < 2 ^ n /\ (w <= 32 /\ z < 2 ^ 31 \/ 32 < w /\ 2 ^ 31 <= z)
       | BInt w => - 2 ^ (n - 1) <= z < 2 ^ (n - 1) /\ (w <= 32 \/ 32 < w /\ n <> 32 /\ (2 ^ 31 <= z \/ z < - 2 ^ 31))
       | BBool => z = 0 \/ z = 1
       | BFloat _ => False
       end;
     r_loop := fun e n big from => True;
     r_nested := True |}.
(** Full-width uint32 fields must be below 2^31 (inline decoding gives a negative number otherwise); enum
    numbers must have a name. *)
Definition js_vp (known : Z -> Z -> bool) (e : elem) (n z : Z) : Prop :=
  match e with
  | EBasic (BUint 32) => n < 32 \/ z < 2 ^ 31
  | EEnum bits => known bits (z mod 2 ^ n) = true /\ z mod 2 ^ n < 2 ^ 31
  | _ => True
  end.

(** ** Proofs *)
(** The Number path computes what the BigInt path computes, for fields up to 32 bits. *)
Lemma js_data_eq n big z i : 1 <= n <= 32 -> 0 <= i -> 8 * i < n -> js_data n big z i = field_data n big (sext 32 z) i.
Proof.
  intros Hn Hi Hin. unfold js_data, js_shr, field_data. rewrite Z.mod_small; [reflexivity|]. destruct big; lia.
Qed.

Lemma cf_part_ext fd fd' b e n : 0 <= b -> e <= n -> (forall i, 0 <= i -> 8 * i < n -> fd i = fd' i) -> cf_part fd b e = cf_part fd' b e.
Proof.
  intros Hb He H. unfold cf_part. rewrite !cf_next8_eq.
  destruct (Z.ltb_spec b e); [rewrite (H (b / 8)) by lia|].
  - destruct (Z.ltb_spec (Z.min e (8 * (b / 8 + 1))) e); [rewrite (H (Z.min e (8 * (b / 8 + 1)) / 8)) by lia|]; reflexivity.
  - destruct (Z.ltb_spec b e); [lia|]. reflexivity.
Qed.

Lemma cf_enc_ext fd fd' from n base buf : 0 <= from -> (forall i, 0 <= i -> 8 * i < n -> fd i = fd' i) ->
  cf_enc fd from n base buf = cf_enc fd' from n base buf.
Proof.
  intros Hf H. unfold cf_enc.
  assert (G : forall fuel i b, from <= i -> cf_enc_loop fuel (fun i _ => i mod 8 =? 0) fd base from (from + n) i b =
    cf_enc_loop fuel (fun i _ => i mod 8 =? 0) fd' base from (from + n) i b).
  { induction fuel; intros i b Hi; cbn [cf_enc_loop]; auto. destruct (Z.ltb_spec i (from + n)); auto. cbv zeta.
    rewrite (cf_part_ext fd fd' (i - from) (Z.min (from + n) (cf_next8 i) - from) n) by (auto; lia).
    destruct (rd b (base + i / 8)); cbn [bind]; auto.
    match goal with |- context [wr b ?p ?x] => destruct (wr b p x) end; cbn [bind]; auto.
    apply IHfuel. rewrite cf_next8_eq. lia. }
  apply G. lia.
Qed.

Lemma js_varint_kt f : forall len pos buf, 0 <= len -> js_varint f len pos buf = kt_varint f len pos buf.
Proof.
  induction f; intros len pos buf Hl; cbn [js_varint kt_varint]; auto. rewrite land127, shiftr7. cbv zeta.
  destruct (Z.ltb_spec 0 (len / 128)), (Z.eqb_spec (len / 128) 0); try lia.
  - destruct (wr buf pos _); cbn [bind]; auto. apply IHf. lia.
  - rewrite Z.lor_0_r. reflexivity.
Qed.

Lemma js_ebytes_ok p bs buf : bytes_ok bs -> zlen bs < 2 ^ 63 -> 0 <= p -> bytes_ok buf ->
  p + zlen (varint (zlen bs) ++ bs) <= zlen buf ->
  exists b, js_ebytes p bs buf = Ok (b, bytes_size bs) /\ overlay buf (8 * p) (raw_bytes (varint (zlen bs) ++ bs)) b.
Proof.
  intros. unfold js_ebytes. rewrite js_varint_kt by apply zlen_nonneg. apply kt_ebytes_ok; auto.
Qed.

Lemma js_varsize_ok f : forall g n, (f <= g)%nat -> 0 <= n < 2 ^ (7 * Z.of_nat f) -> (0 < f)%nat -> js_varsize f n = zlen (varint_fuel g n).
Proof.
  induction f; intros g n Hg Hn Hf; [lia|]. destruct g; [lia|]. cbn [js_varsize varint_fuel].
  destruct (Z.ltb_spec n 128), (Z.ltb_spec 0 (n / 128)); try lia; [rewrite zlen_one; reflexivity|].
  assert (Hn2 : 0 <= n / 128 < 2 ^ (7 * Z.of_nat f)).
  { split; [lia|]. apply Z.div_lt_upper_bound; [lia|].
    replace 128 with (2 ^ 7) by reflexivity. rewrite <- Z.pow_add_r by lia.
    replace (7 + 7 * Z.of_nat f) with (7 * Z.of_nat (S f)) by lia. lia. }
  assert (0 < f)%nat by (destruct f; [cbn in Hn2; lia|lia]).
  rewrite zlen_cons, (IHf g (n / 128)) by (auto; lia). lia.
Qed.

Lemma js_enc_spec loop known feq : enc_spec (js_tgt loop known feq) js_ereq true (2 ^ 28).
Proof.
  constructor; cbn [js_tgt t_escalar t_econst t_eloop t_estring t_ebytes t_bsize t_lstart].
  - intros e w n big from base lim z buf We Se Hn Sz (G & Hw) Hb Hf (Hok & Hm & _ & Hl & Hl2 & _ & Hz). specialize (Hz eq_refl).
    assert (S32 : n <= 32 -> exists b, cf_enc (js_data n big z) from n base buf = Ok b /\
      overlay buf (8 * base + from) (map Some (field_bits n big z)) b).
    { intros Hn32. rewrite (cf_enc_ext _ (field_data n big (sext 32 z))) by (auto; intros; apply js_data_eq; lia).
      eapply cf_enc_congr; eauto; try lia. apply sext_mod_le. lia. }
    destruct e as [b|bits| | |]; try discriminate Se; cbn [js_escalar elem_bits] in *.
    + destruct (Z.ltb_spec 32 (basic_bits b)); [|apply S32; lia]. eapply cf_enc_congr; eauto; lia.
    + apply S32. eapply Hw. reflexivity.
  - intros b n big from base lim z buf Wb Hn G Hb Hf (Hok & Hm & _ & Hl & Hl2 & _ & Hz). specialize (Hz eq_refl).
    eapply cf_enc_const_overlay; eauto; lia.
  - intros e n big from base lim z buf We Se Hn Sz G Hb Hf (Hok & Hm & _ & Hl & Hl2 & _ & Hz). specialize (Hz eq_refl).
    pose proof (elem_bits_le e We Se). apply (cf_good_base n from base) in G.
    assert (W : exists buf', cf_write_bits (8 * base + from) n (z mod 2 ^ 64) big buf = Ok buf' /\
      overlay buf (8 * base + from) (map Some (field_bits n big z)) buf').
    { eapply cf_write_congr; eauto; lia. }
    assert (N : n < 64 -> cf_write_bits (8 * base + from) n z big buf = cf_write_bits (8 * base + from) n (z mod 2 ^ 64) big buf).
    { intros H64. unfold cf_write_bits. destruct (Z.leb_spec n 0); [lia|]. destruct (Z.ltb_spec n 64); [|lia].
      replace (Z.land z (Z.shiftl 1 n - 1)) with (Z.land (z mod 2 ^ 64) (Z.shiftl 1 n - 1)); [reflexivity|].
      rewrite Z.shiftl_1_l. replace (2 ^ n - 1) with (Z.ones n) by (rewrite Z.ones_equiv; lia).
      rewrite !Z.land_ones by lia. apply mod_mod_le. lia. }
    destruct e as [b|bits| | |]; try discriminate Se; cbn [js_eloop elem_bits storable_num] in *.
    + cbn [wf_elem] in We. pose proof (basic_bits_range b We). destruct (Z.ltb_spec 32 (basic_bits b)); [exact W|]. rewrite N by lia. exact W.
    + cbn in Sz. destruct (Z.lt_ge_cases n 64); [rewrite N by lia; exact W|].
      assert (Zs : z mod 2 ^ 64 = z).
      { apply Z.mod_small. assert (2 ^ bits <= 2 ^ 64) by (apply Z.pow_le_mono_r; lia). lia. }
      rewrite Zs in W. exact W.
  - intros p lim bs buf Hbs Hn0 Hp (Hok & _ & _ & Hl & Hl2 & _). apply g_estring_ok; auto; lia.
  - intros p lim bs buf Hbs Hn Hp (Hok & _ & _ & Hl & Hl2 & _). apply js_ebytes_ok; auto; lia.
  - intros bs Hl1 Hl2. rewrite bytes_size_ok, zlen_app. unfold js_bsize. pose proof (zlen_nonneg bs).
    rewrite (js_varsize_ok 10 10) by (auto; lia). unfold varint. lia.
  - auto.
Qed.

Lemma lor_sext w a b : 1 <= w -> Z.lor (sext w a) (sext w b) = sext w (Z.lor a b).
Proof.
  intros Hw. apply Z.bits_inj'. intros j Hj. rewrite Z.lor_spec, !sext_bits by lia. rewrite !Z.lor_spec.
  destruct (j <? w); reflexivity.
Qed.

Lemma js_dec_eq n big from base data : 1 <= n <= 32 -> 0 <= from -> 0 <= base -> bytes_ok data ->
  8 * base + from + n <= 8 * zlen data ->
  js_dec n big from base data = Ok (sext 32 (read_value data (8 * base + from) n big)).
Proof.
  intros Hn Hf Hb Hok Hlen. pose proof (cf_dec_eq 32 n big from base data ltac:(lia) Hn Hf Hb Hok Hlen) as E.
  assert (G : forall fuel ff acc, 0 <= ff -> js_dec_loop fuel from n ff big base (sext 32 acc) data =
    bind (cf_dec_loop fuel 32 from n ff big base acc data) (fun x => Ok (sext 32 x))).
  { induction fuel; intros ff acc Hff; cbn [js_dec_loop cf_dec_loop bind]; auto.
    destruct (Z.ltb_spec ff n); [|reflexivity].
    destruct (cf_dec_part base (from + ff) (Z.min (from + n) (from + ff + 8)) data) as [e| |]; cbn [bind]; auto. cbv zeta.
    set (sh := if big then Z.max 0 (n - 8 * (ff / 8 + 1)) else ff / 8 * 8).
    assert (Hs : 0 <= sh < 32) by (unfold sh; destruct big; lia).
    rewrite (Z.mod_small sh 32) by lia.
    assert (T : sext 32 (Z.shiftl e sh) = sext 32 (Z.shiftl (e mod 2 ^ 32) sh mod 2 ^ 32)).
    { apply sext_ext; [lia|]. intros j Hj. rewrite testbit_mod by lia. destruct (Z.ltb_spec j 32); [|lia]. cbn [andb].
      rewrite !Z.shiftl_spec by lia. destruct (Z.lt_ge_cases (j - sh) 0); [rewrite !Z.testbit_neg_r by lia; reflexivity|].
      rewrite testbit_mod by lia. destruct (Z.ltb_spec (j - sh) 32); [reflexivity|lia]. }
    rewrite T. rewrite <- IHfuel by lia. f_equal. destruct (ff / 8 =? 0); [reflexivity|]. apply lor_sext. lia. }
  unfold js_dec. change 0 with (sext 32 0) at 2. rewrite G by lia. unfold cf_dec in E. rewrite E. reflexivity.
Qed.

Lemma land240_small b : 0 <= b < 16 -> Z.land b 240 = 0.
Proof.
  intros H. apply Z.bits_inj'. intros j Hj. rewrite Z.land_spec, Z.bits_0. change 240 with (Z.shiftl 15 4).
  rewrite Z.shiftl_spec by lia. destruct (Z.lt_ge_cases j 4); [rewrite (Z.testbit_neg_r 15) by lia; apply andb_false_r|].
  rewrite <- (Z.mod_small b (2 ^ 4)) by lia. rewrite testbit_mod by lia. destruct (Z.ltb_spec j 4); [lia|]. reflexivity.
Qed.

Lemma js_scan_varint :
  forall f n cnt acc t, 0 <= n -> 0 <= cnt -> 0 <= acc < 2 ^ (7 * cnt) -> acc + n * 2 ^ (7 * cnt) < 2 ^ 32 ->
  (1 <= n \/ cnt = 0) -> 32 <= 7 * (cnt + Z.of_nat f) ->
  js_scan (varint_fuel f n ++ t) (7 * cnt) acc cnt = VDone (acc + n * 2 ^ (7 * cnt)) (cnt + zlen (varint_fuel f n)).
Proof.
  induction f; intros n cnt acc t Hn Hc Ha Hv Hc0 Hf; pose proof (pow2_pos (7 * cnt) ltac:(lia)) as Hpp.
  - exfalso. destruct Hc0; [|lia]. assert (2 ^ 32 <= 2 ^ (7 * cnt)) by (apply Z.pow_le_mono_r; lia). nia.
  - assert (H7 : cnt <= 4).
    { destruct (Z.lt_ge_cases 4 cnt); [|lia]. assert (2 ^ 32 <= 2 ^ (7 * cnt)) by (apply Z.pow_le_mono_r; lia).
      destruct Hc0; [nia|lia]. }
    assert (Hlast : cnt = 4 -> n < 16) by (intros ->; change (2 ^ (7 * 4)) with (2 ^ 28) in *; lia).
    cbn [varint_fuel]. destruct (Z.ltb_spec n 128).
    + cbn [app js_scan].
      assert (Z1 : (7 * cnt =? 28) && negb (Z.land n 240 =? 0) = false).
      { destruct (Z.eqb_spec (7 * cnt) 28); [|reflexivity]. rewrite land240_small by lia. reflexivity. }
      rewrite Z1, land127. replace (n mod 128) with n by lia.
      rewrite land128 by lia. destruct (Z.ltb_spec n 128); [|lia]. rewrite zlen_one. reflexivity.
    + cbn [app js_scan]. destruct (Z.eqb_spec (7 * cnt) 28); [lia|]. cbn [andb]. rewrite land127.
      assert (Hdm : n = 128 * (n / 128) + n mod 128) by lia.
      assert (Hnd : 1 <= n / 128) by lia. assert (Hm : 0 <= n mod 128 < 128) by lia.
      replace ((n mod 128 + 128) mod 128) with (n mod 128) by lia.
      rewrite land128 by lia. destruct (Z.ltb_spec (n mod 128 + 128) 128); [lia|].
      destruct (Z.ltb_spec 28 (7 * cnt + 7)); [lia|].
      set (q := n / 128) in *. set (r := n mod 128) in *.
      assert (E7 : 2 ^ (7 * (cnt + 1)) = 128 * 2 ^ (7 * cnt)).
      { replace (7 * (cnt + 1)) with (7 + 7 * cnt) by lia. rewrite Z.pow_add_r by lia. reflexivity. }
      replace (7 * cnt + 7) with (7 * (cnt + 1)) by lia.
      rewrite IHf; try lia; try (rewrite E7; nia).
      f_equal; [rewrite E7; nia|rewrite zlen_cons; lia].
Qed.

Lemma js_scan_len n t : 0 <= n < 2 ^ 32 -> js_scan (varint n ++ t) 0 0 0 = VDone n (zlen (varint n)).
Proof.
  intros Hn. unfold varint. pose proof (js_scan_varint 10 n 0 0 t) as V. change (7 * 0) with 0 in V. change (2 ^ 0) with 1 in V.
  rewrite V by lia. f_equal; lia.
Qed.

Lemma js_dstring_ok p bs data : bytes_ok data -> bytes_ok bs -> ~ In 0 bs -> utf8_ok bs = true -> 0 <= p ->
  matches data (8 * p) (raw_bytes (bs ++ [0])) -> js_dstring p data = Ok (bs, zlen bs + 1).
Proof.
  intros Hd Hb Hn Hu Hp M. pose proof M as (L & _). rewrite zlen_raw_bytes, zlen_app, zlen_one in L. pose proof (zlen_nonneg bs).
  apply matches_raw in M; auto; [|apply bytes_ok_app; split; [auto|constructor; [lia|constructor]]].
  destruct M as (t & E). rewrite <- app_assoc in E. cbn [app] in E. unfold js_dstring. rewrite E.
  destruct (js_enc_dec bs t Hu Hn) as (us & -> & _ & _ & ->). cbv zeta beta iota.
  destruct (Z.leb_spec (zlen data) (p + zlen bs)); [lia|]. rewrite rd_ok by lia. cbn [bind].
  assert (N : nth (Z.to_nat (p + zlen bs)) data 0 = 0).
  { rewrite <- (firstn_skipn (Z.to_nat p) data), E. rewrite app_nth2; rewrite firstn_length_le; unfold zlen in *; try lia.
    replace (Z.to_nat (p + Z.of_nat (length bs)) - Z.to_nat p)%nat with (length bs) by lia.
    rewrite app_nth2 by lia. rewrite Nat.sub_diag. reflexivity. }
  rewrite N. reflexivity.
Qed.

Lemma js_int_ok n p : 1 <= n <= 32 -> 0 <= p < 2 ^ n -> js_int n (sext 32 p) = sext n p.
Proof.
  intros Hn Hp. unfold js_int. destruct (Z.eqb_spec n 32) as [->|].
  - destruct (Z.ltb_spec (sext 32 p) 0); [unfold Z.lnot; lia|reflexivity].
  - assert (P : 2 ^ n <= 2 ^ (32 - 1)) by (apply Z.pow_le_mono_r; lia).
    rewrite (sext_id 32 p) by lia. pose proof (xor_lt n p ltac:(lia) Hp).
    rewrite (sext_id 32 (Z.lxor _ _)) by lia. apply xor_sub_sext; lia.
Qed.

Lemma js_dec_spec loop known feq :
  dec_spec (js_tgt loop known feq) js_dreq (js_vp known) (fun bs => utf8_ok bs = true) (2 ^ 28).
Proof.
  assert (SC : forall e w n big from base z data,
    wf_elem e -> is_fixed_scalar e = true -> 1 <= n <= elem_bits e -> storable_num e z -> r_scalar js_dreq e w n big from -> js_vp known e n z ->
    0 <= base -> 0 <= from -> bytes_ok data -> zlen data < 2 ^ 28 ->
    matches data (8 * base + from) (map Some (field_bits n big z)) ->
    js_dscalar known e w n big from base data = Ok (norm_num e n z)).
  { intros e w n big from base z data We Se Hn Sz Hw V Hb Hf Hok Hx M. pose proof (elem_bits_le e We Se).
    pose proof (field_matches_len _ _ _ _ _ M ltac:(lia)) as FL.
    pose proof (Z.mod_pos_bound z (2 ^ n) (pow2_pos n ltac:(lia))) as B.
    assert (D32 : n <= 32 -> js_dec n big from base data = Ok (sext 32 (z mod 2 ^ n))).
    { intros. rewrite js_dec_eq by (auto; lia). rewrite (read_value_matches _ _ _ _ z) by (auto; lia). reflexivity. }
    assert (D64 : js_dec_big n big from base data = Ok (z mod 2 ^ n)).
    { unfold js_dec_big. rewrite cf_dec_eq by (auto; lia). rewrite (read_value_matches _ _ _ _ z) by (auto; lia). reflexivity. }
    destruct e as [b|bits| | |]; try discriminate Se; cbn [js_dscalar elem_bits] in *.
    + cbn [wf_elem] in We. pose proof (storable_basic_norm b n z We Hn Sz) as N. pose proof (basic_bits_range b We).
      destruct b as [|t|t|t]; cbn [basic_bits js_dreq r_scalar js_vp] in *; rewrite N.
      * rewrite D32 by lia. cbn [bind]. f_equal.
        assert (2 <= 2 ^ n) by (change 2 with (2 ^ 1) at 1; apply Z.pow_le_mono_r; lia).
        cbn in Sz. rewrite Z.mod_small by lia. destruct Sz as [->| ->]; reflexivity.
      * destruct (Z.ltb_spec 32 t); [exact D64|]. rewrite D32 by lia. f_equal. apply sext_id; [lia|].
        cbn in We. destruct (Z.eq_dec t 32) as [->|].
        { destruct V; [assert (2 ^ n <= 2 ^ (32 - 1)) by (apply Z.pow_le_mono_r; lia); lia|].
          cbn in Sz. assert (z mod 2 ^ n <= z) by (apply Z.mod_le; [lia|apply pow2_pos; lia]). lia. }
        assert (2 ^ n <= 2 ^ (32 - 1)) by (apply Z.pow_le_mono_r; lia). lia.
      * destruct (Z.ltb_spec 32 t).
        { rewrite D64. cbn [bind]. assert (Ht : t = 64) by (cbn in We; lia). subst t.
          destruct (Z.eqb_spec n 32); [lia|]. f_equal. apply xor_sub_sext; lia. }
        rewrite D32 by lia. cbn [bind]. f_equal. apply js_int_ok; lia.
      * destruct (Z.ltb_spec 32 t); [exact D64|]. rewrite D32 by lia. cbn [bind]. f_equal.
        rewrite sext_mod by lia. apply mod_fit; lia.
    + cbn [js_dreq r_scalar js_vp norm_num] in *. destruct V as (V & V2). rewrite D32 by lia. cbn [bind].
      rewrite sext_id by lia. unfold jv_enum. rewrite V. reflexivity. }
  constructor; cbn [js_tgt t_dscalar t_dconst t_dloop t_dstring t_dbytes t_sstring t_sbytes t_sub t_lstart t_kt t_checked].
  - exact SC.
  - intros b n big from base z data Wb Hn (Hr & Hz) Hb Hf Hok Hx M.
    pose proof (basic_bits_range b Wb). rewrite const_field_bits in M by (auto; lia).
    assert (SB : forall P : storable_num (EBasic b) z, r_scalar js_dreq (EBasic b) 8 n big from -> js_vp known (EBasic b) n z ->
      js_dscalar known (EBasic b) 8 n big from base data = Ok (norm_num (EBasic b) n z)).
    { intros. eapply SC; eauto. }
    unfold js_dconst. destruct b as [|w|w|w]; cbn [basic_bits] in *.
    + rewrite SB; cbn; auto. cbn [bind]. f_equal. apply Z.eqb_eq. assert (2 <= 2 ^ n) by (change 2 with (2 ^ 1) at 1; apply Z.pow_le_mono_r; lia).
      apply Z.mod_small. lia.
    + destruct Hz as (Hz & Hl). assert (2 ^ n <= 2 ^ w) by (apply Z.pow_le_mono_r; lia).
      rewrite SB; [|cbn; lia|exact I|].
      2:{ cbn [js_vp]. destruct (Z.eq_dec w 32) as [->|]; [lia|]. cbn in Wb.
          destruct Wb as [->|[->|[->| ->]]]; auto; lia. }
      cbn [bind norm_num]. rewrite (Z.mod_small z (2 ^ n)), Z.eqb_refl by lia. f_equal. unfold js_big_literal.
      destruct (Z.ltb_spec 32 w), (Z.ltb_spec (2 ^ 31 - 1) z), (Z.ltb_spec z (- 2 ^ 31)); try reflexivity; lia.
    + destruct Hz as (Hz & Hl). assert (2 ^ (n - 1) <= 2 ^ (w - 1)) by (apply Z.pow_le_mono_r; lia).
      rewrite SB; [|cbn; lia| |exact I].
      2:{ cbn [js_dreq r_scalar]. destruct (Z.eq_dec w 64) as [->|]; [lia|]. cbn in Wb.
          destruct Wb as [->|[->|[->| ->]]]; auto; lia. }
      cbn [bind norm_num]. rewrite (sext_id n z), Z.eqb_refl by lia. f_equal. unfold js_big_literal.
      destruct (Z.ltb_spec 32 w), (Z.ltb_spec (2 ^ 31 - 1) z), (Z.ltb_spec z (- 2 ^ 31)); try reflexivity; try lia.
      all: exfalso; assert (2 ^ (w - 1) <= 2 ^ 31) by (apply Z.pow_le_mono_r; lia); lia.
    + destruct Hz.
  - intros e n big from base z data We Se Hn Sz Hr V Hb Hf Hok Hx M. pose proof (elem_bits_le e We Se).
    pose proof (field_matches_len _ _ _ _ _ M ltac:(lia)) as FL.
    pose proof (Z.mod_pos_bound z (2 ^ n) (pow2_pos n ltac:(lia))) as B.
    unfold js_dloop. rewrite cf_read_bits_ok by (auto; lia). cbn [bind]. rewrite (read_value_matches _ _ _ _ z) by (auto; lia).
    destruct e as [b|bits| | |]; try discriminate Se; cbn [elem_bits] in *.
    + cbn [wf_elem] in We. pose proof (storable_basic_norm b n z We Hn Sz) as N.
      destruct b as [|w|w|w]; cbn [basic_bits storable_num] in *; rewrite N.
      * assert (2 <= 2 ^ n) by (change 2 with (2 ^ 1) at 1; apply Z.pow_le_mono_r; lia).
        rewrite Z.mod_small by lia. destruct Sz as [->| ->]; reflexivity.
      * reflexivity.
      * reflexivity.
      * f_equal. apply mod_fit; lia.
    + cbn [js_vp norm_num] in *. unfold jv_enum. destruct V as (-> & _). reflexivity.
  - intros p bs data Hbs Hn0 Hu Hp Hok Hx M. apply js_dstring_ok; auto.
  - intros p bs data Hbs Hl Hp Hok Hx M. pose proof (zlen_nonneg bs). pose proof (zlen_nonneg (varint (zlen bs))).
    destruct (bytes_at p bs data) as (L & t & E & E2); auto; try lia.
    rewrite bytes_size_ok, zlen_app in *. unfold js_dbytes. rewrite E, js_scan_len by lia.
    destruct (Z.ltb_spec (zlen data - (p + zlen (varint (zlen bs)))) (zlen bs)); [lia|].
    rewrite E2. replace (Z.to_nat (zlen bs)) with (length bs) by (unfold zlen; lia). rewrite firstn_app_len. reflexivity.
  - intros fb off bs data Hbs Hn0 Hf Ho Hok Hx M. f_equal. apply (dsize_string_match bs data fb off); auto.
  - intros fb off bs data Hbs Hl Hf Ho Hok Hx M. pose proof (zlen_nonneg bs). pose proof (zlen_nonneg (varint (zlen bs))).
    destruct (bytes_at (off + fb) bs data) as (L & t & E & _); auto; try lia.
    rewrite bytes_size_ok, zlen_app in *. unfold js_sbytes. rewrite E, js_scan_len by lia.
    destruct (Z.ltb_spec (zlen data) (off + zlen (varint (zlen bs)) + fb + zlen bs)); [lia|]. do 2 f_equal. lia.
  - auto.
  - auto.
  - discriminate.
Qed.
