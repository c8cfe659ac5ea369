(** The C and C++ targets (generator/target/c/c.go, generator/target/cpp/cpp.go; lines are given for c.go,
    the C++ copies are: encode 1601-1690, 1760-1870, 1895-2293; decode 2429-2460, 2604-2660, 2725-2905,
    2950-3420).  The two generators emit the same statements up to cast syntax, so one model serves both;
    they differ in the width of enum variables ([ew], below).

    Reading or writing outside the buffer, shifting by the width of the type or more, and overflow of int
    are undefined behaviour: Panic.  Left shifts of non-negative signed integers into the sign bit are
    taken as two's complement, as every C compiler in use does.  Strings are C strings (strlen), so bytes
    after a zero byte are not part of the value.  [ew bits] is the number of bits of a variable of an enum
    declared with [bits] bits: in C++ the underlying type ("enum class X : uintN_t", cpp.go:1453-1463,
    enum_temp_bits bits), in C whatever the compiler chooses for the enumerators (c.go:1384).
    [feq w p z]: the integer [p] converted to floating point equals the literal with bits [z]. *)
From Coq Require Import ZArith List Bool Lia.
From Verif Require Import Base BaseProofs Schema SpecWire GoModel GoBitProofs GoEncProofs GoDecProofs GoRound
  GoEncMain GoPrefix GoCore CfBits CfBitProofs TgtModel TgtEncProofs TgtDecProofs TgtPrims PyTarget KtTarget.
Import ListNotations.
Open Scope Z_scope.
Ltac Zify.zify_post_hook ::= Z.to_euclidean_division_equations.

(** Inline encoding: c.go:1786-1820, 1990-2010, 2066-2117.  Numbers go through an unsigned view of the
    variable; enums through a temporary of [w] bits.  If there is no unsigned type of that width,
    typeSizeMapUint gives the zero TypeID, bool, and typeSizeToUintStr the text "bool"
    (c.go:1468-1485), so only zero or one is written. *)
Definition c_escalar (e : elem) (w n : Z) (big : bool) (from base z : Z) (buf : list Z) : res (list Z) :=
  match e with
  | EBasic b => cf_enc (field_data n big (z mod 2 ^ basic_bits b)) from n base buf
  | EEnum _ =>
      if has_uint w then cf_enc (field_data n big (z mod 2 ^ w)) from n base buf
      else cf_enc (field_data n big (if z =? 0 then 0 else 1)) from n base buf
  | _ => Panic
  end.

(** generateEncodeConstantField, c.go:1745-1770. *)
Definition c_econst (b : basic) (n : Z) (big : bool) (from base z : Z) (buf : list Z) : res (list Z) :=
  cf_enc (const_data (basic_bits b) big z) from n base buf.

(** Array loops, c.go:1870-1940, 1697-1730: the element as uint64_t. *)
Definition c_eloop (e : elem) (n : Z) (big : bool) (pos z : Z) (buf : list Z) : res (list Z) :=
  cf_write_bits pos n (z mod 2 ^ 64) big buf.

(** Inline decoding of a number: c.go:3003-3120; enums 2730-2760. *)
Definition c_int (arith : bool) (w n p : Z) : Z :=
  if n <? w then (if arith then sx_arith w n p else sx_shift w n p) else sext w p.
Definition c_dscalar (arith : bool) (ew : Z -> Z) (e : elem) (w n : Z) (big : bool) (from base : Z) (data : list Z) : res Z :=
  match e with
  | EBasic (BInt t) => do p <- cf_dec t n big from base data; Ok (c_int arith t n p)
  | EBasic b => cf_dec (basic_bits b) n big from base data
  | EEnum bits =>
      do p <- (if has_uint w then cf_dec w n big from base data else cf_dec 8 n big from base data);
      Ok (p mod 2 ^ ew bits)
  | _ => Panic
  end.

(** generateDecodeConstantField, c.go:2664-2713: the field is decoded, at its declared type, into a
    temporary with the width of the field.  An unsigned type is assigned to it; for any other type the
    temporary is written through a pointer to an unsigned integer of the declared width, out of bounds if
    that is wider.  The comparison promotes a temporary narrower than int, and converts the literal
    otherwise; but "-2147483648" is minus a number too large for int, so it has 64 bits, and the other
    side is converted. *)
Definition c_dconst (feq : Z -> Z -> Z -> bool) (arith : bool) (b : basic) (n : Z) (big : bool) (from base z : Z)
  (data : list Z) : res bool :=
  let tw := enum_temp_bits n in
  match b with
  | BUint w => do p <- cf_dec w n big from base data; Ok (p mod 2 ^ tw =? z)
  | BInt w =>
      if tw <? w then Panic
      else
        do p <- cf_dec w n big from base data;
        let t := c_int arith w n p mod 2 ^ tw in
        Ok (if (tw <? 32) || ((tw =? 32) && (z <=? - 2 ^ 31)) then t =? z else t =? z mod 2 ^ tw)
  | BBool => do p <- cf_dec 8 n big from base data; Ok (p mod 2 ^ tw =? z)
  | BFloat w => if tw <? w then Panic else do p <- cf_dec w n big from base data; Ok (feq w p z)
  end.

(** Array loops: c.go:2820-2900, 2611-2653, decodeBasicValueExpr 119-149. *)
Definition c_dloop (arith : bool) (ew : Z -> Z) (e : elem) (n : Z) (big : bool) (pos : Z) (data : list Z) : res Z :=
  do v <- cf_read_bits pos n big data;
  match e with
  | EBasic BBool => Ok (if v =? 0 then 0 else 1)
  | EBasic (BInt w) =>
      Ok (if w <=? n then sext w v
          else if arith then (let m := Z.shiftl 1 (n - 1) in sext w (sext w (Z.lxor v m) - m))
          else sext w (Z.shiftr (sext w (Z.shiftl (v mod 2 ^ w) (w - n))) (w - n)))
  | EBasic (BUint w) | EBasic (BFloat w) => Ok (v mod 2 ^ w)
  | EEnum bits => Ok (v mod 2 ^ ew bits)
  | _ => Panic
  end.

(** decodeNormalFieldBytes, c.go:2575-2590: "(byte & 0x7F) << shift" is computed in int. *)
Definition c_put_int (acc p s : Z) : res Z :=
  if (s <? 32) && (Z.shiftl p s <? 2 ^ 31) then Ok (Z.lor acc (Z.shiftl p s)) else Panic.
(** decode_size, c.go:2368-2382: in uint64_t, without a bound on the shift. *)
Definition c_put_u64 (acc p s : Z) : res Z :=
  if s <? 64 then Ok (Z.lor acc (Z.shiftl p s mod 2 ^ 64)) else Panic.
(** The end position is computed in uint64_t and returned as -(int64_t)(...), c.go:2380. *)
Definition c_sbytes (data : list Z) (fb off : Z) : res dstep :=
  do d <- g_sbytes false c_put_u64 (fun _ => false) (fun x => x mod 2 ^ 64) data fb off;
  Ok match d with DRet r => DRet (sext 64 r) | DOff o => DOff o end.

Definition c_tgt (loop : nat -> bool) (arith : bool) (ew : Z -> Z) (feq : Z -> Z -> Z -> bool) : tgt := {|
  t_loop := loop;                                      (* c.go:1824, loopUnroll *)
  t_kt := false;
  t_lstart := true;                                    (* nested calls get a pointer to their first byte *)
  t_escalar := c_escalar;
  t_econst := c_econst;
  t_eloop := c_eloop;
  t_estring := g_estring;                              (* c.go:1673-1680 *)
  t_ebytes := g_ebytes;                                (* c.go:1682-1692 *)
  t_bsize := g_bsize 9;                                (* c.go:1494-1560 *)
  t_dscalar := c_dscalar arith ew;
  t_dconst := c_dconst feq arith;
  t_dloop := c_dloop arith ew;
  t_dstring := g_dstring (fun l => Ok l);              (* c.go:2559-2571 *)
  t_dbytes := g_dbytes c_put_int true;                 (* c.go:2573-2590 *)
  t_checked := false;
  t_sstring := fun data fb off => Ok (dsize_string data fb off);   (* c.go:2390-2396 *)
  t_sbytes := c_sbytes;
  t_sub := fun _ data p => Ok (skipn (Z.to_nat p) data)            (* c.go:2414-2419 *)
|}.

(** What the C-family encoder needs: the bits of the field fill the bytes they touch in the pattern
    generateEncodeImpl handles. *)
Definition c_ereq : treq :=
  {| r_scalar := fun e w n big from => cf_good n from /\ (forall bits, e = EEnum bits -> has_uint w = true /\ n <= w);
     r_const := fun b n big from z => cf_good n from;
     r_loop := fun e n big from => cf_good n from;
     r_nested := True |}.
(** What the decoder needs. *)
Definition c_dreq : treq :=
  {| r_scalar := fun e w n big from => forall bits, e = EEnum bits -> has_uint w = true /\ n <= w;
     r_const := fun b n big from z =>
       (big = false \/ n = basic_bits b) /\
       match b with
       | BUint _ => 0 <= z < 2 ^ n
       | BInt w => enum_temp_bits n = w /\ - 2 ^ (n - 1) <= z < 2 ^ (n - 1) /\ (0 <= z \/ 32 <= w) /\ (w = 32 -> - 2 ^ 31 < z)
       | BBool => z = 0 \/ z = 1
       | BFloat _ => False
       end;
     r_loop := fun _ _ _ _ => True;
     r_nested := True |}.
(** Enum numbers must be representable in the variable. *)
Definition c_vp (ew : Z -> Z) (e : elem) (n z : Z) : Prop :=
  match e with EEnum bits => 0 <= ew bits /\ z mod 2 ^ n < 2 ^ ew bits | _ => True end.

(** ** Proofs *)
Lemma cf_good_base n from base : cf_good n from -> cf_good n (8 * base + from).
Proof. unfold cf_good. intros [H|[H|H]]; [left|right; left|right; right]; lia. Qed.

Lemma c_scalar_overlay e w n big from base lim z buf :
  wf_elem e -> is_fixed_scalar e = true -> 1 <= n <= elem_bits e -> storable_num e z ->
  r_scalar c_ereq e w n big from -> 0 <= base -> 0 <= from -> room true (2 ^ 31) buf (8 * base + from) n lim ->
  exists b, c_escalar e w n big from base z buf = Ok b /\ overlay buf (8 * base + from) (map Some (field_bits n big z)) b.
Proof.
  intros We Se Hn Sz (G & Hw) Hb Hf (Hok & Hm & _ & Hl & Hl2 & _ & Hz). specialize (Hz eq_refl).
  destruct e as [b|bits| | |]; try discriminate Se; cbn [c_escalar elem_bits] in *.
  - eapply cf_enc_basic_overlay; eauto; lia.
  - destruct (Hw bits eq_refl) as (Hu & Hle). rewrite Hu. eapply cf_enc_basic_overlay; eauto; lia.
Qed.

Lemma c_enc_spec loop arith ew feq : enc_spec (c_tgt loop arith ew feq) c_ereq true (2 ^ 31).
Proof.
  constructor; cbn [c_tgt t_escalar t_econst t_eloop t_estring t_ebytes t_bsize t_lstart].
  - intros. eapply c_scalar_overlay; eauto.
  - intros b n big from base lim z buf Wb Hn G Hb Hf (Hok & Hm & _ & Hl & Hl2 & _ & Hz). specialize (Hz eq_refl).
    eapply cf_enc_const_overlay; eauto; lia.
  - intros e n big from base lim z buf We Se Hn Sz G Hb Hf (Hok & Hm & _ & Hl & Hl2 & _ & Hz). specialize (Hz eq_refl).
    pose proof (elem_bits_le e We Se). unfold c_eloop. change (z mod 2 ^ 64) with (loop_value z).
    eapply cf_write_bits_overlay; eauto using cf_good_base; lia.
  - intros p lim bs buf Hbs Hn0 Hp (Hok & _ & _ & Hl & Hl2 & _). apply g_estring_ok; auto; lia.
  - intros p lim bs buf Hbs Hn Hp (Hok & _ & _ & Hl & Hl2 & _). apply g_ebytes_ok; auto; lia.
  - intros bs Hl1 Hl2. apply g_bsize_ok; [lia|]. change (7 * (Z.of_nat 9 + 1)) with 70. lia.
  - reflexivity.
Qed.

Lemma c_int_ok arith w n p : 1 <= n <= w -> 0 <= p < 2 ^ n -> c_int arith w n p = sext n p.
Proof.
  intros Hn Hp. unfold c_int. destruct (Z.ltb_spec n w).
  - destruct arith; [apply sx_arith_ok; auto; lia|apply sx_shift_ok; lia].
  - assert (n = w) by lia. subst. reflexivity.
Qed.

Lemma c_put_int_ok : put_ok c_put_int 31.
Proof.
  intros acc p s Hs Ha Hp Hv. unfold c_put_int. pose proof (pow2_pos s ltac:(lia)).
  destruct (Z.ltb_spec s 32); [|lia]. rewrite Z.shiftl_mul_pow2 by lia.
  destruct (Z.ltb_spec (p * 2 ^ s) (2 ^ 31)); [|nia]. cbn [andb].
  rewrite <- Z.shiftl_mul_pow2 by lia. rewrite lor_disjoint by lia. rewrite Z.shiftl_mul_pow2 by lia. reflexivity.
Qed.

Lemma c_put_u64_ok : put_ok c_put_u64 31.
Proof.
  intros acc p s Hs Ha Hp Hv. unfold c_put_u64. pose proof (pow2_pos s ltac:(lia)).
  destruct (Z.ltb_spec s 64); [|lia]. rewrite Z.mod_small by (rewrite Z.shiftl_mul_pow2 by lia; nia).
  rewrite lor_disjoint by lia. reflexivity.
Qed.

Lemma field_matches_len data pos n big z : matches data pos (map Some (field_bits n big z)) -> 1 <= n -> pos + n <= 8 * zlen data.
Proof.
  intros (L & _) Hn. unfold zlen in L at 1. rewrite map_length in L.
  unfold field_bits in L. rewrite map_length, seq_length in L. lia.
Qed.

Lemma storable_basic_norm b n z : wf_basic b -> 1 <= n <= basic_bits b -> storable_num (EBasic b) z ->
  match b with BInt _ => norm_num (EBasic b) n z = sext n (z mod 2 ^ n) | _ => norm_num (EBasic b) n z = z mod 2 ^ n end.
Proof. intros Wb Hn Sz. destruct b; cbn [norm_num]; auto. unfold sext. rewrite Z.mod_mod by lia. reflexivity. Qed.

Lemma c_dec_spec loop arith ew feq :
  dec_spec (c_tgt loop arith ew feq) c_dreq (c_vp ew) (fun _ => True) (2 ^ 31).
Proof.
  constructor; cbn [c_tgt t_dscalar t_dconst t_dloop t_dstring t_dbytes t_sstring t_sbytes t_sub t_lstart t_kt t_checked].
  - intros e w n big from base z data We Se Hn Sz Hw V Hb Hf Hok Hx M. pose proof (elem_bits_le e We Se).
    pose proof (field_matches_len _ _ _ _ _ M ltac:(lia)) as FL.
    pose proof (Z.mod_pos_bound z (2 ^ n) (pow2_pos n ltac:(lia))) as B.
    destruct e as [b|bits| | |]; try discriminate Se; cbn [c_dscalar elem_bits] in *.
    + cbn [wf_elem] in We. pose proof (storable_basic_norm b n z We Hn Sz) as N. pose proof (basic_bits_range b We).
      destruct b; cbn [basic_bits] in *; rewrite cf_dec_eq by (auto; lia); cbn [bind];
        rewrite (read_value_matches _ _ _ _ z) by (auto; lia); rewrite ?N; auto.
      rewrite c_int_ok by (auto; lia). reflexivity.
    + destruct (Hw bits eq_refl) as (Hu & Hle). rewrite Hu. pose proof (has_uint_range w Hu).
      rewrite cf_dec_eq by (auto; lia). cbn [bind]. rewrite (read_value_matches _ _ _ _ z) by (auto; lia).
      cbn [c_vp] in V. cbn [norm_num]. f_equal. apply Z.mod_small. lia.
  - intros b n big from base z data Wb Hn (Hr & Hz) Hb Hf Hok Hx M.
    pose proof (basic_bits_range b Wb). rewrite const_field_bits in M by (auto; lia).
    pose proof (field_matches_len _ _ _ _ _ M ltac:(lia)) as FL.
    pose proof (Z.mod_pos_bound z (2 ^ n) (pow2_pos n ltac:(lia))) as B.
    assert (H64 : 1 <= n <= 64) by lia. destruct (enum_temp_ok n H64) as (Ht & Htn).
    unfold c_dconst. destruct b as [|w|w|w]; cbn [basic_bits] in *.
    + rewrite cf_dec_eq by (auto; lia). cbn [bind]. rewrite (read_value_matches _ _ _ _ z) by (auto; lia).
      f_equal. apply Z.eqb_eq. rewrite mod_fit by lia. apply Z.mod_small.
      assert (2 <= 2 ^ n) by (change 2 with (2 ^ 1) at 1; apply Z.pow_le_mono_r; lia). lia.
    + rewrite cf_dec_eq by (auto; lia). cbn [bind]. rewrite (read_value_matches _ _ _ _ z) by (auto; lia).
      f_equal. apply Z.eqb_eq. rewrite mod_fit by lia. apply Z.mod_small. lia.
    + destruct Hz as (Et & Hz & Hs & Hm32). destruct (Z.ltb_spec (enum_temp_bits n) w); [lia|].
      rewrite cf_dec_eq by (auto; lia). cbn [bind]. rewrite (read_value_matches _ _ _ _ z) by (auto; lia).
      rewrite c_int_ok by (auto; lia). f_equal. rewrite Et.
      replace (sext n (z mod 2 ^ n)) with z.
      2:{ symmetry. transitivity (sext n z); [apply sext_congr; apply Z.mod_mod; lia|apply sext_id; lia]. }
      assert (Z32 : (w =? 32) && (z <=? - 2 ^ 31) = false).
      { destruct (Z.eqb_spec w 32); [|reflexivity]. cbn [andb]. apply Z.leb_gt. tauto. }
      rewrite Z32, orb_false_r. destruct (Z.ltb_spec w 32); [|apply Z.eqb_refl]. apply Z.eqb_eq. apply Z.mod_small.
      assert (2 ^ (n - 1) <= 2 ^ w) by (apply Z.pow_le_mono_r; lia). lia.
    + destruct Hz.
  - intros e n big from base z data We Se Hn Sz _ V Hb Hf Hok Hx M. pose proof (elem_bits_le e We Se).
    pose proof (field_matches_len _ _ _ _ _ M ltac:(lia)) as FL.
    pose proof (Z.mod_pos_bound z (2 ^ n) (pow2_pos n ltac:(lia))) as B.
    unfold c_dloop. rewrite cf_read_bits_ok by (auto; lia). cbn [bind]. rewrite (read_value_matches _ _ _ _ z) by (auto; lia).
    destruct e as [b|bits| | |]; try discriminate Se; cbn [elem_bits] in *.
    + cbn [wf_elem] in We. pose proof (storable_basic_norm b n z We Hn Sz) as N.
      destruct b as [|w|w|w]; cbn [basic_bits storable_num] in *; rewrite N; f_equal.
      * assert (2 <= 2 ^ n) by (change 2 with (2 ^ 1) at 1; apply Z.pow_le_mono_r; lia).
        rewrite Z.mod_small by lia. destruct Sz as [->| ->]; reflexivity.
      * apply mod_fit; lia.
      * destruct (Z.leb_spec w n); [assert (n = w) by lia; subst; reflexivity|]. destruct arith.
        -- pose proof (sx_arith_ok w n (z mod 2 ^ n) ltac:(lia) B) as S. unfold sx_arith in S.
           rewrite (sext_id w (z mod 2 ^ n)) in S.
           2: lia.
           2:{ assert (2 ^ n <= 2 ^ (w - 1)) by (apply Z.pow_le_mono_r; lia). pose proof (pow2_pos (w - 1)). lia. }
           cbn zeta. etransitivity; [|exact S]. apply sext_congr.
           rewrite Zminus_mod, sext_mod, <- Zminus_mod by lia. reflexivity.
        -- pose proof (sx_shift_ok w n (z mod 2 ^ n) ltac:(lia)) as S. unfold sx_shift in S.
           rewrite (sext_id w (z mod 2 ^ n)) in S.
           2: lia.
           2:{ assert (2 ^ n <= 2 ^ (w - 1)) by (apply Z.pow_le_mono_r; lia). pose proof (pow2_pos (w - 1)). lia. }
           rewrite mod_fit by lia. rewrite S. apply sext_fit; lia.
      * apply mod_fit; lia.
    + cbn [c_vp norm_num] in *. f_equal. apply Z.mod_small. lia.
  - intros p bs data Hbs Hn0 _ Hp Hok Hx M. apply g_dstring_ok; auto.
  - intros p bs data Hbs Hl Hp Hok Hx M. apply (g_dbytes_ok c_put_int true 31); auto; [lia|apply c_put_int_ok].
  - intros fb off bs data Hbs Hn0 Hf Ho Hok Hx M. f_equal. apply (dsize_string_match bs data fb off); auto.
  - intros fb off bs data Hbs Hl Hf Ho Hok Hx M. unfold c_sbytes.
    rewrite (g_sbytes_ok false c_put_u64 _ _ 31 fb off bs); auto; [lia|apply c_put_u64_ok| |].
    + intros s Hs Hm. reflexivity.
    + intros x Hx2. apply Z.mod_small. lia.
  - reflexivity.
  - reflexivity.
  - discriminate.
Qed.
