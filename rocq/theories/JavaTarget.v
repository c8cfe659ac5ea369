(** The Java target (generator/target/java/java.go).

    Java has no unsigned types: a uintW is kept in a signed W-bit variable, and is represented here by its
    value modulo 2^W; bytes are represented modulo 256.  Enum references may be null (forNumber gives null
    for a number that is not a member): null is represented by -1 and getNumber() on it raises.  Enum
    numbers are ints (1120-1155).  Strings are represented by their UTF-8 bytes, [repl] is what the decoder
    makes of other bytes.  A class that does not compile is Panic.  Shift distances are taken modulo 32
    for int.  The length of a byte string may be read as a negative int; positions after such a field
    are not modelled faithfully (off + fb is cut to zero), nothing is claimed about them. *)
From Coq Require Import ZArith List Bool Lia.
From Verif Require Import Base BaseProofs Schema SpecWire GoModel GoBitProofs GoEncProofs GoDecProofs GoRound
  GoEncMain GoPrefix GoCore CfBits CfBitProofs TgtModel TgtEncProofs TgtDecProofs TgtPrims PyTarget KtTarget CTarget.
Import ListNotations.
Open Scope Z_scope.
Ltac Zify.zify_post_hook ::= Z.to_euclidean_division_equations.

(** Inline encoding, 1523-1600, 1730-1830, 1881-1925: the operand is a signed variable, shifted right
    arithmetically.  Enums: a temporary of [w] bits; "boolean" if there is no such type (does not compile). *)
Definition jv_escalar (e : elem) (w n : Z) (big : bool) (from base z : Z) (buf : list Z) : res (list Z) :=
  match e with
  | EBasic b => cf_enc (field_data n big (sext (basic_bits b) z)) from n base buf
  | EEnum _ =>
      if z =? -1 then Panic
      else if has_uint w then cf_enc (field_data n big (sext w z)) from n base buf else Panic
  | _ => Panic
  end.

(** Array loops, 1679-1728: "(long)element" sign-extends. *)
Definition jv_eloop (e : elem) (n : Z) (big : bool) (pos z : Z) (buf : list Z) : res (list Z) :=
  match e with
  | EBasic (BUint w) | EBasic (BInt w) => cf_write_bits pos n (sext w z mod 2 ^ 64) big buf
  | EBasic _ => cf_write_bits pos n z big buf
  | EEnum _ => if z =? -1 then Panic else cf_write_bits pos n (sext 32 z mod 2 ^ 64) big buf
  | _ => Panic
  end.

Definition jv_enum (known : Z -> Z -> bool) (bits v : Z) : res Z := Ok (if known bits v then v else -1).

(** Inline decoding, 2532-2700, 2740-2875, 2931-3020.  bool: through a byte.  float: through a signed
    temporary with the width of the field (single fields) or of the type (arrays), widened.  Integers:
    always "(x ^ mask) - mask".  Enums: a temporary of [w] bits and forNumber, which exists for byte,
    short and int. *)
Definition jv_dscalar (known : Z -> Z -> bool) (e : elem) (w n : Z) (big : bool) (from base : Z) (data : list Z) : res Z :=
  match e with
  | EBasic BBool => do p <- cf_dec 8 n big from base data; Ok (if p =? 0 then 0 else 1)
  | EBasic (BUint t) => cf_dec t n big from base data
  | EBasic (BInt t) => do p <- cf_dec t n big from base data; Ok (sx_arith t n p)
  | EBasic (BFloat t) => do p <- cf_dec w n big from base data; Ok (sext w p mod 2 ^ t)
  | EEnum bits =>
      if (w =? 8) || (w =? 16) then do p <- cf_dec w n big from base data; jv_enum known bits p
      else if w =? 32 then do p <- cf_dec w n big from base data; jv_enum known bits (sext 32 p)
      else Panic
  | _ => Panic
  end.

(** Constants, 2472-2511: decoded at the declared type and assigned to a temporary with the width of the
    field, which does not compile if that is narrower or the type is boolean or floating. *)
Definition jv_dconst (b : basic) (n : Z) (big : bool) (from base z : Z) (data : list Z) : res bool :=
  let tw := enum_temp_bits n in
  if tw <? basic_bits b then Panic
  else
    match b with
    | BUint w => do p <- cf_dec w n big from base data; Ok (sext w p =? sext tw z)
    | BInt w => do p <- cf_dec w n big from base data; Ok (sx_arith w n p =? sext tw z)
    | _ => Panic
    end.

(** Array loops, 2712-2756, decodeBasicValueExpr 102-133.  The mask of intSignExtArith carries its own
    suffix L from bit 31 on (3320-3330), and the template adds another: does not compile. *)
Definition jv_dloop (arith : bool) (known : Z -> Z -> bool) (e : elem) (n : Z) (big : bool) (pos : Z) (data : list Z) : res Z :=
  do v <- cf_read_bits pos n big data;
  let l := sext 64 v in
  match e with
  | EBasic BBool => Ok (if l =? 0 then 0 else 1)
  | EBasic (BInt w) =>
      if w <=? n then Ok (sext w l)
      else if arith then
        (if 32 <=? n then Panic else let m := Z.shiftl 1 (n - 1) in Ok (sext w (sext 64 (Z.lxor l m - m))))
      else Ok (sext w (Z.shiftr (sext 64 (Z.shiftl l (64 - n))) (64 - n)))
  | EBasic (BUint w) | EBasic (BFloat w) => Ok (l mod 2 ^ w)
  | EEnum bits => jv_enum known bits (sext 32 l)
  | _ => Panic
  end.

Definition jv_tgt (loop : nat -> bool) (arith : bool) (known : Z -> Z -> bool) (repl : list Z -> list Z) : tgt := {|
  t_loop := loop;
  t_kt := false;
  t_lstart := false;                                   (* 1682-1704, 2719-2741: "start" is missing *)
  t_escalar := jv_escalar;
  t_econst := c_econst;                                (* 1488-1513 *)
  t_eloop := jv_eloop;
  t_estring := g_estring;                              (* 1434-1441 *)
  t_ebytes := g_ebytes;                                (* 1443-1451 *)
  t_bsize := g_bsize 4;                                (* 1249-1278 *)
  t_dscalar := jv_dscalar known;
  t_dconst := jv_dconst;
  t_dloop := jv_dloop arith known;
  t_dstring := g_dstring (fun l => Ok (if utf8_ok l then l else repl l));   (* 2398-2405 *)
  t_dbytes := g_dbytes kt_put true;                    (* 2407-2417 *)
  t_checked := true;                                   (* 2107 *)
  t_sstring := fun data fb off => Ok (dsize_string data fb off);            (* 2216-2225 *)
  t_sbytes := g_sbytes false kt_put (fun _ => false) (sext 32);             (* 2226-2241 *)
  t_sub := fun _ data p => Ok (skipn (Z.to_nat p) data)                     (* data.length - start *)
|}.

Definition jv_ereq : treq :=
  {| r_scalar := fun e w n big from => cf_good n from /\ (forall bits, e = EEnum bits -> has_uint w = true /\ n <= w);
     r_const := fun b n big from z => cf_good n from;
     r_loop := fun e n big from => cf_good n from /\ (forall bits, e = EEnum bits -> n <= 32);
     r_nested := False |}.
Definition jv_dreq (arith : bool) : treq :=
  {| r_scalar := fun e w n big from =>
       match e with
       | EBasic (BFloat t) => has_uint w = true /\ n <= w <= t /\ (w = t \/ n < w)
       | EEnum _ => (w = 8 \/ w = 16 \/ w = 32) /\ n <= w
       | _ => True
       end;
     r_const := fun b n big from z =>
       (big = false \/ n = basic_bits b) /\ basic_bits b = enum_temp_bits n /\
       match b with
       | BUint _ => 0 <= z < 2 ^ n
       | BInt w => - 2 ^ (n - 1) <= z < 2 ^ (n - 1)
       | _ => False
       end;
     r_loop := fun e n big from => match e with EBasic (BInt w) => arith = false \/ n < 32 \/ w <= n | _ => True end;
     r_nested := False |}.
(** Enum numbers must be members and fit int. *)
Definition jv_vp (known : Z -> Z -> bool) (e : elem) (n z : Z) : Prop :=
  match e with EEnum bits => known bits (z mod 2 ^ n) = true /\ z mod 2 ^ n < 2 ^ 31 | _ => True end.

(** ** Proofs *)
Lemma field_bits_congr n big z z' : 0 <= n -> z mod 2 ^ n = z' mod 2 ^ n -> field_bits n big z = field_bits n big z'.
Proof.
  intros Hn E. unfold field_bits. apply map_ext_in. intros k Hk. apply in_seq in Hk.
  assert (B : 0 <= value_bit n big (Z.of_nat k) < n) by (apply value_bit_range; lia).
  assert (T : forall x, Z.testbit x (value_bit n big (Z.of_nat k)) = Z.testbit (x mod 2 ^ n) (value_bit n big (Z.of_nat k))).
  { intros x. rewrite testbit_mod by lia. destruct (Z.ltb_spec (value_bit n big (Z.of_nat k)) n); [reflexivity|lia]. }
  rewrite (T z), (T z'), E. reflexivity.
Qed.

Lemma mod_mod_le x n w : 0 <= n <= w -> (x mod 2 ^ w) mod 2 ^ n = x mod 2 ^ n.
Proof.
  intros H. replace (2 ^ w) with (2 ^ n * 2 ^ (w - n)) by (rewrite <- Z.pow_add_r by lia; f_equal; lia).
  pose proof (pow2_pos n ltac:(lia)). pose proof (pow2_pos (w - n) ltac:(lia)).
  rewrite Z.rem_mul_r by lia. rewrite Z.mul_comm, Z.mod_add, Z.mod_mod by lia. reflexivity.
Qed.

Lemma sext_mod_le w n z : 1 <= n <= w -> sext w z mod 2 ^ n = z mod 2 ^ n.
Proof. intros H. rewrite <- (mod_mod_le (sext w z) n w), sext_mod, mod_mod_le by lia. reflexivity. Qed.

(** Packing any integer congruent to the value. *)
Lemma cf_enc_congr n big from base lim z x buf : 1 <= n ->
  x mod 2 ^ n = z mod 2 ^ n -> 0 <= base -> 0 <= from -> cf_good n from -> lim mod 8 = 0 -> bytes_ok buf ->
  8 * base + from + n <= lim -> lim <= 8 * zlen buf -> zeros buf (8 * base + from) lim ->
  exists buf', cf_enc (field_data n big x) from n base buf = Ok buf' /\
    overlay buf (8 * base + from) (map Some (field_bits n big z)) buf'.
Proof.
  intros Hn E Hb Hf G Hl Hok H1 H2 Hz.
  rewrite <- (field_bits_congr n big x z), map_Some_field_bits by (auto; lia).
  apply cf_enc_overlay with (lim := lim); auto. intros k Hk. apply field_data_bit. lia.
Qed.
Lemma cf_write_congr pos n big lim z x buf : 1 <= n <= 64 ->
  x mod 2 ^ n = z mod 2 ^ n -> 0 <= pos -> cf_good n pos -> lim mod 8 = 0 -> bytes_ok buf ->
  pos + n <= lim -> lim <= 8 * zlen buf -> zeros buf pos lim ->
  exists buf', cf_write_bits pos n (x mod 2 ^ 64) big buf = Ok buf' /\ overlay buf pos (map Some (field_bits n big z)) buf'.
Proof.
  intros Hn E Hb G Hl Hok H1 H2 Hz. rewrite <- (field_bits_congr n big x z) by (auto; lia).
  change (x mod 2 ^ 64) with (loop_value x). eapply cf_write_bits_overlay; eauto.
Qed.

Lemma jv_enc_spec loop arith known repl : enc_spec (jv_tgt loop arith known repl) jv_ereq true (2 ^ 31).
Proof.
  constructor; cbn [jv_tgt t_escalar t_econst t_eloop t_estring t_ebytes t_bsize t_lstart].
  - intros e w n big from base lim z buf We Se Hn Sz (G & Hw) Hb Hf (Hok & Hm & _ & Hl & Hl2 & _ & Hz). specialize (Hz eq_refl).
    destruct e as [b|bits| | |]; try discriminate Se; cbn [jv_escalar elem_bits] in *.
    + eapply cf_enc_congr; eauto; try lia. apply sext_mod_le. lia.
    + cbn in Sz. destruct (Z.eqb_spec z (-1)); [lia|]. destruct (Hw bits eq_refl) as (Hu & Hle). rewrite Hu.
      eapply cf_enc_congr; eauto; try lia. apply sext_mod_le. lia.
  - intros b n big from base lim z buf Wb Hn G Hb Hf (Hok & Hm & _ & Hl & Hl2 & _ & Hz). specialize (Hz eq_refl).
    eapply cf_enc_const_overlay; eauto; lia.
  - intros e n big from base lim z buf We Se Hn Sz (G & Hw) Hb Hf (Hok & Hm & _ & Hl & Hl2 & _ & Hz). specialize (Hz eq_refl).
    pose proof (elem_bits_le e We Se). apply (cf_good_base n from base) in G.
    assert (W : forall w, n <= w -> exists buf', cf_write_bits (8 * base + from) n (sext w z mod 2 ^ 64) big buf = Ok buf' /\
      overlay buf (8 * base + from) (map Some (field_bits n big z)) buf').
    { intros w Hnw. eapply cf_write_congr; eauto; try lia. apply sext_mod_le. lia. }
    assert (V : 0 <= z < 2 ^ 64 -> exists buf', cf_write_bits (8 * base + from) n z big buf = Ok buf' /\
      overlay buf (8 * base + from) (map Some (field_bits n big z)) buf').
    { intros Hzz. pose proof (cf_write_congr (8 * base + from) n big lim z z buf) as W2. rewrite (Z.mod_small z (2 ^ 64)) in W2 by lia.
      apply W2; auto; lia. }
    destruct e as [b|bits| | |]; try discriminate Se; cbn [jv_eloop elem_bits storable_num] in *.
    + destruct b as [|w|w|w]; cbn [basic_bits] in *; try (apply W; lia); apply V.
      * lia.
      * assert (2 ^ w <= 2 ^ 64) by (apply Z.pow_le_mono_r; lia). lia.
    + destruct (Z.eqb_spec z (-1)); [lia|]. apply W. eapply Hw. reflexivity.
  - intros p lim bs buf Hbs Hn0 Hp (Hok & _ & _ & Hl & Hl2 & _). apply g_estring_ok; auto; lia.
  - intros p lim bs buf Hbs Hn Hp (Hok & _ & _ & Hl & Hl2 & _). apply g_ebytes_ok; auto; lia.
  - intros bs Hl1 Hl2. apply g_bsize_ok; [lia|]. change (7 * (Z.of_nat 4 + 1)) with 35. lia.
  - intros [].
Qed.

Lemma sx_arith_full w n p : 1 <= n <= w -> 0 <= p < 2 ^ n -> sx_arith w n p = sext n p.
Proof.
  intros Hn Hp. destruct (Z.eq_dec n w) as [->|]; [|apply sx_arith_ok; lia].
  unfold sx_arith. rewrite shiftl1 by lia.
  transitivity (sext w (sext w p)); [|apply sext_fit; lia]. apply sext_congr.
  set (m := 2 ^ (w - 1)). pose proof (xor_sub_sext w p ltac:(lia) Hp) as X.
  rewrite shiftl1 in X by lia. fold m in X.
  rewrite <- X. rewrite Zminus_mod. rewrite (Zminus_mod (Z.lxor p m) m). f_equal. f_equal.
  apply Z.bits_inj'. intros k Hk. rewrite !testbit_mod by lia. destruct (Z.ltb_spec k w); [|reflexivity].
  rewrite X, !Z.lxor_spec. f_equal. rewrite sext_bits by lia. destruct (Z.ltb_spec k w); [|lia]. reflexivity.
Qed.

Lemma jv_dec_spec loop arith known repl :
  dec_spec (jv_tgt loop arith known repl) (jv_dreq arith) (jv_vp known) (fun bs => utf8_ok bs = true) (2 ^ 31).
Proof.
  constructor; cbn [jv_tgt t_dscalar t_dconst t_dloop t_dstring t_dbytes t_sstring t_sbytes t_sub t_lstart t_kt t_checked].
  - intros e w n big from base z data We Se Hn Sz Hw V Hb Hf Hok Hx M. pose proof (elem_bits_le e We Se).
    pose proof (field_matches_len _ _ _ _ _ M ltac:(lia)) as FL.
    pose proof (Z.mod_pos_bound z (2 ^ n) (pow2_pos n ltac:(lia))) as B.
    destruct e as [b|bits| | |]; try discriminate Se; cbn [jv_dscalar elem_bits] in *.
    + cbn [wf_elem] in We. pose proof (storable_basic_norm b n z We Hn Sz) as N. pose proof (basic_bits_range b We).
      destruct b as [|t|t|t]; cbn [basic_bits jv_dreq r_scalar] in *; rewrite N.
      * rewrite cf_dec_eq by (auto; lia). cbn [bind]. rewrite (read_value_matches _ _ _ _ z) by (auto; lia). f_equal.
        assert (2 <= 2 ^ n) by (change 2 with (2 ^ 1) at 1; apply Z.pow_le_mono_r; lia).
        cbn in Sz. rewrite Z.mod_small by lia. destruct Sz as [->| ->]; reflexivity.
      * rewrite cf_dec_eq by (auto; lia). rewrite (read_value_matches _ _ _ _ z) by (auto; lia). reflexivity.
      * rewrite cf_dec_eq by (auto; lia). cbn [bind]. rewrite (read_value_matches _ _ _ _ z) by (auto; lia).
        rewrite sx_arith_full by (auto; lia). reflexivity.
      * destruct Hw as (Hu & Hle & Hs). pose proof (has_uint_range w Hu).
        rewrite cf_dec_eq by (auto; lia). cbn [bind]. rewrite (read_value_matches _ _ _ _ z) by (auto; lia). f_equal.
        destruct Hs as [->|Hs]; [rewrite sext_mod by lia; apply mod_fit; lia|].
        rewrite sext_id; [apply mod_fit; lia|lia|].
        assert (2 ^ n <= 2 ^ (w - 1)) by (apply Z.pow_le_mono_r; lia). pose proof (pow2_pos (w - 1) ltac:(lia)). lia.
    + cbn [jv_dreq r_scalar jv_vp norm_num] in *. destruct Hw as (Hu & Hle). destruct V as (Vk & Vr).
      assert (D : cf_dec w n big from base data = Ok (z mod 2 ^ n)).
      { rewrite cf_dec_eq by (auto; lia). rewrite (read_value_matches _ _ _ _ z) by (auto; lia). reflexivity. }
      unfold jv_enum. rewrite D. cbn [bind]. rewrite (sext_id 32) by lia. rewrite Vk.
      destruct Hu as [->|[->| ->]]; reflexivity.
  - intros b n big from base z data Wb Hn (Hr & Ht & Hz) Hb Hf Hok Hx M.
    pose proof (basic_bits_range b Wb). rewrite const_field_bits in M by (auto; lia).
    pose proof (field_matches_len _ _ _ _ _ M ltac:(lia)) as FL.
    pose proof (Z.mod_pos_bound z (2 ^ n) (pow2_pos n ltac:(lia))) as B.
    unfold jv_dconst. rewrite <- Ht. destruct (Z.ltb_spec (basic_bits b) (basic_bits b)); [lia|].
    destruct b as [|w|w|w]; cbn [basic_bits] in *; try destruct Hz.
    + rewrite cf_dec_eq by (auto; lia). cbn [bind]. rewrite (read_value_matches _ _ _ _ z) by (auto; lia).
      rewrite Z.mod_small by lia. f_equal. apply Z.eqb_refl.
    + rewrite cf_dec_eq by (auto; lia). cbn [bind]. rewrite (read_value_matches _ _ _ _ z) by (auto; lia).
      rewrite sx_arith_full by (auto; lia). f_equal. apply Z.eqb_eq.
      transitivity (sext n z); [apply sext_congr; apply Z.mod_mod; lia|].
      assert (2 ^ (n - 1) <= 2 ^ (w - 1)) by (apply Z.pow_le_mono_r; lia). rewrite !sext_id; lia.
  - intros e n big from base z data We Se Hn Sz Hr V Hb Hf Hok Hx M. pose proof (elem_bits_le e We Se).
    pose proof (field_matches_len _ _ _ _ _ M ltac:(lia)) as FL.
    pose proof (Z.mod_pos_bound z (2 ^ n) (pow2_pos n ltac:(lia))) as B.
    unfold jv_dloop. rewrite cf_read_bits_ok by (auto; lia). cbn [bind]. rewrite (read_value_matches _ _ _ _ z) by (auto; lia).
    destruct e as [b|bits| | |]; try discriminate Se; cbn [elem_bits] in *.
    + cbn [wf_elem] in We. pose proof (storable_basic_norm b n z We Hn Sz) as N.
      destruct b as [|w|w|w]; cbn [basic_bits storable_num jv_dreq r_loop] in *; rewrite N.
      * assert (2 <= 2 ^ n) by (change 2 with (2 ^ 1) at 1; apply Z.pow_le_mono_r; lia).
        rewrite Z.mod_small by lia. destruct Sz as [->| ->]; reflexivity.
      * f_equal. rewrite <- (mod_mod_le _ w 64), sext_mod, mod_mod_le by lia. apply mod_fit; lia.
      * destruct (Z.leb_spec w n).
        { assert (n = w) by lia. subst n. f_equal. apply sext_congr.
          rewrite <- (mod_mod_le _ w 64), sext_mod, mod_mod_le by lia. reflexivity. }
        assert (I : sext 64 (z mod 2 ^ n) = z mod 2 ^ n).
        { apply sext_id; [lia|]. assert (2 ^ n <= 2 ^ (64 - 1)) by (apply Z.pow_le_mono_r; lia). lia. }
        rewrite I. destruct arith.
        -- destruct (Z.leb_spec 32 n); [lia|]. rewrite xor_sub_sext by lia. f_equal.
           rewrite (sext_fit n 64) by lia. apply sext_fit. lia.
        -- f_equal. pose proof (sx_shift_ok 64 n (z mod 2 ^ n) ltac:(lia)) as S. unfold sx_shift in S. rewrite I in S.
           rewrite S. apply sext_fit. lia.
      * f_equal. rewrite <- (mod_mod_le _ w 64), sext_mod, mod_mod_le by lia. apply mod_fit; lia.
    + cbn [jv_vp norm_num] in *. destruct V as (Vk & Vr). unfold jv_enum.
      rewrite (sext_id 64), (sext_id 32) by lia. rewrite Vk. reflexivity.
  - intros p bs data Hbs Hn0 Hu Hp Hok Hx M. apply g_dstring_ok; auto. rewrite Hu. reflexivity.
  - intros p bs data Hbs Hl Hp Hok Hx M. apply (g_dbytes_ok kt_put true 31); auto; [lia|apply kt_put_ok].
  - intros fb off bs data Hbs Hn0 Hf Ho Hok Hx M. f_equal. apply (dsize_string_match bs data fb off); auto.
  - intros fb off bs data Hbs Hl Hf Ho Hok Hx M. apply (g_sbytes_ok false kt_put _ _ 31); auto; [lia|apply kt_put_ok| |].
    + intros s Hs Hm. reflexivity.
    + intros x Hx2. apply sext_id; lia.
  - reflexivity.
  - intros [].
  - discriminate.
Qed.
