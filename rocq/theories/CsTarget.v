(** The C# target (generator/target/csharp/csharp.go), without -memcpy: encoders and decoders work on
    Span<byte>/Memory<byte>, nested calls get a slice, and slicing out of range raises.

    Enums are declared without an underlying type (1097-1105), so they are ints; any int can be cast to
    one.  Strings are represented by their UTF-8 bytes, [repl] is what the decoder makes of other bytes.
    Code that does not compile is Panic.  Shift distances are taken modulo 32 for int.  The length of a
    byte string may be read as a negative int; positions after such a field are not modelled faithfully
    (off + fb is cut to zero), nothing is claimed about them. *)
From Coq Require Import ZArith List Bool Lia.
From Verif Require Import Base BaseProofs Schema SpecWire GoModel GoBitProofs GoEncProofs GoDecProofs GoRound
  GoEncMain GoPrefix GoCore CfBits CfBitProofs TgtModel TgtEncProofs TgtDecProofs TgtPrims PyTarget KtTarget CTarget
  JavaTarget.
Import ListNotations.
Open Scope Z_scope.
Ltac Zify.zify_post_hook ::= Z.to_euclidean_division_equations.

(** Inline encoding, 1546-1622, 1750-1850, 1920-2100: bool through a byte, float through its bit pattern,
    integers by shifting the variable itself; enums through a temporary of [w] bits. *)
Definition cs_escalar (e : elem) (w n : Z) (big : bool) (from base z : Z) (buf : list Z) : res (list Z) :=
  match e with
  | EBasic (BInt t) => cf_enc (field_data n big (sext t z)) from n base buf
  | EBasic _ => cf_enc (field_data n big z) from n base buf
  | EEnum _ => if has_uint w then cf_enc (field_data n big (z mod 2 ^ w)) from n base buf else Panic
  | _ => Panic
  end.

(** Array loops, 1715-1760: "(ulong)element" sign-extends signed types; enums are ints. *)
Definition cs_eloop (e : elem) (n : Z) (big : bool) (pos z : Z) (buf : list Z) : res (list Z) :=
  match e with
  | EBasic (BInt w) => cf_write_bits pos n (sext w z mod 2 ^ 64) big buf
  | EBasic _ => cf_write_bits pos n z big buf
  | EEnum _ => cf_write_bits pos n (sext 32 z mod 2 ^ 64) big buf
  | _ => Panic
  end.

(** Inline decoding, 2780-2900, 3025-3130, 3205-3305.  float: BitConverter.ToSingle/ToDouble raises if the
    temporary has fewer bytes than the type.  "(x ^ 0x8000000000000000)" on a long does not compile. *)
Definition cs_dscalar (arith : bool) (e : elem) (w n : Z) (big : bool) (from base : Z) (data : list Z) : res Z :=
  match e with
  | EBasic BBool => do p <- cf_dec 8 n big from base data; Ok (if p =? 0 then 0 else 1)
  | EBasic (BUint t) => cf_dec t n big from base data
  | EBasic (BInt t) =>
      if arith && (n =? 64) then Panic
      else do p <- cf_dec t n big from base data; Ok (if arith then sx_arith t n p else sx_shift t n p)
  | EBasic (BFloat t) => do p <- cf_dec w n big from base data; if w <? t then Panic else Ok p
  | EEnum _ => if has_uint w then do p <- cf_dec w n big from base data; Ok (sext 32 p) else Panic
  | _ => Panic
  end.

(** Constants, 2728-2768: decoded at the declared type and assigned to an unsigned temporary with the
    width of the field, which compiles only for an unsigned type that is not wider. *)
Definition cs_dconst (b : basic) (n : Z) (big : bool) (from base z : Z) (data : list Z) : res bool :=
  let tw := enum_temp_bits n in
  match b with
  | BUint w => if tw <? w then Panic else do p <- cf_dec w n big from base data; Ok (p =? z mod 2 ^ tw)
  | _ => Panic
  end.

(** Array loops, 2692-2712, 3005-3025, decodeBasicValueExpr 101-133. *)
Definition cs_dloop (arith : bool) (e : elem) (n : Z) (big : bool) (pos : Z) (data : list Z) : res Z :=
  do v <- cf_read_bits pos n big data;
  match e with
  | EBasic BBool => Ok (if v =? 0 then 0 else 1)
  | EBasic (BInt w) =>
      if w <=? n then Ok (sext w v)
      else if arith then let m := Z.shiftl 1 (n - 1) in Ok (sext w (sext 64 (sext 64 (Z.lxor v m) - sext 64 m)))
      else Ok (sext w (Z.shiftr (sext 64 (Z.shiftl v (64 - n))) (64 - n)))
  | EBasic (BUint w) | EBasic (BFloat w) => Ok (v mod 2 ^ w)
  | EEnum _ => Ok (sext 32 v)
  | _ => Panic
  end.

Definition cs_tgt (loop : nat -> bool) (arith : bool) (repl : list Z -> list Z) : tgt := {|
  t_loop := loop;                                      (* 1629, 2915 *)
  t_kt := false;
  t_lstart := true;                                    (* nested calls get a slice *)
  t_escalar := cs_escalar;
  t_econst := c_econst;                                (* 1508-1533 *)
  t_eloop := cs_eloop;
  t_estring := g_estring;                              (* 1440-1452 *)
  t_ebytes := g_ebytes;                                (* 1454-1468 *)
  t_bsize := g_bsize 4;                                (* 1240-1290 *)
  t_dscalar := cs_dscalar arith;
  t_dconst := cs_dconst;
  t_dloop := cs_dloop arith;
  t_dstring := g_dstring (fun l => Ok (if utf8_ok l then l else repl l));   (* 2635-2647 *)
  t_dbytes := g_dbytes kt_put true;                    (* 2649-2665 *)
  t_checked := true;                                   (* 2183 *)
  t_sstring := fun data fb off => Ok (dsize_string data fb off);            (* 2347-2365 *)
  t_sbytes := g_sbytes false kt_put (fun _ => false) (sext 32);             (* 2366-2395 *)
  t_sub := fun _ data p =>                             (* Slice, 2310-2340, 2396-2420 *)
    if (p <? 0) || (zlen data <? p) then Panic else Ok (skipn (Z.to_nat p) data)
|}.

Definition cs_ereq : treq :=
  {| r_scalar := fun e w n big from => cf_good n from /\ (forall bits, e = EEnum bits -> has_uint w = true /\ n <= w);
     r_const := fun b n big from z => cf_good n from;
     r_loop := fun e n big from => cf_good n from /\ (forall bits, e = EEnum bits -> n <= 32);
     r_nested := True |}.
Definition cs_dreq (arith : bool) : treq :=
  {| r_scalar := fun e w n big from =>
       match e with
       | EBasic (BFloat t) => w = t
       | EBasic (BInt t) => arith = false \/ n < 64
       | EEnum _ => has_uint w = true /\ n <= w
       | _ => True
       end;
     r_const := fun b n big from z =>
       (big = false \/ n = basic_bits b) /\ basic_bits b = enum_temp_bits n /\
       match b with BUint _ => 0 <= z < 2 ^ n | _ => False end;
     r_loop := fun e n big from => True;
     r_nested := True |}.
(** Enum numbers must fit int. *)
Definition cs_vp (e : elem) (n z : Z) : Prop :=
  match e with EEnum bits => z mod 2 ^ n < 2 ^ 31 | _ => True end.

(** ** Proofs *)
Lemma cs_enc_spec loop arith repl : enc_spec (cs_tgt loop arith repl) cs_ereq true (2 ^ 31).
Proof.
  constructor; cbn [cs_tgt t_escalar t_econst t_eloop t_estring t_ebytes t_bsize t_lstart].
  - intros e w n big from base lim z buf We Se Hn Sz (G & Hw) Hb Hf (Hok & Hm & _ & Hl & Hl2 & _ & Hz). specialize (Hz eq_refl).
    destruct e as [b|bits| | |]; try discriminate Se; cbn [cs_escalar elem_bits] in *.
    + destruct b; cbn [basic_bits] in *; eapply cf_enc_congr; eauto; try lia. apply sext_mod_le. lia.
    + cbn in Sz. destruct (Hw bits eq_refl) as (Hu & Hle). rewrite Hu.
      eapply cf_enc_congr; eauto; try lia. apply mod_mod_le. lia.
  - intros b n big from base lim z buf Wb Hn G Hb Hf (Hok & Hm & _ & Hl & Hl2 & _ & Hz). specialize (Hz eq_refl).
    eapply cf_enc_const_overlay; eauto; lia.
  - intros e n big from base lim z buf We Se Hn Sz (G & Hw) Hb Hf (Hok & Hm & _ & Hl & Hl2 & _ & Hz). specialize (Hz eq_refl).
    pose proof (elem_bits_le e We Se). apply (cf_good_base n from base) in G.
    assert (W : forall w, n <= w -> exists buf', cf_write_bits (8 * base + from) n (sext w z mod 2 ^ 64) big buf = Ok buf' /\
      overlay buf (8 * base + from) (map Some (field_bits n big z)) buf').
    { intros w Hnw. eapply cf_write_congr; eauto; try lia. apply sext_mod_le. lia. }
    assert (V : 0 <= z < 2 ^ 64 -> exists buf', cf_write_bits (8 * base + from) n z big buf = Ok buf' /\
      overlay buf (8 * base + from) (map Some (field_bits n big z)) buf').
    { intros Hzz. pose proof (cf_write_congr (8 * base + from) n big lim z z buf) as W2. rewrite (Z.mod_small z (2 ^ 64)) in W2 by lia.
      apply W2; auto; lia. }
    destruct e as [b|bits| | |]; try discriminate Se; cbn [cs_eloop elem_bits storable_num] in *.
    + destruct b as [|w|w|w]; cbn [basic_bits] in *; try (apply W; lia); apply V.
      * lia.
      * assert (2 ^ w <= 2 ^ 64) by (apply Z.pow_le_mono_r; lia). lia.
      * assert (2 ^ w <= 2 ^ 64) by (apply Z.pow_le_mono_r; lia). lia.
    + apply W. eapply Hw. reflexivity.
  - intros p lim bs buf Hbs Hn0 Hp (Hok & _ & _ & Hl & Hl2 & _). apply g_estring_ok; auto; lia.
  - intros p lim bs buf Hbs Hn Hp (Hok & _ & _ & Hl & Hl2 & _). apply g_ebytes_ok; auto; lia.
  - intros bs Hl1 Hl2. apply g_bsize_ok; [lia|]. change (7 * (Z.of_nat 4 + 1)) with 35. lia.
  - auto.
Qed.

Lemma xor_lt n p : 1 <= n -> 0 <= p < 2 ^ n -> 0 <= Z.lxor p (Z.shiftl 1 (n - 1)) < 2 ^ n.
Proof.
  intros Hn Hp. rewrite shiftl1 by lia.
  assert (E : Z.lxor p (2 ^ (n - 1)) = Z.lxor p (2 ^ (n - 1)) mod 2 ^ n).
  { apply Z.bits_inj'. intros k Hk. rewrite testbit_mod by lia. destruct (Z.ltb_spec k n); [reflexivity|].
    rewrite Z.lxor_spec, Z.pow2_bits_false by lia. rewrite <- (Z.mod_small p (2 ^ n)) by lia.
    rewrite testbit_mod by lia. destruct (Z.ltb_spec k n); [lia|reflexivity]. }
  rewrite E. apply Z.mod_pos_bound. apply pow2_pos. lia.
Qed.

Lemma cs_dec_spec loop arith repl :
  dec_spec (cs_tgt loop arith repl) (cs_dreq arith) cs_vp (fun bs => utf8_ok bs = true) (2 ^ 31).
Proof.
  constructor; cbn [cs_tgt t_dscalar t_dconst t_dloop t_dstring t_dbytes t_sstring t_sbytes t_sub t_lstart t_kt t_checked].
  - intros e w n big from base z data We Se Hn Sz Hw V Hb Hf Hok Hx M. pose proof (elem_bits_le e We Se).
    pose proof (field_matches_len _ _ _ _ _ M ltac:(lia)) as FL.
    pose proof (Z.mod_pos_bound z (2 ^ n) (pow2_pos n ltac:(lia))) as B.
    destruct e as [b|bits| | |]; try discriminate Se; cbn [cs_dscalar elem_bits] in *.
    + cbn [wf_elem] in We. pose proof (storable_basic_norm b n z We Hn Sz) as N. pose proof (basic_bits_range b We).
      destruct b as [|t|t|t]; cbn [basic_bits cs_dreq r_scalar] in *; rewrite N.
      * rewrite cf_dec_eq by (auto; lia). cbn [bind]. rewrite (read_value_matches _ _ _ _ z) by (auto; lia). f_equal.
        assert (2 <= 2 ^ n) by (change 2 with (2 ^ 1) at 1; apply Z.pow_le_mono_r; lia).
        cbn in Sz. rewrite Z.mod_small by lia. destruct Sz as [->| ->]; reflexivity.
      * rewrite cf_dec_eq by (auto; lia). rewrite (read_value_matches _ _ _ _ z) by (auto; lia). reflexivity.
      * assert (P : arith && (n =? 64) = false) by (destruct arith; [destruct (Z.eqb_spec n 64); [lia|reflexivity]|reflexivity]).
        rewrite P. rewrite cf_dec_eq by (auto; lia). cbn [bind]. rewrite (read_value_matches _ _ _ _ z) by (auto; lia).
        f_equal. destruct arith; [apply sx_arith_full; lia|apply sx_shift_ok; lia].
      * subst w. rewrite cf_dec_eq by (auto; lia). cbn [bind]. rewrite (read_value_matches _ _ _ _ z) by (auto; lia).
        rewrite Z.ltb_irrefl. reflexivity.
    + cbn [cs_dreq r_scalar cs_vp norm_num] in *. destruct Hw as (Hu & Hle). rewrite Hu. pose proof (has_uint_range w Hu).
      rewrite cf_dec_eq by (auto; lia). rewrite (read_value_matches _ _ _ _ z) by (auto; lia). cbn [bind].
      f_equal. apply sext_id; lia.
  - intros b n big from base z data Wb Hn (Hr & Ht & Hz) Hb Hf Hok Hx M.
    pose proof (basic_bits_range b Wb). rewrite const_field_bits in M by (auto; lia).
    pose proof (field_matches_len _ _ _ _ _ M ltac:(lia)) as FL.
    unfold cs_dconst. destruct b as [|w|w|w]; cbn [basic_bits] in *; try destruct Hz.
    rewrite <- Ht. rewrite Z.ltb_irrefl.
    rewrite cf_dec_eq by (auto; lia). cbn [bind]. rewrite (read_value_matches _ _ _ _ z) by (auto; lia).
    f_equal. apply Z.eqb_eq. symmetry. rewrite (Z.mod_small z (2 ^ n)) by lia. apply Z.mod_small.
    assert (2 ^ n <= 2 ^ w) by (apply Z.pow_le_mono_r; lia). lia.
  - intros e n big from base z data We Se Hn Sz Hr V Hb Hf Hok Hx M. pose proof (elem_bits_le e We Se).
    pose proof (field_matches_len _ _ _ _ _ M ltac:(lia)) as FL.
    pose proof (Z.mod_pos_bound z (2 ^ n) (pow2_pos n ltac:(lia))) as B.
    unfold cs_dloop. rewrite cf_read_bits_ok by (auto; lia). cbn [bind]. rewrite (read_value_matches _ _ _ _ z) by (auto; lia).
    destruct e as [b|bits| | |]; try discriminate Se; cbn [elem_bits] in *.
    + cbn [wf_elem] in We. pose proof (storable_basic_norm b n z We Hn Sz) as N.
      destruct b as [|w|w|w]; cbn [basic_bits storable_num] in *; rewrite N.
      * assert (2 <= 2 ^ n) by (change 2 with (2 ^ 1) at 1; apply Z.pow_le_mono_r; lia).
        rewrite Z.mod_small by lia. destruct Sz as [->| ->]; reflexivity.
      * f_equal. apply mod_fit; lia.
      * destruct (Z.leb_spec w n).
        { assert (n = w) by lia. subst n. reflexivity. }
        destruct arith.
        -- assert (2 ^ n <= 2 ^ (64 - 1)) by (apply Z.pow_le_mono_r; lia).
           pose proof (xor_lt n (z mod 2 ^ n) ltac:(lia) B).
           assert (0 <= Z.shiftl 1 (n - 1) < 2 ^ n).
           { rewrite shiftl1 by lia. pose proof (pow2_pos (n - 1) ltac:(lia)). split; [lia|]. apply Z.pow_lt_mono_r; lia. }
           rewrite (sext_id 64 (Z.lxor _ _)), (sext_id 64 (Z.shiftl _ _)) by lia.
           rewrite xor_sub_sext by lia. f_equal.
           rewrite (sext_fit n 64) by lia. apply sext_fit. lia.
        -- f_equal. pose proof (sx_shift_ok 64 n (z mod 2 ^ n) ltac:(lia)) as S. unfold sx_shift in S.
           rewrite (sext_id 64 (z mod 2 ^ n)) in S;
             [|lia|assert (2 ^ n <= 2 ^ (64 - 1)) by (apply Z.pow_le_mono_r; lia); lia].
           rewrite S. apply sext_fit. lia.
      * f_equal. apply mod_fit; lia.
    + cbn [cs_vp norm_num] in *. f_equal. apply sext_id; lia.
  - intros p bs data Hbs Hn0 Hu Hp Hok Hx M. apply g_dstring_ok; auto. rewrite Hu. reflexivity.
  - intros p bs data Hbs Hl Hp Hok Hx M. apply (g_dbytes_ok kt_put true 31); auto; [lia|apply kt_put_ok].
  - intros fb off bs data Hbs Hn0 Hf Ho Hok Hx M. f_equal. apply (dsize_string_match bs data fb off); auto.
  - intros fb off bs data Hbs Hl Hf Ho Hok Hx M. apply (g_sbytes_ok false kt_put _ _ 31); auto; [lia|apply kt_put_ok| |].
    + intros s Hs Hm. reflexivity.
    + intros x Hx2. apply sext_id; lia.
  - intros b data p Hp. destruct (Z.ltb_spec p 0); [lia|]. destruct (Z.ltb_spec (zlen data) p); [lia|]. reflexivity.
  - auto.
  - discriminate.
Qed.
