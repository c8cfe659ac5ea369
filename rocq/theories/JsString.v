(** Strings of the two JavaScript targets: the run-time functions stringToUTF8BytesCount, stringToUTF8Bytes and
    stringFromUTF8Bytes that are emitted into every generated file that uses strings
    (generator/target/commonjs/commonjs.go:424-497 and 781-854; generator/target/esm/esm.go:384-460 and 707-783;
    the four copies have the same statements).

    A JavaScript string is a list of 16-bit code units.  Reading past the end gives undefined or NaN, and
    "undefined & 0x3F" is 0. *)
From Coq Require Import ZArith List Bool Lia.
From Verif Require Import Base BaseProofs Schema SpecWire GoModel GoBitProofs GoEncProofs GoDecProofs GoRound
  TgtModel TgtEncProofs TgtDecProofs TgtPrims.
Import ListNotations.
Open Scope Z_scope.
Ltac Zify.zify_post_hook ::= Z.to_euclidean_division_equations.

(** stringToUTF8BytesCount, commonjs.go:424-434. *)
Fixpoint js_count (fuel : nat) (us : list Z) : Z :=
  match fuel, us with
  | S f, u :: r =>
      if u <? 128 then 1 + js_count f r
      else if u <? 2048 then 2 + js_count f r
      else if (u <? 55296) || (57344 <=? u) then 3 + js_count f r
      else 4 + js_count f (tl r)
  | _, _ => 0
  end.
Definition js_utf8_count (us : list Z) : Z := js_count (length us) us.

(** stringToUTF8Bytes, commonjs.go:445-468: the bytes stored from data[start] on. *)
Fixpoint js_to (fuel : nat) (us : list Z) : list Z :=
  match fuel, us with
  | S f, u :: r =>
      if u <? 128 then u :: js_to f r
      else if u <? 2048 then Z.lor 192 (Z.shiftr u 6) :: Z.lor 128 (Z.land u 63) :: js_to f r
      else if (u <? 55296) || (57344 <=? u) then
        Z.lor 224 (Z.shiftr u 12) :: Z.lor 128 (Z.land (Z.shiftr u 6) 63) :: Z.lor 128 (Z.land u 63) :: js_to f r
      else
        let c := 65536 + Z.lor (Z.shiftl (Z.land u 1023) 10) (Z.land (hd 0 r) 1023) in
        Z.lor 240 (Z.shiftr c 18) :: Z.lor 128 (Z.land (Z.shiftr c 12) 63) :: Z.lor 128 (Z.land (Z.shiftr c 6) 63) ::
        Z.lor 128 (Z.land c 63) :: js_to f (tl r)
  | _, _ => []
  end.
Definition js_utf8 (us : list Z) : list Z := js_to (length us) us.

(** stringFromUTF8Bytes, commonjs.go:478-496, on the bytes from data[start] on: the code units and the number
    of bytes consumed (which counts bytes of a sequence cut off by the end of the data). *)
Fixpoint js_from (fuel : nat) (l : list Z) : list Z * Z :=
  match fuel, l with
  | S f, b :: r =>
      if b =? 0 then ([], 0)
      else if b <? 128 then let (s, k) := js_from f r in (b :: s, k + 1)
      else if b <? 224 then
        let (s, k) := js_from f (tl r) in
        (Z.lor (Z.shiftl (Z.land b 31) 6) (Z.land (hd 0 r) 63) :: s, k + 2)
      else if b <? 240 then
        let (s, k) := js_from f (tl (tl r)) in
        (Z.lor (Z.lor (Z.shiftl (Z.land b 15) 12) (Z.shiftl (Z.land (hd 0 r) 63) 6)) (Z.land (hd 0 (tl r)) 63) :: s, k + 3)
      else
        let c := Z.lor (Z.lor (Z.lor (Z.shiftl (Z.land b 7) 18) (Z.shiftl (Z.land (hd 0 r) 63) 12))
                   (Z.shiftl (Z.land (hd 0 (tl r)) 63) 6)) (Z.land (hd 0 (tl (tl r))) 63) in
        let (s, k) := js_from f (tl (tl (tl r))) in
        if c <? 65536 then (c :: s, k + 4)
        else (55296 + Z.shiftr (c - 65536) 10 :: 56320 + Z.land (c - 65536) 1023 :: s, k + 4)
  | _, _ => ([], 0)
  end.
Definition js_utf8_decode (l : list Z) : list Z * Z := js_from (length l) l.

(** ** Specification: well-formed UTF-16 (Unicode standard, D91): every high surrogate is followed by a low
    one and no low surrogate stands alone. *)
Fixpoint utf16_ok (us : list Z) : bool :=
  match us with
  | [] => true
  | u :: r =>
      if (55296 <=? u) && (u <=? 56319) then
        match r with
        | v :: r' => (56320 <=? v) && (v <=? 57343) && utf16_ok r'
        | [] => false
        end
      else (0 <=? u) && (u <=? 65535) && ((u <? 56320) || (57343 <? u)) && utf16_ok r
  end.

(** ** Proofs *)
Lemma lor_add k a b : 0 <= k -> 0 <= b < 2 ^ k -> a mod 2 ^ k = 0 -> Z.lor a b = a + b.
Proof.
  intros Hk Hb Ha. pose proof (pow2_pos k Hk).
  replace a with (Z.shiftl (a / 2 ^ k) k) by (rewrite Z.shiftl_mul_pow2 by lia; lia).
  apply Z.bits_inj'. intros i Hi. symmetry. rewrite Z.add_nocarry_lxor.
  - rewrite Z.lxor_spec, Z.lor_spec. rewrite Z.shiftl_spec by lia.
    rewrite <- (Z.mod_small b (2 ^ k)) by lia. rewrite testbit_mod by lia.
    destruct (Z.ltb_spec i k).
    + rewrite (Z.testbit_neg_r _ (i - k)) by lia. cbn. destruct (Z.testbit b i); reflexivity.
    + cbn. destruct (Z.testbit (a / 2 ^ k) (i - k)); reflexivity.
  - apply Z.bits_inj'. intros j Hj. rewrite Z.land_spec, Z.bits_0, Z.shiftl_spec by lia.
    rewrite <- (Z.mod_small b (2 ^ k)) by lia. rewrite testbit_mod by lia.
    destruct (Z.ltb_spec j k).
    + rewrite (Z.testbit_neg_r _ (j - k)) by lia. reflexivity.
    + cbn. apply andb_false_r.
Qed.

Lemma land_ones' z k : 0 <= k -> Z.land z (Z.ones k) = z mod 2 ^ k.
Proof. intros. apply Z.land_ones. lia. Qed.

Ltac bits_arith :=
  repeat rewrite Z.shiftr_div_pow2 by lia;
  repeat rewrite Z.shiftl_mul_pow2 by lia;
  change 1023 with (Z.ones 10) in *; change 63 with (Z.ones 6) in *; change 31 with (Z.ones 5) in *;
  change 15 with (Z.ones 4) in *; change 7 with (Z.ones 3) in *;
  repeat rewrite land_ones' by lia.

(** The bytes of one character, arithmetically. *)
Lemma enc2 u : 128 <= u < 2048 -> Z.lor 192 (Z.shiftr u 6) = 192 + u / 64 /\ Z.lor 128 (Z.land u 63) = 128 + u mod 64.
Proof.
  intros H. bits_arith. change (2 ^ 6) with 64. split; apply (lor_add 6) || apply (lor_add 5); cbn; lia.
Qed.
Lemma enc3 u : 0 <= u < 65536 -> Z.lor 224 (Z.shiftr u 12) = 224 + u / 4096 /\
  Z.lor 128 (Z.land (Z.shiftr u 6) 63) = 128 + u / 64 mod 64 /\ Z.lor 128 (Z.land u 63) = 128 + u mod 64.
Proof.
  intros H. bits_arith. change (2 ^ 6) with 64. change (2 ^ 12) with 4096.
  split; [|split]; [apply (lor_add 5)|apply (lor_add 6)|apply (lor_add 6)]; cbn; lia.
Qed.
Lemma enc4 c : 0 <= c < 2097152 -> Z.lor 240 (Z.shiftr c 18) = 240 + c / 262144 /\
  Z.lor 128 (Z.land (Z.shiftr c 12) 63) = 128 + c / 4096 mod 64 /\
  Z.lor 128 (Z.land (Z.shiftr c 6) 63) = 128 + c / 64 mod 64 /\ Z.lor 128 (Z.land c 63) = 128 + c mod 64.
Proof.
  intros H. bits_arith. change (2 ^ 6) with 64. change (2 ^ 12) with 4096. change (2 ^ 18) with 262144.
  split; [|split; [|split]]; [apply (lor_add 3)|apply (lor_add 6)|apply (lor_add 6)|apply (lor_add 6)]; cbn; lia.
Qed.
Lemma pair_code u v : Z.lor (Z.shiftl (Z.land u 1023) 10) (Z.land v 1023) = u mod 1024 * 1024 + v mod 1024.
Proof. bits_arith. change (2 ^ 10) with 1024. apply (lor_add 10); cbn; lia. Qed.
Lemma dec2 b c : Z.lor (Z.shiftl (Z.land b 31) 6) (Z.land c 63) = b mod 32 * 64 + c mod 64.
Proof. bits_arith. change (2 ^ 6) with 64. change (2 ^ 5) with 32. apply (lor_add 6); cbn; lia. Qed.
Lemma dec3 b c d : Z.lor (Z.lor (Z.shiftl (Z.land b 15) 12) (Z.shiftl (Z.land c 63) 6)) (Z.land d 63) =
  b mod 16 * 4096 + c mod 64 * 64 + d mod 64.
Proof.
  bits_arith. change (2 ^ 6) with 64. change (2 ^ 4) with 16. change (2 ^ 12) with 4096.
  rewrite (lor_add 12 (b mod 16 * 4096)) by (cbn; lia). apply (lor_add 6); cbn; lia.
Qed.
Lemma dec4 b c d e : Z.lor (Z.lor (Z.lor (Z.shiftl (Z.land b 7) 18) (Z.shiftl (Z.land c 63) 12)) (Z.shiftl (Z.land d 63) 6)) (Z.land e 63) =
  b mod 8 * 262144 + c mod 64 * 4096 + d mod 64 * 64 + e mod 64.
Proof.
  bits_arith. change (2 ^ 6) with 64. change (2 ^ 3) with 8. change (2 ^ 12) with 4096. change (2 ^ 18) with 262144.
  rewrite (lor_add 18 (b mod 8 * 262144)) by (cbn; lia).
  rewrite (lor_add 12 (b mod 8 * 262144 + _)) by (cbn; lia). apply (lor_add 6); cbn; lia.
Qed.
Lemma sur_split c : 65536 <= c -> Z.shiftr (c - 65536) 10 = (c - 65536) / 1024 /\ Z.land (c - 65536) 1023 = (c - 65536) mod 1024.
Proof. intros. bits_arith. auto. Qed.

(** Induction along the code units. *)
Lemma utf16_ind (P : list Z -> Prop) :
  P [] ->
  (forall u r, 0 <= u < 55296 \/ 57344 <= u < 65536 -> utf16_ok r = true -> P r -> P (u :: r)) ->
  (forall u v r, 55296 <= u < 56320 -> 56320 <= v < 57344 -> utf16_ok r = true -> P r -> P (u :: v :: r)) ->
  forall us, utf16_ok us = true -> P us.
Proof.
  intros H0 H1 H2. assert (G : forall n us, (length us <= n)%nat -> utf16_ok us = true -> P us).
  { induction n; intros us L W.
    - destruct us; [auto|cbn in L; lia].
    - destruct us as [|u r]; [auto|]. cbn [utf16_ok] in W.
      destruct (Z.leb_spec 55296 u), (Z.leb_spec u 56319); cbn [andb] in W.
      + destruct r as [|v r]; [discriminate|]. apply andb_true_iff in W. destruct W as (W & Wr).
        apply andb_true_iff in W. destruct W as (Wa & Wb). apply Z.leb_le in Wa, Wb.
        apply H2; auto; try lia. apply IHn; auto. cbn in L; lia.
      + apply andb_true_iff in W. destruct W as (W & Wr). apply andb_true_iff in W. destruct W as (W & Wc).
        apply andb_true_iff in W. destruct W as (Wa & Wb). apply Z.leb_le in Wa, Wb.
        apply orb_true_iff in Wc. rewrite !Z.ltb_lt in Wc.
        apply H1; auto; try lia. apply IHn; auto. cbn in L; lia.
      + apply andb_true_iff in W. destruct W as (W & Wr). apply andb_true_iff in W. destruct W as (W & Wc).
        apply andb_true_iff in W. destruct W as (Wa & Wb). apply Z.leb_le in Wa, Wb.
        apply H1; auto; try lia. apply IHn; auto. cbn in L; lia.
      + lia. }
  intros us. apply (G (length us)). lia.
Qed.

Lemma js_to_fuel : forall us f, (length us <= f)%nat -> js_to f us = js_to (length us) us.
Proof.
  assert (G : forall n us f, (length us <= n)%nat -> (length us <= f)%nat -> js_to f us = js_to (length us) us).
  { induction n; intros us f Hn Hf.
    - destruct us; [destruct f; reflexivity|cbn in Hn; lia].
    - destruct us as [|u r]; [destruct f; reflexivity|]. destruct f as [|f]; [cbn in Hf; lia|].
      cbn [length js_to] in *. rewrite (IHn r f) by lia.
      assert (E : js_to f (tl r) = js_to (length r) (tl r)).
      { destruct r as [|v r]; [cbn; destruct f; reflexivity|]. cbn [tl length] in *.
        rewrite (IHn r f), (IHn r (S (length r))) by lia. reflexivity. }
      rewrite E. reflexivity. }
  intros us f. apply (G (length us)). lia.
Qed.

Lemma js_from_fuel : forall l f, (length l <= f)%nat -> js_from f l = js_from (length l) l.
Proof.
  assert (G : forall n l f, (length l <= n)%nat -> (length l <= f)%nat -> js_from f l = js_from (length l) l).
  { induction n; intros l f Hn Hf.
    - destruct l; [destruct f; reflexivity|cbn in Hn; lia].
    - destruct l as [|b r]; [destruct f; reflexivity|]. destruct f as [|f]; [cbn in Hf; lia|].
      assert (T : forall s, (length s <= length r)%nat -> js_from f s = js_from (length r) s).
      { intros s Hs. cbn [length] in *. rewrite (IHn s f), (IHn s (length r)) by lia. reflexivity. }
      assert (L1 : (length (tl r) <= length r)%nat) by (destruct r; cbn; lia).
      assert (L2 : (length (tl (tl r)) <= length r)%nat) by (destruct (tl r); cbn in *; lia).
      assert (L3 : (length (tl (tl (tl r))) <= length r)%nat) by (destruct (tl (tl r)); cbn in *; lia).
      cbn [length js_from]. rewrite !T by lia. reflexivity. }
  intros l f. apply (G (length l)). lia.
Qed.

Lemma js_to_eq f u r : js_to (S f) (u :: r) =
      if u <? 128 then u :: js_to f r
      else if u <? 2048 then Z.lor 192 (Z.shiftr u 6) :: Z.lor 128 (Z.land u 63) :: js_to f r
      else if (u <? 55296) || (57344 <=? u) then
        Z.lor 224 (Z.shiftr u 12) :: Z.lor 128 (Z.land (Z.shiftr u 6) 63) :: Z.lor 128 (Z.land u 63) :: js_to f r
      else
        let c := 65536 + Z.lor (Z.shiftl (Z.land u 1023) 10) (Z.land (hd 0 r) 1023) in
        Z.lor 240 (Z.shiftr c 18) :: Z.lor 128 (Z.land (Z.shiftr c 12) 63) :: Z.lor 128 (Z.land (Z.shiftr c 6) 63) ::
        Z.lor 128 (Z.land c 63) :: js_to f (tl r).
Proof. reflexivity. Qed.
Lemma js_from_eq f b r : js_from (S f) (b :: r) =
      if b =? 0 then ([], 0)
      else if b <? 128 then let (s, k) := js_from f r in (b :: s, k + 1)
      else if b <? 224 then
        let (s, k) := js_from f (tl r) in
        (Z.lor (Z.shiftl (Z.land b 31) 6) (Z.land (hd 0 r) 63) :: s, k + 2)
      else if b <? 240 then
        let (s, k) := js_from f (tl (tl r)) in
        (Z.lor (Z.lor (Z.shiftl (Z.land b 15) 12) (Z.shiftl (Z.land (hd 0 r) 63) 6)) (Z.land (hd 0 (tl r)) 63) :: s, k + 3)
      else
        let c := Z.lor (Z.lor (Z.lor (Z.shiftl (Z.land b 7) 18) (Z.shiftl (Z.land (hd 0 r) 63) 12))
                   (Z.shiftl (Z.land (hd 0 (tl r)) 63) 6)) (Z.land (hd 0 (tl (tl r))) 63) in
        let (s, k) := js_from f (tl (tl (tl r))) in
        if c <? 65536 then (c :: s, k + 4)
        else (55296 + Z.shiftr (c - 65536) 10 :: 56320 + Z.land (c - 65536) 1023 :: s, k + 4).
Proof. reflexivity. Qed.

Lemma js_utf8_1 u r : 0 <= u < 128 -> js_utf8 (u :: r) = u :: js_utf8 r.
Proof. intros. unfold js_utf8. cbn [length]. rewrite js_to_eq. destruct (Z.ltb_spec u 128); [reflexivity|lia]. Qed.
Lemma js_utf8_2 u r : 128 <= u < 2048 -> js_utf8 (u :: r) = 192 + u / 64 :: 128 + u mod 64 :: js_utf8 r.
Proof.
  intros. unfold js_utf8. cbn [length]. rewrite js_to_eq. destruct (Z.ltb_spec u 128); [lia|]. destruct (Z.ltb_spec u 2048); [|lia].
  destruct (enc2 u) as (-> & ->); [lia|reflexivity].
Qed.
Lemma js_utf8_3 u r : 2048 <= u < 55296 \/ 57344 <= u < 65536 ->
  js_utf8 (u :: r) = 224 + u / 4096 :: 128 + u / 64 mod 64 :: 128 + u mod 64 :: js_utf8 r.
Proof.
  intros. unfold js_utf8. cbn [length]. rewrite js_to_eq. destruct (Z.ltb_spec u 128); [lia|]. destruct (Z.ltb_spec u 2048); [lia|].
  destruct (enc3 u) as (-> & -> & ->); [lia|].
  destruct (Z.ltb_spec u 55296), (Z.leb_spec 57344 u); cbn [orb]; try lia; reflexivity.
Qed.
Lemma js_utf8_4 u v r : 55296 <= u < 57344 ->
  js_utf8 (u :: v :: r) = let c := 65536 + (u mod 1024 * 1024 + v mod 1024) in
    240 + c / 262144 :: 128 + c / 4096 mod 64 :: 128 + c / 64 mod 64 :: 128 + c mod 64 :: js_utf8 r.
Proof.
  intros. unfold js_utf8. cbn [length]. rewrite js_to_eq. cbn [hd tl]. destruct (Z.ltb_spec u 128); [lia|]. destruct (Z.ltb_spec u 2048); [lia|].
  destruct (Z.ltb_spec u 55296), (Z.leb_spec 57344 u); cbn [orb]; try lia.
  rewrite pair_code. cbv zeta. destruct (enc4 (65536 + (u mod 1024 * 1024 + v mod 1024))) as (-> & -> & -> & ->); [lia|].
  rewrite (js_to_fuel r (S (length r))) by lia. reflexivity.
Qed.

Lemma js_dec_0 t : js_utf8_decode (0 :: t) = ([], 0).
Proof. reflexivity. Qed.
Lemma js_dec_1 b r : 0 < b < 128 -> js_utf8_decode (b :: r) = let (s, k) := js_utf8_decode r in (b :: s, k + 1).
Proof.
  intros. unfold js_utf8_decode. cbn [length]. rewrite js_from_eq. destruct (Z.eqb_spec b 0); [lia|]. destruct (Z.ltb_spec b 128); [|lia]. reflexivity.
Qed.
Lemma js_dec_2 b c r : 128 <= b < 224 ->
  js_utf8_decode (b :: c :: r) = let (s, k) := js_utf8_decode r in (b mod 32 * 64 + c mod 64 :: s, k + 2).
Proof.
  intros. unfold js_utf8_decode. cbn [length]. rewrite js_from_eq. cbn [hd tl]. destruct (Z.eqb_spec b 0); [lia|]. destruct (Z.ltb_spec b 128); [lia|].
  destruct (Z.ltb_spec b 224); [|lia]. rewrite dec2, (js_from_fuel r (S (length r))) by lia. reflexivity.
Qed.
Lemma js_dec_3 b c d r : 224 <= b < 240 ->
  js_utf8_decode (b :: c :: d :: r) =
    let (s, k) := js_utf8_decode r in (b mod 16 * 4096 + c mod 64 * 64 + d mod 64 :: s, k + 3).
Proof.
  intros. unfold js_utf8_decode. cbn [length]. rewrite js_from_eq. cbn [hd tl]. destruct (Z.eqb_spec b 0); [lia|]. destruct (Z.ltb_spec b 128); [lia|].
  destruct (Z.ltb_spec b 224); [lia|]. destruct (Z.ltb_spec b 240); [|lia]. rewrite dec3, (js_from_fuel r (S (S (length r)))) by lia. reflexivity.
Qed.
Lemma js_dec_4 b c d e r : 240 <= b ->
  js_utf8_decode (b :: c :: d :: e :: r) =
    let x := b mod 8 * 262144 + c mod 64 * 4096 + d mod 64 * 64 + e mod 64 in
    let (s, k) := js_utf8_decode r in
    if x <? 65536 then (x :: s, k + 4) else (55296 + (x - 65536) / 1024 :: 56320 + (x - 65536) mod 1024 :: s, k + 4).
Proof.
  intros. unfold js_utf8_decode. cbn [length]. rewrite js_from_eq. cbn [hd tl]. destruct (Z.eqb_spec b 0); [lia|]. destruct (Z.ltb_spec b 128); [lia|].
  destruct (Z.ltb_spec b 224); [lia|]. destruct (Z.ltb_spec b 240); [lia|]. rewrite dec4, (js_from_fuel r (S (S (S (length r))))) by lia. cbv zeta.
  destruct (js_from (length r) r) as (s, k).
  destruct (Z.ltb_spec (b mod 8 * 262144 + c mod 64 * 4096 + d mod 64 * 64 + e mod 64) 65536); [reflexivity|].
  destruct (sur_split (b mod 8 * 262144 + c mod 64 * 4096 + d mod 64 * 64 + e mod 64)) as (-> & ->); [lia|reflexivity].
Qed.

(** The count is the number of bytes, for every string, well formed or not. *)
Lemma js_count_len f : forall us, js_count f us = zlen (js_to f us).
Proof.
  induction f; intros us; cbn [js_count js_to]; [reflexivity|]. destruct us as [|u r]; [reflexivity|].
  cbv zeta. destruct (u <? 128); [|destruct (u <? 2048); [|destruct ((u <? 55296) || (57344 <=? u))]];
    rewrite ?zlen_cons, IHf; lia.
Qed.

Ltac enc_bytes_goal :=
  repeat match goal with |- context [?a <=? ?b] => destruct (Z.leb_spec a b); try lia end;
  repeat match goal with |- context [?a <? ?b] => destruct (Z.ltb_spec a b); try lia end;
  repeat match goal with |- context [?a =? ?b] => destruct (Z.eqb_spec a b); try lia end.

(** What the encoder emits for a well-formed string is UTF-8, without a zero byte unless the string has one. *)
Lemma js_utf8_bytes us : utf16_ok us = true -> bytes_ok (js_utf8 us).
Proof.
  revert us. apply utf16_ind.
  - constructor.
  - intros u r Hu _ IH. destruct (Z.lt_ge_cases u 128); [rewrite js_utf8_1 by lia; constructor; [lia|auto]|].
    destruct (Z.lt_ge_cases u 2048); [rewrite js_utf8_2 by lia; repeat constructor; auto; lia|].
    rewrite js_utf8_3 by lia. repeat constructor; auto; lia.
  - intros u v r Hu Hv _ IH. rewrite js_utf8_4 by lia. cbv zeta. repeat constructor; auto; lia.
Qed.

Lemma js_utf8_nonul us : utf16_ok us = true -> ~ In 0 us -> ~ In 0 (js_utf8 us).
Proof.
  revert us. apply (utf16_ind (fun us => ~ In 0 us -> ~ In 0 (js_utf8 us))).
  - auto.
  - intros u r Hu _ IH N. cbn [In] in N. destruct (Z.lt_ge_cases u 128).
    { rewrite js_utf8_1 by lia. cbn [In]. intros [E|E]; [lia|]. apply IH; auto. }
    destruct (Z.lt_ge_cases u 2048).
    { rewrite js_utf8_2 by lia. cbn [In]. intros [E|[E|E]]; [lia|lia|]. apply IH; auto. }
    rewrite js_utf8_3 by lia. cbn [In]. intros [E|[E|[E|E]]]; [lia|lia|lia|]. apply IH; auto.
  - intros u v r Hu Hv _ IH N. cbn [In] in N. rewrite js_utf8_4 by lia. cbv zeta. cbn [In].
    intros [E|[E|[E|[E|E]]]]; [lia|lia|lia|lia|]. apply IH; auto.
Qed.

Lemma js_utf8_wf us : utf16_ok us = true -> utf8_ok (js_utf8 us) = true.
Proof.
  revert us. apply (utf16_ind (fun us => utf8_ok (js_utf8 us) = true)).
  - reflexivity.
  - intros u r Hu _ IH. destruct (Z.lt_ge_cases u 128).
    { rewrite js_utf8_1 by lia. cbn [utf8_ok]. rewrite IH. enc_bytes_goal. }
    destruct (Z.lt_ge_cases u 2048).
    { rewrite js_utf8_2 by lia. cbn [utf8_ok]. rewrite IH. unfold utf8_tail. enc_bytes_goal; reflexivity. }
    rewrite js_utf8_3 by lia. cbn [utf8_ok]. rewrite IH. unfold utf8_tail.
    assert (F : 0 <= u / 4096 <= 15 /\ (u / 4096 = 0 -> 32 <= u / 64 mod 64) /\ (u / 4096 = 13 -> u / 64 mod 64 < 32)) by lia.
    assert (F2 : 0 <= u / 64 mod 64 < 64) by lia. assert (F3 : 0 <= u mod 64 < 64) by lia.
    revert F F2 F3. generalize (u / 4096), (u / 64 mod 64), (u mod 64). clear. intros.
    enc_bytes_goal; reflexivity.
  - intros u v r Hu Hv _ IH. rewrite js_utf8_4 by lia. cbv zeta. cbn [utf8_ok]. rewrite IH. unfold utf8_tail.
    set (c := 65536 + (u mod 1024 * 1024 + v mod 1024)).
    assert (65536 <= c < 1114112) by lia. clearbody c.
    assert (F : 0 <= c / 262144 <= 4 /\ (c / 262144 = 0 -> 16 <= c / 4096 mod 64) /\ (c / 262144 = 4 -> c / 4096 mod 64 < 16)) by lia.
    assert (F2 : 0 <= c / 4096 mod 64 < 64) by lia. assert (F3 : 0 <= c / 64 mod 64 < 64) by lia. assert (F4 : 0 <= c mod 64 < 64) by lia.
    revert F F2 F3 F4. generalize (c / 262144), (c / 4096 mod 64), (c / 64 mod 64), (c mod 64). clear. intros.
    enc_bytes_goal; reflexivity.
Qed.

(** Decoding what was encoded. *)
Lemma js_dec_enc us t : utf16_ok us = true -> ~ In 0 us ->
  js_utf8_decode (js_utf8 us ++ 0 :: t) = (us, zlen (js_utf8 us)).
Proof.
  intros W. revert us W. apply (utf16_ind (fun us => ~ In 0 us -> js_utf8_decode (js_utf8 us ++ 0 :: t) = (us, zlen (js_utf8 us)))).
  - reflexivity.
  - intros u r Hu _ IH N. cbn [In] in N. assert (Nr : ~ In 0 r) by auto. specialize (IH Nr).
    destruct (Z.lt_ge_cases u 128).
    { rewrite js_utf8_1 by lia. cbn [app]. rewrite js_dec_1, IH, zlen_cons by lia. f_equal; lia. }
    destruct (Z.lt_ge_cases u 2048).
    { rewrite js_utf8_2 by lia. cbn [app]. rewrite js_dec_2, IH, !zlen_cons by lia. f_equal; [f_equal|]; lia. }
    rewrite js_utf8_3 by lia. cbn [app]. rewrite js_dec_3, IH, !zlen_cons by lia. f_equal; [f_equal|]; lia.
  - intros u v r Hu Hv _ IH N. cbn [In] in N. assert (Nr : ~ In 0 r) by auto. specialize (IH Nr).
    rewrite js_utf8_4 by lia. cbv zeta. cbn [app]. rewrite js_dec_4 by lia. cbv zeta. rewrite IH, !zlen_cons.
    set (c := 65536 + (u mod 1024 * 1024 + v mod 1024)).
    replace ((240 + c / 262144) mod 8 * 262144 + (128 + c / 4096 mod 64) mod 64 * 4096 + (128 + c / 64 mod 64) mod 64 * 64 +
      (128 + c mod 64) mod 64) with c by lia.
    destruct (Z.ltb_spec c 65536); [lia|]. f_equal; [|lia]. f_equal; [lia|f_equal; lia].
Qed.

(** Every well-formed UTF-8 string is the encoding of the string the decoder makes of it. *)
Lemma utf8_ind (P : list Z -> Prop) :
  P [] ->
  (forall b r, 0 <= b < 128 -> P r -> P (b :: r)) ->
  (forall b c r, 194 <= b < 224 -> 128 <= c < 192 -> P r -> P (b :: c :: r)) ->
  (forall b c d r, 224 <= b < 240 -> 128 <= c < 192 -> 128 <= d < 192 -> (b = 224 -> 160 <= c) -> (b = 237 -> c < 160) ->
     P r -> P (b :: c :: d :: r)) ->
  (forall b c d e r, 240 <= b <= 244 -> 128 <= c < 192 -> 128 <= d < 192 -> 128 <= e < 192 -> (b = 240 -> 144 <= c) ->
     (b = 244 -> c < 144) -> P r -> P (b :: c :: d :: e :: r)) ->
  forall l, utf8_ok l = true -> P l.
Proof.
  intros H0 H1 H2 H3 H4. assert (G : forall n l, (length l <= n)%nat -> utf8_ok l = true -> P l).
  { induction n; intros l L W; (destruct l as [|b r]; [auto|]); [cbn in L; lia|].
    assert (AT : forall x y, x && y = true -> x = true /\ y = true) by (intros; apply andb_true_iff; auto).
    cbn [utf8_ok length] in *. unfold utf8_tail in W.
    destruct (Z.leb_spec b 127).
    { apply AT in W. destruct W as (Wb & W). apply Z.leb_le in Wb. apply H1; [lia|]. apply IHn; auto; lia. }
    destruct r as [|c r]; [discriminate|]. cbn [length] in L.
    destruct (Z.leb_spec 194 b), (Z.leb_spec b 223); cbn [andb] in W.
    { repeat match goal with H : _ && _ = true |- _ => apply AT in H; destruct H end.
      repeat match goal with H : (_ <=? _) = true |- _ => apply Z.leb_le in H end.
      apply H2; try lia. apply IHn; auto; lia. }
    - (* b > 223 *)
      destruct r as [|d r]; [discriminate|]. cbn [length] in L.
      destruct (Z.leb_spec 224 b); [|lia]. destruct (Z.leb_spec b 239); cbn [andb] in W.
      + repeat match goal with H : _ && _ = true |- _ => apply AT in H; destruct H end.
        repeat match goal with H : (_ <=? _) = true |- _ => apply Z.leb_le in H end.
        apply H3; try lia; [| |apply IHn; auto; lia]; intros ->; cbn [Z.eqb Pos.eqb] in *;
          repeat match goal with H : (_ <=? _) = true |- _ => apply Z.leb_le in H end; lia.
      + destruct r as [|e r]; [discriminate|]. cbn [length] in L.
        repeat match goal with H : _ && _ = true |- _ => apply AT in H; destruct H end.
        repeat match goal with H : (_ <=? _) = true |- _ => apply Z.leb_le in H end.
        apply H4; try lia; [| |apply IHn; auto; lia]; intros ->; cbn [Z.eqb Pos.eqb] in *;
          repeat match goal with H : (_ <=? _) = true |- _ => apply Z.leb_le in H end; lia.
    - (* b < 194 *)
      destruct r as [|d r]; [discriminate|]. destruct (Z.leb_spec 224 b); [lia|]. cbn [andb] in W.
      destruct r as [|e r]; [discriminate|]. destruct (Z.leb_spec 240 b); [lia|]. discriminate.
    - lia. }
  intros l. apply (G (length l)). lia.
Qed.

Lemma js_enc_dec l t : utf8_ok l = true -> ~ In 0 l ->
  exists us, js_utf8_decode (l ++ 0 :: t) = (us, zlen l) /\ utf16_ok us = true /\ ~ In 0 us /\ js_utf8 us = l.
Proof.
  intros W. revert l W.
  apply (utf8_ind (fun l => ~ In 0 l ->
    exists us, js_utf8_decode (l ++ 0 :: t) = (us, zlen l) /\ utf16_ok us = true /\ ~ In 0 us /\ js_utf8 us = l)).
  - intros _. exists []. repeat split; auto.
  - intros b r Hb IH N. cbn [In] in N. destruct IH as (us & E & W & Nu & J); [tauto|]. exists (b :: us).
    cbn [app]. rewrite js_dec_1, E, js_utf8_1, J, zlen_cons by lia. repeat split; auto; [f_equal; lia| |cbn [In]; intros [?|?]; auto].
    cbn [utf16_ok]. rewrite W. enc_bytes_goal; reflexivity.
  - intros b c r Hb Hc IH N. cbn [In] in N. destruct IH as (us & E & W & Nu & J); [tauto|].
    set (u := b mod 32 * 64 + c mod 64). assert (Hu : 128 <= u < 2048) by lia. exists (u :: us).
    cbn [app]. rewrite js_dec_2, E, js_utf8_2, J, !zlen_cons by lia.
    split; [f_equal; lia|]. split; [cbn [utf16_ok]; rewrite W; enc_bytes_goal; reflexivity|].
    split; [cbn [In]; intros [?|?]; [lia|auto]|]. f_equal; [lia|f_equal; lia].
  - intros b c d r Hb Hc Hd He Hf IH N. cbn [In] in N. destruct IH as (us & E & W & Nu & J); [tauto|].
    set (u := b mod 16 * 4096 + c mod 64 * 64 + d mod 64).
    assert (Hu : 2048 <= u < 55296 \/ 57344 <= u < 65536) by lia. exists (u :: us).
    cbn [app]. rewrite js_dec_3, E, js_utf8_3, J, !zlen_cons by lia.
    split; [f_equal; lia|]. split; [cbn [utf16_ok]; rewrite W; enc_bytes_goal; reflexivity|].
    split; [cbn [In]; intros [?|?]; [lia|auto]|]. f_equal; [lia|f_equal; [lia|f_equal; lia]].
  - intros b c d e r Hb Hc Hd He Hf Hg IH N. cbn [In] in N. destruct IH as (us & E & W & Nu & J); [tauto|].
    set (x := b mod 8 * 262144 + c mod 64 * 4096 + d mod 64 * 64 + e mod 64).
    assert (Hx : 65536 <= x < 1114112) by lia.
    exists (55296 + (x - 65536) / 1024 :: 56320 + (x - 65536) mod 1024 :: us).
    cbn [app]. rewrite js_dec_4 by lia. cbv zeta. rewrite E. change (b mod 8 * 262144 + c mod 64 * 4096 + d mod 64 * 64 + e mod 64) with x.
    destruct (Z.ltb_spec x 65536); [lia|]. rewrite !zlen_cons.
    split; [f_equal; lia|]. split; [cbn [utf16_ok]; rewrite W; enc_bytes_goal; reflexivity|].
    split; [cbn [In]; intros [?|[?|?]]; [lia|lia|auto]|].
    rewrite js_utf8_4, J by lia. cbv zeta.
    set (y := 65536 + ((55296 + (x - 65536) / 1024) mod 1024 * 1024 + (56320 + (x - 65536) mod 1024) mod 1024)).
    assert (y = x) by lia. clearbody y. subst y.
    f_equal; [lia|f_equal; [lia|f_equal; [lia|f_equal; lia]]].
Qed.
