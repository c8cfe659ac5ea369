(** The C-family packing: when it is right, when it is not. *)
From Coq Require Import ZArith List Lia Bool.
From Verif Require Import Base BaseProofs Schema SpecWire GoModel GoBitProofs GoEncProofs CfBits.
Import ListNotations.
Open Scope Z_scope.

Lemma cf_next8_eq x : cf_next8 x = 8 * (x / 8 + 1).
Proof.
  unfold cf_next8. change (-8) with (Z.lnot (Z.ones 3)). rewrite <- Z.ldiff_land, Z.ldiff_ones_r by lia.
  rewrite Z.shiftl_mul_pow2, Z.shiftr_div_pow2 by lia. change (2 ^ 3) with 8. lia.
Qed.

Lemma cf_mask_bit lo hi j : 0 <= lo -> lo < hi -> hi <= 8 * (lo / 8 + 1) -> 0 <= j ->
  Z.testbit (cf_mask lo hi) j = (lo mod 8 <=? j) && (j <? hi - 8 * (lo / 8)).
Proof.
  intros Hl Hh H8 Hj. unfold cf_mask. rewrite !land7.
  assert (E : (hi - 1) mod 8 + 1 = hi - 8 * (lo / 8)) by lia. rewrite E.
  rewrite !shiftl1 by lia. rewrite Z.land_spec, Z.lnot_spec, !testbit_ones by lia.
  destruct (Z.leb_spec (lo mod 8) j), (Z.ltb_spec j (lo mod 8)), (Z.ltb_spec j (hi - 8 * (lo / 8))); try lia; reflexivity.
Qed.

Lemma masked_bit x lo hi j : 0 <= lo -> lo < hi -> hi <= 8 * (lo / 8 + 1) -> 0 <= j ->
  Z.testbit (Z.shiftr (Z.land x (cf_mask lo hi)) (lo mod 8)) j = (j <? hi - lo) && Z.testbit x (lo mod 8 + j).
Proof.
  intros Hl Hh H8 Hj. rewrite testbit_shiftr, Z.land_spec, cf_mask_bit by lia.
  replace (j + lo mod 8) with (lo mod 8 + j) by lia.
  destruct (Z.leb_spec (lo mod 8) (lo mod 8 + j)), (Z.ltb_spec (lo mod 8 + j) (hi - 8 * (lo / 8))), (Z.ltb_spec j (hi - lo)); try lia;
    rewrite ?andb_true_r, ?andb_false_r; reflexivity.
Qed.

Lemma masked_shl x lo hi s j : 0 <= lo -> lo mod 8 = 0 -> lo < hi -> hi <= lo + 8 -> 0 <= j -> 0 <= s ->
  Z.testbit (Z.shiftl (Z.land x (cf_mask lo hi)) s) j = (s <=? j) && (j <? s + (hi - lo)) && Z.testbit x (j - s).
Proof.
  intros Hl Hm Hh H8 Hj Hs. rewrite Z.shiftl_spec by lia.
  destruct (Z.leb_spec s j).
  - rewrite Z.land_spec, cf_mask_bit by lia.
    destruct (Z.leb_spec (lo mod 8) (j - s)), (Z.ltb_spec (j - s) (hi - 8 * (lo / 8))), (Z.ltb_spec j (s + (hi - lo))); try lia;
      rewrite ?andb_true_r, ?andb_false_r; reflexivity.
  - rewrite Z.testbit_neg_r by lia. reflexivity.
Qed.

(** Field bits [b, e) of the packed expression: right when the part is within one source byte, or is
    a whole byte. *)
Lemma cf_part_bit fd b e j : 0 <= b -> b < e -> e <= b + 8 -> 0 <= j ->
  (e <= 8 * (b / 8 + 1) \/ e = b + 8) ->
  Z.testbit (cf_part fd b e) j = (j <? e - b) && Z.testbit (fd ((b + j) / 8)) ((b + j) mod 8).
Proof.
  intros Hb He H8 Hj G. unfold cf_part. rewrite cf_next8_eq.
  destruct (Z.ltb_spec b e); [|lia].
  destruct (Z.ltb_spec (Z.min e (8 * (b / 8 + 1))) e).
  - assert (E : e = b + 8) by lia. clear G.
    replace (Z.min e (8 * (b / 8 + 1))) with (8 * (b / 8 + 1)) by lia.
    rewrite cf_next8_eq.
    replace (Z.min e (8 * (8 * (b / 8 + 1) / 8 + 1))) with e by lia.
    replace (8 * (b / 8 + 1) / 8) with (b / 8 + 1) by lia.
    rewrite Z.lor_spec, masked_bit, masked_shl by lia.
    destruct (Z.ltb_spec j (8 * (b / 8 + 1) - b)).
    + destruct (Z.leb_spec (8 - e mod 8) j); [lia|]. cbn [andb]. rewrite orb_false_r.
      destruct (Z.ltb_spec j (e - b)); [|lia]. cbn [andb].
      replace ((b + j) / 8) with (b / 8) by lia. replace ((b + j) mod 8) with (b mod 8 + j) by lia. reflexivity.
    + destruct (Z.leb_spec (8 - e mod 8) j); [|lia]. cbn [andb orb].
      replace (8 - e mod 8 + (e - 8 * (b / 8 + 1))) with (e - b) by lia.
      destruct (Z.ltb_spec j (e - b)); cbn [andb]; auto.
      replace ((b + j) / 8) with (b / 8 + 1) by lia. replace ((b + j) mod 8) with (j - (8 - e mod 8)) by lia. reflexivity.
  - replace (Z.min e (8 * (b / 8 + 1))) with e by lia.
    rewrite masked_bit by lia. destruct (Z.ltb_spec j (e - b)); cbn [andb]; auto.
    replace ((b + j) / 8) with (b / 8) by lia. replace ((b + j) mod 8) with (b mod 8 + j) by lia. reflexivity.
Qed.

(** Otherwise the second piece is shifted too far: the first bit it should supply is clear. *)
Lemma cf_part_bad fd b e : 0 <= b -> b < e -> 8 * (b / 8 + 1) < e -> e < b + 8 ->
  Z.testbit (cf_part fd b e) (8 * (b / 8 + 1) - b) = false.
Proof.
  intros Hb He G H8. unfold cf_part. rewrite cf_next8_eq.
  destruct (Z.ltb_spec b e); [|lia].
  replace (Z.min e (8 * (b / 8 + 1))) with (8 * (b / 8 + 1)) by lia.
  destruct (Z.ltb_spec (8 * (b / 8 + 1)) e); [|lia].
  rewrite cf_next8_eq.
  replace (Z.min e (8 * (8 * (b / 8 + 1) / 8 + 1))) with e by lia.
  rewrite Z.lor_spec, masked_bit, masked_shl by lia.
  destruct (Z.ltb_spec (8 * (b / 8 + 1) - b) (8 * (b / 8 + 1) - b)); [lia|].
  destruct (Z.leb_spec (8 - e mod 8) (8 * (b / 8 + 1) - b)); [lia|]. reflexivity.
Qed.

Definition zeros (buf : list Z) (a b : Z) : Prop := forall k, a <= k < b -> bitat buf k = false.

Lemma zeros_mono buf a b a' b' : a <= a' -> b' <= b -> zeros buf a b -> zeros buf a' b'.
Proof. intros H1 H2 H k Hk. apply H. lia. Qed.

(** Bits past an overlay are unchanged, so still zero. *)
Lemma zeros_overlay buf pos img buf' a b : overlay buf pos img buf' -> 0 <= a -> pos + zlen img <= a -> b <= 8 * zlen buf ->
  zeros buf a b -> zeros buf' a b.
Proof.
  intros (L & _ & H) Ha Hp Hb Z k Hk. rewrite H by lia. rewrite onth_None by lia. apply Z; auto.
Qed.

Lemma zeros_skipn buf p a b : 0 <= a -> zeros buf (8 * Z.of_nat p + a) (8 * Z.of_nat p + b) -> zeros (skipn p buf) a b.
Proof. intros Ha H k Hk. rewrite bitat_skipn by lia. apply H. lia. Qed.

(** The last byte of a field is packed correctly. *)
Definition cf_good (n from : Z) : Prop :=
  from mod 8 = 0 \/ (from + n) mod 8 <= from mod 8 \/ from / 8 = (from + n - 1) / 8.

Section Loop.
  Variable plain : Z -> Z -> bool.
  Variable fd : Z -> Z.
  Variable W : Z -> bool.
  Variable n : Z.
  Hypothesis HW : forall k, 0 <= k < n -> Z.testbit (fd (k / 8)) (k mod 8) = W k.

  Lemma cf_step base from i buf : 0 <= base -> 0 <= from -> cf_good n from ->
    from <= i < from + n -> (i = from \/ i mod 8 = 0) ->
    (plain i (cf_mask i (Z.min (from + n) (cf_next8 i))) = true -> i mod 8 = 0) ->
    bytes_ok buf -> 8 * base + from + n <= 8 * zlen buf ->
    zeros buf (8 * base + i) (8 * (base + i / 8 + 1)) ->
    let ni := Z.min (from + n) (cf_next8 i) in
    let m := cf_mask i ni in
    let x := Z.land (Z.shiftl (cf_part fd (i - from) (ni - from)) (i mod 8)) m in
    exists buf', 
      (do old <- rd buf (base + i / 8); wr buf (base + i / 8) ((if plain i m then x else Z.lor old x) mod 256)) = Ok buf' /\
      overlay buf (8 * base + i) (img_of W (i - from) (Z.to_nat (ni - i))) buf'.
  Proof.
    intros Hb Hf G Hi Hal Hp Hok Hlen Hz ni m x.
    assert (Hni : i < ni <= from + n /\ ni <= 8 * (i / 8 + 1)) by (unfold ni; rewrite cf_next8_eq; lia).
    rewrite rd_ok by lia. cbn [bind]. rewrite wr_ok by lia.
    eexists. split; [reflexivity|].
    set (q := base + i / 8) in *. set (old := nth (Z.to_nat q) buf 0).
    assert (Hold : 0 <= old < 256) by (apply bytes_ok_nth; auto).
    assert (Holdz : forall j, i mod 8 <= j < 8 -> Z.testbit old j = false).
    { intros j Hj. specialize (Hz (8 * q + j) ltac:(lia)). unfold bitat in Hz.
      replace ((8 * q + j) / 8) with q in Hz by lia. replace ((8 * q + j) mod 8) with j in Hz by lia. exact Hz. }
    assert (Hx : forall j, 0 <= j -> Z.testbit x j = (i mod 8 <=? j) && (j <? ni - 8 * (i / 8)) && W (i - from + (j - i mod 8))).
    { intros j Hj. unfold x, m. rewrite Z.land_spec, cf_mask_bit, Z.shiftl_spec by lia.
      destruct (Z.leb_spec (i mod 8) j); cbn [andb]; [|now rewrite andb_false_r].
      destruct (Z.ltb_spec j (ni - 8 * (i / 8))); cbn [andb]; [|now rewrite andb_false_r].
      rewrite andb_true_r.
      rewrite cf_part_bit; try lia.
      - destruct (Z.ltb_spec (j - i mod 8) (ni - from - (i - from))); [|lia]. cbn [andb]. apply HW. lia.
      - unfold cf_good in G. destruct Hal as [Hal|Hal]; [subst; left; lia|].
        destruct (Z.eq_dec ni (i + 8)); [right; lia|]. left.
        assert (Hlast : ni = from + n) by (unfold ni in *; rewrite cf_next8_eq in *; lia).
        destruct G as [G|[G|G]]; lia. }
    assert (Hbit : forall j, 0 <= j < 8 ->
       Z.testbit ((if plain i m then x else Z.lor old x) mod 256) j =
       if (i mod 8 <=? j) && (j <? ni - 8 * (i / 8)) then W (i - from + (j - i mod 8)) else Z.testbit old j).
    { intros j Hj. change 256 with (2 ^ 8). rewrite testbit_mod by lia.
      destruct (Z.ltb_spec j 8); [|lia].
      assert (Hor : Z.testbit (Z.lor old x) j = if (i mod 8 <=? j) && (j <? ni - 8 * (i / 8)) then W (i - from + (j - i mod 8)) else Z.testbit old j).
      { rewrite Z.lor_spec, Hx by lia. destruct (Z.leb_spec (i mod 8) j); cbn [andb]; [|now rewrite orb_false_r].
        destruct (Z.ltb_spec j (ni - 8 * (i / 8))); cbn [andb]; [|now rewrite orb_false_r].
        rewrite Holdz by lia. reflexivity. }
      destruct (plain i m) eqn:Ep; [|exact Hor].
      specialize (Hp Ep). rewrite Hx by lia.
      destruct (Z.leb_spec (i mod 8) j); [|lia]. cbn [andb].
      destruct (Z.ltb_spec j (ni - 8 * (i / 8))); cbn [andb]; auto. rewrite Holdz by lia. reflexivity. }
    split; [|split].
    - apply upd_nat_length.
    - apply upd_nat_bytes_ok; auto. apply Z.mod_pos_bound. lia.
    - intros k Hk. rewrite onth_img_of.
      unfold bitat. rewrite upd_nat_nth.
      assert (Hiq : (Z.to_nat q <? length buf)%nat = true).
      { apply Nat.ltb_lt. unfold zlen in Hlen. lia. }
      rewrite Hiq, andb_true_r.
      destruct (Nat.eqb_spec (Z.to_nat (k / 8)) (Z.to_nat q)) as [E|E].
      + assert (k / 8 = q) by lia.
        rewrite Hbit by lia. replace (nth (Z.to_nat (k / 8)) buf 0) with old by (unfold old; now rewrite E).
        replace (k - (8 * base + i)) with (k mod 8 - i mod 8) by lia.
        destruct (Z.leb_spec (i mod 8) (k mod 8)), (Z.ltb_spec (k mod 8) (ni - 8 * (i / 8))),
          (Z.leb_spec 0 (k mod 8 - i mod 8)), (Z.ltb_spec (k mod 8 - i mod 8) (Z.of_nat (Z.to_nat (ni - i))));
          try lia; reflexivity.
      + assert (k / 8 <> q) by lia.
        destruct (Z.leb_spec 0 (k - (8 * base + i))), (Z.ltb_spec (k - (8 * base + i)) (Z.of_nat (Z.to_nat (ni - i))));
          cbn [andb]; auto. exfalso. lia.
  Qed.

  Hypothesis Hplain : forall i ni, 0 <= i -> i < ni -> ni <= 8 * (i / 8 + 1) -> plain i (cf_mask i ni) = true -> i mod 8 = 0.

  Lemma cf_loop_overlay base from lim : 0 <= base -> 0 <= from -> cf_good n from -> lim mod 8 = 0 ->
    forall fuel i buf, from <= i -> (i = from \/ i mod 8 = 0) -> from + n - i <= Z.of_nat fuel ->
    bytes_ok buf -> 8 * base + from + n <= lim -> lim <= 8 * zlen buf -> zeros buf (8 * base + i) lim ->
    exists buf', cf_enc_loop fuel plain fd base from (from + n) i buf = Ok buf' /\
      overlay buf (8 * base + i) (img_of W (i - from) (Z.to_nat (from + n - i))) buf'.
  Proof.
    intros Hb Hf G Hlim. induction fuel; intros i buf Hi Hal Hfuel Hok Hl1 Hl2 Hz; cbn [cf_enc_loop].
    - exists buf. replace (Z.to_nat (from + n - i)) with 0%nat by lia. split; [reflexivity|]. apply overlay_nil; auto.
    - destruct (Z.ltb_spec i (from + n)).
      2:{ exists buf. replace (Z.to_nat (from + n - i)) with 0%nat by lia. split; [reflexivity|]. apply overlay_nil; auto. }
      pose proof (cf_next8_eq i) as E8.
      destruct (cf_step base from i buf) as (b1 & E1 & O1); auto; try lia.
      { intros Hp. eapply Hplain; [| | |exact Hp]; lia. }
      { eapply zeros_mono; [| |exact Hz]; lia. }
      cbn zeta in E1, O1. destruct (rd buf (base + i / 8)) as [old| |]; cbn [bind] in E1 |- *; try discriminate.
      rewrite E1. cbn [bind].
      pose proof (overlay_length _ _ _ _ O1) as L1. pose proof (overlay_bytes _ _ _ _ O1) as B1.
      set (ni := Z.min (from + n) (cf_next8 i)) in *.
      destruct (IHfuel (cf_next8 i) b1) as (b2 & E2 & O2); try lia; auto.
      { eapply zeros_overlay; [exact O1| | | |]; try lia.
        - rewrite zlen_img_of. lia.
        - eapply zeros_mono; [| |exact Hz]; lia. }
      exists b2. split; [exact E2|].
      destruct (Z.leb_spec (cf_next8 i) (from + n)).
      + replace (Z.to_nat (from + n - i)) with (Z.to_nat (ni - i) + Z.to_nat (from + n - cf_next8 i))%nat by lia.
        rewrite img_of_app. eapply overlay_app; [exact O1|]. rewrite zlen_img_of.
        replace (i - from + Z.of_nat (Z.to_nat (ni - i))) with (cf_next8 i - from) by lia.
        replace (8 * base + i + Z.of_nat (Z.to_nat (ni - i))) with (8 * base + cf_next8 i) by lia. exact O2.
      + replace (Z.to_nat (from + n - cf_next8 i)) with 0%nat in O2 by lia.
        assert (b2 = b1) by (eapply overlay_fun; [exact O2|apply overlay_nil; auto]). subst b2.
        replace (from + n - i) with (ni - i) by lia. exact O1.
  Qed.
End Loop.

(** Inline statements. *)
Lemma cf_enc_overlay fd W n from base lim buf :
  (forall k, 0 <= k < n -> Z.testbit (fd (k / 8)) (k mod 8) = W k) ->
  0 <= base -> 0 <= from -> cf_good n from -> lim mod 8 = 0 -> bytes_ok buf ->
  8 * base + from + n <= lim -> lim <= 8 * zlen buf -> zeros buf (8 * base + from) lim ->
  exists buf', cf_enc fd from n base buf = Ok buf' /\ overlay buf (8 * base + from) (img_of W 0 (Z.to_nat n)) buf'.
Proof.
  intros HW Hb Hf G Hl Hok H1 H2 Hz. unfold cf_enc.
  destruct (cf_loop_overlay (fun i _ => i mod 8 =? 0) fd W n HW) with (base := base) (from := from) (lim := lim) (fuel := Z.to_nat n) (i := from) (buf := buf)
    as (b & E & O); auto; try lia.
  exists b. split; [exact E|]. replace (from - from) with 0 in O by lia. replace (from + n - from) with n in O by lia. exact O.
Qed.

(** The run-time helper. *)
Lemma cf_helper_bit n value big k : 0 <= k ->
  Z.testbit (cf_helper_data n value big (k / 8)) (k mod 8) = Z.testbit value (value_bit n big k).
Proof.
  intros Hk. unfold cf_helper_data, value_bit. change 255 with (Z.ones 8). rewrite Z.land_ones by lia.
  rewrite testbit_mod by lia. destruct (Z.ltb_spec (k mod 8) 8); [|lia]. rewrite testbit_shiftr by lia. f_equal.
  destruct big; [|lia]. cbn zeta. destruct (Z.ltb_spec (n - 8 * (k / 8 + 1)) 0); lia.
Qed.

Lemma cf_write_bits_overlay bit_from n value big lim buf : 1 <= n <= 64 -> 0 <= bit_from -> cf_good n bit_from ->
  lim mod 8 = 0 -> bytes_ok buf -> bit_from + n <= lim -> lim <= 8 * zlen buf -> zeros buf bit_from lim ->
  exists buf', cf_write_bits bit_from n (loop_value value) big buf = Ok buf' /\
    overlay buf bit_from (map Some (field_bits n big value)) buf'.
Proof.
  intros Hn Hb G Hl Hok H1 H2 Hz. unfold cf_write_bits. destruct (Z.leb_spec n 0); [lia|].
  set (v' := if n <? 64 then _ else _).
  assert (Hv : forall j, 0 <= j < n -> Z.testbit v' j = Z.testbit value j).
  { intros j Hj. assert (Hlv : Z.testbit (loop_value value) j = Z.testbit value j).
    { unfold loop_value. rewrite testbit_mod by lia. destruct (Z.ltb_spec j 64); [auto|lia]. }
    unfold v'. destruct (Z.ltb_spec n 64); auto.
    rewrite shiftl1, Z.land_spec, testbit_ones by lia. destruct (Z.ltb_spec j n); [|lia]. now rewrite andb_true_r. }
  destruct (cf_loop_overlay (fun _ m => m =? 255) (cf_helper_data n v' big) (fun k => Z.testbit v' (value_bit n big k)) n)
    with (base := 0) (from := bit_from) (lim := lim) (fuel := Z.to_nat n) (i := bit_from) (buf := buf) as (b & E & O); auto; try lia.
  - intros k Hk. apply cf_helper_bit. lia.
  - intros i ni Hi Hni H8 Hm. apply Z.eqb_eq in Hm.
    pose proof (cf_mask_bit i ni 0 Hi Hni H8 ltac:(lia)) as B. rewrite Hm in B. change (Z.testbit 255 0) with true in B.
    symmetry in B. apply andb_true_iff in B as (B & _). apply Z.leb_le in B. lia.
  - exists b. split; [exact E|].
    replace (8 * 0 + bit_from) with bit_from in O by lia. replace (bit_from - bit_from) with 0 in O by lia.
    replace (bit_from + n - bit_from) with n in O by lia.
    rewrite map_Some_field_bits. erewrite img_of_ext; [exact O|].
    intros k Hk. symmetry. apply Hv. apply value_bit_range. lia.
Qed.

Lemma cf_enc_basic_overlay n w big from base lim z buf :
  0 <= n <= w -> 0 <= base -> 0 <= from -> cf_good n from -> lim mod 8 = 0 -> bytes_ok buf ->
  8 * base + from + n <= lim -> lim <= 8 * zlen buf -> zeros buf (8 * base + from) lim ->
  exists buf', cf_enc (field_data n big (z mod 2 ^ w)) from n base buf = Ok buf' /\
    overlay buf (8 * base + from) (map Some (field_bits n big z)) buf'.
Proof.
  intros Hn Hb Hf G Hl Hok H1 H2 Hz.
  rewrite map_Some_field_bits. apply cf_enc_overlay with (lim := lim); auto.
  intros k Hk. rewrite field_data_bit by lia. rewrite testbit_mod by (pose proof (value_bit_range n big k Hk); lia).
  pose proof (value_bit_range n big k Hk). destruct (Z.ltb_spec (value_bit n big k) w); [auto|lia].
Qed.

Lemma cf_enc_const_overlay b n big from base lim z buf : wf_basic b ->
  0 <= n <= basic_bits b -> 0 <= base -> 0 <= from -> cf_good n from -> lim mod 8 = 0 -> bytes_ok buf ->
  8 * base + from + n <= lim -> lim <= 8 * zlen buf -> zeros buf (8 * base + from) lim ->
  exists buf', cf_enc (const_data (basic_bits b) big z) from n base buf = Ok buf' /\
    overlay buf (8 * base + from) (map Some (const_bits (basic_bits b) n big z)) buf'.
Proof.
  intros Wb Hn Hb Hf G Hl Hok H1 H2 Hz.
  assert (E : map Some (const_bits (basic_bits b) n big z) = img_of (fun k => Z.testbit z (value_bit (basic_bits b) big k)) 0 (Z.to_nat n)).
  { unfold const_bits, img_of. rewrite map_map. apply map_ext. intros; reflexivity. }
  rewrite E. apply cf_enc_overlay with (lim := lim); auto.
  intros k Hk. apply const_data_bit; [apply basic_bits_wf; auto|lia].
Qed.

(** ** Reading *)
Lemma cf_dec_part_ok base from ff cs data : 0 <= base -> 0 <= from -> 0 <= ff -> 1 <= cs <= 8 -> bytes_ok data ->
  8 * base + from + ff + cs <= 8 * zlen data ->
  exists r, cf_dec_part base (from + ff) (from + ff + cs) data = Ok r /\ 0 <= r < 2 ^ 8 /\
    forall j, 0 <= j -> Z.testbit r j = (j <? cs) && bitat data (8 * base + from + ff + j).
Proof.
  intros Hb Hf Hff Hcs Hok Hlen. unfold cf_dec_part. rewrite cf_next8_eq.
  set (b := from + ff) in *. set (e := b + cs) in *.
  assert (Hbit : forall q j, 0 <= q -> 0 <= j < 8 -> Z.testbit (nth (Z.to_nat (base + q)) data 0) j = bitat data (8 * (base + q) + j)).
  { intros q j Hq Hj. unfold bitat. replace ((8 * (base + q) + j) / 8) with (base + q) by lia.
    replace ((8 * (base + q) + j) mod 8) with j by lia. reflexivity. }
  set (sep := Z.min e (8 * (b / 8 + 1))).
  assert (Hsep : b < sep <= e /\ sep <= 8 * (b / 8 + 1)) by (unfold sep, e; lia).
  destruct (Z.ltb_spec b sep); [|lia]. rewrite rd_ok by (unfold e, b in *; lia). cbn [bind].
  assert (P1 : forall j, 0 <= j -> Z.testbit (Z.shiftr (Z.land (nth (Z.to_nat (base + b / 8)) data 0) (cf_mask b sep)) (b mod 8)) j =
              (j <? sep - b) && bitat data (8 * base + b + j)).
  { intros j Hj. rewrite masked_bit by lia. destruct (Z.ltb_spec j (sep - b)); cbn [andb]; auto.
    rewrite Hbit by lia. f_equal. lia. }
  assert (Hb2 : 8 * base + from + ff = 8 * base + b) by (unfold b; lia). rewrite Hb2 in *.
  destruct (Z.ltb_spec sep e).
  - assert (Hs8 : sep = 8 * (b / 8 + 1)) by (unfold sep in *; lia).
    rewrite rd_ok by lia. cbn [bind]. eexists. split; [reflexivity|].
    set (r := Z.lor _ _).
    assert (Br : forall j, 0 <= j -> Z.testbit r j = (j <? cs) && bitat data (8 * base + b + j)).
    { intros j Hj. unfold r. rewrite Z.lor_spec, P1, masked_shl by lia.
      replace (e - b - e mod 8) with (sep - b) by (unfold e in *; lia).
      destruct (Z.ltb_spec j (sep - b)).
      - destruct (Z.leb_spec (sep - b) j); [lia|]. cbn [andb]. rewrite orb_false_r.
        destruct (Z.ltb_spec j cs); [reflexivity|unfold e in *; lia].
      - destruct (Z.leb_spec (sep - b) j); [|lia]. cbn [andb orb].
        destruct (Z.ltb_spec j (sep - b + (e - sep))), (Z.ltb_spec j cs); cbn [andb]; try (unfold e in *; lia).
        rewrite Hbit by (unfold e in *; lia). f_equal. lia. }
    split; [|exact Br].
    assert (0 <= r).
    { unfold r. apply Z.lor_nonneg. split.
      - apply Z.shiftr_nonneg, Z.land_nonneg. left. apply bytes_ok_nth; auto.
      - apply Z.shiftl_nonneg, Z.land_nonneg. left. apply bytes_ok_nth; auto. }
    split; auto. apply bits_bound; try lia. intros k Hk. rewrite Br by lia. destruct (Z.ltb_spec k cs); [lia|reflexivity].
  - assert (Hse : sep = e) by lia.
    eexists. split; [reflexivity|]. set (r := Z.shiftr _ _) in *.
    assert (Br : forall j, 0 <= j -> Z.testbit r j = (j <? cs) && bitat data (8 * base + b + j)).
    { intros j Hj. rewrite P1 by auto. replace (sep - b) with cs by (unfold e in *; lia). reflexivity. }
    split; [|exact Br].
    assert (0 <= r) by (apply Z.shiftr_nonneg, Z.land_nonneg; left; apply bytes_ok_nth; auto).
    split; auto. apply bits_bound; try lia. intros k Hk. rewrite Br by lia. destruct (Z.ltb_spec k cs); [lia|reflexivity].
Qed.

Lemma cf_part_eq base from ff cs data : 0 <= base -> 0 <= from -> 0 <= ff -> 1 <= cs <= 8 -> bytes_ok data ->
  8 * base + from + ff + cs <= 8 * zlen data ->
  cf_dec_part base (from + ff) (from + ff + cs) data = dec_parts 8 from ff cs 0 base 0 data /\
  exists r, cf_dec_part base (from + ff) (from + ff + cs) data = Ok r /\ 0 <= r < 2 ^ 8.
Proof.
  intros Hb Hf Hff Hcs Hok Hlen.
  destruct (cf_dec_part_ok base from ff cs data) as (r & E & R & B); auto.
  destruct (dec_parts_bits 8 from ff cs 0 base 0 data) as (r' & E' & R' & B'); auto; try lia.
  rewrite E, E'. split; [|eauto]. f_equal. apply Z.bits_inj'. intros j Hj. rewrite B, B' by auto.
  rewrite Z.testbit_0_l. cbn [orb]. destruct (Z.leb_spec 0 j); [|lia]. reflexivity.
Qed.

Lemma cf_dec_eq w n big from base data : 8 <= w -> 1 <= n <= w -> 0 <= from -> 0 <= base -> bytes_ok data ->
  8 * base + from + n <= 8 * zlen data ->
  cf_dec w n big from base data = Ok (read_value data (8 * base + from) n big).
Proof.
  intros Hw Hn Hf Hb Hok Hlen. rewrite <- (dec_pattern_ok w n big from base 0 data) by auto.
  unfold cf_dec, dec_pattern.
  assert (G : forall fuel ff acc, 0 <= ff -> cf_dec_loop fuel w from n ff big base acc data = dec_chunks fuel w from n ff big base acc data).
  { induction fuel; intros ff acc Hff; cbn [cf_dec_loop dec_chunks]; auto.
    destruct (Z.ltb_spec ff n); auto.
    destruct (cf_part_eq base from ff (Z.min 8 (n - ff)) data) as (E & r & Er & Rr); auto; try lia.
    replace (Z.min (from + n) (from + ff + 8)) with (from + ff + Z.min 8 (n - ff)) by lia.
    rewrite <- E, Er. cbn [bind]. rewrite (Z.mod_small r).
    - apply IHfuel. lia.
    - assert (2 ^ 8 <= 2 ^ w) by (apply Z.pow_le_mono_r; lia). lia. }
  apply G. lia.
Qed.

Lemma cf_read_bits_ok bit_from n big data : 0 <= bit_from -> 1 <= n <= 64 -> bytes_ok data ->
  bit_from + n <= 8 * zlen data ->
  cf_read_bits bit_from n big data = Ok (read_value data bit_from n big).
Proof.
  intros Hb Hn Hok Hlen. unfold cf_read_bits. destruct (Z.leb_spec n 0); [lia|].
  replace bit_from with (8 * 0 + bit_from) at 3 by lia.
  rewrite <- (cf_dec_eq 64 n big bit_from 0 data) by lia || auto. unfold cf_dec.
  assert (G : forall fuel idx acc, 0 <= idx -> (idx = 0 -> acc = 0) ->
    cf_read_loop fuel bit_from n (bit_from + 8 * idx) idx big acc data = cf_dec_loop fuel 64 bit_from n (8 * idx) big 0 acc data).
  { induction fuel; intros idx acc Hi Ha; cbn [cf_read_loop cf_dec_loop]; auto.
    destruct (Z.ltb_spec (8 * idx) n), (Z.ltb_spec (bit_from + 8 * idx) (bit_from + n)); try lia; auto.
    replace (if bit_from + n <? bit_from + 8 * idx + 8 then bit_from + n else bit_from + 8 * idx + 8)
      with (Z.min (bit_from + n) (bit_from + 8 * idx + 8)).
    2:{ destruct (Z.ltb_spec (bit_from + n) (bit_from + 8 * idx + 8)); lia. }
    destruct (cf_part_eq 0 bit_from (8 * idx) (Z.min 8 (n - 8 * idx)) data) as (E & r & Er & Rr); auto; try lia.
    replace (Z.min (bit_from + n) (bit_from + 8 * idx + 8)) with (bit_from + 8 * idx + Z.min 8 (n - 8 * idx)) by lia.
    rewrite Er. cbn [bind]. rewrite (Z.mod_small r) by (change (2 ^ 64) with (2 ^ 8 * 2 ^ 56); lia).
    replace (8 * idx / 8) with idx by lia. cbn zeta.
    replace (bit_from + 8 * idx + 8) with (bit_from + 8 * (idx + 1)) by lia.
    replace (8 * idx + 8) with (8 * (idx + 1)) by lia.
    replace (if big then (if n - 8 * (idx + 1) <? 0 then 0 else n - 8 * (idx + 1)) else 8 * idx) with (if big then Z.max 0 (n - 8 * (idx + 1)) else idx * 8).
    2:{ destruct big; [|lia]. destruct (Z.ltb_spec (n - 8 * (idx + 1)) 0); lia. }
    rewrite IHfuel by lia. f_equal.
    destruct (Z.eqb_spec idx 0); auto. rewrite (Ha e). reflexivity. }
  specialize (G (Z.to_nat n) 0 0 ltac:(lia) ltac:(auto)). replace (bit_from + 8 * 0) with bit_from in G by lia. exact G.
Qed.

(** ** The other direction: when [cf_good] fails, one bit of the field is lost *)
Lemma bitat_upd buf q v k : 0 <= q < zlen buf -> 0 <= k ->
  bitat (upd_nat buf (Z.to_nat q) v) k = if k / 8 =? q then Z.testbit v (k mod 8) else bitat buf k.
Proof.
  intros Hq Hk. unfold bitat. rewrite upd_nat_nth.
  assert (H : (Z.to_nat q <? length buf)%nat = true) by (apply Nat.ltb_lt; unfold zlen in Hq; lia).
  rewrite H, andb_true_r. destruct (Nat.eqb_spec (Z.to_nat (k / 8)) (Z.to_nat q)), (Z.eqb_spec (k / 8) q); try lia; reflexivity.
Qed.

Lemma cf_loop_bad plain fd n base from : 0 <= base -> 0 <= from -> 1 <= n -> ~ cf_good n from ->
  let P := 8 * (base + (from + n) / 8) + from mod 8 in
  forall fuel i buf buf', from <= i -> i < from + n -> (i = from \/ i mod 8 = 0) -> from + n - i <= Z.of_nat fuel ->
  (bitat buf P = false \/ plain (8 * ((from + n) / 8)) (cf_mask (8 * ((from + n) / 8)) (from + n)) = true) ->
  cf_enc_loop fuel plain fd base from (from + n) i buf = Ok buf' -> bitat buf' P = false.
Proof.
  intros Hb Hf Hn G P. unfold cf_good in G.
  assert (G1 : from mod 8 <> 0 /\ from mod 8 < (from + n) mod 8 /\ from / 8 < (from + n) / 8) by lia. clear G.
  assert (HP : P / 8 = base + (from + n) / 8 /\ P mod 8 = from mod 8 /\ 0 <= P) by (unfold P; lia).
  induction fuel; intros i buf buf' Hi Hi2 Hal Hfuel Hz E; cbn [cf_enc_loop] in E; [lia|].
  destruct (Z.ltb_spec i (from + n)); [|lia].
  destruct (rd buf (base + i / 8)) as [old| |] eqn:Er; cbn [bind] in E; try discriminate.
  apply rd_inv in Er as (Hr & Eo). rewrite wr_ok in E by lia. cbn [bind] in E.
  pose proof (cf_next8_eq i) as E8.
  destruct (Z.ltb_spec (cf_next8 i) (from + n)).
  - apply IHfuel in E; auto; try lia.
    destruct Hz as [Hz|Hz]; [left|right; auto].
    rewrite bitat_upd by lia. destruct (Z.eqb_spec (P / 8) (base + i / 8)); [lia|auto].
  - assert (Hi8 : i = 8 * ((from + n) / 8)) by lia.
    assert (E' : buf' = upd_nat buf (Z.to_nat (base + i / 8)) ((if plain i (cf_mask i (Z.min (from + n) (cf_next8 i))) then Z.land (Z.shiftl (cf_part fd (i - from) (Z.min (from + n) (cf_next8 i) - from)) (i mod 8)) (cf_mask i (Z.min (from + n) (cf_next8 i))) else Z.lor old (Z.land (Z.shiftl (cf_part fd (i - from) (Z.min (from + n) (cf_next8 i) - from)) (i mod 8)) (cf_mask i (Z.min (from + n) (cf_next8 i))))) mod 256)).
    { destruct fuel; cbn [cf_enc_loop] in E; [now injection E|].
      destruct (Z.ltb_spec (cf_next8 i) (from + n)); [lia|]. now injection E. }
    subst buf'. clear E. replace (Z.min (from + n) (cf_next8 i)) with (from + n) by lia.
    replace (from + n - from) with n by lia.
    set (x := Z.land _ _).
    assert (Hx : Z.testbit x (from mod 8) = false).
    { unfold x. rewrite Z.land_spec, Z.shiftl_spec by lia. replace (from mod 8 - i mod 8) with (8 * ((i - from) / 8 + 1) - (i - from)) by lia.
      rewrite cf_part_bad by lia. reflexivity. }
    rewrite bitat_upd by lia. destruct (Z.eqb_spec (P / 8) (base + i / 8)); [|lia].
    change 256 with (2 ^ 8). rewrite testbit_mod by lia. destruct (Z.ltb_spec (P mod 8) 8); [|lia].
    destruct HP as (HP1 & HP2 & _). rewrite HP2.
    rewrite <- Hi8 in Hz. destruct (plain i (cf_mask i (from + n))); auto.
    rewrite Z.lor_spec, Hx, orb_false_r. destruct Hz as [Hz|Hz]; [|discriminate].
    unfold bitat in Hz. rewrite HP2, e in Hz. rewrite Eo. exact Hz.
Qed.

(** Inline statements: the lost bit, whatever the buffer held. *)
Lemma cf_enc_bad fd n from base buf buf' : 0 <= base -> 0 <= from -> 1 <= n -> ~ cf_good n from ->
  cf_enc fd from n base buf = Ok buf' -> bitat buf' (8 * (base + (from + n) / 8) + from mod 8) = false.
Proof.
  intros Hb Hf Hn G E. unfold cf_enc in E.
  eapply (cf_loop_bad (fun i _ => i mod 8 =? 0)) with (i := from); eauto; try lia.
Qed.
