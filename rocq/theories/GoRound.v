(** Round trip, prefixes and exactness of the Go decoder. *)
From Coq Require Import ZArith List Lia Bool.
From Verif Require Import Base BaseProofs Schema SpecWire GoModel GoBitProofs GoEncProofs GoEncMain GoDecProofs.
Import ListNotations.
Open Scope Z_scope.

(** ** raw bytes carried by a buffer *)
Lemma matches_raw data p l : bytes_ok data -> bytes_ok l -> 0 <= p ->
  matches data (8 * p) (raw_bytes l) -> exists t, skipn (Z.to_nat p) data = l ++ t.
Proof.
  intros Hd Hl Hp (L & H). rewrite zlen_raw_bytes in L. pose proof (zlen_nonneg l).
  exists (skipn (length l) (skipn (Z.to_nat p) data)).
  rewrite <- (firstn_skipn (length l) (skipn (Z.to_nat p) data)) at 1. f_equal.
  apply buf_ext; auto using bytes_ok_firstn, bytes_ok_skipn.
  - rewrite firstn_length, skipn_length. unfold zlen in *. lia.
  - intros k Hk. rewrite zlen_firstn, zlen_skipn in Hk.
    assert (Hk' : 0 <= k < 8 * zlen l) by (unfold zlen in *; lia).
    rewrite bitat_firstn by (unfold zlen in *; lia). rewrite bitat_skipn by lia.
    specialize (H k (bitat l k) (onth_raw_bytes l k Hk')).
    replace (8 * Z.of_nat (Z.to_nat p) + k) with (8 * p + k) by lia. exact H.
Qed.

Lemma str_scan_found bs t l : ~ In 0 bs -> str_scan (bs ++ 0 :: t) l = inl (l + zlen bs).
Proof.
  revert l; induction bs as [|b bs IH]; intros l H; cbn [app str_scan].
  - cbn. f_equal. unfold zlen; cbn; lia.
  - destruct (Z.eqb_spec b 0); [subst; exfalso; apply H; left; auto|].
    rewrite IH by (intros X; apply H; right; auto). rewrite zlen_cons. f_equal. lia.
Qed.

Lemma land128 b : 0 <= b < 256 -> (Z.land b 128 =? 0) = (b <? 128).
Proof.
  intros H. change 128 with (Z.shiftl 1 7) at 1. rewrite land_pow2_eqb by lia.
  destruct (Z.ltb_spec b 128).
  - rewrite testbit_above with (n := 7); auto; lia.
  - assert (T : Z.testbit b 7 = true); [|rewrite T; reflexivity].
    rewrite Z.testbit_true by lia. change (2 ^ 7) with 128.
    replace (b / 128) with 1 by lia. reflexivity.
Qed.

(** Scanning a canonical varint. *)
Lemma vi_scan_varint f : forall n cnt acc t, 0 <= n -> 0 <= cnt -> 0 <= acc < 2 ^ (7 * cnt) ->
  acc + n * 2 ^ (7 * cnt) < 2 ^ 63 -> cnt <= 8 -> (9 <= cnt + Z.of_nat f) ->
  vi_scan (varint_fuel f n ++ t) (7 * cnt) acc cnt =
    VDone (acc + n * 2 ^ (7 * cnt)) (cnt + zlen (varint_fuel f n)).
Proof.
  induction f; intros n cnt acc t Hn Hc Ha Hv Hc8 Hf; cbn [varint_fuel].
  - lia.
  - pose proof (pow2_pos (7 * cnt) ltac:(lia)) as Hpp.
    assert (Hp : 2 ^ (7 * cnt) <= 2 ^ 63) by (apply Z.pow_le_mono_r; lia).
    assert (E64 : 2 ^ 64 = 2 * 2 ^ 63) by reflexivity.
    destruct (Z.ltb_spec n 128).
    + cbn [app vi_scan]. rewrite land128, land127 by lia.
      destruct (Z.ltb_spec n 128); [|lia].
      destruct (Z.leb_spec 63 (7 * cnt)); [lia|].
      replace (n mod 128) with n by lia.
      rewrite Z.mod_small.
      2:{ rewrite Z.shiftl_mul_pow2 by lia. nia. }
      rewrite lor_disjoint by lia. f_equal.
    + cbn [app vi_scan]. rewrite land128, land127 by lia.
      destruct (Z.ltb_spec (n mod 128 + 128) 128); [lia|].
      destruct (Z.leb_spec 63 (7 * cnt)); [lia|].
      replace ((n mod 128 + 128) mod 128) with (n mod 128) by lia.
      assert (Hdm : n = 128 * (n / 128) + n mod 128) by lia.
      assert (Hnd : 1 <= n / 128) by lia.
      assert (Hm : 0 <= n mod 128 < 128) by lia.
      set (q := n / 128) in *. set (r := n mod 128) in *.
      rewrite Z.mod_small.
      2:{ rewrite Z.shiftl_mul_pow2 by lia. nia. }
      rewrite lor_disjoint by lia.
      replace (7 * cnt + 7) with (7 * (cnt + 1)) by lia.
      assert (E7 : 2 ^ (7 * (cnt + 1)) = 128 * 2 ^ (7 * cnt)).
      { replace (7 * (cnt + 1)) with (7 + 7 * cnt) by lia. rewrite Z.pow_add_r by lia. reflexivity. }
      assert (Hcnt8 : cnt + 1 <= 8).
      { assert (cnt = 8 \/ cnt + 1 <= 8) as [->|] by lia; auto. exfalso.
        change (2 ^ (7 * 8)) with (2 ^ 56) in *. change (2 ^ 63) with (128 * 2 ^ 56) in *. nia. }
      rewrite IHf; try lia; try (rewrite E7; nia).
      f_equal; [rewrite E7; nia|rewrite zlen_cons; lia].
Qed.

Lemma vi_scan_len n t : 0 <= n < 2 ^ 63 ->
  vi_scan (varint n ++ t) 0 0 0 = VDone n (zlen (varint n)).
Proof.
  intros H. unfold varint.
  pose proof (vi_scan_varint 10 n 0 0 t) as V. change (7 * 0) with 0 in V. change (2 ^ 0) with 1 in V.
  rewrite V by lia. f_equal; lia.
Qed.

Lemma varint_ok n : 0 <= n < 2 ^ 63 -> bytes_ok (varint n).
Proof.
  intros H. apply varint_bytes_ok. left. split; [lia|]. apply Z.lt_trans with (2 ^ 63); [lia|]. reflexivity.
Qed.

Lemma skipn_app_len {A} (a b : list A) : skipn (length a) (a ++ b) = b.
Proof. induction a; cbn; auto. Qed.

Lemma firstn_app_len {A} (a b : list A) : firstn (length a) (a ++ b) = a.
Proof. induction a; cbn; [destruct b; reflexivity|]. f_equal; auto. Qed.

Lemma dsize_string_match bs data fb off : bytes_ok data -> bytes_ok bs -> ~ In 0 bs -> 0 <= off -> 0 <= fb ->
  matches data (8 * (off + fb)) (raw_bytes (bs ++ [0])) ->
  dsize_string data fb off = DOff (off + (zlen bs + 1)) /\
  dec_string data fb off = Ok (VStr bs, off + (zlen bs + 1)).
Proof.
  intros Hd Hb Hn Ho Hf M.
  apply matches_raw in M; auto; [|apply bytes_ok_app; split; [auto|constructor; [lia|constructor]]|lia].
  destruct M as (t & E). rewrite <- app_assoc in E. cbn [app] in E.
  unfold dsize_string, dec_string. rewrite E, str_scan_found by auto.
  cbn [Z.add]. split; [f_equal; lia|]. do 2 f_equal; [|lia].
  f_equal. replace (Z.to_nat (zlen bs)) with (length bs) by (unfold zlen; lia). apply firstn_app_len.
Qed.

Lemma dsize_bytes_match bs data fb off : bytes_ok data -> bytes_ok bs -> zlen bs < 2 ^ 63 -> 0 <= off -> 0 <= fb ->
  matches data (8 * (off + fb)) (raw_bytes (varint (zlen bs) ++ bs)) ->
  dsize_bytes data fb off = DOff (off + bytes_size bs) /\
  dec_bytes data fb off = Ok (VStr bs, off + bytes_size bs).
Proof.
  intros Hd Hb Hn Ho Hf M. pose proof (zlen_nonneg bs).
  pose proof M as (L & _). rewrite zlen_raw_bytes in L.
  apply matches_raw in M; auto; [|apply bytes_ok_app; split; [apply varint_ok; lia|auto]|lia].
  destruct M as (t & E). rewrite <- app_assoc in E.
  unfold dsize_bytes, dec_bytes. rewrite bytes_size_ok.
  assert (Hbr : bytes_ok (skipn (Z.to_nat (off + fb)) data)) by (apply bytes_ok_skipn; auto).
  rewrite E in *. pose proof (vi_scan_len (zlen bs) (bs ++ t) ltac:(lia)) as V. rewrite V.
  apply vi_scan_done in V; try lia; auto. destruct V as (Vc & Vv & Vd). rewrite Vd. cbn [bind].
  rewrite zlen_app in *. unfold max_int.
  destruct (Z.ltb_spec (2 ^ 63 - 1) (zlen bs)); [lia|].
  destruct (Z.ltb_spec (zlen data - (off + zlen (varint (zlen bs)) + fb)) (zlen bs)); [lia|].
  destruct (Z.ltb_spec (zlen bs) 0); [lia|].
  destruct (Z.ltb_spec (zlen data) (off + zlen (varint (zlen bs)) + fb + zlen bs)); [lia|]. cbn [orb].
  split; [f_equal; lia|]. do 2 f_equal; [|lia]. f_equal.
  replace (Z.to_nat (off + zlen (varint (zlen bs)) + fb)) with (Z.to_nat (off + fb) + length (varint (zlen bs)))%nat by (unfold zlen in *; lia).
  rewrite <- skipn_skipn, E, skipn_app_len.
  replace (Z.to_nat (zlen bs)) with (length bs) by (unfold zlen; lia). apply firstn_app_len.
Qed.

(** ** iteration on matching data *)
Lemma iter_dsize_match (d : Z -> dstep) (P : val -> Prop) (img : val -> list (option bool)) (sz : val -> Z)
  (pos : Z -> Z) (K : Z -> Prop) data :
  (forall v o, P v -> K o -> matches data (pos o) (img v) -> d o = DOff (o + sz v)) ->
  (forall v o, P v -> K o -> pos (o + sz v) = pos o + zlen (img v) /\ K (o + sz v) /\ 0 <= pos o) ->
  forall arr o, Forall P arr -> K o -> matches data (pos o) (flat_map img arr) ->
    iter_dsize d (length arr) o = DOff (o + fold_right (fun v a => sz v + a) 0 arr).
Proof.
  intros Hd Hp. induction arr as [|v arr IH]; intros o HP HK M; cbn [length iter_dsize fold_right flat_map] in *.
  - f_equal; lia.
  - inversion HP; subst. destruct (Hp v o) as (H3 & H4 & H5); auto.
    apply matches_app in M; auto. destruct M as (M1 & M2).
    rewrite (Hd v o) by auto. rewrite IH; auto; [f_equal; lia|]. rewrite H3. auto.
Qed.

Lemma iter_dec_match (f : Z -> Z -> res (val * Z)) (P : val -> Prop) (img : val -> list (option bool)) (sz : val -> Z)
  (nrm : val -> val) (pos : Z -> Z -> Z) (K : Z -> Prop) data (N : Z) :
  (forall i v o, 0 <= i < N -> P v -> K o -> matches data (pos i o) (img v) -> f i o = Ok (nrm v, o + sz v)) ->
  (forall i v o, 0 <= i < N -> P v -> K o -> pos (i + 1) (o + sz v) = pos i o + zlen (img v) /\ K (o + sz v) /\ 0 <= pos i o) ->
  forall arr i o, Forall P arr -> 0 <= i -> i + zlen arr <= N -> K o -> matches data (pos i o) (flat_map img arr) ->
    iter_dec f (length arr) i o = Ok (map nrm arr, o + fold_right (fun v a => sz v + a) 0 arr).
Proof.
  intros Hd Hp. induction arr as [|v arr IH]; intros i o HP Hi HN HK M; cbn [length iter_dec fold_right flat_map map] in *.
  - do 2 f_equal; lia.
  - inversion HP; subst. rewrite zlen_cons in HN. pose proof (zlen_nonneg arr).
    destruct (Hp i v o) as (H3 & H4 & H5); auto; try lia.
    apply matches_app in M; auto. destruct M as (M1 & M2).
    rewrite (Hd i v o) by (auto; lia). cbn [bind]. rewrite IH; auto; try lia.
    + cbn [bind]. do 2 f_equal. lia.
    + rewrite H3. auto.
Qed.

(** ** DecodeSize on matching data *)
Lemma decode_size_of fs data o : dsize_fields fs 0 0 data = DOff o ->
  8 * o + fixed_bits fs <= 8 * zlen data -> fixed_bits fs mod 8 = 0 -> decode_size fs data = o + fixed_bits fs / 8.
Proof.
  intros E L H8. unfold decode_size. rewrite E. destruct (Z.ltb_spec (zlen data) (o + fixed_bits fs / 8)); lia.
Qed.

Lemma dsize_match :
  (forall e n big v from off data, wf_elem e -> nd_elem e -> storable_elem e v -> from mod 8 = 0 -> 0 <= from ->
     0 <= off -> bytes_ok data -> elem_dyn e = true -> matches data (8 * off + from) (image_elem e n big v) ->
     dsize_elem e (from / 8) off data = DOff (off + esize_elem e v)) /\
  (forall fs vs from off data, wf_fields fs from -> nd_fields fs -> storable_fields fs vs -> 0 <= from ->
     0 <= off -> bytes_ok data -> matches data (8 * off + from) (image_fields fs vs) ->
     dsize_fields fs from off data = DOff (off + esize_fields fs vs)).
Proof.
  apply schema_ind.
  - intros b n big v from off data _ _ _ _ _ _ _ D. discriminate.
  - intros b n big v from off data _ _ _ _ _ _ _ D. discriminate.
  - intros n big v from off data _ _ Sv Hm Hf Ho Hb _ M. destruct v; cbn in Sv; try contradiction.
    cbn [image_elem dsize_elem esize_elem] in *. destruct Sv.
    replace (8 * off + from) with (8 * (off + from / 8)) in M by lia.
    apply dsize_string_match; auto; lia.
  - intros n big v from off data _ _ Sv Hm Hf Ho Hb _ M. destruct v; cbn in Sv; try contradiction.
    cbn [image_elem dsize_elem esize_elem] in *. destruct Sv.
    replace (8 * off + from) with (8 * (off + from / 8)) in M by lia.
    apply dsize_bytes_match; auto; lia.
  - intros fs IH n big v from off data We Nd Sv Hm Hf Ho Hb D M.
    destruct v as [| |vs|]; cbn in Sv; try contradiction.
    cbn in We, Nd. destruct We as (We & H8). cbn [elem_dyn] in D.
    cbn [image_elem dsize_elem esize_elem] in *. rewrite D.
    destruct (proj2 sizes fs 0 vs We Sv) as (Sz & _).
    pose proof (proj2 esize_nonneg fs vs). pose proof (fixed_bits_nonneg fs).
    destruct M as (L & M). rewrite Sz in L.
    assert (Hlt : off + from / 8 < zlen data).
    { pose proof (proj2 dsize_progress fs 0 0 data We Nd ltac:(lia) ltac:(lia) Hb) as Hp.
      assert (1 <= esize_fields fs vs \/ esize_fields fs vs = 0) as [|Hz] by lia; [lia|].
      (* a dynamic struct has at least one byte *)
      exfalso. assert (Hpos : matches (skipn (Z.to_nat (off + from / 8)) data) 0 (image_fields fs vs)).
      { apply matches_slice; [unfold zlen in *; lia|].
        replace (8 * Z.of_nat (Z.to_nat (off + from / 8))) with (8 * off + from) by lia.
        split; auto. rewrite Sz. lia. }
      specialize (IH vs 0 0 (skipn (Z.to_nat (off + from / 8)) data) We Nd Sv ltac:(lia) ltac:(lia) (bytes_ok_skipn _ _ Hb) Hpos).
      pose proof (proj2 dsize_progress fs 0 0 (skipn (Z.to_nat (off + from / 8)) data) We Nd ltac:(lia) ltac:(lia) (bytes_ok_skipn _ _ Hb)) as Hp2.
      rewrite IH in Hp2. destruct Hp2 as (_ & Hp2). specialize (Hp2 D). lia. }
    destruct (Z.ltb_spec (off + from / 8) (zlen data)); [|lia].
    set (sub := skipn _ data).
    assert (Mq : matches sub 0 (image_fields fs vs)).
    { apply matches_slice; [unfold zlen in *; lia|].
      replace (8 * Z.of_nat (Z.to_nat (off + from / 8))) with (8 * off + from) by lia.
      split; auto. rewrite Sz. lia. }
    rewrite (IH vs 0 0 sub); auto; try lia; [|apply bytes_ok_skipn; auto].
    assert (Ls : 8 * esize_fields fs vs + fixed_bits fs <= 8 * zlen sub).
    { destruct Mq as (Lq & _). lia. }
    destruct (Z.ltb_spec (zlen sub) (0 + esize_fields fs vs + fixed_bits fs / 8)); [lia|].
    destruct (Z.ltb_spec (0 + esize_fields fs vs + fixed_bits fs / 8) 0); [lia|]. f_equal; lia.
  - intros vs from off data _ _ Sv _ Ho _ _. cbn in *. subst. cbn. f_equal; lia.
  - intros e IHe n big r IHr vs from off data Hwf Nd Hs Hf Ho Hb M.
    cbn [wf_fields] in Hwf. destruct Hwf as (We & Wn & Wr). cbn in Nd. destruct Nd as (N1 & N2 & N3).
    destruct vs as [|v vs]; cbn in Hs; [contradiction|]. destruct Hs as (Sv & Ss).
    pose proof (one_geom e n big from v We Wn Sv off) as G.
    cbn [image_fields dsize_fields esize_fields] in *. fold (gap e) in M.
    pose proof (one_n e n from We Wn) as Hn.
    assert (Hnf : 0 <= next_from from n) by (unfold next_from; destruct (Z.eqb_spec n (-1)); lia).
    apply matches_app in M; [|lia]. destruct M as (M1 & M2).
    apply matches_app in M2; [|pose proof (zlen_nonneg (image_elem e n big v)); lia]. destruct M2 as (_ & M2).
    pose proof (proj1 esize_nonneg e v).
    replace (if n <? 0 then dsize_elem e (from / 8) off data else DOff off) with (DOff (off + esize_elem e v)).
    + rewrite (IHr vs); auto; [f_equal; lia|lia|]. rewrite G.
      replace (8 * off + from + (zlen (image_elem e n big v) + zlen (gap e))) with (8 * off + from + zlen (image_elem e n big v) + zlen (gap e)) by lia. exact M2.
    + destruct (elem_dyn e) eqn:D.
      * destruct (Z.ltb_spec n 0).
        -- symmetry. apply IHe with (n := n) (big := big); auto. destruct e; cbn in *; try discriminate; tauto.
        -- exfalso. destruct e; cbn in *; try discriminate; try lia. congruence.
      * rewrite (esize_zero e v) by auto. rewrite Z.add_0_r.
        destruct (Z.ltb_spec n 0); auto. exfalso. destruct e; cbn in *; try discriminate; try lia;
        pose proof (fixed_bits_nonneg fs); lia.
  - intros e IHe len n big r IHr vs from off data Hwf Nd Hs Hf Ho Hb M.
    cbn [wf_fields] in Hwf. destruct Hwf as (We & Wl & Wn & Wr). fold (arr_ok e len n from) in Wn.
    cbn in Nd. destruct Nd as (N2 & N3).
    destruct vs as [|v vs]; cbn in Hs; [contradiction|]. destruct v as [| | |arr]; try contradiction.
    destruct Hs as (Sl & Sv & Ss).
    pose proof (arr_geom e len n big from arr We Wl Wn Sl Sv off) as G.
    cbn [image_fields dsize_fields esize_fields] in *. fold (sum_esize e arr).
    pose proof (arr_n e len n from We Wn) as Hn.
    assert (Hnf : 0 <= next_from from n) by (unfold next_from; destruct (Z.eqb_spec n (-1)); lia).
    apply matches_app in M; [|lia]. destruct M as (M1 & M2). pose proof (sum_esize_nonneg e arr).
    replace (if n <? 0 then _ else DOff off) with (DOff (off + sum_esize e arr)).
    + rewrite (IHr vs); auto; [f_equal; lia|lia|]. rewrite G. exact M2.
    + destruct (elem_dyn e) eqn:D.
      * assert (Sc : is_fixed_scalar e = false) by (destruct e; cbn in D; try discriminate; reflexivity).
        unfold arr_ok in Wn. rewrite Sc, D in Wn. destruct Wn as (Hm & ->). cbn [Z.ltb Z.compare].
        symmetry. subst len.
        apply (iter_dsize_match _ (storable_elem e) (image_elem e (-1 / Z.of_nat (length arr)) big) (esize_elem e)
                 (fun o => 8 * o + from) (fun o => 0 <= o) data); auto.
        -- intros v o Hv Ho' Mv. eapply IHe; eauto.
        -- intros v o Hv Ho'. pose proof (proj1 esize_nonneg e v).
           destruct (proj1 sizes e 0 big v We Hv ltac:(lia)) as (E & _).
           unfold slot in E. rewrite Sc, D in E.
           rewrite (image_elem_n e _ 0 big big) by auto. lia.
      * rewrite sum_esize_zero by auto. rewrite Z.add_0_r.
        destruct (arr_eb e len n from We Wl Wn D) as (eb & -> & _ & _ & Heb & _).
        destruct (Z.ltb_spec (Z.of_nat len * eb) 0); [lia|reflexivity].
  - intros n r IHr vs from off data Hwf Nd Hs Hf Ho Hb M.
    cbn [wf_fields nd_fields storable_fields image_fields dsize_fields esize_fields] in *. destruct Hwf as (Hn & Wr).
    apply matches_app in M; [|lia]. destruct M as (_ & M). rewrite zlen_repeat in M.
    unfold next_from. destruct (Z.eqb_spec n (-1)); [lia|]. apply IHr; auto; try lia.
    replace (8 * off + (from + n)) with (8 * off + from + Z.of_nat (Z.to_nat n)) by lia. exact M.
  - intros b n big z r IHr vs from off data Hwf Nd Hs Hf Ho Hb M.
    cbn [wf_fields nd_fields storable_fields image_fields dsize_fields esize_fields] in *. destruct Hwf as (Wb & Hn & Wr).
    apply matches_app in M; [|lia]. destruct M as (_ & M). rewrite zlen_map, zlen_const_bits in M by lia.
    unfold next_from. destruct (Z.eqb_spec n (-1)); [lia|]. apply IHr; auto; try lia.
    replace (8 * off + (from + n)) with (8 * off + from + n) by lia. exact M.
  - intros r IHr vs from off data Hwf Nd Hs Hf Ho Hb M.
    cbn [wf_fields nd_fields storable_fields image_fields dsize_fields esize_fields] in *. auto.
Qed.

(** ** Reading matching data *)
Lemma norm_num_of lp e n z : is_fixed_scalar e = true -> 1 <= n -> storable_num e z ->
  num_of lp e n (z mod 2 ^ n) = norm_num e n z.
Proof.
  intros Sc Hn Sz. pose proof (pow2_pos n ltac:(lia)).
  assert (2 <= 2 ^ n) by (change 2 with (2 ^ 1) at 1; apply Z.pow_le_mono_r; lia).
  destruct e; cbn in Sc; try discriminate; [|reflexivity].
  destruct b; cbn in *; auto.
  - destruct lp; auto. rewrite !Z.mod_small by lia. destruct Sz as [->| ->]; reflexivity.
  - apply sext_congr. rewrite Z.mod_mod; lia.
Qed.

Lemma const_field_bits w n big z : n <= w -> (big = false \/ n = w) ->
  const_bits w n big z = field_bits n big z.
Proof.
  intros Hn H. unfold const_bits, field_bits. destruct H as [->| ->]; reflexivity.
Qed.

(** The usual constants: those of little-endian or full-width fields that fit (for signed types, a positive
    number of the narrow type). *)
Lemma received_simple b n big z : 1 <= n <= basic_bits b -> (big = false \/ n = basic_bits b) -> 0 <= z < 2 ^ n ->
  (forall w, b = BInt w -> n = w \/ z < 2 ^ (n - 1)) -> received b n big z.
Proof.
  intros Hn Hb Hz Hi. exists z. split; auto. split; [apply const_field_bits; auto; lia|].
  destruct b as [| |w|]; auto. cbn [const_num basic_bits] in *. destruct (Hi w eq_refl) as [->|Hz'].
  - rewrite sext_mod by lia. apply Z.mod_small; auto.
  - pose proof (pow2_pos (n - 1) ltac:(lia)).
    assert (2 ^ n <= 2 ^ w) by (apply Z.pow_le_mono_r; lia).
    rewrite sext_id by lia. apply Z.mod_small. lia.
Qed.
Lemma const_num_inj b n p q : 1 <= n <= basic_bits b -> 0 <= p < 2 ^ n -> 0 <= q < 2 ^ n ->
  const_num b n p = const_num b n q -> p = q.
Proof.
  intros Hn Hp Hq E. destruct b as [| |w|]; auto. cbn [const_num basic_bits] in *.
  assert (H : forall x, 0 <= x < 2 ^ n -> (sext n x mod 2 ^ w) mod 2 ^ n = x).
  { intros x Hx. rewrite <- Znumtheory.Zmod_div_mod.
    - rewrite sext_mod by lia. apply Z.mod_small; auto.
    - apply pow2_pos; lia.
    - apply pow2_pos; lia.
    - exists (2 ^ (w - n)). rewrite <- Z.pow_add_r by lia. f_equal. lia. }
  rewrite <- (H p), <- (H q) by auto. congruence.
Qed.

Lemma rdec_match ul :
  (forall e n big v from off data lp, wf_elem e -> nd_elem e -> consts_ok_elem e -> storable_elem e v ->
     (if is_fixed_scalar e then 1 <= n else from mod 8 = 0) -> 0 <= from ->
     0 <= off -> bytes_ok data -> matches data (8 * off + from) (image_elem e n big v) ->
     rdec_elem ul lp e n big from off data = Ok (norm_elem e n v, off + esize_elem e v)) /\
  (forall fs vs from off data, wf_fields fs from -> nd_fields fs -> consts_ok fs -> storable_fields fs vs -> 0 <= from ->
     0 <= off -> bytes_ok data -> matches data (8 * off + from) (image_fields fs vs) ->
     rdec_fields ul fs from off data = Ok (norm_fields fs vs, off + esize_fields fs vs)).
Proof.
  apply schema_ind.
  - intros b n big v from off data lp We _ _ Sv Hn Hf Ho Hb M. destruct v; cbn [storable_elem] in Sv; try contradiction.
    cbn [is_fixed_scalar] in Hn.
    cbn [image_elem rdec_elem esize_elem norm_elem] in *.
    rewrite (read_value_matches data _ n big z) by (auto; lia).
    rewrite norm_num_of; auto. do 2 f_equal; lia.
  - intros b n big v from off data lp We _ _ Sv Hn Hf Ho Hb M. destruct v; cbn [storable_elem] in Sv; try contradiction.
    cbn [is_fixed_scalar] in Hn.
    cbn [image_elem rdec_elem esize_elem norm_elem] in *.
    rewrite (read_value_matches data _ n big z) by (auto; lia).
    rewrite norm_num_of; auto. do 2 f_equal; lia.
  - intros n big v from off data lp _ _ _ Sv Hm Hf Ho Hb M. destruct v; cbn in Sv; try contradiction.
    cbn [is_fixed_scalar image_elem rdec_elem esize_elem norm_elem] in *. destruct Sv.
    replace (8 * off + from) with (8 * (off + from / 8)) in M by lia.
    apply dsize_string_match; auto; lia.
  - intros n big v from off data lp _ _ _ Sv Hm Hf Ho Hb M. destruct v; cbn in Sv; try contradiction.
    cbn [is_fixed_scalar image_elem rdec_elem esize_elem norm_elem] in *. destruct Sv.
    replace (8 * off + from) with (8 * (off + from / 8)) in M by lia.
    apply dsize_bytes_match; auto; lia.
  - intros fs IH n big v from off data lp We Nd Co Sv Hm Hf Ho Hb M.
    destruct v as [| |vs|]; cbn in Sv; try contradiction.
    cbn in We, Nd, Co, Hm. destruct We as (We & H8).
    cbn [image_elem rdec_elem esize_elem norm_elem] in *.
    destruct (proj2 sizes fs 0 vs We Sv) as (Sz & Szd).
    pose proof (proj2 esize_nonneg fs vs). pose proof (fixed_bits_nonneg fs).
    pose proof M as (L & _). rewrite Sz in L.
    unfold dec_nested.
    destruct (Z.ltb_spec (off + from / 8) 0); [lia|].
    destruct (Z.ltb_spec (zlen data) (off + from / 8)); [lia|]. cbn [orb].
    set (sub := skipn _ data).
    assert (Hbs : bytes_ok sub) by (apply bytes_ok_skipn; auto).
    assert (Mq : matches sub 0 (image_fields fs vs)).
    { apply matches_slice; [unfold zlen in *; lia|].
      replace (8 * Z.of_nat (Z.to_nat (off + from / 8))) with (8 * off + from) by lia. exact M. }
    assert (Ls : 8 * esize_fields fs vs + fixed_bits fs <= 8 * zlen sub).
    { destruct Mq as (Lq & _). lia. }
    rewrite (decode_size_of fs sub (0 + esize_fields fs vs)); try lia.
    2:{ apply (proj2 dsize_match); auto; lia. }
    destruct (Z.ltb_spec (0 + esize_fields fs vs + fixed_bits fs / 8) 0); [lia|].
    rewrite (IH vs 0 0 sub); auto; try lia. cbn [bind].
    do 2 f_equal. destruct (fields_dyn fs); lia.
  - intros vs from off data _ _ _ Sv _ Ho _ _. cbn in *. subst. do 2 f_equal; lia.
  - intros e IHe n big r IHr vs from off data Hwf Nd Co Hs Hf Ho Hb M.
    cbn [wf_fields] in Hwf. destruct Hwf as (We & Wn & Wr). cbn in Nd. destruct Nd as (N1 & N2 & N3).
    cbn in Co. destruct Co as (C1 & C2).
    destruct vs as [|v vs]; cbn in Hs; [contradiction|]. destruct Hs as (Sv & Ss).
    pose proof (one_geom e n big from v We Wn Sv off) as G.
    cbn [image_fields rdec_fields esize_fields norm_fields] in *. fold (gap e) in M.
    pose proof (one_n e n from We Wn) as Hn.
    assert (Hnf : 0 <= next_from from n) by (unfold next_from; destruct (Z.eqb_spec n (-1)); lia).
    apply matches_app in M; [|lia]. destruct M as (M1 & M2).
    apply matches_app in M2; [|pose proof (zlen_nonneg (image_elem e n big v)); lia]. destruct M2 as (_ & M2).
    pose proof (proj1 esize_nonneg e v).
    rewrite (IHe n big v); auto.
    2:{ destruct (is_fixed_scalar e); tauto. }
    cbn [bind].
    rewrite (IHr vs); auto; [cbn [bind]; do 2 f_equal; lia|lia|]. rewrite G.
    replace (8 * off + from + (zlen (image_elem e n big v) + zlen (gap e))) with (8 * off + from + zlen (image_elem e n big v) + zlen (gap e)) by lia. exact M2.
  - intros e IHe len n big r IHr vs from off data Hwf Nd Co Hs Hf Ho Hb M.
    cbn [wf_fields] in Hwf. destruct Hwf as (We & Wl & Wn & Wr). fold (arr_ok e len n from) in Wn.
    cbn in Nd. destruct Nd as (N2 & N3). cbn in Co. destruct Co as (C1 & C2).
    destruct vs as [|v vs]; cbn in Hs; [contradiction|]. destruct v as [| | |arr]; try contradiction.
    destruct Hs as (Sl & Sv & Ss).
    pose proof (arr_geom e len n big from arr We Wl Wn Sl Sv off) as G.
    cbn [image_fields rdec_fields esize_fields norm_fields] in *. fold (sum_esize e arr).
    pose proof (arr_n e len n from We Wn) as Hn.
    assert (Hnf : 0 <= next_from from n) by (unfold next_from; destruct (Z.eqb_spec n (-1)); lia).
    apply matches_app in M; [|lia]. destruct M as (M1 & M2). pose proof (sum_esize_nonneg e arr).
    subst len.
    assert (Harr : iter_dec (fun i o => rdec_elem ul (ul (length arr)) e (n / Z.of_nat (length arr)) big (from + (if elem_dyn e then 0 else i * (n / Z.of_nat (length arr)))) o data) (length arr) 0 off
      = Ok (map (norm_elem e (n / Z.of_nat (length arr))) arr, off + sum_esize e arr)).
    { destruct (elem_dyn e) eqn:D.
      - assert (Sc : is_fixed_scalar e = false) by (destruct e; cbn in D; try discriminate; reflexivity).
        unfold arr_ok in Wn. rewrite Sc, D in Wn. destruct Wn as (Hm & ->).
        apply (iter_dec_match _ (storable_elem e) (image_elem e (-1 / Z.of_nat (length arr)) big) (esize_elem e)
                 (norm_elem e (-1 / Z.of_nat (length arr))) (fun _ o => 8 * o + from) (fun o => 0 <= o) data (zlen arr)); auto; try lia.
        + intros i v o Hi Hv Ho' Mv. rewrite Z.add_0_r. eapply IHe; eauto. rewrite Sc; auto.
        + intros i v o Hi Hv Ho'. pose proof (proj1 esize_nonneg e v).
          destruct (proj1 sizes e 0 big v We Hv ltac:(lia)) as (E & _).
          unfold slot in E. rewrite Sc, D in E.
          rewrite (image_elem_n e _ 0 big big) by auto. lia.
      - destruct (arr_eb e (length arr) n from We Wl Wn D) as (eb & Hn' & Hq & Hdv & Heb & Hcase).
        rewrite Hdv in *. rewrite sum_esize_zero by auto.
        replace (off + 0) with (off + fold_right (fun v a => (fun _ : val => 0) v + a) 0 arr).
        2:{ f_equal. apply fold_zero. apply Forall_forall. reflexivity. }
        assert (Hz : forall v, storable_elem e v -> zlen (image_elem e eb big v) = eb).
        { intros v Hv. destruct (proj1 sizes e eb big v We Hv Heb) as (E & Ed).
          rewrite E, Ed by auto. unfold slot. destruct (is_fixed_scalar e); [lia|].
          rewrite D. destruct Hcase as (<- & _). lia. }
        apply (iter_dec_match _ (storable_elem e) (image_elem e eb big) (fun _ => 0)
                 (norm_elem e eb) (fun i o => 8 * o + from + i * eb) (fun o => o = off) data (zlen arr)); auto; try lia.
        + intros i v o Hi Hv -> Mv. assert (0 <= i * eb) by (apply Z.mul_nonneg_nonneg; lia).
          rewrite (IHe eb big v); auto; try lia.
          * rewrite (esize_zero e v) by auto. reflexivity.
          * destruct (is_fixed_scalar e); [lia|]. destruct Hcase as (_ & Hm & He).
            rewrite Z.add_mod, Z.mul_mod, He, Z.mul_0_r, Z.mod_0_l, Z.add_0_r, Z.mod_mod by lia. exact Hm.
          * replace (8 * off + (from + i * eb)) with (8 * off + from + i * eb) by lia. exact Mv.
        + replace (8 * off + from + 0 * eb) with (8 * off + from) by lia. auto. }
    rewrite Harr. cbn [bind].
    rewrite (IHr vs); auto; [cbn [bind]; do 2 f_equal; lia|lia|]. rewrite G. exact M2.
  - intros n r IHr vs from off data Hwf Nd Co Hs Hf Ho Hb M.
    cbn [wf_fields nd_fields consts_ok storable_fields image_fields rdec_fields esize_fields norm_fields] in *. destruct Hwf as (Hn & Wr).
    apply matches_app in M; [|lia]. destruct M as (_ & M). rewrite zlen_repeat in M.
    unfold next_from. destruct (Z.eqb_spec n (-1)); [lia|]. apply IHr; auto; try lia.
    replace (8 * off + (from + n)) with (8 * off + from + Z.of_nat (Z.to_nat n)) by lia. exact M.
  - intros b n big z r IHr vs from off data Hwf Nd Co Hs Hf Ho Hb M.
    cbn [wf_fields nd_fields consts_ok storable_fields image_fields rdec_fields esize_fields norm_fields] in *.
    destruct Hwf as (Wb & Hn & Wr). destruct Co as ((p & Hp & Ep & Ez) & Cr).
    apply matches_app in M; [|lia]. destruct M as (M1 & M).
    rewrite Ep in M1. rewrite zlen_map, zlen_const_bits in M by lia.
    apply read_value_matches in M1; [|lia]. rewrite M1, Z.mod_small, Ez, Z.eqb_refl by lia.
    unfold next_from. destruct (Z.eqb_spec n (-1)); [lia|]. apply IHr; auto; try lia.
    replace (8 * off + (from + n)) with (8 * off + from + n) by lia. exact M.
  - intros r IHr vs from off data Hwf Nd Co Hs Hf Ho Hb M.
    cbn [wf_fields nd_fields consts_ok storable_fields image_fields rdec_fields esize_fields norm_fields] in *. auto.
Qed.
