(** Bit-level correctness of the Go target's generated statements for one basic field, of the
    array helpers, and of sign extension. *)
From Coq Require Import ZArith List Lia Bool.
From Verif Require Import Base BaseProofs Schema SpecWire GoModel.
Import ListNotations.
Open Scope Z_scope.

Lemma land7 x : Z.land x 7 = x mod 8.
Proof. change 7 with (Z.ones 3). rewrite Z.land_ones by lia. reflexivity. Qed.

Lemma shiftl1 n : 0 <= n -> Z.shiftl 1 n = 2 ^ n.
Proof. intros. rewrite Z.shiftl_mul_pow2 by lia. lia. Qed.

(** A run of [cnt] bits of [W] from [a] on. *)
Definition img_of (W : Z -> bool) (a : Z) (cnt : nat) : list (option bool) :=
  map (fun k => Some (W (a + Z.of_nat k))) (seq 0 cnt).

Lemma zlen_img_of W a cnt : zlen (img_of W a cnt) = Z.of_nat cnt.
Proof. unfold img_of, zlen. rewrite map_length, seq_length. reflexivity. Qed.

Lemma onth_img_of W a cnt i :
  onth (img_of W a cnt) i = if (0 <=? i) && (i <? Z.of_nat cnt) then Some (Some (W (a + i))) else None.
Proof.
  destruct (Z.leb_spec 0 i); destruct (Z.ltb_spec i (Z.of_nat cnt)); cbn [andb].
  - unfold img_of. rewrite onth_map, onth_seq by lia. cbn. repeat f_equal. lia.
  - apply onth_None. rewrite zlen_img_of. lia.
  - apply onth_None. lia.
  - apply onth_None. lia.
Qed.

Lemma img_of_app W a c1 c2 :
  img_of W a (c1 + c2) = img_of W a c1 ++ img_of W (a + Z.of_nat c1) c2.
Proof.
  unfold img_of. rewrite seq_app, map_app. f_equal.
  cbn [plus]. replace (seq c1 c2) with (map (fun i => (c1 + i)%nat) (seq 0 c2)).
  - rewrite map_map. apply map_ext. intros k. do 2 f_equal. lia.
  - enough (E : forall s, map (fun i => (c1 + i)%nat) (seq s c2) = seq (c1 + s) c2)
      by (rewrite E; f_equal; lia).
    induction c2; intros s; cbn; auto. f_equal. rewrite IHc2. f_equal. lia.
Qed.

Lemma img_of_ext W W' a cnt :
  (forall k, a <= k < a + Z.of_nat cnt -> W k = W' k) -> img_of W a cnt = img_of W' a cnt.
Proof.
  intros H. unfold img_of. apply map_ext_in. intros k Hk. apply in_seq in Hk.
  rewrite H by lia. reflexivity.
Qed.

Lemma testbit_shiftr x s k : 0 <= k -> Z.testbit (Z.shiftr x s) k = Z.testbit x (k + s).
Proof. intros. apply Z.shiftr_spec; auto. Qed.

(** One operand. *)
Lemma run_part_bit w fd p j : 8 <= w -> 0 <= j ->
  0 <= p_shr p -> 0 <= p_shl p ->
  forall ps, 0 <= ps -> p_mask p = Z.shiftl 1 ps - 1 -> p_shl p + ps <= 8 ->
  Z.testbit (run_part w fd p) j =
    (p_shl p <=? j) && (j <? p_shl p + ps) && Z.testbit (fd (p_src p)) (j - p_shl p + p_shr p).
Proof.
  intros Hw Hj Hs Hl ps Hps Hm H8. unfold run_part.
  rewrite testbit_mod by lia. rewrite Z.shiftl_spec by lia.
  rewrite Hm, shiftl1 by lia.
  destruct (Z.leb_spec (p_shl p) j).
  - rewrite Z.land_spec, testbit_shiftr, testbit_ones by lia.
    destruct (Z.ltb_spec (j - p_shl p) ps), (Z.ltb_spec j (p_shl p + ps)); try lia;
      destruct (Z.ltb_spec j w); try lia; cbn; rewrite ?andb_true_r, ?andb_false_r; auto.
  - rewrite Z.testbit_neg_r by lia. cbn. destruct (j <? w); reflexivity.
Qed.

Section Chunks.
  Variable fd : Z -> Z.
  Let W (k : Z) : bool := Z.testbit (fd (k / 8)) (k mod 8).

  Lemma gen_parts_bits w fuel : 8 <= w -> forall ff df cs consumed acc j,
    0 <= ff -> 0 <= df -> 0 <= consumed -> cs <= 8 - df mod 8 ->
    cs - consumed <= Z.of_nat fuel -> 0 <= j ->
    Z.testbit (fold_left (fun a p => Z.lor a (run_part w fd p))
                         (gen_parts fuel ff df cs consumed) acc) j =
    Z.testbit acc j ||
      ((df mod 8 + consumed <=? j) && (j <? df mod 8 + cs) && W (ff + (j - df mod 8))).
  Proof.
    intros Hw. induction fuel; intros ff df cs consumed acc j Hff Hdf Hc Hcs Hfuel Hj; cbn [gen_parts].
    - cbn [fold_left].
      destruct (Z.leb_spec (df mod 8 + consumed) j), (Z.ltb_spec j (df mod 8 + cs)); try lia;
        cbn; now rewrite orb_false_r.
    - destruct (Z.ltb_spec consumed cs).
      + cbn [fold_left]. rewrite IHfuel; try lia.
        2: { rewrite land7. lia. }
        2: { rewrite land7. lia. }
        rewrite Z.lor_spec.
        set (ps := Z.min (cs - consumed) (8 - Z.land (ff + consumed) 7)).
        assert (Hps : 1 <= ps /\ ps <= cs - consumed /\ ps <= 8 - (ff + consumed) mod 8)
          by (unfold ps; rewrite land7; lia).
        rewrite run_part_bit with (ps := ps); cbn [p_src p_shr p_mask p_shl]; rewrite ?land7; try lia.
        rewrite <- orb_assoc. f_equal.
        destruct (Z.leb_spec (df mod 8 + consumed) j), (Z.ltb_spec j (df mod 8 + consumed + ps)),
                 (Z.leb_spec (df mod 8 + (consumed + ps)) j), (Z.ltb_spec j (df mod 8 + cs));
          try lia; cbn [andb orb]; auto.
        rewrite orb_false_r.
        unfold W. f_equal; [f_equal|]; lia.
      + cbn [fold_left].
        destruct (Z.leb_spec (df mod 8 + consumed) j), (Z.ltb_spec j (df mod 8 + cs)); try lia;
          cbn; now rewrite orb_false_r.
  Qed.

  Lemma run_chunk_overlay w base ff df cs buf : 8 <= w ->
    0 <= base -> 0 <= ff -> 0 <= df -> 0 < cs -> cs <= 8 - df mod 8 ->
    bytes_ok buf -> base + df / 8 < zlen buf ->
    exists buf',
      run_chunk w fd base
        {| c_pos := df / 8; c_mask := Z.shiftl (Z.shiftl 1 cs - 1) (Z.land df 7);
           c_parts := gen_parts 8 ff df cs 0 |} buf = Ok buf' /\
      overlay buf (8 * base + df) (img_of W ff (Z.to_nat cs)) buf'.
  Proof.
    intros Hw Hb Hff Hdf Hc Hcs Hok Hlen.
    unfold run_chunk; cbn [c_pos c_mask c_parts].
    rewrite rd_ok by lia. cbn [bind]. rewrite wr_ok by lia.
    eexists. split; [reflexivity|].
    set (i := base + df / 8).
    set (old := nth (Z.to_nat i) buf 0).
    set (m := Z.shiftl (Z.shiftl 1 cs - 1) (Z.land df 7)).
    set (ps := run_parts w fd (gen_parts 8 ff df cs 0)).
    assert (Hold : 0 <= old < 256) by (apply bytes_ok_nth; auto).
    assert (Hmask : forall j, 0 <= j -> Z.testbit m j = (df mod 8 <=? j) && (j <? df mod 8 + cs)).
    { intros j Hj. unfold m. rewrite land7, shiftl1 by lia.
      rewrite Z.shiftl_spec by lia. destruct (Z.leb_spec (df mod 8) j).
      - rewrite testbit_ones by lia. destruct (Z.ltb_spec (j - df mod 8) cs), (Z.ltb_spec j (df mod 8 + cs)); try lia; reflexivity.
      - now rewrite Z.testbit_neg_r by lia. }
    assert (Hbit : forall j, 0 <= j < 8 ->
       Z.testbit (Z.lor (Z.ldiff old m) (Z.land ps m) mod 256) j =
       if (df mod 8 <=? j) && (j <? df mod 8 + cs) then W (ff + (j - df mod 8)) else Z.testbit old j).
    { intros j Hj. change 256 with (2 ^ 8). rewrite testbit_mod by lia.
      destruct (Z.ltb_spec j 8); [|lia].
      rewrite Z.lor_spec, Z.ldiff_spec, Z.land_spec, Hmask by lia.
      destruct ((df mod 8 <=? j) && (j <? df mod 8 + cs)) eqn:E;
        cbn [negb]; rewrite ?andb_true_r, ?andb_false_r, ?orb_false_r, ?orb_false_l; auto.
      unfold ps, run_parts. rewrite gen_parts_bits by (try lia).
      rewrite Z.testbit_0_l. cbn [orb]. rewrite Z.add_0_r, E. reflexivity. }
    split; [|split].
    - apply upd_nat_length.
    - apply upd_nat_bytes_ok; auto. apply Z.mod_pos_bound. lia.
    - intros k Hk. rewrite onth_img_of.
      unfold bitat. rewrite upd_nat_nth.
      assert (Hi : (Z.to_nat i <? length buf)%nat = true).
      { apply Nat.ltb_lt. unfold zlen in Hlen. lia. }
      rewrite Hi, andb_true_r.
      destruct (Nat.eqb_spec (Z.to_nat (k / 8)) (Z.to_nat i)) as [E|E].
      + assert (k / 8 = i) by lia.
        rewrite Hbit by lia. replace (nth (Z.to_nat (k / 8)) buf 0) with old by (unfold old; now rewrite E).
        replace (k - (8 * base + df)) with (k mod 8 - df mod 8) by lia.
        destruct (Z.leb_spec (df mod 8) (k mod 8)), (Z.ltb_spec (k mod 8) (df mod 8 + cs)),
          (Z.leb_spec 0 (k mod 8 - df mod 8)), (Z.ltb_spec (k mod 8 - df mod 8) (Z.of_nat (Z.to_nat cs)));
          try lia; reflexivity.
      + assert (k / 8 <> i) by lia.
        destruct (Z.leb_spec 0 (k - (8 * base + df))), (Z.ltb_spec (k - (8 * base + df)) (Z.of_nat (Z.to_nat cs)));
          cbn [andb]; auto. exfalso. lia.
  Qed.

  Lemma run_chunks_overlay w base from n : 8 <= w -> 0 <= base -> 0 <= from ->
    forall fuel ff buf, 0 <= ff -> n - ff <= Z.of_nat fuel ->
    bytes_ok buf -> 8 * base + from + n <= 8 * zlen buf ->
    exists buf',
      run_chunks w fd base (gen_chunks fuel from n ff) buf = Ok buf' /\
      overlay buf (8 * base + (from + ff)) (img_of W ff (Z.to_nat (n - ff))) buf'.
  Proof.
    intros Hw Hb Hf. induction fuel; intros ff buf Hff Hfuel Hok Hlen; cbn [gen_chunks].
    - exists buf. replace (Z.to_nat (n - ff)) with 0%nat by lia. split; [reflexivity|].
      apply overlay_nil; auto.
    - destruct (Z.ltb_spec ff n).
      + set (cs := Z.min (n - ff) (8 - Z.land (from + ff) 7)).
        assert (Hcs : 1 <= cs /\ cs <= n - ff /\ cs <= 8 - (from + ff) mod 8)
          by (unfold cs; rewrite land7; lia).
        destruct (run_chunk_overlay w base ff (from + ff) cs buf) as (b1 & E1 & O1); try lia; auto.
        cbn [run_chunks]. rewrite E1. cbn [bind].
        pose proof (overlay_length _ _ _ _ O1) as L1.
        pose proof (overlay_bytes _ _ _ _ O1) as B1.
        destruct (IHfuel (ff + cs) b1) as (b2 & E2 & O2); try lia; auto.
        exists b2. split; [exact E2|].
        replace (Z.to_nat (n - ff)) with (Z.to_nat cs + Z.to_nat (n - (ff + cs)))%nat by lia.
        rewrite img_of_app. eapply overlay_app; [exact O1|].
        rewrite zlen_img_of.
        replace (ff + Z.of_nat (Z.to_nat cs)) with (ff + cs) by lia.
        replace (8 * base + (from + ff) + Z.of_nat (Z.to_nat cs)) with (8 * base + (from + (ff + cs))) by lia.
        exact O2.
      + exists buf. replace (Z.to_nat (n - ff)) with 0%nat by lia. split; [reflexivity|].
        apply overlay_nil; auto.
  Qed.
End Chunks.

(** fieldData bits are the specified value bits. *)
Lemma field_data_bit n big p k : 0 <= k ->
  Z.testbit (field_data n big p (k / 8)) (k mod 8) = Z.testbit p (value_bit n big k).
Proof.
  intros Hk. unfold field_data, value_bit.
  rewrite testbit_shiftr by lia. f_equal. destruct big; lia.
Qed.

Lemma value_bit_range n big k : 0 <= k < n -> 0 <= value_bit n big k < n.
Proof. intros H. unfold value_bit. destruct big; lia. Qed.

Lemma map_Some_field_bits n big z : 
  map Some (field_bits n big z) = img_of (fun k => Z.testbit z (value_bit n big k)) 0 (Z.to_nat n).
Proof. unfold field_bits, img_of. rewrite map_map. apply map_ext. intros; reflexivity. Qed.

Lemma enc_basic_overlay w n big from base z buf :
  8 <= w -> 0 <= n <= w -> 0 <= base -> 0 <= from ->
  bytes_ok buf -> 8 * base + from + n <= 8 * zlen buf ->
  exists buf', enc_basic w n big from base z buf = Ok buf' /\
    overlay buf (8 * base + from) (map Some (field_bits n big z)) buf'.
Proof.
  intros Hw Hn Hb Hf Hok Hlen. unfold enc_basic, gen_encode_impl.
  replace (from + n - from) with n by lia.
  destruct (run_chunks_overlay (field_data n big (z mod 2 ^ w)) w base from n Hw Hb Hf
              (Z.to_nat n) 0 buf) as (b & E & O); try lia; auto.
  exists b. split; [exact E|].
  rewrite map_Some_field_bits.
  replace (from + 0) with from in O by lia. replace (n - 0) with n in O by lia.
  erewrite img_of_ext; [exact O|].
  intros k Hk. cbn beta. rewrite field_data_bit by lia.
  pose proof (value_bit_range n big k ltac:(lia)).
  rewrite testbit_mod by lia. destruct (Z.ltb_spec (value_bit n big k) w); [reflexivity|lia].
Qed.

Lemma const_data_bit w big z k : wf_basic (BUint w) -> 0 <= k < w ->
  Z.testbit (const_data w big z (k / 8)) (k mod 8) = Z.testbit z (value_bit w big k).
Proof.
  intros Hw Hk. unfold const_data. change 256 with (2 ^ 8).
  rewrite testbit_mod by lia. destruct (Z.ltb_spec (k mod 8) 8); [|lia].
  assert (Hw8 : w mod 8 = 0) by (destruct Hw as [->|[->|[->| ->]]]; reflexivity).
  rewrite testbit_shiftr by lia.
  unfold value_bit. destruct big.
  - rewrite testbit_mod by lia.
    replace (k mod 8 + 8 * (w / 8 - 1 - k / 8)) with (Z.max 0 (w - 8 * (k / 8 + 1)) + k mod 8) by lia.
    destruct (Z.ltb_spec (Z.max 0 (w - 8 * (k / 8 + 1)) + k mod 8) w); [reflexivity|lia].
  - rewrite testbit_mod by lia. replace (k mod 8 + 8 * (k / 8)) with k by lia.
    destruct (Z.ltb_spec k w); [reflexivity|lia].
Qed.

Lemma basic_bits_wf b : wf_basic b -> wf_basic (BUint (basic_bits b)).
Proof. destruct b; cbn; intuition. Qed.

Lemma basic_bits_range b : wf_basic b -> 8 <= basic_bits b <= 64.
Proof. destruct b; cbn; intuition lia. Qed.

Lemma enc_const_overlay b n big from base z buf :
  wf_basic b -> 0 <= n <= basic_bits b -> 0 <= base -> 0 <= from ->
  bytes_ok buf -> 8 * base + from + n <= 8 * zlen buf ->
  exists buf', enc_const b n big from base z buf = Ok buf' /\
    overlay buf (8 * base + from) (map Some (const_bits (basic_bits b) n big z)) buf'.
Proof.
  intros Hw Hn Hb Hf Hok Hlen. unfold enc_const, gen_encode_impl.
  replace (from + n - from) with n by lia.
  destruct (run_chunks_overlay (const_data (basic_bits b) big z) 64 base from n ltac:(lia) Hb Hf
              (Z.to_nat n) 0 buf) as (b' & E & O); try lia; auto.
  exists b'. split; [exact E|].
  replace (from + 0) with from in O by lia. replace (n - 0) with n in O by lia.
  unfold const_bits. rewrite map_map.
  change (map _ (seq 0 (Z.to_nat n))) with (img_of (fun k => Z.testbit z (value_bit (basic_bits b) big k)) 0 (Z.to_nat n)).
  erewrite img_of_ext; [exact O|].
  intros k Hk. cbn beta. symmetry. apply const_data_bit; [|lia].
  apply basic_bits_wf; auto.
Qed.

(** ** the array helper *)
Lemma helper_value_bit_spec n big fb : 0 <= fb -> helper_value_bit n big fb = value_bit n big fb.
Proof.
  intros H. unfold helper_value_bit, value_bit. destruct big; auto.
  destruct (Z.ltb_spec (n - 8 * (fb / 8 + 1) + fb mod 8) (fb mod 8)); lia.
Qed.

Lemma land_pow2_eqb x k : 0 <= k -> (Z.land x (Z.shiftl 1 k) =? 0) = negb (Z.testbit x k).
Proof.
  intros Hk. rewrite shiftl1 by lia.
  destruct (Z.testbit x k) eqn:E; cbn.
  - apply Z.eqb_neq. intros H.
    assert (Z.testbit (Z.land x (2 ^ k)) k = true).
    { rewrite Z.land_spec, E, Z.pow2_bits_true by lia. reflexivity. }
    rewrite H, Z.testbit_0_l in H0. discriminate.
  - apply Z.eqb_eq. apply Z.bits_inj'. intros j Hj.
    rewrite Z.land_spec, Z.testbit_0_l, Z.pow2_bits_eqb by lia.
    destruct (Z.eqb_spec k j); subst; rewrite ?E, ?andb_false_r; auto.
Qed.

Lemma write_bit_overlay buf db (b : bool) : bytes_ok buf -> 0 <= db < 8 * zlen buf ->
  overlay buf db [Some b]
    (upd_nat buf (Z.to_nat (db / 8))
      (let cleared := Z.ldiff (nth (Z.to_nat (db / 8)) buf 0) (Z.shiftl 1 (Z.land db 7)) in
       if b then Z.lor cleared (Z.shiftl 1 (Z.land db 7)) else cleared)).
Proof.
  intros Hok Hdb. cbn zeta.
  set (old := nth (Z.to_nat (db / 8)) buf 0).
  assert (Hold : 0 <= old < 256) by (apply bytes_ok_nth; auto).
  set (nb := if b then _ else _).
  assert (Hbit : forall j, 0 <= j -> Z.testbit nb j = if j =? db mod 8 then b else Z.testbit old j).
  { intros j Hj. unfold nb. rewrite land7, shiftl1 by lia.
    destruct b; rewrite ?Z.lor_spec, Z.ldiff_spec, Z.pow2_bits_eqb by lia;
    destruct (Z.eqb_spec j (db mod 8)), (Z.eqb_spec (db mod 8) j); try lia; cbn [negb];
      rewrite ?andb_false_r, ?andb_true_r, ?orb_true_r, ?orb_false_r; auto. }
  assert (Hnb : 0 <= nb < 256).
  { assert (0 <= nb).
    { unfold nb. rewrite land7, shiftl1 by lia. destruct b.
      - apply Z.lor_nonneg; split; [apply Z.ldiff_nonneg; lia|]. pose proof (pow2_pos (db mod 8)); lia.
      - apply Z.ldiff_nonneg; lia. }
    split; auto. apply (bits_bound nb 8); try lia. intros k Hk. rewrite Hbit by lia.
    destruct (Z.eqb_spec k (db mod 8)); [lia|]. apply testbit_high_byte; lia. }
  split; [|split].
  - apply upd_nat_length.
  - apply upd_nat_bytes_ok; auto.
  - intros k Hk. unfold bitat. rewrite upd_nat_nth.
    assert (Hi : (Z.to_nat (db / 8) <? length buf)%nat = true).
    { apply Nat.ltb_lt. unfold zlen in Hdb. lia. }
    rewrite Hi, andb_true_r.
    destruct (Z.eq_dec k db) as [->|Hne].
    + rewrite Nat.eqb_refl, Hbit by lia. rewrite Z.eqb_refl.
      rewrite Z.sub_diag. reflexivity.
    + rewrite (onth_None [Some b]) by (change (zlen [Some b]) with 1; lia).
      destruct (Nat.eqb_spec (Z.to_nat (k / 8)) (Z.to_nat (db / 8))) as [E|E]; auto.
      rewrite Hbit by lia. destruct (Z.eqb_spec (k mod 8) (db mod 8)); [lia|].
      unfold old. now rewrite E.
Qed.

Lemma write_bits_loop_overlay bit_from n value big : 0 <= bit_from ->
  forall cnt fb buf, 0 <= fb -> bytes_ok buf -> fb + Z.of_nat cnt <= n ->
  bit_from + fb + Z.of_nat cnt <= 8 * zlen buf ->
  exists buf', write_bits_loop cnt bit_from n value fb big buf = Ok buf' /\
    overlay buf (bit_from + fb)
      (img_of (fun k => Z.testbit value (value_bit n big k)) fb cnt) buf'.
Proof.
  intros Hbf. induction cnt; intros fb buf Hfb Hok Hn Hlen; cbn [write_bits_loop].
  - exists buf. split; [reflexivity|]. apply overlay_nil; auto.
  - rewrite rd_ok by lia. cbn [bind]. rewrite wr_ok by lia. cbn [bind].
    pose proof (value_bit_range n big fb ltac:(lia)) as Hvb.
    rewrite helper_value_bit_spec by lia.
    rewrite land_pow2_eqb by lia.
    set (bb := Z.testbit value (value_bit n big fb)).
    pose proof (write_bit_overlay buf (bit_from + fb) bb Hok ltac:(lia)) as O1. cbn zeta in O1.
    replace (if negb bb then _ else _) with
      (if bb then Z.lor (Z.ldiff (nth (Z.to_nat ((bit_from + fb) / 8)) buf 0) (Z.shiftl 1 (Z.land (bit_from + fb) 7))) (Z.shiftl 1 (Z.land (bit_from + fb) 7))
       else Z.ldiff (nth (Z.to_nat ((bit_from + fb) / 8)) buf 0) (Z.shiftl 1 (Z.land (bit_from + fb) 7)))
      by (destruct bb; reflexivity).
    set (b1 := upd_nat _ _ _) in *.
    pose proof (overlay_length _ _ _ _ O1) as L1.
    pose proof (overlay_bytes _ _ _ _ O1) as B1.
    destruct (IHcnt (fb + 1) b1) as (b2 & E2 & O2); try lia; auto.
    exists b2. split; [exact E2|].
    replace (S cnt) with (1 + cnt)%nat by lia. rewrite img_of_app.
    eapply overlay_app.
    + unfold img_of; cbn. rewrite Z.add_0_r. exact O1.
    + rewrite zlen_img_of.
      replace (bit_from + fb + Z.of_nat 1) with (bit_from + (fb + 1)) by lia.
      replace (fb + Z.of_nat 1) with (fb + 1) by lia. exact O2.
Qed.

Lemma write_field_bits_overlay bit_from n value big buf :
  0 <= bit_from -> 1 <= n <= 64 -> bytes_ok buf -> bit_from + n <= 8 * zlen buf ->
  exists buf', write_field_bits bit_from n (loop_value value) big buf = Ok buf' /\
    overlay buf bit_from (map Some (field_bits n big value)) buf'.
Proof.
  intros Hb Hn Hok Hlen. unfold write_field_bits.
  destruct (Z.leb_spec n 0); [lia|].
  set (v' := if n <? 64 then _ else _).
  destruct (write_bits_loop_overlay bit_from n v' big Hb (Z.to_nat n) 0 buf) as (b & E & O);
    try lia; auto.
  exists b. split; [exact E|]. rewrite Z.add_0_r in O.
  rewrite map_Some_field_bits. erewrite img_of_ext; [exact O|].
  intros k Hk. cbn beta.
  pose proof (value_bit_range n big k ltac:(lia)).
  unfold v', loop_value. destruct (Z.ltb_spec n 64).
  - rewrite Z.land_spec, shiftl1, testbit_ones, testbit_mod by lia.
    destruct (Z.ltb_spec (value_bit n big k) 64), (Z.ltb_spec (value_bit n big k) n); try lia.
    now rewrite andb_true_r.
  - rewrite testbit_mod by lia. destruct (Z.ltb_spec (value_bit n big k) 64); [reflexivity|lia].
Qed.

(** ** Decoding *)

(** The field bit that carries value bit [j]: inverse of [value_bit]. *)
Definition wire_bit (n : Z) (big : bool) (j : Z) : Z :=
  if big then
    if j <? n mod 8 then 8 * (n / 8) + j
    else 8 * (n / 8 - 1 - (j - n mod 8) / 8) + (j - n mod 8) mod 8
  else j.

Lemma wire_bit_range n big j : 0 <= j < n -> 0 <= wire_bit n big j < n.
Proof. intros H. unfold wire_bit. destruct big; [|lia]. destruct (Z.ltb_spec j (n mod 8)); lia. Qed.

Lemma value_wire n big j : 0 <= j < n -> value_bit n big (wire_bit n big j) = j.
Proof. intros H. unfold value_bit, wire_bit. destruct big; [|lia]. destruct (Z.ltb_spec j (n mod 8)); lia. Qed.

Lemma wire_value n big k : 0 <= k < n -> wire_bit n big (value_bit n big k) = k.
Proof.
  intros H. unfold value_bit, wire_bit. destruct big; [|lia].
  destruct (Z.ltb_spec (Z.max 0 (n - 8 * (k / 8 + 1)) + k mod 8) (n mod 8)); lia.
Qed.

(** The number an [n]-bit field at bit [pos] of a buffer stands for. *)
Definition read_value (data : list Z) (pos n : Z) (big : bool) : Z :=
  of_bits (Z.to_nat n) (fun j => bitat data (pos + wire_bit n big j)).

Lemma dec_parts_bits fuel : forall from ff cs consumed base acc data,
  0 <= from -> 0 <= ff -> 0 <= base -> 0 <= consumed -> cs <= 8 -> cs - consumed <= Z.of_nat fuel ->
  0 <= acc < 2 ^ 8 -> (consumed < cs -> 8 * base + from + ff + cs <= 8 * zlen data) ->
  bytes_ok data ->
  exists r, dec_parts fuel from ff cs consumed base acc data = Ok r /\ 0 <= r < 2 ^ 8 /\
    forall j, 0 <= j -> Z.testbit r j =
      Z.testbit acc j || ((consumed <=? j) && (j <? cs) && bitat data (8 * base + from + ff + j)).
Proof.
  induction fuel; intros from ff cs consumed base acc data Hf Hff Hb Hc Hcs Hfuel Hacc Hlen Hok;
    cbn [dec_parts].
  - exists acc. repeat split; try lia. intros j Hj.
    destruct (Z.leb_spec consumed j), (Z.ltb_spec j cs); try lia; cbn; now rewrite orb_false_r.
  - destruct (Z.ltb_spec consumed cs).
    + specialize (Hlen ltac:(lia)).
      rewrite rd_ok by lia. cbn [bind]. rewrite !land7.
      set (db := from + ff + consumed).
      set (ps := Z.min (cs - consumed) (8 - db mod 8)).
      assert (Hps : 1 <= ps <= cs - consumed /\ ps <= 8 - db mod 8) by (unfold ps; lia).
      set (byte := nth (Z.to_nat (base + db / 8)) data 0).
      set (pt := Z.shiftl _ _ mod 256).
      assert (Hpt : forall j, 0 <= j -> Z.testbit pt j =
                (consumed <=? j) && (j <? consumed + ps) && bitat data (8 * base + from + ff + j)).
      { intros j Hj. unfold pt. change 256 with (2 ^ 8). rewrite testbit_mod by lia.
        rewrite Z.shiftl_spec by lia.
        destruct (Z.leb_spec consumed j).
        - rewrite Z.land_spec, testbit_shiftr, shiftl1, testbit_ones by lia.
          destruct (Z.ltb_spec (j - consumed) ps), (Z.ltb_spec j (consumed + ps)); try lia;
            cbn [andb]; rewrite ?andb_false_r, ?andb_true_r.
          + destruct (Z.ltb_spec j 8); [|lia]. unfold bitat, byte. f_equal.
            * f_equal. f_equal. unfold db. lia.
            * unfold db. lia.
          + destruct (j <? 8); reflexivity.
        - rewrite Z.testbit_neg_r by lia. cbn. destruct (j <? 8); reflexivity. }
      assert (Hptr : 0 <= pt < 2 ^ 8) by (unfold pt; apply Z.mod_pos_bound; lia).
      destruct (IHfuel from ff cs (consumed + ps) base (Z.lor acc pt) data) as (r & E & R & B);
        try lia; auto.
      { split; [apply Z.lor_nonneg; lia|]. apply bits_bound; try lia.
        - apply Z.lor_nonneg; lia.
        - intros k Hk. rewrite Z.lor_spec, !(testbit_above _ 8) by lia. reflexivity. }
      exists r. split; [exact E|]. split; auto. intros j Hj.
      rewrite B, Z.lor_spec, Hpt by lia.
      rewrite <- orb_assoc. f_equal.
      destruct (Z.leb_spec consumed j), (Z.ltb_spec j (consumed + ps)),
        (Z.leb_spec (consumed + ps) j), (Z.ltb_spec j cs); try lia; cbn [andb orb]; auto.
      now rewrite orb_false_r.
    + exists acc. repeat split; try lia. intros j Hj.
      destruct (Z.leb_spec consumed j), (Z.ltb_spec j cs); try lia; cbn; now rewrite orb_false_r.
Qed.

(** value bits delivered by the field bytes with index >= i0 *)
Lemma dec_chunks_bits w n big from base data : 8 <= w -> 1 <= n <= w -> 0 <= from -> 0 <= base ->
  bytes_ok data -> 8 * base + from + n <= 8 * zlen data ->
  forall fuel ff acc, 0 <= ff -> ff mod 8 = 0 -> n - ff <= Z.of_nat fuel ->
  (0 < ff -> 0 <= acc < 2 ^ w) -> (ff < n \/ 0 < ff) ->
  exists r, dec_chunks fuel w from n ff big base acc data = Ok r /\ 0 <= r < 2 ^ w /\
    forall j, 0 <= j -> Z.testbit r j =
      ((0 <? ff) && Z.testbit acc j) ||
      ((j <? n) && (ff <=? wire_bit n big j) && bitat data (8 * base + from + wire_bit n big j)).
Proof.
  intros Hw Hn Hf Hb Hok Hlen.
  induction fuel; intros ff acc Hff Hm Hfuel Hacc Hor; cbn [dec_chunks].
  - exists acc. split; [reflexivity|]. split; [apply Hacc; lia|].
    intros j Hj. destruct (Z.ltb_spec 0 ff); [|lia]. cbn [andb].
    destruct (Z.ltb_spec j n); cbn [andb]; [|now rewrite orb_false_r].
    pose proof (wire_bit_range n big j ltac:(lia)).
    destruct (Z.leb_spec ff (wire_bit n big j)); [lia|]. cbn. now rewrite orb_false_r.
  - destruct (Z.ltb_spec ff n).
    + set (cs := Z.min 8 (n - ff)).
      destruct (dec_parts_bits 8 from ff cs 0 base 0 data) as (e & Ee & Re & Be); try lia; auto.
      rewrite Ee. cbn [bind].
      set (sh := if big then Z.max 0 (n - 8 * (ff / 8 + 1)) else ff / 8 * 8).
      assert (Hsh : 0 <= sh) by (unfold sh; destruct big; lia).
      set (t := Z.shiftl e sh mod 2 ^ w).
      assert (Ht : forall j, 0 <= j -> Z.testbit t j =
          (j <? n) && ((ff <=? wire_bit n big j) && (wire_bit n big j <? ff + 8)) &&
            bitat data (8 * base + from + wire_bit n big j)).
      { intros j Hj. unfold t. rewrite testbit_mod by lia. rewrite Z.shiftl_spec by lia.
        assert (Hcase : (sh <= j < sh + cs /\ j < n /\ ff <= wire_bit n big j < ff + 8 /\ wire_bit n big j = ff + (j - sh)) \/
                (~ (sh <= j < sh + cs) /\ ~ (j < n /\ ff <= wire_bit n big j < ff + 8))).
        { unfold sh, cs, wire_bit. destruct big.
          - destruct (Z.ltb_spec j (n mod 8)); lia.
          - lia. }
        destruct Hcase as [(H1 & H2 & H3 & H4)|(H1 & H2)].
        - rewrite Be by lia. rewrite Z.testbit_0_l. cbn [orb].
          destruct (Z.ltb_spec j w); [|lia].
          destruct (Z.leb_spec 0 (j - sh)), (Z.ltb_spec (j - sh) cs); try lia.
          destruct (Z.ltb_spec j n), (Z.leb_spec ff (wire_bit n big j)), (Z.ltb_spec (wire_bit n big j) (ff + 8)); try lia.
          cbn [andb]. f_equal. lia.
        - replace ((j <? n) && ((ff <=? wire_bit n big j) && (wire_bit n big j <? ff + 8))) with false.
          2: { destruct (Z.ltb_spec j n), (Z.leb_spec ff (wire_bit n big j)), (Z.ltb_spec (wire_bit n big j) (ff + 8)); try reflexivity; lia. }
          cbn [andb]. destruct (Z.leb_spec sh j).
          + rewrite Be by lia. rewrite Z.testbit_0_l. cbn [orb].
            destruct (Z.leb_spec 0 (j - sh)), (Z.ltb_spec (j - sh) cs); try lia; cbn [andb];
            destruct (j <? w); reflexivity.
          + rewrite Z.testbit_neg_r by lia. destruct (j <? w); reflexivity. }
      assert (Htr : 0 <= t < 2 ^ w) by (unfold t; apply Z.mod_pos_bound; apply pow2_pos; lia).
      set (acc' := if ff / 8 =? 0 then t else Z.lor acc t).
      assert (Hacc' : forall j, 0 <= j -> Z.testbit acc' j = ((0 <? ff) && Z.testbit acc j) || Z.testbit t j).
      { intros j Hj. unfold acc'. destruct (Z.eqb_spec (ff / 8) 0), (Z.ltb_spec 0 ff); try lia; cbn [andb orb].
        - reflexivity.
        - apply Z.lor_spec. }
      assert (Hacc'r : 0 <= acc' < 2 ^ w).
      { unfold acc'. destruct (Z.eqb_spec (ff / 8) 0); auto.
        specialize (Hacc ltac:(lia)).
        split; [apply Z.lor_nonneg; lia|]. apply bits_bound; try lia.
        - apply Z.lor_nonneg; lia.
        - intros k Hk. rewrite Z.lor_spec, !(testbit_above _ w) by lia. reflexivity. }
      destruct (IHfuel (ff + 8) acc') as (r & Er & Rr & Br); try lia; auto.
      exists r. split; [exact Er|]. split; auto. intros j Hj.
      rewrite Br, Hacc', Ht by lia.
      destruct (Z.ltb_spec 0 (ff + 8)); [|lia]. cbn [andb]. rewrite <- orb_assoc. f_equal.
      destruct (Z.ltb_spec j n); cbn [andb]; auto.
      destruct (Z.leb_spec ff (wire_bit n big j)), (Z.ltb_spec (wire_bit n big j) (ff + 8)),
        (Z.leb_spec (ff + 8) (wire_bit n big j)); try lia; cbn [andb orb]; auto.
      now rewrite orb_false_r.
    + assert (0 < ff) by lia. exists acc. split; [reflexivity|]. split; [apply Hacc; lia|].
      intros j Hj. destruct (Z.ltb_spec 0 ff); [|lia]. cbn [andb].
      destruct (Z.ltb_spec j n); cbn [andb]; [|now rewrite orb_false_r].
      pose proof (wire_bit_range n big j ltac:(lia)).
      destruct (Z.leb_spec ff (wire_bit n big j)); [lia|]. cbn. now rewrite orb_false_r.
Qed.

Lemma dec_pattern_ok w n big from base init data :
  8 <= w -> 1 <= n <= w -> 0 <= from -> 0 <= base -> bytes_ok data ->
  8 * base + from + n <= 8 * zlen data ->
  dec_pattern w n big from base init data = Ok (read_value data (8 * base + from) n big).
Proof.
  intros. unfold dec_pattern.
  destruct (dec_chunks_bits w n big from base data) with (fuel := Z.to_nat n) (ff := 0) (acc := init)
    as (r & E & R & B); try lia; auto.
  rewrite E. f_equal. apply Z.bits_inj'. intros j Hj. rewrite B by lia.
  unfold read_value. rewrite of_bits_testbit by lia.
  destruct (Z.ltb_spec 0 0); [lia|]. cbn [andb orb].
  replace (Z.of_nat (Z.to_nat n)) with n by lia.
  destruct (Z.ltb_spec j n); cbn [andb]; auto.
  pose proof (wire_bit_range n big j ltac:(lia)).
  destruct (Z.leb_spec 0 (wire_bit n big j)); [|lia]. reflexivity.
Qed.

Lemma read_bits_loop_bits bit_from n big data : 0 <= bit_from -> n <= 64 ->
  bytes_ok data -> bit_from + n <= 8 * zlen data ->
  forall cnt fb out, 0 <= fb -> fb + Z.of_nat cnt = n -> 0 <= out < 2 ^ 64 ->
  exists r, read_bits_loop cnt bit_from n out fb big data = Ok r /\ 0 <= r < 2 ^ 64 /\
    forall j, 0 <= j -> Z.testbit r j = Z.testbit out j ||
      ((j <? n) && (fb <=? wire_bit n big j) && bitat data (bit_from + wire_bit n big j)).
Proof.
  intros Hb Hn Hok Hlen. induction cnt; intros fb out Hfb Hcnt Hout; cbn [read_bits_loop].
  - exists out. repeat split; try lia. intros j Hj.
    destruct (Z.ltb_spec j n); cbn [andb]; [|now rewrite orb_false_r].
    pose proof (wire_bit_range n big j ltac:(lia)).
    destruct (Z.leb_spec fb (wire_bit n big j)); [lia|]. cbn. now rewrite orb_false_r.
  - rewrite rd_ok by lia. cbn [bind]. rewrite helper_value_bit_spec by lia.
    rewrite land_pow2_eqb by (rewrite land7; lia). rewrite land7.
    change (Z.testbit (nth (Z.to_nat ((bit_from + fb) / 8)) data 0) ((bit_from + fb) mod 8))
      with (bitat data (bit_from + fb)).
    pose proof (value_bit_range n big fb ltac:(lia)) as Hvb.
    set (out' := if negb _ then _ else _).
    assert (Hbit : forall j, 0 <= j -> Z.testbit out' j = Z.testbit out j ||
              ((j =? value_bit n big fb) && bitat data (bit_from + fb))).
    { intros j Hj. unfold out'. destruct (bitat data (bit_from + fb)); cbn [negb].
      - rewrite Z.lor_spec, testbit_mod, shiftl1, Z.pow2_bits_eqb by lia.
        destruct (Z.ltb_spec j 64); rewrite ?andb_true_r.
        + f_equal. apply Z.eqb_sym.
        + destruct (Z.eqb_spec j (value_bit n big fb)); [lia|reflexivity].
      - rewrite andb_false_r, orb_false_r. reflexivity. }
    assert (Hout' : 0 <= out' < 2 ^ 64).
    { unfold out'. destruct (bitat data (bit_from + fb)); cbn [negb]; auto.
      assert (0 <= Z.shiftl 1 (value_bit n big fb) mod 2 ^ 64 < 2 ^ 64) by (apply Z.mod_pos_bound; lia).
      split; [apply Z.lor_nonneg; lia|]. apply bits_bound; try lia.
      - apply Z.lor_nonneg; lia.
      - intros k Hk. rewrite Z.lor_spec, !(testbit_above _ 64) by lia. reflexivity. }
    destruct (IHcnt (fb + 1) out') as (r & E & R & B); try lia; auto.
    exists r. split; [exact E|]. split; auto. intros j Hj. rewrite B, Hbit by lia.
    rewrite <- orb_assoc. f_equal.
    destruct (Z.eqb_spec j (value_bit n big fb)) as [->|Hne]; cbn [andb].
    + destruct (Z.ltb_spec (value_bit n big fb) n); [|lia]. cbn [andb].
      rewrite wire_value by lia. destruct (Z.leb_spec (fb + 1) fb), (Z.leb_spec fb fb); try lia.
      cbn. now rewrite orb_false_r.
    + cbn [orb]. destruct (Z.ltb_spec j n); cbn [andb]; auto.
      assert (wire_bit n big j <> fb).
      { intros HH. apply Hne. rewrite <- HH. symmetry. apply value_wire; lia. }
      destruct (Z.leb_spec (fb + 1) (wire_bit n big j)), (Z.leb_spec fb (wire_bit n big j)); try lia; reflexivity.
Qed.

Lemma read_field_bits_ok bit_from n big data :
  0 <= bit_from -> 1 <= n <= 64 -> bytes_ok data -> bit_from + n <= 8 * zlen data ->
  read_field_bits bit_from n big data = Ok (read_value data bit_from n big).
Proof.
  intros. unfold read_field_bits. destruct (Z.leb_spec n 0); [lia|].
  destruct (read_bits_loop_bits bit_from n big data) with (cnt := Z.to_nat n) (fb := 0) (out := 0)
    as (r & E & R & B); try lia; auto.
  rewrite E. f_equal. apply Z.bits_inj'. intros j Hj. rewrite B by lia.
  unfold read_value. rewrite of_bits_testbit, Z.testbit_0_l by lia. cbn [orb].
  replace (Z.of_nat (Z.to_nat n)) with n by lia.
  destruct (Z.ltb_spec j n); cbn [andb]; auto.
  pose proof (wire_bit_range n big j ltac:(lia)).
  destruct (Z.leb_spec 0 (wire_bit n big j)); [|lia]. reflexivity.
Qed.

Lemma read_value_bound data pos n big : 0 <= n -> 0 <= read_value data pos n big < 2 ^ n.
Proof.
  intros. unfold read_value. pose proof (of_bits_bound (Z.to_nat n) (fun j => bitat data (pos + wire_bit n big j))).
  replace (Z.of_nat (Z.to_nat n)) with n in H0 by lia. auto.
Qed.

(** Reading a buffer that carries the bits of [z] yields [z] modulo 2^n. *)
Lemma read_value_matches data pos n big z : 0 <= n -> 
  matches data pos (map Some (field_bits n big z)) -> read_value data pos n big = z mod 2 ^ n.
Proof.
  intros Hn (L & H). apply Z.bits_inj'. intros j Hj.
  unfold read_value. rewrite of_bits_testbit, testbit_mod by lia.
  replace (Z.of_nat (Z.to_nat n)) with n by lia.
  destruct (Z.ltb_spec j n); auto.
  pose proof (wire_bit_range n big j ltac:(lia)) as R.
  rewrite (H (wire_bit n big j) (Z.testbit z j)); auto.
  rewrite map_Some_field_bits, onth_img_of.
  destruct (Z.leb_spec 0 (wire_bit n big j)), (Z.ltb_spec (wire_bit n big j) (Z.of_nat (Z.to_nat n))); try lia.
  cbn [andb]. rewrite Z.add_0_l, value_wire by lia. reflexivity.
Qed.

(** ** sign extension *)
Lemma sext_bits n z j : 1 <= n -> 0 <= j ->
  Z.testbit (sext n z) j = if j <? n then Z.testbit z j else Z.testbit z (n - 1).
Proof.
  intros Hn Hj. unfold sext.
  assert (P : 2 ^ n = 2 * 2 ^ (n - 1)) by (rewrite <- Z.pow_succ_r by lia; f_equal; lia).
  pose proof (pow2_pos (n - 1) ltac:(lia)).
  pose proof (Z.mod_pos_bound z (2 ^ n) ltac:(lia)) as M.
  assert (Hs : Z.testbit z (n - 1) = negb (z mod 2 ^ n <? 2 ^ (n - 1))).
  { assert (E : Z.testbit z (n - 1) = Z.testbit (z mod 2 ^ n) (n - 1)).
    { rewrite testbit_mod by lia. destruct (Z.ltb_spec (n - 1) n); [reflexivity|lia]. }
    rewrite E. destruct (Z.ltb_spec (z mod 2 ^ n) (2 ^ (n - 1))); cbn.
    - apply testbit_above with (n := n - 1); lia.
    - replace (z mod 2 ^ n) with ((z mod 2 ^ n - 2 ^ (n - 1)) + 2 ^ (n - 1)) by lia.
      rewrite testbit_add_high by lia. now rewrite Z.eqb_refl. }
  rewrite Hs. destruct (Z.ltb_spec (z mod 2 ^ n) (2 ^ (n - 1))); cbn [negb].
  - rewrite testbit_mod by lia. destruct (Z.ltb_spec j n); reflexivity.
  - replace (z mod 2 ^ n - 2 ^ n) with (- (2 ^ n - 1 - z mod 2 ^ n) - 1) by lia.
    change (- (2 ^ n - 1 - z mod 2 ^ n) - 1) with (Z.pred (- (2 ^ n - 1 - z mod 2 ^ n))).
    replace (Z.pred (- (2 ^ n - 1 - z mod 2 ^ n))) with (Z.lnot (2 ^ n - 1 - z mod 2 ^ n)) by (unfold Z.lnot; lia).
    rewrite Z.lnot_spec by lia.
    assert (E2 : 2 ^ n - 1 - z mod 2 ^ n = Z.lxor (2 ^ n - 1) (z mod 2 ^ n)).
    { rewrite Z.sub_nocarry_ldiff.
      - apply Z.bits_inj'. intros k Hk. rewrite Z.ldiff_spec, Z.lxor_spec, testbit_ones by lia.
        rewrite testbit_mod by lia.
        destruct (Z.ltb_spec k n); cbn; auto.
      - apply Z.bits_inj'. intros k Hk. rewrite Z.ldiff_spec, Z.testbit_0_l, testbit_ones by lia.
        rewrite testbit_mod by lia. destruct (Z.ltb_spec k n); cbn; rewrite ?andb_false_r; auto. }
    rewrite E2, Z.lxor_spec, testbit_ones, testbit_mod by lia.
    destruct (Z.ltb_spec j n); cbn; auto. destruct (Z.testbit z j); reflexivity.
Qed.

Lemma sext_ext n a b : 1 <= n -> (forall j, 0 <= j < n -> Z.testbit a j = Z.testbit b j) ->
  sext n a = sext n b.
Proof.
  intros Hn H. apply sext_congr. apply Z.bits_inj'. intros j Hj.
  rewrite !testbit_mod by lia. destruct (Z.ltb_spec j n); [apply H; lia|reflexivity].
Qed.

Lemma sx_shift_ok w n p : 1 <= n <= w -> sx_shift w n p = sext n p.
Proof.
  intros H. unfold sx_shift. apply Z.bits_inj'. intros j Hj.
  rewrite testbit_shiftr by lia. rewrite !sext_bits by lia.
  rewrite !Z.shiftl_spec by lia. rewrite !sext_bits by lia.
  replace (j + (w - n) - (w - n)) with j by lia.
  replace (w - 1 - (w - n)) with (n - 1) by lia.
  destruct (Z.ltb_spec (j + (w - n)) w), (Z.ltb_spec j n), (Z.ltb_spec j w), (Z.ltb_spec (n - 1) w); try lia; reflexivity.
Qed.

(** (p xor 2^(n-1)) - 2^(n-1) on an n-bit pattern. *)
Lemma xor_sub n p : 1 <= n -> 0 <= p < 2 ^ n ->
  Z.lxor p (2 ^ (n - 1)) - 2 ^ (n - 1) = sext n p.
Proof.
  intros Hn Hp. unfold sext. rewrite Z.mod_small by lia.
  assert (P : 2 ^ n = 2 * 2 ^ (n - 1)) by (rewrite <- Z.pow_succ_r by lia; f_equal; lia).
  destruct (Z.ltb_spec p (2 ^ (n - 1))).
  - assert (E : Z.lxor p (2 ^ (n - 1)) = p + 2 ^ (n - 1)).
    { symmetry. apply Z.add_nocarry_lxor. apply Z.bits_inj'. intros k Hk.
      rewrite Z.land_spec, Z.testbit_0_l, Z.pow2_bits_eqb by lia.
      destruct (Z.eqb_spec (n - 1) k); [|apply andb_false_r].
      subst. rewrite (testbit_above p (n - 1)) by lia. reflexivity. }
    lia.
  - assert (E : Z.lxor p (2 ^ (n - 1)) = p - 2 ^ (n - 1)).
    { set (q := p - 2 ^ (n - 1)). replace p with (q + 2 ^ (n - 1)) by lia.
      replace (q + 2 ^ (n - 1)) with (Z.lxor q (2 ^ (n - 1))).
      - rewrite Z.lxor_assoc, Z.lxor_nilpotent, Z.lxor_0_r. reflexivity.
      - symmetry. apply Z.add_nocarry_lxor. apply Z.bits_inj'. intros k Hk.
        rewrite Z.land_spec, Z.testbit_0_l, Z.pow2_bits_eqb by lia.
        destruct (Z.eqb_spec (n - 1) k); [|apply andb_false_r].
        subst k. rewrite (testbit_above q (n - 1)) by lia. reflexivity. }
    rewrite E. lia.
Qed.

Lemma sext_fit n w z : 1 <= n <= w -> sext w (sext n z) = sext n z.
Proof.
  intros H. apply sext_id; [lia|]. pose proof (sext_range n z ltac:(lia)).
  assert (2 ^ (n - 1) <= 2 ^ (w - 1)) by (apply Z.pow_le_mono_r; lia). lia.
Qed.

Lemma sx_arith_ok w n p : 1 <= n < w -> 0 <= p < 2 ^ n -> sx_arith w n p = sext n p.
Proof.
  intros H Hp. unfold sx_arith. rewrite shiftl1 by lia.
  assert (2 ^ n <= 2 ^ (w - 1)) by (apply Z.pow_le_mono_r; lia).
  rewrite (sext_id w p) by lia. rewrite xor_sub by lia. apply sext_fit; lia.
Qed.

Lemma dec_int_ok c w n p : 1 <= n <= w -> 0 <= p < 2 ^ n -> dec_int c w n p = sext n p.
Proof.
  intros H Hp. unfold dec_int. destruct (Z.ltb_spec n w).
  - destruct (sx c); auto using sx_shift_ok. apply sx_arith_ok; lia.
  - assert (n = w) by lia. subst. reflexivity.
Qed.

Lemma loop_int_ok c w n v : 1 <= n <= w -> w <= 64 -> 0 <= v < 2 ^ n ->
  loop_dec_value c (EBasic (BInt w)) n v = sext n v.
Proof.
  intros H Hw Hv. cbn [loop_dec_value]. destruct (Z.leb_spec 64 n).
  - assert (n = w) by lia. subst. reflexivity.
  - assert (Hsh : sext w (Z.shiftr (sext 64 (Z.shiftl v (64 - n) mod 2 ^ 64)) (64 - n)) = sext n v).
    { rewrite <- (sext_fit n w) by lia. f_equal.
      apply Z.bits_inj'. intros j Hj. rewrite testbit_shiftr by lia. rewrite !sext_bits by lia.
      rewrite !testbit_mod by lia. rewrite !Z.shiftl_spec by lia.
      destruct (Z.ltb_spec (j + (64 - n)) 64), (Z.ltb_spec j n), (Z.ltb_spec (64 - 1) 64); try lia.
      - f_equal; lia.
      - f_equal; lia. }
    assert (Har : sext w (sext 64 (sext 64 (Z.lxor v (Z.shiftl 1 (n - 1))) - Z.shiftl 1 (n - 1))) = sext n v).
    { rewrite shiftl1 by lia.
      assert (P : 2 ^ n = 2 * 2 ^ (n - 1)) by (rewrite <- Z.pow_succ_r by lia; f_equal; lia).
      assert (Hx : 0 <= Z.lxor v (2 ^ (n - 1)) < 2 ^ n).
      { pose proof (xor_sub n v ltac:(lia) Hv). pose proof (sext_range n v ltac:(lia)). lia. }
      assert (2 ^ n <= 2 ^ 63) by (apply Z.pow_le_mono_r; lia).
      rewrite (sext_id 64 (Z.lxor _ _)) by lia.
      rewrite xor_sub by lia. rewrite (sext_fit n 64) by lia. apply sext_fit; lia. }
    destruct (sx c); auto.
Qed.
