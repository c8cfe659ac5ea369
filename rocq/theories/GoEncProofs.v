(** The Go encoder realises the wire image; EncodeSize is exact. *)
From Coq Require Import ZArith List Lia Bool.
From Verif Require Import Base BaseProofs Schema SpecWire GoModel GoBitProofs.
Import ListNotations.
Open Scope Z_scope.

(** ** raw bytes *)
Lemma raw_bytes_app a b : raw_bytes (a ++ b) = raw_bytes a ++ raw_bytes b.
Proof. unfold raw_bytes, bits_of_bytes. rewrite flat_map_app, map_app. reflexivity. Qed.

Lemma zlen_raw_bytes l : zlen (raw_bytes l) = 8 * zlen l.
Proof. unfold raw_bytes. rewrite zlen_map, zlen_bits_of_bytes. reflexivity. Qed.

Lemma onth_raw_bytes l k : 0 <= k < 8 * zlen l -> onth (raw_bytes l) k = Some (Some (bitat l k)).
Proof. intros H. unfold raw_bytes. rewrite onth_map, onth_bits_of_bytes by lia. reflexivity. Qed.

Lemma overlay_raw buf p src mid :
  bytes_ok buf -> bytes_ok src -> zlen mid = zlen src ->
  forall pre post, buf = pre ++ mid ++ post -> zlen pre = p ->
  overlay buf (8 * p) (raw_bytes src) (pre ++ src ++ post).
Proof.
  intros Hb Hs Hm pre post E Hp. subst buf.
  apply bytes_ok_app in Hb. destruct Hb as (Hb1 & Hb2). apply bytes_ok_app in Hb2.
  destruct Hb2 as (Hb2 & Hb3).
  pose proof (zlen_nonneg pre). pose proof (zlen_nonneg src).
  split; [|split].
  - rewrite !app_length. unfold zlen in Hm. lia.
  - rewrite !bytes_ok_app. auto.
  - intros k Hk. subst p. rewrite (bitat_app pre) by lia. rewrite (bitat_app pre) by lia.
    destruct (Z.ltb_spec k (8 * zlen pre)).
    + rewrite onth_None by lia. reflexivity.
    + destruct (Z.ltb_spec (k - 8 * zlen pre) (8 * zlen src)).
      * rewrite onth_raw_bytes by lia.
        rewrite bitat_app by lia. destruct (Z.ltb_spec (k - 8 * zlen pre) (8 * zlen src)); [|lia].
        reflexivity.
      * rewrite onth_None by (rewrite zlen_raw_bytes; lia).
        rewrite !bitat_app by lia. rewrite Hm.
        destruct (Z.ltb_spec (k - 8 * zlen pre) (8 * zlen src)); [lia|]. reflexivity.
Qed.

Lemma upd_nat_split buf i b : (i < length buf)%nat ->
  upd_nat buf i b = firstn i buf ++ [b] ++ skipn (S i) buf.
Proof.
  revert i; induction buf; intros i H; cbn in H; [lia|].
  destruct i; cbn; [reflexivity|]. f_equal. apply IHbuf; lia.
Qed.

Lemma skipn_S_split (buf : list Z) i : (i < length buf)%nat ->
  skipn i buf = [nth i buf 0] ++ skipn (S i) buf.
Proof.
  revert i; induction buf; intros i H; cbn in H; [lia|].
  destruct i; cbn; [reflexivity|]. apply IHbuf. lia.
Qed.

Lemma wr_overlay buf i b : bytes_ok buf -> 0 <= b < 256 -> 0 <= i < zlen buf ->
  exists buf', wr buf i b = Ok buf' /\ overlay buf (8 * i) (raw_bytes [b]) buf'.
Proof.
  intros Hok Hb Hi. rewrite wr_ok by lia. eexists. split; [reflexivity|].
  unfold zlen in Hi.
  rewrite upd_nat_split by lia.
  apply overlay_raw with (mid := [nth (Z.to_nat i) buf 0]); auto.
  - constructor; auto.
  - rewrite <- skipn_S_split by lia. now rewrite firstn_skipn.
  - rewrite zlen_firstn. unfold zlen. lia.
Qed.

Lemma skipn_skipn {A} (l : list A) a b : skipn a (skipn b l) = skipn (b + a) l.
Proof.
  revert b; induction l; intros b; [now rewrite !skipn_nil|].
  destruct b; cbn [skipn Nat.add]; auto.
Qed.

Lemma copy_overlay buf p src : bytes_ok buf -> bytes_ok src -> 0 <= p -> p + zlen src <= zlen buf ->
  exists buf', copy_at buf p src = Ok buf' /\ overlay buf (8 * p) (raw_bytes src) buf'.
Proof.
  intros Hok Hs Hp Hl. unfold copy_at. pose proof (zlen_nonneg src).
  destruct (Z.ltb_spec p 0); [lia|]. destruct (Z.ltb_spec (zlen buf) p); [lia|]. cbn [orb].
  eexists. split; [reflexivity|].
  unfold zlen in *.
  rewrite (firstn_all2 src) by lia.
  apply overlay_raw with (mid := firstn (length src) (skipn (Z.to_nat p) buf)); auto.
  - rewrite zlen_firstn, zlen_skipn. unfold zlen. lia.
  - rewrite <- skipn_skipn.
    rewrite (firstn_skipn (length src)). now rewrite firstn_skipn.
  - rewrite zlen_firstn. unfold zlen. lia.
Qed.

(** Overwriting the tail of an overlay. *)
Lemma overlay_tail buf pos i1 i2 i2' b1 b2 :
  zlen i2 = zlen i2' -> (forall o, In o i2' -> o <> None) ->
  overlay buf pos (i1 ++ i2) b1 -> overlay b1 (pos + zlen i1) i2' b2 ->
  overlay buf pos (i1 ++ i2') b2.
Proof.
  intros Hl Hs (L1 & O1 & H1) (L2 & O2 & H2). split; [congruence|]. split; auto.
  intros k Hk. pose proof (zlen_nonneg i1).
  rewrite H2 by (unfold zlen; rewrite L1; exact Hk). rewrite H1 by exact Hk.
  rewrite !onth_app.
  replace (k - (pos + zlen i1)) with (k - pos - zlen i1) by lia.
  destruct (Z.ltb_spec (k - pos) (zlen i1)).
  - rewrite (onth_None i2') by lia. reflexivity.
  - destruct (onth i2' (k - pos - zlen i1)) as [[b|]|] eqn:E.
    + reflexivity.
    + exfalso. unfold onth in E. destruct (_ <? 0); [discriminate|].
      apply nth_error_In in E. apply Hs in E. congruence.
    + destruct (onth i2 (k - pos - zlen i1)) eqn:E2; [|reflexivity].
      apply onth_Some in E2. destruct (onth_in_range i2' (k - pos - zlen i1)); [lia|congruence].
Qed.

Lemma raw_bytes_some l o : In o (raw_bytes l) -> o <> None.
Proof. unfold raw_bytes. intros H. apply in_map_iff in H. destruct H as (b & <- & _). congruence. Qed.

(** ** varint *)
Lemma shiftr7 n : Z.shiftr n 7 = n / 128.
Proof. rewrite Z.shiftr_div_pow2 by lia. reflexivity. Qed.

Lemma land127 n : Z.land n 127 = n mod 128.
Proof. change 127 with (Z.ones 7). rewrite Z.land_ones by lia. reflexivity. Qed.

Lemma lor128 n : 0 <= n < 128 -> Z.lor n 128 = n + 128.
Proof.
  intros H. apply Z.bits_inj'. intros k Hk. change 128 with (2 ^ 7).
  rewrite testbit_add_high by lia. rewrite Z.lor_spec, Z.pow2_bits_eqb by lia.
  destruct (Z.eqb_spec k 7), (Z.eqb_spec 7 k); try lia; rewrite ?orb_true_r, ?orb_false_r; auto.
Qed.

Lemma ldiff128 n : 0 <= n < 128 -> Z.ldiff (n + 128) 128 = n.
Proof.
  intros H. apply Z.bits_inj'. intros k Hk. change 128 with (2 ^ 7).
  rewrite Z.ldiff_spec, testbit_add_high, Z.pow2_bits_eqb by lia.
  destruct (Z.eqb_spec k 7), (Z.eqb_spec 7 k); try lia; cbn; rewrite ?andb_false_r, ?andb_true_r; auto.
  subst. symmetry. apply testbit_above with (n := 7); lia.
Qed.

Lemma varint_fuel_nonempty f n : varint_fuel f n <> [].
Proof. destruct f; cbn; [discriminate|]. destruct (n <? 128); discriminate. Qed.

(** The loop writes every 7-bit group with the top bit set; only the last byte differs from the
    canonical varint. *)
Lemma enc_varint_spec fuel : forall fb n off buf f,
  (fuel <= f)%nat -> 0 <= n < 2 ^ (7 * Z.of_nat fuel) -> 0 < Z.of_nat fuel -> 0 <= fb -> 0 <= off -> bytes_ok buf ->
  off + fb + zlen (varint_fuel f n) <= zlen buf ->
  exists buf' hd l, varint_fuel f n = hd ++ [l] /\ 0 <= l < 128 /\
    Forall (fun b => 128 <= b < 256) hd /\
    enc_varint fuel fb n off buf = Ok (buf', off + zlen (varint_fuel f n)) /\
    overlay buf (8 * (off + fb)) (raw_bytes (hd ++ [l + 128])) buf'.
Proof.
  induction fuel; intros fb n off buf f Hfuel Hn Hpos Hfb Hoff Hok Hlen; [cbn in Hpos; lia|].
  destruct f as [|f]; [lia|]. cbn [varint_fuel] in *. cbn [enc_varint].
  rewrite land127, lor128 by lia. rewrite shiftr7.
  destruct (Z.ltb_spec n 128).
  - rewrite zlen_one in Hlen.
    destruct (wr_overlay buf (off + fb) (n mod 128 + 128)) as (b1 & E1 & O1); try lia; auto.
    rewrite E1. cbn [bind]. assert (Hz : n / 128 = 0) by lia. rewrite Hz. cbn [Z.eqb].
    exists b1, [], n. cbn [app]. change (zlen [n]) with 1.
    split; [reflexivity|]. split; [lia|]. split; [constructor|]. split.
    + do 2 f_equal; lia.
    + replace (n mod 128) with n in O1 by lia. exact O1.
  - rewrite zlen_cons in Hlen. pose proof (zlen_nonneg (varint_fuel f (n / 128))).
    destruct (wr_overlay buf (off + fb) (n mod 128 + 128)) as (b1 & E1 & O1); try lia; auto.
    rewrite E1. cbn [bind]. destruct (Z.eqb_spec (n / 128) 0); [lia|].
    pose proof (overlay_length _ _ _ _ O1). pose proof (overlay_bytes _ _ _ _ O1).
    assert (Hn2 : 0 <= n / 128 < 2 ^ (7 * Z.of_nat fuel)).
    { split; [lia|]. apply Z.div_lt_upper_bound; [lia|].
      replace 128 with (2 ^ 7) by reflexivity. rewrite <- Z.pow_add_r by lia.
      replace (7 + 7 * Z.of_nat fuel) with (7 * Z.of_nat (S fuel)) by lia. lia. }
    assert (0 < Z.of_nat fuel).
    { destruct fuel; [cbn in Hn2; lia|lia]. }
    destruct (IHfuel fb (n / 128) (off + 1) b1 f) as (b2 & hd & l & Ev & Hl & Hhd & E2 & O2); try lia; auto.
    exists b2, ((n mod 128 + 128) :: hd), l. rewrite Ev in *.
    split; [reflexivity|]. split; [exact Hl|]. split; [constructor; [lia|auto]|]. split.
    + rewrite E2. do 2 f_equal. rewrite zlen_cons. lia.
    + change ((n mod 128 + 128 :: hd) ++ [l + 128]) with ([n mod 128 + 128] ++ (hd ++ [l + 128])).
      rewrite raw_bytes_app. eapply overlay_app; [exact O1|].
      rewrite zlen_raw_bytes, zlen_one.
      replace (8 * (off + fb) + 8 * 1) with (8 * (off + 1 + fb)) by lia. exact O2.
Qed.

Lemma bytes_size_loop_varint f n s : 0 <= n -> bytes_size_loop f n s = s - 1 + zlen (varint_fuel f n).
Proof.
  revert n s; induction f; intros n s Hn; cbn [bytes_size_loop varint_fuel].
  - rewrite zlen_one. lia.
  - rewrite shiftr7. destruct (Z.eqb_spec (n / 128) 0), (Z.ltb_spec n 128); try lia.
    + rewrite zlen_one. lia.
    + rewrite IHf, zlen_cons by lia. lia.
Qed.

Lemma bytes_size_ok bs : bytes_size bs = zlen (varint (zlen bs) ++ bs).
Proof.
  unfold bytes_size, varint. rewrite bytes_size_loop_varint by apply zlen_nonneg.
  rewrite zlen_app. lia.
Qed.

Lemma varint_bytes_ok f n : 0 <= n < 2 ^ (7 * Z.of_nat f) \/ 0 <= n < 128 -> bytes_ok (varint_fuel f n).
Proof.
  revert n; induction f; intros n Hn; cbn [varint_fuel].
  - constructor; [|constructor]. cbn in Hn. lia.
  - destruct (Z.ltb_spec n 128).
    + constructor; [lia|constructor].
    + constructor; [lia|]. apply IHf. left.
      split; [lia|]. apply Z.div_lt_upper_bound; [lia|].
      replace 128 with (2 ^ 7) by reflexivity. rewrite <- Z.pow_add_r by lia.
      replace (7 + 7 * Z.of_nat f) with (7 * Z.of_nat (S f)) by lia. lia.
Qed.

Lemma enc_bytes_overlay fb bs off buf :
  bytes_ok bs -> zlen bs < 2 ^ 63 -> 0 <= fb -> 0 <= off -> bytes_ok buf ->
  off + fb + zlen (varint (zlen bs) ++ bs) <= zlen buf ->
  exists buf', enc_bytes fb bs off buf = Ok (buf', off + bytes_size bs) /\
    overlay buf (8 * (off + fb)) (raw_bytes (varint (zlen bs) ++ bs)) buf'.
Proof.
  intros Hbs Hlt Hfb Hoff Hok Hlen. rewrite bytes_size_ok. rewrite zlen_app in *.
  pose proof (zlen_nonneg bs). unfold enc_bytes.
  assert (Hbound : 0 <= zlen bs < 2 ^ (7 * Z.of_nat 10)).
  { split; [lia|]. apply Z.lt_trans with (2 ^ 63); [lia|]. reflexivity. }
  destruct (enc_varint_spec 10 fb (zlen bs) off buf 10) as (b1 & hd & l & Ev & Hl & Hhd & E1 & O1);
    try lia; auto.
  { unfold varint in Hlen. lia. }
  change (varint_fuel 10 (zlen bs)) with (varint (zlen bs)) in *.
  rewrite E1. cbn [bind]. rewrite Ev in *.
  rewrite zlen_app, zlen_one in *.
  set (H' := zlen_nonneg hd).
  pose proof (overlay_length _ _ _ _ O1) as L1. pose proof (overlay_bytes _ _ _ _ O1) as B1.
  set (p := off + (zlen hd + 1) - 1 + fb).
  rewrite rd_ok by (unfold p; lia). cbn [bind].
  assert (Hlast : nth (Z.to_nat p) b1 0 = l + 128).
  { destruct O1 as (_ & _ & O1). apply byte_ext; [apply bytes_ok_nth; auto|lia|].
    intros k Hk. specialize (O1 (8 * p + k) ltac:(unfold p; lia)).
    rewrite onth_raw_bytes in O1 by (rewrite zlen_app, zlen_one; unfold p; lia).
    unfold bitat in O1 at 1.
    replace ((8 * p + k) / 8) with p in O1 by lia.
    replace ((8 * p + k) mod 8) with k in O1 by lia.
    rewrite O1. rewrite bitat_app by (unfold p; lia).
    replace (8 * p + k - 8 * (off + fb)) with (8 * zlen hd + k) by (unfold p; lia).
    destruct (Z.ltb_spec (8 * zlen hd + k) (8 * zlen hd)); [lia|].
    replace (8 * zlen hd + k - 8 * zlen hd) with k by lia. unfold bitat.
    replace (k / 8) with 0 by lia. replace (k mod 8) with k by lia. reflexivity. }
  rewrite Hlast, ldiff128 by lia.
  destruct (wr_overlay b1 p l) as (b2 & E2 & O2); auto; try (unfold p; lia).
  rewrite E2. cbn [bind].
  pose proof (overlay_length _ _ _ _ O2) as L2. pose proof (overlay_bytes _ _ _ _ O2) as B2.
  assert (O12 : overlay buf (8 * (off + fb)) (raw_bytes (hd ++ [l])) b2).
  { rewrite raw_bytes_app in *. eapply overlay_tail; [| |exact O1|].
    - rewrite !zlen_raw_bytes. reflexivity.
    - apply raw_bytes_some.
    - rewrite zlen_raw_bytes. replace (8 * (off + fb) + 8 * zlen hd) with (8 * p) by (unfold p; lia).
      exact O2. }
  destruct (copy_overlay b2 (off + (zlen hd + 1) + fb) bs) as (b3 & E3 & O3); auto; try lia.
  rewrite E3. cbn [bind]. exists b3. split.
  - do 2 f_equal. lia.
  - rewrite raw_bytes_app. eapply overlay_app; [exact O12|].
    rewrite zlen_raw_bytes, zlen_app, zlen_one.
    replace (8 * (off + fb) + 8 * (zlen hd + 1)) with (8 * (off + (zlen hd + 1) + fb)) by lia.
    exact O3.
Qed.

Lemma enc_string_overlay fb bs off buf :
  bytes_ok bs -> 0 <= fb -> 0 <= off -> bytes_ok buf -> off + fb + zlen bs + 1 <= zlen buf ->
  exists buf', enc_string fb bs off buf = Ok (buf', off + (zlen bs + 1)) /\
    overlay buf (8 * (off + fb)) (raw_bytes (bs ++ [0])) buf'.
Proof.
  intros Hbs Hfb Hoff Hok Hlen. pose proof (zlen_nonneg bs). unfold enc_string.
  destruct (copy_overlay buf (off + fb) bs) as (b1 & E1 & O1); auto; try lia.
  rewrite E1. cbn [bind].
  pose proof (overlay_length _ _ _ _ O1). pose proof (overlay_bytes _ _ _ _ O1).
  destruct (wr_overlay b1 (off + fb + zlen bs) 0) as (b2 & E2 & O2); auto; try lia.
  rewrite E2. cbn [bind]. exists b2. split.
  - do 2 f_equal. lia.
  - rewrite raw_bytes_app. eapply overlay_app; [exact O1|]. rewrite zlen_raw_bytes.
    replace (8 * (off + fb) + 8 * zlen bs) with (8 * (off + fb + zlen bs)) by lia. exact O2.
Qed.

(** ** sizes of images *)
Lemma zlen_field_bits n big z : 0 <= n -> zlen (field_bits n big z) = n.
Proof. intros. unfold field_bits. rewrite zlen_map. unfold zlen. rewrite seq_length. lia. Qed.

Lemma zlen_const_bits w n big z : 0 <= n -> zlen (const_bits w n big z) = n.
Proof. intros. unfold const_bits. rewrite zlen_map. unfold zlen. rewrite seq_length. lia. Qed.

Lemma zlen_flat_map {A B} (f : A -> list B) l s :
  Forall (fun a => zlen (f a) = s) l -> zlen (flat_map f l) = zlen l * s.
Proof.
  induction 1; cbn [flat_map]; [reflexivity|].
  rewrite zlen_app, zlen_cons, H, IHForall. lia.
Qed.

Definition slot (e : elem) (n : Z) : Z := if is_fixed_scalar e then n else if elem_dyn e then 0 else elem_bits e.

Lemma fixed_bits_nonneg fs : 0 <= fixed_bits fs.
Proof.
  induction fs; cbn [fixed_bits]; try lia;
    match goal with |- context [0 <? ?n] => destruct (Z.ltb_spec 0 n) end; lia.
Qed.

Definition SizeE (e : elem) : Prop := forall n big v,
  wf_elem e -> storable_elem e v -> 0 <= n ->
  zlen (image_elem e n big v) = 8 * esize_elem e v + slot e n /\
  (elem_dyn e = false -> esize_elem e v = 0).
Definition SizeF (fs : fields) : Prop := forall from vs,
  wf_fields fs from -> storable_fields fs vs ->
  zlen (image_fields fs vs) = 8 * esize_fields fs vs + fixed_bits fs /\
  (fields_dyn fs = false -> esize_fields fs vs = 0).

Lemma quot_mul len eb : (0 < len)%nat -> Z.quot (Z.of_nat len * eb) (Z.of_nat len) = eb.
Proof. intros. rewrite Z.mul_comm. apply Z.quot_mul. lia. Qed.

Lemma div_mul len eb : (0 < len)%nat -> (Z.of_nat len * eb) / Z.of_nat len = eb.
Proof. intros. rewrite Z.mul_comm. apply Z.div_mul. lia. Qed.

Lemma fold_sizes (f g : val -> Z) arr s :
  Forall (fun v => f v = 8 * g v + s) arr ->
  fold_right (fun v a => f v + a) 0 arr = 8 * fold_right (fun v a => g v + a) 0 arr + zlen arr * s.
Proof.
  induction 1; cbn [fold_right]; [unfold zlen; cbn; lia|].
  rewrite zlen_cons, H, IHForall. lia.
Qed.

Lemma zlen_flat_map_fold {A B} (f : A -> list B) l :
  zlen (flat_map f l) = fold_right (fun v a => zlen (f v) + a) 0 l.
Proof. induction l; cbn [flat_map fold_right]; [reflexivity|]. rewrite zlen_app, IHl. reflexivity. Qed.

Lemma fold_zero (g : val -> Z) arr : Forall (fun v => g v = 0) arr ->
  fold_right (fun v a => g v + a) 0 arr = 0.
Proof. induction 1; cbn [fold_right]; lia. Qed.

Lemma not_scalar_bits_nonneg e : wf_elem e -> is_fixed_scalar e = false -> elem_dyn e = false -> 0 <= elem_bits e.
Proof. destruct e; cbn; try discriminate. intros. apply fixed_bits_nonneg. Qed.

Lemma if_pos (n : Z) : 0 <= n -> (if 0 <? n then n else 0) = n.
Proof. intros; destruct (Z.ltb_spec 0 n); lia. Qed.

Lemma sizes : (forall e, SizeE e) /\ (forall fs, SizeF fs).
Proof.
  apply schema_ind; unfold SizeE, SizeF.
  - intros b n big v Hwf Hs Hn. destruct v; cbn in Hs; try contradiction.
    cbn [image_elem]. rewrite zlen_map, zlen_field_bits by lia. cbn. split; lia.
  - intros bits n big v Hwf Hs Hn. destruct v; cbn in Hs; try contradiction.
    cbn [image_elem]. rewrite zlen_map, zlen_field_bits by lia. cbn. split; lia.
  - intros n big v Hwf Hs Hn. destruct v; cbn in Hs; try contradiction.
    cbn [image_elem esize_elem]. rewrite zlen_raw_bytes, zlen_app, zlen_one.
    unfold slot; cbn. split; [lia|discriminate].
  - intros n big v Hwf Hs Hn. destruct v; cbn in Hs; try contradiction.
    cbn [image_elem esize_elem]. rewrite zlen_raw_bytes, bytes_size_ok.
    unfold slot; cbn. split; [lia|discriminate].
  - intros fs IH n big v Hwf Hs Hn. destruct v as [| |vs|]; cbn in Hs; try contradiction.
    cbn in Hwf. destruct Hwf as (Hwf & H8). destruct (IH 0 vs Hwf Hs) as (E & Ed).
    cbn [image_elem esize_elem elem_dyn]. unfold slot. cbn [is_fixed_scalar elem_dyn elem_bits].
    destruct (fields_dyn fs) eqn:D.
    + split; [|discriminate]. rewrite E. lia.
    + split; [|reflexivity]. rewrite E, Ed by auto. lia.
  - intros from vs _ Hs. cbn in Hs. subst. cbn. split; reflexivity || lia.
  - intros e IHe n big r IHr from vs Hwf Hs. cbn [wf_fields] in Hwf. destruct Hwf as (We & Wn & Wr).
    destruct vs as [|v vs]; cbn in Hs; [contradiction|]. destruct Hs as (Sv & Ss).
    destruct (IHr _ _ Wr Ss) as (Er & Erd).
    cbn [image_fields esize_fields fixed_bits fields_dyn].
    rewrite !zlen_app, Er.
    assert (Hcase : (0 <= n /\ (is_fixed_scalar e = true \/ elem_bits e = n)) \/ (n = -1 /\ elem_dyn e = true /\ is_fixed_scalar e = false /\ match e with EStruct _ => False | _ => True end)).
    { destruct (is_fixed_scalar e) eqn:S.
      - left. split; [lia|auto].
      - destruct Wn as (_ & Wn). destruct e; cbn in *; try discriminate; subst.
        + right. auto.
        + right. auto.
        + left. split; [apply fixed_bits_nonneg|auto]. }
    destruct Hcase as [(Hn & Hor)|(Hn & Hd & Hsc & HnS)].
    + destruct (IHe n big v We Sv Hn) as (Ee & Eed). rewrite Ee.
      split.
      * rewrite if_pos by lia. unfold slot. destruct (is_fixed_scalar e) eqn:S.
        -- destruct e; cbn in S; try discriminate; cbn [elem_dyn] in *; change (zlen (@nil (option bool))) with 0; lia.
        -- destruct Hor as [|Hor]; [discriminate|].
           destruct e; cbn in S; try discriminate; cbn in Hor; try lia.
           cbn [elem_dyn] in *. destruct (fields_dyn fs) eqn:D.
           ++ rewrite zlen_repeat. cbn [elem_bits]. lia.
           ++ change (zlen (@nil (option bool))) with 0. cbn [elem_bits]. lia.
      * intros Hd. apply orb_false_iff in Hd. destruct Hd. rewrite Eed, Erd by auto. lia.
    + subst n. rewrite Hd. cbn [orb]. split; [|discriminate].
      assert (Ee : zlen (image_elem e (-1) big v) = 8 * esize_elem e v).
      { destruct e; cbn in Hsc, Hd; try discriminate; destruct v; cbn in Sv; try contradiction; cbn [image_elem esize_elem].
        - rewrite zlen_raw_bytes, zlen_app, zlen_one. lia.
        - rewrite zlen_raw_bytes, bytes_size_ok. lia. }
      rewrite Ee. cbn [Z.ltb Z.compare]. destruct e; try contradiction; change (zlen (@nil (option bool))) with 0; lia.
  - intros e IHe len n big r IHr from vs Hwf Hs. cbn [wf_fields] in Hwf. destruct Hwf as (We & Wl & Wn & Wr).
    destruct vs as [|v vs]; cbn in Hs; [contradiction|]. destruct v as [| | |arr]; try contradiction.
    destruct Hs as (Sl & Sv & Ss). destruct (IHr _ _ Wr Ss) as (Er & Erd).
    cbn [image_fields esize_fields fixed_bits fields_dyn].
    rewrite zlen_app, Er.
    assert (Hlen : zlen arr = Z.of_nat len) by (unfold zlen; lia).
    assert (Hn : exists eb, 0 <= eb /\ (n = Z.of_nat len * eb /\ (is_fixed_scalar e = true \/ elem_dyn e = false /\ elem_bits e = eb)) \/ (n = -1 /\ elem_dyn e = true /\ is_fixed_scalar e = false)).
    { destruct (is_fixed_scalar e) eqn:S.
      - destruct Wn as (eb & H1 & H2). exists eb. left. split; [lia|]. auto.
      - destruct Wn as (_ & Wn). destruct (elem_dyn e) eqn:D.
        + exists 0. right. auto.
        + exists (elem_bits e). left. split; [apply not_scalar_bits_nonneg; auto|]. auto. }
    destruct Hn as (eb & [(Heb & -> & Hor)|(-> & Hd & Hsc)]).
    + rewrite div_mul by lia. rewrite if_pos by lia.
      assert (Hall : Forall (fun v => zlen (image_elem e eb big v) = 8 * esize_elem e v + eb /\ esize_elem e v = 0) arr).
      { eapply Forall_impl; [|exact Sv]. intros v Hv. destruct (IHe eb big v We Hv Heb) as (E & Ed).
        assert (elem_dyn e = false).
        { destruct Hor as [Hs|[Hd _]]; auto. destruct e; cbn in Hs; try discriminate; reflexivity. }
        split; auto. rewrite E. unfold slot. destruct Hor as [->|[-> Hb]]; [lia|].
        destruct (is_fixed_scalar e); lia. }
      rewrite zlen_flat_map_fold.
      rewrite fold_sizes with (g := esize_elem e) (s := eb) by (eapply Forall_impl; [|exact Hall]; cbn; tauto).
      split; [rewrite Hlen; lia|].
      intros Hd. apply orb_false_iff in Hd. destruct Hd.
      rewrite fold_zero by (eapply Forall_impl; [|exact Hall]; cbn; tauto).
      rewrite Erd by auto. lia.
    + rewrite Hd. cbn [orb]. split; [|discriminate].
      rewrite zlen_flat_map_fold.
      rewrite fold_sizes with (g := esize_elem e) (s := 0).
      * cbn [Z.ltb Z.compare]. lia.
      * eapply Forall_impl; [|exact Sv]. intros v Hv. cbn beta.
        destruct e; cbn in Hsc, Hd; try discriminate; destruct v; cbn in Hv; try contradiction.
        -- cbn [image_elem esize_elem]. rewrite zlen_raw_bytes, zlen_app, zlen_one. lia.
        -- cbn [image_elem esize_elem]. rewrite zlen_raw_bytes, bytes_size_ok. lia.
        -- destruct (IHe 0 big (VStruct vs0) We Hv) as (E & _); [lia|].
           unfold slot in E; cbn [is_fixed_scalar elem_dyn] in E. rewrite Hd in E. cbn [image_elem] in *. lia.
  - intros n r IHr from vs Hwf Hs. cbn [wf_fields] in Hwf. destruct Hwf as (Hn & Wr).
    destruct (IHr _ _ Wr Hs) as (Er & Erd). cbn [image_fields esize_fields fixed_bits fields_dyn].
    rewrite zlen_app, zlen_repeat, Er, if_pos by lia. split; [lia|auto].
  - intros b n big z r IHr from vs Hwf Hs. cbn [wf_fields] in Hwf. destruct Hwf as (Wb & Hn & Wr).
    destruct (IHr _ _ Wr Hs) as (Er & Erd). cbn [image_fields esize_fields fixed_bits fields_dyn].
    rewrite zlen_app, zlen_map, zlen_const_bits, Er, if_pos by lia. split; [lia|auto].
  - intros r IHr from vs Hwf Hs. cbn [wf_fields] in Hwf.
    destruct (IHr _ _ Hwf Hs) as (Er & Erd). cbn [image_fields esize_fields fixed_bits fields_dyn].
    split; auto.
Qed.
