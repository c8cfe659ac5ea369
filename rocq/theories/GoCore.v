(** Whole-message facts about the Go codec, assembled from the field-level inductions. *)
From Coq Require Import ZArith List Lia Bool.
From Verif Require Import Base BaseProofs Schema SpecWire GoModel GoBitProofs GoEncProofs GoEncMain GoDecProofs GoRound GoPrefix.
Import ListNotations.
Open Scope Z_scope.

Lemma offk_zero d : offk d 0.
Proof. unfold offk. destruct d; split; auto; lia. Qed.

Lemma encode_size_image fs vs : wf_struct fs -> storable_fields fs vs ->
  8 * encode_size fs vs = zlen (image_fields fs vs) /\ encode_size fs vs = esize_fields fs vs + fixed_bits fs / 8.
Proof.
  intros (Hwf & H8) Hs. destruct (proj2 sizes fs 0 vs Hwf Hs) as (E & Ed).
  unfold encode_size. destruct (fields_dyn fs); [|rewrite Ed in * by auto]; lia.
Qed.

Lemma encode_size_nonneg fs vs : wf_struct fs -> storable_fields fs vs -> 0 <= encode_size fs vs.
Proof. intros H H0. destruct (encode_size_image fs vs H H0). pose proof (zlen_nonneg (image_fields fs vs)). lia. Qed.

Lemma encode_to_ok c fs vs buf : wf_struct fs -> go_ok c fs -> storable_fields fs vs -> bytes_ok buf ->
  encode_size fs vs <= zlen buf ->
  exists buf', encode_to c fs vs buf = Ok (buf', encode_size fs vs) /\ overlay buf 0 (image_fields fs vs) buf'.
Proof.
  intros W G Hs Hb Hl. pose proof (encode_size_image fs vs W Hs) as (E1 & E2). destruct W as (Hwf & H8).
  destruct (proj2 enc_main fs c (fields_dyn fs) vs 0 0 buf) as (b & E & O); auto; try lia.
  { apply offk_zero. }
  exists b. unfold encode_to. rewrite E. cbn [bind]. split; auto. rewrite E2. do 2 f_equal.
Qed.

Lemma bytes_ok_zeros n : bytes_ok (repeat 0 n).
Proof. apply Forall_forall. intros x H. apply repeat_spec in H. lia. Qed.

Lemma encode_ok c fs vs : wf_struct fs -> go_ok c fs -> storable_fields fs vs ->
  exists buf, encode c fs vs = Ok buf /\ bytes_ok buf /\ zlen buf = encode_size fs vs /\
    overlay (repeat 0 (Z.to_nat (encode_size fs vs))) 0 (image_fields fs vs) buf.
Proof.
  intros W G Hs. pose proof (encode_size_nonneg fs vs W Hs).
  destruct (encode_to_ok c fs vs (repeat 0 (Z.to_nat (encode_size fs vs))) W G Hs (bytes_ok_zeros _)) as (b & E & O).
  { rewrite zlen_repeat. lia. }
  exists b. unfold encode. rewrite E. cbn [bind]. split; auto.
  split; [eapply overlay_bytes; eauto|]. split; auto. rewrite (overlay_length _ _ _ _ O), zlen_repeat. lia.
Qed.

Lemma encode_to_matches fs vs buf buf' : wf_struct fs -> storable_fields fs vs ->
  encode_size fs vs <= zlen buf ->
  overlay buf 0 (image_fields fs vs) buf' -> matches buf' 0 (image_fields fs vs).
Proof.
  intros W Hs Hl O. destruct (encode_size_image fs vs W Hs). eapply overlay_matches; eauto; lia.
Qed.

(** Decode is the option-free reader. *)
Lemma decode_rdec c fs data : wf_struct fs -> nd_fields fs -> go_ok c fs -> bytes_ok data ->
  (decode_size fs data < 0 /\ decode c fs data = Fail) \/
  (exists o, dsize_fields fs 0 0 data = DOff o /\ decode_size fs data = o + fixed_bits fs / 8 /\
    0 <= decode_size fs data <= zlen data /\
    decode c fs data = (do (vs, o) <- rdec_fields (use_loop c) fs 0 0 data; Ok (vs, o + fixed_bits fs / 8)) /\
    safe (rdec_fields (use_loop c) fs 0 0 data) o).
Proof.
  intros (Hwf & H8) Nd G Hb. unfold decode.
  destruct (Z.ltb_spec (decode_size fs data) 0); [left; auto|right].
  pose proof (fixed_bits_nonneg fs).
  pose proof (proj2 dsize_progress fs 0 0 data Hwf Nd ltac:(lia) ltac:(lia) Hb) as Hp.
  unfold decode_size in *. destruct (dsize_fields fs 0 0 data) as [o|x] eqn:E; [|lia].
  destruct (Z.ltb_spec (zlen data) (o + fixed_bits fs / 8)); [pose proof (zlen_nonneg data); lia|].
  exists o. split; auto. split; auto. split; [lia|].
  destruct (proj2 dec_safe fs c (fields_dyn fs) 0 0 data o) as (E1 & S); auto; try lia.
  { apply offk_zero. }
  rewrite E1. auto.
Qed.

Lemma decode_matches c fs vs data : wf_struct fs -> nd_fields fs -> go_ok c fs -> consts_ok fs -> bytes_ok data ->
  storable_fields fs vs -> matches data 0 (image_fields fs vs) ->
  decode_size fs data = encode_size fs vs /\ decode c fs data = Ok (norm_fields fs vs, encode_size fs vs).
Proof.
  intros W Nd G Co Hb Hs M. pose proof (encode_size_image fs vs W Hs) as (E1 & E2).
  pose proof (encode_size_nonneg fs vs W Hs).
  assert (D : decode_size fs data = encode_size fs vs).
  { destruct W as (Hwf & H8).
    pose proof (proj2 dsize_match fs vs 0 0 data Hwf Nd Hs ltac:(lia) ltac:(lia) Hb M) as E.
    rewrite (decode_size_of fs data _ E); auto. destruct M as (L & _). lia. }
  split; auto. destruct (decode_rdec c fs data W Nd G Hb) as [(Hneg & _)|(o & _ & _ & _ & -> & _)]; [lia|].
  destruct W as (Hwf & H8).
  rewrite (proj2 (rdec_match _) fs vs 0 0 data Hwf Nd Co Hs ltac:(lia) ltac:(lia) Hb M). cbn [bind]. do 2 f_equal. lia.
Qed.

(** Values that fit are their own reduction. *)
Lemma norm_fits :
  (forall e n v, wf_elem e -> (is_fixed_scalar e = true -> 1 <= n) -> fits_elem e n v -> norm_elem e n v = v) /\
  (forall fs from vs, wf_fields fs from -> fits_fields fs vs -> norm_fields fs vs = vs).
Proof.
  assert (Hmap : forall (f : val -> val) l, Forall (fun v => f v = v) l -> map f l = l).
  { induction 1; cbn; congruence. }
  apply schema_ind.
  - intros b n v We Hn Fv. destruct v; cbn in Fv |- *; try contradiction. specialize (Hn eq_refl). f_equal.
    assert (2 <= 2 ^ n) by (change 2 with (2 ^ 1) at 1; apply Z.pow_le_mono_r; lia).
    destruct b; cbn in *; try (apply Z.mod_small; lia). apply sext_id; lia.
  - intros b n v We Hn Fv. destruct v; cbn in Fv |- *; try contradiction. f_equal. apply Z.mod_small; lia.
  - auto.
  - auto.
  - intros fs IH n v We Hn Fv. destruct v; cbn in Fv |- *; try contradiction. f_equal. cbn in We. destruct We. eapply IH; eauto.
  - intros from vs _ E. cbn in *. auto.
  - intros e IHe n big r IHr from vs Hwf Fv. cbn [wf_fields] in Hwf. destruct Hwf as (We & Wn & Wr).
    destruct vs as [|v vs]; cbn in Fv |- *; [contradiction|]. destruct Fv as (F1 & F2). f_equal; eauto.
    apply IHe; auto. intros S; rewrite S in Wn; lia.
  - intros e IHe len n big r IHr from vs Hwf Fv. cbn [wf_fields] in Hwf. destruct Hwf as (We & Wl & Wn & Wr).
    destruct vs as [|v vs]; cbn in Fv |- *; [contradiction|]. destruct v; try contradiction. destruct Fv as (F0 & F1 & F2).
    f_equal; eauto. f_equal. apply Hmap. eapply Forall_impl; [|exact F1]. intros v Hv.
    apply IHe; auto. intros S. rewrite S in Wn. destruct Wn as (eb & H1 & ->). rewrite div_mul by lia. lia.
  - intros n r IHr from vs Hwf Fv. cbn [wf_fields] in Hwf. destruct Hwf. cbn in *. eapply IHr; eauto.
  - intros b n big z r IHr from vs Hwf Fv. cbn [wf_fields] in Hwf. destruct Hwf as (_ & _ & Hwf). cbn in *. eapply IHr; eauto.
  - intros r IHr from vs Hwf Fv. cbn [wf_fields] in Hwf. cbn in *. eapply IHr; eauto.
Qed.

Lemma fits_storable_struct fs vs : wf_struct fs -> fits_fields fs vs -> storable_fields fs vs.
Proof. intros (W & _). apply (proj2 fits_storable fs 0). auto. Qed.

Lemma matches_trailing data pos img extra : 0 <= pos -> matches data pos img -> matches (data ++ extra) pos img.
Proof.
  intros Hp (L & M). pose proof (zlen_nonneg extra). split; [rewrite zlen_app; lia|].
  intros k b E. pose proof (onth_Some _ _ _ E). rewrite bitat_app by lia.
  destruct (Z.ltb_spec (pos + k) (8 * zlen data)); [auto|lia].
Qed.

(** Array decoding path is irrelevant for one-bit bools. *)
Lemma rdec_ul :
  (forall e ul1 ul2 lp1 lp2 n big from off data, wf_elem e -> bool_arrays_1bit_elem e ->
     (e = EBasic BBool -> lp1 = lp2 \/ n = 1) ->
     rdec_elem ul1 lp1 e n big from off data = rdec_elem ul2 lp2 e n big from off data) /\
  (forall fs ul1 ul2 from off data f0, wf_fields fs f0 -> bool_arrays_1bit fs ->
     rdec_fields ul1 fs from off data = rdec_fields ul2 fs from off data).
Proof.
  apply schema_ind.
  - intros b ul1 ul2 lp1 lp2 n big from off data We _ H. cbn [rdec_elem]. do 3 f_equal.
    destruct b; cbn [num_of]; auto. destruct (H eq_refl) as [->| ->]; auto.
    pose proof (read_value_bound data (8 * off + from) 1 big ltac:(lia)) as B. change (2 ^ 1) with 2 in B.
    destruct (Z.eqb_spec (read_value data (8 * off + from) 1 big) 0); destruct lp1, lp2; lia.
  - reflexivity.
  - reflexivity.
  - reflexivity.
  - intros fs IH ul1 ul2 lp1 lp2 n big from off data We Hb _. cbn [rdec_elem]. cbn in We, Hb. destruct We as (We & _).
    replace (dec_nested fs (fun sub => rdec_fields ul1 fs 0 0 sub) data (off + from / 8))
      with (dec_nested fs (fun sub => rdec_fields ul2 fs 0 0 sub) data (off + from / 8)); auto.
    unfold dec_nested. destruct (_ || _); auto. destruct (decode_size _ _ <? 0); auto.
    rewrite (IH ul1 ul2 0 0 _ 0 We Hb). reflexivity.
  - reflexivity.
  - intros e IHe n big r IHr ul1 ul2 from off data f0 Hwf Hb. cbn [wf_fields] in Hwf. destruct Hwf as (We & _ & Wr).
    cbn in Hb. destruct Hb as (B1 & B2). cbn [rdec_fields].
    rewrite (IHe ul1 ul2 false false n big from off data We B1) by auto.
    destruct (rdec_elem _ _ _ _ _ _ _ _) as [[v o]| |]; cbn [bind]; auto.
    rewrite (IHr ul1 ul2 _ o data _ Wr B2). reflexivity.
  - intros e IHe len n big r IHr ul1 ul2 from off data f0 Hwf Hb. cbn [wf_fields] in Hwf. destruct Hwf as (We & Wl & _ & Wr).
    cbn in Hb. destruct Hb as (B1 & Bn & B2). cbn [rdec_fields].
    assert (E : forall k i o, iter_dec (fun i o => rdec_elem ul1 (ul1 len) e (n / Z.of_nat len) big
                    (from + (if elem_dyn e then 0 else i * (n / Z.of_nat len))) o data) k i o =
                iter_dec (fun i o => rdec_elem ul2 (ul2 len) e (n / Z.of_nat len) big
                    (from + (if elem_dyn e then 0 else i * (n / Z.of_nat len))) o data) k i o).
    { induction k; intros i o; cbn [iter_dec]; auto.
      rewrite (IHe ul1 ul2 (ul1 len) (ul2 len)); auto.
      - destruct (rdec_elem _ _ _ _ _ _ _ _) as [[v o']| |]; cbn [bind]; auto. rewrite IHk. reflexivity.
      - intros Eb. right. rewrite (Bn Eb). apply Z.div_same. lia. }
    rewrite E. destruct (iter_dec _ _ _ _) as [[arr o]| |]; cbn [bind]; auto.
    rewrite (IHr ul1 ul2 _ o data _ Wr B2). reflexivity.
  - intros n r IHr ul1 ul2 from off data f0 Hwf Hb. cbn [wf_fields rdec_fields] in *. destruct Hwf. cbn in Hb. eapply IHr; eauto.
  - intros b n big z r IHr ul1 ul2 from off data f0 Hwf Hb. cbn [wf_fields rdec_fields] in *. destruct Hwf as (_ & _ & Hwf). cbn in Hb.
    destruct (_ =? z); auto. eapply IHr; eauto.
  - intros r IHr ul1 ul2 from off data f0 Hwf Hb. cbn [wf_fields rdec_fields] in *. cbn in Hb. eapply IHr; eauto.
Qed.

(** Reading, in terms of the layout. *)
Lemma read_value_at data pos n big : 0 <= n -> 0 <= pos -> pos + n <= 8 * zlen data ->
  value_at data pos n big (read_value data pos n big).
Proof. intros. split; [apply read_value_bound; auto|]. apply matches_read; auto. Qed.

Lemma value_at_fun data pos n big p q : 0 <= n -> value_at data pos n big p -> value_at data pos n big q -> p = q.
Proof.
  intros Hn (B1 & M1) (B2 & M2). apply read_value_matches in M1; auto. apply read_value_matches in M2; auto.
  rewrite Z.mod_small in M1, M2 by auto. congruence.
Qed.

Lemma fixed_bits_fapp a b : fixed_bits (fapp a b) = fixed_bits a + fixed_bits b.
Proof. induction a; cbn [fapp fixed_bits]; lia. Qed.

Lemma wf_fapp a : forall b from, fields_dyn a = false -> wf_fields (fapp a b) from -> wf_fields b (from + fixed_bits a).
Proof.
  induction a; intros b0 from D W; cbn [fapp wf_fields fields_dyn fixed_bits] in *.
  - now rewrite Z.add_0_r.
  - apply orb_false_iff in D as (D1 & D2). destruct W as (We & Wn & Wr). apply IHa in Wr; auto.
    assert (0 <= bits) by (destruct e; cbn in *; try discriminate; try lia; pose proof (fixed_bits_nonneg fs); lia).
    rewrite if_pos by lia. unfold next_from in Wr. destruct (Z.eqb_spec bits (-1)); [lia|]. now rewrite Z.add_assoc.
  - apply orb_false_iff in D as (D1 & D2). destruct W as (We & Wl & Wn & Wr). apply IHa in Wr; auto.
    destruct (arr_eb e len bits from We Wl Wn D1) as (eb & -> & _ & _ & Heb & _).
    rewrite if_pos by lia. unfold next_from in Wr. destruct (Z.eqb_spec (Z.of_nat len * eb) (-1)); [lia|]. now rewrite Z.add_assoc.
  - destruct W as (Hn & Wr). apply IHa in Wr; auto. rewrite if_pos by lia. now rewrite Z.add_assoc.
  - destruct W as (Wb & Hn & Wr). apply IHa in Wr; auto. rewrite if_pos by lia. now rewrite Z.add_assoc.
  - auto.
Qed.

Lemma rdec_static_off ul :
  (forall e lp n big from off data v o, elem_dyn e = false ->
     rdec_elem ul lp e n big from off data = Ok (v, o) -> o = off) /\
  (forall fs from off data vs o, fields_dyn fs = false -> rdec_fields ul fs from off data = Ok (vs, o) -> o = off).
Proof.
  apply schema_ind.
  - intros. cbn [rdec_elem] in *. injection H0. auto.
  - intros. cbn [rdec_elem] in *. injection H0. auto.
  - discriminate || (intros; discriminate).
  - intros; discriminate.
  - intros fs IH lp n big from off data v o D E. cbn [rdec_elem elem_dyn] in *. rewrite D in E.
    destruct (dec_nested _ _ _ _) as [[vs sz]| |]; cbn [bind] in E; try discriminate. injection E. auto.
  - intros. cbn [rdec_fields] in *. injection H0. auto.
  - intros e IHe n big r IHr from off data vs o D E. cbn [rdec_fields fields_dyn] in *. apply orb_false_iff in D as (D1 & D2).
    destruct (rdec_elem _ _ _ _ _ _ _ _) as [[v o1]| |] eqn:E1; cbn [bind] in E; try discriminate.
    destruct (rdec_fields _ _ _ _ _) as [[vs1 o2]| |] eqn:E2; cbn [bind] in E; try discriminate.
    injection E as <- <-. apply IHe in E1; auto. subst. eauto.
  - intros e IHe len n big r IHr from off data vs o D E. cbn [rdec_fields fields_dyn] in *. apply orb_false_iff in D as (D1 & D2).
    destruct (iter_dec _ _ _ _) as [[v o1]| |] eqn:E1; cbn [bind] in E; try discriminate.
    destruct (rdec_fields _ _ _ _ _) as [[vs1 o2]| |] eqn:E2; cbn [bind] in E; try discriminate.
    injection E as <- <-. apply IHr in E2; auto. subst.
    rewrite D1 in E1.
    assert (Hk : forall k i off v o1, iter_dec (fun i o => rdec_elem ul (ul len) e (n / Z.of_nat len) big (from + i * (n / Z.of_nat len)) o data) k i off = Ok (v, o1) -> o1 = off).
    { clear -IHe D1. induction k; intros i off v o1 E; cbn [iter_dec] in E; [injection E; auto|].
      destruct (rdec_elem _ _ _ _ _ _ _ _) as [[v1 o2]| |] eqn:E1; cbn [bind] in E; try discriminate.
      destruct (iter_dec _ _ _ _) as [[v2 o3]| |] eqn:E2; cbn [bind] in E; try discriminate. injection E as <- <-.
      apply IHe in E1; auto. subst. eauto. }
    eapply Hk; exact E1.
  - intros. cbn [rdec_fields fields_dyn] in *. eauto.
  - intros b n big z r IHr from off data vs o D E. cbn [rdec_fields fields_dyn] in *. destruct (_ =? z); [|discriminate]. eauto.
  - intros. cbn [rdec_fields fields_dyn] in *. eauto.
Qed.

(** A successful read went through every field. *)
Lemma rdec_fapp ul a : forall b from data vs o, fields_dyn a = false -> wf_fields (fapp a b) from ->
  rdec_fields ul (fapp a b) from 0 data = Ok (vs, o) ->
  exists vs', rdec_fields ul b (from + fixed_bits a) 0 data = Ok (vs', o).
Proof.
  induction a; intros b0 from data vs o D W E; cbn [fapp wf_fields fields_dyn fixed_bits rdec_fields] in *.
  - rewrite Z.add_0_r. eauto.
  - apply orb_false_iff in D as (D1 & D2). destruct W as (We & Wn & Wr).
    destruct (rdec_elem _ _ _ _ _ _ _ _) as [[v o1]| |] eqn:E1; cbn [bind] in E; try discriminate.
    destruct (rdec_fields _ _ _ _ _) as [[vs1 o2]| |] eqn:E2; cbn [bind] in E; try discriminate.
    injection E as <- <-. apply (proj1 (rdec_static_off ul)) in E1; auto. subst.
    assert (0 <= bits) by (destruct e; cbn in *; try discriminate; try lia; pose proof (fixed_bits_nonneg fs); lia).
    apply IHa in E2; auto. rewrite if_pos by lia. unfold next_from in E2. destruct (Z.eqb_spec bits (-1)); [lia|].
    now rewrite Z.add_assoc.
  - apply orb_false_iff in D as (D1 & D2). destruct W as (We & Wl & Wn & Wr).
    pose proof (proj2 (rdec_static_off ul) (FArr e len bits big FNil) from 0 data) as Hz. cbn [rdec_fields fields_dyn] in Hz. rewrite D1 in Hz.
    destruct (iter_dec _ _ _ _) as [[v o1]| |] eqn:E1; cbn [bind] in E; try discriminate.
    destruct (rdec_fields _ _ _ _ _) as [[vs1 o2]| |] eqn:E2; cbn [bind] in E; try discriminate.
    injection E as <- <-. rewrite D1 in E1. rewrite E1 in Hz. cbn [bind] in Hz. specialize (Hz _ _ eq_refl eq_refl). subst o1.
    destruct (arr_eb e len bits from We Wl Wn D1) as (eb & -> & _ & _ & Heb & _).
    apply IHa in E2; auto. rewrite if_pos by lia. unfold next_from in E2. destruct (Z.eqb_spec (Z.of_nat len * eb) (-1)); [lia|].
    now rewrite Z.add_assoc.
  - destruct W as (Hn & Wr). unfold next_from in E. destruct (Z.eqb_spec bits (-1)); [lia|]. apply IHa in E; auto.
    rewrite if_pos by lia. now rewrite Z.add_assoc.
  - destruct W as (Wb & Hn & Wr). destruct (_ =? lit); [|discriminate]. unfold next_from in E. destruct (Z.eqb_spec bits (-1)); [lia|].
    apply IHa in E; auto. rewrite if_pos by lia. now rewrite Z.add_assoc.
  - eauto.
Qed.
