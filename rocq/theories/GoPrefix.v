(** DecodeSize on prefixes; exactness of accepted messages. *)
From Coq Require Import ZArith List Lia Bool.
From Verif Require Import Base BaseProofs Schema SpecWire GoModel GoBitProofs GoEncProofs GoEncMain GoDecProofs GoRound.
Import ListNotations.
Open Scope Z_scope.

Definition pref (m : nat) (o bound : Z) (d : dstep) : Prop :=
  match d with
  | DOff o' => o' = o
  | DRet x => exists r, x = - r /\ Z.of_nat m < r <= bound
  end.

Lemma skipn_firstn_comm' {A} (l : list A) p m : skipn p (firstn m l) = firstn (m - p) (skipn p l).
Proof.
  revert p m; induction l; intros p m.
  - now rewrite !firstn_nil, !skipn_nil, firstn_nil.
  - destruct m; [rewrite !skipn_nil; reflexivity|]. destruct p; [cbn; reflexivity|]. cbn [firstn skipn Nat.sub]. apply IHl.
Qed.

Lemma str_scan_firstn rest : forall l k r, str_scan rest l = inl r ->
  match str_scan (firstn k rest) l with
  | inl r' => r' = r
  | inr r' => r' = l + Z.of_nat k /\ l + Z.of_nat k <= r
  end.
Proof.
  induction rest as [|b rest IH]; intros l k r E; cbn [str_scan] in E; [discriminate|].
  pose proof (str_scan_spec rest (l + 1)) as Sp.
  destruct k; cbn [firstn str_scan].
  - destruct (Z.eqb_spec b 0); [inversion E; lia|].
    rewrite E in Sp. destruct Sp as (bs & t & _ & _ & ->). pose proof (zlen_nonneg bs). lia.
  - destruct (Z.eqb_spec b 0); [congruence|].
    specialize (IH (l + 1) k r E). destruct (str_scan (firstn k rest) (l + 1)); lia.
Qed.

Lemma vi_scan_firstn rest : forall shift acc cnt k v c, 0 <= cnt ->
  vi_scan rest shift acc cnt = VDone v c ->
  match vi_scan (firstn k rest) shift acc cnt with
  | VDone v' c' => v' = v /\ c' = c
  | VMore c' => c' = cnt + Z.of_nat k /\ c' < c
  | VBad => False
  end.
Proof.
  induction rest as [|b rest IH]; intros shift acc cnt k v c Hc E; cbn [vi_scan] in E; [discriminate|].
  assert (Hlt : cnt < c).
  { clear IH k. revert shift acc cnt b Hc E. induction rest; intros shift acc cnt b Hc E; destruct (Z.land b 128 =? 0), (63 <=? shift); try discriminate; try (injection E as <- <-; lia).
    cbn [vi_scan] in E. apply IHrest in E; lia. }
  destruct k; cbn [firstn vi_scan].
  - lia.
  - destruct (Z.land b 128 =? 0), (63 <=? shift); try discriminate.
    + injection E as <- <-. auto.
    + specialize (IH _ _ (cnt + 1) k v c ltac:(lia) E).
      destruct (vi_scan (firstn k rest) _ _ (cnt + 1)); auto. lia.
Qed.

Lemma firstn_minus_full {A} (l : list A) (k : nat) : firstn k l = firstn (min k (length l)) l.
Proof.
  revert k; induction l; intros k; [now rewrite !firstn_nil|]. destruct k; cbn; [reflexivity|]. f_equal; auto.
Qed.

Lemma dsize_string_pref D fb off o m : 0 <= fb -> 0 <= off ->
  dsize_string D fb off = DOff o -> pref m o (o + fb) (dsize_string (firstn m D) fb off).
Proof.
  intros Hf Ho E. unfold dsize_string in *. rewrite skipn_firstn_comm'.
  destruct (str_scan (skipn _ D) 0) as [r|] eqn:Es; [|discriminate]. injection E as <-.
  pose proof (str_scan_firstn _ 0 (m - Z.to_nat (off + fb)) r Es) as H.
  destruct (str_scan (firstn _ _) 0); cbn [pref].
  - lia.
  - eexists. split; [reflexivity|]. lia.
Qed.

Lemma dsize_bytes_pref D fb off o m : 0 <= fb -> 0 <= off -> bytes_ok D -> zlen D <= max_int ->
  dsize_bytes D fb off = DOff o -> pref m o (o + fb) (dsize_bytes (firstn m D) fb off).
Proof.
  intros Hf Ho Hb Hm E. unfold dsize_bytes in *. rewrite skipn_firstn_comm'.
  destruct (vi_scan (skipn _ D) 0 0 0) as [v c| |] eqn:Ev; try discriminate.
  pose proof (vi_scan_firstn _ 0 0 0 (m - Z.to_nat (off + fb)) v c ltac:(lia) Ev) as H.
  apply vi_scan_done in Ev; try lia; [|apply bytes_ok_skipn; auto]. destruct Ev as (Hc & Hv & _).
  destruct (max_int <? v) eqn:Emax; [discriminate|].
  destruct (Z.ltb_spec (zlen D - (off + c + fb)) v).
  { destruct (max_int - _ <? v); discriminate. }
  injection E as <-.
  destruct (vi_scan (firstn _ _) 0 0 0) as [v' c'|c'|]; [|cbn [pref]|contradiction].
  - destruct H as (-> & ->). rewrite Emax. rewrite zlen_firstn.
    destruct (Z.ltb_spec (Z.min (Z.of_nat m) (zlen D) - (off + c + fb)) v).
    + destruct (Z.ltb_spec (max_int - (off + c + fb)) v); [lia|]. cbn [pref]. eexists. split; [reflexivity|]. lia.
    + cbn [pref]. reflexivity.
  - eexists. split; [reflexivity|]. lia.
Qed.

Lemma iter_dsize_pref f g (m : nat) (fb : Z) n : forall off o,
  0 <= off ->
  (forall o1 o2, 0 <= o1 -> f o1 = DOff o2 -> o1 <= o2 /\ pref m o2 (o2 + fb) (g o1)) ->
  iter_dsize f n off = DOff o -> off <= o /\ pref m o (o + fb) (iter_dsize g n off).
Proof.
  induction n; intros off o Ho Hf E; cbn [iter_dsize] in *.
  - injection E as <-. cbn. auto with zarith.
  - destruct (f off) as [o1|] eqn:E1; [|discriminate].
    destruct (Hf off o1 Ho E1) as (H1 & H2).
    destruct (IHn o1 o ltac:(lia) Hf E) as (H3 & H4). split; [lia|].
    destruct (g off) as [o1'|x]; cbn [pref] in H2.
    + subst. auto.
    + destruct H2 as (r & -> & Hr). cbn [pref]. exists r. split; auto. lia.
Qed.

Lemma dsize_pref m :
  (forall e fb off D o, wf_elem e -> nd_elem e -> 0 <= fb -> 0 <= off -> bytes_ok D -> zlen D <= max_int ->
     elem_dyn e = true -> dsize_elem e fb off D = DOff o -> pref m o (o + fb) (dsize_elem e fb off (firstn m D))) /\
  (forall fs from off D o, wf_fields fs from -> nd_fields fs -> 0 <= from -> 0 <= off -> bytes_ok D -> zlen D <= max_int ->
     dsize_fields fs from off D = DOff o ->
     pref m o (o + (from + fixed_bits fs) / 8) (dsize_fields fs from off (firstn m D))).
Proof.
  revert m. 
  assert (HX : (forall e, forall m fb off D o, wf_elem e -> nd_elem e -> 0 <= fb -> 0 <= off -> bytes_ok D -> zlen D <= max_int ->
     elem_dyn e = true -> dsize_elem e fb off D = DOff o -> pref m o (o + fb) (dsize_elem e fb off (firstn m D))) /\
  (forall fs, forall m from off D o, wf_fields fs from -> nd_fields fs -> 0 <= from -> 0 <= off -> bytes_ok D -> zlen D <= max_int ->
     dsize_fields fs from off D = DOff o ->
     pref m o (o + (from + fixed_bits fs) / 8) (dsize_fields fs from off (firstn m D)))).
  2:{ intros m. split; intros; [eapply (proj1 HX)|eapply (proj2 HX)]; eauto. }
  apply schema_ind.
  - discriminate || (intros; discriminate).
  - intros; discriminate.
  - intros m fb off D o _ _ Hf Ho Hb _ _ E. apply dsize_string_pref; auto.
  - intros m fb off D o _ _ Hf Ho Hb Hm _ E. apply dsize_bytes_pref; auto.
  - intros fs IH m fb off D o We Nd Hf Ho Hb Hm Dy E. cbn in We, Nd. destruct We as (We & H8).
    cbn [elem_dyn] in Dy. cbn [dsize_elem] in *. rewrite Dy in *.
    set (subD := if off + fb <? zlen D then _ else _) in E.
    assert (HbD : bytes_ok subD).
    { unfold subD. destruct (off + fb <? zlen D); [apply bytes_ok_skipn; auto|constructor]. }
    pose proof (proj2 dsize_progress fs 0 0 subD We Nd ltac:(lia) ltac:(lia) HbD) as Hp.
    pose proof (fixed_bits_nonneg fs).
    destruct (dsize_fields fs 0 0 subD) as [o1|x] eqn:E1.
    2:{ destruct (Z.ltb_spec x 0); [discriminate|lia]. }
    destruct Hp as (Hp1 & Hp2). specialize (Hp2 Dy).
    destruct (Z.ltb_spec (zlen subD) (o1 + fixed_bits fs / 8)).
    { destruct (Z.ltb_spec (- (o1 + fixed_bits fs / 8)) 0); [discriminate|lia]. }
    destruct (Z.ltb_spec (o1 + fixed_bits fs / 8) 0); [lia|]. injection E as <-.
    assert (Hlt : off + fb < zlen D).
    { unfold subD in *. destruct (Z.ltb_spec (off + fb) (zlen D)); auto. unfold zlen in *; cbn in *; lia. }
    assert (EsD : subD = skipn (Z.to_nat (off + fb)) D).
    { unfold subD. destruct (Z.ltb_spec (off + fb) (zlen D)); [auto|lia]. }
    set (subP := if off + fb <? zlen (firstn m D) then _ else _).
    assert (EsP : subP = firstn (m - Z.to_nat (off + fb)) subD).
    { unfold subP. rewrite zlen_firstn. destruct (Z.ltb_spec (off + fb) (Z.min (Z.of_nat m) (zlen D))).
      - rewrite skipn_firstn_comm', EsD. reflexivity.
      - replace (m - Z.to_nat (off + fb))%nat with 0%nat by lia. reflexivity. }
    rewrite EsP.
    assert (HzD : zlen subD <= max_int).
    { rewrite EsD, zlen_skipn. lia. }
    specialize (IH (m - Z.to_nat (off + fb))%nat 0 0 subD o1 We Nd ltac:(lia) ltac:(lia) HbD HzD E1).
    destruct (dsize_fields fs 0 0 (firstn _ subD)) as [o2|x]; cbn [pref] in IH.
    + subst o2. rewrite zlen_firstn.
      destruct (Z.ltb_spec (Z.min (Z.of_nat (m - Z.to_nat (off + fb))) (zlen subD)) (o1 + fixed_bits fs / 8)).
      * destruct (Z.ltb_spec (- (o1 + fixed_bits fs / 8)) 0); [|lia]. cbn [pref].
        exists (off + fb + (o1 + fixed_bits fs / 8)). split; lia.
      * destruct (Z.ltb_spec (o1 + fixed_bits fs / 8) 0); [lia|]. cbn [pref]. lia.
    + destruct IH as (r & -> & Hr). destruct (Z.ltb_spec (- r) 0); [|lia]. cbn [pref].
      exists (off + fb + r). split; lia.
  - intros m from off D o _ _ _ Ho _ _ E. cbn in *. congruence.
  - intros e IHe n big r IHr m from off D o Hwf Nd Hf Ho Hb Hm E.
    cbn [wf_fields] in Hwf. destruct Hwf as (We & Wn & Wr). cbn in Nd. destruct Nd as (N1 & N2 & N3).
    cbn [dsize_fields fixed_bits] in *.
    pose proof (one_n e n from We Wn) as Hn. pose proof (fixed_bits_nonneg r).
    assert (Hnf : 0 <= next_from from n) by (unfold next_from; destruct (Z.eqb_spec n (-1)); lia).
    assert (Hfix : next_from from n + fixed_bits r = from + ((if 0 <? n then n else 0) + fixed_bits r)).
    { unfold next_from. destruct (Z.eqb_spec n (-1)), (Z.ltb_spec 0 n); lia. }
    rewrite <- Hfix.
    destruct (if n <? 0 then dsize_elem e (from / 8) off D else DOff off) as [o1|] eqn:E1; [|discriminate].
    assert (Hs : off <= o1 /\ pref m o1 (o1 + from / 8) (if n <? 0 then dsize_elem e (from / 8) off (firstn m D) else DOff off)).
    { destruct (Z.ltb_spec n 0).
      - pose proof (proj1 dsize_progress e (from / 8) off D We N2 ltac:(lia) Ho Hb) as Hp. rewrite E1 in Hp.
        split; [lia|]. apply IHe; auto; [lia|]. destruct e; cbn in *; try discriminate; try lia; auto;
        pose proof (fixed_bits_nonneg fs); lia.
      - injection E1 as <-. cbn. auto with zarith. }
    destruct Hs as (Hs1 & Hs2).
    pose proof (proj2 dsize_progress r (next_from from n) o1 D Wr N3 Hnf ltac:(lia) Hb) as Hp. rewrite E in Hp.
    destruct (if n <? 0 then dsize_elem e (from / 8) off (firstn m D) else DOff off) as [o1'|x]; cbn [pref] in Hs2.
    + subst o1'. apply IHr; auto; lia.
    + destruct Hs2 as (q & -> & Hq). cbn [pref]. exists q. split; auto.
      assert (from <= next_from from n) by (unfold next_from; destruct (Z.eqb_spec n (-1)); lia). lia.
  - intros e IHe len n big r IHr m from off D o Hwf Nd Hf Ho Hb Hm E.
    cbn [wf_fields] in Hwf. destruct Hwf as (We & Wl & Wn & Wr). fold (arr_ok e len n from) in Wn.
    cbn in Nd. destruct Nd as (N2 & N3).
    cbn [dsize_fields fixed_bits] in *.
    pose proof (arr_n e len n from We Wn) as Hn. pose proof (fixed_bits_nonneg r).
    assert (Hnf : 0 <= next_from from n) by (unfold next_from; destruct (Z.eqb_spec n (-1)); lia).
    assert (Hfix : next_from from n + fixed_bits r = from + ((if 0 <? n then n else 0) + fixed_bits r)).
    { unfold next_from. destruct (Z.eqb_spec n (-1)), (Z.ltb_spec 0 n); lia. }
    rewrite <- Hfix.
    destruct (if n <? 0 then iter_dsize (fun o => dsize_elem e (from / 8) o D) len off else DOff off) as [o1|] eqn:E1; [|discriminate].
    assert (Hs : off <= o1 /\ pref m o1 (o1 + from / 8) (if n <? 0 then iter_dsize (fun o => dsize_elem e (from / 8) o (firstn m D)) len off else DOff off)).
    { destruct (Z.ltb_spec n 0).
      - eapply iter_dsize_pref; [lia| |exact E1].
        intros o2 o3 Ho2 E2.
        pose proof (proj1 dsize_progress e (from / 8) o2 D We N2 ltac:(lia) Ho2 Hb) as Hp. rewrite E2 in Hp.
        split; [lia|]. apply IHe; auto; [lia|].
        destruct (elem_dyn e) eqn:Dy; auto. exfalso.
        destruct (arr_eb e len n from We Wl Wn Dy) as (eb & -> & _ & _ & Heb & _). lia.
      - injection E1 as <-. cbn. auto with zarith. }
    destruct Hs as (Hs1 & Hs2).
    pose proof (proj2 dsize_progress r (next_from from n) o1 D Wr N3 Hnf ltac:(lia) Hb) as Hp. rewrite E in Hp.
    destruct (if n <? 0 then iter_dsize (fun o => dsize_elem e (from / 8) o (firstn m D)) len off else DOff off) as [o1'|x]; cbn [pref] in Hs2.
    + subst o1'. apply IHr; auto; lia.
    + destruct Hs2 as (q & -> & Hq). cbn [pref]. exists q. split; auto.
      assert (from <= next_from from n) by (unfold next_from; destruct (Z.eqb_spec n (-1)); lia). lia.
  - intros n r IHr m from off D o Hwf Nd Hf Ho Hb Hm E.
    cbn [wf_fields nd_fields dsize_fields fixed_bits] in *. destruct Hwf as (Hn & Wr).
    unfold next_from in *. destruct (Z.eqb_spec n (-1)); [lia|]. rewrite if_pos by lia.
    rewrite Z.add_assoc. apply IHr; auto; lia.
  - intros b n big z r IHr m from off D o Hwf Nd Hf Ho Hb Hm E.
    cbn [wf_fields nd_fields dsize_fields fixed_bits] in *. destruct Hwf as (Wb & Hn & Wr).
    unfold next_from in *. destruct (Z.eqb_spec n (-1)); [lia|]. rewrite if_pos by lia.
    rewrite Z.add_assoc. apply IHr; auto; lia.
  - intros r IHr m from off D o Hwf Nd Hf Ho Hb Hm E.
    cbn [wf_fields nd_fields dsize_fields fixed_bits] in *. auto.
Qed.

(** DecodeSize of a prefix. *)
Lemma decode_size_prefix fs D N m : wf_struct fs -> nd_fields fs -> bytes_ok D -> zlen D <= max_int ->
  decode_size fs D = N -> 0 <= N ->
  if Z.of_nat m <? N
  then exists r, decode_size fs (firstn m D) = - r /\ Z.of_nat m < r <= N
  else decode_size fs (firstn m D) = N.
Proof.
  intros (Hwf & H8) Nd Hb Hm E HN. unfold decode_size in *.
  pose proof (proj2 dsize_progress fs 0 0 D Hwf Nd ltac:(lia) ltac:(lia) Hb) as Hp.
  pose proof (fixed_bits_nonneg fs).
  destruct (dsize_fields fs 0 0 D) as [o|x] eqn:E1; [|lia].
  destruct (Z.ltb_spec (zlen D) (o + fixed_bits fs / 8)).
  { destruct (Z.ltb_spec (Z.of_nat m) N); [lia|]. 
    assert (o + fixed_bits fs / 8 = 0) by lia. pose proof (zlen_nonneg D). lia. }
  pose proof (proj2 (dsize_pref m) fs 0 0 D o Hwf Nd ltac:(lia) ltac:(lia) Hb Hm E1) as P.
  destruct (dsize_fields fs 0 0 (firstn m D)) as [o'|x]; cbn [pref] in P.
  - subst o'. rewrite zlen_firstn. destruct (Z.ltb_spec (Z.of_nat m) N).
    + destruct (Z.ltb_spec (Z.min (Z.of_nat m) (zlen D)) (o + fixed_bits fs / 8)); [|lia].
      exists N. split; lia.
    + destruct (Z.ltb_spec (Z.min (Z.of_nat m) (zlen D)) (o + fixed_bits fs / 8)); lia.
  - destruct P as (r & -> & Hr). destruct (Z.ltb_spec (Z.of_nat m) N).
    + exists r. split; auto. replace (0 + fixed_bits fs) with (fixed_bits fs) in Hr by lia. lia.
    + replace (0 + fixed_bits fs) with (fixed_bits fs) in Hr by lia. lia.
Qed.

(** ** Exactness: what Decode accepts is the image of what it returns *)
Lemma field_bits_congr n big z z' : z mod 2 ^ n = z' mod 2 ^ n -> field_bits n big z = field_bits n big z'.
Proof.
  intros E. unfold field_bits. apply map_ext_in. intros k Hk. apply in_seq in Hk.
  assert (Hv : 0 <= value_bit n big (Z.of_nat k) < n) by (apply value_bit_range; lia).
  assert (T : Z.testbit (z mod 2 ^ n) (value_bit n big (Z.of_nat k)) = Z.testbit (z' mod 2 ^ n) (value_bit n big (Z.of_nat k))) by (rewrite E; auto).
  rewrite !testbit_mod in T by lia.
  destruct (Z.ltb_spec (value_bit n big (Z.of_nat k)) n); [auto|lia].
Qed.

Lemma matches_read data pos n big : 0 <= n -> 0 <= pos -> pos + n <= 8 * zlen data ->
  matches data pos (map Some (field_bits n big (read_value data pos n big))).
Proof.
  intros Hn Hp Hl. split; [rewrite zlen_map, zlen_field_bits; lia|].
  intros k b E. pose proof (onth_Some _ _ _ E) as R. rewrite zlen_map, zlen_field_bits in R by lia.
  rewrite map_Some_field_bits, onth_img_of in E.
  destruct (Z.leb_spec 0 k), (Z.ltb_spec k (Z.of_nat (Z.to_nat n))); try lia. cbn [andb] in E.
  injection E as <-.
  pose proof (value_bit_range n big k ltac:(lia)).
  unfold read_value. rewrite of_bits_testbit by lia.
  destruct (Z.ltb_spec (value_bit n big k) (Z.of_nat (Z.to_nat n))); [|lia].
  rewrite wire_value by lia. reflexivity.
Qed.

Lemma matches_none data pos n : 0 <= pos -> pos + Z.of_nat n <= 8 * zlen data -> matches data pos (repeat None n).
Proof.
  intros Hp Hl. split; [rewrite zlen_repeat; lia|]. intros k b E. pose proof (onth_Some _ _ _ E) as R.
  rewrite zlen_repeat in R. rewrite onth_repeat in E by lia. discriminate.
Qed.

Lemma matches_bytes data p l t : 0 <= p -> skipn (Z.to_nat p) data = l ++ t -> p + zlen l <= zlen data ->
  matches data (8 * p) (raw_bytes l).
Proof.
  intros Hp E L. split; [rewrite zlen_raw_bytes; lia|].
  intros k b Ek. pose proof (onth_Some _ _ _ Ek) as R. rewrite zlen_raw_bytes in R.
  rewrite onth_raw_bytes in Ek by lia. injection Ek as <-.
  replace (8 * p + k) with (8 * Z.of_nat (Z.to_nat p) + k) by lia.
  rewrite <- bitat_skipn by lia. rewrite E, bitat_app by lia.
  destruct (Z.ltb_spec k (8 * zlen l)); [auto|lia].
Qed.

Lemma num_of_mod lp e n p : is_fixed_scalar e = true -> exact_elem e n -> 1 <= n -> 0 <= p < 2 ^ n ->
  num_of lp e n p mod 2 ^ n = p.
Proof.
  intros Sc Ex Hn Hp. destruct e; cbn in Sc; try discriminate; [|cbn; apply Z.mod_small; lia].
  destruct b; cbn in *; try (apply Z.mod_small; lia).
  - subst n. change (2 ^ 1) with 2 in *. destruct lp; [|apply Z.mod_small; lia].
    destruct (Z.eqb_spec p 0); [subst; reflexivity|]. replace p with 1 by lia. reflexivity.
  - rewrite sext_mod by lia. apply Z.mod_small; lia.
Qed.

Lemma num_of_fits lp e n p : is_fixed_scalar e = true -> exact_elem e n -> 1 <= n -> 0 <= p < 2 ^ n ->
  fits_num e n (num_of lp e n p).
Proof.
  intros Sc Ex Hn Hp. destruct e; cbn in Sc; try discriminate; [|cbn; auto].
  destruct b; cbn in *; auto.
  - subst n. change (2 ^ 1) with 2 in *. destruct lp; [destruct (p =? 0)|]; lia.
  - apply sext_range; lia.
Qed.

Lemma fits_storable :
  (forall e n v, wf_elem e -> (is_fixed_scalar e = true -> 1 <= n <= elem_bits e) -> fits_elem e n v -> storable_elem e v) /\
  (forall fs from vs, wf_fields fs from -> fits_fields fs vs -> storable_fields fs vs).
Proof.
  apply schema_ind.
  - intros b n v We Hn Fv. destruct v; cbn in Fv |- *; try contradiction. specialize (Hn eq_refl). cbn in Hn.
    destruct b; cbn in *; auto.
    + pose proof (Z.pow_le_mono_r 2 n w ltac:(lia) ltac:(lia)). lia.
    + pose proof (Z.pow_le_mono_r 2 (n - 1) (w - 1) ltac:(lia) ltac:(lia)). lia.
    + pose proof (Z.pow_le_mono_r 2 n w ltac:(lia) ltac:(lia)). lia.
  - intros b n v We Hn Fv. destruct v; cbn in Fv |- *; try contradiction. specialize (Hn eq_refl). cbn [elem_bits] in Hn. cbn in We.
    pose proof (Z.pow_le_mono_r 2 n 64 ltac:(lia) ltac:(lia)). change (2 ^ 64) with 18446744073709551616 in *. lia.
  - intros n v We Hn Fv. auto.
  - intros n v We Hn Fv. auto.
  - intros fs IH n v We Hn Fv. destruct v; cbn in Fv |- *; try contradiction. cbn in We. destruct We. eapply IH; eauto.
  - auto.
  - intros e IHe n big r IHr from vs Hwf Fv. cbn [wf_fields] in Hwf. destruct Hwf as (We & Wn & Wr).
    destruct vs as [|v vs]; cbn in Fv |- *; [contradiction|]. destruct Fv as (F1 & F2).
    split; [|eapply IHr; eauto]. eapply IHe; eauto. intros S; rewrite S in Wn; auto.
  - intros e IHe len n big r IHr from vs Hwf Fv. cbn [wf_fields] in Hwf. destruct Hwf as (We & Wl & Wn & Wr).
    destruct vs as [|v vs]; cbn in Fv |- *; [contradiction|]. destruct v; try contradiction. destruct Fv as (F0 & F1 & F2).
    split; auto. split; [|eapply IHr; eauto]. eapply Forall_impl; [|exact F1]. intros v Hv.
    eapply IHe; eauto. intros S. rewrite S in Wn. destruct Wn as (eb & H1 & ->). rewrite div_mul by lia. auto.
  - intros n r IHr from vs Hwf Fv. cbn [wf_fields] in Hwf. destruct Hwf. cbn in *. eapply IHr; eauto.
  - intros b n big z r IHr from vs Hwf Fv. cbn [wf_fields] in Hwf. destruct Hwf as (_ & _ & Hwf). cbn in *. eapply IHr; eauto.
  - intros r IHr from vs Hwf Fv. cbn [wf_fields] in Hwf. cbn in *. eapply IHr; eauto.
Qed.

Lemma matches_nil data pos : pos <= 8 * zlen data -> matches data pos [].
Proof.
  intros H. split; [change (zlen (@nil (option bool))) with 0; lia|]. intros k b Ek. apply onth_Some in Ek. unfold zlen in Ek; cbn in Ek; lia.
Qed.

Lemma iter_dec_inv (f : Z -> Z -> res (val * Z)) (d : Z -> dstep) (Q : val -> Prop) (img : val -> list (option bool))
  (sz : val -> Z) (pos : Z -> Z -> Z) (K : Z -> Prop) data (N : Z) :
  (forall i o v o' od, 0 <= i < N -> K o -> d o = DOff od -> f i o = Ok (v, o') ->
     o' = o + sz v /\ od = o' /\ Q v /\ matches data (pos i o) (img v)) ->
  (forall i o v od, 0 <= i < N -> K o -> d o = DOff od -> od = o + sz v -> Q v ->
     pos (i + 1) (o + sz v) = pos i o + zlen (img v) /\ K (o + sz v) /\ 0 <= pos i o) ->
  forall n i o vs o' od, 0 <= i -> i + Z.of_nat n <= N -> K o -> 0 <= pos i o <= 8 * zlen data ->
    iter_dsize d n o = DOff od -> iter_dec f n i o = Ok (vs, o') ->
    length vs = n /\ Forall Q vs /\ o' = o + fold_right (fun v a => sz v + a) 0 vs /\ o' = od /\
    matches data (pos i o) (flat_map img vs).
Proof.
  intros Hf Hp. induction n; intros i o vs o' od Hi HN HK Hpos Ed E; cbn [iter_dec iter_dsize] in *.
  - injection E as <- <-. injection Ed as <-. cbn [length fold_right flat_map]. split; auto. split; auto. split; [lia|]. split; auto. apply matches_nil. lia.
  - destruct (d o) as [o1|] eqn:E1; [|discriminate].
    destruct (f i o) as [[v o2]| |] eqn:E2; cbn [bind] in E; try discriminate.
    destruct (iter_dec f n (i + 1) o2) as [[vs' o3]| |] eqn:E3; cbn [bind] in E; try discriminate.
    injection E as <- <-.
    destruct (Hf i o v o2 o1 ltac:(lia) HK E1 E2) as (-> & -> & Qv & Mv).
    destruct (Hp i o v _ ltac:(lia) HK E1 eq_refl Qv) as (P1 & P2 & P3).
    destruct Mv as (Lv & Mv).
    destruct (IHn (i + 1) (o + sz v) vs' o3 od ltac:(lia) ltac:(lia) P2) as (H1 & H2 & H3 & H3' & H4); auto.
    { pose proof (zlen_nonneg (img v)). lia. }
    cbn [length fold_right flat_map]. split; [lia|]. split; [constructor; auto|]. split; [lia|]. split; [auto|].
    apply matches_app; auto. split; [split; auto|]. rewrite <- P1. auto.
Qed.

Definition ExE (e : elem) : Prop := forall ul lp n big from off data o v o',
  wf_elem e -> nd_elem e -> consts_ok_elem e -> exact_elem e n ->
  (if is_fixed_scalar e then 1 <= n else from mod 8 = 0) -> 0 <= from -> 0 <= off -> bytes_ok data ->
  (if elem_dyn e then dsize_elem e (from / 8) off data = DOff o
   else o = off /\ 8 * off + from + slot e n <= 8 * zlen data) ->
  rdec_elem ul lp e n big from off data = Ok (v, o') ->
  fits_elem e n v /\ o' = off + esize_elem e v /\ o' = o /\ matches data (8 * off + from) (image_elem e n big v).

Definition ExF (fs : fields) : Prop := forall ul from off data o vs o',
  wf_fields fs from -> nd_fields fs -> consts_ok fs -> exact_fields fs -> 0 <= from -> 0 <= off ->
  bytes_ok data ->
  dsize_fields fs from off data = DOff o -> 8 * o + from + fixed_bits fs <= 8 * zlen data ->
  rdec_fields ul fs from off data = Ok (vs, o') ->
  fits_fields fs vs /\ o' = off + esize_fields fs vs /\ o' = o /\ matches data (8 * off + from) (image_fields fs vs).


Lemma exact_main : (forall e, ExE e) /\ (forall fs, ExF fs).
Proof.
  assert (Hscalar : forall e, is_fixed_scalar e = true -> ExE e).
  { intros e Sc ul lp n big from off data o v o' We _ _ Ex Hn Hf Ho Hb Hds E. rewrite Sc in Hn.
    assert (Dy : elem_dyn e = false) by (destruct e; cbn in Sc; try discriminate; reflexivity).
    rewrite Dy in Hds. destruct Hds as (-> & Hl). unfold slot in Hl. rewrite Sc in Hl.
    assert (Hr : v = VNum (num_of lp e n (read_value data (8 * off + from) n big)) /\ o' = off).
    { destruct e; cbn in Sc; try discriminate; cbn [rdec_elem] in E; injection E as <- <-; auto. }
    destruct Hr as (-> & ->).
    pose proof (read_value_bound data (8 * off + from) n big ltac:(lia)) as Hv.
    assert (Hi : image_elem e n big (VNum (num_of lp e n (read_value data (8 * off + from) n big))) =
                 map Some (field_bits n big (read_value data (8 * off + from) n big))).
    { transitivity (map Some (field_bits n big (num_of lp e n (read_value data (8 * off + from) n big)))).
      - destruct e; cbn in Sc; try discriminate; reflexivity.
      - f_equal. apply field_bits_congr. rewrite num_of_mod by auto. symmetry. apply Z.mod_small; auto. }
    rewrite Hi. split; [|split; [|split]]; auto.
    - pose proof (num_of_fits lp e n _ Sc Ex Hn Hv). destruct e; cbn in Sc; try discriminate; cbn; auto.
    - destruct e; cbn in Sc; try discriminate; cbn; lia.
    - apply matches_read; lia. }
  apply schema_ind.
  - intros b. apply Hscalar. reflexivity.
  - intros b. apply Hscalar. reflexivity.
  - intros ul lp n big from off data o v o' _ _ _ _ Hm Hf Ho Hb Hds E.
    cbn [elem_dyn dsize_elem rdec_elem is_fixed_scalar] in *. unfold dsize_string, dec_string in *.
    pose proof (str_scan_spec (skipn (Z.to_nat (off + from / 8)) data) 0) as Sp.
    destruct (str_scan _ 0) as [l|]; [|discriminate]. injection Hds as <-. injection E as <- <-.
    destruct Sp as (bs & t & Es & Hn & ->). rewrite Z.add_0_l.
    assert (Ebs : firstn (Z.to_nat (zlen bs)) (skipn (Z.to_nat (off + from / 8)) data) = bs).
    { rewrite Es. replace (Z.to_nat (zlen bs)) with (length bs) by (unfold zlen; lia). apply firstn_app_len. }
    rewrite Ebs. cbn [fits_elem esize_elem image_elem].
    assert (Hbs : bytes_ok bs).
    { apply (bytes_ok_skipn (Z.to_nat (off + from / 8))) in Hb. rewrite Es in Hb. apply bytes_ok_app in Hb. tauto. }
    split; [auto|]. split; [lia|]. split; [auto|].
    replace (8 * off + from) with (8 * (off + from / 8)) by lia.
    apply matches_bytes with (t := t); [lia| |].
    + rewrite <- app_assoc. exact Es.
    + apply (f_equal zlen) in Es. rewrite zlen_skipn, zlen_app, zlen_cons in Es. rewrite zlen_app, zlen_one.
      pose proof (zlen_nonneg bs). pose proof (zlen_nonneg t). lia.
  - intros ul lp n big from off data o v o' _ _ _ Ex. cbn in Ex. contradiction.
  - intros fs IH ul lp n big from off data o v o' We Nd Co Ex Hm Hf Ho Hb Hds E.
    cbn in We, Nd, Co, Ex, Hm. destruct We as (We & H8).
    cbn [elem_dyn dsize_elem rdec_elem] in *. unfold dec_nested in E.
    destruct (Z.ltb_spec (off + from / 8) 0); [lia|].
    destruct (Z.ltb_spec (zlen data) (off + from / 8)); [discriminate|]. cbn [orb] in E.
    set (sub := skipn (Z.to_nat (off + from / 8)) data) in *.
    assert (Hbs : bytes_ok sub) by (apply bytes_ok_skipn; auto).
    pose proof (fixed_bits_nonneg fs).
    destruct (Z.ltb_spec (decode_size fs sub) 0) as [|Hd]; [discriminate|].
    destruct (rdec_fields ul fs 0 0 sub) as [[vs o1]| |] eqn:E1; cbn [bind] in E; try discriminate.
    injection E as <- <-.
    pose proof (proj2 dsize_progress fs 0 0 sub We Nd ltac:(lia) ltac:(lia) Hbs) as Hp.
    assert (Hod : exists od, dsize_fields fs 0 0 sub = DOff od /\ decode_size fs sub = od + fixed_bits fs / 8 /\ od + fixed_bits fs / 8 <= zlen sub).
    { unfold decode_size in *. destruct (dsize_fields fs 0 0 sub) as [od|]; [|lia]. exists od.
      destruct (Z.ltb_spec (zlen sub) (od + fixed_bits fs / 8)); [pose proof (zlen_nonneg sub); lia|auto]. }
    destruct Hod as (od & Eod & Eds & Hle).
    destruct (IH ul 0 0 sub od vs o1) as (F & Eo & Eo2 & M); auto; try lia.
    cbn [fits_elem esize_elem image_elem]. split; auto.
    rewrite Z.add_0_l in Eo. 
    assert (Mq : matches data (8 * off + from) (image_fields fs vs)).
    { destruct M as (Lm & Mm). unfold sub in Lm. rewrite zlen_skipn in Lm. split; [lia|].
      intros k b Ek. pose proof (onth_Some _ _ _ Ek). specialize (Mm k b Ek). unfold sub in Mm.
      replace (8 * 0 + 0 + k) with k in Mm by lia. rewrite bitat_skipn in Mm by lia.
      rewrite <- Mm. f_equal. lia. }
    destruct (fields_dyn fs) eqn:Dy.
    + split; [subst; lia|]. split; auto.
      destruct (Z.ltb_spec (off + from / 8) (zlen data)).
      * fold sub in Hds. rewrite Eod in Hds.
        destruct (Z.ltb_spec (zlen sub) (od + fixed_bits fs / 8)); [lia|].
        destruct (Z.ltb_spec (od + fixed_bits fs / 8) 0); [lia|]. injection Hds as <-. lia.
      * exfalso. rewrite Eod in Hp. destruct Hp as (_ & Hp). specialize (Hp eq_refl).
        unfold sub in Hle. rewrite zlen_skipn in Hle. lia.
    + destruct Hds as (-> & _). split; [lia|]. auto.
  - intros ul from off data o vs o' _ _ _ _ Hf Ho Hb E Hl E2. cbn [dsize_fields rdec_fields fits_fields esize_fields image_fields fixed_bits] in *. injection E as <-. injection E2 as <- <-.
    split; auto. split; [lia|]. split; auto. apply matches_nil. lia.
  - (* FOne *)
    intros e IHe n big r IHr ul from off data o vs o' Hwf Nd Co Ex Hf Ho Hb E Hl E2.
    cbn [wf_fields] in Hwf. destruct Hwf as (We & Wn & Wr). cbn in Nd. destruct Nd as (N1 & N2 & N3).
    cbn in Co, Ex. destruct Co as (C1 & C2). destruct Ex as (X1 & X2).
    cbn [dsize_fields fixed_bits rdec_fields] in *.
    pose proof (one_n e n from We Wn) as Hn. pose proof (fixed_bits_nonneg r).
    assert (Hnf : 0 <= next_from from n) by (unfold next_from; destruct (Z.eqb_spec n (-1)); lia).
    destruct (if n <? 0 then dsize_elem e (from / 8) off data else DOff off) as [o1|] eqn:E1; [|discriminate].
    assert (Ho1 : off <= o1).
    { destruct (Z.ltb_spec n 0).
      - pose proof (proj1 dsize_progress e (from / 8) off data We N2 ltac:(lia) Ho Hb) as Hp.
        rewrite E1 in Hp. lia.
      - injection E1 as <-. lia. }
    pose proof (proj2 dsize_progress r (next_from from n) o1 data Wr N3 Hnf ltac:(lia) Hb) as Hp.
    rewrite E in Hp. destruct Hp as (Hp & _).
    destruct (rdec_elem ul false e n big from off data) as [[v o2]| |] eqn:E3; cbn [bind] in E2; try discriminate.
    assert (HE : fits_elem e n v /\ o2 = off + esize_elem e v /\ o2 = o1 /\ matches data (8 * off + from) (image_elem e n big v)).
    { eapply IHe; eauto.
      - destruct (is_fixed_scalar e); tauto.
      - destruct (elem_dyn e) eqn:D.
        + destruct (Z.ltb_spec n 0); auto. exfalso. destruct e; cbn in *; try discriminate; try lia. congruence.
        + assert (Hn0 : 0 <= n /\ (if is_fixed_scalar e then n else elem_bits e) = n).
          { destruct e; cbn in *; try discriminate; try (split; auto; lia);
            destruct Wn as (_ & ->); split; auto; apply fixed_bits_nonneg. }
          destruct Hn0 as (Hn0 & Hn1).
          destruct (Z.ltb_spec n 0); [lia|]. injection E1 as <-. split; auto.
          unfold slot. rewrite D, Hn1. rewrite if_pos in Hl by lia. lia. }
    destruct HE as (F1 & Es & -> & M1).
    destruct (rdec_fields ul r (next_from from n) o1 data) as [[vs' o3]| |] eqn:E4; cbn [bind] in E2; try discriminate.
    injection E2 as <- <-.
    destruct (IHr ul (next_from from n) o1 data o vs' o3) as (F2 & Es2 & -> & M2); auto.
    { lia. }
    { unfold next_from. destruct (Z.eqb_spec n (-1)).
      - subst n. cbn [Z.ltb Z.compare] in Hl. lia.
      - rewrite if_pos in Hl by lia. lia. }
    cbn [fits_fields esize_fields image_fields]. split; auto. split; [lia|]. split; auto.
    assert (Hng : gap e = []).
    { unfold gap. destruct e; auto. cbn in N1. rewrite N1. reflexivity. }
    fold (gap e). rewrite Hng. cbn [app].
    assert (Sv : storable_elem e v).
    { eapply (proj1 fits_storable); eauto. intros S; rewrite S in Wn; auto. }
    pose proof (one_geom e n big from v We Wn Sv off) as G. rewrite Hng in G.
    change (zlen (@nil (option bool))) with 0 in G.
    apply matches_app; [lia|]. split; auto.
    replace (8 * off + from + zlen (image_elem e n big v)) with (8 * o1 + next_from from n) by lia. auto.
  - (* FArr *)
    intros e IHe len n big r IHr ul from off data o vs o' Hwf Nd Co Ex Hf Ho Hb E Hl E2.
    cbn [wf_fields] in Hwf. destruct Hwf as (We & Wl & Wn & Wr). fold (arr_ok e len n from) in Wn.
    cbn in Nd. destruct Nd as (N2 & N3).
    cbn in Co, Ex. destruct Co as (C1 & C2). destruct Ex as (X1 & X2).
    cbn [dsize_fields fixed_bits rdec_fields] in *.
    pose proof (arr_n e len n from We Wn) as Hn. pose proof (fixed_bits_nonneg r).
    assert (Hnf : 0 <= next_from from n) by (unfold next_from; destruct (Z.eqb_spec n (-1)); lia).
    destruct (if n <? 0 then iter_dsize (fun o => dsize_elem e (from / 8) o data) len off else DOff off) as [o1|] eqn:E1; [|discriminate].
    destruct (iter_dec _ len 0 off) as [[arr o2]| |] eqn:E3; cbn [bind] in E2; try discriminate.
    assert (Harr : off <= o1 /\ (o1 <= o -> length arr = len /\ Forall (fits_elem e (n / Z.of_nat len)) arr /\
              o2 = off + sum_esize e arr /\ o2 = o1 /\
              matches data (8 * off + from) (flat_map (image_elem e (n / Z.of_nat len) big) arr))).
    { destruct (elem_dyn e) eqn:D.
      - assert (Sc : is_fixed_scalar e = false) by (destruct e; cbn in D; try discriminate; reflexivity).
        unfold arr_ok in Wn. rewrite Sc, D in Wn. destruct Wn as (Hm & ->). cbn [Z.ltb Z.compare] in *.
        assert (Ho1 : off <= o1).
        { pose proof (iter_dsize_ok (fun o => dsize_elem e (from / 8) o data) true len off) as Hi.
          rewrite E1 in Hi. apply Hi. intros o0 Ho0.
          pose proof (proj1 dsize_progress e (from / 8) o0 data We N2 ltac:(lia) ltac:(lia) Hb) as Hp.
          destruct (dsize_elem e (from / 8) o0 data); intuition lia. }
        split; auto. intros Hoo.
        destruct (iter_dec_inv (fun i o => rdec_elem ul (ul len) e (-1 / Z.of_nat len) big (from + 0) o data)
          (fun o => dsize_elem e (from / 8) o data) (fits_elem e (-1 / Z.of_nat len)) (image_elem e (-1 / Z.of_nat len) big) (esize_elem e)
          (fun _ o => 8 * o + from) (fun o => 0 <= o) data (Z.of_nat len)) with (n := len) (i := 0) (o := off) (vs := arr) (o' := o2) (od := o1)
          as (H1 & H2 & H3 & H3' & H4); auto; try lia.
        + intros i o0 v o3 od Hi Ho0 Ed Er. rewrite Z.add_0_r in Er.
          destruct (IHe ul (ul len) (-1 / Z.of_nat len) big from o0 data od v o3) as (F & Q1 & Q2 & Q3); auto.
          { rewrite Sc; auto. }
          { rewrite D; auto. }
        + intros i o0 v od Hi Ho0 Ed Eod Fv. pose proof (proj1 esize_nonneg e v).
          assert (Sv : storable_elem e v).
          { eapply (proj1 fits_storable); eauto. intros S. rewrite S in Sc. discriminate. }
          destruct (proj1 sizes e 0 big v We Sv ltac:(lia)) as (Ez & _).
          unfold slot in Ez. rewrite Sc, D in Ez.
          rewrite (image_elem_n e _ 0 big big) by auto. lia.
      - destruct (arr_eb e len n from We Wl Wn D) as (eb & Hn' & Hq & Hdv & Heb & Hcase).
        rewrite Hdv in *.
        destruct (Z.ltb_spec n 0); [lia|]. injection E1 as <-. split; [lia|]. intros Hoo.
        rewrite if_pos in Hl by lia.
        assert (Hin : forall i, 0 <= i < Z.of_nat len -> 8 * off + (from + i * eb) + eb <= 8 * zlen data /\ 0 <= i * eb).
        { intros i Hi. split; [|nia]. subst n. assert ((i + 1) * eb <= Z.of_nat len * eb) by (apply Z.mul_le_mono_nonneg_r; lia). lia. }
        assert (Hsl : slot e eb = eb).
        { unfold slot. rewrite D. destruct (is_fixed_scalar e); auto. destruct Hcase; auto. }
        assert (Hfs : forall v, fits_elem e eb v -> storable_elem e v).
        { intros v Fv. eapply (proj1 fits_storable); eauto. intros S. rewrite S in Hcase. auto. }
        assert (Hz : forall v, fits_elem e eb v -> zlen (image_elem e eb big v) = eb).
        { intros v Hv. destruct (proj1 sizes e eb big v We (Hfs v Hv) Heb) as (Ez & Ed).
          rewrite Ez, Ed by auto. lia. }
        destruct (iter_dec_inv (fun i o => rdec_elem ul (ul len) e eb big (from + i * eb) o data)
          (fun o => DOff o) (fits_elem e eb) (image_elem e eb big) (fun _ => 0)
          (fun i o => 8 * o + from + i * eb) (fun o => o = off) data (Z.of_nat len)) with (n := len) (i := 0) (o := off) (vs := arr) (o' := o2) (od := off)
          as (H1 & H2 & H3 & H3' & H4); auto; try lia.
        + intros i o0 v o3 od Hi -> Ed Er. injection Ed as <-. destruct (Hin i Hi).
          destruct (IHe ul (ul len) eb big (from + i * eb) off data off v o3) as (F & Q1 & Q2 & Q3); auto.
          { destruct (is_fixed_scalar e); [lia|]. destruct Hcase as (_ & Hm & He).
            rewrite Z.add_mod, Z.mul_mod, He, Z.mul_0_r, Z.mod_0_l, Z.add_0_r, Z.mod_mod by lia. exact Hm. }
          { lia. }
          { rewrite D, Hsl. auto. }
          split; [lia|]. split; [auto|]. split; auto.
          replace (8 * off + from + i * eb) with (8 * off + (from + i * eb)) by lia. auto.
        + rewrite iter_dsize_const. reflexivity.
        + split; auto. split; auto. rewrite sum_esize_zero.
          * split; [lia|]. split; auto. replace (8 * off + from + 0 * eb) with (8 * off + from) in H4 by lia. auto.
          * auto.
          * eapply Forall_impl; [|exact H2]. auto.
          * auto. }
    destruct Harr as (Ho1 & Harr).
    pose proof (proj2 dsize_progress r (next_from from n) o1 data Wr N3 Hnf ltac:(lia) Hb) as Hp.
    rewrite E in Hp. destruct Hp as (Hp & _). destruct (Harr Hp) as (L & F1 & Es & -> & M1). clear Harr E3.
    destruct (rdec_fields ul r (next_from from n) o1 data) as [[vs' o3]| |] eqn:E4; cbn [bind] in E2; try discriminate.
    injection E2 as <- <-.
    destruct (IHr ul (next_from from n) o1 data o vs' o3) as (F2 & Es2 & -> & M2); auto.
    { lia. }
    { unfold next_from. destruct (Z.eqb_spec n (-1)).
      - subst n. cbn [Z.ltb Z.compare] in Hl. lia.
      - rewrite if_pos in Hl by lia. lia. }
    cbn [fits_fields esize_fields image_fields]. split; auto. fold (sum_esize e arr). split; [lia|]. split; auto.
    assert (Sv : Forall (storable_elem e) arr).
    { eapply Forall_impl; [|exact F1]. intros v Fv. eapply (proj1 fits_storable); eauto.
      intros S. unfold arr_ok in Wn. rewrite S in Wn. destruct Wn as (eb & H1 & ->). rewrite div_mul by lia. auto. }
    pose proof (arr_geom e len n big from arr We Wl Wn L Sv off) as G.
    apply matches_app; [lia|]. split; auto. rewrite <- G, <- Es. auto.
  - intros n r IHr ul from off data o vs o' Hwf Nd Co Ex Hf Ho Hb E Hl E2.
    cbn [wf_fields nd_fields consts_ok exact_fields dsize_fields fixed_bits rdec_fields fits_fields esize_fields image_fields] in *.
    destruct Hwf as (Hn & Wr). rewrite if_pos in Hl by lia.
    unfold next_from in *. destruct (Z.eqb_spec n (-1)); [lia|].
    pose proof (proj2 dsize_progress r (from + n) off data Wr Nd ltac:(lia) ltac:(lia) Hb) as Hp.
    rewrite E in Hp. pose proof (fixed_bits_nonneg r).
    destruct (IHr ul (from + n) off data o vs o') as (F & Q1 & Q2 & Q3); auto; try lia.
    split; auto. split; auto. split; auto. apply matches_app; [lia|]. split.
    + apply matches_none; lia.
    + rewrite zlen_repeat. replace (8 * off + from + Z.of_nat (Z.to_nat n)) with (8 * off + (from + n)) by lia. auto.
  - intros b n big z r IHr ul from off data o vs o' Hwf Nd Co Ex Hf Ho Hb E Hl E2.
    cbn [wf_fields nd_fields consts_ok exact_fields dsize_fields fixed_bits rdec_fields fits_fields esize_fields image_fields] in *.
    destruct Hwf as (Wb & Hn & Wr). destruct Co as ((p & Hp0 & Ep & Ez0) & Cr). rewrite if_pos in Hl by lia.
    unfold next_from in *. destruct (Z.eqb_spec n (-1)); [lia|].
    pose proof (proj2 dsize_progress r (from + n) off data Wr Nd ltac:(lia) ltac:(lia) Hb) as Hp.
    rewrite E in Hp. pose proof (fixed_bits_nonneg r).
    destruct (Z.eqb_spec (const_num b n (read_value data (8 * off + from) n big)) z) as [Ez|]; [|discriminate].
    rewrite <- Ez in Ez0. apply const_num_inj in Ez0; auto; [|apply read_value_bound; lia].
    destruct (IHr ul (from + n) off data o vs o') as (F & Q1 & Q2 & Q3); auto; try lia.
    split; auto. split; auto. split; auto. apply matches_app; [lia|].
    rewrite zlen_map, zlen_const_bits by lia. split.
    + rewrite Ep, Ez0. apply matches_read; lia.
    + replace (8 * off + from + n) with (8 * off + (from + n)) by lia. auto.
  - intros r IHr ul from off data o vs o' Hwf Nd Co Ex Hf Ho Hb E Hl E2.
    cbn [wf_fields nd_fields consts_ok exact_fields dsize_fields fixed_bits rdec_fields fits_fields esize_fields image_fields] in *.
    eapply IHr; eauto.
Qed.
