(** Constants, Go target: which constants survive a round trip.  Used by C14 and C15. *)
From Coq Require Import ZArith List Lia Bool.
From Verif Require Import Base BaseProofs Schema SpecWire GoModel GoBitProofs GoEncProofs GoEncMain GoDecProofs GoRound GoPrefix GoCore.
Import ListNotations.
Open Scope Z_scope.
Ltac Zify.zify_post_hook ::= Z.to_euclidean_division_equations.

Lemma matches_same data pos (a b : list bool) : length a = length b ->
  matches data pos (map Some a) -> matches data pos (map Some b) -> a = b.
Proof.
  intros L (_ & A) (_ & B). apply nth_ext with (d := false) (d' := false); auto.
  intros k Hk.
  assert (H : forall l : list bool, (k < length l)%nat -> onth (map Some l) (Z.of_nat k) = Some (Some (nth k l false))).
  { intros l Hl. unfold onth. destruct (Z.ltb_spec (Z.of_nat k) 0); [lia|].
    rewrite Nat2Z.id, nth_error_map, (nth_error_nth' l false) by auto. reflexivity. }
  pose proof (H a Hk) as H1. pose proof (H b ltac:(lia)) as H2.
  specialize (A _ _ H1). specialize (B _ _ H2). congruence.
Qed.

Lemma field_bits_length n big z : length (field_bits n big z) = Z.to_nat n.
Proof. unfold field_bits. now rewrite map_length, seq_length. Qed.
Lemma const_bits_length w n big z : length (const_bits w n big z) = Z.to_nat n.
Proof. unfold const_bits. now rewrite map_length, seq_length. Qed.

(** If a reader accepts the image of some value, every constant is one that is received. *)
Lemma rdec_consts ul :
  (forall e n big v from off data lp r, wf_elem e -> nd_elem e -> storable_elem e v ->
     (if is_fixed_scalar e then 1 <= n else from mod 8 = 0) -> 0 <= from ->
     0 <= off -> bytes_ok data -> matches data (8 * off + from) (image_elem e n big v) ->
     rdec_elem ul lp e n big from off data = Ok r -> consts_ok_elem e) /\
  (forall fs vs from off data r, wf_fields fs from -> nd_fields fs -> storable_fields fs vs -> 0 <= from ->
     0 <= off -> bytes_ok data -> matches data (8 * off + from) (image_fields fs vs) ->
     rdec_fields ul fs from off data = Ok r -> consts_ok fs).
Proof.
  apply schema_ind.
  - intros. exact I.
  - intros. exact I.
  - intros. exact I.
  - intros. exact I.
  - intros fs IH n big v from off data lp r We Nd Sv Hm Hf Ho Hb M E.
    destruct v as [| |vs|]; cbn in Sv; try contradiction.
    cbn in We, Nd, Hm. destruct We as (We & H8). cbn [consts_ok_elem].
    cbn [image_elem rdec_elem] in *.
    destruct (proj2 sizes fs 0 vs We Sv) as (Sz & Szd).
    pose proof (proj2 esize_nonneg fs vs). pose proof (fixed_bits_nonneg fs).
    pose proof M as (L & _). rewrite Sz in L.
    unfold dec_nested in E.
    destruct (Z.ltb_spec (off + from / 8) 0); [lia|].
    destruct (Z.ltb_spec (zlen data) (off + from / 8)); [lia|]. cbn [orb] in E.
    set (sub := skipn _ data) in E.
    assert (Hbs : bytes_ok sub) by (apply bytes_ok_skipn; auto).
    assert (Mq : matches sub 0 (image_fields fs vs)).
    { apply matches_slice; [unfold zlen in *; lia|].
      replace (8 * Z.of_nat (Z.to_nat (off + from / 8))) with (8 * off + from) by lia. exact M. }
    destruct (decode_size fs sub <? 0); [discriminate|].
    destruct (rdec_fields ul fs 0 0 sub) as [r'| |] eqn:E'; cbn [bind] in E; try discriminate.
    eapply (IH vs 0 0 sub); eauto; lia.
  - intros. exact I.
  - intros e IHe n big r IHr vs from off data x Hwf Nd Hs Hf Ho Hb M E.
    cbn [wf_fields] in Hwf. destruct Hwf as (We & Wn & Wr). cbn in Nd. destruct Nd as (N1 & N2 & N3).
    destruct vs as [|v vs]; cbn in Hs; [contradiction|]. destruct Hs as (Sv & Ss).
    pose proof (one_geom e n big from v We Wn Sv off) as G.
    cbn [image_fields rdec_fields consts_ok] in *. fold (gap e) in M.
    pose proof (one_n e n from We Wn) as Hn.
    assert (Hnf : 0 <= next_from from n) by (unfold next_from; destruct (Z.eqb_spec n (-1)); lia).
    apply matches_app in M; [|lia]. destruct M as (M1 & M2).
    apply matches_app in M2; [|pose proof (zlen_nonneg (image_elem e n big v)); lia]. destruct M2 as (_ & M2).
    pose proof (proj1 esize_nonneg e v).
    assert (Hsc : if is_fixed_scalar e then 1 <= n else from mod 8 = 0) by (destruct (is_fixed_scalar e); tauto).
    assert (C1 : consts_ok_elem e).
    { destruct (rdec_elem ul false e n big from off data) as [q| |] eqn:E1; cbn [bind] in E; try discriminate.
      eapply (IHe n big v from off data); eauto. }
    split; auto.
    rewrite (proj1 (rdec_match ul) e n big v) in E; auto. cbn [bind] in E.
    destruct (rdec_fields ul r (next_from from n) (off + esize_elem e v) data) as [q| |] eqn:E2; cbn [bind] in E; try discriminate.
    eapply (IHr vs _ _ data); [eauto|eauto|eauto|eauto| |eauto| |exact E2]; [lia|]. rewrite G.
    replace (8 * off + from + (zlen (image_elem e n big v) + zlen (gap e))) with (8 * off + from + zlen (image_elem e n big v) + zlen (gap e)) by lia. exact M2.
  - intros e IHe len n big r IHr vs from off data x Hwf Nd Hs Hf Ho Hb M E.
    pose proof Hwf as Hwf0. pose proof Nd as Nd0. pose proof Hs as Hs0. pose proof M as M0.
    cbn [wf_fields] in Hwf. destruct Hwf as (We & Wl & Wn & Wr). fold (arr_ok e len n from) in Wn.
    cbn in Nd. destruct Nd as (N2 & N3).
    destruct vs as [|v vs]; cbn in Hs; [contradiction|]. destruct v as [| | |arr]; try contradiction.
    destruct Hs as (Sl & Sv & Ss).
    pose proof (arr_geom e len n big from arr We Wl Wn Sl Sv off) as G.
    pose proof (arr_n e len n from We Wn) as Hn.
    assert (Hnf : 0 <= next_from from n) by (unfold next_from; destruct (Z.eqb_spec n (-1)); lia).
    cbn [image_fields rdec_fields consts_ok] in *.
    apply matches_app in M; [|lia]. destruct M as (M1 & M2). pose proof (sum_esize_nonneg e arr).
    assert (C1 : consts_ok_elem e).
    { destruct arr as [|v arr]; [cbn in Sl; lia|]. destruct len as [|len]; [discriminate|].
      inversion Sv as [|v' arr' Sv1 Sv2]; subst v' arr'.
      cbn [iter_dec] in E.
      destruct (rdec_elem ul (ul (S len)) e (n / Z.of_nat (S len)) big (from + (if elem_dyn e then 0 else 0 * (n / Z.of_nat (S len)))) off data)
        as [q| |] eqn:E1; cbn [bind] in E; try discriminate.
      replace (from + (if elem_dyn e then 0 else 0 * (n / Z.of_nat (S len)))) with from in E1 by (destruct (elem_dyn e); lia).
      cbn [flat_map] in M1. rewrite <- ?app_assoc in M1. apply matches_app in M1; [|lia]. destruct M1 as (M1 & _).
      eapply (IHe _ big v from off data); eauto.
      destruct (is_fixed_scalar e) eqn:Sc.
      - unfold arr_ok in Wn. rewrite Sc in Wn. destruct Wn as (eb & He & ->). rewrite div_mul by lia. lia.
      - unfold arr_ok in Wn. rewrite Sc in Wn. destruct Wn as (Hm & _). exact Hm. }
    split; auto.
    assert (H1 : rdec_fields ul (FArr e len n big FNil) from off data = Ok ([VArr (map (norm_elem e (n / Z.of_nat len)) arr)], off + sum_esize e arr)).
    { rewrite (proj2 (rdec_match ul) (FArr e len n big FNil) [VArr arr] from off data).
      - cbn [norm_fields esize_fields]. fold (sum_esize e arr). do 2 f_equal. lia.
      - cbn [wf_fields]. auto.
      - cbn [nd_fields]. auto.
      - cbn [consts_ok]. auto.
      - cbn [storable_fields]. auto.
      - auto.
      - auto.
      - auto.
      - cbn [image_fields]. rewrite app_nil_r. exact M1. }
    cbn [rdec_fields] in H1.
    destruct (iter_dec _ len 0 off) as [[a o]| |] eqn:E1; cbn [bind] in H1, E; try discriminate.
    injection H1 as Ha Ho'. subst o.
    destruct (rdec_fields ul r (next_from from n) (off + sum_esize e arr) data) as [q| |] eqn:E2; cbn [bind] in E; try discriminate.
    eapply (IHr vs _ _ data); [eauto|eauto|eauto|eauto| |eauto| |exact E2]; [lia|]. rewrite G. exact M2.
  - intros n r IHr vs from off data x Hwf Nd Hs Hf Ho Hb M E.
    cbn [wf_fields nd_fields consts_ok storable_fields image_fields rdec_fields] in *. destruct Hwf as (Hn & Wr).
    apply matches_app in M; [|lia]. destruct M as (_ & M). rewrite zlen_repeat in M.
    unfold next_from in E. destruct (Z.eqb_spec n (-1)); [lia|].
    eapply (IHr vs (from + n) off data); eauto; try lia.
    replace (8 * off + (from + n)) with (8 * off + from + Z.of_nat (Z.to_nat n)) by lia. exact M.
  - intros b n big z r IHr vs from off data x Hwf Nd Hs Hf Ho Hb M E.
    cbn [wf_fields nd_fields consts_ok storable_fields image_fields rdec_fields] in *.
    destruct Hwf as (Wb & Hn & Wr).
    apply matches_app in M; [|lia]. destruct M as (M1 & M).
    pose proof M1 as (L1 & _). rewrite zlen_map, zlen_const_bits in L1 by lia.
    rewrite zlen_map, zlen_const_bits in M by lia.
    destruct (Z.eqb_spec (const_num b n (read_value data (8 * off + from) n big)) z) as [Ez|]; [|discriminate].
    split.
    + exists (read_value data (8 * off + from) n big). split; [apply read_value_bound; lia|]. split; auto.
      apply (matches_same data (8 * off + from)); [rewrite const_bits_length, field_bits_length; reflexivity|exact M1|].
      apply matches_read; lia.
    + unfold next_from in E. destruct (Z.eqb_spec n (-1)); [lia|].
      eapply (IHr vs (from + n) off data); eauto; try lia.
      replace (8 * off + (from + n)) with (8 * off + from + n) by lia. exact M.
  - intros r IHr vs from off data x Hwf Nd Hs Hf Ho Hb M E.
    cbn [wf_fields nd_fields consts_ok storable_fields image_fields rdec_fields] in *. eauto.
Qed.

(** ** Which constants are received, in closed form *)
Lemma const_field_iff w n big z p : const_bits w n big z = field_bits n big p <->
  forall k, 0 <= k < n -> Z.testbit z (value_bit w big k) = Z.testbit p (value_bit n big k).
Proof.
  unfold const_bits, field_bits. rewrite map_ext_in_iff. split.
  - intros H k Hk. specialize (H (Z.to_nat k)). rewrite in_seq in H. replace (Z.of_nat (Z.to_nat k)) with k in H by lia. apply H. lia.
  - intros H k Hk. apply in_seq in Hk. apply H. lia.
Qed.
Lemma const_num_mod b n p : 1 <= n <= basic_bits b -> 0 <= p < 2 ^ n -> const_num b n p mod 2 ^ n = p.
Proof.
  intros Hn Hp. apply (const_num_inj b n); auto.
  - apply Z.mod_pos_bound. apply pow2_pos; lia.
  - destruct b as [|w|w|w]; cbn [const_num basic_bits] in *; try (apply Z.mod_small; lia).
    f_equal. apply sext_congr. rewrite Z.mod_mod by (pose proof (pow2_pos n); lia).
    rewrite <- Znumtheory.Zmod_div_mod.
    + apply sext_mod; lia.
    + apply pow2_pos; lia.
    + apply pow2_pos; lia.
    + exists (2 ^ (w - n)). rewrite <- Z.pow_add_r by lia. f_equal. lia.
Qed.
Lemma value_bit_range n big k : 0 <= k < n -> 0 <= value_bit n big k < n.
Proof. intros H. unfold value_bit. destruct big; lia. Qed.
Lemma received_iff b n big z : 1 <= n <= basic_bits b ->
  received b n big z <->
  const_num b n (z mod 2 ^ n) = z /\
  (forall k, 0 <= k < n -> Z.testbit z (value_bit (basic_bits b) big k) = Z.testbit z (value_bit n big k)).
Proof.
  intros Hn. split.
  - intros (p & Hp & Eb & Ez).
    assert (Ep : p = z mod 2 ^ n) by (rewrite <- Ez; symmetry; apply const_num_mod; auto).
    split; [congruence|]. intros k Hk. rewrite const_field_iff in Eb. rewrite Eb by auto. rewrite Ep.
    pose proof (value_bit_range n big k Hk). rewrite testbit_mod by lia. destruct (Z.ltb_spec (value_bit n big k) n); [reflexivity|lia].
  - intros (E & H). exists (z mod 2 ^ n). split; [apply Z.mod_pos_bound; apply pow2_pos; lia|]. split; auto.
    apply const_field_iff. intros k Hk. rewrite H by auto.
    pose proof (value_bit_range n big k Hk). rewrite testbit_mod by lia. destruct (Z.ltb_spec (value_bit n big k) n); [reflexivity|lia].
Qed.

Lemma mod_fix z m : 0 < m -> z mod m = z <-> 0 <= z < m.
Proof. intros Hm. split; intros H. - rewrite <- H. apply Z.mod_pos_bound; lia. - apply Z.mod_small; lia. Qed.

(** Little-endian or full width: the number fits the field. *)
Lemma received_unsigned w n big z : 1 <= n <= w -> (big = false \/ n = w) ->
  received (BUint w) n big z <-> 0 <= z < 2 ^ n.
Proof.
  intros Hn Hb. rewrite received_iff by auto. cbn [const_num basic_bits].
  rewrite mod_fix by (apply pow2_pos; lia). split; [tauto|]. intros H. split; auto.
  intros k Hk. destruct Hb as [->| ->]; reflexivity.
Qed.
(** ... for a signed type, as a number of that type (the literal stands for its unsigned form). *)
Lemma received_signed w n big z : 1 <= n <= w -> (big = false \/ n = w) ->
  received (BInt w) n big z <-> 0 <= z < 2 ^ w /\ - 2 ^ (n - 1) <= sext w z < 2 ^ (n - 1).
Proof.
  intros Hn Hb. rewrite received_iff by auto. cbn [const_num basic_bits].
  pose proof (pow2_pos w ltac:(lia)). pose proof (pow2_pos n ltac:(lia)).
  assert (Hs : sext n (z mod 2 ^ n) = sext n z) by (apply sext_congr; apply Z.mod_mod; lia).
  rewrite Hs. split.
  - intros (E & _). split; [rewrite <- E; apply Z.mod_pos_bound; lia|].
    replace (sext w z) with (sext n z); [apply sext_range; lia|].
    rewrite <- E at 2. rewrite <- (sext_fit n w z) at 1 by lia. apply sext_congr. rewrite Z.mod_mod by lia. reflexivity.
  - intros (Hz & Hr). split.
    + replace (sext n z) with (sext w z); [rewrite sext_mod by lia; apply Z.mod_small; auto|].
      rewrite <- (sext_id n (sext w z)) at 1 by lia. apply sext_congr.
      rewrite (Znumtheory.Zmod_div_mod (2 ^ n) (2 ^ w) (sext w z)), sext_mod, <- Znumtheory.Zmod_div_mod; try lia; auto;
        exists (2 ^ (w - n)); rewrite <- Z.pow_add_r by lia; f_equal; lia.
    + intros k Hk. destruct Hb as [->| ->]; reflexivity.
Qed.
(** Big-endian and narrower than its type: only constants that fit the last, partial byte - and only if
    the field has as many bytes as the type - are received. *)
Lemma received_narrow_big w n z : wf_basic (BUint w) -> 1 <= n < w ->
  received (BUint w) n true z <-> 0 <= z < 2 ^ (if (n + 7) / 8 =? w / 8 then n mod 8 else 0).
Proof.
  intros Wb Hn. rewrite received_iff by (cbn [basic_bits]; lia). cbn [const_num basic_bits].
  rewrite mod_fix by (apply pow2_pos; lia).
  assert (Hw : w mod 8 = 0) by (cbn in Wb; lia).
  set (m := if (n + 7) / 8 =? w / 8 then n mod 8 else 0).
  assert (Hm : 0 <= m <= n mod 8) by (unfold m; destruct (_ =? _); lia).
  assert (Hlow : forall x, 0 <= x < 2 ^ m -> forall j, m <= j -> Z.testbit x j = false).
  { intros x Hx j Hj. destruct (Z.eq_dec x 0) as [->|]; [apply Z.bits_0|]. apply Z.bits_above_log2; [lia|].
    apply Z.log2_lt_pow2; [lia|]. assert (2 ^ m <= 2 ^ j) by (apply Z.pow_le_mono_r; lia). lia. }
  split.
  - intros (Hz & H).
    assert (Hhigh : forall t : nat, forall j, n - Z.of_nat t <= j -> n mod 8 <= j -> Z.testbit z j = false).
    { induction t; intros j Hj1 Hj2.
      - destruct (Z.eq_dec z 0) as [->|]; [apply Z.bits_0|]. apply Z.bits_above_log2; [lia|].
        apply Z.log2_lt_pow2; [lia|]. assert (2 ^ n <= 2 ^ j) by (apply Z.pow_le_mono_r; lia). lia.
      - destruct (Z_le_gt_dec (n - Z.of_nat t) j) as [|Hlt]; [auto|].
        assert (Hjn : 0 <= j < n) by lia.
        pose proof (wire_bit_range n true j Hjn) as Hk. pose proof (value_wire n true j Hjn) as Hv.
        specialize (H _ Hk). rewrite Hv in H. rewrite <- H.
        replace (value_bit w true (wire_bit n true j)) with (j + (w - n)).
        + apply IHt; lia.
        + unfold value_bit, wire_bit. destruct (Z.ltb_spec j (n mod 8)); lia. }
    assert (Hall : forall j, m <= j -> Z.testbit z j = false).
    { intros j Hj. destruct (Z_le_gt_dec (n mod 8) j).
      - apply (Hhigh (Z.to_nat n)); lia.
      - assert (Hne : (n + 7) / 8 <> w / 8 /\ m = 0) by (unfold m in *; destruct (Z.eqb_spec ((n + 7) / 8) (w / 8)); lia).
        assert (Hjn : 0 <= j < n) by lia.
        pose proof (wire_bit_range n true j Hjn) as Hk. pose proof (value_wire n true j Hjn) as Hv.
        specialize (H _ Hk). rewrite Hv in H. rewrite <- H. apply (Hhigh (Z.to_nat n)).
        + unfold value_bit, wire_bit. destruct (Z.ltb_spec j (n mod 8)); lia.
        + unfold value_bit, wire_bit. destruct (Z.ltb_spec j (n mod 8)); lia. }
    replace z with (z mod 2 ^ m); [apply Z.mod_pos_bound; apply pow2_pos; lia|].
    apply Z.bits_inj'. intros j Hj. rewrite testbit_mod by lia. destruct (Z.ltb_spec j m); auto. symmetry. apply Hall. lia.
  - intros Hz. split.
    + assert (2 ^ m <= 2 ^ n) by (apply Z.pow_le_mono_r; lia). lia.
    + intros k Hk. destruct (Z_lt_le_dec (k / 8) (n / 8)).
      * rewrite !(Hlow z Hz); auto; unfold value_bit; lia.
      * unfold m in *. destruct (Z.eqb_spec ((n + 7) / 8) (w / 8)).
        -- f_equal. unfold value_bit. lia.
        -- rewrite !(Hlow z Hz); auto; unfold value_bit; lia.
Qed.
