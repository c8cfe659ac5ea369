(** The Python decoder is right about a number field exactly when the field does not need the missing
    parentheses ([py_good]).  Proofs; statements in PropsTargets.v, C21. *)
From Coq Require Import ZArith List Bool Lia.
From Verif Require Import Base BaseProofs Schema SpecWire GoModel GoBitProofs GoEncProofs GoDecProofs GoRound GoCore
  TgtModel TgtEncProofs TgtDecProofs TgtPrims PyTarget.
Import ListNotations.
Open Scope Z_scope.
Ltac Zify.zify_post_hook ::= Z.to_euclidean_division_equations.

Lemma join_odd sh p q r : Z.testbit p 0 = true -> Z.testbit (py_join sh (p :: q :: r)) 0 = true.
Proof. intros H. cbn [py_join]. rewrite Z.lor_spec, H. reflexivity. Qed.

Lemma dparts_S f from ff cs consumed base data : py_dparts (S f) from ff cs consumed base data =
  if consumed <? cs then
    do b <- rd data (base + (from + ff + consumed) / 8);
    do r <- py_dparts f from ff cs (consumed + Z.min (cs - consumed) (8 - Z.land (from + ff + consumed) 7)) base data;
    Ok (Z.shiftl (Z.land (Z.shiftr b (Z.land (from + ff + consumed) 7)) (Z.shiftl 1 (Z.min (cs - consumed) (8 - Z.land (from + ff + consumed) 7)) - 1)) consumed :: r)
  else Ok [].
Proof. reflexivity. Qed.
Lemma dchunks_S f from n ff big base acc data : py_dchunks (S f) from n ff big base acc data =
  if ff <? n then
    do ps <- py_dparts 8 from ff (Z.min 8 (n - ff)) 0 base data;
    py_dchunks f from n (ff + 8) big base
      (if ff / 8 =? 0 then py_join (if big then Z.max 0 (n - 8 * (ff / 8 + 1)) else ff / 8 * 8) ps
       else Z.lor acc (py_join (if big then Z.max 0 (n - 8 * (ff / 8 + 1)) else ff / 8 * 8) ps)) data
  else Ok acc.
Proof. reflexivity. Qed.
Lemma dparts_two from ff cs base data ps : 0 <= from -> 0 <= ff -> 0 <= base -> cs <= 8 ->
  8 < (from + ff) mod 8 + cs -> py_dparts 8 from ff cs 0 base data = Ok ps ->
  exists p q r, ps = p :: q :: r /\ Z.testbit p 0 = bitat data (8 * base + (from + ff)).
Proof.
  intros Hf Hff Hb Hc Ha E. change 8%nat with (S 7) in E. rewrite dparts_S in E.
  destruct (Z.ltb_spec 0 cs); [|lia]. rewrite !Z.add_0_r, !land7, Z.sub_0_r in E.
  set (a := (from + ff) mod 8) in *. assert (0 <= a < 8) by (subst a; apply Z.mod_pos_bound; lia).
  replace (Z.min cs (8 - a)) with (8 - a) in E by lia.
  destruct (rd data (base + (from + ff) / 8)) as [b| |] eqn:R; cbn [bind] in E; try discriminate.
  destruct (py_dparts 7 from ff cs (0 + (8 - a)) base data) as [r| |] eqn:E2; cbn [bind] in E; try discriminate.
  match type of E with Ok ?x = Ok ps => assert (Ep : ps = x) by congruence end. subst ps. clear E. change 7%nat with (S 6) in E2. rewrite dparts_S in E2.
  destruct (Z.ltb_spec (0 + (8 - a)) cs); [|lia].
  destruct (rd data (base + (from + ff + (0 + (8 - a))) / 8)) as [b2| |]; cbn [bind] in E2; try discriminate.
  destruct (py_dparts 6 _ _ _ _ _ _) as [r2| |]; cbn [bind] in E2; try discriminate. match type of E2 with Ok ?x = Ok r => assert (Er : r = x) by congruence end. subst r.
  do 3 eexists. split; [reflexivity|].
  rewrite Z.shiftl_0_r, Z.land_spec, Z.shiftr_spec, Z.add_0_l by lia.
  replace (Z.testbit (Z.shiftl 1 (8 - a) - 1) 0) with true.
  2:{ rewrite Z.shiftl_1_l. replace (2 ^ (8 - a) - 1) with (Z.ones (8 - a)) by (rewrite Z.ones_equiv; lia).
      rewrite Z.ones_spec_low by lia. reflexivity. }
  rewrite andb_true_r. unfold bitat, rd in *.
  destruct (Z.ltb_spec (base + (from + ff) / 8) 0); [lia|].
  destruct (nth_error data (Z.to_nat (base + (from + ff) / 8))) as [x|] eqn:N; [|discriminate]. inversion R; subst x.
  replace ((8 * base + (from + ff)) / 8) with (base + (from + ff) / 8) by lia.
  replace ((8 * base + (from + ff)) mod 8) with a by (subst a; lia).
  rewrite (nth_error_nth _ _ 0 N). reflexivity.
Qed.

Lemma dchunks_odd fuel : forall from n ff big base acc data r, 8 <= ff -> Z.testbit acc 0 = true ->
  py_dchunks fuel from n ff big base acc data = Ok r -> Z.testbit r 0 = true.
Proof.
  induction fuel; intros from n ff big base acc data r Hf Ha E; [cbn in E; congruence|rewrite dchunks_S in E].
  destruct (ff <? n); [|congruence].
  destruct (py_dparts 8 from ff (Z.min 8 (n - ff)) 0 base data) as [ps| |]; cbn [bind] in E; try discriminate.
  destruct (Z.eqb_spec (ff / 8) 0); [lia|].
  eapply IHfuel; [| |exact E]; [lia|]. rewrite Z.lor_spec, Ha. reflexivity.
Qed.

(** The field bit that is left unshifted. *)
Definition py_bad_value (n : Z) (big : bool) : Z := 2 ^ (if big then n - 8 else 8).

Lemma nth_error_seq' n : forall s i, nth_error (seq s n) i = if (i <? n)%nat then Some (s + i)%nat else None.
Proof.
  induction n; intros s i; destruct i; cbn [seq nth_error]; try reflexivity.
  - change (0 <? S n)%nat with true. rewrite Nat.add_0_r. reflexivity.
  - rewrite IHn. change (S i <? S n)%nat with (i <? n)%nat. destruct (i <? n)%nat; [f_equal; lia|reflexivity].
Qed.
Lemma matches_field data pos n big z k : 0 <= k < n -> matches data pos (map Some (field_bits n big z)) ->
  bitat data (pos + k) = Z.testbit z (value_bit n big k).
Proof.
  intros Hk (_ & M). apply M. unfold onth. destruct (Z.ltb_spec k 0); [lia|].
  unfold field_bits. rewrite !map_map, nth_error_map, nth_error_seq'.
  destruct (Nat.ltb_spec (Z.to_nat k) (Z.to_nat n)); [|lia]. cbn [option_map]. rewrite Nat.add_0_l, Z2Nat.id by lia. reflexivity.
Qed.

Lemma py_dec_bad n big from base data r : n <= 64 -> ~ py_good n big from -> 0 <= from -> 0 <= base ->
  matches data (8 * base + from) (map Some (field_bits n big (py_bad_value n big))) ->
  py_dec n big from base data = Ok r -> Z.testbit r 0 = true.
Proof.
  intros Hn G Hf Hb M E. unfold py_good in G.
  assert (Ha : from mod 8 <> 0) by tauto. assert (Hn8 : 8 < n) by (destruct (Z.le_gt_cases n 8); tauto).
  unfold py_dec in E. replace (Z.to_nat n) with (S (S (Z.to_nat n - 2))) in E by lia.
  rewrite dchunks_S in E. destruct big.
  - destruct (Z.ltb_spec 0 n); [|lia].
    destruct (py_dparts 8 from 0 (Z.min 8 (n - 0)) 0 base data) as [ps| |] eqn:Ep; cbn [bind] in E; try discriminate.
    apply dparts_two in Ep; try lia. destruct Ep as (p & q & t & -> & Hp).
    rewrite Z.add_0_r in Hp. pose proof (matches_field data _ n true _ 0 ltac:(lia) M) as Hm.
    rewrite Z.add_0_r in Hm. unfold value_bit, py_bad_value in Hm. change (0 / 8) with 0 in Hm. change (0 mod 8) with 0 in Hm.
    replace (Z.max 0 (n - 8 * (0 + 1)) + 0) with (n - 8) in Hm by lia. rewrite Z.pow2_bits_true in Hm by lia.
    rewrite Hm in Hp. change (0 / 8 =? 0) with true in E. cbv iota in E.
    eapply (dchunks_odd (S (Z.to_nat n - 2)) from n (0 + 8) true); [lia| |exact E]. apply join_odd; auto.
  - assert (Hs : 16 < from mod 8 + n). { destruct (Z.le_gt_cases (from mod 8 + n) 16); auto. exfalso. apply G. auto. }
    destruct (Z.ltb_spec 0 n); [|lia].
    destruct (py_dparts 8 from 0 (Z.min 8 (n - 0)) 0 base data) as [ps0| |]; cbn [bind] in E; try discriminate.
    change (0 / 8 =? 0) with true in E. cbv iota in E. change (0 + 8) with 8 in E. rewrite dchunks_S in E.
    destruct (Z.ltb_spec 8 n); [|lia].
    destruct (py_dparts 8 from 8 (Z.min 8 (n - 8)) 0 base data) as [ps| |] eqn:Ep; cbn [bind] in E; try discriminate.
    apply dparts_two in Ep; try lia. destruct Ep as (p & q & t & -> & Hp).
    pose proof (matches_field data _ n false _ 8 ltac:(lia) M) as Hm.
    rewrite <- Z.add_assoc in Hm. unfold value_bit, py_bad_value in Hm. rewrite Z.pow2_bits_true in Hm by lia.
    rewrite Hm in Hp. change (8 / 8 =? 0) with false in E. cbv iota in E.
    eapply dchunks_odd; [| |exact E]; [lia|]. rewrite Z.lor_spec, join_odd, orb_true_r by auto. reflexivity.
Qed.

Lemma bad_value_even n big : 8 < n -> Z.testbit (py_bad_value n big) 0 = false.
Proof. intros H. unfold py_bad_value. apply Z.pow2_bits_false. destruct big; lia. Qed.
Lemma bad_value_fits n big : 8 < n -> 0 <= py_bad_value n big < 2 ^ n.
Proof.
  intros H. unfold py_bad_value. split; [apply Z.pow_nonneg; lia|]. apply Z.pow_lt_mono_r; destruct big; lia.
Qed.
Lemma not_good n big from : ~ py_good n big from -> 8 < n.
Proof. unfold py_good. intros G. destruct (Z.le_gt_cases n 8); tauto. Qed.

(** Decoding a prefix of fixed size. *)
Lemma tdec_fapp T a : forall b from start data vs o dyn, fields_dyn a = false -> wf_fields (fapp a b) from ->
  tdec_fields T dyn (fapp a b) from start 0 data = Ok (vs, o) ->
  exists va vb, vs = va ++ vb /\ tdec_fields T dyn b (from + fixed_bits a) start 0 data = Ok (vb, o) /\
    forall wa, storable_fields a wa -> length va = length wa.
Proof.
  assert (Hit : forall (f : Z -> Z -> res (val * Z)), (forall i v o', f i 0 = Ok (v, o') -> o' = 0) -> forall len i vs o, iter_dec f len i 0 = Ok (vs, o) -> o = 0).
  { intros f Hf. induction len; intros i vs o E; cbn [iter_dec] in E; [congruence|].
    destruct (f i 0) as [[v o1]| |] eqn:E1; cbn [bind] in E; try discriminate. apply Hf in E1. subst o1.
    destruct (iter_dec f len (i + 1) 0) as [[vs' o2]| |] eqn:E2; cbn [bind] in E; try discriminate.
    apply IHlen in E2. congruence. }
  assert (Hel : forall dyn e w n big from start data v o, elem_dyn e = false -> tdec_elem T dyn e w n big from start 0 data = Ok (v, o) -> o = 0).
  { intros dyn e w n big from start data v o D E. destruct e; cbn in D; try discriminate; cbn [tdec_elem] in E.
    - destruct (t_dscalar _ _ _ _ _ _ _ _); cbn in E; congruence.
    - destruct (t_dscalar _ _ _ _ _ _ _ _); cbn in E; congruence.
    - destruct (tcheck _ _ _ _); cbn [bind] in E; try discriminate.
      destruct (tdec_fields _ _ _ _ _ _ _) as [[]| |]; cbn [bind] in E; try discriminate. rewrite D in E. congruence. }
  induction a as [|e n big r IHr|e len n big r IHr|n r IHr|c n big z r IHr|r IHr]; intros b from start data vs o dyn D W E;
    cbn [fapp fields_dyn wf_fields tdec_fields fixed_bits] in *.
  - exists [], vs. rewrite Z.add_0_r. split; auto. split; auto. intros wa Hw. cbn in Hw. subst; auto.
  - apply orb_false_iff in D as (D1 & D2). destruct W as (We & Wn & Wr).
    assert (Hn : 0 <= n).
    { destruct e; cbn in *; try discriminate; try lia. destruct Wn as (_ & ->). apply fixed_bits_nonneg. }
    destruct (tdec_elem T dyn e _ n big from start 0 data) as [[v o1]| |] eqn:E1; cbn [bind] in E; try discriminate.
    apply Hel in E1; auto. subst o1.
    assert (Hnf : next_from from n = from + n) by (unfold next_from; destruct (Z.eqb_spec n (-1)); lia).
    replace (dyn || (n =? -1)) with dyn in E by (destruct (Z.eqb_spec n (-1)); [lia|rewrite orb_false_r; auto]).
    rewrite Hnf in *.
    destruct (tdec_fields T dyn (fapp r b) (from + n) start 0 data) as [[vs' o']| |] eqn:E2; cbn [bind] in E; try discriminate.
    inversion E; subst. destruct (IHr _ _ _ _ _ _ _ D2 Wr E2) as (va & vb & -> & Eb & Hl).
    exists (v :: va), vb. split; auto. split.
    + replace (from + ((if 0 <? n then n else 0) + fixed_bits r)) with (from + n + fixed_bits r); auto. destruct (Z.ltb_spec 0 n); lia.
    + intros wa Hw. cbn in Hw. destruct wa; [contradiction|]. cbn. f_equal. apply Hl. tauto.
  - apply orb_false_iff in D as (D1 & D2). destruct W as (We & Wl & Wn & Wr). fold (GoEncMain.arr_ok e len n from) in Wn.
    assert (Hn : 0 <= n).
    { destruct (GoEncMain.arr_eb e len n from We Wl Wn D1) as (eb & -> & _ & _ & H1 & _). lia. }
    rewrite D1 in E.
    destruct (if t_loop T len then _ else _) as [[arr o1]| |] eqn:E1; cbn [bind] in E; try discriminate.
    assert (o1 = 0).
    { destruct (t_loop T len).
      - destruct e; try discriminate D1; eapply Hit in E1; eauto; intros i v o' Ei; cbv beta in Ei.
        + destruct (t_dloop _ _ _ _ _ _); cbn in Ei; congruence.
        + destruct (t_dloop _ _ _ _ _ _); cbn in Ei; congruence.
        + destruct (tcheck _ _ _ _); cbn [bind] in Ei; try discriminate.
          match type of Ei with (bind ?x _) = _ => destruct x as [[]| |] end; cbn [bind] in Ei; congruence.
      - eapply Hit in E1; eauto. }
    subst o1.
    assert (Hnf : next_from from n = from + n) by (unfold next_from; destruct (Z.eqb_spec n (-1)); lia).
    replace (dyn || (n =? -1)) with dyn in E by (destruct (Z.eqb_spec n (-1)); [lia|rewrite orb_false_r; auto]).
    rewrite Hnf in *.
    destruct (tdec_fields T dyn (fapp r b) (from + n) start 0 data) as [[vs' o']| |] eqn:E2; cbn [bind] in E; try discriminate.
    inversion E; subst. destruct (IHr _ _ _ _ _ _ _ D2 Wr E2) as (va & vb & -> & Eb & Hl).
    exists (VArr arr :: va), vb. split; auto. split.
    + replace (from + ((if 0 <? n then n else 0) + fixed_bits r)) with (from + n + fixed_bits r); auto. destruct (Z.ltb_spec 0 n); lia.
    + intros wa Hw. cbn in Hw. destruct wa as [|w wa]; [contradiction|]. destruct w; try contradiction. cbn. f_equal. apply Hl. tauto.
  - destruct W as (Hn & Wr). unfold next_from in E. destruct (Z.eqb_spec n (-1)); [lia|].
    destruct (IHr _ _ _ _ _ _ _ D Wr E) as (va & vb & -> & Eb & Hl). exists va, vb. split; auto. split; auto.
    replace (from + ((if 0 <? n then n else 0) + fixed_bits r)) with (from + n + fixed_bits r); auto. destruct (Z.ltb_spec 0 n); lia.
  - destruct W as (Wb & Hn & Wr). unfold next_from in E. destruct (Z.eqb_spec n (-1)); [lia|].
    destruct (t_dconst _ _ _ _ _ _ _ _) as [[|]| |]; cbn [bind] in E; try discriminate.
    destruct (IHr _ _ _ _ _ _ _ D Wr E) as (va & vb & -> & Eb & Hl). exists va, vb. split; auto. split; auto.
    replace (from + ((if 0 <? n then n else 0) + fixed_bits r)) with (from + n + fixed_bits r); auto. destruct (Z.ltb_spec 0 n); lia.
  - destruct (IHr _ _ _ _ _ _ _ D W E) as (va & vb & -> & Eb & Hl). exists va, vb. auto.
Qed.

Lemma image_fapp a : forall b from va vb, fields_dyn a = false -> wf_fields (fapp a b) from -> storable_fields a va ->
  image_fields (fapp a b) (va ++ vb) = image_fields a va ++ image_fields b vb /\ zlen (image_fields a va) = fixed_bits a.
Proof.
  intros b from va vb D W Sa. split.
  - revert va from W Sa. induction a as [|e n big r IHr|e len n big r IHr|n r IHr|c n big z r IHr|r IHr]; intros va from W Sa;
      cbn [fapp fields_dyn wf_fields storable_fields image_fields] in *.
    + subst. reflexivity.
    + apply orb_false_iff in D as (D1 & D2). destruct va as [|v va]; [contradiction|]. destruct Sa as (_ & Sa). destruct W as (_ & _ & W).
      cbn [app]. rewrite (IHr D2 va _ W Sa). rewrite <- !app_assoc. reflexivity.
    + apply orb_false_iff in D as (D1 & D2). destruct va as [|v va]; [contradiction|]. destruct v; try contradiction.
      destruct Sa as (_ & _ & Sa). destruct W as (_ & _ & _ & W). cbn [app]. rewrite (IHr D2 va _ W Sa), app_assoc. reflexivity.
    + destruct W as (_ & W). rewrite (IHr D va _ W Sa), app_assoc. reflexivity.
    + destruct W as (_ & _ & W). rewrite (IHr D va _ W Sa), app_assoc. reflexivity.
    + exact (IHr D va _ W Sa).
  - assert (Wa : wf_fields a from).
    { clear - W. revert from W. induction a as [|e n big r IHr|e len n big r IHr|n r IHr|c n big z r IHr|r IHr]; intros from W; cbn [fapp wf_fields] in *; auto.
      - destruct W as (A & B & W). auto.
      - destruct W as (A & B & C & W). auto.
      - destruct W as (A & W). auto.
      - destruct W as (A & B & W). auto. }
    destruct (proj2 sizes a from va Wa Sa) as (E & Ed). rewrite E, Ed by auto. lia.
Qed.

(** In a struct, the decoder misreads the field whatever the other fields hold. *)
Lemma py_bad_message unr known a w n big r va vr start data m :
  wf_struct (fapp a (FOne (EBasic (BUint w)) n big r)) -> fields_dyn a = false -> storable_fields a va ->
  ~ py_good n big (fixed_bits a) -> 0 <= start -> bytes_ok data ->
  matches data (8 * start) (image_fields (fapp a (FOne (EBasic (BUint w)) n big r)) (va ++ VNum (py_bad_value n big) :: vr)) ->
  tdecode (py_tgt unr known) (fapp a (FOne (EBasic (BUint w)) n big r)) start data <>
    Ok (va ++ VNum (py_bad_value n big) :: vr, m).
Proof.
  intros W D Sa G Hs Hb M E. unfold tdecode in E.
  set (fs := fapp a (FOne (EBasic (BUint w)) n big r)) in *.
  destruct (tcheck (py_tgt unr known) fs data start); cbn [bind] in E; try discriminate.
  destruct (tdec_fields (py_tgt unr known) _ fs 0 start 0 data) as [[vs o]| |] eqn:Ed; cbn [bind] in E; try discriminate.
  inversion E; subst vs. destruct W as (W & _). subst fs.
  destruct (image_fapp a (FOne (EBasic (BUint w)) n big r) 0 va (VNum (py_bad_value n big) :: vr) D W Sa) as (I1 & I2).
  apply tdec_fapp in Ed; auto. destruct Ed as (va' & vb & Ev & Eb & Hl). specialize (Hl va Sa).

  assert (Evb : vb = VNum (py_bad_value n big) :: vr).
  { apply (f_equal (skipn (length va))) in Ev. rewrite skipn_app_len in Ev. rewrite <- Hl, skipn_app_len in Ev. auto. }
  subst vb. rewrite Z.add_0_l in Eb. cbn [tdec_fields tdec_elem] in Eb.
  pose proof (wf_fapp a (FOne (EBasic (BUint w)) n big r) 0 D W) as Wf. cbn [wf_fields is_fixed_scalar elem_bits basic_bits wf_elem] in Wf.
  destruct Wf as (Wb & Wn & _). pose proof (basic_bits_range (BUint w) Wb). cbn [basic_bits] in *.
  cbn [py_tgt t_dscalar] in Eb.
  replace (start + (if t_dyn0 (py_tgt unr known) (fapp a (FOne (EBasic (BUint w)) n big r)) then 0 else 0)) with start in Eb
    by (destruct (t_dyn0 _ _); lia).
  destruct (py_dec n big (fixed_bits a) start data) as [p| |] eqn:Ep; cbn [bind] in Eb; try discriminate.
  cbn [py_value bind] in Eb.
  destruct (tdec_fields (py_tgt unr known) _ r _ start 0 data) as [[vs' o']| |]; cbn [bind] in Eb; try discriminate.
  inversion Eb; subst p.
  pose proof (fixed_bits_nonneg a).
  apply py_dec_bad in Ep; auto; try lia.
  - rewrite bad_value_even in Ep by (eapply not_good; eauto). discriminate.
  - rewrite I1 in M. apply matches_app in M; [|lia]. destruct M as (_ & M). rewrite I2 in M.
    cbn [image_fields image_elem] in M. apply matches_app in M; [tauto|lia].
Qed.
