(** The Go decoder: a reading function free of generator options, equality of the generated decoder
    with it whenever DecodeSize accepts, absence of panics, round trip. *)
From Coq Require Import ZArith List Lia Bool.
From Verif Require Import Base BaseProofs Schema SpecWire GoModel GoBitProofs GoEncProofs GoEncMain.
Import ListNotations.
Open Scope Z_scope.

(** ** DecodeSize: progress, bounds, sign *)
Lemma str_scan_spec rest l : match str_scan rest l with
  | inl r => exists bs t, rest = bs ++ 0 :: t /\ ~ In 0 bs /\ r = l + zlen bs
  | inr r => r = l + zlen rest /\ ~ In 0 rest
  end.
Proof.
  revert l; induction rest as [|b rest IH]; intros l; cbn [str_scan].
  - split; [unfold zlen; cbn; lia|auto].
  - destruct (Z.eqb_spec b 0).
    + subst. exists [], rest. cbn. split; auto. split; auto. unfold zlen; cbn; lia.
    + specialize (IH (l + 1)). destruct (str_scan rest (l + 1)).
      * destruct IH as (bs & t & -> & Hn & ->). exists (b :: bs), t. cbn [app].
        split; auto. split; [cbn; intros [?|?]; auto|]. rewrite zlen_cons. lia.
      * destruct IH as (-> & Hn). rewrite zlen_cons. split; [lia|]. cbn; intros [?|?]; auto.
Qed.

Lemma land127_bound b : 0 <= Z.land b 127 < 128.
Proof. rewrite land127. lia. Qed.

Lemma lor_disjoint a b k : 0 <= k -> 0 <= a < 2 ^ k -> 0 <= b -> Z.lor a (Z.shiftl b k) = a + b * 2 ^ k.
Proof.
  intros Hk Ha Hb. rewrite Z.shiftl_mul_pow2 by lia.
  rewrite <- Z.lxor_lor, <- Z.add_nocarry_lxor; auto;
    apply Z.bits_inj'; intros j Hj; rewrite Z.land_spec, Z.testbit_0_l;
    (destruct (Z.ltb_spec j k);
     [rewrite Z.mul_pow2_bits_low by lia; apply andb_false_r|
      rewrite (testbit_above a k j) by lia; reflexivity]).
Qed.

(** A scan that succeeds: at most nine groups, value below 2^63, and Decode's own scan agrees. *)
Lemma vi_scan_done rest : forall shift acc cnt v c', 0 <= cnt -> bytes_ok rest ->
  shift = 7 * cnt -> 0 <= acc < 2 ^ shift -> vi_scan rest shift acc cnt = VDone v c' ->
  cnt < c' <= cnt + zlen rest /\ 0 <= v < 2 ^ 63 /\ dvi_scan rest shift acc cnt = Ok (v, c').
Proof.
  induction rest as [|b rest IH]; intros shift acc cnt v c' Hc Hb Hs Hacc E; cbn [vi_scan] in E; [discriminate|].
  inversion Hb as [|? ? Hb1 Hb2]; subst. cbn [dvi_scan]. rewrite zlen_cons. pose proof (zlen_nonneg rest).
  pose proof (land127_bound b) as Hl.
  destruct (Z.leb_spec 63 (7 * cnt)).
  { destruct (Z.land b 128 =? 0); discriminate. }
  assert (Hcnt : cnt <= 8) by lia.
  assert (Hsh : 0 <= Z.shiftl (Z.land b 127) (7 * cnt) < 2 ^ (7 * cnt + 7)).
  { rewrite Z.shiftl_mul_pow2 by lia. rewrite Z.pow_add_r by lia. change (2 ^ 7) with 128.
    pose proof (pow2_pos (7 * cnt) ltac:(lia)). nia. }
  assert (Hp : 2 ^ (7 * cnt + 7) <= 2 ^ 63) by (apply Z.pow_le_mono_r; lia).
  assert (E63 : 2 ^ 64 = 2 * 2 ^ 63) by reflexivity.
  rewrite (Z.mod_small (Z.shiftl (Z.land b 127) (7 * cnt))) in E by lia.
  assert (Hse : sext 64 (Z.shiftl (Z.land b 127) (7 * cnt)) = Z.shiftl (Z.land b 127) (7 * cnt)).
  { apply sext_id; [lia|]. change (64 - 1) with 63. lia. }
  rewrite Hse.
  assert (Hlor : 0 <= Z.lor acc (Z.shiftl (Z.land b 127) (7 * cnt)) < 2 ^ (7 * cnt + 7)).
  { rewrite lor_disjoint by lia. rewrite Z.pow_add_r by lia. change (2 ^ 7) with 128.
    pose proof (pow2_pos (7 * cnt) ltac:(lia)). nia. }
  destruct (Z.land b 128 =? 0).
  - injection E as <- <-. split; [lia|]. split; [split; [apply Hlor|eapply Z.lt_le_trans; [apply Hlor|exact Hp]]|]. reflexivity.
  - destruct (IH (7 * cnt + 7) (Z.lor acc (Z.shiftl (Z.land b 127) (7 * cnt))) (cnt + 1) v c') as (H1 & H2 & H3); auto; try lia.
    split; [lia|]. split; auto.
Qed.

Lemma vi_scan_more rest : forall shift acc cnt c', vi_scan rest shift acc cnt = VMore c' -> c' = cnt + zlen rest.
Proof.
  induction rest as [|b rest IH]; intros shift acc cnt c' E; cbn [vi_scan] in E.
  - inversion E. unfold zlen; cbn; lia.
  - rewrite zlen_cons. destruct (Z.land b 128 =? 0), (63 <=? shift); try discriminate.
    apply IH in E. lia.
Qed.

Lemma dsize_string_spec data fb off : 0 <= fb -> 0 <= off ->
  match dsize_string data fb off with
  | DOff o => off < o /\ o + fb <= zlen data
  | DRet r => r < 0
  end.
Proof.
  intros Hf Ho. unfold dsize_string.
  pose proof (str_scan_spec (skipn (Z.to_nat (off + fb)) data) 0) as H.
  destruct (str_scan _ 0) as [l|l].
  - destruct H as (bs & t & E & _ & ->). pose proof (zlen_nonneg bs). pose proof (zlen_nonneg t).
    apply (f_equal zlen) in E. rewrite zlen_skipn, zlen_app, zlen_cons in E. lia.
  - destruct H as (-> & _). rewrite zlen_skipn. lia.
Qed.

Lemma dsize_bytes_spec data fb off : 0 <= fb -> 0 <= off -> bytes_ok data ->
  match dsize_bytes data fb off with
  | DOff o => off < o /\ o + fb <= zlen data
  | DRet r => r < 0
  end.
Proof.
  intros Hf Ho Hb. unfold dsize_bytes.
  destruct (vi_scan _ 0 0 0) as [v cnt|cnt|] eqn:E; [|apply vi_scan_more in E; pose proof (zlen_nonneg (skipn (Z.to_nat (off + fb)) data)); lia|lia].
  apply vi_scan_done in E; try lia; [|apply bytes_ok_skipn; auto].
  destruct E as (Hc & Hv & _).
  destruct (max_int <? v); [lia|].
  destruct (Z.ltb_spec (zlen data - (off + cnt + fb)) v); [|lia].
  destruct (max_int - _ <? v); lia.
Qed.

Definition dstep_ok (dyn : bool) (off bound : Z) (d : dstep) : Prop :=
  match d with
  | DOff o => off <= o /\ (dyn = true -> off < o) /\ (dyn = true -> o <= bound)
  | DRet r => r < 0
  end.

Lemma iter_dsize_ok f (dyn : bool) n : forall off,
  (forall o, off <= o -> match f o with DOff o' => o <= o' /\ (dyn = true -> o < o') | DRet r => r < 0 end) ->
  match iter_dsize f n off with
  | DOff o' => off <= o' /\ (dyn = true -> (0 < n)%nat -> off < o')
  | DRet r => r < 0
  end.
Proof.
  induction n; intros off H; cbn [iter_dsize]; [lia|].
  pose proof (H off ltac:(lia)) as H0. destruct (f off) as [o|r]; [|auto].
  specialize (IHn o). destruct (iter_dsize f n o) eqn:E.
  - assert (Hx : o <= off0 /\ (dyn = true -> (0 < n)%nat -> o < off0)).
    { apply IHn. intros o' Ho. apply H. lia. }
    destruct H0, Hx. split; [lia|]. intros D _. specialize (H1 D). lia.
  - apply IHn. intros o' Ho. apply H. lia.
Qed.

Lemma dsize_progress :
  (forall e fb off data, wf_elem e -> nd_elem e -> 0 <= fb -> 0 <= off -> bytes_ok data ->
     match dsize_elem e fb off data with
     | DOff o => off <= o /\ (elem_dyn e = true -> off < o /\ o + fb <= zlen data)
     | DRet r => r < 0
     end) /\
  (forall fs from off data, wf_fields fs from -> nd_fields fs -> 0 <= from -> 0 <= off -> bytes_ok data ->
     match dsize_fields fs from off data with
     | DOff o => off <= o /\ (fields_dyn fs = true -> off < o)
     | DRet r => r < 0
     end).
Proof.
  apply schema_ind.
  - intros; cbn. split; [lia|discriminate].
  - intros; cbn. split; [lia|discriminate].
  - intros fb off data _ _ Hf Ho Hb. cbn [dsize_elem]. pose proof (dsize_string_spec data fb off Hf Ho).
    destruct (dsize_string data fb off); lia.
  - intros fb off data _ _ Hf Ho Hb. cbn [dsize_elem]. pose proof (dsize_bytes_spec data fb off Hf Ho Hb).
    destruct (dsize_bytes data fb off); lia.
  - intros fs IH fb off data We Nd Hf Ho Hb. cbn in We, Nd. destruct We as (We & H8).
    cbn [dsize_elem elem_dyn]. destruct (fields_dyn fs) eqn:D; [|split; [lia|discriminate]].
    set (sub := if off + fb <? zlen data then _ else _).
    assert (Hsub : bytes_ok sub /\ (zlen sub = 0 \/ off + fb + zlen sub = zlen data)).
    { unfold sub. destruct (Z.ltb_spec (off + fb) (zlen data)).
      - split; [apply bytes_ok_skipn; auto|]. rewrite zlen_skipn. lia.
      - split; [constructor|left; reflexivity]. }
    destruct Hsub as (Hbs & Hls).
    specialize (IH 0 0 sub We Nd ltac:(lia) ltac:(lia) Hbs).
    pose proof (fixed_bits_nonneg fs).
    destruct (dsize_fields fs 0 0 sub) as [o|r].
    + destruct IH as (H1 & H2). specialize (H2 eq_refl).
      destruct (Z.ltb_spec (zlen sub) (o + fixed_bits fs / 8)).
      * destruct (Z.ltb_spec (- (o + fixed_bits fs / 8)) 0); lia.
      * destruct (Z.ltb_spec (o + fixed_bits fs / 8) 0); lia.
    + destruct (Z.ltb_spec r 0); lia.
  - intros from off data _ _ _ Ho _. cbn. split; [lia|discriminate].
  - intros e IHe n big r IHr from off data Hwf Nd Hf Ho Hb.
    cbn [wf_fields] in Hwf. destruct Hwf as (We & Wn & Wr). cbn in Nd. destruct Nd as (N1 & N2 & N3).
    cbn [dsize_fields fields_dyn].
    pose proof (one_n e n from We Wn) as Hn.
    assert (Hnf : 0 <= next_from from n) by (unfold next_from; destruct (Z.eqb_spec n (-1)); lia).
    assert (Hstep : match (if n <? 0 then dsize_elem e (from / 8) off data else DOff off) with
      | DOff o => off <= o /\ (elem_dyn e = true -> off < o) | DRet r => r < 0 end).
    { destruct (Z.ltb_spec n 0).
      - specialize (IHe (from / 8) off data We N2 ltac:(lia) Ho Hb).
        destruct (dsize_elem e (from / 8) off data); auto. intuition lia.
      - split; [lia|]. intros D. exfalso. destruct e; cbn in *; try discriminate; try lia.
        rewrite N1 in D. discriminate. }
    destruct (if n <? 0 then _ else _) as [o|x]; [|auto].
    specialize (IHr (next_from from n) o data Wr N3 Hnf ltac:(lia) Hb).
    destruct (dsize_fields r _ o data); auto. destruct Hstep, IHr. split; [lia|].
    intros D. apply orb_true_iff in D as [D|D]; intuition lia.
  - intros e IHe len n big r IHr from off data Hwf Nd Hf Ho Hb.
    cbn [wf_fields] in Hwf. destruct Hwf as (We & Wl & Wn & Wr). fold (arr_ok e len n from) in Wn.
    cbn in Nd. destruct Nd as (N2 & N3).
    cbn [dsize_fields fields_dyn].
    pose proof (arr_n e len n from We Wn) as Hn.
    assert (Hnf : 0 <= next_from from n) by (unfold next_from; destruct (Z.eqb_spec n (-1)); lia).
    assert (Hstep : match (if n <? 0 then iter_dsize (fun o => dsize_elem e (from / 8) o data) len off else DOff off) with
      | DOff o => off <= o /\ (elem_dyn e = true -> off < o) | DRet r => r < 0 end).
    { destruct (Z.ltb_spec n 0).
      - pose proof (iter_dsize_ok (fun o => dsize_elem e (from / 8) o data) (elem_dyn e) len off) as Hi.
        destruct (iter_dsize _ len off).
        + destruct Hi; [|auto].
          intros o Ho'. specialize (IHe (from / 8) o data We N2 ltac:(lia) ltac:(lia) Hb).
          destruct (dsize_elem e (from / 8) o data); intuition lia.
        + apply Hi. intros o Ho'. specialize (IHe (from / 8) o data We N2 ltac:(lia) ltac:(lia) Hb).
          destruct (dsize_elem e (from / 8) o data); intuition lia.
      - split; [lia|]. intros D. exfalso. unfold arr_ok in Wn.
        destruct e; cbn in *; try discriminate; try lia. rewrite D in Wn. lia. }
    destruct (if n <? 0 then _ else _) as [o|x]; [|auto].
    specialize (IHr (next_from from n) o data Wr N3 Hnf ltac:(lia) Hb).
    destruct (dsize_fields r _ o data); auto. destruct Hstep, IHr. split; [lia|].
    intros D. apply orb_true_iff in D as [D|D]; intuition lia.
  - intros n r IHr from off data Hwf Nd Hf Ho Hb. cbn [wf_fields nd_fields dsize_fields fields_dyn] in *.
    apply IHr; auto; unfold next_from; destruct (Z.eqb_spec n (-1)); try lia; tauto.
  - intros b n big z r IHr from off data Hwf Nd Hf Ho Hb. cbn [wf_fields nd_fields dsize_fields fields_dyn] in *.
    apply IHr; auto; unfold next_from; destruct (Z.eqb_spec n (-1)); try lia; tauto.
  - intros r IHr from off data Hwf Nd Hf Ho Hb. cbn [wf_fields nd_fields dsize_fields fields_dyn] in *. apply IHr; auto.
Qed.

Lemma dsize_static fs : forall from off data, wf_fields fs from -> fields_dyn fs = false ->
  dsize_fields fs from off data = DOff off.
Proof.
  induction fs; intros from off data Hwf D; cbn [wf_fields fields_dyn dsize_fields] in *; try tauto.
  - apply orb_false_iff in D as (D1 & D2). destruct Hwf as (We & Wn & Wr).
    replace (if bits <? 0 then _ else DOff off) with (DOff off); [auto|].
    destruct (Z.ltb_spec bits 0); auto. exfalso.
    destruct e; cbn in *; try discriminate; try lia. pose proof (fixed_bits_nonneg fs0). lia.
  - apply orb_false_iff in D as (D1 & D2). destruct Hwf as (We & Wl & Wn & Wr). fold (arr_ok e len bits from) in Wn.
    replace (if bits <? 0 then _ else DOff off) with (DOff off); [auto|].
    destruct (Z.ltb_spec bits 0); auto. exfalso.
    destruct (arr_eb e len bits from We Wl Wn D1) as (eb & -> & _ & _ & H1 & _). lia.
  - destruct Hwf as (Hn & Wr). apply IHfs; auto. unfold next_from. destruct (Z.eqb_spec bits (-1)); [lia|auto].
  - destruct Hwf as (Wb & Hn & Wr). apply IHfs; auto. unfold next_from. destruct (Z.eqb_spec bits (-1)); [lia|auto].
  - auto.
Qed.

(** ** The option-free reading function.  [ul len] tells whether arrays of [len] elements go
    through the bit-loop helper, which matters for bools only. *)
Definition num_of (lp : bool) (e : elem) (n p : Z) : Z :=
  match e with
  | EBasic BBool => if lp then (if p =? 0 then 0 else 1) else p
  | EBasic (BInt _) => sext n p
  | _ => p
  end.

Fixpoint rdec_elem (ul : nat -> bool) (lp : bool) (e : elem) (n : Z) (big : bool) (from off : Z)
  (data : list Z) {struct e} : res (val * Z) :=
  match e with
  | EBasic _ | EEnum _ => Ok (VNum (num_of lp e n (read_value data (8 * off + from) n big)), off)
  | EString => dec_string data (from / 8) off
  | EBytes => dec_bytes data (from / 8) off
  | EStruct fs =>
      do (vs, sz) <- dec_nested fs (fun sub => rdec_fields ul fs 0 0 sub) data (off + from / 8);
      Ok (VStruct vs, if fields_dyn fs then off + sz else off)
  end
with rdec_fields (ul : nat -> bool) (fs : fields) (from off : Z) (data : list Z)
  {struct fs} : res (list val * Z) :=
  match fs with
  | FNil => Ok ([], off)
  | FOne e n big r =>
      do (v, o) <- rdec_elem ul false e n big from off data;
      do (vs, o') <- rdec_fields ul r (next_from from n) o data;
      Ok (v :: vs, o')
  | FArr e len n big r =>
      let eb := n / Z.of_nat len in
      do (arr, o) <- iter_dec (fun i o =>
          rdec_elem ul (ul len) e eb big (from + (if elem_dyn e then 0 else i * eb)) o data) len 0 off;
      do (vs, o') <- rdec_fields ul r (next_from from n) o data;
      Ok (VArr arr :: vs, o')
  | FVoid n r => rdec_fields ul r (next_from from n) off data
  | FConst b n big z r =>
      if const_num b n (read_value data (8 * off + from) n big) =? z
      then rdec_fields ul r (next_from from n) off data else Fail
  | FEmb r => rdec_fields ul r from off data
  end.

Definition safe {A} (r : res (A * Z)) (o : Z) : Prop :=
  match r with Ok (_, o') => o' = o | Fail => True | Panic => False end.

Lemma iter_dec_safe (f g : Z -> Z -> res (val * Z)) (d : Z -> dstep) (K : Z -> Prop) (N : Z) :
  (forall i o o', 0 <= i < N -> K o -> d o = DOff o' -> f i o = g i o /\ safe (g i o) o' /\ K o') ->
  forall n i off o, 0 <= i -> i + Z.of_nat n <= N -> K off -> iter_dsize d n off = DOff o ->
    iter_dec f n i off = iter_dec g n i off /\ safe (iter_dec g n i off) o /\ K o.
Proof.
  intros Hf. induction n; intros i off o Hi HN HK E; cbn [iter_dsize iter_dec] in *.
  - inversion E; subst. cbn. auto.
  - destruct (d off) as [o1|] eqn:E1; [|discriminate].
    destruct (Hf i off o1 ltac:(lia) HK E1) as (H1 & H2 & H3). rewrite H1.
    destruct (IHn (i + 1) o1 o ltac:(lia) ltac:(lia) H3 E) as (H4 & H5 & H6).
    destruct (g i off) as [[v o2]| |]; cbn in H2 |- *; auto; try contradiction.
    subst o2. rewrite H4. split; auto. split; auto.
    destruct (iter_dec g n (i + 1) o1) as [[vs o3]| |]; cbn in H5 |- *; auto.
Qed.

Lemma iter_dsize_const n off : iter_dsize (fun o => DOff o) n off = DOff off.
Proof. induction n; cbn; auto. Qed.

Lemma dec_value_num c b n p : wf_basic b -> 1 <= n <= basic_bits b -> 0 <= p < 2 ^ n ->
  dec_value c b n p = num_of false (EBasic b) n p.
Proof. intros Wb Hn Hp. destruct b; cbn in *; auto. apply dec_int_ok; lia. Qed.

Lemma scalar_safe c dyn e w n big from off data : wf_elem e -> is_fixed_scalar e = true ->
  slot_ok e w n from -> 0 <= from -> offk dyn off -> bytes_ok data ->
  8 * off + from + n <= 8 * zlen data ->
  dec_elem c dyn e w n big from off data =
    Ok (VNum (num_of false e n (read_value data (8 * off + from) n big)), off).
Proof.
  intros We Sc So Hf Hk Hb Hl. pose proof (offk_base _ _ Hk) as Hbase. destruct Hk as (Hk & _).
  destruct e; cbn in Sc; try discriminate; cbn [dec_elem slot_ok] in *; rewrite Hbase.
  - pose proof (basic_bits_range b We).
    rewrite dec_pattern_ok by (auto; lia). cbn [bind].
    rewrite dec_value_num; auto. apply read_value_bound. lia.
  - destruct So as (Hu & Hn). rewrite Hu. apply has_uint_range in Hu.
    rewrite dec_pattern_ok by (auto; lia). reflexivity.
Qed.

Lemma loop_num c e n v : wf_elem e -> is_fixed_scalar e = true -> 1 <= n <= elem_bits e ->
  0 <= v < 2 ^ n -> loop_dec_value c e n v = num_of true e n v.
Proof.
  intros We Sc Hn Hv. destruct e; cbn in Sc; try discriminate.
  - destruct b.
    + reflexivity.
    + cbn [elem_bits basic_bits] in Hn. cbn. apply Z.mod_small.
      pose proof (Z.pow_le_mono_r 2 n w ltac:(lia) ltac:(lia)). lia.
    + cbn in We, Hn. apply loop_int_ok; auto; lia.
    + cbn [elem_bits basic_bits] in Hn. cbn. apply Z.mod_small.
      pose proof (Z.pow_le_mono_r 2 n w ltac:(lia) ltac:(lia)). lia.
  - cbn [loop_dec_value num_of]. cbn in We. cbn [elem_bits] in Hn.
    destruct (enum_temp_ok bits We). apply Z.mod_small.
    pose proof (Z.pow_le_mono_r 2 n (enum_temp_bits bits) ltac:(lia) ltac:(lia)). lia.
Qed.

Definition SafeE (e : elem) : Prop := forall c dyn w n big from off data o lp,
  wf_elem e -> nd_elem e -> go_ok_elem c e -> slot_ok e w n from -> 0 <= from -> offk dyn off ->
  (elem_dyn e = true -> dyn = true) -> bytes_ok data ->
  (lp = true -> is_fixed_scalar e = false) ->
  (if elem_dyn e then dsize_elem e (from / 8) off data = DOff o
   else o = off /\ 8 * off + from + slot e n <= 8 * zlen data) ->
  dec_elem c dyn e w n big from off data = rdec_elem (use_loop c) lp e n big from off data /\
  safe (rdec_elem (use_loop c) lp e n big from off data) o.

Definition SafeF (fs : fields) : Prop := forall c dyn from off data o,
  wf_fields fs from -> nd_fields fs -> go_ok c fs -> 0 <= from -> offk dyn off ->
  (fields_dyn fs = true -> dyn = true) -> bytes_ok data ->
  dsize_fields fs from off data = DOff o -> 8 * o + from + fixed_bits fs <= 8 * zlen data ->
  dec_fields c dyn fs from off data = rdec_fields (use_loop c) fs from off data /\
  safe (rdec_fields (use_loop c) fs from off data) o.

Lemma rdec_elem_n ul lp lp' e n n' big big' from off data : is_fixed_scalar e = false ->
  rdec_elem ul lp e n big from off data = rdec_elem ul lp' e n' big' from off data.
Proof. destruct e; cbn; try discriminate; reflexivity. Qed.

Lemma dec_elem_n c dyn e w n w' n' big big' from off data : is_fixed_scalar e = false ->
  dec_elem c dyn e w n big from off data = dec_elem c dyn e w' n' big' from off data.
Proof. destruct e; cbn; try discriminate; reflexivity. Qed.

Lemma slot_nonneg e n : 0 <= n -> wf_elem e -> 0 <= slot e n.
Proof.
  intros Hn We. unfold slot. destruct (is_fixed_scalar e) eqn:S; auto.
  destruct (elem_dyn e) eqn:D; [lia|]. apply not_scalar_bits_nonneg; auto.
Qed.

Lemma const_value_num b n p : wf_basic b -> 1 <= n <= basic_bits b -> 0 <= p < 2 ^ n -> const_value b n p = const_num b n p.
Proof.
  intros Wb Hn Hp. destruct b as [| |w|]; auto. cbn [basic_bits const_value const_num] in *.
  destruct (Z.ltb_spec n w).
  - rewrite shiftl1 by lia. rewrite xor_sub by lia. reflexivity.
  - assert (n = w) by lia. subst n. rewrite sext_mod by lia. symmetry. apply Z.mod_small. lia.
Qed.

Lemma dec_safe : (forall e, SafeE e) /\ (forall fs, SafeF fs).
Proof.
  apply schema_ind; unfold SafeE, SafeF.
  - intros b c dyn w n big from off data o lp We _ _ So Hf Hk _ Hb Hlp (-> & Hl).
    unfold slot in Hl. cbn [is_fixed_scalar] in Hl.
    destruct lp; [specialize (Hlp eq_refl); discriminate|].
    rewrite scalar_safe by auto. cbn [rdec_elem safe]. auto.
  - intros b c dyn w n big from off data o lp We _ _ So Hf Hk _ Hb Hlp (-> & Hl).
    unfold slot in Hl. cbn [is_fixed_scalar] in Hl.
    destruct lp; [specialize (Hlp eq_refl); discriminate|].
    rewrite scalar_safe by auto. cbn [rdec_elem safe]. auto.
  - intros c dyn w n big from off data o lp _ _ _ So Hf Hk _ Hb _ E.
    cbn [elem_dyn dsize_elem dec_elem rdec_elem] in *. split; auto.
    unfold dsize_string, dec_string in *. destruct (str_scan _ 0); [|discriminate]. cbn. congruence.
  - intros c dyn w n big from off data o lp _ _ _ So Hf Hk _ Hb _ E.
    cbn [elem_dyn dsize_elem dec_elem rdec_elem] in *. split; auto. destruct Hk as (Hk & _).
    unfold dsize_bytes, dec_bytes in *.
    destruct (vi_scan _ 0 0 0) as [v cnt| |] eqn:Ev; try discriminate.
    apply vi_scan_done in Ev; try lia; [|apply bytes_ok_skipn; auto].
    destruct Ev as (Hc & Hv & Ed). rewrite Ed. cbn [bind].
    destruct (max_int <? v); [discriminate|].
    destruct (Z.ltb_spec (zlen data - (off + cnt + from / 8)) v).
    { destruct (max_int - _ <? v); discriminate. }
    destruct (Z.ltb_spec v 0); [lia|].
    destruct (Z.ltb_spec (zlen data) (off + cnt + from / 8 + v)); [lia|]. cbn. congruence.
  - intros fs IH c dyn w n big from off data o lp We Nd Hg So Hf Hk Hd Hb _ Hds.
    cbn in We, Nd, Hg, So. destruct We as (We & H8).
    cbn [elem_dyn dsize_elem dec_elem rdec_elem] in *. rewrite (offk_base _ _ Hk).
    destruct Hk as (Hk & _). unfold dec_nested.
    destruct (Z.ltb_spec (off + from / 8) 0); [lia|].
    pose proof (fixed_bits_nonneg fs).
    destruct (fields_dyn fs) eqn:D.
    + set (sub := if off + from / 8 <? zlen data then _ else _) in *.
      assert (Hbs : bytes_ok sub).
      { unfold sub. destruct (off + from / 8 <? zlen data); [apply bytes_ok_skipn; auto|constructor]. }
      pose proof (proj2 dsize_progress fs 0 0 sub We Nd ltac:(lia) ltac:(lia) Hbs) as Hp.
      destruct (dsize_fields fs 0 0 sub) as [o1|x] eqn:E1.
      2:{ destruct (Z.ltb_spec x 0); [discriminate|lia]. }
      destruct Hp as (Hp1 & Hp2). specialize (Hp2 D).
      destruct (Z.ltb_spec (zlen sub) (o1 + fixed_bits fs / 8)).
      { destruct (Z.ltb_spec (- (o1 + fixed_bits fs / 8)) 0); [discriminate|lia]. }
      destruct (Z.ltb_spec (o1 + fixed_bits fs / 8) 0); [lia|]. inversion Hds; subst o; clear Hds.
      unfold sub in *. clear sub.
      destruct (Z.ltb_spec (off + from / 8) (zlen data)).
      2:{ unfold zlen in *. cbn in *. lia. }
      destruct (Z.ltb_spec (zlen data) (off + from / 8)); [lia|]. cbn [orb].
      destruct (IH c true 0 0 (skipn (Z.to_nat (off + from / 8)) data) o1) as (H6 & H7); auto; try lia.
      { split; [lia|auto]. }
      unfold decode_size. rewrite E1.
      destruct (Z.ltb_spec (zlen (skipn (Z.to_nat (off + from / 8)) data)) (o1 + fixed_bits fs / 8)); [lia|].
      destruct (Z.ltb_spec (o1 + fixed_bits fs / 8) 0); [lia|].
      rewrite H6. split; auto.
      destruct (rdec_fields _ fs 0 0 _) as [[vs o2]| |]; cbn in H7 |- *; auto. subst; lia.
    + destruct Hds as (-> & Hl). unfold slot in Hl. cbn [is_fixed_scalar elem_dyn elem_bits] in Hl. rewrite D in Hl.
      destruct (Z.ltb_spec (zlen data) (off + from / 8)); [lia|]. cbn [orb].
      unfold decode_size. rewrite dsize_static by auto.
      destruct (Z.ltb_spec (zlen (skipn (Z.to_nat (off + from / 8)) data)) (0 + fixed_bits fs / 8)) as [Hx|Hx].
      { rewrite zlen_skipn in Hx. lia. }
      destruct (Z.ltb_spec (0 + fixed_bits fs / 8) 0); [lia|].
      destruct (IH c false 0 0 (skipn (Z.to_nat (off + from / 8)) data) 0) as (H6 & H7); auto; try lia; try congruence; try (apply bytes_ok_skipn; auto); try (apply dsize_static; auto).
      { split; [lia|auto]. }
      rewrite H6. split; auto.
      destruct (rdec_fields _ fs 0 0 _) as [[vs o2]| |]; cbn in H7 |- *; auto.
  - intros c dyn from off data o _ _ _ Hf Hk _ Hb E Hl. cbn in E |- *. split; auto. congruence.
  - (* FOne *)
    intros e IHe n big r IHr c dyn from off data o Hwf Nd Hg Hf Hk Hd Hb E Hl.
    cbn [wf_fields] in Hwf. destruct Hwf as (We & Wn & Wr). cbn in Nd. destruct Nd as (N1 & N2 & N3).
    cbn in Hg. destruct Hg as (Ge & Gr).
    cbn [dsize_fields fields_dyn fixed_bits dec_fields rdec_fields] in *.
    pose proof (one_n e n from We Wn) as Hn. pose proof (fixed_bits_nonneg r).
    assert (Hnf : 0 <= next_from from n) by (unfold next_from; destruct (Z.eqb_spec n (-1)); lia).
    assert (Hso : slot_ok e (enum_temp_bits n) n from).
    { destruct e; cbn [slot_ok is_fixed_scalar elem_bits] in *; try tauto. cbn in We. destruct (enum_temp_ok n); [lia|].
      split; auto; lia. }
    assert (Hde : elem_dyn e = true -> dyn = true) by (intros D; apply Hd; rewrite D; reflexivity).
    assert (Hdr : fields_dyn r = true -> dyn = true) by (intros D; apply Hd; rewrite D; apply orb_true_r).
    destruct (if n <? 0 then dsize_elem e (from / 8) off data else DOff off) as [o1|] eqn:E1; [|discriminate].
    assert (Ho1 : off <= o1 /\ (elem_dyn e = false -> o1 = off)).
    { destruct (Z.ltb_spec n 0).
      - pose proof (proj1 dsize_progress e (from / 8) off data We N2 ltac:(lia) ltac:(destruct Hk; lia) Hb) as Hp.
        rewrite E1 in Hp. split; [lia|]. intros D. exfalso.
        destruct e; cbn in *; try discriminate; lia.
      - inversion E1; subst. split; [lia|auto]. }
    destruct Ho1 as (Ho1 & Hst).
    assert (Hk1 : offk dyn o1).
    { replace o1 with (off + (o1 - off)) by lia. apply offk_dyn with (d := elem_dyn e); auto; [lia|].
      intros D. rewrite (Hst D). lia. }
    pose proof (proj2 dsize_progress r (next_from from n) o1 data Wr N3 Hnf ltac:(destruct Hk1; lia) Hb) as Hp.
    rewrite E in Hp. destruct Hp as (Hp & _).
    destruct (IHe c dyn (enum_temp_bits n) n big from off data o1 false) as (H1 & H2); auto; try discriminate.
    { destruct (elem_dyn e) eqn:D.
      - destruct (Z.ltb_spec n 0); auto. exfalso. destruct e; cbn in *; try discriminate; try lia. congruence.
      - split; auto. unfold slot. rewrite D.
        assert (Hn0 : 0 <= n /\ (if is_fixed_scalar e then n else elem_bits e) = n).
        { destruct e; cbn in *; try discriminate; try (split; auto; lia);
          destruct Wn as (_ & ->); split; auto; apply fixed_bits_nonneg. }
        destruct Hn0 as (Hn0 & Hn1). rewrite Hn1. rewrite if_pos in Hl by lia. lia. }
    rewrite H1.
    destruct (rdec_elem (use_loop c) false e n big from off data) as [[v o2]| |]; cbn in H2; try contradiction; cbn [bind]; [|cbn; auto].
    subst o2.
    destruct (IHr c dyn (next_from from n) o1 data o) as (H3 & H4); auto.
    { unfold next_from. destruct (Z.eqb_spec n (-1)).
      - subst. cbn [Z.ltb Z.compare] in Hl. lia.
      - rewrite if_pos in Hl by lia. lia. }
    rewrite H3. split; auto.
    destruct (rdec_fields _ r _ o1 data) as [[vs o3]| |]; cbn in H4 |- *; auto.
  - (* FArr *)
    intros e IHe len n big r IHr c dyn from off data o Hwf Nd Hg Hf Hk Hd Hb E Hl.
    cbn [wf_fields] in Hwf. destruct Hwf as (We & Wl & Wn & Wr). fold (arr_ok e len n from) in Wn.
    cbn in Nd. destruct Nd as (N2 & N3).
    cbn in Hg. destruct Hg as (Ge & Gu & Gr).
    cbn [dsize_fields fields_dyn fixed_bits dec_fields rdec_fields] in *.
    pose proof (arr_n e len n from We Wn) as Hn. pose proof (fixed_bits_nonneg r).
    assert (Hnf : 0 <= next_from from n) by (unfold next_from; destruct (Z.eqb_spec n (-1)); lia).
    assert (Hde : elem_dyn e = true -> dyn = true) by (intros D; apply Hd; rewrite D; reflexivity).
    assert (Hdr : fields_dyn r = true -> dyn = true) by (intros D; apply Hd; rewrite D; apply orb_true_r).
    destruct (if n <? 0 then _ else DOff off) as [o1|] eqn:E1; [|discriminate].
    assert (Hok : 0 <= off) by (destruct Hk; auto).
    set (D1 := if use_loop c len then _ else _).
    assert (Harr : off <= o1 /\ offk dyn o1 /\
      (o1 <= o -> 
       D1 = iter_dec (fun i o => rdec_elem (use_loop c) (use_loop c len) e (n / Z.of_nat len) big
               (from + (if elem_dyn e then 0 else i * (n / Z.of_nat len))) o data) len 0 off /\
       safe (iter_dec (fun i o => rdec_elem (use_loop c) (use_loop c len) e (n / Z.of_nat len) big
               (from + (if elem_dyn e then 0 else i * (n / Z.of_nat len))) o data) len 0 off) o1)).
    { destruct (elem_dyn e) eqn:D.
      - assert (Sc : is_fixed_scalar e = false) by (destruct e; cbn in D; try discriminate; reflexivity).
        unfold arr_ok in Wn. rewrite Sc, D in Wn. destruct Wn as (Hm & ->).
        cbn [Z.ltb Z.compare] in E1.
        assert (Hstep : forall w eb i o o', 0 <= i < Z.of_nat len -> offk dyn o -> i * eb = 0 ->
          dsize_elem e (from / 8) o data = DOff o' ->
          dec_elem c dyn e w eb big (from + i * eb) o data = rdec_elem (use_loop c) (use_loop c len) e (-1 / Z.of_nat len) big (from + 0) o data /\
          safe (rdec_elem (use_loop c) (use_loop c len) e (-1 / Z.of_nat len) big (from + 0) o data) o' /\ offk dyn o').
        { intros w eb i o0 o' Hi Ho Hz Eo. rewrite Hz, Z.add_0_r.
          pose proof (proj1 dsize_progress e (from / 8) o0 data We N2 ltac:(lia) ltac:(destruct Ho; lia) Hb) as Hp.
          rewrite Eo in Hp.
          rewrite (dec_elem_n c dyn e w eb w (-1 / Z.of_nat len) big big) by auto.
          destruct (IHe c dyn w (-1 / Z.of_nat len) big from o0 data o' (use_loop c len)) as (H1 & H2); auto.
          { destruct e; cbn in Sc; try discriminate; cbn; auto. }
          split; auto. split; auto.
          replace o' with (o0 + (o' - o0)) by lia. apply offk_dyn with (d := true); auto; try lia; try discriminate. }
        assert (Hall : off <= o1 /\ offk dyn o1 /\ D1 = iter_dec (fun i o => rdec_elem (use_loop c) (use_loop c len) e (-1 / Z.of_nat len) big (from + 0) o data) len 0 off /\
           safe (iter_dec (fun i o => rdec_elem (use_loop c) (use_loop c len) e (-1 / Z.of_nat len) big (from + 0) o data) len 0 off) o1).
        2:{ tauto. }
        split.
        { pose proof (iter_dsize_ok (fun o => dsize_elem e (from / 8) o data) true len off) as Hi.
          rewrite E1 in Hi. apply Hi. intros o0 Ho0.
          pose proof (proj1 dsize_progress e (from / 8) o0 data We N2 ltac:(lia) ltac:(lia) Hb) as Hp.
          destruct (dsize_elem e (from / 8) o0 data); intuition lia. }
        unfold D1. rewrite ?D. destruct (use_loop c len) eqn:UL.
        + destruct (iter_dec_safe (fun _ o => dec_elem c dyn e (8 * ((elem_bits e + 7) / 8)) (Z.quot (-1) (Z.of_nat len)) big from o data)
            (fun _ o => rdec_elem (use_loop c) true e (-1 / Z.of_nat len) big (from + 0) o data)
            (fun o => dsize_elem e (from / 8) o data) (offk dyn) (Z.of_nat len)) with (n := len) (i := 0) (off := off) (o := o1) as (H1 & H2 & H3); auto; try lia.
          intros i o0 o' Hi Ho Eo.
          destruct (Hstep (8 * ((elem_bits e + 7) / 8)) (Z.quot (-1) (Z.of_nat len)) 0 o0 o') as (H1 & H2 & H3); auto; try lia.
          rewrite Z.mul_0_l in H1. rewrite Z.add_0_r in *. auto.
        + destruct (iter_dec_safe (fun i o => dec_elem c dyn e (8 * ((elem_bits e + 7) / 8)) (Z.quot (-1) (Z.of_nat len)) big (from + i * Z.quot (-1) (Z.of_nat len)) o data)
            (fun _ o => rdec_elem (use_loop c) false e (-1 / Z.of_nat len) big (from + 0) o data)
            (fun o => dsize_elem e (from / 8) o data) (offk dyn) (Z.of_nat len)) with (n := len) (i := 0) (off := off) (o := o1) as (H1 & H2 & H3); auto; try lia.
          intros i o0 o' Hi Ho Eo. apply Hstep; auto. apply quot_m1; auto.
      - destruct (arr_eb e len n from We Wl Wn D) as (eb & Hn' & Hq & Hdv & Heb & Hcase).
        assert (Hn0 : 0 <= n) by lia.
        destruct (Z.ltb_spec n 0); [lia|]. inversion E1; subst o1; clear E1.
        split; [lia|]. split; auto. intros Hoo.
        rewrite if_pos in Hl by lia. rewrite Hdv.
        pose proof (offk_base _ _ Hk) as Hbase.
        assert (Hin : forall i, 0 <= i < Z.of_nat len -> 8 * off + (from + i * eb) + eb <= 8 * zlen data /\ 0 <= i * eb).
        { intros i Hi. split; [|nia]. subst n. assert ((i + 1) * eb <= Z.of_nat len * eb) by (apply Z.mul_le_mono_nonneg_r; lia). lia. }
        assert (Hm8 : is_fixed_scalar e = false -> forall i, (from + i * eb) mod 8 = 0).
        { intros S i. rewrite S in Hcase. destruct Hcase as (_ & Hm & He).
          rewrite Z.add_mod, Z.mul_mod, He, Z.mul_0_r, Z.mod_0_l, Z.add_0_r, Z.mod_mod by lia. exact Hm. }
        set (K := fun o => o = off).
        assert (Hgen : forall f g,
          (forall i, 0 <= i < Z.of_nat len -> f i off = g i off /\ safe (g i off) off) ->
          iter_dec f len 0 off = iter_dec g len 0 off /\ safe (iter_dec g len 0 off) off).
        { intros f g Hfg.
          destruct (iter_dec_safe f g (fun o => DOff o) K (Z.of_nat len)) with (n := len) (i := 0) (off := off) (o := off) as (H1 & H2 & _); auto; try lia.
          - unfold K. intros i o0 o' Hi -> Eo. inversion Eo; subst. destruct (Hfg i Hi). auto.
          - reflexivity.
          - apply iter_dsize_const. }
        unfold D1. rewrite ?D, Hq. destruct (use_loop c len) eqn:UL.
        + destruct (is_fixed_scalar e) eqn:S.
          * assert (Hbits : 1 <= eb <= 64).
            { destruct e; cbn in S; try discriminate; cbn in We, Hcase; [|lia].
              pose proof (basic_bits_range b We). lia. }
            assert (Hg1 : iter_dec (fun i o => do v <- read_field_bits (8 * (if dyn then off else 0) + (from + i * eb)) eb big data; Ok (VNum (loop_dec_value c e eb v), o)) len 0 off
               = iter_dec (fun i o => rdec_elem (use_loop c) true e eb big (from + i * eb) o data) len 0 off /\
               safe (iter_dec (fun i o => rdec_elem (use_loop c) true e eb big (from + i * eb) o data) len 0 off) off).
            { apply Hgen. intros i Hi. destruct (Hin i Hi). rewrite Hbase.
              rewrite read_field_bits_ok by (auto; lia). cbn [bind].
              rewrite loop_num by (auto; apply read_value_bound; lia).
              destruct e; cbn in S; try discriminate; cbn [rdec_elem safe]; auto. }
            destruct e; cbn in S; try discriminate; exact Hg1.
          * destruct e; cbn in S, D; try discriminate. apply Hgen. intros i Hi. destruct (Hin i Hi).
            destruct (IHe c dyn 0 eb big (from + i * eb) off data off true) as (H6 & H7); auto.
            { cbn. auto. }
            { lia. }
            { cbn [elem_dyn]. rewrite ?D. split; auto. unfold slot. cbn [is_fixed_scalar elem_dyn]. rewrite ?D.
              destruct Hcase as (<- & _). lia. }
            split; auto. rewrite <- H6. cbn [dec_elem]. rewrite Hbase, D.
            destruct Hcase as (_ & Hm & He).
            replace (off + from / 8 + i * (eb / 8)) with (off + (from + i * eb) / 8).
            2:{ assert (Heq : i * eb = 8 * (i * (eb / 8))) by lia. lia. }
            reflexivity.
        + apply Hgen. intros i Hi. destruct (Hin i Hi). apply IHe; auto; try lia; try discriminate.
          * destruct (is_fixed_scalar e) eqn:S.
            -- destruct e; cbn in S; try discriminate; cbn [slot_ok elem_bits] in *; auto.
               destruct Gu as [Gu|Gu]; [discriminate|]. split; auto. lia.
            -- destruct e; cbn in S, D; try discriminate; cbn; auto.
          * rewrite ?D. split; auto. unfold slot. rewrite ?D. destruct (is_fixed_scalar e); [lia|].
            destruct Hcase as (<- & _). lia. }
    destruct Harr as (Ho1 & Hk1 & Harr).
    pose proof (proj2 dsize_progress r (next_from from n) o1 data Wr N3 Hnf ltac:(lia) Hb) as Hp.
    rewrite E in Hp. destruct Hp as (Hp & _). destruct (Harr Hp) as (H1 & H2). rewrite H1. clear H1 Harr D1.
    destruct (iter_dec _ len 0 off) as [[arr o2]| |]; cbn in H2; try contradiction; cbn [bind]; try (split; [reflexivity|exact I]).
    subst o2.
    destruct (IHr c dyn (next_from from n) o1 data o) as (H3 & H4); auto.
    { unfold next_from. destruct (Z.eqb_spec n (-1)).
      - subst. cbn [Z.ltb Z.compare] in Hl. lia.
      - rewrite if_pos in Hl by lia. lia. }
    rewrite H3. split; auto.
    destruct (rdec_fields _ r _ o1 data) as [[vs o3]| |]; cbn in H4 |- *; auto.
  - intros n r IHr c dyn from off data o Hwf Nd Hg Hf Hk Hd Hb E Hl.
    cbn [wf_fields nd_fields go_ok dsize_fields fields_dyn fixed_bits dec_fields rdec_fields] in *.
    destruct Hwf as (Hn & Wr). rewrite if_pos in Hl by lia.
    unfold next_from in *. destruct (Z.eqb_spec n (-1)); [lia|]. apply IHr; auto; lia.
  - intros b n big z r IHr c dyn from off data o Hwf Nd Hg Hf Hk Hd Hb E Hl.
    cbn [wf_fields nd_fields go_ok dsize_fields fields_dyn fixed_bits dec_fields rdec_fields] in *.
    destruct Hwf as (Wb & Hn & Wr). rewrite if_pos in Hl by lia. pose proof (fixed_bits_nonneg r).
    unfold next_from in *. destruct (Z.eqb_spec n (-1)); [lia|].
    pose proof (basic_bits_range b Wb). rewrite (offk_base _ _ Hk).
    pose proof (proj2 dsize_progress r (from + n) off data Wr Nd ltac:(lia) ltac:(destruct Hk; lia) Hb) as Hp.
    rewrite E in Hp.
    destruct Hg as (Hc & Hg). rewrite Hc.
    rewrite dec_pattern_ok; auto; try lia; try (destruct Hk; lia). cbn [bind].
    rewrite const_value_num by (auto; apply read_value_bound; lia).
    destruct (_ =? z); [|cbn; auto]. apply IHr; auto; lia.
  - intros r IHr c dyn from off data o Hwf Nd Hg Hf Hk Hd Hb E Hl.
    cbn [wf_fields nd_fields go_ok dsize_fields fields_dyn fixed_bits dec_fields rdec_fields] in *.
    apply IHr; auto.
Qed.
