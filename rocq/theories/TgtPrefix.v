(** Every target's decodeSize agrees with the Go target's on every prefix of a message. *)
From Coq Require Import ZArith List Lia Bool.
From Verif Require Import Base BaseProofs Schema SpecWire GoModel GoBitProofs GoEncProofs GoEncMain GoDecProofs GoRound GoPrefix GoCore
  CfBitProofs TgtModel TgtEncProofs TgtDecProofs TgtPrims PyTarget KtTarget CTarget JavaTarget CsTarget JsTarget.
Import ListNotations.
Open Scope Z_scope.
Ltac Zify.zify_post_hook ::= Z.to_euclidean_division_equations.

(** ** Reading a length from a prefix *)
Lemma vi_scan_cut rest : forall shift acc cnt k v c, vi_scan rest shift acc cnt = VDone v c ->
  cnt < c /\
  vi_scan (firstn k rest) shift acc cnt = if cnt + Z.of_nat k <? c then VMore (cnt + Z.of_nat k) else VDone v c.
Proof.
  induction rest as [|b rest IH]; intros shift acc cnt k v c E; cbn [vi_scan] in E; [discriminate|].
  assert (Hc : cnt < c).
  { destruct (Z.land b 128 =? 0), (63 <=? shift); try discriminate; [injection E as <- <-; lia|].
    apply (IH _ _ _ O) in E. lia. }
  split; [exact Hc|]. destruct k; cbn [firstn vi_scan].
  - destruct (Z.ltb_spec (cnt + Z.of_nat 0) c); [f_equal; lia|lia].
  - destruct (Z.land b 128 =? 0), (63 <=? shift); try discriminate.
    + injection E as <- <-. destruct (Z.ltb_spec (cnt + Z.of_nat (S k)) (cnt + 1)); [lia|reflexivity].
    + apply (IH _ _ _ k) in E. destruct E as (_ & ->). replace (cnt + 1 + Z.of_nat k) with (cnt + Z.of_nat (S k)) by lia. reflexivity.
Qed.

Lemma g_scan_cut early put bad rest : forall shift acc cnt k v c, g_scan early put bad rest shift acc cnt = Ok (VDone v c) ->
  cnt < c /\
  g_scan early put bad (firstn k rest) shift acc cnt = Ok (if cnt + Z.of_nat k <? c then VMore (cnt + Z.of_nat k) else VDone v c).
Proof.
  induction rest as [|b rest IH]; intros shift acc cnt k v c E; cbn [g_scan] in E.
  { destruct (early && bad shift); discriminate. }
  destruct (early && bad shift) eqn:Eb; [discriminate|]. destruct (bad shift) eqn:Bs; [discriminate|].
  destruct (put acc (Z.land b 127) shift) as [a'| |] eqn:Ep; cbn [bind] in E; try discriminate.
  assert (Hc : cnt < c).
  { destruct (Z.land b 128 =? 0); try discriminate; [injection E as <- <-; lia|].
    apply (IH _ _ _ O) in E. lia. }
  split; [exact Hc|]. destruct k; cbn [firstn g_scan]; rewrite Bs, andb_false_r.
  - destruct (Z.ltb_spec (cnt + Z.of_nat 0) c); [do 2 f_equal; lia|lia].
  - rewrite Ep. cbn [bind]. destruct (Z.land b 128 =? 0).
    + injection E as <- <-. destruct (Z.ltb_spec (cnt + Z.of_nat (S k)) (cnt + 1)); [lia|reflexivity].
    + apply (IH _ _ _ k) in E. destruct E as (_ & ->). replace (cnt + 1 + Z.of_nat k) with (cnt + Z.of_nat (S k)) by lia. reflexivity.
Qed.

Lemma js_scan_cut rest : forall shift acc cnt k v c, js_scan rest shift acc cnt = VDone v c ->
  cnt < c /\
  js_scan (firstn k rest) shift acc cnt = if cnt + Z.of_nat k <? c then VMore (cnt + Z.of_nat k) else VDone v c.
Proof.
  induction rest as [|b rest IH]; intros shift acc cnt k v c E; cbn [js_scan] in E; [discriminate|].
  destruct ((shift =? 28) && negb (Z.land b 240 =? 0)) eqn:Eb; [discriminate|].
  assert (Hc : cnt < c).
  { destruct (Z.land b 128 =? 0); [injection E as <- <-; lia|]. destruct (28 <? shift + 7); [discriminate|].
    apply (IH _ _ _ O) in E. lia. }
  split; [exact Hc|]. destruct k; cbn [firstn js_scan].
  - destruct (Z.ltb_spec (cnt + Z.of_nat 0) c); [f_equal; lia|lia].
  - rewrite Eb. destruct (Z.land b 128 =? 0).
    + injection E as <- <-. destruct (Z.ltb_spec (cnt + Z.of_nat (S k)) (cnt + 1)); [lia|reflexivity].
    + destruct (28 <? shift + 7); [discriminate|].
      apply (IH _ _ _ k) in E. destruct E as (_ & ->). replace (cnt + 1 + Z.of_nat k) with (cnt + Z.of_nat (S k)) by lia. reflexivity.
Qed.


(** Every array of structs of variable size satisfies [P]. *)
Fixpoint dsa_elem (P : Prop) (e : elem) : Prop :=
  match e with EStruct fs => dsa_fields P fs | _ => True end
with dsa_fields (P : Prop) (fs : fields) : Prop :=
  match fs with
  | FNil => True
  | FOne e _ _ r => dsa_elem P e /\ dsa_fields P r
  | FArr e _ _ _ r =>
      (match e with EStruct s => fields_dyn s = true -> P | _ => True end) /\ dsa_elem P e /\ dsa_fields P r
  | FVoid _ r | FConst _ _ _ _ r | FEmb r => dsa_fields P r
  end.

(** What is asked of decodeSize's primitives. *)
Record size_spec (T : tgt) (P : Prop) (mx : Z) : Prop := {
  zs_string : forall data fb off, t_sstring T data fb off = Ok (dsize_string data fb off);
  zs_bytes : forall fb off bs data m, bytes_ok bs -> zlen bs < 2 ^ 63 -> 0 <= fb -> 0 <= off -> bytes_ok data -> zlen data < mx ->
    matches data (8 * (off + fb)) (raw_bytes (varint (zlen bs) ++ bs)) ->
    t_sbytes T (firstn m data) fb off = Ok (dsize_bytes (firstn m data) fb off);
  zs_sub : P -> forall data p, 0 <= p -> t_sub T false data p = Ok (skipn (Z.to_nat p) data);
  zs_top : forall data, t_sub T true data 0 = Ok data
}.

Lemma iter_tds_pref (d : Z -> res dstep) (g h : Z -> dstep) (pos : Z -> Z) (P : val -> Prop) (img : val -> list (option bool))
  (sz : val -> Z) (K : Z -> Prop) data m fb :
  (forall v o, P v -> K o -> matches data (pos o) (img v) -> d o = Ok (g o) /\ h o = DOff (o + sz v) /\ pref m (o + sz v) (o + sz v + fb) (g o)) ->
  (forall v o, P v -> K o -> pos (o + sz v) = pos o + zlen (img v) /\ K (o + sz v) /\ 0 <= pos o) ->
  forall arr o, Forall P arr -> K o -> matches data (pos o) (flat_map img arr) ->
    iter_tds d (length arr) o = Ok (iter_dsize g (length arr) o).
Proof.
  intros Hd Hp. induction arr as [|v arr IH]; intros o HP HK M; cbn [length iter_tds iter_dsize fold_right flat_map] in *.
  - reflexivity.
  - inversion HP; subst. destruct (Hp v o) as (H3 & H4 & H5); auto.
    apply matches_app in M; auto. destruct M as (M1 & M2).
    destruct (Hd v o) as (E1 & E2 & E3); auto. rewrite E1. cbn [bind].
    destruct (g o) as [o'|x]; cbn [pref] in E3; [|reflexivity]. subst o'. apply IH; auto. rewrite H3. exact M2.
Qed.

Section Pref.
  Variable T : tgt.
  Variable P : Prop.
  Variable mx : Z.
  Hypothesis Hmx : mx <= 2 ^ 63.
  Hypothesis ZS : size_spec T P mx.

  Lemma tds_pref :
    (forall e n big v from off data m, wf_elem e -> nd_elem e -> storable_elem e v -> from mod 8 = 0 -> 0 <= from ->
       0 <= off -> bytes_ok data -> zlen data < mx -> elem_dyn e = true ->
       (match e with EStruct s => fields_dyn s = true -> P | _ => True end) -> dsa_elem P e ->
       matches data (8 * off + from) (image_elem e n big v) ->
       tds_elem T e (from / 8) off (firstn m data) = Ok (dsize_elem e (from / 8) off (firstn m data))) /\
    (forall fs vs from off data m, wf_fields fs from -> nd_fields fs -> storable_fields fs vs -> 0 <= from ->
       0 <= off -> bytes_ok data -> zlen data < mx -> dsa_fields P fs ->
       matches data (8 * off + from) (image_fields fs vs) ->
       tds_fields T fs from off (firstn m data) = Ok (dsize_fields fs from off (firstn m data))).
  Proof.
    apply schema_ind.
    - intros b n big v from off data m _ _ _ _ _ _ _ _ D. discriminate.
    - intros b n big v from off data m _ _ _ _ _ _ _ _ D. discriminate.
    - intros n big v from off data m _ _ Sv Hm Hf Ho Hb Hx _ _ _ M. cbn [tds_elem dsize_elem]. apply (zs_string _ _ _ ZS).
    - intros n big v from off data m _ _ Sv Hm Hf Ho Hb Hx _ _ _ M. destruct v; cbn in Sv; try contradiction.
      cbn [image_elem tds_elem dsize_elem] in *. destruct Sv.
      replace (8 * off + from) with (8 * (off + from / 8)) in M by lia.
      apply (zs_bytes _ _ _ ZS _ _ bs); auto; lia.
    - intros fs IH n big v from off data m We Nd Sv Hm Hf Ho Hb Hx D HP Da M.
      destruct v as [| |vs|]; cbn in Sv; try contradiction.
      cbn in We, Nd. destruct We as (We & H8). cbn [elem_dyn] in D.
      cbn [image_elem tds_elem dsize_elem dsa_elem] in *. rewrite D.
      destruct (proj2 sizes fs 0 vs We Sv) as (Sz & _).
      pose proof (proj2 esize_nonneg fs vs). pose proof (fixed_bits_nonneg fs).
      destruct M as (L & M). rewrite Sz in L.
      rewrite (zs_sub _ _ _ ZS (HP D)) by lia. cbn [bind].
      replace (if off + from / 8 <? zlen (firstn m data) then skipn (Z.to_nat (off + from / 8)) (firstn m data) else [])
        with (skipn (Z.to_nat (off + from / 8)) (firstn m data)).
      2:{ destruct (Z.ltb_spec (off + from / 8) (zlen (firstn m data))); [reflexivity|]. apply skipn_all2. unfold zlen in *. lia. }
      rewrite skipn_firstn_comm'.
      set (sub := skipn _ data).
      assert (Mq : matches sub 0 (image_fields fs vs)).
      { apply matches_slice; [unfold zlen in *; lia|].
        replace (8 * Z.of_nat (Z.to_nat (off + from / 8))) with (8 * off + from) by lia.
        split; auto. rewrite Sz. lia. }
      pose proof (zlen_skipn_le data (Z.to_nat (off + from / 8))). fold sub in H1.
      rewrite (IH vs 0 0 sub); auto; try lia; try (apply bytes_ok_skipn; auto).
    - intros vs from off data m _ _ Sv _ Ho _ _ _ _. cbn in *. reflexivity.
    - intros e IHe n big r IHr vs from off data m Hwf Nd Hs Hf Ho Hb Hx Da M.
      cbn [wf_fields] in Hwf. destruct Hwf as (We & Wn & Wr). cbn in Nd. destruct Nd as (N1 & N2 & N3).
      destruct vs as [|v vs]; cbn in Hs; [contradiction|]. destruct Hs as (Sv & Ss).
      pose proof (one_geom e n big from v We Wn Sv off) as G.
      cbn [image_fields tds_fields dsize_fields dsa_fields] in *. destruct Da as (Da1 & Da2). fold (gap e) in M.
      pose proof (one_n e n from We Wn) as Hn.
      assert (Hnf : 0 <= next_from from n) by (unfold next_from; destruct (Z.eqb_spec n (-1)); lia).
      apply matches_app in M; [|lia]. destruct M as (M1 & M2).
      apply matches_app in M2; [|pose proof (zlen_nonneg (image_elem e n big v)); lia]. destruct M2 as (_ & M2).
      pose proof (proj1 esize_nonneg e v).
      assert (M3 : matches data (8 * (off + esize_elem e v) + next_from from n) (image_fields r vs)).
      { rewrite G. replace (8 * off + from + (zlen (image_elem e n big v) + zlen (gap e))) with (8 * off + from + zlen (image_elem e n big v) + zlen (gap e)) by lia. exact M2. }
      destruct (elem_dyn e) eqn:D.
      + assert (Hneg : n < 0 /\ from mod 8 = 0).
        { destruct e; cbn in *; try discriminate; try lia. congruence. }
        destruct Hneg as (Hneg & Hm8). destruct (Z.ltb_spec n 0); [|lia]. cbn [orb].
        assert (Ed : dsize_elem e (from / 8) off data = DOff (off + esize_elem e v))
          by (eapply (proj1 dsize_match); eauto).
        pose proof (proj1 (dsize_pref m) e (from / 8) off data _ We N2 ltac:(lia) Ho Hb ltac:(unfold max_int; lia) D Ed) as Pr.
        rewrite (IHe n big v); auto.
        * cbn [bind]. destruct (dsize_elem e (from / 8) off (firstn m data)) as [o'|x]; cbn [pref] in Pr; [|reflexivity].
          subst o'. apply (IHr vs); auto; lia.
        * destruct e; auto. cbn in D. intros; exfalso. cbn in N1. congruence.
      + rewrite (esize_zero e v) in M3 by auto. rewrite andb_false_r. rewrite orb_false_r.
        assert (Hnn : (n <? 0) = false).
        { destruct (Z.ltb_spec n 0); auto. exfalso. destruct e; cbn in *; try discriminate; try lia;
          pose proof (fixed_bits_nonneg fs); lia. }
        rewrite Hnn. cbn [bind]. rewrite Z.add_0_r in M3. apply (IHr vs); auto.
    - intros e IHe len n big r IHr vs from off data m Hwf Nd Hs Hf Ho Hb Hx Da M.
      cbn [wf_fields] in Hwf. destruct Hwf as (We & Wl & Wn & Wr). fold (arr_ok e len n from) in Wn.
      cbn in Nd. destruct Nd as (N2 & N3).
      destruct vs as [|v vs]; cbn in Hs; [contradiction|]. destruct v as [| | |arr]; try contradiction.
      destruct Hs as (Sl & Sv & Ss).
      pose proof (arr_geom e len n big from arr We Wl Wn Sl Sv off) as G.
      cbn [image_fields tds_fields dsize_fields dsa_fields] in *. destruct Da as (Da0 & Da1 & Da2).
      pose proof (arr_n e len n from We Wn) as Hn.
      assert (Hnf : 0 <= next_from from n) by (unfold next_from; destruct (Z.eqb_spec n (-1)); lia).
      apply matches_app in M; [|lia]. destruct M as (M1 & M2). pose proof (sum_esize_nonneg e arr).
      assert (M3 : matches data (8 * (off + sum_esize e arr) + next_from from n) (image_fields r vs)).
      { rewrite G. exact M2. }
      destruct (elem_dyn e) eqn:D.
      + assert (Sc : is_fixed_scalar e = false) by (destruct e; cbn in D; try discriminate; reflexivity).
        unfold arr_ok in Wn. rewrite Sc, D in Wn. destruct Wn as (Hm & ->). cbn [Z.ltb Z.compare orb].
        assert (Hstep : forall v o, storable_elem e v -> 0 <= o -> 
          matches data (8 * o + from) (image_elem e (-1 / Z.of_nat len) big v) ->
          tds_elem T e (from / 8) o (firstn m data) = Ok (dsize_elem e (from / 8) o (firstn m data)) /\
          dsize_elem e (from / 8) o data = DOff (o + esize_elem e v) /\
          pref m (o + esize_elem e v) (o + esize_elem e v + from / 8) (dsize_elem e (from / 8) o (firstn m data))).
        { intros v o Hv Ho' Mv.
          assert (Ed : dsize_elem e (from / 8) o data = DOff (o + esize_elem e v)) by (eapply (proj1 dsize_match); eauto).
          repeat split; auto.
          - eapply IHe; eauto.
          - apply (proj1 (dsize_pref m)); auto; [lia|unfold max_int; lia]. }
        assert (Hpos : forall v o, storable_elem e v -> 0 <= o ->
          8 * (o + esize_elem e v) + from = 8 * o + from + zlen (image_elem e (-1 / Z.of_nat len) big v) /\
          0 <= o + esize_elem e v /\ 0 <= 8 * o + from).
        { intros v o Hv Ho'. pose proof (proj1 esize_nonneg e v).
          destruct (proj1 sizes e 0 big v We Hv ltac:(lia)) as (E & _).
          unfold slot in E. rewrite Sc, D in E.
          rewrite (image_elem_n e _ 0 big big) by auto. lia. }
        subst len.
        rewrite (iter_tds_pref _ (fun o => dsize_elem e (from / 8) o (firstn m data)) (fun o => dsize_elem e (from / 8) o data)
                   (fun o => 8 * o + from) (storable_elem e) (image_elem e (-1 / Z.of_nat (length arr)) big) (esize_elem e)
                   (fun o => 0 <= o) data m (from / 8)); auto.
        cbn [bind].
        assert (Ed : iter_dsize (fun o => dsize_elem e (from / 8) o data) (length arr) off = DOff (off + sum_esize e arr)).
        { apply (iter_dsize_match _ (storable_elem e) (image_elem e (-1 / Z.of_nat (length arr)) big) (esize_elem e)
                   (fun o => 8 * o + from) (fun o => 0 <= o) data); auto.
          intros v o Hv Ho' Mv. apply (Hstep v o); auto. }
        destruct (iter_dsize_pref (fun o => dsize_elem e (from / 8) o data) (fun o => dsize_elem e (from / 8) o (firstn m data))
                    m (from / 8) (length arr) off (off + sum_esize e arr)) as (_ & Pr); auto.
        { intros o1 o2 Ho1 E1. pose proof (proj1 dsize_progress e (from / 8) o1 data We N2 ltac:(lia) Ho1 Hb) as Hp. rewrite E1 in Hp.
          split; [lia|]. apply (proj1 (dsize_pref m)); auto; [lia|unfold max_int; lia]. }
        clear Ed. destruct (iter_dsize (fun o => dsize_elem e (from / 8) o (firstn m data)) (length arr) off) as [o'|x]; cbn [pref] in Pr; [|reflexivity].
        subst o'. apply (IHr vs); auto. lia.
      + rewrite sum_esize_zero in M3 by auto. rewrite Z.add_0_r in M3. rewrite andb_false_r.
        destruct (arr_eb e len n from We Wl Wn D) as (eb & -> & _ & _ & Heb & _).
        destruct (Z.ltb_spec (Z.of_nat len * eb) 0); [lia|]. cbn [orb bind]. apply (IHr vs); auto.
    - intros n r IHr vs from off data m Hwf Nd Hs Hf Ho Hb Hx Da M.
      cbn [wf_fields nd_fields storable_fields image_fields tds_fields dsize_fields dsa_fields] in *. destruct Hwf as (Hn & Wr).
      apply matches_app in M; [|lia]. destruct M as (_ & M). rewrite zlen_repeat in M.
      unfold next_from. destruct (Z.eqb_spec n (-1)); [lia|]. apply (IHr vs); auto; try lia.
      replace (8 * off + (from + n)) with (8 * off + from + Z.of_nat (Z.to_nat n)) by lia. exact M.
    - intros b n big z r IHr vs from off data m Hwf Nd Hs Hf Ho Hb Hx Da M.
      cbn [wf_fields nd_fields storable_fields image_fields tds_fields dsize_fields dsa_fields] in *. destruct Hwf as (Wb & Hn & Wr).
      apply matches_app in M; [|lia]. destruct M as (_ & M). rewrite zlen_map, zlen_const_bits in M by lia.
      unfold next_from. destruct (Z.eqb_spec n (-1)); [lia|]. apply (IHr vs); auto; try lia.
      replace (8 * off + (from + n)) with (8 * off + from + n) by lia. exact M.
    - intros r IHr vs from off data m Hwf Nd Hs Hf Ho Hb Hx Da M.
      cbn [wf_fields nd_fields storable_fields image_fields tds_fields dsize_fields dsa_fields] in *. eauto.
  Qed.

  Lemma tdecode_size_pref fs vs data m : wf_struct fs -> nd_fields fs -> storable_fields fs vs -> dsa_fields P fs ->
    bytes_ok data -> zlen data < mx -> matches data 0 (image_fields fs vs) ->
    tdecode_size T fs (firstn m data) = Ok (decode_size fs (firstn m data)).
  Proof.
    intros (W & H8) Nd S Da Hb Hx M. unfold tdecode_size, decode_size.
    rewrite ((proj2 tds_pref) fs vs 0 0 data m); auto; try lia.
  Qed.
End Pref.

(** ** Each target *)
Lemma g_sbytes_pref early put bad wrap K fb off bs data m : 0 < K <= 63 -> put_ok put K -> bad_ok bad K ->
  (forall x, 0 <= x < 2 ^ K -> wrap x = x) ->
  bytes_ok data -> zlen data < 2 ^ K -> bytes_ok bs -> zlen bs < 2 ^ 63 -> 0 <= off -> 0 <= fb ->
  matches data (8 * (off + fb)) (raw_bytes (varint (zlen bs) ++ bs)) ->
  g_sbytes early put bad wrap (firstn m data) fb off = Ok (dsize_bytes (firstn m data) fb off).
Proof.
  intros HK Hp Hbd Hw Hd Hx Hb Hl Ho Hf M. pose proof (zlen_nonneg bs). pose proof (zlen_nonneg (varint (zlen bs))).
  destruct (bytes_at (off + fb) bs data) as (L & t & E & _); auto; try lia.
  rewrite bytes_size_ok, zlen_app in L. unfold g_sbytes, dsize_bytes. rewrite skipn_firstn_comm', E.
  assert (P2 : 2 ^ K <= 2 ^ 63) by (apply Z.pow_le_mono_r; lia).
  set (k := (m - Z.to_nat (off + fb))%nat).
  destruct (vi_scan_cut _ 0 0 0 k _ _ (vi_scan_len (zlen bs) (bs ++ t) ltac:(lia))) as (_ & ->).
  destruct (g_scan_cut early put bad _ 0 0 0 k _ _ (g_scan_len early put bad K (zlen bs) (bs ++ t) HK Hp Hbd ltac:(lia))) as (_ & ->).
  cbn [bind]. destruct (Z.ltb_spec (0 + Z.of_nat k) (zlen (varint (zlen bs)))); [reflexivity|].
  rewrite !Hw by lia. rewrite zlen_firstn. unfold max_int.
  destruct (Z.ltb_spec (2 ^ 63 - 1) (zlen bs)); [lia|].
  destruct (Z.ltb_spec (Z.min (Z.of_nat m) (zlen data) - (off + zlen (varint (zlen bs)) + fb)) (zlen bs)),
    (Z.ltb_spec (Z.min (Z.of_nat m) (zlen data)) (off + zlen (varint (zlen bs)) + fb + zlen bs)); try lia; auto.
  destruct (Z.ltb_spec (2 ^ 63 - 1 - (off + zlen (varint (zlen bs)) + fb)) (zlen bs)); [lia|reflexivity].
Qed.

Lemma py_size_spec unr known : size_spec (py_tgt unr known) True (2 ^ 63).
Proof.
  constructor; cbn [py_tgt t_sstring t_sbytes t_sub]; auto.
  intros fb off bs data m Hbs Hl Hf Ho Hok Hx M. apply (g_sbytes_pref false py_put _ _ 63) with (bs := bs); auto; [lia|apply py_put_ok|].
  intros s Hs _. destruct (Z.leb_spec 63 s); [lia|reflexivity].
Qed.

Lemma sext32_small x : 0 <= x < 2 ^ 31 -> sext 32 x = x.
Proof. intros. apply sext_id; lia. Qed.

Lemma kt_size_spec arith known repl : size_spec (kt_tgt arith known repl) True (2 ^ 31).
Proof.
  constructor; cbn [kt_tgt t_sstring t_sbytes t_sub]; auto.
  intros fb off bs data m Hbs Hl Hf Ho Hok Hx M. apply (g_sbytes_pref true kt_put _ _ 31) with (bs := bs); auto; [lia|apply kt_put_ok| |apply sext32_small].
  intros s Hs H7. destruct (Z.ltb_spec 28 s); [lia|reflexivity].
Qed.

Lemma jv_size_spec loop arith known repl : size_spec (jv_tgt loop arith known repl) True (2 ^ 31).
Proof.
  constructor; cbn [jv_tgt t_sstring t_sbytes t_sub]; auto.
  intros fb off bs data m Hbs Hl Hf Ho Hok Hx M. apply (g_sbytes_pref false kt_put _ _ 31) with (bs := bs); auto; [lia|apply kt_put_ok| |apply sext32_small].
  intros s Hs H7. reflexivity.
Qed.

Lemma cs_size_spec loop arith repl : size_spec (cs_tgt loop arith repl) False (2 ^ 31).
Proof.
  constructor; cbn [cs_tgt t_sstring t_sbytes t_sub]; auto.
  - intros fb off bs data m Hbs Hl Hf Ho Hok Hx M. apply (g_sbytes_pref false kt_put _ _ 31) with (bs := bs); auto; [lia|apply kt_put_ok| |apply sext32_small].
    intros s Hs H7. reflexivity.
  - contradiction.
  - intros data. pose proof (zlen_nonneg data). destruct (Z.ltb_spec (zlen data) 0); [lia|]. reflexivity.
Qed.


Lemma c_size_spec loop arith ew feq : size_spec (c_tgt loop arith ew feq) True (2 ^ 31).
Proof.
  constructor; cbn [c_tgt t_sstring t_sbytes t_sub]; auto.
  intros fb off bs data m Hbs Hl Hf Ho Hok Hx M. unfold c_sbytes.
  pose proof (zlen_nonneg bs). pose proof (zlen_nonneg (varint (zlen bs))).
  rewrite (g_sbytes_pref false c_put_u64 _ _ 31) with (bs := bs); auto; [|lia|apply c_put_u64_ok|intros s Hs H7; reflexivity|intros; apply Z.mod_small; lia].
  cbn [bind]. f_equal.
  destruct (dsize_bytes_match bs data fb off Hok Hbs Hl Ho Hf M) as (E & _).
  pose proof (dsize_bytes_pref data fb off _ m Hf Ho Hok ltac:(unfold max_int; lia) E) as Pr.
  destruct (bytes_at (off + fb) bs data) as (L & _); auto; try lia.
  destruct (dsize_bytes (firstn m data) fb off) as [o|x]; cbn [pref] in Pr; [reflexivity|].
  destruct Pr as (r & -> & Hr). f_equal. apply sext_id; lia.
Qed.

Lemma js_size_spec loop known feq : size_spec (js_tgt loop known feq) True (2 ^ 28).
Proof.
  constructor; cbn [js_tgt t_sstring t_sbytes t_sub]; auto.
  intros fb off bs data m Hbs Hl Hf Ho Hok Hx M.
  pose proof (zlen_nonneg bs). pose proof (zlen_nonneg (varint (zlen bs))).
  destruct (bytes_at (off + fb) bs data) as (L & t & E & _); auto; try lia.
  rewrite bytes_size_ok, zlen_app in L. unfold js_sbytes, dsize_bytes. rewrite skipn_firstn_comm', E.
  set (k := (m - Z.to_nat (off + fb))%nat).
  destruct (vi_scan_cut _ 0 0 0 k _ _ (vi_scan_len (zlen bs) (bs ++ t) ltac:(lia))) as (_ & ->).
  destruct (js_scan_cut _ 0 0 0 k _ _ (js_scan_len (zlen bs) (bs ++ t) ltac:(lia))) as (_ & ->).
  destruct (Z.ltb_spec (0 + Z.of_nat k) (zlen (varint (zlen bs)))); [reflexivity|].
  rewrite zlen_firstn. unfold max_int.
  destruct (Z.ltb_spec (2 ^ 63 - 1) (zlen bs)); [lia|].
  destruct (Z.ltb_spec (Z.min (Z.of_nat m) (zlen data) - (off + zlen (varint (zlen bs)) + fb)) (zlen bs)),
    (Z.ltb_spec (Z.min (Z.of_nat m) (zlen data)) (off + zlen (varint (zlen bs)) + fb + zlen bs)); try lia; auto.
  destruct (Z.ltb_spec (2 ^ 63 - 1 - (off + zlen (varint (zlen bs)) + fb)) (zlen bs)); [lia|reflexivity].
Qed.
