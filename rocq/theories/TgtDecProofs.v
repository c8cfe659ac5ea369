(** Any target whose primitives write and read the right bits encodes and decodes whole messages correctly. *)
From Coq Require Import ZArith List Lia Bool.
From Verif Require Import Base BaseProofs Schema SpecWire GoModel GoBitProofs GoEncProofs GoEncMain GoDecProofs GoRound GoCore
  CfBitProofs TgtModel TgtEncProofs.
Import ListNotations.
Open Scope Z_scope.

Lemma bitat_zeros n i : bitat (repeat 0 n) i = false.
Proof.
  unfold bitat. set (k := Z.to_nat (i / 8)). clearbody k.
  assert (E : nth k (repeat 0 n) 0 = 0) by (revert k; induction n; intros [|k]; cbn; auto).
  rewrite E. apply Z.testbit_0_l.
Qed.

Lemma norm_elem_n e n m v : is_fixed_scalar e = false -> norm_elem e n v = norm_elem e m v.
Proof. destruct e; cbn; congruence. Qed.

(** ** Whole messages, encoding *)
Lemma fold_lens_bound mx fs vs : 0 < mx -> wf_struct fs -> storable_fields fs vs -> encode_size fs vs < mx -> lens_fields mx fs vs.
Proof.
  intros Hm W S H. destruct (encode_size_image fs vs W S) as (E & _).
  apply (proj2 (lens_of_image mx Hm)); auto. lia.
Qed.

Lemma tencode_to_ok T R zr mx : 0 < mx -> enc_spec T R zr mx -> forall (top : Prop) fs vs start buf,
  wf_struct fs -> nd_fields fs -> storable_fields fs vs -> req_fields (t_loop T) R top fs 0 -> (top -> start = 0) ->
  0 <= start -> bytes_ok buf -> start + encode_size fs vs <= zlen buf -> zlen buf < mx ->
  (zr = true -> zeros buf (8 * start) (8 * (start + encode_size fs vs))) ->
  exists b, tencode_to T fs vs start buf = Ok (b, encode_size fs vs) /\
    overlay buf (8 * start) (image_fields fs vs) b.
Proof.
  intros Hm ES top fs vs start buf W Nd S Q Ht Hs Hb Hl Hx Hz.
  destruct (encode_size_image fs vs W S) as (E1 & E2). pose proof (encode_size_nonneg fs vs W S).
  destruct (proj2 (tenc_main T R zr mx ES) fs top (t_dyn0 T fs) vs 0 start 0 (8 * (start + encode_size fs vs)) buf) as (b & E & O); auto; try lia.
  - apply W.
  - apply (fold_lens_bound mx); auto. lia.
  - split; auto; lia.
  - repeat split; auto; try lia.
    intros H0. replace (8 * (start + 0) + 0) with (8 * start) by lia. auto.
  - exists b. unfold tencode_to. rewrite E. cbn [bind]. split; [do 2 f_equal; lia|].
    replace (8 * start) with (8 * (start + 0) + 0) by lia. exact O.
Qed.

(** encode() of any target produces the same bytes as the Go target. *)
Lemma tencode_go T R zr mx : 0 < mx -> enc_spec T R zr mx -> forall c fs vs,
  wf_struct fs -> nd_fields fs -> storable_fields fs vs -> req_fields (t_loop T) R True fs 0 -> go_ok c fs ->
  encode_size fs vs < mx -> tencode T fs vs = encode c fs vs.
Proof.
  intros Hm ES c fs vs W Nd S Q G Hx. pose proof (encode_size_nonneg fs vs W S).
  destruct (encode_ok c fs vs W G S) as (b1 & -> & _ & _ & O1).
  unfold tencode. rewrite (tsize_ok T R zr mx ES) by (auto; apply (fold_lens_bound mx); auto).
  destruct (tencode_to_ok T R zr mx Hm ES True fs vs 0 (repeat 0 (Z.to_nat (encode_size fs vs)))) as (b & E & O); auto; try lia.
  - apply bytes_ok_zeros.
  - rewrite zlen_repeat. lia.
  - rewrite zlen_repeat. lia.
  - intros _ i Hi. apply bitat_zeros.
  - rewrite E. cbn [bind]. f_equal. eapply overlay_fun; eauto.
Qed.

(** ** Decoding primitives *)
Record dec_spec (T : tgt) (R : treq) (vp : elem -> Z -> Z -> Prop) (sp : list Z -> Prop) (mx : Z) : Prop := {
  ds_scalar : forall e w n big from base z data,
    wf_elem e -> is_fixed_scalar e = true -> 1 <= n <= elem_bits e -> storable_num e z -> r_scalar R e w n big from -> vp e n z ->
    0 <= base -> 0 <= from -> bytes_ok data -> zlen data < mx ->
    matches data (8 * base + from) (map Some (field_bits n big z)) ->
    t_dscalar T e w n big from base data = Ok (norm_num e n z);
  ds_const : forall b n big from base z data,
    wf_basic b -> 1 <= n <= basic_bits b -> r_const R b n big from z ->
    0 <= base -> 0 <= from -> bytes_ok data -> zlen data < mx ->
    matches data (8 * base + from) (map Some (const_bits (basic_bits b) n big z)) ->
    t_dconst T b n big from base z data = Ok true;
  ds_loop : forall e n big from base z data,
    wf_elem e -> is_fixed_scalar e = true -> 1 <= n <= elem_bits e -> storable_num e z -> r_loop R e n big from -> vp e n z ->
    0 <= base -> 0 <= from -> bytes_ok data -> zlen data < mx ->
    matches data (8 * base + from) (map Some (field_bits n big z)) ->
    t_dloop T e n big (8 * base + from) data = Ok (norm_num e n z);
  ds_string : forall p bs data, bytes_ok bs -> ~ In 0 bs -> sp bs -> 0 <= p -> bytes_ok data -> zlen data < mx ->
    matches data (8 * p) (raw_bytes (bs ++ [0])) -> t_dstring T p data = Ok (bs, zlen bs + 1);
  ds_bytes : forall p bs data, bytes_ok bs -> zlen bs < 2 ^ 63 -> 0 <= p -> bytes_ok data -> zlen data < mx ->
    matches data (8 * p) (raw_bytes (varint (zlen bs) ++ bs)) -> t_dbytes T p data = Ok (bs, bytes_size bs);
  ss_string : forall fb off bs data, bytes_ok bs -> ~ In 0 bs -> 0 <= fb -> 0 <= off -> bytes_ok data -> zlen data < mx ->
    matches data (8 * (off + fb)) (raw_bytes (bs ++ [0])) -> t_sstring T data fb off = Ok (DOff (off + (zlen bs + 1)));
  ss_bytes : forall fb off bs data, bytes_ok bs -> zlen bs < 2 ^ 63 -> 0 <= fb -> 0 <= off -> bytes_ok data -> zlen data < mx ->
    matches data (8 * (off + fb)) (raw_bytes (varint (zlen bs) ++ bs)) -> t_sbytes T data fb off = Ok (DOff (off + bytes_size bs));
  ss_sub : forall b data p, 0 <= p <= zlen data -> t_sub T b data p = Ok (skipn (Z.to_nat p) data);
  ds_nested : r_nested R -> t_lstart T = true;
  ds_kt : t_kt T = true -> t_checked T = true
}.

Lemma iter_tds_match (d : Z -> res dstep) (P : val -> Prop) (img : val -> list (option bool)) (sz : val -> Z)
  (pos : Z -> Z) (K : Z -> Prop) data :
  (forall v o, P v -> K o -> matches data (pos o) (img v) -> d o = Ok (DOff (o + sz v))) ->
  (forall v o, P v -> K o -> pos (o + sz v) = pos o + zlen (img v) /\ K (o + sz v) /\ 0 <= pos o) ->
  forall arr o, Forall P arr -> K o -> matches data (pos o) (flat_map img arr) ->
    iter_tds d (length arr) o = Ok (DOff (o + fold_right (fun v a => sz v + a) 0 arr)).
Proof.
  intros Hd Hp. induction arr as [|v arr IH]; intros o HP HK M; cbn [length iter_tds fold_right flat_map] in *.
  - do 2 f_equal; lia.
  - inversion HP; subst. destruct (Hp v o) as (H3 & H4 & H5); auto.
    apply matches_app in M; auto. destruct M as (M1 & M2).
    rewrite (Hd v o) by auto. cbn [bind]. rewrite IH; auto; [do 2 f_equal; lia|]. rewrite H3. auto.
Qed.

Lemma zlen_skipn_le (l : list Z) k : zlen (skipn k l) <= zlen l.
Proof. unfold zlen. rewrite skipn_length. lia. Qed.

Section Dec.
  Variable T : tgt.
  Variable R : treq.
  Variable vp : elem -> Z -> Z -> Prop.
  Variable sp : list Z -> Prop.
  Variable mx : Z.
  Hypothesis DS : dec_spec T R vp sp mx.

  Lemma tds_match :
    (forall e n big v from off data, wf_elem e -> nd_elem e -> storable_elem e v -> from mod 8 = 0 -> 0 <= from ->
       0 <= off -> bytes_ok data -> zlen data < mx -> elem_dyn e = true -> matches data (8 * off + from) (image_elem e n big v) ->
       tds_elem T e (from / 8) off data = Ok (DOff (off + esize_elem e v))) /\
    (forall fs vs from off data, wf_fields fs from -> nd_fields fs -> storable_fields fs vs -> 0 <= from ->
       0 <= off -> bytes_ok data -> zlen data < mx -> matches data (8 * off + from) (image_fields fs vs) ->
       tds_fields T fs from off data = Ok (DOff (off + esize_fields fs vs))).
  Proof.
    apply schema_ind.
    - intros b n big v from off data _ _ _ _ _ _ _ _ D. discriminate.
    - intros b n big v from off data _ _ _ _ _ _ _ _ D. discriminate.
    - intros n big v from off data _ _ Sv Hm Hf Ho Hb Hx _ M. destruct v; cbn in Sv; try contradiction.
      cbn [image_elem tds_elem esize_elem] in *. destruct Sv.
      replace (8 * off + from) with (8 * (off + from / 8)) in M by lia.
      apply (ss_string _ _ _ _ _ DS); auto; lia.
    - intros n big v from off data _ _ Sv Hm Hf Ho Hb Hx _ M. destruct v; cbn in Sv; try contradiction.
      cbn [image_elem tds_elem esize_elem] in *. destruct Sv.
      replace (8 * off + from) with (8 * (off + from / 8)) in M by lia.
      apply (ss_bytes _ _ _ _ _ DS); auto; lia.
    - intros fs IH n big v from off data We Nd Sv Hm Hf Ho Hb Hx D M.
      destruct v as [| |vs|]; cbn in Sv; try contradiction.
      cbn in We, Nd. destruct We as (We & H8). cbn [elem_dyn] in D.
      cbn [image_elem tds_elem esize_elem] in *. rewrite D.
      destruct (proj2 sizes fs 0 vs We Sv) as (Sz & _).
      pose proof (proj2 esize_nonneg fs vs). pose proof (fixed_bits_nonneg fs).
      destruct M as (L & M). rewrite Sz in L.
      rewrite (ss_sub _ _ _ _ _ DS) by lia. cbn [bind].
      set (sub := skipn _ data).
      assert (Mq : matches sub 0 (image_fields fs vs)).
      { apply matches_slice; [unfold zlen in *; lia|].
        replace (8 * Z.of_nat (Z.to_nat (off + from / 8))) with (8 * off + from) by lia.
        split; auto. rewrite Sz. lia. }
      pose proof (zlen_skipn_le data (Z.to_nat (off + from / 8))). fold sub in H1.
      rewrite (IH vs 0 0 sub); auto; try lia; [|apply bytes_ok_skipn; auto]. cbn [bind].
      assert (Ls : 8 * esize_fields fs vs + fixed_bits fs <= 8 * zlen sub).
      { destruct Mq as (Lq & _). lia. }
      destruct (Z.ltb_spec (zlen sub) (0 + esize_fields fs vs + fixed_bits fs / 8)); [lia|].
      destruct (Z.ltb_spec (0 + esize_fields fs vs + fixed_bits fs / 8) 0); [lia|]. do 2 f_equal; lia.
    - intros vs from off data _ _ Sv _ Ho _ _ _. cbn in *. subst. cbn. do 2 f_equal; lia.
    - intros e IHe n big r IHr vs from off data Hwf Nd Hs Hf Ho Hb Hx M.
      cbn [wf_fields] in Hwf. destruct Hwf as (We & Wn & Wr). cbn in Nd. destruct Nd as (N1 & N2 & N3).
      destruct vs as [|v vs]; cbn in Hs; [contradiction|]. destruct Hs as (Sv & Ss).
      pose proof (one_geom e n big from v We Wn Sv off) as G.
      cbn [image_fields tds_fields esize_fields] in *. fold (gap e) in M.
      pose proof (one_n e n from We Wn) as Hn.
      assert (Hnf : 0 <= next_from from n) by (unfold next_from; destruct (Z.eqb_spec n (-1)); lia).
      apply matches_app in M; [|lia]. destruct M as (M1 & M2).
      apply matches_app in M2; [|pose proof (zlen_nonneg (image_elem e n big v)); lia]. destruct M2 as (_ & M2).
      pose proof (proj1 esize_nonneg e v).
      replace (if (n <? 0) || t_kt T && elem_dyn e then tds_elem T e (from / 8) off data else Ok (DOff off)) with (Ok (DOff (off + esize_elem e v))).
      + cbn [bind]. rewrite (IHr vs); auto; [do 2 f_equal; lia|lia|]. rewrite G.
        replace (8 * off + from + (zlen (image_elem e n big v) + zlen (gap e))) with (8 * off + from + zlen (image_elem e n big v) + zlen (gap e)) by lia. exact M2.
      + destruct (elem_dyn e) eqn:D.
        * destruct (Z.ltb_spec n 0).
          -- cbn [orb]. symmetry. apply IHe with (n := n) (big := big); auto. destruct e; cbn in *; try discriminate; tauto.
          -- exfalso. destruct e; cbn in *; try discriminate; try lia. congruence.
        * rewrite (esize_zero e v) by auto. rewrite Z.add_0_r, andb_false_r.
          destruct (Z.ltb_spec n 0); auto. exfalso. destruct e; cbn in *; try discriminate; try lia;
          pose proof (fixed_bits_nonneg fs); lia.
    - intros e IHe len n big r IHr vs from off data Hwf Nd Hs Hf Ho Hb Hx M.
      cbn [wf_fields] in Hwf. destruct Hwf as (We & Wl & Wn & Wr). fold (arr_ok e len n from) in Wn.
      cbn in Nd. destruct Nd as (N2 & N3).
      destruct vs as [|v vs]; cbn in Hs; [contradiction|]. destruct v as [| | |arr]; try contradiction.
      destruct Hs as (Sl & Sv & Ss).
      pose proof (arr_geom e len n big from arr We Wl Wn Sl Sv off) as G.
      cbn [image_fields tds_fields esize_fields] in *. fold (sum_esize e arr).
      pose proof (arr_n e len n from We Wn) as Hn.
      assert (Hnf : 0 <= next_from from n) by (unfold next_from; destruct (Z.eqb_spec n (-1)); lia).
      apply matches_app in M; [|lia]. destruct M as (M1 & M2). pose proof (sum_esize_nonneg e arr).
      replace (if (n <? 0) || t_kt T && elem_dyn e then _ else Ok (DOff off)) with (Ok (DOff (off + sum_esize e arr))).
      + cbn [bind]. rewrite (IHr vs); auto; [do 2 f_equal; lia|lia|]. rewrite G. exact M2.
      + destruct (elem_dyn e) eqn:D.
        * assert (Sc : is_fixed_scalar e = false) by (destruct e; cbn in D; try discriminate; reflexivity).
          unfold arr_ok in Wn. rewrite Sc, D in Wn. destruct Wn as (Hm & ->). cbn [Z.ltb Z.compare orb].
          symmetry. subst len.
          apply (iter_tds_match _ (storable_elem e) (image_elem e (-1 / Z.of_nat (length arr)) big) (esize_elem e)
                   (fun o => 8 * o + from) (fun o => 0 <= o) data); auto.
          -- intros v o Hv Ho' Mv. eapply IHe; eauto.
          -- intros v o Hv Ho'. pose proof (proj1 esize_nonneg e v).
             destruct (proj1 sizes e 0 big v We Hv ltac:(lia)) as (E & _).
             unfold slot in E. rewrite Sc, D in E.
             rewrite (image_elem_n e _ 0 big big) by auto. lia.
        * rewrite sum_esize_zero by auto. rewrite Z.add_0_r, andb_false_r.
          destruct (arr_eb e len n from We Wl Wn D) as (eb & -> & _ & _ & Heb & _).
          destruct (Z.ltb_spec (Z.of_nat len * eb) 0); [lia|reflexivity].
    - intros n r IHr vs from off data Hwf Nd Hs Hf Ho Hb Hx M.
      cbn [wf_fields nd_fields storable_fields image_fields tds_fields esize_fields] in *. destruct Hwf as (Hn & Wr).
      apply matches_app in M; [|lia]. destruct M as (_ & M). rewrite zlen_repeat in M.
      unfold next_from. destruct (Z.eqb_spec n (-1)); [lia|]. apply IHr; auto; try lia.
      replace (8 * off + (from + n)) with (8 * off + from + Z.of_nat (Z.to_nat n)) by lia. exact M.
    - intros b n big z r IHr vs from off data Hwf Nd Hs Hf Ho Hb Hx M.
      cbn [wf_fields nd_fields storable_fields image_fields tds_fields esize_fields] in *. destruct Hwf as (Wb & Hn & Wr).
      apply matches_app in M; [|lia]. destruct M as (_ & M). rewrite zlen_map, zlen_const_bits in M by lia.
      unfold next_from. destruct (Z.eqb_spec n (-1)); [lia|]. apply IHr; auto; try lia.
      replace (8 * off + (from + n)) with (8 * off + from + n) by lia. exact M.
    - intros r IHr vs from off data Hwf Nd Hs Hf Ho Hb Hx M.
      cbn [wf_fields nd_fields storable_fields image_fields tds_fields esize_fields] in *. auto.
  Qed.

  Lemma tdecode_size_match fs vs data : wf_struct fs -> nd_fields fs -> storable_fields fs vs -> bytes_ok data -> zlen data < mx ->
    matches data 0 (image_fields fs vs) -> tdecode_size T fs data = Ok (encode_size fs vs).
  Proof.
    intros W Nd S Hb Hx M. destruct (encode_size_image fs vs W S) as (E1 & E2). pose proof W as (We & H8).
    unfold tdecode_size. rewrite ((proj2 tds_match) fs vs); auto; try lia. cbn [bind].
    destruct M as (L & _). pose proof (fixed_bits_nonneg fs).
    destruct (Z.ltb_spec (zlen data) (0 + esize_fields fs vs + fixed_bits fs / 8)); [lia|]. f_equal. lia.
  Qed.

  Lemma tcheck_match fs vs data start : wf_struct fs -> nd_fields fs -> storable_fields fs vs -> bytes_ok data -> zlen data < mx ->
    0 <= start -> matches data (8 * start) (image_fields fs vs) ->
    exists sz, tcheck T fs data start = Ok sz /\ (t_checked T = true -> sz = encode_size fs vs).
  Proof.
    intros W Nd S Hb Hx Hs M. pose proof (encode_size_nonneg fs vs W S). destruct (encode_size_image fs vs W S) as (E1 & E2).
    unfold tcheck. destruct (t_checked T) eqn:C; [|exists 0; split; congruence].
    pose proof M as (L & _). pose proof (zlen_nonneg (image_fields fs vs)).
    rewrite (ss_sub _ _ _ _ _ DS) by lia. cbn [bind].
    rewrite (tdecode_size_match fs vs); auto.
    - cbn [bind]. destruct (Z.ltb_spec (encode_size fs vs) 0); [lia|]. eauto.
    - apply bytes_ok_skipn; auto.
    - pose proof (zlen_skipn_le data (Z.to_nat start)). lia.
    - apply matches_slice; [unfold zlen in *; lia|]. rewrite Z2Nat.id by lia. exact M.
  Qed.

  Definition TDecE (e : elem) : Prop := forall dyn w n big v from start off data,
    wf_elem e -> nd_elem e -> storable_elem e v -> nums_elem vp sp e n v -> req_elem (t_loop T) R e w n big from ->
    (if is_fixed_scalar e then 1 <= n <= elem_bits e else from mod 8 = 0) -> 0 <= from -> 0 <= start -> offk dyn off ->
    bytes_ok data -> zlen data < mx -> matches data (8 * (start + off) + from) (image_elem e n big v) ->
    tdec_elem T dyn e w n big from start off data = Ok (norm_elem e n v, off + esize_elem e v).
  Definition TDecF (fs : fields) : Prop := forall (top : Prop) dyn vs from start off data,
    wf_fields fs from -> nd_fields fs -> storable_fields fs vs -> nums_fields vp sp fs vs ->
    req_fields (t_loop T) R top fs from -> (top -> start = 0) -> 0 <= from -> 0 <= start -> offk dyn off ->
    bytes_ok data -> zlen data < mx -> matches data (8 * (start + off) + from) (image_fields fs vs) ->
    tdec_fields T dyn fs from start off data = Ok (norm_fields fs vs, off + esize_fields fs vs).

  Lemma dyn0_offk fs : offk (t_dyn0 T fs) 0.
  Proof. split; auto; lia. Qed.

  Lemma sub_struct_match fs (IH : TDecF fs) vs p data :
    wf_struct fs -> nd_fields fs -> storable_fields fs vs -> nums_fields vp sp fs vs -> req_fields (t_loop T) R False fs 0 ->
    0 <= p -> bytes_ok data -> zlen data < mx -> matches data (8 * p) (image_fields fs vs) ->
    exists sz, tcheck T fs data p = Ok sz /\ (t_kt T = true -> sz = encode_size fs vs) /\
      tdec_fields T (t_dyn0 T fs) fs 0 p 0 data = Ok (norm_fields fs vs, esize_fields fs vs).
  Proof.
    intros W Nd S Nv Q Hp Hb Hx M.
    destruct (tcheck_match fs vs data p W Nd S Hb Hx Hp M) as (sz & E & Es).
    exists sz. split; auto. split; [intros K; apply Es, (ds_kt _ _ _ _ _ DS K)|].
    rewrite (IH False (t_dyn0 T fs) vs 0 p 0 data); auto; try lia; try tauto.
    - apply W.
    - apply dyn0_offk.
    - replace (8 * (p + 0) + 0) with (8 * p) by lia. exact M.
  Qed.

  Lemma tdec_main : (forall e, TDecE e) /\ (forall fs, TDecF fs).
  Proof.
    apply schema_ind; unfold TDecE, TDecF.
    - intros b dyn w n big v from start off data We _ Sv Nv Hq Hn Hf Hs Hk Hb Hx M.
      destruct v; cbn [storable_elem] in Sv; try contradiction.
      cbn [is_fixed_scalar] in Hn. cbn [image_elem tdec_elem esize_elem norm_elem req_elem nums_elem] in *.
      rewrite (offk_base _ _ Hk). destruct Hk as (Hk & _).
      rewrite (ds_scalar _ _ _ _ _ DS (EBasic b) w n big from (start + off) z data) by (auto; lia).
      cbn [bind]. do 2 f_equal; lia.
    - intros b dyn w n big v from start off data We _ Sv Nv Hq Hn Hf Hs Hk Hb Hx M.
      destruct v; cbn [storable_elem] in Sv; try contradiction.
      cbn [is_fixed_scalar] in Hn. cbn [image_elem tdec_elem esize_elem norm_elem req_elem nums_elem] in *.
      rewrite (offk_base _ _ Hk). destruct Hk as (Hk & _).
      rewrite (ds_scalar _ _ _ _ _ DS (EEnum b) w n big from (start + off) z data) by (auto; lia).
      cbn [bind]. do 2 f_equal; lia.
    - intros dyn w n big v from start off data _ _ Sv Nv _ Hm Hf Hs Hk Hb Hx M. destruct v; cbn in Sv; try contradiction.
      cbn [is_fixed_scalar image_elem tdec_elem esize_elem norm_elem nums_elem] in *. destruct Sv. destruct Hk as (Hk & _).
      replace (8 * (start + off) + from) with (8 * (start + off + from / 8)) in M by lia.
      rewrite (ds_string _ _ _ _ _ DS _ bs) by (auto; lia). reflexivity.
    - intros dyn w n big v from start off data _ _ Sv _ _ Hm Hf Hs Hk Hb Hx M. destruct v; cbn in Sv; try contradiction.
      cbn [is_fixed_scalar image_elem tdec_elem esize_elem norm_elem] in *. destruct Sv. destruct Hk as (Hk & _).
      replace (8 * (start + off) + from) with (8 * (start + off + from / 8)) in M by lia.
      rewrite (ds_bytes _ _ _ _ _ DS _ bs) by (auto; lia). reflexivity.
    - intros fs IH dyn w n big v from start off data We Nd Sv Nv Hq Hm Hf Hs Hk Hb Hx M.
      destruct v as [| |vs|]; cbn in Sv; try contradiction.
      cbn [nd_elem nums_elem req_elem is_fixed_scalar image_elem tdec_elem esize_elem norm_elem] in *.
      assert (W : wf_struct fs) by exact We.
      rewrite (offk_base _ _ Hk). destruct Hk as (Hk & _).
      replace (8 * (start + off) + from) with (8 * (start + off + from / 8)) in M by lia.
      destruct (sub_struct_match fs IH vs (start + off + from / 8) data) as (sz & E1 & E2 & E3); auto; try lia.
      rewrite E1. cbn [bind]. rewrite E3. cbn [bind]. do 2 f_equal.
      destruct (encode_size_image fs vs W Sv) as (F1 & F2).
      destruct (fields_dyn fs); [|lia]. destruct (t_kt T); [rewrite E2 by auto|]; lia.
    - intros top dyn vs from start off data _ _ Sv _ _ _ _ _ _ _ _ _. cbn in *. subst. do 2 f_equal; lia.
    - (* FOne *)
      intros e IHe n big r IHr top dyn vs from start off data Hwf Nd Sv Nv Hq Ht Hf Hs Hk Hb Hx M.
      cbn [wf_fields] in Hwf. destruct Hwf as (We & Wn & Wr). cbn in Nd. destruct Nd as (N1 & N2 & N3).
      destruct vs as [|v vs]; cbn in Sv; [contradiction|]. destruct Sv as (Sv & Ss).
      pose proof (one_geom e n big from v We Wn Sv (start + off)) as G.
      cbn [image_fields tdec_fields esize_fields norm_fields nums_fields req_fields] in *. destruct Nv as (Nv & Nr), Hq as (Hq & Hqr).
      fold (gap e) in M.
      pose proof (one_n e n from We Wn) as Hn.
      assert (Hnf : 0 <= next_from from n) by (unfold next_from; destruct (Z.eqb_spec n (-1)); lia).
      assert (0 <= off) by apply Hk.
      apply matches_app in M; [|lia]. destruct M as (M1 & M2).
      apply matches_app in M2; [|pose proof (zlen_nonneg (image_elem e n big v)); lia]. destruct M2 as (_ & M2).
      pose proof (proj1 esize_nonneg e v).
      rewrite (IHe dyn (enum_temp_bits n) n big v from start off data); auto.
      2:{ destruct (is_fixed_scalar e) eqn:Sc; [|tauto]. destruct e; try discriminate; cbn in Wn |- *; lia. }
      cbn [bind].
      rewrite (IHr top _ vs (next_from from n) start (off + esize_elem e v) data); auto.
      + cbn [bind]. do 2 f_equal; lia.
      + apply offk_next; auto. intros Hn1. apply esize_zero; auto.
        destruct e; cbn in *; try reflexivity; try (destruct Wn; congruence).
      + replace (start + (off + esize_elem e v)) with (start + off + esize_elem e v) by lia. rewrite G.
        replace (8 * (start + off) + from + (zlen (image_elem e n big v) + zlen (gap e)))
          with (8 * (start + off) + from + zlen (image_elem e n big v) + zlen (gap e)) by lia. exact M2.
    - (* FArr *)
      intros e IHe len n big r IHr top dyn vs from start off data Hwf Nd Sv Nv Hq Ht Hf Hs Hk Hb Hx M.
      cbn [wf_fields] in Hwf. destruct Hwf as (We & Wl & Wn & Wr). fold (arr_ok e len n from) in Wn.
      cbn in Nd. destruct Nd as (N2 & N3).
      destruct vs as [|v vs]; cbn in Sv; [contradiction|]. destruct v as [| | |arr]; try contradiction.
      destruct Sv as (Sl & Sv & Ss).
      pose proof (arr_geom e len n big from arr We Wl Wn Sl Sv (start + off)) as G.
      cbn [image_fields tdec_fields esize_fields norm_fields nums_fields req_fields] in *. destruct Nv as (Nv & Nr), Hq as (Hq & Hqr).
      fold (sum_esize e arr) in *.
      pose proof (arr_n e len n from We Wn) as Hn.
      assert (Hnf : 0 <= next_from from n) by (unfold next_from; destruct (Z.eqb_spec n (-1)); lia).
      assert (H0 : 0 <= off) by apply Hk.
      apply matches_app in M; [|lia]. destruct M as (M1 & M2). pose proof (sum_esize_nonneg e arr).
      rewrite (offk_base _ _ Hk).
      match goal with |- bind ?X _ = _ => assert (Harr : X = Ok (map (norm_elem e (n / Z.of_nat len)) arr, off + sum_esize e arr)) end.
      { subst len. assert (SNv : Forall (fun v => storable_elem e v /\ nums_elem vp sp e (n / Z.of_nat (length arr)) v) arr).
        { apply Forall_forall. intros x Hin. rewrite Forall_forall in Sv, Nv. auto. }
        destruct (elem_dyn e) eqn:D.
        - assert (Sc : is_fixed_scalar e = false) by (destruct e; cbn in D; try discriminate; reflexivity).
          unfold arr_ok in Wn. rewrite Sc, D in Wn. destruct Wn as (Hm & ->).
          apply (iter_dec_match _ (fun v => storable_elem e v /\ nums_elem vp sp e (-1 / Z.of_nat (length arr)) v)
                   (image_elem e (-1 / Z.of_nat (length arr)) big) (esize_elem e)
                   (norm_elem e (-1 / Z.of_nat (length arr))) (fun _ o => 8 * (start + o) + from) (fun o => 0 <= o) data (zlen arr)); auto; try lia.
          + intros i v o Hi (Hv & Hnv) Ho' Mv.
            rewrite (IHe true _ (Z.quot (-1) (Z.of_nat (length arr))) big v from start o data); auto.
            * rewrite (norm_elem_n e _ (-1 / Z.of_nat (length arr)) v) by auto. reflexivity.
            * destruct e; cbn in *; try discriminate; auto.
            * destruct e; cbn in *; try discriminate; auto.
            * rewrite Sc; auto.
            * split; [auto|discriminate].
            * rewrite (image_elem_n e _ (-1 / Z.of_nat (length arr)) big big) by auto. exact Mv.
          + intros i v o Hi (Hv & Hnv) Ho'. pose proof (proj1 esize_nonneg e v).
            destruct (proj1 sizes e 0 big v We Hv ltac:(lia)) as (E & _).
            unfold slot in E. rewrite Sc, D in E.
            rewrite (image_elem_n e _ 0 big big) by auto. lia.
        - destruct (arr_eb e (length arr) n from We Wl Wn D) as (eb & Hn' & Hq' & Hdv & Heb & Hcase).
          rewrite Hq'. rewrite Hdv in *. rewrite sum_esize_zero by auto.
          replace (off + 0) with (off + fold_right (fun v a => (fun _ : val => 0) v + a) 0 arr).
          2:{ f_equal. apply fold_zero. apply Forall_forall. reflexivity. }
          assert (Hz : forall v, storable_elem e v -> zlen (image_elem e eb big v) = eb).
          { intros v Hv. destruct (proj1 sizes e eb big v We Hv Heb) as (E & Ed).
            rewrite E, Ed by auto. unfold slot. destruct (is_fixed_scalar e); [lia|].
            rewrite D. destruct Hcase as (<- & _). lia. }
          assert (Hst : forall i v o, 0 <= i < zlen arr -> storable_elem e v /\ nums_elem vp sp e eb v -> o = off ->
            8 * (start + (o + 0)) + from + (i + 1) * eb = 8 * (start + o) + from + i * eb + zlen (image_elem e eb big v) /\
            o + 0 = off /\ 0 <= 8 * (start + o) + from + i * eb).
          { intros i v o Hi (Hv & _) ->. rewrite (Hz v Hv). assert (0 <= i * eb) by (apply Z.mul_nonneg_nonneg; lia). lia. }
          assert (M1' : matches data (8 * (start + off) + from + 0 * eb) (flat_map (image_elem e eb big) arr)).
          { replace (8 * (start + off) + from + 0 * eb) with (8 * (start + off) + from) by lia. exact M1. }
          destruct (t_loop T (length arr)) eqn:Lp.
          + destruct Hq as (Hnest & Hq).
            assert (Hlst : (if t_lstart T then start else 0) = start).
            { destruct Hnest as [Htop|Hne]; [rewrite (Ht Htop); destruct (t_lstart T); reflexivity|].
              rewrite (ds_nested _ _ _ _ _ DS Hne). reflexivity. }
            rewrite Hlst.
            destruct e as [b|b| | |s]; try discriminate D.
            * apply (iter_dec_match _ (fun v => storable_elem (EBasic b) v /\ nums_elem vp sp (EBasic b) eb v) (image_elem (EBasic b) eb big) (fun _ => 0)
                 (norm_elem (EBasic b) eb) (fun i o => 8 * (start + o) + from + i * eb) (fun o => o = off) data (zlen arr)); auto; try lia.
              intros i v o Hi (Hv & Hnv) -> Mv. assert (0 <= i * eb) by (apply Z.mul_nonneg_nonneg; lia).
              destruct v; cbn [storable_elem] in Hv; try contradiction. cbn [is_fixed_scalar] in Hcase.
              cbn [norm_elem image_elem nums_elem] in *.
              rewrite (ds_loop _ _ _ _ _ DS (EBasic b) eb big (from + i * eb) (start + off) z data); auto; try (cbn [elem_bits]; lia).
              -- cbn [bind]. do 2 f_equal. lia.
              -- replace (8 * (start + off) + (from + i * eb)) with (8 * (start + off) + from + i * eb) by lia. exact Mv.
            * apply (iter_dec_match _ (fun v => storable_elem (EEnum b) v /\ nums_elem vp sp (EEnum b) eb v) (image_elem (EEnum b) eb big) (fun _ => 0)
                 (norm_elem (EEnum b) eb) (fun i o => 8 * (start + o) + from + i * eb) (fun o => o = off) data (zlen arr)); auto; try lia.
              intros i v o Hi (Hv & Hnv) -> Mv. assert (0 <= i * eb) by (apply Z.mul_nonneg_nonneg; lia).
              destruct v; cbn [storable_elem] in Hv; try contradiction. cbn [is_fixed_scalar] in Hcase.
              cbn [norm_elem image_elem nums_elem] in *.
              rewrite (ds_loop _ _ _ _ _ DS (EEnum b) eb big (from + i * eb) (start + off) z data); auto; try (cbn [elem_bits]; lia).
              -- cbn [bind]. do 2 f_equal. lia.
              -- replace (8 * (start + off) + (from + i * eb)) with (8 * (start + off) + from + i * eb) by lia. exact Mv.
            * apply (iter_dec_match _ (fun v => storable_elem (EStruct s) v /\ nums_elem vp sp (EStruct s) eb v) (image_elem (EStruct s) eb big) (fun _ => 0)
                 (norm_elem (EStruct s) eb) (fun i o => 8 * (start + o) + from + i * eb) (fun o => o = off) data (zlen arr)); auto; try lia.
              intros i v o Hi (Hv & Hnv) -> Mv. assert (0 <= i * eb) by (apply Z.mul_nonneg_nonneg; lia).
              cbn [is_fixed_scalar] in Hcase. destruct Hcase as (Hfb & Hm & He).
              assert (Heq : i * eb = 8 * (i * (eb / 8))) by lia.
              assert (E : tdec_elem T dyn (EStruct s) 0 eb big (from + i * eb) start off data = Ok (norm_elem (EStruct s) eb v, off + esize_elem (EStruct s) v)).
              { apply IHe; auto; try lia.
                - cbn [is_fixed_scalar]. lia.
                - replace (8 * (start + off) + (from + i * eb)) with (8 * (start + off) + from + i * eb) by lia. exact Mv. }
              destruct v as [| |ws|]; cbn [storable_elem] in Hv; try contradiction.
              cbn [tdec_elem esize_elem norm_elem elem_dyn] in E, D |- *. rewrite (offk_base _ _ Hk) in E. rewrite D in E.
              replace (start + off + from / 8 + i * (eb / 8)) with (start + off + (from + i * eb) / 8) by lia.
              destruct (tcheck T s data (start + off + (from + i * eb) / 8)) as [sz| |]; cbn [bind] in *; try discriminate.
              destruct (tdec_fields T (t_dyn0 T s) s 0 (start + off + (from + i * eb) / 8) 0 data) as [[v2 o2]| |]; cbn [bind] in *; try discriminate.
              inversion E; subst. do 2 f_equal. lia.
          + apply (iter_dec_match _ (fun v => storable_elem e v /\ nums_elem vp sp e eb v) (image_elem e eb big) (fun _ => 0)
                 (norm_elem e eb) (fun i o => 8 * (start + o) + from + i * eb) (fun o => o = off) data (zlen arr)); auto; try lia.
            intros i v o Hi (Hv & Hnv) -> Mv. assert (0 <= i * eb) by (apply Z.mul_nonneg_nonneg; lia).
            rewrite (IHe dyn (8 * ((elem_bits e + 7) / 8)) eb big v (from + i * eb) start off data); auto; try lia.
            * rewrite (esize_zero e v) by auto. reflexivity.
            * destruct e; cbn in D |- *; try discriminate; auto; apply Hq; unfold zlen in *; lia.
            * destruct (is_fixed_scalar e) eqn:S; [lia|]. destruct Hcase as (_ & Hm & He).
              rewrite Z.add_mod, Z.mul_mod, He, Z.mul_0_r, Z.mod_0_l, Z.add_0_r, Z.mod_mod by lia. exact Hm.
            * replace (8 * (start + off) + (from + i * eb)) with (8 * (start + off) + from + i * eb) by lia. exact Mv. }
      rewrite Harr. cbn [bind].
      rewrite (IHr top (dyn || (n =? -1)) vs (next_from from n) start (off + sum_esize e arr) data); auto.
      + cbn [bind]. do 2 f_equal; lia.
      + apply offk_next; auto. intros Hn1. apply sum_esize_zero; auto. unfold arr_ok in Wn.
        destruct e; cbn in *; try reflexivity; destruct Wn as (_ & Wn); try congruence.
        destruct (fields_dyn fs); congruence.
      + replace (start + (off + sum_esize e arr)) with (start + off + sum_esize e arr) by lia. rewrite G. exact M2.
    - (* FVoid *)
      intros n r IHr top dyn vs from start off data Hwf Nd Sv Nv Hq Ht Hf Hs Hk Hb Hx M.
      cbn [wf_fields nd_fields storable_fields image_fields tdec_fields esize_fields norm_fields nums_fields req_fields] in *. destruct Hwf as (Hn & Wr).
      assert (0 <= off) by apply Hk.
      apply matches_app in M; [|lia]. destruct M as (_ & M). rewrite zlen_repeat in M.
      unfold next_from. destruct (Z.eqb_spec n (-1)); [lia|]. apply (IHr top); auto; try lia.
      replace (8 * (start + off) + (from + n)) with (8 * (start + off) + from + Z.of_nat (Z.to_nat n)) by lia. exact M.
    - (* FConst *)
      intros b n big z r IHr top dyn vs from start off data Hwf Nd Sv Nv Hq Ht Hf Hs Hk Hb Hx M.
      cbn [wf_fields nd_fields storable_fields image_fields tdec_fields esize_fields norm_fields nums_fields req_fields] in *.
      destruct Hwf as (Wb & Hn & Wr). destruct Hq as (Hq & Hqr). assert (0 <= off) by apply Hk.
      apply matches_app in M; [|lia]. destruct M as (M1 & M).
      rewrite zlen_map, zlen_const_bits in M by lia.
      rewrite (offk_base _ _ Hk).
      rewrite (ds_const _ _ _ _ _ DS b n big from (start + off) z data) by (auto; lia). cbn [bind].
      unfold next_from. destruct (Z.eqb_spec n (-1)); [lia|]. apply (IHr top); auto; try lia.
      replace (8 * (start + off) + (from + n)) with (8 * (start + off) + from + n) by lia. exact M.
    - (* FEmb *)
      intros r IHr top dyn vs from start off data Hwf Nd Sv Nv Hq Ht Hf Hs Hk Hb Hx M.
      cbn [wf_fields nd_fields storable_fields image_fields tdec_fields esize_fields norm_fields nums_fields req_fields] in *.
      apply (IHr top); auto.
  Qed.

  Lemma tdecode_match (top : Prop) fs vs start data :
    wf_struct fs -> nd_fields fs -> storable_fields fs vs -> nums_fields vp sp fs vs ->
    req_fields (t_loop T) R top fs 0 -> (top -> start = 0) -> 0 <= start -> bytes_ok data -> zlen data < mx ->
    matches data (8 * start) (image_fields fs vs) ->
    tdecode T fs start data = Ok (norm_fields fs vs, encode_size fs vs).
  Proof.
    intros W Nd S Nv Q Ht Hs Hb Hx M. destruct (encode_size_image fs vs W S) as (F1 & F2).
    destruct (tcheck_match fs vs data start W Nd S Hb Hx Hs M) as (sz & E & Es).
    unfold tdecode. rewrite E. cbn [bind].
    rewrite (proj2 tdec_main fs top (t_dyn0 T fs) vs 0 start 0 data); auto; try lia.
    - cbn [bind]. do 2 f_equal. lia.
    - apply W.
    - apply dyn0_offk.
    - replace (8 * (start + 0) + 0) with (8 * start) by lia. exact M.
  Qed.
End Dec.
