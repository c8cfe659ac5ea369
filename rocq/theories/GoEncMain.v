(** Main theorem about the Go encoder: it lays the wire image over the buffer, and nothing else. *)
From Coq Require Import ZArith List Lia Bool.
From Verif Require Import Base BaseProofs Schema SpecWire GoModel GoBitProofs GoEncProofs.
Import ListNotations.
Open Scope Z_scope.

(** ** geometry of one field *)
Lemma one_n e n from : wf_elem e ->
  (if is_fixed_scalar e then 1 <= n <= elem_bits e else from mod 8 = 0 /\ n = elem_bits e) ->
  0 <= n \/ n = -1.
Proof.
  intros We Wn. destruct e; cbn in *; try lia. destruct Wn as (_ & ->). left. apply fixed_bits_nonneg.
Qed.

Definition gap (e : elem) : list (option bool) :=
  match e with
  | EStruct s => if fields_dyn s then repeat None (Z.to_nat (fixed_bits s)) else []
  | _ => []
  end.

Lemma one_geom e n big from v : wf_elem e ->
  (if is_fixed_scalar e then 1 <= n <= elem_bits e else from mod 8 = 0 /\ n = elem_bits e) ->
  storable_elem e v ->
  forall off, 8 * (off + esize_elem e v) + next_from from n =
    8 * off + from + (zlen (image_elem e n big v) + zlen (gap e)).
Proof.
  intros We Wn Sv off.
  destruct (proj2 sizes (FOne e n big FNil) from [v]) as (E & _).
  - cbn [wf_fields]. auto.
  - cbn. auto.
  - cbn [image_fields esize_fields fixed_bits] in E. fold (gap e) in E.
    rewrite !zlen_app in E. change (zlen (@nil (option bool))) with 0 in E.
    unfold next_from. pose proof (one_n e n from We Wn).
    destruct (Z.eqb_spec n (-1)).
    + subst n. cbn [Z.ltb Z.compare] in E. lia.
    + rewrite if_pos in E by lia. lia.
Qed.

Definition arr_ok (e : elem) (len : nat) (n from : Z) : Prop :=
  if is_fixed_scalar e then exists eb, 1 <= eb <= elem_bits e /\ n = Z.of_nat len * eb
  else from mod 8 = 0 /\ n = if elem_dyn e then -1 else Z.of_nat len * elem_bits e.

Lemma arr_n e len n from : wf_elem e -> arr_ok e len n from -> 0 <= n \/ n = -1.
Proof.
  unfold arr_ok. intros We Wn. destruct (is_fixed_scalar e) eqn:S.
  - destruct Wn as (eb & H1 & ->). lia.
  - destruct Wn as (_ & ->). destruct (elem_dyn e) eqn:D; [auto|].
    pose proof (not_scalar_bits_nonneg e We S D). lia.
Qed.

Definition sum_esize (e : elem) (arr : list val) : Z := fold_right (fun v a => esize_elem e v + a) 0 arr.

Lemma arr_geom e len n big from arr : wf_elem e -> (0 < len)%nat -> arr_ok e len n from ->
  length arr = len -> Forall (storable_elem e) arr ->
  forall off, 8 * (off + sum_esize e arr) + next_from from n =
    8 * off + from + zlen (flat_map (image_elem e (n / Z.of_nat len) big) arr).
Proof.
  intros We Hl Wn Hlen Sv off.
  destruct (proj2 sizes (FArr e len n big FNil) from [VArr arr]) as (E & _).
  - cbn [wf_fields]. auto.
  - cbn. auto.
  - cbn [image_fields esize_fields fixed_bits] in E.
    rewrite zlen_app in E. change (zlen (@nil (option bool))) with 0 in E.
    fold (sum_esize e arr) in E.
    unfold next_from. pose proof (arr_n e len n from We Wn).
    destruct (Z.eqb_spec n (-1)).
    + subst n. cbn [Z.ltb Z.compare] in E. lia.
    + rewrite if_pos in E by lia. lia.
Qed.

Lemma image_elem_n e n n' big big' v : is_fixed_scalar e = false ->
  image_elem e n big v = image_elem e n' big' v.
Proof. destruct e, v; cbn; try discriminate; reflexivity. Qed.

(** Bits of one array element: [eb] is what the generator computes. *)
Lemma arr_eb e len n from : wf_elem e -> (0 < len)%nat -> arr_ok e len n from -> elem_dyn e = false ->
  exists eb, n = Z.of_nat len * eb /\ Z.quot n (Z.of_nat len) = eb /\ n / Z.of_nat len = eb /\ 0 <= eb /\
    (if is_fixed_scalar e then 1 <= eb <= elem_bits e else eb = elem_bits e /\ from mod 8 = 0 /\ eb mod 8 = 0).
Proof.
  intros We Hl Wn D. unfold arr_ok in Wn.
  destruct (is_fixed_scalar e) eqn:S.
  - destruct Wn as (eb & H1 & ->). exists eb. rewrite quot_mul, div_mul by lia. repeat split; lia.
  - rewrite D in Wn. destruct Wn as (Hm & ->). exists (elem_bits e).
    rewrite quot_mul, div_mul by lia. repeat split; auto.
    + apply not_scalar_bits_nonneg; auto.
    + destruct e; cbn in S, D; try discriminate. cbn in *. tauto.
Qed.

Lemma quot_m1 len i : (0 < len)%nat -> 0 <= i < Z.of_nat len -> i * Z.quot (-1) (Z.of_nat len) = 0.
Proof.
  intros Hl Hi. assert (Z.of_nat len = 1 \/ 1 < Z.of_nat len) as [E|E] by lia.
  - rewrite E. change (Z.quot (-1) 1) with (-1). lia.
  - assert (Z.quot (-1) (Z.of_nat len) = 0).
    { change (-1) with (- (1)). rewrite Z.quot_opp_l by lia. rewrite Z.quot_small by lia. reflexivity. }
    rewrite H. lia.
Qed.

Lemma highbit_small m : 1 <= m <= 8 ->
  m <= highbit m /\ (highbit m = 1 \/ highbit m = 2 \/ highbit m = 4 \/ highbit m = 8).
Proof.
  intros H. assert (m = 1 \/ m = 2 \/ m = 3 \/ m = 4 \/ m = 5 \/ m = 6 \/ m = 7 \/ m = 8) as C by lia.
  repeat destruct C as [->|C]; try subst m; vm_compute; intuition (try discriminate; auto).
Qed.

Lemma enum_temp_ok n : 1 <= n <= 64 -> has_uint (enum_temp_bits n) = true /\ n <= enum_temp_bits n <= 64.
Proof.
  intros H. unfold enum_temp_bits. pose proof (highbit_small ((n + 7) / 8) ltac:(lia)) as (L & C).
  unfold has_uint. destruct C as [C|[C|[C|C]]]; rewrite C in *; cbn; split; try reflexivity; lia.
Qed.

Lemma has_uint_range w : has_uint w = true -> 8 <= w <= 64.
Proof.
  unfold has_uint. intros H. repeat (apply orb_true_iff in H as [H|H]); apply Z.eqb_eq in H; lia.
Qed.

(** ** iteration *)
Lemma iter_enc_overlay (f : Z -> val -> Z -> list Z -> res (list Z * Z)) (P : val -> Prop)
  (img : val -> list (option bool)) (sz : val -> Z) (pos : Z -> Z -> Z) (K : Z -> Prop) (N : Z) :
  (forall i v off buf, 0 <= i < N -> P v -> K off -> bytes_ok buf ->
     pos i off + zlen (img v) <= 8 * zlen buf ->
     exists buf', f i v off buf = Ok (buf', off + sz v) /\ overlay buf (pos i off) (img v) buf') ->
  (forall i v off, 0 <= i < N -> P v -> K off ->
     pos (i + 1) (off + sz v) = pos i off + zlen (img v) /\ K (off + sz v)) ->
  forall arr i off buf, Forall P arr -> 0 <= i -> i + zlen arr <= N -> K off -> bytes_ok buf ->
    pos i off + zlen (flat_map img arr) <= 8 * zlen buf ->
    exists buf', iter_enc f i arr off buf = Ok (buf', off + fold_right (fun v a => sz v + a) 0 arr) /\
      overlay buf (pos i off) (flat_map img arr) buf'.
Proof.
  intros Hf Hp. induction arr as [|v arr IH]; intros i off buf HP Hi HN HK Hb Hl.
  - exists buf. cbn. split; [do 2 f_equal; lia|]. apply overlay_nil; auto.
  - inversion HP as [|? ? Pv Pa]; subst. cbn [iter_enc flat_map fold_right] in *.
    rewrite zlen_cons in HN. rewrite zlen_app in Hl. pose proof (zlen_nonneg arr).
    pose proof (zlen_nonneg (flat_map img arr)).
    destruct (Hf i v off buf) as (b1 & E1 & O1); try lia; auto.
    rewrite E1. cbn [bind].
    destruct (Hp i v off ltac:(lia) Pv HK) as (Hpos & HK').
    pose proof (overlay_length _ _ _ _ O1) as L1.
    destruct (IH (i + 1) (off + sz v) b1) as (b2 & E2 & O2); try lia; auto.
    { eapply overlay_bytes; eauto. }
    exists b2. split.
    + rewrite E2. do 2 f_equal. lia.
    + eapply overlay_app; eauto. rewrite <- Hpos. exact O2.
Qed.

Definition offk (dyn : bool) (off : Z) : Prop := 0 <= off /\ (dyn = false -> off = 0).

Lemma offk_base dyn off : offk dyn off -> (if dyn then off else 0) = off.
Proof. intros (H1 & H2). destruct dyn; auto. symmetry; auto. Qed.

(** What an element slot must satisfy. *)
Definition slot_ok (e : elem) (w n from : Z) : Prop :=
  match e with
  | EBasic b => 1 <= n <= basic_bits b
  | EEnum bits => has_uint w = true /\ 1 <= n <= w
  | _ => from mod 8 = 0
  end.

Definition EncE (e : elem) : Prop := forall c dyn w n big from v off buf,
  wf_elem e -> storable_elem e v -> go_ok_elem c e -> slot_ok e w n from ->
  0 <= from -> offk dyn off -> (elem_dyn e = true -> dyn = true) -> bytes_ok buf ->
  8 * off + from + zlen (image_elem e n big v) <= 8 * zlen buf ->
  exists buf', enc_elem c dyn e w n big from v off buf = Ok (buf', off + esize_elem e v) /\
    overlay buf (8 * off + from) (image_elem e n big v) buf'.

Definition EncF (fs : fields) : Prop := forall c dyn vs from off buf,
  wf_fields fs from -> storable_fields fs vs -> go_ok c fs ->
  0 <= from -> offk dyn off -> (fields_dyn fs = true -> dyn = true) -> bytes_ok buf ->
  8 * off + from + zlen (image_fields fs vs) <= 8 * zlen buf ->
  exists buf', enc_fields c dyn fs vs from off buf = Ok (buf', off + esize_fields fs vs) /\
    overlay buf (8 * off + from) (image_fields fs vs) buf'.

Lemma offk_dyn dyn off d k : offk dyn off -> 0 <= k -> (d = false -> k = 0) -> (d = true -> dyn = true) ->
  offk dyn (off + k).
Proof.
  intros (H1 & H2) Hk H3 H4. split; [lia|]. intros E. destruct d; [rewrite H4 in E by auto; discriminate|].
  rewrite H2, H3; auto.
Qed.

Lemma esize_loop_nonneg f n s : 0 <= s -> 0 <= bytes_size_loop f n s.
Proof. revert n s; induction f; intros n s H; cbn; [lia|]. destruct (_ =? 0); [lia|]. apply IHf. lia. Qed.

Lemma esize_nonneg : (forall e v, 0 <= esize_elem e v) /\ (forall fs vs, 0 <= esize_fields fs vs).
Proof.
  apply schema_ind; try (intros; destruct v; cbn; lia).
  - intros v; destruct v; cbn; try lia. pose proof (zlen_nonneg bs). lia.
  - intros v; destruct v; cbn [esize_elem]; try lia. unfold bytes_size. pose proof (zlen_nonneg bs).
    pose proof (esize_loop_nonneg 10 (zlen bs) 1 ltac:(lia)). lia.
  - intros fs IH v; destruct v; cbn; try lia. destruct (fields_dyn fs); [|lia].
    pose proof (fixed_bits_nonneg fs). specialize (IH vs). lia.
  - intros vs; cbn; lia.
  - intros e IHe n big r IHr vs. destruct vs; cbn [esize_fields]; [lia|]. specialize (IHe v). specialize (IHr vs). lia.
  - intros e IHe len n big r IHr vs. destruct vs as [|[| | |vs0] vs]; cbn [esize_fields]; try lia.
    specialize (IHr vs). assert (0 <= fold_right (fun v a => esize_elem e v + a) 0 vs0); [|lia].
    induction vs0 as [|v vs0 IH]; cbn; [lia|]. specialize (IHe v). lia.
  - intros; cbn; auto.
  - intros; cbn; auto.
  - intros; cbn; auto.
Qed.

Lemma sum_esize_nonneg e arr : 0 <= sum_esize e arr.
Proof.
  unfold sum_esize. induction arr; cbn; [lia|]. pose proof (proj1 esize_nonneg e a). lia.
Qed.

Lemma esize_zero e v : wf_elem e -> storable_elem e v -> elem_dyn e = false -> esize_elem e v = 0.
Proof. intros We Sv D. destruct (proj1 sizes e 0 false v We Sv ltac:(lia)) as (_ & H). auto. Qed.

Lemma sum_esize_zero e arr : wf_elem e -> Forall (storable_elem e) arr -> elem_dyn e = false ->
  sum_esize e arr = 0.
Proof.
  intros We Sv D. unfold sum_esize. apply fold_zero. eapply Forall_impl; [|exact Sv].
  intros v Hv. apply esize_zero; auto.
Qed.

Lemma enc_main : (forall e, EncE e) /\ (forall fs, EncF fs).
Proof.
  apply schema_ind; unfold EncE, EncF.
  - (* EBasic *)
    intros b c dyn w n big from v off buf We Sv _ Hs Hf Hk _ Hb Hl.
    destruct v; cbn in Sv; try contradiction. cbn [image_elem enc_elem esize_elem] in *.
    cbn in Hs. pose proof (basic_bits_range b We).
    rewrite zlen_map, zlen_field_bits in Hl by lia. rewrite (offk_base _ _ Hk).
    destruct Hk as (Hk & _).
    destruct (enc_basic_overlay (basic_bits b) n big from off z buf) as (b1 & E & O); try lia; auto.
    rewrite E. cbn [bind]. exists b1. split; [do 2 f_equal; lia|auto].
  - (* EEnum *)
    intros bits c dyn w n big from v off buf We Sv _ Hs Hf Hk _ Hb Hl.
    destruct v; cbn in Sv; try contradiction. cbn [image_elem enc_elem esize_elem] in *.
    cbn in Hs. destruct Hs as (Hu & Hn). rewrite Hu. apply has_uint_range in Hu.
    rewrite zlen_map, zlen_field_bits in Hl by lia. rewrite (offk_base _ _ Hk).
    destruct Hk as (Hk & _).
    destruct (enc_basic_overlay w n big from off z buf) as (b1 & E & O); try lia; auto.
    rewrite E. cbn [bind]. exists b1. split; [do 2 f_equal; lia|auto].
  - (* EString *)
    intros c dyn w n big from v off buf We Sv _ Hs Hf Hk _ Hb Hl.
    destruct v; cbn in Sv; try contradiction. cbn [image_elem enc_elem esize_elem] in *.
    cbn in Hs. destruct Hk as (Hk & _). destruct Sv as (Sv & _).
    rewrite zlen_raw_bytes, zlen_app, zlen_one in Hl.
    destruct (enc_string_overlay (from / 8) bs off buf) as (b1 & E & O); try lia; auto.
    rewrite E. exists b1. split; [reflexivity|].
    replace (8 * off + from) with (8 * (off + from / 8)) by lia. exact O.
  - (* EBytes *)
    intros c dyn w n big from v off buf We Sv _ Hs Hf Hk _ Hb Hl.
    destruct v; cbn in Sv; try contradiction. cbn [image_elem enc_elem esize_elem] in *.
    cbn in Hs. destruct Hk as (Hk & _). destruct Sv as (Sv & Sl).
    rewrite zlen_raw_bytes in Hl.
    destruct (enc_bytes_overlay (from / 8) bs off buf) as (b1 & E & O); try lia; auto.
    rewrite E. exists b1. split; [reflexivity|].
    replace (8 * off + from) with (8 * (off + from / 8)) by lia. exact O.
  - (* EStruct *)
    intros fs IH c dyn w n big from v off buf We Sv Hg Hs Hf Hk Hd Hb Hl.
    destruct v as [| |vs|]; cbn in Sv; try contradiction. cbn [image_elem enc_elem esize_elem] in *.
    cbn in Hs, We, Hg. destruct We as (We & H8). rewrite (offk_base _ _ Hk). destruct Hk as (Hk & _).
    pose proof (zlen_nonneg (image_fields fs vs)).
    unfold in_slice.
    destruct (Z.ltb_spec (off + from / 8) 0); [lia|].
    destruct (Z.ltb_spec (zlen buf) (off + from / 8)); [lia|]. cbn [orb].
    destruct (IH c (fields_dyn fs) vs 0 0 (skipn (Z.to_nat (off + from / 8)) buf)) as (b1 & E & O); auto; try lia.
    { split; [lia|auto]. }
    { apply bytes_ok_skipn; auto. }
    { rewrite zlen_skipn. lia. }
    rewrite E. cbn [bind]. eexists. split; [|].
    + do 2 f_equal. destruct (fields_dyn fs); lia.
    + apply overlay_slice in O; auto; [|unfold zlen in *; lia].
      replace (8 * Z.of_nat (Z.to_nat (off + from / 8))) with (8 * off + from) in O by lia. exact O.
  - (* FNil *)
    intros c dyn vs from off buf _ Sv _ Hf Hk _ Hb Hl. cbn in Sv. subst vs. cbn.
    exists buf. split; [do 2 f_equal; lia|apply overlay_nil; auto].
  - (* FOne *)
    intros e IHe n big r IHr c dyn vs from off buf Hwf Hs Hg Hf Hk Hd Hb Hl.
    cbn [wf_fields] in Hwf. destruct Hwf as (We & Wn & Wr).
    destruct vs as [|v vs]; cbn in Hs; [contradiction|]. destruct Hs as (Sv & Ss).
    cbn in Hg. destruct Hg as (Ge & Gr).
    cbn [fields_dyn] in Hd.
    pose proof (one_geom e n big from v We Wn Sv off) as G.
    cbn [image_fields enc_fields esize_fields] in *. fold (gap e) in *.
    rewrite !zlen_app in Hl.
    pose proof (zlen_nonneg (gap e)). pose proof (zlen_nonneg (image_fields r vs)).
    assert (Hso : slot_ok e (enum_temp_bits n) n from).
    { destruct e; cbn [slot_ok is_fixed_scalar elem_bits] in *; try tauto. cbn in We. destruct (enum_temp_ok n); [lia|].
      split; auto; lia. }
    destruct (IHe c dyn (enum_temp_bits n) n big from v off buf) as (b1 & E1 & O1); auto; try lia.
    { intros D. apply Hd. rewrite D. reflexivity. }
    rewrite E1. cbn [bind].
    pose proof (overlay_length _ _ _ _ O1) as L1. pose proof (overlay_bytes _ _ _ _ O1) as B1.
    assert (O2 : overlay buf (8 * off + from) (image_elem e n big v ++ gap e) b1).
    { eapply overlay_app; [exact O1|]. unfold gap. destruct e; try (apply overlay_nil; auto).
      destruct (fields_dyn fs); [apply overlay_none|apply overlay_nil]; auto. }
    pose proof (proj1 esize_nonneg e v).
    destruct (IHr c dyn vs (next_from from n) (off + esize_elem e v) b1) as (b2 & E2 & O3); auto; try lia.
    { pose proof (one_n e n from We Wn). unfold next_from. destruct (Z.eqb_spec n (-1)); lia. }
    { apply offk_dyn with (d := elem_dyn e); auto.
      - apply esize_zero; auto.
      - intros D. apply Hd. rewrite D. reflexivity. }
    { intros D. apply Hd. rewrite D. apply orb_true_r. }
    exists b2. split.
    + rewrite E2. do 2 f_equal. lia.
    + rewrite app_assoc. eapply overlay_app; [exact O2|]. rewrite zlen_app, <- G. exact O3.
  - (* FArr *)
    intros e IHe len n big r IHr c dyn vs from off buf Hwf Hs Hg Hf Hk Hd Hb Hl.
    cbn [wf_fields] in Hwf. destruct Hwf as (We & Wl & Wn & Wr). fold (arr_ok e len n from) in Wn.
    destruct vs as [|v vs]; cbn in Hs; [contradiction|]. destruct v as [| | |arr]; try contradiction.
    destruct Hs as (Sl & Sv & Ss).
    cbn in Hg. destruct Hg as (Ge & Gu & Gr).
    cbn [fields_dyn] in Hd.
    pose proof (arr_geom e len n big from arr We Wl Wn Sl Sv off) as G.
    cbn [image_fields enc_fields esize_fields] in *. fold (sum_esize e arr) in *.
    rewrite zlen_app in Hl. pose proof (zlen_nonneg (image_fields r vs)).
    assert (HN : 0 + zlen arr <= Z.of_nat len) by (unfold zlen; lia).
    set (img := image_elem e (n / Z.of_nat len) big) in *.
    assert (Hde : elem_dyn e = true -> dyn = true) by (intros D; apply Hd; rewrite D; reflexivity).
    assert (Harr : exists b1,
      (if use_loop c len then
         if elem_dyn e
         then iter_enc (fun _ v o b => enc_elem c dyn e (8 * ((elem_bits e + 7) / 8)) (Z.quot n (Z.of_nat len)) big from v o b) 0 arr off buf
         else match e with
              | EStruct s =>
                  iter_enc (fun i v o b =>
                    do (b', _) <- in_slice b ((if dyn then off else 0) + from / 8 + i * (Z.quot n (Z.of_nat len) / 8))
                         (fun sub => match v with
                                     | VStruct ws => enc_fields c (fields_dyn s) s ws 0 0 sub
                                     | _ => Panic
                                     end);
                    Ok (b', o)) 0 arr off buf
              | _ =>
                  iter_enc (fun i v o b =>
                    match v with
                    | VNum z =>
                        do b' <- write_field_bits (8 * (if dyn then off else 0) + (from + i * Z.quot n (Z.of_nat len))) (Z.quot n (Z.of_nat len))
                                   (loop_value z) big b;
                        Ok (b', o)
                    | _ => Panic
                    end) 0 arr off buf
              end
       else iter_enc (fun i v o b => enc_elem c dyn e (8 * ((elem_bits e + 7) / 8)) (Z.quot n (Z.of_nat len)) big (from + i * Z.quot n (Z.of_nat len)) v o b) 0 arr off buf)
      = Ok (b1, off + sum_esize e arr) /\ overlay buf (8 * off + from) (flat_map img arr) b1).
    { destruct (elem_dyn e) eqn:D.
      - (* dynamic elements *)
        assert (Sc : is_fixed_scalar e = false) by (destruct e; cbn in D; try discriminate; reflexivity).
        unfold arr_ok in Wn. rewrite Sc, D in Wn. destruct Wn as (Hm & ->).
        assert (Hstep : forall eb i v o b, storable_elem e v -> offk dyn o -> bytes_ok b -> i * eb = 0 ->
          8 * o + from + zlen (img v) <= 8 * zlen b ->
          exists b', enc_elem c dyn e (8 * ((elem_bits e + 7) / 8)) eb big (from + i * eb) v o b = Ok (b', o + esize_elem e v) /\
            overlay b (8 * o + from) (img v) b').
        { intros eb i v o b Hv Ho Hbo Hi Hlen. unfold img in *.
          rewrite (image_elem_n e _ eb big big) in * by auto.
          replace (from + i * eb) with from by lia.
          apply IHe; auto.
          destruct e; cbn in Sc; try discriminate; cbn; auto. }
        assert (Hnext : forall (i : Z) v o, storable_elem e v -> offk dyn o ->
          8 * (o + esize_elem e v) + from = 8 * o + from + zlen (img v) /\ offk dyn (o + esize_elem e v)).
        { intros i v o Hv Ho. split.
          - destruct (proj1 sizes e 0 big v We Hv ltac:(lia)) as (E & _).
            unfold slot in E. rewrite Sc, D in E. unfold img.
            rewrite (image_elem_n e _ 0 big big) by auto. lia.
          - apply offk_dyn with (d := true); auto.
            + apply (proj1 esize_nonneg).
            + discriminate. }
        destruct (use_loop c len).
        + apply (iter_enc_overlay _ (storable_elem e) img (esize_elem e) (fun _ o => 8 * o + from) (offk dyn) (Z.of_nat len)); auto; try lia.
          intros i v o b Hi Hv Ho Hbo Hlen.
          destruct (Hstep (Z.quot (-1) (Z.of_nat len)) 0 v o b) as (b' & E & O); auto; try lia.
          rewrite Z.mul_0_l, Z.add_0_r in E. eauto.
        + apply (iter_enc_overlay _ (storable_elem e) img (esize_elem e) (fun _ o => 8 * o + from) (offk dyn) (Z.of_nat len)); auto; try lia.
          intros i v o b Hi Hv Ho Hbo Hlen. apply Hstep; auto. apply quot_m1; auto.
      - (* static elements *)
        destruct (arr_eb e len n from We Wl Wn D) as (eb & Hn & Hq & Hdv & Heb & Hcase).
        rewrite Hq in *. unfold img in *. rewrite Hdv in *.
        rewrite (sum_esize_zero e arr) in * by auto.
        pose proof (offk_base _ _ Hk) as Hbase.
        set (K := fun o => o = off).
        assert (HKk : forall o, K o -> offk dyn o) by (unfold K; intros; subst; auto).
        assert (Hz : forall v, storable_elem e v -> zlen (image_elem e eb big v) = eb).
        { intros v Hv. destruct (proj1 sizes e eb big v We Hv Heb) as (E & Ed).
          rewrite E, Ed by auto. unfold slot. destruct (is_fixed_scalar e); [lia|].
          rewrite D. destruct Hcase as (<- & _). lia. }
        assert (Hfold : off + 0 = off + fold_right (fun v a => (fun _ : val => 0) v + a) 0 arr).
        { f_equal. symmetry. apply fold_zero. apply Forall_forall. reflexivity. }
        rewrite Hfold.
        replace (8 * off + from) with ((fun i o => 8 * o + from + i * eb) 0 off) in Hl |- * by lia.
        assert (Hnext : forall i v o, 0 <= i < Z.of_nat len -> storable_elem e v -> K o ->
          8 * (o + 0) + from + (i + 1) * eb = 8 * o + from + i * eb + zlen (image_elem e eb big v) /\ K (o + 0)).
        { intros i v o Hi Hv Ho. rewrite Hz by auto. split; [lia|]. unfold K in *. lia. }
        (* one element through the inline statements *)
        assert (Hstep : forall i v o b, 0 <= i < Z.of_nat len -> storable_elem e v -> K o -> bytes_ok b ->
          (is_fixed_scalar e = true -> slot_ok e (8 * ((elem_bits e + 7) / 8)) eb from) ->
          8 * o + from + i * eb + zlen (image_elem e eb big v) <= 8 * zlen b ->
          exists b', enc_elem c dyn e (8 * ((elem_bits e + 7) / 8)) eb big (from + i * eb) v o b = Ok (b', o + 0) /\
            overlay b (8 * o + from + i * eb) (image_elem e eb big v) b').
        { intros i v o b Hi Hv Ho Hbo Hso Hlen.
          assert (0 <= i * eb) by (apply Z.mul_nonneg_nonneg; lia).
          destruct (IHe c dyn (8 * ((elem_bits e + 7) / 8)) eb big (from + i * eb) v o b) as (b' & E & O); auto; try lia.
          - destruct (is_fixed_scalar e) eqn:S.
            + specialize (Hso eq_refl). destruct e; cbn in S; try discriminate; exact Hso.
            + destruct e; cbn in S, D; try discriminate. cbn. destruct Hcase as (_ & Hm & He).
              rewrite Z.add_mod, Z.mul_mod, He, Z.mul_0_r, Z.mod_0_l, Z.add_0_r, Z.mod_mod by lia. exact Hm.
          - exists b'. rewrite (esize_zero e v) in E by auto. split; auto.
            replace (8 * o + from + i * eb) with (8 * o + (from + i * eb)) by lia. exact O. }
        destruct (use_loop c len) eqn:UL.
        + destruct (is_fixed_scalar e) eqn:S.
          * assert (Hbits : 1 <= eb <= 64).
            { destruct e; cbn in S; try discriminate; cbn in We, Hcase; [|lia].
              pose proof (basic_bits_range b We). lia. }
            assert (Hgoal : exists b1, iter_enc (fun i v o b =>
                    match v with
                    | VNum z =>
                        do b' <- write_field_bits (8 * (if dyn then off else 0) + (from + i * eb)) eb (loop_value z) big b;
                        Ok (b', o)
                    | _ => Panic
                    end) 0 arr off buf
                 = Ok (b1, off + fold_right (fun v a => (fun _ : val => 0) v + a) 0 arr) /\
                   overlay buf ((fun i o => 8 * o + from + i * eb) 0 off) (flat_map (image_elem e eb big) arr) b1).
            { apply (iter_enc_overlay _ (storable_elem e) (image_elem e eb big) (fun _ => 0) (fun i o => 8 * o + from + i * eb) K (Z.of_nat len)); auto; try lia.
              - intros i v o b Hi Hv Ho Hbo Hlen. rewrite Hz in Hlen by auto. rewrite Hbase.
                assert (Hv' : exists z, v = VNum z /\ image_elem e eb big v = map Some (field_bits eb big z)).
                { destruct e; cbn in S; try discriminate; destruct v; cbn in Hv; try contradiction; cbn; eauto. }
                destruct Hv' as (z & -> & ->). unfold K in Ho. subst o.
                assert (0 <= i * eb) by (apply Z.mul_nonneg_nonneg; lia). destruct Hk as (Hk & _).
                destruct (write_field_bits_overlay (8 * off + (from + i * eb)) eb z big b) as (b' & E & O); auto; try lia.
                rewrite E. cbn [bind]. exists b'. split; [do 2 f_equal; lia|].
                replace (8 * off + from + i * eb) with (8 * off + (from + i * eb)) by lia. exact O.
              - reflexivity. }
            destruct e; cbn in S; try discriminate; exact Hgoal.
          * destruct e; cbn in S, D; try discriminate.
            apply (iter_enc_overlay _ (storable_elem (EStruct fs)) (image_elem (EStruct fs) eb big) (fun _ => 0) (fun i o => 8 * o + from + i * eb) K (Z.of_nat len)); auto; try lia.
            -- intros i v o b Hi Hv Ho Hbo Hlen.
               destruct (Hstep i v o b) as (b' & E & O); auto; [discriminate|].
               destruct v as [| |ws|]; cbn in Hv; try contradiction.
               exists b'. split; [|exact O].
               cbn [enc_elem] in E. rewrite Hbase. rewrite (offk_base _ _ (HKk _ Ho)) in E.
               unfold K in Ho. subst o.
               destruct Hcase as (_ & Hm & He).
               replace (off + from / 8 + i * (eb / 8)) with (off + (from + i * eb) / 8).
               2:{ assert (Heq : i * eb = 8 * (i * (eb / 8))) by lia. lia. }
               rewrite D in *.
               destruct (in_slice b (off + (from + i * eb) / 8) _) as [[b2 o2]| |]; cbn [bind] in *; try discriminate.
               inversion E; subst. do 2 f_equal. lia.
            -- reflexivity.
        + apply (iter_enc_overlay _ (storable_elem e) (image_elem e eb big) (fun _ => 0) (fun i o => 8 * o + from + i * eb) K (Z.of_nat len)); auto; try lia.
          * intros i v o b Hi Hv Ho Hbo Hlen. apply Hstep; auto.
            intros S. destruct e; cbn in S; try discriminate; cbn [slot_ok elem_bits is_fixed_scalar] in *; auto.
            destruct Gu as [Gu|Gu]; [discriminate|]. split; auto. lia.
          * reflexivity. }
    destruct Harr as (b1 & E1 & O1).
    rewrite E1. cbn [bind].
    pose proof (overlay_length _ _ _ _ O1) as L1. pose proof (overlay_bytes _ _ _ _ O1) as B1.
    pose proof (sum_esize_nonneg e arr).
    destruct (IHr c dyn vs (next_from from n) (off + sum_esize e arr) b1) as (b2 & E2 & O3); auto; try lia.
    { pose proof (arr_n e len n from We Wn). unfold next_from. destruct (Z.eqb_spec n (-1)); lia. }
    { apply offk_dyn with (d := elem_dyn e); auto. intros D. apply sum_esize_zero; auto. }
    { intros D. apply Hd. rewrite D. apply orb_true_r. }
    exists b2. split.
    + rewrite E2. do 2 f_equal. lia.
    + eapply overlay_app; [exact O1|]. rewrite <- G. exact O3.
  - (* FVoid *)
    intros n r IHr c dyn vs from off buf Hwf Hs Hg Hf Hk Hd Hb Hl.
    cbn [wf_fields] in Hwf. destruct Hwf as (Hn & Wr).
    cbn [image_fields enc_fields esize_fields fields_dyn storable_fields go_ok] in *.
    rewrite zlen_app, zlen_repeat in Hl. unfold next_from. destruct (Z.eqb_spec n (-1)); [lia|].
    destruct (IHr c dyn vs (from + n) off buf) as (b2 & E2 & O2); auto; try lia.
    exists b2. split; [exact E2|]. eapply overlay_app; [apply overlay_none; auto|].
    rewrite zlen_repeat. replace (8 * off + from + Z.of_nat (Z.to_nat n)) with (8 * off + (from + n)) by lia.
    exact O2.
  - (* FConst *)
    intros b n big z r IHr c dyn vs from off buf Hwf Hs Hg Hf Hk Hd Hb Hl.
    cbn [wf_fields] in Hwf. destruct Hwf as (Wb & Hn & Wr).
    cbn [image_fields enc_fields esize_fields fields_dyn storable_fields go_ok] in *.
    destruct Hg as (_ & Hg).
    rewrite zlen_app, zlen_map, zlen_const_bits in Hl by lia.
    pose proof (zlen_nonneg (image_fields r vs)).
    unfold next_from. destruct (Z.eqb_spec n (-1)); [lia|].
    rewrite (offk_base _ _ Hk).
    destruct (enc_const_overlay b n big from off z buf) as (b1 & E1 & O1); auto; try lia.
    { destruct Hk; auto. }
    rewrite E1. cbn [bind].
    pose proof (overlay_length _ _ _ _ O1) as L1. pose proof (overlay_bytes _ _ _ _ O1) as B1.
    destruct (IHr c dyn vs (from + n) off b1) as (b2 & E2 & O2); auto; try lia.
    exists b2. split; [exact E2|]. eapply overlay_app; [exact O1|].
    rewrite zlen_map, zlen_const_bits by lia.
    replace (8 * off + from + n) with (8 * off + (from + n)) by lia. exact O2.
  - (* FEmb *)
    intros r IHr c dyn vs from off buf Hwf Hs Hg Hf Hk Hd Hb Hl.
    cbn [wf_fields image_fields enc_fields esize_fields fields_dyn storable_fields go_ok] in *.
    apply IHr; auto.
Qed.
