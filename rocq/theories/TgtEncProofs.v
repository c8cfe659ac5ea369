(** Any target whose primitives lay the right bits over the buffer encodes whole messages correctly. *)
From Coq Require Import ZArith List Lia Bool.
From Verif Require Import Base BaseProofs Schema SpecWire GoModel GoBitProofs GoEncProofs GoEncMain CfBitProofs TgtModel.
Import ListNotations.
Open Scope Z_scope.

(** Room for [len] bits at bit [pos], the struct's area ending at bit [lim]; if [zr], the area is still zero. *)
Definition room (zr : bool) (mx : Z) (buf : list Z) (pos len lim : Z) : Prop :=
  bytes_ok buf /\ lim mod 8 = 0 /\ 0 <= pos /\ pos + len <= lim /\ lim <= 8 * zlen buf /\ zlen buf < mx /\
  (zr = true -> zeros buf pos lim).

Lemma room_short zr mx buf pos len lim len' : len' <= len -> room zr mx buf pos len lim -> room zr mx buf pos len' lim.
Proof. intros H (A & B & C & D & E & F & G). repeat split; auto; lia. Qed.

Lemma room_at zr mx buf pos len lim pos' len' : pos = pos' -> len' <= len ->
  room zr mx buf pos len lim -> room zr mx buf pos' len' lim.
Proof. intros <-. apply room_short. Qed.

Lemma room_next zr mx buf pos img b len lim pos' : overlay buf pos img b -> pos' = pos + zlen img -> 0 <= len ->
  room zr mx buf pos (zlen img + len) lim -> room zr mx b pos' len lim.
Proof.
  intros O -> Hl (A & B & C & D & E & F & G). pose proof (overlay_length _ _ _ _ O). pose proof (zlen_nonneg img).
  repeat split; try lia. { eapply overlay_bytes; eauto. }
  intros Hz. specialize (G Hz). eapply zeros_overlay; eauto; try lia. eapply zeros_mono; [| |exact G]; lia.
Qed.

Record enc_spec (T : tgt) (R : treq) (zr : bool) (mx : Z) : Prop := {
  es_scalar : forall e w n big from base lim z buf,
    wf_elem e -> is_fixed_scalar e = true -> 1 <= n <= elem_bits e -> storable_num e z -> r_scalar R e w n big from ->
    0 <= base -> 0 <= from -> room zr mx buf (8 * base + from) n lim ->
    exists b, t_escalar T e w n big from base z buf = Ok b /\
      overlay buf (8 * base + from) (map Some (field_bits n big z)) b;
  es_const : forall b n big from base lim z buf,
    wf_basic b -> 1 <= n <= basic_bits b -> r_const R b n big from z ->
    0 <= base -> 0 <= from -> room zr mx buf (8 * base + from) n lim ->
    exists b', t_econst T b n big from base z buf = Ok b' /\
      overlay buf (8 * base + from) (map Some (const_bits (basic_bits b) n big z)) b';
  es_loop : forall e n big from base lim z buf,
    wf_elem e -> is_fixed_scalar e = true -> 1 <= n <= elem_bits e -> storable_num e z -> r_loop R e n big from ->
    0 <= base -> 0 <= from -> room zr mx buf (8 * base + from) n lim ->
    exists b, t_eloop T e n big (8 * base + from) z buf = Ok b /\
      overlay buf (8 * base + from) (map Some (field_bits n big z)) b;
  es_string : forall p lim bs buf, bytes_ok bs -> ~ In 0 bs -> 0 <= p -> room zr mx buf (8 * p) (8 * (zlen bs + 1)) lim ->
    exists b, t_estring T p bs buf = Ok (b, zlen bs + 1) /\ overlay buf (8 * p) (raw_bytes (bs ++ [0])) b;
  es_bytes : forall p lim bs buf, bytes_ok bs -> zlen bs < 2 ^ 63 -> 0 <= p ->
    room zr mx buf (8 * p) (8 * zlen (varint (zlen bs) ++ bs)) lim ->
    exists b, t_ebytes T p bs buf = Ok (b, bytes_size bs) /\ overlay buf (8 * p) (raw_bytes (varint (zlen bs) ++ bs)) b;
  es_bsize : forall bs, zlen bs < mx -> zlen bs < 2 ^ 63 -> t_bsize T bs = bytes_size bs;
  es_nested : r_nested R -> t_lstart T = true
}.

(** Byte strings short enough for the size computation. *)
Fixpoint lens_elem (mx : Z) (e : elem) (v : val) {struct e} : Prop :=
  match e with
  | EBytes => match v with VStr bs => zlen bs < mx | _ => False end
  | EStruct fs => match v with VStruct vs => lens_fields mx fs vs | _ => False end
  | _ => True
  end
with lens_fields (mx : Z) (fs : fields) (vs : list val) {struct fs} : Prop :=
  match fs with
  | FNil => True
  | FOne e _ _ r => match vs with v :: vs' => lens_elem mx e v /\ lens_fields mx r vs' | [] => False end
  | FArr e _ _ _ r =>
      match vs with VArr arr :: vs' => Forall (lens_elem mx e) arr /\ lens_fields mx r vs' | _ => False end
  | FVoid _ r | FConst _ _ _ _ r | FEmb r => lens_fields mx r vs
  end.

(** An image that fits a buffer shorter than [mx] has only strings shorter than [mx]. *)
Lemma lens_of_image mx : 0 < mx ->
  (forall e n big v, storable_elem e v -> zlen (image_elem e n big v) < 8 * mx -> lens_elem mx e v) /\
  (forall fs vs, storable_fields fs vs -> zlen (image_fields fs vs) < 8 * mx -> lens_fields mx fs vs).
Proof.
  intros Hm. apply schema_ind; cbn [lens_elem lens_fields]; auto.
  - intros n big v Sv H. destruct v; cbn in Sv; try contradiction. cbn [image_elem] in H.
    rewrite zlen_raw_bytes, zlen_app in H. pose proof (zlen_nonneg (varint (zlen bs))). lia.
  - intros fs IH n big v Sv H. destruct v; cbn in Sv; try contradiction. cbn [image_elem] in H. auto.
  - intros e IHe n big r IHr vs Sv H. destruct vs as [|v vs]; cbn in Sv; [contradiction|]. destruct Sv as (Sv & Sr).
    cbn [image_fields] in H. rewrite !zlen_app in H.
    match type of H with _ + (?g + ?x) < _ => assert (0 <= g) by apply zlen_nonneg; assert (0 <= x) by apply zlen_nonneg end.
    pose proof (zlen_nonneg (image_elem e n big v)).
    split; [apply (IHe n big v); auto; lia|apply IHr; auto; lia].
  - intros e IHe len n big r IHr vs Sv H. destruct vs as [|v vs]; cbn in Sv; [contradiction|].
    destruct v as [| | |arr]; try contradiction. destruct Sv as (_ & Sa & Sr).
    cbn [image_fields] in H. rewrite zlen_app in H. pose proof (zlen_nonneg (image_fields r vs)).
    assert (0 <= zlen (flat_map (image_elem e (n / Z.of_nat len) big) arr)) by apply zlen_nonneg.
    split; [|apply IHr; auto; lia].
    assert (Hf : zlen (flat_map (image_elem e (n / Z.of_nat len) big) arr) < 8 * mx) by lia.
    clear - IHe Sa Hf. induction Sa as [|v arr Sv Sa IH]; constructor; cbn [flat_map] in Hf; rewrite zlen_app in Hf.
    + pose proof (zlen_nonneg (flat_map (image_elem e (n / Z.of_nat len) big) arr)). apply (IHe (n / Z.of_nat len) big v); auto. lia.
    + apply IH. pose proof (zlen_nonneg (image_elem e (n / Z.of_nat len) big v)). lia.
  - intros n r IHr vs Sv H. cbn [image_fields] in H. rewrite zlen_app in H.
    assert (0 <= zlen (@repeat (option bool) None (Z.to_nat n))) by apply zlen_nonneg. apply IHr; auto. lia.
  - intros b n big z r IHr vs Sv H. cbn [image_fields] in H. rewrite zlen_app in H.
    assert (0 <= zlen (map Some (const_bits (basic_bits b) n big z))) by apply zlen_nonneg. apply IHr; auto. lia.
Qed.

Section Enc.
  Variable T : tgt.
  Variable R : treq.
  Variable zr : bool.
  Variable mx : Z.
  Hypothesis ES : enc_spec T R zr mx.

  Lemma tsize_eq :
    (forall e v, storable_elem e v -> lens_elem mx e v -> tsize_elem T e v = esize_elem e v) /\
    (forall fs vs, storable_fields fs vs -> lens_fields mx fs vs -> tsize_fields T fs vs = esize_fields fs vs).
  Proof.
    apply schema_ind; cbn [lens_elem lens_fields]; try (intros; destruct v; reflexivity); try (intros; cbn; auto; fail).
    - intros v Sv Lv. destruct v; cbn in Sv; try contradiction. cbn. apply (es_bsize _ _ _ _ ES); tauto.
    - intros fs IH v Sv Lv. destruct v; cbn in Sv; try contradiction. cbn [tsize_elem esize_elem].
      destruct (fields_dyn fs); auto. rewrite IH; auto.
    - intros e IHe n big r IHr vs Sv Lv. destruct vs as [|v vs]; cbn in Sv; [contradiction|]. destruct Sv, Lv.
      cbn [tsize_fields esize_fields]. rewrite IHe, IHr; auto.
    - intros e IHe len n big r IHr vs Sv Lv. destruct vs as [|v vs]; cbn in Sv; [contradiction|].
      destruct v as [| | |arr]; try contradiction. destruct Sv as (_ & Sa & Sr). destruct Lv as (La & Lr).
      cbn [tsize_fields esize_fields]. rewrite IHr by auto. f_equal.
      clear - IHe Sa La. induction arr as [|v arr IH]; [reflexivity|]. inversion Sa; inversion La; subst. cbn.
      rewrite IHe, IH; auto.
  Qed.

  Lemma tsize_ok fs vs : storable_fields fs vs -> lens_fields mx fs vs -> tsize T fs vs = encode_size fs vs.
  Proof. intros S L. unfold tsize, encode_size. rewrite (proj2 tsize_eq) by auto. reflexivity. Qed.

  Lemma iter_tenc (f : Z -> val -> Z -> list Z -> res (list Z * Z)) (P : val -> Prop)
    (img : val -> list (option bool)) (sz : val -> Z) (pos : Z -> Z -> Z) (K : Z -> Prop) (N lim : Z) :
    (forall i v off buf, 0 <= i < N -> P v -> K off -> room zr mx buf (pos i off) (zlen (img v)) lim ->
       exists buf', f i v off buf = Ok (buf', off + sz v) /\ overlay buf (pos i off) (img v) buf') ->
    (forall i v off, 0 <= i < N -> P v -> K off ->
       pos (i + 1) (off + sz v) = pos i off + zlen (img v) /\ K (off + sz v)) ->
    forall arr i off buf, Forall P arr -> 0 <= i -> i + zlen arr <= N -> K off ->
      room zr mx buf (pos i off) (zlen (flat_map img arr)) lim ->
      exists buf', iter_enc f i arr off buf = Ok (buf', off + fold_right (fun v a => sz v + a) 0 arr) /\
        overlay buf (pos i off) (flat_map img arr) buf'.
  Proof.
    intros Hf Hp. induction arr as [|v arr IH]; intros i off buf HP Hi HN HK Hr.
    - exists buf. cbn. split; [do 2 f_equal; lia|]. apply overlay_nil. apply Hr.
    - inversion HP as [|? ? Pv Pa]; subst. cbn [iter_enc flat_map fold_right] in *.
      rewrite zlen_cons in HN. rewrite zlen_app in Hr. pose proof (zlen_nonneg arr).
      pose proof (zlen_nonneg (flat_map img arr)).
      destruct (Hf i v off buf) as (b1 & E1 & O1); try lia; auto. { eapply room_short; [|exact Hr]. lia. }
      rewrite E1. cbn [bind].
      destruct (Hp i v off ltac:(lia) Pv HK) as (Hpos & HK').
      destruct (IH (i + 1) (off + sz v) b1) as (b2 & E2 & O2); try lia; auto.
      { eapply room_next; eauto. }
      exists b2. split.
      + rewrite E2. do 2 f_equal. lia.
      + eapply overlay_app; eauto. rewrite <- Hpos. exact O2.
  Qed.

  Definition TEncE (e : elem) : Prop := forall dyn w n big from v start off lim buf,
    wf_elem e -> nd_elem e -> storable_elem e v -> lens_elem mx e v -> req_elem (t_loop T) R e w n big from ->
    (if is_fixed_scalar e then 1 <= n <= elem_bits e else from mod 8 = 0) ->
    0 <= from -> 0 <= start -> offk dyn off -> room zr mx buf (8 * (start + off) + from) (zlen (image_elem e n big v)) lim ->
    exists b, tenc_elem T dyn e w n big from v start off buf = Ok (b, off + esize_elem e v) /\
      overlay buf (8 * (start + off) + from) (image_elem e n big v) b.

  Definition TEncF (fs : fields) : Prop := forall (top : Prop) dyn vs from start off lim buf,
    wf_fields fs from -> nd_fields fs -> storable_fields fs vs -> lens_fields mx fs vs ->
    req_fields (t_loop T) R top fs from -> (top -> start = 0) ->
    0 <= from -> 0 <= start -> offk dyn off -> room zr mx buf (8 * (start + off) + from) (zlen (image_fields fs vs)) lim ->
    exists b, tenc_fields T dyn fs vs from start off buf = Ok (b, off + esize_fields fs vs) /\
      overlay buf (8 * (start + off) + from) (image_fields fs vs) b.

  (** After a field, the offset is still 0 unless the walk knows about it. *)
  Lemma offk_next dyn off n k : offk dyn off -> 0 <= k -> (n <> -1 -> k = 0) -> offk (dyn || (n =? -1)) (off + k).
  Proof.
    intros (H1 & H2) Hk H3. split; [lia|]. intros E. apply orb_false_iff in E as (E1 & E2). apply Z.eqb_neq in E2.
    rewrite H2, H3; auto.
  Qed.

  Lemma tenc_main : (forall e, TEncE e) /\ (forall fs, TEncF fs).
  Proof.
    apply schema_ind; unfold TEncE, TEncF.
    - (* EBasic *)
      intros b dyn w n big from v start off lim buf We _ Sv _ Hq Hn Hf Hs Hk Hr.
      destruct v; cbn in Sv; try contradiction. cbn [image_elem tenc_elem esize_elem req_elem] in *.
      rewrite (offk_base _ _ Hk). destruct Hk as (Hk & _). cbn [is_fixed_scalar elem_bits] in Hn.
      rewrite zlen_map, zlen_field_bits in Hr by lia.
      destruct (es_scalar _ _ _ _ ES (EBasic b) w n big from (start + off) lim z buf) as (b1 & E & O); auto; try lia.
      rewrite E. cbn [bind]. exists b1. split; [do 2 f_equal; lia|exact O].
    - (* EEnum *)
      intros bits dyn w n big from v start off lim buf We _ Sv _ Hq Hn Hf Hs Hk Hr.
      destruct v; cbn in Sv; try contradiction. cbn [image_elem tenc_elem esize_elem req_elem] in *.
      rewrite (offk_base _ _ Hk). destruct Hk as (Hk & _). cbn [is_fixed_scalar elem_bits] in Hn.
      rewrite zlen_map, zlen_field_bits in Hr by lia.
      destruct (es_scalar _ _ _ _ ES (EEnum bits) w n big from (start + off) lim z buf) as (b1 & E & O); auto; try lia.
      rewrite E. cbn [bind]. exists b1. split; [do 2 f_equal; lia|exact O].
    - (* EString *)
      intros dyn w n big from v start off lim buf We _ Sv _ Hq Hn Hf Hs Hk Hr.
      destruct v; cbn in Sv; try contradiction. cbn [image_elem tenc_elem esize_elem] in *.
      cbn in Hn. destruct Hk as (Hk & _). destruct Sv as (Sv & Sn).
      rewrite zlen_raw_bytes, zlen_app, zlen_one in Hr.
      replace (8 * (start + off) + from) with (8 * (start + off + from / 8)) in * by lia.
      destruct (es_string _ _ _ _ ES (start + off + from / 8) lim bs buf) as (b1 & E & O); auto; try lia.
      rewrite E. cbn [bind]. exists b1. split; [reflexivity|exact O].
    - (* EBytes *)
      intros dyn w n big from v start off lim buf We _ Sv _ Hq Hn Hf Hs Hk Hr.
      destruct v; cbn in Sv; try contradiction. cbn [image_elem tenc_elem esize_elem] in *.
      cbn in Hn. destruct Hk as (Hk & _). destruct Sv as (Sv & Sn).
      rewrite zlen_raw_bytes in Hr.
      replace (8 * (start + off) + from) with (8 * (start + off + from / 8)) in * by lia.
      destruct (es_bytes _ _ _ _ ES (start + off + from / 8) lim bs buf) as (b1 & E & O); auto; try lia.
      rewrite E. cbn [bind]. exists b1. split; [reflexivity|exact O].
    - (* EStruct *)
      intros fs IH dyn w n big from v start off lim buf We Nd Sv Lv Hq Hn Hf Hs Hk Hr.
      destruct v as [| |vs|]; cbn in Sv; try contradiction. cbn [image_elem tenc_elem esize_elem req_elem lens_elem] in *.
      cbn in Hn, We, Nd. destruct We as (We & H8). rewrite (offk_base _ _ Hk). destruct Hk as (Hk & _).
      destruct (IH False (t_dyn0 T fs) vs 0 (start + off + from / 8) 0 lim buf) as (b1 & E & O); auto; try lia; try tauto.
      { split; [lia|auto]. }
      { eapply room_at; [|reflexivity|exact Hr]. lia. }
      rewrite E. cbn [bind]. exists b1. split.
      + do 2 f_equal. rewrite tsize_ok by auto. unfold encode_size. destruct (fields_dyn fs); [|lia].
        destruct (t_kt T); lia.
      + replace (8 * (start + off) + from) with (8 * (start + off + from / 8 + 0) + 0) by lia. exact O.
    - (* FNil *)
      intros top dyn vs from start off lim buf _ _ Sv _ _ _ Hf Hs Hk Hr. cbn in Sv. subst vs. cbn.
      exists buf. split; [do 2 f_equal; lia|apply overlay_nil; apply Hr].
    - (* FOne *)
      intros e IHe n big r IHr top dyn vs from start off lim buf Hwf Nd Sv Lv Hq Ht Hf Hs Hk Hr.
      cbn [wf_fields] in Hwf. destruct Hwf as (We & Wn & Wr).
      destruct vs as [|v vs]; cbn in Sv; [contradiction|]. destruct Sv as (Sv & Ss).
      cbn [lens_fields] in Lv. destruct Lv as (Lv & Ls). cbn [req_fields] in Hq. destruct Hq as (Hq & Hqr).
      cbn in Nd. destruct Nd as (Ns & Ne & Nr).
      pose proof (one_geom e n big from v We Wn Sv off) as G.
      assert (Gap : gap e = []).
      { unfold gap. destruct e; auto. rewrite Ns. reflexivity. }
      rewrite Gap in G. change (zlen (@nil (option bool))) with 0 in G.
      cbn [image_fields tenc_fields esize_fields] in *. fold (gap e) in *. rewrite Gap in *. cbn [app] in *.
      rewrite zlen_app in Hr. pose proof (zlen_nonneg (image_fields r vs)).
      destruct (IHe dyn (enum_temp_bits n) n big from v start off lim buf) as (b1 & E1 & O1); auto; try lia.
      { destruct (is_fixed_scalar e); tauto. }
      { eapply room_short; [|exact Hr]. lia. }
      rewrite E1. cbn [bind].
      pose proof (proj1 esize_nonneg e v).
      destruct (IHr top (dyn || (n =? -1)) vs (next_from from n) start (off + esize_elem e v) lim b1) as (b2 & E2 & O2); auto.
      { pose proof (one_n e n from We Wn). unfold next_from. destruct (Z.eqb_spec n (-1)); lia. }
      { apply offk_next; auto. intros Hn1. apply esize_zero; auto.
        destruct e; cbn in *; try reflexivity; try (destruct Wn; congruence). }
      { eapply room_next; [exact O1| |lia|exact Hr]. lia. }
      exists b2. split.
      + rewrite E2. do 2 f_equal. lia.
      + eapply overlay_app; [exact O1|]. replace (8 * (start + off) + from + zlen (image_elem e n big v))
          with (8 * (start + (off + esize_elem e v)) + next_from from n) by lia. exact O2.
    - (* FArr *)
      intros e IHe len n big r IHr top dyn vs from start off lim buf Hwf Nd Sv Lv Hq Ht Hf Hs Hk Hr.
      cbn [wf_fields] in Hwf. destruct Hwf as (We & Wl & Wn & Wr). fold (arr_ok e len n from) in Wn.
      destruct vs as [|v vs]; cbn in Sv; [contradiction|]. destruct v as [| | |arr]; try contradiction.
      destruct Sv as (Sl & Sv & Ss).
      cbn [lens_fields] in Lv. destruct Lv as (Lv & Ls). cbn [req_fields] in Hq. destruct Hq as (Hq & Hqr).
      cbn in Nd. destruct Nd as (Ne & Nr).
      pose proof (arr_geom e len n big from arr We Wl Wn Sl Sv off) as G.
      cbn [image_fields tenc_fields esize_fields] in *. fold (sum_esize e arr) in *.
      rewrite zlen_app in Hr. pose proof (zlen_nonneg (image_fields r vs)).
      assert (HN : 0 + zlen arr <= Z.of_nat len) by (unfold zlen; lia).
      assert (SLv : Forall (fun v => storable_elem e v /\ lens_elem mx e v) arr).
      { clear - Sv Lv. induction arr; inversion Sv; inversion Lv; subst; constructor; auto. }
      set (img := image_elem e (n / Z.of_nat len) big) in *.
      assert (Hra : room zr mx buf (8 * (start + off) + from) (zlen (flat_map img arr)) lim).
      { eapply room_short; [|exact Hr]. lia. }
      match goal with |- context [bind ?m _] => assert (Harr : exists b1, m = Ok (b1, off + sum_esize e arr) /\
        overlay buf (8 * (start + off) + from) (flat_map img arr) b1) end.
      { destruct (elem_dyn e) eqn:D.
        - assert (Sc : is_fixed_scalar e = false) by (destruct e; cbn in D; try discriminate; reflexivity).
          unfold arr_ok in Wn. rewrite Sc, D in Wn. destruct Wn as (Hm & ->).
          apply (iter_tenc _ (fun v => storable_elem e v /\ lens_elem mx e v) img (esize_elem e)
                   (fun _ o => 8 * (start + o) + from) (fun o => 0 <= o) (Z.of_nat len) lim); auto; try lia.
          + intros i v o b Hi (Hv & Hlv) Ho Hrb. unfold img in *.
            rewrite (image_elem_n e _ (Z.quot (-1) (Z.of_nat len)) big big) in * by auto.
            apply IHe with (lim := lim); auto.
            * destruct e; cbn in Sc; try discriminate; exact Hq.
            * rewrite Sc. exact Hm.
            * split; auto. discriminate.
          + intros i v o Hi (Hv & _) Ho. split.
            * destruct (proj1 sizes e 0 big v We Hv ltac:(lia)) as (E & _).
              unfold slot in E. rewrite Sc, D in E. unfold img.
              rewrite (image_elem_n e _ 0 big big) by auto. lia.
            * pose proof (proj1 esize_nonneg e v). lia.
          + destruct Hk; auto.
        - destruct (arr_eb e len n from We Wl Wn D) as (eb & Hn & Hqt & Hdv & Heb & Hcase).
          rewrite Hqt in *. unfold img in *. rewrite Hdv in *.
          rewrite (sum_esize_zero e arr) in * by auto.
          pose proof (offk_base _ _ Hk) as Hbase.
          set (K := fun o => o = off).
          assert (Hz : forall v, storable_elem e v -> zlen (image_elem e eb big v) = eb).
          { intros v Hv. destruct (proj1 sizes e eb big v We Hv Heb) as (E & Ed).
            rewrite E, Ed by auto. unfold slot. destruct (is_fixed_scalar e); [lia|].
            rewrite D. destruct Hcase as (<- & _). lia. }
          assert (Hfold : off + 0 = off + fold_right (fun v a => (fun _ : val => 0) v + a) 0 arr).
          { f_equal. symmetry. apply fold_zero. apply Forall_forall. reflexivity. }
          rewrite Hfold.
          replace (8 * (start + off) + from) with ((fun i o => 8 * (start + o) + from + i * eb) 0 off) in Hra |- * by lia.
          assert (Hnext : forall i v o, 0 <= i < Z.of_nat len -> (storable_elem e v /\ lens_elem mx e v) -> K o ->
            8 * (start + (o + 0)) + from + (i + 1) * eb = 8 * (start + o) + from + i * eb + zlen (image_elem e eb big v) /\ K (o + 0)).
          { intros i v o Hi (Hv & _) Ho. rewrite Hz by auto. split; [lia|]. unfold K in *. lia. }
          destruct (t_loop T len) eqn:UL.
          + destruct Hq as (Hlst & Hq).
            assert (Elst : (if t_lstart T then start else 0) = start).
            { destruct Hlst as [Ht1|Hr1]; [rewrite (Ht Ht1); destruct (t_lstart T); reflexivity|].
              rewrite (es_nested _ _ _ _ ES Hr1). reflexivity. }
            rewrite Elst, Hbase.
            destruct (is_fixed_scalar e) eqn:S.
            * assert (Hgoal : exists b1, iter_enc (fun i v o b =>
                    match v with
                    | VNum z => do b' <- t_eloop T e eb big (8 * (start + off) + (from + i * eb)) z b; Ok (b', o)
                    | _ => Panic
                    end) 0 arr off buf
                 = Ok (b1, off + fold_right (fun v a => (fun _ : val => 0) v + a) 0 arr) /\
                   overlay buf ((fun i o => 8 * (start + o) + from + i * eb) 0 off) (flat_map (image_elem e eb big) arr) b1).
              { apply (iter_tenc _ (fun v => storable_elem e v /\ lens_elem mx e v) (image_elem e eb big) (fun _ => 0)
                         (fun i o => 8 * (start + o) + from + i * eb) K (Z.of_nat len) lim); auto; try lia.
                - intros i v o b Hi (Hv & _) Ho Hrb. rewrite Hz in Hrb by auto.
                  assert (Hv' : exists z, v = VNum z /\ storable_num e z /\ image_elem e eb big v = map Some (field_bits eb big z)).
                  { destruct e; cbn in S; try discriminate; destruct v; cbn in Hv; try contradiction; cbn; eauto. }
                  destruct Hv' as (z & -> & Sz & ->). unfold K in Ho. subst o.
                  assert (0 <= i * eb) by (apply Z.mul_nonneg_nonneg; lia). destruct Hk as (Hk & _).
                  replace (8 * (start + off) + from + i * eb) with (8 * (start + off) + (from + i * eb)) in * by lia.
                  destruct (es_loop _ _ _ _ ES e eb big (from + i * eb) (start + off) lim z b) as (b' & E & O); auto; try lia.
                  { destruct e; cbn in S; try discriminate; apply Hq; auto. }
                  rewrite E. cbn [bind]. exists b'. split; [do 2 f_equal; lia|exact O].
                - reflexivity. }
              destruct e; cbn in S; try discriminate; exact Hgoal.
            * destruct e; cbn in S, D; try discriminate.
              apply (iter_tenc _ (fun v => storable_elem (EStruct fs) v /\ lens_elem mx (EStruct fs) v) (image_elem (EStruct fs) eb big) (fun _ => 0)
                         (fun i o => 8 * (start + o) + from + i * eb) K (Z.of_nat len) lim); auto; try lia.
              -- intros i v o b Hi (Hv & Hlv) Ho Hrb. rewrite Hz in Hrb by auto.
                 assert (0 <= i * eb) by (apply Z.mul_nonneg_nonneg; lia).
                 destruct Hcase as (Heq0 & Hm & He).
                 assert (Heq : i * eb = 8 * (i * (eb / 8))) by lia.
                 destruct (IHe dyn 0 eb big (from + i * eb) v start o lim b) as (b' & E & O); auto; try lia.
                 { unfold K in Ho. subst o. exact Hk. }
                 { rewrite Hz by auto. eapply room_at; [|reflexivity|exact Hrb]. lia. }
                 destruct v as [| |ws|]; cbn in Hv; try contradiction.
                 exists b'. split; [|replace (8 * (start + o) + from + i * eb) with (8 * (start + o) + (from + i * eb)) by lia; exact O].
                 cbn [tenc_elem esize_elem] in E. unfold K in Ho. subst o. rewrite Hbase in E.
                 replace (start + off + from / 8 + i * (eb / 8)) with (start + off + (from + i * eb) / 8) by lia.
                 rewrite D in *.
                 destruct (tenc_fields T (t_dyn0 T fs) fs ws 0 (start + off + (from + i * eb) / 8) 0 b) as [[b2 o2]| |]; cbn [bind] in *; try discriminate.
                 inversion E; subst. do 2 f_equal. lia.
              -- reflexivity.
          + apply (iter_tenc _ (fun v => storable_elem e v /\ lens_elem mx e v) (image_elem e eb big) (fun _ => 0)
                         (fun i o => 8 * (start + o) + from + i * eb) K (Z.of_nat len) lim); auto; try lia.
            * intros i v o b Hi (Hv & Hlv) Ho Hrb. rewrite Hz in Hrb by auto.
              assert (0 <= i * eb) by (apply Z.mul_nonneg_nonneg; lia).
              replace (8 * (start + o) + from + i * eb) with (8 * (start + o) + (from + i * eb)) in * by lia.
              destruct (IHe dyn (8 * ((elem_bits e + 7) / 8)) eb big (from + i * eb) v start o lim b) as (b' & E & O); auto; try lia.
              { destruct e; cbn in D |- *; try discriminate; auto. }
              { destruct (is_fixed_scalar e) eqn:S; [lia|]. destruct Hcase as (_ & Hm & He).
                rewrite Z.add_mod, Z.mul_mod, He, Z.mul_0_r, Z.mod_0_l, Z.add_0_r, Z.mod_mod by lia. exact Hm. }
              { unfold K in Ho. subst o. exact Hk. }
              { rewrite Hz by auto. exact Hrb. }
              exists b'. rewrite (esize_zero e v) in E by auto. split; auto.
            * reflexivity. }
      destruct Harr as (b1 & E1 & O1).
      rewrite E1. cbn [bind].
      pose proof (sum_esize_nonneg e arr).
      destruct (IHr top (dyn || (n =? -1)) vs (next_from from n) start (off + sum_esize e arr) lim b1) as (b2 & E2 & O2); auto; try lia.
      { pose proof (arr_n e len n from We Wn). unfold next_from. destruct (Z.eqb_spec n (-1)); lia. }
      { apply offk_next; auto. intros Hn1. apply sum_esize_zero; auto. unfold arr_ok in Wn.
        destruct e; cbn in *; try reflexivity; destruct Wn as (_ & Wn); try congruence.
        destruct (fields_dyn fs); congruence. }
      { eapply room_next; [exact O1| |lia|exact Hr]. lia. }
      exists b2. split.
      + rewrite E2. do 2 f_equal. lia.
      + eapply overlay_app; [exact O1|].
        replace (8 * (start + off) + from + zlen (flat_map img arr))
          with (8 * (start + (off + sum_esize e arr)) + next_from from n) by lia. exact O2.
    - (* FVoid *)
      intros n r IHr top dyn vs from start off lim buf Hwf Nd Sv Lv Hq Ht Hf Hs Hk Hr.
      cbn [wf_fields] in Hwf. destruct Hwf as (Hn & Wr).
      cbn [image_fields tenc_fields esize_fields storable_fields lens_fields req_fields nd_fields] in *.
      unfold next_from. destruct (Z.eqb_spec n (-1)); [lia|].
      assert (O0 : overlay buf (8 * (start + off) + from) (repeat None (Z.to_nat n)) buf) by (apply overlay_none; apply Hr).
      rewrite zlen_app in Hr. pose proof (zlen_nonneg (image_fields r vs)).
      assert (Zr : zlen (@repeat (option bool) None (Z.to_nat n)) = n) by (rewrite zlen_repeat; lia).
      destruct (IHr top dyn vs (from + n) start off lim buf) as (b2 & E2 & O2); auto; try lia.
      { eapply room_next; [exact O0| |lia|exact Hr]. lia. }
      exists b2. split; [exact E2|]. eapply overlay_app; [exact O0|].
      rewrite Zr. replace (8 * (start + off) + from + n) with (8 * (start + off) + (from + n)) by lia. exact O2.
    - (* FConst *)
      intros b n big z r IHr top dyn vs from start off lim buf Hwf Nd Sv Lv Hq Ht Hf Hs Hk Hr.
      cbn [wf_fields] in Hwf. destruct Hwf as (Wb & Hn & Wr).
      cbn [image_fields tenc_fields esize_fields storable_fields lens_fields req_fields nd_fields] in *.
      destruct Hq as (Hq & Hqr).
      unfold next_from. destruct (Z.eqb_spec n (-1)); [lia|].
      rewrite zlen_app in Hr. pose proof (zlen_nonneg (image_fields r vs)).
      assert (Zr : zlen (map Some (const_bits (basic_bits b) n big z)) = n) by (rewrite zlen_map, zlen_const_bits; lia).
      rewrite (offk_base _ _ Hk).
      destruct (es_const _ _ _ _ ES b n big from (start + off) lim z buf) as (b1 & E1 & O1); auto; try lia.
      { destruct Hk. lia. }
      { eapply room_short; [|exact Hr]. lia. }
      rewrite E1. cbn [bind].
      destruct (IHr top dyn vs (from + n) start off lim b1) as (b2 & E2 & O2); auto; try lia.
      { eapply room_next; [exact O1| |lia|exact Hr]. lia. }
      exists b2. split; [exact E2|]. eapply overlay_app; [exact O1|]. rewrite Zr.
      replace (8 * (start + off) + from + n) with (8 * (start + off) + (from + n)) by lia. exact O2.
    - (* FEmb *)
      intros r IHr top dyn vs from start off lim buf Hwf Nd Sv Lv Hq Ht Hf Hs Hk Hr.
      cbn [wf_fields image_fields tenc_fields esize_fields storable_fields lens_fields req_fields nd_fields] in *.
      eapply IHr; eauto.
  Qed.
End Enc.
