(** Schemas with directly nested structs of dynamic size: what Go's Decode and DecodeSize do on a complete
    message.  (Proofs; the statements for readers are in PropsGo.v, C09.) *)
From Coq Require Import ZArith List Lia Bool.
From Verif Require Import Base BaseProofs Schema SpecWire GoModel GoBitProofs GoEncProofs GoEncMain GoDecProofs GoRound GoPrefix GoCore.
Import ListNotations.
Open Scope Z_scope.

Ltac Zify.zify_post_hook ::= Z.to_euclidean_division_equations.

Fixpoint direct_sizes (fs : fields) (vs : list val) : Z :=
  match fs with
  | FNil => 0
  | FOne e _ _ r =>
      match vs with
      | v :: vs' =>
          (match e, v with EStruct s, VStruct ws => if fields_dyn s then encode_size s ws else 0 | _, _ => 0 end) +
          direct_sizes r vs'
      | [] => 0
      end
  | FArr _ _ _ _ r => match vs with _ :: vs' => direct_sizes r vs' | [] => 0 end
  | FVoid _ r | FConst _ _ _ _ r | FEmb r => direct_sizes r vs
  end.
Lemma hidden_direct fs : forall from vs, wf_fields fs from -> storable_fields fs vs -> hidden_bytes fs vs = direct_sizes fs vs.
Proof.
  induction fs as [|e n big r IHr|e len n big r IHr|n r IHr|b n big z r IHr|r IHr]; intros from vs W Hs;
    cbn [wf_fields storable_fields hidden_bytes direct_sizes] in *; auto.
  - destruct vs as [|v vs]; auto. destruct Hs as (Sv & Ss). destruct W as (We & _ & Wr). rewrite (IHr _ vs Wr Ss). f_equal.
    destruct e as [| | | |s]; auto. destruct v as [| |ws|]; auto. destruct (fields_dyn s); auto.
    destruct (encode_size_image s ws We Sv) as (E & _). rewrite <- E. rewrite Z.mul_comm, Z.div_mul by lia. reflexivity.
  - destruct vs as [|v vs]; auto. destruct W as (_ & _ & _ & Wr). destruct v; try contradiction. apply (IHr _ vs Wr). tauto.
  - destruct W as (_ & Wr). eauto.
  - destruct W as (_ & _ & Wr). eauto.
  - eauto.
Qed.

Definition ok_or {A} (L : Prop) (r : res A) (x : A) : Prop := r = Ok x \/ (r = Fail /\ ~ L).

Lemma iter_dec_or (f : Z -> Z -> res (val * Z)) (P : val -> Prop) (img : val -> list (option bool)) (sz : val -> Z)
  (nrm : val -> val) (pos : Z -> Z -> Z) (K : Z -> Prop) data (N : Z) (L : Prop) :
  (forall i v o, 0 <= i < N -> P v -> K o -> matches data (pos i o) (img v) -> ok_or L (f i o) (nrm v, o + sz v)) ->
  (forall i v o, 0 <= i < N -> P v -> K o -> pos (i + 1) (o + sz v) = pos i o + zlen (img v) /\ K (o + sz v) /\ 0 <= pos i o) ->
  forall arr i o, Forall P arr -> 0 <= i -> i + zlen arr <= N -> K o -> matches data (pos i o) (flat_map img arr) ->
    ok_or L (iter_dec f (length arr) i o) (map nrm arr, o + fold_right (fun v a => sz v + a) 0 arr).
Proof.
  intros Hd Hp. induction arr as [|v arr IH]; intros i o HP Hi HN HK M; cbn [length iter_dec fold_right flat_map map] in *.
  - left. do 2 f_equal; lia.
  - inversion HP; subst. rewrite zlen_cons in HN. pose proof (zlen_nonneg arr).
    destruct (Hp i v o) as (H3 & H4 & H5); auto; try lia.
    apply matches_app in M; auto. destruct M as (M1 & M2).
    destruct (Hd i v o) as [E|(E & NL)]; auto; try lia; rewrite E; cbn [bind]; [|right; auto].
    rewrite <- H3 in M2.
    destruct (IH (i + 1) (o + sz v)) as [E'|(E' & NL)]; auto; try lia; rewrite E'; cbn [bind]; [|right; auto].
    left. do 2 f_equal. lia.
Qed.

Lemma nd_lone : (forall e, nd_elem e -> lone_elem e) /\ (forall fs, nd_fields fs -> lone_fields fs).
Proof.
  apply schema_ind; cbn [nd_elem nd_fields lone_elem lone_fields]; try tauto.
  - intros e IHe n big r IHr (H1 & H2 & H3). split; auto. split; auto. destruct e; auto. intros D. congruence.
Qed.
(** DecodeSize does not see a directly nested dynamic struct. *)
Lemma dsize_lone fs : forall vs from off data, wf_fields fs from -> lone_fields fs -> storable_fields fs vs -> 0 <= from ->
  0 <= off -> bytes_ok data -> matches data (8 * off + from) (image_fields fs vs) ->
  dsize_fields fs from off data = DOff (off + esize_fields fs vs - direct_sizes fs vs).
Proof.
  induction fs as [|e n big r IHr|e len n big r IHr|n r IHr|b n big z r IHr|r IHr]; intros vs from off data Hwf Lo Hs Hf Ho Hb M.
  - cbn in *. subst. cbn. f_equal; lia.
  - cbn [wf_fields] in Hwf. destruct Hwf as (We & Wn & Wr). cbn in Lo. destruct Lo as (N1 & N2 & N3).
    destruct vs as [|v vs]; cbn in Hs; [contradiction|]. destruct Hs as (Sv & Ss).
    pose proof (one_geom e n big from v We Wn Sv off) as G.
    cbn [image_fields dsize_fields esize_fields direct_sizes] in *. fold (gap e) in M.
    pose proof (one_n e n from We Wn) as Hn.
    assert (Hnf : 0 <= next_from from n) by (unfold next_from; destruct (Z.eqb_spec n (-1)); lia).
    apply matches_app in M; [|lia]. destruct M as (M1 & M2).
    apply matches_app in M2; [|pose proof (zlen_nonneg (image_elem e n big v)); lia]. destruct M2 as (_ & M2).
    pose proof (proj1 esize_nonneg e v).
    destruct (match e with EStruct s => fields_dyn s | _ => false end) eqn:Dd.
    + destruct e as [| | | |s]; try discriminate. rewrite Dd in *. specialize (N2 eq_refl).
      destruct v as [| |ws|]; cbn in Sv; try contradiction.
      cbn [is_fixed_scalar elem_bits] in Wn. destruct Wn as (Hm & ->).
      pose proof (fixed_bits_nonneg s). destruct (Z.ltb_spec (fixed_bits s) 0); [lia|].
      rewrite dsize_static by auto.
      destruct (proj2 sizes r (next_from from (fixed_bits s)) vs Wr Ss) as (_ & Er). specialize (Er N2).
      cbn [esize_elem]. unfold encode_size. rewrite Dd, Er.
      assert (Dr : direct_sizes r vs = 0).
      { clear - N2. revert vs. induction r; intros vs; cbn [fields_dyn direct_sizes] in *; auto.
        - apply orb_false_iff in N2 as (A & B). destruct vs as [|v vs]; auto. rewrite IHr by auto. destruct e; auto. cbn in A. rewrite A. destruct v; auto.
        - apply orb_false_iff in N2 as (A & B). destruct vs; auto. }
      rewrite Dr. f_equal. lia.
    + assert (Hz : (match e, v with EStruct s, VStruct ws => if fields_dyn s then encode_size s ws else 0 | _, _ => 0 end) = 0).
      { destruct e; auto. destruct v; auto. rewrite Dd. auto. }
      rewrite Hz.
      replace (if n <? 0 then dsize_elem e (from / 8) off data else DOff off) with (DOff (off + esize_elem e v)).
      * rewrite (IHr vs); auto; [f_equal; lia|lia|]. rewrite G.
        replace (8 * off + from + (zlen (image_elem e n big v) + zlen (gap e))) with (8 * off + from + zlen (image_elem e n big v) + zlen (gap e)) by lia. exact M2.
      * destruct (elem_dyn e) eqn:D.
        -- assert (nd_elem e) by (destruct e; cbn in *; auto; congruence).
           destruct (Z.ltb_spec n 0).
           ++ symmetry. apply (proj1 dsize_match) with (n := n) (big := big); auto. destruct e; cbn in *; try discriminate; tauto.
           ++ exfalso. destruct e; cbn in *; try discriminate; try lia. congruence.
        -- rewrite (esize_zero e v) by auto. rewrite Z.add_0_r.
           destruct (Z.ltb_spec n 0); auto. exfalso. destruct e; cbn in *; try discriminate; try lia;
           pose proof (fixed_bits_nonneg fs); lia.
  - assert (Hone : dsize_fields (FArr e len n big FNil) from off data = DOff (off + esize_fields (FArr e len n big FNil) (firstn 1 vs))).
    { cbn [wf_fields] in Hwf. destruct Hwf as (We & Wl & Wn & Wr). cbn in Lo. destruct Lo as (N2 & N3).
      destruct vs as [|v vs]; cbn in Hs; [contradiction|]. destruct v as [| | |arr]; try contradiction.
      destruct Hs as (Sl & Sv & Ss). cbn [firstn].
      apply (proj2 dsize_match); auto.
      - cbn [wf_fields]. auto.
      - cbn. auto.
      - cbn. auto.
      - cbn [image_fields] in *. rewrite app_nil_r. apply matches_app in M; [tauto|lia]. }
    cbn [wf_fields] in Hwf. destruct Hwf as (We & Wl & Wn & Wr). fold (arr_ok e len n from) in Wn.
    cbn in Lo. destruct Lo as (N2 & N3).
    destruct vs as [|v vs]; cbn in Hs; [contradiction|]. destruct v as [| | |arr]; try contradiction.
    destruct Hs as (Sl & Sv & Ss).
    pose proof (arr_geom e len n big from arr We Wl Wn Sl Sv off) as G.
    cbn [image_fields dsize_fields esize_fields direct_sizes firstn] in *. fold (sum_esize e arr) in *.
    pose proof (arr_n e len n from We Wn) as Hn.
    assert (Hnf : 0 <= next_from from n) by (unfold next_from; destruct (Z.eqb_spec n (-1)); lia).
    apply matches_app in M; [|lia]. destruct M as (M1 & M2). pose proof (sum_esize_nonneg e arr).
    destruct (if n <? 0 then _ else DOff off) as [o1|]; [|discriminate]. inversion Hone; subst o1.
    rewrite Z.add_0_r. rewrite (IHr vs); auto; [f_equal; lia|lia|]. rewrite G. exact M2.
  - cbn [wf_fields lone_fields storable_fields image_fields dsize_fields esize_fields direct_sizes] in *. destruct Hwf as (Hn & Wr).
    apply matches_app in M; [|lia]. destruct M as (_ & M). rewrite zlen_repeat in M.
    unfold next_from. destruct (Z.eqb_spec n (-1)); [lia|]. apply IHr; auto; try lia.
    replace (8 * off + (from + n)) with (8 * off + from + Z.of_nat (Z.to_nat n)) by lia. exact M.
  - cbn [wf_fields lone_fields storable_fields image_fields dsize_fields esize_fields direct_sizes] in *. destruct Hwf as (Wb & Hn & Wr).
    apply matches_app in M; [|lia]. destruct M as (_ & M). rewrite zlen_map, zlen_const_bits in M by lia.
    unfold next_from. destruct (Z.eqb_spec n (-1)); [lia|]. apply IHr; auto; try lia.
    replace (8 * off + (from + n)) with (8 * off + from + n) by lia. exact M.
  - cbn [wf_fields lone_fields storable_fields image_fields dsize_fields esize_fields direct_sizes] in *. auto.
Qed.

Lemma direct_le fs : forall vs from, wf_fields fs from -> lone_fields fs -> storable_fields fs vs ->
  0 <= direct_sizes fs vs <= esize_fields fs vs.
Proof.
  induction fs as [|e n big r IHr|e len n big r IHr|n r IHr|b n big z r IHr|r IHr]; intros vs from W Lo Hs;
    cbn [wf_fields lone_fields storable_fields direct_sizes esize_fields] in *; try lia.
  - destruct vs as [|v vs]; [contradiction|]. destruct Hs as (Sv & Ss). destruct W as (We & _ & Wr).
    destruct (IHr vs _ Wr ltac:(tauto) Ss). pose proof (proj1 esize_nonneg e v).
    destruct e as [| | | |s]; try lia. destruct v as [| |ws|]; try lia. cbn [esize_elem] in *.
    unfold encode_size. destruct (fields_dyn s); lia.
  - destruct vs as [|v vs]; [contradiction|]. destruct v as [| | |arr]; try contradiction. destruct W as (We & _ & _ & Wr).
    destruct (IHr vs _ Wr ltac:(tauto) ltac:(tauto)). pose proof (sum_esize_nonneg e arr). unfold sum_esize in *. lia.
  - destruct W as (_ & W). eauto.
  - destruct W as (_ & _ & W). eauto.
  all: eauto.
Qed.

Definition DirE (e : elem) : Prop := forall c dyn w n big from off data v,
  wf_elem e -> go_ok_elem c e -> consts_ok_elem e -> storable_elem e v -> slot_ok e w n from -> 0 <= from ->
  offk dyn off -> (elem_dyn e = true -> dyn = true) -> bytes_ok data ->
  matches data (8 * off + from) (image_elem e n big v) ->
  ok_or (lone_elem e) (dec_elem c dyn e w n big from off data) (norm_elem e n v, off + esize_elem e v).
Definition DirF (fs : fields) : Prop := forall c dyn from off data vs,
  wf_fields fs from -> go_ok c fs -> consts_ok fs -> storable_fields fs vs -> 0 <= from ->
  offk dyn off -> (fields_dyn fs = true -> dyn = true) -> bytes_ok data ->
  matches data (8 * off + from) (image_fields fs vs) ->
  ok_or (lone_fields fs) (dec_fields c dyn fs from off data) (norm_fields fs vs, off + esize_fields fs vs).

Lemma num_match e n big v data pos : is_fixed_scalar e = true -> 1 <= n -> storable_elem e v ->
  matches data pos (image_elem e n big v) ->
  forall lp, VNum (num_of lp e n (read_value data pos n big)) = norm_elem e n v.
Proof.
  intros Sc Hn Sv M lp. destruct e; cbn in Sc; try discriminate; destruct v; cbn [storable_elem] in Sv; try contradiction;
  cbn [image_elem norm_elem] in *; rewrite (read_value_matches data _ n big z) by (auto; lia); f_equal; apply norm_num_of; auto.
Qed.

Lemma dir_nested c s vs data p : (forall dyn, (fields_dyn s = true -> dyn = true) -> forall data, bytes_ok data -> matches data 0 (image_fields s vs) ->
     ok_or (lone_fields s) (dec_fields c dyn s 0 0 data) (norm_fields s vs, esize_fields s vs)) ->
  wf_struct s -> storable_fields s vs -> bytes_ok data -> 0 <= p -> matches data (8 * p) (image_fields s vs) ->
  ok_or (lone_fields s) (dec_nested s (fun sub => dec_fields c (fields_dyn s) s 0 0 sub) data p)
        (norm_fields s vs, encode_size s vs).
Proof.
  intros IH W Sv Hb Hp M. destruct (encode_size_image s vs W Sv) as (Z1 & Z2). pose proof (encode_size_nonneg s vs W Sv).
  pose proof M as (L & _).
  unfold dec_nested. destruct (Z.ltb_spec p 0); [lia|].
  destruct (Z.ltb_spec (zlen data) p); [lia|]. cbn [orb].
  set (sub := skipn _ data).
  assert (Hbs : bytes_ok sub) by (apply bytes_ok_skipn; auto).
  assert (Mq : matches sub 0 (image_fields s vs)).
  { apply matches_slice; [unfold zlen in *; lia|].
    replace (8 * Z.of_nat (Z.to_nat p)) with (8 * p) by lia. exact M. }
  destruct (IH (fields_dyn s) ltac:(auto) sub Hbs Mq) as [E|(E & NL)].
  - destruct (Z.ltb_spec (decode_size s sub) 0) as [Hn|Hn].
    + right. split; auto. intros Lo.
      destruct W as (W & H8). pose proof (dsize_lone s vs 0 0 sub W Lo Sv ltac:(lia) ltac:(lia) Hbs Mq) as Ed.
      destruct (direct_le s vs 0 W Lo Sv). destruct Mq as (Lq & _). pose proof (fixed_bits_nonneg s).
      unfold decode_size in Hn. rewrite Ed in Hn.
      destruct (Z.ltb_spec (zlen sub) (0 + esize_fields s vs - direct_sizes s vs + fixed_bits s / 8)); lia.
    + rewrite E. cbn [bind]. left. do 2 f_equal. lia.
  - right. split; auto. destruct (decode_size s sub <? 0); auto. rewrite E. reflexivity.
Qed.

Lemma dir_main : (forall e, DirE e) /\ (forall fs, DirF fs).
Proof.
  apply schema_ind; unfold DirE, DirF.
  - intros b c dyn w n big from off data v We _ _ Sv So Hf Hk Hd Hb M. left.
    assert (Hl : 8 * off + from + n <= 8 * zlen data).
    { destruct v; cbn [storable_elem] in Sv; try contradiction. destruct M as (L & _). cbn [image_elem] in L.
      cbn [slot_ok] in So. rewrite zlen_map, zlen_field_bits in L by lia. lia. }
    rewrite scalar_safe by (auto; reflexivity). cbn [slot_ok] in So.
    rewrite (num_match (EBasic b) n big v) by (auto; lia). cbn [esize_elem].
    destruct v; cbn in Sv; try contradiction. do 2 f_equal. lia.
  - intros b c dyn w n big from off data v We _ _ Sv So Hf Hk Hd Hb M. left.
    assert (Hl : 8 * off + from + n <= 8 * zlen data).
    { destruct v; cbn [storable_elem] in Sv; try contradiction. destruct M as (L & _). cbn [image_elem] in L.
      cbn [slot_ok] in So. rewrite zlen_map, zlen_field_bits in L by lia. lia. }
    rewrite scalar_safe by (auto; reflexivity). cbn [slot_ok] in So.
    rewrite (num_match (EEnum b) n big v) by (auto; lia). cbn [esize_elem].
    destruct v; cbn in Sv; try contradiction. do 2 f_equal. lia.
  - intros c dyn w n big from off data v _ _ _ Sv So Hf Hk Hd Hb M. left. destruct v; cbn in Sv; try contradiction.
    cbn [slot_ok image_elem dec_elem esize_elem norm_elem] in *. destruct Sv. destruct Hk as (Hk & _).
    replace (8 * off + from) with (8 * (off + from / 8)) in M by lia.
    apply dsize_string_match; auto; lia.
  - intros c dyn w n big from off data v _ _ _ Sv So Hf Hk Hd Hb M. left. destruct v; cbn in Sv; try contradiction.
    cbn [slot_ok image_elem dec_elem esize_elem norm_elem] in *. destruct Sv. destruct Hk as (Hk & _).
    replace (8 * off + from) with (8 * (off + from / 8)) in M by lia.
    apply dsize_bytes_match; auto; lia.
  - intros fs IH c dyn w n big from off data v We Hg Co Sv So Hf Hk Hd Hb M.
    destruct v as [| |vs|]; cbn in Sv; try contradiction.
    cbn in We, Hg, Co, So. pose proof We as W. destruct We as (We & H8).
    cbn [image_elem dec_elem esize_elem norm_elem lone_elem] in *. rewrite (offk_base _ _ Hk). pose proof Hk as (Hk0 & _).
    replace (8 * off + from) with (8 * (off + from / 8)) in M by lia.
    destruct (dir_nested c fs vs data (off + from / 8)) as [E|(E & NL)]; auto; try lia.
    { intros d Hd' data' Hb' M'. destruct (IH c d 0 0 data' vs) as [E|E]; auto; try lia.
      - apply offk_zero.
      - left. exact E.
      - right. exact E. }
    + rewrite E. cbn [bind]. left. do 2 f_equal. unfold encode_size. destruct (fields_dyn fs); lia.
    + rewrite E. right. auto.
  - intros c dyn from off data vs _ _ _ Sv Hf Hk Hd Hb M. cbn in *. subst. left. do 2 f_equal; lia.
  - intros e IHe n big r IHr c dyn from off data vs Hwf Hg Co Hs Hf Hk Hd Hb M.
    cbn [wf_fields] in Hwf. destruct Hwf as (We & Wn & Wr). cbn in Hg. destruct Hg as (Ge & Gr). cbn in Co. destruct Co as (C1 & C2).
    destruct vs as [|v vs]; cbn in Hs; [contradiction|]. destruct Hs as (Sv & Ss).
    pose proof (one_geom e n big from v We Wn Sv off) as G.
    cbn [image_fields dec_fields esize_fields norm_fields fields_dyn lone_fields] in *. fold (gap e) in M.
    pose proof (one_n e n from We Wn) as Hn.
    assert (Hnf : 0 <= next_from from n) by (unfold next_from; destruct (Z.eqb_spec n (-1)); lia).
    assert (Hso : slot_ok e (enum_temp_bits n) n from).
    { destruct e; cbn [slot_ok is_fixed_scalar elem_bits] in *; try tauto. cbn in We. destruct (enum_temp_ok n); [lia|].
      split; auto; lia. }
    assert (Hde : elem_dyn e = true -> dyn = true) by (intros D; apply Hd; rewrite D; reflexivity).
    assert (Hdr : fields_dyn r = true -> dyn = true) by (intros D; apply Hd; rewrite D; apply orb_true_r).
    pose proof Hk as (Hk0 & _).
    apply matches_app in M; [|lia]. destruct M as (M1 & M2).
    apply matches_app in M2; [|pose proof (zlen_nonneg (image_elem e n big v)); lia]. destruct M2 as (_ & M2).
    pose proof (proj1 esize_nonneg e v).
    destruct (IHe c dyn (enum_temp_bits n) n big from off data v) as [E|(E & NL)]; auto; rewrite E; cbn [bind]; [|right; tauto].
    assert (Hk1 : offk dyn (off + esize_elem e v)).
    { apply offk_dyn with (d := elem_dyn e); auto. intros D. apply esize_zero; auto. }
    destruct (IHr c dyn (next_from from n) (off + esize_elem e v) data vs) as [E2|(E2 & NL)]; auto.
    { rewrite G. replace (8 * off + from + (zlen (image_elem e n big v) + zlen (gap e))) with (8 * off + from + zlen (image_elem e n big v) + zlen (gap e)) by lia. exact M2. }
    + rewrite E2. cbn [bind]. left. do 2 f_equal. lia.
    + rewrite E2. right. tauto.
  - intros e IHe len n big r IHr c dyn from off data vs Hwf Hg Co Hs Hf Hk Hd Hb M.
    cbn [wf_fields] in Hwf. destruct Hwf as (We & Wl & Wn & Wr). fold (arr_ok e len n from) in Wn.
    cbn in Hg. destruct Hg as (Ge & Gu & Gr). cbn in Co. destruct Co as (C1 & C2).
    destruct vs as [|v vs]; cbn in Hs; [contradiction|]. destruct v as [| | |arr]; try contradiction.
    destruct Hs as (Sl & Sv & Ss).
    pose proof (arr_geom e len n big from arr We Wl Wn Sl Sv off) as G.
    cbn [image_fields dec_fields esize_fields norm_fields fields_dyn lone_fields] in *. fold (sum_esize e arr).
    pose proof (arr_n e len n from We Wn) as Hn.
    assert (Hnf : 0 <= next_from from n) by (unfold next_from; destruct (Z.eqb_spec n (-1)); lia).
    assert (Hde : elem_dyn e = true -> dyn = true) by (intros D; apply Hd; rewrite D; reflexivity).
    assert (Hdr : fields_dyn r = true -> dyn = true) by (intros D; apply Hd; rewrite D; apply orb_true_r).
    pose proof Hk as (Hk0 & _). pose proof (offk_base _ _ Hk) as Hbase.
    apply matches_app in M; [|lia]. destruct M as (M1 & M2). pose proof (sum_esize_nonneg e arr).
    set (D1 := if use_loop c len then _ else _). subst len.
    assert (Harr : ok_or (lone_elem e) D1 (map (norm_elem e (n / Z.of_nat (length arr))) arr, off + sum_esize e arr)).
    { destruct (elem_dyn e) eqn:D.
      - assert (Sc : is_fixed_scalar e = false) by (destruct e; cbn in D; try discriminate; reflexivity).
        unfold arr_ok in Wn. rewrite Sc, D in Wn. destruct Wn as (Hm & ->).
        assert (Hd1 : D1 = iter_dec (fun i o => dec_elem c dyn e (8 * ((elem_bits e + 7) / 8)) (-1 / Z.of_nat (length arr)) big
           (from + (if use_loop c (length arr) then 0 else i * Z.quot (-1) (Z.of_nat (length arr)))) o data) (length arr) 0 off).
        { unfold D1. rewrite ?D. destruct (use_loop c (length arr)).
          - rewrite Z.add_0_r. destruct e; cbn in D; try discriminate; reflexivity.
          - destruct e; cbn in D; try discriminate; reflexivity. }
        rewrite Hd1. clear Hd1 D1.
        apply (iter_dec_or _ (storable_elem e) (image_elem e (-1 / Z.of_nat (length arr)) big) (esize_elem e)
                 (norm_elem e (-1 / Z.of_nat (length arr))) (fun _ o => 8 * o + from) (offk dyn) data (zlen arr)); auto; try lia.
        + intros i v o Hi Hv Ho' Mv.
          replace (from + _) with from.
          2:{ destruct (use_loop c (length arr)); [lia|]. rewrite quot_m1; [lia|auto|unfold zlen in *; lia]. }
          apply IHe; auto. destruct e; cbn in D; try discriminate; cbn; auto.
        + intros i v o Hi Hv Ho'. pose proof (proj1 esize_nonneg e v). pose proof Ho' as (Ho0 & _).
          destruct (proj1 sizes e 0 big v We Hv ltac:(lia)) as (E & _).
          unfold slot in E. rewrite Sc, D in E.
          rewrite (image_elem_n e _ 0 big big) by auto. split; [lia|]. split; [|lia].
          apply offk_dyn with (d := true); auto; lia.
      - destruct (arr_eb e (length arr) n from We Wl Wn D) as (eb & Hn' & Hq & Hdv & Heb & Hcase).
        rewrite Hdv in *. rewrite sum_esize_zero by auto.
        replace (off + 0) with (off + fold_right (fun v a => (fun _ : val => 0) v + a) 0 arr).
        2:{ f_equal. apply fold_zero. apply Forall_forall. reflexivity. }
        assert (Hz : forall v, storable_elem e v -> zlen (image_elem e eb big v) = eb).
        { intros v Hv. destruct (proj1 sizes e eb big v We Hv Heb) as (E & Ed).
          rewrite E, Ed by auto. unfold slot. destruct (is_fixed_scalar e); [lia|].
          rewrite D. destruct Hcase as (<- & _). lia. }
        assert (Hgen : forall f, (forall i v, 0 <= i < zlen arr -> storable_elem e v ->
             matches data (8 * off + (from + i * eb)) (image_elem e eb big v) -> 0 <= i * eb -> ok_or (lone_elem e) (f i off) (norm_elem e eb v, off + 0)) ->
           ok_or (lone_elem e) (iter_dec f (length arr) 0 off) (map (norm_elem e eb) arr, off + fold_right (fun v a => (fun _ : val => 0) v + a) 0 arr)).
        { intros f Hfn.
          apply (iter_dec_or f (storable_elem e) (image_elem e eb big) (fun _ => 0)
                 (norm_elem e eb) (fun i o => 8 * o + from + i * eb) (fun o => o = off) data (zlen arr)); auto; try lia.
          - intros i v o Hi Hv -> Mv. assert (0 <= i * eb) by (apply Z.mul_nonneg_nonneg; lia).
            apply Hfn; auto. replace (8 * off + (from + i * eb)) with (8 * off + from + i * eb) by lia. exact Mv.
          - replace (8 * off + from + 0 * eb) with (8 * off + from) by lia. auto. }
        assert (Hin : forall i v, 0 <= i < zlen arr -> storable_elem e v ->
             matches data (8 * off + (from + i * eb)) (image_elem e eb big v) -> 8 * off + (from + i * eb) + eb <= 8 * zlen data).
        { intros i v Hi Hv (L & _). rewrite Hz in L by auto. lia. }
        assert (Hm8 : is_fixed_scalar e = false -> forall i, (from + i * eb) mod 8 = 0).
        { intros S i. rewrite S in Hcase. destruct Hcase as (_ & Hm & He).
          rewrite Z.add_mod, Z.mul_mod, He, Z.mul_0_r, Z.mod_0_l, Z.add_0_r, Z.mod_mod by lia. exact Hm. }
        unfold D1. rewrite ?D, Hq. destruct (use_loop c (length arr)) eqn:UL.
        + destruct (is_fixed_scalar e) eqn:S.
          * assert (Hbits : 1 <= eb <= 64).
            { destruct e; cbn in S; try discriminate; cbn in We, Hcase; [|lia].
              pose proof (basic_bits_range b We). lia. }
            assert (Hg1 : ok_or (lone_elem e) (iter_dec (fun i o => do v <- read_field_bits (8 * (if dyn then off else 0) + (from + i * eb)) eb big data; Ok (VNum (loop_dec_value c e eb v), o)) (length arr) 0 off)
               (map (norm_elem e eb) arr, off + fold_right (fun v a => (fun _ : val => 0) v + a) 0 arr)).
            { apply Hgen. intros i v Hi Hv Mv Hie. left. pose proof (Hin i v Hi Hv Mv). rewrite Hbase.
              rewrite read_field_bits_ok by (auto; lia). cbn [bind].
              rewrite loop_num by (auto; apply read_value_bound; lia).
              rewrite (num_match e eb big v data _ S) by (auto; lia). rewrite Z.add_0_r. reflexivity. }
            destruct e; cbn in S; try discriminate; exact Hg1.
          * destruct e as [| | | |s]; cbn in S, D; try discriminate. apply Hgen. intros i v Hi Hv Mv Hie.
            destruct (IHe c dyn 0 eb big (from + i * eb) off data v) as [H6|(H6 & NL)]; auto; try lia.
            { cbn. auto. }
            all: cbn [dec_elem] in H6; rewrite Hbase, ?D in H6; destruct Hcase as (_ & Hm & He);
              rewrite Hbase;
              replace (off + (from + i * eb) / 8) with (off + from / 8 + i * (eb / 8)) in H6
                by (assert (Heq : i * eb = 8 * (i * (eb / 8))) by lia; lia).
            -- left. rewrite ?D. rewrite H6. rewrite (esize_zero (EStruct s) v We Hv D). reflexivity.
            -- right. rewrite ?D. auto.
        + apply Hgen. intros i v Hi Hv Mv Hie.
          destruct (IHe c dyn (8 * ((elem_bits e + 7) / 8)) eb big (from + i * eb) off data v) as [H6|H6]; auto; try lia.
          { destruct e; cbn [slot_ok is_fixed_scalar elem_bits] in *; auto.
            destruct Gu as [Gu|Gu]; [congruence|]. split; auto. lia. }
          * left. rewrite H6. rewrite esize_zero by auto. reflexivity.
          * right. exact H6. }
    destruct Harr as [E|(E & NL)]; rewrite E; cbn [bind].
    2:{ right. split; auto. intros (N1 & _). apply NL. apply (proj1 nd_lone); auto. }
    assert (Hk1 : offk dyn (off + sum_esize e arr)).
    { apply offk_dyn with (d := elem_dyn e); auto. intros D. apply sum_esize_zero; auto. }
    destruct (IHr c dyn (next_from from n) (off + sum_esize e arr) data vs) as [E2|(E2 & NL)]; auto.
    { rewrite G. exact M2. }
    + rewrite E2. cbn [bind]. left. do 2 f_equal. lia.
    + rewrite E2. right. tauto.
  - intros n r IHr c dyn from off data vs Hwf Hg Co Hs Hf Hk Hd Hb M.
    cbn [wf_fields lone_fields consts_ok go_ok storable_fields image_fields dec_fields esize_fields norm_fields fields_dyn] in *. destruct Hwf as (Hn & Wr).
    apply matches_app in M; [|destruct Hk; lia]. destruct M as (_ & M). rewrite zlen_repeat in M.
    unfold next_from. destruct (Z.eqb_spec n (-1)); [lia|]. apply IHr; auto; try lia.
    replace (8 * off + (from + n)) with (8 * off + from + Z.of_nat (Z.to_nat n)) by lia. exact M.
  - intros b n big z r IHr c dyn from off data vs Hwf Hg Co Hs Hf Hk Hd Hb M.
    cbn [wf_fields lone_fields consts_ok go_ok storable_fields image_fields dec_fields esize_fields norm_fields fields_dyn] in *.
    destruct Hwf as (Wb & Hn & Wr). destruct Co as ((p & Hp & Ep & Ez) & Cr). destruct Hg as (Gc & Gr). rewrite Gc.
    pose proof Hk as (Hk0 & _). rewrite (offk_base _ _ Hk).
    apply matches_app in M; [|lia]. destruct M as (M1 & M).
    rewrite Ep in M1. rewrite zlen_map, zlen_const_bits in M by lia.
    pose proof M1 as (L1 & _). rewrite zlen_map, zlen_field_bits in L1 by lia. pose proof (basic_bits_range b Wb).
    rewrite dec_pattern_ok by (auto; lia). cbn [bind].
    apply read_value_matches in M1; [|lia]. rewrite M1, Z.mod_small by lia.
    rewrite const_value_num, Ez, Z.eqb_refl by (auto; lia).
    unfold next_from. destruct (Z.eqb_spec n (-1)); [lia|]. apply IHr; auto; try lia.
    replace (8 * off + (from + n)) with (8 * off + from + n) by lia. exact M.
  - intros r IHr c dyn from off data vs Hwf Hg Co Hs Hf Hk Hd Hb M.
    cbn [wf_fields lone_fields consts_ok go_ok storable_fields image_fields dec_fields esize_fields norm_fields fields_dyn] in *. apply IHr; auto.
Qed.

(** Whole messages. *)
Lemma decode_direct c fs vs data : wf_struct fs -> go_ok c fs -> consts_ok fs -> bytes_ok data ->
  storable_fields fs vs -> matches data 0 (image_fields fs vs) ->
  ok_or (lone_fields fs) (decode c fs data) (norm_fields fs vs, encode_size fs vs).
Proof.
  intros W G Co Hb Hs M.
  pose proof (dir_nested c fs vs data 0) as H. unfold dec_nested in H.
  rewrite (proj2 (Z.ltb_ge (zlen data) 0)) in H by (pose proof (zlen_nonneg data); lia). cbn [Z.ltb Z.compare orb Z.to_nat skipn] in H.
  unfold decode. apply H; auto; try lia.
  intros dyn Hd data' Hb' M'. destruct W as (W & H8).
  destruct (proj2 dir_main fs c dyn 0 0 data' vs) as [E|E]; auto; try lia; try (left; exact E); try (right; exact E).
  apply offk_zero.
Qed.

Lemma decode_size_direct fs vs data : wf_struct fs -> lone_fields fs -> bytes_ok data ->
  storable_fields fs vs -> matches data 0 (image_fields fs vs) ->
  decode_size fs data = encode_size fs vs - hidden_bytes fs vs /\ 0 <= decode_size fs data.
Proof.
  intros W Lo Hb Hs M. destruct (encode_size_image fs vs W Hs) as (Z1 & Z2). destruct W as (W & H8).
  rewrite (hidden_direct fs 0 vs W Hs).
  pose proof (dsize_lone fs vs 0 0 data W Lo Hs ltac:(lia) ltac:(lia) Hb M) as E.
  destruct (direct_le fs vs 0 W Lo Hs). destruct M as (L & _). pose proof (fixed_bits_nonneg fs).
  unfold decode_size. rewrite E.
  destruct (Z.ltb_spec (zlen data) (0 + esize_fields fs vs - direct_sizes fs vs + fixed_bits fs / 8)); lia.
Qed.
