(** C75: the text of the C statements that unpack the fixed-size fields of a struct.
    The statements are read as C reads them, as in PropsCText.v. *)
From Coq Require Import ZArith Lia Bool String Ascii List.
Import ListNotations.
From Verif Require Import Base BaseProofs Schema SpecWire GoModel GoCore GoEncMain CfBits CfBitProofs TgtModel PyTarget CTarget Interop Literals ExprSpec PrintTree CSem CSemDet CText CTextEnc CTextStruct CTextD CTextDec CTextDecField CTextStructDec PropsGo PropsTargets PropsCText.
Open Scope string_scope.
Open Scope Z_scope.
Open Scope list_scope.
Ltac Zify.zify_post_hook ::= Z.to_euclidean_division_equations.

(** ** C75: the decoder's statements leave in *ptr what decode of CTarget.v computes, return -1 where it fails and are
    undefined where it says so, be it for a message that is too short; data, the other members and the other variables are unchanged. *)
Theorem C75_text_decode : forall loop arith ew feq dn base fs names st,
  wf_struct fs -> flat loop fs -> dnames_ok fs names -> NoDup (map f_name names) -> consts_fit dn base fs 0 ->
  declared ew st fs names -> no_temps st -> bytes_ok (c_data st) -> fixed_bits fs < 2 ^ 63 ->
  match tdecode (c_tgt loop arith ew feq) fs 0 (c_data st) with
  | Ok (vs, n) => exists st', runs st (dec_text dn arith base fs names 0) (Ok st') /\ read_out ew st' fs names vs /\ c_data st' = c_data st /\
      (forall f, ~ In f (map f_name names) -> (forall i, object st' (PE f i) = object st (PE f i)) /\ object st' (PF f) = object st (PF f)) /\
      (forall x, (forall k, 0 <= k -> x <> temp_name k) -> object st' (PL x) = object st (PL x))
  | Panic => runs st (dec_text dn arith base fs names 0) Panic
  | Fail => runs st (dec_text dn arith base fs names 0) Fail
  end.
Proof.
  intros loop arith ew feq dn base fs names st (W & _) Fl Nm Nd Cs Rd Nt B Hb. unfold tdecode.
  change (tcheck (c_tgt loop arith ew feq) fs (c_data st) 0) with (Ok 0 : res Z). cbn [bind]. rewrite (flat_dyn0 loop arith ew feq fs Fl).
  pose proof (dec_fields_run loop arith ew feq dn base fs names 0 st W Fl Nm Nd Cs (declared_oready ew st fs names Rd) (Z.le_refl 0) Hb B Nt) as X.
  destruct (tdec_fields (c_tgt loop arith ew feq) false fs 0 0 0 (c_data st)) as [[vs o]| |]; cbn [bind dafter] in *; auto.
  destruct X as (-> & st' & R & H & [F1 F2]). exists st'. split; auto. split; auto. split; auto. split.
  - intros f N. split; [intros i|]; apply F2; try exact I; try exact N; intros k Hk; discriminate.
  - intros x N. apply F2; [exact I|intros []|]. intros k Hk E. apply (N k Hk).
    apply (f_equal (fun p => match p with PL y => y | _ => x end)) in E. exact E.
Qed.

(** Hence the text reads what any target wrote, if the schema is one that C can read. *)
Theorem C75_text_any : forall L loop arith ew feq dn base fs names vs extra st,
  wf_struct fs -> flat loop fs -> dnames_ok fs names -> NoDup (map f_name names) -> consts_fit dn base fs 0 -> fits_fields fs vs ->
  can_encode L fs -> can_decode (LC loop arith ew feq) fs -> can_hold (LC loop arith ew feq) fs vs -> bytes_ok extra ->
  zlen (image_fields fs vs) < 8 * lang_limit L -> zlen (image_fields fs vs) + 8 * zlen extra < 8 * 2 ^ 31 ->
  declared ew st fs names -> no_temps st ->
  exists msg, lang_encode L fs vs = Ok msg /\
    (c_data st = msg ++ extra ->
     exists st', runs st (dec_text dn arith base fs names 0) (Ok st') /\ read_out ew st' fs names vs /\ c_data st' = c_data st).
Proof.
  intros L loop arith ew feq dn base fs names vs extra st W Fl Nm Nd Cs Ft Ce Cd Ch Bx L1 L2 Rd Nt.
  pose proof (fits_storable_struct fs vs W Ft) as Sv.
  destruct (encode_size_image fs vs W Sv) as (E1 & _).
  destruct (lang_encode_ok L fs vs W (flat_nd loop fs Fl) Sv Ce ltac:(lia)) as (msg & E & O).
  destruct (encode_matches fs vs msg extra W Sv O) as (Lm & _).
  destruct (C47_any_to_any L (LC loop arith ew feq) fs vs extra W (flat_nd loop fs Fl) Ft Ce Cd Ch Bx L1 L2) as (m2 & E2 & D).
  rewrite E in E2. injection E2 as <-.
  exists msg. split; auto. intros Dt. rewrite <- Dt in D.
  assert (D2 : tdecode (c_tgt loop arith ew feq) fs 0 (c_data st) = Ok (vs, zlen msg)) by exact D.
  unfold encode_size in E1, Lm. rewrite (flat_fixed loop fs Fl) in E1, Lm.
  pose proof (Zle_0_nat (List.length extra)) as Le. fold (zlen extra) in Le. destruct W as [W1 W2]. pose proof (conj W1 W2 : wf_struct fs) as W.
  pose proof (C75_text_decode loop arith ew feq dn base fs names st W Fl Nm Nd Cs Rd Nt
    ltac:(rewrite Dt; apply bytes_ok_app; split; [eapply overlay_bytes; eauto using bytes_ok_zeros|exact Bx]) ltac:(lia)) as X.
  rewrite D2 in X. destruct X as (st' & R & H & K & _). eauto.
Qed.
(** And the packing text into a cleared buffer followed by the unpacking text, run with other options and on another
    machine, gives back the values. *)
Theorem C75_text_roundtrip : forall loop loop' arith' ew' dn dn' base fs cnames names vs st,
  wf_struct fs -> flat loop fs -> flat loop' fs -> CTextStruct.names_ok fs cnames -> dnames_ok fs names -> NoDup (map f_name names) -> consts_fit dn' base fs 0 ->
  fits_fields fs vs -> req_fields loop c_ereq True fs 0 -> req_fields loop' c_dreq True fs 0 ->
  (forall feq, can_hold (LC loop' arith' ew' feq) fs vs) ->
  holds st fs cnames vs -> no_temps st -> zlen (image_fields fs vs) < 8 * 2 ^ 31 -> c_data st = repeat 0 (Z.to_nat (fixed_bits fs / 8)) ->
  exists st1, runs st (enc_text dn fs cnames 0) (Ok st1) /\
    forall st2, declared ew' st2 fs names -> no_temps st2 -> c_data st2 = c_data st1 ->
    exists st3, runs st2 (dec_text dn' arith' base fs names 0) (Ok st3) /\ read_out ew' st3 fs names vs.
Proof.
  intros loop loop' arith' ew' dn dn' base fs cnames names vs st W Fl Fl' Nm Dn Nd Cs Ft Re Rq Ch H Nt Hl Dt.
  set (feq := fun _ _ _ : Z => true). set (L' := LC loop' arith' ew' feq).
  set (A := LC loop false (fun b => b) feq).
  pose proof (fits_storable_struct fs vs W Ft) as Sv.
  destruct (encode_size_image fs vs W Sv) as (E1 & _). pose proof E1 as E3. unfold encode_size in E1. rewrite (flat_fixed loop fs Fl) in E1.
  destruct (lang_encode_ok A fs vs W (flat_nd loop fs Fl) Sv Re) as (msg & E & O).
  { change (lang_limit A) with (2 ^ 31). lia. }
  destruct (encode_matches fs vs msg [] W Sv O) as (Lm & _). unfold encode_size in Lm. rewrite (flat_fixed loop fs Fl) in Lm.
  destruct (C74_text_any loop false (fun b => b) feq dn L' fs cnames vs st W Fl Nm Ft H Nt Re Rq (Ch feq) Hl Hl Dt) as (st1 & R1 & D1).
  exists st1. split; auto. intros st2 Rd N2 D2. rewrite <- D2 in D1.
  assert (D3 : tdecode (c_tgt loop' arith' ew' feq) fs 0 (c_data st2) = Ok (vs, zlen (c_data st2))) by exact D1.
  pose proof (C74_text_encode loop false (fun b => b) feq dn fs cnames vs st W Fl Nm H Nt ltac:(destruct W; lia)) as X.
  assert (Et : tencode (c_tgt loop false (fun b => b) feq) fs vs = Ok msg) by exact E. unfold tencode in Et.
  assert (Sz : tsize (c_tgt loop false (fun b => b) feq) fs vs = fixed_bits fs / 8).
  { unfold tsize. rewrite (flat_fixed loop fs Fl). reflexivity. }
  rewrite Sz, <- Dt in Et. destruct (tencode_to (c_tgt loop false (fun b => b) feq) fs vs 0 (c_data st)) as [[buf n]| |]; cbn [bind] in Et; try discriminate.
  injection Et as ->. destruct X as (st1' & R1' & D1' & _). pose proof (runs_det _ _ _ R1' _ R1) as Q. injection Q as ->.
  destruct W as [W1 W2]. pose proof (conj W1 W2 : wf_struct fs) as W.
  pose proof (C75_text_decode loop' arith' ew' feq dn' base fs names st2 W Fl' Dn Nd Cs Rd N2
    ltac:(rewrite D2, D1'; eapply overlay_bytes; eauto using bytes_ok_zeros) ltac:(lia)) as Y.
  rewrite D3 in Y. destruct Y as (st3 & R3 & H3 & _). eauto.
Qed.

(** ** Negative constants.  Up to 16 bits, and for the least number of 32 bits, the text returns -1 on every message: the
    temporary is unsigned, so its value is never the literal's. *)
Theorem C75_text_negative_refuted : forall dn arith base w n big from z st,
  wf_basic (BInt w) -> 1 <= n <= w -> enum_temp_bits n = w -> const_ok dn (BInt w) z base -> z < 0 -> (w < 32 \/ w = 32 /\ z = - 2 ^ 31) ->
  0 <= from -> from + n < 2 ^ 63 -> c_loc st (temp_name from) = None -> bytes_ok (c_data st) -> from + n <= 8 * zlen (c_data st) ->
  runs st (dec_const_text dn arith (BInt w) n big from z base) Fail.
Proof.
  intros dn arith base w n big from z st Wb Hn Tw Ck Zn Hw Hf Hb Fr B Ln.
  pose proof (dec_const_runs st (fun _ _ _ => true) dn arith (BInt w) n big from z base Wb Hn Hf Hb Ck Fr B) as X.
  destruct (c_dconst (fun _ _ _ => true) arith (BInt w) n big from 0 z (c_data st)) as [[|]| |] eqn:E; cbn [const_ran] in X; [|exact X|destruct X|].
  - exfalso. unfold c_dconst in E. rewrite Tw, Z.ltb_irrefl in E.
    destruct (cf_dec w n big from 0 (c_data st)) as [p| |]; cbn [bind] in E; try discriminate.
    assert (Ii : forall a b : bool, Ok a = Ok b -> a = b) by (injection 1; auto). apply Ii in E.
    assert (C : (w <? 32) || ((w =? 32) && (z <=? - 2 ^ 31)) = true).
    { apply orb_true_iff. destruct Hw as [Hw|[-> ->]]; [left; now apply Z.ltb_lt|right; reflexivity]. }
    rewrite C in E. apply Z.eqb_eq in E. pose proof (Z.mod_pos_bound (c_int arith w n p) (2 ^ w) ltac:(apply Z.pow_pos_nonneg; lia)). lia.
  - exfalso. unfold c_dconst in E. rewrite Tw, Z.ltb_irrefl in E.
    rewrite cf_dec_eq in E by (auto; cbn [wf_basic] in Wb; lia). cbn [bind] in E. discriminate.
Qed.
(** Constants of a signed type (or bool) in fewer bytes than the type: the text writes outside of the temporary. *)
Theorem C75_text_narrow_refuted : forall dn arith base w n big from z st,
  wf_basic (BInt w) -> 1 <= n <= w -> enum_temp_bits n < w -> const_ok dn (BInt w) z base ->
  0 <= from -> from + n < 2 ^ 63 -> c_loc st (temp_name from) = None -> bytes_ok (c_data st) ->
  runs st (dec_const_text dn arith (BInt w) n big from z base) Panic.
Proof.
  intros dn arith base w n big from z st Wb Hn Tw Ck Hf Hb Fr B.
  pose proof (dec_const_runs st (fun _ _ _ => true) dn arith (BInt w) n big from z base Wb Hn Hf Hb Ck Fr B) as X.
  unfold c_dconst in X. destruct (Z.ltb_spec (enum_temp_bits n) w); [exact X|lia].
Qed.

(** ** Concrete cases: the struct of PropsCText.v, with a compiler that makes the enum an unsigned int. *)
Definition cd_names : list fname :=
  map (fun p => {| f_name := cs (fst p); f_enum := cs (snd p) |}) [("a", ""); ("x", ""); ("arr", ""); ("c", "Color"); ("cs", "Color"); ("flags", "")].
Definition cd_ew (bits : Z) : Z := 32.
Definition cd_base (from : Z) : ibase := BHex.
(** Another *ptr, with other values in it. *)
Definition cd_st (data : list Z) : cst := {|
  c_data := data; c_loc := fun _ => None;
  c_mem := ct_mem [("a", One (CI false 16) 77); ("x", One (CI true 32) 7); ("arr", Many (CI false 8) [9; 9; 9]); ("c", One (CI false 32) 1000);
    ("cs", Many (CI false 32) [8; 8]); ("flags", Many CB [0; 1; 1; 0])] |}.
Lemma cd_names_ok : dnames_ok ct_fs cd_names.
Proof. cbn; repeat split; reflexivity. Qed.
Lemma cd_nodup : NoDup (map f_name cd_names).
Proof. repeat constructor; cbn; intuition discriminate. Qed.
Lemma cd_declared data : declared cd_ew (cd_st data) ct_fs cd_names.
Proof. cbn. repeat split; eexists; try split; reflexivity. Qed.
Lemma cd_fit : consts_fit false cd_base ct_fs 0.
Proof. cbn. split; [|exact I]. unfold shows_base. lia. Qed.
Lemma cd_req : req_fields ct_loop c_dreq True ct_fs 0.
Proof.
  cbn [req_fields ct_fs req_elem elem_dyn]. unfold c_dreq, next_from; cbn [r_scalar r_const r_loop r_nested]. cbn.
  repeat split; intros; try lia; try discriminate; try reflexivity; try (left; reflexivity);
    match goal with H : EEnum _ = EEnum _ |- _ => injection H as <-; vm_compute; try split; congruence | _ => idtac end.
Qed.
Lemma cd_fits : fits_fields ct_fs ct_vs.
Proof. cbn; sch4. Qed.
Lemma cd_hold feq : can_hold (LC ct_loop true cd_ew feq) ct_fs ct_vs.
Proof. cbn. unfold cd_ew. repeat constructor; cbn; try lia. Qed.
Example C75_instance : exists st1, runs ct_st (enc_text false ct_fs ct_names 0) (Ok st1) /\
  exists st3, runs (cd_st (c_data st1)) (dec_text false true cd_base ct_fs cd_names 0) (Ok st3) /\ read_out cd_ew st3 ct_fs cd_names ct_vs.
Proof.
  destruct (C75_text_roundtrip ct_loop ct_loop true cd_ew false false cd_base ct_fs ct_names cd_names ct_vs ct_st ct_wf ct_flat ct_flat ct_names_ok cd_names_ok cd_nodup cd_fit
    cd_fits ct_req cd_req cd_hold ct_holds ct_no_temps) as (st1 & R & H).
  { vm_compute. reflexivity. } { reflexivity. }
  exists st1. split; auto. apply H; [apply cd_declared|intros k _; reflexivity|reflexivity].
Qed.
Example C75_printed : firstn 9 (dec_text false true cd_base ct_fs cd_names 0) = map cs
    ["ptr->a = ((uint16_t)((((const uint8_t*)data)[0] & 0b11111111) >> 0) << 8);";
     "ptr->a |= ((uint16_t)((((const uint8_t*)data)[1] & 0b11111111) >> 0) << 0);";
     "uint8_t temp_field_at_pos_16;";
     "(*(uint8_t*)(&(temp_field_at_pos_16))) = ((uint8_t)((((const uint8_t*)data)[2] & 0b11111) >> 0) << 0);";
     "temp_field_at_pos_16 = ((temp_field_at_pos_16) ^ 0x10) - 0x10;";
     "if (temp_field_at_pos_16 != 0xB) return -1;";
     "(*(uint32_t*)(&(ptr->x))) = ((uint32_t)((((const uint8_t*)data)[3] & 0b11111111) >> 0) << 0);";
     "(*(uint32_t*)(&(ptr->x))) |= ((uint32_t)((((const uint8_t*)data)[4] & 0b1111) >> 0) << 8);";
     "ptr->x = ((ptr->x) ^ 0x800) - 0x800;"] /\
  firstn 6 (skipn 12 (dec_text false false cd_base ct_fs cd_names 0)) = map cs
    ["uint8_t temp_field_at_pos_48;"; "temp_field_at_pos_48 = ((uint8_t)((((const uint8_t*)data)[6] & 0b1111) >> 0) << 0);";
     "ptr->c = (enum Color)temp_field_at_pos_48;"; "uint8_t temp_field_at_pos_52;";
     "temp_field_at_pos_52 = ((uint8_t)((((const uint8_t*)data)[6] & 0b11110000) >> 4) << 0);"; "((ptr->cs)[0]) = (enum Color)temp_field_at_pos_52;"].
Proof. split; vm_compute; reflexivity. Qed.
(** A message whose constant is wrong. *)
Example C75_refused : runs (cd_st [4; 210; 12; 251; 31; 127; 57; 220]) (dec_text false true cd_base ct_fs cd_names 0) Fail.
Proof.
  pose proof (C75_text_decode ct_loop true cd_ew (fun _ _ _ => true) false cd_base ct_fs cd_names (cd_st [4; 210; 12; 251; 31; 127; 57; 220]) ct_wf ct_flat cd_names_ok cd_nodup cd_fit
    (cd_declared _) (fun k _ => eq_refl) ltac:(apply ex_bytes_ok; reflexivity) ltac:(reflexivity)) as X.
  assert (E : tdecode (c_tgt ct_loop true cd_ew (fun _ _ _ => true)) ct_fs 0 (c_data (cd_st [4; 210; 12; 251; 31; 127; 57; 220])) = Fail) by (vm_compute; reflexivity).
  rewrite E in X. exact X.
Qed.

(** A message that is too short: 3 bytes, whose constant is right. *)
Example C75_short : runs (cd_st [4; 210; 11]) (dec_text false true cd_base ct_fs cd_names 0) Panic.
Proof.
  pose proof (C75_text_decode ct_loop true cd_ew (fun _ _ _ => true) false cd_base ct_fs cd_names (cd_st [4; 210; 11]) ct_wf ct_flat cd_names_ok cd_nodup cd_fit
    (cd_declared _) (fun k _ => eq_refl) ltac:(apply ex_bytes_ok; reflexivity) ltac:(reflexivity)) as X.
  assert (E : tdecode (c_tgt ct_loop true cd_ew (fun _ _ _ => true)) ct_fs 0 (c_data (cd_st [4; 210; 11])) = Panic) by (vm_compute; reflexivity).
  rewrite E in X. exact X.
Qed.

Ltac cd_side := first [reflexivity | apply ex_bytes_ok; reflexivity | left; reflexivity | right; split; reflexivity | vm_compute; congruence |
  cbn; unfold shows_base; repeat split; try lia; first [left; lia | right; match goal with |- (if ?d then _ else _) = _ => destruct d end; reflexivity]].
(** const int32 = -2147483648, on the bytes that are right for it (and that Python accepts), and the text. *)
Definition cn_fs : fields := FConst (BInt 32) 32 false (- 2 ^ 31) FNil.
Example C75_least_instance : wf_struct cn_fs /\ (forall c, encode c cn_fs [] = Ok [0; 0; 0; 128]) /\ lang_decode (LPy (-1) ex_known) cn_fs [0; 0; 0; 128] = Ok ([], 4) /\
  (forall dn arith, runs (cd_st [0; 0; 0; 128]) (dec_text dn arith (fun _ => BDec) cn_fs [] 0) Fail) /\
  nth 5 (dec_text false false (fun _ => BDec) cn_fs [] 0) [] = cs "if (temp_field_at_pos_0 != -2147483648) return -1;".
Proof.
  split; [unfold wf_struct; cbn; sch|]. split; [intros; vm_compute; reflexivity|]. split; [vm_compute; reflexivity|]. split; [|vm_compute; reflexivity].
  intros dn arith. cbn [dec_text cn_fs]. rewrite app_nil_r.
  apply C75_text_negative_refuted; cd_side.
Qed.
(** const int8 = -1. *)
Definition cm_fs : fields := FConst (BInt 8) 8 false (-1) FNil.
Example C75_negative_instance : wf_struct cm_fs /\ (forall c, encode c cm_fs [] = Ok [255]) /\ lang_decode (LPy (-1) ex_known) cm_fs [255] = Ok ([], 1) /\
  (forall dn arith, runs (cd_st [255]) (dec_text dn arith (fun _ => BDec) cm_fs [] 0) Fail).
Proof.
  split; [unfold wf_struct; cbn; sch|]. split; [intros; vm_compute; reflexivity|]. split; [vm_compute; reflexivity|].
  intros dn arith. cbn [dec_text cm_fs]. rewrite app_nil_r.
  apply C75_text_negative_refuted; cd_side.
Qed.
(** const int32 = 3 in 8 bits. *)
Definition cw_fs : fields := FConst (BInt 32) 8 false 3 FNil.
Example C75_narrow_instance : wf_struct cw_fs /\ lang_decode (LPy (-1) ex_known) cw_fs [3] = Ok ([], 1) /\
  (forall dn arith, runs (cd_st [3]) (dec_text dn arith (fun _ => BDec) cw_fs [] 0) Panic) /\
  firstn 2 (dec_text false false (fun _ => BDec) cw_fs [] 0) = map cs ["uint8_t temp_field_at_pos_0;"; "(*(uint32_t*)(&(temp_field_at_pos_0))) = ((uint32_t)((((const uint8_t*)data)[0] & 0b11111111) >> 0) << 0);"].
Proof.
  split; [unfold wf_struct; cbn; sch|]. split; [vm_compute; reflexivity|]. split; [|vm_compute; reflexivity].
  intros dn arith. cbn [dec_text cw_fs]. rewrite app_nil_r.
  apply C75_text_narrow_refuted; cd_side.
Qed.

Print Assumptions C75_text_decode.
Print Assumptions C75_text_any.
Print Assumptions C75_text_roundtrip.
Print Assumptions C75_text_negative_refuted.
Print Assumptions C75_text_narrow_refuted.
