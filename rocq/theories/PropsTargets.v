(** Theorems about the C, C++, C#, Java, JavaScript, Python and Kotlin targets: C18-C22, C47-C49. *)
From Coq Require Import ZArith List Lia Bool.
From Verif Require Import Base BaseProofs Schema SpecWire GoModel GoBitProofs GoEncProofs GoEncMain GoDecProofs GoRound
  GoCore PropsGo CfBits CfBitProofs TgtModel TgtEncProofs TgtDecProofs TgtPrims PyTarget PyExact KtTarget CTarget JavaTarget CsTarget JsTarget
  JsString Interop SelfClear.
Import ListNotations.
Open Scope Z_scope.

(** ** C47: any target reads what any target wrote *)
Lemma encode_matches fs vs b extra : wf_struct fs -> storable_fields fs vs ->
  overlay (repeat 0 (Z.to_nat (encode_size fs vs))) 0 (image_fields fs vs) b ->
  zlen b = encode_size fs vs /\ matches (b ++ extra) 0 (image_fields fs vs).
Proof.
  intros W S O. pose proof (encode_size_nonneg fs vs W S). destruct (encode_size_image fs vs W S) as (E1 & _).
  pose proof (overlay_length _ _ _ _ O) as L. rewrite zlen_repeat in L.
  split; [lia|]. apply matches_trailing; [lia|]. eapply overlay_matches; eauto; rewrite ?zlen_repeat; lia.
Qed.

Theorem C47_any_to_any : forall A B fs vs extra,
  wf_struct fs -> nd_fields fs -> fits_fields fs vs ->
  can_encode A fs -> can_decode B fs -> can_hold B fs vs -> bytes_ok extra ->
  zlen (image_fields fs vs) < 8 * lang_limit A ->
  zlen (image_fields fs vs) + 8 * zlen extra < 8 * lang_limit B ->
  exists msg, lang_encode A fs vs = Ok msg /\ lang_decode B fs (msg ++ extra) = Ok (vs, zlen msg).
Proof.
  intros A B fs vs extra W Nd F CA CB V Hx LA LB. pose proof (fits_storable_struct fs vs W F) as S.
  destruct (encode_size_image fs vs W S) as (E1 & _).
  destruct (lang_encode_ok A fs vs W Nd S CA ltac:(lia)) as (b & E & O).
  destruct (encode_matches fs vs b extra W S O) as (L & M).
  exists b. split; auto. rewrite L.
  rewrite (lang_decode_ok B fs vs (b ++ extra)); auto.
  - rewrite (proj2 norm_fits fs 0 vs (proj1 W) F). reflexivity.
  - apply bytes_ok_app. split; auto. eapply overlay_bytes; eauto.
  - rewrite zlen_app. lia.
Qed.

(** Values wider than their fields arrive reduced to them, the same way everywhere. *)
Theorem C47_any_to_any_reduced : forall A B fs vs extra,
  wf_struct fs -> nd_fields fs -> storable_fields fs vs ->
  can_encode A fs -> can_decode B fs -> can_hold B fs vs -> bytes_ok extra ->
  zlen (image_fields fs vs) < 8 * lang_limit A ->
  zlen (image_fields fs vs) + 8 * zlen extra < 8 * lang_limit B ->
  exists msg, lang_encode A fs vs = Ok msg /\ lang_decode B fs (msg ++ extra) = Ok (norm_fields fs vs, zlen msg).
Proof.
  intros A B fs vs extra W Nd S CA CB V Hx LA LB.
  destruct (encode_size_image fs vs W S) as (E1 & _).
  destruct (lang_encode_ok A fs vs W Nd S CA ltac:(lia)) as (b & E & O).
  destruct (encode_matches fs vs b extra W S O) as (L & M).
  exists b. split; auto. rewrite L.
  apply (lang_decode_ok B fs vs (b ++ extra)); auto.
  - apply bytes_ok_app. split; auto. eapply overlay_bytes; eauto.
  - rewrite zlen_app. lia.
Qed.

(** All encoders produce the same bytes, and those are the wire image with zeros in the gaps. *)
Theorem C47_same_bytes : forall A B fs vs,
  wf_struct fs -> nd_fields fs -> storable_fields fs vs -> can_encode A fs -> can_encode B fs ->
  zlen (image_fields fs vs) < 8 * lang_limit A -> zlen (image_fields fs vs) < 8 * lang_limit B ->
  exists msg, lang_encode A fs vs = Ok msg /\ lang_encode B fs vs = Ok msg /\ bytes_ok msg /\
    8 * zlen msg = zlen (image_fields fs vs) /\
    forall k, 0 <= k < 8 * zlen msg ->
      bitat msg k = match onth (image_fields fs vs) k with Some (Some b) => b | _ => false end.
Proof.
  intros A B fs vs W Nd S CA CB LA LB.
  destruct (encode_size_image fs vs W S) as (E1 & _).
  destruct (lang_encode_ok A fs vs W Nd S CA ltac:(lia)) as (b & E & O).
  destruct (lang_encode_ok B fs vs W Nd S CB ltac:(lia)) as (b' & E' & O').
  pose proof (overlay_fun _ _ _ _ _ O O') as <-. exists b.
  pose proof (encode_size_nonneg fs vs W S).
  pose proof (overlay_length _ _ _ _ O) as L. rewrite zlen_repeat in L.
  split; auto. split; auto. split; [eapply overlay_bytes; eauto|]. split; [lia|].
  destruct O as (_ & _ & H0). intros k Hk. rewrite H0 by (rewrite zlen_repeat; lia). rewrite Z.sub_0_r, bitat_zeros. reflexivity.
Qed.

(** Byte-aligned schemas meet every target's requirements. *)
Theorem C47_plain_any_to_any : forall A B fs vs,
  wf_struct fs -> nd_fields fs -> plain_fields fs -> plain_lang A fs -> plain_lang B fs ->
  fits_fields fs vs -> can_hold B fs vs -> zlen (image_fields fs vs) < 2 ^ 31 ->
  exists msg, lang_encode A fs vs = Ok msg /\ lang_encode B fs vs = Ok msg /\ lang_decode B fs msg = Ok (vs, zlen msg).
Proof.
  intros A B fs vs W Nd P PA PB F V Hl.
  assert (X : forall L, 2 ^ 31 <= 8 * lang_limit L) by (intros [ ]; cbn [lang_limit]; lia).
  pose proof (X A). pose proof (X B).
  destruct (C47_any_to_any A B fs vs [] W Nd F) as (m & E & D); auto using plain_can_encode, plain_can_decode.
  - constructor.
  - lia.
  - unfold zlen at 2; cbn [length]. lia.
  - rewrite app_nil_r in D. exists m. split; auto. split; auto.
    destruct (C47_same_bytes A B fs vs) as (m' & E1 & E2 & _); auto using plain_can_encode, plain_can_decode; try lia.
    + apply fits_storable_struct; auto.
    + congruence.
Qed.

(** *** The running example of PropsGo.v (11-bit big-endian field, 5-bit constant, 4-bit padding, 12-bit
    signed field, 4-bit array, enum, string, dynamic structs, bools) between every pair of targets. *)
Definition ex_known (bits z : Z) : bool := (bits =? 4) && ((z =? 9) || (z =? 3)).
Definition ex_langs : list lang :=
  [LGo ex_c1; LC (fun len => Nat.ltb 4 len) false (fun _ => 32) (fun _ x y => x =? y);
   LCs (fun _ => true) false (fun l => l); LJava (fun _ => true) true ex_known (fun l => l);
   LJs (fun len => Nat.ltb 2 len) ex_known Z.eqb; LPy 4 ex_known; LKt true ex_known (fun l => l)].

Ltac cfg := (left; reflexivity) || (right; left; cbn; lia) || (right; right; reflexivity).
Ltac sch2 := repeat match goal with
  | |- _ /\ _ => split
  | |- True => exact I
  | |- True \/ _ => left; exact I
  | |- _ \/ True => right; exact I
  | |- forall i, _ => intros ?
  | |- cf_good _ _ => unfold cf_good; lia
  | |- py_good _ _ _ => unfold py_good; (lia || (right; right; split; [reflexivity|lia]))
  | H : EBasic _ = EEnum _ |- _ => discriminate H
  | |- has_uint _ = true => reflexivity
  | |- _ => reflexivity || lia || (cbn; lia)
  end.
Ltac ev t := let v := eval vm_compute in t in change t with v.
Ltac norm_pos := cbv beta; repeat match goal with
  | |- context [next_from ?a ?b] => ev (next_from a b)
  | |- context [Z.of_nat ?a] => ev (Z.of_nat a)
  | |- context [?a / ?b] => ev (a / b)
  | |- context [Nat.ltb ?a ?b] => ev (Nat.ltb a b)
  | |- context [?a <? ?b] => ev (a <? b)
  | |- context [?a <=? ?b] => ev (a <=? b)
  end; cbn [andb].
Lemma ex_can : Forall (fun L => can_encode L ex_fs /\ can_decode L ex_fs /\ plain_lang L ex_fs /\ can_hold L ex_fs ex_vs) ex_langs.
Proof.
  unfold ex_langs.
  assert (H : Forall (fun L => can_hold L ex_fs ex_vs) ex_langs).
  { unfold ex_langs, ex_vs. set (big := repeat 7 200). assert (U : utf8_ok [104; 105] = true) by reflexivity.
    repeat apply Forall_cons; try apply Forall_nil; cbn [can_hold]; auto;
      cbn [nums_fields nums_elem ex_fs ex_inner lang_num lang_str c_vp cs_vp jv_vp js_vp py_vp]; sch2;
      repeat (apply Forall_cons || apply Forall_nil); sch2. }
  cbv [ex_langs] in H.
  repeat match goal with H : Forall _ (_ :: _) |- _ => inversion_clear H end.
  repeat apply Forall_cons; try apply Forall_nil; (split; [|split; [|split; [|assumption]]]);
    try exact I; try reflexivity; try (right; cbn [no_nested_arr no_arr_elem no_arr_fields ex_fs ex_inner]; sch2; fail); cbn [can_encode can_decode lang_tgt lang_ereq lang_dreq]; try apply ex_go; try apply req_true_mut;
    try (split; [apply ex_go|apply ex_co]).
  all: cbn [req_fields req_elem ex_fs ex_inner elem_dyn fields_dyn orb c_ereq c_dreq cs_ereq cs_dreq jv_ereq jv_dreq js_ereq js_dreq
         py_dreq kt_req r_scalar r_const r_loop r_nested t_loop c_tgt cs_tgt jv_tgt js_tgt py_tgt kt_tgt basic_bits elem_bits];
       norm_pos; sch2.
Qed.

Example C47_instance : forall A B, In A ex_langs -> In B ex_langs ->
  exists msg, lang_encode A ex_fs ex_vs = Ok msg /\ lang_encode B ex_fs ex_vs = Ok msg /\
    lang_decode B ex_fs (msg ++ [1; 2; 3]) = Ok (ex_vs, 220).
Proof.
  intros A B HA HB. pose proof ex_can as C. rewrite Forall_forall in C.
  destruct (C A HA) as (EA & _), (C B HB) as (EB & DB & _ & VB).
  assert (X : forall L, 1792 < 8 * lang_limit L) by (intros [ ]; reflexivity).
  assert (Z : zlen (image_fields ex_fs ex_vs) = 8 * 220) by (vm_compute; reflexivity).
  destruct (C47_same_bytes A B ex_fs ex_vs ex_wf ex_nd (fits_storable_struct _ _ ex_wf ex_fits) EA EB) as (m & E1 & E2 & _ & Lm & _).
  { rewrite Z. specialize (X A). lia. } { rewrite Z. specialize (X B). lia. }
  destruct (C47_any_to_any A B ex_fs ex_vs [1; 2; 3] ex_wf ex_nd ex_fits EA DB VB) as (m' & E' & D).
  { apply ex_bytes_ok; reflexivity. } { rewrite Z. specialize (X A). lia. } { rewrite Z. specialize (X B). cbn [zlen length]. unfold zlen; cbn [length]. lia. }
  exists m. split; auto. split; auto. rewrite E1 in E'. injection E' as <-. rewrite D. do 2 f_equal. lia.
Qed.

(** A byte-aligned schema: struct Item { string name; float w } and
    struct Doc { uint8 a; int32 b big; enum e (16 bits); bool f; const uint16 4660; void 8; double d; string s; bytes t;
    Item<2> items; uint16<5> arr big }. *)
Definition ex_item : fields := FOne EString (-1) false (FOne (EBasic (BFloat 32)) 32 false FNil).
Definition ex_plain : fields :=
  FOne (EBasic (BUint 8)) 8 false (FOne (EBasic (BInt 32)) 32 true (FOne (EEnum 16) 16 false (FOne (EBasic BBool) 8 false
 (FConst (BUint 16) 16 true 4660 (FVoid 8 (FOne (EBasic (BFloat 64)) 64 false (FOne EString (-1) false (FOne EBytes (-1) false
 (FArr (EStruct ex_item) 2 (-1) false (FArr (EBasic (BUint 16)) 5 80 true FNil)))))))))).
Definition ex_plain_vs : list val :=
  [VNum 200; VNum (-7); VNum 513; VNum 1; VNum 4607182418800017408; VStr [195; 169]; VStr [0; 255];
   VArr [VStruct [VStr []; VNum 1065353216]; VStruct [VStr [120]; VNum 0]]; VArr (map VNum [1; 2; 3; 4; 65535])].
Example C47_plain_instance : wf_struct ex_plain /\ nd_fields ex_plain /\ plain_fields ex_plain /\ fits_fields ex_plain ex_plain_vs /\
  zlen (image_fields ex_plain ex_plain_vs) = 8 * 46 /\
  forall known repl, known 16 513 = true ->
    let L := LJava (fun _ => true) false known repl in plain_lang L ex_plain /\ can_hold L ex_plain ex_plain_vs.
Proof.
  split; [unfold wf_struct; cbn; sch; try reflexivity; exists 16; split; [lia|reflexivity]|]. split; [cbn; sch|].
  split; [cbn; sch|]. split; [cbn; sch; try (apply ex_bytes_ok; reflexivity)|]. split; [vm_compute; reflexivity|].
  intros known repl K. split; [right; cbn; sch|].
  cbn [can_hold nums_fields nums_elem ex_plain ex_plain_vs ex_item map lang_num lang_str jv_vp]. sch2.
  - change (513 mod 2 ^ 16) with 513. exact K.
  - repeat (apply Forall_cons || apply Forall_nil); sch2.
  - repeat (apply Forall_cons || apply Forall_nil); sch2.
Qed.

(** Whatever bytes Go accepts (on schemas with one-bit bools and no byte strings), the others decode to
    the same values, provided they can hold them. *)
Theorem C47_reads_what_go_accepts : forall c B fs data vs n,
  wf_struct fs -> nd_fields fs -> consts_ok fs -> exact_fields fs -> go_ok c fs -> bytes_ok data ->
  decode c fs data = Ok (vs, n) -> can_decode B fs -> can_hold B fs vs -> zlen data < lang_limit B ->
  lang_decode B fs data = Ok (vs, n).
Proof.
  intros c B fs data vs n W Nd Co Ex G Hb D CB V L.
  destruct (C16_go_decode_encode c c fs data vs n W Nd Co Ex G G Hb D) as (F & <- & E).
  pose proof (fits_storable_struct fs vs W F) as S.
  destruct (C08_go_decode_consumes c fs data vs _ W Nd G Hb D) as (_ & Hn).
  destruct (encode_to_ok c fs vs data W G S Hb ltac:(lia)) as (b & E' & O). rewrite E in E'. injection E' as <-.
  rewrite (lang_decode_ok B fs vs data); auto.
  - rewrite (proj2 norm_fits fs 0 vs (proj1 W) F). reflexivity.
  - destruct (encode_size_image fs vs W S). eapply overlay_matches; eauto; lia.
Qed.
Example C47_accepts_instance :
  let B := LPy 4 (fun _ _ => true) in
  can_decode B ex_exact /\ can_hold B ex_exact [VNum (-814); VStr [65; 66]; VArr (map VNum [1;0;1;1;0;0;1;0])] /\
  lang_decode B ex_exact [154; 170; 65; 66; 0; 77; 1] = Ok ([VNum (-814); VStr [65; 66]; VArr (map VNum [1;0;1;1;0;0;1;0])], 6).
Proof.
  split; [|split; [|vm_compute; reflexivity]].
  - cbn [can_decode lang_tgt lang_dreq req_fields req_elem ex_exact elem_dyn fields_dyn orb
         py_dreq r_scalar r_const r_loop r_nested t_loop py_tgt basic_bits elem_bits]; norm_pos; sch2.
  - cbn [can_hold nums_fields nums_elem ex_exact map lang_num lang_str py_vp]. sch2.
    repeat (apply Forall_cons || apply Forall_nil); sch2.
Qed.

(** ** C18: the C, C++, C#, Java and JavaScript encoders write the documented layout *)
Definition c_family (L : lang) : Prop :=
  match L with LC _ _ _ _ | LCs _ _ _ | LJava _ _ _ _ | LJs _ _ _ => True | _ => False end.

(** Into a buffer whose message area is zero, at any position. *)
Theorem C18_cfamily_layout : forall L T fs vs start buf,
  c_family L -> lang_tgt L = Some T ->
  wf_struct fs -> nd_fields fs -> storable_fields fs vs -> req_fields (t_loop T) (lang_ereq L) (start = 0) fs 0 ->
  0 <= start -> bytes_ok buf -> zlen buf < lang_limit L -> 8 * start + zlen (image_fields fs vs) <= 8 * zlen buf ->
  (forall k, 8 * start <= k < 8 * start + zlen (image_fields fs vs) -> bitat buf k = false) ->
  exists buf' n, tencode_to T fs vs start buf = Ok (buf', n) /\ bytes_ok buf' /\ length buf' = length buf /\
    8 * n = zlen (image_fields fs vs) /\
    forall k, 0 <= k < 8 * zlen buf ->
      bitat buf' k = match onth (image_fields fs vs) (k - 8 * start) with Some (Some b) => b | _ => bitat buf k end.
Proof.
  intros L T fs vs start buf CF ET W Nd S Q Hs Hb Hl Hlen Hz.
  destruct (encode_size_image fs vs W S) as (E1 & _).
  assert (ES : enc_spec T (lang_ereq L) true (lang_limit L)).
  { destruct L; try contradiction; cbn in ET; injection ET as <-; cbn [lang_ereq lang_limit];
      [apply c_enc_spec|apply cs_enc_spec|apply jv_enc_spec|apply js_enc_spec]. }
  assert (Hm : 0 < lang_limit L) by (destruct L; cbn [lang_limit]; lia).
  destruct (tencode_to_ok T _ _ _ Hm ES (start = 0) fs vs start buf) as (b & E & O); auto; try lia.
  { intros _ k Hk. apply Hz. lia. }
  exists b, (encode_size fs vs). destruct O as (Ol & Ob & O). auto.
Qed.
Example C18_instance : forall loop arith ew feq start,
  req_fields (t_loop (c_tgt loop arith ew feq)) (lang_ereq (LC loop arith ew feq)) (start = 0) ex_fs 0.
Proof.
  intros. cbn [lang_ereq req_fields req_elem ex_fs ex_inner elem_dyn fields_dyn orb c_ereq r_scalar r_const r_loop r_nested t_loop c_tgt basic_bits elem_bits];
       norm_pos; sch2; destruct (loop _); sch2.
Qed.

(** A field that starts inside a byte and ends in a later byte, further into it than it started, loses a
    bit: bit (from mod 8) of its last byte is always written as 0. *)
Theorem C18_straddling_field_loses_bit : forall fd n from base buf buf',
  0 <= base -> 0 <= from -> 1 <= n -> from mod 8 <> 0 -> from mod 8 < (from + n) mod 8 -> from / 8 < (from + n - 1) / 8 ->
  cf_enc fd from n base buf = Ok buf' -> bitat buf' (8 * (base + (from + n) / 8) + from mod 8) = false.
Proof.
  intros fd n from base buf buf' Hb Hf Hn H1 H2 H3 E. eapply cf_enc_bad; eauto. unfold cf_good. lia.
Qed.
(** uint8 a[1b]; uint16 b[9b]; uint8 c[6b] with b = 511: all four targets send 255, Go sends 511. *)
Theorem C18_straddling_field_refuted : exists fs vs,
  wf_struct fs /\ nd_fields fs /\ fits_fields fs vs /\
  (forall c, encode c fs vs = Ok [255; 3]) /\
  (forall L, c_family L -> lang_encode L fs vs = Ok [255; 1]) /\
  (forall c, decode c fs [255; 1] = Ok ([VNum 1; VNum 255; VNum 0], 2)).
Proof.
  exists (FOne (EBasic (BUint 8)) 1 false (FOne (EBasic (BUint 16)) 9 false (FOne (EBasic (BUint 8)) 6 false FNil))),
    [VNum 1; VNum 511; VNum 0].
  split; [unfold wf_struct; cbn; sch|]. split; [cbn; sch|]. split; [cbn; sch|].
  split; [intros; vm_compute; reflexivity|]. split; [|intros; vm_compute; reflexivity].
  intros L CF. destruct L; try contradiction; vm_compute; reflexivity.
Qed.

(** JavaScript sends the wrong bits for enums wider than 32 bits. *)
Theorem C18_js_wide_enum_refuted : exists fs vs,
  wf_struct fs /\ fits_fields fs vs /\ (forall c, encode c fs vs = Ok [5; 0; 0; 0; 2]) /\
  (forall loop known feq, lang_encode (LJs loop known feq) fs vs = Ok [5; 0; 0; 0; 5]).
Proof.
  exists (FOne (EEnum 40) 40 false FNil), [VNum (2 ^ 33 + 5)].
  split; [unfold wf_struct; cbn; sch|]. split; [cbn; sch|]. split; intros; vm_compute; reflexivity.
Qed.
(** Java writes the arrays of nested structs at the start of the outer message, unless they are unrolled. *)
Theorem C18_java_nested_array_refuted : exists fs vs,
  wf_struct fs /\ nd_fields fs /\ fits_fields fs vs /\ encode ex_c1 fs vs = Ok [1; 2; 3] /\
  (forall arith known repl, lang_encode (LJava (fun _ => true) arith known repl) fs vs = Ok [2; 3; 0]).
Proof.
  exists (FOne (EBasic (BUint 8)) 8 false (FOne (EStruct (FArr (EBasic (BUint 8)) 2 16 false FNil)) 16 false FNil)),
    [VNum 1; VStruct [VArr [VNum 2; VNum 3]]].
  split; [unfold wf_struct; cbn; sch; exists 8; split; [lia|reflexivity]|]. split; [cbn; sch|]. split; [cbn; sch|].
  split; intros; vm_compute; reflexivity.
Qed.

(** ** C19: the C-family decoders read the documented layout *)
(** One field, any buffer: the inline statements and the run-time helper give the number the bits stand
    for, which is what Go's give. *)
Theorem C19_cfamily_reads_field : forall w n big from base data,
  (w = 8 \/ w = 16 \/ w = 32 \/ w = 64) -> 1 <= n <= w -> 0 <= from -> 0 <= base -> bytes_ok data ->
  8 * base + from + n <= 8 * zlen data ->
  exists p, value_at data (8 * base + from) n big p /\
    cf_dec w n big from base data = Ok p /\ cf_read_bits (8 * base + from) n big data = Ok p /\
    dec_pattern w n big from base 0 data = Ok p.
Proof.
  intros w n big from base data Hw Hn Hf Hb Hok Hl. exists (read_value data (8 * base + from) n big).
  split; [apply read_value_at; lia|].
  rewrite cf_dec_eq, cf_read_bits_ok, dec_pattern_ok by (auto; lia). auto.
Qed.
Example C19_field_instance : cf_dec 16 11 true 3 1 [9; 215; 212; 255] = Ok 1234 /\ cf_read_bits 11 11 true [9; 215; 212; 255] = Ok 1234.
Proof. split; vm_compute; reflexivity. Qed.

(** Whole messages, at any position of a buffer. *)
Theorem C19_cfamily_decodes : forall L T fs vs start data,
  c_family L -> lang_tgt L = Some T ->
  wf_struct fs -> nd_fields fs -> fits_fields fs vs -> can_hold L fs vs ->
  req_fields (t_loop T) (lang_dreq L) (start = 0) fs 0 ->
  0 <= start -> bytes_ok data -> zlen data < lang_limit L -> matches data (8 * start) (image_fields fs vs) ->
  exists n, tdecode T fs start data = Ok (vs, n) /\ 8 * n = zlen (image_fields fs vs).
Proof.
  intros L T fs vs start data CF ET W Nd F V Q Hs Hb Hl M. pose proof (fits_storable_struct fs vs W F) as S.
  destruct (encode_size_image fs vs W S) as (E1 & _). exists (encode_size fs vs). split; auto.
  pose proof (proj2 norm_fits fs 0 vs (proj1 W) F) as Nf.
  enough (X : tdecode T fs start data = Ok (norm_fields fs vs, encode_size fs vs)) by (rewrite X, Nf; reflexivity).
  destruct L; try contradiction; cbn in ET; injection ET as <-; cbn [can_hold lang_num lang_str lang_dreq lang_limit] in *.
  - eapply (tdecode_match _ _ _ _ _ (c_dec_spec loop arith ew feq) (start = 0)); eauto.
  - eapply (tdecode_match _ _ _ _ _ (cs_dec_spec loop arith repl) (start = 0)); eauto.
  - eapply (tdecode_match _ _ _ _ _ (jv_dec_spec loop arith known repl) (start = 0)); eauto.
  - eapply (tdecode_match _ _ _ _ _ (js_dec_spec loop known feq) (start = 0)); eauto.
Qed.
Example C19_instance : forall repl, exists msg, encode ex_c1 ex_fs ex_vs = Ok msg /\
  tdecode (cs_tgt (fun _ => true) false repl) ex_fs 2 (7 :: 7 :: msg ++ [1]) = Ok (ex_vs, 220).
Proof. intros. eexists. split; [vm_compute; reflexivity|]. vm_compute; reflexivity. Qed.

(** JavaScript: a uint32 field with its top bit set comes out negative (and a constant with its top bit
    set is rejected); int64 fields of exactly 32 bits throw; 64-bit constants below 2^31 are rejected. *)
Theorem C19_js_uint32_refuted : forall loop known feq,
  lang_decode (LJs loop known feq) (FOne (EBasic (BUint 32)) 32 false FNil) [255; 255; 255; 255] = Ok ([VNum (-1)], 4) /\
  lang_decode (LJs loop known feq) (FConst (BUint 32) 32 false 4000000000 FNil) [0; 40; 107; 238] = Fail /\
  lang_decode (LJs loop known feq) (FOne (EBasic (BInt 64)) 32 false FNil) [5; 0; 0; 0] = Panic /\
  lang_decode (LJs loop known feq) (FConst (BUint 64) 64 false 5 FNil) [5; 0; 0; 0; 0; 0; 0; 0] = Fail /\
  forall c, decode c (FOne (EBasic (BUint 32)) 32 false FNil) [255; 255; 255; 255] = Ok ([VNum 4294967295], 4) /\
    decode c (FConst (BUint 32) 32 false 4000000000 FNil) [0; 40; 107; 238] = Ok ([], 4) /\
    decode c (FOne (EBasic (BInt 64)) 32 false FNil) [5; 0; 0; 0] = Ok ([VNum 5], 4) /\
    decode c (FConst (BUint 64) 64 false 5 FNil) [5; 0; 0; 0; 0; 0; 0; 0] = Ok ([], 8).
Proof.
  intros. do 4 (split; [vm_compute; reflexivity|]). intros c. do 2 (split; [vm_compute; reflexivity|]).
  split; [|vm_compute; reflexivity]. destruct c as [u []]; vm_compute; reflexivity.
Qed.
(** C: constants of type int16 or int8 that are negative are rejected; a narrow constant of a wider type
    overwrites memory beside its variable. *)
Theorem C19_c_constant_refuted : forall loop arith ew feq,
  lang_encode (LC loop arith ew feq) (FConst (BInt 16) 16 false (-5) FNil) [] = Ok [251; 255] /\
  lang_decode (LC loop arith ew feq) (FConst (BInt 16) 16 false (-5) FNil) [251; 255] = Fail /\
  lang_decode (LC loop arith ew feq) (FConst (BInt 32) 16 false (-5) FNil) [251; 255] = Panic.
Proof. intros. split; [|split]; [|destruct arith|destruct arith]; vm_compute; reflexivity. Qed.
(** C# raises on floats narrower than their type; Java sets the missing bits of them from the top bit. *)
Theorem C19_narrow_float_refuted :
  (forall loop arith repl, lang_decode (LCs loop arith repl) (FOne (EBasic (BFloat 32)) 16 false FNil) [255; 255] = Panic) /\
  (forall loop arith known repl, lang_decode (LJava loop arith known repl) (FOne (EBasic (BFloat 32)) 16 false FNil) [255; 255]
     = Ok ([VNum 4294967295], 2)) /\
  (forall c, decode c (FOne (EBasic (BFloat 32)) 16 false FNil) [255; 255] = Ok ([VNum 65535], 2)).
Proof. split; [|split]; intros; vm_compute; reflexivity. Qed.
(** Byte strings: a length prefix with the sign bit of int makes the C#, Java and Kotlin decoders throw
    (and C read out of bounds) where Go, Python and JavaScript report failure. *)
Theorem C19_negative_length_refuted :
  let fs := FOne EBytes (-1) false FNil in let data := [255; 255; 255; 255; 15] in
  (forall c, decode c fs data = Fail) /\
  (forall loop arith repl, lang_decode (LCs loop arith repl) fs data = Panic) /\
  (forall loop arith known repl, lang_decode (LJava loop arith known repl) fs data = Panic) /\
  (forall arith known repl, lang_decode (LKt arith known repl) fs data = Panic) /\
  (forall loop known feq, lang_decode (LJs loop known feq) fs data = Fail) /\
  (forall unr known, lang_decode (LPy unr known) fs data = Fail).
Proof. repeat (split; [intros; vm_compute; reflexivity|]). intros; vm_compute; reflexivity. Qed.
(** The C decoder does not check lengths: a message cut short is read past its end. *)
Theorem C19_c_truncated_refuted : forall loop arith ew feq,
  lang_decode (LC loop arith ew feq) (FOne EString (-1) false FNil) [65; 66] = Panic /\
  tdecode_size (c_tgt loop arith ew feq) (FOne EString (-1) false FNil) [65; 66] = Ok (-3).
Proof. split; vm_compute; reflexivity. Qed.

(** ** C20: encoding over old data
    [clears_fields] (SelfClear.v): no padding starts a byte or crosses into another byte, and the array
    loops cover whole bytes or stay inside one byte.  Then the old contents of the buffer do not matter:
    message bits are as documented, padding bits are zero, everything else is kept. *)
Theorem C20_cfamily_any_buffer : forall L T fs vs start buf,
  c_family L -> lang_tgt L = Some T ->
  wf_struct fs -> nd_fields fs -> storable_fields fs vs -> req_fields (t_loop T) (lang_ereq L) (start = 0) fs 0 ->
  clears_fields (t_loop T) fs 0 ->
  0 <= start -> bytes_ok buf -> zlen buf < lang_limit L -> 8 * start + zlen (image_fields fs vs) <= 8 * zlen buf ->
  exists buf' n, tencode_to T fs vs start buf = Ok (buf', n) /\ bytes_ok buf' /\ length buf' = length buf /\
    8 * n = zlen (image_fields fs vs) /\
    forall k, 0 <= k < 8 * zlen buf ->
      bitat buf' k = match onth (image_fields fs vs) (k - 8 * start) with
                     | Some (Some b) => b | Some None => false | None => bitat buf k end.
Proof.
  intros L T fs vs start buf CF ET W Nd S Q Cl Hs Hb Hl Hlen.
  destruct (encode_size_image fs vs W S) as (E1 & _). pose proof (encode_size_nonneg fs vs W S).
  assert (ES : enc_spec T (lang_ereq L) true (lang_limit L) /\ sc_spec T).
  { destruct L; try contradiction; cbn in ET; injection ET as <-; cbn [lang_ereq lang_limit]; split;
      [apply c_enc_spec|apply c_sc|apply cs_enc_spec|apply cs_sc|apply jv_enc_spec|apply jv_sc|apply js_enc_spec|apply js_sc]. }
  destruct ES as (ES & SC).
  assert (Hm : 0 < lang_limit L) by (destruct L; cbn [lang_limit]; lia).
  destruct (sc_tencode T (lang_ereq L) (lang_limit L) SC ES Hm (start = 0) fs vs start buf) as (b & E & O); auto; try lia.
  exists b, (encode_size fs vs). pose proof (wiped_length start (encode_size fs vs) buf Hs ltac:(lia) ltac:(lia)) as WL.
  destruct O as (Ol & Ob & O). split; auto. split; auto. split; [congruence|]. split; auto.
  intros k Hk. rewrite O by (unfold zlen in *; lia). rewrite wiped_bit by lia.
  destruct (onth (image_fields fs vs) (k - 8 * start)) as [[x|]|] eqn:On; auto.
  - apply onth_Some in On. destruct (Z.leb_spec (8 * start) k), (Z.ltb_spec k (8 * (start + encode_size fs vs))); auto; lia.
  - assert (k - 8 * start < 0 \/ zlen (image_fields fs vs) <= k - 8 * start).
    { destruct (Z.ltb_spec (k - 8 * start) 0); [lia|]. destruct (Z.leb_spec (zlen (image_fields fs vs)) (k - 8 * start)); [lia|].
      destruct (onth_in_range (image_fields fs vs) (k - 8 * start)) as (a & Ha); [lia|congruence]. }
    destruct (Z.leb_spec (8 * start) k), (Z.ltb_spec k (8 * (start + encode_size fs vs))); auto; lia.
Qed.
(** Hence two buffers give the same message. *)
Theorem C20_cfamily_independent : forall L T fs vs start buf1 buf2,
  c_family L -> lang_tgt L = Some T ->
  wf_struct fs -> nd_fields fs -> storable_fields fs vs -> req_fields (t_loop T) (lang_ereq L) (start = 0) fs 0 ->
  clears_fields (t_loop T) fs 0 ->
  0 <= start -> bytes_ok buf1 -> bytes_ok buf2 -> zlen buf1 < lang_limit L -> zlen buf2 < lang_limit L ->
  8 * start + zlen (image_fields fs vs) <= 8 * zlen buf1 -> 8 * start + zlen (image_fields fs vs) <= 8 * zlen buf2 ->
  exists b1 b2 n, tencode_to T fs vs start buf1 = Ok (b1, n) /\ tencode_to T fs vs start buf2 = Ok (b2, n) /\
    forall k, 8 * start <= k < 8 * (start + n) -> bitat b1 k = bitat b2 k.
Proof.
  intros L T fs vs start buf1 buf2 CF ET W Nd S Q Cl Hs Hb1 Hb2 Hl1 Hl2 Hn1 Hn2.
  destruct (C20_cfamily_any_buffer L T fs vs start buf1) as (b1 & n1 & E1 & _ & _ & S1 & B1); auto.
  destruct (C20_cfamily_any_buffer L T fs vs start buf2) as (b2 & n2 & E2 & _ & _ & S2 & B2); auto.
  assert (n2 = n1) by lia. subst n2. exists b1, b2, n1. split; auto. split; auto. intros k Hk.
  rewrite B1, B2 by lia. destruct (onth (image_fields fs vs) (k - 8 * start)) as [[x|]|] eqn:On; auto.
  destruct (onth_in_range (image_fields fs vs) (k - 8 * start)) as (a & Ha); [lia|congruence].
Qed.
(** An instance with padding, nested structs, an array loop over whole bytes, strings and byte strings. *)
Definition ex_clear : fields :=
  FOne (EBasic (BUint 16)) 11 true (FConst (BUint 8) 3 false 5 (FVoid 2
 (FArr (EBasic (BInt 16)) 3 48 true (FOne EString (-1) false
 (FArr (EStruct (FOne EBytes (-1) false (FOne (EEnum 4) 4 false (FVoid 4 FNil)))) 2 (-1) false
 (FOne (EBasic (BInt 32)) 32 false FNil)))))).
Example C20_instance : wf_struct ex_clear /\ nd_fields ex_clear /\
  (forall lp, clears_fields lp ex_clear 0) /\
  (forall loop arith ew feq start, req_fields loop (lang_ereq (LC loop arith ew feq)) (start = 0) ex_clear 0) /\
  let vs := [VNum 1234; VArr [VNum (-5); VNum 32767; VNum 0]; VStr [104; 105];
             VArr [VStruct [VStr [1; 2; 3]; VNum 9]; VStruct [VStr []; VNum 15]]; VNum (-7)] in
  storable_fields ex_clear vs /\
  tencode_to (c_tgt (fun _ => true) true (fun _ => 32) (fun _ _ _ => true)) ex_clear vs 1 (repeat 255 26) =
    Ok ([255; 154; 42; 255; 251; 127; 255; 0; 0; 104; 105; 0; 3; 1; 2; 3; 9; 0; 15; 249; 255; 255; 255; 255; 255; 255], 22).
Proof.
  split; [unfold wf_struct; cbn; sch; exists 16; lia|]. split; [cbn; sch|].
  split. { intros lp. cbn [clears_fields clears_elem ex_clear]. norm_pos. unfold inside_byte. cbn. sch. }
  split. { intros. cbn [lang_ereq req_fields req_elem ex_clear elem_dyn fields_dyn orb c_ereq r_scalar r_const r_loop r_nested t_loop c_tgt basic_bits elem_bits];
       norm_pos; sch2; destruct (loop _); sch2. }
  cbv zeta. split. { cbn. sch; apply ex_bytes_ok; reflexivity. }
  vm_compute. reflexivity.
Qed.
(** Otherwise old data shows.  Padding of 4 bits followed by a 4-bit number: the number 0 written over 255
    reads back as 15.  Go, Python and Kotlin write and read 0. *)
Theorem C20_padding_refuted : let fs := FVoid 4 (FOne (EBasic (BUint 8)) 4 false FNil) in
  wf_struct fs /\ nd_fields fs /\ fits_fields fs [VNum 0] /\
  (forall L T, c_family L -> lang_tgt L = Some T ->
     tencode_to T fs [VNum 0] 0 [255] = Ok ([255], 1) /\ tencode_to T fs [VNum 0] 0 [0] = Ok ([0], 1) /\
     tdecode T fs 0 [255] = Ok ([VNum 15], 1)) /\
  (forall c, encode_to c fs [VNum 0] [255] = Ok ([15], 1) /\ decode c fs [15] = Ok ([VNum 0], 1)) /\
  (forall unr known, tencode_to (py_tgt unr known) fs [VNum 0] 0 [255] = Ok ([15], 1)) /\
  (forall arith known repl, tencode_to (kt_tgt arith known repl) fs [VNum 0] 0 [255] = Ok ([15], 1)).
Proof.
  cbv zeta. split; [unfold wf_struct; cbn; sch|]. split; [cbn; sch|]. split; [cbn; sch|].
  split. { intros L T CF ET. destruct L; try contradiction; cbn in ET; injection ET as <-; repeat split; vm_compute; reflexivity. }
  split. { intros; split; vm_compute; reflexivity. }
  split; intros; vm_compute; reflexivity.
Qed.
(** The same for an array loop over elements smaller than a byte, even though the array fills its byte. *)
Theorem C20_loop_refuted : let fs := FArr (EBasic (BUint 8)) 2 8 false FNil in let vs := [VArr [VNum 0; VNum 0]] in
  forall L T, c_family L -> lang_tgt L = Some T -> t_loop T 2 = true ->
     tencode_to T fs vs 0 [255] = Ok ([255], 1) /\ tencode_to T fs vs 0 [0] = Ok ([0], 1) /\
     tdecode T fs 0 [255] = Ok ([VArr [VNum 15; VNum 15]], 1).
Proof.
  cbv zeta. intros L T CF ET LP. destruct L; try contradiction; cbn in ET; injection ET as <-; cbn [t_loop c_tgt cs_tgt jv_tgt js_tgt] in LP;
    (split; [|split]); unfold tencode_to, tdecode; cbn; rewrite LP; vm_compute; reflexivity.
Qed.

(** ** C21: Python *)
(** Encoding: every schema, every buffer. *)
Theorem C21_python_layout : forall unr known fs vs start buf,
  wf_struct fs -> nd_fields fs -> storable_fields fs vs ->
  0 <= start -> bytes_ok buf -> zlen buf < 2 ^ 63 -> 8 * start + zlen (image_fields fs vs) <= 8 * zlen buf ->
  exists buf' n, tencode_to (py_tgt unr known) fs vs start buf = Ok (buf', n) /\ bytes_ok buf' /\ length buf' = length buf /\
    8 * n = zlen (image_fields fs vs) /\
    forall k, 0 <= k < 8 * zlen buf ->
      bitat buf' k = match onth (image_fields fs vs) (k - 8 * start) with Some (Some b) => b | _ => bitat buf k end.
Proof.
  intros unr known fs vs start buf W Nd S Hs Hb Hl Hlen.
  destruct (encode_size_image fs vs W S) as (E1 & _).
  destruct (tencode_to_ok (py_tgt unr known) py_ereq false (2 ^ 63) ltac:(lia) (py_enc_spec unr known) (start = 0) fs vs start buf) as (b & E & O); auto; try lia.
  { apply req_true_mut. }
  exists b, (encode_size fs vs). destruct O as (Ol & Ob & O). auto.
Qed.
(** Decoding: fields that are byte-aligned, at most 8 bits wide, or little-endian within two bytes. *)
Theorem C21_python_decodes : forall unr known fs vs start data,
  wf_struct fs -> nd_fields fs -> fits_fields fs vs -> can_hold (LPy unr known) fs vs ->
  req_fields (t_loop (py_tgt unr known)) py_dreq (start = 0) fs 0 ->
  0 <= start -> bytes_ok data -> zlen data < 2 ^ 63 -> matches data (8 * start) (image_fields fs vs) ->
  exists n, tdecode (py_tgt unr known) fs start data = Ok (vs, n) /\ 8 * n = zlen (image_fields fs vs).
Proof.
  intros unr known fs vs start data W Nd F V Q Hs Hb Hl M. pose proof (fits_storable_struct fs vs W F) as S.
  destruct (encode_size_image fs vs W S) as (E1 & _). exists (encode_size fs vs). split; auto.
  pose proof (proj2 norm_fits fs 0 vs (proj1 W) F) as Nf.
  enough (X : tdecode (py_tgt unr known) fs start data = Ok (norm_fields fs vs, encode_size fs vs)) by (rewrite X, Nf; reflexivity). cbn [can_hold lang_num lang_str] in V.
  eapply (tdecode_match _ _ _ _ _ (py_dec_spec unr known) (start = 0)); eauto.
Qed.
Example C21_instance : exists msg, encode ex_c1 ex_fs ex_vs = Ok msg /\
  tdecode (py_tgt 4 ex_known) ex_fs 2 (7 :: 7 :: msg ++ [1]) = Ok (ex_vs, 220) /\
  exists b, tencode_to (py_tgt 4 ex_known) ex_fs ex_vs 2 (repeat 0 300) = Ok (b, 220) /\ firstn 220 (skipn 2 b) = msg.
Proof. eexists. split; [vm_compute; reflexivity|]. split; [vm_compute; reflexivity|]. eexists. split; [vm_compute; reflexivity|]. vm_compute; reflexivity. Qed.
(** The condition is exact.  For a number field the decoder returns the number for every buffer and every
    number if and only if the field is of one of those three kinds ... *)
Theorem C21_python_field_exact : forall n big from, 1 <= n <= 64 -> 0 <= from ->
  (from mod 8 = 0 \/ n <= 8 \/ (big = false /\ from mod 8 + n <= 16)) <->
  (forall base data z, 0 <= base -> bytes_ok data -> 0 <= z < 2 ^ n ->
     matches data (8 * base + from) (map Some (field_bits n big z)) -> py_dec n big from base data = Ok z).
Proof.
  intros n big from Hn Hf. fold (py_good n big from). split.
  - intros G base data z Hb Hok Hz M. pose proof M as (L & _). rewrite zlen_map, zlen_field_bits in L by lia.
    rewrite py_dec_ok by (auto; lia). rewrite (read_value_matches _ _ _ _ z) by (auto; lia). rewrite Z.mod_small by lia. reflexivity.
  - intros H. destruct (Z.eq_dec (from mod 8) 0); [left; auto|]. destruct (Z.le_gt_cases n 8); [right; left; auto|].
    assert (X : py_good n big from \/ ~ py_good n big from) by (unfold py_good; destruct big; lia). destruct X as [X|X]; auto. exfalso.
    destruct (write_field_bits_overlay from n (py_bad_value n big) big (repeat 0 (Z.to_nat (from + n)))) as (b & _ & O); auto; try lia.
    { apply bytes_ok_zeros. }
    { rewrite zlen_repeat. lia. }
    assert (M : matches b (8 * 0 + from) (map Some (field_bits n big (py_bad_value n big)))).
    { eapply overlay_matches; eauto; try lia. rewrite zlen_map, zlen_field_bits, zlen_repeat by lia. lia. }
    pose proof (H 0 b (py_bad_value n big) ltac:(lia) (overlay_bytes _ _ _ _ O) (bad_value_fits n big ltac:(lia)) M) as E.
    pose proof (py_dec_bad n big from 0 b _ ltac:(lia) X Hf ltac:(lia) M E) as B. rewrite bad_value_even in B by lia. discriminate.
Qed.
(** ... and a message with a field of any other kind is misread (or rejected), whatever its other fields hold,
    for the number whose only bit is bit 8 (little-endian), or bit n-8 (big-endian). *)
Theorem C21_python_misread : forall unr known a w n big r va vr start data m,
  let fs := fapp a (FOne (EBasic (BUint w)) n big r) in
  let vs := va ++ VNum (2 ^ (if big then n - 8 else 8)) :: vr in
  wf_struct fs -> fields_dyn a = false -> storable_fields a va ->
  ~ (fixed_bits a mod 8 = 0 \/ n <= 8 \/ (big = false /\ fixed_bits a mod 8 + n <= 16)) ->
  0 <= start -> bytes_ok data -> matches data (8 * start) (image_fields fs vs) ->
  tdecode (py_tgt unr known) fs start data <> Ok (vs, m).
Proof. intros. apply py_bad_message; auto. Qed.
Example C21_misread_instance :
  let fs := fapp (FOne (EBasic (BUint 8)) 4 false FNil) (FOne (EBasic (BUint 32)) 20 false FNil) in
  wf_struct fs /\ lang_encode (LPy 8 ex_known) fs [VNum 3; VNum 256] = Ok [3; 16; 0] /\
  lang_decode (LPy 8 ex_known) fs [3; 16; 0] = Ok ([VNum 3; VNum 1], 3).
Proof. cbv zeta. split; [unfold wf_struct; cbn; sch|]. split; vm_compute; reflexivity. Qed.
(** Other fields come out wrong: in the generated expression "<<" binds more tightly than "|". *)
Theorem C21_python_decode_refuted : exists fs vs msg,
  wf_struct fs /\ nd_fields fs /\ fits_fields fs vs /\ (forall c, encode c fs vs = Ok msg) /\
  (forall unr known, lang_encode (LPy unr known) fs vs = Ok msg) /\
  (forall unr known, lang_decode (LPy unr known) fs msg = Ok ([VNum 0; VNum 1044735], 3)) /\
  vs = [VNum 0; VNum 1048575].
Proof.
  exists (FOne (EBasic (BUint 8)) 4 false (FOne (EBasic (BUint 32)) 20 false FNil)), [VNum 0; VNum 1048575], [240; 255; 255].
  split; [unfold wf_struct; cbn; sch|]. split; [cbn; sch|]. split; [cbn; sch|].
  repeat (split; [intros; vm_compute; reflexivity|]). reflexivity.
Qed.
(** Strings that are not UTF-8, and enum numbers without a name, raise. *)
Theorem C21_python_raises_refuted : forall unr known, known 8 9 = false ->
  lang_decode (LPy unr known) (FOne EString (-1) false FNil) [255; 255; 0] = Panic /\
  lang_decode (LPy unr known) (FOne (EEnum 8) 8 false FNil) [9] = Panic /\
  forall c, decode c (FOne EString (-1) false FNil) [255; 255; 0] = Ok ([VStr [255; 255]], 3) /\
    decode c (FOne (EEnum 8) 8 false FNil) [9] = Ok ([VNum 9], 1).
Proof.
  intros unr known K. split; [vm_compute; reflexivity|].
  split; [|intros; split; vm_compute; reflexivity].
  vm_compute. change (known 8 9) with (known 8 9). rewrite K. reflexivity.
Qed.

(** ** C22: Kotlin *)
Theorem C22_kotlin_layout : forall arith known repl fs vs start buf,
  wf_struct fs -> nd_fields fs -> storable_fields fs vs -> req_fields (fun _ => true) kt_req (start = 0) fs 0 ->
  0 <= start -> bytes_ok buf -> zlen buf < 2 ^ 31 -> 8 * start + zlen (image_fields fs vs) <= 8 * zlen buf ->
  exists buf' n, tencode_to (kt_tgt arith known repl) fs vs start buf = Ok (buf', n) /\ bytes_ok buf' /\ length buf' = length buf /\
    8 * n = zlen (image_fields fs vs) /\
    forall k, 0 <= k < 8 * zlen buf ->
      bitat buf' k = match onth (image_fields fs vs) (k - 8 * start) with Some (Some b) => b | _ => bitat buf k end.
Proof.
  intros arith known repl fs vs start buf W Nd S Q Hs Hb Hl Hlen.
  destruct (encode_size_image fs vs W S) as (E1 & _).
  destruct (tencode_to_ok (kt_tgt arith known repl) kt_req false (2 ^ 31) ltac:(lia) (kt_enc_spec arith known repl) (start = 0) fs vs start buf) as (b & E & O); auto; try lia.

  exists b, (encode_size fs vs). destruct O as (Ol & Ob & O). auto.
Qed.
Theorem C22_kotlin_decodes : forall arith known repl fs vs start data,
  wf_struct fs -> nd_fields fs -> fits_fields fs vs -> can_hold (LKt arith known repl) fs vs ->
  req_fields (fun _ => true) kt_req (start = 0) fs 0 ->
  0 <= start -> bytes_ok data -> zlen data < 2 ^ 31 -> matches data (8 * start) (image_fields fs vs) ->
  exists n, tdecode (kt_tgt arith known repl) fs start data = Ok (vs, n) /\ 8 * n = zlen (image_fields fs vs).
Proof.
  intros arith known repl fs vs start data W Nd F V Q Hs Hb Hl M. pose proof (fits_storable_struct fs vs W F) as S.
  destruct (encode_size_image fs vs W S) as (E1 & _). exists (encode_size fs vs). split; auto.
  pose proof (proj2 norm_fits fs 0 vs (proj1 W) F) as Nf.
  enough (X : tdecode (kt_tgt arith known repl) fs start data = Ok (norm_fields fs vs, encode_size fs vs)) by (rewrite X, Nf; reflexivity). cbn [can_hold lang_num lang_str] in V.
  eapply (tdecode_match _ _ _ _ _ (kt_dec_spec arith known repl) (start = 0)); eauto.
Qed.
(** One field, any buffer. *)
Theorem C22_kotlin_helpers : forall pos n z big buf,
  0 <= pos -> 1 <= n <= 64 -> bytes_ok buf -> pos + n <= 8 * zlen buf ->
  (exists p, kt_read_bits pos n big buf = Ok p /\ value_at buf pos n big p) /\
  exists buf', kt_write_bits pos n (z mod 2 ^ 64) big buf = Ok buf' /\
    write_field_bits pos n (z mod 2 ^ 64) big buf = Ok buf' /\
    kt_read_bits pos n big buf' = Ok (z mod 2 ^ n).
Proof.
  intros pos n z big buf Hp Hn Hb Hl. split.
  - exists (read_value buf pos n big). rewrite kt_read_bits_ok by (auto; lia). split; auto. apply read_value_at; lia.
  - destruct (kt_write_bits_ok pos n z big buf) as (b & E & O); auto.
    destruct (write_field_bits_overlay pos n z big buf) as (b2 & E2 & O2); auto; try lia.
    pose proof (overlay_fun _ _ _ _ _ O O2) as <-. pose proof (overlay_bytes _ _ _ _ O) as B.
    pose proof (overlay_length _ _ _ _ O) as L.
    exists b. split; auto. split; auto. rewrite kt_read_bits_ok by (auto; lia).
    rewrite (read_value_matches b pos n big z); [auto|lia|].
    eapply overlay_matches; eauto. rewrite zlen_map, zlen_field_bits; lia.
Qed.
Example C22_instance : exists msg, encode ex_c1 ex_fs ex_vs = Ok msg /\
  (forall start, req_fields (fun _ => true) kt_req (start = 0) ex_fs 0) /\
  tdecode (kt_tgt true ex_known (fun l => l)) ex_fs 2 (7 :: 7 :: msg ++ [1]) = Ok (ex_vs, 220).
Proof.
  eexists. split; [vm_compute; reflexivity|]. split; [|vm_compute; reflexivity].
  intros. cbn [req_fields req_elem ex_fs ex_inner elem_dyn fields_dyn orb kt_req r_scalar r_const r_loop r_nested basic_bits elem_bits].
  norm_pos; sch2.
Qed.
(** Big-endian constants narrower than their type differ from what the other targets send, and a direct
    field of variable-size struct type is corrupted. *)
Theorem C22_kotlin_refuted : exists fs1 fs2 vs2,
  wf_struct fs1 /\ wf_struct fs2 /\ fits_fields fs2 vs2 /\
  (forall c, go_ok c fs1) /\ (forall c, encode c fs1 [] = Ok [1; 12]) /\ (forall arith known repl, lang_encode (LKt arith known repl) fs1 [] = Ok [18; 12]) /\
  (forall c, encode c fs2 vs2 = Ok [1; 65; 0; 0; 7]) /\
  (forall arith known repl, lang_encode (LKt arith known repl) fs2 vs2 = Ok [1; 7; 0; 0; 0]).
Proof.
  exists (FConst (BUint 16) 12 true 300 (FVoid 4 FNil)),
    (FOne (EStruct (FOne (EBasic (BUint 8)) 8 false (FOne EString (-1) false FNil))) 8 false (FOne (EBasic (BUint 8)) 8 false FNil)),
    [VStruct [VNum 1; VStr [65]]; VNum 7].
  split; [unfold wf_struct; cbn; sch|]. split; [unfold wf_struct; cbn; sch|].
  split; [cbn; sch; apply ex_bytes_ok; reflexivity|]. split; [intros; cbn; sch|].
  repeat (split; [intros; vm_compute; reflexivity|]). intros; vm_compute; reflexivity.
Qed.

(** ** C48: JavaScript strings
    Independent specification: the code points of a UTF-16 string and their standard UTF-8 bytes. *)
Fixpoint code_points (us : list Z) : list Z :=
  match us with
  | [] => []
  | u :: r =>
      if (55296 <=? u) && (u <? 56320) then
        match r with
        | v :: r' => (65536 + (u - 55296) * 1024 + (v - 56320)) :: code_points r'
        | [] => []
        end
      else u :: code_points r
  end.
Definition utf8_char (c : Z) : list Z :=
  if c <? 128 then [c]
  else if c <? 2048 then [192 + c / 64; 128 + c mod 64]
  else if c <? 65536 then [224 + c / 4096; 128 + (c / 64) mod 64; 128 + c mod 64]
  else [240 + c / 262144; 128 + (c / 4096) mod 64; 128 + (c / 64) mod 64; 128 + c mod 64].

Theorem C48_js_string_utf8 : forall us t, utf16_ok us = true ->
  js_utf8 us = flat_map utf8_char (code_points us) /\
  js_utf8_count us = zlen (js_utf8 us) /\
  utf8_ok (js_utf8 us) = true /\ bytes_ok (js_utf8 us) /\
  (~ In 0 us -> ~ In 0 (js_utf8 us) /\ js_utf8_decode (js_utf8 us ++ 0 :: t) = (us, zlen (js_utf8 us))).
Proof.
  intros us t U. split; [|split; [apply js_count_len|split; [now apply js_utf8_wf|split; [now apply js_utf8_bytes|
    intros N; split; [now apply js_utf8_nonul|now apply js_dec_enc]]]]].
  clear t. revert us U. apply (utf16_ind (fun us => js_utf8 us = flat_map utf8_char (code_points us))).
  - reflexivity.
  - intros u r Hu _ IH. cbn [code_points].
    assert (E : (55296 <=? u) && (u <? 56320) = false)
      by (destruct (Z.leb_spec 55296 u), (Z.ltb_spec u 56320); try reflexivity; lia).
    rewrite E. cbn [flat_map]. rewrite <- IH. unfold utf8_char.
    destruct (Z.ltb_spec u 128); [rewrite js_utf8_1 by lia; reflexivity|].
    destruct (Z.ltb_spec u 2048); [rewrite js_utf8_2 by lia; reflexivity|].
    destruct (Z.ltb_spec u 65536); [|lia]. rewrite js_utf8_3 by lia. reflexivity.
  - intros u v r Hu Hv _ IH. cbn [code_points].
    assert (E : (55296 <=? u) && (u <? 56320) = true)
      by (destruct (Z.leb_spec 55296 u), (Z.ltb_spec u 56320); try reflexivity; lia).
    rewrite E. cbn [flat_map]. rewrite <- IH, js_utf8_4 by lia. cbv zeta.
    replace (65536 + (u mod 1024 * 1024 + v mod 1024)) with (65536 + (u - 55296) * 1024 + (v - 56320)) by lia.
    unfold utf8_char. set (c := 65536 + (u - 55296) * 1024 + (v - 56320)).
    assert (65536 <= c) by (unfold c; lia).
    destruct (Z.ltb_spec c 128); [lia|]. destruct (Z.ltb_spec c 2048); [lia|]. destruct (Z.ltb_spec c 65536); [lia|]. reflexivity.
Qed.
(** Any well-formed UTF-8 another target sent is read as the string that re-encodes to it. *)
Theorem C48_js_string_from_utf8 : forall l t, utf8_ok l = true -> ~ In 0 l ->
  exists us, js_utf8_decode (l ++ 0 :: t) = (us, zlen l) /\ utf16_ok us = true /\ ~ In 0 us /\ js_utf8 us = l.
Proof. exact js_enc_dec. Qed.
Example C48_instance : utf16_ok [104; 233; 8364; 55357; 56832] = true /\
  js_utf8 [104; 233; 8364; 55357; 56832] = [104; 195; 169; 226; 130; 172; 240; 159; 152; 128] /\
  js_utf8_decode ([104; 195; 169; 226; 130; 172; 240; 159; 152; 128] ++ [0; 7]) = ([104; 233; 8364; 55357; 56832], 10).
Proof. repeat split; vm_compute; reflexivity. Qed.
(** A lone surrogate is not preserved. *)
Theorem C48_js_lone_surrogate_refuted : exists us, utf16_ok us = false /\ ~ In 0 us /\
  exists us' k, js_utf8_decode (js_utf8 us ++ [0]) = (us', k) /\ us' <> us.
Proof.
  exists [56832; 65]. split; [reflexivity|]. split; [intros [|[|[]]]; discriminate|].
  do 2 eexists. split; [vm_compute; reflexivity|discriminate].
Qed.
