(** Theorems about the Go target: C01-C17, C39, C40.  Each is followed by a concrete instance. *)
From Coq Require Import ZArith List Lia Bool.
From Verif Require Import Base BaseProofs Schema SpecWire GoModel GoBitProofs GoEncProofs GoEncMain GoDecProofs GoRound GoPrefix GoCore GoConst GoDirect.
Import ListNotations.
Open Scope Z_scope.

(** ** A non-trivial running example
    struct Inner { bytes b; int16 t<12b>(big); uint8 u<4b> }
    struct Demo { uint16 a[11b] (big); const uint8 5 bits = 21; void 4 bits; int32 x[12b];
                  uint8<3> arr[12b]; enum e(4b); string s; Inner<2> ins; bool<8> flags[8b] } *)
Definition ex_inner : fields :=
  FOne EBytes (-1) false (FOne (EBasic (BInt 16)) 12 true (FOne (EBasic (BUint 8)) 4 false FNil)).
Definition ex_fs : fields :=
  FOne (EBasic (BUint 16)) 11 true
 (FConst (BUint 8) 5 false 21
 (FVoid 4
 (FOne (EBasic (BInt 32)) 12 false
 (FArr (EBasic (BUint 8)) 3 12 false
 (FOne (EEnum 4) 4 false
 (FOne EString (-1) false
 (FArr (EStruct ex_inner) 2 (-1) false
 (FArr (EBasic BBool) 8 8 false FNil)))))))).
Definition ex_vs : list val :=
  [VNum 1234; VNum (-5); VArr [VNum 1; VNum 15; VNum 7]; VNum 9; VStr [104; 105];
   VArr [VStruct [VStr [1; 2; 3]; VNum (-2048); VNum 15]; VStruct [VStr (repeat 7 200); VNum 2047; VNum 0]];
   VArr [VNum 1; VNum 0; VNum 1; VNum 1; VNum 0; VNum 0; VNum 1; VNum 0]].
Definition ex_c1 : cfg := {| unroll := 4; sx := SxDefault |}.
Definition ex_c2 : cfg := {| unroll := -1; sx := SxArith |}.
Definition ex_buf : list Z := repeat 255 400.

Ltac sch := repeat match goal with
  | |- _ /\ _ => split
  | |- True => exact I
  | |- exists eb, _ <= eb <= 1 /\ _ => exists 1
  | |- exists eb, _ <= eb <= 8 /\ 8 = _ => exists 1
  | |- exists eb, _ <= eb <= 8 /\ 12 = _ => exists 4
  | |- Forall _ [] => constructor
  | |- Forall _ (_ :: _) => constructor
  | |- ~ (_ \/ _) => intros [?|?]
  | |- ~ False => intros []
  | |- received _ _ _ _ => apply received_simple; [cbn; lia|auto|lia|intros ? [=]; subst; auto; right; lia]
  | |- _ => lia || reflexivity || (cbn; lia) || congruence
  end.
Lemma ex_wf : wf_struct ex_fs.
Proof. unfold wf_struct, ex_fs, ex_inner; cbn; sch. Qed.
Lemma ex_nd : nd_fields ex_fs.
Proof. cbn; sch. Qed.
Lemma ex_co : consts_ok ex_fs.
Proof. cbn; sch. Qed.
Lemma ex_go c : go_ok c ex_fs.
Proof. cbn; sch. Qed.
Lemma ex_bytes_ok l : forallb (fun b => (0 <=? b) && (b <? 256)) l = true -> bytes_ok l.
Proof.
  intros H. apply Forall_forall. intros x Hx. rewrite forallb_forall in H. specialize (H x Hx).
  apply andb_true_iff in H as (H1 & H2). apply Z.leb_le in H1. apply Z.ltb_lt in H2. lia.
Qed.
Lemma ex_fits : fits_fields ex_fs ex_vs.
Proof.
  unfold ex_vs. set (big := repeat 7 200). cbn. sch; try (apply ex_bytes_ok; reflexivity).
Qed.
Lemma ex_bufok : bytes_ok ex_buf.
Proof. apply ex_bytes_ok; reflexivity. Qed.

(** ** C01: round trip *)
Theorem C01_go_roundtrip : forall c1 c2 fs vs buf,
  wf_struct fs -> nd_fields fs -> consts_ok fs -> go_ok c1 fs -> go_ok c2 fs ->
  fits_fields fs vs -> bytes_ok buf -> encode_size fs vs <= zlen buf ->
  exists buf' n, encode_to c1 fs vs buf = Ok (buf', n) /\ decode c2 fs buf' = Ok (vs, n).
Proof.
  intros c1 c2 fs vs buf W Nd Co G1 G2 F Hb Hl.
  pose proof (fits_storable_struct fs vs W F) as S.
  destruct (encode_to_ok c1 fs vs buf W G1 S Hb Hl) as (b & E & O).
  exists b, (encode_size fs vs). split; auto.
  destruct (decode_matches c2 fs vs b W Nd G2 Co (overlay_bytes _ _ _ _ O) S) as (_ & D).
  { eapply encode_to_matches; eauto. }
  rewrite D. destruct W as (W & _). rewrite (proj2 norm_fits fs 0 vs W F). reflexivity.
Qed.
Example C01_instance : exists buf' n,
  encode_to ex_c1 ex_fs ex_vs ex_buf = Ok (buf', n) /\ decode ex_c2 ex_fs buf' = Ok (ex_vs, n) /\ n = 220.
Proof.
  destruct (C01_go_roundtrip ex_c1 ex_c2 ex_fs ex_vs ex_buf ex_wf ex_nd ex_co (ex_go _) (ex_go _) ex_fits ex_bufok) as (b & n & E & D).
  { vm_compute. discriminate. }
  exists b, n. split; auto. split; auto.
  assert (H : exists b', encode_to ex_c1 ex_fs ex_vs ex_buf = Ok (b', 220)) by (eexists; vm_compute; reflexivity).
  destruct H as (b' & H). rewrite H in E. congruence.
Qed.

(** ** C02: the layout.  The bits of the buffer after EncodeTo are those of the wire image, laid
    over the previous content, and the reported size is the image's length. *)
Theorem C02_go_layout : forall c fs vs buf,
  wf_struct fs -> go_ok c fs -> storable_fields fs vs -> bytes_ok buf ->
  zlen (image_fields fs vs) <= 8 * zlen buf ->
  exists buf' n, encode_to c fs vs buf = Ok (buf', n) /\ bytes_ok buf' /\
    8 * n = zlen (image_fields fs vs) /\
    forall k, 0 <= k < 8 * zlen buf ->
      bitat buf' k = match onth (image_fields fs vs) k with Some (Some b) => b | _ => bitat buf k end.
Proof.
  intros c fs vs buf W G S Hb Hl. destruct (encode_size_image fs vs W S) as (E1 & _).
  destruct (encode_to_ok c fs vs buf W G S Hb ltac:(lia)) as (b & E & L & B & H).
  exists b, (encode_size fs vs). split; auto. split; auto. split; auto.
  intros k Hk. rewrite H by auto. now rewrite Z.sub_0_r.
Qed.
Example C02_instance : storable_fields ex_fs ex_vs /\ zlen (image_fields ex_fs ex_vs) = 8 * 220 /\
  firstn 11 (image_fields ex_fs ex_vs) =
    map Some [false; true; false; true; true; false; false; true; false; true; false].
Proof. split; [apply (fits_storable_struct _ _ ex_wf ex_fits)|]. split; reflexivity. Qed.

(** ** C03: nothing else is touched. *)
Theorem C03_go_frame : forall c fs vs buf buf' n,
  wf_struct fs -> go_ok c fs -> storable_fields fs vs -> bytes_ok buf ->
  zlen (image_fields fs vs) <= 8 * zlen buf ->
  encode_to c fs vs buf = Ok (buf', n) ->
  length buf' = length buf /\
  skipn (Z.to_nat n) buf' = skipn (Z.to_nat n) buf /\
  forall k, onth (image_fields fs vs) k = Some None -> bitat buf' k = bitat buf k.
Proof.
  intros c fs vs buf buf' n W G S Hb Hl E. destruct (encode_size_image fs vs W S) as (E1 & _).
  destruct (encode_to_ok c fs vs buf W G S Hb ltac:(lia)) as (b & E' & L & B & H).
  rewrite E in E'. injection E' as <- ->. split; auto. split.
  - apply buf_ext; auto using bytes_ok_skipn; [rewrite !skipn_length; lia|].
    pose proof (encode_size_nonneg fs vs W S).
    intros k Hk. rewrite zlen_skipn in Hk. rewrite !bitat_skipn by lia. unfold zlen in *. rewrite H by lia.
    rewrite onth_None by (right; unfold zlen; lia). reflexivity.
  - intros k Ek. pose proof (onth_Some _ _ _ Ek). rewrite H by lia. rewrite Z.sub_0_r, Ek. reflexivity.
Qed.
Example C03_instance : onth (image_fields ex_fs ex_vs) 17 = Some None.
Proof. reflexivity. Qed.

(** ** C04: EncodeSize is exact, Encode never panics. *)
Theorem C04_go_encode_size : forall c fs vs,
  wf_struct fs -> go_ok c fs -> storable_fields fs vs ->
  (forall buf, bytes_ok buf -> encode_size fs vs <= zlen buf ->
     exists buf', encode_to c fs vs buf = Ok (buf', encode_size fs vs)) /\
  exists out, encode c fs vs = Ok out /\ zlen out = encode_size fs vs.
Proof.
  intros c fs vs W G S. split.
  - intros buf Hb Hl. destruct (encode_to_ok c fs vs buf W G S Hb Hl) as (b & E & _). eauto.
  - destruct (encode_ok c fs vs W G S) as (b & E & _ & L & _). eauto.
Qed.
Example C04_instance : encode_size ex_fs ex_vs = 220 /\
  encode_size (FOne EBytes (-1) false FNil) [VStr (repeat 1 128)] = 130.
Proof. split; reflexivity. Qed.

(** A buffer that is too short makes EncodeTo panic or not, but Encode allocates exactly enough and
    one byte less would not do for the last byte of a message ending in a fixed field. *)

(** ** C05: DecodeSize ignores what follows. *)
Theorem C05_go_decode_size : forall c fs vs msg extra,
  wf_struct fs -> nd_fields fs -> go_ok c fs -> storable_fields fs vs -> bytes_ok extra ->
  encode c fs vs = Ok msg ->
  decode_size fs (msg ++ extra) = zlen msg.
Proof.
  intros c fs vs msg extra W Nd G S Hx E.
  destruct (encode_ok c fs vs W G S) as (b & E' & B & L & O). rewrite E in E'. injection E' as <-.
  pose proof (encode_size_image fs vs W S) as (E1 & E2). pose proof (encode_size_nonneg fs vs W S).
  assert (M : matches (msg ++ extra) 0 (image_fields fs vs)).
  { apply matches_trailing; [lia|]. eapply encode_to_matches; eauto. rewrite zlen_repeat. lia. }
  assert (Hb : bytes_ok (msg ++ extra)) by (apply bytes_ok_app; auto).
  destruct W as (Hwf & H8).
  pose proof (proj2 dsize_match fs vs 0 0 _ Hwf Nd S ltac:(lia) ltac:(lia) Hb M) as D.
  rewrite (decode_size_of fs _ _ D); auto; [lia|]. destruct M as (Lm & _). lia.
Qed.
Example C05_instance : forall extra, bytes_ok extra -> exists msg, encode ex_c1 ex_fs ex_vs = Ok msg /\
  decode_size ex_fs (msg ++ extra) = 220.
Proof.
  intros extra Hx. destruct (encode_ok ex_c1 ex_fs ex_vs ex_wf (ex_go _) (fits_storable_struct _ _ ex_wf ex_fits)) as (b & E & _ & L & _).
  exists b. split; auto.
  rewrite (C05_go_decode_size ex_c1 ex_fs ex_vs b extra ex_wf ex_nd (ex_go _) (fits_storable_struct _ _ ex_wf ex_fits) Hx E).
  exact L.
Qed.

(** ** C06: truncated messages. *)
Theorem C06_go_decode_size_prefix : forall c fs vs msg m,
  wf_struct fs -> nd_fields fs -> go_ok c fs -> storable_fields fs vs ->
  encode c fs vs = Ok msg -> zlen msg <= max_int -> (m < length msg)%nat ->
  exists r, decode_size fs (firstn m msg) = - r /\ Z.of_nat m < r <= zlen msg.
Proof.
  intros c fs vs msg m W Nd G S E Hmax Hm.
  pose proof (C05_go_decode_size c fs vs msg [] W Nd G S ltac:(constructor) E) as D. rewrite app_nil_r in D.
  destruct (encode_ok c fs vs W G S) as (b & E' & B & L & O). rewrite E in E'. injection E' as <-.
  pose proof (decode_size_prefix fs msg (zlen msg) m W Nd B Hmax D (zlen_nonneg _)) as P.
  destruct (Z.ltb_spec (Z.of_nat m) (zlen msg)); [auto|unfold zlen in *; lia].
Qed.
Example C06_instance : exists msg, encode ex_c1 ex_fs ex_vs = Ok msg /\ length msg = 220%nat /\
  map (fun m => decode_size ex_fs (firstn m msg)) [0; 6; 7; 9; 20; 100; 219; 220]%nat = [-7; -7; -8; -10; -217; -217; -220; 220].
Proof. eexists. split; [vm_compute; reflexivity|]. split; vm_compute; reflexivity. Qed.

(** ** C07: no panic on any input. *)
Theorem C07_go_decode_no_panic : forall c fs data,
  wf_struct fs -> nd_fields fs -> go_ok c fs -> bytes_ok data ->
  decode c fs data <> Panic.
Proof.
  intros c fs data W Nd G Hb. destruct (decode_rdec c fs data W Nd G Hb) as [(_ & ->)|(o & _ & _ & _ & -> & S)]; [discriminate|].
  destruct (rdec_fields _ _ _ _ _) as [[vs o1]| |]; cbn [bind]; try discriminate. contradiction.
Qed.

(** ** C08: what a successful Decode consumes. *)
Theorem C08_go_decode_consumes : forall c fs data vs n,
  wf_struct fs -> nd_fields fs -> go_ok c fs -> bytes_ok data ->
  decode c fs data = Ok (vs, n) -> n = decode_size fs data /\ 0 <= n <= zlen data.
Proof.
  intros c fs data vs n W Nd G Hb E. destruct (decode_rdec c fs data W Nd G Hb) as [(_ & X)|(o & _ & D & R & X & S)]; [congruence|].
  rewrite X in E. destruct (rdec_fields _ _ _ _ _) as [[vs' o1]| |]; cbn [bind] in E; try discriminate.
  cbn in S. subst o1. injection E as <- <-. lia.
Qed.
(** Conversely a message DecodeSize rejects is rejected by Decode. *)
Theorem C08_go_decode_fails_short : forall c fs data, decode_size fs data < 0 -> decode c fs data = Fail.
Proof. intros c fs data H. unfold decode. destruct (Z.ltb_spec (decode_size fs data) 0); [auto|lia]. Qed.
Example C08_instance : exists data, bytes_ok data /\ zlen data = 300 /\
  exists vs, decode ex_c1 ex_fs data = Ok (vs, 14) /\ decode ex_c1 ex_fs (firstn 13 data) = Fail.
Proof.
  exists ([0;168] ++ repeat 0 298).
  split; [apply ex_bytes_ok; reflexivity|]. split; [reflexivity|]. eexists. split; vm_compute; reflexivity.
Qed.

(** ** C09: schemas with a directly nested struct of dynamic size are not handled by DecodeSize.
    struct Inner { string s; }  struct Outer { Inner d; bytes b; } *)
Definition c09_inner : fields := FOne EString (-1) false FNil.
Definition c09_outer : fields := FOne (EStruct c09_inner) 0 false (FOne EBytes (-1) false FNil).
(** The compiler accepts it and the message encodes, but Decode rejects its own encoding ... *)
Theorem C09_go_direct_dynamic_struct_refuted : exists fs vs msg,
  wf_struct fs /\ consts_ok fs /\ (forall c, go_ok c fs) /\ fits_fields fs vs /\
  (forall c, encode c fs vs = Ok msg) /\ (forall c, decode c fs msg = Fail) /\ decode_size fs msg < 0.
Proof.
  exists c09_outer, [VStruct [VStr [200; 1]]; VStr [5]], [200; 1; 0; 1; 5].
  split; [unfold wf_struct, c09_outer, c09_inner; cbn; sch|]. split; [cbn; sch|]. split; [intros; cbn; sch|].
  split; [cbn; sch; apply ex_bytes_ok; reflexivity|].
  split; [intros c; vm_compute; reflexivity|]. split; [intros c; vm_compute; reflexivity|]. vm_compute. reflexivity.
Qed.
(** ... and DecodeSize accepts a truncated message, on which Decode panics. *)
Theorem C09_go_direct_dynamic_struct_panic_refuted : exists fs data,
  wf_struct fs /\ (forall c, go_ok c fs) /\ bytes_ok data /\ 0 <= decode_size fs data /\
  (forall c, decode c fs data = Panic).
Proof.
  exists c09_outer, [2; 0; 9]. split; [unfold wf_struct, c09_outer, c09_inner; cbn; sch|].
  split; [intros; cbn; sch|]. split; [apply ex_bytes_ok; reflexivity|].
  split; [vm_compute; discriminate|]. intros c. vm_compute. reflexivity.
Qed.

(** A complete message is nevertheless never misread: whatever the buffer held before and whatever follows the
    message, Decode returns the encoded value and the length EncodeTo reported, or -1; it does not panic. *)
Theorem C09_go_direct_never_wrong : forall c1 c2 fs vs buf,
  wf_struct fs -> consts_ok fs -> go_ok c1 fs -> go_ok c2 fs ->
  fits_fields fs vs -> bytes_ok buf -> encode_size fs vs <= zlen buf ->
  exists buf' n, encode_to c1 fs vs buf = Ok (buf', n) /\
    (decode c2 fs buf' = Ok (vs, n) \/ decode c2 fs buf' = Fail).
Proof.
  intros c1 c2 fs vs buf W Co G1 G2 F Hb Hl.
  pose proof (fits_storable_struct fs vs W F) as S.
  destruct (encode_to_ok c1 fs vs buf W G1 S Hb Hl) as (b & E & O).
  exists b, (encode_size fs vs). split; auto.
  pose proof (encode_to_matches fs vs buf b W S Hl O) as M.
  destruct (decode_direct c2 fs vs b W G2 Co (overlay_bytes _ _ _ _ O) S M) as [D|(D & _)]; auto.
  left. rewrite D. destruct W as (W & _). rewrite (proj2 norm_fits fs 0) by auto. reflexivity.
Qed.
(** When nothing of variable size follows the nested struct, the round trip is exact; DecodeSize then reports
    the message length less the nested struct's bytes. *)
Theorem C09_go_direct_last_roundtrip : forall c1 c2 fs vs buf,
  wf_struct fs -> lone_fields fs -> consts_ok fs -> go_ok c1 fs -> go_ok c2 fs ->
  fits_fields fs vs -> bytes_ok buf -> encode_size fs vs <= zlen buf ->
  exists buf' n, encode_to c1 fs vs buf = Ok (buf', n) /\ decode c2 fs buf' = Ok (vs, n) /\
    decode_size fs buf' = n - hidden_bytes fs vs /\ 0 <= decode_size fs buf'.
Proof.
  intros c1 c2 fs vs buf W Lo Co G1 G2 F Hb Hl.
  pose proof (fits_storable_struct fs vs W F) as S.
  destruct (encode_to_ok c1 fs vs buf W G1 S Hb Hl) as (b & E & O).
  exists b, (encode_size fs vs). split; auto.
  pose proof (encode_to_matches fs vs buf b W S Hl O) as M.
  split; [|apply decode_size_direct; auto; eapply overlay_bytes; eauto].
  destruct (decode_direct c2 fs vs b W G2 Co (overlay_bytes _ _ _ _ O) S M) as [D|(_ & N)]; [|contradiction].
  rewrite D. destruct W as (W & _). rewrite (proj2 norm_fits fs 0) by auto. reflexivity.
Qed.
(** The class is wider than that of C01: struct Outer { bytes b; Inner d; uint8 x; } *)
Definition c09_last : fields :=
  FOne EBytes (-1) false (FOne (EStruct c09_inner) 0 false (FOne (EBasic (BUint 8)) 8 false FNil)).
Example C09_instance : wf_struct c09_last /\ lone_fields c09_last /\ ~ nd_fields c09_last /\
  (forall c, go_ok c c09_last) /\
  fits_fields c09_last [VStr [7]; VStruct [VStr [200; 1]]; VNum 9] /\
  encode ex_c1 c09_last [VStr [7]; VStruct [VStr [200; 1]]; VNum 9] = Ok [1; 7; 200; 1; 0; 9] /\
  decode ex_c2 c09_last [1; 7; 200; 1; 0; 9] = Ok ([VStr [7]; VStruct [VStr [200; 1]]; VNum 9], 6) /\
  decode_size c09_last [1; 7; 200; 1; 0; 9] = 3 /\ ~ lone_fields c09_outer.
Proof.
  split; [unfold wf_struct, c09_last, c09_inner; cbn; sch|]. split; [cbn; sch|].
  split; [cbn; intros (_ & _ & H & _); discriminate|]. split; [intros; cbn; sch|].
  split; [cbn; sch; apply ex_bytes_ok; reflexivity|].
  split; [vm_compute; reflexivity|]. split; [vm_compute; reflexivity|]. split; [vm_compute; reflexivity|].
  cbn. intros (_ & H & _). specialize (H eq_refl). discriminate.
Qed.

(** ** C10: -unroll is invisible. *)
Theorem C10_go_unroll_encode : forall c1 c2 fs vs buf,
  wf_struct fs -> go_ok c1 fs -> go_ok c2 fs -> storable_fields fs vs -> bytes_ok buf ->
  encode_size fs vs <= zlen buf ->
  encode_to c1 fs vs buf = encode_to c2 fs vs buf.
Proof.
  intros c1 c2 fs vs buf W G1 G2 S Hb Hl.
  destruct (encode_to_ok c1 fs vs buf W G1 S Hb Hl) as (b1 & -> & O1).
  destruct (encode_to_ok c2 fs vs buf W G2 S Hb Hl) as (b2 & -> & O2).
  rewrite (overlay_fun _ _ _ _ _ O1 O2). reflexivity.
Qed.
Theorem C10_go_unroll_decode : forall c1 c2 fs data,
  wf_struct fs -> nd_fields fs -> go_ok c1 fs -> go_ok c2 fs -> bytes_ok data -> bool_arrays_1bit fs ->
  decode c1 fs data = decode c2 fs data.
Proof.
  intros c1 c2 fs data W Nd G1 G2 Hb B.
  destruct (decode_rdec c1 fs data W Nd G1 Hb) as [(N & ->)|(o & _ & _ & R & -> & _)];
  destruct (decode_rdec c2 fs data W Nd G2 Hb) as [(N' & ->)|(o' & _ & _ & R' & -> & _)]; auto; try lia.
  destruct W as (W & _). rewrite (proj2 rdec_ul fs (use_loop c1) (use_loop c2) 0 0 data 0 W B). reflexivity.
Qed.
Example C10_instance : bool_arrays_1bit ex_fs /\ use_loop ex_c1 8 = true /\ use_loop ex_c2 8 = false.
Proof. split; [cbn; sch; try discriminate|split; reflexivity]. Qed.
(** Without the proviso it is false: bool<5> arr in 8 bits each, bytes other than 0/1. *)
Theorem C10_go_unroll_decode_wide_bool_refuted : exists fs data c1 c2,
  wf_struct fs /\ nd_fields fs /\ go_ok c1 fs /\ go_ok c2 fs /\ bytes_ok data /\
  decode c1 fs data <> decode c2 fs data /\ (exists r, decode c1 fs data = Ok r) /\ (exists r, decode c2 fs data = Ok r).
Proof.
  exists (FArr (EBasic BBool) 5 40 false FNil), [2;0;0;0;0], {| unroll := 4; sx := SxDefault |}, {| unroll := -1; sx := SxDefault |}.
  split; [split; [cbn; split; auto; split; [lia|]; split; auto; exists 8; lia|reflexivity]|].
  split; [cbn; sch|]. split; [cbn; sch|]. split; [cbn; sch|].
  split; [apply ex_bytes_ok; reflexivity|]. split; [vm_compute; discriminate|]. split; eexists; vm_compute; reflexivity.
Qed.

(** ** C11: sign extension. *)
Theorem C11_go_signext : forall w n p u1 u2,
  1 <= n <= w -> (w = 8 \/ w = 16 \/ w = 32 \/ w = 64) -> 0 <= p < 2 ^ n ->
  let r := if p <? 2 ^ (n - 1) then p else p - 2 ^ n in
  (forall s, dec_int {| unroll := u1; sx := s |} w n p = r) /\
  (forall s, loop_dec_value {| unroll := u2; sx := s |} (EBasic (BInt w)) n p = r).
Proof.
  intros w n p u1 u2 Hn Hw Hp r.
  assert (E : sext n p = r) by (unfold sext, r; rewrite Z.mod_small by auto; reflexivity).
  rewrite <- E. split; intros s.
  - apply dec_int_ok; auto.
  - apply loop_int_ok; auto; lia.
Qed.
Theorem C11_go_signext_message : forall u s1 s2 fs data,
  wf_struct fs -> nd_fields fs -> go_ok {| unroll := u; sx := s1 |} fs -> go_ok {| unroll := u; sx := s2 |} fs -> bytes_ok data ->
  decode {| unroll := u; sx := s1 |} fs data = decode {| unroll := u; sx := s2 |} fs data.
Proof.
  intros u s1 s2 fs data W Nd G1 G2 Hb.
  destruct (decode_rdec _ fs data W Nd G1 Hb) as [(N & ->)|(o & _ & _ & R & -> & _)];
  destruct (decode_rdec _ fs data W Nd G2 Hb) as [(N' & ->)|(o' & _ & _ & R' & -> & _)]; auto; lia.
Qed.
Example C11_instance : dec_int {| unroll := 4; sx := SxShift |} 32 12 4091 = -5 /\ dec_int {| unroll := 4; sx := SxArith |} 32 12 4091 = -5 /\
  forall s, wf_struct ex_fs /\ nd_fields ex_fs /\ go_ok {| unroll := 4; sx := s |} ex_fs.
Proof. split; [reflexivity|]. split; [reflexivity|]. intros s. split; [apply ex_wf|]. split; [apply ex_nd|apply ex_go]. Qed.

(** ** C12: helpers = inline statements. *)
Theorem C12_go_helpers : forall w n from z big buf,
  (w = 8 \/ w = 16 \/ w = 32 \/ w = 64) -> 1 <= n <= w -> 0 <= from -> bytes_ok buf -> from + n <= 8 * zlen buf ->
  (exists buf', enc_basic w n big from 0 z buf = Ok buf' /\
     write_field_bits from n (z mod 2 ^ 64) big buf = Ok buf' /\
     dec_pattern w n big from 0 0 buf' = Ok (z mod 2 ^ n) /\
     read_field_bits from n big buf' = Ok (z mod 2 ^ n)) /\
  (exists p, dec_pattern w n big from 0 0 buf = Ok p /\ read_field_bits from n big buf = Ok p /\ value_at buf from n big p).
Proof.
  intros w n from z big buf Hw Hn Hf Hb Hl. split.
  - destruct (enc_basic_overlay w n big from 0 z buf) as (b & E & O); auto; try lia.
    destruct (write_field_bits_overlay from n z big buf) as (b2 & E2 & O2); auto; try lia.
    replace (8 * 0 + from) with from in O by lia.
    pose proof (overlay_fun _ _ _ _ _ O O2) as X. subst b2. pose proof (overlay_bytes _ _ _ _ O) as B.
    pose proof (overlay_length _ _ _ _ O) as L.
    exists b. split; auto. split; auto.
    rewrite dec_pattern_ok, read_field_bits_ok by (auto; lia).
    replace (8 * 0 + from) with from by lia.
    rewrite (read_value_matches b from n big z); [auto|lia|].
    eapply overlay_matches; eauto. rewrite zlen_map, zlen_field_bits; lia.
  - exists (read_value buf from n big). rewrite dec_pattern_ok, read_field_bits_ok by (auto; lia).
    replace (8 * 0 + from) with from by lia. split; auto. split; auto. apply read_value_at; lia.
Qed.
Example C12_instance : enc_basic 16 11 true 3 0 1234 [255;255;255] = Ok [215; 212; 255] /\
  write_field_bits 3 11 1234 true [255;255;255] = Ok [215; 212; 255].
Proof. split; vm_compute; reflexivity. Qed.

(** ** C13: the length prefix. *)
Fixpoint base128 (l : list Z) : Z := match l with [] => 0 | b :: t => b mod 128 + 128 * base128 t end.
Lemma varint_fuel_canonical f : forall n, 0 <= n < 128 * 128 ^ Z.of_nat f ->
  base128 (varint_fuel f n) = n /\
  (forall i, (S i < length (varint_fuel f n))%nat -> 128 <= nth i (varint_fuel f n) 0 < 256) /\
  0 <= last (varint_fuel f n) 0 < 128 /\
  ((1 < length (varint_fuel f n))%nat -> last (varint_fuel f n) 0 <> 0).
Proof.
  induction f; intros n Hn; cbn [varint_fuel].
  - cbn [base128 length last]. cbn in Hn. split; [|split; [|split]]; try lia.
  - replace (Z.of_nat (S f)) with (Z.of_nat f + 1) in Hn by lia. rewrite Z.pow_add_r in Hn by lia. change (128 ^ 1) with 128 in Hn.
    destruct (Z.ltb_spec n 128).
    + cbn [base128 length last]. split; [|split; [|split]]; try lia.
    + destruct (IHf (n / 128)) as (H1 & H2 & H3 & H4); [lia|].
      pose proof (varint_fuel_nonempty f (n / 128)) as Ne.
      destruct (varint_fuel f (n / 128)) as [|x l] eqn:E; [congruence|].
      cbn [base128] in *. split; [lia|]. split; [|split].
      * intros i Hi. destruct i; cbn [nth]; [lia|]. apply H2. cbn [length] in Hi |- *. lia.
      * exact H3.
      * intros _. change (last (n mod 128 + 128 :: x :: l) 0) with (last (x :: l) 0).
        destruct l; [cbn in *; lia|]. apply H4. cbn; lia.
Qed.
Theorem C13_varint_canonical : forall n, 0 <= n < 2 ^ 63 ->
  let p := varint n in
  base128 p = n /\ (forall i, (S i < length p)%nat -> 128 <= nth i p 0 < 256) /\ 0 <= last p 0 < 128 /\
  ((1 < length p)%nat -> last p 0 <> 0).
Proof.
  intros n H. apply varint_fuel_canonical. split; [lia|]. apply Z.lt_trans with (2 ^ 63); [lia|reflexivity].
Qed.
Theorem C13_go_bytes_field : forall bs from_byte off buf,
  bytes_ok bs -> zlen bs < 2 ^ 63 -> 0 <= from_byte -> 0 <= off -> bytes_ok buf ->
  off + from_byte + zlen (varint (zlen bs)) + zlen bs <= zlen buf ->
  exists buf' o, enc_bytes from_byte bs off buf = Ok (buf', o) /\
    o = off + bytes_size bs /\ bytes_size bs = zlen (varint (zlen bs)) + zlen bs /\
    overlay buf (8 * (off + from_byte)) (raw_bytes (varint (zlen bs) ++ bs)) buf' /\
    dsize_bytes buf' from_byte off = DOff o /\ dec_bytes buf' from_byte off = Ok (VStr bs, o).
Proof.
  intros bs fb off buf Hbs Hl Hf Ho Hb L.
  destruct (enc_bytes_overlay fb bs off buf) as (b & E & O); auto; [rewrite zlen_app; lia|].
  exists b, (off + bytes_size bs). split; auto. split; auto. split; [rewrite bytes_size_ok, zlen_app; auto|]. split; auto.
  apply dsize_bytes_match; eauto using overlay_bytes.
  eapply overlay_matches; eauto; [lia|]. rewrite zlen_raw_bytes, zlen_app. lia.
Qed.
Example C13_instance : varint 300 = [172; 2] /\ varint 127 = [127] /\ varint 128 = [128; 1].
Proof. repeat split; reflexivity. Qed.

(** ** C14: constants. *)
(** Decode rejects every message in which a constant (after any fixed-size fields) differs: the bits of an
    accepted message are those of the constant, reduced to the field's width. *)
Theorem C14_go_constant_checked : forall c pre b n big z post data vs m,
  let fs := fapp pre (FConst b n big z post) in
  wf_struct fs -> nd_fields fs -> go_ok c fs -> bytes_ok data -> fields_dyn pre = false ->
  decode c fs data = Ok (vs, m) -> value_at data (fixed_bits pre) n big (z mod 2 ^ n).
Proof.
  intros c pre b n big z post data vs m fs W Nd G Hb D E.
  destruct (decode_rdec c fs data W Nd G Hb) as [(_ & X)|(o & Do & Dz & R & X & S)]; [congruence|].
  rewrite X in E. destruct (rdec_fields _ _ _ _ _) as [[vs' o1]| |] eqn:Er; cbn [bind] in E; try discriminate.
  destruct W as (W & W8).
  pose proof (proj2 dsize_progress fs 0 0 data W Nd ltac:(lia) ltac:(lia) Hb) as Hp. rewrite Do in Hp. destruct Hp as (Hp & _).
  unfold fs in Er, W. apply rdec_fapp in Er; auto. destruct Er as (vs2 & Er). cbn [rdec_fields] in Er.
  destruct (Z.eqb_spec (const_num b n (read_value data (8 * 0 + (0 + fixed_bits pre)) n big)) z) as [Ez|]; [|discriminate].
  apply wf_fapp in W; auto. cbn [wf_fields] in W. destruct W as (Wb & Hn & Wr).
  pose proof (fixed_bits_nonneg pre). pose proof (fixed_bits_nonneg post).
  assert (Hfx : fixed_bits fs = fixed_bits pre + (n + fixed_bits post)).
  { unfold fs. rewrite fixed_bits_fapp. cbn [fixed_bits]. rewrite if_pos by lia. reflexivity. }
  replace (8 * 0 + (0 + fixed_bits pre)) with (fixed_bits pre) in Ez by lia.
  rewrite <- Ez, const_num_mod by (auto; apply read_value_bound; lia). apply read_value_at; try lia.
Qed.
(** A message whose bits agree with the layout of some value (constants included) is accepted. *)
Theorem C14_go_accepts_image : forall c fs vs data,
  wf_struct fs -> nd_fields fs -> go_ok c fs -> consts_ok fs -> bytes_ok data ->
  fits_fields fs vs -> matches data 0 (image_fields fs vs) ->
  decode c fs data = Ok (vs, encode_size fs vs).
Proof.
  intros c fs vs data W Nd G Co Hb F M. pose proof (fits_storable_struct fs vs W F) as S.
  destruct (decode_matches c fs vs data W Nd G Co Hb S M) as (_ & ->).
  destruct W as (W & _). rewrite (proj2 norm_fits fs 0 vs W F). reflexivity.
Qed.
Example C14_instance : let fs := fapp (FOne (EBasic (BUint 16)) 11 true FNil) (FConst (BUint 8) 5 false 21 FNil) in
  decode ex_c1 fs [154; 170] = Ok ([VNum 1234], 2) /\ decode ex_c1 fs [154; 162] = Fail.
Proof. split; vm_compute; reflexivity. Qed.

(** ** C15: which constants survive a round trip.  The compiler checks neither that a constant
    fits its width nor that a big-endian one is full width (proto_visitor.go:693-868). *)
(** A message is accepted by Decode exactly if every constant of the schema, at any depth, is "received":
    the bits sent for it are those of an n-bit number that reads back as the constant. *)
Theorem C15_go_roundtrip_iff : forall c1 c2 fs vs,
  wf_struct fs -> nd_fields fs -> go_ok c1 fs -> go_ok c2 fs -> storable_fields fs vs ->
  exists msg, encode c1 fs vs = Ok msg /\
    (consts_ok fs -> decode c2 fs msg = Ok (norm_fields fs vs, zlen msg)) /\
    (~ consts_ok fs -> decode c2 fs msg = Fail).
Proof.
  intros c1 c2 fs vs W Nd G1 G2 Hs. destruct (encode_ok c1 fs vs W G1 Hs) as (msg & E & Hb & Hl & O).
  assert (M : matches msg 0 (image_fields fs vs)).
  { pose proof (encode_size_nonneg fs vs W Hs). eapply encode_to_matches; eauto. unfold zlen. rewrite repeat_length. lia. }
  exists msg. split; auto. split.
  - intros Co. destruct (decode_matches c2 fs vs msg W Nd G2 Co Hb Hs M) as (_ & ->). do 2 f_equal. lia.
  - intros Nc. destruct (decode_rdec c2 fs msg W Nd G2 Hb) as [(_ & X)|(o & Do & Dz & R & X & S)]; [exact X|].
    rewrite X. destruct (rdec_fields (use_loop c2) fs 0 0 msg) as [r| |] eqn:Er.
    + exfalso. apply Nc. destruct W as (W & _). eapply (proj2 (rdec_consts (use_loop c2)) fs vs 0 0 msg); eauto; lia.
    + reflexivity.
    + contradiction S.
Qed.
(** In closed form.  Little-endian, or of its type's full width: the constant fits the field... *)
Theorem C15_received_unsigned : forall w n big z, 1 <= n <= w -> (big = false \/ n = w) ->
  received (BUint w) n big z <-> 0 <= z < 2 ^ n.
Proof. exact received_unsigned. Qed.
(** ...as a number of its own type. *)
Theorem C15_received_signed : forall w n big z, 1 <= n <= w -> (big = false \/ n = w) ->
  received (BInt w) n big z <-> 0 <= z < 2 ^ w /\ - 2 ^ (n - 1) <= sext w z < 2 ^ (n - 1).
Proof. exact received_signed. Qed.
(** Big-endian and narrower than its type: only a constant that fits the partial last byte, and only if
    the field has as many bytes as the type; otherwise only 0. *)
Theorem C15_received_narrow_big : forall w n z, wf_basic (BUint w) -> 1 <= n < w ->
  received (BUint w) n true z <-> 0 <= z < 2 ^ (if (n + 7) / 8 =? w / 8 then n mod 8 else 0).
Proof. exact received_narrow_big. Qed.
(** Both kinds at work: 9 in the 12 big-endian bits of a uint16 is received, 300 is not; the signed 8-bit
    constant 0xFD (-3) in 4 bits is, 9 is not. *)
Definition ex_const (z k : Z) : fields :=
  FOne (EBasic (BUint 8)) 8 false
 (FConst (BUint 16) 12 true z (FConst (BInt 8) 4 false k FNil)).
Example C15_instance :
  wf_struct (ex_const 9 253) /\ nd_fields (ex_const 9 253) /\ go_ok ex_c2 (ex_const 9 253) /\ consts_ok (ex_const 9 253) /\
  encode ex_c2 (ex_const 9 253) [VNum 77] = Ok [77; 0; 217] /\ decode ex_c2 (ex_const 9 253) [77; 0; 217] = Ok ([VNum 77], 3) /\
  go_ok ex_c2 (ex_const 300 253) /\ ~ consts_ok (ex_const 300 253) /\
  go_ok ex_c2 (ex_const 9 9) /\ ~ consts_ok (ex_const 9 9) /\
  encode ex_c2 (ex_const 9 9) [VNum 77] = Ok [77; 0; 153] /\ decode ex_c2 (ex_const 9 9) [77; 0; 153] = Fail.
Proof.
  split; [split; [cbn; sch|reflexivity]|]. split; [cbn; sch|]. split; [cbn; sch|]. split.
  { cbn [ex_const consts_ok consts_ok_elem]. split; [exact I|]. split; [apply C15_received_narrow_big; [cbn; lia|lia|vm_compute; split; congruence]|].
    split; [|exact I]. apply C15_received_signed; [lia|auto|]. vm_compute. repeat split; congruence. }
  split; [vm_compute; reflexivity|]. split; [vm_compute; reflexivity|]. split; [cbn; sch|]. split.
  { cbn [ex_const consts_ok consts_ok_elem]. intros (_ & H & _). apply C15_received_narrow_big in H; [|cbn; lia|lia].
    vm_compute in H. destruct H as (_ & H). discriminate. }
  split; [cbn; sch|]. split.
  { cbn [ex_const consts_ok consts_ok_elem]. intros (_ & _ & H & _). apply C15_received_signed in H; [|lia|auto].
    vm_compute in H. destruct H as (_ & _ & H). discriminate. }
  split; vm_compute; reflexivity.
Qed.
(** So the compiler accepts constants that cannot be received. *)
Theorem C15_go_constant_too_wide_refuted : exists fs,
  wf_struct fs /\ nd_fields fs /\ (forall c, go_ok c fs) /\
  exists msg, (forall c, encode c fs [] = Ok msg) /\ (forall c, decode c fs msg = Fail).
Proof.
  exists (FConst (BUint 8) 4 false 100 (FVoid 4 FNil)).
  split; [split; [cbn; sch|reflexivity]|]. split; [cbn; sch|]. split; [intros; cbn; sch|].
  exists [4]. split; intros c; vm_compute; reflexivity.
Qed.
Theorem C15_go_constant_big_endian_refuted : exists fs,
  wf_struct fs /\ nd_fields fs /\ (forall c, go_ok c fs) /\
  (exists n z r, fs = FConst (BUint 16) n true z r /\ 0 <= z < 2 ^ n) /\
  exists msg, (forall c, encode c fs [] = Ok msg) /\ (forall c, decode c fs msg = Fail).
Proof.
  exists (FConst (BUint 16) 12 true 300 (FVoid 4 FNil)).
  split; [split; [cbn; sch|reflexivity]|]. split; [cbn; sch|]. split; [intros; cbn; sch|].
  split; [exists 12, 300, (FVoid 4 FNil); split; [reflexivity|lia]|].
  exists [1; 12]. split; intros c; vm_compute; reflexivity.
Qed.

(** ** C16: decode then encode.  On schemas with one-bit bools and without byte strings (dynamic or
    not), encoding a decoded message over its own bytes changes nothing. *)
Theorem C16_go_decode_encode : forall c1 c2 fs data vs n,
  wf_struct fs -> nd_fields fs -> consts_ok fs -> exact_fields fs -> go_ok c1 fs -> go_ok c2 fs -> bytes_ok data ->
  decode c1 fs data = Ok (vs, n) ->
  fits_fields fs vs /\ encode_size fs vs = n /\ encode_to c2 fs vs data = Ok (data, n).
Proof.
  intros c1 c2 fs data vs n W Nd Co Ex G1 G2 Hb E.
  destruct (decode_rdec c1 fs data W Nd G1 Hb) as [(_ & X)|(o & Do & Dz & R & X & S)]; [congruence|].
  rewrite X in E. destruct (rdec_fields _ _ _ _ _) as [[vs' o1]| |] eqn:Er; cbn [bind] in E; try discriminate.
  injection E as -> <-. pose proof W as (Wf & W8). pose proof (fixed_bits_nonneg fs).
  destruct (proj2 exact_main fs (use_loop c1) 0 0 data o vs o1) as (F & Es & Eo & M); auto; try lia.
  split; auto. pose proof (fits_storable_struct fs vs W F) as Sv.
  pose proof (encode_size_image fs vs W Sv) as (E1 & E2).
  split; [lia|].
  destruct (encode_to_ok c2 fs vs data W G2 Sv Hb) as (b & -> & O); [lia|].
  replace b with data; [do 2 f_equal; lia|].
  destruct O as (L & B & O). apply buf_ext; auto.
  intros k Hk. rewrite O by lia. destruct (onth (image_fields fs vs) (k - 0)) as [[x|]|] eqn:Eo'; auto.
  destruct M as (_ & M). specialize (M _ _ Eo'). rewrite <- M. f_equal. lia.
Qed.
Definition ex_exact : fields :=
  FOne (EBasic (BInt 16)) 11 true (FConst (BUint 8) 5 false 21 (FOne EString (-1) false
 (FArr (EBasic BBool) 8 8 false FNil))).
Example C16_instance : exact_fields ex_exact /\
  decode ex_c1 ex_exact [154; 170; 65; 66; 0; 77; 1] =
    Ok ([VNum (-814); VStr [65; 66]; VArr (map VNum [1;0;1;1;0;0;1;0])], 6) /\
  encode_to ex_c2 ex_exact [VNum (-814); VStr [65; 66]; VArr (map VNum [1;0;1;1;0;0;1;0])] [154; 170; 65; 66; 0; 77; 1]
    = Ok ([154; 170; 65; 66; 0; 77; 1], 6).
Proof. split; [cbn; sch|]. split; vm_compute; reflexivity. Qed.
(** With byte strings it fails: over-long length prefixes are accepted. *)
Theorem C16_go_overlong_length_refuted : exists data vs n buf,
  bytes_ok data /\ decode ex_c1 (FOne EBytes (-1) false FNil) data = Ok (vs, n) /\
  encode_to ex_c1 (FOne EBytes (-1) false FNil) vs data = Ok (buf, 2) /\ buf <> data /\ n = 3.
Proof.
  exists [129; 0; 7]. do 3 eexists. split; [apply ex_bytes_ok; reflexivity|].
  split; [vm_compute; reflexivity|]. split; [vm_compute; reflexivity|]. split; [discriminate|reflexivity].
Qed.

(** ** C17: out-of-range values are truncated. *)
Theorem C17_go_truncation : forall c1 c2 fs vs buf,
  wf_struct fs -> nd_fields fs -> consts_ok fs -> go_ok c1 fs -> go_ok c2 fs ->
  storable_fields fs vs -> bytes_ok buf -> encode_size fs vs <= zlen buf ->
  exists buf' n, encode_to c1 fs vs buf = Ok (buf', n) /\ decode c2 fs buf' = Ok (norm_fields fs vs, n).
Proof.
  intros c1 c2 fs vs buf W Nd Co G1 G2 S Hb Hl.
  destruct (encode_to_ok c1 fs vs buf W G1 S Hb Hl) as (b & E & O).
  exists b, (encode_size fs vs). split; auto.
  destruct (decode_matches c2 fs vs b W Nd G2 Co (overlay_bytes _ _ _ _ O) S) as (_ & D); auto.
  eapply encode_to_matches; eauto.
Qed.
Example C17_instance : let fs := FOne (EBasic (BUint 16)) 11 true (FOne (EBasic (BInt 8)) 5 false FNil) in
  storable_fields fs [VNum 65535; VNum 16] /\ norm_fields fs [VNum 65535; VNum 16] = [VNum 2047; VNum (-16)].
Proof. split; [cbn; sch|reflexivity]. Qed.

(** ** C39: messages can be concatenated and read back one after the other. *)
Fixpoint read_stream (c : cfg) (fs : fields) (k : nat) (data : list Z) : res (list (list val) * list Z) :=
  match k with
  | O => Ok ([], data)
  | S k' =>
      do (vs, n) <- decode c fs data;
      do (rest, tl) <- read_stream c fs k' (skipn (Z.to_nat n) data);
      Ok (vs :: rest, tl)
  end.
Theorem C39_go_stream : forall c1 c2 fs msgs encs extra,
  wf_struct fs -> nd_fields fs -> consts_ok fs -> go_ok c1 fs -> go_ok c2 fs ->
  Forall (fits_fields fs) msgs -> Forall2 (fun vs m => encode c1 fs vs = Ok m) msgs encs -> bytes_ok extra ->
  read_stream c2 fs (length msgs) (concat encs ++ extra) = Ok (msgs, extra).
Proof.
  intros c1 c2 fs msgs encs extra W Nd Co G1 G2 F E Hx. revert F.
  assert (HB : forall msgs encs, Forall (fits_fields fs) msgs -> Forall2 (fun vs m => encode c1 fs vs = Ok m) msgs encs -> bytes_ok (concat encs)).
  { clear -W G1. intros msgs encs F E. revert F. induction E; intros F; cbn [concat]; [constructor|].
    inversion F; subst. apply bytes_ok_app. split; auto.
    destruct (encode_ok c1 fs x W G1 (fits_storable_struct _ _ W H2)) as (b & E' & B & _). congruence. }
  induction E as [|vs m msgs encs Em E IH]; intros F; cbn [length read_stream concat app]; auto.
  inversion F; subst. pose proof (fits_storable_struct _ _ W H1) as Sv.
  destruct (encode_ok c1 fs vs W G1 Sv) as (b & E' & B & L & O). rewrite Em in E'. injection E' as <-.
  rewrite <- app_assoc.
  assert (M : matches (m ++ concat encs ++ extra) 0 (image_fields fs vs)).
  { apply matches_trailing; [lia|]. eapply encode_to_matches; eauto. rewrite zlen_repeat.
    pose proof (encode_size_nonneg fs vs W Sv). lia. }
  destruct (decode_matches c2 fs vs (m ++ concat encs ++ extra) W Nd G2 Co) as (_ & ->); auto.
  { apply bytes_ok_app. split; auto. apply bytes_ok_app. split; eauto. }
  cbn [bind]. rewrite <- L. replace (Z.to_nat (zlen m)) with (length m) by (unfold zlen; lia).
  rewrite skipn_app_len, IH by auto. cbn [bind].
  destruct W as (W & _). rewrite (proj2 norm_fits fs 0 vs W H1). reflexivity.
Qed.
Example C39_instance : exists m, encode ex_c1 ex_fs ex_vs = Ok m /\
  read_stream ex_c2 ex_fs 2 (concat [m; m] ++ [1; 2]) = Ok ([ex_vs; ex_vs], [1; 2]).
Proof. eexists. split; [vm_compute; reflexivity|]. vm_compute; reflexivity. Qed.

(** ** C40: a reader that follows DecodeSize's hints reads exactly one message.
    [have] bytes of the incoming stream are in the reader's buffer; while DecodeSize returns -r, the
    reader fetches bytes until it has r. *)
Fixpoint follow_hints (fs : fields) (stream : list Z) (fuel : nat) (have : Z) : option Z :=
  match fuel with
  | O => None
  | S f =>
      let r := decode_size fs (firstn (Z.to_nat have) stream) in
      if r <? 0 then follow_hints fs stream f (- r) else if r =? have then Some have else None
  end.
Theorem C40_go_incremental_read : forall c fs vs msg later,
  wf_struct fs -> nd_fields fs -> go_ok c fs -> storable_fields fs vs ->
  encode c fs vs = Ok msg -> bytes_ok later -> zlen (msg ++ later) <= max_int ->
  forall fuel, (length msg < fuel)%nat -> follow_hints fs (msg ++ later) fuel 0 = Some (zlen msg).
Proof.
  intros c fs vs msg later W Nd G S E Hl Hmax.
  pose proof (C05_go_decode_size c fs vs msg later W Nd G S Hl E) as D.
  destruct (encode_ok c fs vs W G S) as (b & E' & B & L & O). rewrite E in E'. injection E' as <-.
  assert (Hb : bytes_ok (msg ++ later)) by (apply bytes_ok_app; auto).
  assert (Hstep : forall fuel have, 0 <= have <= zlen msg -> zlen msg - have < Z.of_nat fuel ->
            follow_hints fs (msg ++ later) fuel have = Some (zlen msg)).
  { induction fuel; intros have Hh Hf; [lia|]. cbn [follow_hints].
    pose proof (decode_size_prefix fs (msg ++ later) (zlen msg) (Z.to_nat have) W Nd Hb Hmax D (zlen_nonneg _)) as P.
    destruct (Z.ltb_spec (Z.of_nat (Z.to_nat have)) (zlen msg)).
    - destruct P as (r & -> & Hr). destruct (Z.ltb_spec (- r) 0); [|lia]. apply IHfuel; lia.
    - rewrite P. pose proof (zlen_nonneg msg). destruct (Z.ltb_spec (zlen msg) 0); [lia|].
      destruct (Z.eqb_spec (zlen msg) have); [f_equal; lia|lia]. }
  intros fuel Hf. apply Hstep; [pose proof (zlen_nonneg msg); lia|]. unfold zlen. lia.
Qed.
Example C40_instance : exists m, encode ex_c1 ex_fs ex_vs = Ok m /\ follow_hints ex_fs (m ++ [9; 9; 9]) 221 0 = Some 220.
Proof. eexists. split; [vm_compute; reflexivity|]. vm_compute; reflexivity. Qed.

Print Assumptions C01_go_roundtrip.
Print Assumptions C02_go_layout.
Print Assumptions C03_go_frame.
Print Assumptions C04_go_encode_size.
Print Assumptions C05_go_decode_size.
Print Assumptions C06_go_decode_size_prefix.
Print Assumptions C07_go_decode_no_panic.
Print Assumptions C08_go_decode_consumes.
Print Assumptions C10_go_unroll_encode.
Print Assumptions C10_go_unroll_decode.
Print Assumptions C11_go_signext.
Print Assumptions C11_go_signext_message.
Print Assumptions C12_go_helpers.
Print Assumptions C13_varint_canonical.
Print Assumptions C13_go_bytes_field.
Print Assumptions C14_go_constant_checked.
Print Assumptions C14_go_accepts_image.
Print Assumptions C16_go_decode_encode.
Print Assumptions C17_go_truncation.
Print Assumptions C39_go_stream.
Print Assumptions C40_go_incremental_read.
