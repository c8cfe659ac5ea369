(** C50: decodeSize and truncated messages, in every target. *)
From Coq Require Import ZArith List Lia Bool.
From Verif Require Import Base BaseProofs Schema SpecWire GoModel GoBitProofs GoEncProofs GoEncMain GoDecProofs GoRound GoPrefix
  GoCore PropsGo CfBits CfBitProofs TgtModel TgtEncProofs TgtDecProofs TgtPrims PyTarget KtTarget CTarget JavaTarget CsTarget JsTarget
  JsString Interop SelfClear PropsTargets TgtPrefix.
Import ListNotations.
Open Scope Z_scope.

(** decodeSize(data) (DecodeSize, decode_size). *)
Definition lang_decode_size (L : lang) (fs : fields) (data : list Z) : res Z :=
  match L, lang_tgt L with
  | LGo _, _ => Ok (decode_size fs data)
  | _, Some T => tdecode_size T fs data
  | _, None => Panic
  end.

(** C# only: no array of structs of variable size. *)
Definition size_ok (L : lang) (fs : fields) : Prop :=
  match L with LCs _ _ _ => dsa_fields False fs | _ => True end.
(** decode() calls decodeSize() itself (the C and C++ functions do not). *)
Definition self_checking (L : lang) : Prop := match L with LC _ _ _ _ => False | _ => True end.

Lemma dsa_true : (forall e, dsa_elem True e) /\ (forall fs, dsa_fields True fs).
Proof. apply schema_ind; cbn; auto. intros e He len n big r Hr. split; auto. destruct e; auto. Qed.

Lemma lang_decode_size_pref L fs vs data m : wf_struct fs -> nd_fields fs -> storable_fields fs vs -> size_ok L fs ->
  bytes_ok data -> zlen data < lang_limit L -> matches data 0 (image_fields fs vs) ->
  lang_decode_size L fs (firstn m data) = Ok (decode_size fs (firstn m data)).
Proof.
  intros W Nd S So Hb Hl M. pose proof (proj2 dsa_true fs).
  destruct L; cbn [lang_decode_size lang_tgt lang_limit size_ok] in *.
  - reflexivity.
  - eapply tdecode_size_pref with (2 := c_size_spec loop arith ew feq); eauto; lia.
  - eapply tdecode_size_pref with (2 := cs_size_spec loop arith repl); eauto; lia.
  - eapply tdecode_size_pref with (2 := jv_size_spec loop arith known repl); eauto; lia.
  - eapply tdecode_size_pref with (2 := js_size_spec loop known feq); eauto; lia.
  - eapply tdecode_size_pref with (2 := py_size_spec unr known); eauto; lia.
  - eapply tdecode_size_pref with (2 := kt_size_spec arith known repl); eauto; lia.
Qed.

Lemma lang_decode_size_full L fs vs data : wf_struct fs -> nd_fields fs -> storable_fields fs vs ->
  bytes_ok data -> zlen data < lang_limit L -> matches data 0 (image_fields fs vs) ->
  lang_decode_size L fs data = Ok (encode_size fs vs).
Proof.
  intros W Nd S Hb Hl M.
  destruct L; cbn [lang_decode_size lang_tgt lang_limit] in *.
  - f_equal. pose proof (encode_size_image fs vs W S) as (E1 & E2). pose proof W as (Hwf & H8).
    pose proof (proj2 dsize_match fs vs 0 0 _ Hwf Nd S ltac:(lia) ltac:(lia) Hb M) as D.
    destruct M as (Lm & _). rewrite (decode_size_of fs _ _ D); lia.
  - eapply tdecode_size_match; eauto using c_dec_spec.
  - eapply tdecode_size_match; eauto using cs_dec_spec.
  - eapply tdecode_size_match; eauto using jv_dec_spec.
  - eapply tdecode_size_match; eauto using js_dec_spec.
  - eapply tdecode_size_match; eauto using py_dec_spec.
  - eapply tdecode_size_match; eauto using kt_dec_spec.
Qed.

Lemma lang_decode_short L fs data r : self_checking L -> lang_decode_size L fs data = Ok r -> r < 0 -> lang_decode L fs data = Fail.
Proof.
  intros Sc E Hr.
  assert (H : forall T, t_checked T = true -> t_sub T true data 0 = Ok data -> tdecode_size T fs data = Ok r -> tdecode T fs 0 data = Fail).
  { intros T C Tt E'. unfold tdecode, tcheck. rewrite C, Tt. cbn [bind]. rewrite E'. cbn [bind].
    destruct (Z.ltb_spec r 0); [reflexivity|lia]. }
  destruct L; cbn [lang_decode_size lang_decode lang_tgt self_checking] in *; try contradiction.
  - injection E as <-. apply C08_go_decode_fails_short; auto.
  - apply H; auto. apply (zs_top _ _ _ (cs_size_spec loop arith repl)).
  - apply H; auto.
  - apply H; auto.
  - apply H; auto.
  - apply H; auto.
Qed.

(** A message written by any target [A], with anything behind it: every target's decodeSize is the
    number of bytes of the message. *)
Theorem C50_decode_size : forall A B fs vs extra,
  wf_struct fs -> nd_fields fs -> storable_fields fs vs -> can_encode A fs -> bytes_ok extra ->
  zlen (image_fields fs vs) < 8 * lang_limit A -> zlen (image_fields fs vs) + 8 * zlen extra < 8 * lang_limit B ->
  exists msg, lang_encode A fs vs = Ok msg /\ lang_decode_size B fs (msg ++ extra) = Ok (zlen msg).
Proof.
  intros A B fs vs extra W Nd S CA Hx LA LB.
  destruct (encode_size_image fs vs W S) as (E1 & _).
  destruct (lang_encode_ok A fs vs W Nd S CA ltac:(lia)) as (b & E & O).
  destruct (encode_matches fs vs b extra W S O) as (L & M).
  exists b. split; auto. rewrite L. apply lang_decode_size_full; auto.
  - apply bytes_ok_app. split; auto. eapply overlay_bytes; eauto.
  - rewrite zlen_app. lia.
Qed.

(** Only the first [m] bytes have arrived: every target's decodeSize is [-r] for the same [r], more than
    [m] and no more than the message, and decode() fails. *)
Theorem C50_truncated : forall A fs vs m,
  wf_struct fs -> nd_fields fs -> storable_fields fs vs -> can_encode A fs ->
  zlen (image_fields fs vs) < 8 * lang_limit A -> 0 <= m -> 8 * m < zlen (image_fields fs vs) ->
  exists msg r, lang_encode A fs vs = Ok msg /\ m < r <= zlen msg /\
    forall B, size_ok B fs -> zlen (image_fields fs vs) < 8 * lang_limit B ->
      lang_decode_size B fs (firstn (Z.to_nat m) msg) = Ok (- r) /\
      (self_checking B -> lang_decode B fs (firstn (Z.to_nat m) msg) = Fail).
Proof.
  intros A fs vs m W Nd S CA LA Hm0 Hm.
  destruct (encode_size_image fs vs W S) as (E1 & _).
  destruct (lang_encode_ok A fs vs W Nd S CA ltac:(lia)) as (b & E & O).
  destruct (encode_matches fs vs b [] W S O) as (L & M). rewrite app_nil_r in M.
  assert (Hb : bytes_ok b) by (eapply overlay_bytes; eauto).
  assert (L63 : lang_limit A <= 2 ^ 63) by (destruct A; cbn [lang_limit]; lia).
  pose proof W as (Hwf & H8).
  pose proof (proj2 dsize_match fs vs 0 0 _ Hwf Nd S ltac:(lia) ltac:(lia) Hb M) as D.
  assert (Dz : decode_size fs b = zlen b).
  { destruct (encode_size_image fs vs W S) as (_ & E2). destruct M as (Lm & _).
    rewrite (decode_size_of fs _ _ D); auto; lia. }
  pose proof (decode_size_prefix fs b (zlen b) (Z.to_nat m) W Nd Hb ltac:(unfold max_int; lia) Dz (zlen_nonneg _)) as Pr.
  rewrite Z2Nat.id in Pr by lia. destruct (Z.ltb_spec m (zlen b)); [|lia].
  destruct Pr as (r & Er & Hr). exists b, r. split; auto. split; auto. intros B So LB.
  assert (EB : lang_decode_size B fs (firstn (Z.to_nat m) b) = Ok (- r)).
  { rewrite (lang_decode_size_pref B fs vs b); auto; [congruence|]. lia. }
  split; auto. intros Sc. eapply lang_decode_short; eauto. lia.
Qed.

(** A receiver that asks decodeSize how much is still missing and reads exactly that much (a negative
    result -r: wait until r bytes are there).  [fuel] bounds the number of reads. *)
Fixpoint receive (fuel : nat) (B : lang) (fs : fields) (stream : list Z) (have : Z) : res (list Z) :=
  match fuel with
  | O => Fail
  | S f =>
      do r <- lang_decode_size B fs (firstn (Z.to_nat have) stream);
      if r <? 0 then (if zlen stream <? - r then Fail else receive f B fs stream (- r))
      else Ok (firstn (Z.to_nat have) stream)
  end.
Theorem C50_receive : forall A B fs vs rest,
  wf_struct fs -> nd_fields fs -> storable_fields fs vs -> can_encode A fs -> size_ok B fs ->
  zlen (image_fields fs vs) < 8 * lang_limit A -> zlen (image_fields fs vs) < 8 * lang_limit B ->
  exists msg fuel, lang_encode A fs vs = Ok msg /\ receive fuel B fs (msg ++ rest) 0 = Ok msg.
Proof.
  intros A B fs vs rest W Nd S CA So LA LB.
  destruct (encode_size_image fs vs W S) as (E1 & _).
  destruct (lang_encode_ok A fs vs W Nd S CA ltac:(lia)) as (b & E & O).
  destruct (encode_matches fs vs b [] W S O) as (L & M). rewrite app_nil_r in M.
  assert (Hb : bytes_ok b) by (eapply overlay_bytes; eauto). pose proof (zlen_nonneg b). pose proof (zlen_nonneg rest).
  assert (F : forall k, (k <= length b)%nat -> firstn k (b ++ rest) = firstn k b).
  { intros k Hk. rewrite firstn_app. replace (k - length b)%nat with 0%nat by lia. cbn [firstn]. apply app_nil_r. }
  assert (Full : lang_decode_size B fs b = Ok (zlen b)) by (rewrite L; apply lang_decode_size_full; auto; lia).
  assert (R : forall fuel have, 0 <= have <= zlen b -> zlen b - have < Z.of_nat fuel ->
            receive fuel B fs (b ++ rest) have = Ok b).
  { induction fuel; intros have Hh Hf; [lia|]. cbn [receive]. rewrite F by (unfold zlen in *; lia).
    destruct (Z.eq_dec have (zlen b)) as [->|].
    - replace (firstn (Z.to_nat (zlen b)) b) with b by (symmetry; apply firstn_all2; unfold zlen; lia).
      rewrite Full. cbn [bind]. destruct (Z.ltb_spec (zlen b) 0); [lia|reflexivity].
    - destruct (C50_truncated A fs vs have W Nd S CA LA ltac:(lia) ltac:(lia)) as (b' & r & Eb & Hr & X).
      rewrite E in Eb. injection Eb as <-. destruct (X B So LB) as (-> & _). cbn [bind].
      destruct (Z.ltb_spec (- r) 0); [|lia]. rewrite zlen_app, Z.opp_involutive.
      destruct (Z.ltb_spec (zlen b + zlen rest) r); [lia|]. apply IHfuel; lia. }
  exists b, (1 + length b)%nat. split; auto. apply R; unfold zlen; lia.
Qed.

(** *** The running example, cut at every byte, for every pair of targets but C# as the reader. *)
Lemma ex_size_ok : Forall (fun L => size_ok L ex_fs \/ match L with LCs _ _ _ => True | _ => False end) ex_langs.
Proof. unfold ex_langs. repeat apply Forall_cons; try apply Forall_nil; cbn [size_ok]; tauto. Qed.
Lemma ex_image : zlen (image_fields ex_fs ex_vs) = 8 * 220.
Proof.
  destruct (encode_size_image ex_fs ex_vs ex_wf (fits_storable_struct _ _ ex_wf ex_fits)) as (E & _).
  rewrite <- E. vm_compute. reflexivity.
Qed.
Example C50_instance : forall A B m, In A ex_langs -> In B ex_langs -> size_ok B ex_fs -> 0 <= m < 220 ->
  exists msg r, lang_encode A ex_fs ex_vs = Ok msg /\ zlen msg = 220 /\ m < r <= 220 /\
    lang_decode_size B ex_fs (firstn (Z.to_nat m) msg) = Ok (- r).
Proof.
  intros A B m IA IB So Hm. pose proof ex_can as C. rewrite Forall_forall in C.
  assert (X : forall L, 2 ^ 31 <= 8 * lang_limit L) by (intros [ ]; cbn [lang_limit]; lia).
  pose proof (X A). pose proof (X B). pose proof ex_image as Ei.
  destruct (C50_truncated A ex_fs ex_vs m ex_wf ex_nd (fits_storable_struct _ _ ex_wf ex_fits)) as (msg & r & E & Hr & Y);
    try lia; [apply C; auto|].
  destruct (Y B So ltac:(lia)) as (E2 & _).
  destruct (C50_decode_size A A ex_fs ex_vs [] ex_wf ex_nd (fits_storable_struct _ _ ex_wf ex_fits)) as (msg' & E' & D); try lia.
  { apply C; auto. } { constructor. } { change (zlen (@nil Z)) with 0. lia. }
  assert (L : zlen msg = 220).
  { destruct (C47_same_bytes A A ex_fs ex_vs) as (m3 & E3 & _ & _ & L3 & _); try lia; try (apply C; auto).
    - apply ex_wf. - apply ex_nd. - apply fits_storable_struct; [apply ex_wf|apply ex_fits].
    - rewrite E in E3. injection E3 as <-. lia. }
  exists msg, r. repeat split; auto; lia.
Qed.

(** *** C#: with an array of structs of variable size, DecodeSize of a truncated message throws
    (Span.Slice past the end), so neither "how much is missing" nor -1 is returned. *)
Definition csz_fs : fields := FOne (EBasic (BUint 32)) 32 false (FArr (EStruct (FOne EString (-1) false FNil)) 2 (-1) false FNil).
Definition csz_vs : list val := [VNum 7; VArr [VStruct [VStr [65]]; VStruct [VStr [66]]]].
Theorem C50_csharp_refuted : forall loop arith repl,
  wf_struct csz_fs /\ nd_fields csz_fs /\ fits_fields csz_fs csz_vs /\
  exists msg, lang_encode (LCs loop arith repl) csz_fs csz_vs = Ok msg /\
    (3 < length msg)%nat /\
    lang_decode_size (LCs loop arith repl) csz_fs (firstn 3 msg) = Panic /\
    lang_decode (LCs loop arith repl) csz_fs (firstn 3 msg) = Panic /\
    lang_decode_size (LGo ex_c1) csz_fs (firstn 3 msg) = Ok (-5).
Proof.
  intros loop arith repl. split; [unfold wf_struct, csz_fs; cbn; sch|]. split; [cbn; sch|].
  split; [cbn; sch; repeat constructor; lia|].
  eexists. split; [vm_compute; reflexivity|]. split; [cbn; lia|]. repeat split; vm_compute; reflexivity.
Qed.

(** *** C and C++: decode() does not call decode_size(): a truncated message makes it read past the end. *)
Theorem C50_c_unchecked_refuted : forall loop arith ew feq,
  exists msg, lang_encode (LC loop arith ew feq) csz_fs csz_vs = Ok msg /\
    lang_decode_size (LC loop arith ew feq) csz_fs (firstn 3 msg) = Ok (-5) /\
    lang_decode (LC loop arith ew feq) csz_fs (firstn 3 msg) = Panic.
Proof.
  intros loop arith ew feq. eexists. split; [vm_compute; reflexivity|]. split; vm_compute; reflexivity.
Qed.
