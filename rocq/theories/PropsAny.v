(** C51: decoding bytes that need not be a message, in every target. *)
From Coq Require Import ZArith List Lia Bool.
From Verif Require Import Base BaseProofs Schema SpecWire GoModel GoBitProofs GoEncProofs GoEncMain GoDecProofs GoRound GoPrefix
  GoCore PropsGo CfBits CfBitProofs TgtModel TgtEncProofs TgtDecProofs TgtPrims PyTarget KtTarget CTarget JavaTarget CsTarget JsTarget
  JsString Interop SelfClear PropsTargets TgtPrefix PropsSize TgtAny TgtAnyInst.
Import ListNotations.
Open Scope Z_scope.
Ltac Zify.zify_post_hook ::= Z.to_euclidean_division_equations.

(** The schemas covered ([adm_fields] in TgtAny.v): no byte strings; constants unsigned and within their
    field; for JavaScript no strings. *)
Definition any_ok (L : lang) (fs : fields) : Prop :=
  match L with LJs _ _ _ => adm_fields True False fs | _ => adm_fields True True fs end.
(** Python raises for enum numbers without a name and strings that are not UTF-8. *)
Definition may_throw (L : lang) (fs : fields) : Prop :=
  match L with LPy _ _ => ~ adm_fields False False fs | _ => False end.

Lemma adm_mono (en st en' st' : Prop) : (en -> en') -> (st -> st') ->
  (forall e, adm_elem en st e -> adm_elem en' st' e) /\ (forall fs, adm_fields en st fs -> adm_fields en' st' fs).
Proof. intros H1 H2. apply schema_ind; cbn; tauto. Qed.
Lemma adm_dec : (forall e, adm_elem True True e -> adm_elem False False e \/ ~ adm_elem False False e) /\
  (forall fs, adm_fields True True fs -> adm_fields False False fs \/ ~ adm_fields False False fs).
Proof. apply schema_ind; cbn; tauto. Qed.
Lemma adm_throw fs : adm_fields True True fs -> let mt := ~ adm_fields False False fs in adm_fields mt mt fs.
Proof.
  intros H mt. destruct (proj2 adm_dec fs H) as [F|F].
  - revert F. apply (proj2 (adm_mono _ _ _ _ (False_ind mt) (False_ind mt))).
  - revert H. apply (proj2 (adm_mono _ _ _ _ (fun _ => F) (fun _ => F))).
Qed.

(** Go's options do not change where decoding ends or whether it fails, whatever the bytes. *)
Definition same_end {A B} (r : res (A * Z)) (g : res (B * Z)) : Prop :=
  match r, g with
  | Ok (_, a), Ok (_, b) => a = b
  | Fail, Fail | Panic, Panic => True
  | _, _ => False
  end.
Lemma same_end_bind {A B C D} (r : res (A * Z)) (g : res (B * Z)) (k1 : A * Z -> res (C * Z)) (k2 : B * Z -> res (D * Z)) :
  same_end r g -> (forall v1 v2 o, same_end (k1 (v1, o)) (k2 (v2, o))) -> same_end (bind r k1) (bind g k2).
Proof. intros H Hk. destruct r as [[v o]| |], g as [[w o']| |]; cbn in *; try contradiction; auto. subst. apply Hk. Qed.
Lemma same_end_refl {A} (r : res (A * Z)) : same_end r r.
Proof. destruct r as [[v o]| |]; cbn; auto. Qed.
Lemma iter_same_end f g : (forall i o, same_end (f i o) (g i o)) -> forall n i o, same_end (iter_dec f n i o) (iter_dec g n i o).
Proof.
  intros H. induction n; intros i o; cbn [iter_dec]; [reflexivity|]. apply same_end_bind; auto. intros v1 v2 o1. cbn beta iota.
  apply same_end_bind; auto. intros. reflexivity.
Qed.
Lemma rdec_same_end ul ul' :
  (forall e lp lp' n big from off data, same_end (rdec_elem ul lp e n big from off data) (rdec_elem ul' lp' e n big from off data)) /\
  (forall fs from off data, same_end (rdec_fields ul fs from off data) (rdec_fields ul' fs from off data)).
Proof.
  apply schema_ind.
  - intros. cbn. reflexivity.
  - intros. cbn. reflexivity.
  - intros. apply same_end_refl.
  - intros. apply same_end_refl.
  - intros fs IH lp lp' n big from off data. cbn [rdec_elem]. apply same_end_bind; [|intros; destruct (fields_dyn fs); reflexivity].
    unfold dec_nested. destruct (_ || _); [exact I|]. destruct (_ <? 0); [exact I|]. apply same_end_bind; auto. intros; reflexivity.
  - intros. reflexivity.
  - intros e IHe n big r IHr from off data. cbn [rdec_fields]. apply same_end_bind; auto. intros v1 v2 o. cbn beta iota.
    apply same_end_bind; auto. intros. reflexivity.
  - intros e IHe len n big r IHr from off data. cbn [rdec_fields]. apply same_end_bind; [apply iter_same_end; auto|].
    intros v1 v2 o. cbn beta iota. apply same_end_bind; auto. intros. reflexivity.
  - intros. cbn [rdec_fields]. auto.
  - intros b n big z r IHr from off data. cbn [rdec_fields]. destruct (_ =? z); [auto|exact I].
  - intros. cbn [rdec_fields]. auto.
Qed.
Lemma decode_same_end c c' fs data : wf_struct fs -> nd_fields fs -> go_ok c fs -> go_ok c' fs -> bytes_ok data ->
  same_end (decode c fs data) (decode c' fs data).
Proof.
  intros W Nd G G' Hb.
  destruct (decode_rdec c fs data W Nd G Hb) as [(H & ->)|(o & _ & Hz & Hr & -> & _)];
  destruct (decode_rdec c' fs data W Nd G' Hb) as [(H' & ->)|(o' & _ & Hz' & Hr' & -> & _)]; try lia; [exact I|].
  apply same_end_bind; [apply rdec_same_end|]. intros. reflexivity.
Qed.

(** *** decodeSize: every target returns the same number, whatever the bytes. *)
Theorem C51_decode_size : forall L fs data,
  wf_struct fs -> nd_fields fs -> nb_fields fs -> size_ok L fs -> bytes_ok data ->
  lang_decode_size L fs data = Ok (decode_size fs data).
Proof.
  intros L fs data W Nd Nb So Hb.
  pose proof (proj2 dsa_true fs) as Dt.
  destruct L; cbn [lang_decode_size lang_tgt size_ok] in *; [reflexivity|..];
    eapply tdecode_size_nb; eauto using c_size_spec, cs_size_spec, jv_size_spec, js_size_spec, py_size_spec, kt_size_spec.
Qed.

(** decode() checks the length itself, or decode_size() has been asked before. *)
Definition checked (L : lang) (fs : fields) (data : list Z) : Prop :=
  self_checking L \/ exists k, lang_decode_size L fs data = Ok k /\ 0 <= k.

Lemma req_lang L T fs : lang_tgt L = Some T -> can_decode L fs -> req_fields (t_loop T) (lang_dreq L) True fs 0.
Proof. intros E C. destruct L; cbn [can_decode lang_tgt] in *; try discriminate; injection E as <-; exact C. Qed.

(** *** decode() on arbitrary bytes: a target accepts only what Go accepts, and then ends at the same byte;
    it never reads outside the data.  ([decode c]: the generated Go code, with any options [c].) *)
Theorem C51_any_bytes : forall L c fs data,
  wf_struct fs -> nd_fields fs -> go_ok c fs -> any_ok L fs -> can_decode L fs -> size_ok L fs ->
  bytes_ok data -> zlen data < lang_limit L -> checked L fs data ->
  match lang_decode L fs data, decode c fs data with
  | Ok (_, n), Ok (_, n') => n = n'
  | Fail, _ => True
  | Panic, _ => may_throw L fs
  | Ok _, _ => False
  end.
Proof.
  intros L c fs data W Nd G Ad C So Hb Hx Hc.
  assert (Key : forall T soft, lang_tgt L = Some T ->
    match decode c fs data with
    | Ok (_, n) => bad soft (tdecode T fs 0 data) \/ exists vs, tdecode T fs 0 data = Ok (vs, n)
    | Fail => bad soft (tdecode T fs 0 data)
    | Panic => False
    end -> (soft -> may_throw L fs) ->
    match tdecode T fs 0 data, decode c fs data with
    | Ok (_, n), Ok (_, n') => n = n' | Fail, _ => True | Panic, _ => may_throw L fs | Ok _, _ => False end).
  { intros T soft _ H Hs. unfold bad in H. destruct (decode c fs data) as [[v n]| |]; [|destruct H as [->|(H & ->)]; auto|contradiction].
    destruct H as [[->|(H & ->)]|(vs & ->)]; auto. }
  assert (Hc2 : forall T, lang_tgt L = Some T -> t_checked T = true \/ 0 <= decode_size fs data).
  { intros T ET. destruct Hc as [Hc|(k & Ek & Hk)].
    - destruct L; cbn in Hc, ET; try contradiction; try discriminate; injection ET as <-; left; reflexivity.
    - right. rewrite C51_decode_size in Ek; auto; [congruence|]. eapply (proj2 (adm_nb True True)).
      destruct L; cbn [any_ok] in Ad; auto. revert Ad. apply (proj2 (adm_mono _ _ True True (fun x => x) (False_ind True))). }
  pose proof (proj2 dsa_true fs) as Dt.
  destruct L; cbn [lang_decode lang_tgt lang_limit any_ok size_ok] in *.
  - destruct C as (G' & _). pose proof (decode_same_end c0 c fs data W Nd G' G Hb) as S.
    pose proof (decode_rdec c0 fs data W Nd G' Hb) as D.
    destruct (decode c0 fs data) as [[v n]| |], (decode c fs data) as [[v' n']| |]; cbn in S; try contradiction; auto.
    destruct D as [(_ & D)|(o & _ & _ & _ & D & S')]; [discriminate|].
    destruct (rdec_fields (use_loop c0) fs 0 0 data) as [[v o1]| |]; cbn in *; try contradiction; discriminate.
  - apply (Key _ False); auto.
    eapply tdecode_sim; eauto using c_any; apply (req_lang (LC loop arith ew feq)); auto.
  - apply (Key _ False); auto.
    eapply tdecode_sim; eauto using cs_any; apply (req_lang (LCs loop arith repl)); auto.
  - apply (Key _ False); auto.
    eapply tdecode_sim; eauto using jv_any; apply (req_lang (LJava loop arith known repl)); auto.
  - apply (Key _ False); auto.
    eapply tdecode_sim; eauto using js_any; apply (req_lang (LJs loop known feq)); auto.
  - apply (Key _ (~ adm_fields False False fs)); auto.
    eapply tdecode_sim; [apply (py_any unr known (~ adm_fields False False fs) (~ adm_fields False False fs) (~ adm_fields False False fs))|..]; auto.
    apply adm_throw; auto.
  - apply (Key _ False); auto.
    eapply tdecode_sim; eauto using kt_any; apply (req_lang (LKt arith known repl)); auto.
Qed.

(** *** Bytes that Go accepts are accepted by every target that can hold the values, with the same values. *)
Theorem C51_same_values : forall L c fs data vs n,
  wf_struct fs -> nd_fields fs -> consts_ok fs -> exact_fields fs -> go_ok c fs -> bytes_ok data ->
  decode c fs data = Ok (vs, n) ->
  can_decode L fs -> can_hold L fs vs -> zlen data < lang_limit L ->
  lang_decode L fs data = Ok (vs, n) /\ fits_fields fs vs.
Proof.
  intros L c fs data vs n W Nd Co Ex G Hb E C V Hx.
  destruct (C16_go_decode_encode c c fs data vs n W Nd Co Ex G G Hb E) as (F & Es & En).
  pose proof (fits_storable_struct fs vs W F) as S. split; auto.
  destruct (decode_rdec c fs data W Nd G Hb) as [(_ & X)|(o & _ & Dz & Rg & X & Sf)]; [congruence|].
  assert (Hl : encode_size fs vs <= zlen data).
  { rewrite X in E. destruct (rdec_fields _ _ _ _ _) as [[v o1]| |]; cbn in E, Sf; try discriminate. injection E as _ <-. lia. }
  destruct (encode_to_ok c fs vs data W G S Hb Hl) as (b & E2 & O). rewrite En in E2. injection E2 as <- _.
  rewrite (lang_decode_ok L fs vs data); auto.
  - rewrite Es. pose proof W as (Wf & _). rewrite (proj2 norm_fits fs 0 vs Wf F). reflexivity.
  - eapply encode_to_matches; eauto.
Qed.

(** *** A schema with a constant, an enum, a signed array, nested structs and (not for JavaScript) a string. *)
Definition any_head (r : fields) : fields :=
  FConst (BUint 8) 8 false 165
  (FOne (EEnum 4) 4 false (FVoid 4
  (FArr (EBasic (BInt 16)) 3 48 false
  (FArr (EStruct (FOne (EBasic (BUint 8)) 8 false (FOne (EBasic BBool) 1 false (FVoid 7 FNil)))) 2 32 false r)))).
Definition any_fs : fields := any_head (FOne EString (-1) false FNil).
Definition anyjs_fs : fields := any_head FNil.
Definition any_data : list Z := [165; 9; 255; 255; 1; 0; 2; 0; 7; 1; 8; 0; 72; 105; 0; 99].
Definition any_vs : list val := [VNum 9; VArr [VNum (-1); VNum 1; VNum 2];
  VArr [VStruct [VNum 7; VNum 1]; VStruct [VNum 8; VNum 0]]; VStr [72; 105]].

Lemma any_wf : wf_struct any_fs /\ wf_struct anyjs_fs /\ nd_fields any_fs /\ nd_fields anyjs_fs /\
  (forall c, go_ok c any_fs /\ go_ok c anyjs_fs).
Proof.
  repeat split; cbn; repeat (match goal with |- exists eb, _ <= eb <= 16 /\ _ => exists 16 | _ => progress sch end); auto.
Qed.

Lemma any_langs : Forall (fun L => match L with
  | LJs _ _ _ => any_ok L anyjs_fs /\ can_decode L anyjs_fs /\ size_ok L anyjs_fs
  | _ => any_ok L any_fs /\ can_decode L any_fs /\ size_ok L any_fs end) ex_langs.
Proof.
  unfold ex_langs. repeat apply Forall_cons; try apply Forall_nil; (split; [|split]).
  all: try (cbn; sch2; eauto; fail).
  all: cbn [can_decode lang_tgt lang_dreq req_fields req_elem any_fs anyjs_fs any_head elem_dyn fields_dyn orb c_ereq c_dreq cs_ereq cs_dreq jv_ereq jv_dreq js_ereq js_dreq
         py_dreq kt_req r_scalar r_const r_loop r_nested t_loop c_tgt cs_tgt jv_tgt js_tgt py_tgt kt_tgt basic_bits elem_bits any_ok adm_fields adm_elem];
       norm_pos; sch2; eauto.
  all: cbn; sch.
Qed.

Example C51_instance : Forall (fun L => match L with
  | LJs _ _ _ => exists vs, lang_decode L anyjs_fs any_data = Ok (vs, 12) /\ vs = firstn 3 any_vs
  | _ => lang_decode L any_fs any_data = Ok (any_vs, 15) end) ex_langs.
Proof. unfold ex_langs. repeat apply Forall_cons; try apply Forall_nil; try (eexists; split); vm_compute; reflexivity. Qed.
(** A wrong constant is refused by all, an unnamed enum number (5) ends at the same byte but is -1 in the
    targets with closed enums and an exception in Python. *)
Example C51_instance_reject : Forall (fun L => match L with
  | LJs _ _ _ => lang_decode L anyjs_fs (164 :: tl any_data) = Fail
  | _ => lang_decode L any_fs (164 :: tl any_data) = Fail end) ex_langs.
Proof. unfold ex_langs. repeat apply Forall_cons; try apply Forall_nil; vm_compute; reflexivity. Qed.
Example C51_instance_enum : let data := 165 :: 5 :: skipn 2 any_data in
  lang_decode (LGo ex_c1) any_fs data = Ok (VNum 5 :: tl any_vs, 15) /\
  lang_decode (LKt true ex_known (fun l => l)) any_fs data = Ok (VNum (-1) :: tl any_vs, 15) /\
  lang_decode (LPy 4 ex_known) any_fs data = Panic /\ may_throw (LPy 4 ex_known) any_fs.
Proof. repeat split; try (vm_compute; reflexivity). cbn. tauto. Qed.

(** *** JavaScript: a string that ends inside a multi-byte character swallows its terminator; decode() then
    disagrees with decodeSize() and reads into what follows the message. *)
Theorem C51_js_string_refuted : forall loop known feq,
  let fs := FOne EString (-1) false (FOne (EBasic (BUint 8)) 8 false (FOne (EBasic (BUint 8)) 8 false FNil)) in
  let data := [195; 0; 65; 0; 7; 8] in
  wf_struct fs /\ nd_fields fs /\ can_decode (LJs loop known feq) fs /\
  lang_decode (LGo ex_c1) fs data = Ok ([VStr [195]; VNum 65; VNum 0], 4) /\
  lang_decode_size (LJs loop known feq) fs data = Ok 4 /\
  (exists s, lang_decode (LJs loop known feq) fs data = Ok ([VStr s; VNum 7; VNum 8], 6)).
Proof.
  intros loop known feq fs data. split; [unfold wf_struct, fs; cbn; sch|]. split; [cbn; sch|]. split; [cbn; auto|].
  split; [vm_compute; reflexivity|]. split; [vm_compute; reflexivity|]. eexists. vm_compute. reflexivity.
Qed.

(** *** C and C++: the end of a byte string is computed modulo 2^64, so a hostile length passes
    decode_size() and decode() runs out of the data. *)
Theorem C51_c_length_refuted : forall loop arith ew feq,
  let L := LC loop arith ew feq in
  let fs := FOne EBytes (-1) false FNil in
  let data := [250; 255; 255; 255; 255; 255; 255; 255; 255; 1] in
  wf_struct fs /\ nd_fields fs /\ can_decode L fs /\ bytes_ok data /\
  lang_decode_size L fs data = Ok 4 /\ lang_decode L fs data = Panic /\
  lang_decode (LGo ex_c1) fs data = Fail.
Proof.
  intros loop arith ew feq L fs data. split; [unfold wf_struct, fs; cbn; sch|]. split; [cbn; sch|]. split; [cbn; auto|].
  split; [unfold data, bytes_ok; repeat constructor; lia|].
  repeat split; vm_compute; reflexivity.
Qed.

(** *** Python: strings that are not UTF-8 raise, in the middle of decode(). *)
Theorem C51_python_raises_refuted : forall unr known,
  let fs := FOne EString (-1) false FNil in
  lang_decode (LGo ex_c1) fs [255; 0] = Ok ([VStr [255]], 2) /\ lang_decode (LPy unr known) fs [255; 0] = Panic /\
  can_decode (LPy unr known) fs.
Proof. intros. repeat split; vm_compute; reflexivity. Qed.
