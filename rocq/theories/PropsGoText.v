(** C67: the text of the Go statements that pack and unpack the fixed-size fields of a struct.
    The statements are read as Go reads them (ExprSpec.v: tokens, precedences; GoSem.v: types, conversions,
    overflow, variables), so a missing parenthesis, a wrong shift or mask, or a sign lost in a conversion would show. *)
From Coq Require Import ZArith Lia Bool String Ascii List.
Import ListNotations.
From Verif Require Import Base BaseProofs Schema SpecWire GoModel GoCore GoEncMain Literals ExprSpec PrintTree GoSem GoText GoTextDecField GoTextStruct GoSemDet PropsGo.
Open Scope string_scope.
Open Scope Z_scope.
Open Scope list_scope.
Ltac Zify.zify_post_hook ::= Z.to_euclidean_division_equations.

(** ** What the theorems need *)
Lemma flat_fixed c fs : flat c fs -> fields_dyn fs = false.
Proof.
  induction fs; cbn [flat fields_dyn]; auto; intros H.
  - destruct H as [H1 H2]. rewrite IHfs by auto. destruct e; try discriminate; reflexivity.
  - destruct H as (H1 & _ & H2). rewrite IHfs by auto. destruct e; try discriminate; reflexivity.
Qed.
Definition no_locals (st : gst) : Prop := forall x, g_loc st x = None.
Lemma no_locals_free st : no_locals st -> free st 0.
Proof. intros H k _. apply H. Qed.

Lemma get_elem st f j t z : get st (PE f (Z.of_nat j)) = Some (t, z) ->
  exists zs, g_fld st f = Some (Many t zs) /\ nth_error zs j = Some z.
Proof.
  cbn [get]. destruct (g_fld st f) as [[|u zs]|]; try discriminate.
  destruct (_ && _); [|discriminate]. rewrite Nat2Z.id. destruct (nth_error zs j) as [y|] eqn:E; [|discriminate].
  cbn [option_map]. intros [= -> ->]. exists zs. auto.
Qed.
Lemma gholds_holds st st' fs : (forall q, nonlocal q -> get st q = None -> get st' q = None) -> forall names from vs0 vs, wf_fields fs from -> holds st fs names vs0 -> gholds st' fs names vs -> holds st' fs names vs.
Proof.
  intros K. induction fs; intros names from vs0 vs W H0 H; cbn [wf_fields holds gholds] in *; eauto.
  - destruct names as [|f names]; [contradiction|]. destruct vs0 as [|[z0| | |] vs0]; try contradiction. destruct vs as [|v vs]; [contradiction|].
    destruct H as [(z & -> & G) H]. destruct H0 as [_ H0]. destruct W as (_ & _ & W). split; [|eauto].
    cbn [get] in G. destruct (g_fld st' (f_name f)) as [[t y|]|]; try discriminate. congruence.
  - destruct names as [|f names]; [contradiction|]. destruct vs0 as [|[| | |arr0] vs0]; try contradiction. destruct vs as [|[| | |arr] vs]; try contradiction.
    destruct H as [[L A] H]. destruct H0 as [(zs0 & -> & L0 & G0) H0]. destruct W as (_ & Hl & _ & W). split; [|eauto].
    destruct arr as [|v1 arr]; [cbn in L; lia|]. destruct (A O v1 eq_refl) as (z1 & -> & G1). apply get_elem in G1 as (zs & G & _).
    assert (N : get st' (PE (f_name f) (Z.of_nat len)) = None).
    { apply K; [exact I|]. cbn [get]. rewrite G0, L0. destruct (Z.ltb_spec (Z.of_nat len) (Z.of_nat len)); [lia|]. now rewrite andb_false_r. }
    cbn [get] in N. rewrite G in N.
    assert (Lz : (List.length zs <= len)%nat).
    { destruct (Nat.leb_spec (List.length zs) len) as [|Hl2]; [lia|]. exfalso.
      destruct (Z.leb_spec 0 (Z.of_nat len)); [|lia]. destruct (Z.ltb_spec (Z.of_nat len) (Z.of_nat (List.length zs))); [|lia]. cbn [andb] in N.
      rewrite Nat2Z.id in N. destruct (nth_error zs len) eqn:E; [discriminate|]. apply nth_error_None in E. lia. }
    assert (X : VNum z1 :: arr = map VNum zs).
    { set (l := VNum z1 :: arr) in *. clearbody l.
      assert (P : forall j v, nth_error l j = Some v -> nth_error (map VNum zs) j = Some v).
      { intros j v Hj. destruct (A j v Hj) as (z & -> & Gj). cbn [Nat.add] in Gj. apply get_elem in Gj as (zs' & Gz & Nz). rewrite G in Gz. injection Gz as <-. now rewrite nth_error_map, Nz. }
      assert (Lm : (List.length (map VNum zs) <= List.length l)%nat) by (rewrite map_length; lia).
      clear -P Lm. revert Lm P. generalize (map VNum zs). induction l as [|v l IH]; intros m Lm P.
      - destruct m; [auto|cbn in Lm; lia].
      - destruct m as [|w m]; [specialize (P O v eq_refl); discriminate|]. pose proof (P O v eq_refl) as [= ->]. f_equal. apply IH; [cbn in Lm; lia|].
        intros j u Hj. exact (P (S j) u Hj). }
    exists zs. split; auto. split; auto. rewrite <- L, X, map_length. reflexivity.
  - destruct W as [_ W]. eauto.
  - destruct W as (_ & _ & W). eauto.
Qed.

(** ** C67: the encoder.  EncodeTo's statements leave in data what EncodeTo of GoModel.v computes, or panic as it does;
    the receiver's fields are unchanged. *)
Theorem C67_text_encode : forall named c dn fs names vs st,
  wf_struct fs -> flat c fs -> go_ok c fs -> names_ok named fs names -> storable_fields fs vs ->
  holds st fs names vs -> no_locals st -> bytes_ok (g_data st) ->
  match encode_to c fs vs (g_data st) with
  | Ok (buf, n) => exists st', runs named st (enc_text dn fs names 0) (Ok st') /\ g_data st' = buf /\ holds st' fs names vs
  | Panic => runs named st (enc_text dn fs names 0) Panic
  | Fail => False
  end.
Proof.
  intros named c dn fs names vs st (W & _) Fl Go Nm Sv H L B. unfold encode_to. rewrite (flat_fixed c fs Fl). pose proof (holds_gholds _ _ _ _ H) as Hg.
  pose proof (enc_fields_run named c dn fs names vs 0 st W Fl Go Nm Hg Sv (Z.le_refl 0) B (no_locals_free _ L)) as R.
  destruct (enc_fields c false fs vs 0 0 (g_data st)) as [[d o]| |]; cbn [bind after] in *; auto.
  destruct R as (_ & _ & st' & R & D & _ & K & _). exists st'. split; auto. split; auto.
  refine (gholds_holds st st' fs _ names 0 vs vs W H (gholds_keeps _ _ _ K _ _ Hg)). intros q N E. now rewrite K.
Qed.
(** Hence the wire layout of C02 for the text itself. *)
Theorem C67_text_layout : forall named c dn fs names vs st,
  wf_struct fs -> flat c fs -> go_ok c fs -> names_ok named fs names -> storable_fields fs vs ->
  holds st fs names vs -> no_locals st -> bytes_ok (g_data st) ->
  zlen (image_fields fs vs) <= 8 * zlen (g_data st) ->
  exists st', runs named st (enc_text dn fs names 0) (Ok st') /\
    forall k, 0 <= k < 8 * zlen (g_data st) ->
      bitat (g_data st') k = match onth (image_fields fs vs) k with Some (Some b) => b | _ => bitat (g_data st) k end.
Proof.
  intros named c dn fs names vs st W Fl Go Nm Sv H L B Hl.
  destruct (C02_go_layout c fs vs (g_data st) W Go Sv B Hl) as (buf & n & E & _ & _ & Hk).
  pose proof (C67_text_encode named c dn fs names vs st W Fl Go Nm Sv H L B) as R. rewrite E in R.
  destruct R as (st' & R & <- & _). exists st'. auto.
Qed.
(** ** The decoder.  If the buffer is long enough (the check before, C05), the statements leave in the fields what
    Decode returns, or return -1 where Decode refuses a constant. *)
Theorem C67_text_decode : forall named c dn base fs names st,
  wf_struct fs -> flat c fs -> go_ok c fs -> names_ok named fs names -> NoDup (map f_name names) ->
  declared st fs names -> no_locals st -> bytes_ok (g_data st) -> 0 <= decode_size fs (g_data st) ->
  match decode c fs (g_data st) with
  | Ok (vs, n) => exists st', runs named st (dec_text c dn base fs names 0) (Ok st') /\ holds st' fs names vs /\ g_data st' = g_data st
  | Panic => runs named st (dec_text c dn base fs names 0) Panic
  | Fail => runs named st (dec_text c dn base fs names 0) Fail
  end.
Proof.
  intros named c dn base fs names st (W & _) Fl Go Nm Nd [vs0 H0] L B Sz. unfold decode. destruct (Z.ltb_spec (decode_size fs (g_data st)) 0) as [Lt|_]; [lia|].
  rewrite (flat_fixed c fs Fl).
  pose proof (dec_fields_run named c dn base fs names 0 st W Fl Go Nm Nd (holds_gdecl _ _ _ _ H0) (Z.le_refl 0) B (no_locals_free _ L)) as R.
  destruct (dec_fields c false fs 0 0 (g_data st)) as [[vs o]| |]; cbn [bind dout] in *; auto.
  destruct R as (_ & st' & R & H & K). exists st'. split; auto. split; [|apply (fr_data _ _ _ K)]. exact (gholds_holds _ _ _ (fr_none _ _ _ K) _ _ _ _ W H0 H).
Qed.
(** The text of the encoder followed by the text of the decoder, in another process and under other settings, gives
    the values back. *)
Theorem C67_text_roundtrip : forall named named' c c' dn dn' base fs names names' vs st,
  wf_struct fs -> nd_fields fs -> consts_ok fs -> flat c fs -> flat c' fs -> go_ok c fs -> go_ok c' fs ->
  names_ok named fs names -> names_ok named' fs names' -> NoDup (map f_name names') ->
  fits_fields fs vs -> holds st fs names vs -> no_locals st -> bytes_ok (g_data st) -> encode_size fs vs <= zlen (g_data st) ->
  exists st1, runs named st (enc_text dn fs names 0) (Ok st1) /\
    forall st2, declared st2 fs names' -> no_locals st2 -> g_data st2 = g_data st1 ->
    exists st3, runs named' st2 (dec_text c' dn' base fs names' 0) (Ok st3) /\ holds st3 fs names' vs.
Proof.
  intros named named' c c' dn dn' base fs names names' vs st W Nd Co Fl Fl' G G' Nm Nm' No Ft H L B Hl.
  destruct (C01_go_roundtrip c c' fs vs (g_data st) W Nd Co G G' Ft B Hl) as (buf & n & E & D).
  pose proof (fits_storable_struct fs vs W Ft) as Sv.
  destruct (encode_to_ok c fs vs (g_data st) W G Sv B Hl) as (b & E' & O). assert (b = buf) by congruence. subst b.
  pose proof (C67_text_encode named c dn fs names vs st W Fl G Nm Sv H L B) as R. rewrite E in R. destruct R as (st1 & R & Ed & _).
  exists st1. split; auto. intros st2 H2 L2 E2. rewrite Ed in E2.
  assert (B2 : bytes_ok (g_data st2)) by (rewrite E2; exact (overlay_bytes _ _ _ _ O)).
  assert (Sz : 0 <= decode_size fs (g_data st2)).
  { rewrite E2. unfold decode in D. destruct (Z.ltb_spec (decode_size fs buf) 0); [discriminate|lia]. }
  pose proof (C67_text_decode named' c' dn' base fs names' st2 W Fl' G' Nm' No H2 L2 B2 Sz) as R2. rewrite E2, D in R2.
  destruct R2 as (st3 & R2 & H3 & _). exists st3. auto.
Qed.

(** The text leaves no choice: it has one outcome, the one above. *)
Theorem C67_one_outcome : forall named st text r r', runs named st text r -> runs named st text r' -> r = r'.
Proof. intros named st text r r' H H'. exact (runs_det _ _ _ _ H _ H'). Qed.

(** ** A concrete case.
    struct Demo { uint16 a[11b] (big); const uint8 5 bits = 21; void 4 bits; int32 x[12b]; uint8<3> arr[12b];
                  enum Color c (4b); enum Color<2> cs (4b each); float32 f; bool<8> flags[8b] } *)
Definition gt_fs : fields :=
  FOne (EBasic (BUint 16)) 11 true
 (FConst (BUint 8) 5 false 21
 (FVoid 4
 (FOne (EBasic (BInt 32)) 12 true
 (FArr (EBasic (BUint 8)) 3 12 false
 (FOne (EEnum 4) 4 false
 (FArr (EEnum 4) 2 8 false
 (FOne (EBasic (BFloat 32)) 32 false
 (FArr (EBasic BBool) 8 8 false FNil)))))))).
Definition gt_names : list fname :=
  map (fun p => {| f_name := cs (fst p); f_enum := cs (snd p) |})
    [("A", ""); ("X", ""); ("Arr", ""); ("C", "Color"); ("Cs", "Color"); ("F", ""); ("Flags", "")].
Definition gt_vs : list val :=
  [VNum 1234; VNum (-5); VArr [VNum 1; VNum 15; VNum 7]; VNum 9; VArr [VNum 3; VNum 12]; VNum 1078530011;
   VArr [VNum 1; VNum 0; VNum 1; VNum 1; VNum 0; VNum 0; VNum 1; VNum 0]].
Definition gt_named (s : chars) : option Z := if eqs s "Color" then Some 8 else None.
Definition gt_c : cfg := {| unroll := -1; sx := SxShift |}.
Definition gt_c2 : cfg := {| unroll := 16; sx := SxArith |}.
Definition gt_fields (vals : list (string * cell)) (f : chars) : option cell :=
  match find (fun p => eqs f (fst p)) vals with Some p => Some (snd p) | None => None end.
Definition gt_st : gst := {|
  g_data := repeat 255 13; g_off := 0; g_loc := fun _ => None;
  g_fld := gt_fields [("A", One (GU 16) 1234); ("X", One (GI 32) (-5)); ("Arr", Many (GU 8) [1; 15; 7]);
    ("C", One (GN (cs "Color") 8) 9); ("Cs", Many (GN (cs "Color") 8) [3; 12]); ("F", One (GF 32) 1078530011);
    ("Flags", Many GB [1; 0; 1; 1; 0; 0; 1; 0])] |}.
Definition gt_st2 (data : list Z) : gst := {|
  g_data := data; g_off := 0; g_loc := fun _ => None;
  g_fld := gt_fields [("A", One (GU 16) 0); ("X", One (GI 32) 7); ("Arr", Many (GU 8) [0; 0; 0]);
    ("C", One (GN (cs "Color") 8) 0); ("Cs", Many (GN (cs "Color") 8) [0; 0]); ("F", One (GF 32) 0);
    ("Flags", Many GB [0; 0; 0; 0; 0; 0; 0; 0])] |}.
Ltac sch3 := repeat match goal with
  | |- exists eb, _ <= eb <= 4 /\ _ => exists 4
  | |- _ => progress sch
  end.
Lemma gt_wf : wf_struct gt_fs.
Proof. unfold wf_struct, gt_fs; cbn; sch3. Qed.
Lemma gt_flat c : c = gt_c \/ c = gt_c2 -> flat c gt_fs.
Proof. intros [-> | ->]; cbn; repeat split. Qed.
Lemma gt_go c : c = gt_c \/ c = gt_c2 -> go_ok c gt_fs.
Proof. intros [-> | ->]; cbn; repeat split; right; reflexivity. Qed.
Lemma gt_enum : enum_ok gt_named (cs "Color") 8.
Proof. split; reflexivity. Qed.
Lemma gt_names_ok : names_ok gt_named gt_fs gt_names.
Proof. cbn; repeat split; exact gt_enum || reflexivity. Qed.
Lemma gt_nodup : NoDup (map f_name gt_names).
Proof. repeat constructor; cbn; intuition discriminate. Qed.
Lemma gt_fits : fits_fields gt_fs gt_vs.
Proof. cbn; sch. Qed.
Lemma gt_holds : holds gt_st gt_fs gt_names gt_vs.
Proof.
  cbn [holds gt_fs gt_names map gt_vs fst snd f_name f_enum]. repeat (split; [first [reflexivity | eexists; split; [|split; [|reflexivity]]; reflexivity]|]). reflexivity.
Qed.
Lemma gt_decl data : declared (gt_st2 data) gt_fs gt_names.
Proof.
  exists [VNum 0; VNum 7; VArr [VNum 0; VNum 0; VNum 0]; VNum 0; VArr [VNum 0; VNum 0]; VNum 0;
   VArr [VNum 0; VNum 0; VNum 0; VNum 0; VNum 0; VNum 0; VNum 0; VNum 0]].
  cbn [holds gt_fs gt_names map fst snd f_name f_enum]. repeat (split; [first [reflexivity | eexists; split; [|split; [|reflexivity]]; reflexivity]|]). reflexivity.
Qed.
Lemma gt_bufok : bytes_ok (g_data gt_st).
Proof. apply ex_bytes_ok; reflexivity. Qed.
Lemma gt_encode : encode_to gt_c gt_fs gt_vs (g_data gt_st) = Ok ([154; 170; 255; 191; 241; 151; 195; 219; 15; 73; 64; 77; 255], 12).
Proof. vm_compute. reflexivity. Qed.
Example C67_instance : exists st1, runs gt_named gt_st (enc_text false gt_fs gt_names 0) (Ok st1) /\
  g_data st1 = [154; 170; 255; 191; 241; 151; 195; 219; 15; 73; 64; 77; 255] /\ List.length (enc_text false gt_fs gt_names 0) = 27%nat /\
  exists st3, runs gt_named (gt_st2 (g_data st1)) (dec_text gt_c2 true (fun _ => BDec) gt_fs gt_names 0) (Ok st3) /\ holds st3 gt_fs gt_names gt_vs.
Proof.
  pose proof (fits_storable_struct _ _ gt_wf gt_fits) as Sv.
  pose proof (C67_text_encode gt_named gt_c false gt_fs gt_names gt_vs gt_st gt_wf (gt_flat _ (or_introl eq_refl)) (gt_go _ (or_introl eq_refl)) gt_names_ok Sv gt_holds
    (fun _ => eq_refl) gt_bufok) as R. rewrite gt_encode in R. destruct R as (st1 & R & D & _).
  exists st1. split; [exact R|]. split; [exact D|]. split; [vm_compute; reflexivity|].
  pose proof (C67_text_decode gt_named gt_c2 true (fun _ => BDec) gt_fs gt_names (gt_st2 (g_data st1)) gt_wf (gt_flat _ (or_intror eq_refl)) (gt_go _ (or_intror eq_refl))
    gt_names_ok gt_nodup (gt_decl _) (fun _ => eq_refl)) as R2.
  cbn [g_data gt_st2] in R2. rewrite D in *.
  assert (B : bytes_ok [154; 170; 255; 191; 241; 151; 195; 219; 15; 73; 64; 77; 255]) by (apply ex_bytes_ok; reflexivity).
  assert (Z0 : 0 <= decode_size gt_fs [154; 170; 255; 191; 241; 151; 195; 219; 15; 73; 64; 77; 255]) by (vm_compute; discriminate).
  specialize (R2 B Z0).
  assert (E : decode gt_c2 gt_fs [154; 170; 255; 191; 241; 151; 195; 219; 15; 73; 64; 77; 255] = Ok (gt_vs, 12)) by (vm_compute; reflexivity).
  rewrite E in R2. destruct R2 as (st3 & R3 & H3 & _). exists st3. split; [exact R3|exact H3].
Qed.
(** One of the statements, and the whole text of a constant's check. *)
Example C67_printed : nth_error (enc_text false gt_fs gt_names 0) 2 =
    Some (cs "data[1] = byte((uint64(data[1]) & ^uint64(0xF8)) | (uint64(((((0x15) >> 0) & 0x1F) << 3)) & uint64(0xF8)))") /\
  firstn 6 (dec_text gt_c2 true (fun _ => BDec) gt_fs gt_names 0) = map cs
    ["this.A = (uint16((((data[0]) >> 0) & 255)) << 3)"; "this.A |= (uint16((((data[1]) >> 0) & 7)) << 0)"; "var tempFieldAtPos11 uint8";
     "tempFieldAtPos11 = (uint8((((data[1]) >> 3) & 31)) << 0)"; "if tempFieldAtPos11 != 21 {"; "    return -1"].
Proof. split; vm_compute; reflexivity. Qed.

Print Assumptions C67_text_encode.
Print Assumptions C67_text_layout.
Print Assumptions C67_text_decode.
Print Assumptions C67_text_roundtrip.
Print Assumptions C67_one_outcome.
