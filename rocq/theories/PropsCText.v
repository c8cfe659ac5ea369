(** C74: the text of the C statements that pack the fixed-size fields of a struct.
    The statements are read as C reads them (ExprSpec.v: tokens, precedences; CSem.v: integer types, promotions, members
    of *ptr, views through pointers, undefined behaviour). *)
From Coq Require Import ZArith Lia Bool String Ascii List.
Import ListNotations.
From Verif Require Import Base BaseProofs Schema SpecWire GoModel GoCore GoEncMain CfBits CfBitProofs TgtModel PyTarget CTarget Interop Literals ExprSpec PrintTree CSem CSemDet CText CTextEnc CTextStruct PropsGo PropsTargets.
Open Scope string_scope.
Open Scope Z_scope.
Open Scope list_scope.
Ltac Zify.zify_post_hook ::= Z.to_euclidean_division_equations.

Lemma flat_fixed loop fs : flat loop fs -> fields_dyn fs = false.
Proof.
  induction fs; cbn [flat fields_dyn]; auto; intros H.
  - destruct H as [H1 H2]. rewrite IHfs by auto. destruct e; try discriminate; reflexivity.
  - destruct H as (H1 & _ & _ & H2). rewrite IHfs by auto. destruct e; try discriminate; reflexivity.
Qed.
Lemma flat_dyn0 loop arith ew feq fs : flat loop fs -> t_dyn0 (c_tgt loop arith ew feq) fs = false.
Proof. intros H. unfold t_dyn0. rewrite (flat_fixed loop fs H). apply andb_false_r. Qed.
Lemma flat_nd loop fs : flat loop fs -> nd_fields fs.
Proof.
  induction fs; cbn [flat nd_fields]; auto; intros H.
  - destruct H as [H1 H2]. destruct e; try discriminate; cbn; auto.
  - destruct H as (H1 & _ & _ & H2). destruct e; try discriminate; cbn; auto.
Qed.

(** No local variable is called like a temporary of the generated code. *)
Definition no_temps (st : cst) : Prop := forall k, 0 <= k < 2 ^ 63 -> c_loc st (temp_name k) = None.

(** ** C74: the encoder's statements leave in data what encode of CTarget.v computes, or are undefined where it says so;
    *ptr is unchanged. *)
Theorem C74_text_encode : forall loop arith ew feq dn fs names vs st,
  wf_struct fs -> flat loop fs -> names_ok fs names -> holds st fs names vs -> no_temps st -> fixed_bits fs < 2 ^ 63 ->
  match tencode_to (c_tgt loop arith ew feq) fs vs 0 (c_data st) with
  | Ok (buf, n) => exists st', runs st (enc_text dn fs names 0) (Ok st') /\ c_data st' = buf /\ c_mem st' = c_mem st
  | Panic => runs st (enc_text dn fs names 0) Panic
  | Fail => False
  end.
Proof.
  intros loop arith ew feq dn fs names vs st (W & _) Fl Nm H Nt Hb. unfold tencode_to. rewrite (flat_dyn0 loop arith ew feq fs Fl).
  destruct (enc_fields_run loop arith ew feq dn fs names vs 0 st W Fl Nm H (Z.le_refl 0) Hb Nt) as [to R].
  destruct (tenc_fields (c_tgt loop arith ew feq) false fs vs 0 0 0 (c_data st)) as [[d o]| |]; cbn [bind after] in *; auto.
  destruct R as (_ & st' & R & D & K). exists st'. split; auto. split; auto. apply (k_mem _ _ _ _ K).
Qed.
(** The text leaves no choice: it has one outcome. *)
Theorem C74_one_outcome : forall st text r r', runs st text r -> runs st text r' -> r = r'.
Proof. intros st text r r' H H'. exact (runs_det _ _ _ H _ H'). Qed.

Lemma req_top lp R (p q : Prop) fs : (p -> q) -> forall from, req_fields lp R p fs from -> req_fields lp R q fs from.
Proof.
  intros I. induction fs as [|e n big r IH|e len n big r IH|n r IH|b n big z r IH|r IH]; intros from H; cbn [req_fields] in *; auto.
  - destruct H as [H1 H2]. auto.
  - destruct H as [H1 H2]. split; auto. destruct (elem_dyn e); auto. destruct (lp len); auto. destruct H1 as [H1 H3]. split; auto. destruct H1; auto.
  - destruct H as [H1 H2]. auto.
Qed.
(** Hence the wire layout for the text itself, into a message area of zeros, if every field fills the bytes it touches in
    the pattern the generator handles ([c_ereq]): no undefined behaviour, and every number where the schema puts it. *)
Theorem C74_text_layout : forall loop dn fs names vs st,
  wf_struct fs -> flat loop fs -> names_ok fs names -> storable_fields fs vs -> holds st fs names vs -> no_temps st ->
  req_fields loop c_ereq True fs 0 ->
  bytes_ok (c_data st) -> zlen (c_data st) < 2 ^ 31 -> zlen (image_fields fs vs) <= 8 * zlen (c_data st) ->
  (forall k, 0 <= k < zlen (image_fields fs vs) -> bitat (c_data st) k = false) ->
  exists st', runs st (enc_text dn fs names 0) (Ok st') /\ c_mem st' = c_mem st /\ List.length (c_data st') = List.length (c_data st) /\
    forall k, 0 <= k < 8 * zlen (c_data st) ->
      bitat (c_data st') k = match onth (image_fields fs vs) k with Some (Some b) => b | _ => bitat (c_data st) k end.
Proof.
  intros loop dn fs names vs st W Fl Nm Sv H Nt Rq B L31 Hl Hz. set (arith := false). set (ew := fun b : Z => b). set (feq := fun _ _ _ : Z => true).
  assert (Rq' : req_fields (t_loop (c_tgt loop arith ew feq)) (lang_ereq (LC loop arith ew feq)) (0 = 0) fs 0).
  { exact (req_top _ _ _ _ _ (fun _ => eq_refl) _ Rq). }
  destruct (encode_size_image fs vs W Sv) as (E1 & _). unfold encode_size in E1. rewrite (flat_fixed loop fs Fl) in E1.
  destruct W as [W1 W2]. pose proof (conj W1 W2 : wf_struct fs) as W.
  destruct (C18_cfamily_layout (LC loop arith ew feq) _ fs vs 0 (c_data st) I eq_refl W (flat_nd loop fs Fl) Sv Rq' (Z.le_refl 0) B) as (buf & n & E & _ & Ln & _ & Hk).
  { cbn [lang_limit]. exact L31. } { lia. } { intros k Hk. apply Hz. lia. }
  pose proof (C74_text_encode loop arith ew feq dn fs names vs st W Fl Nm H Nt ltac:(lia)) as R. rewrite E in R.
  destruct R as (st' & R & <- & M). exists st'. split; auto. split; auto. split; auto. intros k Hb. specialize (Hk k Hb). replace (k - 8 * 0) with k in Hk by lia. exact Hk.
Qed.
(** And what the C text leaves in a cleared buffer of the struct's size, every other target's decoder reads back. *)
Theorem C74_text_any : forall loop arith ew feq dn L fs names vs st,
  wf_struct fs -> flat loop fs -> names_ok fs names -> fits_fields fs vs -> holds st fs names vs -> no_temps st ->
  can_encode (LC loop arith ew feq) fs -> can_decode L fs -> can_hold L fs vs ->
  zlen (image_fields fs vs) < 8 * 2 ^ 31 -> zlen (image_fields fs vs) < 8 * lang_limit L ->
  c_data st = repeat 0 (Z.to_nat (fixed_bits fs / 8)) ->
  exists st', runs st (enc_text dn fs names 0) (Ok st') /\ lang_decode L fs (c_data st') = Ok (vs, zlen (c_data st')).
Proof.
  intros loop arith ew feq dn L fs names vs st W Fl Nm Ft H Nt Ce Cd Ch L1 L2 Dt.
  pose proof (fits_storable_struct fs vs W Ft) as Sv.
  destruct (encode_size_image fs vs W Sv) as (E1 & _). unfold encode_size in E1. rewrite (flat_fixed loop fs Fl) in E1.
  destruct (C47_any_to_any (LC loop arith ew feq) L fs vs [] W (flat_nd loop fs Fl) Ft Ce Cd Ch) as (msg & E & D).
  { constructor. } { exact L1. } { change (zlen (@nil Z)) with 0. lia. }
  rewrite app_nil_r in D.
  assert (E2 : tencode (c_tgt loop arith ew feq) fs vs = Ok msg) by exact E. unfold tencode in E2.
  assert (Sz : tsize (c_tgt loop arith ew feq) fs vs = fixed_bits fs / 8).
  { unfold tsize. rewrite (flat_fixed loop fs Fl). reflexivity. }
  rewrite Sz, <- Dt in E2.
  pose proof (C74_text_encode loop arith ew feq dn fs names vs st W Fl Nm H Nt ltac:(lia)) as R.
  destruct (tencode_to (c_tgt loop arith ew feq) fs vs 0 (c_data st)) as [[buf n]| |]; cbn [bind] in E2; try discriminate.
  injection E2 as <-. destruct R as (st' & R & <- & _). eauto.
Qed.

(** ** What the missing case does.  A field that crosses a byte boundary and ends, in its last byte, after the bit it starts
    at: the text clears that bit of the last byte, whatever the number. *)
Theorem C74_text_lost_bit_refuted : forall dn b n big from f z st,
  wf_basic b -> int_basic b = true -> 1 <= n <= basic_bits b -> name_okb f = true -> 0 <= from -> from + n < 2 ^ 63 ->
  c_mem st f = Some (One (basic_ctype b) z) -> in_range (basic_ctype b) z = true ->
  from mod 8 <> 0 -> from mod 8 < (from + n) mod 8 -> from / 8 < (from + n - 1) / 8 ->
  forall st', runs st (enc_basic_text dn b n big from (field_name f)) (Ok st') ->
    bitat (c_data st') (8 * ((from + n) / 8) + from mod 8) = false.
Proof.
  intros dn b n big from f z st Wb Ib Hn Nf Hf Hb M R H1 H2 H3 st' Rn.
  assert (X : runs st (enc_basic_text dn b n big from (show (field_px f))) (lift_data st (cf_enc (field_data n big (z mod 2 ^ basic_bits b)) from n 0 (c_data st)))).
  { apply (enc_basic_runs st dn b n big from (field_px f) (PF f) z); auto; try lia; [now apply var_field|]. cbn [object]. now rewrite M. }
  rewrite show_field in X. pose proof (runs_det _ _ _ Rn _ X) as E.
  destruct (cf_enc _ from n 0 (c_data st)) as [d| |] eqn:D; cbn [lift_data] in E; try discriminate. injection E as ->. cbn [set_data c_data].
  pose proof (cf_enc_bad _ n from 0 (c_data st) d (Z.le_refl 0) Hf ltac:(lia) ltac:(unfold cf_good; lia) D) as Q. exact Q.
Qed.

(** ** Concrete cases.
    struct Demo { uint16 a[16b] (big); const int8 5 bits = 0xB; void 3 bits; int32 x[12b]; uint8<3> arr[12b]; enum Color c (4b);
                  enum Color<2> cs (4b each); bool<4> flags } *)
Definition ct_fs : fields :=
  FOne (EBasic (BUint 16)) 16 true
 (FConst (BInt 8) 5 false 11
 (FVoid 3
 (FOne (EBasic (BInt 32)) 12 false
 (FArr (EBasic (BUint 8)) 3 12 false
 (FOne (EEnum 4) 4 false
 (FArr (EEnum 4) 2 8 false
 (FArr (EBasic BBool) 4 4 false FNil))))))).
Definition ct_names : list chars := map cs ["a"; "x"; "arr"; "c"; "cs"; "flags"].
Definition ct_vs : list val :=
  [VNum 1234; VNum (-5); VArr [VNum 1; VNum 15; VNum 7]; VNum 9; VArr [VNum 3; VNum 12]; VArr [VNum 1; VNum 0; VNum 1; VNum 1]].
Definition ct_mem (vals : list (string * ccell)) (f : chars) : option ccell :=
  match find (fun p => eqs f (fst p)) vals with Some p => Some (snd p) | None => None end.
(** The compiler made the enum an unsigned int. *)
Definition ct_st : cst := {|
  c_data := repeat 0 8; c_loc := fun _ => None;
  c_mem := ct_mem [("a", One (CI false 16) 1234); ("x", One (CI true 32) (-5)); ("arr", Many (CI false 8) [1; 15; 7]); ("c", One (CI false 32) 9);
    ("cs", Many (CI false 32) [3; 12]); ("flags", Many CB [1; 0; 1; 1])] |}.
Ltac sch4 := repeat match goal with
  | |- exists eb, _ <= eb <= 4 /\ 12 = _ => exists 4
  | |- exists eb, _ <= eb <= 8 /\ 12 = _ => exists 4
  | |- exists eb, _ /\ 8 = _ => exists 4
  | |- exists eb, _ /\ 4 = _ => exists 1
  | |- _ => progress sch
  end.
Lemma ct_wf : wf_struct ct_fs.
Proof. unfold wf_struct, ct_fs; cbn; sch4. Qed.
Definition ct_loop (len : nat) : bool := Nat.ltb 4 len.
Lemma ct_flat : flat ct_loop ct_fs.
Proof. cbn; repeat split. Qed.
Lemma ct_names_ok : names_ok ct_fs ct_names.
Proof. cbn; repeat split; reflexivity. Qed.
Lemma ct_holds : holds ct_st ct_fs ct_names ct_vs.
Proof.
  cbn [holds ct_fs ct_names map ct_vs obj_ok].
  split; [eexists; repeat split|]. split; [eexists; repeat split|].
  split; [exists (CI false 8), [1; 15; 7]; repeat split; repeat constructor|].
  split; [exists (CI false 32); split; [reflexivity|exists false, 32; split; reflexivity]|].
  split; [exists (CI false 32), [3; 12]; repeat split; repeat (constructor; try (exists false, 32; split; reflexivity))|].
  split; [exists CB, [1; 0; 1; 1]; repeat split; repeat constructor|]. reflexivity.
Qed.
Lemma ct_no_temps : no_temps ct_st.
Proof. intros k _. reflexivity. Qed.
Lemma ct_storable : storable_fields ct_fs ct_vs.
Proof. cbn; sch4. Qed.
Lemma ct_req : req_fields ct_loop c_ereq True ct_fs 0.
Proof.
  cbn [req_fields ct_fs req_elem elem_dyn]. unfold c_ereq, cf_good, next_from; cbn [r_scalar r_const r_loop r_nested]. cbn.
  repeat split; intros; try lia; try discriminate; try reflexivity; try (left; reflexivity); try (right; lia).
Qed.
Example C74_instance : forall dn, exists st', runs ct_st (enc_text dn ct_fs ct_names 0) (Ok st') /\ c_data st' = [4; 210; 11; 251; 31; 127; 57; 220].
Proof.
  intros dn. pose proof (C74_text_encode ct_loop false (fun b => b) (fun _ _ _ => true) dn ct_fs ct_names ct_vs ct_st ct_wf ct_flat ct_names_ok ct_holds ct_no_temps ltac:(reflexivity)) as E.
  assert (X : tencode_to (c_tgt ct_loop false (fun b => b) (fun _ _ _ => true)) ct_fs ct_vs 0 (c_data ct_st) = Ok ([4; 210; 11; 251; 31; 127; 57; 220], 8)) by (vm_compute; reflexivity).
  rewrite X in E. destruct E as (st' & R & D & _). eauto.
Qed.
Example C74_layout_instance : forall dn, exists st', runs ct_st (enc_text dn ct_fs ct_names 0) (Ok st') /\ c_mem st' = c_mem ct_st /\
  bitat (c_data st') 16 = true /\ bitat (c_data st') 21 = false.
Proof.
  intros dn. destruct (C74_text_layout ct_loop dn ct_fs ct_names ct_vs ct_st ct_wf ct_flat ct_names_ok ct_storable ct_holds ct_no_temps ct_req) as (st' & R & M & L & H).
  - apply ex_bytes_ok; reflexivity.
  - vm_compute. reflexivity.
  - vm_compute. discriminate.
  - intros k Hk. unfold bitat. change (c_data ct_st) with (repeat 0 8).
    destruct (Nat.lt_ge_cases (Z.to_nat (k / 8)) 8) as [Lk|Lk].
    + rewrite nth_repeat. apply Z.testbit_0_l.
    + rewrite nth_overflow by (rewrite repeat_length; exact Lk). apply Z.testbit_0_l.
  - exists st'. split; auto. split; auto. split; rewrite H by (vm_compute; intuition congruence); vm_compute; reflexivity.
Qed.
Example C74_printed : firstn 5 (enc_text false ct_fs ct_names 0) = map cs
    ["((uint8_t*)data)[0] = (((((ptr->a >> 8) & 0b11111111) >> 0) << 0) & 0b11111111);";
     "((uint8_t*)data)[1] = (((((ptr->a >> 0) & 0b11111111) >> 0) << 0) & 0b11111111);";
     "((uint8_t*)data)[2] = ((((0xB & 0b11111) >> 0) << 0) & 0b11111);";
     "((uint8_t*)data)[3] = ((((((*((uint32_t*)(&(ptr->x)))) >> 0) & 0b11111111) >> 0) << 0) & 0b11111111);";
     "((uint8_t*)data)[4] = ((((((*((uint32_t*)(&(ptr->x)))) >> 8) & 0b1111) >> 0) << 0) & 0b1111);"] /\
  firstn 4 (skipn 10 (enc_text false ct_fs ct_names 0)) = map cs
    ["uint8_t temp_field_at_pos_52;"; "temp_field_at_pos_52 = (uint8_t)((ptr->cs)[0]);";
     "((uint8_t*)data)[6] |= (((((temp_field_at_pos_52 >> 0) & 0b1111) >> 0) << 4) & 0b11110000);";
     "temp_field_at_pos_52 = (uint8_t)((ptr->cs)[1]);"].
Proof. split; vm_compute; reflexivity. Qed.

(** The lost bit: uint8 a[1b]; uint16 b[9b]; uint8 c[6b] with b = 511. *)
Definition cl_fs : fields := FOne (EBasic (BUint 8)) 1 false (FOne (EBasic (BUint 16)) 9 false (FOne (EBasic (BUint 8)) 6 false FNil)).
Definition cl_names : list chars := map cs ["a"; "b"; "c"].
Definition cl_st : cst := {| c_data := [0; 0]; c_loc := fun _ => None;
  c_mem := ct_mem [("a", One (CI false 8) 1); ("b", One (CI false 16) 511); ("c", One (CI false 8) 0)] |}.
Example C74_lost_bit_instance : wf_struct cl_fs /\ (forall c, encode c cl_fs [VNum 1; VNum 511; VNum 0] = Ok [255; 3]) /\
  exists st', runs cl_st (enc_text false cl_fs cl_names 0) (Ok st') /\ c_data st' = [255; 1].
Proof.
  assert (W : wf_struct cl_fs) by (unfold wf_struct; cbn; sch). split; [exact W|]. split; [intros; vm_compute; reflexivity|].
  pose proof (C74_text_encode ct_loop false (fun b => b) (fun _ _ _ => true) false cl_fs cl_names [VNum 1; VNum 511; VNum 0] cl_st W ltac:(cbn; repeat split)
    ltac:(cbn; repeat split; reflexivity) ltac:(cbn; repeat split; eexists; repeat split; reflexivity) ltac:(intros k _; reflexivity) ltac:(reflexivity)) as E.
  assert (X : tencode_to (c_tgt ct_loop false (fun b => b) (fun _ _ _ => true)) cl_fs [VNum 1; VNum 511; VNum 0] 0 (c_data cl_st) = Ok ([255; 1], 2)) by (vm_compute; reflexivity).
  rewrite X in E. destruct E as (st' & R & D & _). eauto.
Qed.
Example C74_lost_bit_printed : firstn 2 (skipn 1 (enc_text false cl_fs cl_names 0)) = map cs
    ["((uint8_t*)data)[0] |= (((((ptr->b >> 0) & 0b1111111) >> 0) << 1) & 0b11111110);";
     "((uint8_t*)data)[1] = ((((((ptr->b >> 0) & 0b10000000) >> 7) | (((ptr->b >> 8) & 0b1) << 7)) << 0) & 0b11);"].
Proof. vm_compute. reflexivity. Qed.

Print Assumptions C74_text_encode.
Print Assumptions C74_text_layout.
Print Assumptions C74_text_any.
Print Assumptions C74_text_lost_bit_refuted.
Print Assumptions C74_one_outcome.
