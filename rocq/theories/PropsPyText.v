(** C68: the text of the Python statements that pack and unpack the fixed-size fields of a struct.
    The statements are read as Python reads them (ExprSpec.v: tokens, precedences; PySem.v: integers, attributes, lists,
    enum classes, bytes), so the missing parentheses of the decoder show in the text itself. *)
From Coq Require Import ZArith Lia Bool String Ascii List.
Import ListNotations.
From Verif Require Import Base BaseProofs Schema SpecWire GoModel GoCore GoEncMain TgtModel PyTarget Interop Literals ExprSpec PrintTree PySem PySemDet PyText PyTextDec PyTextStruct PropsGo PropsTargets.
Open Scope string_scope.
Open Scope Z_scope.
Open Scope list_scope.
Ltac Zify.zify_post_hook ::= Z.to_euclidean_division_equations.

Lemma flat_fixed unr fs : flat unr fs -> fields_dyn fs = false.
Proof.
  induction fs; cbn [flat fields_dyn]; auto; intros H.
  - destruct H as [H1 H2]. rewrite IHfs by auto. destruct e; try discriminate; reflexivity.
  - destruct H as (H1 & _ & H2). rewrite IHfs by auto. destruct e; try discriminate; reflexivity.
Qed.
Lemma flat_dyn0 unr known fs : flat unr fs -> t_dyn0 (py_tgt unr known) fs = false.
Proof. intros H. unfold t_dyn0. rewrite (flat_fixed unr fs H). apply andb_false_r. Qed.
Lemma flat_nd unr fs : flat unr fs -> nd_fields fs.
Proof.
  induction fs; cbn [flat nd_fields]; auto; intros H.
  - destruct H as [H1 H2]. destruct e; try discriminate; cbn; auto.
  - destruct H as (H1 & _ & H2). destruct e; try discriminate; cbn; auto.
Qed.
Lemma holds_ready st fs : forall names vs, holds st fs names vs -> ready st fs names.
Proof.
  induction fs; intros names vs H; cbn [holds ready] in *; eauto.
  - destruct names as [|f names]; [contradiction|]. destruct vs as [|[z| | |] vs]; try contradiction. destruct H as [H1 H2]. split; eauto. cbn [writable]. now rewrite H1.
  - destruct names as [|f names]; [contradiction|]. destruct vs as [|[| | |arr] vs]; try contradiction. destruct H as [(zs & -> & L & H1) H2]. split; eauto.
    eexists. split; [exact H1|]. now rewrite map_length.
Qed.
Lemma nth_ext' {A} (l m : list A) : List.length l = List.length m -> (forall j v, nth_error l j = Some v -> nth_error m j = Some v) -> l = m.
Proof.
  revert m. induction l as [|v l IH]; intros [|w m] L P; cbn in L; try discriminate; auto.
  pose proof (P O v eq_refl) as E. cbn in E. injection E as ->. f_equal. apply IH; [lia|]. intros j u Hj. exact (P (S j) u Hj).
Qed.
Lemma gholds_holds st st' fs : (forall q, nonlocal q -> get st q = Some Panic -> get st' q = Some Panic) ->
  forall names from vs, wf_fields fs from -> ready st fs names -> gholds st' fs names vs -> holds st' fs names vs.
Proof.
  intros K. induction fs; intros names from vs W H0 H; cbn [wf_fields ready holds gholds] in *; eauto.
  - destruct names as [|f names]; [contradiction|]. destruct vs as [|v vs]; [contradiction|].
    destruct H as [(z & -> & G) H]. destruct H0 as [_ H0]. destruct W as (_ & _ & W). split; [|eauto].
    cbn [get] in G. destruct (p_att st' (att (f_name f))) as [[y|]|]; try discriminate. congruence.
  - destruct names as [|f names]; [contradiction|]. destruct vs as [|[| | |arr] vs]; try contradiction.
    destruct H as [[L A] H]. destruct H0 as [(vs0 & G0 & L0) H0]. destruct W as (_ & Hl & _ & W). split; [|eauto].
    assert (N : get st' (PE (att (f_name f)) (Z.of_nat len)) = Some Panic).
    { apply K; [exact I|]. cbn [get]. rewrite G0, get_elem_ltb, Nat2Z.id. replace (nth_error vs0 len) with (@None pval); [reflexivity|]. symmetry. apply nth_error_None. lia. }
    cbn [get] in N. destruct (p_att st' (att (f_name f))) as [[y|ws]|] eqn:G; try discriminate. rewrite get_elem_ltb, Nat2Z.id in N.
    assert (Lw : (List.length ws <= len)%nat) by (apply nth_error_None; destruct (nth_error ws len); [discriminate|reflexivity]).
    assert (X : exists zs, arr = map VNum zs /\ forall j z, nth_error zs j = Some z -> nth_error ws j = Some (pv e (f_enum f) z)).
    { assert (Y : forall j v, nth_error arr j = Some v -> exists z, v = VNum z /\ nth_error ws j = Some (pv e (f_enum f) z)).
      { intros j v Hj. destruct (A j v Hj) as (z & -> & Gz). exists z. split; auto. cbn [get Nat.add] in Gz. rewrite G, get_elem_ltb, Nat2Z.id in Gz.
        destruct (nth_error ws j); [|discriminate]. congruence. }
      clear -Y. revert ws Y. induction arr as [|v arr IH]; intros ws Y.
      - exists []. split; auto. intros [|j] z Hj; discriminate.
      - destruct (Y O v eq_refl) as (z & -> & E). destruct ws as [|w ws]; [discriminate|]. cbn in E. injection E as ->.
        destruct (IH ws (fun j u Hj => Y (S j) u Hj)) as (zs & -> & P). exists (z :: zs). split; auto.
        intros [|j] y Hj; cbn [nth_error] in *; [congruence|auto]. }
    destruct X as (zs & -> & P). rewrite map_length in L. exists zs. split; auto. split; auto. f_equal. f_equal. symmetry. apply nth_ext'.
    + rewrite map_length. assert (List.length zs <= List.length ws)%nat; [|lia].
      destruct (Nat.leb_spec (List.length zs) (List.length ws)) as [|Lt]; auto. exfalso.
      destruct (nth_error zs (List.length ws)) as [z|] eqn:E; [|apply nth_error_None in E; lia]. apply P in E.
      assert (nth_error ws (List.length ws) = None) by (apply nth_error_None; lia). congruence.
    + intros j v Hj. rewrite nth_error_map in Hj. destruct (nth_error zs j) as [z|] eqn:E; [|discriminate]. cbn [option_map] in Hj. injection Hj as <-. auto.
  - destruct W as [_ W]. eauto.
  - destruct W as (_ & _ & W). eauto.
Qed.

(** ** C68: the encoder.  encode's statements leave in data what encode of PyTarget.v computes, or raise as it does; the
    attributes are unchanged. *)
Theorem C68_text_encode : forall enums unr known dn fs names vs st,
  wf_struct fs -> flat unr fs -> names_ok enums known fs names -> holds st fs names vs ->
  match tencode_to (py_tgt unr known) fs vs 0 (p_data st) with
  | Ok (buf, n) => exists st', runs enums st (enc_text dn fs names 0) (Ok st') /\ p_data st' = buf /\ holds st' fs names vs
  | Panic => runs enums st (enc_text dn fs names 0) Panic
  | Fail => False
  end.
Proof.
  intros enums unr known dn fs names vs st (W & _) Fl Nm H. unfold tencode_to. rewrite (flat_dyn0 unr known fs Fl). pose proof (holds_gholds _ _ _ _ H) as Hg.
  pose proof (enc_fields_run enums unr known dn fs names vs 0 st W Fl Nm Hg (Z.le_refl 0)) as R.
  destruct (tenc_fields (py_tgt unr known) false fs vs 0 0 0 (p_data st)) as [[d o]| |]; cbn [bind after] in *; auto.
  destruct R as (_ & st' & R & D & K). exists st'. split; auto. split; auto.
  refine (gholds_holds st st' fs _ names 0 vs W (holds_ready _ _ _ _ H) (gholds_keeps _ _ _ K _ _ Hg)). intros q N E. now rewrite K.
Qed.
(** Hence the wire layout for the text itself: every number is packed where the schema says, whatever is in the buffer. *)
Theorem C68_text_layout : forall enums unr known dn fs names vs st,
  wf_struct fs -> flat unr fs -> names_ok enums known fs names -> storable_fields fs vs -> holds st fs names vs ->
  bytes_ok (p_data st) -> zlen (p_data st) < 2 ^ 63 -> zlen (image_fields fs vs) <= 8 * zlen (p_data st) ->
  exists st', runs enums st (enc_text dn fs names 0) (Ok st') /\ List.length (p_data st') = List.length (p_data st) /\
    forall k, 0 <= k < 8 * zlen (p_data st) ->
      bitat (p_data st') k = match onth (image_fields fs vs) k with Some (Some b) => b | _ => bitat (p_data st) k end.
Proof.
  intros enums unr known dn fs names vs st W Fl Nm Sv H B L63 Hl.
  destruct (C21_python_layout unr known fs vs 0 (p_data st) W (flat_nd unr fs Fl) Sv (Z.le_refl 0) B L63 Hl) as (buf & n & E & _ & Ln & _ & Hk).
  pose proof (C68_text_encode enums unr known dn fs names vs st W Fl Nm H) as R. rewrite E in R.
  destruct R as (st' & R & <- & _). exists st'. split; auto. split; auto. intros k Hb. specialize (Hk k Hb). replace (k - 8 * 0) with k in Hk by lia. exact Hk.
Qed.

(** ** The decoder.  If the buffer is long enough (decode_size is asked before), the statements leave in the attributes
    what decode of PyTarget.v returns, raise as it does, or return False, 0 where it refuses a constant. *)
Theorem C68_text_decode : forall enums unr known dn base fs names st,
  wf_struct fs -> flat unr fs -> names_ok enums known fs names -> NoDup (map (fun f => att (f_name f)) names) ->
  consts_shown dn base fs 0 -> ready st fs names -> fixed_bits fs / 8 <= zlen (p_data st) ->
  match tdecode (py_tgt unr known) fs 0 (p_data st) with
  | Ok (vs, n) => exists st', runs enums st (dec_text dn base fs names 0) (Ok st') /\ holds st' fs names vs /\ p_data st' = p_data st
  | Panic => runs enums st (dec_text dn base fs names 0) Panic
  | Fail => runs enums st (dec_text dn base fs names 0) Fail
  end.
Proof.
  intros enums unr known dn base fs names st (W & _) Fl Nm Nd Cs Rd Sz. unfold tdecode.
  assert (Ck : exists s, tcheck (py_tgt unr known) fs (p_data st) 0 = Ok s).
  { assert (X : forall f d from, flat unr f -> wf_fields f from -> tds_fields (py_tgt unr known) f from 0 d = Ok (DOff 0)).
    { induction f as [|e n big r IHf|e len n big r IHf|n r IHf|b n big z r IHf|r IHf]; intros d from Hf Wf; cbn [flat wf_fields tds_fields] in *; auto.
      - destruct Hf as [P Hf]. destruct (plain_fixed e P) as [P1 P2]. rewrite P1 in Wf. destruct Wf as (_ & Wn & Wf).
        destruct (Z.ltb_spec n 0); [lia|]. cbn [py_tgt t_kt orb andb bind]. now apply IHf.
      - destruct Hf as (P & _ & Hf). destruct (plain_fixed e P) as [P1 P2]. rewrite P1 in Wf. destruct Wf as (_ & Wl & (eb & Wn & ->) & Wf).
        destruct (Z.ltb_spec (Z.of_nat len * eb) 0); [nia|]. cbn [py_tgt t_kt orb andb bind]. now apply IHf.
      - destruct Wf as [Wn Wf]. rewrite next_scalar by lia. auto.
      - destruct Wf as (_ & Wn & Wf). rewrite next_scalar by lia. auto. }
    unfold tcheck. cbn [py_tgt t_checked t_sub]. cbn [bind]. change (skipn (Z.to_nat 0) (p_data st)) with (p_data st). unfold tdecode_size. fold (py_tgt unr known). rewrite (X fs _ 0 Fl W). cbn [bind].
    cbv zeta. destruct (Z.ltb_spec (zlen (p_data st)) (0 + fixed_bits fs / 8)); [lia|].
    assert (0 <= fixed_bits fs).
    { clear. induction fs; cbn [fixed_bits]; repeat match goal with |- context [if ?c <? ?d then _ else _] => destruct (Z.ltb_spec c d) end; lia. }
    destruct (Z.ltb_spec (0 + fixed_bits fs / 8) 0); [lia|]. eauto. }
  destruct Ck as [s ->]. cbn [bind]. rewrite (flat_dyn0 unr known fs Fl).
  pose proof (dec_fields_run enums unr known dn base fs names 0 st W Fl Nm Nd Cs (ready_gready _ _ _ Rd) (Z.le_refl 0)) as R.
  destruct (tdec_fields (py_tgt unr known) false fs 0 0 0 (p_data st)) as [[vs o]| |]; cbn [bind dout] in *; auto.
  destruct R as (_ & st' & R & H & K). exists st'. split; auto. split; [|apply (fr_data _ _ _ K)]. exact (gholds_holds _ _ _ (fr_end _ _ _ K) _ _ _ W Rd H).
Qed.

(** The text leaves no choice: it has one outcome. *)
Theorem C68_one_outcome : forall enums st text r r', runs enums st text r -> runs enums st text r' -> r = r'.
Proof. intros enums st text r r' H H'. exact (runs_det _ _ _ _ H _ H'). Qed.

Lemma req_top lp R (p q : Prop) fs : (p -> q) -> forall from, req_fields lp R p fs from -> req_fields lp R q fs from.
Proof.
  intros I. induction fs as [|e n big r IH|e len n big r IH|n r IH|b n big z r IH|r IH]; intros from H; cbn [req_fields] in *; auto.
  - destruct H as [H1 H2]. auto.
  - destruct H as [H1 H2]. split; auto. destruct (elem_dyn e); auto. destruct (lp len); auto. destruct H1 as [H1 H3]. split; auto. destruct H1; auto.
  - destruct H as [H1 H2]. auto.
Qed.
(** Encoder's text, then decoder's text in another process and under other settings: the values come back, if every field
    is byte-aligned, at most 8 bits wide, or little-endian within two bytes ([py_dreq]), and every enum number has a name. *)
Theorem C68_text_roundtrip : forall enums enums' unr unr' known known' dn dn' base fs names names' vs st,
  wf_struct fs -> flat unr fs -> flat unr' fs -> names_ok enums known fs names -> names_ok enums' known' fs names' ->
  NoDup (map (fun f => att (f_name f)) names') -> consts_shown dn' base fs 0 ->
  req_fields (t_loop (py_tgt unr' known')) py_dreq True fs 0 -> fits_fields fs vs -> can_hold (LPy unr' known') fs vs ->
  holds st fs names vs -> bytes_ok (p_data st) -> fixed_bits fs / 8 <= zlen (p_data st) < 2 ^ 63 ->
  exists st1, runs enums st (enc_text dn fs names 0) (Ok st1) /\
    forall st2, ready st2 fs names' -> p_data st2 = p_data st1 ->
    exists st3, runs enums' st2 (dec_text dn' base fs names' 0) (Ok st3) /\ holds st3 fs names' vs.
Proof.
  intros enums enums' unr unr' known known' dn dn' base fs names names' vs st W Fl Fl' Nm Nm' Nd Cs Rq Ft Ch H B Hl.
  pose proof (fits_storable_struct fs vs W Ft) as Sv. pose proof (flat_nd unr fs Fl) as Ndf.
  destruct (encode_size_image fs vs W Sv) as (E1 & _). unfold encode_size in E1. rewrite (flat_fixed unr fs Fl) in E1.
  destruct (C21_python_layout unr known fs vs 0 (p_data st) W Ndf Sv (Z.le_refl 0) B ltac:(lia) ltac:(lia)) as (buf & n & E & Bb & Ln & _ & Hk).
  pose proof (C68_text_encode enums unr known dn fs names vs st W Fl Nm H) as R. rewrite E in R. destruct R as (st1 & R & Ed & _).
  exists st1. split; auto. intros st2 H2 E2. rewrite Ed in E2.
  assert (Zl : zlen buf = zlen (p_data st)) by (unfold zlen; now rewrite Ln).
  assert (M : matches buf (8 * 0) (image_fields fs vs)).
  { split; [rewrite Zl; lia|]. intros j b Hj. pose proof (onth_Some _ _ _ Hj) as Rj. assert (Q : 0 <= 8 * 0 + j < 8 * zlen (p_data st)) by lia. specialize (Hk _ Q). replace (8 * 0 + j - 8 * 0) with j in Hk by lia. rewrite Hj in Hk. exact Hk. }
  assert (Rq' : req_fields (t_loop (py_tgt unr' known')) py_dreq (0 = 0) fs 0).
  { exact (req_top _ _ _ _ _ (fun _ => eq_refl) _ Rq). }
  destruct (C21_python_decodes unr' known' fs vs 0 buf W Ndf Ft Ch Rq' (Z.le_refl 0) Bb ltac:(lia) M) as (m & D & _).
  pose proof (C68_text_decode enums' unr' known' dn' base fs names' st2 W Fl' Nm' Nd Cs H2) as X. rewrite E2, D in X.
  destruct (X ltac:(lia)) as (st3 & R3 & H3 & _). eauto.
Qed.

(** ** What the missing parentheses do.  A field of any other kind is misread by the text itself: whatever the other fields
    hold, no run of the printed statements ends with the values that were sent. *)
Lemma holds_det st fs : forall names vs vs', holds st fs names vs -> holds st fs names vs' -> vs = vs'.
Proof.
  assert (P : forall e en z z', pv e en z = pv e en z' -> z = z') by (intros e en z z' E; destruct e; cbn [pv] in E; congruence).
  induction fs; intros names vs vs' H H'; cbn [holds] in *; eauto; try congruence.
  - destruct names as [|f names]; [contradiction|]. destruct vs as [|[z| | |] vs]; try contradiction. destruct vs' as [|[z'| | |] vs']; try contradiction.
    destruct H as [A H], H' as [A' H']. f_equal; [|eauto]. f_equal. apply (P e (f_enum f)). congruence.
  - destruct names as [|f names]; [contradiction|]. destruct vs as [|[| | |arr] vs]; try contradiction. destruct vs' as [|[| | |arr'] vs']; try contradiction.
    destruct H as [(zs & -> & L & A) H], H' as [(zs' & -> & L' & A') H']. f_equal; [|eauto]. f_equal. f_equal.
    rewrite A in A'. injection A' as A'. clear -P A'. revert zs' A'. induction zs as [|z zs IH]; intros [|z' zs'] E; try discriminate; auto.
    cbn [map] in E. injection E as E1 E2. f_equal; [now apply (P e (f_enum f))|auto].
Qed.
Theorem C68_text_misread_refuted : forall enums unr known dn base a w n big r names va vr st,
  let fs := fapp a (FOne (EBasic (BUint w)) n big r) in
  let vs := va ++ VNum (2 ^ (if big then n - 8 else 8)) :: vr in
  wf_struct fs -> flat unr fs -> names_ok enums known fs names -> NoDup (map (fun f => att (f_name f)) names) ->
  consts_shown dn base fs 0 -> ready st fs names -> storable_fields a va ->
  ~ (fixed_bits a mod 8 = 0 \/ n <= 8 \/ (big = false /\ fixed_bits a mod 8 + n <= 16)) ->
  bytes_ok (p_data st) -> matches (p_data st) 0 (image_fields fs vs) -> fixed_bits fs / 8 <= zlen (p_data st) ->
  forall st', runs enums st (dec_text dn base fs names 0) (Ok st') -> ~ holds st' fs names vs.
Proof.
  intros enums unr known dn base a w n big r names va vr st fs vs W Fl Nm Nd Cs Rd Sa Bad B M Sz st' R H.
  assert (Fa : fields_dyn a = false).
  { assert (X : flat unr a).
    { subst fs. clear -Fl. revert Fl. induction a; cbn [fapp flat]; intuition auto. }
    exact (flat_fixed unr a X). }
  pose proof (C68_text_decode enums unr known dn base fs names st W Fl Nm Nd Cs Rd Sz) as X.
  destruct (tdecode (py_tgt unr known) fs 0 (p_data st)) as [[vs1 m]| |] eqn:D.
  - destruct X as (st1 & R1 & H1 & _). pose proof (runs_det _ _ _ _ R _ R1) as E. injection E as <-.
    pose proof (holds_det _ _ _ _ _ H H1) as <-. revert D. apply (C21_python_misread unr known a w n big r va vr 0 (p_data st) m W Fa Sa Bad (Z.le_refl 0) B M).
  - pose proof (runs_det _ _ _ _ R _ X). discriminate.
  - pose proof (runs_det _ _ _ _ R _ X). discriminate.
Qed.

(** ** Concrete cases.
    struct Demo { uint16 a[16b] (big); const int8 5 bits = 0xB; void 3 bits; int32 x[12b]; uint8<3> arr[12b]; enum Color c (4b);
                  enum Color<2> cs (4b each); bool<4> flags } *)
Definition pt_fs : fields :=
  FOne (EBasic (BUint 16)) 16 true
 (FConst (BInt 8) 5 false 11
 (FVoid 3
 (FOne (EBasic (BInt 32)) 12 false
 (FArr (EBasic (BUint 8)) 3 12 false
 (FOne (EEnum 4) 4 false
 (FArr (EEnum 4) 2 8 false
 (FArr (EBasic BBool) 4 4 false FNil))))))).
Definition pt_names : list fname :=
  map (fun p => {| f_name := cs (fst p); f_enum := cs (snd p) |})
    [("a", ""); ("x", ""); ("arr", ""); ("c", "Color"); ("cs", "Color"); ("flags", "")].
Definition pt_vs : list val :=
  [VNum 1234; VNum (-5); VArr [VNum 1; VNum 15; VNum 7]; VNum 9; VArr [VNum 3; VNum 12]; VArr [VNum 1; VNum 0; VNum 1; VNum 1]].
Definition pt_known (bits p : Z) : bool := (bits =? 4) && ((p =? 3) || (p =? 9) || (p =? 12)).
Definition pt_enums (s : chars) : option (Z -> bool) := if eqs s "Color" then Some (pt_known 4) else None.
Definition pt_atts (vals : list (string * pcell)) (f : chars) : option pcell :=
  match find (fun p => eqs f (fst p)) vals with Some p => Some (snd p) | None => None end.
Definition color (z : Z) : pval := VE (cs "Color") z.
Definition pt_st : pst := {|
  p_data := repeat 255 8; p_loc := fun _ => None;
  p_att := pt_atts [("_a", One (VI 1234)); ("_x", One (VI (-5))); ("_arr", Many [VI 1; VI 15; VI 7]); ("_c", One (color 9)); ("_cs", Many [color 3; color 12]);
    ("_flags", Many [VI 1; VI 0; VI 1; VI 1])] |}.
Definition pt_st2 (data : list Z) : pst := {|
  p_data := data; p_loc := fun _ => None;
  p_att := pt_atts [("_a", One (VI 0)); ("_x", One (VI 7)); ("_arr", Many [VI 0; VI 0; VI 0]); ("_c", One (VI 0)); ("_cs", Many [VI 0; color 3]);
    ("_flags", Many [VI 0; VI 0; VI 0; VI 0])] |}.
Ltac sch4 := repeat match goal with
  | |- exists eb, _ <= eb <= 4 /\ 12 = _ => exists 4
  | |- exists eb, _ <= eb <= 8 /\ 12 = _ => exists 4
  | |- exists eb, _ /\ 8 = _ => exists 4
  | |- exists eb, _ /\ 4 = _ => exists 1
  | |- _ => progress sch
  end.
Lemma pt_wf : wf_struct pt_fs.
Proof. unfold wf_struct, pt_fs; cbn; sch4. Qed.
Lemma pt_flat unr : unr = -1 \/ unr = 4 -> flat unr pt_fs.
Proof. intros [-> | ->]; cbn; repeat split. Qed.
Lemma pt_names_ok : names_ok pt_enums pt_known pt_fs pt_names.
Proof. cbn; repeat split; try reflexivity; exists (pt_known 4); split; reflexivity. Qed.
Lemma pt_nodup : NoDup (map (fun f => att (f_name f)) pt_names).
Proof. repeat constructor; cbn; intuition discriminate. Qed.
Lemma pt_holds : holds pt_st pt_fs pt_names pt_vs.
Proof.
  cbn [holds pt_fs pt_names map pt_vs fst snd f_name f_enum].
  split; [reflexivity|]. split; [reflexivity|]. split; [exists [1; 15; 7]; repeat split|]. split; [reflexivity|]. split; [exists [3; 12]; repeat split|].
  split; [exists [1; 0; 1; 1]; repeat split|]. reflexivity.
Qed.
Lemma pt_ready data : ready (pt_st2 data) pt_fs pt_names.
Proof. cbn. repeat split; eexists; split; reflexivity. Qed.
Lemma pt_bufok : bytes_ok (p_data pt_st).
Proof. apply ex_bytes_ok; reflexivity. Qed.
Lemma pt_fits : fits_fields pt_fs pt_vs.
Proof. cbn; sch4. Qed.
Lemma pt_shown : consts_shown false (fun _ => BHex) pt_fs 0.
Proof. cbn. split; auto. left. lia. Qed.
Lemma pt_req : req_fields (t_loop (py_tgt 4 pt_known)) py_dreq True pt_fs 0.
Proof.
  cbn [req_fields pt_fs req_elem elem_dyn]. unfold py_dreq; cbn [r_scalar r_const r_loop r_nested]; unfold py_good, next_from; cbn. repeat split; intros; lia.
Qed.
Lemma pt_hold : can_hold (LPy 4 pt_known) pt_fs pt_vs.
Proof. cbn. unfold py_vp. repeat constructor. Qed.
Lemma pt_encode : tencode_to (py_tgt (-1) pt_known) pt_fs pt_vs 0 (p_data pt_st) = Ok ([4; 210; 235; 251; 31; 127; 57; 220], 8).
Proof. vm_compute. reflexivity. Qed.
Example C68_instance : exists st1, runs pt_enums pt_st (enc_text false pt_fs pt_names 0) (Ok st1) /\
  p_data st1 = [4; 210; 235; 251; 31; 127; 57; 220] /\
  exists st3, runs pt_enums (pt_st2 (p_data st1)) (dec_text false (fun _ => BHex) pt_fs pt_names 0) (Ok st3) /\ holds st3 pt_fs pt_names pt_vs.
Proof.
  destruct (C68_text_roundtrip pt_enums pt_enums (-1) 4 pt_known pt_known false false (fun _ => BHex) pt_fs pt_names pt_names pt_vs pt_st pt_wf
    (pt_flat _ (or_introl eq_refl)) (pt_flat _ (or_intror eq_refl)) pt_names_ok pt_names_ok pt_nodup pt_shown pt_req pt_fits pt_hold pt_holds pt_bufok) as (st1 & R & H).
  { vm_compute. split; [discriminate|reflexivity]. }
  pose proof (C68_text_encode pt_enums (-1) pt_known false pt_fs pt_names pt_vs pt_st pt_wf (pt_flat _ (or_introl eq_refl)) pt_names_ok pt_holds) as E. rewrite pt_encode in E.
  destruct E as (st1' & R' & D & _). pose proof (runs_det _ _ _ _ R _ R') as X. injection X as <-.
  exists st1. split; [exact R|]. split; [exact D|]. apply H; [apply pt_ready|reflexivity].
Qed.
Example C68_printed : firstn 3 (enc_text false pt_fs pt_names 0) = map cs
    ["data[0] = (data[0] & ~0xFF) | ((((((self._a >> 8)) >> 0) & 0xFF)) & 0xFF)";
     "data[1] = (data[1] & ~0xFF) | ((((((self._a >> 0)) >> 0) & 0xFF)) & 0xFF)";
     "data[2] = (data[2] & ~0x1F) | (((((0xB) >> 0) & 0x1F)) & 0x1F)"] /\
  firstn 6 (dec_text false (fun _ => BHex) pt_fs pt_names 0) = map cs
    ["self._a = ((((data[0]) >> 0) & 0xFF) << 8)"; "self._a |= ((((data[1]) >> 0) & 0xFF) << 0)";
     "temp_field_at_pos_16 = ((((data[2]) >> 0) & 0x1F) << 0)"; "temp_field_at_pos_16 = ((temp_field_at_pos_16) ^ 0x10) - 0x10";
     "if temp_field_at_pos_16 != 0xB:"; "            return False, 0"].
Proof. split; vm_compute; reflexivity. Qed.

(** The misread field, 4 bits then 20 bits: the second statement shifts only its last operand.  256 arrives as 1. *)
Definition pm_fs : fields := fapp (FOne (EBasic (BUint 8)) 4 false FNil) (FOne (EBasic (BUint 32)) 20 false FNil).
Definition pm_names : list fname := map (fun p => {| f_name := cs p; f_enum := [] |}) ["a"; "b"].
Definition pm_st : pst := {| p_data := [3; 16; 0]; p_loc := fun _ => None; p_att := pt_atts [("_a", One (VI 0)); ("_b", One (VI 0))] |}.
Example C68_misread_printed : skipn 2 (dec_text false (fun _ => BHex) pm_fs pm_names 0) = map cs
    ["self._b |= ((((data[1]) >> 4) & 0xF) | ((((data[2]) >> 0) & 0xF) << 4) << 8)"; "self._b |= ((((data[2]) >> 4) & 0xF) << 16)"].
Proof. vm_compute. reflexivity. Qed.
Example C68_misread_instance : wf_struct pm_fs /\ lang_encode (LPy 8 ex_known) pm_fs [VNum 3; VNum 256] = Ok (p_data pm_st) /\
  exists st', runs pt_enums pm_st (dec_text false (fun _ => BHex) pm_fs pm_names 0) (Ok st') /\ holds st' pm_fs pm_names [VNum 3; VNum 1].
Proof.
  assert (W : wf_struct pm_fs) by (unfold wf_struct; cbn; sch). split; [exact W|]. split; [vm_compute; reflexivity|].
  assert (Nd : NoDup (map (fun f => att (f_name f)) pm_names)) by (repeat constructor; cbn; intuition discriminate).
  assert (Nm : names_ok pt_enums ex_known pm_fs pm_names) by (cbn; repeat split; reflexivity).
  pose proof (C68_text_decode pt_enums 8 ex_known false (fun _ => BHex) pm_fs pm_names pm_st W ltac:(cbn; auto) Nm Nd ltac:(cbn; auto) ltac:(cbn; auto) ltac:(vm_compute; discriminate)) as X.
  assert (E : tdecode (py_tgt 8 ex_known) pm_fs 0 (p_data pm_st) = Ok ([VNum 3; VNum 1], 3)) by (vm_compute; reflexivity).
  rewrite E in X. destruct X as (st' & R & H & _). eauto.
Qed.

Lemma pm_matches : matches (p_data pm_st) 0 (image_fields pm_fs [VNum 3; VNum 256]).
Proof.
  split; [vm_compute; discriminate|]. intros k b H. pose proof (onth_Some _ _ _ H) as R.
  change (zlen (image_fields pm_fs [VNum 3; VNum 256])) with 24 in R.
  assert (A : forallb (fun j => match onth (image_fields pm_fs [VNum 3; VNum 256]) (Z.of_nat j) with
    Some (Some b) => Bool.eqb (bitat (p_data pm_st) (0 + Z.of_nat j)) b | _ => true end) (seq 0 24) = true) by (vm_compute; reflexivity).
  rewrite forallb_forall in A. specialize (A (Z.to_nat k)). rewrite in_seq in A. specialize (A ltac:(lia)). rewrite Z2Nat.id in A by lia. rewrite H in A.
  now apply eqb_prop in A.
Qed.
Example C68_misread_applies : forall st', runs pt_enums pm_st (dec_text false (fun _ => BHex) pm_fs pm_names 0) (Ok st') -> ~ holds st' pm_fs pm_names [VNum 3; VNum 256].
Proof.
  assert (W : wf_struct pm_fs) by (unfold wf_struct; cbn; sch).
  assert (Nd : NoDup (map (fun f => att (f_name f)) pm_names)) by (repeat constructor; cbn; intuition discriminate).
  assert (Nm : names_ok pt_enums ex_known pm_fs pm_names) by (cbn; repeat split; reflexivity).
  assert (B : bytes_ok (p_data pm_st)) by (apply ex_bytes_ok; reflexivity).
  apply (C68_text_misread_refuted pt_enums 8 ex_known false (fun _ => BHex) (FOne (EBasic (BUint 8)) 4 false FNil) 32 20 false FNil pm_names [VNum 3] [] pm_st W
    ltac:(cbn; auto) Nm Nd ltac:(cbn; auto) ltac:(cbn; auto) ltac:(cbn; sch) ltac:(cbn; lia) B pm_matches ltac:(vm_compute; discriminate)).
Qed.

Print Assumptions C68_text_encode.
Print Assumptions C68_text_layout.
Print Assumptions C68_text_decode.
Print Assumptions C68_text_roundtrip.
Print Assumptions C68_text_misread_refuted.
Print Assumptions C68_one_outcome.
