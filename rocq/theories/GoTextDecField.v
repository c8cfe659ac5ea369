(** Fields: sign extension, enums and constants when decoding; enums when encoding. *)
From Coq Require Import ZArith Lia Bool String Ascii List.
Import ListNotations.
From Verif Require Import Base BaseProofs Schema GoModel GoEncMain Literals PropsLit ExprModel ExprSpec ExprProofs ExprLex ExprParse PrintTree GoSem GoText GoTextLex GoTextEnc GoTextField GoTextDec.
Open Scope string_scope.
Open Scope Z_scope.
Open Scope list_scope.
Ltac Zify.zify_post_hook ::= Z.to_euclidean_division_equations.

(** Unsigned literals. *)
Lemma emit_go_uns dn b v : 0 <= v < 2 ^ 64 -> emit_int OGo dn (make_int_lit false v b) =
  let e := if dn then BDec else match b with BAuto => BDec | x => x end in base_pre e ++ fmt_uint (base_num e) v.
Proof.
  intros Hv. unfold emit_int, make_int_lit, format_int. cbn [i_base i_uns i_val].
  assert (E : sext 64 v mod 2 ^ 64 = v) by (rewrite sext_mod by lia; apply Z.mod_small; lia). rewrite E. destruct dn, b; reflexivity.
Qed.
Definition masklit (dn : bool) (n : Z) : chars := emit_int OGo dn (make_int_lit false (Z.shiftl 1 (n - 1)) BHex).
Lemma mask_range w n : 1 <= n < w -> w <= 64 -> 0 < Z.shiftl 1 (n - 1) < 2 ^ (w - 1) /\ Z.shiftl 1 (n - 1) < 2 ^ 64.
Proof.
  intros H W. rewrite Z.shiftl_1_l. split; [split; [apply Z.pow_pos_nonneg; lia|apply Z.pow_lt_mono_r; lia]|apply Z.pow_lt_mono_r; lia].
Qed.
Lemma masklit_int_lit dn w n : 1 <= n < w -> w <= 64 -> int_lit (masklit dn n) = true.
Proof. intros H W. destruct (mask_range w n H W) as [A B]. unfold masklit. rewrite emit_go_uns by lia. apply pre_int_lit. lia. Qed.
Lemma masklit_reads dn w n : 1 <= n < w -> w <= 64 -> reads OGo (masklit dn n) = Some (Z.shiftl 1 (n - 1)).
Proof. intros H W. destruct (mask_range w n H W) as [A B]. unfold masklit. rewrite emit_go_uns by lia. apply reads_fmt_go. lia. Qed.
Lemma int_name_ok w : w = 8 \/ w = 16 \/ w = 32 \/ w = 64 -> plain_id OGo (int_name w) = true /\ (forall named, type_of named (int_name w) = Some (GI w)).
Proof. intros [->|[->|[->| ->]]]; repeat split; reflexivity. Qed.

Definition shift_px (w n : Z) (x : px) : px :=
  PBin ">>" (PCall (PId (int_name w)) (PBin "<<" (PPar x) (PNum (fmtd (w - n))))) (PNum (fmtd (w - n))).
Definition arith_px (dn : bool) (n : Z) (x : px) : px :=
  PBin "-" (PPar (PBin "^" (PPar x) (PNum (masklit dn n)))) (PNum (masklit dn n)).
Lemma pwf_shift w n x st p : w = 8 \/ w = 16 \/ w = 32 \/ w = 64 -> n < w -> var st x p -> pwf OGo (shift_px w n x) = true.
Proof.
  intros W H V. destruct (int_name_ok w W) as [U _]. pose proof (fmtd_int_lit (w - n) ltac:(lia)) as L.
  unfold shift_px. apply pwf_bin; try reflexivity; [|now apply pwf_num]. apply pwf_call; [exact U| |reflexivity].
  apply pwf_bin; try reflexivity; [apply pwf_par, V|now apply pwf_num].
Qed.
Lemma pwf_arith dn w n x st p : 1 <= n < w -> w <= 64 -> var st x p -> pwf OGo (arith_px dn n x) = true.
Proof.
  intros H W V. pose proof (masklit_int_lit dn w n H W) as L.
  unfold arith_px. apply pwf_bin; try reflexivity; [|now apply pwf_num]. apply pwf_par.
  apply pwf_bin; try reflexivity; [apply pwf_par, V|now apply pwf_num].
Qed.
Lemma sext_sext w z : 1 <= w -> sext w (sext w z) = sext w z.
Proof. intros H. apply sext_congr. now apply sext_mod. Qed.
Lemma eval_shift named st w n x p z : w = 8 \/ w = 16 \/ w = 32 \/ w = 64 -> 1 <= n < w -> var st x p -> get st p = Some (GI w, z) ->
  eval named st (tree (shift_px w n x)) = Some (Ok (GV (GI w) (Z.shiftr (sext w (Z.shiftl z (w - n))) (w - n)))).
Proof.
  intros W H V G. destruct (int_name_ok w W) as [_ Ty]. unfold shift_px. cbn [tree].
  pose proof (eval_place named st _ _ _ _ (v_place _ _ _ V) G) as Ex.
  pose proof (eval_num named st _ _ (fmtd_reads (w - n) ltac:(lia))) as En.
  pose proof (eval_shl named st _ _ _ _ Ex En) as E1. unfold shift in E1. destruct (Z.ltb_spec (w - n) 0); [lia|]. cbn [result is_int ret option_map wrap] in E1.
  pose proof (eval_conv named st _ _ _ _ (Ty named) E1) as E2. unfold conversion in E2. cbn [is_int ret option_map wrap] in E2. rewrite sext_sext in E2 by lia.
  rewrite (eval_shr named st _ _ _ _ E2 En). unfold shift. destruct (Z.ltb_spec (w - n) 0); [lia|]. cbn [result is_int ret option_map wrap].
  rewrite (sext_id w (Z.shiftr _ _)); [reflexivity|lia|]. pose proof (sext_range w (Z.shiftl z (w - n)) ltac:(lia)) as R.
  set (q := sext w (Z.shiftl z (w - n))) in *. rewrite Z.shiftr_div_pow2 by lia. assert (0 < 2 ^ (w - n)) by (apply Z.pow_pos_nonneg; lia).
  assert (0 < 2 ^ (w - 1)) by (apply Z.pow_pos_nonneg; lia). revert R. generalize (2 ^ (w - 1)) (2 ^ (w - n)) H2 H3. clear. intros a b Hb Ha R. split.
  - apply Z.div_le_lower_bound; nia.
  - apply Z.div_lt_upper_bound; nia.
Qed.
Lemma eval_arith named st dn w n x p t z : t = GI w \/ t = GU w -> 1 <= n < w -> w <= 64 -> var st x p -> get st p = Some (t, z) ->
  eval named st (tree (arith_px dn n x)) = Some (Ok (GV t (wrap t (wrap t (Z.lxor z (Z.shiftl 1 (n - 1))) - Z.shiftl 1 (n - 1))))).
Proof.
  intros T H W V G. destruct (mask_range w n H W) as [M1 M2]. unfold arith_px. cbn [tree].
  pose proof (eval_place named st _ _ _ _ (v_place _ _ _ V) G) as Ex.
  pose proof (eval_num named st _ _ (masklit_reads dn w n H W)) as En. set (m := Z.shiftl 1 (n - 1)) in *.
  assert (A : forall f y, arith f (GV t y) (GC None m) = Some (GV t (wrap t (f y m)))).
  { intros f y. unfold arith. cbn [join]. assert (F : is_int t && fits_ty t m = true).
    { destruct T as [->| ->]; cbn [is_int fits_ty andb].
      - destruct (Z.leb_spec (- 2 ^ (w - 1)) m); [|lia]. destruct (Z.ltb_spec m (2 ^ (w - 1))); [reflexivity|lia].
      - assert (2 ^ (w - 1) < 2 ^ w) by (apply Z.pow_lt_mono_r; lia). destruct (Z.leb_spec 0 m); [|lia]. destruct (Z.ltb_spec m (2 ^ w)); [reflexivity|lia]. }
    rewrite F. unfold result. destruct T as [->| ->]; reflexivity. }
  pose proof (eval_xor named st _ _ _ _ Ex En) as E1. rewrite A in E1. cbn [ret option_map] in E1.
  rewrite (eval_sub named st _ _ _ _ E1 En), A. reflexivity.
Qed.

(** Running one assignment to a variable. *)
Lemma run_set named st x p t z r v : var st x p -> get st p = Some (t, z) -> pwf OGo r = true -> eval named st (tree r) = Some (Ok (GV t v)) ->
  exists st', runs named st [show x ++ cs " = " ++ show r] (Ok st') /\ moved st p t v st'.
Proof.
  intros V G W E. destruct (put_moved st p t z v G) as (st' & Ep & M). exists st'. split; [|exact M].
  eapply runs_cons; [apply (set_reads "=" x r); [now left|apply V|exact W]| |constructor].
  unfold exec. change (eqs (cs "=") "=") with true. cbv iota. rewrite E.
  rewrite (store_place named st _ p t z _ v (v_place _ _ _ V) G (assign_same t v)), Ep. reflexivity.
Qed.

Lemma of_pattern b v : of_bits (gty_of b) v = match b with BInt w => sext w v | _ => v end.
Proof. destruct b; reflexivity. Qed.
Lemma gty_tgt b : tgt_ty b (gty_of b).
Proof. destruct b; cbn; auto. Qed.

Theorem dec_basic_runs named st c dn dyn b n big from x p z : wf_basic b -> 0 <= from -> 1 <= n <= basic_bits b -> bytes_ok (g_data st) ->
  var st x p -> get st p = Some (gty_of b, z) -> fits_int st dyn (from + n) ->
  match dec_pattern (basic_bits b) n big from (base_of st dyn) 0 (g_data st) with
  | Ok v => 0 <= v < 2 ^ basic_bits b /\ exists st', runs named st (dec_basic_text c dn dyn b n big from (show x)) (Ok st') /\ moved st p (gty_of b) (dec_value c b n v) st'
  | Panic => runs named st (dec_basic_text c dn dyn b n big from (show x)) Panic
  | Fail => False
  end.
Proof.
  intros Wb Hf Hn B V G F. unfold dec_pattern, dec_basic_text.
  assert (C0 : 0 = 0 /\ 0 < n /\ Z.to_nat n <> O \/ 8 <= 0 /\ z = of_bits (gty_of b) 0 /\ 0 <= 0 < 2 ^ basic_bits b) by (left; lia).
  pose proof (dec_chunks_run named dn dyn b n big from x p (gty_of b) Wb (gty_tgt b) Hf (Z.to_nat n) 0 st z 0 V G B F ltac:(lia) C0) as H. clear C0.
  destruct (dec_chunks (Z.to_nat n) (basic_bits b) from n 0 big (base_of st dyn) 0 (g_data st)) as [v| |]; [|exact H|].
  2: { apply runs_app_panic; [exact H|congruence]. }
  destruct H as (Hv & st1 & R & M). split; [exact Hv|]. rewrite of_pattern in M.
  assert (Z0 : forall ls, ls = [] -> exists st', runs named st (dec_chunk_texts dn dyn (Z.to_nat n) b from n 0 big (show x) ++ ls) (Ok st') /\
    moved st p (gty_of b) (match b with BInt w => sext w v | _ => v end) st').
  { intros ls ->. rewrite app_nil_r. eauto. }
  destruct b as [|w|w|w]; try (apply Z0; reflexivity).
  cbn [sign_text dec_value basic_bits gty_of] in *. unfold dec_int. destruct (Z.ltb_spec n w) as [L|L]; [|apply Z0; reflexivity].
  assert (S1 : exists st', runs named st1 (match sx c with
      | SxDefault | SxShift => [show x ++ cs " = " ++ int_name w ++ cs "((" ++ show x ++ cs ") << " ++ fmtd (w - n) ++ cs ") >> " ++ fmtd (w - n)]
      | SxArith => let m := emit_int OGo dn (make_int_lit false (Z.shiftl 1 (n - 1)) BHex) in [show x ++ cs " = ((" ++ show x ++ cs ") ^ " ++ m ++ cs ") - " ++ m]
      end) (Ok st') /\ moved st1 p (GI w) (match sx c with SxDefault | SxShift => sx_shift w n v | SxArith => sx_arith w n v end) st').
  { pose proof (var_st st st1 x p V) as V1. cbn in Wb. assert (W1 : 1 <= n < w) by lia. assert (W2 : w <= 64) by lia.
    assert (Sh : exists st', runs named st1 [show x ++ cs " = " ++ int_name w ++ cs "((" ++ show x ++ cs ") << " ++ fmtd (w - n) ++ cs ") >> " ++ fmtd (w - n)] (Ok st') /\ moved st1 p (GI w) (sx_shift w n v) st').
    { destruct (run_set named st1 x p (GI w) (sext w v) (shift_px w n x) _ V1 (m_here _ _ _ _ _ M) (pwf_shift w n x st1 p Wb L V1) (eval_shift named st1 w n x p (sext w v) Wb W1 V1 (m_here _ _ _ _ _ M))) as (st' & R' & M').
      exists st'. split; [|exact M']. unfold shift_px in R'. cbn [show] in R'. repeat rewrite <- app_assoc in R'. exact R'. }
    destruct (sx c); try exact Sh.
    destruct (run_set named st1 x p (GI w) (sext w v) (arith_px dn n x) _ V1 (m_here _ _ _ _ _ M) (pwf_arith dn w n x st1 p W1 W2 V1) (eval_arith named st1 dn w n x p (GI w) (sext w v) (or_introl eq_refl) W1 W2 V1 (m_here _ _ _ _ _ M))) as (st' & R' & M').
    exists st'. split.
    - unfold arith_px, masklit in R'. cbn [show] in R'. repeat rewrite <- app_assoc in R'. exact R'.
    - unfold sx_arith. cbn [wrap] in M'. replace (sext w (Z.lxor (sext w v) (Z.shiftl 1 (n - 1)) - Z.shiftl 1 (n - 1)))
        with (sext w (sext w (Z.lxor (sext w v) (Z.shiftl 1 (n - 1))) - Z.shiftl 1 (n - 1))); [exact M'|].
      apply sext_congr. rewrite Zminus_mod, sext_mod, <- Zminus_mod by lia. reflexivity. }
  destruct S1 as (st' & R' & M'). exists st'. split; [eapply runs_app; eauto|eapply moved_trans; eauto].
Qed.

(** ** Temporaries *)
Lemma temp_plain k : 0 <= k -> plain_id OGo (temp_name k) = true.
Proof.
  intros H. assert (W : forallb is_word (fmtd k) = true).
  { rewrite fmtd_emit, emit_go by auto. cbn [base_pre cs list_ascii_of_string app]. apply (digits_word BDec). exact H. }
  unfold plain_id, temp_name.
  assert (N : name_okb (cs "tempFieldAtPos" ++ fmtd k) = true).
  { cbn [cs list_ascii_of_string app name_okb forallb]. rewrite W. reflexivity. }
  rewrite N. generalize (fmtd k). intros r. vm_compute. reflexivity.
Qed.
Lemma temp_other k : eqs (temp_name k) "data" = false /\ eqs (temp_name k) "offset" = false /\ eqs (temp_name k) "this" = false.
Proof. unfold temp_name. generalize (fmtd k). intros r. repeat split; vm_compute; reflexivity. Qed.
Lemma temp_var st k : 0 <= k -> var st (PId (temp_name k)) (PL (temp_name k)).
Proof. intros H. destruct (temp_other k) as (A & B & C). apply var_local; auto. now apply temp_plain. Qed.
Lemma temp_inj j k : 0 <= j -> 0 <= k -> temp_name j = temp_name k -> j = k.
Proof.
  intros Hj Hk E. unfold temp_name in E. apply app_inv_head in E. pose proof (fmtd_reads j Hj) as A. rewrite E, fmtd_reads in A by auto. congruence.
Qed.
Lemma plain_name g s : plain_id g s = true -> name_okb s = true.
Proof. unfold plain_id. intros H. bools. assumption. Qed.
Lemma has_uint_cases w : has_uint w = true <-> w = 8 \/ w = 16 \/ w = 32 \/ w = 64.
Proof. unfold has_uint. rewrite !orb_true_iff, !Z.eqb_eq. tauto. Qed.

(** var temp uintW *)
Lemma run_var named st k w : 0 <= k -> has_uint w = true -> get st (PL (temp_name k)) = None ->
  exists st', runs named st [cs "var " ++ temp_name k ++ cs " " ++ uint_name w] (Ok st') /\ moved st (PL (temp_name k)) (GU w) 0 st'.
Proof.
  intros H W G. apply has_uint_cases in W. destruct (uint_name_ok w W) as (_ & Ty & N). cbn [get] in G.
  exists (set_loc st (temp_name k) (GU w) 0). split; [|apply set_loc_moved].
  eapply runs_cons; [apply var_reads; [apply (plain_name OGo), temp_plain; exact H|exact N]| |constructor]. unfold exec. rewrite G, Ty. reflexivity.
Qed.
Lemma eval_to named st tn ty t x p z : var st x p -> get st p = Some (t, z) -> type_of named tn = Some ty -> is_int ty = true -> is_int t = true ->
  eval named st (tree (PCall (PId tn) x)) = Some (Ok (GV ty (wrap ty z))).
Proof.
  intros V G T I1 I2. cbn [tree]. rewrite (eval_conv named st _ _ _ _ T (eval_place named st _ _ _ _ (v_place _ _ _ V) G)).
  unfold conversion. rewrite I1, I2. reflexivity.
Qed.
Lemma pwf_to st tn x p : plain_id OGo tn = true -> var st x p -> pwf OGo (PCall (PId tn) x) = true.
Proof. intros N V. apply pwf_call; [exact N|apply V|apply V]. Qed.
Lemma show_to tn x : show (PCall (PId tn) x) = tn ++ cs "(" ++ show x ++ cs ")". Proof. reflexivity. Qed.

(** ** Enums *)
Record enum_ok (named : chars -> option Z) (en : chars) (we : Z) : Prop := {
  eo_plain : plain_id OGo en = true;
  eo_type : type_of named en = Some (GN en we)
}.
(** Two variables set, the first a temporary. *)
Record moved2 (st : gst) (k : Z) (tk : gty) (p : place) (t : gty) (z : Z) (st' : gst) : Prop := {
  m2_data : g_data st' = g_data st;
  m2_off : g_off st' = g_off st;
  m2_temp : exists y, get st' (PL (temp_name k)) = Some (tk, y);
  m2_here : get st' p = Some (t, z);
  m2_else : forall q, q <> p -> q <> PL (temp_name k) -> get st' q = get st q
}.
Theorem dec_enum_body named st c dn dyn w n big from k x p en we z0 z1 : has_uint w = true -> 0 <= from -> 0 <= k -> 1 <= n <= w -> w <= we -> bytes_ok (g_data st) ->
  enum_ok named en we -> var st x p -> get st p = Some (GN en we, z0) -> p <> PL (temp_name k) -> get st (PL (temp_name k)) = Some (GU w, z1) ->
  fits_int st dyn (from + n) ->
  let ls := dec_basic_text c dn dyn (BUint w) n big from (temp_name k) ++ [show x ++ cs " = " ++ en ++ cs "(" ++ temp_name k ++ cs ")"] in
  match dec_pattern w n big from (base_of st dyn) 0 (g_data st) with
  | Ok v => exists st', runs named st ls (Ok st') /\ moved2 st k (GU w) p (GN en we) v st'
  | Panic => runs named st ls Panic
  | Fail => False
  end.
Proof.
  intros W Hf Hk Hn Hw B En V G Np Gt F ls. apply has_uint_cases in W.
  pose proof (dec_basic_runs named st c dn dyn (BUint w) n big from (PId (temp_name k)) (PL (temp_name k)) z1 W Hf Hn B (temp_var st k Hk) Gt F) as H.
  cbn [basic_bits show] in H. destruct (dec_pattern w n big from (base_of st dyn) 0 (g_data st)) as [v| |]; [|exact H|].
  2: { apply runs_app_panic; [exact H|congruence]. }
  destruct H as (Hv & st1 & R & M). cbn [dec_value gty_of] in M.
  pose proof (m_else _ _ _ _ _ M p Np) as Gp. rewrite G in Gp.
  destruct (run_set named st1 x p (GN en we) z0 (PCall (PId en) (PId (temp_name k))) (wrap (GN en we) v) (var_st _ _ _ _ V) Gp) as (st2 & R2 & M2).
  - apply (pwf_to st1 en _ (PL (temp_name k))); [apply En|now apply temp_var].
  - apply (eval_to named st1 en (GN en we) (GU w) (PId (temp_name k)) (PL (temp_name k)) v (temp_var st1 k Hk) (m_here _ _ _ _ _ M) (eo_type _ _ _ En)); reflexivity.
  - exists st2. split; [eapply runs_app; [exact R|exact R2]|].
    cbn [wrap] in M2. rewrite Z.mod_small in M2; [|assert (2 ^ w <= 2 ^ we) by (apply Z.pow_le_mono_r; lia); lia].
    destruct M as [A1 A2 A3 A4], M2 as [B1 B2 B3 B4]. split; try congruence.
    + exists v. rewrite B4 by congruence. exact A3.
    + intros q N1 N2. rewrite B4, A4; auto.
Qed.
Theorem dec_enum_runs named st c dn dyn n big from x p en we z0 : 1 <= n <= 64 -> 0 <= from -> enum_temp_bits n <= we -> bytes_ok (g_data st) ->
  enum_ok named en we -> var st x p -> get st p = Some (GN en we, z0) -> p <> PL (temp_name from) -> get st (PL (temp_name from)) = None ->
  fits_int st dyn (from + n) ->
  match dec_pattern (enum_temp_bits n) n big from (base_of st dyn) 0 (g_data st) with
  | Ok v => exists st', runs named st (dec_enum_text c dn dyn en n big from (show x)) (Ok st') /\ moved2 st from (GU (enum_temp_bits n)) p (GN en we) v st'
  | Panic => runs named st (dec_enum_text c dn dyn en n big from (show x)) Panic
  | Fail => False
  end.
Proof.
  intros Hn Hf Hw B En V G Np Gt F. destruct (enum_temp_ok n Hn) as [U L]. unfold dec_enum_text.
  destruct (run_var named st from _ Hf U Gt) as (st1 & R1 & M1). pose proof (m_else _ _ _ _ _ M1 p Np) as Gp. rewrite G in Gp.
  pose proof (dec_enum_body named st1 c dn dyn (enum_temp_bits n) n big from from x p en we z0 0 U Hf Hf ltac:(lia) Hw) as H. cbv zeta in H.
  rewrite (m_data _ _ _ _ _ M1), (base_moved _ _ _ _ _ dyn M1) in H.
  specialize (H B En (var_st _ _ _ _ V) Gp Np (m_here _ _ _ _ _ M1) (fits_moved _ _ _ _ _ _ _ M1 F)).
  destruct (dec_pattern (enum_temp_bits n) n big from (base_of st dyn) 0 (g_data st)) as [v| |]; [|exact H|].
  - destruct H as (st2 & R2 & M2). exists st2. split; [eapply runs_app; eauto|]. destruct M1 as [A1 A2 A3 A4], M2 as [B1 B2 B3 B4 B5]. split; try congruence.
    intros q N1 N2. rewrite B5, A4; auto.
  - eapply runs_app; eauto.
Qed.

(** ** Constants *)
Lemma lex_kw_if m ts : stops m -> lexes OGo m ts -> lexes OGo (cs "if" ++ m) (kw "if" :: ts).
Proof. intros S L. apply lex_name; auto. now vm_compute. Qed.
Lemma check_reads x y : pwf OGo x = true -> prim x = true -> pwf OGo y = true -> prim y = true ->
  reads_check (cs "if " ++ show x ++ cs " != " ++ show y ++ cs " {") (cs "    return -1") (cs "}") (tree x) (tree y).
Proof.
  intros Wx Px Wy Py. set (q := PBin "!=" x y).
  assert (Wq : pwf OGo q = true).
  { apply pwf_bin; auto; try reflexivity; first [rewrite (prim_lev _ _ Px); reflexivity|rewrite (prim_lev _ _ Py); reflexivity]. }
  apply (rc _ _ _ (ptoks q ++ [sy "{"]) _ _ []).
  - change (cs "if " ++ show x ++ cs " != " ++ show y ++ cs " {") with (cs "if" ++ " "%char :: show x ++ cs " != " ++ show y ++ cs " {").
    apply lex_kw_if; [reflexivity|]. constructor.
    replace (show x ++ cs " != " ++ show y ++ cs " {") with (show q ++ cs " {") by (cbn [show q]; rewrite <- ?app_assoc; reflexivity).
    apply lex_px; auto.
    + reflexivity.
    + intros _. repeat split; discriminate.
    + constructor. apply (lex_solid OGo (cs "{") [] []); [vm_compute; reflexivity|constructor].
  - apply (parses_px q); [exact Wq|vm_compute; reflexivity].
  - reflexivity.
  - cbn [cs list_ascii_of_string]. do 4 constructor. apply (lex_name OGo (cs "return")); [now vm_compute|reflexivity|]. constructor.
    apply (lex_op OGo (cs "-") "1" []); [vm_compute; reflexivity|]. apply (lex_int OGo (cs "1") [] []); [reflexivity|exact I|constructor].
  - apply (lex_solid OGo (cs "}") [] []); [vm_compute; reflexivity|constructor].
Qed.

Lemma equal_temp named st k w v lit z : 0 <= k -> get st (PL (temp_name k)) = Some (GU w, v) -> reads OGo lit = Some z -> 0 <= z < 2 ^ w ->
  equal named st (NId (temp_name k)) (NNum lit) = Some (v =? z).
Proof.
  intros Hk G R Hz. unfold equal. rewrite (eval_place named st (NId (temp_name k)) _ _ _ (v_place _ _ _ (temp_var st k Hk)) G), (eval_num named st _ _ R).
  cbn [join is_int andb]. rewrite (proj2 (fits_u w z) Hz). reflexivity.
Qed.
(** The temporary of a constant field. *)
Theorem dec_const_body named st c dn dyn b n big from k z1 z : wf_basic b -> 0 <= from -> 0 <= k -> 1 <= n <= basic_bits b -> bytes_ok (g_data st) ->
  const_compiles c b n z = true -> get st (PL (temp_name k)) = Some (GU (enum_temp_bits n), z1) -> fits_int st dyn (from + n) ->
  match dec_pattern (basic_bits b) n big from (base_of st dyn) 0 (g_data st) with
  | Ok v => exists st', runs named st (dec_basic_text c dn dyn b n big from (temp_name k)) (Ok st') /\
      moved st (PL (temp_name k)) (GU (enum_temp_bits n)) (const_value b n v) st'
  | Panic => runs named st (dec_basic_text c dn dyn b n big from (temp_name k)) Panic
  | Fail => False
  end.
Proof.
  intros Wb Hf Hk Hn B Cc G F. unfold const_compiles in Cc. set (tw := enum_temp_bits n) in *. clearbody tw.
  destruct b as [|w|w|w]; try (rewrite andb_false_r in Cc; discriminate).
  - bools. subst w. pose proof (dec_basic_runs named st c dn dyn (BUint tw) n big from (PId (temp_name k)) _ z1 Wb Hf Hn B (temp_var st k Hk) G F) as R.
    cbn [show basic_bits dec_value const_value gty_of] in *.
    destruct (dec_pattern tw n big from (base_of st dyn) 0 (g_data st)) as [v| |]; auto. destruct R as (_ & R). exact R.
  - bools. cbn [basic_bits] in *. subst w.
    assert (C0 : 0 = 0 /\ 0 < n /\ Z.to_nat n <> O \/ 8 <= 0 /\ z1 = of_bits (GU tw) 0 /\ 0 <= 0 < 2 ^ basic_bits (BInt tw)) by (left; lia).
    assert (Tt : tgt_ty (BInt tw) (GU tw)) by (cbn; auto).
    pose proof (dec_chunks_run named dn dyn (BInt tw) n big from (PId (temp_name k)) _ (GU tw) Wb Tt Hf (Z.to_nat n) 0 st z1 0 (temp_var st k Hk) G B F ltac:(lia) C0) as R. clear C0.
    unfold dec_pattern, dec_basic_text. cbn [basic_bits show] in R.
    destruct (dec_chunks (Z.to_nat n) tw from n 0 big (base_of st dyn) 0 (g_data st)) as [v| |]; [|exact R|].
    2: { apply runs_app_panic; [exact R|congruence]. }
    destruct R as (Hv & st1 & R & M). cbn [of_bits] in M. cbn [sign_text const_value]. destruct (Z.ltb_spec n tw) as [L|L].
    + assert (Q : sx c = SxArith).
      { destruct (Z.eqb_spec n tw); [lia|]. cbn [orb] in *. destruct (sx c); congruence. }
      rewrite Q.
      cbn in Wb. assert (W1 : 1 <= n < tw) by lia. assert (W2 : tw <= 64) by lia.
      destruct (run_set named st1 _ _ (GU tw) v (arith_px dn n (PId (temp_name k))) _ (temp_var st1 k Hk) (m_here _ _ _ _ _ M) (pwf_arith dn tw n _ st1 _ W1 W2 (temp_var st1 k Hk))
        (eval_arith named st1 dn tw n _ _ (GU tw) v (or_intror eq_refl) W1 W2 (temp_var st1 k Hk) (m_here _ _ _ _ _ M))) as (st' & R' & M').
      exists st'. split.
      * eapply runs_app; [exact R|]. unfold arith_px, masklit in R'. cbn [show] in R'. repeat rewrite <- app_assoc in R'. exact R'.
      * cbn [wrap] in M'. rewrite Zminus_mod_idemp_l in M'. eapply moved_trans; eauto.
    + exists st1. rewrite app_nil_r. auto.
Qed.
Theorem dec_const_runs named st c dn dyn b n big from z base : wf_basic b -> 0 <= from -> 1 <= n <= basic_bits b -> bytes_ok (g_data st) ->
  const_compiles c b n z = true -> get st (PL (temp_name from)) = None -> fits_int st dyn (from + n) ->
  match dec_pattern (basic_bits b) n big from (base_of st dyn) 0 (g_data st) with
  | Ok v =>
      if const_value b n v =? z
      then exists st' y, runs named st (dec_const_text c dn dyn b n big from z base) (Ok st') /\ moved st (PL (temp_name from)) (GU (enum_temp_bits n)) y st'
      else runs named st (dec_const_text c dn dyn b n big from z base) Fail
  | Panic => runs named st (dec_const_text c dn dyn b n big from z base) Panic
  | Fail => False
  end.
Proof.
  intros Wb Hf Hn B Cc G F. unfold dec_const_text. pose proof (width_range b Wb) as Hw. destruct (enum_temp_ok n ltac:(lia)) as [U L].
  destruct (run_var named st from _ Hf U G) as (st1 & R1 & M1).
  pose proof (dec_const_body named st1 c dn dyn b n big from from 0 z Wb Hf Hf Hn) as H. rewrite (m_data _ _ _ _ _ M1), (base_moved _ _ _ _ _ dyn M1) in H.
  specialize (H B Cc (m_here _ _ _ _ _ M1) (fits_moved _ _ _ _ _ _ _ M1 F)).
  assert (Hz : 0 <= z < 2 ^ enum_temp_bits n) by (unfold const_compiles in Cc; bools; lia).
  set (lit := emit_int OGo dn (make_int_lit true z base)).
  assert (Rl : reads OGo lit = Some z) by (unfold lit; rewrite emit_go by lia; apply reads_fmt_go; lia).
  assert (Wl : int_lit lit = true) by (apply emit_int_lit; lia).
  pose proof (check_reads (PId (temp_name from)) (PNum lit) (temp_plain from Hf) eq_refl Wl eq_refl) as Rc. cbn [show tree] in Rc.
  destruct (dec_pattern (basic_bits b) n big from (base_of st dyn) 0 (g_data st)) as [v| |]; [|exact H|].
  2: { eapply runs_app; [exact R1|]. apply runs_app_panic; [exact H|congruence]. }
  destruct H as (st2 & R2 & M2). pose proof (equal_temp named st2 from _ _ lit z Hf (m_here _ _ _ _ _ M2) Rl Hz) as E.
  destruct (Z.eqb_spec (const_value b n v) z) as [Ev|Ev].
  - exists st2, (const_value b n v). split; [|eapply moved_trans; eauto].
    eapply runs_app; [exact R1|]. eapply runs_app; [exact R2|]. eapply runs_check; [exact Rc|exact E|constructor].
  - eapply runs_app; [exact R1|]. eapply runs_app; [exact R2|]. eapply runs_return; [exact Rc|exact E].
Qed.

(** ** Encoding enums *)
Definition enc_out (named : chars -> option Z) (st : gst) (k : Z) (ls : list chars) (r : res (list Z)) : Prop :=
  match r with
  | Ok d => exists st', runs named st ls (Ok st') /\ g_data st' = d /\ bytes_ok d /\ g_off st' = g_off st /\
      (exists t y, get st' (PL (temp_name k)) = Some (t, y) /\ (forall u z, get st (PL (temp_name k)) = Some (u, z) -> t = u)) /\
      (forall q, q <> PL (temp_name k) -> get st' q = get st q)
  | Panic => runs named st ls Panic
  | Fail => False
  end.
Lemma run_chunks_bytes w fd base cs : forall d d', bytes_ok d -> run_chunks w fd base cs d = Ok d' -> bytes_ok d'.
Proof.
  induction cs as [|c cs IH]; intros d d' B H; cbn [run_chunks] in H.
  - now injection H as <-.
  - destruct (run_chunk w fd base c d) as [d1| |] eqn:E; try discriminate. cbn [bind] in H. eapply IH; [|exact H]. eapply run_chunk_bytes; eauto.
Qed.
Lemma run_chunks_nofail w fd base cs : forall d, run_chunks w fd base cs d <> Fail.
Proof.
  induction cs as [|c cs IH]; intros d; cbn [run_chunks]; [discriminate|].
  destruct (run_chunk_cases w fd base c d) as [[d1 ->]| ->]; cbn [bind]; [apply IH|discriminate].
Qed.
Lemma enc_basic_mod w n big from base z d : enc_basic w n big from base (z mod 2 ^ w) d = enc_basic w n big from base z d.
Proof. unfold enc_basic. rewrite Zmod_mod. reflexivity. Qed.
Lemma enc_after named st st1 k w n big from dyn z z' dn ls : has_uint w = true -> 0 <= from -> 0 <= k -> 0 <= n -> bytes_ok (g_data st) -> fits_int st dyn (from + n) ->
  z' = z mod 2 ^ w -> moved st (PL (temp_name k)) (GU w) z' st1 -> (forall u y, get st (PL (temp_name k)) = Some (u, y) -> u = GU w) ->
  (forall r, runs named st1 (enc_basic_text dn dyn (BUint w) n big from (temp_name k)) r -> runs named st ls r) ->
  enc_out named st k ls (enc_basic w n big from (base_of st dyn) z (g_data st)).
Proof.
  intros U Hf Hk Hn B F -> M Hu Hr. apply has_uint_cases in U. assert (Hm : 0 <= z mod 2 ^ w < 2 ^ w) by (apply Z.mod_pos_bound, Z.pow_pos_nonneg; lia).
  assert (B1 : bytes_ok (g_data st1)) by (rewrite (m_data _ _ _ _ _ M); exact B).
  pose proof (enc_basic_runs named st1 dn dyn (BUint w) n big from (PId (temp_name k)) _ (z mod 2 ^ w) U Hf Hn B1 (temp_var st1 k Hk) (m_here _ _ _ _ _ M) Hm (fits_moved _ _ _ _ _ _ _ M F)) as R.
  cbn [show basic_bits] in R. rewrite enc_basic_mod, (m_data _ _ _ _ _ M), (base_moved _ _ _ _ _ dyn M) in R.
  destruct (enc_basic w n big from (base_of st dyn) z (g_data st)) as [d| |] eqn:E; cbn [lift_data] in R.
  - exists (set_data st1 d). split; [now apply Hr|]. split; [reflexivity|]. split; [unfold enc_basic in E; exact (run_chunks_bytes _ _ _ _ _ _ B E)|].
    split; [apply (m_off _ _ _ _ _ M)|]. split.
    + exists (GU w), (z mod 2 ^ w). split; [rewrite get_set; apply M|]. intros u y G. symmetry. eauto.
    + intros q N. rewrite get_set. now apply M.
  - unfold enc_basic in E. now apply run_chunks_nofail in E.
  - now apply Hr.
Qed.
Theorem enc_enum_runs named st dn dyn n big from x p en we z : 1 <= n <= 64 -> 0 <= from -> bytes_ok (g_data st) ->
  var st x p -> get st p = Some (GN en we, z) -> get st (PL (temp_name from)) = None -> fits_int st dyn (from + n) ->
  enc_out named st from (enc_enum_text dn dyn n big from (show x)) (enc_basic (enum_temp_bits n) n big from (base_of st dyn) z (g_data st)).
Proof.
  intros Hn Hf B V G Gt F. destruct (enum_temp_ok n Hn) as [U L]. set (w := enum_temp_bits n) in *. pose proof U as U'. apply has_uint_cases in U'.
  destruct (uint_name_ok w U') as (Un & Ty & _).
  apply (enc_after named st (set_loc st (temp_name from) (GU w) (z mod 2 ^ w)) from w n big from dyn z (z mod 2 ^ w) dn); auto; try lia.
  - apply set_loc_moved.
  - intros u y E. congruence.
  - intros r R. unfold enc_enum_text. eapply runs_cons; [| |exact R].
    + rewrite <- show_to. apply decl_reads; [apply (plain_name OGo), temp_plain; exact Hf|]. now apply (pwf_to st _ x p).
    + pose proof (eval_to named st _ (GU w) _ x p z V G (Ty named) eq_refl eq_refl) as E. cbn [get] in Gt. unfold exec. rewrite Gt. fold w. rewrite E. reflexivity.
Qed.
Theorem enc_elem_runs named st dn dyn w n big from k x p en we z z1 : has_uint w = true -> 0 <= from -> 0 <= k -> 0 <= n -> bytes_ok (g_data st) ->
  var st x p -> get st p = Some (GN en we, z) -> get st (PL (temp_name k)) = Some (GU w, z1) -> fits_int st dyn (from + n) ->
  enc_out named st k ((temp_name k ++ cs " = " ++ uint_name w ++ cs "(" ++ show x ++ cs ")") :: enc_basic_text dn dyn (BUint w) n big from (temp_name k))
    (enc_basic w n big from (base_of st dyn) z (g_data st)).
Proof.
  intros U Hf Hk Hn B V G Gt F. pose proof U as U'. apply has_uint_cases in U'. destruct (uint_name_ok w U') as (Un & Ty & _).
  destruct (run_set named st (PId (temp_name k)) _ (GU w) z1 (PCall (PId (uint_name w)) x) (z mod 2 ^ w) (temp_var st k Hk) Gt) as (st1 & R1 & M1).
  - now apply (pwf_to st _ x p).
  - rewrite (eval_to named st _ (GU w) _ x p z V G (Ty named)); reflexivity.
  - apply (enc_after named st st1 k w n big from dyn z _ dn _ U Hf Hk Hn B F eq_refl M1).
    + intros u y E. congruence.
    + intros r R. rewrite show_to in R1. cbn [show] in R1. exact (runs_app named [_] _ st st1 r R1 R).
Qed.
