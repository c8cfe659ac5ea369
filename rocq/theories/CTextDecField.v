(** Running the printed C decoding statements of one field: sign extension, enums and constants. *)
From Coq Require Import ZArith Lia Bool String Ascii List.
Import ListNotations.
From Verif Require Import Base BaseProofs Schema GoModel GoBitProofs GoEncMain CfBits CfBitProofs TgtModel CTarget Literals PropsLit ExprModel ExprSpec ExprProofs ExprLex ExprParse PrintTree CSem CText CTextEnc CTextD CTextDec.
Open Scope string_scope.
Open Scope Z_scope.
Open Scope list_scope.
Ltac Zify.zify_post_hook ::= Z.to_euclidean_division_equations.

(** ** Sign extension *)
Lemma int_named w : std_bits w -> type_named (int_name w) = Some (CI true w) /\ name_okb (int_name w) = true /\ is_cast OC (int_name w) = true.
Proof. intros [-> | [-> | [-> | ->]]]; repeat split; reflexivity. Qed.
Lemma eval_obj st x p s w v : var x p -> object st p = Some (Ok (CI s w, Some v)) -> eval st (tree x) = Some (Ok (CI s w, v)).
Proof. intros V O. apply (eval_place _ _ _ _ (v_place _ _ V)). unfold get. rewrite O. reflexivity. Qed.
(** Assigning to a variable. *)
Lemma run_assign st x p t o e ty v : var x p -> simple p -> object st p = Some (Ok (t, o)) -> pwf OC e = true -> eval st (tree e) = Some (Ok (ty, v)) ->
  exists st', runs st [show x ++ cs " = " ++ show e ++ cs ";"] (Ok st') /\ moved st p t (convert t v) st'.
Proof.
  intros V S O W E. destruct (put_moved st p t o (convert t v) S O) as (st' & P & M). exists st'. split; auto. eapply runs_cons; [| |constructor].
  - apply (set_reads "=" x e (or_introl eq_refl) (v_pwf _ _ V) W).
  - unfold exec. change (eqs (cs "=") "=") with true. cbv iota. rewrite (rhs_eval _ _ _ _ E). cbn [look].
    rewrite (store_place _ _ p _ (v_place _ _ V)), O. cbn [look fst snd]. exact P.
Qed.
Definition shift_px (w s : Z) (x : px) : px :=
  PBin ">>" (PCast (CtS (int_name w)) (PPar (PBin "<<" (PPar x) (nm (fmtd s))))) (nm (fmtd s)).
Lemma pow_half n : 1 <= n -> 2 ^ n = 2 * 2 ^ (n - 1).
Proof. intros H. rewrite <- Z.pow_succ_r by lia. f_equal. lia. Qed.
Lemma sign_shift_run st w n s x p v : std_bits w -> 1 <= n < w -> var x p -> simple p -> object st p = Some (Ok (CI s w, Some v)) -> 0 <= v < 2 ^ n ->
  exists st', runs st [show x ++ cs " = (" ++ int_name w ++ cs ")((" ++ show x ++ cs ") << " ++ fmtd (w - n) ++ cs ") >> " ++ fmtd (w - n) ++ cs ";"] (Ok st') /\
    moved st p (CI s w) (convert (CI s w) (sx_shift w n v)) st'.
Proof.
  intros Hw Hn V S O Hv. destruct (int_named w Hw) as (T & N & C). destruct (std_pos w Hw) as [Pw P8].
  assert (L : 2 ^ n <= 2 ^ (w - 1)) by (apply Z.pow_le_mono_r; lia).
  assert (Ev : eval st (tree (shift_px w (w - n) x)) = Some (Ok (promote (CI true w), sx_shift w n v))).
  { unfold shift_px. cbn [tree nm].
    rewrite (eval_bin st ">>" shift_right _ _ (CI true w, sext w (Z.shiftl v (w - n))) (int_ty, w - n)); [|reflexivity| |].
    - unfold shift_right. cbn [fst snd]. destruct (Z.ltb_spec (w - n) 0); [lia|].
      assert (Sz : w <= size_of (promote (CI true w))) by (unfold promote; destruct (Z.ltb_spec w 32); cbn [int_ty size_of]; lia).
      destruct (Z.leb_spec (size_of (promote (CI true w))) (w - n)); [lia|]. cbn [orb].
      unfold sx_shift. rewrite (sext_id w v) by lia. reflexivity.
    - cbn [eval cty_text]. rewrite T. fold (eval st (NBin (cs "<<") (tree x) (NNum (fmtd (w - n))))).
      change (look (eval st (NBin (cs "<<") (tree x) (NNum (fmtd (w - n))))) (fun v0 => Some (Ok (CI true w, convert (CI true w) (snd v0)))) = Some (Ok (CI true w, sext w (Z.shiftl v (w - n))))).
      rewrite (eval_bin st "<<" shift_left _ _ (CI s w, v) (int_ty, w - n)); [|reflexivity| |].
      + unfold shift_left. cbn [fst snd]. destruct (Z.ltb_spec (w - n) 0); [lia|].
        assert (Sz : w <= size_of (promote (CI s w))) by (unfold promote; destruct (Z.ltb_spec w 32); cbn [int_ty size_of]; lia).
        destruct (Z.leb_spec (size_of (promote (CI s w))) (w - n)); [lia|]. cbn [orb]. destruct (Z.ltb_spec v 0); [lia|].
        set (t := promote (CI s w)) in *.
        assert (Ct : exists u k, t = CI u k) by (unfold t, promote; destruct (w <? 32); unfold int_ty; eauto).
        assert (Cv : sext w (convert t (Z.shiftl v (w - n))) = sext w (Z.shiftl v (w - n))) by (apply sext_congr, convert_high; [lia|exact Ct]).
        destruct t as [|[|] k]; cbn [look snd fst convert] in *; [destruct Ct as (? & ? & Ct); discriminate Ct| |]; now rewrite Cv.
      + exact (eval_obj st x p s w v V O).
      + apply eval_num, fmtd_literal. lia.
    - apply eval_num, fmtd_literal. lia. }
  assert (W : pwf OC (shift_px w (w - n) x) = true).
  { unfold shift_px, nm. cbn [pwf cty_ok lev]. rewrite C, N, (v_pwf _ _ V), fmtd_int_lit by lia. reflexivity. }
  destruct (run_assign st x p (CI s w) _ _ _ _ V S O W Ev) as (st' & R & M). exists st'. split; auto.
  unfold shift_px in R. cbn [show cty_text nm] in R. rewrite <- ?app_assoc in R. exact R.
Qed.

Lemma hexulit_reads dn m : 0 <= m < 2 ^ 63 -> hexulit dn m = emit_int OC dn (make_int_lit true m BHex).
Proof.
  intros H. unfold hexulit, make_int_lit. rewrite sext_id by lia. unfold emit_int, format_int, fmt_int. cbn [i_val i_uns i_base].
  rewrite Z.mod_small by lia. destruct (Z.ltb_spec m 0); [lia|]. destruct dn; reflexivity.
Qed.
Lemma literal_cases s z : reads OC s = Some z -> 0 <= z < 2 ^ 63 ->
  literal s = Some (Ok (int_ty, z)) /\ z < 2 ^ 31 \/ literal s = Some (Ok (CI false 32, z)) /\ z < 2 ^ 32 \/ literal s = Some (Ok (CI true 64, z)).
Proof.
  intros R H. unfold literal. rewrite R. destruct (Z.ltb_spec z (2 ^ 31)); [left; auto|].
  destruct (negb _ && _) eqn:B; [right; left; apply andb_true_iff in B as [_ B]; apply Z.ltb_lt in B; auto|].
  destruct (Z.ltb_spec z (2 ^ 63)); [auto|lia].
Qed.

Lemma convert_congr s w a b : a mod 2 ^ w = b mod 2 ^ w -> convert (CI s w) a = convert (CI s w) b.
Proof. intros H. destruct s; cbn [convert]; [now apply sext_congr|exact H]. Qed.
Lemma lxor_lt a b k : 0 <= k -> 0 <= a < 2 ^ k -> 0 <= b < 2 ^ k -> 0 <= Z.lxor a b < 2 ^ k.
Proof.
  intros Hk Ha Hb. assert (E : Z.lxor a b = Z.lxor a b mod 2 ^ k).
  { rewrite <- Z.land_ones by exact Hk. apply Z.bits_inj'. intros j Hj. rewrite Z.land_spec, Z.testbit_ones_nonneg, Z.lxor_spec by lia.
    destruct (Z.ltb_spec j k); [now rewrite andb_true_r|]. rewrite andb_false_r.
    rewrite !(testbit_above _ k) by lia. reflexivity. }
  rewrite E. apply Z.mod_pos_bound, Z.pow_pos_nonneg; lia.
Qed.
Lemma prom_range t k z : prom t -> 0 <= k -> k < size_of t -> - 2 ^ k <= z < 2 ^ k -> (t = CI true (size_of t) \/ 0 <= z) -> in_range t z = true.
Proof.
  intros P Hk Hs Hz Hn. assert (L : 2 ^ k <= 2 ^ (size_of t - 1)) by (apply Z.pow_le_mono_r; lia).
  assert (L2 : 2 ^ k <= 2 ^ (size_of t)) by (apply Z.pow_le_mono_r; lia).
  destruct P as [-> | [-> | [-> | ->]]]; cbn [size_of in_range] in *; apply andb_true_iff; split; try apply Z.leb_le; try apply Z.ltb_lt; try lia;
    (destruct Hn as [Hn|Hn]; [discriminate Hn|lia]).
Qed.
Definition arith_px (m : chars) (x : px) : px := PBin "-" (PPar (PBin "^" (PPar x) (nm m))) (nm m).
Lemma sign_arith_run st dn w n s x p v : std_bits w -> 1 <= n < w -> var x p -> simple p -> object st p = Some (Ok (CI s w, Some v)) -> 0 <= v < 2 ^ n ->
  let m := hexulit dn (Z.shiftl 1 (n - 1)) in
  exists st', runs st [show x ++ cs " = ((" ++ show x ++ cs ") ^ " ++ m ++ cs ") - " ++ m ++ cs ";"] (Ok st') /\
    moved st p (CI s w) (convert (CI s w) (sx_arith w n v)) st'.
Proof.
  intros Hw Hn V S O Hv ms. destruct (std_pos w Hw) as [Pw P8]. set (m := 2 ^ (n - 1)).
  assert (Em : Z.shiftl 1 (n - 1) = m) by (unfold m; rewrite Z.shiftl_mul_pow2 by lia; lia).
  assert (Hm : 0 < m /\ 2 ^ n = 2 * m) by (unfold m; split; [apply Z.pow_pos_nonneg; lia|apply pow_half; lia]).
  assert (Lw : 2 ^ n <= 2 ^ (w - 1)) by (apply Z.pow_le_mono_r; lia).
  assert (L63 : m < 2 ^ 63) by (apply Z.lt_le_trans with (2 ^ n); [lia|apply Z.pow_le_mono_r; lia]).
  assert (Es : ms = emit_int OC dn (make_int_lit true m BHex)) by (unfold ms; rewrite Em; apply hexulit_reads; lia).
  assert (Ms : int_lit ms = true) by (rewrite Es; apply emit_int_lit; lia).
  assert (R : reads OC ms = Some m) by (rewrite Es; apply emit_reads; lia).
  assert (Lt : exists L, literal ms = Some (Ok (L, m)) /\ prom L /\ in_range L m = true).
  { destruct (literal_cases ms m R ltac:(lia)) as [[E Z1]|[[E Z1]|E]].
    - exists int_ty. split; auto. split; [now left|]. apply small_in; [now left|lia].
    - exists (CI false 32). split; auto. split; [right; now left|]. cbn [in_range]. apply andb_true_iff; split; [apply Z.leb_le|apply Z.ltb_lt]; lia.
    - exists (CI true 64). split; auto. split; [right; right; now left|]. cbn [in_range]. apply andb_true_iff; split; [apply Z.leb_le|apply Z.ltb_lt]; lia. }
  destruct Lt as (L & El & PL & RL).
  set (t := common (CI s w) L).
  assert (Pt : prom t /\ w <= size_of t /\ common t L = t /\ in_range t m = true).
  { assert (Q : prom t /\ w <= size_of t /\ common t L = t /\ size_of L <= size_of t).
    { unfold t, prom. destruct PL as [-> | [-> | [-> | ->]]]; destruct Hw as [-> | [-> | [-> | ->]]]; destruct s; vm_compute; intuition congruence. }
    destruct Q as (Q1 & Q2 & Q3 & Q4). repeat split; auto. apply (prom_range t n m); auto; lia. }
  destruct Pt as (Pt & Sz & Ct & Rm).
  assert (Ex : 0 <= Z.lxor v m < 2 ^ n) by (apply lxor_lt; lia).
  assert (Rx : in_range t (Z.lxor v m) = true).
  { destruct (Z.eq_dec n (size_of t)); [lia|]. apply (prom_range t n); auto; lia. }
  assert (Rv : in_range t v = true) by (apply (prom_range t n); auto; lia).
  assert (Ev : exists u, eval st (tree (arith_px ms x)) = Some (Ok (t, u)) /\ u mod 2 ^ w = (Z.lxor v m - m) mod 2 ^ w).
  { assert (E1 : eval st (tree (PPar (PBin "^" (PPar x) (nm ms)))) = Some (Ok (t, Z.lxor v m))).
    { cbn [tree nm]. rewrite (eval_bin st "^" (bitwise Z.lxor) _ _ (CI s w, v) (L, m)); [|reflexivity|exact (eval_obj st x p s w v V O)|exact El].
      unfold bitwise. cbn [fst snd]. fold t. rewrite !convert_in; auto. }
    assert (E2 : eval st (tree (arith_px ms x)) = additive Z.sub (t, Z.lxor v m) (L, m)).
    { unfold arith_px. cbn [tree nm]. cbn [tree nm] in E1. apply (eval_bin st "-" (additive Z.sub)); auto. }
    rewrite E2. unfold additive. cbn [fst snd]. rewrite Ct, !convert_in by auto.
    destruct t as [|[|] k] eqn:Et.
    - destruct Pt as [Pt|[Pt|[Pt|Pt]]]; discriminate Pt.
    - assert (Rr : in_range (CI true k) (Z.lxor v m - m) = true) by (cbn [size_of] in Sz; apply (prom_range (CI true k) n); [exact Pt|lia|cbn [size_of]; lia|lia|now left]).
      rewrite Rr. eexists. split; [reflexivity|reflexivity].
    - eexists. split; [reflexivity|]. pose proof (convert_high (CI false k) (Z.lxor v m - m) w ltac:(cbn [size_of] in *; lia) ltac:(eauto)) as Q. exact Q. }
  destruct Ev as (u & Ev & Eu).
  assert (W : pwf OC (arith_px ms x) = true).
  { unfold arith_px, nm. cbn [pwf]. rewrite (v_pwf _ _ V), Ms. reflexivity. }
  destruct (run_assign st x p (CI s w) _ _ _ _ V S O W Ev) as (st' & Rn & M). exists st'. split.
  - unfold arith_px in Rn. cbn [show nm] in Rn. rewrite <- ?app_assoc in Rn. exact Rn.
  - unfold sx_arith. rewrite Em, (sext_id w v) by lia. rewrite (convert_congr s w _ u); [exact M|].
    rewrite sext_mod by lia. now symmetry.
Qed.

(** ** A basic type *)
Definition dview_px (b : basic) (x : px) : px :=
  match b with
  | BUint _ => x
  | _ => PPar (PUn "*" (PCast (CtP (uint_name (basic_bits b))) (PPar (PUn "&" (PPar x)))))
  end.
Lemma show_dview b x : show (dview_px b x) = dec_view_text b (show x).
Proof. destruct b; unfold dview_px, dec_view_text; try reflexivity; cbn [show cty_text]; rewrite <- ?app_assoc; reflexivity. Qed.
(** The types of the objects a field of type [b] is decoded into: [m] bits are written. *)
Definition takes (b : basic) (n m : Z) (t : ctype) : Prop :=
  match b with
  | BUint w => t = CI false m /\ std_bits m /\ n <= m <= w
  | BInt w => m = w /\ exists s, t = CI s w
  | BBool => m = 8 /\ (t = CB \/ exists s, t = CI s 8)
  | BFloat _ => False
  end.
Lemma dview_ok b n m t x p : wf_basic b -> 1 <= n <= basic_bits b -> takes b n m t -> var x p -> simple p ->
  uview (dview_px b x) m p t /\ n <= m <= basic_bits b.
Proof.
  intros Wb Hn Tk V S. pose proof V as [W L P]. destruct b as [|w|w|w]; cbn [takes wf_basic basic_bits] in *; [| | |contradiction].
  - destruct Tk as [-> Tt]. split; [|lia]. split; auto; [|now left|right].
    + cbn [dview_px pwf]. rewrite W. reflexivity.
    + split; [|destruct Tt as [->|[s ->]]; reflexivity]. cbn [dview_px tree place_of basic_bits].
      change (eqs (cs "*") "*" && eqs (cs "&") "&") with true. cbv iota. rewrite P. reflexivity.
  - destruct Tk as (-> & Sm & Hm). split; [|lia]. split; auto.
  - destruct Tk as [-> [s ->]]. split; [|lia]. split; auto; [|right].
    + cbn [dview_px pwf basic_bits]. rewrite W. destruct Wb as [-> | [-> | [-> | ->]]]; reflexivity.
    + split; [|reflexivity]. cbn [dview_px tree place_of basic_bits].
      change (eqs (cs "*") "*" && eqs (cs "&") "&") with true. cbv iota. rewrite P. destruct Wb as [-> | [-> | [-> | ->]]]; reflexivity.
Qed.
(** The number a field of [n] bits has (c_dscalar). *)
Definition num (arith : bool) (b : basic) (n v : Z) : Z := match b with BInt w => c_int arith w n v | _ => v end.
Theorem dec_basic_runs st dn arith b n big from x p t o m : wf_basic b -> 1 <= n <= basic_bits b -> 0 <= from -> from + n < 2 ^ 63 ->
  takes b n m t -> var x p -> simple p -> object st p = Some (Ok (t, o)) -> bytes_ok (c_data st) -> from + n <= 8 * zlen (c_data st) ->
  exists v st', cf_dec (basic_bits b) n big from 0 (c_data st) = Ok v /\ 0 <= v < 2 ^ n /\
    runs st (dec_basic_text dn arith b n big from (show x)) (Ok st') /\ moved st p t (raw t (num arith b n v)) st'.
Proof.
  intros Wb Hn Hf Hb Tk V S O B Ln. assert (Ib : int_basic b = true) by (destruct b; auto; destruct Tk).
  pose proof (basic_std b Wb Ib) as Sw. destruct (dview_ok b n m t x p Wb Hn Tk V S) as [Uv Hm].
  destruct (dec_run dn (basic_bits b) n from big (dview_px b x) m p t Sw Hn Hf Hb Uv ltac:(lia) st o B Ln O) as (v & st1 & E & Hv & R & M).
  rewrite show_dview in R. exists v.
  assert (Vm : v mod 2 ^ m = v) by (apply Z.mod_small; split; [lia|apply Z.lt_le_trans with (2 ^ n); [lia|apply Z.pow_le_mono_r; lia]]).
  rewrite Vm in M. unfold dec_basic_text, sign_text.
  assert (Plain : forall b', b = b' -> (match b' with BInt _ => False | _ => True end) ->
    exists st', cf_dec (basic_bits b) n big from 0 (c_data st) = Ok v /\ 0 <= v < 2 ^ n /\
    runs st (dec_loop_text (Z.to_nat n) dn (basic_bits b) from n 0 big (dec_view_text b (show x)) ++ []) (Ok st') /\ moved st p t (raw t v) st').
  { intros b' _ _. exists st1. split; auto. split; auto. split; auto. now rewrite app_nil_r. }
  destruct b as [|w|w|w]; cbn [num]; try (now apply (Plain _ eq_refl)).
  cbn [takes basic_bits wf_basic] in *. destruct Tk as [-> [s ->]]. destruct (std_pos w Sw) as [Pw P8]. unfold c_int. destruct (Z.ltb_spec n w) as [Lt|Ge].
  - assert (L : 2 ^ n <= 2 ^ (w - 1)) by (apply Z.pow_le_mono_r; lia).
    assert (L2 : 2 ^ (w - 1) <= 2 ^ w) by (apply Z.pow_le_mono_r; lia).
    assert (Rv : raw (CI s w) v = v).
    { destruct s; cbn [raw convert]; [apply sext_id; lia|apply Z.mod_small; lia]. }
    rewrite Rv in M. destruct arith.
    + destruct (sign_arith_run st1 dn w n s x p v Sw ltac:(lia) V S (mv_obj _ _ _ _ _ M) Hv) as (st2 & R2 & M2).
      exists st2. split; auto. split; auto. split; [eapply runs_app; [exact R|exact R2]|]. eapply moved_trans; [exact M|exact M2].
    + destruct (sign_shift_run st1 w n s x p v Sw ltac:(lia) V S (mv_obj _ _ _ _ _ M) Hv) as (st2 & R2 & M2).
      exists st2. split; auto. split; auto. split; [eapply runs_app; [exact R|exact R2]|]. eapply moved_trans; [exact M|exact M2].
  - exists st1. split; auto. split; auto. split; [now rewrite app_nil_r|]. cbn [raw] in *.
    rewrite (convert_congr s w (sext w v) v); [exact M|]. apply sext_mod. lia.
Qed.

(** A message that ends before the field. *)
Theorem dec_basic_short st dn arith b n big from x p t o m : wf_basic b -> 1 <= n <= basic_bits b -> 0 <= from -> from + n < 2 ^ 63 ->
  takes b n m t -> var x p -> simple p -> object st p = Some (Ok (t, o)) -> bytes_ok (c_data st) -> 8 * zlen (c_data st) < from + n ->
  cf_dec (basic_bits b) n big from 0 (c_data st) = Panic /\ runs st (dec_basic_text dn arith b n big from (show x)) Panic.
Proof.
  intros Wb Hn Hf Hb Tk V S O B Ln. assert (Ib : int_basic b = true) by (destruct b; auto; destruct Tk).
  pose proof (basic_std b Wb Ib) as Sw. destruct (dview_ok b n m t x p Wb Hn Tk V S) as [Uv Hm].
  split; [apply cf_dec_short; lia|]. unfold dec_basic_text. apply runs_app_panic; [|congruence]. rewrite <- show_dview.
  apply (dec_run_short dn (basic_bits b) n from big (dview_px b x) m p t) with (o := o); auto. lia.
Qed.

(** ** Enums *)
Definition member_place (p : place) : Prop := match p with PF _ | PE _ _ => True | _ => False end.
Lemma member_simple p : member_place p -> simple p. Proof. destruct p; cbn; auto. Qed.
Lemma assign_enum_run st x p t o enum k w v : var x p -> member_place p -> object st p = Some (Ok (t, o)) -> name_okb enum = true -> 0 <= k ->
  c_loc st (temp_name k) = Some (CI false w, Some v) ->
  exists st', runs st [assign_enum_text enum (show x) k] (Ok st') /\ moved st p t (convert t v) st'.
Proof.
  intros V Mp O Ne Hk L. destruct (put_moved st p t o (convert t v) (member_simple p Mp) O) as (st' & P & M). exists st'. split; auto.
  destruct (temp_var k Hk) as [T1 T2 T3].
  eapply runs_cons; [| |constructor].
  - pose proof (set_reads "=" x (PCast (CtE enum) (PId (temp_name k))) (or_introl eq_refl) (v_pwf _ _ V)) as R.
    assert (W : pwf OC (PCast (CtE enum) (PId (temp_name k))) = true) by (cbn [pwf cty_ok] in *; rewrite Ne, T1; reflexivity).
    specialize (R W). cbn [show cty_text] in R. rewrite <- ?app_assoc in R. exact R.
  - unfold exec. change (eqs (cs "=") "=") with true. cbv iota. unfold rhs.
    assert (Ec : enum_cast (tree x) (tree (PCast (CtE enum) (PId (temp_name k)))) = Some (tree (PId (temp_name k)))).
    { unfold enum_cast. rewrite (v_place _ _ V). destruct p; try destruct Mp; reflexivity. }
    rewrite Ec. rewrite (eval_place st _ _ (Ok (CI false w, v)) T3) by (unfold get; cbn [object]; rewrite L; reflexivity). cbn [look].
    rewrite (store_place _ _ p _ (v_place _ _ V)), O. cbn [look fst snd]. exact P.
Qed.
(** A field read into [p] through the temporary of position [k]. *)
Record moved2 (st : cst) (p : place) (k : Z) (t : ctype) (v : Z) (st' : cst) : Prop := {
  m2_data : c_data st' = c_data st;
  m2_obj : object st' p = Some (Ok (t, Some v));
  m2_keep : forall q, simple q -> q <> p -> q <> PL (temp_name k) -> object st' q = object st q
}.
Theorem dec_enum_elem_runs st dn arith w enum n big from k x p t o o2 : std_bits w -> 1 <= n <= w -> 0 <= from -> from + n < 2 ^ 63 -> 0 <= k ->
  name_okb enum = true -> var x p -> member_place p -> object st p = Some (Ok (t, o)) -> c_loc st (temp_name k) = Some (CI false w, o2) ->
  bytes_ok (c_data st) -> from + n <= 8 * zlen (c_data st) ->
  exists v st', cf_dec w n big from 0 (c_data st) = Ok v /\ 0 <= v < 2 ^ n /\
    runs st (dec_enum_elem_text dn arith w enum n big from k (show x)) (Ok st') /\ moved2 st p k t (convert t v) st' /\
    exists o3, c_loc st' (temp_name k) = Some (CI false w, o3).
Proof.
  intros Hw Hn Hf Hb Hk Ne V Mp O L B Ln.
  destruct (dec_basic_runs st dn arith (BUint w) n big from (PId (temp_name k)) (PL (temp_name k)) (CI false w) o2 w) as (v & st1 & E & Hv & R & M); auto.
  { cbn [takes]. repeat split; auto; lia. } { now apply temp_var. } { exact I. } { cbn [object]. now rewrite L. }
  cbn [basic_bits num show] in *. destruct M as [M1 M2 M3].
  assert (Np : p <> PL (temp_name k)) by (intros ->; exact Mp).
  assert (L1 : c_loc st1 (temp_name k) = Some (CI false w, Some v)).
  { cbn [object raw convert] in M2. destruct (c_loc st1 (temp_name k)) as [[t1 v1]|]; [|discriminate]. injection M2 as -> ->.
    rewrite Z.mod_small; [reflexivity|]. split; [lia|]. apply Z.lt_le_trans with (2 ^ n); [lia|]. apply Z.pow_le_mono_r; lia. }
  destruct (assign_enum_run st1 x p t o enum k w v V Mp ltac:(rewrite M3; [exact O|now apply member_simple|exact Np]) Ne Hk L1) as (st2 & R2 & [A1 A2 A3]).
  exists v, st2. split; auto. split; auto. split; [eapply runs_app; [exact R|exact R2]|]. split.
  - split; [congruence|exact A2|]. intros q Q N1 N2. rewrite A3, M3; auto.
  - specialize (A3 (PL (temp_name k)) I (fun H => Np (eq_sym H))). cbn [object] in A3. rewrite L1 in A3.
    destruct (c_loc st2 (temp_name k)) as [[t1 v1]|]; [|discriminate]. injection A3 as -> ->. eauto.
Qed.

Theorem dec_enum_elem_short st dn arith w enum n big from k x o2 : std_bits w -> 1 <= n <= w -> 0 <= from -> from + n < 2 ^ 63 -> 0 <= k ->
  c_loc st (temp_name k) = Some (CI false w, o2) -> bytes_ok (c_data st) -> 8 * zlen (c_data st) < from + n ->
  cf_dec w n big from 0 (c_data st) = Panic /\ runs st (dec_enum_elem_text dn arith w enum n big from k x) Panic.
Proof.
  intros Hw Hn Hf Hb Hk L B Ln.
  destruct (dec_basic_short st dn arith (BUint w) n big from (PId (temp_name k)) (PL (temp_name k)) (CI false w) o2 w) as [E R]; auto.
  { cbn [takes]. repeat split; auto; lia. } { now apply temp_var. } { exact I. } { cbn [object]. now rewrite L. }
  split; [exact E|]. unfold dec_enum_elem_text. apply runs_app_panic; [exact R|congruence].
Qed.

(** ** Constants *)
Lemma ret_reads c : pwf OC c = true -> reads_stmt (cs "if (" ++ show c ++ cs ") return -1;") (SRet (tree c)).
Proof.
  intros W. apply (rs_ret _ _ (ptoks c ++ [sy ")"; kw "return"; sy "-"; TNum (cs "1"); sy ";"])).
  - eapply (lex_lit' OC "if (" [kw "if"; sy "("]); [vm_compute; reflexivity|reflexivity|].
    apply lex_px; auto; [reflexivity|intros _; repeat split; discriminate|].
    change (cs ") return -1;") with (cs ")" ++ cs " return" ++ cs " " ++ cs "-" ++ cs "1;").
    apply (lex_solid OC (cs ")")); [vm_compute; reflexivity|]. cbn [app cs list_ascii_of_string]. constructor.
    apply (lex_name OC (cs "return")); [vm_compute; auto|reflexivity|]. cbn [app cs list_ascii_of_string]. constructor.
    apply (lex_op OC (cs "-") "1" (cs ";")); [vm_compute; reflexivity|].
    apply (lex_num OC "1" (cs ";") [] (cs ";")); [reflexivity|reflexivity|apply lex_semi].
  - apply parses_px; auto. vm_compute. reflexivity.
Qed.

(** Constants that the type can hold; negative ones are printed in decimal. *)
Definition shows_base (dn : bool) (z : Z) (base : ibase) : Prop :=
  0 <= z \/ (if dn then BDec else match base with BAuto => BDec | x => x end) = BDec.
Definition const_ok (dn : bool) (b : basic) (z : Z) (base : ibase) : Prop :=
  match b with
  | BBool => z = 0 \/ z = 1
  | BUint w => 0 <= z < 2 ^ w /\ z < 2 ^ 63
  | BInt w => - 2 ^ (w - 1) <= z < 2 ^ (w - 1) /\ - 2 ^ 63 < z /\ shows_base dn z base
  | BFloat _ => False
  end.
Definition lit_px (dn : bool) (b : basic) (z : Z) (base : ibase) : px :=
  match b with
  | BBool => if z =? 0 then PId (cs "false") else PId (cs "true")
  | _ => if z <? 0 then PUn "-" (PNum (fmtd (- z))) else PNum (emit_int OC dn (make_int_lit true z base))
  end.
Lemma show_lit dn b z base : const_ok dn b z base -> show (lit_px dn b z base) = const_lit dn b z base.
Proof.
  intros H. unfold lit_px, const_lit.
  assert (X : 0 <= z \/ shows_base dn z base -> show (if z <? 0 then PUn "-" (PNum (fmtd (- z))) else PNum (emit_int OC dn (make_int_lit true z base))) = emit_int OC dn (make_int_lit true z base)).
  { intros Hz. destruct (Z.ltb_spec z 0); [|reflexivity]. destruct Hz as [Hz|[Hz|Hz]]; [lia|lia|]. unfold make_int_lit. rewrite emit_signed by (now right).
    destruct (Z.ltb_spec z 0); [|lia]. rewrite Hz. cbn [suffix_of show base_pre base_num]. rewrite app_nil_r. unfold fmtd, fmt_int.
    destruct (Z.ltb_spec (- z) 0); [lia|]. rewrite Z.abs_neq by lia. reflexivity. }
  destruct b; cbn [const_ok] in H.
  - destruct (z =? 0); reflexivity.
  - apply X. left. lia.
  - apply X. right. tauto.
  - destruct H.
Qed.
Lemma pwf_lit dn b z base : pwf OC (lit_px dn b z base) = true /\ 13 <= lev OC (lit_px dn b z base).
Proof.
  assert (X : pwf OC (if z <? 0 then PUn "-" (PNum (fmtd (- z))) else PNum (emit_int OC dn (make_int_lit true z base))) = true /\
    13 <= lev OC (if z <? 0 then PUn "-" (PNum (fmtd (- z))) else PNum (emit_int OC dn (make_int_lit true z base)))).
  { destruct (Z.ltb_spec z 0).
    - split; [|vm_compute; discriminate]. pose proof (fmtd_int_lit (- z) ltac:(lia)) as M. cbn [pwf show lev]. rewrite M.
      destruct (fmtd (- z)) as [|h t]; [discriminate M|]. cbn [int_lit] in M. apply andb_true_iff in M as [M _]. unfold un_okb.
      assert (A : forallb (fun h => negb (is_num h) || chk OC (cs "-") h) all_ascii = true) by (vm_compute; reflexivity).
      rewrite forallb_forall in A. specialize (A h (in_all_ascii h)). cbv beta in A. rewrite M in A. cbn [negb orb] in A.
      change (find_op (prefix OC) (sy "-")) with (Some (sign OC)). rewrite A. reflexivity.
    - split; [|vm_compute; discriminate]. now apply pwf_num, emit_int_lit. }
  destruct b; try exact X. unfold lit_px. destruct (z =? 0); split; try reflexivity; vm_compute; discriminate.
Qed.
(** The type of the number on the right of "!=". *)
Definition lit_type (L : ctype) (z : Z) : Prop :=
  (L = int_ty /\ - 2 ^ 31 < z < 2 ^ 31) \/ (L = CI false 32 /\ 0 <= z < 2 ^ 32) \/
  (L = CI true 64 /\ - 2 ^ 63 < z < 2 ^ 63 /\ (0 <= z \/ z <= - 2 ^ 31)).
Lemma fmtd_wide v : 2 ^ 31 <= v < 2 ^ 63 -> literal (fmtd v) = Some (Ok (CI true 64, v)).
Proof.
  intros H. unfold literal. rewrite fmtd_reads by lia. destruct (Z.ltb_spec v (2 ^ 31)); [lia|].
  assert (Rb : read_body (fmtd v) = Some (10, v)).
  { pose proof (read_body_fmt BDec v ltac:(lia)) as R. cbn [base_pre base_num app] in R. unfold fmtd, fmt_int. destruct (Z.ltb_spec v 0); [lia|]. exact R. }
  rewrite Rb. change (10 =? 10) with true. cbn [negb andb]. destruct (Z.ltb_spec v (2 ^ 63)); [reflexivity|lia].
Qed.
Lemma eval_lit st dn b z base : wf_basic b -> const_ok dn b z base -> exists L, eval st (tree (lit_px dn b z base)) = Some (Ok (L, z)) /\ lit_type L z.
Proof.
  intros Wb H. unfold lit_type.
  assert (X : - 2 ^ 63 < z < 2 ^ 63 -> exists L, eval st (tree (if z <? 0 then PUn "-" (PNum (fmtd (- z))) else PNum (emit_int OC dn (make_int_lit true z base)))) = Some (Ok (L, z)) /\ lit_type L z).
  { intros Hz. unfold lit_type. destruct (Z.ltb_spec z 0).
    - cbn [tree]. cbn [eval]. change (eqs (cs "-") "*") with false. change (eqs (cs "-") "~") with false. change (eqs (cs "-") "-") with true. cbv iota.
      destruct (Z.lt_ge_cases (- z) (2 ^ 31)).
      + rewrite fmtd_literal by lia. cbn [look]. unfold additive. cbn [fst snd]. change (common int_ty int_ty) with int_ty.
        rewrite !convert_in by (try (now left); apply small_in; try (now left); lia).
        replace (0 - - z) with z by lia.
        assert (R : in_range int_ty z = true) by (apply andb_true_iff; split; [apply Z.leb_le|apply Z.ltb_lt]; cbn; lia).
        cbn [int_ty] in *. rewrite R. eexists. split; [reflexivity|]. left. split; [reflexivity|lia].
      + rewrite fmtd_wide by lia. cbn [look]. unfold additive. cbn [fst snd]. change (common int_ty (CI true 64)) with (CI true 64).
        change (convert (CI true 64) 0) with 0. change (convert (CI true 64) (- z)) with (sext 64 (- z)). rewrite sext_id by lia.
        replace (0 - - z) with z by lia.
        assert (R : in_range (CI true 64) z = true) by (apply andb_true_iff; split; [apply Z.leb_le|apply Z.ltb_lt]; cbn; lia).
        rewrite R. eexists. split; [reflexivity|]. right; right. split; [reflexivity|lia].
    - cbn [tree eval]. destruct (literal_cases _ z (emit_reads dn base z ltac:(lia)) ltac:(lia)) as [[E B]|[[E B]|E]]; rewrite E; eexists; (split; [reflexivity|]).
      + left. split; [reflexivity|lia].
      + right; left. split; [reflexivity|lia].
      + right; right. split; [reflexivity|lia]. }
  destruct b as [|w|w|w]; cbn [const_ok lit_px] in *.
  - exists int_ty. split; [|left; split; [reflexivity|lia]]. destruct H as [->| ->]; reflexivity.
  - apply X. lia.
  - apply X. destruct H as (H1 & H2 & _). split; [lia|]. apply Z.lt_le_trans with (2 ^ (w - 1)); [lia|].
    apply Z.pow_le_mono_r; [lia|]. cbn [wf_basic] in Wb. lia.
  - destruct H.
Qed.

Lemma differs_nonneg tw u L z : std_bits tw -> 0 <= u < 2 ^ tw -> lit_type L z -> 0 <= z ->
  differs (CI false tw, u) (L, z) = Some (Ok (int_ty, if u =? z then 0 else 1)).
Proof.
  intros Ht Hu HL Hz. unfold differs. cbn [fst snd]. set (t := common (CI false tw) L).
  assert (P : prom t /\ in_range t u = true /\ in_range t z = true).
  { unfold t, prom. destruct HL as [[-> B]|[[-> B]|[-> B]]]; destruct Ht as [-> | [-> | [-> | ->]]];
      match goal with |- context [common ?a ?b] => let c := eval vm_compute in (common a b) in change (common a b) with c end;
      (split; [tauto|]); cbn [in_range]; split; apply andb_true_iff; split; try apply Z.leb_le; try apply Z.ltb_lt; lia. }
  destruct P as (P & R1 & R2). rewrite !convert_in by auto. reflexivity.
Qed.
Lemma differs_neg tw u L z : std_bits tw -> 0 <= u < 2 ^ tw -> lit_type L z -> z < 0 ->
  differs (CI false tw, u) (L, z) =
  Some (Ok (int_ty, if (if (tw <? 32) || ((tw =? 32) && (z <=? - 2 ^ 31)) then u =? z else u =? z mod 2 ^ tw) then 0 else 1)).
Proof.
  intros Ht Hu HL Hz. unfold differs. cbn [fst snd]. destruct HL as [[-> B]|[[-> B]|[-> [B B2]]]]; [|lia|].
  - destruct (Z.leb_spec z (- 2 ^ 31)); [lia|]. destruct Ht as [-> | [-> | [-> | ->]]];
      match goal with |- context [common ?a ?b] => let c := eval vm_compute in (common a b) in change (common a b) with c end; cbn [convert].
    + rewrite !sext_id by lia. reflexivity.
    + rewrite !sext_id by lia. reflexivity.
    + rewrite Z.mod_small by lia. reflexivity.
    + rewrite Z.mod_small by lia. reflexivity.
  - destruct (Z.leb_spec z (- 2 ^ 31)); [|lia]. destruct Ht as [-> | [-> | [-> | ->]]];
      match goal with |- context [common ?a ?b] => let c := eval vm_compute in (common a b) in change (common a b) with c end; cbn [convert].
    + rewrite !sext_id by lia. reflexivity.
    + rewrite !sext_id by lia. reflexivity.
    + rewrite !sext_id by lia. reflexivity.
    + rewrite Z.mod_small by lia. reflexivity.
Qed.
Lemma temp_le n w : std_bits w -> 1 <= n <= w -> enum_temp_bits n <= w.
Proof.
  intros Hw Hn. unfold enum_temp_bits. set (k := (n + 7) / 8). assert (Hk : 1 <= k /\ 8 * (k - 1) < w /\ k <= 8) by (unfold k; destruct (std_pos w Hw); lia).
  assert (C : k = 1 \/ k = 2 \/ k = 3 \/ k = 4 \/ k = 5 \/ k = 6 \/ k = 7 \/ k = 8) by lia. clearbody k.
  repeat destruct C as [->|C]; try subst k; match goal with |- 8 * ?h <= _ => let c := eval vm_compute in h in change h with c end;
    destruct Hw as [-> | [-> | [-> | ->]]]; lia.
Qed.
Lemma std_temp n : 1 <= n <= 64 -> std_bits (enum_temp_bits n) /\ n <= enum_temp_bits n.
Proof.
  intros H. destruct (enum_temp_ok n H) as [A B]. split; [|lia]. unfold has_uint, std_bits in *. repeat (apply orb_true_iff in A as [A|A]); apply Z.eqb_eq in A; auto.
Qed.
Lemma cond_run st dn b z base k tw u : std_bits tw -> 0 <= k -> 0 <= u < 2 ^ tw -> c_loc st (temp_name k) = Some (CI false tw, Some u) -> wf_basic b -> const_ok dn b z base ->
  runs st [cs "if (" ++ temp_name k ++ cs " != " ++ const_lit dn b z base ++ cs ") return -1;"]
    (if (if (0 <=? z) || ((tw <? 32) || ((tw =? 32) && (z <=? - 2 ^ 31))) then u =? z else u =? z mod 2 ^ tw) then Ok st else Fail).
Proof.
  intros Ht Hk Hu L Wb Ok'. destruct (temp_var k Hk) as [T1 T2 T3]. destruct (pwf_lit dn b z base) as [W1 W2].
  set (c := PBin "!=" (PId (temp_name k)) (lit_px dn b z base)).
  assert (W : pwf OC c = true).
  { unfold c. cbn [pwf]. cbn [pwf] in T1. rewrite T1, W1. apply andb_true_iff. split; [reflexivity|]. apply Z.leb_le. change (bin_lev OC "!=") with 7. lia. }
  pose proof (ret_reads c W) as R. unfold c in R at 1. cbn [show] in R. rewrite (show_lit dn b z base Ok') in R. rewrite <- ?app_assoc in R.
  destruct (eval_lit st dn b z base Wb Ok') as (L' & El & Lt).
  assert (E : eval st (tree c) = differs (CI false tw, u) (L', z)).
  { unfold c. cbn [tree]. apply (eval_bin st "!=" differs); [reflexivity| |exact El].
    apply (eval_place _ _ _ _ T3). unfold get. cbn [object]. rewrite L. reflexivity. }
  set (q := if (0 <=? z) || ((tw <? 32) || ((tw =? 32) && (z <=? - 2 ^ 31))) then u =? z else u =? z mod 2 ^ tw).
  assert (Ed : differs (CI false tw, u) (L', z) = Some (Ok (int_ty, if q then 0 else 1))).
  { unfold q. destruct (Z.leb_spec 0 z).
    - rewrite differs_nonneg by auto. reflexivity.
    - rewrite differs_neg by auto. cbn [orb]. reflexivity. }
  rewrite Ed in E. destruct q.
  - eapply runs_cons; [exact R| |constructor]. unfold exec. rewrite E. reflexivity.
  - eapply runs_ret; [exact R|]. unfold exec. rewrite E. reflexivity.
Qed.
(** What running a constant's statements does. *)
Definition const_ran (st : cst) (k : Z) (ls : list chars) (r : res bool) : Prop :=
  match r with
  | Ok true => exists st', runs st ls (Ok st') /\ c_data st' = c_data st /\ forall q, simple q -> q <> PL (temp_name k) -> object st' q = object st q
  | Ok false => runs st ls Fail
  | Panic => runs st ls Panic
  | Fail => False
  end.
Theorem dec_const_runs st feq dn arith b n big from z base : wf_basic b -> 1 <= n <= basic_bits b -> 0 <= from -> from + n < 2 ^ 63 -> const_ok dn b z base ->
  c_loc st (temp_name from) = None -> bytes_ok (c_data st) ->
  const_ran st from (dec_const_text dn arith b n big from z base) (c_dconst feq arith b n big from 0 z (c_data st)).
Proof.
  intros Wb Hn Hf Hb Ok' Fr B. assert (Ib : int_basic b = true) by (destruct b; auto; destruct Ok'). pose proof (basic_std b Wb Ib) as Sw.
  pose proof (basic_bits_range b Wb) as B64. destruct (std_temp n ltac:(lia)) as [St Hnt]. pose proof (temp_le n _ Sw Hn) as Htw.
  set (tw := enum_temp_bits n) in *. destruct (std_pos tw St) as [Pt P8].
  unfold dec_const_text. fold tw. pose proof (var_runs st tw from St Hf Fr) as R0.
  set (st0 := set_loc st (temp_name from) (CI false tw, None)) in *.
  assert (O0 : object st0 (PL (temp_name from)) = Some (Ok (CI false tw, None))) by (cbn [object st0 set_loc c_loc]; now rewrite upd_same).
  assert (K0 : forall q, simple q -> q <> PL (temp_name from) -> object st0 q = object st q).
  { intros q Q N. destruct q as [f|f i|y|m q]; [reflexivity|reflexivity| |destruct Q]. cbn [object st0 set_loc c_loc]. rewrite upd_other; [reflexivity|]. intros ->. now apply N. }
  (* the constant is decoded into the temporary *)
  assert (Main : takes b n tw (CI false tw) -> from + n <= 8 * zlen (c_data st) -> exists v, cf_dec (basic_bits b) n big from 0 (c_data st) = Ok v /\ 0 <= v < 2 ^ n /\
    const_ran st from (decl_text tw from :: dec_basic_text dn arith b n big from (temp_name from) ++
      [cs "if (" ++ temp_name from ++ cs " != " ++ const_lit dn b z base ++ cs ") return -1;"])
      (Ok (if (0 <=? z) || ((tw <? 32) || ((tw =? 32) && (z <=? - 2 ^ 31))) then num arith b n v mod 2 ^ tw =? z else num arith b n v mod 2 ^ tw =? z mod 2 ^ tw))).
  { intros Tk Ln. destruct (dec_basic_runs st0 dn arith b n big from (PId (temp_name from)) (PL (temp_name from)) (CI false tw) None tw Wb Hn Hf Hb Tk
      (temp_var from Hf) I O0 B Ln) as (v & st1 & E & Hv & R1 & [M1 M2 M3]).
    exists v. split; [exact E|]. split; [exact Hv|]. cbn [show] in R1.
    assert (L1 : c_loc st1 (temp_name from) = Some (CI false tw, Some (num arith b n v mod 2 ^ tw))).
    { cbn [object raw convert] in M2. destruct (c_loc st1 (temp_name from)) as [[t1 v1]|]; [|discriminate]. injection M2 as -> ->. reflexivity. }
    pose proof (cond_run st1 dn b z base from tw _ St Hf ltac:(apply Z.mod_pos_bound, Z.pow_pos_nonneg; lia) L1 Wb Ok') as Rc.
    match type of Rc with runs _ _ (if ?q then _ else _) => set (c := q) in * end.
    assert (Ra : runs st (decl_text tw from :: dec_basic_text dn arith b n big from (temp_name from) ++
      [cs "if (" ++ temp_name from ++ cs " != " ++ const_lit dn b z base ++ cs ") return -1;"]) (if c then Ok st1 else Fail)).
    { exact (runs_app _ _ st st0 _ R0 (runs_app _ _ st0 st1 _ R1 Rc)). }
    unfold const_ran. destruct c; [|exact Ra]. exists st1. split; [exact Ra|]. split; [exact M1|]. intros q Q N. rewrite M3, K0; auto. }
  assert (Short : takes b n tw (CI false tw) -> 8 * zlen (c_data st) < from + n -> cf_dec (basic_bits b) n big from 0 (c_data st) = Panic /\
    runs st (decl_text tw from :: dec_basic_text dn arith b n big from (temp_name from) ++
      [cs "if (" ++ temp_name from ++ cs " != " ++ const_lit dn b z base ++ cs ") return -1;"]) Panic).
  { intros Tk Ln. destruct (dec_basic_short st0 dn arith b n big from (PId (temp_name from)) (PL (temp_name from)) (CI false tw) None tw Wb Hn Hf Hb Tk
      (temp_var from Hf) I O0 B Ln) as [E R1].
    split; [exact E|]. refine (runs_app [_] _ st st0 _ R0 _). apply runs_app_panic; [exact R1|congruence]. }
  destruct b as [|w|w|w]; cbn [basic_bits wf_basic const_ok] in *; [| | |destruct Ok'].
  - assert (Et : tw = 8) by lia. assert (Tk : takes BBool n tw (CI false tw)) by (cbn [takes]; rewrite Et; eauto).
    destruct (Z.lt_ge_cases (8 * zlen (c_data st)) (from + n)) as [Ls|Ln]; [destruct (Short Tk Ls) as [E Rs]; unfold c_dconst; rewrite E; exact Rs|].
    destruct Main as (v & E & Hv & M); [exact Tk|lia|].
    unfold c_dconst. fold tw. rewrite E. cbn [bind num] in *. destruct (Z.leb_spec 0 z); [|lia]. exact M.
  - assert (Tk : takes (BUint w) n tw (CI false tw)) by (cbn [takes]; repeat split; auto).
    destruct (Z.lt_ge_cases (8 * zlen (c_data st)) (from + n)) as [Ls|Ln]; [destruct (Short Tk Ls) as [E Rs]; unfold c_dconst; rewrite E; exact Rs|].
    destruct Main as (v & E & Hv & M); [exact Tk|lia|].
    unfold c_dconst. fold tw. rewrite E. cbn [bind num] in *. destruct (Z.leb_spec 0 z); [|lia]. exact M.
  - unfold c_dconst. fold tw. destruct (Z.ltb_spec tw w) as [Lt|Ge].
    + pose proof (temp_var from Hf) as V. destruct V as [V1 V2 V3].
      assert (Px : pwf OC (dview_px (BInt w) (PId (temp_name from))) = true /\ place_of (tree (dview_px (BInt w) (PId (temp_name from)))) = Some (PV w (PL (temp_name from)))).
      { cbn [dview_px pwf tree place_of basic_bits]. cbn [pwf] in V1. rewrite V1. change (eqs (cs "*") "*" && eqs (cs "&") "&") with true. cbv iota.
        cbn [tree place_of] in V3. rewrite V3. destruct Sw as [-> | [-> | [-> | ->]]]; split; reflexivity. }
      destruct Px as [Px Pl].
      pose proof (dec_run_wide dn w n from big (dview_px (BInt w) (PId (temp_name from))) (PL (temp_name from)) st0 (CI false tw) None Sw Hn Hf Hb B Px Pl O0 Lt) as R1.
      rewrite show_dview in R1. cbn [show] in R1. unfold const_ran.
      refine (runs_app [_] _ st st0 _ R0 _). unfold dec_basic_text. cbn [basic_bits]. rewrite <- app_assoc.
      apply runs_app_panic; [exact R1|congruence].
    + assert (Et : tw = w) by lia. assert (Tk : takes (BInt w) n tw (CI false tw)) by (cbn [takes]; split; [now symmetry|exists false; now rewrite Et]).
      destruct (Z.lt_ge_cases (8 * zlen (c_data st)) (from + n)) as [Ls|Ln]; [destruct (Short Tk Ls) as [E Rs]; rewrite E; exact Rs|].
      destruct Main as (v & E & Hv & M); [exact Tk|lia|].
      rewrite E. cbn [bind num] in *. destruct Ok' as (Z1 & Z2 & _).
      destruct (Z.leb_spec 0 z) as [Z0|Z0]; cbn [orb] in M; [|exact M].
      assert (Zm : z mod 2 ^ tw = z) by (apply Z.mod_small; rewrite Et; split; [lia|]; apply Z.lt_le_trans with (2 ^ (w - 1)); [lia|apply Z.pow_le_mono_r; lia]).
      rewrite Zm. destruct (_ || _); exact M.
Qed.
