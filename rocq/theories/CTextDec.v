(** Running the printed C decoding statements does what CTarget.v says. *)
From Coq Require Import ZArith Lia Bool String Ascii List.
Import ListNotations.
From Verif Require Import Base BaseProofs Schema GoModel GoBitProofs CfBits CfBitProofs TgtModel CTarget Literals PropsLit ExprModel ExprSpec ExprProofs ExprLex ExprParse PrintTree CSem CText CTextEnc CTextD.
Open Scope string_scope.
Open Scope Z_scope.
Open Scope list_scope.
Ltac Zify.zify_post_hook ::= Z.to_euclidean_division_equations.

(** ** Objects and what a statement changes *)
Definition simple (p : place) : Prop := match p with PV _ _ => False | _ => True end.
Record moved (st : cst) (p : place) (t : ctype) (v : Z) (st' : cst) : Prop := {
  mv_data : c_data st' = c_data st;
  mv_obj : object st' p = Some (Ok (t, Some v));
  mv_keep : forall q, simple q -> q <> p -> object st' q = object st q
}.
Lemma moved_trans st p t v st1 u st2 : moved st p t v st1 -> moved st1 p t u st2 -> moved st p t u st2.
Proof. intros [A1 A2 A3] [B1 B2 B3]. split; try congruence. intros q Q N. rewrite B3, A3; auto. Qed.
Lemma nth_set {A} (l : list A) i v j : (i < List.length l)%nat ->
  nth_error (set_nth l i v) j = if Nat.eqb j i then Some v else nth_error l j.
Proof.
  revert i j. induction l as [|a l IH]; intros i j H; [cbn in H; lia|]. destruct i as [|i].
  - destruct j; reflexivity.
  - destruct j as [|j]; [reflexivity|]. cbn [List.length] in H. specialize (IH i j ltac:(lia)). exact IH.
Qed.
Lemma put_moved st p t o z : simple p -> object st p = Some (Ok (t, o)) -> exists st', put st p z = Some (Ok st') /\ moved st p t z st'.
Proof.
  intros S O. destruct p as [f|f i|x|n p]; [| | |destruct S]; cbn [object put] in *.
  - destruct (c_mem st f) as [[t0 z0|t0 zs]|] eqn:M; try discriminate. injection O as -> <-. eexists. split; [reflexivity|]. split; [reflexivity| |].
    + cbn [object set_mem c_mem]. now rewrite upd_same.
    + intros q Q N. destruct q as [g|g j|y|m q]; [| | |destruct Q]; cbn [object set_mem c_mem c_loc]; try reflexivity.
      * rewrite upd_other; [reflexivity|]. intros ->. now apply N.
      * unfold upd. destruct (list_eq_dec ascii_dec g f) as [->|]; [|reflexivity]. rewrite M. reflexivity.
  - destruct (c_mem st f) as [[t0 z0|t0 zs]|] eqn:M; try discriminate. destruct (Z.ltb_spec i 0); [discriminate|].
    destruct (nth_error zs (Z.to_nat i)) as [z0|] eqn:E; [|discriminate]. injection O as -> <-.
    assert (L : (Z.to_nat i < List.length zs)%nat) by (apply nth_error_Some; congruence).
    destruct (Z.leb_spec (Z.of_nat (List.length zs)) i); [lia|]. cbn [orb]. eexists. split; [reflexivity|]. split; [reflexivity| |].
    + cbn [object set_mem c_mem]. rewrite upd_same. destruct (Z.ltb_spec i 0); [lia|]. rewrite nth_set, Nat.eqb_refl by exact L. reflexivity.
    + intros q Q N. destruct q as [g|g j|y|m q]; [| | |destruct Q]; cbn [object set_mem c_mem c_loc]; try reflexivity.
      * unfold upd. destruct (list_eq_dec ascii_dec g f) as [->|]; [|reflexivity]. rewrite M. reflexivity.
      * unfold upd. destruct (list_eq_dec ascii_dec g f) as [->|]; [|reflexivity]. rewrite M. destruct (Z.ltb_spec j 0); [reflexivity|].
        rewrite nth_set by exact L. destruct (Nat.eqb_spec (Z.to_nat j) (Z.to_nat i)); [|reflexivity]. exfalso. apply N. f_equal. lia.
  - destruct (c_loc st x) as [[t0 v0]|] eqn:M; try discriminate. injection O as -> <-. eexists. split; [reflexivity|]. split; [reflexivity| |].
    + cbn [object set_loc c_loc]. now rewrite upd_same.
    + intros q Q N. destruct q as [g|g j|y|m q]; [| | |destruct Q]; cbn [object set_loc c_mem c_loc]; try reflexivity.
      rewrite upd_other; [reflexivity|]. intros ->. now apply N.
Qed.
Lemma store_place st l p v : place_of l = Some p -> store st l v = look (object st p) (fun o => put st p (convert (fst o) (snd v))).
Proof.
  intros H. unfold store. destruct l as [x|s|s a|s a b|ty a|a s f|f args|a i|ty c a b]; try (now rewrite H).
  destruct (bytes_ptr true a) eqn:B; [|now rewrite H]. destruct a; try discriminate B. destruct i; discriminate H.
Qed.

(** ** An object seen as an unsigned number of [m] bits *)
Definition raw (t : ctype) (z : Z) : Z := match t with CB => z | _ => convert t z end.
Record uview (x : px) (m : Z) (p : place) (t : ctype) : Prop := {
  uv_pwf : pwf OC x = true;
  uv_lev : lev OC x = 100;
  uv_simple : simple p;
  uv_std : std_bits m;
  uv_place : (place_of (tree x) = Some p /\ t = CI false m) \/
             (place_of (tree x) = Some (PV m p) /\ size_of t = m)
}.
Lemma std_pos m : std_bits m -> 0 < m <= 64 /\ 8 <= m.
Proof. intros [-> | [-> | [-> | ->]]]; lia. Qed.
Lemma convert_mod t z m : size_of t = m -> std_bits m -> 0 <= z < 2 ^ m -> (t = CB -> m = 8) -> raw t z mod 2 ^ m = z.
Proof.
  intros E S H _. apply std_pos in S. destruct t as [|[|] n]; cbn [size_of raw convert] in *; subst.
  - now apply Z.mod_small.
  - rewrite sext_mod by lia. now apply Z.mod_small.
  - rewrite Z.mod_mod by lia. now apply Z.mod_small.
Qed.
Lemma uv_read st x m p t z : uview x m p t -> object st p = Some (Ok (t, Some (raw t z))) -> 0 <= z < 2 ^ m ->
  eval st (tree x) = Some (Ok (CI false m, z)).
Proof.
  intros [_ _ S M P] O H. destruct P as [[P ->]|[P E]]; apply (eval_place _ _ _ _ P); unfold get.
  - rewrite O. cbn [raw convert]. now rewrite Z.mod_small.
  - cbn [object]. rewrite O, E, Z.eqb_refl. cbn [option_map]. rewrite (convert_mod t z m E M H); [reflexivity|intros ->; now symmetry].
Qed.
Lemma uv_store st x m p t o ty v : uview x m p t -> object st p = Some (Ok (t, o)) ->
  exists st', store st (tree x) (ty, v) = Some (Ok st') /\ moved st p t (raw t (v mod 2 ^ m)) st'.
Proof.
  intros [_ _ S M P] O. destruct P as [[P ->]|[P E]]; rewrite (store_place _ _ _ _ P).
  - rewrite O. cbn [look fst snd convert]. destruct (put_moved st p (CI false m) o (v mod 2 ^ m) S O) as (st' & Q & R).
    exists st'. split; auto. cbn [raw convert]. rewrite Z.mod_mod by (destruct (std_pos m M); lia). exact R.
  - cbn [object]. rewrite O, E, Z.eqb_refl. cbn [look fst snd convert put]. rewrite O, E, Z.eqb_refl.
    destruct (put_moved st p t o (raw t (v mod 2 ^ m)) S O) as (st' & Q & R). exists st'. split; auto.
Qed.

(** ** The expression for a part *)
Definition cdata_px (pos : Z) : px := PIdx (PPar (PCast (CtCP (cs "uint8_t")) (PId (cs "data")))) (nm (fmtd pos)).
Lemma show_cdata pos : show (cdata_px pos) = cdata_at pos.
Proof. unfold cdata_px, cdata_at. cbn [show cty_text nm]. rewrite <- ?app_assoc. reflexivity. Qed.
Lemma pwf_cdata pos : 0 <= pos -> pwf OC (cdata_px pos) = true.
Proof. intros H. unfold cdata_px, nm. cbn [pwf]. rewrite fmtd_int_lit by auto. reflexivity. Qed.
Definition dpart_px (dn : bool) (b e : Z) : px :=
  let sep := Z.min e (cf_next8 b) in
  let p1 := bx (bx (cdata_px (b / 8)) "&" (nm (binlit dn (cf_mask b sep)))) ">>" (nm (fmtd (b mod 8))) in
  if sep <? e then
    bx p1 "|" (bx (bx (cdata_px (sep / 8)) "&" (nm (binlit dn (cf_mask sep e)))) "<<" (nm (fmtd (e - b - e mod 8))))
  else p1.
Lemma show_dpart dn b e : b < e -> show (dpart_px dn b e) = dec_part_text dn b e.
Proof.
  intros L. unfold dpart_px, dec_part_text. rewrite cf_next8_eq. destruct (Z.ltb_spec b (Z.min e (8 * (b / 8 + 1)))); [|lia].
  destruct (_ <? e); rewrite !show_bx, ?show_cdata; reflexivity.
Qed.
Lemma pwf_dpart dn b e : 0 <= b < e -> e <= b + 8 -> pwf OC (dpart_px dn b e) = true /\ lev OC (dpart_px dn b e) = 100.
Proof.
  intros H1 H2. unfold dpart_px. rewrite cf_next8_eq. set (sep := Z.min e (8 * (b / 8 + 1))).
  assert (Hs : b < sep <= e /\ sep <= 8 * (b / 8 + 1) /\ (sep < e -> sep = 8 * (b / 8 + 1))) by (unfold sep; lia).
  pose proof (cf_mask_range b sep ltac:(lia) ltac:(lia)) as M1.
  assert (P1 : pwf OC (bx (bx (cdata_px (b / 8)) "&" (nm (binlit dn (cf_mask b sep)))) ">>" (nm (fmtd (b mod 8)))) = true).
  { apply pwf_bx; try reflexivity.
    - apply pwf_bx; try reflexivity; [apply pwf_cdata; lia|apply pwf_num, binlit_lit; lia].
    - apply pwf_num, fmtd_int_lit. lia. }
  destruct (Z.ltb_spec sep e); [|split; auto]. pose proof (cf_mask_range sep e ltac:(lia) ltac:(lia)) as M2.
  split; [|reflexivity]. apply pwf_bx; auto. apply pwf_bx; try reflexivity.
  - apply pwf_bx; try reflexivity; [apply pwf_cdata; lia|apply pwf_num, binlit_lit; lia].
  - apply pwf_num, fmtd_int_lit. lia.
Qed.
Lemma eval_cdata st pos : 0 <= pos < 2 ^ 63 ->
  eval st (tree (cdata_px pos)) = match rd (c_data st) pos with Ok b => Some (Ok (CI false 8, b)) | _ => Some Panic end.
Proof.
  intros H. unfold cdata_px. cbn [tree nm]. cbn [eval]. change (bytes_ptr false (NCast (cty_text (CtCP (cs "uint8_t"))) (NId (cs "data")))) with true.
  cbv iota. destruct (eval_fmtd st pos H) as [t E]. cbn [eval] in E. rewrite E. cbn [look snd]. reflexivity.
Qed.
Lemma rd_byte d p b : bytes_ok d -> rd d p = Ok b -> 0 <= b < 256.
Proof.
  intros B. unfold rd. destruct (p <? 0); [discriminate|]. destruct (nth_error d (Z.to_nat p)) eqn:E; [|discriminate]. intros H. injection H as <-.
  unfold bytes_ok in B. rewrite Forall_forall in B. apply B. eapply nth_error_In; eauto.
Qed.
(** A byte and a mask. *)
Lemma evs_byte_mask st dn pos m d : 0 <= pos < 2 ^ 63 -> bytes_ok (c_data st) -> 0 <= m < 256 -> rd (c_data st) pos = Ok d ->
  evs st (tree (bx (cdata_px pos) "&" (nm (binlit dn m)))) (Z.land d m).
Proof.
  intros Hp B Hm E. pose proof (rd_byte _ _ _ B E) as D. exists int_ty. split; [now left|]. pose proof (land_byte d m ltac:(lia) Hm). split; [lia|].
  cbn [tree bx]. rewrite (eval_bin st "&" (bitwise Z.land) _ _ (CI false 8, d) (int_ty, m)); [|reflexivity| |].
  - unfold bitwise. cbn [fst snd]. change (common (CI false 8) int_ty) with int_ty. rewrite !convert_in; [reflexivity| | | |]; try (now left); apply small_in; try (now left); lia.
  - rewrite eval_cdata by exact Hp. now rewrite E.
  - apply eval_num. now apply binlit_literal.
Qed.
Lemma evs_dpart st dn b e r : 0 <= b < e -> e <= b + 8 -> e < 2 ^ 63 -> bytes_ok (c_data st) -> cf_dec_part 0 b e (c_data st) = Ok r ->
  evs st (tree (dpart_px dn b e)) r.
Proof.
  intros H1 H2 H3 B E. unfold dpart_px. unfold cf_dec_part in E. rewrite cf_next8_eq in *. set (sep := Z.min e (8 * (b / 8 + 1))) in *.
  assert (Hs : b < sep <= e /\ sep <= 8 * (b / 8 + 1) /\ (sep < e -> sep = 8 * (b / 8 + 1))) by (unfold sep; lia).
  pose proof (cf_mask_range b sep ltac:(lia) ltac:(lia)) as M1. destruct (Z.ltb_spec b sep); [|lia].
  change (0 + b / 8) with (b / 8) in E. destruct (rd (c_data st) (b / 8)) as [d| |] eqn:R1; cbn [bind] in E; try discriminate.
  assert (P1 : evs st (tree (bx (bx (cdata_px (b / 8)) "&" (nm (binlit dn (cf_mask b sep)))) ">>" (nm (fmtd (b mod 8)))))
    (Z.shiftr (Z.land d (cf_mask b sep)) (b mod 8))).
  { apply (evs_shr st (tree (bx (cdata_px (b / 8)) "&" (nm (binlit dn (cf_mask b sep)))))); [apply evs_byte_mask; auto; lia|apply fmtd_literal; lia|lia]. }
  destruct (Z.ltb_spec sep e); [|injection E as <-; exact P1].
  pose proof (cf_mask_range sep e ltac:(lia) ltac:(lia)) as M2. change (0 + sep / 8) with (sep / 8) in E.
  destruct (rd (c_data st) (sep / 8)) as [d2| |] eqn:R2; cbn [bind] in E; try discriminate. injection E as <-.
  pose proof (rd_byte _ _ _ B R2) as D2. pose proof (land_byte d2 (cf_mask sep e) ltac:(lia) M2) as L2.
  apply (evs_or st _ (tree (bx (bx (cdata_px (sep / 8)) "&" (nm (binlit dn (cf_mask sep e)))) "<<" (nm (fmtd (e - b - e mod 8)))))); [exact P1|].
  apply (evs_shl st (tree (bx (cdata_px (sep / 8)) "&" (nm (binlit dn (cf_mask sep e)))))); [apply evs_byte_mask; auto; lia|apply fmtd_literal; lia|lia|].
  rewrite Z.shiftl_mul_pow2 by lia. assert (0 < 2 ^ (e - b - e mod 8) <= 2 ^ 8) by (split; [apply Z.pow_pos_nonneg; lia|apply Z.pow_le_mono_r; lia]).
  change (2 ^ 8) with 256 in *. change (2 ^ 31) with (256 * 8388608). nia.
Qed.

(** Bytes outside of data. *)
Lemma eval_bin_left st s f a b : operator (cs s) = Some f -> eval st a = Some Panic -> eval st (NBin (cs s) a b) = Some Panic.
Proof. intros O A. cbn [eval]. rewrite O, A. reflexivity. Qed.
Lemma eval_bin_right st s f a b x : operator (cs s) = Some f -> eval st a = Some (Ok x) -> eval st b = Some Panic -> eval st (NBin (cs s) a b) = Some Panic.
Proof. intros O A B. cbn [eval]. rewrite O, A, B. reflexivity. Qed.
Lemma cf_dec_part_cases b e d : (exists r, cf_dec_part 0 b e d = Ok r) \/ cf_dec_part 0 b e d = Panic.
Proof.
  unfold cf_dec_part. destruct (b <? _).
  - destruct (rd_cases d (0 + b / 8)) as [[x ->]| ->]; cbn [bind]; [|now right]. destruct (_ <? e); [|eauto].
    destruct (rd_cases d (0 + Z.min e (cf_next8 b) / 8)) as [[y ->]| ->]; cbn [bind]; eauto.
  - cbn [bind]. destruct (_ <? e); [|eauto]. destruct (rd_cases d (0 + Z.min e (cf_next8 b) / 8)) as [[y ->]| ->]; cbn [bind]; eauto.
Qed.
Lemma byte_mask_panic st dn pos m : 0 <= pos < 2 ^ 63 -> rd (c_data st) pos = Panic -> eval st (tree (bx (cdata_px pos) "&" (nm (binlit dn m)))) = Some Panic.
Proof. intros Hp E. cbn [tree bx]. apply (eval_bin_left st "&" (bitwise Z.land)); [reflexivity|]. rewrite eval_cdata by exact Hp. now rewrite E. Qed.
Lemma dpart_panic st dn b e : 0 <= b < e -> e <= b + 8 -> e < 2 ^ 63 -> bytes_ok (c_data st) -> cf_dec_part 0 b e (c_data st) = Panic ->
  eval st (tree (dpart_px dn b e)) = Some Panic.
Proof.
  intros H1 H2 H3 B E. unfold dpart_px. unfold cf_dec_part in E. rewrite cf_next8_eq in *. set (sep := Z.min e (8 * (b / 8 + 1))) in *.
  assert (Hs : b < sep <= e /\ sep <= 8 * (b / 8 + 1) /\ (sep < e -> sep = 8 * (b / 8 + 1))) by (unfold sep; lia).
  pose proof (cf_mask_range b sep ltac:(lia) ltac:(lia)) as M1. destruct (Z.ltb_spec b sep); [|lia].
  change (0 + b / 8) with (b / 8) in E. destruct (rd_cases (c_data st) (b / 8)) as [[d R1]|R1]; rewrite R1 in E; cbn [bind] in E.
  - assert (P1 : evs st (tree (bx (bx (cdata_px (b / 8)) "&" (nm (binlit dn (cf_mask b sep)))) ">>" (nm (fmtd (b mod 8)))))
      (Z.shiftr (Z.land d (cf_mask b sep)) (b mod 8))).
    { apply (evs_shr st (tree (bx (cdata_px (b / 8)) "&" (nm (binlit dn (cf_mask b sep)))))); [apply evs_byte_mask; auto; lia|apply fmtd_literal; lia|lia]. }
    destruct (Z.ltb_spec sep e); [|discriminate E]. change (0 + sep / 8) with (sep / 8) in E.
    destruct (rd_cases (c_data st) (sep / 8)) as [[d2 R2]|R2]; rewrite R2 in E; cbn [bind] in E; [discriminate E|].
    destruct P1 as (t & _ & _ & P1). refine (eval_bin_right st "|" (bitwise Z.lor) _ _ _ eq_refl P1 _).
    refine (eval_bin_left st "<<" shift_left _ _ eq_refl _). apply byte_mask_panic; [lia|exact R2].
  - assert (P1 : eval st (tree (bx (bx (cdata_px (b / 8)) "&" (nm (binlit dn (cf_mask b sep)))) ">>" (nm (fmtd (b mod 8))))) = Some Panic).
    { refine (eval_bin_left st ">>" shift_right _ _ eq_refl _). apply byte_mask_panic; [lia|exact R1]. }
    destruct (sep <? e); [|exact P1]. exact (eval_bin_left st "|" (bitwise Z.lor) _ _ eq_refl P1).
Qed.
(** cf_dec fails exactly if the last bit is outside of data. *)
Lemma cf_dec_part_end b e d r : 0 <= b < e -> e <= b + 8 -> cf_dec_part 0 b e d = Ok r -> e <= 8 * zlen d.
Proof.
  intros H1 H2 E. unfold cf_dec_part in E. rewrite cf_next8_eq in *. set (sep := Z.min e (8 * (b / 8 + 1))) in *.
  assert (Hs : b < sep <= e /\ sep <= 8 * (b / 8 + 1) /\ (sep < e -> sep = 8 * (b / 8 + 1))) by (unfold sep; lia).
  destruct (Z.ltb_spec b sep); [|lia]. change (0 + b / 8) with (b / 8) in E.
  destruct (rd d (b / 8)) as [x| |] eqn:R1; cbn [bind] in E; try discriminate. apply rd_bound in R1.
  destruct (Z.ltb_spec sep e); [|lia]. change (0 + sep / 8) with (sep / 8) in E.
  destruct (rd d (sep / 8)) as [y| |] eqn:R2; cbn [bind] in E; try discriminate. apply rd_bound in R2. lia.
Qed.
Lemma cf_loop_cases w n from big d : 0 <= from -> forall fuel ff acc, 0 <= ff ->
  (exists v, cf_dec_loop fuel w from n ff big 0 acc d = Ok v /\ (ff < n -> n - ff <= Z.of_nat fuel -> from + n <= 8 * zlen d)) \/
  cf_dec_loop fuel w from n ff big 0 acc d = Panic.
Proof.
  intros Hf. induction fuel as [|fuel IH]; intros ff acc Hff.
  - left. eexists. split; [reflexivity|]. lia.
  - cbn [cf_dec_loop]. destruct (Z.ltb_spec ff n); [|left; eexists; split; [reflexivity|lia]].
    destruct (cf_dec_part_cases (from + ff) (Z.min (from + n) (from + ff + 8)) d) as [[r E]|E]; rewrite E; cbn [bind]; [|now right].
    apply cf_dec_part_end in E; [|lia|lia]. set (a2 := if _ =? 0 then _ else _). destruct (IH (ff + 8) a2 ltac:(lia)) as [(v & Ev & Hv)|Ev]; [left|now right].
    exists v. split; [exact Ev|]. intros _ Hl. destruct (Z.lt_ge_cases (ff + 8) n); [apply Hv; lia|lia].
Qed.
Lemma cf_dec_short w n big from d : 1 <= n -> 0 <= from -> 8 * zlen d < from + n -> cf_dec w n big from 0 d = Panic.
Proof.
  intros Hn Hf L. unfold cf_dec. destruct (cf_loop_cases w n from big d Hf (Z.to_nat n) 0 0 (Z.le_refl 0)) as [(v & _ & Hv)|E]; [|exact E].
  specialize (Hv ltac:(lia) ltac:(lia)). lia.
Qed.

(** ** One assignment *)
Definition chunk_px (dn : bool) (w b e sh : Z) : px := bx (PCast (CtS (uint_name w)) (dpart_px dn b e)) "<<" (nm (declit dn sh)).
Lemma pwf_chunk dn w b e sh : std_bits w -> 0 <= b < e -> e <= b + 8 -> 0 <= sh -> pwf OC (chunk_px dn w b e sh) = true.
Proof.
  intros Hw H1 H2 Hs. destruct (pwf_dpart dn b e H1 H2) as [P L]. destruct (uint_named w Hw) as (_ & N & C).
  unfold chunk_px, bx. cbn [pwf cty_ok lev]. rewrite N, C, P, L. rewrite (pwf_num (declit dn sh)) by (apply emit_int_lit; exact Hs). reflexivity.
Qed.
Lemma convert_high t v m : 0 <= m <= size_of t -> (exists s n, t = CI s n) -> convert t v mod 2 ^ m = v mod 2 ^ m.
Proof.
  intros H (s & n & ->). cbn [size_of] in H. destruct (Z.eq_dec m 0) as [->|]; [now rewrite !Z.mod_1_r|].
  assert (D : forall x, x mod 2 ^ n mod 2 ^ m = x mod 2 ^ m).
  { intros x. replace (2 ^ n) with (2 ^ m * 2 ^ (n - m)) by (rewrite <- Z.pow_add_r by lia; f_equal; lia).
    assert (0 < 2 ^ m) by (apply Z.pow_pos_nonneg; lia). assert (0 < 2 ^ (n - m)) by (apply Z.pow_pos_nonneg; lia).
    rewrite Z.rem_mul_r by lia. rewrite Z.mul_comm, Z.mod_add by lia. apply Z.mod_mod. lia. }
  destruct s; cbn [convert]; [|apply D]. rewrite <- D. rewrite sext_mod by lia. apply D.
Qed.
Lemma eval_chunk st dn w b e sh r : std_bits w -> 0 <= b < e -> e <= b + 8 -> e < 2 ^ 63 -> 0 <= sh < w -> bytes_ok (c_data st) ->
  cf_dec_part 0 b e (c_data st) = Ok r ->
  exists t v, eval st (tree (chunk_px dn w b e sh)) = Some (Ok (t, v)) /\ (exists s n, t = CI s n) /\ w <= size_of t /\
    forall m, 0 <= m <= w -> v mod 2 ^ m = Z.shiftl (r mod 2 ^ w) sh mod 2 ^ m.
Proof.
  intros Hw H1 H2 H3 Hs B E. destruct (evs_dpart st dn b e r H1 H2 H3 B E) as (t0 & _ & R & V).
  destruct (uint_named w Hw) as (T & _). destruct (promote_std w Hw) as [Pt Sz].
  assert (Hm : 0 <= r mod 2 ^ w < 2 ^ w) by (apply Z.mod_pos_bound, Z.pow_pos_nonneg; destruct (std_pos w Hw); lia).
  set (t := promote (CI false w)) in *.
  exists t, (convert t (Z.shiftl (r mod 2 ^ w) sh)). split; [|split; [|split; [exact Sz|]]].
  - unfold chunk_px. cbn [tree bx nm]. rewrite (eval_bin st "<<" shift_left _ _ (CI false w, r mod 2 ^ w) (int_ty, sh)); [|reflexivity| |].
    + unfold shift_left. cbn [fst snd]. fold t. destruct (Z.ltb_spec sh 0); [lia|]. destruct (Z.leb_spec (size_of t) sh); [lia|]. cbn [orb].
      destruct (Z.ltb_spec (r mod 2 ^ w) 0); [lia|]. destruct Pt as [-> | [-> | [-> | ->]]]; reflexivity.
    + cbn [eval cty_text]. rewrite T, V. reflexivity.
    + apply eval_num. apply emit_literal. destruct (std_pos w Hw). lia.
  - destruct Pt as [-> | [-> | [-> | ->]]]; eauto.
  - intros m Mm. apply convert_high; [lia|]. destruct Pt as [-> | [-> | [-> | ->]]]; eauto.
Qed.
Lemma chunk_panic st dn w b e sh l : std_bits w -> 0 <= b < e -> e <= b + 8 -> e < 2 ^ 63 -> bytes_ok (c_data st) -> cf_dec_part 0 b e (c_data st) = Panic ->
  eval st (tree (chunk_px dn w b e sh)) = Some Panic /\ rhs st l (tree (chunk_px dn w b e sh)) = Some Panic.
Proof.
  intros Hw H1 H2 H3 B E. destruct (uint_named w Hw) as (T & _).
  assert (X : eval st (tree (chunk_px dn w b e sh)) = Some Panic).
  { pose proof (dpart_panic st dn b e H1 H2 H3 B E) as P. unfold chunk_px. cbn [tree bx nm].
    apply (eval_bin_left st "<<" shift_left); [reflexivity|]. cbn [eval cty_text]. rewrite T, P. reflexivity. }
  split; [exact X|]. rewrite <- X. unfold rhs, enum_cast, chunk_px, bx. cbn [tree]. destruct (place_of l) as [[| | |]|]; reflexivity.
Qed.
Lemma common_size m t : std_bits m -> (exists s n, t = CI s n) -> m <= size_of t -> (exists s n, common (CI false m) t = CI s n) /\ m <= size_of (common (CI false m) t).
Proof.
  intros Hm (s & n & ->) H. cbn [size_of] in H.
  assert (P : exists u k, promote (CI false m) = CI u k /\ m <= k) by (unfold promote; destruct (Z.ltb_spec m 32); [exists true, 32; split; [reflexivity|lia]|eexists; eexists; split; [reflexivity|lia]]).
  assert (Q : exists u k, promote (CI s n) = CI u k /\ m <= k) by (unfold promote; destruct (Z.ltb_spec n 32); [exists true, 32; split; [reflexivity|lia]|eexists; eexists; split; [reflexivity|lia]]).
  destruct P as (u & k & P & Hk). destruct Q as (u2 & k2 & Q & Hk2). unfold common. rewrite P, Q.
  destruct (k =? k2); [split; [eauto|exact Hk]|]. destruct (k <? k2); split; eauto.
Qed.
Lemma lor_mod_pow a b m : 0 <= m -> Z.lor a b mod 2 ^ m = Z.lor (a mod 2 ^ m) (b mod 2 ^ m).
Proof. intros H. rewrite <- !Z.land_ones by exact H. apply Z.land_lor_distr_l. Qed.

Section Loop.
Variables (dn : bool) (w n from : Z) (big : bool) (x : px) (m : Z) (p : place) (t : ctype).
Hypotheses (Hw : std_bits w) (Hn : 1 <= n <= w) (Hf : 0 <= from) (Hb : from + n < 2 ^ 63).
Definition line (ff : Z) : chars :=
  let i := ff / 8 in
  let sh := if big then Z.max 0 (n - 8 * (i + 1)) else i * 8 in
  show x ++ (if i =? 0 then cs " = " else cs " |= ") ++
  binop (cs "(" ++ uint_name w ++ cs ")" ++ dec_part_text dn (from + ff) (Z.min (from + n) (from + ff + 8))) "<<" (declit dn sh) ++ cs ";".
Definition line_val (ff r : Z) : Z :=
  let i := ff / 8 in let sh := if big then Z.max 0 (n - 8 * (i + 1)) else i * 8 in Z.shiftl (r mod 2 ^ w) sh.
Definition line_stmt (ff : Z) : cstmt :=
  let i := ff / 8 in let sh := if big then Z.max 0 (n - 8 * (i + 1)) else i * 8 in
  SSet (cs (if i =? 0 then "=" else "|=")) (tree x) (tree (chunk_px dn w (from + ff) (Z.min (from + n) (from + ff + 8)) sh)).
Lemma sh_range ff : 0 <= ff < n -> 0 <= (if big then Z.max 0 (n - 8 * (ff / 8 + 1)) else ff / 8 * 8) < w.
Proof. destruct (std_pos w Hw). destruct big; lia. Qed.
Lemma line_ok ff : pwf OC x = true -> 0 <= ff < n -> reads_stmt (line ff) (line_stmt ff).
Proof.
  intros Wx Hff. unfold line, line_stmt. cbv zeta. set (i := ff / 8). pose proof (sh_range ff Hff) as Hs. fold i in Hs.
  set (sh := if big then _ else _) in *. set (e := Z.min (from + n) (from + ff + 8)).
  assert (He : from + ff < e <= from + ff + 8) by (unfold e; lia).
  pose proof (set_reads (if i =? 0 then "=" else "|=") x (chunk_px dn w (from + ff) e sh)) as R.
  unfold chunk_px in R at 2. rewrite show_bx in R. cbn [show cty_text nm] in R. rewrite show_dpart in R by lia. rewrite <- ?app_assoc in R.
  assert (E : show x ++ (if i =? 0 then cs " = " else cs " |= ") ++ binop (cs "(" ++ uint_name w ++ cs ")" ++ dec_part_text dn (from + ff) e) "<<" (declit dn sh) ++ cs ";" =
    show x ++ cs " " ++ cs (if i =? 0 then "=" else "|=") ++ cs " " ++ binop (cs "(" ++ uint_name w ++ cs ")" ++ dec_part_text dn (from + ff) e) "<<" (declit dn sh) ++ cs ";").
  { destruct (i =? 0); reflexivity. }
  rewrite E. apply R.
  - destruct (i =? 0); [now left|now right].
  - exact Wx.
  - apply pwf_chunk; auto; lia.
Qed.
Hypotheses (V : uview x m p t) (Hm : m <= w).
(** The lvalue holds the low [m] bits of [acc] before and those of the model's next number after. *)
Lemma line_run ff r acc o st : 0 <= ff < n -> bytes_ok (c_data st) -> 0 <= acc ->
  cf_dec_part 0 (from + ff) (Z.min (from + n) (from + ff + 8)) (c_data st) = Ok r ->
  object st p = Some (Ok (t, o)) -> (ff / 8 <> 0 -> o = Some (raw t (acc mod 2 ^ m))) ->
  exists st', exec st (line_stmt ff) = Some (Ok st') /\
    moved st p t (raw t ((if ff / 8 =? 0 then line_val ff r mod 2 ^ w else Z.lor acc (line_val ff r mod 2 ^ w)) mod 2 ^ m)) st'.
Proof.
  intros Hff B Ha E O Ho. pose proof (uv_std _ _ _ _ V) as Sm. destruct (std_pos m Sm) as [Pm _]. destruct (std_pos w Hw) as [Pw _].
  unfold line_stmt, line_val. cbv zeta. pose proof (sh_range ff Hff) as Hs. set (sh := if big then _ else _) in *. set (e := Z.min (from + n) (from + ff + 8)) in *.
  assert (He : from + ff < e <= from + ff + 8 /\ e < 2 ^ 63) by (unfold e; lia).
  destruct (eval_chunk st dn w (from + ff) e sh r Hw ltac:(lia) ltac:(lia) ltac:(lia) Hs B E) as (ty & v & Ev & Ci & Sz & Vm).
  assert (Dm : forall z, z mod 2 ^ w mod 2 ^ m = z mod 2 ^ m).
  { intros z. pose proof (convert_high (CI false w) z m ltac:(cbn [size_of]; lia) ltac:(eauto)) as Q. exact Q. }
  unfold exec. destruct (Z.eqb_spec (ff / 8) 0) as [I0|I0].
  - change (eqs (cs "=") "=") with true. cbv iota. rewrite (rhs_eval _ _ _ _ Ev). cbn [look].
    destruct (uv_store st x m p t o ty v V O) as (st' & S & M). exists st'. split; auto. rewrite Dm, <- Vm by lia. exact M.
  - change (eqs (cs "|=") "=") with false. cbv iota. rewrite (Ho I0) in O.
    rewrite (uv_read st x m p t (acc mod 2 ^ m) V O) by (apply Z.mod_pos_bound, Z.pow_pos_nonneg; lia).
    cbn [look]. rewrite Ev. cbn [look]. unfold bitwise. cbn [fst snd].
    destruct (common_size m ty Sm Ci ltac:(lia)) as [Cc Cs].
    destruct (uv_store st x m p t _ (common (CI false m) ty) (Z.lor (convert (common (CI false m) ty) (acc mod 2 ^ m)) (convert (common (CI false m) ty) v)) V O) as (st' & S & M).
    exists st'. split; [exact S|]. rewrite lor_mod_pow in M by lia. rewrite !convert_high in M by (auto; lia). rewrite Vm in M by lia.
    rewrite Z.mod_mod in M by (assert (0 < 2 ^ m) by (apply Z.pow_pos_nonneg; lia); lia). rewrite lor_mod_pow, Dm by lia. exact M.
Qed.
Lemma dec_loop_text_S f ff : dec_loop_text (S f) dn w from n ff big (show x) = if ff <? n then line ff :: dec_loop_text f dn w from n (ff + 8) big (show x) else [].
Proof. reflexivity. Qed.
Lemma cf_dec_loop_S f ff acc data : cf_dec_loop (S f) w from n ff big 0 acc data =
  if ff <? n then
    do r <- cf_dec_part 0 (from + ff) (Z.min (from + n) (from + ff + 8)) data;
    cf_dec_loop f w from n (ff + 8) big 0 (if ff / 8 =? 0 then line_val ff r mod 2 ^ w else Z.lor acc (line_val ff r mod 2 ^ w)) data
  else Ok acc.
Proof. reflexivity. Qed.
Lemma loop_run : forall fuel ff acc v st, 0 < ff -> ff mod 8 = 0 -> bytes_ok (c_data st) -> 0 <= acc ->
  cf_dec_loop fuel w from n ff big 0 acc (c_data st) = Ok v -> object st p = Some (Ok (t, Some (raw t (acc mod 2 ^ m)))) ->
  exists st', runs st (dec_loop_text fuel dn w from n ff big (show x)) (Ok st') /\ moved st p t (raw t (v mod 2 ^ m)) st'.
Proof.
  assert (Stop : forall st acc, object st p = Some (Ok (t, Some (raw t (acc mod 2 ^ m)))) -> moved st p t (raw t (acc mod 2 ^ m)) st) by (intros; split; auto).
  induction fuel as [|fuel IH]; intros ff acc v st H0 H8 B Ha E O.
  - cbn [dec_loop_text cf_dec_loop] in *. injection E as <-. exists st. split; [constructor|auto].
  - rewrite dec_loop_text_S. rewrite cf_dec_loop_S in E. destruct (Z.ltb_spec ff n).
    + destruct (cf_dec_part 0 (from + ff) (Z.min (from + n) (from + ff + 8)) (c_data st)) as [r| |] eqn:R; cbn [bind] in E; try discriminate.
      destruct (line_run ff r acc _ st ltac:(lia) B Ha R O ltac:(auto)) as (st1 & X & M). destruct (Z.eqb_spec (ff / 8) 0); [lia|].
      assert (Ha2 : 0 <= Z.lor acc (line_val ff r mod 2 ^ w)).
      { apply Z.lor_nonneg. split; [exact Ha|]. apply Z.mod_pos_bound, Z.pow_pos_nonneg; destruct (std_pos w Hw); lia. }
      rewrite <- (mv_data _ _ _ _ _ M) in E.
      destruct (IH (ff + 8) _ v st1 ltac:(lia) ltac:(lia) ltac:(now rewrite (mv_data _ _ _ _ _ M)) Ha2 E (mv_obj _ _ _ _ _ M)) as (st' & Q & M').
      exists st'. split; [eapply runs_cons; [apply line_ok; [apply (uv_pwf _ _ _ _ V)|lia]|exact X|exact Q]|]. eapply moved_trans; eauto.
    + injection E as <-. exists st. split; [constructor|auto].
Qed.
Theorem dec_run st o : bytes_ok (c_data st) -> from + n <= 8 * zlen (c_data st) -> object st p = Some (Ok (t, o)) ->
  exists v st', cf_dec w n big from 0 (c_data st) = Ok v /\ 0 <= v < 2 ^ n /\
    runs st (dec_loop_text (Z.to_nat n) dn w from n 0 big (show x)) (Ok st') /\ moved st p t (raw t (v mod 2 ^ m)) st'.
Proof.
  intros B L O. exists (read_value (c_data st) (8 * 0 + from) n big). destruct (std_pos w Hw) as [Pw P8].
  pose proof (cf_dec_eq w n big from 0 (c_data st) P8 Hn Hf (Z.le_refl 0) B ltac:(lia)) as E. rewrite E.
  unfold cf_dec in E. destruct (Z.to_nat n) as [|k] eqn:K; [lia|]. rewrite dec_loop_text_S. rewrite cf_dec_loop_S in E.
  destruct (Z.ltb_spec 0 n); [|lia].
  destruct (cf_dec_part 0 (from + 0) (Z.min (from + n) (from + 0 + 8)) (c_data st)) as [r| |] eqn:R; cbn [bind] in E; try discriminate.
  destruct (line_run 0 r 0 o st ltac:(lia) B (Z.le_refl 0) R O ltac:(intros N; exfalso; apply N; reflexivity)) as (st1 & X & M).
  change (0 / 8 =? 0) with true in *. cbv iota in *.
  assert (Ha2 : 0 <= line_val 0 r mod 2 ^ w) by (apply Z.mod_pos_bound, Z.pow_pos_nonneg; lia).
  rewrite <- (mv_data _ _ _ _ _ M) in E.
  destruct (loop_run k (0 + 8) _ _ st1 ltac:(lia) ltac:(reflexivity) ltac:(now rewrite (mv_data _ _ _ _ _ M)) Ha2 E (mv_obj _ _ _ _ _ M)) as (st' & Q & M').
  exists st'. split; [reflexivity|]. rewrite (mv_data _ _ _ _ _ M) in *. split; [apply read_value_bound; lia|].
  split; [eapply runs_cons; [apply line_ok; [apply (uv_pwf _ _ _ _ V)|lia]|exact X|exact Q]|]. eapply moved_trans; eauto.
Qed.
Lemma line_panic ff o acc st : 0 <= ff < n -> bytes_ok (c_data st) ->
  cf_dec_part 0 (from + ff) (Z.min (from + n) (from + ff + 8)) (c_data st) = Panic ->
  object st p = Some (Ok (t, o)) -> (ff / 8 <> 0 -> o = Some (raw t (acc mod 2 ^ m))) -> exec st (line_stmt ff) = Some Panic.
Proof.
  intros Hff B E O Ho. destruct (std_pos m (uv_std _ _ _ _ V)) as [Pm _].
  unfold line_stmt. cbv zeta. set (sh := if big then _ else _) in *. set (e := Z.min (from + n) (from + ff + 8)) in *.
  assert (He : from + ff < e <= from + ff + 8 /\ e < 2 ^ 63) by (unfold e; lia).
  destruct (chunk_panic st dn w (from + ff) e sh (tree x) Hw ltac:(lia) ltac:(lia) ltac:(lia) B E) as [X Y].
  unfold exec. destruct (Z.eqb_spec (ff / 8) 0) as [I0|I0].
  - change (eqs (cs "=") "=") with true. cbv iota. rewrite Y. reflexivity.
  - change (eqs (cs "|=") "=") with false. cbv iota. rewrite (Ho I0) in O.
    rewrite (uv_read st x m p t (acc mod 2 ^ m) V O) by (apply Z.mod_pos_bound, Z.pow_pos_nonneg; lia).
    cbn [look]. rewrite X. reflexivity.
Qed.
Lemma loop_panic : forall fuel ff acc st, 0 < ff -> ff mod 8 = 0 -> bytes_ok (c_data st) -> 0 <= acc ->
  cf_dec_loop fuel w from n ff big 0 acc (c_data st) = Panic -> object st p = Some (Ok (t, Some (raw t (acc mod 2 ^ m)))) ->
  runs st (dec_loop_text fuel dn w from n ff big (show x)) Panic.
Proof.
  induction fuel as [|fuel IH]; intros ff acc st H0 H8 B Ha E O; [discriminate E|].
  rewrite dec_loop_text_S. rewrite cf_dec_loop_S in E. destruct (Z.ltb_spec ff n); [|discriminate E].
  destruct (cf_dec_part_cases (from + ff) (Z.min (from + n) (from + ff + 8)) (c_data st)) as [[r R]|R].
  - rewrite R in E. cbn [bind] in E. destruct (line_run ff r acc _ st ltac:(lia) B Ha R O ltac:(auto)) as (st1 & X & M). destruct (Z.eqb_spec (ff / 8) 0); [lia|].
    assert (Ha2 : 0 <= Z.lor acc (line_val ff r mod 2 ^ w)).
    { apply Z.lor_nonneg. split; [exact Ha|]. apply Z.mod_pos_bound, Z.pow_pos_nonneg; destruct (std_pos w Hw); lia. }
    rewrite <- (mv_data _ _ _ _ _ M) in E.
    eapply runs_cons; [apply line_ok; [apply (uv_pwf _ _ _ _ V)|lia]|exact X|].
    exact (IH (ff + 8) _ st1 ltac:(lia) ltac:(lia) ltac:(now rewrite (mv_data _ _ _ _ _ M)) Ha2 E (mv_obj _ _ _ _ _ M)).
  - eapply runs_undef; [apply line_ok; [apply (uv_pwf _ _ _ _ V)|lia]|]. eapply line_panic; eauto. lia.
Qed.
Theorem dec_run_short st o : bytes_ok (c_data st) -> 8 * zlen (c_data st) < from + n -> object st p = Some (Ok (t, o)) ->
  runs st (dec_loop_text (Z.to_nat n) dn w from n 0 big (show x)) Panic.
Proof.
  intros B L O. pose proof (cf_dec_short w n big from (c_data st) ltac:(lia) Hf L) as E.
  unfold cf_dec in E. destruct (Z.to_nat n) as [|k] eqn:K; [lia|]. rewrite dec_loop_text_S. rewrite cf_dec_loop_S in E.
  destruct (Z.ltb_spec 0 n); [|lia]. destruct (std_pos w Hw) as [Pw _].
  destruct (cf_dec_part_cases (from + 0) (Z.min (from + n) (from + 0 + 8)) (c_data st)) as [[r R]|R].
  - rewrite R in E. cbn [bind] in E.
    destruct (line_run 0 r 0 o st ltac:(lia) B (Z.le_refl 0) R O ltac:(intros N; exfalso; apply N; reflexivity)) as (st1 & X & M).
    change (0 / 8 =? 0) with true in *. cbv iota in *.
    assert (Ha2 : 0 <= line_val 0 r mod 2 ^ w) by (apply Z.mod_pos_bound, Z.pow_pos_nonneg; lia).
    rewrite <- (mv_data _ _ _ _ _ M) in E.
    eapply runs_cons; [apply line_ok; [apply (uv_pwf _ _ _ _ V)|lia]|exact X|].
    exact (loop_panic k (0 + 8) _ st1 ltac:(lia) ltac:(reflexivity) ltac:(now rewrite (mv_data _ _ _ _ _ M)) Ha2 E (mv_obj _ _ _ _ _ M)).
  - eapply runs_undef; [apply line_ok; [apply (uv_pwf _ _ _ _ V)|lia]|]. eapply (line_panic 0 o 0); eauto; [lia|]. intros N. exfalso. now apply N.
Qed.
End Loop.
(** Written through a pointer to a type larger than the variable: undefined. *)
Theorem dec_run_wide dn w n from big x p st t o : std_bits w -> 1 <= n <= w -> 0 <= from -> from + n < 2 ^ 63 -> bytes_ok (c_data st) ->
  pwf OC x = true -> place_of (tree x) = Some (PV w p) -> object st p = Some (Ok (t, o)) -> size_of t < w ->
  runs st (dec_loop_text (Z.to_nat n) dn w from n 0 big (show x)) Panic.
Proof.
  intros Hw Hn Hf Hb B Wx P O Sz. destruct (std_pos w Hw) as [Pw P8].
  destruct (Z.to_nat n) as [|k] eqn:K; [lia|]. rewrite dec_loop_text_S. destruct (Z.ltb_spec 0 n); [|lia].
  eapply runs_undef; [apply line_ok; auto; lia|]. unfold line_stmt, exec. cbv zeta. change (0 / 8 =? 0) with true. cbv iota. change (eqs (cs "=") "=") with true. cbv iota.
  pose proof (sh_range w n big Hw Hn 0 ltac:(lia)) as Hs.
  destruct (cf_dec_part_cases (from + 0) (Z.min (from + n) (from + 0 + 8)) (c_data st)) as [[r R]|R].
  - destruct (eval_chunk st dn w (from + 0) (Z.min (from + n) (from + 0 + 8)) _ r Hw ltac:(lia) ltac:(lia) ltac:(lia) Hs B R) as (ty & v & Ev & _).
    rewrite (rhs_eval _ _ _ _ Ev). cbn [look]. rewrite (store_place _ _ _ _ P). cbn [object]. rewrite O.
    destruct (Z.eqb_spec w (size_of t)); [lia|]. destruct (Z.ltb_spec (size_of t) w); [reflexivity|lia].
  - destruct (chunk_panic st dn w (from + 0) (Z.min (from + n) (from + 0 + 8)) (if big then Z.max 0 (n - 8 * (0 / 8 + 1)) else 0 / 8 * 8) (tree x) Hw ltac:(lia) ltac:(lia) ltac:(lia) B R) as [_ Y].
    rewrite Y. reflexivity.
Qed.
