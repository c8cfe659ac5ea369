(** Running the printed C encoding statements does what CTarget.v says. *)
From Coq Require Import ZArith Lia Bool String Ascii List.
Import ListNotations.
From Verif Require Import Base BaseProofs Schema GoModel CfBits CfBitProofs Literals PropsLit ExprModel ExprSpec ExprProofs ExprLex ExprParse PrintTree CSem CText.
From Verif Require GoTextLex GoTextEnc GoEncMain.
Open Scope string_scope.
Open Scope Z_scope.
Open Scope list_scope.
Ltac Zify.zify_post_hook ::= Z.to_euclidean_division_equations.

(** ** Literals *)
Lemma emit_c dn b v : 0 <= v -> emit_int OC dn (make_int_lit true v b) =
  let e := if dn then BDec else match b with BAuto => BDec | x => x end in base_pre e ++ fmt_uint (base_num e) v.
Proof.
  intros Hv. unfold make_int_lit. rewrite emit_signed by (now left). destruct (Z.ltb_spec v 0); [lia|].
  rewrite Z.abs_eq by lia. cbn [suffix_of app]. now rewrite app_nil_r.
Qed.
Lemma emit_int_lit dn b v : 0 <= v -> int_lit (emit_int OC dn (make_int_lit true v b)) = true.
Proof. intros Hv. rewrite emit_c by auto. apply GoTextLex.pre_int_lit. exact Hv. Qed.
Lemma emit_reads dn b v : 0 <= v < 2 ^ 63 -> reads OC (emit_int OC dn (make_int_lit true v b)) = Some v.
Proof. intros Hv. unfold make_int_lit. apply reads_signed; [lia|now left]. Qed.
Lemma fmtd_emit v : 0 <= v -> fmtd v = emit_int OC true (make_int_lit true v BDec).
Proof. intros Hv. rewrite emit_c by auto. unfold fmtd, fmt_int. destruct (Z.ltb_spec v 0); [lia|]. reflexivity. Qed.
Lemma fmtd_int_lit v : 0 <= v -> int_lit (fmtd v) = true.
Proof. intros H. rewrite fmtd_emit by auto. now apply emit_int_lit. Qed.
Lemma fmtd_reads v : 0 <= v < 2 ^ 63 -> reads OC (fmtd v) = Some v.
Proof. intros H. rewrite fmtd_emit by lia. now apply emit_reads. Qed.
Lemma literal_small s v : reads OC s = Some v -> v < 2 ^ 31 -> literal s = Some (Ok (int_ty, v)).
Proof. intros R H. unfold literal. rewrite R. destruct (Z.ltb_spec v (2 ^ 31)); [reflexivity|lia]. Qed.
Lemma emit_literal dn b v : 0 <= v < 2 ^ 31 -> literal (emit_int OC dn (make_int_lit true v b)) = Some (Ok (int_ty, v)).
Proof. intros H. apply literal_small; [apply emit_reads|]; lia. Qed.
Lemma fmtd_literal v : 0 <= v < 2 ^ 31 -> literal (fmtd v) = Some (Ok (int_ty, v)).
Proof. intros H. rewrite fmtd_emit by lia. now apply emit_literal. Qed.

(** ** Statements *)
Definition assign_op (op : string) : Prop := op = "=" \/ op = "|=".
Lemma assign_closing op k : assign_op op -> closing OC (sy op :: k).
Proof. intros [->| ->]; vm_compute; reflexivity. Qed.
Lemma semi_closing : closing OC [sy ";"]. Proof. vm_compute. reflexivity. Qed.
Lemma parses_px x k : pwf OC x = true -> closing OC k -> parses (ptoks x ++ k) (tree x) k.
Proof. intros W C. destruct (parse_px OC x W) as [P _]. exact (closed_parse OC x k W P C). Qed.
Lemma lex_semi : lexes OC (cs ";") [sy ";"].
Proof. apply (lex_solid OC (cs ";") []); [vm_compute; reflexivity|constructor]. Qed.
Lemma lex_px_semi x : pwf OC x = true -> lexes OC (show x ++ cs ";") (ptoks x ++ [sy ";"]).
Proof. intros W. apply lex_px; auto; [reflexivity|intros _; repeat split; discriminate|apply lex_semi]. Qed.
Lemma set_reads op l r : assign_op op -> pwf OC l = true -> pwf OC r = true ->
  reads_stmt (show l ++ cs " " ++ cs op ++ cs " " ++ show r ++ cs ";") (SSet (cs op) (tree l) (tree r)).
Proof.
  intros O Wl Wr. apply (rs_set _ (ptoks l ++ sy op :: ptoks r ++ [sy ";"]) _ _ _ (ptoks r ++ [sy ";"])).
  - apply lex_px; auto.
    + reflexivity.
    + intros _. repeat split; discriminate.
    + cbn [app]. constructor. apply (lex_op OC (cs op) " " (show r ++ cs ";")).
      * destruct O as [->| ->]; vm_compute; reflexivity.
      * constructor. now apply lex_px_semi.
  - destruct O as [->| ->]; auto.
  - apply parses_px; auto. now apply assign_closing.
  - apply parses_px; auto. apply semi_closing.
Qed.
Lemma decl_reads t x e : name_okb t = true -> name_okb x = true -> pwf OC e = true ->
  reads_stmt (t ++ cs " " ++ x ++ cs " = " ++ show e ++ cs ";") (SDecl t x (tree e)).
Proof.
  intros Ht Hx We. apply (rs_decl _ t x _ (ptoks e ++ [sy ";"])).
  - apply (lex_name OC t); [now apply name_okb_ok|reflexivity|]. cbn [app]. constructor.
    apply (lex_name OC x); [now apply name_okb_ok|reflexivity|]. cbn [app cs list_ascii_of_string]. constructor.
    apply (lex_op OC (cs "=") " " (show e ++ cs ";")); [vm_compute; reflexivity|]. constructor. now apply lex_px_semi.
  - apply parses_px; auto. apply semi_closing.
Qed.
Lemma var_reads t x : name_okb t = true -> name_okb x = true -> reads_stmt (t ++ cs " " ++ x ++ cs ";") (SVar t x).
Proof.
  intros Ht Hx. constructor. apply (lex_name OC t); [now apply name_okb_ok|reflexivity|]. cbn [app]. constructor.
  apply (lex_name OC x); [now apply name_okb_ok|reflexivity|]. apply lex_semi.
Qed.

(** ** Evaluation, one step at a time *)
Definition prom (t : ctype) : Prop := t = CI true 32 \/ t = CI false 32 \/ t = CI true 64 \/ t = CI false 64.
(** A small number of whatever type; a number that its type can hold. *)
Definition evs (st : cst) (n : node) (v : Z) : Prop := exists t, prom t /\ 0 <= v < 2 ^ 31 /\ eval st n = Some (Ok (t, v)).
Definition evw (st : cst) (n : node) (v : Z) : Prop := exists t, prom t /\ 0 <= v /\ in_range t v = true /\ eval st n = Some (Ok (t, v)).

Lemma sext_small n v : 0 < n -> 0 <= v < 2 ^ (n - 1) -> sext n v = v.
Proof. intros Hn H. apply sext_id; lia. Qed.
Lemma convert_in t v : prom t -> in_range t v = true -> convert t v = v.
Proof.
  intros [-> | [-> | [-> | ->]]]; unfold in_range, convert; intros H; apply andb_true_iff in H as [H1 H2]; apply Z.leb_le in H1; apply Z.ltb_lt in H2.
  - apply sext_id; lia.
  - apply Z.mod_small; lia.
  - apply sext_id; lia.
  - apply Z.mod_small; lia.
Qed.
Lemma small_in t v : prom t -> 0 <= v < 2 ^ 31 -> in_range t v = true.
Proof. intros [-> | [-> | [-> | ->]]] H; unfold in_range; apply andb_true_iff; split; [apply Z.leb_le|apply Z.ltb_lt| | | | | |]; try (apply Z.leb_le; lia); try (apply Z.ltb_lt; lia); lia. Qed.
Lemma prom_common a b : prom a -> prom b -> prom (common a b).
Proof. unfold prom. intros [-> | [-> | [-> | ->]]] [-> | [-> | [-> | ->]]]; vm_compute; auto. Qed.
Lemma prom_promote a : prom a -> promote a = a.
Proof. intros [-> | [-> | [-> | ->]]]; reflexivity. Qed.
Lemma common_int a : prom a -> common a int_ty = a.
Proof. intros [-> | [-> | [-> | ->]]]; reflexivity. Qed.
Lemma prom_size a : prom a -> 32 <= size_of a.
Proof. intros [-> | [-> | [-> | ->]]]; cbn; lia. Qed.

Lemma land_le x m : 0 <= x -> 0 <= m -> Z.land x m <= m.
Proof. intros _ H. apply GoTextEnc.land_le. exact H. Qed.
Section Steps.
Variable st : cst.
Lemma eval_num s z : literal s = Some (Ok (int_ty, z)) -> eval st (NNum s) = Some (Ok (int_ty, z)).
Proof. auto. Qed.
Lemma evs_num s z : literal s = Some (Ok (int_ty, z)) -> 0 <= z < 2 ^ 31 -> evs st (NNum s) z.
Proof. intros H R. exists int_ty. split; [now left|]. split; auto. Qed.
Lemma eval_bin s f a b x y : operator (cs s) = Some f -> eval st a = Some (Ok x) -> eval st b = Some (Ok y) ->
  eval st (NBin (cs s) a b) = f x y.
Proof. intros O A B. cbn [eval]. rewrite O, A, B. reflexivity. Qed.
Lemma evs_or a b x y : evs st a x -> evs st b y -> evs st (NBin (cs "|") a b) (Z.lor x y).
Proof.
  intros (t & Pt & Hx & A) (u & Pu & Hy & B). exists (common t u). split; [now apply prom_common|]. split.
  - change (2 ^ 31) with (2 ^ 31) in *. split; [apply Z.lor_nonneg; lia|].
    destruct (Z.eq_dec (Z.lor x y) 0) as [->|N]; [lia|]. apply Z.log2_lt_pow2; [assert (0 <= Z.lor x y) by (apply Z.lor_nonneg; lia); lia|].
    rewrite Z.log2_lor by lia. apply Z.max_lub_lt.
    + destruct (Z.eq_dec x 0) as [->|]; [reflexivity|]. apply Z.log2_lt_pow2; lia.
    + destruct (Z.eq_dec y 0) as [->|]; [reflexivity|]. apply Z.log2_lt_pow2; lia.
  - rewrite (eval_bin "|" (bitwise Z.lor) a b (t, x) (u, y)) by auto. unfold bitwise. cbn [fst snd].
    pose proof (prom_common t u Pt Pu) as P. rewrite !convert_in; auto; now apply small_in.
Qed.
Lemma evs_mask a s x m : evw st a x -> literal s = Some (Ok (int_ty, m)) -> 0 <= m < 2 ^ 31 -> evs st (NBin (cs "&") a (NNum s)) (Z.land x m).
Proof.
  intros (t & Pt & Hx & R & A) B Hm. exists t. split; auto. split.
  - split; [apply Z.land_nonneg; lia|]. assert (Z.land x m <= m) by (apply land_le; lia). lia.
  - rewrite (eval_bin "&" (bitwise Z.land) a (NNum s) (t, x) (int_ty, m)) by auto. unfold bitwise. cbn [fst snd].
    rewrite common_int by auto. rewrite !convert_in; auto. now apply small_in.
Qed.
Lemma evs_w a x : evs st a x -> evw st a x.
Proof. intros (t & Pt & Hx & A). exists t. split; auto. split; [lia|]. split; auto. now apply small_in. Qed.
Lemma evs_shr a s x k : evs st a x -> literal s = Some (Ok (int_ty, k)) -> 0 <= k < 32 -> evs st (NBin (cs ">>") a (NNum s)) (Z.shiftr x k).
Proof.
  intros (t & Pt & Hx & A) B Hk. exists t. split; auto. split.
  - split; [apply Z.shiftr_nonneg; lia|]. rewrite Z.shiftr_div_pow2 by lia. apply Z.le_lt_trans with x; [|lia].
    apply Z.div_le_upper_bound; [apply Z.pow_pos_nonneg; lia|]. assert (0 < 2 ^ k) by (apply Z.pow_pos_nonneg; lia). nia.
  - rewrite (eval_bin ">>" shift_right a (NNum s) (t, x) (int_ty, k)) by auto. unfold shift_right. cbn [fst snd].
    rewrite prom_promote by auto. pose proof (prom_size t Pt). destruct (Z.ltb_spec k 0); [lia|]. destruct (Z.leb_spec (size_of t) k); [lia|]. reflexivity.
Qed.
Lemma evs_shl a s x k : evs st a x -> literal s = Some (Ok (int_ty, k)) -> 0 <= k < 32 -> Z.shiftl x k < 2 ^ 31 -> evs st (NBin (cs "<<") a (NNum s)) (Z.shiftl x k).
Proof.
  intros (t & Pt & Hx & A) B Hk L. assert (0 <= Z.shiftl x k) by (apply Z.shiftl_nonneg; lia). exists t. split; auto. split; [lia|].
  rewrite (eval_bin "<<" shift_left a (NNum s) (t, x) (int_ty, k)) by auto. unfold shift_left. cbn [fst snd].
  rewrite prom_promote by auto. pose proof (prom_size t Pt). destruct (Z.ltb_spec k 0); [lia|]. destruct (Z.leb_spec (size_of t) k); [lia|]. cbn [orb].
  rewrite convert_in by (auto; apply small_in; auto; lia). destruct (Z.ltb_spec x 0); [lia|]. destruct Pt as [-> | [-> | [-> | ->]]]; reflexivity.
Qed.
End Steps.

(** ** Pieces of text *)
Definition bx (a : px) (s : string) (b : px) : px := PPar (PBin s a b).
Definition nm (s : chars) : px := PNum s.
Lemma show_bx a s b : show (bx a s b) = binop (show a) s (show b).
Proof. unfold bx, binop. cbn [show]. rewrite <- !app_assoc. reflexivity. Qed.
Definition part_px (dn : bool) (fdx : Z -> px) (b e : Z) : px :=
  let nj := Z.min e (cf_next8 b) in
  let p1 := bx (bx (fdx (b / 8)) "&" (nm (binlit dn (cf_mask b nj)))) ">>" (nm (fmtd (b mod 8))) in
  if nj <? e then
    let nj2 := Z.min e (cf_next8 nj) in
    bx p1 "|" (bx (bx (fdx (nj / 8)) "&" (nm (binlit dn (cf_mask nj nj2)))) "<<" (nm (fmtd (8 - nj2 mod 8))))
  else p1.
Lemma show_part dn fdx fdt b e : (forall i, show (fdx i) = fdt i) -> b < e -> show (part_px dn fdx b e) = part_text dn fdt b e.
Proof.
  intros H L. unfold part_px, part_text. destruct (Z.ltb_spec b e); [|lia].
  destruct (_ <? e); rewrite !show_bx, ?H; reflexivity.
Qed.
Definition data_px (pos : Z) : px := PIdx (PPar (PCast (CtP (cs "uint8_t")) (PId (cs "data")))) (nm (fmtd pos)).
Lemma show_data pos : show (data_px pos) = data_at pos.
Proof. unfold data_px, data_at. cbn [show cty_text nm]. rewrite <- ?app_assoc. reflexivity. Qed.
Definition byte_px (dn : bool) (fdx : Z -> px) (from i ni : Z) : px :=
  bx (bx (part_px dn fdx (i - from) (ni - from)) "<<" (nm (fmtd (i mod 8)))) "&" (nm (binlit dn (cf_mask i ni))).

(** ** Well-formed text *)
Lemma pwf_bx a s b : pwf OC a = true -> pwf OC b = true -> bin_ok OC s = true -> lev OC a = 100 -> lev OC b = 100 -> pwf OC (bx a s b) = true.
Proof.
  intros A B O La Lb. unfold bx. cbn [pwf]. rewrite A, B, O, La, Lb. cbn [andb].
  apply bin_lev_pos in O as (_ & O & _). apply andb_true_iff. split; apply Z.leb_le; lia.
Qed.
Lemma lev_bx a s b : lev OC (bx a s b) = 100. Proof. reflexivity. Qed.
Lemma cf_mask_range lo hi : 0 <= lo < hi -> hi <= 8 * (lo / 8 + 1) -> 0 <= cf_mask lo hi < 256.
Proof.
  intros H1 H2. assert (E : cf_mask lo hi = Z.land (cf_mask lo hi) (Z.ones 8)).
  { apply Z.bits_inj'. intros j Hj. rewrite Z.land_spec, Z.testbit_ones_nonneg by lia. rewrite cf_mask_bit by lia.
    destruct (Z.ltb_spec j 8); [now rewrite andb_true_r|]. rewrite andb_false_r. destruct (Z.ltb_spec j (hi - 8 * (lo / 8))); [lia|]. apply andb_false_r. }
  rewrite E, Z.land_ones by lia. apply Z.mod_pos_bound. lia.
Qed.
Lemma binlit_lit dn v : 0 <= v -> int_lit (binlit dn v) = true. Proof. apply emit_int_lit. Qed.

Definition fd_ok (n : Z) (fdx : Z -> px) : Prop := forall i, 0 <= i -> 8 * i < n -> pwf OC (fdx i) = true /\ lev OC (fdx i) = 100.
Lemma pwf_num s : int_lit s = true -> pwf OC (nm s) = true. Proof. auto. Qed.
Ltac nxt := rewrite ?cf_next8_eq in *.
Lemma pwf_part dn fdx n b e : fd_ok n fdx -> 0 <= b < e -> e <= n -> pwf OC (part_px dn fdx b e) = true /\ lev OC (part_px dn fdx b e) = 100.
Proof.
  intros F Hb He. unfold part_px. set (nj := Z.min e (cf_next8 b)). assert (Hnj : b < nj <= e /\ nj <= 8 * (b / 8 + 1) /\ (nj < e -> nj = 8 * (b / 8 + 1))) by (unfold nj; nxt; lia).
  destruct (F (b / 8) ltac:(lia) ltac:(lia)) as [F1 F2]. pose proof (cf_mask_range b nj ltac:(lia) ltac:(lia)) as M1.
  assert (P1 : pwf OC (bx (bx (fdx (b / 8)) "&" (nm (binlit dn (cf_mask b nj)))) ">>" (nm (fmtd (b mod 8)))) = true).
  { apply pwf_bx; try reflexivity.
    - apply pwf_bx; auto. apply pwf_num, binlit_lit. lia.
    - apply pwf_num, fmtd_int_lit. lia. }
  destruct (Z.ltb_spec nj e); [|split; auto].
  set (nj2 := Z.min e (cf_next8 nj)). assert (Hnj2 : nj < nj2 <= e /\ nj2 <= 8 * (nj / 8 + 1)) by (unfold nj2; nxt; lia).
  destruct (F (nj / 8) ltac:(lia) ltac:(lia)) as [G1 G2]. pose proof (cf_mask_range nj nj2 ltac:(lia) ltac:(lia)) as M2.
  split; [|reflexivity]. apply pwf_bx; auto.
  apply pwf_bx; try reflexivity.
  - apply pwf_bx; auto. apply pwf_num, binlit_lit. lia.
  - apply pwf_num, fmtd_int_lit. lia.
Qed.
Lemma pwf_data pos : 0 <= pos -> pwf OC (data_px pos) = true.
Proof.
  intros H. unfold data_px, nm. cbn [pwf]. rewrite fmtd_int_lit by auto. reflexivity.
Qed.
Lemma pwf_byte dn fdx n from i ni : fd_ok n fdx -> 0 <= from <= i -> i < ni -> ni <= from + n -> ni <= 8 * (i / 8 + 1) ->
  pwf OC (byte_px dn fdx from i ni) = true.
Proof.
  intros F H1 H2 H3 H4. destruct (pwf_part dn fdx n (i - from) (ni - from) F ltac:(lia) ltac:(lia)) as [P L].
  pose proof (cf_mask_range i ni ltac:(lia) ltac:(lia)). unfold byte_px. apply pwf_bx; try reflexivity.
  - apply pwf_bx; auto. apply pwf_num, fmtd_int_lit. lia.
  - apply pwf_num, binlit_lit. lia.
Qed.

(** ** Evaluation *)
Lemma binlit_literal dn v : 0 <= v < 256 -> literal (binlit dn v) = Some (Ok (int_ty, v)).
Proof. intros H. apply emit_literal. lia. Qed.
Lemma land_byte x m : 0 <= x -> 0 <= m < 256 -> 0 <= Z.land x m < 256.
Proof. intros Hx Hm. split; [apply Z.land_nonneg; lia|]. assert (Z.land x m <= m) by (apply land_le; lia). lia. Qed.
Lemma lor_lt a b k : 0 <= k -> 0 <= a < 2 ^ k -> 0 <= b < 2 ^ k -> 0 <= Z.lor a b < 2 ^ k.
Proof.
  intros Hk Ha Hb. split; [apply Z.lor_nonneg; lia|].
  destruct (Z.eq_dec (Z.lor a b) 0) as [->|N]; [lia|]. assert (0 <= Z.lor a b) by (apply Z.lor_nonneg; lia).
  apply Z.log2_lt_pow2; [lia|]. rewrite Z.log2_lor by lia.
  destruct (Z.eq_dec k 0) as [->|]; [exfalso; assert (a = 0 /\ b = 0) as [-> ->] by lia; now apply N|].
  apply Z.max_lub_lt.
  - destruct (Z.eq_dec a 0) as [->|]; [cbn; lia|]. apply Z.log2_lt_pow2; lia.
  - destruct (Z.eq_dec b 0) as [->|]; [cbn; lia|]. apply Z.log2_lt_pow2; lia.
Qed.
Lemma evs_part st dn fdx fd n b e : (forall i, 0 <= i -> 8 * i < n -> evw st (tree (fdx i)) (fd i)) -> 0 <= b < e -> e <= n ->
  evs st (tree (part_px dn fdx b e)) (cf_part fd b e) /\ 0 <= cf_part fd b e < 2 ^ 16.
Proof.
  intros F Hb He. unfold part_px, cf_part. destruct (Z.ltb_spec b e); [|lia].
  set (nj := Z.min e (cf_next8 b)). assert (Hnj : b < nj <= e /\ nj <= 8 * (b / 8 + 1) /\ (nj < e -> nj = 8 * (b / 8 + 1))) by (unfold nj; nxt; lia).
  pose proof (F (b / 8) ltac:(lia) ltac:(lia)) as F1. pose proof (cf_mask_range b nj ltac:(lia) ltac:(lia)) as M1.
  assert (N1 : 0 <= fd (b / 8)) by (destruct F1 as (t & _ & N & _); exact N).
  pose proof (land_byte _ _ N1 M1) as L1.
  assert (P1 : evs st (tree (bx (bx (fdx (b / 8)) "&" (nm (binlit dn (cf_mask b nj)))) ">>" (nm (fmtd (b mod 8)))))
    (Z.shiftr (Z.land (fd (b / 8)) (cf_mask b nj)) (b mod 8))).
  { cbn [tree bx nm]. apply evs_shr; [|apply fmtd_literal; lia|lia]. apply evs_mask; auto; [|lia]. now apply binlit_literal. }
  assert (R1 : 0 <= Z.shiftr (Z.land (fd (b / 8)) (cf_mask b nj)) (b mod 8) < 2 ^ 16).
  { split; [apply Z.shiftr_nonneg; lia|]. rewrite Z.shiftr_div_pow2 by lia. assert (0 < 2 ^ (b mod 8)) by (apply Z.pow_pos_nonneg; lia).
    apply Z.div_lt_upper_bound; [lia|]. nia. }
  destruct (Z.ltb_spec nj e); [|split; assumption].
  set (nj2 := Z.min e (cf_next8 nj)). assert (Hnj2 : nj < nj2 <= e /\ nj2 <= 8 * (nj / 8 + 1)) by (unfold nj2; nxt; lia).
  pose proof (F (nj / 8) ltac:(lia) ltac:(lia)) as F2. pose proof (cf_mask_range nj nj2 ltac:(lia) ltac:(lia)) as M2.
  assert (N2 : 0 <= fd (nj / 8)) by (destruct F2 as (t & _ & N & _); exact N).
  pose proof (land_byte _ _ N2 M2) as L2.
  assert (Hs : 0 <= 8 - nj2 mod 8 <= 8) by lia.
  assert (R2 : 0 <= Z.shiftl (Z.land (fd (nj / 8)) (cf_mask nj nj2)) (8 - nj2 mod 8) < 2 ^ 16).
  { split; [apply Z.shiftl_nonneg; lia|]. rewrite Z.shiftl_mul_pow2 by lia.
    assert (0 < 2 ^ (8 - nj2 mod 8) <= 2 ^ 8) by (split; [apply Z.pow_pos_nonneg; lia|apply Z.pow_le_mono_r; lia]). change (2 ^ 8) with 256 in *. change (2 ^ 16) with (256 * 256). nia. }
  split; [|now apply lor_lt].
  cbn [tree bx nm]. apply evs_or; [exact P1|].
  apply evs_shl; [|apply fmtd_literal; lia|lia|lia]. apply evs_mask; auto; [|lia]. now apply binlit_literal.
Qed.
Lemma evs_byte st dn fdx fd n from i ni : (forall i, 0 <= i -> 8 * i < n -> evw st (tree (fdx i)) (fd i)) ->
  0 <= from <= i -> i < ni -> ni <= from + n -> ni <= 8 * (i / 8 + 1) ->
  evs st (tree (byte_px dn fdx from i ni)) (Z.land (Z.shiftl (cf_part fd (i - from) (ni - from)) (i mod 8)) (cf_mask i ni)).
Proof.
  intros F H1 H2 H3 H4. destruct (evs_part st dn fdx fd n (i - from) (ni - from) F ltac:(lia) ltac:(lia)) as [P R].
  pose proof (cf_mask_range i ni ltac:(lia) ltac:(lia)) as M. unfold byte_px. cbn [tree bx nm].
  apply evs_mask; [|now apply binlit_literal|lia]. apply evs_w. apply evs_shl; auto; [apply fmtd_literal; lia|lia|].
  rewrite Z.shiftl_mul_pow2 by lia. assert (0 < 2 ^ (i mod 8) <= 2 ^ 7) by (split; [apply Z.pow_pos_nonneg; lia|apply Z.pow_le_mono_r; lia]).
  change (2 ^ 7) with 128 in *. change (2 ^ 16) with 65536 in *. nia.
Qed.


(** ** One line *)
Lemma enum_no_type t : prefixb (cs "enum ") t = true -> type_named t = None.
Proof.
  destruct t as [|c t]; [discriminate|]. cbn [cs list_ascii_of_string prefixb]. intros H. apply andb_true_iff in H as [H _]. apply Ascii.eqb_eq in H. subst c.
  unfold type_named. cbn [find fst]. unfold eqs.
  repeat match goal with |- context [list_eq_dec ascii_dec ?x ?y] => destruct (list_eq_dec ascii_dec x y) as [E|_]; [discriminate E|] end. reflexivity.
Qed.
Lemma rhs_eval st l r v : eval st r = Some v -> rhs st l r = Some v.
Proof.
  intros E. unfold rhs, enum_cast. destruct (place_of l) as [[f|f i|x|n p]|]; try exact E; destruct r; try exact E;
    (destruct (prefixb (cs "enum ") t) eqn:P; [|exact E]; cbn [eval] in E; rewrite (enum_no_type _ P) in E; discriminate).
Qed.
Lemma eval_fmtd st v : 0 <= v < 2 ^ 63 -> exists t, eval st (NNum (fmtd v)) = Some (Ok (t, v)).
Proof.
  intros H. cbn [eval]. unfold literal. rewrite fmtd_reads by exact H.
  destruct (v <? 2 ^ 31); [eauto|]. destruct (negb _ && _); [eauto|]. destruct (Z.ltb_spec v (2 ^ 63)); [eauto|lia].
Qed.
Lemma rd_cases d p : (exists b, rd d p = Ok b) \/ rd d p = Panic.
Proof. apply GoTextEnc.rd_cases. Qed.
Lemma rd_bound d p b : rd d p = Ok b -> 0 <= p < zlen d.
Proof.
  unfold rd. destruct (Z.ltb_spec p 0); [discriminate|]. destruct (nth_error d (Z.to_nat p)) eqn:E; [|discriminate]. intros _.
  assert (Z.to_nat p < List.length d)%nat by (apply nth_error_Some; congruence). unfold zlen. lia.
Qed.
Lemma wr_rd d p v : (exists b, rd d p = Ok b) -> exists d', wr d p v = Ok d'.
Proof. intros [b H]. apply rd_bound in H. rewrite wr_ok by exact H. eauto. Qed.
Lemma wr_panic d p v : rd d p = Panic -> wr d p v = Panic.
Proof.
  unfold rd, wr. intros H. destruct (Z.ltb_spec p 0); [reflexivity|]. destruct (nth_error d (Z.to_nat p)) eqn:E; [discriminate|].
  apply nth_error_None in E. destruct (Z.leb_spec (zlen d) p); [reflexivity|]. unfold zlen in *. lia.
Qed.
Lemma eval_data st pos : 0 <= pos < 2 ^ 63 ->
  eval st (tree (data_px pos)) = match rd (c_data st) pos with Ok b => Some (Ok (CI false 8, b)) | _ => Some Panic end.
Proof.
  intros H. unfold data_px. cbn [tree nm]. cbn [eval]. change (bytes_ptr false (NCast (cty_text (CtP (cs "uint8_t"))) (NId (cs "data")))) with true.
  cbv iota. destruct (eval_fmtd st pos H) as [t E]. cbn [eval] in E. rewrite E. cbn [look snd]. reflexivity.
Qed.
Lemma store_data st pos v : 0 <= pos < 2 ^ 63 ->
  store st (tree (data_px pos)) v = match wr (c_data st) pos (snd v mod 256) with Ok d => Some (Ok (set_data st d)) | _ => Some Panic end.
Proof.
  intros H. unfold data_px. cbn [tree nm]. unfold store. change (bytes_ptr true (NCast (cty_text (CtP (cs "uint8_t"))) (NId (cs "data")))) with true.
  cbv iota. destruct (eval_fmtd st pos H) as [t E]. rewrite E. cbn [look snd convert]. reflexivity.
Qed.
Lemma mod_convert t v : prom t -> convert t v mod 256 = v mod 256.
Proof.
  assert (P : forall n k, n mod (256 * k) mod 256 = n mod 256 \/ k <= 0).
  { intros n k. destruct (Z_le_gt_dec k 0); auto. left. rewrite Z.rem_mul_r by lia. rewrite Z.mul_comm, Z.mod_add by lia. apply Z.mod_mod. lia. }
  assert (Q : forall n k, (n - 256 * k) mod 256 = n mod 256).
  { intros n k. replace (n - 256 * k) with (n + (- k) * 256) by lia. apply Z.mod_add. lia. }
  intros [-> | [-> | [-> | ->]]]; cbn [convert]; unfold sext.
  - destruct (_ <? _); [|change (2 ^ 32) with (256 * 2 ^ 24); rewrite Q]; change (2 ^ 32) with (256 * 2 ^ 24); destruct (P v (2 ^ 24)); auto; lia.
  - change (2 ^ 32) with (256 * 2 ^ 24); destruct (P v (2 ^ 24)); auto; lia.
  - destruct (_ <? _); [|change (2 ^ 64) with (256 * 2 ^ 56); rewrite Q]; change (2 ^ 64) with (256 * 2 ^ 56); destruct (P v (2 ^ 56)); auto; lia.
  - change (2 ^ 64) with (256 * 2 ^ 56); destruct (P v (2 ^ 56)); auto; lia.
Qed.
Lemma lor_mod a b : Z.lor a b mod 256 = Z.lor (a mod 256) (b mod 256).
Proof. change 256 with (2 ^ 8). rewrite <- !Z.land_ones by lia. apply Z.land_lor_distr_l. Qed.

Definition lift_data (st : cst) (r : res (list Z)) : res cst :=
  match r with Ok d => Ok (set_data st d) | Fail => Fail | Panic => Panic end.
(** What one assignment of the loop does. *)
Definition cf_step (x : Z) (plain : bool) (pos : Z) (buf : list Z) : res (list Z) :=
  do old <- rd buf pos; wr buf pos ((if plain then x else Z.lor old x) mod 256).
Lemma exec_line st pos (plain : bool) e x : 0 <= pos < 2 ^ 63 -> evs st e x ->
  exec st (SSet (cs (if plain then "=" else "|=")) (tree (data_px pos)) e) = Some (lift_data st (cf_step x plain pos (c_data st))).
Proof.
  intros Hp (t & Pt & Hx & E). unfold exec, cf_step. destruct plain.
  - change (eqs (cs "=") "=") with true. cbv iota. rewrite (rhs_eval _ _ _ _ E). cbn [look]. rewrite store_data by auto. cbn [snd].
    destruct (rd_cases (c_data st) pos) as [[b Eb]|Eb].
    + rewrite Eb. cbn [bind]. destruct (wr_rd (c_data st) pos (x mod 256) (ex_intro _ b Eb)) as [d ->]. reflexivity.
    + rewrite Eb. cbn [bind lift_data]. now rewrite wr_panic.
  - change (eqs (cs "|=") "=") with false. cbv iota. rewrite eval_data by auto.
    destruct (rd_cases (c_data st) pos) as [[b Eb]|Eb]; rewrite Eb; cbn [bind look lift_data]; [|reflexivity].
    rewrite E. cbn [look bitwise fst snd]. rewrite store_data by auto. cbn [snd].
    assert (Pc : prom (common (CI false 8) t)) by (destruct Pt as [-> | [-> | [-> | ->]]]; vm_compute; auto).
    assert (El : Z.lor (convert (common (CI false 8) t) b) (convert (common (CI false 8) t) x) mod 256 = Z.lor b x mod 256).
    { rewrite lor_mod, !mod_convert by exact Pc. symmetry. apply lor_mod. }
    rewrite El.
    destruct (wr_rd (c_data st) pos (Z.lor b x mod 256) (ex_intro _ b Eb)) as [d ->]. reflexivity.
Qed.
Lemma cf_step_cases x plain pos buf : (exists d, cf_step x plain pos buf = Ok d) \/ cf_step x plain pos buf = Panic.
Proof.
  unfold cf_step. destruct (rd_cases buf pos) as [[b Eb]|Eb]; rewrite Eb; cbn [bind]; [|auto]. left. apply wr_rd. eauto.
Qed.

Lemma runs_app ls ls' st st' r : runs st ls (Ok st') -> runs st' ls' r -> runs st (ls ++ ls') r.
Proof.
  intros H. remember (Ok st') as q. revert st' Heqq. induction H; intros s' E Hr; cbn [app]; try discriminate.
  - injection E as ->. exact Hr.
  - subst. eapply runs_cons; eauto.
Qed.
Lemma runs_app_panic ls ls' st r : runs st ls r -> (forall s, r <> Ok s) -> runs st (ls ++ ls') r.
Proof.
  induction 1; intros N; cbn [app].
  - exfalso. now apply (N st).
  - eapply runs_cons; eauto.
  - eapply runs_undef; eauto.
  - eapply runs_ret; eauto.
Qed.

(** ** The lines of a field *)
Definition line_text (dn : bool) (fd : Z -> chars) (from to i : Z) : chars :=
  data_at (i / 8) ++ (if i mod 8 =? 0 then cs " = " else cs " |= ") ++
  binop (binop (part_text dn fd (i - from) (Z.min to (cf_next8 i) - from)) "<<" (fmtd (i mod 8))) "&" (binlit dn (cf_mask i (Z.min to (cf_next8 i)))) ++ cs ";".
Lemma enc_loop_text_S f dn fd from to i : enc_loop_text (S f) dn fd from to i =
  if i <? to then line_text dn fd from to i :: enc_loop_text f dn fd from to (cf_next8 i) else [].
Proof. reflexivity. Qed.
Lemma cf_enc_loop_S f fd from to i buf : cf_enc_loop (S f) (fun i _ => i mod 8 =? 0) fd 0 from to i buf =
  if i <? to then
    do buf' <- cf_step (Z.land (Z.shiftl (cf_part fd (i - from) (Z.min to (cf_next8 i) - from)) (i mod 8)) (cf_mask i (Z.min to (cf_next8 i))))
      (i mod 8 =? 0) (i / 8) buf;
    cf_enc_loop f (fun i _ => i mod 8 =? 0) fd 0 from to (cf_next8 i) buf'
  else Ok buf.
Proof.
  cbn [cf_enc_loop]. destruct (i <? to); [|reflexivity]. unfold cf_step. change (0 + i / 8) with (i / 8).
  destruct (rd buf (i / 8)); reflexivity.
Qed.
Lemma line_reads dn fdx fdt n from i : (forall i, show (fdx i) = fdt i) -> fd_ok n fdx -> 0 <= from <= i -> i < from + n ->
  reads_stmt (line_text dn fdt from (from + n) i)
    (SSet (cs (if i mod 8 =? 0 then "=" else "|=")) (tree (data_px (i / 8))) (tree (byte_px dn fdx from i (Z.min (from + n) (cf_next8 i))))).
Proof.
  intros Hs F H1 H2. set (ni := Z.min (from + n) (cf_next8 i)). assert (Hni : i < ni <= from + n /\ ni <= 8 * (i / 8 + 1)) by (unfold ni; nxt; lia).
  assert (E : line_text dn fdt from (from + n) i =
    show (data_px (i / 8)) ++ cs " " ++ cs (if i mod 8 =? 0 then "=" else "|=") ++ cs " " ++ show (byte_px dn fdx from i ni) ++ cs ";").
  { unfold line_text. fold ni. rewrite show_data. unfold byte_px. rewrite !show_bx, (show_part dn fdx fdt) by (auto; lia).
    destruct (i mod 8 =? 0); reflexivity. }
  rewrite E. apply set_reads.
  - destruct (i mod 8 =? 0); [now left|now right].
  - apply pwf_data. lia.
  - apply (pwf_byte dn fdx n); auto; lia.
Qed.
Lemma run_loop dn fdx fdt fd n from : (forall i, show (fdx i) = fdt i) -> fd_ok n fdx -> 0 <= from -> from + n < 2 ^ 63 ->
  forall fuel i st, from <= i ->
  (forall d j, 0 <= j -> 8 * j < n -> evw (set_data st d) (tree (fdx j)) (fd j)) ->
  runs st (enc_loop_text fuel dn fdt from (from + n) i)
    (lift_data st (cf_enc_loop fuel (fun i _ => i mod 8 =? 0) fd 0 from (from + n) i (c_data st))).
Proof.
  intros Hs F Hf Hb. assert (Sd : forall s, set_data s (c_data s) = s) by (intros []; reflexivity).
  induction fuel as [|fuel IH]; intros i st Hi He.
  - cbn [enc_loop_text cf_enc_loop lift_data]. rewrite Sd. constructor.
  - rewrite enc_loop_text_S, cf_enc_loop_S. destruct (Z.ltb_spec i (from + n)).
    + pose proof (line_reads dn fdx fdt n from i Hs F ltac:(lia) ltac:(lia)) as R.
      set (ni := Z.min (from + n) (cf_next8 i)) in *. assert (Hni : i < ni <= from + n /\ ni <= 8 * (i / 8 + 1)) by (unfold ni; nxt; lia).
      assert (Ev : evs st (tree (byte_px dn fdx from i ni)) (Z.land (Z.shiftl (cf_part fd (i - from) (ni - from)) (i mod 8)) (cf_mask i ni))).
      { apply (evs_byte st dn fdx fd n); try lia. intros j J1 J2. rewrite <- (Sd st). now apply He. }
      pose proof (exec_line st (i / 8) (i mod 8 =? 0) _ _ ltac:(lia) Ev) as X.
      set (x := Z.land _ _) in *.
      destruct (cf_step_cases x (i mod 8 =? 0) (i / 8) (c_data st)) as [[d Ed]|Ed]; rewrite Ed in *; cbn [bind lift_data] in *.
      * eapply runs_cons; [exact R|exact X|]. apply (IH (cf_next8 i) (set_data st d)); [nxt; lia|]. intros d' j. apply He.
      * eapply runs_undef; [exact R|exact X].
    + cbn [lift_data]. rewrite Sd. constructor.
Qed.
Theorem run_field dn fdx fdt fd n from st : (forall i, show (fdx i) = fdt i) -> fd_ok n fdx -> 0 <= from -> from + n < 2 ^ 63 ->
  (forall d j, 0 <= j -> 8 * j < n -> evw (set_data st d) (tree (fdx j)) (fd j)) ->
  runs st (encode_text dn fdt from n) (lift_data st (cf_enc fd from n 0 (c_data st))).
Proof. intros. unfold encode_text, cf_enc. apply (run_loop dn fdx); auto. lia. Qed.

(** ** Variables *)
Record var (x : px) (p : place) : Prop := {
  v_pwf : pwf OC x = true;
  v_lev : lev OC x = 100;
  v_place : place_of (tree x) = Some p
}.
Definition field_px (f : chars) : px := PArr (PId (cs "ptr")) f.
Definition elem_px (f : chars) (i : Z) : px := PPar (PIdx (PPar (field_px f)) (PNum (fmtd i))).
Lemma show_field f : show (field_px f) = field_name f. Proof. reflexivity. Qed.
Lemma show_elem f i : show (elem_px f i) = elem_name f i.
Proof. unfold elem_px, elem_name, field_name. cbn [show field_px]. rewrite <- ?app_assoc. reflexivity. Qed.
Lemma var_field f : name_okb f = true -> var (field_px f) (PF f).
Proof. intros H. split; try reflexivity. cbn [field_px pwf]. rewrite H. reflexivity. Qed.
Lemma var_elem f i : name_okb f = true -> 0 <= i < 2 ^ 63 -> var (elem_px f i) (PE f i).
Proof.
  intros H Hi. split; try reflexivity.
  - cbn [elem_px field_px pwf]. rewrite H, fmtd_int_lit by lia. reflexivity.
  - cbn [elem_px field_px tree place_of]. change (eqs (cs "ptr") "ptr" && eqs (cs "->") "->") with true. cbv iota. rewrite fmtd_reads by auto. reflexivity.
Qed.
Lemma var_local x : plain_id OC x = true -> eqs x "data" || eqs x "ptr" || eqs x "true" || eqs x "false" = false -> var (PId x) (PL x).
Proof.
  intros H A. split; try reflexivity.
  - exact H.
  - cbn [tree place_of]. now rewrite A.
Qed.
Lemma object_set st d p : object (set_data st d) p = object st p.
Proof. induction p; cbn [object]; auto. now rewrite IHp. Qed.
Lemma get_set st d p : get (set_data st d) p = get st p.
Proof. unfold get. now rewrite object_set. Qed.
Lemma eval_place st n p v : place_of n = Some p -> get st p = Some v -> eval st n = Some v.
Proof.
  intros H G. assert (R : read_var st n = Some v) by (unfold read_var; now rewrite H).
  destruct n as [x|s|s a|s a b|ty a|a s f|f args|a i|ty c a b]; try discriminate H; try exact R.
  - cbn [eval]. cbn [place_of] in H. destruct (eqs x "true"); [rewrite !orb_true_r in H; discriminate H|].
    destruct (eqs x "false"); [rewrite !orb_true_r in H; discriminate H|exact R].
  - cbn [eval]. cbn [place_of] in H. destruct a as [x|s0|s0 a|s0 a b|ty a|a s0 f|f args|a i|ty c a b]; try discriminate H.
    destruct a as [x|s1|s1 a|s1 a b|ty1 a|a s1 f|f args|a i|ty1 c a b]; try discriminate H.
    destruct (eqs s "*"); [exact R|discriminate H].
  - cbn [eval]. destruct a as [x|s|s a|s a b|ty a|a s f|f args|a j|ty c a b]; try exact R.
    cbn [place_of] in H. destruct i; discriminate H.
Qed.

(** ** Basic types *)
Definition basic_ctype (b : basic) : ctype :=
  match b with BBool => CB | BInt w => CI true w | BUint w => CI false w | BFloat _ => CB end.
Definition view_px (b : basic) (x : px) : px :=
  match b with
  | BUint _ => x
  | _ => PPar (PUn "*" (PPar (PCast (CtP (uint_name (basic_bits b))) (PPar (PUn "&" (PPar x))))))
  end.
Lemma show_view b x : show (view_px b x) = view_text b (show x).
Proof. destruct b; unfold view_px, view_text; try reflexivity; cbn [show cty_text]; rewrite <- ?app_assoc; reflexivity. Qed.
Definition int_basic (b : basic) : bool := match b with BFloat _ => false | _ => true end.
Definition std_bits (w : Z) : Prop := w = 8 \/ w = 16 \/ w = 32 \/ w = 64.
Lemma basic_std b : wf_basic b -> int_basic b = true -> std_bits (basic_bits b).
Proof. unfold std_bits. destruct b; cbn [wf_basic basic_bits int_basic]; intros; try discriminate; intuition. Qed.
Lemma view_ok b x p : wf_basic b -> int_basic b = true -> var x p ->
  pwf OC (view_px b x) = true /\ lev OC (view_px b x) = 100 /\
  place_of (tree (view_px b x)) = Some (match b with BUint _ => p | _ => PV (basic_bits b) p end).
Proof.
  intros Wb Ib [W L P]. destruct b as [|w|w|w]; try discriminate Ib.
  - cbn [view_px pwf lev tree place_of basic_bits]. rewrite W. cbn [show]. split; [reflexivity|]. split; [reflexivity|].
    change (eqs (cs "*") "*" && eqs (cs "&") "&") with true. cbv iota. rewrite P. reflexivity.
  - repeat split; assumption.
  - cbn [view_px pwf lev tree place_of basic_bits]. rewrite W. cbn [show]. cbn [wf_basic] in Wb.
    change (eqs (cs "*") "*" && eqs (cs "&") "&") with true. cbv iota. rewrite P.
    destruct Wb as [-> | [-> | [-> | ->]]]; repeat split; reflexivity.
Qed.
(** The object the variable denotes, seen as the unsigned number of its bits. *)
Lemma view_get st b x p z : wf_basic b -> int_basic b = true -> var x p -> object st p = Some (Ok (basic_ctype b, Some z)) -> in_range (basic_ctype b) z = true ->
  eval st (tree (view_px b x)) = Some (Ok (CI false (basic_bits b), z mod 2 ^ basic_bits b)).
Proof.
  intros Wb Ib V O R. destruct (view_ok b x p Wb Ib V) as (_ & _ & P). apply (eval_place st _ _ _ P).
  destruct b as [|w|w|w]; try discriminate Ib; unfold get; cbn [object basic_bits basic_ctype]; rewrite O; cbn [basic_ctype size_of].
  - reflexivity.
  - cbn [in_range basic_ctype] in R. apply andb_true_iff in R as [R1 R2]. apply Z.leb_le in R1. apply Z.ltb_lt in R2. now rewrite Z.mod_small by lia.
  - rewrite Z.eqb_refl. reflexivity.
Qed.
Lemma promote_std w : std_bits w -> prom (promote (CI false w)) /\ w <= size_of (promote (CI false w)).
Proof. unfold prom. intros [-> | [-> | [-> | ->]]]; cbn; split; auto; lia. Qed.
Lemma in_promote w v : std_bits w -> 0 <= v < 2 ^ w -> in_range (promote (CI false w)) v = true.
Proof.
  intros [-> | [-> | [-> | ->]]] H; cbn [promote Z.ltb Z.compare Pos.compare Pos.compare_cont int_ty in_range]; apply andb_true_iff; split; try (apply Z.leb_le); try (apply Z.ltb_lt); lia.
Qed.
Lemma evw_shr st n w v s k : std_bits w -> 0 <= v < 2 ^ w -> eval st n = Some (Ok (CI false w, v)) ->
  literal s = Some (Ok (int_ty, k)) -> 0 <= k < w -> evw st (NBin (cs ">>") n (NNum s)) (Z.shiftr v k).
Proof.
  intros Hw Hv E L Hk. destruct (promote_std w Hw) as [Pt Sz].
  assert (Hr : 0 <= Z.shiftr v k < 2 ^ w).
  { rewrite Z.shiftr_div_pow2 by lia. assert (0 < 2 ^ k) by (apply Z.pow_pos_nonneg; lia). split; [apply Z.div_pos; lia|].
    apply Z.div_lt_upper_bound; [lia|]. nia. }
  exists (promote (CI false w)). split; auto. split; [lia|]. split; [now apply in_promote|].
  rewrite (eval_bin st ">>" shift_right n (NNum s) (CI false w, v) (int_ty, k)) by auto. unfold shift_right. cbn [fst snd].
  destruct (Z.ltb_spec k 0); [lia|]. destruct (Z.leb_spec (size_of (promote (CI false w))) k); [lia|]. reflexivity.
Qed.
Lemma enc_view_runs st dn n big from x w z : 0 <= from -> from + n < 2 ^ 63 -> std_bits w -> n <= w -> 0 <= z < 2 ^ w ->
  pwf OC x = true -> lev OC x = 100 -> (forall d, eval (set_data st d) (tree x) = Some (Ok (CI false w, z))) ->
  runs st (encode_text dn (field_data_text dn n big (show x)) from n) (lift_data st (cf_enc (field_data n big z) from n 0 (c_data st))).
Proof.
  intros Hf Hb Hw Hn Hz W L E.
  assert (W64 : w <= 64) by (destruct Hw as [-> | [-> | [-> | ->]]]; lia).
  set (fdx i := bx x ">>" (nm (declit dn (if big then Z.max 0 (n - 8 * (i + 1)) else 8 * i)))).
  assert (W8 : 8 <= w) by (destruct Hw as [-> | [-> | [-> | ->]]]; lia).
  apply (run_field dn fdx); auto.
  - intros i. unfold fdx. rewrite show_bx. reflexivity.
  - intros i Hi Hin. unfold fdx. split; [|reflexivity]. apply pwf_bx; auto; try reflexivity. apply pwf_num, emit_int_lit. destruct big; lia.
  - intros d j Hj Hjn. unfold fdx. cbn [tree bx nm]. unfold field_data. apply (evw_shr _ _ w); auto.
    + apply emit_literal. destruct big; lia.
    + destruct big; lia.
Qed.
Theorem enc_basic_runs st dn b n big from x p z : 0 <= from -> from + n < 2 ^ 63 -> wf_basic b -> int_basic b = true -> n <= basic_bits b ->
  var x p -> object st p = Some (Ok (basic_ctype b, Some z)) -> in_range (basic_ctype b) z = true ->
  runs st (enc_basic_text dn b n big from (show x))
    (lift_data st (cf_enc (field_data n big (z mod 2 ^ basic_bits b)) from n 0 (c_data st))).
Proof.
  intros Hf Hb Wb Ib Hn V O R. unfold enc_basic_text. rewrite <- show_view.
  destruct (view_ok b x p Wb Ib V) as (P1 & P2 & _).
  assert (Hm : 0 <= z mod 2 ^ basic_bits b < 2 ^ basic_bits b).
  { apply Z.mod_pos_bound, Z.pow_pos_nonneg; [lia|]. destruct (basic_std b Wb Ib) as [-> | [-> | [-> | ->]]]; lia. }
  apply (enc_view_runs st dn n big from (view_px b x) (basic_bits b) (z mod 2 ^ basic_bits b)); auto.
  - now apply basic_std.
  - intros d. apply (view_get _ b x p z); auto. rewrite object_set. exact O.
Qed.
Theorem enc_const_runs st dn b n big from z : 0 <= from -> from + n < 2 ^ 63 ->
  runs st (enc_const_text dn b n big from z)
    (lift_data st (cf_enc (const_data (basic_bits b) big z) from n 0 (c_data st))).
Proof.
  intros Hf Hb. unfold enc_const_text.
  assert (R : forall i, 0 <= const_data (basic_bits b) big z i < 256) by (intros i; unfold const_data; apply Z.mod_pos_bound; lia).
  apply (run_field dn (fun i => nm (hexlit dn (const_data (basic_bits b) big z i)))); auto.
  - intros i _ _. split; [|reflexivity]. apply pwf_num, emit_int_lit, R.
  - intros d i _ _. apply evs_w. exists int_ty. specialize (R i). split; [now left|]. split; [lia|]. apply (emit_literal dn BHex). lia.
Qed.

(** ** Enums: a temporary of [w] bits *)
Definition temp_ok (k : Z) : Prop := 0 <= k < 2 ^ 63.
Lemma forallb_fmtd k : 0 <= k -> forallb is_word (fmtd k) = true.
Proof.
  intros H. pose proof (fmtd_int_lit k H) as F. unfold int_lit in F. destruct (fmtd k) as [|c r]; [discriminate F|].
  apply andb_true_iff in F as [A B]. cbn [forallb]. rewrite B, andb_true_r.
  assert (X : forallb (fun c => negb (is_num c) || is_word c) all_ascii = true) by (vm_compute; reflexivity).
  rewrite forallb_forall in X. specialize (X c (in_all_ascii c)). cbv beta in X. rewrite A in X. exact X.
Qed.
Lemma temp_okb k : 0 <= k -> name_okb (temp_name k) = true.
Proof.
  intros H. unfold temp_name. cbn [cs list_ascii_of_string app name_okb]. change (is_alpha "t") with true. cbn [andb].
  cbn [forallb]. rewrite forallb_fmtd by exact H. reflexivity.
Qed.
Lemma temp_plain k : 0 <= k -> plain_id OC (temp_name k) = true.
Proof.
  intros H. pose proof (temp_okb k H) as N. unfold plain_id.
  rewrite N. reflexivity.
Qed.
Lemma temp_var k : 0 <= k -> var (PId (temp_name k)) (PL (temp_name k)).
Proof. intros H. apply var_local; [now apply temp_plain|reflexivity]. Qed.
Lemma temp_inj a b : temp_ok a -> temp_ok b -> temp_name a = temp_name b -> a = b.
Proof.
  intros Ha Hb E. unfold temp_name in E. apply app_inv_head in E. pose proof (fmtd_reads a Ha) as A. pose proof (fmtd_reads b Hb) as B. rewrite E in A. congruence.
Qed.
Lemma uint_named w : std_bits w -> type_named (uint_name w) = Some (CI false w) /\ name_okb (uint_name w) = true /\ is_cast OC (uint_name w) = true.
Proof. intros [-> | [-> | [-> | ->]]]; repeat split; reflexivity. Qed.
Definition cast_px (w : Z) (x : px) : px := PCast (CtS (uint_name w)) x.
Lemma pwf_cast w x : std_bits w -> pwf OC x = true -> lev OC x = 100 -> pwf OC (cast_px w x) = true.
Proof. intros Hw W L. destruct (uint_named w Hw) as (_ & N & C). unfold cast_px. cbn [pwf cty_ok]. rewrite N, C, W, L. reflexivity. Qed.
Lemma eval_cast st w x p s m z : std_bits w -> var x p -> object st p = Some (Ok (CI s m, Some z)) ->
  eval st (tree (cast_px w x)) = Some (Ok (CI false w, z mod 2 ^ w)).
Proof.
  intros Hw V O. destruct (uint_named w Hw) as (T & _). unfold cast_px. cbn [tree cty_text]. cbn [eval]. rewrite T.
  rewrite (eval_place st _ p (Ok (CI s m, z)) (v_place _ _ V)); [reflexivity|]. unfold get. rewrite O. reflexivity.
Qed.
Lemma upd_same {A} (m : chars -> A) k v : upd m k v k = v.
Proof. unfold upd. destruct (list_eq_dec ascii_dec k k); [reflexivity|congruence]. Qed.
Lemma upd_other {A} (m : chars -> A) k v x : x <> k -> upd m k v x = m x.
Proof. unfold upd. destruct (list_eq_dec ascii_dec x k); [congruence|reflexivity]. Qed.
Lemma local_runs st dn w n big from k z : 0 <= from -> from + n < 2 ^ 63 -> 0 <= k -> std_bits w -> n <= w -> 0 <= z < 2 ^ w ->
  c_loc st (temp_name k) = Some (CI false w, Some z) ->
  runs st (enc_basic_text dn (BUint w) n big from (temp_name k)) (lift_data st (cf_enc (field_data n big z) from n 0 (c_data st))).
Proof.
  intros Hf Hb Hk Hw Hn Hz L. destruct (temp_var k Hk) as [V1 V2 V3].
  apply (enc_view_runs st dn n big from (PId (temp_name k)) w z); auto.
  intros d. apply (eval_place _ _ _ _ V3). unfold get. cbn [object set_data c_loc]. rewrite L. reflexivity.
Qed.
Definition with_temp (st : cst) (k w z : Z) : cst := set_loc st (temp_name k) (CI false w, Some z).
Theorem enc_enum_runs st dn w n big from x p s m z : 0 <= from -> from + n < 2 ^ 63 -> std_bits w -> n <= w ->
  var x p -> object st p = Some (Ok (CI s m, Some z)) -> c_loc st (temp_name from) = None ->
  runs st (enc_enum_text dn w n big from (show x))
    (lift_data (with_temp st from w (z mod 2 ^ w)) (cf_enc (field_data n big (z mod 2 ^ w)) from n 0 (c_data st))).
Proof.
  intros Hf Hb Hw Hn V O Fr. destruct (uint_named w Hw) as (T & N & _). unfold enc_enum_text.
  assert (Hm : 0 <= z mod 2 ^ w < 2 ^ w) by (apply Z.mod_pos_bound, Z.pow_pos_nonneg; destruct Hw as [-> | [-> | [-> | ->]]]; lia).
  eapply runs_cons.
  - pose proof (decl_reads (uint_name w) (temp_name from) (cast_px w x) N) as R. cbn [show cast_px cty_text] in R. rewrite <- ?app_assoc in R.
    apply R; [|apply pwf_cast; auto; apply V]. now apply temp_okb.
  - unfold exec. rewrite T, Fr, (eval_cast st w x p s m z) by auto. cbn [look snd]. reflexivity.
  - change (c_data st) with (c_data (with_temp st from w (z mod 2 ^ w))). cbn [convert].
    assert (Em : (z mod 2 ^ w) mod 2 ^ w = z mod 2 ^ w) by (now apply Z.mod_small). rewrite Em.
    apply local_runs; auto. cbn [with_temp set_loc c_loc]. now rewrite upd_same.
Qed.
(** Arrays: the temporary is declared once, for all the elements. *)
Lemma var_runs st w k : std_bits w -> 0 <= k -> c_loc st (temp_name k) = None ->
  runs st [uint_name w ++ cs " " ++ temp_name k ++ cs ";"] (Ok (set_loc st (temp_name k) (CI false w, None))).
Proof.
  intros Hw Hk Fr. destruct (uint_named w Hw) as (T & N & _). eapply runs_cons.
  - apply var_reads; auto. now apply temp_okb.
  - unfold exec. rewrite T, Fr. reflexivity.
  - constructor.
Qed.
Theorem enc_enum_elem_runs st dn w n big from k x p s m z v0 : 0 <= from -> from + n < 2 ^ 63 -> 0 <= k -> std_bits w -> n <= w ->
  var x p -> object st p = Some (Ok (CI s m, Some z)) -> c_loc st (temp_name k) = Some (CI false w, v0) ->
  runs st (enc_enum_elem_text dn w n big from k (show x))
    (lift_data (with_temp st k w (z mod 2 ^ w)) (cf_enc (field_data n big (z mod 2 ^ w)) from n 0 (c_data st))).
Proof.
  intros Hf Hb Hk Hw Hn V O L. unfold enc_enum_elem_text. destruct (temp_var k Hk) as [V1 V2 V3].
  assert (Hm : 0 <= z mod 2 ^ w < 2 ^ w) by (apply Z.mod_pos_bound, Z.pow_pos_nonneg; destruct Hw as [-> | [-> | [-> | ->]]]; lia).
  assert (Em : (z mod 2 ^ w) mod 2 ^ w = z mod 2 ^ w) by (now apply Z.mod_small).
  eapply runs_cons.
  - pose proof (set_reads "=" (PId (temp_name k)) (cast_px w x) (or_introl eq_refl) V1) as R. cbn [show cast_px cty_text] in R. rewrite <- ?app_assoc in R.
    apply R. apply pwf_cast; auto; apply V.
  - unfold exec. change (eqs (cs "=") "=") with true. cbv iota. rewrite (rhs_eval _ _ _ _ (eval_cast st w x p s m z Hw V O)). cbn [look tree].
    unfold store. cbn [place_of] in V3. cbn [tree] in V3. rewrite V3. cbn [object]. rewrite L. cbn [look fst snd put]. rewrite L. reflexivity.
  - cbn [convert]. rewrite Em. change (c_data st) with (c_data (with_temp st k w (z mod 2 ^ w))).
    apply local_runs; auto. cbn [with_temp set_loc c_loc]. now rewrite upd_same.
Qed.
