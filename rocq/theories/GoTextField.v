(** Fields: the printed encoding statements of one field. *)
From Coq Require Import ZArith Lia Bool String Ascii List.
Import ListNotations.
From Verif Require Import Base BaseProofs Schema GoModel Literals PropsLit ExprModel ExprSpec ExprProofs ExprLex ExprParse PrintTree GoSem GoText GoTextLex GoTextEnc.
Open Scope string_scope.
Open Scope Z_scope.
Open Scope list_scope.
Ltac Zify.zify_post_hook ::= Z.to_euclidean_division_equations.

Lemma land7 z : 0 <= Z.land z 7 < 8.
Proof. pose proof (land_le z 7 ltac:(lia)). lia. Qed.
Lemma ones_size s : 1 <= s <= 8 -> 0 <= Z.shiftl 1 s - 1 < 256.
Proof.
  intros H. rewrite Z.shiftl_1_l. assert (2 ^ 0 <= 2 ^ s <= 2 ^ 8) by (split; apply Z.pow_le_mono_r; lia).
  change (2 ^ 0) with 1 in *. change (2 ^ 8) with 256 in *. lia.
Qed.
Lemma gen_parts_ok fuel : forall field_from data_from chunk_size consumed, 0 <= field_from -> 0 <= consumed ->
  chunk_size <= 8 - Z.land data_from 7 -> Forall part_ok (gen_parts fuel field_from data_from chunk_size consumed).
Proof.
  induction fuel as [|fuel IH]; intros ff df cz con H1 H2 H3; cbn [gen_parts]; [constructor|].
  destruct (Z.ltb_spec con cz); [|constructor]. pose proof (land7 (ff + con)). pose proof (land7 df).
  assert (Hs : 1 <= Z.min (cz - con) (8 - Z.land (ff + con) 7) <= 8) by lia.
  constructor.
  - constructor; cbn [p_src p_shr p_mask p_shl]; try lia.
    now apply ones_size.
  - apply IH; lia.
Qed.
Lemma gen_chunks_ok fuel : forall from size field_from, 0 <= from -> 0 <= field_from ->
  Forall (fun c => chunk_ok c /\ 8 * c_pos c < from + size) (gen_chunks fuel from size field_from).
Proof.
  induction fuel as [|fuel IH]; intros from size ff H1 H2; cbn [gen_chunks]; [constructor|].
  destruct (Z.ltb_spec ff size); [|constructor]. pose proof (land7 (from + ff)).
  set (cz := Z.min (size - ff) (8 - Z.land (from + ff) 7)). assert (Hc : 1 <= cz <= 8 - Z.land (from + ff) 7) by (subst cz; lia).
  constructor.
  - split; [constructor; cbn [c_pos c_mask c_parts]|cbn [c_pos]; lia].
    + apply Z.div_pos; lia.
    + pose proof (ones_size cz ltac:(lia)) as O. rewrite Z.shiftl_1_l in *. rewrite Z.shiftl_mul_pow2 by lia. split; [apply Z.mul_nonneg_nonneg; [lia|apply Z.pow_nonneg; lia]|].
      assert (E : 2 ^ cz * 2 ^ Z.land (from + ff) 7 <= 2 ^ 8).
      { rewrite <- Z.pow_add_r by lia. apply Z.pow_le_mono_r; lia. }
      change (2 ^ 8) with 256 in E. assert (0 < 2 ^ Z.land (from + ff) 7) by (apply Z.pow_pos_nonneg; lia). nia.
    + cbn [gen_parts]. destruct (Z.ltb_spec 0 cz); [discriminate|lia].
    + apply gen_parts_ok; lia.
  - apply IH; lia.
Qed.

(** ** Variables *)
Record var (st : gst) (x : px) (p : place) : Prop := {
  v_pwf : pwf OGo x = true;
  v_prim : prim x = true;
  v_head : match show x with c :: _ => chk OGo (cs "&") c = true | [] => False end;
  v_rp : not_rp (ptoks x) = true;
  v_place : place_of (tree x) = Some p
}.
Definition field_px (f : chars) : px := PMem (PId (cs "this")) f.
Definition elem_px (f : chars) (i : Z) : px := PPar (PIdx (PPar (field_px f)) (PNum (fmtd i))).
Lemma show_field f : show (field_px f) = field_name f. Proof. reflexivity. Qed.
Lemma show_elem f i : show (elem_px f i) = elem_name f i.
Proof. unfold elem_px, elem_name. cbn [show field_px]. unfold field_name. rewrite <- !app_assoc. reflexivity. Qed.
Lemma var_field st f : name_okb f = true -> var st (field_px f) (PF f).
Proof. intros H. split; try reflexivity. cbn [field_px pwf]. rewrite H. reflexivity. Qed.
Lemma var_elem st f i : name_okb f = true -> 0 <= i -> var st (elem_px f i) (PE f i).
Proof.
  intros H Hi. split; try reflexivity.
  - cbn [elem_px field_px pwf]. rewrite H, fmtd_int_lit by auto. reflexivity.
  - cbn [elem_px field_px tree place_of]. change (eqs (cs "this") "this") with true. cbv iota. rewrite fmtd_reads by auto. reflexivity.
Qed.
Lemma word_head c : is_alpha c = true -> chk OGo (cs "&") c = true.
Proof.
  intros H. assert (A : forallb (fun c => negb (is_alpha c) || chk OGo (cs "&") c) all_ascii = true) by (vm_compute; reflexivity).
  rewrite forallb_forall in A. specialize (A c (in_all_ascii c)). cbv beta in A. rewrite H in A. exact A.
Qed.
Lemma var_local st x : plain_id OGo x = true -> eqs x "data" = false -> eqs x "offset" = false -> eqs x "this" = false -> var st (PId x) (PL x).
Proof.
  intros H A B C. split; try reflexivity.
  - exact H.
  - cbn [show]. unfold plain_id in H. bools. destruct x as [|c x]; [discriminate|]. apply word_head. apply (name_okb_ok (c :: x)). assumption.
  - cbn [tree place_of]. rewrite A, B, C. reflexivity.
Qed.

Lemma get_set st d p : get (set_data st d) p = get st p. Proof. destruct p; reflexivity. Qed.
Lemma eval_place named st n p t z : place_of n = Some p -> get st p = Some (t, z) -> eval named st n = Some (Ok (GV t z)).
Proof.
  intros H G. assert (R : read_var st n = Some (Ok (GV t z))) by (unfold read_var; now rewrite H, G).
  destruct n as [x|s|s a|s a b|ty a|a s f|f args|a i|ty c a b]; try discriminate H.
  - cbn [eval]. destruct (eqs x "offset") eqn:E; [|exact R]. cbn [place_of] in H. rewrite E in H. rewrite orb_true_r in H. discriminate.
  - exact R.
  - cbn [eval]. destruct a as [x|s|s a|s a b|ty a|a s f|f args|a j|ty c a b]; try exact R.
    exfalso. cbn [place_of] in H. destruct i; try discriminate. destruct (eqs x "data" || eqs x "offset" || eqs x "this"); discriminate.
Qed.

Definition gty_of (b : basic) : gty := match b with BBool => GB | BUint w => GU w | BInt w => GI w | BFloat w => GF w end.
Lemma uint_name_ok w : w = 8 \/ w = 16 \/ w = 32 \/ w = 64 ->
  plain_id OGo (uint_name w) = true /\ (forall named, type_of named (uint_name w) = Some (GU w)) /\ name_okb (uint_name w) = true.
Proof. intros [->|[->|[->| ->]]]; repeat split; reflexivity. Qed.
Lemma basic_width b : wf_basic b -> basic_bits b = 8 \/ basic_bits b = 16 \/ basic_bits b = 32 \/ basic_bits b = 64.
Proof. destruct b; cbn; intros H; auto; tauto. Qed.

(** The bits of a variable: as it is, or through a pointer. *)
Definition view_px (w : Z) (x : px) : px :=
  PUn "*" (PCall (PPar (PUn "*" (PId (uint_name w)))) (PCall (PMem (PId (cs "unsafe")) (cs "Pointer")) (PUn "&" x))).
Definition cast_px (b : basic) (x : px) : px := match b with BUint _ => x | _ => PPar (view_px (basic_bits b) x) end.
Lemma show_cast b x : show (cast_px b x) = cast_name b (show x).
Proof. destruct b; cbn [cast_px cast_name]; auto; unfold view_px; cbn [show]; rewrite <- ?app_assoc; reflexivity. Qed.
Lemma pwf_view w x : w = 8 \/ w = 16 \/ w = 32 \/ w = 64 -> pwf OGo x = true -> 6 <= lev OGo x ->
  match show x with c :: _ => chk OGo (cs "&") c = true | [] => False end -> pwf OGo (view_px w x) = true.
Proof.
  intros Hw W L H. unfold view_px.
  assert (A : pwf OGo (PUn "&" x) = true).
  { cbn [pwf]. rewrite W. unfold un_okb. change (find_op (prefix OGo) (sy "&")) with (Some 6). destruct (show x) as [|c r]; [destruct H|].
    rewrite H. apply Z.leb_le in L. change (sign OGo) with 6. rewrite L. reflexivity. }
  assert (T : pwf OGo (PUn "*" (PId (uint_name w))) = true) by (destruct Hw as [->|[->|[->| ->]]]; reflexivity).
  assert (B : pwf OGo (PCall (PMem (PId (cs "unsafe")) (cs "Pointer")) (PUn "&" x)) = true).
  { change (pwf OGo (PCall (PMem (PId (cs "unsafe")) (cs "Pointer")) (PUn "&" x))) with (pwf OGo (PUn "&" x) && true). rewrite A. reflexivity. }
  set (Z := PUn "&" x) in *. set (Y := PUn "*" (PId (uint_name w))) in *.
  cbn [pwf] in *. rewrite T. rewrite B. cbn [prim andb]. reflexivity.
Qed.
Lemma reint_view w x : reint (tree (view_px w x)) = Some (uint_name w, tree x).
Proof. reflexivity. Qed.
Lemma pwf_cast st b x p : wf_basic b -> var st x p -> pwf OGo (cast_px b x) = true /\ prim (cast_px b x) = true.
Proof.
  intros Wb V. destruct V.
  assert (A : 6 <= lev OGo x) by (rewrite (prim_lev _ _ v_prim0); lia).
  destruct b; cbn [cast_px]; auto; (split; [apply pwf_par, pwf_view; auto|reflexivity]); apply basic_width in Wb; exact Wb.
Qed.
Definition typed_ok (b : basic) (z : Z) : Prop := match b with BUint w => 0 <= z < 2 ^ w | _ => True end.
Lemma eval_cast named st b x p z : wf_basic b -> var st x p -> get st p = Some (gty_of b, z) -> typed_ok b z ->
  eval named st (tree (cast_px b x)) = Some (Ok (GV (GU (basic_bits b)) (z mod 2 ^ basic_bits b))).
Proof.
  intros Wb V G T. destruct V.
  assert (Q : match b with BUint _ => False | _ => True end -> eval named st (tree (view_px (basic_bits b) x)) = Some (Ok (GV (GU (basic_bits b)) (z mod 2 ^ basic_bits b)))).
  { intros Hb. rewrite (eval_view named st _ _ _ (reint_view (basic_bits b) x) I). unfold view.
    destruct (uint_name_ok _ (basic_width b Wb)) as (_ & Ty & _). rewrite Ty, v_place0, G.
    assert (E : width (gty_of b) = basic_bits b) by (destruct b; reflexivity). unfold bits_of. rewrite E, Z.eqb_refl. reflexivity. }
  destruct b; cbn [cast_px]; try (apply Q; exact I).
  rewrite (eval_place named st _ _ _ _ v_place0 G). cbn [gty_of basic_bits typed_ok] in *. rewrite Z.mod_small by lia. reflexivity.
Qed.

Definition fd_px (dn : bool) (n : Z) (big : bool) (x : px) (i : Z) : px :=
  PPar (PBin ">>" x (PNum (declit dn (if big then Z.max 0 (n - 8 * (i + 1)) else 8 * i)))).
Lemma show_fd dn n big x i : show (fd_px dn n big x i) = field_data_text dn n big (show x) i.
Proof. unfold fd_px, field_data_text. cbn [show]. rewrite <- ?app_assoc. reflexivity. Qed.

Lemma width_range b : wf_basic b -> 8 <= basic_bits b <= 64.
Proof. intros H. apply basic_width in H. lia. Qed.
Definition fits_int (st : gst) (dyn : bool) (to : Z) : Prop :=
  dyn = true -> 0 <= g_off st /\ g_off st + to < 2 ^ 63.
Lemma idx_all st dyn from n cs : 0 <= from -> fits_int st dyn (from + n) ->
  Forall (fun c => chunk_ok c /\ 8 * c_pos c < from + n) cs -> Forall (fun c => idx_ok st dyn (c_pos c)) cs.
Proof.
  intros Hf H. apply Forall_impl. intros c [C L]. destruct C. split; [assumption|]. intros D. specialize (H D). lia.
Qed.

Theorem enc_basic_runs named st dn dyn b n big from x p z : wf_basic b -> 0 <= from -> 0 <= n -> bytes_ok (g_data st) ->
  var st x p -> get st p = Some (gty_of b, z) -> typed_ok b z -> fits_int st dyn (from + n) ->
  runs named st (enc_basic_text dn dyn b n big from (show x))
    (lift_data st (enc_basic (basic_bits b) n big from (base_of st dyn) z (g_data st))).
Proof.
  intros Wb Hf Hn B V G T F. unfold enc_basic_text, encode_text, enc_basic.
  pose proof (width_range b Wb) as Hw.
  pose proof (gen_chunks_ok (Z.to_nat (from + n - from)) from (from + n - from) 0 Hf ltac:(lia)) as C.
  destruct (pwf_cast st b x p Wb V) as [Wc Pc].
  assert (Hm : 0 <= z mod 2 ^ basic_bits b < 2 ^ basic_bits b) by (apply Z.mod_pos_bound, Z.pow_pos_nonneg; lia).
  apply (run_lines named dn dyn (fd_px dn n big (cast_px b x)) _ (field_data n big (z mod 2 ^ basic_bits b)) (Some (basic_bits b))).
  - intros i. rewrite show_fd, show_cast. reflexivity.
  - intros i Hi. apply pwf_par, pwf_bin; try reflexivity; auto.
    + apply pwf_num, declit_int_lit. destruct big; lia.
    + rewrite (prim_lev _ _ Pc). reflexivity.
  - intros i Hi. split; [exact Hw|]. unfold field_data. apply shiftr_range; [exact Hm|]. destruct big; lia.
  - eapply Forall_impl; [|exact C]. intros c [H _]. exact H.
  - exact B.
  - intros d i Hi. unfold fd_px. cbn [tree].
    rewrite (eval_shr named (set_data st d) _ _ (GV (GU (basic_bits b)) (z mod 2 ^ basic_bits b)) (GC None (if big then Z.max 0 (n - 8 * (i + 1)) else 8 * i))).
    + rewrite shift_v by (destruct big; lia). cbn [ret option_map mkv]. unfold field_data. rewrite Z.mod_small; [reflexivity|].
      apply shiftr_range; [exact Hm|destruct big; lia].
    + apply (eval_cast named (set_data st d) b x p z); [exact Wb|destruct V; split; auto|rewrite get_set; exact G|exact T].
    + apply eval_num, declit_reads. destruct big; lia.
  - eapply idx_all; [exact Hf| |exact C]. replace (from + (from + n - from)) with (from + n) by lia. exact F.
Qed.

Theorem enc_const_runs named st dn dyn b n big from z : 0 <= from -> 0 <= n -> bytes_ok (g_data st) -> fits_int st dyn (from + n) ->
  runs named st (enc_const_text dn dyn b n big from z) (lift_data st (enc_const b n big from (base_of st dyn) z (g_data st))).
Proof.
  intros Hf Hn B F. unfold enc_const_text, encode_text, enc_const.
  pose proof (gen_chunks_ok (Z.to_nat (from + n - from)) from (from + n - from) 0 Hf ltac:(lia)) as C.
  assert (R : forall i, 0 <= const_data (basic_bits b) big z i < 256) by (intros i; unfold const_data; apply Z.mod_pos_bound; lia).
  apply (run_lines named dn dyn (fun i => PNum (hexlit dn (const_data (basic_bits b) big z i))) _ (const_data (basic_bits b) big z) None).
  - reflexivity.
  - intros i _. apply pwf_num, hexlit_int_lit, R.
  - intros i _. apply R.
  - eapply Forall_impl; [|exact C]. intros c [H _]. exact H.
  - exact B.
  - intros d i _. apply eval_num, hexlit_reads, R.
  - eapply idx_all; [exact Hf| |exact C]. replace (from + (from + n - from)) with (from + n) by lia. exact F.
Qed.
