(** Fields: the printed decoding statements of one field. *)
From Coq Require Import ZArith Lia Bool String Ascii List.
Import ListNotations.
From Verif Require Import Base BaseProofs Schema GoModel Literals PropsLit ExprModel ExprSpec ExprProofs ExprLex ExprParse PrintTree GoSem GoText GoTextLex GoTextEnc GoTextField.
Open Scope string_scope.
Open Scope Z_scope.
Open Scope list_scope.
Ltac Zify.zify_post_hook ::= Z.to_euclidean_division_equations.

(** ** What an assignment changes *)
Record moved (st : gst) (p : place) (t : gty) (z : Z) (st' : gst) : Prop := {
  m_data : g_data st' = g_data st;
  m_off : g_off st' = g_off st;
  m_here : get st' p = Some (t, z);
  m_else : forall q, q <> p -> get st' q = get st q
}.
Lemma upd_same {A} (m : chars -> A) k v : upd m k v k = v.
Proof. unfold upd. destruct (list_eq_dec ascii_dec k k); congruence. Qed.
Lemma upd_other {A} (m : chars -> A) k v x : x <> k -> upd m k v x = m x.
Proof. unfold upd. destruct (list_eq_dec ascii_dec x k); congruence. Qed.
Lemma set_nth_len l i v : (i < List.length l)%nat -> List.length (set_nth l i v) = List.length l.
Proof. intros H. unfold set_nth. rewrite app_length. cbn [List.length]. rewrite firstn_length, skipn_length. lia. Qed.
Lemma set_nth_here l i v : (i < List.length l)%nat -> nth_error (set_nth l i v) i = Some v.
Proof. intros H. unfold set_nth. rewrite nth_error_app2; rewrite firstn_length; [|lia]. replace (i - min i (List.length l))%nat with O by lia. reflexivity. Qed.
Lemma set_nth_else l i v j : (i < List.length l)%nat -> j <> i -> nth_error (set_nth l i v) j = nth_error l j.
Proof.
  intros H N. unfold set_nth. destruct (Nat.lt_ge_cases j i) as [L|L].
  - rewrite nth_error_app1 by (rewrite firstn_length; lia). rewrite <- (firstn_skipn i l) at 2.
    rewrite nth_error_app1 by (rewrite firstn_length; lia). reflexivity.
  - rewrite nth_error_app2; rewrite firstn_length; [|lia]. replace (j - min i (List.length l))%nat with (S (j - i - 1)) by lia. cbn [nth_error].
    rewrite <- (firstn_skipn (S i) l) at 2. rewrite nth_error_app2; rewrite firstn_length; [|lia]. f_equal. lia.
Qed.
Lemma put_moved st p t z0 z : get st p = Some (t, z0) -> exists st', put st p z = Some st' /\ moved st p t z st'.
Proof.
  intros G. destruct p as [f|f i|x]; cbn [get put] in *.
  - destruct (g_fld st f) as [[u y|u ys]|] eqn:E; try discriminate. injection G as -> ->. eexists. split; [reflexivity|].
    split; try reflexivity; cbn [get g_fld].
    + now rewrite upd_same.
    + intros [h|h j|y] N; cbn [get g_fld g_loc]; auto.
      * rewrite upd_other by congruence. reflexivity.
      * destruct (list_eq_dec ascii_dec h f) as [->|M]; [rewrite upd_same, E; reflexivity|rewrite upd_other by auto; reflexivity].
  - destruct (g_fld st f) as [[u y|u ys]|] eqn:E; try discriminate.
    destruct ((0 <=? i) && (i <? Z.of_nat (List.length ys))) eqn:B; [|discriminate]. bools.
    destruct (nth_error ys (Z.to_nat i)) eqn:Y; [|discriminate]. injection G as -> ->.
    assert (L : (Z.to_nat i < List.length ys)%nat) by lia.
    eexists. split; [reflexivity|]. split; try reflexivity; cbn [get g_fld].
    + rewrite upd_same, set_nth_len, set_nth_here by auto. destruct (Z.leb_spec 0 i); [|lia]. destruct (Z.ltb_spec i (Z.of_nat (List.length ys))); [|lia]. reflexivity.
    + intros [h|h j|y] N; cbn [get g_fld g_loc]; auto.
      * destruct (list_eq_dec ascii_dec h f) as [->|M]; [rewrite upd_same, E; reflexivity|rewrite upd_other by auto; reflexivity].
      * destruct (list_eq_dec ascii_dec h f) as [->|M]; [|rewrite upd_other by auto; reflexivity].
        rewrite upd_same, E, set_nth_len by auto. destruct ((0 <=? j) && (j <? Z.of_nat (List.length ys))) eqn:B; auto. bools.
        rewrite set_nth_else; auto. intros E2. apply N. f_equal. lia.
  - destruct (g_loc st x) as [[u y]|] eqn:E; [|discriminate]. injection G as -> ->. eexists. split; [reflexivity|].
    split; try reflexivity; cbn [get g_loc].
    + now rewrite upd_same.
    + intros [h|h j|y] N; cbn [get g_fld g_loc]; auto. rewrite upd_other by congruence. reflexivity.
Qed.
Lemma set_loc_moved st x t z : moved st (PL x) t z (set_loc st x t z).
Proof.
  split; try reflexivity; cbn [get set_loc g_loc].
  - now rewrite upd_same.
  - intros [h|h j|y] N; cbn [get g_fld g_loc set_loc]; auto. rewrite upd_other by congruence. reflexivity.
Qed.
Lemma moved_trans st p t z s1 z' s2 : moved st p t z s1 -> moved s1 p t z' s2 -> moved st p t z' s2.
Proof. intros [A B C D] [A' B' C' D']. split; try congruence. intros q N. rewrite D', D; auto. Qed.
Lemma moved_refl st p t z : get st p = Some (t, z) -> moved st p t z st.
Proof. split; auto. Qed.

(** ** Reading *)
Fixpoint read_list (fuel : nat) (from field_from chunk_size consumed : Z) : list part :=
  match fuel with
  | O => []
  | S f =>
      if consumed <? chunk_size then
        let data_bit := from + field_from + consumed in
        let part_size := Z.min (chunk_size - consumed) (8 - Z.land data_bit 7) in
        {| p_src := data_bit / 8; p_shr := Z.land data_bit 7; p_mask := Z.shiftl 1 part_size - 1; p_shl := consumed |} ::
        read_list f from field_from chunk_size (consumed + part_size)
      else []
  end.
Lemma read_texts dn dyn fuel : forall from ff cz con,
  dec_part_texts dn dyn fuel from ff cz con = map (part_text dn (data_at dyn)) (read_list fuel from ff cz con).
Proof.
  induction fuel as [|fuel IH]; intros from ff cz con; cbn [dec_part_texts read_list]; auto.
  destruct (con <? cz); auto. cbn [map]. rewrite IH. reflexivity.
Qed.
Lemma read_list_ok fuel : forall from ff cz con, 0 <= from + ff -> 0 <= con -> cz <= 8 ->
  Forall (fun p => part_ok p /\ 8 * p_src p < from + ff + cz) (read_list fuel from ff cz con).
Proof.
  induction fuel as [|fuel IH]; intros from ff cz con H1 H2 H3; cbn [read_list]; [constructor|].
  destruct (Z.ltb_spec con cz); [|constructor]. pose proof (land7 (from + ff + con)).
  assert (Hs : 1 <= Z.min (cz - con) (8 - Z.land (from + ff + con) 7) <= 8) by lia.
  constructor.
  - split; [constructor; cbn [p_src p_shr p_mask p_shl]|cbn [p_src]]; try lia. now apply ones_size.
  - apply IH; lia.
Qed.
Lemma read_list_some from ff cz : 0 < cz -> read_list 8 from ff cz 0 <> [].
Proof. intros H. cbn [read_list]. destruct (Z.ltb_spec 0 cz); [discriminate|lia]. Qed.
Definition read_part (data : list Z) (base : Z) (p : part) : res Z :=
  do b <- rd data (base + p_src p); Ok (Z.shiftl (Z.land (Z.shiftr b (p_shr p)) (p_mask p)) (p_shl p) mod 256).
Fixpoint read_parts (data : list Z) (base : Z) (ps : list part) (acc : Z) : res Z :=
  match ps with [] => Ok acc | p :: ps => do v <- read_part data base p; read_parts data base ps (Z.lor acc v) end.
Lemma dec_parts_list data base fuel : forall from ff cz con acc,
  dec_parts fuel from ff cz con base acc data = read_parts data base (read_list fuel from ff cz con) acc.
Proof.
  induction fuel as [|fuel IH]; intros from ff cz con acc; cbn [dec_parts read_list]; auto.
  destruct (con <? cz); auto. cbn [read_parts]. unfold read_part. cbn [p_src p_shr p_mask p_shl].
  destruct (rd data (base + (from + ff + con) / 8)); cbn [bind]; auto.
Qed.

Definition gvr (w : Z) (r : res Z) : res gval := match r with Ok v => Ok (GV (GU w) v) | Fail => Fail | Panic => Panic end.
Section Read.
Variable named : chars -> option Z.
Variable st : gst.
Hypothesis Bd : bytes_ok (g_data st).

Lemma read_part_cases base p : (exists v, read_part (g_data st) base p = Ok v /\ 0 <= v < 256) \/ read_part (g_data st) base p = Panic.
Proof.
  unfold read_part. destruct (rd_cases (g_data st) (base + p_src p)) as [[b E]|E]; rewrite E; cbn [bind]; auto.
  left. eexists. split; [reflexivity|]. apply Z.mod_pos_bound. lia.
Qed.
Lemma eval_read dn dyn p : part_ok p -> idx_ok st dyn (p_src p) ->
  eval named st (tree (part_px dn (data_px dyn) p)) = Some (gvr 8 (read_part (g_data st) (base_of st dyn) p)).
Proof.
  intros P I. pose proof (eval_data named st dyn (p_src p) I) as E. destruct P. unfold read_part, part_px.
  destruct (rd_cases (g_data st) (base_of st dyn + p_src p)) as [[b Eb]|Eb]; rewrite Eb in *; cbn [bind gvr].
  - pose proof (rd_byte _ _ _ Bd Eb).
    rewrite (eval_slot named st _ (Some 8) b (p_shr p) (p_mask p) dn (p_shl p) E); try assumption; try lia; [reflexivity|]. split; lia.
  - unfold slot_px. set (X := data_px dyn (p_src p)) in *.
    assert (Q : eval named st (NBin (cs "&") (NBin (cs ">>") (tree X) (NNum (fmtd (p_shr p)))) (NNum (hexlit dn (p_mask p)))) = Some Panic)
      by (apply eval_bin_panic, eval_bin_panic; exact E).
    destruct (p_shl p =? 0); cbn [tree]; [exact Q|]. apply eval_bin_panic. exact Q.
Qed.
Lemma ors_panic dn dyn ps : forall x, eval named st (tree x) = Some Panic ->
  eval named st (tree (or_px x (map (part_px dn (data_px dyn)) ps))) = Some Panic.
Proof.
  induction ps as [|p ps IH]; intros x E; cbn [map or_px fold_left]; auto.
  apply (IH (PBin "|" x (part_px dn (data_px dyn) p))). cbn [tree]. now apply eval_bin_panic.
Qed.
Lemma eval_reads dn dyn ps : Forall (fun p => part_ok p /\ idx_ok st dyn (p_src p)) ps -> forall x acc,
  eval named st (tree x) = Some (Ok (GV (GU 8) acc)) -> 0 <= acc < 256 ->
  eval named st (tree (or_px x (map (part_px dn (data_px dyn)) ps))) = Some (gvr 8 (read_parts (g_data st) (base_of st dyn) ps acc)) /\
  ((exists v, read_parts (g_data st) (base_of st dyn) ps acc = Ok v /\ 0 <= v < 256) \/ read_parts (g_data st) (base_of st dyn) ps acc = Panic).
Proof.
  induction 1 as [|p ps [P I] F IH]; intros x acc E A; cbn [map or_px fold_left read_parts].
  - split; [exact E|left; eauto].
  - pose proof (eval_read dn dyn p P I) as Ep.
    destruct (read_part_cases (base_of st dyn) p) as [(v & Ev & Hv)|Ev]; rewrite Ev in *; cbn [gvr bind] in *.
    + pose proof (lor_small acc v 8 ltac:(lia) A Hv) as L. change (2 ^ 8) with 256 in L.
      apply (IH (PBin "|" x (part_px dn (data_px dyn) p)) (Z.lor acc v)); [|exact L].
      cbn [tree]. rewrite (eval_or named st _ _ _ _ E Ep), arith_vv. cbn [ret option_map]. rewrite Z.mod_small by (change (2 ^ 8) with 256; lia). reflexivity.
    + split; [|now right]. apply (ors_panic dn dyn ps (PBin "|" x (part_px dn (data_px dyn) p))). cbn [tree].
      eapply eval_bin_panic2; eauto.
Qed.
Lemma eval_byte dn dyn p ps : Forall (fun p => part_ok p /\ idx_ok st dyn (p_src p)) (p :: ps) ->
  eval named st (tree (or_px (part_px dn (data_px dyn) p) (map (part_px dn (data_px dyn)) ps))) =
    Some (gvr 8 (read_parts (g_data st) (base_of st dyn) (p :: ps) 0)) /\
  ((exists v, read_parts (g_data st) (base_of st dyn) (p :: ps) 0 = Ok v /\ 0 <= v < 256) \/ read_parts (g_data st) (base_of st dyn) (p :: ps) 0 = Panic).
Proof.
  intros F. inversion F as [|? ? [P I] Fs]; subst. cbn [read_parts]. pose proof (eval_read dn dyn p P I) as Ep.
  destruct (read_part_cases (base_of st dyn) p) as [(v & Ev & Hv)|Ev]; rewrite Ev in *; cbn [gvr bind] in *.
  - rewrite Z.lor_0_l. now apply eval_reads.
  - split; [|now right]. now apply ors_panic.
Qed.
End Read.

(** ** One assignment *)
Definition read_px (dn dyn : bool) (w sh : Z) (ps : list part) : px :=
  PPar (PBin "<<" (PCall (PId (uint_name w)) (match map (part_px dn (data_px dyn)) ps with x :: l => or_px x l | [] => PNum (fmtd 0) end)) (PNum (declit dn sh))).
Lemma show_read dn dyn w sh ps : ps <> [] -> show (read_px dn dyn w sh ps) =
  cs "(" ++ uint_name w ++ cs "(" ++ join_or (map (part_text dn (data_at dyn)) ps) ++ cs ") << " ++ declit dn sh ++ cs ")".
Proof.
  intros H. unfold read_px. destruct ps as [|p ps]; [congruence|]. cbn [map show].
  pose proof (show_join dn (data_px dyn) (data_at dyn) p ps (show_data dyn)) as J. cbn [map] in J. rewrite <- J. clear J.
  rewrite <- ?app_assoc. reflexivity.
Qed.
Lemma width_ok w : w = 8 \/ w = 16 \/ w = 32 \/ w = 64 -> 8 <= w <= 64. Proof. lia. Qed.
Lemma pwf_read dn dyn w sh ps : w = 8 \/ w = 16 \/ w = 32 \/ w = 64 -> 0 <= sh -> ps <> [] -> Forall part_ok ps -> pwf OGo (read_px dn dyn w sh ps) = true.
Proof.
  intros Hw Hs N F. unfold read_px. apply pwf_par. destruct ps as [|p ps]; [congruence|]. cbn [map].
  assert (Q : forall q, part_ok q -> pwf OGo (part_px dn (data_px dyn) q) = true).
  { intros q P. destruct P. apply pwf_slot; try lia. now apply pwf_data. }
  inversion F as [|? ? P Fs]; subst.
  assert (R : pwf OGo (or_px (part_px dn (data_px dyn) p) (map (part_px dn (data_px dyn)) ps)) = true /\
              not_rp (ptoks (or_px (part_px dn (data_px dyn) p) (map (part_px dn (data_px dyn)) ps))) = true).
  { destruct (prim_slot (data_px dyn (p_src p)) (p_shr p) (p_mask p) dn (p_shl p)) as [P1 P2]. fold (part_px dn (data_px dyn) p) in P1, P2.
    destruct (pwf_or (map (part_px dn (data_px dyn)) ps) (part_px dn (data_px dyn) p)) as (A & B & C).
    - now apply Q.
    - rewrite (prim_lev _ _ P1). lia.
    - exact P2.
    - apply Forall_map. eapply Forall_impl; [|exact Fs]. intros q Hq. split; [now apply Q|]. apply prim_slot.
    - auto. }
  destruct R as [R1 R2]. destruct (uint_name_ok w Hw) as (U & _ & _).
  set (Y := or_px _ _) in *.
  apply pwf_bin; try reflexivity; [now apply pwf_call|]. now apply pwf_num, declit_int_lit.
Qed.

Definition tgt_px (b : basic) (x : px) : px := match b with BUint _ => x | _ => view_px (basic_bits b) (PPar x) end.
Lemma show_tgt b x : show (tgt_px b x) = target_text b (show x).
Proof. destruct b; cbn [tgt_px target_text]; auto; unfold view_px; cbn [show]; rewrite <- ?app_assoc; reflexivity. Qed.
Lemma pwf_tgt st b x p : wf_basic b -> var st x p -> pwf OGo (tgt_px b x) = true.
Proof.
  intros Wb V. destruct V. destruct b; cbn [tgt_px]; auto; apply pwf_view; auto; try (cbn; lia); try reflexivity; apply (basic_width _ Wb).
Qed.
(** Types of the variables that a field of type [b] is stored in. *)
Definition tgt_ty (b : basic) (t : gty) : Prop :=
  match b with BUint w => t = GU w | _ => width t = basic_bits b /\ match t with GN _ _ => False | _ => True end end.
Lemma tgt_width b t : tgt_ty b t -> width t = basic_bits b.
Proof. destruct b; cbn [tgt_ty]; intros H; try tauto. subst. reflexivity. Qed.
Lemma back_bits t v : 1 <= width t -> 0 <= v < 2 ^ width t -> bits_of t (of_bits t v) = v.
Proof.
  intros W H. unfold bits_of, of_bits. destruct t; try (apply Z.mod_small; exact H). cbn [width] in *. rewrite sext_mod by auto. apply Z.mod_small; exact H.
Qed.
Lemma store_place named st l p t z0 v z : place_of l = Some p -> get st p = Some (t, z0) -> assignable t v = Some z ->
  store named st l v = option_map Ok (put st p z).
Proof.
  intros H G A. destruct l as [x|s|s a|s a b|ty a|a s f|f args|a i|ty c a b]; try discriminate H.
  - cbn [store reint]. rewrite H, G, A. reflexivity.
  - cbn [store reint]. rewrite H, G, A. reflexivity.
  - destruct a as [x|s|s a|s a b|ty a|a s f|f args|a j|ty c a b]; try (cbn [store reint]; rewrite H, G, A; reflexivity).
    exfalso. cbn [place_of] in H. destruct i; try discriminate. destruct (eqs x "data" || eqs x "offset" || eqs x "this"); discriminate.
Qed.
Lemma store_view named st l tn q w p u z0 v z : reint l = Some (tn, q) -> type_of named tn = Some (GU w) -> place_of q = Some p ->
  get st p = Some (u, z0) -> assignable (GU w) v = Some z -> width u = w -> store named st l v = option_map Ok (put st p (of_bits u z)).
Proof.
  intros R T P G A W. destruct l as [x|s|s a|s a b|ty a|a s f|f args|a j|ty c a b]; try discriminate R.
  unfold store. rewrite R, T, P, G, A, W, Z.eqb_refl. reflexivity.
Qed.
Lemma assign_same t z : assignable t (GV t z) = Some z.
Proof. cbn [assignable]. destruct (gty_eq t t); congruence. Qed.

Lemma exec_read named st dn dyn b x p t z sh ps first : wf_basic b -> tgt_ty b t -> var st x p -> get st p = Some (t, z) ->
  bytes_ok (g_data st) -> 0 <= sh -> ps <> [] -> Forall (fun p => part_ok p /\ idx_ok st dyn (p_src p)) ps ->
  (first = true \/ 0 <= bits_of t z < 2 ^ basic_bits b /\ of_bits t (bits_of t z) = z) ->
  let T e := Z.shiftl e sh mod 2 ^ basic_bits b in
  match read_parts (g_data st) (base_of st dyn) ps 0 with
  | Ok e => exists st', exec named st (SSet (cs (if first then "=" else "|=")) (tree (tgt_px b x)) (tree (read_px dn dyn (basic_bits b) sh ps))) = Some (Ok st') /\
      moved st p t (of_bits t (if first then T e else Z.lor (bits_of t z) (T e))) st'
  | Panic => exec named st (SSet (cs (if first then "=" else "|=")) (tree (tgt_px b x)) (tree (read_px dn dyn (basic_bits b) sh ps))) = Some Panic
  | Fail => False
  end.
Proof.
  intros Wb Ht V G B Hs N F Hz T. pose proof (v_place _ _ _ V) as Vp. pose proof (basic_width b Wb) as Hw. pose proof (width_ok _ Hw) as Hw'.
  destruct (uint_name_ok _ Hw) as (_ & Ty & _). pose proof (pow8 _ Hw') as P8.
  destruct ps as [|q ps]; [congruence|]. destruct (eval_byte named st B dn dyn q ps F) as [Ee Ce].
  assert (HT : forall e, 0 <= T e < 2 ^ basic_bits b) by (intros e; apply Z.mod_pos_bound; lia).
  assert (Er : forall e, read_parts (g_data st) (base_of st dyn) (q :: ps) 0 = Ok e -> 0 <= e < 256 ->
    eval named st (tree (read_px dn dyn (basic_bits b) sh (q :: ps))) = Some (Ok (GV (GU (basic_bits b)) (T e)))).
  { intros e E He. rewrite E in Ee. cbn [gvr] in Ee. unfold read_px. cbn [map]. set (Y := or_px _ _) in *. cbn [tree].
    rewrite (eval_shl named st _ _ (GV (GU (basic_bits b)) e) (GC None sh)).
    - rewrite shift_v by lia. reflexivity.
    - rewrite (eval_conv named st _ _ _ _ (Ty named) Ee). unfold conversion. cbn [is_int wrap ret option_map]. rewrite Z.mod_small by lia. reflexivity.
    - apply eval_num, declit_reads. lia. }
  assert (El : eval named st (tree (tgt_px b x)) = Some (Ok (GV (GU (basic_bits b)) (match b with BUint _ => z | _ => bits_of t z end)))).
  { assert (Q : width t = basic_bits b -> eval named st (tree (view_px (basic_bits b) (PPar x))) = Some (Ok (GV (GU (basic_bits b)) (bits_of t z)))).
    { intros W. rewrite (eval_view named st _ _ _ (reint_view (basic_bits b) (PPar x)) I). unfold view. cbn [tree].
      rewrite Ty, Vp, G, W, Z.eqb_refl. reflexivity. }
    destruct b; cbn [tgt_px]; try (apply Q; apply Ht). cbn [tgt_ty] in Ht. subst t. now apply eval_place with (p := p). }
  assert (St : forall v, store named st (tree (tgt_px b x)) (GV (GU (basic_bits b)) v) = option_map Ok (put st p (of_bits t v))).
  { intros v. assert (Q : width t = basic_bits b -> store named st (tree (view_px (basic_bits b) (PPar x))) (GV (GU (basic_bits b)) v) = option_map Ok (put st p (of_bits t v))).
    { intros W. eapply store_view; [apply reint_view|apply Ty|exact Vp|exact G|apply assign_same|exact W]. }
    destruct b; cbn [tgt_px]; try (apply Q; apply Ht). cbn [tgt_ty] in Ht. subst t. cbn [of_bits].
    eapply store_place; [exact Vp|exact G|apply assign_same]. }
  destruct Ce as [(e & E & He)|E]; rewrite E.
  - specialize (Er e E He). destruct first.
    + destruct (put_moved st p t z (of_bits t (T e)) G) as (st' & Ep & M). exists st'. split; [|exact M].
      unfold exec. change (eqs (cs "=") "=") with true. cbv iota. rewrite Er, St, Ep. reflexivity.
    + destruct Hz as [Hz|[Hz Hc]]; [discriminate|].
      destruct (put_moved st p t z (of_bits t (Z.lor (bits_of t z) (T e))) G) as (st' & Ep & M). exists st'. split; [|exact M].
      unfold exec. change (eqs (cs "|=") "=") with false. cbv iota. rewrite El. cbn [look]. rewrite Er. cbn [look]. rewrite arith_vv. cbn [ret option_map].
      assert (Ez : match b with BUint _ => z | _ => bits_of t z end = bits_of t z).
      { destruct b; auto. cbn [tgt_ty] in Ht. subst t. symmetry. exact Hc. }
      rewrite Ez. rewrite Z.mod_small by (apply lor_small; auto; lia). rewrite St, Ep. reflexivity.
  - rewrite E in Ee. cbn [gvr] in Ee.
    assert (Ep : eval named st (tree (read_px dn dyn (basic_bits b) sh (q :: ps))) = Some Panic).
    { unfold read_px. cbn [map]. set (Y := or_px _ _) in *. cbn [tree]. apply eval_bin_panic. apply eval_conv_panic with (ty := GU (basic_bits b)); auto. }
    unfold exec. destruct first.
    + change (eqs (cs "=") "=") with true. cbv iota. rewrite Ep. reflexivity.
    + change (eqs (cs "|=") "=") with false. cbv iota. rewrite El. cbn [look]. rewrite Ep. reflexivity.
Qed.

(** ** All the assignments of a field *)
Lemma read_idx st dyn from n ff cz : 0 <= from -> 0 <= ff -> ff + cz <= n -> fits_int st dyn (from + n) -> cz <= 8 ->
  Forall (fun p => part_ok p /\ idx_ok st dyn (p_src p)) (read_list 8 from ff cz 0).
Proof.
  intros H1 H2 H3 F H4. eapply Forall_impl; [|apply (read_list_ok 8 from ff cz 0); lia].
  intros p [P L]. split; [exact P|]. pose proof (po_src _ P). split; [assumption|]. intros D. specialize (F D). lia.
Qed.
Lemma fits_moved st st' p t z dyn to : moved st p t z st' -> fits_int st dyn to -> fits_int st' dyn to.
Proof. intros M F. unfold fits_int. rewrite (m_off _ _ _ _ _ M). exact F. Qed.
Lemma base_moved st st' p t z dyn : moved st p t z st' -> base_of st' dyn = base_of st dyn.
Proof. intros M. unfold base_of. now rewrite (m_off _ _ _ _ _ M). Qed.
Lemma var_st st st' x p : var st x p -> var st' x p. Proof. intros []. split; auto. Qed.

Lemma dec_chunks_run named dn dyn b n big from x p t : wf_basic b -> tgt_ty b t -> 0 <= from -> forall fuel ff st z acc,
  var st x p -> get st p = Some (t, z) -> bytes_ok (g_data st) -> fits_int st dyn (from + n) -> 0 <= ff ->
  (ff = 0 /\ 0 < n /\ fuel <> O \/ 8 <= ff /\ z = of_bits t acc /\ 0 <= acc < 2 ^ basic_bits b) ->
  match dec_chunks fuel (basic_bits b) from n ff big (base_of st dyn) acc (g_data st) with
  | Ok v => 0 <= v < 2 ^ basic_bits b /\ exists st', runs named st (dec_chunk_texts dn dyn fuel b from n ff big (show x)) (Ok st') /\ moved st p t (of_bits t v) st'
  | Panic => runs named st (dec_chunk_texts dn dyn fuel b from n ff big (show x)) Panic
  | Fail => False
  end.
Proof.
  intros Wb Ht Hf. pose proof (basic_width b Wb) as Hw. pose proof (width_ok _ Hw) as Hw'. pose proof (tgt_width b t Ht) as Wt.
  induction fuel as [|fuel IH]; intros ff st z acc V G B F Hff C; cbn [dec_chunks dec_chunk_texts].
  - destruct C as [(_ & _ & C)|(_ & -> & C)]; [congruence|]. split; [exact C|]. exists st. split; [constructor|now apply moved_refl].
  - destruct (Z.ltb_spec ff n) as [L|L].
    2: { destruct C as [(C1 & C2 & _)|(_ & -> & C)]; [lia|]. split; [exact C|]. exists st. split; [constructor|now apply moved_refl]. }
    set (cz := Z.min 8 (n - ff)). assert (Hcz : 0 < cz <= 8 /\ ff + cz <= n) by (subst cz; lia).
    pose proof (read_idx st dyn from n ff cz Hf Hff ltac:(lia) F ltac:(lia)) as RI.
    set (sh := if big then Z.max 0 (n - 8 * (ff / 8 + 1)) else ff / 8 * 8). assert (Hsh : 0 <= sh) by (subst sh; destruct big; lia).
    rewrite (dec_parts_list (g_data st) (base_of st dyn)). rewrite (read_texts dn dyn). set (ps := read_list 8 from ff cz 0) in *.
    assert (N : ps <> []) by (apply read_list_some; lia).
    set (fst := ff / 8 =? 0).
    assert (Cz : fst = true \/ 0 <= bits_of t z < 2 ^ basic_bits b /\ of_bits t (bits_of t z) = z).
    { destruct C as [(-> & _)|(C1 & -> & C)]; [left; reflexivity|right]. rewrite <- Wt in C. rewrite back_bits by (auto; lia). rewrite Wt in C. auto. }
    pose proof (exec_read named st dn dyn b x p t z sh ps fst Wb Ht V G B Hsh N RI Cz) as E. cbv zeta in E.
    assert (R : reads_stmt (target_text b (show x) ++ (if ff / 8 =? 0 then cs " = " else cs " |= ") ++
        cs "(" ++ uint_name (basic_bits b) ++ cs "(" ++ join_or (map (part_text dn (data_at dyn)) ps) ++ cs ") << " ++ declit dn sh ++ cs ")")
        (SSet (cs (if fst then "=" else "|=")) (tree (tgt_px b x)) (tree (read_px dn dyn (basic_bits b) sh ps)))).
    { rewrite <- (show_read dn dyn (basic_bits b) sh ps N), <- show_tgt. fold fst.
      assert (Ex : show (tgt_px b x) ++ (if fst then cs " = " else cs " |= ") ++ show (read_px dn dyn (basic_bits b) sh ps) =
        show (tgt_px b x) ++ cs " " ++ cs (if fst then "=" else "|=") ++ cs " " ++ show (read_px dn dyn (basic_bits b) sh ps)) by (destruct fst; reflexivity).
      rewrite Ex. apply set_reads; [destruct fst; [now left|now right]|now apply pwf_tgt with (st := st) (p := p)|].
      apply pwf_read; auto. eapply Forall_impl; [|exact RI]. intros q [Q _]. exact Q. }
    destruct (read_parts (g_data st) (base_of st dyn) ps 0) as [e| |]; cbn [bind].
    + destruct E as (st1 & E & M).
      set (acc' := if ff / 8 =? 0 then Z.shiftl e sh mod 2 ^ basic_bits b else Z.lor acc (Z.shiftl e sh mod 2 ^ basic_bits b)) in *.
      assert (HT : 0 <= Z.shiftl e sh mod 2 ^ basic_bits b < 2 ^ basic_bits b) by (apply Z.mod_pos_bound; pose proof (pow8 _ Hw'); lia).
      assert (Ha : 0 <= acc' < 2 ^ basic_bits b).
      { subst acc'. destruct (Z.eqb_spec (ff / 8) 0); [exact HT|]. destruct C as [(-> & _)|(C1 & _ & C)]; [now destruct n0|]. apply lor_small; auto; lia. }
      assert (Ea : (if fst then Z.shiftl e sh mod 2 ^ basic_bits b else Z.lor (bits_of t z) (Z.shiftl e sh mod 2 ^ basic_bits b)) = acc').
      { subst acc' fst. destruct (Z.eqb_spec (ff / 8) 0); auto. destruct C as [(-> & _)|(C1 & -> & C)]; [now destruct n0|].
        rewrite back_bits; auto; rewrite Wt; auto; lia. }
      rewrite Ea in M.
      specialize (IH (ff + 8) st1 (of_bits t acc') acc' (var_st _ _ _ _ V) (m_here _ _ _ _ _ M)). rewrite (m_data _ _ _ _ _ M), (base_moved _ _ _ _ _ dyn M) in IH.
      specialize (IH B (fits_moved _ _ _ _ _ _ _ M F) ltac:(lia)).
      assert (X : 8 <= ff + 8 /\ of_bits t acc' = of_bits t acc' /\ 0 <= acc' < 2 ^ basic_bits b) by (split; [lia|auto]).
      specialize (IH (or_intror X)). clear X.
      change (if fst then Z.shiftl e sh mod 2 ^ basic_bits b else Z.lor acc (Z.shiftl e sh mod 2 ^ basic_bits b)) with acc'.
      destruct (dec_chunks fuel (basic_bits b) from n (ff + 8) big (base_of st dyn) acc' (g_data st)) as [v| |]; [|exact IH|].
      * destruct IH as (Hv & st2 & R2 & M2). split; [exact Hv|]. exists st2. split; [eapply runs_cons; eauto|]. eapply moved_trans; eauto.
      * eapply runs_cons; eauto.
    + exact E.
    + eapply runs_panic; eauto.
Qed.
