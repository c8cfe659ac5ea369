(** Running the printed encoding statements does what GoModel.v says. *)
From Coq Require Import ZArith Lia Bool String Ascii List.
Import ListNotations.
From Verif Require Import Base BaseProofs Schema GoModel Literals PropsLit ExprModel ExprSpec ExprProofs ExprLex ExprParse PrintTree GoSem GoText GoTextLex.
Open Scope string_scope.
Open Scope Z_scope.
Open Scope list_scope.
Ltac Zify.zify_post_hook ::= Z.to_euclidean_division_equations.

(** ** Evaluation, one step at a time *)
Section Steps.
Variable named : chars -> option Z.
Variable st : gst.
Notation ev := (eval named st).

Lemma eval_num s z : reads OGo s = Some z -> ev (NNum s) = Some (Ok (GC None z)).
Proof. intros H. cbn [eval]. rewrite H. reflexivity. Qed.
Lemma eval_shr a b x y : ev a = Some (Ok x) -> ev b = Some (Ok y) -> ev (NBin (cs ">>") a b) = ret (shift Z.shiftr x y).
Proof. intros H1 H2. cbn [eval]. rewrite H1, H2. reflexivity. Qed.
Lemma eval_shl a b x y : ev a = Some (Ok x) -> ev b = Some (Ok y) -> ev (NBin (cs "<<") a b) = ret (shift Z.shiftl x y).
Proof. intros H1 H2. cbn [eval]. rewrite H1, H2. reflexivity. Qed.
Lemma eval_and a b x y : ev a = Some (Ok x) -> ev b = Some (Ok y) -> ev (NBin (cs "&") a b) = ret (arith Z.land x y).
Proof. intros H1 H2. cbn [eval]. rewrite H1, H2. reflexivity. Qed.
Lemma eval_or a b x y : ev a = Some (Ok x) -> ev b = Some (Ok y) -> ev (NBin (cs "|") a b) = ret (arith Z.lor x y).
Proof. intros H1 H2. cbn [eval]. rewrite H1, H2. reflexivity. Qed.
Lemma eval_xor a b x y : ev a = Some (Ok x) -> ev b = Some (Ok y) -> ev (NBin (cs "^") a b) = ret (arith Z.lxor x y).
Proof. intros H1 H2. cbn [eval]. rewrite H1, H2. reflexivity. Qed.
Lemma eval_sub a b x y : ev a = Some (Ok x) -> ev b = Some (Ok y) -> ev (NBin (cs "-") a b) = ret (arith Z.sub x y).
Proof. intros H1 H2. cbn [eval]. rewrite H1, H2. reflexivity. Qed.
Lemma eval_add a b x y : ev a = Some (Ok x) -> ev b = Some (Ok y) -> ev (NBin (cs "+") a b) = ret (arith Z.add x y).
Proof. intros H1 H2. cbn [eval]. rewrite H1, H2. reflexivity. Qed.
Lemma eval_bin_panic s a b : ev a = Some Panic -> ev (NBin s a b) = Some Panic.
Proof. intros H. cbn [eval]. now rewrite H. Qed.
Lemma eval_bin_panic2 s a b x : ev a = Some (Ok x) -> ev b = Some Panic -> ev (NBin s a b) = Some Panic.
Proof. intros H1 H2. cbn [eval]. now rewrite H1, H2. Qed.
Lemma eval_compl a x : ev a = Some (Ok x) -> match a with NCall (NUn _ _) _ => false | _ => true end = true ->
  ev (NUn (cs "^") a) = ret (compl x).
Proof.
  intros H R. assert (E : reint (NUn (cs "^") a) = None).
  { destruct a as [| | | | | |f args| |]; try reflexivity. destruct f; try reflexivity. discriminate R. }
  cbn [eval]. fold (eval named st). rewrite E, H. reflexivity.
Qed.
Lemma eval_conv t ty a x : type_of named t = Some ty -> ev a = Some (Ok x) -> ev (NCall (NId t) [a]) = ret (conversion ty x).
Proof. intros H1 H2. cbn [eval]. rewrite H1, H2. reflexivity. Qed.
Lemma eval_conv_panic t ty a : type_of named t = Some ty -> ev a = Some Panic -> ev (NCall (NId t) [a]) = Some Panic.
Proof. intros H1 H2. cbn [eval]. rewrite H1, H2. reflexivity. Qed.
Lemma eval_view a : forall t q, reint a = Some (t, q) -> match a with NUn _ _ => True | _ => False end -> ev a = view named st t q.
Proof. intros t q H. destruct a; intros []. cbn [eval]. fold (eval named st). now rewrite H. Qed.
End Steps.

Lemma fits_u w z : fits_ty (GU w) z = true <-> 0 <= z < 2 ^ w.
Proof. cbn [fits_ty]. rewrite andb_true_iff, Z.leb_le, Z.ltb_lt. tauto. Qed.
Lemma arith_vv f w x y : arith f (GV (GU w) x) (GV (GU w) y) = Some (GV (GU w) (f x y mod 2 ^ w)).
Proof. unfold arith. cbn [join]. destruct (gty_eq (GU w) (GU w)); [|congruence]. reflexivity. Qed.
Lemma arith_vc f w x y : 0 <= y < 2 ^ w -> arith f (GV (GU w) x) (GC None y) = Some (GV (GU w) (f x y mod 2 ^ w)).
Proof. intros H. unfold arith. cbn [join is_int andb]. apply fits_u in H. rewrite H. reflexivity. Qed.
Lemma arith_vk f w x y : arith f (GV (GU w) x) (GC (Some (GU w)) y) = Some (GV (GU w) (f x y mod 2 ^ w)).
Proof. unfold arith. cbn [join]. destruct (gty_eq (GU w) (GU w)); [|congruence]. reflexivity. Qed.
Lemma arith_cc f x y : arith f (GC None x) (GC None y) = Some (GC None (f x y)).
Proof. reflexivity. Qed.
Lemma shift_v f w x n : 0 <= n -> shift f (GV (GU w) x) (GC None n) = Some (GV (GU w) (f x n mod 2 ^ w)).
Proof. intros H. unfold shift. destruct (Z.ltb_spec n 0); [lia|]. reflexivity. Qed.
Lemma shift_c f x n : 0 <= n -> shift f (GC None x) (GC None n) = Some (GC None (f x n)).
Proof. intros H. unfold shift. destruct (Z.ltb_spec n 0); [lia|]. reflexivity. Qed.

(** ** Pieces of text *)

Definition data_px (dyn : bool) (pos : Z) : px :=
  PIdx (PId (cs "data")) (if dyn then PBin "+" (PId (cs "offset")) (PNum (fmtd pos)) else PNum (fmtd pos)).
Definition slot_px (src : px) (shr mask : Z) (dn : bool) (shl : Z) : px :=
  let q := PPar (PBin "&" (PPar (PBin ">>" (PPar src) (PNum (fmtd shr)))) (PNum (hexlit dn mask))) in
  if shl =? 0 then q else PPar (PBin "<<" q (PNum (fmtd shl))).
Definition part_px (dn : bool) (fdx : Z -> px) (p : part) : px := slot_px (fdx (p_src p)) (p_shr p) (p_mask p) dn (p_shl p).
Definition or_px (x : px) (l : list px) : px := fold_left (PBin "|") l x.
Definition chunk_px (dn dyn : bool) (fdx : Z -> px) (c : chunk) : px :=
  let m := PNum (hexlit dn (c_mask c)) in
  let parts := match map (part_px dn fdx) (c_parts c) with x :: l => or_px x l | [] => m end in
  PCall (PId (cs "byte"))
    (PBin "|" (PPar (PBin "&" (PCall (PId (cs "uint64")) (data_px dyn (c_pos c))) (PUn "^" (PCall (PId (cs "uint64")) m))))
              (PPar (PBin "&" (PCall (PId (cs "uint64")) parts) (PCall (PId (cs "uint64")) m)))).

Ltac show_eq := cbn [show]; rewrite <- ?app_assoc; reflexivity.
Lemma show_data dyn pos : show (data_px dyn pos) = data_at dyn pos.
Proof. unfold data_px, data_at. destruct dyn; show_eq. Qed.
Lemma show_slot src shr mask dn shl : show (slot_px src shr mask dn shl) =
  let part := cs "(((" ++ show src ++ cs ") >> " ++ fmtd shr ++ cs ") & " ++ hexlit dn mask ++ cs ")" in
  if shl =? 0 then part else cs "(" ++ part ++ cs " << " ++ fmtd shl ++ cs ")".
Proof. unfold slot_px. destruct (shl =? 0); cbv zeta; show_eq. Qed.
Lemma show_part dn fdx fd p : (forall i, show (fdx i) = fd i) -> show (part_px dn fdx p) = part_text dn fd p.
Proof. intros H. unfold part_px, part_text. rewrite show_slot, H. reflexivity. Qed.
Lemma show_or l : forall x, show (or_px x l) = show x ++ concat (map (fun y => cs " | " ++ show y) l).
Proof.
  induction l as [|y l IH]; intros x; cbn [or_px fold_left map concat]; [now rewrite app_nil_r|].
  change (fold_left (PBin "|") l (PBin "|" x y)) with (or_px (PBin "|" x y) l). rewrite IH. cbn [show]. rewrite <- !app_assoc. reflexivity.
Qed.
Lemma join_or_concat l : forall x, join_or (x :: l) = x ++ concat (map (fun y => cs " | " ++ y) l).
Proof.
  induction l as [|y l IH]; intros x; cbn [map concat]; [cbn [join_or]; now rewrite app_nil_r|].
  change (join_or (x :: y :: l)) with (x ++ cs " | " ++ join_or (y :: l)). rewrite IH, <- !app_assoc. reflexivity.
Qed.
Lemma show_join dn fdx fd p ps : (forall i, show (fdx i) = fd i) ->
  show (or_px (part_px dn fdx p) (map (part_px dn fdx) ps)) = join_or (map (part_text dn fd) (p :: ps)).
Proof.
  intros H. cbn [map]. rewrite show_or, join_or_concat. f_equal; [now apply show_part|]. f_equal. rewrite !map_map.
  apply map_ext. intros q. f_equal. now apply show_part.
Qed.
Lemma show_chunk dn dyn fdx fd c : (forall i, show (fdx i) = fd i) -> c_parts c <> [] ->
  show (data_px dyn (c_pos c)) ++ cs " " ++ cs "=" ++ cs " " ++ show (chunk_px dn dyn fdx c) = chunk_text dn dyn fd c.
Proof.
  intros H N. unfold chunk_px, chunk_text. destruct (c_parts c) as [|p ps]; [congruence|]. cbn [map].
  rewrite show_data. cbn [show]. fold (show (data_px dyn (c_pos c))). rewrite show_data.
  rewrite (show_join dn fdx fd p ps H). cbn [map]. rewrite <- !app_assoc. reflexivity.
Qed.

(** ** Well-formed text *)
Lemma pwf_bin g s a b : pwf g a = true -> pwf g b = true -> bin_ok g s = true -> (bin_lev g s <=? lev g a) = true ->
  (bin_lev g s + 1 <=? lev g b) = true -> pwf g (PBin s a b) = true.
Proof. intros H1 H2 H3 H4 H5. cbn [pwf]. now rewrite H1, H2, H3, H4, H5. Qed.
Lemma pwf_call g f x : pwf g (PId f) = true -> pwf g x = true -> not_rp (ptoks x) = true -> pwf g (PCall (PId f) x) = true.
Proof. intros H1 H2 H3. cbn [pwf prim]. cbn [pwf] in H1. now rewrite H1, H2, H3. Qed.
Lemma pwf_num g s : int_lit s = true -> pwf g (PNum s) = true.
Proof. auto. Qed.
Lemma pwf_par g x : pwf g x = true -> pwf g (PPar x) = true.
Proof. auto. Qed.
Lemma not_rp_app l k : not_rp l = true -> not_rp (l ++ k) = true.
Proof. destruct l; [discriminate|auto]. Qed.
Lemma pwf_data dyn pos : 0 <= pos -> pwf OGo (data_px dyn pos) = true.
Proof.
  intros H. unfold data_px. cbn [pwf]. change (plain_id OGo (cs "data")) with true. change (prim (PId (cs "data"))) with true.
  cbn [andb]. destruct dyn.
  - apply pwf_bin; try reflexivity. apply pwf_num, fmtd_int_lit, H.
  - apply pwf_num, fmtd_int_lit, H.
Qed.
Lemma pwf_slot src shr mask dn shl : pwf OGo src = true -> 0 <= shr -> 0 <= mask -> 0 <= shl ->
  pwf OGo (slot_px src shr mask dn shl) = true.
Proof.
  intros H1 H2 H3 H4. unfold slot_px.
  assert (Q : pwf OGo (PPar (PBin "&" (PPar (PBin ">>" (PPar src) (PNum (fmtd shr)))) (PNum (hexlit dn mask)))) = true).
  { apply pwf_par, pwf_bin; try reflexivity; [|now apply pwf_num, hexlit_int_lit].
    apply pwf_par, pwf_bin; try reflexivity; [exact H1|now apply pwf_num, fmtd_int_lit]. }
  destruct (shl =? 0); [exact Q|]. apply pwf_par, pwf_bin; try reflexivity; [exact Q|now apply pwf_num, fmtd_int_lit].
Qed.
Lemma prim_slot src shr mask dn shl : prim (slot_px src shr mask dn shl) = true /\ not_rp (ptoks (slot_px src shr mask dn shl)) = true.
Proof. unfold slot_px. destruct (shl =? 0); split; reflexivity. Qed.
Lemma prim_lev g x : prim x = true -> lev g x = 100.
Proof. destruct x; cbn; congruence. Qed.
Lemma pwf_or l : forall x, pwf OGo x = true -> 4 <= lev OGo x -> not_rp (ptoks x) = true ->
  Forall (fun y => pwf OGo y = true /\ prim y = true) l ->
  pwf OGo (or_px x l) = true /\ 4 <= lev OGo (or_px x l) /\ not_rp (ptoks (or_px x l)) = true.
Proof.
  induction l as [|y l IH]; intros x Wx Lx Nx F; cbn [or_px fold_left]; auto.
  inversion F as [|? ? [Wy Py] F']; subst. apply (IH (PBin "|" x y)); auto.
  - apply pwf_bin; auto.
    + apply Z.leb_le. exact Lx.
    + rewrite (prim_lev _ _ Py). reflexivity.
  - change (lev OGo (PBin "|" x y)) with 4. lia.
  - cbn [ptoks]. now apply not_rp_app.
Qed.

Record part_ok (p : part) : Prop := { po_src : 0 <= p_src p; po_shr : 0 <= p_shr p < 8; po_mask : 0 <= p_mask p < 256; po_shl : 0 <= p_shl p < 8 }.
Lemma pwf_chunk dn dyn fdx c : (forall i, 0 <= i -> pwf OGo (fdx i) = true) -> 0 <= c_pos c -> 0 <= c_mask c -> c_parts c <> [] ->
  Forall part_ok (c_parts c) -> pwf OGo (chunk_px dn dyn fdx c) = true.
Proof.
  intros Hf Hp Hm Hn F. unfold chunk_px. destruct (c_parts c) as [|p ps]; [congruence|]. cbn [map]. inversion F as [|? ? Fp Fs]; subst.
  assert (P : forall p, part_ok p -> pwf OGo (part_px dn fdx p) = true).
  { intros q Q. destruct Q. unfold part_px. apply pwf_slot; try lia. now apply Hf. }
  destruct (pwf_or (map (part_px dn fdx) ps) (part_px dn fdx p)) as (W & _ & N).
  - now apply P.
  - unfold part_px. rewrite (prim_lev _ _ (proj1 (prim_slot _ _ _ _ _))). lia.
  - apply prim_slot.
  - apply Forall_map. eapply Forall_impl; [|exact Fs]. intros q Q. split; [now apply P|apply prim_slot].
  - assert (M : pwf OGo (PCall (PId (cs "uint64")) (PNum (hexlit dn (c_mask c)))) = true).
    { apply pwf_call; [reflexivity|now apply pwf_num, hexlit_int_lit|reflexivity]. }
    apply pwf_call; [reflexivity| |reflexivity].
    apply pwf_bin; try reflexivity.
    + apply pwf_par, pwf_bin; try reflexivity.
      * apply pwf_call; [reflexivity|now apply pwf_data|]. unfold data_px. reflexivity.
      * cbn [pwf]. cbn [pwf] in M. rewrite M. reflexivity.
    + apply pwf_par, pwf_bin; try reflexivity; [|exact M].
      apply pwf_call; [reflexivity|exact W|exact N].
Qed.

(** ** Evaluation *)
Definition mkv (k : option Z) (v : Z) : gval := match k with Some w => GV (GU w) v | None => GC None v end.
Definition kw_bits (k : option Z) : Z := match k with Some w => w | None => 64 end.
Definition inrange (k : option Z) (v : Z) : Prop := match k with Some w => 8 <= w <= 64 /\ 0 <= v < 2 ^ w | None => 0 <= v end.
Lemma shiftr_range v s w : 0 <= v < w -> 0 <= s -> 0 <= Z.shiftr v s < w.
Proof.
  intros H S. rewrite Z.shiftr_div_pow2 by lia. assert (0 < 2 ^ s) by (apply Z.pow_pos_nonneg; lia).
  split; [apply Z.div_pos; lia|]. apply Z.div_lt_upper_bound; [lia|]. nia.
Qed.
Lemma land_le a b : 0 <= b -> 0 <= Z.land a b <= b.
Proof.
  intros H. split; [apply Z.land_nonneg; auto|].
  assert (E : b - Z.land a b = Z.ldiff b (Z.land a b)).
  { apply Z.sub_nocarry_ldiff. apply Z.bits_inj'. intros k _. rewrite Z.ldiff_spec, Z.land_spec, Z.bits_0.
    destruct (Z.testbit a k), (Z.testbit b k); reflexivity. }
  assert (0 <= Z.ldiff b (Z.land a b)) by (apply Z.ldiff_nonneg; auto). lia.
Qed.
Lemma pow8 w : 8 <= w <= 64 -> 256 <= 2 ^ w <= 2 ^ 64.
Proof. intros H. change 256 with (2 ^ 8). split; apply Z.pow_le_mono_r; lia. Qed.

Section Chunk.
Variable named : chars -> option Z.
Variable st : gst.

Lemma eval_slot src k v shr mask dn shl : eval named st (tree src) = Some (Ok (mkv k v)) -> inrange k v ->
  0 <= shr -> 0 <= mask < 256 -> 0 <= shl < 8 ->
  eval named st (tree (slot_px src shr mask dn shl)) =
    Some (Ok (mkv k (Z.shiftl (Z.land (Z.shiftr v shr) mask) shl mod 2 ^ kw_bits k))).
Proof.
  intros E R H1 H2 H3.
  pose proof (land_le (Z.shiftr v shr) mask ltac:(lia)) as HL.
  assert (Q : eval named st (NBin (cs "&") (NBin (cs ">>") (tree src) (NNum (fmtd shr))) (NNum (hexlit dn mask))) =
    Some (Ok (mkv k (Z.land (Z.shiftr v shr) mask)))).
  { rewrite (eval_and named st _ _ (mkv k (Z.shiftr v shr)) (GC None mask)).
    - destruct k as [w|]; cbn [mkv inrange] in *.
      + destruct R as [R1 R2]. pose proof (pow8 w R1). rewrite arith_vc by lia. cbn [ret option_map].
        rewrite Z.mod_small by lia. reflexivity.
      + reflexivity.
    - rewrite (eval_shr named st _ _ (mkv k v) (GC None shr)); [|exact E|apply eval_num, fmtd_reads; lia].
      destruct k as [w|]; cbn [mkv inrange] in *.
      + rewrite shift_v by lia. cbn [ret option_map]. destruct R as [R1 R2]. pose proof (shiftr_range v shr (2 ^ w) R2 H1).
        rewrite Z.mod_small by lia. reflexivity.
      + rewrite shift_c by lia. reflexivity.
    - apply eval_num, hexlit_reads. lia. }
  unfold slot_px. destruct (Z.eqb_spec shl 0) as [->|N].
  - rewrite Z.shiftl_0_r. cbn [tree]. rewrite Q. rewrite Z.mod_small; [reflexivity|].
    destruct k as [w|]; cbn [kw_bits inrange] in *; [pose proof (pow8 w (proj1 R))|]; lia.
  - cbn [tree]. rewrite (eval_shl named st _ _ _ (GC None shl) Q); [|apply eval_num, fmtd_reads; lia].
    destruct k as [w|]; cbn [mkv kw_bits].
    + rewrite shift_v by lia. reflexivity.
    + rewrite shift_c by lia. rewrite Z.mod_small; [reflexivity|].
      rewrite Z.shiftl_mul_pow2 by lia. assert (1 <= 2 ^ shl <= 2 ^ 7).
      { split; [change 1 with (2 ^ 0)|]; apply Z.pow_le_mono_r; lia. }
      change (2 ^ 7) with 128 in *. nia.
Qed.

Lemma lor_small a b w : 0 <= w -> 0 <= a < 2 ^ w -> 0 <= b < 2 ^ w -> 0 <= Z.lor a b < 2 ^ w.
Proof.
  intros W A B. split; [apply Z.lor_nonneg; lia|].
  destruct (Z.eq_dec (Z.lor a b) 0) as [->|N]; [apply Z.pow_pos_nonneg; lia|].
  assert (0 <= Z.lor a b) by (apply Z.lor_nonneg; lia).
  apply Z.log2_lt_pow2; [lia|]. rewrite Z.log2_lor by lia.
  destruct (Z.eq_dec a 0) as [->|Na]; destruct (Z.eq_dec b 0) as [->|Nb]; try (cbn in N; lia).
  - rewrite Z.max_r by (apply Z.log2_nonneg). apply Z.log2_lt_pow2; lia.
  - rewrite Z.max_l by (apply Z.log2_nonneg). apply Z.log2_lt_pow2; lia.
  - apply Z.max_lub_lt; apply Z.log2_lt_pow2; lia.
Qed.
Lemma run_part_range w fd p : 0 <= w -> 0 <= run_part w fd p < 2 ^ w.
Proof. intros W. unfold run_part. apply Z.mod_pos_bound. apply Z.pow_pos_nonneg; lia. Qed.

Lemma eval_ors dn fdx (fd : Z -> Z) k : (forall i, 0 <= i -> eval named st (tree (fdx i)) = Some (Ok (mkv k (fd i)))) -> (forall i, 0 <= i -> inrange k (fd i)) ->
  forall ps x acc, eval named st (tree x) = Some (Ok (mkv k acc)) -> 0 <= acc < 2 ^ kw_bits k -> Forall part_ok ps ->
  eval named st (tree (or_px x (map (part_px dn fdx) ps))) = Some (Ok (mkv k (fold_left (fun a p => Z.lor a (run_part (kw_bits k) fd p)) ps acc)))
  /\ 0 <= fold_left (fun a p => Z.lor a (run_part (kw_bits k) fd p)) ps acc < 2 ^ kw_bits k.
Proof.
  intros Hf Hr. assert (W : 0 <= kw_bits k) by (specialize (Hr 0 (Z.le_refl 0)); destruct k; cbn [kw_bits inrange] in *; lia).
  induction ps as [|p ps IH]; intros x acc E A F; cbn [map or_px fold_left]; auto.
  inversion F as [|? ? Fp Fs]; subst. apply (IH (PBin "|" x (part_px dn fdx p))); auto.
  - cbn [tree]. destruct Fp. pose proof (eval_slot (fdx (p_src p)) k (fd (p_src p)) (p_shr p) (p_mask p) dn (p_shl p)
      (Hf _ po_src0) (Hr _ po_src0) ltac:(lia) po_mask0 po_shl0) as S. fold (part_px dn fdx p) in S.
    rewrite (eval_or named st _ _ _ _ E S). fold (run_part (kw_bits k) fd p).
    pose proof (run_part_range (kw_bits k) fd p W) as R. destruct k as [w|]; cbn [mkv kw_bits] in *.
    + rewrite arith_vv. cbn [ret option_map]. rewrite Z.mod_small; [reflexivity|]. apply lor_small; auto.
    + reflexivity.
  - apply lor_small; auto. apply run_part_range; auto.
Qed.

Lemma eval_parts dn fdx (fd : Z -> Z) k p ps : (forall i, 0 <= i -> eval named st (tree (fdx i)) = Some (Ok (mkv k (fd i)))) -> (forall i, 0 <= i -> inrange k (fd i)) ->
  Forall part_ok (p :: ps) ->
  eval named st (tree (or_px (part_px dn fdx p) (map (part_px dn fdx) ps))) = Some (Ok (mkv k (run_parts (kw_bits k) fd (p :: ps))))
  /\ 0 <= run_parts (kw_bits k) fd (p :: ps) < 2 ^ kw_bits k.
Proof.
  intros Hf Hr F. inversion F as [|? ? Fp Fs]; subst. unfold run_parts. cbn [fold_left]. rewrite Z.lor_0_l.
  apply eval_ors; auto.
  - destruct Fp. apply (eval_slot (fdx (p_src p)) k (fd (p_src p)) (p_shr p) (p_mask p) dn (p_shl p)); auto; lia.
  - apply run_part_range. specialize (Hr 0 (Z.le_refl 0)); destruct k; cbn [kw_bits inrange] in *; lia.
Qed.

(** The index. *)
Definition base_of (dyn : bool) : Z := if dyn then g_off st else 0.
Definition idx_ok (dyn : bool) (pos : Z) : Prop := 0 <= pos /\ (dyn = true -> - 2 ^ 63 <= g_off st < 2 ^ 63 /\ pos < 2 ^ 63 /\ - 2 ^ 63 <= g_off st + pos < 2 ^ 63).
Lemma eval_index dyn pos : idx_ok dyn pos ->
  eval named st (tree (if dyn then PBin "+" (PId (cs "offset")) (PNum (fmtd pos)) else PNum (fmtd pos))) =
  Some (Ok (if dyn then GV (GI 64) (base_of dyn + pos) else GC None pos)).
Proof.
  intros [H1 H2]. destruct dyn; cbn [tree].
  - specialize (H2 eq_refl). rewrite (eval_add named st _ _ (GV (GI 64) (g_off st)) (GC None pos)); [|reflexivity|apply eval_num, fmtd_reads; lia].
    unfold arith. cbn [join is_int andb fits_ty]. change (2 ^ (64 - 1)) with (2 ^ 63).
    destruct (Z.leb_spec (- 2 ^ 63) pos); [|lia]. destruct (Z.ltb_spec pos (2 ^ 63)); [|lia]. cbn [andb ret result is_int option_map wrap zof constant].
    rewrite sext_id; [reflexivity|lia|]. change (64 - 1) with 63. lia.
  - apply eval_num, fmtd_reads. lia.
Qed.
Lemma eval_data dyn pos : idx_ok dyn pos -> eval named st (tree (data_px dyn pos)) =
  match rd (g_data st) (base_of dyn + pos) with Ok b => Some (Ok (GV (GU 8) b)) | _ => Some Panic end.
Proof.
  intros H. pose proof (eval_index dyn pos H) as E. unfold data_px. cbn [tree] in *. cbn [eval]. rewrite E. change (eqs (cs "data") "data") with true.
  cbv iota. cbn [look]. destruct dyn; reflexivity.
Qed.
End Chunk.

Definition lift_data (st : gst) (r : res (list Z)) : res gst :=
  match r with Ok d => Ok (set_data st d) | Fail => Fail | Panic => Panic end.
Lemma rd_byte d i b : bytes_ok d -> rd d i = Ok b -> 0 <= b < 256.
Proof.
  unfold rd. intros B H. destruct (i <? 0); [discriminate|]. destruct (nth_error d (Z.to_nat i)) eqn:E; [|discriminate].
  injection H as <-. apply nth_error_In in E. unfold bytes_ok in B. rewrite Forall_forall in B. auto.
Qed.
Lemma rd_cases d i : (exists b, rd d i = Ok b) \/ rd d i = Panic.
Proof. unfold rd. destruct (i <? 0); auto. destruct (nth_error d (Z.to_nat i)); eauto. Qed.
Lemma type_uint64 named : type_of named (cs "uint64") = Some (GU 64). Proof. reflexivity. Qed.
Lemma type_byte named : type_of named (cs "byte") = Some (GU 8). Proof. reflexivity. Qed.

Lemma conv_parts k P : inrange k P -> 0 <= P < 2 ^ kw_bits k ->
  conversion (GU 64) (mkv k P) = Some (match k with Some _ => GV (GU 64) P | None => GC (Some (GU 64)) P end).
Proof.
  intros R H. destruct k as [w|]; cbn [mkv kw_bits inrange] in *; unfold conversion; cbn [is_int wrap].
  - destruct R as [R _]. pose proof (pow8 w R). rewrite Z.mod_small by lia. reflexivity.
  - rewrite (proj2 (fits_u 64 P)) by lia. reflexivity.
Qed.
Lemma and_const k P m : 0 <= P < 2 ^ 64 -> 0 <= m < 256 ->
  arith Z.land (match k with Some _ => GV (GU 64) P | None => GC (Some (GU 64)) P end) (GC (Some (GU 64)) m) =
  Some (match k : option Z with Some _ => GV (GU 64) (Z.land P m) | None => GC (Some (GU 64)) (Z.land P m) end).
Proof.
  intros H1 H2. pose proof (land_le P m ltac:(lia)) as L. destruct k.
  - rewrite arith_vk. rewrite Z.mod_small by lia. reflexivity.
  - unfold arith. cbn [join]. destruct (gty_eq (GU 64) (GU 64)); [|congruence]. cbn [constant andb result is_int zof].
    rewrite (proj2 (fits_u 64 _)) by lia. reflexivity.
Qed.
Lemma or_const (k : option Z) a P : arith Z.lor (GV (GU 64) a) (match k with Some _ => GV (GU 64) P | None => GC (Some (GU 64)) P end) =
  Some (GV (GU 64) (Z.lor a P mod 2 ^ 64)).
Proof. destruct k; [apply arith_vv|apply arith_vk]. Qed.
Lemma mod_mod_256 a : a mod 2 ^ 64 mod 256 = a mod 256.
Proof. symmetry. change 256 with (2 ^ 8). apply Znumtheory.Zmod_div_mod; try reflexivity. exists (2 ^ 56). reflexivity. Qed.
Lemma ldiff_64 b m : 0 <= b < 2 ^ 64 -> Z.land b (Z.lnot m mod 2 ^ 64) = Z.ldiff b m.
Proof.
  intros H. rewrite <- Z.land_ones by lia. rewrite Z.land_assoc, (Z.land_comm b (Z.lnot m)), <- Z.land_assoc, Z.land_ones, Z.mod_small by lia.
  rewrite Z.land_comm. symmetry. apply Z.ldiff_land.
Qed.
Record chunk_ok (c : chunk) : Prop := { co_pos : 0 <= c_pos c; co_mask : 0 <= c_mask c < 256; co_some : c_parts c <> []; co_parts : Forall part_ok (c_parts c) }.

Lemma exec_chunk named st dn dyn fdx fd k c : chunk_ok c -> bytes_ok (g_data st) ->
  (forall i, 0 <= i -> eval named st (tree (fdx i)) = Some (Ok (mkv k (fd i)))) -> (forall i, 0 <= i -> inrange k (fd i)) ->
  idx_ok st dyn (c_pos c) ->
  exec named st (SSet (cs "=") (tree (data_px dyn (c_pos c))) (tree (chunk_px dn dyn fdx c))) =
  Some (lift_data st (run_chunk (kw_bits k) fd (base_of st dyn) c (g_data st))).
Proof.
  intros C B Hf Hr Hi. destruct C. unfold exec. change (eqs (cs "=") "=") with true. cbv iota.
  unfold chunk_px. destruct (c_parts c) as [|p ps] eqn:Ec; [congruence|]. cbn [map].
  destruct (eval_parts named st dn fdx fd k p ps Hf Hr co_parts0) as [Ep Rp].
  set (P := run_parts (kw_bits k) fd (p :: ps)) in *.
  pose proof (eval_data named st dyn (c_pos c) Hi) as Ed.
  set (X := data_px dyn (c_pos c)) in *. set (Y := or_px (part_px dn fdx p) (map (part_px dn fdx) ps)) in *.
  cbn [tree].
  pose proof (eval_num named st (hexlit dn (c_mask c)) (c_mask c) (hexlit_reads dn (c_mask c) (proj1 co_mask0))) as Em.
  assert (Em2 : eval named st (NCall (NId (cs "uint64")) [NNum (hexlit dn (c_mask c))]) = Some (Ok (GC (Some (GU 64)) (c_mask c)))).
  { rewrite (eval_conv named st _ (GU 64) _ _ (type_uint64 named) Em). unfold conversion. cbn [is_int].
    rewrite (proj2 (fits_u 64 _)) by lia. reflexivity. }
  unfold run_chunk. rewrite Ec. fold P. destruct (rd_cases (g_data st) (base_of st dyn + c_pos c)) as [[b Eb]|Eb]; rewrite Eb in *; cbn [bind].
  - pose proof (rd_byte _ _ _ B Eb) as Hb.
    assert (E1 : eval named st (NBin (cs "&") (NCall (NId (cs "uint64")) [tree X]) (NUn (cs "^") (NCall (NId (cs "uint64")) [NNum (hexlit dn (c_mask c))]))) =
      Some (Ok (GV (GU 64) (Z.ldiff b (c_mask c))))).
    { rewrite (eval_and named st _ _ (GV (GU 64) b) (GC (Some (GU 64)) (Z.lnot (c_mask c) mod 2 ^ 64))).
      - rewrite arith_vk. cbn [ret option_map]. rewrite ldiff_64 by lia. rewrite Z.mod_small; [reflexivity|].
        assert (0 <= Z.ldiff b (c_mask c)) by (apply Z.ldiff_nonneg; lia).
        pose proof (land_le (Z.lnot (c_mask c)) b ltac:(lia)) as Q. rewrite Z.land_comm, <- Z.ldiff_land in Q. lia.
      - rewrite (eval_conv named st _ (GU 64) _ _ (type_uint64 named) Ed). unfold conversion. cbn [is_int wrap ret option_map].
        rewrite Z.mod_small by lia. reflexivity.
      - rewrite (eval_compl named st _ _ Em2) by reflexivity. reflexivity. }
    assert (E2 : eval named st (NBin (cs "&") (NCall (NId (cs "uint64")) [tree Y]) (NCall (NId (cs "uint64")) [NNum (hexlit dn (c_mask c))])) =
      Some (Ok (match k with Some _ => GV (GU 64) (Z.land P (c_mask c)) | None => GC (Some (GU 64)) (Z.land P (c_mask c)) end))).
    { assert (W : 2 ^ kw_bits k <= 2 ^ 64).
      { apply Z.pow_le_mono_r; [lia|]. specialize (Hr 0 (Z.le_refl 0)). destruct k; cbn [kw_bits inrange] in *; lia. }
      rewrite (eval_and named st _ _ (match k with Some _ => GV (GU 64) P | None => GC (Some (GU 64)) P end) (GC (Some (GU 64)) (c_mask c))).
      - rewrite and_const by lia. reflexivity.
      - rewrite (eval_conv named st _ (GU 64) _ _ (type_uint64 named) Ep). rewrite conv_parts; [reflexivity| |exact Rp].
        specialize (Hr 0 (Z.le_refl 0)). destruct k as [w|]; cbn [inrange kw_bits] in *; [split; [apply Hr|exact Rp]|lia].
      - exact Em2. }
    rewrite (eval_conv named st _ (GU 8) _ (GV (GU 64) (Z.lor (Z.ldiff b (c_mask c)) (Z.land P (c_mask c)) mod 2 ^ 64)) (type_byte named)).
    + unfold conversion. cbn [is_int wrap ret option_map]. change (2 ^ 8) with 256. rewrite mod_mod_256.
      unfold store, X, data_px. cbn [tree]. change (eqs (cs "data") "data") with true. cbv iota.
      pose proof (eval_index named st dyn (c_pos c) Hi) as Ei.
      change (match dyn with true => tree (PBin "+" (PId (cs "offset")) (PNum (fmtd (c_pos c)))) | false => tree (PNum (fmtd (c_pos c))) end)
        with (tree (if dyn then PBin "+" (PId (cs "offset")) (PNum (fmtd (c_pos c))) else PNum (fmtd (c_pos c)))) in *.
      rewrite Ei. cbn [assignable]. destruct (gty_eq (GU 8) (GU 8)); [|congruence].
      assert (Ebase : (if dyn then GV (GI 64) (base_of st dyn + c_pos c) else GC None (c_pos c)) =
        (if dyn then GV (GI 64) (base_of st dyn + c_pos c) else GC None (base_of st dyn + c_pos c))) by (destruct dyn; reflexivity).
      rewrite Ebase. unfold lift_data. destruct dyn; destruct (wr _ _ _); reflexivity.
    + rewrite (eval_or named st _ _ _ _ E1 E2), or_const. reflexivity.
  - rewrite (eval_conv_panic named st _ (GU 8)); [reflexivity|reflexivity|].
    apply eval_bin_panic, eval_bin_panic, eval_conv_panic with (ty := GU 64); [reflexivity|]. exact Ed.
Qed.

Lemma runs_app named ls ls' st st' r : runs named st ls (Ok st') -> runs named st' ls' r -> runs named st (ls ++ ls') r.
Proof.
  intros H. remember (Ok st') as q. revert st' Heqq. induction H; intros s' E Hr; cbn [app]; try discriminate.
  - injection E as ->. exact Hr.
  - subst. eapply runs_cons; eauto.
  - subst. eapply runs_check; eauto.
Qed.
Lemma runs_app_panic named ls ls' st r : runs named st ls r -> (forall s, r <> Ok s) -> runs named st (ls ++ ls') r.
Proof.
  induction 1; intros N; cbn [app].
  - exfalso. now apply (N st).
  - eapply runs_cons; eauto.
  - eapply runs_panic; eauto.
  - eapply runs_check; eauto.
  - eapply runs_return; eauto.
Qed.

(** The state without the buffer. *)
Lemma set_data_data st d : g_data (set_data st d) = d. Proof. reflexivity. Qed.
Lemma set_data_same st : set_data st (g_data st) = st. Proof. destruct st; reflexivity. Qed.
Lemma set_set st d e : set_data (set_data st d) e = set_data st e. Proof. reflexivity. Qed.
Lemma wr_bytes d i v d' : bytes_ok d -> 0 <= v < 256 -> wr d i v = Ok d' -> bytes_ok d'.
Proof.
  intros B V H. unfold wr in H. destruct (_ || _); [discriminate|]. injection H as <-.
  revert B. generalize (Z.to_nat i). clear i. induction d as [|x d IH]; intros [|n] B; cbn [upd_nat]; auto.
  - inversion B; subst; constructor; auto.
  - inversion B; subst; constructor; auto. now apply IH.
Qed.
Lemma run_chunk_bytes w fd base c d d' : bytes_ok d -> run_chunk w fd base c d = Ok d' -> bytes_ok d'.
Proof.
  intros B H. unfold run_chunk in H. destruct (rd d (base + c_pos c)); try discriminate. cbn [bind] in H.
  eapply wr_bytes; eauto. apply Z.mod_pos_bound. lia.
Qed.
Lemma wr_cases d i v : (exists d', wr d i v = Ok d') \/ wr d i v = Panic.
Proof. unfold wr. destruct (_ || _); eauto. Qed.
Lemma run_chunk_cases w fd base c d : (exists d', run_chunk w fd base c d = Ok d') \/ run_chunk w fd base c d = Panic.
Proof.
  unfold run_chunk. destruct (rd_cases d (base + c_pos c)) as [[b ->]| ->]; auto. cbn [bind]. apply wr_cases.
Qed.

Lemma run_lines named dn dyn fdx fdt fd k : (forall i, show (fdx i) = fdt i) -> (forall i, 0 <= i -> pwf OGo (fdx i) = true) -> (forall i, 0 <= i -> inrange k (fd i)) ->
  forall cs st, Forall chunk_ok cs -> bytes_ok (g_data st) ->
  (forall d i, 0 <= i -> eval named (set_data st d) (tree (fdx i)) = Some (Ok (mkv k (fd i)))) ->
  Forall (fun c => idx_ok st dyn (c_pos c)) cs ->
  runs named st (map (chunk_text dn dyn fdt) cs) (lift_data st (run_chunks (kw_bits k) fd (base_of st dyn) cs (g_data st))).
Proof.
  intros Hs Hw Hr. induction cs as [|c cs IH]; intros st F B He Hi; cbn [map run_chunks].
  - cbn [lift_data]. rewrite set_data_same. constructor.
  - inversion F as [|? ? Fc Fs]; inversion Hi as [|? ? Ic Is]; subst.
    pose proof (exec_chunk named st dn dyn fdx fd k c Fc B) as E.
    assert (R : reads_stmt (chunk_text dn dyn fdt c) (SSet (Literals.cs "=") (tree (data_px dyn (c_pos c))) (tree (chunk_px dn dyn fdx c)))).
    { rewrite <- (show_chunk dn dyn fdx fdt c Hs) by apply Fc. apply set_reads; [now left| |].
      - apply pwf_data. apply Fc.
      - apply pwf_chunk; try apply Fc. exact Hw. }
    assert (E' : exec named st (SSet (Literals.cs "=") (tree (data_px dyn (c_pos c))) (tree (chunk_px dn dyn fdx c))) =
      Some (lift_data st (run_chunk (kw_bits k) fd (base_of st dyn) c (g_data st)))).
    { apply E; auto. intros i Hi'. rewrite <- (set_data_same st) at 1. now apply He. }
    destruct (run_chunk_cases (kw_bits k) fd (base_of st dyn) c (g_data st)) as [[d' Ed]|Ed]; rewrite Ed in *; cbn [bind lift_data] in *.
    + eapply runs_cons; [exact R|exact E'|]. apply (IH (set_data st d')); auto.
      eapply run_chunk_bytes; eauto.
    + eapply runs_panic; [exact R|exact E'].
Qed.
