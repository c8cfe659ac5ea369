(** The Python target (generator/target/python/python.go; line numbers below are in that file).

    Python integers are unbounded, so nothing is truncated to a machine word; storing a number outside
    0..255 in a byte raises, as does indexing or slice-assigning out of range ([Panic]).  A struct nested
    at byte p works on the slice data[p:]; a slice of a memoryview shares the bytes, so the model keeps
    the whole buffer and adds p to the positions (TgtModel.v).  str values are represented by their
    UTF-8 bytes, floats by their bit pattern, enum members by their number.  Not modelled: the number
    conversions of struct.pack for floats (identity on bit patterns), custom getters and setters. *)
From Coq Require Import ZArith List Bool Lia.
From Verif Require Import Base BaseProofs Schema SpecWire GoModel GoBitProofs GoEncProofs GoDecProofs GoRound
  TgtModel TgtEncProofs TgtDecProofs TgtPrims.
Import ListNotations.
Open Scope Z_scope.
Ltac Zify.zify_post_hook ::= Z.to_euclidean_division_equations.

(** ** Encoding *)

(** generateEncodeImpl, 1541-1585: as in Go (the same chunks and parts, [gen_encode_impl]), in unbounded
    integers: "data[p] = (data[p] & ~mask) | ((part | part ...) & mask)". *)
Definition py_part (fd : Z -> Z) (p : part) : Z :=
  Z.shiftl (Z.land (Z.shiftr (fd (p_src p)) (p_shr p)) (p_mask p)) (p_shl p).
Definition py_parts (fd : Z -> Z) (ps : list part) : Z :=
  fold_left (fun acc p => Z.lor acc (py_part fd p)) ps 0.
Definition py_chunk (fd : Z -> Z) (base : Z) (c : chunk) (buf : list Z) : res (list Z) :=
  do old <- rd buf (base + c_pos c);
  let x := Z.lor (Z.ldiff old (c_mask c)) (Z.land (py_parts fd (c_parts c)) (c_mask c)) in
  if (x <? 0) || (255 <? x) then Panic else wr buf (base + c_pos c) x.
Fixpoint py_chunks (fd : Z -> Z) (base : Z) (cs : list chunk) (buf : list Z) : res (list Z) :=
  match cs with
  | [] => Ok buf
  | c :: cs' => do b <- py_chunk fd base c buf; py_chunks fd base cs' b
  end.

(** _bb_write_field_bits, 130-145: the value is always masked. *)
Definition py_write_bits (bit_from n value : Z) (big : bool) (buf : list Z) : res (list Z) :=
  if n <=? 0 then Ok buf
  else write_bits_loop (Z.to_nat n) bit_from n (Z.land value (Z.shiftl 1 n - 1)) 0 big buf.

(** ** Decoding *)

(** generateDecodeImpl, 2393-2416: the parts of one chunk of at most eight field bits. *)
Fixpoint py_dparts (fuel : nat) (from ff cs consumed base : Z) (data : list Z) : res (list Z) :=
  match fuel with
  | O => Ok []
  | S f =>
      if consumed <? cs then
        let data_bit := from + ff + consumed in
        let part_size := Z.min (cs - consumed) (8 - Z.land data_bit 7) in
        do b <- rd data (base + data_bit / 8);
        do r <- py_dparts f from ff cs (consumed + part_size) base data;
        Ok (Z.shiftl (Z.land (Z.shiftr b (Z.land data_bit 7)) (Z.shiftl 1 part_size - 1)) consumed :: r)
      else Ok []
  end.
(** 2298-2316 with 2486-2500: the parts are joined by " | " and the text "parts << shift" is
    parenthesised as a whole; in Python << binds more tightly than |, so only the last part is
    shifted. *)
Fixpoint py_join (sh : Z) (ps : list Z) : Z :=
  match ps with
  | [] => 0
  | [p] => Z.shiftl p sh
  | p :: r => Z.lor p (py_join sh r)
  end.
(** "=" for the first chunk, "|=" afterwards (2288-2296). *)
Fixpoint py_dchunks (fuel : nat) (from n ff : Z) (big : bool) (base acc : Z) (data : list Z) : res Z :=
  match fuel with
  | O => Ok acc
  | S f =>
      if ff <? n then
        do ps <- py_dparts 8 from ff (Z.min 8 (n - ff)) 0 base data;
        let i := ff / 8 in
        let sh := if big then Z.max 0 (n - 8 * (i + 1)) else i * 8 in
        let t := py_join sh ps in
        py_dchunks f from n (ff + 8) big base (if i =? 0 then t else Z.lor acc t) data
      else Ok acc
  end.
Definition py_dec (n : Z) (big : bool) (from base : Z) (data : list Z) : res Z :=
  py_dchunks (Z.to_nat n) from n 0 big base 0 data.

(** "signExtendArith", 1939-1941, 2326-2345, and 2126-2128 in loops: for every signed type, whatever the
    option. *)
Definition py_sx (n p : Z) : Z := Z.lxor p (Z.shiftl 1 (n - 1)) - Z.shiftl 1 (n - 1).

(** The value of a field read as [p]; EnumName(p) raises unless p is the number of a member (1871,
    2105).  [known bits p] tells that; one set of members per enum width (a schema in this model
    identifies an enum by its width). *)
Definition py_value (known : Z -> Z -> bool) (e : elem) (n p : Z) : res Z :=
  match e with
  | EBasic (BInt _) => Ok (py_sx n p)
  | EBasic _ => Ok p
  | EEnum bits => if known bits p then Ok p else Panic
  | _ => Panic
  end.

(** "decodeConstantField", 1857-1860, 1957-1987: decoded as a field of the declared type, compared with
    the literal. *)
Definition py_dconst (b : basic) (n : Z) (big : bool) (from base z : Z) (data : list Z) : res bool :=
  do p <- py_dec n big from base data;
  Ok ((match b with BInt _ => py_sx n p | _ => p end) =? z).

(** Length loops, 1708-1731 and 1887-1896: unbounded, given up at shift 63 by decode_size only. *)
Definition py_put (acc p s : Z) : res Z := Ok (Z.lor acc (Z.shiftl p s)).

Definition py_tgt (unr : Z) (known : Z -> Z -> bool) : tgt := {|
  (* 1232-1235, 2026-2027 *)
  t_loop := fun len => (0 <=? unr) && (unr <? Z.of_nat len);
  t_kt := false;
  t_lstart := true;
  t_escalar := fun e _ n big from base z buf =>
    py_chunks (field_data n big z) base (gen_encode_impl from (from + n)) buf; (* 1456-1508 *)
  t_econst := fun b n big from base z buf =>
    py_chunks (const_data (basic_bits b) big z) base (gen_encode_impl from (from + n)) buf; (* 1158-1182 *)
  t_eloop := fun e n big pos z buf => py_write_bits pos n z big buf; (* 1301-1345 *)
  t_estring := g_estring;
  t_ebytes := g_ebytes;
  t_bsize := g_bsize 9;
  t_dscalar := fun e _ n big from base data =>
    do p <- py_dec n big from base data; py_value known e n p;
  t_dconst := py_dconst;
  (* _bb_read_field_bits, 147-160, is the Go helper; fields have at most 64 bits *)
  t_dloop := fun e n big pos data =>
    do p <- read_field_bits pos n big data; py_value known e n p;
  t_dstring := g_dstring (fun l => if utf8_ok l then Ok l else Panic);
  t_dbytes := g_dbytes py_put false;
  t_checked := true;
  t_sstring := fun data fb off => Ok (dsize_string data fb off); (* 1694-1707 *)
  t_sbytes := g_sbytes false py_put (fun s => 63 <=? s) (fun x => x);
  t_sub := fun _ data p => Ok (skipn (Z.to_nat p) data)
|}.

(** Fields whose decoding is not spoilt by the missing parentheses. *)
Definition py_good (n : Z) (big : bool) (from : Z) : Prop :=
  from mod 8 = 0 \/ n <= 8 \/ (big = false /\ from mod 8 + n <= 16).

(** Every schema, for encoding. *)
Definition py_ereq : treq :=
  {| r_scalar := fun _ _ _ _ _ => True; r_const := fun _ _ _ _ _ => True; r_loop := fun _ _ _ _ => True;
     r_nested := True |}.
(** For decoding: as above, and constants that the field can show. *)
Definition py_dreq : treq :=
  {| r_scalar := fun _ _ n big from => py_good n big from;
     r_const := fun b n big from z => py_good n big from /\ (big = false \/ n = basic_bits b) /\
       match b with
       | BInt _ => - 2 ^ (n - 1) <= z < 2 ^ (n - 1)
       | _ => 0 <= z < 2 ^ n
       end;
     r_loop := fun _ _ _ _ => True;
     r_nested := True |}.
Definition py_vp (known : Z -> Z -> bool) (e : elem) (n z : Z) : Prop :=
  match e with EEnum bits => known bits (z mod 2 ^ n) = true | _ => True end.

(** ** Proofs *)
Definition part_ok (p : part) : Prop := 0 <= p_mask p < 256 /\ 0 <= p_shl p < 8.
Definition chunk_ok (c : chunk) : Prop := 0 <= c_mask c < 256 /\ Forall part_ok (c_parts c).

Lemma mask_bound k : 0 <= k <= 8 -> 0 <= Z.shiftl 1 k - 1 < 256.
Proof.
  intros H. rewrite Z.shiftl_1_l. pose proof (pow2_pos k ltac:(lia)).
  assert (2 ^ k <= 2 ^ 8) by (apply Z.pow_le_mono_r; lia). change (2 ^ 8) with 256 in *. lia.
Qed.

Lemma land7 x : Z.land x 7 = x mod 8.
Proof. change 7 with (Z.ones 3). rewrite Z.land_ones by lia. reflexivity. Qed.

Lemma gen_parts_ok fuel : forall ff df cs consumed, 0 <= consumed -> df mod 8 + cs <= 8 ->
  Forall part_ok (gen_parts fuel ff df cs consumed).
Proof.
  induction fuel; intros ff df cs consumed Hc Hs; cbn [gen_parts]; auto.
  destruct (Z.ltb_spec consumed cs); auto. rewrite !land7. constructor.
  - unfold part_ok. cbn [p_mask p_shl]. split; [apply mask_bound; lia|lia].
  - apply IHfuel; lia.
Qed.

Lemma gen_chunks_ok fuel : forall from n ff, Forall chunk_ok (gen_chunks fuel from n ff).
Proof.
  induction fuel; intros from n ff; cbn [gen_chunks]; auto.
  destruct (Z.ltb_spec ff n); auto. constructor; auto. rewrite !land7. unfold chunk_ok. cbn [c_mask c_parts]. split.
  - rewrite Z.shiftl_mul_pow2 by lia. rewrite Z.shiftl_1_l.
    set (k := Z.min (n - ff) (8 - (from + ff) mod 8)). set (m := (from + ff) mod 8) in *.
    assert (0 <= m < 8) by (subst m; lia). assert (1 <= k) by (subst k; lia). assert (k + m <= 8) by (subst k; lia).
    assert (E : 2 ^ k * 2 ^ m = 2 ^ (k + m)) by (rewrite Z.pow_add_r by lia; reflexivity).
    assert (2 ^ (k + m) <= 2 ^ 8) by (apply Z.pow_le_mono_r; lia). change (2 ^ 8) with 256 in *.
    pose proof (pow2_pos m ltac:(lia)). pose proof (pow2_pos k ltac:(lia)). nia.
  - apply gen_parts_ok; lia.
Qed.

Lemma land_mask_bound a m k : 0 <= m < 2 ^ k -> 0 <= k -> 0 <= Z.land a m < 2 ^ k.
Proof.
  intros Hm Hk. assert (0 <= Z.land a m) by (apply Z.land_nonneg; lia). split; auto.
  destruct (Z.eq_dec (Z.land a m) 0) as [->|Hn]; [apply pow2_pos; lia|].
  replace (Z.land a m) with (Z.land a m mod 2 ^ k); [apply Z.mod_pos_bound; apply pow2_pos; lia|].
  rewrite <- Z.land_ones, <- Z.land_assoc, (Z.land_ones m) by lia. rewrite Z.mod_small by lia. reflexivity.
Qed.

Lemma py_part_eq fd p : part_ok p -> py_part fd p = run_part 64 fd p.
Proof.
  intros (Hm & Hs). unfold py_part, run_part. symmetry. apply Z.mod_small.
  rewrite Z.shiftl_mul_pow2 by lia.
  pose proof (land_mask_bound (Z.shiftr (fd (p_src p)) (p_shr p)) (p_mask p) 8 Hm ltac:(lia)) as B.
  pose proof (pow2_pos (p_shl p) ltac:(lia)). assert (2 ^ p_shl p <= 2 ^ 8) by (apply Z.pow_le_mono_r; lia).
  change (2 ^ 8) with 256 in *. assert (65536 < 2 ^ 64) by reflexivity. nia.
Qed.

Lemma py_parts_eq fd ps : Forall part_ok ps -> py_parts fd ps = run_parts 64 fd ps.
Proof.
  unfold py_parts, run_parts. generalize 0. induction ps as [|p ps IH]; intros a H; cbn [fold_left]; auto.
  inversion H; subst. rewrite py_part_eq by auto. apply IH; auto.
Qed.

Lemma lor_bound a b k : 0 <= k -> 0 <= a < 2 ^ k -> 0 <= b < 2 ^ k -> 0 <= Z.lor a b < 2 ^ k.
Proof.
  intros Hk Ha Hb. assert (0 <= Z.lor a b) by (apply Z.lor_nonneg; lia). split; auto.
  destruct (Z.eq_dec (Z.lor a b) 0) as [->|]; [apply pow2_pos; lia|].
  apply Z.log2_lt_pow2; [lia|]. rewrite Z.log2_lor by lia.
  assert (L : forall x, 0 <= x < 2 ^ k -> x = 0 \/ Z.log2 x < k).
  { intros x Hx. destruct (Z.eq_dec x 0); auto. right. apply Z.log2_lt_pow2; lia. }
  assert (k <> 0). { intros ->. change (2 ^ 0) with 1 in *. assert (a = 0) by lia. assert (b = 0) by lia. subst. auto. }
  apply Z.max_lub_lt; [destruct (L a Ha)|destruct (L b Hb)]; subst; cbn; lia.
Qed.

Lemma rd_in buf i x : rd buf i = Ok x -> bytes_ok buf -> 0 <= x < 256.
Proof.
  unfold rd. destruct (i <? 0); [discriminate|]. intros E Hb. destruct (nth_error buf (Z.to_nat i)) eqn:N; [|discriminate].
  inversion E; subst. apply nth_error_In in N. unfold bytes_ok in Hb. rewrite Forall_forall in Hb. apply Hb; auto.
Qed.

Lemma py_chunks_eq fd base cs : Forall chunk_ok cs -> forall buf, bytes_ok buf ->
  py_chunks fd base cs buf = run_chunks 64 fd base cs buf.
Proof.
  induction cs as [|c cs IH]; intros Hc buf Hb; cbn [py_chunks run_chunks]; auto.
  inversion Hc as [|? ? (Hm & Hp) Hcs]; subst. unfold py_chunk, run_chunk.
  destruct (rd buf (base + c_pos c)) as [old| |] eqn:Er; cbn [bind]; auto.
  pose proof (rd_in _ _ _ Er Hb) as Hold.
  assert (B : 0 <= Z.lor (Z.ldiff old (c_mask c)) (Z.land (py_parts fd (c_parts c)) (c_mask c)) < 256).
  { apply (lor_bound _ _ 8); [lia| |apply land_mask_bound; auto; lia].
    assert (0 <= Z.ldiff old (c_mask c)) by (apply Z.ldiff_nonneg; lia). split; auto.
    apply Z.le_lt_trans with old; [|lia].
    rewrite <- (Z.lor_ldiff_and old (c_mask c)) at 2.
    rewrite <- Z.lxor_lor, <- Z.add_nocarry_lxor; cycle 1.
    - apply Z.bits_inj'. intros k Hk. rewrite !Z.land_spec, Z.ldiff_spec, Z.testbit_0_l.
      destruct (Z.testbit old k), (Z.testbit (c_mask c) k); reflexivity.
    - apply Z.bits_inj'. intros k Hk. rewrite !Z.land_spec, Z.ldiff_spec, Z.testbit_0_l.
      destruct (Z.testbit old k), (Z.testbit (c_mask c) k); reflexivity.
    - pose proof (proj2 (Z.land_nonneg old (c_mask c)) ltac:(lia)). lia. }
  rewrite <- py_parts_eq by auto. rewrite (Z.mod_small _ 256) by lia.
  destruct (Z.ltb_spec (Z.lor (Z.ldiff old (c_mask c)) (Z.land (py_parts fd (c_parts c)) (c_mask c))) 0); [lia|].
  destruct (Z.ltb_spec 255 (Z.lor (Z.ldiff old (c_mask c)) (Z.land (py_parts fd (c_parts c)) (c_mask c)))); [lia|]. cbn [orb].
  unfold wr. destruct ((base + c_pos c <? 0) || (zlen buf <=? base + c_pos c)); cbn [bind]; auto.
  apply IH; auto. apply upd_nat_bytes_ok; auto.
Qed.

Lemma py_dparts_eq fuel : forall from ff cs consumed base acc data, 0 <= consumed -> cs <= 8 ->
  dec_parts fuel from ff cs consumed base acc data =
    (do ps <- py_dparts fuel from ff cs consumed base data; Ok (fold_left Z.lor ps acc)) /\
  (forall ps, py_dparts fuel from ff cs consumed base data = Ok ps ->
     Forall (fun x => 0 <= x < 2 ^ 8) ps /\
     ((from + ff + consumed) mod 8 + (cs - consumed) <= 8 -> (length ps <= 1)%nat)).
Proof.
  induction fuel; intros from ff cs consumed base acc data Hc Hs; cbn [dec_parts py_dparts].
  - split; [reflexivity|]. intros ps E. inversion E; subst. split; auto.
  - destruct (Z.ltb_spec consumed cs).
    2:{ split; [reflexivity|]. intros ps E. inversion E; subst. split; auto. }
    rewrite !land7. set (k := Z.min (cs - consumed) (8 - (from + ff + consumed) mod 8)).
    destruct (rd data (base + (from + ff + consumed) / 8)) as [b| |]; cbn [bind];
      [|split; [reflexivity|discriminate]..].
    set (x := Z.land (Z.shiftr b ((from + ff + consumed) mod 8)) (Z.shiftl 1 k - 1)).
    assert (Hk : 1 <= k <= cs - consumed) by (subst k; lia).
    assert (Bx : 0 <= Z.shiftl x consumed < 2 ^ 8).
    { assert (Hx : 0 <= x < 2 ^ k).
      { apply land_mask_bound; [|lia]. rewrite Z.shiftl_1_l. pose proof (pow2_pos k ltac:(lia)). lia. }
      rewrite Z.shiftl_mul_pow2 by lia. pose proof (pow2_pos consumed ltac:(lia)).
      assert (E : 2 ^ k * 2 ^ consumed <= 2 ^ 8) by (rewrite <- Z.pow_add_r by lia; apply Z.pow_le_mono_r; lia). nia. }
    rewrite (Z.mod_small _ 256) by (change 256 with (2 ^ 8); auto).
    destruct (IHfuel from ff cs (consumed + k) base (Z.lor acc (Z.shiftl x consumed)) data) as (I1 & I2); try lia.
    split.
    + rewrite I1. destruct (py_dparts fuel from ff cs (consumed + k) base data); reflexivity.
    + intros ps E. destruct (py_dparts fuel from ff cs (consumed + k) base data) as [r| |] eqn:Er; cbn [bind] in E; try discriminate.
      inversion E; subst ps. destruct (I2 r eq_refl) as (I3 & I4). split; [constructor; auto|].
      intros Hl. assert (Ek : k = cs - consumed) by (subst k; lia).
      destruct fuel; cbn [py_dparts] in Er; [inversion Er; cbn; lia|].
      destruct (Z.ltb_spec (consumed + k) cs); [lia|]. inversion Er. cbn. lia.
Qed.

Lemma join0 ps : forall a, Z.lor a (py_join 0 ps) = fold_left Z.lor ps a.
Proof.
  induction ps as [|p ps IH]; intros a; cbn [fold_left].
  - apply Z.lor_0_r.
  - rewrite <- IH. destruct ps; cbn [py_join]; [rewrite Z.shiftl_0_r, Z.lor_0_r; reflexivity|].
    rewrite Z.lor_assoc. reflexivity.
Qed.

Lemma join_ok sh ps : sh = 0 \/ (length ps <= 1)%nat -> py_join sh ps = Z.shiftl (fold_left Z.lor ps 0) sh.
Proof.
  intros [->|H].
  - rewrite <- join0, Z.lor_0_l, Z.shiftl_0_r. reflexivity.
  - destruct ps as [|p [|]]; cbn in H |- *; try lia; rewrite ?Z.shiftl_0_l; reflexivity.
Qed.

Lemma fold_lor_bound ps : forall a, 0 <= a < 2 ^ 8 -> Forall (fun x => 0 <= x < 2 ^ 8) ps -> 0 <= fold_left Z.lor ps a < 2 ^ 8.
Proof.
  induction ps; intros x Hx H; cbn [fold_left]; auto. inversion H; subst. apply IHps; auto. apply lor_bound; auto; lia.
Qed.

Lemma py_dchunks_eq fuel : forall from n ff big base acc data, 0 <= ff -> ff mod 8 = 0 -> n <= 64 -> py_good n big from -> 
  py_dchunks fuel from n ff big base acc data = dec_chunks fuel 64 from n ff big base acc data.
Proof.
  induction fuel; intros from n ff big base acc data H0 Hm Hn Hg; cbn [py_dchunks dec_chunks]; auto.
  destruct (Z.ltb_spec ff n); auto.
  destruct (py_dparts_eq 8 from ff (Z.min 8 (n - ff)) 0 base 0 data) as (E & P); try lia.
  rewrite E. destruct (py_dparts 8 from ff (Z.min 8 (n - ff)) 0 base data) as [ps| |]; cbn [bind]; auto.
  destruct (P ps eq_refl) as (Pb & Pl). rewrite Z.add_0_r, Z.sub_0_r in Pl.
  assert (Hsh : 0 <= (if big then Z.max 0 (n - 8 * (ff / 8 + 1)) else ff / 8 * 8) <= 56).
  { destruct big; lia. }
  rewrite join_ok.
  - pose proof (fold_lor_bound ps 0 ltac:(lia) Pb) as B.
    assert (Ec : Z.shiftl (fold_left Z.lor ps 0) (if big then Z.max 0 (n - 8 * (ff / 8 + 1)) else ff / 8 * 8) mod 2 ^ 64 =
                 Z.shiftl (fold_left Z.lor ps 0) (if big then Z.max 0 (n - 8 * (ff / 8 + 1)) else ff / 8 * 8)).
    { apply Z.mod_small. rewrite Z.shiftl_mul_pow2 by lia.
      pose proof (pow2_pos (if big then Z.max 0 (n - 8 * (ff / 8 + 1)) else ff / 8 * 8) ltac:(lia)).
      assert (2 ^ (if big then Z.max 0 (n - 8 * (ff / 8 + 1)) else ff / 8 * 8) <= 2 ^ 56) by (apply Z.pow_le_mono_r; lia).
      change (2 ^ 64) with (2 ^ 56 * 2 ^ 8). nia. }
    rewrite Ec. apply IHfuel; auto; lia.
  - destruct (Z.le_gt_cases ((from + ff) mod 8 + Z.min 8 (n - ff)) 8); [right; auto|]. left.
    destruct Hg as [Hg|[Hg|(-> & Hg)]].
    + exfalso. lia.
    + assert (ff = 0) by lia. subst. destruct big; cbn; lia.
    + assert (ff = 0) by lia. subst. reflexivity.
Qed.

Lemma py_dec_ok n big from base data : 1 <= n <= 64 -> py_good n big from -> 0 <= from -> 0 <= base -> bytes_ok data ->
  8 * base + from + n <= 8 * zlen data -> py_dec n big from base data = Ok (read_value data (8 * base + from) n big).
Proof.
  intros. unfold py_dec. rewrite py_dchunks_eq by (auto; lia).
  apply (dec_pattern_ok 64 n big from base 0 data); auto; lia.
Qed.

Lemma py_write_bits_ok pos n z big buf : 0 <= pos -> 1 <= n <= 64 -> bytes_ok buf -> pos + n <= 8 * zlen buf ->
  exists b, py_write_bits pos n z big buf = Ok b /\ overlay buf pos (map Some (field_bits n big z)) b.
Proof.
  intros Hp Hn Hb Hl. destruct (write_field_bits_overlay pos n z big buf) as (b & E & O); auto.
  exists b. split; [|auto]. rewrite <- E. unfold py_write_bits, write_field_bits.
  destruct (Z.leb_spec n 0); [lia|]. f_equal. rewrite Z.shiftl_1_l.
  replace (2 ^ n - 1) with (Z.ones n) by (rewrite Z.ones_equiv; lia).
  unfold loop_value. destruct (Z.ltb_spec n 64).
  - rewrite !Z.land_ones by lia. symmetry.
    replace 64 with (n + (64 - n)) by lia. rewrite Z.pow_add_r by lia.
    rewrite Z.rem_mul_r by (try apply pow2_pos; try lia; pose proof (pow2_pos n ltac:(lia)); lia).
    rewrite Z.add_mod, Z.mul_comm, Z.mod_mul by (pose proof (pow2_pos n ltac:(lia)); lia).
    rewrite Z.add_0_r, !Z.mod_mod by (pose proof (pow2_pos n ltac:(lia)); lia). reflexivity.
  - assert (n = 64) by lia. subst. rewrite Z.land_ones by lia. reflexivity.
Qed.

Lemma elem_bits_le e : wf_elem e -> is_fixed_scalar e = true -> elem_bits e <= 64.
Proof.
  intros W S. destruct e; try discriminate S; cbn [elem_bits wf_elem] in *.
  - apply basic_bits_range in W. lia.
  - lia.
Qed.

(** The Python encoder writes the common wire format, for every schema. *)
Lemma py_enc_spec unr known : enc_spec (py_tgt unr known) py_ereq false (2 ^ 63).
Proof.
  constructor; cbn [py_tgt t_escalar t_econst t_eloop t_estring t_ebytes t_bsize t_lstart].
  - intros e w n big from base lim z buf We Se Hn _ _ Hb Hf (Hok & _ & _ & Hl & Hl2 & _).
    rewrite py_chunks_eq by (auto; apply gen_chunks_ok).
    unfold gen_encode_impl. replace (from + n - from) with n by lia.
    destruct (run_chunks_overlay (field_data n big z) 64 base from n) with (fuel := Z.to_nat n) (ff := 0) (buf := buf)
      as (b & E & O); auto; try lia.
    exists b. split; [exact E|]. rewrite Z.sub_0_r, Z.add_0_r in O. rewrite map_Some_field_bits.
    erewrite img_of_ext; [exact O|]. intros k Hk. cbv beta. symmetry. apply field_data_bit. lia.
  - intros b n big from base lim z buf Wb Hn _ Hb Hf (Hok & _ & _ & Hl & Hl2 & _).
    rewrite py_chunks_eq by (auto; apply gen_chunks_ok).
    apply (enc_const_overlay b n big from base z buf); auto; lia.
  - intros e n big from base lim z buf We Se Hn _ _ Hb Hf (Hok & _ & _ & Hl & Hl2 & _).
    pose proof (elem_bits_le e We Se). apply py_write_bits_ok; auto; lia.
  - intros p lim bs buf Hbs Hn0 Hp (Hok & _ & _ & Hl & Hl2 & _). apply g_estring_ok; auto; lia.
  - intros p lim bs buf Hbs Hn Hp (Hok & _ & _ & Hl & Hl2 & _). apply g_ebytes_ok; auto; lia.
  - intros bs _ Hl. apply g_bsize_ok; [lia|]. apply Z.lt_trans with (2 ^ 63); auto. reflexivity.
  - reflexivity.
Qed.

Lemma py_value_ok known e n z : is_fixed_scalar e = true -> 1 <= n -> py_vp known e n z ->
  py_value known e n (z mod 2 ^ n) = Ok (norm_num e n z).
Proof.
  intros Se Hn V. pose proof (Z.mod_pos_bound z (2 ^ n) (pow2_pos n ltac:(lia))) as B.
  destruct e as [b|bits| | |]; try discriminate Se.
  - destruct b; cbn [py_value norm_num]; auto. f_equal. unfold py_sx. rewrite xor_sub_sext by auto.
    unfold sext. rewrite Z.mod_mod by lia. reflexivity.
  - cbn [py_value norm_num py_vp] in *. rewrite V. reflexivity.
Qed.

Lemma py_put_ok K : put_ok py_put K.
Proof. intros acc p s Hs Ha Hp _. unfold py_put. rewrite lor_disjoint by lia. reflexivity. Qed.

Lemma py_dec_spec unr known :
  dec_spec (py_tgt unr known) py_dreq (py_vp known) (fun bs => utf8_ok bs = true) (2 ^ 63).
Proof.
  constructor; cbn [py_tgt t_dscalar t_dconst t_dloop t_dstring t_dbytes t_sstring t_sbytes t_sub t_lstart t_kt].
  - intros e w n big from base z data We Se Hn Sz G V Hb Hf Hok Hx M. pose proof (elem_bits_le e We Se).
    cbn [py_dreq r_scalar] in G. pose proof M as (L & _). unfold zlen in L at 1. rewrite map_length in L.
    assert (Lf : Z.of_nat (length (field_bits n big z)) = n) by (unfold field_bits; rewrite map_length, seq_length; lia).
    rewrite py_dec_ok by (auto; lia). cbn [bind]. rewrite (read_value_matches _ _ _ _ z) by (auto; lia).
    apply py_value_ok; auto; lia.
  - intros b n big from base z data Wb Hn (G & Hbig & Hz) Hb Hf Hok Hx M.
    pose proof (basic_bits_range b Wb). rewrite const_field_bits in M by (auto; lia).
    pose proof M as (L & _). unfold zlen in L at 1. rewrite map_length in L.
    assert (Lf : Z.of_nat (length (field_bits n big z)) = n) by (unfold field_bits; rewrite map_length, seq_length; lia).
    unfold py_dconst. rewrite py_dec_ok by (auto; lia). cbn [bind]. rewrite (read_value_matches _ _ _ _ z) by (auto; lia).
    f_equal. apply Z.eqb_eq. pose proof (Z.mod_pos_bound z (2 ^ n) (pow2_pos n ltac:(lia))).
    destruct b; try (apply Z.mod_small; exact Hz).
    unfold py_sx. rewrite xor_sub_sext by (auto; lia). rewrite <- (sext_id n z) at 2 by (auto; lia).
    unfold sext. rewrite Z.mod_mod by lia. reflexivity.
  - intros e n big from base z data We Se Hn Sz _ V Hb Hf Hok Hx M. pose proof (elem_bits_le e We Se).
    pose proof M as (L & _). unfold zlen in L at 1. rewrite map_length in L.
    assert (Lf : Z.of_nat (length (field_bits n big z)) = n) by (unfold field_bits; rewrite map_length, seq_length; lia).
    rewrite read_field_bits_ok by (auto; lia). cbn [bind]. rewrite (read_value_matches _ _ _ _ z) by (auto; lia).
    apply py_value_ok; auto; lia.
  - intros p bs data Hbs Hn0 Hu Hp Hok Hx M. apply g_dstring_ok; auto. rewrite Hu. reflexivity.
  - intros p bs data Hbs Hl Hp Hok Hx M. apply (g_dbytes_ok py_put false 63); auto; [lia|apply py_put_ok].
  - intros fb off bs data Hbs Hn0 Hf Ho Hok Hx M. f_equal. apply (dsize_string_match bs data fb off); auto.
  - intros fb off bs data Hbs Hl Hf Ho Hok Hx M. apply (g_sbytes_ok false py_put _ _ 63); auto; [lia|apply py_put_ok|].
    intros s Hs _. destruct (Z.leb_spec 63 s); [lia|reflexivity].
  - reflexivity.
  - reflexivity.
  - discriminate.
Qed.
