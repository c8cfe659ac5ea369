(** Statement blocks that several targets share: strings, byte strings and their lengths.
    The line numbers cited are those of the Python target; CTarget.v, JavaTarget.v and KtTarget.v cite
    their own copies.  Definitions first, then what they do. *)
From Coq Require Import ZArith List Bool Lia.
From Verif Require Import Base BaseProofs Schema SpecWire GoModel GoBitProofs GoEncProofs GoDecProofs GoRound
  TgtModel TgtEncProofs TgtDecProofs.
Import ListNotations.
Open Scope Z_scope.
Ltac Zify.zify_post_hook ::= Z.to_euclidean_division_equations.

(** Bulk copy of [src] to byte [p]: memoryview slice assignment, System.arraycopy, copyInto, Span.CopyTo
    and TypedArray.set raise if the destination is too short; memcpy is undefined. *)
Definition g_copy (buf : list Z) (p : Z) (src : list Z) : res (list Z) :=
  if (p <? 0) || (zlen buf <? p + zlen src) then Panic else copy_at buf p src.

(** "encodeNormalFieldString" (python.go:1106-1111): the bytes, then a zero byte. *)
Definition g_estring (pos : Z) (bs : list Z) (buf : list Z) : res (list Z * Z) :=
  do b1 <- g_copy buf pos bs;
  do b2 <- wr b1 (pos + zlen bs) 0;
  Ok (b2, zlen bs + 1).

(** "encodeNormalFieldBytes" (python.go:1113-1125): length in groups of seven bits, every byte with the
    top bit set, then the top bit of the last one cleared; then the bytes. *)
Definition g_ebytes (pos : Z) (bs : list Z) (buf : list Z) : res (list Z * Z) :=
  do (b1, p1) <- enc_varint 10 0 (zlen bs) pos buf;
  do last <- rd b1 (p1 - 1);
  do b2 <- wr b1 (p1 - 1) (Z.ldiff last 128);
  do b3 <- g_copy b2 p1 bs;
  Ok (b3, p1 + zlen bs - pos).

(** "size += len; size += 1 + bool(len >> 7) + bool(len >> 14) + ..." (python.go:943-985), [k] terms. *)
Fixpoint shifts_sum (k : nat) (j len : Z) : Z :=
  match k with
  | O => 0
  | S k' => (if Z.shiftr len (7 * j) =? 0 then 0 else 1) + shifts_sum k' (j + 1) len
  end.
Definition g_bsize (k : nat) (bs : list Z) : Z := zlen bs + (1 + shifts_sum k 1 (zlen bs)).

(** The loop reading a length, byte by byte: [bad shift] tells that the code gives up at this shift, and
    [put acc p shift] is the new value of the length variable.  [early]: it gives up before looking whether
    there is another byte. *)
Fixpoint g_scan (early : bool) (put : Z -> Z -> Z -> res Z) (bad : Z -> bool) (rest : list Z) (shift acc cnt : Z) : res vscan :=
  if early && bad shift then Ok VBad
  else
    match rest with
    | [] => Ok (VMore cnt)
    | b :: t =>
        if bad shift then Ok VBad
        else
          do acc' <- put acc (Z.land b 127) shift;
          if Z.land b 128 =? 0 then Ok (VDone acc' (cnt + 1))
          else g_scan early put bad t (shift + 7) acc' (cnt + 1)
    end.

(** decodeSize of a byte string (python.go:1708-1731).  [wrap] is the arithmetic of the end position. *)
Definition g_sbytes (early : bool) (put : Z -> Z -> Z -> res Z) (bad : Z -> bool) (wrap : Z -> Z) (data : list Z) (fb off : Z)
  : res dstep :=
  do s <- g_scan early put bad (skipn (Z.to_nat (off + fb)) data) 0 0 0;
  Ok match s with
     | VMore cnt => DRet (- (off + cnt + fb + 1))
     | VBad => DRet (-1)
     | VDone v cnt =>
         let e := wrap (off + cnt + fb + v) in
         if zlen data <? e then DRet (- e) else DOff (wrap (off + cnt + v))
     end.

(** Decoding a byte string (python.go:1887-1902): the length without any check, then the bytes.
    [strict]: taking a slice that is not inside the data raises or is undefined (Python: it is cut). *)
Definition g_dbytes (put : Z -> Z -> Z -> res Z) (strict : bool) (pos : Z) (data : list Z) : res (list Z * Z) :=
  do s <- g_scan false put (fun _ => false) (skipn (Z.to_nat pos) data) 0 0 0;
  match s with
  | VDone v cnt =>
      if strict && ((v <? 0) || (zlen data <? pos + cnt + v)) then Panic
      else Ok (firstn (Z.to_nat v) (skipn (Z.to_nat (pos + cnt)) data), cnt + v)
  | _ => Panic
  end.

(** Decoding a string (python.go:1879-1885): the bytes up to the next zero, converted by [conv]. *)
Definition g_dstring (conv : list Z -> res (list Z)) (pos : Z) (data : list Z) : res (list Z * Z) :=
  match str_scan (skipn (Z.to_nat pos) data) 0 with
  | inr _ => Panic
  | inl l => do s <- conv (firstn (Z.to_nat l) (skipn (Z.to_nat pos) data)); Ok (s, l + 1)
  end.

(** ** UTF-8, for the targets whose strings are not byte strings: the well-formed byte sequences of
    RFC 3629, section 4 (also the Unicode standard, table 3-7). *)
Definition utf8_tail (b : Z) : bool := (128 <=? b) && (b <=? 191).
Fixpoint utf8_ok (l : list Z) : bool :=
  match l with
  | [] => true
  | b :: r =>
      if b <=? 127 then (0 <=? b) && utf8_ok r
      else
        match r with
        | [] => false
        | c :: r2 =>
            if (194 <=? b) && (b <=? 223) then utf8_tail c && utf8_ok r2
            else
              match r2 with
              | [] => false
              | d :: r3 =>
                  if (224 <=? b) && (b <=? 239) then
                    utf8_tail c && utf8_tail d && (if b =? 224 then 160 <=? c else true)
                    && (if b =? 237 then c <=? 159 else true) && utf8_ok r3
                  else
                    match r3 with
                    | [] => false
                    | e :: r4 =>
                        (240 <=? b) && (b <=? 244) && utf8_tail c && utf8_tail d && utf8_tail e
                        && (if b =? 240 then 144 <=? c else true) && (if b =? 244 then c <=? 143 else true)
                        && utf8_ok r4
                    end
              end
        end
  end.

(** ** What the blocks do. *)
Lemma g_copy_in buf p src : 0 <= p -> p + zlen src <= zlen buf -> g_copy buf p src = copy_at buf p src.
Proof.
  intros. unfold g_copy. destruct (Z.ltb_spec p 0); [lia|]. destruct (Z.ltb_spec (zlen buf) (p + zlen src)); [lia|]. reflexivity.
Qed.

Lemma g_estring_ok p bs buf : bytes_ok bs -> 0 <= p -> bytes_ok buf -> p + zlen bs + 1 <= zlen buf ->
  exists b, g_estring p bs buf = Ok (b, zlen bs + 1) /\ overlay buf (8 * p) (raw_bytes (bs ++ [0])) b.
Proof.
  intros Hb Hp Ho Hl. pose proof (zlen_nonneg bs).
  destruct (enc_string_overlay 0 bs p buf) as (b & E & O); auto; try lia.
  exists b. unfold g_estring, enc_string in *. rewrite g_copy_in by lia.
  rewrite Z.add_0_r in *. destruct (copy_at buf p bs); cbn [bind] in *; try discriminate.
  destruct (wr a (p + zlen bs) 0); cbn [bind] in *; try discriminate. inversion E; subst. split; [|auto]. reflexivity.
Qed.

Lemma enc_varint_len fuel : forall fb n off buf b o, enc_varint fuel fb n off buf = Ok (b, o) -> zlen b = zlen buf.
Proof.
  induction fuel; intros fb n off buf b o E; cbn [enc_varint] in E; [discriminate|].
  destruct (wr buf (off + fb) (Z.lor (Z.land n 127) 128)) as [b1| |] eqn:E1; cbn [bind] in E; try discriminate.
  assert (L : zlen b1 = zlen buf).
  { unfold wr in E1. destruct ((off + fb <? 0) || (zlen buf <=? off + fb)); try discriminate. inversion E1; subst.
    unfold zlen. rewrite upd_nat_length. reflexivity. }
  destruct (Z.shiftr n 7 =? 0).
  - inversion E; subst; auto.
  - rewrite <- L. eapply IHfuel; eauto.
Qed.

Lemma g_ebytes_ok p bs buf : bytes_ok bs -> zlen bs < 2 ^ 63 -> 0 <= p -> bytes_ok buf ->
  p + zlen (varint (zlen bs) ++ bs) <= zlen buf ->
  exists b, g_ebytes p bs buf = Ok (b, bytes_size bs) /\ overlay buf (8 * p) (raw_bytes (varint (zlen bs) ++ bs)) b.
Proof.
  intros Hb Hl Hp Ho Hs. pose proof (zlen_nonneg bs).
  destruct (enc_bytes_overlay 0 bs p buf) as (b & E & O); auto; try lia.
  rewrite Z.add_0_r in O. exists b. split; [|auto]. unfold g_ebytes, enc_bytes in *.
  destruct (enc_varint 10 0 (zlen bs) p buf) as [(b1, o1)| |] eqn:Ev; cbn [bind] in *; try discriminate.
  rewrite !Z.add_0_r in *. destruct (rd b1 (o1 - 1)); cbn [bind] in *; try discriminate.
  destruct (wr b1 (o1 - 1) (Z.ldiff a 128)) as [b2| |] eqn:E2; cbn [bind] in *; try discriminate.
  assert (L2 : zlen b2 = zlen b1).
  { unfold wr in E2. destruct ((o1 - 1 <? 0) || (zlen b1 <=? o1 - 1)); try discriminate. inversion E2; subst.
    unfold zlen. rewrite upd_nat_length. reflexivity. }
  pose proof (enc_varint_len _ _ _ _ _ _ _ Ev) as L1.
  assert (Ho1 : o1 = p + bytes_size bs - zlen bs).
  { destruct (copy_at b2 o1 bs); cbn [bind] in E; try discriminate. inversion E. lia. }
  pose proof (zlen_nonneg (varint (zlen bs))). rewrite bytes_size_ok in *. rewrite zlen_app in *.
  rewrite g_copy_in by lia. destruct (copy_at b2 o1 bs); cbn [bind] in *; try discriminate.
  inversion E; subst. do 2 f_equal. lia.
Qed.

Lemma shifts_sum_varint k : forall f len j, 0 <= j -> 0 <= len -> (k <= f)%nat -> Z.shiftr len (7 * j) < 2 ^ (7 * (Z.of_nat k + 1)) ->
  zlen (varint_fuel f (Z.shiftr len (7 * j))) = 1 + shifts_sum k (j + 1) len.
Proof.
  induction k; intros f len j Hj Hlen Hf H; cbn [shifts_sum].
  - change (7 * (Z.of_nat 0 + 1)) with 7 in H. change (2 ^ 7) with 128 in H.
    destruct f; cbn [varint_fuel]; [reflexivity|]. destruct (Z.ltb_spec (Z.shiftr len (7 * j)) 128); [reflexivity|lia].
  - assert (H0 : 0 <= Z.shiftr len (7 * j)) by (apply Z.shiftr_nonneg; lia).
    assert (E : Z.shiftr len (7 * (j + 1)) = Z.shiftr len (7 * j) / 128).
    { replace (7 * (j + 1)) with (7 * j + 7) by lia. rewrite <- Z.shiftr_shiftr, (Z.shiftr_div_pow2 _ 7) by lia. reflexivity. }
    destruct f; [lia|]. cbn [varint_fuel].
    destruct (Z.ltb_spec (Z.shiftr len (7 * j)) 128).
    + rewrite E. replace (Z.shiftr len (7 * j) / 128) with 0 by lia. cbn [Z.eqb].
      assert (Z0 : forall k j', j + 1 <= j' -> shifts_sum k j' len = 0).
      { clear - E H1 H0 Hj Hlen. induction k as [|k' IH]; intros j' Hj'; cbn [shifts_sum]; auto.
        rewrite IH by lia. assert (Z.shiftr len (7 * j') = 0); [|rewrite H; reflexivity].
        replace (7 * j') with (7 * j + 7 * (j' - j)) by lia. rewrite <- Z.shiftr_shiftr by lia.
        rewrite Z.shiftr_div_pow2 by lia. apply Z.div_small. split; auto.
        apply Z.lt_le_trans with (2 ^ 7); [exact H1|]. apply Z.pow_le_mono_r; lia. }
      rewrite Z0 by lia. reflexivity.
    + rewrite zlen_cons, <- E. rewrite IHk; try lia.
      * rewrite E. destruct (Z.eqb_spec (Z.shiftr len (7 * j) / 128) 0); lia.
      * rewrite E. apply Z.div_lt_upper_bound; [lia|]. replace 128 with (2 ^ 7) by reflexivity. rewrite <- Z.pow_add_r by lia.
        replace (7 + 7 * (Z.of_nat k + 1)) with (7 * (Z.of_nat (S k) + 1)) by lia. exact H.
Qed.

Lemma g_bsize_ok k bs : (k <= 10)%nat -> zlen bs < 2 ^ (7 * (Z.of_nat k + 1)) -> g_bsize k bs = bytes_size bs.
Proof.
  intros Hk H. rewrite bytes_size_ok, zlen_app. unfold g_bsize, varint.
  pose proof (shifts_sum_varint k 10 (zlen bs) 0) as E. change (7 * 0) with 0 in E. rewrite Z.shiftr_0_r in E.
  rewrite E by (auto using zlen_nonneg; lia). change (0 + 1) with 1. lia.
Qed.

(** [put] adds the next group below 2^K, and the code does not give up below K. *)
Definition put_ok (put : Z -> Z -> Z -> res Z) (K : Z) : Prop :=
  forall acc p s, 0 <= s < K -> 0 <= acc < 2 ^ s -> 0 <= p < 128 -> acc + p * 2 ^ s < 2 ^ K ->
    put acc p s = Ok (acc + p * 2 ^ s).
Definition bad_ok (bad : Z -> bool) (K : Z) : Prop := forall s, 0 <= s < K -> s mod 7 = 0 -> bad s = false.

Lemma g_scan_varint early put bad K : 0 < K -> put_ok put K -> bad_ok bad K ->
  forall f n cnt acc t, 0 <= n -> 0 <= cnt -> 0 <= acc < 2 ^ (7 * cnt) -> acc + n * 2 ^ (7 * cnt) < 2 ^ K ->
  (1 <= n \/ cnt = 0) -> K <= 7 * (cnt + Z.of_nat f) -> 
  g_scan early put bad (varint_fuel f n ++ t) (7 * cnt) acc cnt =
    Ok (VDone (acc + n * 2 ^ (7 * cnt)) (cnt + zlen (varint_fuel f n))).
Proof.
  intros HK Hput Hbad. induction f; intros n cnt acc t Hn Hc Ha Hv Hc0 Hf.
  - exfalso. pose proof (pow2_pos (7 * cnt) ltac:(lia)). destruct Hc0; [|lia].
    assert (2 ^ K <= 2 ^ (7 * cnt)) by (apply Z.pow_le_mono_r; lia). nia.
  - pose proof (pow2_pos (7 * cnt) ltac:(lia)) as Hpp.
    assert (H7 : 7 * cnt < K).
    { destruct Hc0; [|lia]. destruct (Z.lt_ge_cases (7 * cnt) K); auto.
      assert (2 ^ K <= 2 ^ (7 * cnt)) by (apply Z.pow_le_mono_r; lia). nia. }
    cbn [varint_fuel]. destruct (Z.ltb_spec n 128).
    + cbn [app g_scan]. rewrite !Hbad, andb_false_r, land127 by lia.
      replace (n mod 128) with n by lia. rewrite Hput by lia. cbn [bind].
      rewrite land128 by lia. destruct (Z.ltb_spec n 128); [|lia]. rewrite zlen_one. reflexivity.
    + cbn [app g_scan]. rewrite !Hbad, andb_false_r, land127 by lia.
      assert (Hdm : n = 128 * (n / 128) + n mod 128) by lia.
      assert (Hnd : 1 <= n / 128) by lia.
      assert (Hm : 0 <= n mod 128 < 128) by lia.
      replace ((n mod 128 + 128) mod 128) with (n mod 128) by lia.
      rewrite Hput by (try lia; nia). cbn [bind].
      rewrite land128 by lia. destruct (Z.ltb_spec (n mod 128 + 128) 128); [lia|].
      set (q := n / 128) in *. set (r := n mod 128) in *.
      assert (E7 : 2 ^ (7 * (cnt + 1)) = 128 * 2 ^ (7 * cnt)).
      { replace (7 * (cnt + 1)) with (7 + 7 * cnt) by lia. rewrite Z.pow_add_r by lia. reflexivity. }
      replace (7 * cnt + 7) with (7 * (cnt + 1)) by lia.
      rewrite IHf; try lia; try (rewrite E7; nia).
      do 2 f_equal; [rewrite E7; nia|rewrite zlen_cons; lia].
Qed.

Lemma g_scan_len early put bad K n t : 0 < K <= 63 -> put_ok put K -> bad_ok bad K -> 0 <= n < 2 ^ K ->
  g_scan early put bad (varint n ++ t) 0 0 0 = Ok (VDone n (zlen (varint n))).
Proof.
  intros HK Hp Hb Hn. unfold varint. pose proof (g_scan_varint early put bad K ltac:(lia) Hp Hb 10 n 0 0 t) as V.
  change (7 * 0) with 0 in V. change (2 ^ 0) with 1 in V. rewrite V by lia. do 2 f_equal; lia.
Qed.

Lemma bytes_at p bs data : bytes_ok data -> bytes_ok bs -> zlen bs < 2 ^ 63 -> 0 <= p ->
  matches data (8 * p) (raw_bytes (varint (zlen bs) ++ bs)) ->
  p + bytes_size bs <= zlen data /\
  exists t, skipn (Z.to_nat p) data = varint (zlen bs) ++ bs ++ t /\
    skipn (Z.to_nat (p + zlen (varint (zlen bs)))) data = bs ++ t.
Proof.
  intros Hd Hb Hl Hp M. pose proof (zlen_nonneg bs). pose proof (zlen_nonneg (varint (zlen bs))).
  pose proof M as (L & _). rewrite zlen_raw_bytes in L. rewrite bytes_size_ok. split; [lia|].
  apply matches_raw in M; auto; [|apply bytes_ok_app; split; [apply varint_ok; lia|auto]].
  destruct M as (t & E). rewrite <- app_assoc in E. exists t. split; auto.
  replace (Z.to_nat (p + zlen (varint (zlen bs)))) with (length (varint (zlen bs)) + Z.to_nat p)%nat by (unfold zlen in *; lia).
  rewrite Nat.add_comm, <- skipn_skipn, E. apply skipn_app_len.
Qed.

Lemma g_sbytes_ok early put bad wrap K fb off bs data : 0 < K <= 63 -> put_ok put K -> bad_ok bad K ->
  (forall x, 0 <= x < 2 ^ K -> wrap x = x) ->
  bytes_ok data -> zlen data < 2 ^ K -> bytes_ok bs -> zlen bs < 2 ^ 63 -> 0 <= off -> 0 <= fb ->
  matches data (8 * (off + fb)) (raw_bytes (varint (zlen bs) ++ bs)) ->
  g_sbytes early put bad wrap data fb off = Ok (DOff (off + bytes_size bs)).
Proof.
  intros HK Hp Hbd Hw Hd Hx Hb Hl Ho Hf M. pose proof (zlen_nonneg bs). pose proof (zlen_nonneg (varint (zlen bs))).
  destruct (bytes_at (off + fb) bs data) as (L & t & E & _); auto; try lia.
  rewrite bytes_size_ok, zlen_app in *. unfold g_sbytes. rewrite E.
  rewrite (g_scan_len early put bad K) by (auto; lia). cbn [bind]. rewrite !Hw by lia.
  destruct (Z.ltb_spec (zlen data) (off + zlen (varint (zlen bs)) + fb + zlen bs)); [lia|]. do 2 f_equal. lia.
Qed.

Lemma g_dbytes_ok put strict K p bs data : 0 < K <= 63 -> put_ok put K ->
  bytes_ok data -> zlen data < 2 ^ K -> bytes_ok bs -> zlen bs < 2 ^ 63 -> 0 <= p ->
  matches data (8 * p) (raw_bytes (varint (zlen bs) ++ bs)) ->
  g_dbytes put strict p data = Ok (bs, bytes_size bs).
Proof.
  intros HK Hp Hd Hx Hb Hl Ho M. pose proof (zlen_nonneg bs). pose proof (zlen_nonneg (varint (zlen bs))).
  destruct (bytes_at p bs data) as (L & t & E & E2); auto; try lia.
  rewrite bytes_size_ok, zlen_app in *. unfold g_dbytes. rewrite E.
  rewrite (g_scan_len false put _ K) by (auto; unfold bad_ok; auto; lia). cbn [bind].
  destruct (Z.ltb_spec (zlen bs) 0); [lia|].
  destruct (Z.ltb_spec (zlen data) (p + zlen (varint (zlen bs)) + zlen bs)); [lia|]. rewrite andb_false_r.
  rewrite E2. replace (Z.to_nat (zlen bs)) with (length bs) by (unfold zlen; lia). rewrite firstn_app_len. reflexivity.
Qed.

Lemma g_dstring_ok conv p bs data : bytes_ok data -> bytes_ok bs -> ~ In 0 bs -> 0 <= p ->
  conv bs = Ok bs -> matches data (8 * p) (raw_bytes (bs ++ [0])) -> g_dstring conv p data = Ok (bs, zlen bs + 1).
Proof.
  intros Hd Hb Hn Hp Hc M.
  apply matches_raw in M; auto; [|apply bytes_ok_app; split; [auto|constructor; [lia|constructor]]].
  destruct M as (t & E). rewrite <- app_assoc in E. cbn [app] in E. unfold g_dstring. rewrite E, str_scan_found by auto.
  change (0 + zlen bs) with (zlen bs). replace (Z.to_nat (zlen bs)) with (length bs) by (unfold zlen; lia).
  rewrite firstn_app_len, Hc. reflexivity.
Qed.

(** Sign extension by xor and subtraction on unbounded integers. *)
Lemma xor_sub_sext n p : 1 <= n -> 0 <= p < 2 ^ n -> Z.lxor p (Z.shiftl 1 (n - 1)) - Z.shiftl 1 (n - 1) = sext n p.
Proof.
  intros Hn Hp. rewrite <- (sx_arith_ok (n + 2) n p) by lia. unfold sx_arith.
  pose proof (pow2_pos (n - 1) ltac:(lia)).
  assert (E2 : 2 ^ n = 2 * 2 ^ (n - 1)) by (rewrite <- Z.pow_succ_r by lia; f_equal; lia).
  assert (E3 : 2 ^ (n + 1) = 2 * 2 ^ n) by (rewrite <- Z.pow_succ_r by lia; f_equal; lia).
  rewrite Z.shiftl_1_l.
  assert (B : 0 <= Z.lxor p (2 ^ (n - 1)) < 2 ^ n).
  { split; [apply Z.lxor_nonneg; lia|].
    destruct (Z.eq_dec (Z.lxor p (2 ^ (n - 1))) 0) as [->|]; [lia|].
    apply Z.log2_lt_pow2; [pose proof (proj2 (Z.lxor_nonneg p (2 ^ (n - 1)))); lia|].
    apply Z.le_lt_trans with (Z.max (Z.log2 p) (Z.log2 (2 ^ (n - 1)))); [apply Z.log2_lxor; lia|].
    rewrite Z.log2_pow2 by lia. destruct (Z.eq_dec p 0); [subst; cbn; lia|].
    apply Z.max_lub_lt; [apply Z.log2_lt_pow2; lia|lia]. }
  rewrite (sext_id (n + 2) p) by (replace (n + 2 - 1) with (n + 1) by lia; lia).
  rewrite sext_id by (replace (n + 2 - 1) with (n + 1) by lia; lia). reflexivity.
Qed.
