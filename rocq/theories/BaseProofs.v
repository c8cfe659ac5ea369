(** Lemmas about [Base]: bits of buffers, overlay algebra. *)
From Coq Require Import ZArith List Lia Bool.
From Verif Require Import Base.
Import ListNotations.
Open Scope Z_scope.

Lemma zlen_nonneg {A} (l : list A) : 0 <= zlen l.
Proof. unfold zlen; lia. Qed.

Lemma zlen_app {A} (l m : list A) : zlen (l ++ m) = zlen l + zlen m.
Proof. unfold zlen; rewrite app_length; lia. Qed.

Lemma zlen_cons {A} (a : A) (l : list A) : zlen (a :: l) = 1 + zlen l.
Proof. unfold zlen; cbn [length]; lia. Qed.

Lemma zlen_nil {A} : zlen (@nil A) = 0.
Proof. reflexivity. Qed.

Lemma zlen_one {A} (a : A) : zlen [a] = 1.
Proof. reflexivity. Qed.

Lemma zlen_map {A B} (f : A -> B) l : zlen (map f l) = zlen l.
Proof. unfold zlen; now rewrite map_length. Qed.

Lemma zlen_skipn {A} (l : list A) k : zlen (skipn k l) = Z.max 0 (zlen l - Z.of_nat k).
Proof. unfold zlen; rewrite skipn_length; lia. Qed.

Lemma zlen_firstn {A} (l : list A) k : zlen (firstn k l) = Z.min (Z.of_nat k) (zlen l).
Proof. unfold zlen; rewrite firstn_length; lia. Qed.

Lemma zlen_repeat {A} (a : A) k : zlen (repeat a k) = Z.of_nat k.
Proof. unfold zlen; now rewrite repeat_length. Qed.

(** ** onth *)
Lemma onth_None {A} (l : list A) i : (i < 0 \/ zlen l <= i) -> onth l i = None.
Proof.
  unfold onth, zlen; intros H.
  destruct (Z.ltb_spec i 0); auto. apply nth_error_None; lia.
Qed.

Lemma onth_Some {A} (l : list A) i a : onth l i = Some a -> 0 <= i < zlen l.
Proof.
  unfold onth, zlen; destruct (Z.ltb_spec i 0); [discriminate|].
  intros Hn. assert (nth_error l (Z.to_nat i) <> None) as Hn' by congruence.
  apply nth_error_Some in Hn'. lia.
Qed.

Lemma onth_app {A} (l m : list A) i :
  onth (l ++ m) i = if i <? zlen l then onth l i else onth m (i - zlen l).
Proof.
  unfold onth, zlen.
  destruct (Z.ltb_spec i 0).
  - destruct (Z.ltb_spec i (Z.of_nat (length l))); [reflexivity|lia].
  - destruct (Z.ltb_spec i (Z.of_nat (length l))).
    + rewrite nth_error_app1 by lia. reflexivity.
    + destruct (Z.ltb_spec (i - Z.of_nat (length l)) 0); [lia|].
      rewrite nth_error_app2 by lia. f_equal; lia.
Qed.

Lemma onth_map {A B} (f : A -> B) l i : onth (map f l) i = option_map f (onth l i).
Proof.
  unfold onth. destruct (i <? 0); [reflexivity|]. rewrite nth_error_map. reflexivity.
Qed.

Lemma onth_seq s n i : 0 <= i < Z.of_nat n -> onth (seq s n) i = Some (s + Z.to_nat i)%nat.
Proof.
  intros H. unfold onth. destruct (Z.ltb_spec i 0); [lia|].
  rewrite nth_error_nth' with (d := 0%nat) by (rewrite seq_length; lia).
  rewrite seq_nth by lia. reflexivity.
Qed.

Lemma onth_repeat {A} (a : A) n i : 0 <= i < Z.of_nat n -> onth (repeat a n) i = Some a.
Proof.
  intros H. unfold onth. destruct (Z.ltb_spec i 0); [lia|].
  rewrite nth_error_repeat; auto; lia.
Qed.

Lemma onth_in_range {A} (l : list A) i : 0 <= i < zlen l -> exists a, onth l i = Some a.
Proof.
  unfold onth, zlen; intros H. destruct (Z.ltb_spec i 0); [lia|].
  destruct (nth_error l (Z.to_nat i)) eqn:E; eauto.
  apply nth_error_None in E; lia.
Qed.

(** ** upd / rd / wr *)
Lemma upd_nat_length buf i b : length (upd_nat buf i b) = length buf.
Proof. revert i; induction buf; destruct i; cbn; auto. Qed.

Lemma upd_nat_nth buf i b j d :
  nth j (upd_nat buf i b) d = if (j =? i)%nat && (i <? length buf)%nat then b else nth j buf d.
Proof.
  revert i j; induction buf as [|h t IH]; intros i j; cbn.
  - rewrite andb_false_r. destruct j; reflexivity.
  - destruct i, j; cbn; auto. rewrite IH. reflexivity.
Qed.

Lemma bytes_ok_nth l i : bytes_ok l -> 0 <= nth i l 0 < 256.
Proof.
  intros H. destruct (nth_in_or_default i l 0) as [Hi|Hi].
  - unfold bytes_ok in H. rewrite Forall_forall in H. apply H; auto.
  - rewrite Hi; lia.
Qed.

Lemma upd_nat_bytes_ok buf i b : bytes_ok buf -> 0 <= b < 256 -> bytes_ok (upd_nat buf i b).
Proof.
  unfold bytes_ok; intros H Hb; revert i; induction H; intros i; cbn; auto.
  destruct i; constructor; auto.
Qed.

Lemma rd_ok buf i : 0 <= i < zlen buf -> rd buf i = Ok (nth (Z.to_nat i) buf 0).
Proof.
  unfold rd, zlen; intros H. destruct (Z.ltb_spec i 0); [lia|].
  rewrite nth_error_nth' with (d := 0) by lia. reflexivity.
Qed.

Lemma rd_inv buf i b : rd buf i = Ok b -> 0 <= i < zlen buf /\ b = nth (Z.to_nat i) buf 0.
Proof.
  unfold rd, zlen. destruct (Z.ltb_spec i 0); [discriminate|].
  destruct (nth_error buf (Z.to_nat i)) eqn:E; [|discriminate].
  intros [= <-]. split.
  - assert (nth_error buf (Z.to_nat i) <> None) as Hn' by congruence.
    apply nth_error_Some in Hn'. lia.
  - erewrite nth_error_nth; eauto.
Qed.

Lemma wr_ok buf i b : 0 <= i < zlen buf -> wr buf i b = Ok (upd_nat buf (Z.to_nat i) b).
Proof.
  unfold wr; intros H. destruct (Z.ltb_spec i 0); [lia|].
  destruct (Z.leb_spec (zlen buf) i); [lia|]. reflexivity.
Qed.

(** ** bits *)
Lemma testbit_high_byte b k : 0 <= b < 256 -> 8 <= k -> Z.testbit b k = false.
Proof.
  intros Hb Hk. destruct (Z.eq_dec b 0) as [->|]; [apply Z.testbit_0_l|].
  apply Z.bits_above_log2; [lia|].
  assert (Z.log2 b < 8); [|lia]. apply Z.log2_lt_pow2; lia.
Qed.

Lemma byte_ext a b : 0 <= a < 256 -> 0 <= b < 256 ->
  (forall k, 0 <= k < 8 -> Z.testbit a k = Z.testbit b k) -> a = b.
Proof.
  intros Ha Hb H. apply Z.bits_inj'. intros k Hk.
  destruct (Z_lt_dec k 8); [apply H; lia|].
  rewrite !testbit_high_byte by lia. reflexivity.
Qed.

Lemma pow2_pos n : 0 <= n -> 0 < 2 ^ n.
Proof. intros; apply Z.pow_pos_nonneg; lia. Qed.

Lemma testbit_above z n k : 0 <= n -> 0 <= z < 2 ^ n -> n <= k -> Z.testbit z k = false.
Proof.
  intros Hn Hz Hk. destruct (Z.eq_dec z 0) as [->|]; [apply Z.testbit_0_l|].
  apply Z.bits_above_log2; [lia|].
  assert (Z.log2 z < n); [|lia]. apply Z.log2_lt_pow2; lia.
Qed.

Lemma bits_bound z n : 0 <= n -> 0 <= z -> (forall k, n <= k -> Z.testbit z k = false) ->
  z < 2 ^ n.
Proof.
  intros Hn Hz H. destruct (Z.eq_dec z 0) as [->|]; [apply pow2_pos; lia|].
  apply Z.log2_lt_pow2; [lia|].
  destruct (Z_lt_dec (Z.log2 z) n); auto.
  specialize (H (Z.log2 z) ltac:(lia)). rewrite Z.bit_log2 in H by lia. discriminate.
Qed.

Lemma testbit_mod z n k : 0 <= n -> 0 <= k ->
  Z.testbit (z mod 2 ^ n) k = if k <? n then Z.testbit z k else false.
Proof.
  intros Hn Hk. destruct (Z.ltb_spec k n).
  - now rewrite Z.mod_pow2_bits_low by lia.
  - now rewrite Z.mod_pow2_bits_high by lia.
Qed.

Lemma testbit_ones n k : 0 <= n -> 0 <= k ->
  Z.testbit (2 ^ n - 1) k = (k <? n).
Proof.
  intros Hn Hk. replace (2 ^ n - 1) with (Z.ones n) by (rewrite Z.ones_equiv; lia).
  destruct (Z.ltb_spec k n).
  - now rewrite Z.ones_spec_low by lia.
  - now rewrite Z.ones_spec_high by lia.
Qed.

Lemma buf_ext a b : length a = length b -> bytes_ok a -> bytes_ok b ->
  (forall k, 0 <= k < 8 * zlen a -> bitat a k = bitat b k) -> a = b.
Proof.
  intros Hl Ha Hb H. apply nth_ext with (d := 0) (d' := 0); auto.
  intros n Hn. apply byte_ext; auto using bytes_ok_nth.
  intros k Hk. specialize (H (8 * Z.of_nat n + k) ltac:(unfold zlen; lia)).
  unfold bitat in H. replace ((8 * Z.of_nat n + k) / 8) with (Z.of_nat n) in H by lia.
  replace ((8 * Z.of_nat n + k) mod 8) with k in H by lia.
  rewrite Nat2Z.id in H. exact H.
Qed.

(** An overlay determines its result. *)
Lemma overlay_fun buf pos img b1 b2 :
  overlay buf pos img b1 -> overlay buf pos img b2 -> b1 = b2.
Proof.
  intros (L1 & O1 & H1) (L2 & O2 & H2).
  apply buf_ext; auto; [congruence|].
  intros k Hk. unfold zlen in Hk. rewrite L1 in Hk.
  rewrite H1, H2 by (unfold zlen; lia). reflexivity.
Qed.

Lemma overlay_nil buf pos : bytes_ok buf -> overlay buf pos [] buf.
Proof.
  intros H. repeat split; auto. intros k Hk.
  unfold onth. destruct (k - pos <? 0); [reflexivity|].
  destruct (Z.to_nat (k - pos)); reflexivity.
Qed.

Lemma overlay_none buf pos n : bytes_ok buf -> overlay buf pos (repeat None n) buf.
Proof.
  intros H. repeat split; auto. intros k Hk.
  destruct (onth (repeat None n) (k - pos)) as [o|] eqn:E; [|reflexivity].
  pose proof (onth_Some _ _ _ E) as Hr. rewrite zlen_repeat in Hr.
  rewrite onth_repeat in E by lia. injection E as <-. reflexivity.
Qed.

Lemma overlay_length buf pos img b : overlay buf pos img b -> zlen b = zlen buf.
Proof. intros (L & _). unfold zlen; lia. Qed.

Lemma overlay_bytes buf pos img b : overlay buf pos img b -> bytes_ok b.
Proof. now intros (_ & O & _). Qed.

Lemma overlay_app buf pos i1 i2 b1 b2 :
  overlay buf pos i1 b1 -> overlay b1 (pos + zlen i1) i2 b2 ->
  overlay buf pos (i1 ++ i2) b2.
Proof.
  intros (L1 & O1 & H1) (L2 & O2 & H2). split; [congruence|]. split; auto.
  intros k Hk.
  rewrite H2 by (unfold zlen; rewrite L1; exact Hk).
  rewrite H1 by exact Hk.
  rewrite onth_app. replace (k - (pos + zlen i1)) with (k - pos - zlen i1) by lia.
  destruct (Z.ltb_spec (k - pos) (zlen i1)).
  - rewrite (onth_None i2) by lia. reflexivity.
  - rewrite (onth_None i1) by lia. reflexivity.
Qed.

Lemma bitat_skipn p buf k : 0 <= k -> bitat (skipn p buf) k = bitat buf (8 * Z.of_nat p + k).
Proof.
  intros Hk. unfold bitat.
  replace ((8 * Z.of_nat p + k) / 8) with (Z.of_nat p + k / 8) by lia.
  replace ((8 * Z.of_nat p + k) mod 8) with (k mod 8) by lia.
  replace (Z.to_nat (Z.of_nat p + k / 8)) with (p + Z.to_nat (k / 8))%nat by lia.
  f_equal. generalize (Z.to_nat (k / 8)); intros j.
  revert buf; induction p; intros buf; cbn; auto.
  destruct buf; cbn; auto. destruct j; reflexivity.
Qed.

Lemma bitat_app a b k : 0 <= k ->
  bitat (a ++ b) k = if k <? 8 * zlen a then bitat a k else bitat b (k - 8 * zlen a).
Proof.
  intros Hk. unfold bitat, zlen. destruct (Z.ltb_spec k (8 * Z.of_nat (length a))).
  - rewrite app_nth1 by lia. reflexivity.
  - rewrite app_nth2 by lia.
    replace ((k - 8 * Z.of_nat (length a)) / 8) with (k / 8 - Z.of_nat (length a)) by lia.
    replace ((k - 8 * Z.of_nat (length a)) mod 8) with (k mod 8) by lia.
    f_equal. f_equal. lia.
Qed.

Lemma bytes_ok_app a b : bytes_ok (a ++ b) <-> bytes_ok a /\ bytes_ok b.
Proof. unfold bytes_ok. apply Forall_app. Qed.

Lemma bytes_ok_skipn p l : bytes_ok l -> bytes_ok (skipn p l).
Proof. intros H. rewrite <- (firstn_skipn p l) in H. apply bytes_ok_app in H. tauto. Qed.

Lemma bytes_ok_firstn p l : bytes_ok l -> bytes_ok (firstn p l).
Proof. intros H. rewrite <- (firstn_skipn p l) in H. apply bytes_ok_app in H. tauto. Qed.

Lemma bitat_firstn p buf k : 0 <= k < 8 * Z.of_nat p ->
  bitat (firstn p buf) k = bitat buf k.
Proof.
  intros Hk. rewrite <- (firstn_skipn p buf) at 2.
  rewrite bitat_app by lia. destruct (Z.ltb_spec k (8 * zlen (firstn p buf))); auto.
  rewrite zlen_firstn in H.
  unfold bitat. rewrite (nth_overflow (firstn p buf)), (nth_overflow (skipn p buf)), !Z.testbit_0_l; auto.
  - rewrite skipn_length, zlen_firstn. unfold zlen in *. lia.
  - rewrite firstn_length. unfold zlen in *. lia.
Qed.

(** Overlay inside a sub-slice data[p:] is an overlay of the parent at 8p. *)
Lemma overlay_slice buf p img sub :
  (p <= length buf)%nat -> bytes_ok buf ->
  overlay (skipn p buf) 0 img sub ->
  overlay buf (8 * Z.of_nat p) img (firstn p buf ++ sub).
Proof.
  intros Hp Hb (L & O & H). split; [|split].
  - rewrite app_length, L, firstn_length, skipn_length. lia.
  - apply bytes_ok_app. split; auto using bytes_ok_firstn.
  - intros k Hk. rewrite bitat_app by lia. rewrite zlen_firstn.
    replace (Z.min (Z.of_nat p) (zlen buf)) with (Z.of_nat p) by (unfold zlen; lia).
    destruct (Z.ltb_spec k (8 * Z.of_nat p)).
    + rewrite onth_None by lia. apply bitat_firstn; lia.
    + rewrite H by (rewrite zlen_skipn; lia).
      replace (k - 8 * Z.of_nat p - 0) with (k - 8 * Z.of_nat p) by lia.
      rewrite bitat_skipn by lia.
      replace (8 * Z.of_nat p + (k - 8 * Z.of_nat p)) with k by lia. reflexivity.
Qed.

(** ** matches *)
Lemma matches_app buf pos i1 i2 : 0 <= pos ->
  matches buf pos (i1 ++ i2) <->
  (matches buf pos i1 /\ matches buf (pos + zlen i1) i2).
Proof.
  intros Hpos. unfold matches. rewrite zlen_app.
  pose proof (zlen_nonneg i1); pose proof (zlen_nonneg i2).
  split.
  - intros (L & H1). split; split; try lia.
    + intros k b E. apply H1. rewrite onth_app.
      pose proof (onth_Some _ _ _ E). destruct (Z.ltb_spec k (zlen i1)); [auto|lia].
    + intros k b E. replace (pos + zlen i1 + k) with (pos + (zlen i1 + k)) by lia.
      apply H1. rewrite onth_app. pose proof (onth_Some _ _ _ E).
      destruct (Z.ltb_spec (zlen i1 + k) (zlen i1)); [lia|].
      replace (zlen i1 + k - zlen i1) with k by lia. auto.
  - intros ((L1 & H1) & (L2 & H2)). split; [lia|].
    intros k b E. rewrite onth_app in E. destruct (Z.ltb_spec k (zlen i1)).
    + auto.
    + specialize (H2 _ _ E). rewrite <- H2. f_equal. lia.
Qed.

Lemma matches_slice buf p img : (p <= length buf)%nat ->
  matches buf (8 * Z.of_nat p) img -> matches (skipn p buf) 0 img.
Proof.
  intros Hp (L & H). split.
  - rewrite zlen_skipn. lia.
  - intros k b E. pose proof (onth_Some _ _ _ E).
    rewrite bitat_skipn by lia. specialize (H _ _ E). rewrite <- H. f_equal.
Qed.

Lemma overlay_matches buf pos img b :
  0 <= pos -> pos + zlen img <= 8 * zlen buf ->
  overlay buf pos img b -> matches b pos img.
Proof.
  intros Hp Hl Hov. pose proof (overlay_length _ _ _ _ Hov) as HL.
  destruct Hov as (L & O & H). split; [lia|].
  intros k v E. pose proof (onth_Some _ _ _ E) as Hr.
  rewrite H by lia.
  replace (pos + k - pos) with k by lia. rewrite E. reflexivity.
Qed.

(** A later overlay at a disjoint, higher place keeps an earlier match. *)
Lemma matches_mono buf buf' pos img :
  zlen buf <= zlen buf' ->
  (forall k, pos <= k < pos + zlen img -> bitat buf' k = bitat buf k) ->
  matches buf pos img -> matches buf' pos img.
Proof.
  intros Hl Hk (L & H). split; [lia|]. intros k b E.
  pose proof (onth_Some _ _ _ E). rewrite Hk by lia. auto.
Qed.

(** ** of_bits *)
Lemma of_bits_bound n f : 0 <= of_bits n f < 2 ^ Z.of_nat n.
Proof.
  induction n; cbn [of_bits]; [cbn; lia|].
  replace (Z.of_nat (S n)) with (Z.of_nat n + 1) by lia.
  rewrite Z.pow_add_r by lia. destruct (f (Z.of_nat n)); lia.
Qed.

Lemma testbit_add_high a n k : 0 <= n -> 0 <= a < 2 ^ n -> 0 <= k ->
  Z.testbit (a + 2 ^ n) k = if k =? n then true else Z.testbit a k.
Proof.
  intros Hn Ha Hk.
  assert (E : a + 2 ^ n = Z.lor a (2 ^ n)).
  { rewrite <- Z.lxor_lor, <- Z.add_nocarry_lxor; auto;
      apply Z.bits_inj'; intros j Hj; rewrite Z.land_spec, Z.testbit_0_l;
      rewrite Z.pow2_bits_eqb by lia; destruct (Z.eqb_spec n j); subst;
      rewrite ?andb_false_r, ?andb_true_r; auto;
      apply testbit_above with (n := j); lia. }
  rewrite E, Z.lor_spec, Z.pow2_bits_eqb by lia.
  destruct (Z.eqb_spec k n), (Z.eqb_spec n k); subst; try lia;
    rewrite ?orb_true_r, ?orb_false_r; auto.
Qed.

Lemma of_bits_testbit n f k : 0 <= k ->
  Z.testbit (of_bits n f) k = if k <? Z.of_nat n then f k else false.
Proof.
  intros Hk. induction n; cbn [of_bits].
  - rewrite Z.testbit_0_l. destruct (Z.ltb_spec k (Z.of_nat 0)); [lia|reflexivity].
  - pose proof (of_bits_bound n f) as B.
    destruct (f (Z.of_nat n)) eqn:E.
    + rewrite testbit_add_high by lia. rewrite IHn.
      destruct (Z.eqb_spec k (Z.of_nat n)) as [->|].
      * destruct (Z.ltb_spec (Z.of_nat n) (Z.of_nat (S n))); [congruence|lia].
      * destruct (Z.ltb_spec k (Z.of_nat n)), (Z.ltb_spec k (Z.of_nat (S n))); try lia; auto.
    + rewrite Z.add_0_r, IHn.
      destruct (Z.ltb_spec k (Z.of_nat n)), (Z.ltb_spec k (Z.of_nat (S n))); try lia; auto.
      assert (k = Z.of_nat n) by lia. subst. congruence.
Qed.

Lemma of_bits_ext n f g : (forall k, 0 <= k < Z.of_nat n -> f k = g k) ->
  of_bits n f = of_bits n g.
Proof.
  induction n; cbn [of_bits]; intros H; [reflexivity|].
  rewrite IHn by (intros; apply H; lia). rewrite (H (Z.of_nat n)) by lia. reflexivity.
Qed.

Lemma of_bits_id n z : of_bits n (Z.testbit z) = z mod 2 ^ Z.of_nat n.
Proof.
  apply Z.bits_inj'. intros k Hk. rewrite of_bits_testbit, testbit_mod by lia. reflexivity.
Qed.

(** bits of bytes *)
Lemma zlen_bits_of_byte b : zlen (bits_of_byte b) = 8.
Proof. reflexivity. Qed.

Lemma onth_bits_of_byte b k : 0 <= k < 8 -> onth (bits_of_byte b) k = Some (Z.testbit b k).
Proof.
  intros H. unfold bits_of_byte. rewrite onth_map, onth_seq by lia. cbn.
  repeat f_equal. lia.
Qed.

Lemma zlen_bits_of_bytes l : zlen (bits_of_bytes l) = 8 * zlen l.
Proof.
  induction l; [reflexivity|]. unfold bits_of_bytes in *. cbn [flat_map].
  rewrite zlen_app, zlen_cons, IHl, zlen_bits_of_byte. lia.
Qed.

Lemma onth_bits_of_bytes l k : 0 <= k < 8 * zlen l ->
  onth (bits_of_bytes l) k = Some (bitat l k).
Proof.
  revert k; induction l as [|b l IH]; intros k Hk.
  - unfold zlen in Hk; cbn in Hk; lia.
  - rewrite zlen_cons in Hk. unfold bits_of_bytes in *; cbn [flat_map].
    rewrite onth_app, zlen_bits_of_byte. change (b :: l) with ([b] ++ l).
    rewrite bitat_app by lia. rewrite zlen_cons, zlen_nil.
    replace (8 * (1 + 0)) with 8 by lia.
    destruct (Z.ltb_spec k 8).
    + rewrite onth_bits_of_byte by lia. unfold bitat.
      replace (k / 8) with 0 by lia. replace (k mod 8) with k by lia. reflexivity.
    + apply IH; lia.
Qed.

(** sext *)
Lemma sext_range n z : 1 <= n -> - 2 ^ (n - 1) <= sext n z < 2 ^ (n - 1).
Proof.
  intros Hn. unfold sext.
  assert (2 ^ n = 2 * 2 ^ (n - 1)) by (rewrite <- Z.pow_succ_r by lia; f_equal; lia).
  pose proof (pow2_pos (n - 1) ltac:(lia)).
  pose proof (Z.mod_pos_bound z (2 ^ n) ltac:(lia)).
  destruct (Z.ltb_spec (z mod 2 ^ n) (2 ^ (n - 1))); lia.
Qed.

Lemma sext_id n z : 1 <= n -> - 2 ^ (n - 1) <= z < 2 ^ (n - 1) -> sext n z = z.
Proof.
  intros Hn Hz. unfold sext.
  assert (2 ^ n = 2 * 2 ^ (n - 1)) by (rewrite <- Z.pow_succ_r by lia; f_equal; lia).
  destruct (Z_lt_dec z 0).
  - assert (E : z mod 2 ^ n = z + 2 ^ n).
    { symmetry. apply Z.mod_unique with (q := -1); lia. }
    rewrite E. destruct (Z.ltb_spec (z + 2 ^ n) (2 ^ (n - 1))); lia.
  - rewrite Z.mod_small by lia. destruct (Z.ltb_spec z (2 ^ (n - 1))); lia.
Qed.

Lemma sext_congr n a b : a mod 2 ^ n = b mod 2 ^ n -> sext n a = sext n b.
Proof. intros H. unfold sext. rewrite H. reflexivity. Qed.

Lemma sext_mod n z : 1 <= n -> (sext n z) mod 2 ^ n = z mod 2 ^ n.
Proof.
  intros Hn. unfold sext. pose proof (pow2_pos n ltac:(lia)).
  destruct (Z.ltb_spec (z mod 2 ^ n) (2 ^ (n - 1))).
  - apply Z.mod_mod; lia.
  - replace (z mod 2 ^ n - 2 ^ n) with (z mod 2 ^ n + (-1) * 2 ^ n) by lia.
    rewrite Z.mod_add by lia. apply Z.mod_mod; lia.
Qed.
