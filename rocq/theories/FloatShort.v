(** The smallest sufficient precision: proofs. *)
From Coq Require Import ZArith Lia Bool String Ascii List.
Import ListNotations.
From Verif Require Import Base BaseProofs Literals FloatLit.
Open Scope string_scope.
Open Scope Z_scope.
Open Scope list_scope.

(** ** Fractions of the same value have the same double *)

Lemma rhe_scale n d c : 0 < d -> 0 < c -> rhe (n * c) (d * c) = rhe n d.
Proof.
  intros D C. unfold rhe. rewrite Z.div_mul_cancel_r by lia. rewrite Z.mul_mod_distr_r by lia.
  set (q := n / d). set (r := n mod d).
  replace (2 * (r * c) <? d * c) with (2 * r <? d) by (apply eq_true_iff_eq; rewrite !Z.ltb_lt; nia).
  replace (d * c <? 2 * (r * c)) with (d <? 2 * r) by (apply eq_true_iff_eq; rewrite !Z.ltb_lt; nia). reflexivity.
Qed.
Lemma round53_scale n d c : 0 < d -> 0 < c -> round53 (n * c) (d * c) = round53 n d.
Proof.
  intros D C. unfold round53. rewrite Z.div_mul_cancel_r by lia. set (s := Z.max 0 (Z.log2 (n / d) - 52)).
  pose proof (pow_pos s ltac:(lia)). f_equal. replace (d * c * 2 ^ s) with (d * 2 ^ s * c) by ring. apply rhe_scale; nia.
Qed.
Lemma to_double_scale n d c : 0 < d -> 0 < c -> to_double (n * c) (d * c) = to_double n d.
Proof.
  intros D C. unfold to_double. replace (n * c * unit_) with (n * unit_ * c) by ring. now rewrite round53_scale.
Qed.
Definition td (m e : Z) : option Z := to_double (num10 m e) (den10 e).
Lemma p10 k : 0 <= k -> 0 < 10 ^ k.
Proof. intros. apply Z.pow_pos_nonneg; lia. Qed.
Lemma den10_pos e : 0 < den10 e.
Proof. apply p10. lia. Qed.
Lemma td_scale m e K : 0 <= K -> 0 <= e + K -> td m e = to_double (m * 10 ^ (e + K)) (10 ^ K).
Proof.
  intros K0 K1. unfold td, num10, den10. destruct (Z.le_gt_cases 0 e) as [E|E].
  - rewrite (Z.max_r 0 e), (Z.max_l 0 (- e)) by lia. rewrite <- (to_double_scale _ _ (10 ^ K)) by (try lia; now apply p10).
    rewrite Z.pow_add_r by lia. f_equal; ring.
  - rewrite (Z.max_l 0 e), (Z.max_r 0 (- e)) by lia. rewrite <- (to_double_scale _ _ (10 ^ (e + K))) by (apply p10; lia).
    f_equal; [change (10 ^ 0) with 1; ring|]. rewrite <- Z.pow_add_r by lia. f_equal. lia.
Qed.
Lemma td_shift m e j : 0 <= j -> td (m * 10 ^ j) e = td m (e + j).
Proof.
  intros J. rewrite (td_scale (m * 10 ^ j) e (Z.abs e)), (td_scale m (e + j) (Z.abs e)) by lia. f_equal.
  rewrite <- Z.mul_assoc, <- Z.pow_add_r by lia. do 2 f_equal. lia.
Qed.

(** ** How large a double is *)

Lemma ndigits_pos k : forall n, 1 <= ndigits k n.
Proof. induction k as [|k IH]; intros n; cbn [ndigits]; [lia|]. destruct (n <? 10); [lia|]. specialize (IH (n / 10)). lia. Qed.
Lemma ndigits_low k : forall n, 1 <= n -> 10 ^ (ndigits k n - 1) <= n.
Proof.
  induction k as [|k IH]; intros n N; cbn [ndigits].
  - change (10 ^ (1 - 1)) with 1. lia.
  - destruct (Z.ltb_spec n 10) as [L|L]; [change (10 ^ (1 - 1)) with 1; lia|].
    assert (D : 1 <= n / 10) by (apply Z.div_le_lower_bound; lia). specialize (IH _ D). pose proof (ndigits_pos k (n / 10)).
    replace (1 + ndigits k (n / 10) - 1) with (ndigits k (n / 10) - 1 + 1) by lia. rewrite Z.pow_add_r by lia.
    pose proof (Z.mul_div_le n 10 ltac:(lia)). change (10 ^ 1) with 10. lia.
Qed.
Lemma zeros_after_ok k : forall M j, 0 <= M -> 0 <= j -> unit_ <= M * 10 ^ (j + Z.of_nat k) ->
  j <= zeros_after k M j /\ unit_ <= M * 10 ^ zeros_after k M j.
Proof.
  induction k as [|k IH]; intros M j M0 J H; cbn [zeros_after].
  - rewrite Z.add_0_r in H. lia.
  - destruct (Z.leb_spec unit_ (M * 10 ^ j)) as [L|L]; [lia|].
    destruct (IH M (j + 1) M0 ltac:(lia)) as [A B]; [replace (j + 1 + Z.of_nat k) with (j + Z.of_nat (S k)) by lia; exact H|].
    split; [lia|exact B].
Qed.
Lemma tens : unit_ <= 10 ^ 331.
Proof. unfold unit_. apply Z.leb_le. vm_compute. reflexivity. Qed.
Lemma dec_exp_low M : 0 < M -> unit_ * 10 ^ Z.max 0 (dec_exp M - 1) <= M * 10 ^ Z.max 0 (1 - dec_exp M).
Proof.
  intros M0. pose proof unit_pos as U. unfold dec_exp. destruct (Z.leb_spec unit_ M) as [L|L].
  - set (k := Z.to_nat (Z.log2 (M / unit_))). assert (Q : 1 <= M / unit_) by (apply Z.div_le_lower_bound; lia).
    pose proof (ndigits_pos k (M / unit_)). pose proof (ndigits_low k _ Q) as A.
    rewrite Z.max_r, Z.max_l by lia. pose proof (Z.mul_div_le M unit_ U). change (10 ^ 0) with 1. nia.
  - destruct (zeros_after_ok 330 M 1 ltac:(lia) ltac:(lia)) as [A B].
    { pose proof tens as T. change (1 + Z.of_nat 330) with 331. nia. }
    set (j := zeros_after 330 M 1) in *. clearbody j. rewrite Z.max_l, Z.max_r by lia. replace (1 - (1 - j)) with j by lia.
    change (10 ^ 0) with 1. lia.
Qed.

(** ** Seventeen digits suffice *)

Lemma seventeen M p : short M -> 0 < M < huge -> unit_ * 10 ^ Z.max 0 (p - 1) <= M * 10 ^ Z.max 0 (1 - p) ->
  let e := p - 17 in td (rhe (M * den10 e) (unit_ * 10 ^ Z.max 0 e)) e = Some M.
Proof.
  intros SH [M0 MH] Low e. pose proof unit_pos as U. pose proof (den10_pos e) as D. pose proof (p10 (Z.max 0 e) ltac:(lia)) as T.
  set (W := unit_ * 10 ^ Z.max 0 e) in *. assert (WP : 0 < W) by (unfold W; nia).
  (* one unit in the last place is at most 10^-16 of the number *)
  assert (Rel : W * 10 ^ 16 <= M * den10 e).
  { unfold W, den10, e. destruct (Z.le_gt_cases 17 p) as [P1|P1].
    - rewrite (Z.max_r 0 (p - 17)), (Z.max_l 0 (- (p - 17))) by lia. rewrite (Z.max_r 0 (p - 1)), (Z.max_l 0 (1 - p)) in Low by lia.
      replace (p - 1) with (p - 17 + 16) in Low by lia. rewrite Z.pow_add_r in Low by lia. change (10 ^ 0) with 1 in *.
      set (X := 10 ^ (p - 17)) in *. clearbody X. set (Y := 10 ^ 16) in *. clearbody Y. nia.
    - rewrite (Z.max_l 0 (p - 17)), (Z.max_r 0 (- (p - 17))) by lia. change (10 ^ 0) with 1.
      assert (E16 : 10 ^ 16 = 10 ^ Z.max 0 (p - 1) * 10 ^ (Z.min 16 (17 - p))) by (rewrite <- Z.pow_add_r by lia; f_equal; lia).
      assert (E17 : 10 ^ (- (p - 17)) = 10 ^ Z.max 0 (1 - p) * 10 ^ (Z.min 16 (17 - p))) by (rewrite <- Z.pow_add_r by lia; f_equal; lia).
      rewrite E16, E17. pose proof (p10 (Z.min 16 (17 - p)) ltac:(lia)) as X. set (x := 10 ^ Z.min 16 (17 - p)) in *. clearbody x.
      set (y := 10 ^ Z.max 0 (p - 1)) in *. clearbody y. set (z := 10 ^ Z.max 0 (1 - p)) in *. clearbody z. clear - Low X. nia. }
  set (c := rhe (M * den10 e) W). pose proof (rhe_err (M * den10 e) W WP) as R. fold c in R.
  assert (C : 0 <= c) by (apply rhe_nonneg; nia). clearbody c.
  unfold td. apply to_double_ok. split; [|exact MH].
  assert (N : num10 c e * unit_ = W * c) by (unfold num10, W; ring). rewrite N.
  apply round53_is; [nia|exact D|exact SH|]. intros M' S' NE.
  destruct (short_canonical M SH) as (m & s & Can). destruct (Can) as (B & S0 & E & _). pose proof (pow_pos s S0) as P.
  assert (G : W < Z.abs (M - M') * den10 e).
  { destruct (gap M m s M' Can S' NE) as [G|(M5 & S1 & _ & G)].
    - assert (W * 10 ^ 16 < 2 ^ 53 * 2 ^ s * den10 e) by nia. change (10 ^ 16) with 10000000000000000 in *. change (2 ^ 53) with 9007199254740992 in *. nia.
    - assert (2 ^ s = 2 * 2 ^ (s - 1)) by (rewrite <- Z.pow_succ_r by lia; f_equal; lia).
      assert (W * 10 ^ 16 <= 2 ^ 52 * (2 * 2 ^ (s - 1)) * den10 e) by nia. pose proof (pow_pos (s - 1) ltac:(lia)).
      change (10 ^ 16) with 10000000000000000 in *. change (2 ^ 52) with 4503599627370496 in *.
      assert (W < 2 ^ (s - 1) * den10 e) by nia. nia. }
  assert (G2 : Z.abs (M * den10 e - M' * den10 e) = Z.abs (M - M') * den10 e) by (rewrite <- Z.mul_sub_distr_r, Z.abs_mul, (Z.abs_eq (den10 e)); lia).
  lia.
Qed.

Lemma stands_for_td M c e : stands_for M c e = true <-> td c e = Some M.
Proof.
  unfold stands_for, td. destruct (to_double _ _) as [M'|]; [|split; discriminate]. rewrite Z.eqb_eq. split; [now intros ->|congruence].
Qed.
Lemma shortest_stands M p : short M -> 0 < M < huge -> unit_ * 10 ^ Z.max 0 (p - 1) <= M * 10 ^ Z.max 0 (1 - p) ->
  forall fuel n, n + Z.of_nat fuel = 17 -> forall c e, shortest fuel M p n = (c, e) -> td c e = Some M /\ 0 <= c.
Proof.
  intros SH MB Low. pose proof unit_pos as U.
  assert (C1 : forall e, 0 <= rhe (M * den10 e) (unit_ * 10 ^ Z.max 0 e)).
  { intros e. pose proof (den10_pos e). pose proof (p10 (Z.max 0 e) ltac:(lia)). apply rhe_nonneg; nia. }
  induction fuel as [|k IH]; intros n F c e H; cbn [shortest] in H.
  - injection H as <- <-. replace n with 17 by lia. split; [|apply C1]. now apply (seventeen M p).
  - specialize (C1 (p - n)). pose proof (den10_pos (p - n)) as D. pose proof (p10 (Z.max 0 (p - n)) ltac:(lia)) as T. set (W := unit_ * 10 ^ Z.max 0 (p - n)) in *. set (N := M * den10 (p - n)) in *.
    assert (N0 : 0 <= N) by (unfold N; nia). clearbody N.
    set (c1 := rhe N W) in *. clearbody c1.
    destruct (stands_for M c1 (p - n)) eqn:A1; [injection H as <- <-; split; [now apply stands_for_td|exact C1]|].
    destruct (stands_for M (if c1 * W <=? N then c1 + 1 else c1 - 1) (p - n)) eqn:A2.
    + injection H as <- <-. split; [now apply stands_for_td|]. destruct (Z.leb_spec (c1 * W) N) as [X|X]; [lia|].
      assert (c1 <> 0) by (intros ->; lia). lia.
    + apply (IH (n + 1)); [lia|exact H].
Qed.
Lemma td_zero e : td 0 e = Some 0.
Proof.
  unfold td. replace (num10 0 e) with 0 by (unfold num10; ring). apply to_double_ok. split; [|now vm_compute].
  rewrite Z.mul_0_l. unfold round53, rhe. rewrite Zdiv_0_l. cbn [Z.log2]. change (Z.max 0 (0 - 52)) with 0. rewrite Zdiv_0_l, Zmod_0_l.
  pose proof (den10_pos e). destruct (Z.ltb_spec (2 * 0) (den10 e * 2 ^ 0)); [reflexivity|]. change (2 ^ 0) with 1 in *. lia.
Qed.
Lemma strip0_stands k : forall c e c' e', 0 < c -> strip0 k c e = (c', e') -> td c' e' = td c e /\ 0 < c'.
Proof.
  induction k as [|k IH]; intros c e c' e' C H; cbn [strip0] in H; [injection H as <- <-; auto|].
  destruct (Z.eqb_spec (c mod 10) 0) as [Z0|Z0]; [|injection H as <- <-; auto].
  pose proof (Z.div_mod c 10 ltac:(lia)) as Dv. apply IH in H as [E P]; [|lia]. split; [|exact P].
  rewrite E. rewrite <- td_shift by lia. f_equal. change (10 ^ 1) with 10. lia.
Qed.
Lemma short_digits_stand M c e : short M -> 0 < M < huge -> short_digits M = (c, e) -> td c e = Some M /\ 0 < c.
Proof.
  intros SH MB. unfold short_digits. destruct (shortest 16 M (dec_exp M) 1) as [c0 e0] eqn:Sh. intros H.
  destruct (shortest_stands M (dec_exp M) SH MB (dec_exp_low M (proj1 MB)) 16%nat 1 eq_refl c0 e0 Sh) as [T C].
  assert (C0 : 0 < c0).
  { destruct (Z.eq_dec c0 0) as [->|]; [|lia]. rewrite td_zero in T. injection T as <-. lia. }
  apply strip0_stands in H as [H P]; [|exact C0]. split; [congruence|exact P].
Qed.

(** ** Texts *)

Lemma zeros_dig n : 0 <= n -> dig (zeros n) (Z.to_nat n) 0.
Proof.
  intros N. unfold zeros. set (k := Z.to_nat n). clearbody k. clear N n. split; [apply repeat_length|].
  induction k as [|k IH]; intros acc.
  - cbn [repeat read_digits]. change (10 ^ Z.of_nat 0) with 1. f_equal. lia.
  - cbn [repeat read_digits]. change (digit_value "0") with (Some 0). change (0 <? 10) with true. cbn match. rewrite IH, Nat2Z.inj_succ, Z.pow_succ_r by lia. apply f_equal. ring.
Qed.
Lemma zeros_before n l v : 0 <= n -> read_digits 10 0 l = Some v -> read_digits 10 0 (zeros n ++ l) = Some v.
Proof. intros N H. destruct (zeros_dig n N) as [_ Z]. rewrite read_digits_app, Z. rewrite Z.mul_0_l. exact H. Qed.
Lemma exp_text_says x : exponent_says (exp_text x) x.
Proof.
  unfold exp_text.
  assert (N : numeral 10 ((if Z.abs x <? 10 then cs "0" else []) ++ fmt_uint 10 (Z.abs x)) (Z.abs x)).
  { pose proof (fmt_nonempty 10 (Z.abs x) ltac:(lia) ltac:(lia)) as NE. apply read_numeral.
    - destruct (Z.abs x <? 10); [discriminate|exact NE].
    - destruct (Z.abs x <? 10); [apply (zeros_before 1); [lia|]|]; apply fmt_read; lia. }
  destruct (Z.ltb_spec x 0) as [L|L].
  - pose proof (ex_minus "e" _ _ (or_introl eq_refl) N) as X. replace (- Z.abs x) with x in X by lia. exact X.
  - pose proof (ex_plus "e" _ _ (or_introl eq_refl) N) as X. rewrite (Z.abs_eq x) in X at 3 by lia. exact X.
Qed.

Theorem g_text_says M : short M -> 0 <= M < huge -> exists m e, fraction_says (g_text M) m e /\ td m e = Some M.
Proof.
  intros SH MB. unfold g_text. destruct (Z.eqb_spec M 0) as [->|M0].
  - exists 0, 0. split; [|apply td_zero]. apply (fr_whole (cs "0") [] 0 0); [|constructor]. apply num_one; [reflexivity|lia].
  - destruct (short_digits M) as [c e] eqn:Sd. destruct (short_digits_stand M c e SH ltac:(lia) Sd) as [T C].
    pose proof (fmt_read 10 c ltac:(lia) ltac:(lia)) as R. pose proof (fmt_nonempty 10 c ltac:(lia) ltac:(lia)) as NE.
    set (ds := fmt_uint 10 c) in *. clearbody ds. set (dp := Z.of_nat (List.length ds) + e).
    pose proof (read_numeral ds c NE R) as N.
    destruct ((dp - 1 <? -4) || (6 <=? dp - 1)) eqn:Sw.
    + destruct ds as [|d r]; [contradiction|]. exists c, e. split; [|exact T]. destruct r as [|d2 r].
      * cbn [app]. assert (Ee : e = dp - 1) by (unfold dp; cbn [List.length]; lia). rewrite Ee. apply (fr_whole [d] (exp_text (dp - 1)) c (dp - 1)); [exact N|apply exp_text_says].
      * assert (Ee : e = dp - 1 - Z.of_nat (List.length (d2 :: r))) by (unfold dp; cbn [List.length]; lia). rewrite Ee.
        apply (fr_point [d] (d2 :: r) (exp_text (dp - 1)) c (dp - 1)); [exact N|apply exp_text_says].
    + apply orb_false_iff in Sw as [S1 S2]. apply Z.ltb_ge in S1. apply Z.leb_gt in S2.
      destruct (Z.leb_spec dp 0) as [D|D].
      * exists c, e. split; [|exact T]. pose proof (fr_point (cs "0") (zeros (- dp) ++ ds) [] c 0) as F. rewrite app_nil_r in F.
        replace e with (0 - Z.of_nat (List.length (zeros (- dp) ++ ds))).
        2: { rewrite app_length. destruct (zeros_dig (- dp) ltac:(lia)) as [-> _]. unfold dp in *. lia. }
        apply F; [|constructor]. apply read_numeral; [discriminate|]. apply (zeros_before 1); [lia|]. apply zeros_before; [lia|exact R].
      * destruct (Z.leb_spec 0 e) as [E|E].
        -- exists (c * 10 ^ e), 0. rewrite td_shift by lia. split; [|exact T]. rewrite <- (app_nil_r (ds ++ zeros e)).
           apply fr_whole; [|constructor]. apply read_numeral; [destruct ds; [contradiction|discriminate]|].
           rewrite (app_dig _ _ _ _ _ R (zeros_dig e E)). f_equal. rewrite Z2Nat.id by lia. ring.
        -- exists c, e. split; [|exact T].
           pose proof (fr_point (firstn (Z.to_nat dp) ds) (skipn (Z.to_nat dp) ds) [] c 0) as F. rewrite app_nil_r, firstn_skipn, skipn_length in F.
           replace e with (0 - Z.of_nat (List.length ds - Z.to_nat dp)) by (unfold dp in *; lia). apply F; [exact N|constructor].
Qed.

(** Kotlin appends ".0" to a whole number. *)
Lemma add_point t m e : fraction_says t m e -> mentions t "." || mentions t "e" || mentions t "E" = false ->
  exists m' e', fraction_says (t ++ cs ".0") m' e' /\ td m' e' = td m e.
Proof.
  intros [a b x m0 e0 N X|a x m0 e0 N X] H.
  - exfalso. unfold mentions in H. rewrite !existsb_app in H. cbn [existsb] in H. change (Ascii.eqb "." ".") with true in H.
    rewrite orb_true_l, orb_true_r in H. discriminate.
  - assert (K : x = [] /\ e0 = 0).
    { destruct X as [|c ds v [-> | ->] _|c ds v [-> | ->] _|c ds v [-> | ->] _]; auto; exfalso; unfold mentions in H; rewrite !existsb_app in H;
        cbn [existsb] in H; repeat (change (Ascii.eqb "e" "e") with true in H; change (Ascii.eqb "E" "E") with true in H);
        rewrite ?orb_true_l, ?orb_true_r in H; discriminate. }
    destruct K as [-> ->]. rewrite app_nil_r. exists (m0 * 10 ^ 1), (-1). split; [|rewrite td_shift by lia; reflexivity].
    apply (fr_point a (cs "0") [] (m0 * 10 ^ 1) 0); [|constructor]. change (m0 * 10 ^ 1) with (m0 * 10).
    replace (m0 * 10) with (m0 * 10 + 0) by lia. apply num_more; [exact N|reflexivity|lia].
Qed.
