(** C65: floating-point constants. *)
From Coq Require Import ZArith Lia Bool String Ascii List.
Import ListNotations.
From Verif Require Import Base BaseProofs Literals FloatLit FloatShort.
Open Scope string_scope.
Open Scope Z_scope.
Open Scope list_scope.

(** A text is read as the double [M] (times 2^-1074) by anyone who reads decimal fractions as IEEE 754 says. *)
Definition reads_double (t : chars) (M : Z) : Prop :=
  exists m e, fraction_says t m e /\ rounds (num10 m e) (den10 e) (Some M).

Lemma num10_nonneg m e : 0 <= m -> 0 <= num10 m e.
Proof. intros M. unfold num10. pose proof (p10 (Z.max 0 e) ltac:(lia)). nia. Qed.
Lemma rounds_td m e x : 0 <= m -> (rounds (num10 m e) (den10 e) x <-> td m e = x).
Proof.
  intros M. pose proof (to_double_rounds (num10 m e) (den10 e) (num10_nonneg m e M) (den10_pos e)) as R. fold (td m e) in R.
  split; [intros R'; eapply rounds_unique; eauto|now intros <-].
Qed.
Lemma reads_td t M m e : fraction_says t m e -> (reads_double t M <-> td m e = Some M).
Proof.
  intros F. pose proof (fraction_nonneg _ _ _ F) as M0. split.
  - intros (m' & e' & F' & R). destruct (fraction_unique _ _ _ _ _ F F') as [<- <-]. now apply rounds_td in R.
  - intros T. exists m, e. split; [exact F|]. now apply rounds_td.
Qed.
Theorem C65_one_reading t M M' : reads_double t M -> reads_double t M' -> M = M'.
Proof.
  intros (m & e & F & R) H. apply (reads_td _ _ _ _ F) in H. apply rounds_td in R; [congruence|now apply fraction_nonneg in F].
Qed.

(** ** The source *)

Lemma fraction_word t m e : fraction_says t m e -> t <> cs "inf" /\ t <> cs "nan".
Proof. intros F. apply read_frac_says in F. split; intros ->; discriminate. Qed.
(** The double in the schema is the one nearest to what is written; there is an error exactly if there is none. *)
Theorem C65_source t m e : fraction_says t m e ->
  exists x, rounds (num10 m e) (den10 e) x /\ visit_float t = option_map FFin x.
Proof.
  intros F. exists (td m e). split; [apply rounds_td; [now apply fraction_nonneg in F|reflexivity]|].
  unfold visit_float. destruct (fraction_word _ _ _ F) as [A B].
  destruct (list_eq_dec _ _ _); [contradiction|]. destruct (list_eq_dec _ _ _); [contradiction|].
  now rewrite (read_frac_says _ _ _ F).
Qed.
Lemma dec_value_nonneg l : 0 <= dec_value l.
Proof.
  unfold dec_value. destruct (read_digits 10 0 l) as [v|] eqn:E; [|lia]. eapply (read_digits_ge 10); eauto; lia.
Qed.
Lemma visit_float_short t M : visit_float t = Some (FFin M) -> short M /\ 0 <= M < huge.
Proof.
  unfold visit_float. destruct (list_eq_dec _ _ _); [discriminate|]. destruct (list_eq_dec _ _ _); [discriminate|].
  destruct (read_frac t) as [[m e]|] eqn:R; [|discriminate]. destruct (to_double (num10 m e) (den10 e)) as [M'|] eqn:T; [|discriminate].
  cbn [option_map]. intros H; injection H as <-. apply to_double_short in T; auto using den10_pos. apply num10_nonneg.
  unfold read_frac in R. destruct (span t) as [a r]. destruct (match r with [] => _ | _ => _ end) as [b r1].
  destruct (a ++ b) eqn:E; [discriminate|]. destruct (read_exp r1); [|discriminate]. injection R as <- _. apply dec_value_nonneg.
Qed.

(** The bit pattern: eleven bits of exponent and 52 of significand. *)
Definition bits_value (b : N) : Z :=
  let b := Z.of_N b in let x := b / 2 ^ 52 in let f := b mod 2 ^ 52 in
  if x =? 0 then f else (2 ^ 52 + f) * 2 ^ (x - 1).
Theorem C65_bits t M b : visit_float t = Some (FFin M) -> parse_float t = Some b -> bits_value b = M /\ (b < 2047 * 2 ^ 52)%N.
Proof.
  intros V P. destruct (visit_float_short t M V) as [SH [M0 MH]]. unfold parse_float in P. rewrite V in P. cbn [option_map] in P.
  assert (Eb : b = bits_of (FFin M)) by congruence. rewrite Eb. clear Eb P. unfold bits_of, bits_value. destruct (Z.ltb_spec M (2 ^ 52)) as [L|L].
  - split; [|apply N2Z.inj_lt; rewrite (Z2N.id M) by exact M0; change (Z.of_N (2047 * 2 ^ 52)) with (2047 * 2 ^ 52); lia].
    rewrite (Z2N.id M) by exact M0. rewrite Z.div_small, Z.mod_small by lia. reflexivity.
  - destruct (short_canonical M SH) as (m & s & Bm & S0 & E & C). pose proof (pow_pos s S0) as P.
    assert (C' : 2 ^ 52 <= m).
    { destruct C as [C|C]; [|exact C]. rewrite C in E. change (2 ^ 0) with 1 in E. lia. }
    assert (LG : Z.log2 M = 52 + s).
    { apply Z.log2_unique; [lia|]. rewrite E. replace (Z.succ (52 + s)) with (53 + s) by lia. rewrite !Z.pow_add_r by lia. nia. }
    rewrite LG. replace (52 + s - 52) with s by lia.
    assert (Q : M / 2 ^ s = m) by (rewrite E; apply Z.div_mul; lia). rewrite Q.
    assert (S1 : s <= 2045).
    { assert (2 ^ (52 + s) < 2 ^ (1024 + 1074)) by (rewrite <- LG; apply Z.le_lt_trans with M; [apply Z.log2_spec; lia|exact MH]).
      apply Z.pow_lt_mono_r_iff in H; lia. }
    rewrite Z2N.id by lia.
    assert (X1 : (s * 2 ^ 52 + m) / 2 ^ 52 = s + 1).
    { symmetry. apply (Z.div_unique_pos _ _ _ (m - 2 ^ 52)); lia. }
    assert (X2 : (s * 2 ^ 52 + m) mod 2 ^ 52 = m - 2 ^ 52).
    { symmetry. apply (Z.mod_unique_pos _ _ (s + 1)); lia. }
    rewrite X1, X2. destruct (Z.eqb_spec (s + 1) 0); [lia|]. split.
    + replace (s + 1 - 1) with s by lia. rewrite E. f_equal. lia.
    + apply N2Z.inj_lt. rewrite Z2N.id by lia. change (Z.of_N (2047 * 2 ^ 52)) with (2047 * 2 ^ 52). lia.
Qed.

(** ** The generated code *)

(** The sign is the sign. *)
Theorem C65_sign g M : emit_float g true (FFin M) = "-"%char :: emit_float g false (FFin M).
Proof. reflexivity. Qed.

(** The JavaScript modules and Kotlin have the schema's double. *)
Theorem C65_shortest g t M : g = OEsm \/ g = OKt -> visit_float t = Some (FFin M) ->
  reads_double (emit_float g false (FFin M)) M.
Proof.
  intros G V. destruct (visit_float_short t M V) as [SH MB]. destruct (g_text_says M SH MB) as (m & e & F & T).
  destruct G as [-> | ->]; unfold emit_float.
  - now apply (reads_td _ _ _ _ F).
  - destruct (mentions (g_text M) "." || mentions (g_text M) "e" || mentions (g_text M) "E") eqn:X; [now apply (reads_td _ _ _ _ F)|].
    destruct (add_point _ _ _ F X) as (m' & e' & F' & T'). apply (reads_td _ _ _ _ F'). congruence.
Qed.

(** The other targets write six decimals: they have the schema's double exactly if it is the double of some number
    with six decimals. *)
Definition six (g : olang) : Prop := g <> OEsm /\ g <> OKt.
Lemma emit_six g M : six g -> emit_float g false (FFin M) = fixed6 M.
Proof. intros [A B]. destruct g; congruence || reflexivity. Qed.
Lemma td_micro k : td k (-6) = to_double k (10 ^ 6).
Proof. rewrite (td_scale k (-6) 6) by lia. f_equal. change (10 ^ (-6 + 6)) with 1. ring. Qed.
Theorem C65_six_decimals g t M : six g -> visit_float t = Some (FFin M) ->
  (reads_double (emit_float g false (FFin M)) M <-> exists k, 0 <= k /\ rounds k (10 ^ 6) (Some M)).
Proof.
  intros G V. destruct (visit_float_short t M V) as [SH MB]. rewrite (emit_six g M G).
  rewrite (reads_td _ _ _ _ (fixed6_says M (proj1 MB))), td_micro. rewrite (six_decimals M SH MB).
  split; intros (k & K & H); exists k; (split; [exact K|]).
  - rewrite <- H. apply to_double_rounds; lia.
  - eapply rounds_unique; [apply to_double_rounds; lia|exact H].
Qed.

(** In particular no target loses a constant written with at most six decimals, however large. *)
Theorem C65_at_most_six g t m e M : fraction_says t m e -> -6 <= e -> visit_float t = Some (FFin M) ->
  reads_double (emit_float g false (FFin M)) M.
Proof.
  intros F E V. destruct (C65_source t m e F) as (x & R & V'). rewrite V in V'. destruct x as [M'|]; [|discriminate]. injection V' as <-.
  assert (D : six g \/ (g = OEsm \/ g = OKt)) by (unfold six; destruct g; auto; left; split; discriminate).
  destruct D as [D|D]; [|eapply C65_shortest; eauto]. apply (C65_six_decimals g t M D V).
  pose proof (fraction_nonneg _ _ _ F) as M0. exists (m * 10 ^ (e + 6)). pose proof (p10 (e + 6) ltac:(lia)). split; [nia|].
  apply rounds_td in R; [|exact M0]. rewrite <- R, (td_scale m e 6) by lia. apply to_double_rounds; [nia|lia].
Qed.

(** ** What is lost *)

(** A double up to 5 * 10^-7 becomes zero in the generated code. *)
Theorem C65_small_refuted g t M : six g -> visit_float t = Some (FFin M) -> 0 < M -> 2 * M * 10 ^ 6 <= unit_ ->
  emit_float g false (FFin M) = cs "0.000000" /\ reads_double (cs "0.000000") 0 /\
  ~ reads_double (emit_float g false (FFin M)) M.
Proof.
  intros G V P L. assert (Z0 : rhe (M * 10 ^ 6) unit_ = 0).
  { unfold rhe. rewrite Z.div_small, Z.mod_small by lia. destruct (Z.ltb_spec (2 * (M * 10 ^ 6)) unit_); [reflexivity|].
    destruct (Z.ltb_spec unit_ (2 * (M * 10 ^ 6))); [lia|reflexivity]. }
  assert (E : emit_float g false (FFin M) = cs "0.000000") by (rewrite (emit_six g M G); unfold fixed6; rewrite Z0; reflexivity).
  assert (R : reads_double (cs "0.000000") 0).
  { pose proof (fixed6_says 0 ltac:(lia)) as F. replace (fixed6 0) with (cs "0.000000") in F by (vm_compute; reflexivity).
    apply (reads_td _ _ _ _ F). replace (rhe (0 * 10 ^ 6) unit_) with 0 by (vm_compute; reflexivity). apply td_zero. }
  split; [exact E|]. split; [exact R|]. rewrite E. intros R'. pose proof (C65_one_reading _ _ _ R R'). lia.
Qed.
(** Infinity and not-a-number are printed as words, not as numbers. *)
Theorem C65_inf_refuted g (neg : bool) :
  visit_float (cs "inf") = Some FInf /\ visit_float (cs "nan") = Some FNan /\
  (forall M, ~ reads_double (emit_float g neg FInf) M) /\ (forall M, ~ reads_double (emit_float g neg FNan) M) /\
  emit_float OGo false FInf = cs "+Inf" /\ emit_float OGo false FNan = cs "NaN".
Proof.
  split; [reflexivity|]. split; [reflexivity|].
  split; [|split; [|split; reflexivity]]; intros M (m & e & F & _); apply read_frac_says in F; destruct g, neg; discriminate.
Qed.

(** ** Instances *)

Definition emitted (g : olang) (s : string) : option chars := option_map (emit_float g false) (visit_float (cs s)).
Example C65_instance :
  emitted OGo "3.25" = Some (cs "3.250000") /\ emitted OEsm "3.25" = Some (cs "3.25") /\ emitted OKt "12e4" = Some (cs "120000.0") /\
  emitted OEsm "6.02214076e23" = Some (cs "6.02214076e+23") /\ emitted OC "6.02214076e23" = Some (cs "602214075999999987023872.000000") /\
  emitted OKt ".1" = Some (cs "0.1") /\ emitted OPy "0.1" = Some (cs "0.100000") /\ emitted OEsm "1e309" = None /\
  emitted OEsm "0.000123" = Some (cs "0.000123") /\ emitted OEsm "9007199254740993.0" = Some (cs "9.007199254740992e+15").
Proof. vm_compute. repeat split. Qed.
Example C65_bits_instance : parse_float (cs "1.0") = Some 0x3FF0000000000000%N /\ parse_float (cs "0.1") = Some 0x3FB999999999999A%N /\
  parse_float (cs "3.4028234663852886e38") = Some 0x47EFFFFFE0000000%N /\ parse_float (cs "4.9e-324") = Some 1%N /\
  parse_float (cs "inf") = Some 0x7FF0000000000000%N /\ parse_float (cs "nan") = Some 0x7FF8000000000001%N.
Proof. vm_compute. repeat split. Qed.
(** Go and JavaScript modules generated from one schema disagree on a constant. *)
Definition M7 : Z := Eval vm_compute in match visit_float (cs "0.1234567") with Some (FFin M) => M | _ => 0 end.
Lemma M7_source : visit_float (cs "0.1234567") = Some (FFin M7).
Proof. vm_compute. reflexivity. Qed.
Lemma M7_go : fixed6 M7 = cs "0.123457".
Proof. vm_compute. reflexivity. Qed.
Lemma M7_esm : g_text M7 = cs "0.1234567".
Proof. vm_compute. reflexivity. Qed.
Lemma M7_other : stands_for M7 123457 (-6) = false.
Proof. vm_compute. reflexivity. Qed.
Theorem C65_lost_refuted : exists M, visit_float (cs "0.1234567") = Some (FFin M) /\
  emit_float OEsm false (FFin M) = cs "0.1234567" /\ reads_double (emit_float OEsm false (FFin M)) M /\
  emit_float OGo false (FFin M) = cs "0.123457" /\ ~ reads_double (emit_float OGo false (FFin M)) M.
Proof.
  exists M7. split; [exact M7_source|]. split; [exact M7_esm|]. split; [exact (C65_shortest OEsm _ M7 (or_introl eq_refl) M7_source)|].
  split; [exact M7_go|]. change (emit_float OGo false (FFin M7)) with (fixed6 M7). rewrite M7_go. intros (m & e & F & R).
  apply rounds_td in R; [|now apply fraction_nonneg in F]. apply read_frac_says in F.
  assert (X : read_frac (cs "0.123457") = Some (123457, -6)) by (vm_compute; reflexivity).
  rewrite F in X. injection X as -> ->. apply stands_for_td in R. rewrite M7_other in R. discriminate.
Qed.
