(** Models of small library functions: util/bitwise.go, util/size.go, util/calc.go and the
    option setters of generator/gen/gen_option.go (properties C33, C34, C37, C38). *)
From Coq Require Import ZArith NArith List Lia Bool Ascii String DecimalString DecimalN.
From Verif Require Import Base GoModel.
Import ListNotations.
Open Scope Z_scope.

(** * C33: util.HighBit.  The model [highbit] is in GoModel.v (util/bitwise.go:7-16). *)

Definition smear (u w : Z) (n : Z) : Prop :=
  forall i, 0 <= i -> (Z.testbit w i = true <-> exists j, 0 <= j < n /\ Z.testbit u (i + j) = true).

Lemma smear_step u w n : 0 <= n -> smear u w n -> smear u (Z.lor w (Z.shiftr w n)) (2 * n).
Proof.
  intros Hn H i Hi. rewrite Z.lor_spec, Z.shiftr_spec, orb_true_iff by lia.
  rewrite (H i Hi), (H (i + n)) by lia. split.
  - intros [(j & Hj & Hb)|(j & Hj & Hb)].
    + exists j. split; [lia|exact Hb].
    + exists (n + j). split; [lia|]. rewrite Z.add_assoc. exact Hb.
  - intros (j & Hj & Hb). destruct (Z_lt_le_dec j n).
    + left. exists j. split; [lia|exact Hb].
    + right. exists (j - n). split; [lia|]. replace (i + n + (j - n)) with (i + j) by lia. exact Hb.
Qed.

Lemma highbit_pos v : 1 < v <= 2 ^ 62 -> highbit v = 2 ^ (Z.log2 (v - 1) + 1).
Proof.
  intros Hv. unfold highbit. set (u := v - 1). assert (Hu : 0 < u < 2 ^ 62) by lia.
  assert (S0 : smear u u 1).
  { intros i Hi. split; [intros H; exists 0; split; [lia|rewrite Z.add_0_r; exact H]|].
    intros (j & Hj & Hb). replace j with 0 in Hb by lia. rewrite Z.add_0_r in Hb. exact Hb. }
  pose proof (smear_step _ _ 1 ltac:(lia) S0) as S1. change (2 * 1) with 2 in S1.
  pose proof (smear_step _ _ 2 ltac:(lia) S1) as S2. change (2 * 2) with 4 in S2.
  pose proof (smear_step _ _ 4 ltac:(lia) S2) as S3. change (2 * 4) with 8 in S3.
  pose proof (smear_step _ _ 8 ltac:(lia) S3) as S4. change (2 * 8) with 16 in S4.
  pose proof (smear_step _ _ 16 ltac:(lia) S4) as S5. change (2 * 16) with 32 in S5.
  pose proof (smear_step _ _ 32 ltac:(lia) S5) as S6. change (2 * 32) with 64 in S6.
  cbv zeta.
  match goal with |- ?w + 1 = _ => assert (Hw : w = Z.ones (Z.log2 u + 1)) end.
  2:{ rewrite Hw, Z.ones_equiv. lia. }
  pose proof (Z.log2_nonneg u) as Hl0.
  assert (Hl : Z.log2 u < 62) by (apply Z.log2_lt_pow2; lia).
  apply Z.bits_inj'. intros i Hi.
  destruct (Z_lt_le_dec i (Z.log2 u + 1)) as [Hlt|Hge].
  - rewrite Z.ones_spec_low by lia. apply S6; [exact Hi|].
    exists (Z.log2 u - i). split; [lia|]. replace (i + (Z.log2 u - i)) with (Z.log2 u) by lia.
    apply Z.bit_log2. lia.
  - rewrite Z.ones_spec_high by lia. apply not_true_iff_false. intros Hb0. apply (S6 i Hi) in Hb0.
    destruct Hb0 as (j & Hj & Hb). rewrite Z.bits_above_log2 in Hb by lia. discriminate.
Qed.

(** C33.  HighBit v is a power of two, at least v, and the least such. *)
Theorem C33_highbit : forall v, 1 <= v <= 2 ^ 62 ->
  exists k, 0 <= k /\ highbit v = 2 ^ k /\ v <= 2 ^ k /\
            forall j, 0 <= j -> v <= 2 ^ j -> 2 ^ k <= 2 ^ j.
Proof.
  intros v Hv. destruct (Z.eq_dec v 1) as [->|Hne].
  - exists 0. repeat split; try lia; try reflexivity.
  - exists (Z.log2 (v - 1) + 1). pose proof (Z.log2_nonneg (v - 1)).
    split; [lia|]. split; [apply highbit_pos; lia|].
    destruct (Z.log2_spec (v - 1) ltac:(lia)) as [H1 H2].
    split; [unfold Z.succ in H2; lia|].
    intros j Hj Hv2. apply Z.pow_le_mono_r; [lia|].
    enough (Z.log2 (v - 1) < j) by lia. apply Z.log2_lt_pow2; lia.
Qed.

Example C33_instance : highbit 5 = 8 /\ highbit 8 = 8 /\ highbit (2 ^ 61 + 1) = 2 ^ 62.
Proof. repeat split; vm_compute; reflexivity. Qed.

(** The lower bound on v matters: HighBit 0 is 0 (no power of two). *)
Example C33_zero : highbit 0 = 0.
Proof. reflexivity. Qed.

(** * C34: util.ToSizeString (util/size.go:18-33) *)

(** fmt "%d" of a non-negative number *)
Definition dec (z : Z) : string := NilZero.string_of_uint (N.to_uint (Z.to_N z)).

Open Scope string_scope.
Open Scope Z_scope.

(** util/size.go:18-33.  Go's / and % truncate toward zero. *)
Definition to_size_string (bitSize : Z) : string :=
  if bitSize =? -1 then "dynamic"
  else
    let bytes := Z.quot bitSize 8 in
    let bits := Z.rem bitSize 8 in
    if (bytes =? 0) && (bits =? 0) then "0"
    else if bytes =? 0 then "#" ++ dec bits
    else if bits =? 0 then dec bytes
    else dec bytes ++ "#" ++ dec bits.

(** util/size.go:5-16 *)
Definition to_size_string_dynamic (start : Z) (dynStart : bool) (bitSize : Z) : string :=
  let s := if bitSize =? -1 then to_size_string start ++ "+dynamic"
           else to_size_string (bitSize + start) in
  if dynStart then "dynamic+" ++ s else s.

Lemma dec_inj a b : 0 <= a -> 0 <= b -> dec a = dec b -> a = b.
Proof.
  intros Ha Hb H. unfold dec in H.
  assert (H2 : NilZero.uint_of_string (NilZero.string_of_uint (N.to_uint (Z.to_N a))) =
               NilZero.uint_of_string (NilZero.string_of_uint (N.to_uint (Z.to_N b)))) by congruence.
  rewrite !NilZero.usu in H2.
  - injection H2 as H2. apply DecimalN.Unsigned.to_uint_inj in H2. lia.
  - destruct (Z.to_N b); [discriminate|]. apply DecimalPos.Unsigned.to_uint_nonnil.
  - destruct (Z.to_N a); [discriminate|]. apply DecimalPos.Unsigned.to_uint_nonnil.
Qed.

Fixpoint all_digits (s : string) : bool :=
  match s with
  | EmptyString => true
  | String c t => (Nat.leb 48 (nat_of_ascii c) && Nat.leb (nat_of_ascii c) 57 && all_digits t)%bool
  end.

Lemma all_digits_uint d : all_digits (NilEmpty.string_of_uint d) = true.
Proof. induction d; cbn; auto. Qed.

Lemma dec_digits z : all_digits (dec z) = true.
Proof.
  unfold dec, NilZero.string_of_uint. destruct (N.to_uint (Z.to_N z)) eqn:E; [reflexivity|..];
    rewrite <- E; apply all_digits_uint.
Qed.

Lemma dec_nonempty z : exists c t, dec z = String c t.
Proof.
  unfold dec, NilZero.string_of_uint. destruct (N.to_uint (Z.to_N z)); cbn; eauto.
Qed.

(** Splitting a digit prefix off at the first non-digit is unambiguous. *)
Lemma digits_split a b (c d : ascii) s t :
  all_digits a = true -> all_digits b = true ->
  all_digits (String c "") = false -> all_digits (String d "") = false ->
  a ++ String c s = b ++ String d t -> a = b /\ c = d /\ s = t.
Proof.
  revert b. induction a as [|x a IH]; intros b Ha Hb Hc Hd H; destruct b as [|y b]; cbn [append] in H.
  - injection H as -> ->. auto.
  - injection H as -> H. cbn [all_digits] in *. rewrite andb_true_r in Hc.
    apply andb_true_iff in Hb as [Hb _]. congruence.
  - injection H as -> H. cbn [all_digits] in *. rewrite andb_true_r in Hd.
    apply andb_true_iff in Ha as [Ha _]. congruence.
  - injection H as -> H. cbn [all_digits] in Ha, Hb.
    apply andb_true_iff in Ha as [_ Ha]. apply andb_true_iff in Hb as [_ Hb].
    destruct (IH b Ha Hb Hc Hd H) as (-> & -> & ->). auto.
Qed.

Lemma digits_nosplit a b (c : ascii) s : all_digits (String c "") = false ->
  all_digits a = true -> a <> b ++ String c s.
Proof.
  intros Hc. revert b. induction a as [|x a IH]; intros b Ha H; destruct b as [|y b]; cbn [append] in H;
    try discriminate.
  - injection H as -> H. cbn [all_digits] in *. rewrite andb_true_r in Hc.
    apply andb_true_iff in Ha as [Ha _]. congruence.
  - injection H as -> H. cbn [all_digits] in Ha. apply andb_true_iff in Ha as [_ Ha].
    exact (IH b Ha H).
Qed.

(** The shape of a printed size: digits, then nothing or "#" and digits. *)
Definition size_body (bytes bits : Z) : string :=
  if (bytes =? 0) && (bits =? 0) then "0"
  else if bytes =? 0 then "#" ++ dec bits
  else if bits =? 0 then dec bytes
  else dec bytes ++ "#" ++ dec bits.

Lemma dec_zero : dec 0 = "0".
Proof. reflexivity. Qed.

Lemma size_body_inj a b c d : 0 <= a -> 0 <= b -> 0 <= c -> 0 <= d ->
  size_body a b = size_body c d -> a = c /\ b = d.
Proof.
  intros Ha Hb Hc Hd H. unfold size_body in H. rewrite <- dec_zero in H.
  assert (N1 : forall x s y, "#" ++ s = y -> dec x = y -> False).
  { intros x s y <- E. destruct (dec_nonempty x) as (q & t & Eq). rewrite Eq in E.
    pose proof (dec_digits x) as Dx. rewrite Eq in Dx.
    change ("#" ++ s) with (String "#" s) in E. injection E as -> ->. discriminate. }
  assert (N2 : forall x y z, dec x = dec y ++ "#" ++ dec z -> False).
  { intros x y z E. revert E. apply (digits_nosplit (dec x) (dec y) "#" (dec z));
      [reflexivity|apply dec_digits]. }
  assert (N3 : forall x y z, "#" ++ dec x = dec y ++ "#" ++ dec z -> False).
  { intros x y z E. change ("#" ++ dec x) with ("" ++ String "#" (dec x)) in E.
    change ("#" ++ dec z) with (String "#" (dec z)) in E.
    destruct (digits_split "" (dec y) "#" "#" _ _ eq_refl (dec_digits y) eq_refl eq_refl E) as (E1 & _).
    destruct (dec_nonempty y) as (q & t & Eq). congruence. }
  destruct (Z.eqb_spec a 0); destruct (Z.eqb_spec b 0); destruct (Z.eqb_spec c 0);
    destruct (Z.eqb_spec d 0); cbn [andb] in H; subst;
    try (split; reflexivity);
    try (exfalso; first [ eapply N1; [reflexivity| symmetry; exact H] | eapply N1; [exact (eq_sym H)| reflexivity]
                        | eapply N1; [reflexivity| exact H] | eapply N1; [exact H|reflexivity]
                        | eapply N2; exact H | eapply N2; symmetry; exact H
                        | eapply N3; exact H | eapply N3; symmetry; exact H
                        | apply dec_inj in H; lia ]).
  - cbn [append] in H. injection H as H. apply dec_inj in H; auto.
  - apply dec_inj in H; auto.
  - change ("#" ++ dec b) with (String "#" (dec b)) in H.
    change ("#" ++ dec d) with (String "#" (dec d)) in H.
    destruct (digits_split _ _ "#" "#" _ _ (dec_digits a) (dec_digits c) eq_refl eq_refl H) as (E1 & _ & E2).
    apply dec_inj in E1; auto. apply dec_inj in E2; auto.
Qed.

Lemma to_size_string_body n : 0 <= n -> to_size_string n = size_body (n / 8) (n mod 8).
Proof.
  intros Hn. unfold to_size_string. replace (n =? -1) with false by lia.
  rewrite Z.quot_div_nonneg, Z.rem_mod_nonneg by lia. reflexivity.
Qed.

Lemma size_body_head a b : 0 <= a -> 0 <= b -> forall s, size_body a b <> String "d" s.
Proof.
  intros Ha Hb s. unfold size_body.
  assert (D : forall z r, dec z ++ r <> String "d" s).
  { intros z r E. destruct (dec_nonempty z) as (q & t & Eq). pose proof (dec_digits z) as D.
    rewrite Eq in *. cbn [append] in E. injection E as -> _. discriminate. }
  destruct (a =? 0); destruct (b =? 0); cbn [andb]; try discriminate.
  - intro E. apply (D a ""). rewrite <- E. clear. induction (dec a); cbn; congruence.
  - apply D.
Qed.

(** C34.  Bit sizes from -1 (dynamic) up are never printed the same. *)
Theorem C34_size_string_injective : forall m n, -1 <= m -> -1 <= n ->
  to_size_string m = to_size_string n -> m = n.
Proof.
  intros m n Hm Hn H.
  assert (Hdyn : forall k, 0 <= k -> to_size_string k = "dynamic" -> False).
  { intros k Hk E. rewrite to_size_string_body in E by exact Hk.
    eapply size_body_head; [| |exact E]; [apply Z.div_pos; lia|apply Z.mod_pos_bound; lia]. }
  destruct (Z.eq_dec m (-1)) as [->|Hm']; destruct (Z.eq_dec n (-1)) as [->|Hn']; auto.
  - exfalso. apply (Hdyn n); [lia|]. symmetry. exact H.
  - exfalso. apply (Hdyn m); [lia|]. exact H.
  - rewrite !to_size_string_body in H by lia.
    apply size_body_inj in H; try (apply Z.div_pos; lia); try (apply Z.mod_pos_bound; lia).
    destruct H. lia.
Qed.

Lemma app_plus_ne b s : all_digits b = true -> forall t, b <> t ++ String "+" s.
Proof. intros Hb t. apply digits_nosplit; [reflexivity|exact Hb]. Qed.

Fixpoint has_plus (s : string) : bool :=
  match s with EmptyString => false | String c t => (Ascii.eqb c "+" || has_plus t)%bool end.
Lemma has_plus_app s t : has_plus (s ++ t) = (has_plus s || has_plus t)%bool.
Proof. induction s as [|c s IH]; cbn; [reflexivity|]. rewrite IH, orb_assoc. reflexivity. Qed.
Lemma has_plus_digits s : all_digits s = true -> has_plus s = false.
Proof.
  induction s as [|c s IH]; cbn; [reflexivity|]. intros H.
  apply andb_true_iff in H as [H H2]. rewrite (IH H2), orb_false_r.
  destruct (Ascii.eqb_spec c "+"); [subst; discriminate|reflexivity].
Qed.
Lemma has_plus_body a b : has_plus (size_body a b) = false.
Proof.
  unfold size_body. destruct (_ && _); [reflexivity|]. destruct (a =? 0).
  - rewrite has_plus_app, (has_plus_digits _ (dec_digits b)). reflexivity.
  - destruct (b =? 0); [apply has_plus_digits, dec_digits|].
    rewrite !has_plus_app, (has_plus_digits _ (dec_digits a)), (has_plus_digits _ (dec_digits b)).
    reflexivity.
Qed.

(** C34 for the printer of layouts: from the same start, two different ends (or two different
    start kinds) are never printed the same. *)
Theorem C34_size_string_dynamic_injective : forall start d1 d2 m n,
  0 <= start -> -1 <= m -> -1 <= n ->
  to_size_string_dynamic start d1 m = to_size_string_dynamic start d2 n -> d1 = d2 /\ m = n.
Proof.
  intros start d1 d2 m n Hs Hm Hn H.
  set (body k := if k =? -1 then to_size_string start ++ "+dynamic" else to_size_string (k + start)).
  assert (Hb : forall k, -1 <= k -> forall t, body k <> String "d" t).
  { intros k Hk t E. unfold body in E. destruct (Z.eqb_spec k (-1)).
    - rewrite to_size_string_body in E by lia.
      destruct (size_body (start / 8) (start mod 8)) eqn:Q; cbn [append] in E; [discriminate|].
      injection E as -> _. eapply size_body_head; [| |exact Q]; [apply Z.div_pos; lia|apply Z.mod_pos_bound; lia].
    - rewrite to_size_string_body in E by lia.
      eapply size_body_head; [| |exact E]; [apply Z.div_pos; lia|apply Z.mod_pos_bound; lia]. }
  assert (Hi : body m = body n -> m = n).
  { unfold body. destruct (Z.eqb_spec m (-1)); destruct (Z.eqb_spec n (-1)); intros E; try lia.
    - exfalso. assert (P : has_plus (to_size_string start ++ "+dynamic") = false).
      { rewrite E, to_size_string_body by lia. apply has_plus_body. }
      rewrite has_plus_app in P. rewrite orb_true_r in P. discriminate.
    - exfalso. assert (P : has_plus (to_size_string start ++ "+dynamic") = false).
      { rewrite <- E, to_size_string_body by lia. apply has_plus_body. }
      rewrite has_plus_app in P. rewrite orb_true_r in P. discriminate.
    - apply C34_size_string_injective in E; lia. }
  unfold to_size_string_dynamic in H. fold (body m) in H. fold (body n) in H.
  destruct d1, d2.
  - split; [reflexivity|]. apply Hi. cbn [append] in H. injection H as H. exact H.
  - exfalso. eapply (Hb n Hn). symmetry. exact H.
  - exfalso. eapply (Hb m Hm). exact H.
  - split; [reflexivity|]. apply Hi, H.
Qed.

Example C34_instance :
  to_size_string 8 = "1" /\ to_size_string 1 = "#1" /\ to_size_string 9 = "1#1" /\
  to_size_string_dynamic 12 true (-1) = "dynamic+1#4+dynamic".
Proof. repeat split; vm_compute; reflexivity. Qed.

Print Assumptions C33_highbit.
Print Assumptions C34_size_string_injective.
Print Assumptions C34_size_string_dynamic_injective.
