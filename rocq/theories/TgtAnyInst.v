(** [any_spec] for every target. *)
From Coq Require Import ZArith List Lia Bool.
From Verif Require Import Base BaseProofs Schema SpecWire GoModel GoBitProofs GoEncProofs GoEncMain GoDecProofs GoRound GoPrefix GoCore
  CfBits CfBitProofs TgtModel TgtEncProofs TgtDecProofs TgtPrims PyTarget KtTarget CTarget JavaTarget CsTarget JsTarget TgtPrefix TgtAny.
Import ListNotations.
Open Scope Z_scope.
Ltac Zify.zify_post_hook ::= Z.to_euclidean_division_equations.

Lemma g_dstring_any conv soft : (forall l, bad soft (conv l) \/ exists s, conv l = Ok s) ->
  forall p data l, str_scan (skipn (Z.to_nat p) data) 0 = inl l ->
  bad soft (g_dstring conv p data) \/ exists s, g_dstring conv p data = Ok (s, l + 1).
Proof.
  intros Hc p data l E. unfold g_dstring. rewrite E.
  destruct (Hc (firstn (Z.to_nat l) (skipn (Z.to_nat p) data))) as [H|(s & ->)]; [left; apply bad_bind; auto|right; cbn; eauto].
Qed.

Lemma sext_inj w p z : 1 <= w -> 0 <= p < 2 ^ w -> 0 <= z < 2 ^ w -> (sext w p =? sext w z) = (p =? z).
Proof.
  intros Hw Hp Hz. destruct (Z.eqb_spec p z); [subst; apply Z.eqb_refl|]. apply Z.eqb_neq. intros E.
  apply (f_equal (fun x => x mod 2 ^ w)) in E. rewrite !sext_mod, !Z.mod_small in E by lia. contradiction.
Qed.

(** *** Python, schemas without enums and strings: no exception. *)
Lemma py_any unr known (soft en st : Prop) : (en -> soft) -> (st -> soft) ->
  any_spec (py_tgt unr known) py_dreq (2 ^ 63) True soft en st.
Proof.
  intros He Hs.
  assert (V : forall e n p, is_fixed_scalar e = true -> adm_elem en st e ->
    bad soft (py_value known e n p) \/ exists z, py_value known e n p = Ok z).
  { intros e n p Sc Ad. destruct e as [b|bits| | |]; try discriminate; cbn [py_value].
    - right. destruct b; eauto.
    - destruct (known bits p); [right; eauto|left; right; split; auto]. }
  constructor; cbn [py_tgt t_dscalar t_dconst t_dloop t_dstring t_sub t_lstart t_kt].
  - intros e w n big from base data We Sc Ad Hn Hr Hb Hf Hok Hx Hl. pose proof (elem_bits_le e We Sc).
    rewrite py_dec_ok by (auto; lia). cbn [bind]. auto.
  - intros e n big from base data We Sc Ad Hn Hr Hb Hf Hok Hx Hl. pose proof (elem_bits_le e We Sc).
    rewrite read_field_bits_ok by (auto; lia). cbn [bind]. auto.
  - intros w n big from base z data Wb Hn Hr Hz Hb Hf Hok Hx Hl. pose proof (basic_bits_range _ Wb). cbn [basic_bits] in *.
    unfold py_dconst. rewrite py_dec_ok by (cbn in Hr; (lia || tauto)). reflexivity.
  - intros St p data l Hp Hok Hx E. apply g_dstring_any; auto. intros s. destruct (utf8_ok s); [eauto|left; right; auto].
  - apply py_size_spec.
  - reflexivity.
  - reflexivity.
  - discriminate.
Qed.

(** *** Kotlin *)
Lemma kt_any arith known repl : any_spec (kt_tgt arith known repl) kt_req (2 ^ 31) True False True True.
Proof.
  assert (V : forall e n p, is_fixed_scalar e = true -> exists z, kt_value arith known e n p = Ok z).
  { intros e n p Sc. destruct e as [b|bits| | |]; try discriminate; cbn [kt_value]; [destruct b|]; eauto. }
  constructor; cbn [kt_tgt t_dscalar t_dconst t_dloop t_dstring t_sub t_lstart t_kt t_checked].
  - intros e w n big from base data We Sc Ad Hn Hr Hb Hf Hok Hx Hl. pose proof (elem_bits_le e We Sc).
    rewrite kt_read_bits_ok by (auto; lia). cbn [bind]. auto.
  - intros e n big from base data We Sc Ad Hn Hr Hb Hf Hok Hx Hl. pose proof (elem_bits_le e We Sc).
    rewrite kt_read_bits_ok by (auto; lia). cbn [bind]. auto.
  - intros w n big from base z data Wb Hn Hr Hz Hb Hf Hok Hx Hl. pose proof (basic_bits_range _ Wb). cbn [basic_bits] in *.
    rewrite kt_read_bits_ok by (auto; lia). cbn [bind]. do 2 f_equal.
    assert (2 ^ n <= 2 ^ 64) by (apply Z.pow_le_mono_r; lia). rewrite !Z.mod_small; lia.
  - intros _ p data l Hp Hok Hx E. apply g_dstring_any; auto. intros s. right. eauto.
  - apply kt_size_spec.
  - reflexivity.
  - reflexivity.
  - reflexivity.
Qed.

(** *** C, C++ *)
Lemma c_any loop arith ew feq : any_spec (c_tgt loop arith ew feq) c_dreq (2 ^ 31) True False True True.
Proof.
  constructor; cbn [c_tgt t_dscalar t_dconst t_dloop t_dstring t_sub t_lstart t_kt t_checked].
  - intros e w n big from base data We Sc Ad Hn Hr Hb Hf Hok Hx Hl. pose proof (elem_bits_le e We Sc). right.
    destruct e as [b|bits| | |]; try discriminate; cbn [c_dscalar elem_bits wf_elem c_dreq r_scalar] in *.
    + pose proof (basic_bits_range _ We). destruct b; cbn [basic_bits] in *; rewrite cf_dec_eq by (auto; lia); cbn [bind]; eauto.
    + destruct (Hr bits eq_refl) as (Hu & Hle). rewrite Hu. pose proof (has_uint_range w Hu).
      rewrite cf_dec_eq by (auto; lia). cbn [bind]; eauto.
  - intros e n big from base data We Sc Ad Hn Hr Hb Hf Hok Hx Hl. pose proof (elem_bits_le e We Sc). right.
    unfold c_dloop. rewrite cf_read_bits_ok by (auto; lia). cbn [bind].
    destruct e as [b|bits| | |]; try discriminate; [destruct b|]; eauto.
  - intros w n big from base z data Wb Hn Hr Hz Hb Hf Hok Hx Hl. pose proof (basic_bits_range _ Wb). cbn [basic_bits] in *.
    assert (H64 : 1 <= n <= 64) by lia. destruct (enum_temp_ok n H64) as (Ht & Htn).
    unfold c_dconst. rewrite cf_dec_eq by (auto; lia). cbn [bind].
    pose proof (read_value_bound data (8 * base + from) n big ltac:(lia)).
    assert (2 ^ n <= 2 ^ enum_temp_bits n) by (apply Z.pow_le_mono_r; lia). rewrite Z.mod_small by lia. reflexivity.
  - intros _ p data l Hp Hok Hx E. apply g_dstring_any; auto. intros s. right. eauto.
  - apply c_size_spec.
  - reflexivity.
  - reflexivity.
  - discriminate.
Qed.

(** *** Java *)
Lemma jv_any loop arith known repl : any_spec (jv_tgt loop arith known repl) (jv_dreq arith) (2 ^ 31) True False True True.
Proof.
  constructor; cbn [jv_tgt t_dscalar t_dconst t_dloop t_dstring t_sub t_lstart t_kt t_checked].
  - intros e w n big from base data We Sc Ad Hn Hr Hb Hf Hok Hx Hl. pose proof (elem_bits_le e We Sc). right.
    destruct e as [b|bits| | |]; try discriminate; cbn [jv_dscalar elem_bits wf_elem jv_dreq r_scalar] in *.
    + pose proof (basic_bits_range _ We). destruct b as [|t|t|t]; cbn [basic_bits] in *.
      1-3: rewrite cf_dec_eq by (auto; lia); cbn [bind]; eauto.
      destruct Hr as (Hu & Hle & _). pose proof (has_uint_range w Hu). rewrite cf_dec_eq by (auto; lia); cbn [bind]; eauto.
    + destruct Hr as (Hu & Hle). unfold jv_enum. rewrite cf_dec_eq by (auto; lia). cbn [bind].
      destruct Hu as [->|[->| ->]]; cbn; eauto.
  - intros e n big from base data We Sc Ad Hn Hr Hb Hf Hok Hx Hl. pose proof (elem_bits_le e We Sc). right.
    unfold jv_dloop. rewrite cf_read_bits_ok by (auto; lia). cbn [bind]. cbn [jv_dreq r_loop] in Hr.
    destruct e as [b|bits| | |]; try discriminate; [destruct b as [|t|t|t]|]; eauto; [|unfold jv_enum; eauto].
    destruct (Z.leb_spec t n); eauto. destruct arith; eauto. destruct (Z.leb_spec 32 n); eauto.
    exfalso. destruct Hr as [|[|]]; [discriminate|lia|lia].
  - intros w n big from base z data Wb Hn (Hr & Ht & Hz') Hz Hb Hf Hok Hx Hl. pose proof (basic_bits_range _ Wb). cbn [basic_bits] in *.
    unfold jv_dconst. cbn [basic_bits]. rewrite <- Ht. rewrite Z.ltb_irrefl. rewrite cf_dec_eq by (auto; lia). cbn [bind].
    pose proof (read_value_bound data (8 * base + from) n big ltac:(lia)).
    assert (2 ^ n <= 2 ^ w) by (apply Z.pow_le_mono_r; lia). rewrite sext_inj by lia. reflexivity.
  - intros _ p data l Hp Hok Hx E. apply g_dstring_any; auto. intros s. right. eauto.
  - apply jv_size_spec.
  - reflexivity.
  - cbn. contradiction.
  - discriminate.
Qed.

(** *** C#: no array of variable-size structs. *)
Lemma cs_any loop arith repl : any_spec (cs_tgt loop arith repl) (cs_dreq arith) (2 ^ 31) False False True True.
Proof.
  constructor; cbn [cs_tgt t_dscalar t_dconst t_dloop t_dstring t_sub t_lstart t_kt t_checked].
  - intros e w n big from base data We Sc Ad Hn Hr Hb Hf Hok Hx Hl. pose proof (elem_bits_le e We Sc). right.
    destruct e as [b|bits| | |]; try discriminate; cbn [cs_dscalar elem_bits wf_elem cs_dreq r_scalar] in *.
    + pose proof (basic_bits_range _ We). destruct b as [|t|t|t]; cbn [basic_bits] in *.
      * rewrite cf_dec_eq by (auto; lia); cbn [bind]; eauto.
      * rewrite cf_dec_eq by (auto; lia); cbn [bind]; eauto.
      * replace (arith && (n =? 64)) with false by (destruct arith; [destruct (Z.eqb_spec n 64); [lia|reflexivity]|reflexivity]).
        rewrite cf_dec_eq by (auto; lia); cbn [bind]; eauto.
      * subst t. rewrite cf_dec_eq by (auto; lia); cbn [bind]. rewrite Z.ltb_irrefl. eauto.
    + destruct Hr as (Hu & Hle). pose proof (has_uint_range w Hu). rewrite Hu. rewrite cf_dec_eq by (auto; lia). cbn [bind]. eauto.
  - intros e n big from base data We Sc Ad Hn Hr Hb Hf Hok Hx Hl. pose proof (elem_bits_le e We Sc). right.
    unfold cs_dloop. rewrite cf_read_bits_ok by (auto; lia). cbn [bind].
    destruct e as [b|bits| | |]; try discriminate; [destruct b as [|t|t|t]|]; eauto.
    destruct (t <=? n); eauto. destruct arith; eauto.
  - intros w n big from base z data Wb Hn (Hr & Ht & Hz') Hz Hb Hf Hok Hx Hl. pose proof (basic_bits_range _ Wb). cbn [basic_bits] in *.
    unfold cs_dconst. rewrite <- Ht. rewrite Z.ltb_irrefl. rewrite cf_dec_eq by (auto; lia). cbn [bind].
    assert (2 ^ n <= 2 ^ w) by (apply Z.pow_le_mono_r; lia). rewrite (Z.mod_small z) by lia. reflexivity.
  - intros _ p data l Hp Hok Hx E. apply g_dstring_any; auto. intros s. right. eauto.
  - apply cs_size_spec.
  - intros b data p Hp. destruct (Z.ltb_spec p 0); [lia|]. destruct (Z.ltb_spec (zlen data) p); [lia|]. reflexivity.
  - reflexivity.
  - discriminate.
Qed.

(** *** JavaScript: no strings (C51_js_string_refuted). *)
Lemma js_any loop known feq : any_spec (js_tgt loop known feq) js_dreq (2 ^ 28) True False True False.
Proof.
  constructor; cbn [js_tgt t_dscalar t_dconst t_dloop t_dstring t_sub t_lstart t_kt t_checked].
  - intros e w n big from base data We Sc Ad Hn Hr Hb Hf Hok Hx Hl. pose proof (elem_bits_le e We Sc). right.
    destruct e as [b|bits| | |]; try discriminate; cbn [js_dscalar elem_bits wf_elem js_dreq r_scalar] in *.
    + pose proof (basic_bits_range _ We). unfold js_dec_big. destruct b as [|t|t|t]; cbn [basic_bits] in *.
      * rewrite js_dec_eq by (auto; lia); cbn [bind]; eauto.
      * destruct (Z.ltb_spec 32 t); [rewrite cf_dec_eq by (auto; lia)|rewrite js_dec_eq by (auto; lia)]; eauto.
      * destruct (Z.ltb_spec 32 t).
        { rewrite cf_dec_eq by (auto; lia). cbn [bind]. assert (t = 64) by (cbn in We; lia). subst t.
          destruct (Z.eqb_spec n 32); [contradiction|eauto]. }
        rewrite js_dec_eq by (auto; lia). cbn [bind]. eauto.
      * destruct (Z.ltb_spec 32 t); [rewrite cf_dec_eq by (auto; lia)|rewrite js_dec_eq by (auto; lia)]; cbn [bind]; eauto.
    + rewrite js_dec_eq by (auto; lia). cbn [bind]. unfold jv_enum. eauto.
  - intros e n big from base data We Sc Ad Hn Hr Hb Hf Hok Hx Hl. pose proof (elem_bits_le e We Sc). right.
    unfold js_dloop. rewrite cf_read_bits_ok by (auto; lia). cbn [bind]. unfold jv_enum.
    destruct e as [b|bits| | |]; try discriminate; [destruct b as [|t|t|t]|]; eauto.
  - intros w n big from base z data Wb Hn (Hr & Hz' & Hw) Hz Hb Hf Hok Hx Hl. pose proof (basic_bits_range _ Wb). cbn [basic_bits] in *.
    unfold js_dconst, js_dscalar, js_dec_big. cbn [basic_bits].
    pose proof (read_value_bound data (8 * base + from) n big ltac:(lia)) as B.
    destruct (Z.ltb_spec 32 w).
    + rewrite cf_dec_eq by (auto; lia). cbn [bind]. unfold js_big_literal.
      destruct (Z.ltb_spec (2 ^ 31 - 1) z); [|lia]. reflexivity.
    + rewrite js_dec_eq by (auto; lia). cbn [bind]. unfold js_big_literal.
      destruct (Z.ltb_spec (2 ^ 31 - 1) z); [lia|]. destruct (Z.ltb_spec z (- 2 ^ 31)); [lia|]. cbn [Bool.eqb orb].
      f_equal. assert (2 ^ n <= 2 ^ 32) by (apply Z.pow_le_mono_r; lia).
      rewrite <- (sext_id 32 z) at 1 by lia. apply sext_inj; lia.
  - contradiction.
  - apply js_size_spec.
  - reflexivity.
  - reflexivity.
  - discriminate.
Qed.
