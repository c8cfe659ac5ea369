(** C52: integer constants keep their value from the schema to the generated code. *)
From Coq Require Import ZArith Lia Bool String Ascii List.
Import ListNotations.
From Verif Require Import Base BaseProofs Literals.
Open Scope string_scope.
Open Scope Z_scope.
Open Scope list_scope.
Ltac Zify.zify_post_hook ::= Z.to_euclidean_division_equations.

Definition token_base (t : chars) : ibase :=
  match t with
  | c0 :: c1 :: _ =>
      if Ascii.eqb c0 "0" && (Ascii.eqb c1 "x" || Ascii.eqb c1 "X") then BHex
      else if Ascii.eqb c0 "0" && (Ascii.eqb c1 "b" || Ascii.eqb c1 "B") then BBin
      else BDec
  | _ => BDec
  end.

Lemma token_base_cases t v : int_token t v ->
  (token_base t = BHex /\ hex_token t) \/ (token_base t = BDec /\ ~ hex_token t).
Proof.
  intros [c ds w Hc H| |ds w H|x ds w Hx H].
  - right. split.
    + destruct ds; cbn [token_base]; [reflexivity|]. destruct (Ascii.eqb_spec c "0"); [contradiction|reflexivity].
    + intros (x & r & E & _). congruence.
  - right. split; [reflexivity|]. intros (x & r & E & _). discriminate.
  - right. destruct ds as [|x r]; [exfalso; eapply numeral_nonempty; eauto|].
    assert (X : exists d, digit_value x = Some d /\ d < 8).
    { apply numeral_read in H. cbn [read_digits] in H. destruct (digit_value x) as [d|]; [|discriminate].
      destruct (Z.ltb_spec d 8); [|discriminate]. eauto. }
    destruct X as (d & Hd & H8).
    assert (N : forall c, In c ["x"; "X"; "b"; "B"]%char -> x <> c).
    { intros c Hc ->. cbn [In] in Hc.
      repeat (destruct Hc as [<-|Hc]; [cbv in Hd; try discriminate; injection Hd as <-; lia|]). destruct Hc. }
    split.
    + cbn [token_base]. rewrite Ascii.eqb_refl.
      repeat match goal with |- context [Ascii.eqb x ?c] => destruct (Ascii.eqb_spec x c) as [e|]; [exfalso; revert e; apply N; cbn [In]; auto|] end.
      reflexivity.
    + intros (y & r' & E & Hy). injection E as E1 E2. rewrite <- E1 in Hy.
      destruct Hy as [Hy|Hy]; revert Hy; apply N; cbn [In]; auto.
  - left. split; [|exists x, ds; auto].
    cbn [token_base]. destruct Hx as [-> | ->]; reflexivity.
Qed.

Lemma visit_int_token neg t v : int_token t v -> v < 2 ^ 63 ->
  visit_int neg t = Some {| i_val := if neg then - v else v; i_uns := false; i_base := token_base t |}.
Proof.
  intros H L. unfold visit_int. rewrite (parse_int_token t v H). destruct (Z.ltb_spec v (2 ^ 63)); [reflexivity|lia].
Qed.

Lemma int_token_nonneg t v : int_token t v -> 0 <= v.
Proof.
  assert (F : forall b (ds : chars) w, 1 < b -> numeral b ds w -> 0 <= w).
  { intros b ds w Hb H. apply numeral_read in H. apply read_digits_ge in H; lia. }
  intros [c ds w Hc H| |ds w H|x ds w Hx H]; try lia; eapply F; try eassumption; lia.
Qed.

(** The text of a signed literal that is not a negative number in base 16 or 2. *)
Lemma emit_signed g (dn : bool) z (b : ibase) : let e := if dn then BDec else match b with BAuto => BDec | x => x end in
  (0 <= z \/ e = BDec) ->
  emit_int g dn {| i_val := z; i_uns := false; i_base := b |} =
  (if z <? 0 then ["-"%char] else []) ++ base_pre e ++ fmt_uint (base_num e) (Z.abs z) ++
  suffix_of g ((2 ^ 31 - 1 <? z) || (z <? - 2 ^ 31)).
Proof.
  intros e He.
  assert (F : forall (dn' : bool) (b' : ibase), (if dn' then BDec else match b' with BAuto => BDec | x => x end) = e ->
    format_int dn' {| i_val := z; i_uns := false; i_base := b' |} =
    (if z <? 0 then ["-"%char] else []) ++ base_pre e ++ fmt_uint (base_num e) (Z.abs z)).
  { intros dn' b' E. unfold format_int, fmt_int. cbn [i_base i_uns i_val].
    clearbody e. destruct (Z.ltb_spec z 0) as [L|L].
    - destruct He as [He|He]; [lia|]. rewrite He in *. rewrite Z.abs_neq by lia.
      destruct b', dn'; try discriminate; reflexivity.
    - rewrite Z.abs_eq by lia. rewrite <- E. destruct b', dn'; reflexivity. }
  assert (W : wide {| i_val := z; i_uns := false; i_base := b |} = ((2 ^ 31 - 1 <? z) || (z <? - 2 ^ 31))).
  { unfold wide. cbn [i_val i_uns andb]. now rewrite orb_false_r. }
  unfold emit_int. rewrite W. cbn [i_base i_uns i_val andb].
  destruct g; cbn [suffix_of]; rewrite ?app_nil_r; try (apply F; reflexivity).
  - rewrite F.
    + destruct ((2 ^ 31 - 1 <? z) || (z <? - 2 ^ 31)); rewrite ?app_nil_r, <- ?app_assoc; reflexivity.
    + subst e. destruct dn, b; reflexivity.
  - rewrite F by reflexivity.
    destruct ((2 ^ 31 - 1 <? z) || (z <? - 2 ^ 31)); rewrite ?app_nil_r, <- ?app_assoc; reflexivity.
  - rewrite F by reflexivity.
    destruct ((2 ^ 31 - 1 <? z) || (z <? - 2 ^ 31)); rewrite ?app_nil_r, <- ?app_assoc; reflexivity.
Qed.

Lemma reads_signed g (dn : bool) z (b : ibase) : let e := if dn then BDec else match b with BAuto => BDec | x => x end in
  - 2 ^ 63 < z < 2 ^ 63 -> (0 <= z \/ e = BDec) ->
  reads g (emit_int g dn {| i_val := z; i_uns := false; i_base := b |}) = Some z.
Proof.
  intros e Hz He. rewrite (emit_signed g dn z b He). fold e.
  set (w := (2 ^ 31 - 1 <? z) || (z <? - 2 ^ 31)).
  assert (Hw : w = true \/ (w = false /\ - 2 ^ 31 <= z < 2 ^ 31)) by (subst w; lia).
  clearbody w. clearbody e.
  rewrite reads_fmt.
  - f_equal. cbv zeta.
    assert (X : match g with OJava => if base_num e =? 10 then Z.abs z else sext (if w then 64 else 32) (Z.abs z) | _ => Z.abs z end = Z.abs z).
    { destruct g; auto. destruct (Z.eqb_spec (base_num e) 10); auto.
      destruct He as [He|He]; [|subst e; cbn in n; lia].
      destruct Hw as [-> | [-> Hr]]; apply sext_id; lia. }
    rewrite X. destruct (Z.ltb_spec z 0); lia.
  - unfold fits. destruct g; auto; try lia.
    + destruct (base_num e =? 10); lia.
    + destruct (base_num e =? 10); lia.
    + destruct (Z.eqb_spec (base_num e) 10).
      * destruct Hw as [-> | [-> Hr]]; lia.
      * destruct He as [He|He]; [|subst e; cbn in n; lia]. destruct Hw as [-> | [-> Hr]]; lia.
    + destruct Hw as [Hw|[_ Hr]]; [now left|right; lia].
    + destruct Hw as [Hw|[_ Hr]]; [now left|right; lia].
Qed.

(** An integer constant whose magnitude fits in 63 bits is read back by every target language as the number
    the schema's author wrote, in whatever base it was written and with or without -decnum; the only
    exception is a negative constant written in hexadecimal without -decnum. *)
Theorem C52_int_constant : forall g dn neg t v, int_token t v -> v < 2 ^ 63 ->
  (neg = true /\ hex_token t /\ dn = false -> v = 0) ->
  exists l, visit_int neg t = Some l /\ reads g (emit_int g dn l) = Some (if neg then - v else v).
Proof.
  intros g dn neg t v H L X. pose proof (int_token_nonneg t v H).
  rewrite (visit_int_token neg t v H L). eexists. split; [reflexivity|].
  apply reads_signed; [destruct neg; lia|].
  destruct (token_base_cases t v H) as [[E Hx]|[E Hx]]; rewrite E.
  - destruct dn; [now right|]. left. destruct neg; [|lia]. rewrite X; auto. lia.
  - right. now destruct dn.
Qed.

(** A constant that does not fit in 63 bits is rejected with an error, whatever its sign. *)
Theorem C52_too_large : forall neg t v, int_token t v -> 2 ^ 63 <= v -> visit_int neg t = None.
Proof.
  intros neg t v H L. unfold visit_int. rewrite (parse_int_token t v H).
  destruct (Z.ltb_spec v (2 ^ 63)); [lia|reflexivity].
Qed.

(** Hexadecimal constants stay hexadecimal, unless -decnum is given: then nothing but decimal digits is
    written (and a sign, and a suffix). *)
Theorem C52_base : forall g t v l, int_token t v -> visit_int false t = Some l ->
  (hex_token t -> exists ds s, emit_int g false l = cs "0x" ++ ds ++ s /\ read_base 16 ds = Some v) /\
  (exists ds s, emit_int g true l = ds ++ s /\ read_base 10 ds = Some v).
Proof.
  intros g t v l H E. pose proof (int_token_nonneg t v H).
  assert (L : v < 2 ^ 63).
  { destruct (Z.lt_ge_cases v (2 ^ 63)) as [C|C]; [exact C|]. rewrite (C52_too_large false t v H C) in E. discriminate. }
  rewrite (visit_int_token false t v H L) in E. injection E as <-.
  split.
  - intros Hx. destruct (token_base_cases t v H) as [[E _]|[_ N]]; [|contradiction]. rewrite E.
    rewrite emit_signed by (left; lia). destruct (Z.ltb_spec v 0); [lia|]. cbn [app base_pre base_num].
    eexists _, _. split; [reflexivity|]. rewrite read_base_fmt by lia. f_equal. lia.
  - rewrite emit_signed by (left; lia). destruct (Z.ltb_spec v 0); [lia|]. cbn [app base_pre base_num].
    eexists _, _. split; [reflexivity|]. rewrite read_base_fmt by lia. f_equal. lia.
Qed.

Lemma read_lit_minus g neg r : read_lit g neg ("0" :: "x" :: "-" :: r)%char = None.
Proof.
  assert (B : forall m, read_body ("0" :: "x" :: "-" :: m)%char = None) by reflexivity.
  assert (B' : read_body (removelast ("0" :: "x" :: "-" :: r)%char) = None).
  { destruct r; [reflexivity|]. change (removelast ("0" :: "x" :: "-" :: a :: r)%char) with ("0" :: "x" :: "-" :: removelast (a :: r))%char. apply B. }
  unfold read_lit. destruct g; try (now rewrite B).
  - destruct (ends_with "L" _); [now rewrite B'|now rewrite B].
  - destruct (ends_with "n" _); [now rewrite B'|now rewrite B].
  - destruct (ends_with "n" _); [now rewrite B'|now rewrite B].
Qed.

(** Finding: a negative constant written in hexadecimal, such as -0x5, is accepted and emitted as "0x-5",
    which is not a literal of any target language. *)
Theorem C52_negative_hex_refuted : forall g t v, int_token t v -> hex_token t -> 0 < v < 2 ^ 63 ->
  exists l, visit_int true t = Some l /\ reads g (emit_int g false l) = None.
Proof.
  intros g t v H Hx L. rewrite (visit_int_token true t v H) by lia. eexists. split; [reflexivity|].
  destruct (token_base_cases t v H) as [[E _]|[_ N]]; [|contradiction]. rewrite E.
  assert (F : format_int false {| i_val := - v; i_uns := false; i_base := BHex |} = ("0" :: "x" :: "-" :: fmt_uint 16 v)%char).
  { unfold format_int, fmt_int. cbn [i_base i_uns i_val]. destruct (Z.ltb_spec (- v) 0); [|lia].
    rewrite Z.opp_involutive. reflexivity. }
  unfold emit_int. cbn [i_base i_uns i_val].
  assert (R : forall r, reads g ("0" :: "x" :: "-" :: r)%char = None).
  { intros r. unfold reads. change (Ascii.eqb "0" "-") with false. cbv iota. apply read_lit_minus. }
  destruct g; rewrite ?F; try apply R; destruct (wide _); apply R.
Qed.

(** Numbers the generators make themselves (masks, sizes) of an unsigned 64-bit Go value: every literal
    generator writes a text that the target reads as that value; Java, which has no unsigned types, as the
    signed long with the same 64 bits.  Kotlin and, in decimal, C and C++ have no literals for 2^63 and
    above. *)
Definition has_literal (g : olang) (dn : bool) (b : ibase) (u : Z) : Prop :=
  u < 2 ^ 63 \/
  match g with
  | OKt => False
  | OC | OCpp => dn = false /\ (b = BHex \/ b = BBin)
  | _ => True
  end.
Theorem C52_mask : forall g dn b u, 0 <= u < 2 ^ 64 -> has_literal g dn b u ->
  reads g (emit_int g dn (make_int_lit false u b)) =
  Some (match g with OJava => sext 64 u | _ => u end).
Proof.
  intros g dn b u Hu Hl. unfold make_int_lit.
  set (e := if dn then BDec else match b with BAuto => BDec | x => x end).
  set (s := sext 64 u).
  assert (Hs : s mod 2 ^ 64 = u) by (subst s; rewrite sext_mod by lia; lia).
  assert (Hs2 : (u < 2 ^ 63 /\ s = u) \/ (2 ^ 63 <= u /\ s = u - 2 ^ 64)).
  { destruct (Z.lt_ge_cases u (2 ^ 63)) as [C|C]; [left|right]; split; auto.
    - apply sext_id; [lia|]. change (64 - 1) with 63. lia.
    - subst s. rewrite (sext_congr 64 u (u - 2 ^ 64)).
      + apply sext_id; [lia|]. change (64 - 1) with 63. lia.
      + replace (u - 2 ^ 64) with (u + (-1) * 2 ^ 64) by lia. now rewrite Z_mod_plus_full. }
  assert (W : wide {| i_val := s; i_uns := true; i_base := b |} = (2 ^ 31 - 1 <? u)).
  { unfold wide. cbn [i_val i_uns andb]. rewrite Hs. lia. }
  assert (F : forall dn' b', format_int dn' {| i_val := s; i_uns := true; i_base := b' |} =
    let e := if dn' then BDec else match b' with BAuto => BDec | x => x end in
    base_pre e ++ fmt_uint (base_num e) u).
  { intros dn' b'. unfold format_int. cbn [i_base i_uns i_val]. rewrite Hs. destruct dn', b'; reflexivity. }
  assert (R : forall w e', fits g false e' w u ->
     reads g (base_pre e' ++ fmt_uint (base_num e') u ++ suffix_of g w) =
     Some (match g with OJava => if base_num e' =? 10 then u else sext (if w then 64 else 32) u | _ => u end)).
  { intros w e' Hf. pose proof (reads_fmt g e' w u) as Q. rewrite Z.abs_eq in Q by lia.
    destruct (Z.ltb_spec u 0); [lia|]. cbn [app] in Q. rewrite Q by exact Hf. reflexivity. }
  unfold emit_int. rewrite W. cbn [i_base i_uns i_val andb].
  destruct g.
  - rewrite F. cbv zeta. fold e. specialize (R false e I). cbn [suffix_of] in R. now rewrite app_nil_r in R.
  - rewrite F. cbv zeta. fold e. specialize (R false e). cbn [suffix_of fits] in R. rewrite app_nil_r in R.
    apply R. destruct Hl as [Hl|[-> [-> | ->]]]; [destruct (base_num e =? 10); lia| |]; cbn; lia.
  - rewrite F. cbv zeta. fold e. specialize (R false e). cbn [suffix_of fits] in R. rewrite app_nil_r in R.
    apply R. destruct Hl as [Hl|[-> [-> | ->]]]; [destruct (base_num e =? 10); lia| |]; cbn; lia.
  - rewrite F. cbv zeta. fold e. specialize (R false e). cbn [suffix_of fits] in R. rewrite app_nil_r in R.
    apply R. lia.
  - rewrite F. cbv zeta iota.
    fold e. match goal with |- context [base_pre ?x] => set (e' := x) end.
    replace (if (2 ^ 31 - 1 <? u) then (base_pre e' ++ fmt_uint (base_num e') u) ++ cs "L" else base_pre e' ++ fmt_uint (base_num e') u)
      with (base_pre e' ++ fmt_uint (base_num e') u ++ suffix_of OJava (2 ^ 31 - 1 <? u))
      by (cbn [suffix_of]; destruct (2 ^ 31 - 1 <? u); rewrite ?app_nil_r, ?app_assoc; reflexivity).
    assert (D : base_num e' = 10 -> s = u /\ u < 2 ^ 63).
    { subst e'. clearbody s. clear - Hs2 Hu.
      destruct (Z.ltb_spec s 0) as [C|C]; destruct dn, b; cbn [base_num]; intros; try discriminate; lia. }
    rewrite R.
    + f_equal. destruct (Z.eqb_spec (base_num e') 10) as [E|E]; [now destruct (D E)|].
      destruct (Z.ltb_spec (2 ^ 31 - 1) u); [reflexivity|].
      destruct Hs2 as [[_ ->]|]; [|lia]. apply sext_id; [lia|]. change (32 - 1) with 31. lia.
    + unfold fits. destruct (Z.eqb_spec (base_num e') 10) as [E|E].
      * destruct (D E). destruct (Z.ltb_spec (2 ^ 31 - 1) u); lia.
      * destruct (Z.ltb_spec (2 ^ 31 - 1) u); lia.
  - rewrite F. cbv zeta. fold e. specialize (R false e). cbn [suffix_of fits] in R. rewrite app_nil_r in R.
    apply R. destruct Hl; [lia|contradiction].
  - rewrite F. cbv zeta. fold e. specialize (R false e I). cbn [suffix_of] in R. now rewrite app_nil_r in R.
  - rewrite F. cbv zeta. fold e. specialize (R (2 ^ 31 - 1 <? u) e).
    cbn [suffix_of] in R. destruct (Z.ltb_spec (2 ^ 31 - 1) u).
    + rewrite <- app_assoc. apply R. now left.
    + rewrite app_nil_r in R. apply R. right. lia.
  - rewrite F. cbv zeta. fold e. specialize (R (2 ^ 31 - 1 <? u) e).
    cbn [suffix_of] in R. destruct (Z.ltb_spec (2 ^ 31 - 1) u).
    + rewrite <- app_assoc. apply R. now left.
    + rewrite app_nil_r in R. apply R. right. lia.
Qed.

(** Non-trivial cases: an octal, a hexadecimal and the largest decimal constant. *)
Example C52_example_tokens :
  int_token (cs "0755") 493 /\ int_token (cs "0xFf") 255 /\ hex_token (cs "0xFf") /\
  visit_int true (cs "9223372036854775807") = Some {| i_val := - 9223372036854775807; i_uns := false; i_base := BDec |} /\
  emit_int OJava false {| i_val := - 9223372036854775807; i_uns := false; i_base := BDec |} = cs "-9223372036854775807L" /\
  emit_int OCjs false {| i_val := 4294967295; i_uns := false; i_base := BHex |} = cs "0xFFFFFFFFn" /\
  emit_int OPy false {| i_val := -5; i_uns := false; i_base := BHex |} = cs "0x-5".
Proof.
  repeat split; try (vm_compute; reflexivity).
  - apply tok_oct. change 493 with ((7 * 8 + 5) * 8 + 5).
    apply (num_more 8 ["7"; "5"]%char); [apply (num_more 8 ["7"%char])| |]; try (apply num_one); try reflexivity; lia.
  - apply tok_hex; [now left|]. change 255 with (15 * 16 + 15). apply (num_more 16 ["F"%char]); [apply num_one| |]; try reflexivity; lia.
  - exists "x"%char, (cs "Ff"). split; [reflexivity|now left].
Qed.
