(** Whole structs: the printed C statements do what encode does in CTarget.v. *)
From Coq Require Import ZArith Lia Bool String Ascii List.
Import ListNotations.
From Verif Require Import Base BaseProofs Schema SpecWire GoModel GoBitProofs GoEncMain CfBits TgtModel PyTarget CTarget Literals PropsLit ExprModel ExprSpec ExprProofs ExprLex ExprParse PrintTree CSem CText CTextEnc.
Open Scope string_scope.
Open Scope Z_scope.
Open Scope list_scope.
Ltac Zify.zify_post_hook ::= Z.to_euclidean_division_equations.

(** ** Which structs, and the state before *)

(** Structs of basic types other than floats, enums, constants, padding and arrays that are written out (an array of enums
    only if an unsigned type has the width of the enum rounded up to bytes). *)
Definition plain_elem (e : elem) : bool :=
  match e with EBasic (BFloat _) => false | EBasic _ | EEnum _ => true | _ => false end.
Fixpoint flat (loop : nat -> bool) (fs : fields) : Prop :=
  match fs with
  | FNil => True
  | FOne e _ _ r => plain_elem e = true /\ flat loop r
  | FArr e len _ _ r =>
      plain_elem e = true /\ match e with EEnum _ => has_uint (elem_width e) = true | _ => True end /\ loop len = false /\ flat loop r
  | FVoid _ r | FConst _ _ _ _ r | FEmb r => flat loop r
  end.
(** The names of the members. *)
Fixpoint names_ok (fs : fields) (names : list chars) : Prop :=
  match fs with
  | FNil => names = []
  | FOne _ _ _ r | FArr _ _ _ _ r =>
      match names with f :: names => name_okb f = true /\ names_ok r names | [] => False end
  | FVoid _ r | FConst _ _ _ _ r | FEmb r => names_ok r names
  end.
(** An object of the type the header declares: bool, intN_t, uintN_t, or for an enum whatever integer type the compiler
    chose; and a number of that type. *)
Definition obj_ok (e : elem) (t : ctype) (z : Z) : Prop :=
  match e with
  | EBasic b => t = basic_ctype b /\ in_range t z = true
  | _ => exists s m, t = CI s m /\ in_range t z = true
  end.
(** The members of *ptr hold the values [vs]. *)
Fixpoint holds (st : cst) (fs : fields) (names : list chars) (vs : list val) : Prop :=
  match fs with
  | FNil => vs = []
  | FOne e _ _ r =>
      match names, vs with
      | f :: names, VNum z :: vs => (exists t, c_mem st f = Some (One t z) /\ obj_ok e t z) /\ holds st r names vs
      | _, _ => False
      end
  | FArr e len _ _ r =>
      match names, vs with
      | f :: names, VArr arr :: vs =>
          (exists t zs, arr = map VNum zs /\ List.length zs = len /\ c_mem st f = Some (Many t zs) /\ Forall (obj_ok e t) zs) /\ holds st r names vs
      | _, _ => False
      end
  | FVoid _ r | FConst _ _ _ _ r | FEmb r => holds st r names vs
  end.
Lemma holds_mem st st' fs : c_mem st' = c_mem st -> forall names vs, holds st fs names vs -> holds st' fs names vs.
Proof.
  intros K. induction fs; intros names vs H; cbn [holds] in *; auto.
  - destruct names as [|f names]; [contradiction|]. destruct vs as [|[z| | |] vs]; try contradiction. rewrite K. destruct H; auto.
  - destruct names as [|f names]; [contradiction|]. destruct vs as [|[| | |arr] vs]; try contradiction. rewrite K. destruct H; auto.
Qed.

Lemma quot_elems len eb : (0 < len)%nat -> Z.quot (Z.of_nat len * eb) (Z.of_nat len) = eb.
Proof. intros H. rewrite Z.mul_comm. apply Z.quot_mul. lia. Qed.
Lemma next_scalar from n : 1 <= n -> next_from from n = from + n.
Proof. intros H. unfold next_from. destruct (Z.eqb_spec n (-1)); lia. Qed.
Lemma not_m1 n : 1 <= n -> (n =? -1) = false.
Proof. intros H. destruct (Z.eqb_spec n (-1)); [lia|reflexivity]. Qed.
Lemma plain_fixed e : plain_elem e = true -> is_fixed_scalar e = true /\ elem_dyn e = false.
Proof. destruct e; try discriminate; auto. Qed.
Lemma fixed_nonneg fs : 0 <= fixed_bits fs.
Proof. induction fs; cbn [fixed_bits]; repeat match goal with |- context [if ?c <? ?d then _ else _] => destruct (Z.ltb_spec c d) end; lia. Qed.
Lemma has_uint_std w : has_uint w = true -> std_bits w.
Proof. unfold has_uint, std_bits. intros H. repeat (apply orb_true_iff in H as [H|H]); apply Z.eqb_eq in H; auto. Qed.

(** ** The state between the statements: temporaries of the positions from [a] to [b] may be new *)
Record keeps (a b : Z) (st st' : cst) : Prop := {
  k_mem : c_mem st' = c_mem st;
  k_loc : forall x, (forall k, a <= k < b -> x <> temp_name k) -> c_loc st' x = c_loc st x
}.
Lemma keeps_refl a b st : keeps a b st st. Proof. split; auto. Qed.
Lemma keeps_trans a b c st st1 st2 : a <= b <= c -> keeps a b st st1 -> keeps b c st1 st2 -> keeps a c st st2.
Proof.
  intros L [M1 K1] [M2 K2]. split; [congruence|]. intros x H. rewrite K2, K1; auto; intros k Hk; apply H; lia.
Qed.
Lemma keeps_join a b st st1 st2 : keeps a b st st1 -> keeps a b st1 st2 -> keeps a b st st2.
Proof. intros [M1 K1] [M2 K2]. split; [congruence|]. intros x H. rewrite K2, K1; auto. Qed.
Lemma keeps_widen a b a' b' st st1 : a' <= a -> b <= b' -> keeps a b st st1 -> keeps a' b' st st1.
Proof. intros H1 H2 [M K]. split; auto. intros x H. apply K. intros k Hk. apply H. lia. Qed.
Lemma keeps_data a b st d : keeps a b st (set_data st d). Proof. split; auto. Qed.
Lemma keeps_temp k b st v : 0 <= k < b -> keeps k b st (set_loc st (temp_name k) v).
Proof. intros Hb. split; auto. intros x H. cbn [set_loc c_loc]. apply upd_other. apply H. lia. Qed.
Definition fresh (st : cst) (a : Z) : Prop := forall k, a <= k < 2 ^ 63 -> c_loc st (temp_name k) = None.
Lemma fresh_keeps a b st st' : 0 <= a <= b -> b < 2 ^ 63 -> keeps a b st st' -> fresh st a -> fresh st' b.
Proof.
  intros H B [_ K] F k Hk. rewrite K; [apply F; lia|]. intros j Hj E. apply temp_inj in E; unfold temp_ok; lia.
Qed.

Definition after (a b : Z) (st : cst) (ls : list chars) (r : res (list Z * Z)) : Prop :=
  match r with
  | Ok (d, o) => o = 0 /\ exists st', runs st ls (Ok st') /\ c_data st' = d /\ keeps a b st st'
  | Panic => runs st ls Panic
  | Fail => False
  end.
Lemma after_app a b c st ls ls' r f : a <= b <= c -> after a b st ls r ->
  (forall st', keeps a b st st' -> after b c st' ls' (f 0 (c_data st'))) ->
  after a c st (ls ++ ls') (do (d, o) <- r; f o d).
Proof.
  intros L H F. destruct r as [[d o]| |]; cbn [bind after] in *; auto.
  - destruct H as (-> & st1 & R1 & <- & K1). specialize (F st1 K1).
    destruct (f 0 (c_data st1)) as [[d o]| |]; cbn [after] in *; auto.
    + destruct F as (-> & st2 & R2 & D2 & K2). split; auto. exists st2. split; [eapply runs_app; eauto|].
      split; auto. eapply keeps_trans; eauto.
    + eapply runs_app; eauto.
  - apply runs_app_panic; [exact H|congruence].
Qed.
Lemma after_lift a b st st1 ls r : r <> Fail -> keeps a b st st1 -> runs st ls (lift_data st1 r) -> after a b st ls (do d <- r; Ok (d, 0)).
Proof.
  intros H2 K R. destruct r as [d| |]; cbn [bind after lift_data] in *; [|congruence|exact R].
  split; [reflexivity|]. exists (set_data st1 d). split; [exact R|]. split; [reflexivity|]. eapply keeps_join; [exact K|apply keeps_data].
Qed.
Lemma cf_enc_loop_nofail fd from to : forall fuel i buf, cf_enc_loop fuel (fun i _ => i mod 8 =? 0) fd 0 from to i buf <> Fail.
Proof.
  induction fuel as [|fuel IH]; intros i buf; [discriminate|]. rewrite cf_enc_loop_S. destruct (i <? to); [|discriminate].
  match goal with |- context [cf_step ?a ?b ?c ?d] => destruct (cf_step_cases a b c d) as [[d' ->]| ->] end; cbn [bind]; [apply IH|discriminate].
Qed.
Lemma cf_enc_nofail fd from n buf : cf_enc fd from n 0 buf <> Fail.
Proof. apply cf_enc_loop_nofail. Qed.

Section Struct.
Variables (loop : nat -> bool) (arith : bool) (ew : Z -> Z) (feq : Z -> Z -> Z -> bool) (dn : bool).
Let T := c_tgt loop arith ew feq.

(** One scalar member. *)
Lemma enc_one_runs st e n big from x p t z : plain_elem e = true -> wf_elem e -> 0 <= from -> from + n < 2 ^ 63 -> 1 <= n <= elem_bits e -> elem_bits e <= 64 ->
  var x p -> object st p = Some (Ok (t, Some z)) -> obj_ok e t z -> c_loc st (temp_name from) = None ->
  after from (from + n) st (match e with
      | EBasic b => enc_basic_text dn b n big from (show x)
      | EEnum _ => enc_enum_text dn (enum_temp_bits n) n big from (show x)
      | _ => [] end) (tenc_elem T false e (enum_temp_bits n) n big from (VNum z) 0 0 (c_data st)).
Proof.
  intros Pe We Hf Hb Hn L64 V O Ok' Fr. destruct e as [b|bits| | |s]; try discriminate Pe; cbn [obj_ok elem_bits wf_elem] in *.
  - destruct Ok' as [-> R]. apply (after_lift _ _ st st); [apply cf_enc_nofail|apply keeps_refl|].
    apply (enc_basic_runs st dn b n big from x p z); auto; try lia; destruct b; auto; discriminate.
  - destruct Ok' as (s & m & -> & _). destruct (enum_temp_ok n ltac:(lia)) as (Hu & Hle).
    change (tenc_elem T false (EEnum bits) (enum_temp_bits n) n big from (VNum z) 0 0 (c_data st)) with
      (do d <- c_escalar (EEnum bits) (enum_temp_bits n) n big from (0 + 0) z (c_data st); Ok (d, 0)).
    cbn [c_escalar]. rewrite Hu.
    apply (after_lift _ _ st (with_temp st from (enum_temp_bits n) (z mod 2 ^ enum_temp_bits n))); [apply cf_enc_nofail|apply keeps_temp; lia|].
    apply (enc_enum_runs st dn (enum_temp_bits n) n big from x p s m z); auto; try lia; now apply has_uint_std.
Qed.

(** One element of an array: enums go through the temporary of the array's position [k]. *)
Definition temp_there (e : elem) (st : cst) (k : Z) : Prop :=
  match e with EEnum _ => exists v, c_loc st (temp_name k) = Some (CI false (elem_width e), v) | _ => True end.
Lemma enc_elem_runs st e n big from k x p t z b : plain_elem e = true -> wf_elem e -> 0 <= from -> from + n < 2 ^ 63 -> 0 <= k < b -> 1 <= n <= elem_bits e -> elem_bits e <= 64 ->
  match e with EEnum _ => has_uint (elem_width e) = true | _ => True end ->
  var x p -> object st p = Some (Ok (t, Some z)) -> obj_ok e t z -> temp_there e st k ->
  match tenc_elem T false e (elem_width e) n big from (VNum z) 0 0 (c_data st) with
  | Ok (d, o) => o = 0 /\ exists st', runs st (match e with
      | EEnum _ => enc_enum_elem_text dn (elem_width e) n big from k (show x)
      | EBasic b => enc_basic_text dn b n big from (show x)
      | _ => [] end) (Ok st') /\ c_data st' = d /\ keeps k b st st' /\ temp_there e st' k
  | Panic => runs st (match e with
      | EEnum _ => enc_enum_elem_text dn (elem_width e) n big from k (show x)
      | EBasic b => enc_basic_text dn b n big from (show x)
      | _ => [] end) Panic
  | Fail => False
  end.
Proof.
  intros Pe We Hf Hb Hk Hn L64 Hu V O Ok' Tt. destruct e as [bb|bits| | |s]; try discriminate Pe; cbn [obj_ok elem_bits wf_elem temp_there] in *.
  - destruct Ok' as [-> R].
    assert (X : runs st (enc_basic_text dn bb n big from (show x)) (lift_data st (cf_enc (field_data n big (z mod 2 ^ basic_bits bb)) from n 0 (c_data st)))).
    { apply (enc_basic_runs st dn bb n big from x p z); auto; try lia; destruct bb; auto; discriminate. }
    change (tenc_elem T false (EBasic bb) (elem_width (EBasic bb)) n big from (VNum z) 0 0 (c_data st)) with
      (do d <- cf_enc (field_data n big (z mod 2 ^ basic_bits bb)) from n 0 (c_data st); Ok (d, 0)).
    pose proof (cf_enc_nofail (field_data n big (z mod 2 ^ basic_bits bb)) from n (c_data st)).
    destruct (cf_enc _ from n 0 (c_data st)) as [d| |]; cbn [bind lift_data] in *; [|congruence|exact X].
    split; auto. exists (set_data st d). split; [exact X|]. split; [reflexivity|]. split; [apply keeps_data|exact I].
  - destruct Ok' as (s & m & -> & _). destruct Tt as [v0 Tt].
    assert (Hw : bits <= elem_width (EEnum bits)) by (unfold elem_width; cbn [elem_bits]; lia).
    set (w := elem_width (EEnum bits)) in *.
    assert (X : runs st (enc_enum_elem_text dn w n big from k (show x))
      (lift_data (with_temp st k w (z mod 2 ^ w)) (cf_enc (field_data n big (z mod 2 ^ w)) from n 0 (c_data st)))).
    { apply (enc_enum_elem_runs st dn w n big from k x p s m z v0); auto; try lia. now apply has_uint_std. }
    change (tenc_elem T false (EEnum bits) w n big from (VNum z) 0 0 (c_data st)) with
      (do d <- c_escalar (EEnum bits) w n big from (0 + 0) z (c_data st); Ok (d, 0)).
    cbn [c_escalar]. rewrite Hu. change (0 + 0) with 0.
    pose proof (cf_enc_nofail (field_data n big (z mod 2 ^ w)) from n (c_data st)).
    destruct (cf_enc _ from n 0 (c_data st)) as [d| |]; cbn [bind lift_data] in *; [|congruence|exact X].
    split; auto. exists (set_data (with_temp st k w (z mod 2 ^ w)) d). split; [exact X|]. split; [reflexivity|]. split.
    + eapply keeps_join; [apply keeps_temp; exact Hk|apply keeps_data].
    + exists (Some (z mod 2 ^ w)). cbn [set_data with_temp set_loc c_loc]. apply upd_same.
Qed.
(** The elements of an array that is written out. *)
Lemma enc_elems_run e eb big from k f t all b : plain_elem e = true -> wf_elem e -> 0 <= from -> 0 <= k < b -> 1 <= eb <= elem_bits e -> elem_bits e <= 64 ->
  match e with EEnum _ => has_uint (elem_width e) = true | _ => True end -> name_okb f = true -> Forall (obj_ok e t) all ->
  from + Z.of_nat (List.length all) * eb < 2 ^ 63 ->
  forall zs (i : nat) st, (i + List.length zs = List.length all)%nat -> (forall j, nth_error zs j = nth_error all (i + j)) ->
  c_mem st f = Some (Many t all) -> temp_there e st k ->
  after k b st (enc_elems_text dn e (elem_width e) eb big from k f (List.length zs) (Z.of_nat i))
    (iter_enc (fun i v o d => tenc_elem T false e (elem_width e) eb big (from + i * eb) v 0 o d) (Z.of_nat i) (map VNum zs) 0 (c_data st)).
Proof.
  intros Pe We Hf Hk He L64 Hu Hn Fa Hb. induction zs as [|z zs IH]; intros i st Li Nt Mm Tt; cbn [List.length enc_elems_text iter_enc map].
  - cbn [after]. split; auto. exists st. split; [constructor|]. split; [reflexivity|]. apply keeps_refl.
  - cbn [List.length] in Li. pose proof (Nt O) as N0. cbn [nth_error] in N0. rewrite Nat.add_0_r in N0.
    assert (Oz : obj_ok e t z) by (rewrite Forall_forall in Fa; apply Fa; now apply nth_error_In with i).
    assert (O : object st (PE f (Z.of_nat i)) = Some (Ok (t, Some z))).
    { cbn [object]. rewrite Mm. destruct (Z.ltb_spec (Z.of_nat i) 0); [lia|]. rewrite Nat2Z.id, <- N0. reflexivity. }
    set (fr := from + Z.of_nat i * eb). assert (Hfr : 0 <= fr /\ fr + eb < 2 ^ 63) by (subst fr; nia).
    assert (Hi : 0 <= Z.of_nat i < 2 ^ 63) by nia.
    pose proof (enc_elem_runs st e eb big fr k (elem_px f (Z.of_nat i)) (PE f (Z.of_nat i)) t z b Pe We ltac:(lia) ltac:(lia) Hk He L64 Hu
      (var_elem f (Z.of_nat i) Hn Hi) O Oz Tt) as X. rewrite show_elem in X. subst fr.
    destruct (tenc_elem T false e (elem_width e) eb big (from + Z.of_nat i * eb) (VNum z) 0 0 (c_data st)) as [[d o]| |]; cbn [bind]; [|destruct X|apply runs_app_panic; [exact X|congruence]].
    destruct X as (-> & st1 & R1 & <- & K1 & T1).
    assert (Nt' : forall j, nth_error zs j = nth_error all (S i + j)) by (intros j; replace (S i + j)%nat with (i + S j)%nat by lia; exact (Nt (S j))).
    specialize (IH (S i) st1 ltac:(lia) Nt' ltac:(now rewrite (k_mem _ _ _ _ K1)) T1). replace (Z.of_nat (S i)) with (Z.of_nat i + 1) in IH by lia.
    match goal with |- after _ _ _ _ ?r => destruct r as [[d o]| |] end; cbn [after] in *.
    + destruct IH as (-> & st2 & R2 & D2 & K2). split; auto. exists st2. split; [eapply runs_app; eauto|]. split; auto. eapply keeps_join; eauto.
    + exact IH.
    + eapply runs_app; eauto.
Qed.

Theorem enc_fields_run : forall fs names vs from st, wf_fields fs from -> flat loop fs -> names_ok fs names ->
  holds st fs names vs -> 0 <= from -> from + fixed_bits fs < 2 ^ 63 -> fresh st from ->
  exists to, after from to st (enc_text dn fs names from) (tenc_fields T false fs vs from 0 0 (c_data st)).
Proof.
  induction fs as [|e n big r IH|e len n big r IH|n r IH|b n big z r IH|r IH]; intros names vs from st W Fl Nm Hd Hf Hb Fr; cbn [enc_text tenc_fields].
  - exists from. cbn [after]. split; auto. exists st. split; [constructor|]. split; [reflexivity|]. apply keeps_refl.
  - cbn [wf_fields flat names_ok holds fixed_bits] in *. destruct Fl as [Pe Fl]. destruct (plain_fixed e Pe) as [Fs _]. rewrite Fs in W. destruct W as (We & Hn & Wr).
    pose proof (fixed_nonneg r) as Fn. destruct (Z.ltb_spec 0 n); [|lia].
    destruct names as [|f names]; [contradiction|]. destruct Nm as (N1 & Nm). destruct vs as [|[z| | |] vs]; try contradiction. destruct Hd as [(t & G & Og) Hd].
    rewrite next_scalar in * by lia. rewrite not_m1 by lia. cbn [orb]. pose proof (elem_bits_le e We Fs) as L64.
    assert (X : after from (from + n) st (match e with
      | EBasic b => enc_basic_text dn b n big from (show (field_px f))
      | EEnum _ => enc_enum_text dn (enum_temp_bits n) n big from (show (field_px f))
      | _ => [] end) (tenc_elem T false e (enum_temp_bits n) n big from (VNum z) 0 0 (c_data st))).
    { apply (enc_one_runs st e n big from (field_px f) (PF f) t z); auto; try lia.
      - now apply var_field.
      - cbn [object]. now rewrite G.
      - apply Fr. lia. }
    rewrite show_field in X.
    destruct (tenc_elem T false e (enum_temp_bits n) n big from (VNum z) 0 0 (c_data st)) as [[d o]| |]; cbn [bind].
    + destruct X as (-> & st1 & R1 & <- & K1).
      destruct (IH names vs (from + n) st1 Wr Fl Nm (holds_mem _ _ _ (k_mem _ _ _ _ K1) _ _ Hd) ltac:(lia) ltac:(lia)) as [to X].
      { apply (fresh_keeps from (from + n) st); auto; lia. }
      exists (Z.max to (from + n)). destruct (tenc_fields T false r vs (from + n) 0 0 (c_data st1)) as [[d o]| |]; cbn [after] in *; auto.
      * destruct X as (-> & st2 & R2 & D2 & K2). split; auto. exists st2. split; [eapply runs_app; eauto|]. split; auto.
        eapply keeps_trans; [|exact K1|eapply keeps_widen; [| |exact K2]]; lia.
      * eapply runs_app; eauto.
    + destruct X.
    + exists from. cbn [after]. apply runs_app_panic; [exact X|congruence].
  - cbn [wf_fields flat names_ok holds fixed_bits] in *. destruct Fl as (Pe & Hu & Ul & Fl). destruct (plain_fixed e Pe) as [Fs Fd]. rewrite Fs in W. destruct W as (We & Hl & (eb & He & ->) & Wr).
    pose proof (fixed_nonneg r) as Fn. assert (P : 1 <= Z.of_nat len * eb) by nia. destruct (Z.ltb_spec 0 (Z.of_nat len * eb)); [|lia].
    destruct names as [|f names]; [contradiction|]. destruct Nm as (N1 & Nm). destruct vs as [|[| | |arr] vs]; try contradiction.
    destruct Hd as [(t & zs & -> & L & G & Og) Hd]. rewrite quot_elems by auto. rewrite Fd. change (t_loop T len) with (loop len). rewrite Ul.
    rewrite next_scalar in * by exact P. rewrite not_m1 by exact P. cbn [orb]. pose proof (elem_bits_le e We Fs) as L64.
    set (nx := from + Z.of_nat len * eb) in *.
    set (pre := match e with EEnum _ => [uint_name (elem_width e) ++ cs " " ++ temp_name from ++ cs ";"] | _ => [] end).
    assert (Y : exists st0, runs st pre (Ok st0) /\ c_data st0 = c_data st /\ keeps from nx st st0 /\ temp_there e st0 from).
    { destruct e as [bb|bits| | |s]; try discriminate Pe; cbn [pre temp_there].
      - exists st. split; [constructor|]. split; [reflexivity|]. split; [apply keeps_refl|exact I].
      - exists (set_loc st (temp_name from) (CI false (elem_width (EEnum bits)), None)). split; [|split; [reflexivity|split]].
        + apply var_runs; auto; [now apply has_uint_std|]. apply Fr. lia.
        + apply keeps_temp. lia.
        + exists None. cbn [set_loc c_loc]. apply upd_same. }
    destruct Y as (st0 & R0 & D0 & K0 & T0). rewrite <- D0.
    pose proof (enc_elems_run e eb big from from f t zs nx Pe We Hf ltac:(lia) He L64 Hu N1 Og ltac:(lia) zs O st0 eq_refl (fun j => eq_refl)
      ltac:(now rewrite (k_mem _ _ _ _ K0)) T0) as X. rewrite L in X. change (Z.of_nat 0) with 0 in X.
    change (8 * ((elem_bits e + 7) / 8)) with (elem_width e).
    match goal with |- exists to, after _ _ _ _ (bind ?q _) => destruct q as [[d o]| |] end; cbn [bind after] in *.
    + destruct X as (-> & st1 & R1 & <- & K1).
      assert (K01 : keeps from nx st st1) by (eapply keeps_join; eauto).
      destruct (IH names vs nx st1 Wr Fl Nm (holds_mem _ _ _ (k_mem _ _ _ _ K01) _ _ Hd) ltac:(lia) ltac:(lia)) as [to X].
      { apply (fresh_keeps from nx st); auto; lia. }
      exists (Z.max to nx). destruct (tenc_fields T false r vs nx 0 0 (c_data st1)) as [[d o]| |]; cbn [after] in *; auto.
      * destruct X as (-> & st2 & R2 & D2 & K2). split; auto. exists st2. split; [eapply runs_app; [exact R0|]; eapply runs_app; eauto|]. split; auto.
        eapply keeps_trans; [|exact K01|eapply keeps_widen; [| |exact K2]]; lia.
      * eapply runs_app; [exact R0|]. eapply runs_app; eauto.
    + destruct X.
    + exists from. cbn [after]. eapply runs_app; [exact R0|]. apply runs_app_panic; [exact X|congruence].
  - cbn [wf_fields flat names_ok holds fixed_bits] in *. destruct W as [Hn Wr]. rewrite next_scalar in * by lia.
    pose proof (fixed_nonneg r) as Fn. destruct (Z.ltb_spec 0 n); [|lia].
    destruct (IH names vs (from + n) st Wr Fl Nm Hd ltac:(lia) ltac:(lia) ltac:(intros k Hk; apply Fr; lia)) as [to X].
    exists to. destruct (tenc_fields T false r vs (from + n) 0 0 (c_data st)) as [[d o]| |]; cbn [after] in *; auto.
    destruct X as (-> & st1 & R1 & D1 & K1). split; auto. exists st1. split; auto. split; auto. eapply keeps_widen; [| |exact K1]; lia.
  - cbn [wf_fields flat names_ok holds fixed_bits] in *. destruct W as (Wb & Hn & Wr). rewrite next_scalar in * by lia.
    pose proof (fixed_nonneg r) as Fn. destruct (Z.ltb_spec 0 n); [|lia].
    pose proof (enc_const_runs st dn b n big from z Hf ltac:(lia)) as X.
    change (t_econst T b n big from (0 + 0) z (c_data st)) with (cf_enc (const_data (basic_bits b) big z) from n 0 (c_data st)).
    pose proof (cf_enc_nofail (const_data (basic_bits b) big z) from n (c_data st)) as Nf.
    destruct (cf_enc _ from n 0 (c_data st)) as [d| |]; cbn [bind lift_data] in *; [|congruence|exists from; apply runs_app_panic; [exact X|congruence]].
    destruct (IH names vs (from + n) (set_data st d) Wr Fl Nm (holds_mem st (set_data st d) r eq_refl _ _ Hd) ltac:(lia) ltac:(lia) ltac:(intros k Hk; apply Fr; lia)) as [to Y].
    change (c_data (set_data st d)) with d in Y.
    exists to. destruct (tenc_fields T false r vs (from + n) 0 0 d) as [[d1 o]| |]; cbn [after] in *; auto.
    + destruct Y as (-> & st1 & R1 & D1 & K1). split; auto. exists st1. split; [eapply runs_app; eauto|]. split; auto.
      eapply keeps_join; [apply keeps_data|]. eapply keeps_widen; [| |exact K1]; lia.
    + eapply runs_app; eauto.
  - cbn [wf_fields flat names_ok holds fixed_bits] in *. apply (IH names vs from st); auto.
Qed.
End Struct.
