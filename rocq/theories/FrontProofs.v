(** Proofs about the front end: C23, C24, C25, C26, C43, C44. *)
From Coq Require Import String ZArith List Bool Lia.
From Verif Require Import Base BaseProofs Schema NameStyle FrontModel FrontSpec.
Import ListNotations.
Open Scope string_scope.
Open Scope Z_scope.
Open Scope list_scope.

Lemma bind_ok {A B} (m : res A) (f : A -> res B) b :
  bind m f = Ok b -> exists a, m = Ok a /\ f a = Ok b.
Proof. destruct m; simpl; intros H; try discriminate. eauto. Qed.

Ltac inv1 H :=
  match type of H with
  | bind ?m ?f = Ok ?b =>
      let a := fresh "a" in let E := fresh "E" in
      apply bind_ok in H; destruct H as [a [E H]]; cbv beta in H;
      repeat match goal with x : (_ * _)%type |- _ => destruct x; cbv iota in H end
  end.
Ltac invb H := repeat (inv1 H).

(** ** Sums *)
Lemma sum_bits_ideal l : forall acc, sum_bits ideal l acc = acc + fixed_width l.
Proof.
  induction l as [|f r IH]; intros acc; cbn [sum_bits fixed_width fold_right]; [lia|].
  rewrite IH. unfold fixed_width, ideal. destruct (0 <? nbits f) eqn:E; lia.
Qed.

Lemma fixed_width_app a b : fixed_width (a ++ b) = fixed_width a + fixed_width b.
Proof. induction a as [|f r IH]; cbn [app fixed_width fold_right]; [unfold fixed_width; lia|].
  unfold fixed_width in *. rewrite IH. lia. Qed.

Lemma fixed_bits_erase l : fixed_bits (erase l) = fixed_width l.
Proof.
  induction l as [|f r IH]; [reflexivity|].
  unfold fixed_width in *. cbn [fold_right]. rewrite <- IH.
  destruct f as [nm ms t [len|] n big|n|nm b n big z|nm]; cbn [erase fixed_bits nbits];
    try (destruct (0 <? n) eqn:E; lia); lia.
Qed.

Lemma fixed_bits_nonneg fs : 0 <= fixed_bits fs.
Proof. induction fs; cbn [fixed_bits]; try destruct (0 <? bits) eqn:E; lia. Qed.

(** ** Types *)
Definition ty_ok (t : fty) : Prop :=
  acc_elem (t_elem t) /\ t_bits t = elem_bits (t_elem t) /\ t_dyn t = elem_dyn (t_elem t).
Definition field_ok (f : nfield) : Prop :=
  match f with
  | NNormal _ _ t _ _ _ => ty_ok t /\ width_ok f
  | NConst _ b _ _ _ => wf_basic b /\ width_ok f
  | _ => width_ok f
  end.
Definition vt_ok (v : vtype) : Prop :=
  match v with
  | VTStruct s => struct_ok s /\ Forall field_ok (cs_fields s)
  | VTOther t => ty_ok t /\ match t_elem t with EStruct _ => False | _ => True end
  end.

Lemma basic_of_wf b : wf_basic (basic_of b).
Proof. destruct b; cbn; auto. Qed.
Lemma basic_bits_pos b : wf_basic b -> 8 <= basic_bits b.
Proof. destruct b; cbn; intros; lia. Qed.

Lemma sum_dyn_erase l : Forall field_ok l -> fields_dyn (erase l) = sum_dyn l.
Proof.
  unfold sum_dyn. induction 1 as [|f r Hf _ IH]; [reflexivity|].
  destruct f as [nm ms t [len|] n big|n|nm b n big z|nm]; cbn [erase fields_dyn existsb ndyn];
    rewrite IH; try reflexivity; destruct Hf as [(_ & _ & ->) _]; reflexivity.
Qed.

Definition next_start (start n : Z) : Z := if n =? -1 then start else start + n.

Lemma acc_struct_bits fs : some_field fs = true -> forall from, acc_fields fs from ->
  fields_dyn fs = false -> 1 <= fixed_bits fs.
Proof.
  assert (H : (forall e, acc_elem e -> elem_dyn e = false -> 1 <= elem_bits e) /\
              (forall fs, some_field fs = true -> forall from, acc_fields fs from ->
                 fields_dyn fs = false -> 1 <= fixed_bits fs)).
  { apply schema_ind.
    - intros b Hb _. cbn in *. apply basic_bits_pos in Hb. lia.
    - intros n Hn _. exact Hn.
    - intros _ H. discriminate.
    - intros _ H. discriminate.
    - intros fs0 IH (Hs & Ha & _) Hd. cbn in *. exact (IH Hs 0 Ha Hd).
    - intros H. discriminate.
    - intros e IHe n big r _ _ from (He & Hw & _) Hd.
      cbn [fields_dyn] in Hd. apply orb_false_iff in Hd. destruct Hd as [Hd _].
      specialize (IHe He Hd). pose proof (fixed_bits_nonneg r).
      cbn [fixed_bits]. destruct (is_fixed_scalar e); [|destruct Hw as [_ Hw]];
        destruct (0 <? n) eqn:E; lia.
    - intros e IHe len n big r _ _ from (He & Hl & Hw & _) Hd.
      cbn [fields_dyn] in Hd. apply orb_false_iff in Hd. destruct Hd as [Hd _].
      rewrite Hd in Hw. pose proof (fixed_bits_nonneg r).
      assert (1 <= n).
      { destruct (is_fixed_scalar e); [|destruct Hw as [_ Hw]]; destruct Hw as (eb & Hb & ->); nia. }
      cbn [fixed_bits]. destruct (0 <? n) eqn:E; lia.
    - intros n r _ _ from (Hn & _) Hd. pose proof (fixed_bits_nonneg r).
      cbn [fixed_bits]. destruct (0 <? n) eqn:E; lia.
    - intros b n big z r _ _ from (_ & Hn & _) Hd. pose proof (fixed_bits_nonneg r).
      cbn [fixed_bits]. destruct (0 <? n) eqn:E; lia.
    - intros r IH Hs from Ha Hd. cbn in *. eauto. }
  intros. eapply H; eauto.
Qed.

(** ** Alignment *)
Lemma erase_acc l : Forall field_ok l -> forall from, 0 <= from ->
  check_align ideal l from = true -> acc_fields (erase l) from.
Proof.
  induction 1 as [|f r Hf _ IH]; intros from Hfrom Hc; [exact I|].
  cbn [check_align] in Hc. apply andb_true_iff in Hc. destruct Hc as [Ha Hc].
  apply negb_true_iff in Ha. unfold ideal in Hc.
  assert (Hstep : 0 <= (if nbits f =? -1 then from else from + nbits f)).
  { destruct f as [nm ms t [len|] n big|n|nm b n big z|nm]; cbn [nbits field_ok width_ok] in *.
    - destruct Hf as (_ & Hl & Hw). destruct (elem_dyn (t_elem t)); [rewrite Hw; cbn; lia|].
      destruct (n =? -1); lia.
    - destruct Hf as (_ & Hw). destruct (t_elem t); try (rewrite Hw; cbn; lia).
      + destruct (n =? -1); lia.
      + destruct (n =? -1); lia.
      + pose proof (fixed_bits_nonneg fs). destruct (n =? -1); lia.
    - destruct (n =? -1); lia.
    - destruct (n =? -1); lia.
    - cbn. lia. }
  specialize (IH _ Hstep Hc).
  destruct f as [nm ms t [len|] n big|n|nm b n big z|nm]; cbn [erase acc_fields nbits field_ok width_ok] in *.
  - destruct Hf as ((Ht & Hb & Hd) & Hl & Hw).
    split; [exact Ht|]. split; [lia|]. split; [|exact IH].
    rewrite Z2Nat.id by lia.
    cbn [must_align] in Ha.
    assert (Hal : is_fixed_scalar (t_elem t) = false -> from mod 8 = 0).
    { intros Hs. destruct (t_elem t); cbn in Hs; try discriminate Hs;
        cbn in Ha; apply negb_false_iff in Ha; apply Z.eqb_eq in Ha;
        rewrite Z.rem_mod_nonneg in Ha by lia; exact Ha. }
    destruct (is_fixed_scalar (t_elem t)) eqn:Es.
    + assert (Hnd : elem_dyn (t_elem t) = false) by (destruct (t_elem t); cbn in *; congruence).
      rewrite Hnd in Hw. destruct Hw as (Hn & k & ->). exists k. split; [nia|reflexivity].
    + split; [auto|].
      destruct (elem_dyn (t_elem t)); [exact Hw|].
      destruct Hw as (Hn & k & ->). exists k. split; [nia|reflexivity].
  - destruct Hf as ((Ht & Hb & Hd) & Hw).
    split; [exact Ht|]. split; [|exact IH].
    cbn [must_align] in Ha.
    assert (Hal : is_fixed_scalar (t_elem t) = false -> from mod 8 = 0).
    { intros Hs. destruct (t_elem t); cbn in Hs; try discriminate Hs;
        cbn in Ha; apply negb_false_iff in Ha; apply Z.eqb_eq in Ha;
        rewrite Z.rem_mod_nonneg in Ha by lia; exact Ha. }
    cbn [width_ok] in Hw.
    destruct (t_elem t); cbn [is_fixed_scalar elem_bits] in *; auto.
  - destruct (n =? -1) eqn:E; [lia|]. split; [exact Hf|exact IH].
  - destruct Hf as (Hwb & Hw). cbn [width_ok] in Hw. destruct (n =? -1) eqn:E; [lia|].
    split; [exact Hwb|]. split; [exact Hw|exact IH].
  - cbn [Z.eqb] in IH. rewrite Z.add_0_r in IH. exact IH.
Qed.

Lemma check_align_spec l : Forall field_ok l -> forall from, 0 <= from ->
  check_align ideal l from = true ->
  forall pre f post, l = pre ++ f :: post -> must_align f = true ->
    (from + fixed_width pre) mod 8 = 0.
Proof.
  induction 1 as [|g r Hg _ IH]; intros from Hfrom Hc pre f post Hl Hm.
  - destruct pre; discriminate.
  - cbn [check_align] in Hc. apply andb_true_iff in Hc. destruct Hc as [Ha Hc].
    destruct pre as [|p pre]; injection Hl as -> Hl.
    + rewrite Hm in Ha. apply negb_true_iff in Ha. cbn in Ha. apply negb_false_iff in Ha.
      apply Z.eqb_eq in Ha. rewrite Z.rem_mod_nonneg in Ha by lia.
      unfold fixed_width. cbn. rewrite Z.add_0_r. exact Ha.
    + unfold ideal in Hc at 2.
      assert (Heq : from + fixed_width (p :: pre)
                    = (if nbits p =? -1 then from else from + nbits p) + fixed_width pre /\
                    0 <= (if nbits p =? -1 then from else from + nbits p)).
      { unfold fixed_width. cbn [fold_right].
        assert (nbits p = -1 \/ 0 <= nbits p).
        { destruct p as [nm ms t [len|] n big|n|nm b n big z|nm]; cbn [nbits field_ok width_ok] in *.
          - destruct Hg as (_ & Hl0 & Hw). destruct (elem_dyn (t_elem t)); lia.
          - destruct Hg as (_ & Hw). destruct (t_elem t); try lia.
            pose proof (fixed_bits_nonneg fs). lia.
          - lia.
          - lia.
          - lia. }
        destruct (nbits p =? -1) eqn:E; lia. }
      destruct Heq as [-> Hge]. eapply IH; eauto.
Qed.

(** ** Names in a struct *)
Lemma mem_spec k l : mem k l = false <-> ~ In k l.
Proof.
  unfold mem. induction l as [|x r IH]; cbn; [tauto|].
  destruct (String.eqb_spec k x); cbn.
  - subst. split; [discriminate|tauto].
  - rewrite IH. split; [intros H [?|?]; [congruence|tauto]|tauto].
Qed.

Lemma NoDup_snoc {A} (l : list A) a : NoDup l -> ~ In a l -> NoDup (l ++ [a]).
Proof.
  intros Hl Ha. apply NoDup_rev in Hl. rewrite <- (rev_involutive (l ++ [a])).
  apply NoDup_rev. rewrite rev_app_distr. cbn. constructor; [|exact Hl].
  rewrite <- in_rev. exact Ha.
Qed.

Lemma body_names_ok l : forall seen seen', body_names seen l = Ok seen' ->
  NoDup seen -> seen' = seen ++ l /\ NoDup seen'.
Proof.
  induction l as [|n r IH]; intros seen seen' H Hn; cbn [body_names] in H.
  - injection H as <-. rewrite app_nil_r. auto.
  - inv1 H. unfold body_name in E. destruct (mem n seen) eqn:Em; [discriminate|].
    injection E as <-. apply mem_spec in Em.
    destruct (IH _ _ H (NoDup_snoc _ _ Hn Em)) as [-> Hn'].
    split; [rewrite <- app_assoc; reflexivity|exact Hn'].
Qed.

(** State of VisitStructBody: the names seen are those of the fields so far, without repetition. *)
Definition st_ok (st : list string * list nfield) : Prop :=
  fst st = flat_map names_of (snd st) /\ NoDup (fst st).

Lemma add_field_ok st f st' : add_field st f = Ok st' -> st_ok st ->
  st_ok st' /\ snd st' = snd st ++ [f].
Proof.
  unfold add_field, st_ok. intros H [H1 H2]. apply bind_ok in H. destruct H as (seen & E & H).
  injection H as <-. cbn [fst snd].
  apply body_names_ok in E; [|exact H2]. destruct E as [-> Hn].
  split; [|reflexivity]. split; [|exact Hn].
  rewrite flat_map_app, <- H1. cbn [flat_map]. rewrite app_nil_r. reflexivity.
Qed.
Lemma add_fields_ok l : forall st st', add_fields st l = Ok st' -> st_ok st ->
  st_ok st' /\ snd st' = snd st ++ l.
Proof.
  induction l as [|f r IH]; intros st st' H Hs; cbn [add_fields] in H.
  - injection H as <-. rewrite app_nil_r. auto.
  - apply bind_ok in H. destruct H as (s1 & E & H).
    apply add_field_ok in E; [|exact Hs]. destruct E as [Hs1 E].
    destruct (IH _ _ H Hs1) as [Hs2 E2]. split; [exact Hs2|].
    rewrite E2, E, <- app_assoc. reflexivity.
Qed.
Lemma add_embedded_ok st s st' : add_embedded st s = Ok st' -> st_ok st ->
  st_ok st' /\ snd st' = snd st ++ expand (IEmb s).
Proof.
  unfold add_embedded. intros H Hs. apply bind_ok in H. destruct H as (s1 & E & H).
  apply add_field_ok in E; [|exact Hs]. destruct E as [Hs1 E].
  destruct (add_fields_ok _ _ _ H Hs1) as [Hs2 E2]. split; [exact Hs2|].
  rewrite E2, E, <- app_assoc. reflexivity.
Qed.

(** ** Sizes *)
Lemma int_lit_ok n z : int_lit n = Ok z -> z = Z.of_N n.
Proof. unfold int_lit. destruct (Z.of_N n <? 2 ^ 63); congruence. Qed.
Lemma visit_size_ideal s z : visit_size ideal s = Ok z ->
  z = 8 * Z.of_N (fst s) + Z.of_N (snd s) /\ 1 <= z.
Proof.
  unfold visit_size. intros H. apply bind_ok in H. destruct H as (a & Ea & H).
  apply bind_ok in H. destruct H as (b & Eb & H).
  apply int_lit_ok in Ea. apply int_lit_ok in Eb. unfold ideal in H.
  destruct (a * 8 + b =? 0) eqn:E; [discriminate|]. injection H as <-. lia.
Qed.
Lemma visit_opt_size_ideal s z : visit_opt_size ideal s = Ok z ->
  0 <= z /\ (z = 0 <-> s = None) /\
  (forall x, s = Some x -> z = 8 * Z.of_N (fst x) + Z.of_N (snd x)).
Proof.
  destruct s as [x|]; cbn [visit_opt_size].
  - intros H. apply visit_size_ideal in H. destruct H as [-> H].
    split; [lia|]. split; [split; [lia|discriminate]|]. intros y [= ->]. reflexivity.
  - intros [= <-]. split; [lia|]. split; [tauto|discriminate].
Qed.
Lemma visit_arr_ok arr a : visit_arr arr = Ok a ->
  a = option_map Z.of_N arr /\ (forall len, a = Some len -> 1 <= len).
Proof.
  destruct arr as [n|]; cbn [visit_arr].
  - intros H. apply bind_ok in H. destruct H as (z & E & H). apply int_lit_ok in E.
    destruct (z =? 0) eqn:E0; [discriminate|]. injection H as <-. subst.
    split; [reflexivity|]. intros len [= <-]. lia.
  - intros [= <-]. split; [reflexivity|discriminate].
Qed.

Lemma vt_ty_ok v : vt_ok v -> ty_ok (fty_of v).
Proof.
  destruct v as [s|t]; cbn [vt_ok fty_of].
  - intros ((H1 & H2 & H3 & _) & _). unfold ty_ok, fty_struct. cbn [t_elem t_bits t_dyn].
    split; [exact H1|]. split; [exact H2|exact H3].
  - intros [H _]. exact H.
Qed.

Lemma normal_size_ok v a size n name ms big : vt_ok v -> 0 <= size ->
  (forall len, a = Some len -> 1 <= len) ->
  normal_size ideal v a size = Ok n -> field_ok (NNormal name ms (fty_of v) a n big).
Proof.
  intros Hv Hsz Hlen H. pose proof (vt_ty_ok v Hv) as Ht. cbn [field_ok].
  split; [exact Ht|]. destruct Ht as (Hacc & Hb & Hd).
  unfold normal_size, type_bits, ideal in H.
  assert (Hebits : elem_dyn (t_elem (fty_of v)) = false -> 1 <= elem_bits (t_elem (fty_of v))).
  { destruct (t_elem (fty_of v)) as [b|w| | |fs]; cbn in *; intros Hnd; try discriminate.
    - apply basic_bits_pos in Hacc. lia.
    - exact Hacc.
    - destruct Hacc as (Hs & Ha & _). exact (acc_struct_bits _ Hs _ Ha Hnd). }
  destruct a as [len|]; cbn [width_ok].
  - specialize (Hlen len eq_refl). split; [exact Hlen|]. rewrite Hd in H.
    destruct (elem_dyn (t_elem (fty_of v))) eqn:Ed.
    + destruct (size =? 0); [congruence|]. cbn in H. discriminate.
    + specialize (Hebits eq_refl). rewrite Hb in H.
      set (B := elem_bits (t_elem (fty_of v))) in *.
      destruct (size =? 0) eqn:E0.
      * injection H as <-. split; [nia|]. exists B. lia.
      * destruct (B * len =? -1) eqn:E1; [discriminate|].
        destruct (B * len <? size) eqn:E2; [discriminate|].
        destruct (len =? 0); [discriminate|].
        destruct (Z.rem size len =? 0) eqn:E3; [|discriminate].
        injection H as <-. apply Z.eqb_eq in E3.
        rewrite Z.rem_mod_nonneg in E3 by lia. split; [nia|].
        exists (size / len). apply Z.mod_divide in E3; [|lia]. destruct E3 as [k ->].
        rewrite Z.div_mul by lia. lia.
  - rewrite Hb in H. destruct v as [s|t]; cbn [fty_of fty_struct t_elem elem_bits] in *.
    + destruct (size =? 0) eqn:E0; [congruence|].
      destruct (_ =? -1); [discriminate|]. destruct (_ <? size); [discriminate|].
      destruct (size =? fixed_bits (erase (cs_fields s))) eqn:E; [|discriminate].
      apply Z.eqb_eq in E. congruence.
    + destruct Hv as [_ Hns]. destruct (t_elem t) as [b|w| | |fs]; cbn in *; try contradiction.
      * apply basic_bits_pos in Hacc. destruct (size =? 0) eqn:E0; [injection H as <-; lia|].
        destruct (basic_bits b =? -1); [discriminate|].
        destruct (basic_bits b <? size) eqn:E; [discriminate|]. injection H as <-. lia.
      * destruct (size =? 0) eqn:E0; [injection H as <-; lia|].
        destruct (w =? -1); [discriminate|].
        destruct (w <? size) eqn:E; [discriminate|]. injection H as <-. lia.
      * destruct (size =? 0); [congruence|discriminate].
      * destruct (size =? 0); [congruence|discriminate].
Qed.

(** ** One struct *)
Lemma some_field_app l : existsb (fun f => match f with NEmb _ => false | _ => true end) l = true <->
  some_field (erase l) = true.
Proof.
  induction l as [|f r IH]; [cbn; tauto|].
  destruct f as [nm ms t [len|] n big|n|nm b n big z|nm]; cbn [erase some_field existsb];
    cbn; tauto.
Qed.

Definition realb (f : nfield) : bool := match f with NEmb _ => false | _ => true end.

Lemma check_struct_ok p name size fs s :
  0 <= size -> Forall field_ok fs -> existsb realb fs = true \/ fs = [] ->
  NoDup (flat_map names_of fs) ->
  check_struct ideal p name size fs = Ok s ->
  struct_ok s /\ cs_fields s = fs /\ cs_name s = name /\ fs <> [] /\
  check_align ideal fs 0 = true /\ cs_bits s = fixed_width fs /\ cs_bits s mod 8 = 0 /\
  cs_dyn s = sum_dyn fs /\ (1 <= size -> cs_bits s = size /\ cs_dyn s = false).
Proof.
  intros Hsz Hf Hr Hn H. unfold check_struct in H.
  destruct fs as [|f0 r0]; [discriminate|]. set (fs := f0 :: r0) in *.
  assert (Hreal : existsb realb fs = true) by (destruct Hr; [assumption|discriminate]).
  assert (Hne : fs <> []) by discriminate. clearbody fs. clear Hr f0 r0.
  destruct (check_align ideal fs 0) eqn:Ea; [|discriminate].
  rewrite sum_bits_ideal in H. cbn [Z.add] in H.
  destruct (Z.rem (fixed_width fs) 8 =? 0) eqn:Er; [|discriminate].
  pose proof (fixed_bits_erase fs) as Hfb. pose proof (fixed_bits_nonneg (erase fs)) as Hnn.
  apply Z.eqb_eq in Er. rewrite Z.rem_mod_nonneg in Er by lia.
  assert (Hacc : acc_elem (EStruct (erase fs))).
  { cbn [acc_elem]. split; [apply some_field_app; exact Hreal|].
    split; [apply erase_acc; auto; lia|]. rewrite Hfb. exact Er. }
  assert (Hw : Forall width_ok fs).
  { eapply Forall_impl; [|exact Hf]. intros [? ? ? ? ? ?|?|? ? ? ? ?|?] Hx; cbn [field_ok] in Hx; tauto. }
  destruct (size =? 0) eqn:E0.
  - injection H as <-. cbn [cs_fields cs_name cs_bits cs_dyn].
    split.
    { unfold struct_ok. cbn [cs_fields cs_name cs_bits cs_dyn].
      split; [exact Hacc|]. split; [lia|]. split; [symmetry; apply sum_dyn_erase; exact Hf|].
      split; [exact Hw|exact Hn]. }
    split; [reflexivity|]. split; [reflexivity|]. split; [exact Hne|]. split; [reflexivity|].
    split; [reflexivity|]. split; [exact Er|]. split; [reflexivity|]. lia.
  - destruct (sum_dyn fs) eqn:Ed; [discriminate|].
    destruct (fixed_width fs =? size) eqn:E; [|discriminate]. apply Z.eqb_eq in E.
    injection H as <-. cbn [cs_fields cs_name cs_bits cs_dyn].
    split.
    { unfold struct_ok. cbn [cs_fields cs_name cs_bits cs_dyn].
      split; [exact Hacc|]. split; [lia|].
      split; [rewrite sum_dyn_erase by exact Hf; congruence|].
      split; [exact Hw|exact Hn]. }
    split; [reflexivity|]. split; [reflexivity|]. split; [exact Hne|]. split; [reflexivity|].
    split; [congruence|]. split; [congruence|]. split; [reflexivity|]. auto.
Qed.

(** ** Environments *)
Definition env_full (ts : types_t) : Prop :=
  forall n c, get n ts = Some c -> vt_ok (vtype_of c).

Lemma enum_vt_ok e : 1 <= ce_bits e -> vt_ok (VTOther (fty_enum e)).
Proof.
  intros H. cbn [vt_ok fty_enum t_elem]. split; [|exact I].
  split; [exact H|]. split; reflexivity.
Qed.

(** ** The whole visitor *)
Lemma visit_sound :
  (forall e ts ns v ns', env_full ts -> visit_elem ideal ts ns e = Ok (v, ns') -> vt_ok v) /\
  (forall d ts ns s ns', env_full ts -> visit_struct ideal ts ns d = Ok (s, ns') ->
     vt_ok (VTStruct s)) /\
  (forall b ts ns st st' ns', env_full ts -> st_ok st -> Forall field_ok (snd st) ->
     (existsb realb (snd st) = true \/ snd st = []) ->
     visit_body ideal ts ns b st = Ok (st', ns') ->
     st_ok st' /\ Forall field_ok (snd st') /\
     (existsb realb (snd st') = true \/ snd st' = [])).
Proof.
  assert (Hone : forall f (l : list nfield), realb f = true ->
            existsb realb (l ++ [f]) = true \/ l ++ [f] = []).
  { intros f l Hf. left. rewrite existsb_app. cbn. rewrite Hf. apply orb_true_r. }
  apply ast_ind.
  - intros b ts ns v ns' _ H. cbn in H. injection H as <- _.
    cbn [vt_ok t_elem]. split; [|exact I]. split; [apply basic_of_wf|]. split; reflexivity.
  - intros ts ns v ns' _ H. cbn in H. injection H as <- _.
    cbn [vt_ok t_elem]. split; [|exact I]. split; [exact I|]. split; reflexivity.
  - intros ts ns v ns' _ H. cbn in H. injection H as <- _.
    cbn [vt_ok t_elem]. split; [|exact I]. split; [exact I|]. split; reflexivity.
  - intros n ts ns v ns' He H. cbn [visit_elem] in H. apply bind_ok in H.
    destruct H as (w & E & H). injection H as <- _. unfold visit_struct_ref in E.
    destruct (is_capitalized n); [|discriminate]. destruct (get n ts) as [[s|e]|] eqn:Eg;
      try discriminate. injection E as <-. exact (He _ _ Eg).
  - intros d IH ts ns v ns' He H. cbn [visit_elem] in H. apply bind_ok in H.
    destruct H as ([s ns1] & E & H). injection H as <- _. eapply IH; eauto.
  - intros n ts ns v ns' He H. cbn [visit_elem] in H. apply bind_ok in H.
    destruct H as (w & E & H). injection H as <- _. unfold visit_enum_ref in E.
    destruct (is_capitalized n); [|discriminate]. destruct (get n ts) as [[s|e]|] eqn:Eg;
      try discriminate. injection E as <-. exact (He _ _ Eg).
  - intros n ts ns v ns' He H. cbn [visit_elem] in H. apply bind_ok in H.
    destruct H as (w & E & H). injection H as <- _. unfold visit_ident in E.
    destruct (get n ts) as [c|] eqn:Eg; [|discriminate]. injection E as <-. exact (He _ _ Eg).
  - intros p name size body IH ts ns s ns' He H. cbn [visit_struct] in H.
    apply bind_ok in H. destruct H as (nm & E1 & H).
    apply bind_ok in H. destruct H as (ns1 & E2 & H).
    apply bind_ok in H. destruct H as (sz & E3 & H).
    apply bind_ok in H. destruct H as ([st ns2] & E4 & H).
    apply bind_ok in H. destruct H as (s0 & E5 & H). injection H as <- _.
    apply visit_opt_size_ideal in E3. destruct E3 as (Hsz & _).
    apply IH in E4; [|exact He|split; [reflexivity|constructor]|constructor|right; reflexivity].
    destruct E4 as ((Hn1 & Hn2) & Hf & Hr). rewrite Hn1 in Hn2.
    apply check_struct_ok in E5; auto. destruct E5 as (Hs & Hfs & _).
    cbn [vt_ok]. split; [exact Hs|]. rewrite Hfs. exact Hf.
  - intros ts ns st st' ns' _ Hst Hf Hr H. cbn in H. injection H as <- _. auto.
  - intros r IH ts ns st st' ns' He Hst Hf Hr H. cbn [visit_body] in H. eapply IH; eauto.
  - intros size opts r IH ts ns st st' ns' He Hst Hf Hr H. cbn [visit_body] in H.
    apply bind_ok in H. destruct H as (sz & E1 & H).
    apply bind_ok in H. destruct H as (o & E2 & H).
    apply bind_ok in H. destruct H as (st1 & E3 & H).
    apply add_field_ok in E3; [|exact Hst]. destruct E3 as (Hs1 & Hf1).
    apply visit_size_ideal in E1. destruct E1 as (_ & E1).
    eapply IH; [exact He|exact Hs1| | |exact H]; rewrite Hf1.
    + apply Forall_app. split; [exact Hf|]. constructor; [exact E1|constructor].
    + apply Hone. reflexivity.
  - intros b name size c opts r IH ts ns st st' ns' He Hst Hf Hr H. cbn [visit_body] in H.
    apply bind_ok in H. destruct H as (nm & E1 & H).
    apply bind_ok in H. destruct H as (sz & E2 & H).
    apply bind_ok in H. destruct H as (n & E3 & H).
    apply bind_ok in H. destruct H as (l & E4 & H).
    destruct (const_match (basic_of b) l); [|discriminate].
    apply bind_ok in H. destruct H as (o & E5 & H).
    apply bind_ok in H. destruct H as (st1 & E6 & H).
    apply add_field_ok in E6; [|exact Hst]. destruct E6 as (Hs1 & Hf1).
    apply visit_opt_size_ideal in E2. destruct E2 as (E2 & _).
    eapply IH; [exact He|exact Hs1| | |exact H]; rewrite Hf1.
    + apply Forall_app. split; [exact Hf|]. constructor; [|constructor].
      pose proof (basic_bits_pos _ (basic_of_wf b)).
      cbn [field_ok width_ok]. split; [apply basic_of_wf|].
      destruct (sz =? 0) eqn:Ez; [injection E3 as <-; lia|].
      destruct (basic_bits (basic_of b) <? sz) eqn:Ew; [discriminate|].
      injection E3 as <-. lia.
    + apply Hone. reflexivity.
  - intros e IHe arr opts r IH ts ns st st' ns' He Hst Hf Hr H. cbn [visit_body] in H.
    apply bind_ok in H. destruct H as ([v ns1] & E1 & H).
    apply bind_ok in H. destruct H as (a & E2 & H).
    destruct v as [s|t]; [|discriminate]. destruct a; [discriminate|].
    apply bind_ok in H. destruct H as (o & E3 & H).
    apply bind_ok in H. destruct H as (st1 & E4 & H).
    apply IHe in E1; [|exact He]. destruct E1 as (Hso & Hff).
    apply add_embedded_ok in E4; [|exact Hst]. destruct E4 as (Hs1 & Hf1).
    eapply IH; [exact He|exact Hs1| | |exact H]; rewrite Hf1.
    + apply Forall_app. split; [exact Hf|]. cbn [expand]. constructor; [exact I|exact Hff].
    + left. rewrite existsb_app. apply orb_true_iff. right. cbn [expand existsb realb orb].
      destruct Hso as ((Hsome & _) & _). apply some_field_app in Hsome. exact Hsome.
  - intros e IHe arr name size opts ms r IH ts ns st st' ns' He Hst Hf Hr H.
    cbn [visit_body] in H.
    apply bind_ok in H. destruct H as ([v ns1] & E1 & H).
    apply bind_ok in H. destruct H as (a & E2 & H).
    apply bind_ok in H. destruct H as (nm & E3 & H).
    apply bind_ok in H. destruct H as (sz & E4 & H).
    apply bind_ok in H. destruct H as (n & E5 & H).
    apply bind_ok in H. destruct H as (o & E6 & H).
    apply bind_ok in H. destruct H as (g & E7 & H).
    apply bind_ok in H. destruct H as (st1 & E8 & H).
    apply IHe in E1; [|exact He].
    apply add_field_ok in E8; [|exact Hst]. destruct E8 as (Hs1 & Hf1).
    apply visit_opt_size_ideal in E4. destruct E4 as (E4 & _).
    apply visit_arr_ok in E2. destruct E2 as (_ & E2).
    eapply IH; [exact He|exact Hs1| | |exact H]; rewrite Hf1.
    + apply Forall_app. split; [exact Hf|]. constructor; [|constructor].
      eapply normal_size_ok; eauto.
    + apply Hone. reflexivity.
Qed.

(** ** Sizes below 2^63: the compiler's int64 arithmetic is exact *)
Lemma wrap64_small z : 0 <= z < 2 ^ 63 -> wrap64 z = z.
Proof.
  intros H. unfold wrap64, sext. change (2 ^ 63) with 9223372036854775808 in *.
  change (2 ^ 64) with 18446744073709551616.
  cbv zeta. rewrite Z.mod_small by lia. destruct (_ <? _) eqn:E; lia.
Qed.

Lemma bind_ext {A B} (m : res A) (f g : A -> res B) :
  (forall a, m = Ok a -> f a = g a) -> bind m f = bind m g.
Proof. destruct m; cbn; auto. Qed.

Lemma visit_size_exact s : size_bits s < 2 ^ 63 -> visit_size wrap64 s = visit_size ideal s.
Proof.
  unfold size_bits, visit_size. intros H.
  apply bind_ext. intros a Ea. apply bind_ext. intros b Eb.
  apply int_lit_ok in Ea. apply int_lit_ok in Eb. cbv zeta. unfold ideal.
  rewrite (wrap64_small (a * 8)) by lia. rewrite wrap64_small by lia. reflexivity.
Qed.
Lemma visit_opt_size_exact s : weight_size s < 2 ^ 63 ->
  visit_opt_size wrap64 s = visit_opt_size ideal s.
Proof. destruct s; cbn [weight_size visit_opt_size]; [apply visit_size_exact|reflexivity]. Qed.
Lemma weight_size_opt s z : visit_opt_size ideal s = Ok z -> z = weight_size s.
Proof.
  destruct s as [x|]; cbn [visit_opt_size weight_size].
  - intros H. apply visit_size_ideal in H. unfold size_bits. tauto.
  - congruence.
Qed.

Lemma weight_size_nonneg s : 0 <= weight_size s.
Proof. destruct s; cbn [weight_size]; unfold size_bits; lia. Qed.
Lemma weight_arr_pos a : 1 <= weight_arr a.
Proof. destruct a; cbn [weight_arr]; lia. Qed.
Lemma weight_nonneg ts :
  (forall e, 0 <= weight_elem ts e) /\ (forall d, 0 <= weight_struct ts d) /\
  (forall b, 0 <= weight_body ts b).
Proof.
  assert (Hr : forall n, 0 <= weight_ref ts n).
  { intros n. unfold weight_ref. destruct (get n ts); lia. }
  apply ast_ind; intros; cbn [weight_elem weight_struct weight_body]; auto; try lia.
  - pose proof (weight_size_nonneg size). lia.
  - unfold size_bits. lia.
  - pose proof (weight_size_nonneg size). lia.
  - pose proof (weight_size_nonneg size). pose proof (weight_arr_pos arr). nia.
Qed.

Lemma nbits_ok f : field_ok f -> -1 <= nbits f.
Proof.
  intros Hf. destruct f as [nm ms t [len|] n big|n|nm b n big z|nm]; cbn [nbits field_ok width_ok] in *.
  - destruct Hf as (_ & Hl0 & Hw). destruct (elem_dyn (t_elem t)); lia.
  - destruct Hf as (_ & Hw). destruct (t_elem t); try lia.
    pose proof (fixed_bits_nonneg fs). lia.
  - lia.
  - lia.
  - lia.
Qed.
Lemma fixed_width_nonneg l : 0 <= fixed_width l.
Proof. rewrite <- fixed_bits_erase. apply fixed_bits_nonneg. Qed.
Lemma fixed_width_cons f l : fixed_width (f :: l) = Z.max 0 (nbits f) + fixed_width l.
Proof. reflexivity. Qed.

Lemma check_align_exact l : Forall field_ok l -> forall from, 0 <= from ->
  from + fixed_width l < 2 ^ 63 -> check_align wrap64 l from = check_align ideal l from.
Proof.
  induction 1 as [|f r Hf _ IH]; intros from Hfrom Hlt; [reflexivity|].
  cbn [check_align]. f_equal. rewrite fixed_width_cons in Hlt.
  apply nbits_ok in Hf. pose proof (fixed_width_nonneg r).
  destruct (nbits f =? -1) eqn:E.
  - apply IH; lia.
  - rewrite wrap64_small by lia. unfold ideal at 2. apply IH; lia.
Qed.
Lemma sum_bits_exact l : forall acc, 0 <= acc -> acc + fixed_width l < 2 ^ 63 ->
  sum_bits wrap64 l acc = sum_bits ideal l acc.
Proof.
  induction l as [|f r IH]; intros acc Ha Hlt; [reflexivity|].
  cbn [sum_bits]. rewrite fixed_width_cons in Hlt. pose proof (fixed_width_nonneg r).
  destruct (0 <? nbits f) eqn:E.
  - rewrite wrap64_small by lia. unfold ideal at 2. apply IH; lia.
  - apply IH; lia.
Qed.
Lemma check_struct_exact p name sz l : Forall field_ok l -> fixed_width l < 2 ^ 63 ->
  check_struct wrap64 p name sz l = check_struct ideal p name sz l.
Proof.
  intros Hf Hlt. unfold check_struct. destruct l as [|f r]; [reflexivity|].
  rewrite check_align_exact by (auto; lia). rewrite sum_bits_exact by lia. reflexivity.
Qed.
Lemma check_struct_bits p name sz l s : check_struct ideal p name sz l = Ok s ->
  cs_bits s <= fixed_width l.
Proof.
  unfold check_struct. destruct l as [|f r]; [discriminate|].
  destruct (check_align _ _ _); [|discriminate]. rewrite sum_bits_ideal.
  change (0 + fixed_width (f :: r)) with (fixed_width (f :: r)). destruct (Z.rem _ 8 =? 0); [|discriminate].
  destruct (sz =? 0); [intros [= <-]; cbn [cs_bits]; apply Z.le_refl|].
  destruct (sum_dyn _); [discriminate|]. destruct (_ =? sz) eqn:E; [|discriminate].
  intros [= <-]. cbn [cs_bits]. lia.
Qed.

Lemma vt_bits v : vt_ok v -> t_dyn (fty_of v) = false -> 1 <= t_bits (fty_of v).
Proof.
  intros Hv Hd. destruct (vt_ty_ok v Hv) as (Ha & Hb & Hdy). rewrite Hdy in Hd. rewrite Hb.
  destruct (t_elem (fty_of v)) as [b|w| | |fs]; cbn in *; try discriminate.
  - apply basic_bits_pos in Ha. lia.
  - exact Ha.
  - destruct Ha as (Hs & Ha & _). exact (acc_struct_bits _ Hs _ Ha Hd).
Qed.

Lemma type_bits_exact v arr a W : vt_ok v -> visit_arr arr = Ok a -> t_bits (fty_of v) <= W ->
  0 <= W -> W * weight_arr arr < 2 ^ 63 ->
  type_bits wrap64 (fty_of v) a = type_bits ideal (fty_of v) a /\
  type_bits ideal (fty_of v) a <= W * weight_arr arr.
Proof.
  intros Hv Ha Hb HW Hlt. apply visit_arr_ok in Ha. destruct Ha as (-> & Hlen).
  destruct arr as [n|]; cbn [option_map type_bits weight_arr] in *; [|lia].
  specialize (Hlen _ eq_refl). destruct (t_dyn (fty_of v)) eqn:Ed; [nia|].
  pose proof (vt_bits v Hv Ed). unfold ideal.
  rewrite wrap64_small by nia. split; [reflexivity|nia].
Qed.

Lemma visit_elem_def w ts ns d : visit_elem w ts ns (AeStructDef d)
  = bind (visit_struct w ts ns d) (fun '(s, ns') => Ok (VTStruct s, ns')).
Proof. reflexivity. Qed.

Lemma visit_struct_def w ts ns p name size body : visit_struct w ts ns (AStruct p name size body)
  = bind (cap_name name) (fun name =>
    bind (add_name ns name (NPos p)) (fun ns1 =>
    bind (visit_opt_size w size) (fun sz =>
    bind (visit_body w ts ns1 body ([], [])) (fun '(st, ns2) =>
    bind (check_struct w p name sz (snd st)) (fun s => Ok (s, ns2)))))).
Proof. reflexivity. Qed.
Lemma visit_body_emb w ts ns e arr opts r st : visit_body w ts ns (ABEmb e arr opts r) st
  = bind (visit_elem w ts ns e) (fun '(v, ns') =>
    bind (visit_arr arr) (fun a =>
      match v, a with
      | VTStruct s, None =>
          bind (visit_options opts []) (fun _ =>
          bind (add_embedded st s) (fun st' => visit_body w ts ns' r st'))
      | _, _ => Fail
      end)).
Proof. reflexivity. Qed.
Lemma visit_body_normal w ts ns e arr name size opts ms r st :
  visit_body w ts ns (ABNormal e arr name size opts ms r) st
  = bind (visit_elem w ts ns e) (fun '(v, ns') =>
    bind (visit_arr arr) (fun a =>
    bind (uncap_name name) (fun name =>
    bind (visit_opt_size w size) (fun sz =>
    bind (normal_size w v a sz) (fun n =>
    bind (visit_options opts []) (fun o =>
    bind (match ms, v, a with
          | [], _, _ => Ok []
          | _, VTOther {| t_elem := EBasic _ |}, None => visit_methods ms []
          | _, _, _ => Fail
          end) (fun groups =>
    bind (add_field st (NNormal name (map fst groups) (fty_of v) a n (order_big o))) (fun st' =>
    visit_body w ts ns' r st')))))))).
Proof. reflexivity. Qed.

Lemma visit_exact :
  (forall e ts ns, env_full ts -> weight_elem ts e < 2 ^ 63 ->
     visit_elem wrap64 ts ns e = visit_elem ideal ts ns e /\
     forall v ns', visit_elem ideal ts ns e = Ok (v, ns') -> t_bits (fty_of v) <= weight_elem ts e) /\
  (forall d ts ns, env_full ts -> weight_struct ts d < 2 ^ 63 ->
     visit_struct wrap64 ts ns d = visit_struct ideal ts ns d /\
     forall s ns', visit_struct ideal ts ns d = Ok (s, ns') -> cs_bits s <= weight_struct ts d) /\
  (forall b ts ns st, env_full ts -> st_ok st -> Forall field_ok (snd st) ->
     (existsb realb (snd st) = true \/ snd st = []) ->
     fixed_width (snd st) + weight_body ts b < 2 ^ 63 ->
     visit_body wrap64 ts ns b st = visit_body ideal ts ns b st /\
     forall st' ns', visit_body ideal ts ns b st = Ok (st', ns') ->
       fixed_width (snd st') <= fixed_width (snd st) + weight_body ts b).
Proof.
  assert (Hone : forall f (l : list nfield), realb f = true ->
            existsb realb (l ++ [f]) = true \/ l ++ [f] = []).
  { intros f l Hf. left. rewrite existsb_app. cbn. rewrite Hf. apply orb_true_r. }
  assert (Hws : forall ts f l w, Z.max 0 (nbits f) <= w -> 0 <= weight_body ts ABNil ->
     fixed_width (l ++ [f]) <= fixed_width l + w).
  { intros ts f l w H _. rewrite fixed_width_app, fixed_width_cons.
    change (fixed_width []) with 0. lia. }
  apply ast_ind.
  - intros b ts ns _ _. split; [reflexivity|]. intros v ns' H. cbn in H. injection H as <- _.
    cbn [fty_of t_bits weight_elem]. destruct b; cbn; lia.
  - intros ts ns _ _. split; [reflexivity|]. intros v ns' H. cbn in H. injection H as <- _.
    cbn [fty_of t_bits weight_elem]. lia.
  - intros ts ns _ _. split; [reflexivity|]. intros v ns' H. cbn in H. injection H as <- _.
    cbn [fty_of t_bits weight_elem]. lia.
  - intros n ts ns _ _. split; [reflexivity|]. intros v ns' H. cbn [visit_elem] in H.
    apply bind_ok in H. destruct H as (w & E & H). injection H as <- _. unfold visit_struct_ref in E.
    destruct (is_capitalized n); [|discriminate]. cbn [weight_elem]. unfold weight_ref.
    destruct (get n ts) as [[s|e]|]; try discriminate. injection E as <-. cbn [vtype_of]. lia.
  - intros d IH ts ns He Hw. cbn [weight_elem] in *. destruct (IH ts ns He Hw) as [Heq Hb].
    rewrite !visit_elem_def, Heq. split; [reflexivity|]. intros v ns' H.
    apply bind_ok in H. destruct H as ([s ns1] & E & H). injection H as <- _.
    cbn [fty_of fty_struct t_bits]. eauto.
  - intros n ts ns _ _. split; [reflexivity|]. intros v ns' H. cbn [visit_elem] in H.
    apply bind_ok in H. destruct H as (w & E & H). injection H as <- _. unfold visit_enum_ref in E.
    destruct (is_capitalized n); [|discriminate]. cbn [weight_elem]. unfold weight_ref.
    destruct (get n ts) as [[s|e]|]; try discriminate. injection E as <-. cbn [vtype_of]. lia.
  - intros n ts ns _ _. split; [reflexivity|]. intros v ns' H. cbn [visit_elem] in H.
    apply bind_ok in H. destruct H as (w & E & H). injection H as <- _. unfold visit_ident in E.
    cbn [weight_elem]. unfold weight_ref.
    destruct (get n ts) as [c|]; try discriminate. injection E as <-. lia.
  - intros p name size body IH ts ns He Hw. cbn [weight_struct] in Hw.
    pose proof (weight_size_nonneg size). destruct (weight_nonneg ts) as (_ & _ & Hwn).
    specialize (Hwn body).
    assert (Hst0 : st_ok ([], [])) by (split; [reflexivity|constructor]).
    assert (IH' : forall ns, visit_body wrap64 ts ns body ([], []) = visit_body ideal ts ns body ([], []) /\
      forall st' ns', visit_body ideal ts ns body ([], []) = Ok (st', ns') ->
        Forall field_ok (snd st') /\ fixed_width (snd st') <= weight_body ts body).
    { intros ns0. destruct (IH ts ns0 ([], [])) as [Heq Hb];
        [exact He|exact Hst0|constructor|right; reflexivity| |].
      { change (fixed_width (snd (@nil string, @nil nfield))) with 0. lia. }
      split; [exact Heq|]. intros st' ns' H'. pose proof (Hb _ _ H') as Hb'.
      change (fixed_width (snd (@nil string, @nil nfield))) with 0 in Hb'.
      apply visit_sound in H'; auto; [|constructor]. split; [tauto|lia]. }
    split.
    + rewrite !visit_struct_def. apply bind_ext. intros nm _. apply bind_ext. intros ns1 _.
      rewrite visit_opt_size_exact by lia. apply bind_ext. intros sz _.
      destruct (IH' ns1) as [-> Hb]. apply bind_ext. intros [st ns2] E. 
      destruct (Hb _ _ E). rewrite check_struct_exact by (auto; lia). reflexivity.
    + intros s ns' H'. cbn [visit_struct] in H'.
      apply bind_ok in H'. destruct H' as (nm & E1 & H').
      apply bind_ok in H'. destruct H' as (ns1 & E2 & H').
      apply bind_ok in H'. destruct H' as (sz & E3 & H').
      apply bind_ok in H'. destruct H' as ([st ns2] & E4 & H').
      apply bind_ok in H'. destruct H' as (s0 & E5 & H'). injection H' as <- _.
      destruct (IH' ns1) as [_ Hb]. destruct (Hb _ _ E4) as [_ Hb'].
      apply check_struct_bits in E5. cbn [weight_struct]. lia.
  - intros ts ns st _ _ _ _ _. split; [reflexivity|]. intros st' ns' H. cbn in H.
    injection H as <- _. cbn [weight_body]. lia.
  - intros r IH ts ns st He Hst Hf Hr Hlt. cbn [visit_body weight_body] in *. auto.
  - intros size opts r IH ts ns st He Hst Hf Hr Hlt. cbn [weight_body] in *.
    destruct (weight_nonneg ts) as (_ & _ & Hwn). specialize (Hwn r).
    assert (Hsb : 0 <= size_bits size) by (unfold size_bits; lia).
    pose proof (fixed_width_nonneg (snd st)).
    assert (K : forall sz st1, visit_size ideal size = Ok sz -> add_field st (NVoid sz) = Ok st1 ->
      st_ok st1 /\ Forall field_ok (snd st1) /\ (existsb realb (snd st1) = true \/ snd st1 = []) /\
      fixed_width (snd st1) <= fixed_width (snd st) + size_bits size).
    { intros sz st1 E1 E3. apply add_field_ok in E3; [|exact Hst]. destruct E3 as (Hs1 & Hf1).
      apply visit_size_ideal in E1. destruct E1 as (E1 & E1'). rewrite Hf1.
      split; [exact Hs1|]. split.
      - apply Forall_app. split; [exact Hf|]. constructor; [exact E1'|constructor].
      - split; [apply Hone; reflexivity|]. apply (Hws ts); [|cbn; lia]. cbn [nbits].
        unfold size_bits. lia. }
    cbn [visit_body]. rewrite visit_size_exact by lia. split.
    + apply bind_ext. intros sz E1. apply bind_ext. intros o _. apply bind_ext. intros st1 E3.
      destruct (K _ _ E1 E3) as (K1 & K2 & K3 & K4). apply IH; auto. lia.
    + intros st' ns' H'.
      apply bind_ok in H'. destruct H' as (sz & E1 & H').
      apply bind_ok in H'. destruct H' as (o & E2 & H').
      apply bind_ok in H'. destruct H' as (st1 & E3 & H').
      destruct (K _ _ E1 E3) as (K1 & K2 & K3 & K4).
      destruct (IH ts ns st1 He K1 K2 K3) as [_ Hb]; [lia|]. specialize (Hb _ _ H'). lia.
  - intros b name size c opts r IH ts ns st He Hst Hf Hr Hlt. cbn [weight_body] in *.
    destruct (weight_nonneg ts) as (_ & _ & Hwn). specialize (Hwn r).
    pose proof (weight_size_nonneg size). pose proof (fixed_width_nonneg (snd st)).
    pose proof (basic_bits_pos _ (basic_of_wf b)) as Hbb.
    assert (Hb64 : basic_bits (basic_of b) <= 64) by (destruct b; cbn; lia).
    assert (K : forall nm sz n big z st1, visit_opt_size ideal size = Ok sz ->
      (if sz =? 0 then Ok (basic_bits (basic_of b))
       else if basic_bits (basic_of b) <? sz then Fail else Ok sz) = Ok n ->
      add_field st (NConst nm (basic_of b) n big z) = Ok st1 ->
      st_ok st1 /\ Forall field_ok (snd st1) /\ (existsb realb (snd st1) = true \/ snd st1 = []) /\
      fixed_width (snd st1) <= fixed_width (snd st) + (64 + weight_size size)).
    { intros nm sz n big z st1 E2 E3 E6. apply add_field_ok in E6; [|exact Hst].
      destruct E6 as (Hs1 & Hf1). apply visit_opt_size_ideal in E2. destruct E2 as (E2 & _).
      assert (Hn : 1 <= n <= basic_bits (basic_of b)).
      { destruct (sz =? 0) eqn:Ez; [injection E3 as <-; lia|].
        destruct (basic_bits (basic_of b) <? sz) eqn:Ew; [discriminate|]. injection E3 as <-. lia. }
      rewrite Hf1. split; [exact Hs1|]. split.
      - apply Forall_app. split; [exact Hf|]. constructor; [|constructor].
        cbn [field_ok width_ok]. split; [apply basic_of_wf|exact Hn].
      - split; [apply Hone; reflexivity|]. apply (Hws ts); [|cbn; lia]. cbn [nbits]. lia. }
    cbn [visit_body]. rewrite visit_opt_size_exact by lia. split.
    + apply bind_ext. intros nm E1. apply bind_ext. intros sz E2. apply bind_ext. intros n E3.
      apply bind_ext. intros l E4. destruct (const_match (basic_of b) l); [|reflexivity].
      apply bind_ext. intros o E5. apply bind_ext. intros st1 E6.
      destruct (K _ _ _ _ _ _ E2 E3 E6) as (K1 & K2 & K3 & K4). apply IH; auto. lia.
    + intros st' ns' H'.
      apply bind_ok in H'. destruct H' as (nm & E1 & H').
      apply bind_ok in H'. destruct H' as (sz & E2 & H').
      apply bind_ok in H'. destruct H' as (n & E3 & H').
      apply bind_ok in H'. destruct H' as (l & E4 & H').
      destruct (const_match (basic_of b) l); [|discriminate].
      apply bind_ok in H'. destruct H' as (o & E5 & H').
      apply bind_ok in H'. destruct H' as (st1 & E6 & H').
      destruct (K _ _ _ _ _ _ E2 E3 E6) as (K1 & K2 & K3 & K4).
      destruct (IH ts ns st1 He K1 K2 K3) as [_ Hb]; [lia|]. specialize (Hb _ _ H'). lia.
  - intros e IHe arr opts r IH ts ns st He Hst Hf Hr Hlt. cbn [weight_body] in *.
    destruct (weight_nonneg ts) as (Hwe & _ & Hwn). specialize (Hwn r). specialize (Hwe e).
    pose proof (fixed_width_nonneg (snd st)).
    destruct (IHe ts ns He) as [Heq Hb0]; [lia|].
    assert (K : forall s ns1 st1, visit_elem ideal ts ns e = Ok (VTStruct s, ns1) ->
      add_embedded st s = Ok st1 ->
      st_ok st1 /\ Forall field_ok (snd st1) /\ (existsb realb (snd st1) = true \/ snd st1 = []) /\
      fixed_width (snd st1) <= fixed_width (snd st) + weight_elem ts e).
    { intros s ns1 st1 E1 E4. pose proof (Hb0 _ _ E1) as Hb1. cbn [fty_of fty_struct t_bits] in Hb1.
      apply visit_sound in E1; [|exact He]. destruct E1 as (Hso & Hff).
      apply add_embedded_ok in E4; [|exact Hst]. destruct E4 as (Hs1 & Hf1). rewrite Hf1.
      split; [exact Hs1|]. split.
      { apply Forall_app. split; [exact Hf|]. cbn [expand]. constructor; [exact I|exact Hff]. }
      split.
      { left. rewrite existsb_app. apply orb_true_iff. right. cbn [expand existsb realb orb].
        destruct Hso as ((Hsome & _) & _). apply some_field_app in Hsome. exact Hsome. }
      rewrite fixed_width_app. cbn [expand]. rewrite fixed_width_cons. cbn [nbits].
      destruct Hso as (_ & Hcb & _). rewrite fixed_bits_erase in Hcb. lia. }
    rewrite !visit_body_emb, Heq. split.
    + apply bind_ext. intros [v ns1] E1. apply bind_ext. intros a E2.
      destruct v as [s|t]; [|reflexivity]. destruct a; [reflexivity|].
      apply bind_ext. intros o E3. apply bind_ext. intros st1 E4.
      destruct (K _ _ _ E1 E4) as (K1 & K2 & K3 & K4). apply IH; auto. lia.
    + intros st' ns' H'.
      apply bind_ok in H'. destruct H' as ([v ns1] & E1 & H').
      apply bind_ok in H'. destruct H' as (a & E2 & H').
      destruct v as [s|t]; [|discriminate]. destruct a; [discriminate|].
      apply bind_ok in H'. destruct H' as (o & E3 & H').
      apply bind_ok in H'. destruct H' as (st1 & E4 & H').
      destruct (K _ _ _ E1 E4) as (K1 & K2 & K3 & K4).
      destruct (IH ts ns1 st1 He K1 K2 K3) as [_ Hb]; [lia|]. specialize (Hb _ _ H'). lia.
  - intros e IHe arr name size opts ms r IH ts ns st He Hst Hf Hr Hlt. cbn [weight_body] in *.
    destruct (weight_nonneg ts) as (Hwe & _ & Hwn). specialize (Hwn r). specialize (Hwe e).
    pose proof (fixed_width_nonneg (snd st)). pose proof (weight_size_nonneg size).
    pose proof (weight_arr_pos arr).
    destruct (IHe ts ns He) as [Heq Hb0]; [nia|].
    assert (Kv : forall v ns1 a sz, visit_elem ideal ts ns e = Ok (v, ns1) -> visit_arr arr = Ok a ->
      visit_opt_size ideal size = Ok sz ->
      vt_ok v /\ normal_size wrap64 v a sz = normal_size ideal v a sz /\
      forall n, normal_size ideal v a sz = Ok n ->
        n <= weight_elem ts e * weight_arr arr + weight_size size).
    { intros v ns1 a sz E1 E2 E4. pose proof (Hb0 _ _ E1) as Hb1.
      apply visit_sound in E1; [|exact He]. split; [exact E1|].
      destruct (type_bits_exact v arr a (weight_elem ts e) E1 E2 Hb1) as [Ht1 Ht2]; [lia|nia|].
      split; [unfold normal_size; cbv zeta; rewrite Ht1; reflexivity|].
      intros n Hn. apply weight_size_opt in E4.
      unfold normal_size in Hn. destruct (sz =? 0) eqn:E0; [injection Hn as <-; lia|].
      revert Hn. destruct (_ =? -1); [discriminate|]. destruct (_ <? sz); [discriminate|]. intros Hn.
      assert (n = sz); [|lia].
      destruct a as [len|].
      - destruct (len =? 0); [discriminate|]. destruct (Z.rem sz len =? 0); congruence.
      - destruct v; [|congruence]. revert Hn. clear E0. destruct (sz =? _); congruence. }
    assert (K : forall v ns1 a nm sz n ms' big st1, visit_elem ideal ts ns e = Ok (v, ns1) ->
      visit_arr arr = Ok a -> visit_opt_size ideal size = Ok sz -> normal_size ideal v a sz = Ok n ->
      add_field st (NNormal nm ms' (fty_of v) a n big) = Ok st1 ->
      st_ok st1 /\ Forall field_ok (snd st1) /\ (existsb realb (snd st1) = true \/ snd st1 = []) /\
      fixed_width (snd st1) <= fixed_width (snd st) +
        (weight_elem ts e * weight_arr arr + weight_size size)).
    { intros v ns1 a nm sz n ms' big st1 E1 E2 E4 E5 E8.
      destruct (Kv _ _ _ _ E1 E2 E4) as (Hv & _ & Hn). specialize (Hn _ E5).
      apply add_field_ok in E8; [|exact Hst]. destruct E8 as (Hs1 & Hf1). rewrite Hf1.
      apply visit_opt_size_ideal in E4. destruct E4 as (E4 & _).
      apply visit_arr_ok in E2. destruct E2 as (_ & E2).
      split; [exact Hs1|]. split.
      - apply Forall_app. split; [exact Hf|]. constructor; [|constructor].
        eapply normal_size_ok; eauto.
      - split; [apply Hone; reflexivity|]. apply (Hws ts); [|cbn; lia]. cbn [nbits]. nia. }
    rewrite !visit_body_normal, Heq, visit_opt_size_exact by nia. split.
    + apply bind_ext. intros [v ns1] E1. apply bind_ext. intros a E2.
      apply bind_ext. intros nm E3. apply bind_ext. intros sz E4.
      destruct (Kv _ _ _ _ E1 E2 E4) as (_ & -> & _). apply bind_ext. intros n E5.
      apply bind_ext. intros o E6. apply bind_ext. intros g E7. apply bind_ext. intros st1 E8.
      destruct (K _ _ _ _ _ _ _ _ _ E1 E2 E4 E5 E8) as (K1 & K2 & K3 & K4). apply IH; auto. lia.
    + intros st' ns' H'.
      apply bind_ok in H'. destruct H' as ([v ns1] & E1 & H').
      apply bind_ok in H'. destruct H' as (a & E2 & H').
      apply bind_ok in H'. destruct H' as (nm & E3 & H').
      apply bind_ok in H'. destruct H' as (sz & E4 & H').
      apply bind_ok in H'. destruct H' as (n & E5 & H').
      apply bind_ok in H'. destruct H' as (o & E6 & H').
      apply bind_ok in H'. destruct H' as (g & E7 & H').
      apply bind_ok in H'. destruct H' as (st1 & E8 & H').
      destruct (K _ _ _ _ _ _ _ _ _ E1 E2 E4 E5 E8) as (K1 & K2 & K3 & K4).
      destruct (IH ts ns1 st1 He K1 K2 K3) as [_ Hb]; [lia|]. specialize (Hb _ _ H'). lia.
Qed.
