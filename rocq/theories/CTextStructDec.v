(** Whole structs: the printed C statements do what decode does in CTarget.v. *)
From Coq Require Import ZArith Lia Bool String Ascii List.
Import ListNotations.
From Verif Require Import Base BaseProofs Schema SpecWire GoModel GoBitProofs GoEncMain CfBits CfBitProofs TgtModel PyTarget CTarget Literals PropsLit ExprModel ExprSpec ExprProofs ExprLex ExprParse PrintTree CSem CText CTextEnc CTextStruct CTextD CTextDec CTextDecField.
Open Scope string_scope.
Open Scope Z_scope.
Open Scope list_scope.
Ltac Zify.zify_post_hook ::= Z.to_euclidean_division_equations.

(** Names of the members and of the enums. *)
Fixpoint dnames_ok (fs : fields) (names : list fname) : Prop :=
  match fs with
  | FNil => names = []
  | FOne e _ _ r | FArr e _ _ _ r =>
      match names with
      | f :: names => name_okb (f_name f) = true /\ match e with EEnum _ => name_okb (f_enum f) = true | _ => True end /\ dnames_ok r names
      | [] => False
      end
  | FVoid _ r | FConst _ _ _ _ r | FEmb r => dnames_ok r names
  end.
(** The type the header declares for a member; [ew bits] is the width the compiler gives to an enum of [bits] bits. *)
Definition mem_type (ew : Z -> Z) (e : elem) : ctype :=
  match e with EBasic b => basic_ctype b | EEnum bits => CI false (ew bits) | _ => CB end.
(** *ptr has the members the header declares, whatever they hold. *)
Fixpoint declared (ew : Z -> Z) (st : cst) (fs : fields) (names : list fname) : Prop :=
  match fs with
  | FNil => True
  | FOne e _ _ r =>
      match names with f :: names => (exists z, c_mem st (f_name f) = Some (One (mem_type ew e) z)) /\ declared ew st r names | [] => False end
  | FArr e len _ _ r =>
      match names with
      | f :: names => (exists zs, c_mem st (f_name f) = Some (Many (mem_type ew e) zs) /\ List.length zs = len) /\ declared ew st r names
      | [] => False
      end
  | FVoid _ r | FConst _ _ _ _ r | FEmb r => declared ew st r names
  end.
(** The members of *ptr hold the values [vs]. *)
Fixpoint read_out (ew : Z -> Z) (st : cst) (fs : fields) (names : list fname) (vs : list val) : Prop :=
  match fs with
  | FNil => vs = []
  | FOne e _ _ r =>
      match names, vs with
      | f :: names, VNum z :: vs => c_mem st (f_name f) = Some (One (mem_type ew e) z) /\ read_out ew st r names vs
      | _, _ => False
      end
  | FArr e len _ _ r =>
      match names, vs with
      | f :: names, VArr arr :: vs =>
          (exists zs, arr = map VNum zs /\ List.length zs = len /\ c_mem st (f_name f) = Some (Many (mem_type ew e) zs)) /\ read_out ew st r names vs
      | _, _ => False
      end
  | FVoid _ r | FConst _ _ _ _ r | FEmb r => read_out ew st r names vs
  end.
(** The constants of the struct are numbers of their types, and negative ones are printed in decimal (C52). *)
Fixpoint consts_fit (dn : bool) (base : Z -> ibase) (fs : fields) (from : Z) : Prop :=
  match fs with
  | FNil => True
  | FOne _ n _ r | FArr _ _ n _ r | FVoid n r => consts_fit dn base r (next_from from n)
  | FConst b n _ z r => const_ok dn b z (base from) /\ consts_fit dn base r (next_from from n)
  | FEmb r => consts_fit dn base r from
  end.

(** ** The same through the objects *)
Definition aready (st : cst) (f : chars) (t : ctype) (len : nat) : Prop :=
  (forall j, (j < len)%nat -> exists o, object st (PE f (Z.of_nat j)) = Some (Ok (t, o))) /\ object st (PE f (Z.of_nat len)) = Some Panic.
Fixpoint oready (ew : Z -> Z) (st : cst) (fs : fields) (names : list fname) : Prop :=
  match fs with
  | FNil => True
  | FOne e _ _ r =>
      match names with f :: names => (exists o, object st (PF (f_name f)) = Some (Ok (mem_type ew e, o))) /\ oready ew st r names | [] => False end
  | FArr e len _ _ r => match names with f :: names => aready st (f_name f) (mem_type ew e) len /\ oready ew st r names | [] => False end
  | FVoid _ r | FConst _ _ _ _ r | FEmb r => oready ew st r names
  end.
Lemma declared_oready ew st fs : forall names, declared ew st fs names -> oready ew st fs names.
Proof.
  induction fs; intros names H; cbn [declared oready] in *; auto; destruct names as [|f names]; try contradiction.
  - destruct H as [[z H1] H2]. split; auto. cbn [object]. rewrite H1. eauto.
  - destruct H as [(zs & H1 & L) H2]. split; auto. unfold aready. cbn [object]. rewrite H1. split.
    + intros j Hj. destruct (Z.ltb_spec (Z.of_nat j) 0); [lia|]. rewrite Nat2Z.id. destruct (nth_error zs j) eqn:N; [eauto|].
      apply nth_error_None in N. lia.
    + destruct (Z.ltb_spec (Z.of_nat len) 0); [lia|]. rewrite Nat2Z.id. replace (nth_error zs len) with (@None Z); [reflexivity|].
      symmetry. apply nth_error_None. lia.
Qed.
(** The elements from [i] on. *)
Definition aheld (st : cst) (f : chars) (t : ctype) (i : nat) (zs : list Z) : Prop :=
  forall j z, nth_error zs j = Some z -> object st (PE f (Z.of_nat (i + j))) = Some (Ok (t, Some z)).
Lemma nth_ext_error {A} (l l' : list A) : (forall j, nth_error l j = nth_error l' j) -> l = l'.
Proof.
  revert l'. induction l as [|a l IH]; intros [|b l'] H; auto; try discriminate (H O).
  pose proof (H O) as H0. cbn in H0. injection H0 as <-. f_equal. apply IH. intros j. exact (H (S j)).
Qed.
Lemma aheld_mem st f t zs len : aheld st f t 0 zs -> List.length zs = len -> (0 < len)%nat -> object st (PE f (Z.of_nat len)) = Some Panic ->
  c_mem st f = Some (Many t zs).
Proof.
  intros H L P E. destruct zs as [|z0 zs]; [cbn in L; lia|]. pose proof (H O z0 eq_refl) as H0. cbn [object] in *.
  destruct (c_mem st f) as [[t1 z1|t1 zs1]|] eqn:M; try discriminate.
  assert (Lt : forall j : nat, (Z.of_nat j <? 0) = false) by (intros j; apply Z.ltb_ge; lia).
  assert (Et : t1 = t).
  { rewrite Lt, Nat2Z.id in H0. destruct (nth_error zs1 (0 + 0)); [|discriminate]. now injection H0 as -> _. }
  subst t1. f_equal. f_equal. apply nth_ext_error. intros j. destruct (Nat.lt_ge_cases j len) as [Hj|Hj].
  - destruct (nth_error (z0 :: zs) j) as [z|] eqn:N; [|apply nth_error_None in N; lia]. specialize (H j z N). cbn [object] in H. rewrite M, Lt, Nat2Z.id in H.
    cbn [Nat.add] in H. destruct (nth_error zs1 j) as [y|]; [|discriminate]. injection H as H. now subst.
  - rewrite Lt, Nat2Z.id in E. destruct (nth_error zs1 len) eqn:N; [discriminate|]. apply nth_error_None in N.
    transitivity (@None Z); [|symmetry]; apply nth_error_None; lia.
Qed.

(** ** What changes *)
(** Nothing but the members [own] and the temporaries of the positions from [a] on. *)
Definition mine (own : list chars) (q : place) : Prop := match q with PF f | PE f _ => In f own | _ => False end.
Record cframe (a : Z) (own : list chars) (st st' : cst) : Prop := {
  cf_data : c_data st' = c_data st;
  cf_keep : forall q, simple q -> ~ mine own q -> (forall k, a <= k -> q <> PL (temp_name k)) -> object st' q = object st q
}.
Lemma cframe_trans a b own own' all st st1 st2 : a <= b -> cframe a own st st1 -> cframe b own' st1 st2 ->
  (forall f, In f own -> In f all) -> (forall f, In f own' -> In f all) -> cframe a all st st2.
Proof.
  intros L [A1 A2] [B1 B2] I1 I2. split; [congruence|]. intros q Q N T. rewrite B2, A2; auto.
  - intros M. apply N. destruct q; cbn in *; auto.
  - intros M. apply N. destruct q; cbn in *; auto.
  - intros k Hk. apply T. lia.
Qed.
Definition others (own : list chars) (st st' : cst) (k : Z) : Prop :=
  forall q, simple q -> ~ mine own q -> q <> PL (temp_name k) -> object st' q = object st q.
Lemma others_frame own st st' k : c_data st' = c_data st -> others own st st' k -> cframe k own st st'.
Proof. intros D O. split; auto. intros q Q N T. apply O; auto. apply T. lia. Qed.
Lemma others_fresh own st st' k b : 0 <= k < b -> b < 2 ^ 63 -> others own st st' k -> fresh st k -> fresh st' b.
Proof.
  intros Hk Hb O F j Hj. specialize (O (PL (temp_name j)) I (fun H => H)). cbn [object] in O. rewrite (F j) in O by lia.
  destruct (c_loc st' (temp_name j)) as [[t v]|]; [|reflexivity]. exfalso. discriminate O. intros E.
  apply (f_equal (fun p => match p with PL x => x | _ => temp_name j end)) in E. cbv beta iota in E. apply temp_inj in E; unfold temp_ok; lia.
Qed.
Lemma others_oready ew own st st' k fs : others own st st' k -> forall names, oready ew st fs names -> (forall f, In f own -> ~ In f (map f_name names)) -> oready ew st' fs names.
Proof.
  intros O. induction fs; intros names H N; cbn [oready] in *; auto; destruct names as [|f names]; auto; destruct H as [H1 H2];
    (assert (Nf : ~ In (f_name f) own) by (intros I; exact (N _ I (or_introl eq_refl))));
    (assert (Nr : forall g, In g own -> ~ In g (map f_name names)) by (intros g Ig Hg; exact (N _ Ig (or_intror Hg)))).
  - split; [|auto]. rewrite (O (PF (f_name f))); [exact H1|exact I|exact Nf|discriminate].
  - split; [|auto]. destruct H1 as [H1 H3]. split.
    + intros j Hj. rewrite (O (PE (f_name f) (Z.of_nat j))); [now apply H1|exact I|exact Nf|discriminate].
    + rewrite (O (PE (f_name f) (Z.of_nat len))); [exact H3|exact I|exact Nf|discriminate].
Qed.

(** ** One value *)
Definition full (b : basic) : Z := match b with BUint w | BInt w => w | _ => 8 end.
Lemma takes_full b n : plain_elem (EBasic b) = true -> wf_basic b -> 1 <= n <= basic_bits b -> takes b n (full b) (basic_ctype b).
Proof.
  intros P W Hn. destruct b as [|w|w|w]; try discriminate P; cbn [takes full basic_ctype wf_basic basic_bits] in *.
  - auto.
  - split; auto. split; [exact W|lia].
  - split; eauto.
Qed.
Lemma raw_num b n arith v : plain_elem (EBasic b) = true -> wf_basic b -> 1 <= n <= basic_bits b -> 0 <= v < 2 ^ n -> raw (basic_ctype b) (num arith b n v) = num arith b n v.
Proof.
  intros P W Hn Hv. destruct b as [|w|w|w]; try discriminate P; cbn [raw basic_ctype num wf_basic basic_bits convert] in *; auto.
  - apply Z.mod_small. split; [lia|]. apply Z.lt_le_trans with (2 ^ n); [lia|apply Z.pow_le_mono_r; lia].
  - rewrite c_int_ok by lia. apply sext_fit. lia.
Qed.

Section Dec.
Variables (loop : nat -> bool) (arith : bool) (ew : Z -> Z) (feq : Z -> Z -> Z -> bool) (dn : bool).
Let T := c_tgt loop arith ew feq.

(** One value read into [p]; [k]: position in the name of the temporary of an enum, which has been declared. *)
Lemma dec_elem_runs st e w n big from k x p o en : plain_elem e = true -> wf_elem e -> 0 <= from -> 0 <= k -> from + n < 2 ^ 63 -> 1 <= n <= elem_bits e ->
  match e with EEnum _ => std_bits w /\ n <= w /\ name_okb en = true /\ exists v, c_loc st (temp_name k) = Some (CI false w, v) | _ => True end ->
  var x p -> member_place p -> object st p = Some (Ok (mem_type ew e, o)) -> bytes_ok (c_data st) -> from + n <= 8 * zlen (c_data st) ->
  exists z st', tdec_elem T false e w n big from 0 0 (c_data st) = Ok (VNum z, 0) /\
    runs st (match e with
      | EEnum _ => dec_enum_elem_text dn arith w en n big from k (show x)
      | EBasic b => dec_basic_text dn arith b n big from (show x)
      | _ => [] end) (Ok st') /\ moved2 st p k (mem_type ew e) z st' /\
    match e with EEnum _ => exists v, c_loc st' (temp_name k) = Some (CI false w, v) | _ => True end.
Proof.
  intros Pe We Hf Hk Hb Hn He V Mp O B Ln. destruct e as [b|bits| | |s]; try discriminate Pe; cbn [elem_bits wf_elem mem_type] in *.
  - destruct (dec_basic_runs st dn arith b n big from x p (basic_ctype b) o (full b) We Hn Hf Hb (takes_full b n Pe We Hn) V (member_simple p Mp) O B Ln)
      as (v & st' & E & Hv & R & M). rewrite (raw_num b n arith v Pe We Hn Hv) in M.
    exists (num arith b n v), st'. split; [|split; [exact R|split; [|exact I]]].
    + cbn [tdec_elem T c_tgt t_dscalar c_dscalar]. change (0 + 0) with 0. destruct b; cbn [basic_bits num] in *; rewrite E; reflexivity.
    + destruct M as [M1 M2 M3]. split; auto.
  - destruct He as (Sw & Hw & Ne & o2 & L).
    destruct (dec_enum_elem_runs st dn arith w en n big from k x p (CI false (ew bits)) o o2 Sw ltac:(lia) Hf Hb Hk Ne V Mp O L B Ln)
      as (v & st' & E & Hv & R & M & K).
    exists (convert (CI false (ew bits)) v), st'. split; [|split; [exact R|split; [exact M|exact K]]].
    cbn [tdec_elem T c_tgt t_dscalar c_dscalar]. change (0 + 0) with 0.
    assert (Hu : has_uint w = true) by (destruct Sw as [-> | [-> | [-> | ->]]]; reflexivity).
    rewrite Hu, E. reflexivity.
Qed.
Lemma dec_elem_short st e w n big from k x p o en : plain_elem e = true -> wf_elem e -> 0 <= from -> 0 <= k -> from + n < 2 ^ 63 -> 1 <= n <= elem_bits e ->
  match e with EEnum _ => std_bits w /\ n <= w /\ exists v, c_loc st (temp_name k) = Some (CI false w, v) | _ => True end ->
  var x p -> member_place p -> object st p = Some (Ok (mem_type ew e, o)) -> bytes_ok (c_data st) -> 8 * zlen (c_data st) < from + n ->
  tdec_elem T false e w n big from 0 0 (c_data st) = Panic /\
    runs st (match e with
      | EEnum _ => dec_enum_elem_text dn arith w en n big from k (show x)
      | EBasic b => dec_basic_text dn arith b n big from (show x)
      | _ => [] end) Panic.
Proof.
  intros Pe We Hf Hk Hb Hn He V Mp O B Ln. destruct e as [b|bits| | |s]; try discriminate Pe; cbn [elem_bits wf_elem mem_type] in *.
  - destruct (dec_basic_short st dn arith b n big from x p (basic_ctype b) o (full b) We Hn Hf Hb (takes_full b n Pe We Hn) V (member_simple p Mp) O B Ln) as [E R].
    split; [|exact R]. cbn [tdec_elem T c_tgt t_dscalar c_dscalar]. change (0 + 0) with 0. destruct b; cbn [basic_bits] in *; rewrite E; reflexivity.
  - destruct He as (Sw & Hw & o2 & L).
    destruct (dec_enum_elem_short st dn arith w en n big from k (show x) o2 Sw ltac:(lia) Hf Hb Hk L B Ln) as [E R].
    split; [|exact R]. cbn [tdec_elem T c_tgt t_dscalar c_dscalar]. change (0 + 0) with 0.
    assert (Hu : has_uint w = true) by (destruct Sw as [-> | [-> | [-> | ->]]]; reflexivity).
    rewrite Hu, E. reflexivity.
Qed.
Lemma decl_run st e k : 0 <= k -> c_loc st (temp_name k) = None -> forall w, std_bits w ->
  exists st', runs st (match e with EEnum _ => [decl_text w k] | _ => [] end) (Ok st') /\ c_data st' = c_data st /\ others [] st st' k /\
    match e with EEnum _ => exists v, c_loc st' (temp_name k) = Some (CI false w, v) | _ => True end.
Proof.
  intros Hk L w Sw. assert (X : exists st', runs st [decl_text w k] (Ok st') /\ c_data st' = c_data st /\ others [] st st' k /\ exists v, c_loc st' (temp_name k) = Some (CI false w, v)).
  { exists (set_loc st (temp_name k) (CI false w, None)). split; [now apply var_runs|]. split; [reflexivity|]. split.
    - intros q Q _ N. destruct q as [f|f i|y|m q]; try reflexivity; [|destruct Q]. cbn [object set_loc c_loc]. rewrite upd_other; [reflexivity|]. intros ->. now apply N.
    - exists None. cbn [set_loc c_loc]. apply upd_same. }
  assert (Y : exists st', runs st [] (Ok st') /\ c_data st' = c_data st /\ others [] st st' k /\ True).
  { exists st. split; [constructor|]. split; [reflexivity|]. split; [intros q _ _ _; reflexivity|exact I]. }
  destruct e; auto.
Qed.

Lemma dec_elems_run e w eb big from k f len : plain_elem e = true -> wf_elem e -> 0 <= from -> 0 <= k -> 1 <= eb <= elem_bits e ->
  match e with EEnum _ => std_bits w /\ eb <= w /\ name_okb (f_enum f) = true | _ => True end -> name_okb (f_name f) = true ->
  forall m (i : nat) st, (i + m = len)%nat -> from + Z.of_nat len * eb < 2 ^ 63 -> from + Z.of_nat len * eb <= 8 * zlen (c_data st) -> bytes_ok (c_data st) ->
  match e with EEnum _ => exists v, c_loc st (temp_name k) = Some (CI false w, v) | _ => True end ->
  aready st (f_name f) (mem_type ew e) len ->
  exists zs st', iter_dec (fun i o => tdec_elem T false e w eb big (from + i * eb) 0 o (c_data st)) m (Z.of_nat i) 0 = Ok (map VNum zs, 0) /\
    List.length zs = m /\ runs st (dec_elems_text dn arith e w eb big from k f m (Z.of_nat i)) (Ok st') /\ c_data st' = c_data st /\
    aheld st' (f_name f) (mem_type ew e) i zs /\
    forall q, simple q -> (forall j, (i <= j < len)%nat -> q <> PE (f_name f) (Z.of_nat j)) -> q <> PL (temp_name k) -> object st' q = object st q.
Proof.
  intros Pe We Hf Hk He Hw Nf. induction m as [|m IH]; intros i st Li Hb Ln B Tt [Ar Pn]; cbn [iter_dec dec_elems_text].
  - exists [], st. repeat split; auto; [constructor|]. intros [|j] z Hj; discriminate.
  - destruct (Ar i ltac:(lia)) as [o O]. set (fr := from + Z.of_nat i * eb). assert (Hfr : 0 <= fr /\ fr + eb <= from + Z.of_nat len * eb) by (subst fr; nia).
    assert (Hi : 0 <= Z.of_nat i < 2 ^ 63) by nia.
    destruct (dec_elem_runs st e w eb big fr k (elem_px (f_name f) (Z.of_nat i)) (PE (f_name f) (Z.of_nat i)) o (f_enum f) Pe We ltac:(lia) Hk ltac:(lia) He) as (z & st1 & E & R1 & [M1 M2 M3] & T1).
    { destruct e; auto. destruct Hw as (H1 & H2 & H3). auto. } { now apply var_elem. } { exact I. } { exact O. } { exact B. } { lia. }
    rewrite show_elem in R1. unfold fr in *. rewrite E. cbn [bind].
    assert (A1 : aready st1 (f_name f) (mem_type ew e) len).
    { split.
      - intros j Hj. destruct (Nat.eq_dec j i) as [->|Ne]; [eauto|]. destruct (Ar j Hj) as [o' O']. exists o'. rewrite M3; [exact O'|exact I| |discriminate].
        intros Q. injection Q as Q. lia.
      - rewrite M3; [exact Pn|exact I| |discriminate]. intros Q. injection Q as Q. lia. }
    destruct (IH (S i) st1 ltac:(lia) Hb ltac:(now rewrite M1) ltac:(now rewrite M1) T1 A1) as (zs & st2 & E2 & L2 & R2 & D2 & H2 & K2).
    replace (Z.of_nat (S i)) with (Z.of_nat i + 1) in * by lia. rewrite M1 in E2. rewrite E2. cbn [bind].
    exists (z :: zs), st2. split; [reflexivity|]. split; [cbn; now rewrite L2|]. split; [eapply runs_app; [exact R1|exact R2]|]. split; [congruence|]. split.
    + intros [|j] u Hj; cbn [nth_error] in Hj.
      * injection Hj as <-. rewrite Nat.add_0_r. rewrite K2; [exact M2|exact I| |discriminate]. intros j Hj Q. injection Q as Q. lia.
      * replace (i + S j)%nat with (S i + j)%nat by lia. now apply H2.
    + intros q Q N Nt. rewrite K2, M3; auto.
      * apply N. lia.
      * intros j Hj. apply N. lia.
Qed.

Lemma dec_elems_short e w eb big from k f len : plain_elem e = true -> wf_elem e -> 0 <= from -> 0 <= k -> 1 <= eb <= elem_bits e ->
  match e with EEnum _ => std_bits w /\ eb <= w /\ name_okb (f_enum f) = true | _ => True end -> name_okb (f_name f) = true ->
  forall m (i : nat) st, (i + S m = len)%nat -> from + Z.of_nat len * eb < 2 ^ 63 -> 8 * zlen (c_data st) < from + Z.of_nat len * eb -> bytes_ok (c_data st) ->
  match e with EEnum _ => exists v, c_loc st (temp_name k) = Some (CI false w, v) | _ => True end ->
  aready st (f_name f) (mem_type ew e) len ->
  iter_dec (fun i o => tdec_elem T false e w eb big (from + i * eb) 0 o (c_data st)) (S m) (Z.of_nat i) 0 = Panic /\
    runs st (dec_elems_text dn arith e w eb big from k f (S m) (Z.of_nat i)) Panic.
Proof.
  intros Pe We Hf Hk He Hw Nf. induction m as [|m IH]; intros i st Li Hb Ln B Tt [Ar Pn].
  all: destruct (Ar i ltac:(lia)) as [o O]; set (fr := from + Z.of_nat i * eb); assert (Hfr : 0 <= fr /\ fr + eb <= from + Z.of_nat len * eb) by (subst fr; nia);
    assert (Hi : 0 <= Z.of_nat i < 2 ^ 63) by nia.
  all: assert (Sh : 8 * zlen (c_data st) < fr + eb -> forall k2,
    iter_dec (fun i o => tdec_elem T false e w eb big (from + i * eb) 0 o (c_data st)) (S k2) (Z.of_nat i) 0 = Panic /\
    runs st (dec_elems_text dn arith e w eb big from k f (S k2) (Z.of_nat i)) Panic) by
    (intros Ls k2; destruct (dec_elem_short st e w eb big fr k (elem_px (f_name f) (Z.of_nat i)) (PE (f_name f) (Z.of_nat i)) o (f_enum f) Pe We ltac:(lia) Hk ltac:(lia) He) as [E R1];
     [destruct e; auto; destruct Hw as (H1 & H2 & H3); auto|now apply var_elem|exact I|exact O|exact B|exact Ls|];
     rewrite show_elem in R1; unfold fr in E, R1; cbn [iter_dec dec_elems_text]; rewrite E; split; [reflexivity|apply runs_app_panic; [exact R1|congruence]]).
  - apply Sh. replace (fr + eb) with (from + Z.of_nat len * eb) by (subst fr; nia). exact Ln.
  - destruct (Z.lt_ge_cases (8 * zlen (c_data st)) (fr + eb)) as [Ls|Le]; [now apply Sh|]. clear Sh.
    destruct (dec_elem_runs st e w eb big fr k (elem_px (f_name f) (Z.of_nat i)) (PE (f_name f) (Z.of_nat i)) o (f_enum f) Pe We ltac:(lia) Hk ltac:(lia) He) as (z & st1 & E & R1 & [M1 M2 M3] & T1).
    { destruct e; auto. destruct Hw as (H1 & H2 & H3). auto. } { now apply var_elem. } { exact I. } { exact O. } { exact B. } { lia. }
    rewrite show_elem in R1. unfold fr in *. remember (S m) as m1. cbn [iter_dec dec_elems_text]. subst m1. rewrite E. cbn [bind].
    assert (A1 : aready st1 (f_name f) (mem_type ew e) len).
    { split.
      - intros j Hj. destruct (Nat.eq_dec j i) as [->|Ne]; [eauto|]. destruct (Ar j Hj) as [o' O']. exists o'. rewrite M3; [exact O'|exact I| |discriminate].
        intros Q. injection Q as Q. lia.
      - rewrite M3; [exact Pn|exact I| |discriminate]. intros Q. injection Q as Q. lia. }
    destruct (IH (S i) st1 ltac:(lia) Hb ltac:(now rewrite M1) ltac:(now rewrite M1) T1 A1) as [E2 R2].
    replace (Z.of_nat (S i)) with (Z.of_nat i + 1) in * by lia. rewrite M1 in E2. rewrite E2. cbn [bind]. split; [reflexivity|]. eapply runs_app; eauto.
Qed.

Variable base : Z -> ibase.
Definition dafter (a : Z) (st : cst) (fs : fields) (names : list fname) (ls : list chars) (r : res (list val * Z)) : Prop :=
  match r with
  | Ok (vs, o) => o = 0 /\ exists st', runs st ls (Ok st') /\ read_out ew st' fs names vs /\ cframe a (map f_name names) st st'
  | Panic => runs st ls Panic
  | Fail => runs st ls Fail
  end.
Lemma mem_of_object st f t z : object st (PF f) = Some (Ok (t, Some z)) -> c_mem st f = Some (One t z).
Proof. cbn [object]. destruct (c_mem st f) as [[t1 z1|]|]; try discriminate. now injection 1 as -> ->. Qed.
Theorem dec_fields_run : forall fs names from st, wf_fields fs from -> flat loop fs -> dnames_ok fs names -> NoDup (map f_name names) ->
  consts_fit dn base fs from -> oready ew st fs names -> 0 <= from -> from + fixed_bits fs < 2 ^ 63 -> bytes_ok (c_data st) -> fresh st from ->
  dafter from st fs names (dec_text dn arith base fs names from) (tdec_fields T false fs from 0 0 (c_data st)).
Proof.
  induction fs as [|e n big r IH|e len n big r IH|n r IH|b n big z r IH|r IH]; intros names from st W Fl Nm Nd Cs Rd Hf Hb B Fr; cbn [dec_text tdec_fields].
  - cbn [dafter]. split; auto. exists st. split; [constructor|]. split; [reflexivity|]. split; auto.
  - cbn [wf_fields flat dnames_ok consts_fit oready fixed_bits] in *. destruct Fl as [Pe Fl]. destruct (plain_fixed e Pe) as [Fs _]. rewrite Fs in W. destruct W as (We & Hn & Wr).
    pose proof (fixed_nonneg r) as Fn. destruct (Z.ltb_spec 0 n); [|lia].
    destruct names as [|f names]; [contradiction|]. destruct Nm as (N1 & N2 & Nm). destruct Rd as [[o O] Rd]. cbn [map] in Nd. inversion Nd as [|? ? Nf Nd']; subst.
    rewrite next_scalar in * by lia. rewrite not_m1 by lia. cbn [orb]. pose proof (elem_bits_le e We Fs) as L64.
    destruct (std_temp n ltac:(lia)) as [St Hnt].
    destruct (decl_run st e from Hf (Fr from ltac:(lia)) (enum_temp_bits n) St) as (st0 & R0 & D0 & K0 & T0).
    assert (O1 : object st0 (PF (f_name f)) = Some (Ok (mem_type ew e, o))) by (rewrite (K0 (PF (f_name f))); [exact O|exact I|intros []|discriminate]).
    destruct (Z.lt_ge_cases (8 * zlen (c_data st)) (from + n)) as [Ls|Ln].
    { destruct (dec_elem_short st0 e (enum_temp_bits n) n big from from (field_px (f_name f)) (PF (f_name f)) o (f_enum f) Pe We Hf Hf ltac:(lia) Hn) as [E R1].
      { destruct e; auto. } { now apply var_field. } { exact I. } { exact O1. } { now rewrite D0. } { now rewrite D0. }
      rewrite show_field in R1. rewrite D0 in E. rewrite E. cbn [bind dafter]. apply runs_app_panic; [|congruence].
      pose proof (runs_app _ _ _ _ _ R0 R1) as R. destruct e as [bb|bits| | |s]; try discriminate Pe; exact R. }
    destruct (dec_elem_runs st0 e (enum_temp_bits n) n big from from (field_px (f_name f)) (PF (f_name f)) o (f_enum f) Pe We Hf Hf ltac:(lia) Hn) as (v & st1 & E & R1 & [M1 M2 M3] & T1).
    { destruct e; auto. } { now apply var_field. } { exact I. }
    { exact O1. } { now rewrite D0. } { rewrite D0. lia. }
    rewrite show_field in R1. rewrite D0 in E, M1. rewrite E. cbn [bind].
    assert (R01 : runs st (match e with
      | EBasic b => dec_basic_text dn arith b n big from (field_name (f_name f))
      | EEnum _ => dec_enum_text dn arith (enum_temp_bits n) (f_enum f) n big from (field_name (f_name f))
      | _ => [] end) (Ok st1)).
    { pose proof (runs_app _ _ _ _ _ R0 R1) as R. destruct e as [bb|bits| | |s]; try discriminate Pe; exact R. }
    assert (Ot : others [f_name f] st st1 from).
    { intros q Q N Nt. rewrite M3; [apply K0; [exact Q|intros M; destruct q; destruct M|exact Nt]|exact Q| |exact Nt]. intros ->. apply N. now left. }
    assert (Rd1 : oready ew st1 r names).
    { apply (others_oready ew _ st st1 from r Ot names Rd). intros g [<-|[]]. exact Nf. }
    specialize (IH names (from + n) st1 Wr Fl Nm Nd' Cs Rd1 ltac:(lia) ltac:(lia) ltac:(now rewrite M1) ltac:(apply (others_fresh [f_name f] st st1 from); auto; lia)).
    rewrite M1 in IH. destruct (tdec_fields T false r (from + n) 0 0 (c_data st)) as [[vs o']| |]; cbn [bind dafter] in *.
    + destruct IH as (-> & st2 & R2 & H2 & F2). split; auto. exists st2. split; [eapply runs_app; [exact R01|exact R2]|]. split.
      * cbn [read_out]. split; [|exact H2]. apply mem_of_object. rewrite (cf_keep _ _ _ _ F2); [exact M2|exact I|exact Nf|discriminate].
      * eapply cframe_trans; [|apply (others_frame _ _ _ _ M1 Ot)|exact F2| |]; [lia| |]; cbn [map]; intros g Hg; [destruct Hg as [<-|[]]; now left|now right].
    + eapply runs_app; eauto.
    + eapply runs_app; eauto.
  - cbn [wf_fields flat dnames_ok consts_fit oready fixed_bits] in *. destruct Fl as (Pe & Hu & Ul & Fl). destruct (plain_fixed e Pe) as [Fs Fd]. rewrite Fs in W. destruct W as (We & Hl & (eb & He & ->) & Wr).
    pose proof (fixed_nonneg r) as Fn. assert (P : 1 <= Z.of_nat len * eb) by nia. destruct (Z.ltb_spec 0 (Z.of_nat len * eb)); [|lia].
    destruct names as [|f names]; [contradiction|]. destruct Nm as (N1 & N2 & Nm). destruct Rd as [Ra Rd]. cbn [map] in Nd. inversion Nd as [|? ? Nf Nd']; subst.
    rewrite quot_elems by auto. rewrite Fd. change (t_loop T len) with (loop len). rewrite Ul. pose proof (elem_bits_le e We Fs) as L64.
    rewrite next_scalar in * by exact P. rewrite not_m1 by exact P. cbn [orb]. set (nx := from + Z.of_nat len * eb) in *.
    change (8 * ((elem_bits e + 7) / 8)) with (elem_width e).
    assert (Y : exists st0, runs st (match e with EEnum _ => [decl_text (elem_width e) from] | _ => [] end) (Ok st0) /\ c_data st0 = c_data st /\ others [] st st0 from /\
      match e with EEnum _ => exists v, c_loc st0 (temp_name from) = Some (CI false (elem_width e), v) | _ => True end).
    { destruct e as [bb|bits| | |s]; try discriminate Pe.
      - exists st. split; [constructor|]. split; [reflexivity|]. split; [intros q _ _ _; reflexivity|exact I].
      - exact (decl_run st (EEnum bits) from Hf (Fr from ltac:(lia)) (elem_width (EEnum bits)) (has_uint_std _ Hu)). }
    destruct Y as (st0 & R0 & D0 & K0 & T0).
    assert (Ra0 : aready st0 (f_name f) (mem_type ew e) len).
    { destruct Ra as [A1 A2]. split.
      - intros j Hj. rewrite (K0 (PE (f_name f) (Z.of_nat j))); [now apply A1|exact I|intros []|discriminate].
      - rewrite (K0 (PE (f_name f) (Z.of_nat len))); [exact A2|exact I|intros []|discriminate]. }
    destruct (Z.lt_ge_cases (8 * zlen (c_data st)) (from + Z.of_nat len * eb)) as [Ls|Ln].
    { destruct len as [|m]; [lia|].
      destruct (dec_elems_short e (elem_width e) eb big from from f (S m) Pe We Hf Hf He) with (m := m) (i := O) (st := st0) as [E R1]; auto.
      { destruct e as [bb|bits| | |s]; try discriminate Pe; auto. split; [now apply has_uint_std|]. split; [|exact N2]. unfold elem_width. cbn [elem_bits] in *. lia. }
      { fold nx. lia. } { now rewrite D0. } { now rewrite D0. }
      change (Z.of_nat 0) with 0 in E, R1. rewrite D0 in E. rewrite E. cbn [bind dafter].
      eapply runs_app; [exact R0|]. apply runs_app_panic; [exact R1|congruence]. }
    destruct (dec_elems_run e (elem_width e) eb big from from f len Pe We Hf Hf He) with (m := len) (i := O) (st := st0) as (zs & st1 & E & Lz & R1 & D1 & H1 & K1); auto.
    { destruct e as [bb|bits| | |s]; try discriminate Pe; auto. split; [now apply has_uint_std|]. split; [|exact N2]. unfold elem_width. cbn [elem_bits] in *. lia. }
    { fold nx. lia. } { fold nx. rewrite D0. lia. } { now rewrite D0. }
    change (Z.of_nat 0) with 0 in E, R1. rewrite D0 in E, D1. rewrite E. cbn [bind].
    assert (Ot : others [f_name f] st st1 from).
    { intros q Q N Nt. rewrite K1; [apply K0; [exact Q|intros M; destruct q; destruct M|exact Nt]|exact Q| |exact Nt]. intros j Hj ->. apply N. now left. }
    assert (Rd1 : oready ew st1 r names).
    { apply (others_oready ew _ st st1 from r Ot names Rd). intros g [<-|[]]. exact Nf. }
    assert (Ae : object st1 (PE (f_name f) (Z.of_nat len)) = Some Panic).
    { rewrite K1; [exact (proj2 Ra0)|exact I| |discriminate]. intros j Hj Q. injection Q as Q. lia. }
    specialize (IH names nx st1 Wr Fl Nm Nd' Cs Rd1 ltac:(lia) ltac:(lia) ltac:(now rewrite D1) ltac:(apply (others_fresh [f_name f] st st1 from); auto; lia)).
    rewrite D1 in IH. destruct (tdec_fields T false r nx 0 0 (c_data st)) as [[vs o']| |]; cbn [bind dafter] in *.
    + destruct IH as (-> & st2 & R2 & H2 & F2). split; auto. exists st2. split; [eapply runs_app; [exact R0|]; eapply runs_app; [exact R1|exact R2]|]. split.
      * cbn [read_out]. split; [|exact H2]. exists zs. split; auto. split; auto. apply (aheld_mem st2 (f_name f) _ zs len); auto.
        -- intros j z Hj. rewrite (cf_keep _ _ _ _ F2); [now apply H1|exact I|exact Nf|discriminate].
        -- rewrite (cf_keep _ _ _ _ F2); [exact Ae|exact I|exact Nf|discriminate].
      * eapply cframe_trans; [|apply (others_frame _ _ _ _ D1 Ot)|exact F2| |]; [lia| |]; cbn [map]; intros g Hg; [destruct Hg as [<-|[]]; now left|now right].
    + eapply runs_app; [exact R0|]. eapply runs_app; eauto.
    + eapply runs_app; [exact R0|]. eapply runs_app; eauto.
  - cbn [wf_fields flat dnames_ok consts_fit oready fixed_bits] in *. destruct W as [Hn Wr]. rewrite next_scalar in * by lia.
    pose proof (fixed_nonneg r) as Fn. destruct (Z.ltb_spec 0 n); [|lia].
    specialize (IH names (from + n) st Wr Fl Nm Nd Cs Rd ltac:(lia) ltac:(lia) B ltac:(intros k Hk; apply Fr; lia)).
    destruct (tdec_fields T false r (from + n) 0 0 (c_data st)) as [[vs o']| |]; cbn [dafter] in *; auto.
    destruct IH as (-> & st2 & R2 & H2 & [F1 F2]). split; auto. exists st2. split; auto. split; [exact H2|]. split; auto. intros q Q N Tq. apply F2; auto. intros k Hk. apply Tq. lia.
  - cbn [wf_fields flat dnames_ok consts_fit oready fixed_bits] in *. destruct W as (Wb & Hn & Wr). destruct Cs as [Ck Cs]. rewrite next_scalar in * by lia.
    pose proof (fixed_nonneg r) as Fn. destruct (Z.ltb_spec 0 n); [|lia].
    pose proof (dec_const_runs st feq dn arith b n big from z (base from) Wb Hn Hf ltac:(lia) Ck (Fr from ltac:(lia)) B) as X.
    change (t_dconst T b n big from (0 + 0) z (c_data st)) with (c_dconst feq arith b n big from 0 z (c_data st)).
    destruct (c_dconst feq arith b n big from 0 z (c_data st)) as [[|]| |]; cbn [bind const_ran] in *; [| |destruct X|].
    + destruct X as (st1 & R1 & D1 & K1).
      assert (Ot : others [] st st1 from) by (intros q Q _ Nt; now apply K1).
      assert (Rd1 : oready ew st1 r names) by (apply (others_oready ew _ st st1 from r Ot names Rd); intros g []).
      specialize (IH names (from + n) st1 Wr Fl Nm Nd Cs Rd1 ltac:(lia) ltac:(lia) ltac:(now rewrite D1) ltac:(apply (others_fresh [] st st1 from); auto; lia)).
      rewrite D1 in IH. destruct (tdec_fields T false r (from + n) 0 0 (c_data st)) as [[vs o']| |]; cbn [dafter] in *.
      * destruct IH as (-> & st2 & R2 & H2 & F2). split; auto. exists st2. split; [eapply runs_app; [exact R1|exact R2]|]. split; [exact H2|].
        eapply cframe_trans; [|apply (others_frame _ _ _ _ D1 Ot)|exact F2| |]; [lia|intros g []|intros g Hg; exact Hg].
      * eapply runs_app; eauto.
      * eapply runs_app; eauto.
    + cbn [dafter]. apply runs_app_panic; [exact X|congruence].
    + cbn [dafter]. apply runs_app_panic; [exact X|congruence].
  - cbn [wf_fields flat dnames_ok consts_fit oready fixed_bits] in *. apply IH; auto.
Qed.
End Dec.
