(** Decoding arbitrary bytes: no target accepts what Go rejects, and accepted
    bytes end at the same place. *)
From Coq Require Import ZArith List Lia Bool.
From Verif Require Import Base BaseProofs Schema SpecWire GoModel GoBitProofs GoEncProofs GoEncMain GoDecProofs GoRound GoPrefix GoCore
  CfBitProofs TgtModel TgtEncProofs TgtDecProofs TgtPrims PyTarget KtTarget CTarget JavaTarget CsTarget JsTarget TgtPrefix.
Import ListNotations.
Open Scope Z_scope.
Ltac Zify.zify_post_hook ::= Z.to_euclidean_division_equations.

(** Schemas without byte strings, with enums only if [en] and strings only if [st], whose constants are
    unsigned and fit their field. *)
Fixpoint adm_elem (en st : Prop) (e : elem) : Prop :=
  match e with
  | EBasic _ => True
  | EEnum _ => en
  | EString => st
  | EBytes => False
  | EStruct fs => adm_fields en st fs
  end
with adm_fields (en st : Prop) (fs : fields) : Prop :=
  match fs with
  | FNil => True
  | FOne e _ _ r | FArr e _ _ _ r => adm_elem en st e /\ adm_fields en st r
  | FConst b n _ z r => (exists w, b = BUint w) /\ 0 <= z < 2 ^ n /\ adm_fields en st r
  | FVoid _ r | FEmb r => adm_fields en st r
  end.

(** The target gives up: it returns -1 or, if [soft], throws (a value it cannot represent). *)
Definition bad {A} (soft : Prop) (r : res A) : Prop := r = Fail \/ (soft /\ r = Panic).

(** What a target does on bytes that need not be a message. *)
Record any_spec (T : tgt) (R : treq) (mx : Z) (P soft en st : Prop) : Prop := {
  an_scalar : forall e w n big from base data,
    wf_elem e -> is_fixed_scalar e = true -> adm_elem en st e -> 1 <= n <= elem_bits e -> r_scalar R e w n big from ->
    0 <= base -> 0 <= from -> bytes_ok data -> zlen data < mx -> 8 * base + from + n <= 8 * zlen data ->
    bad soft (t_dscalar T e w n big from base data) \/ exists z, t_dscalar T e w n big from base data = Ok z;
  an_loop : forall e n big from base data,
    wf_elem e -> is_fixed_scalar e = true -> adm_elem en st e -> 1 <= n <= elem_bits e -> r_loop R e n big from ->
    0 <= base -> 0 <= from -> bytes_ok data -> zlen data < mx -> 8 * base + from + n <= 8 * zlen data ->
    bad soft (t_dloop T e n big (8 * base + from) data) \/ exists z, t_dloop T e n big (8 * base + from) data = Ok z;
  an_const : forall w n big from base z data,
    wf_basic (BUint w) -> 1 <= n <= w -> r_const R (BUint w) n big from z -> 0 <= z < 2 ^ n ->
    0 <= base -> 0 <= from -> bytes_ok data -> zlen data < mx -> 8 * base + from + n <= 8 * zlen data ->
    t_dconst T (BUint w) n big from base z data = Ok (read_value data (8 * base + from) n big =? z);
  an_string : st -> forall p data l, 0 <= p -> bytes_ok data -> zlen data < mx -> str_scan (skipn (Z.to_nat p) data) 0 = inl l ->
    bad soft (t_dstring T p data) \/ exists s, t_dstring T p data = Ok (s, l + 1);
  an_size : size_spec T P mx;
  an_sub : forall b data p, 0 <= p <= zlen data -> t_sub T b data p = Ok (skipn (Z.to_nat p) data);
  an_nested : r_nested R -> t_lstart T = true;
  an_kt : t_kt T = true -> t_checked T = true
}.

(** [r], what the target does, against [g], what Go does: ends at the same place [o], or gives up. *)
Definition sim (soft : Prop) {A B} (r : res (A * Z)) (g : res (B * Z)) (o : Z) : Prop :=
  match g with
  | Ok (_, o1) => o1 = o /\ (bad soft r \/ exists v, r = Ok (v, o))
  | Fail => bad soft r
  | Panic => False
  end.
Lemma bad_bind {A B} soft (r : res A) (k : A -> res B) : bad soft r -> bad soft (bind r k).
Proof. intros [->|(H & ->)]; cbn; [left|right]; auto. Qed.
Lemma sim_bind {A B C D} soft (inh : A) (r : res (A * Z)) (g : res (B * Z)) (k1 : A * Z -> res (C * Z)) (k2 : B * Z -> res (D * Z)) o o2 :
  sim soft r g o -> (forall v1 v2, sim soft (k1 (v1, o)) (k2 (v2, o)) o2) -> sim soft (bind r k1) (bind g k2) o2.
Proof.
  intros H Hk. destruct g as [[v2 o1]| |]; cbn in H; try contradiction; [|apply bad_bind; exact H].
  destruct H as (-> & [Hb|(v & ->)]); cbn [bind]; [|apply Hk].
  specialize (Hk inh v2). destruct (k2 (v2, o)) as [[w o3]| |]; cbn in Hk |- *; try contradiction.
  - destruct Hk as (-> & _). split; auto. left. apply bad_bind; auto.
  - apply bad_bind; auto.
Qed.
Lemma sim_ok {A B} soft (v : A) (w : B) o : sim soft (Ok (v, o)) (Ok (w, o)) o.
Proof. cbn. split; eauto. Qed.
Lemma iter_dec_sim soft (f g : Z -> Z -> res (val * Z)) (d : Z -> dstep) (K : Z -> Prop) (N : Z) :
  (forall i o o', 0 <= i < N -> K o -> d o = DOff o' -> sim soft (f i o) (g i o) o' /\ K o') ->
  forall n i off o, 0 <= i -> i + Z.of_nat n <= N -> K off -> iter_dsize d n off = DOff o ->
    sim soft (iter_dec f n i off) (iter_dec g n i off) o /\ K o.
Proof.
  intros Hf. induction n; intros i off o Hi HN HK E; cbn [iter_dsize iter_dec] in *.
  - inversion E; subst. split; [apply sim_ok|auto].
  - destruct (d off) as [o1|] eqn:E1; [|discriminate].
    destruct (Hf i off o1 ltac:(lia) HK E1) as (H1 & H3).
    destruct (IHn (i + 1) o1 o ltac:(lia) ltac:(lia) H3 E) as (H4 & H6). split; auto.
    eapply sim_bind; [exact (VNum 0)|exact H1|]. intros v1 v2. cbn beta iota.
    eapply sim_bind; [exact []|exact H4|]. intros. apply sim_ok.
Qed.

Lemma read_value_skipn data k pos n big : 0 <= pos -> 0 <= n ->
  read_value (skipn k data) pos n big = read_value data (8 * Z.of_nat k + pos) n big.
Proof.
  intros Hp Hn. apply Z.bits_inj'. intros j Hj. unfold read_value. rewrite !of_bits_testbit by lia.
  destruct (Z.ltb_spec j (Z.of_nat (Z.to_nat n))); auto.
  pose proof (wire_bit_range n big j ltac:(lia)). rewrite bitat_skipn by lia. f_equal. lia.
Qed.

(** No byte strings. *)
Fixpoint nb_elem (e : elem) : Prop :=
  match e with EBytes => False | EStruct fs => nb_fields fs | _ => True end
with nb_fields (fs : fields) : Prop :=
  match fs with
  | FNil => True
  | FOne e _ _ r | FArr e _ _ _ r => nb_elem e /\ nb_fields r
  | FVoid _ r | FConst _ _ _ _ r | FEmb r => nb_fields r
  end.
Lemma adm_nb en st : (forall e, adm_elem en st e -> nb_elem e) /\ (forall fs, adm_fields en st fs -> nb_fields fs).
Proof. apply schema_ind; cbn; tauto. Qed.

Section AnySize.
  Variable T : tgt.
  Variable mx : Z.
  Variable P : Prop.
  Hypothesis ZS : size_spec T P mx.

  Lemma iter_tds_any (d : Z -> res dstep) (g : Z -> dstep) : (forall o, 0 <= o -> d o = Ok (g o) /\ match g o with DOff o' => o <= o' | DRet _ => True end) ->
    forall n o, 0 <= o -> iter_tds d n o = Ok (iter_dsize g n o).
  Proof.
    intros H. induction n; intros o Ho; cbn [iter_tds iter_dsize]; auto.
    destruct (H o Ho) as (-> & H2). cbn [bind]. destruct (g o); auto. apply IHn. lia.
  Qed.

  Lemma tds_any :
    (forall e fb off data, wf_elem e -> nd_elem e -> nb_elem e -> 0 <= fb -> 0 <= off -> bytes_ok data ->
       (match e with EStruct s => fields_dyn s = true -> P | _ => True end) -> dsa_elem P e ->
       tds_elem T e fb off data = Ok (dsize_elem e fb off data)) /\
    (forall fs from off data, wf_fields fs from -> nd_fields fs -> nb_fields fs -> 0 <= from -> 0 <= off -> bytes_ok data ->
       dsa_fields P fs ->
       tds_fields T fs from off data = Ok (dsize_fields fs from off data)).
  Proof.
    apply schema_ind.
    - intros; reflexivity.
    - intros; reflexivity.
    - intros. cbn [tds_elem dsize_elem]. apply (zs_string _ _ _ ZS).
    - intros fb off data _ _ Ho. contradiction.
    - intros fs IH fb off data (We & H8) Nd Hh Hf Ho Hb HP Da. cbn [tds_elem dsize_elem nb_elem nd_elem dsa_elem] in *.
      destruct (fields_dyn fs); [|reflexivity].
      rewrite (zs_sub _ _ _ ZS (HP eq_refl)) by lia. cbn [bind].
      replace (if off + fb <? zlen data then skipn (Z.to_nat (off + fb)) data else []) with (skipn (Z.to_nat (off + fb)) data).
      2:{ destruct (Z.ltb_spec (off + fb) (zlen data)); [reflexivity|]. apply skipn_all2. unfold zlen in *. lia. }
      rewrite IH; auto; try lia. apply bytes_ok_skipn; auto.
    - reflexivity.
    - intros e IHe n big r IHr from off data Hwf Nd Hh Hf Ho Hb Da.
      cbn [wf_fields] in Hwf. destruct Hwf as (We & Wn & Wr). cbn in Nd. destruct Nd as (N1 & N2 & N3).
      cbn [tds_fields dsize_fields dsa_fields nb_fields] in *. destruct Da as (Da1 & Da2), Hh as (Hh1 & Hh2).
      pose proof (one_n e n from We Wn) as Hn.
      assert (Hnf : 0 <= next_from from n) by (unfold next_from; destruct (Z.eqb_spec n (-1)); lia).
      assert (EE : (if (n <? 0) || t_kt T && elem_dyn e then tds_elem T e (from / 8) off data else Ok (DOff off)) =
                   Ok (if n <? 0 then dsize_elem e (from / 8) off data else DOff off)).
      { assert (X : (n <? 0) = elem_dyn e).
        { destruct (Z.ltb_spec n 0); destruct e; cbn in *; try reflexivity; try lia; try (pose proof (fixed_bits_nonneg fs); lia); symmetry; auto. }
        rewrite X. replace (elem_dyn e || t_kt T && elem_dyn e) with (elem_dyn e) by (destruct (elem_dyn e), (t_kt T); reflexivity).
        destruct (elem_dyn e) eqn:D; auto. apply IHe; auto; [lia|].
        destruct e; auto. cbn in D, N1. congruence. }
      rewrite EE. cbn [bind].
      pose proof (proj1 dsize_progress e (from / 8) off data We N2 ltac:(lia) Ho Hb) as Hp.
      destruct (n <? 0).
      + destruct (dsize_elem e (from / 8) off data) as [o|]; auto. apply IHr; auto. lia.
      + apply IHr; auto.
    - intros e IHe len n big r IHr from off data Hwf Nd Hh Hf Ho Hb Da.
      cbn [wf_fields] in Hwf. destruct Hwf as (We & Wl & Wn & Wr). fold (arr_ok e len n from) in Wn.
      cbn in Nd. destruct Nd as (N2 & N3).
      cbn [tds_fields dsize_fields dsa_fields nb_fields] in *. destruct Da as (Da0 & Da1 & Da2), Hh as (Hh1 & Hh2).
      pose proof (arr_n e len n from We Wn) as Hn.
      assert (Hnf : 0 <= next_from from n) by (unfold next_from; destruct (Z.eqb_spec n (-1)); lia).
      assert (Hp : forall o, 0 <= o -> match dsize_elem e (from / 8) o data with DOff o' => o <= o' | DRet _ => True end).
      { intros o Ho'. pose proof (proj1 dsize_progress e (from / 8) o data We N2 ltac:(lia) Ho' Hb) as Hp.
        destruct (dsize_elem e (from / 8) o data); intuition lia. }
      assert (EE : (if (n <? 0) || t_kt T && elem_dyn e then iter_tds (fun o => tds_elem T e (from / 8) o data) len off else Ok (DOff off)) =
                   Ok (if n <? 0 then iter_dsize (fun o => dsize_elem e (from / 8) o data) len off else DOff off)).
      { destruct (elem_dyn e) eqn:D.
        - assert (Sc : is_fixed_scalar e = false) by (destruct e; cbn in D; try discriminate; reflexivity).
          unfold arr_ok in Wn. rewrite Sc, D in Wn. destruct Wn as (Hm & ->). cbn [Z.ltb Z.compare orb].
          apply iter_tds_any; auto. intros o Ho'. split; [|apply Hp; auto]. apply IHe; auto. lia.
        - destruct (arr_eb e len n from We Wl Wn D) as (eb & -> & _ & _ & Heb & _).
          destruct (Z.ltb_spec (Z.of_nat len * eb) 0); [lia|]. rewrite andb_false_r. reflexivity. }
      rewrite EE. cbn [bind].
      assert (Hi : match (if n <? 0 then iter_dsize (fun o => dsize_elem e (from / 8) o data) len off else DOff off) with DOff o => off <= o | DRet _ => True end).
      { destruct (n <? 0); [|lia]. clear -Hp Ho. revert off Ho. induction len; intros off Ho; cbn [iter_dsize]; [lia|].
        specialize (Hp off Ho) as H. destruct (dsize_elem e (from / 8) off data) as [o1|]; auto.
        specialize (IHlen o1 ltac:(lia)). destruct (iter_dsize _ len o1); auto. lia. }
      destruct (if n <? 0 then _ else _) as [o|]; auto. apply IHr; auto. lia.
    - intros n r IHr from off data Hwf Nd Hh Hf Ho Hb Da.
      cbn [wf_fields nd_fields tds_fields dsize_fields dsa_fields nb_fields] in *. destruct Hwf as (Hn & Wr).
      unfold next_from. destruct (Z.eqb_spec n (-1)); [lia|]. apply IHr; auto; lia.
    - intros b n big z r IHr from off data Hwf Nd Hh Hf Ho Hb Da.
      cbn [wf_fields nd_fields tds_fields dsize_fields dsa_fields nb_fields] in *. destruct Hwf as (Wb & Hn & Wr).
      unfold next_from. destruct (Z.eqb_spec n (-1)); [lia|]. apply IHr; auto; lia.
    - intros r IHr from off data Hwf Nd Hh Hf Ho Hb Da.
      cbn [wf_fields nd_fields tds_fields dsize_fields dsa_fields nb_fields] in *. auto.
  Qed.

  Lemma tdecode_size_nb fs data : wf_struct fs -> nd_fields fs -> nb_fields fs -> dsa_fields P fs -> bytes_ok data ->
    tdecode_size T fs data = Ok (decode_size fs data).
  Proof.
    intros (W & H8) Nd Hh Da Hb. unfold tdecode_size, decode_size.
    rewrite (proj2 tds_any fs 0 0 data); auto; lia.
  Qed.
End AnySize.

Section Any.
  Variable T : tgt.
  Variable R : treq.
  Variable mx : Z.
  Variables P soft en st : Prop.
  Hypothesis AS : any_spec T R mx P soft en st.
  Variable c : cfg.

  Lemma tdecode_size_any fs data : wf_struct fs -> nd_fields fs -> adm_fields en st fs -> dsa_fields P fs -> bytes_ok data ->
    tdecode_size T fs data = Ok (decode_size fs data).
  Proof.
    intros. apply (tdecode_size_nb T mx P); auto; [apply (an_size _ _ _ _ _ _ _ AS)|]. eapply (proj2 (adm_nb en st)); eauto.
  Qed.

  Definition TSimE (e : elem) : Prop := forall dyn w n big from start off data o,
    wf_elem e -> nd_elem e -> go_ok_elem c e -> adm_elem en st e -> req_elem (t_loop T) R e w n big from ->
    dsa_elem P e -> (match e with EStruct s => fields_dyn s = true -> P | _ => True end) ->
    (if is_fixed_scalar e then 1 <= n <= elem_bits e else from mod 8 = 0) -> 0 <= from -> 0 <= start <= zlen data -> offk dyn off ->
    bytes_ok data -> zlen data < mx ->
    (if elem_dyn e then dsize_elem e (from / 8) off (skipn (Z.to_nat start) data) = DOff o
     else o = off /\ 8 * (start + off) + from + slot e n <= 8 * zlen data) ->
    forall lp n', sim soft (tdec_elem T dyn e w n big from start off data)
      (rdec_elem (use_loop c) lp e n' big from off (skipn (Z.to_nat start) data)) o.
  Definition TSimF (fs : fields) : Prop := forall (top : Prop) dyn from start off data o,
    wf_fields fs from -> nd_fields fs -> go_ok c fs -> adm_fields en st fs ->
    req_fields (t_loop T) R top fs from -> dsa_fields P fs -> (top -> start = 0) -> 0 <= from -> 0 <= start <= zlen data -> offk dyn off ->
    bytes_ok data -> zlen data < mx ->
    dsize_fields fs from off (skipn (Z.to_nat start) data) = DOff o ->
    8 * (start + o) + from + fixed_bits fs <= 8 * zlen data ->
    sim soft (tdec_fields T dyn fs from start off data)
      (rdec_fields (use_loop c) fs from off (skipn (Z.to_nat start) data)) o.

  (** Nested structs: [start + q] is where the struct starts. *)
  Lemma sub_struct_sim fs (IH : TSimF fs) start q data :
    wf_struct fs -> nd_fields fs -> go_ok c fs -> adm_fields en st fs -> req_fields (t_loop T) R False fs 0 ->
    dsa_fields P fs -> 0 <= start -> 0 <= q -> start + q <= zlen data -> bytes_ok data -> zlen data < mx ->
    0 <= decode_size fs (skipn (Z.to_nat (start + q)) data) ->
    exists sz o, tcheck T fs data (start + q) = Ok sz /\
      (t_kt T = true -> sz = decode_size fs (skipn (Z.to_nat (start + q)) data)) /\
      decode_size fs (skipn (Z.to_nat (start + q)) data) = o + fixed_bits fs / 8 /\
      sim soft (tdec_fields T (t_dyn0 T fs) fs 0 (start + q) 0 data) (rdec_fields (use_loop c) fs 0 0 (skipn (Z.to_nat (start + q)) data)) o /\
      dec_nested fs (fun sub => rdec_fields (use_loop c) fs 0 0 sub) (skipn (Z.to_nat start) data) q =
        (do (vs, o) <- rdec_fields (use_loop c) fs 0 0 (skipn (Z.to_nat (start + q)) data); Ok (vs, o + fixed_bits fs / 8)).
  Proof.
    intros W Nd G Hh Q Da Hs Hq Hl Hb Hx Hz.
    assert (Es : skipn (Z.to_nat q) (skipn (Z.to_nat start) data) = skipn (Z.to_nat (start + q)) data).
    { rewrite skipn_skipn. f_equal. lia. }
    set (sub := skipn (Z.to_nat (start + q)) data) in *.
    assert (Hbs : bytes_ok sub) by (apply bytes_ok_skipn; auto).
    assert (Lsub : zlen sub = zlen data - (start + q)) by (unfold sub; rewrite zlen_skipn; lia).
    assert (C : exists sz, tcheck T fs data (start + q) = Ok sz /\ (t_kt T = true -> sz = decode_size fs sub)).
    { unfold tcheck. destruct (t_checked T) eqn:Ch.
      - rewrite (an_sub _ _ _ _ _ _ _ AS) by lia. cbn [bind]. fold sub.
        rewrite tdecode_size_any by auto. cbn [bind]. destruct (Z.ltb_spec (decode_size fs sub) 0); [lia|]. eauto.
      - exists 0. split; auto. intros K. rewrite (an_kt _ _ _ _ _ _ _ AS K) in Ch. discriminate. }
    destruct C as (sz & C1 & C2).
    destruct (decode_rdec c fs sub W Nd G Hbs) as [(Hneg & _)|(o & Do & Dz & Rg & _ & Sf)]; [lia|].
    exists sz, o. split; auto. split; auto. split; auto.
    pose proof W as (Wf & W8). pose proof (fixed_bits_nonneg fs). split.
    { apply (IH False _ 0 (start + q) 0 data o); auto; try lia; try tauto. apply dyn0_offk. }
    unfold dec_nested.
    destruct (Z.ltb_spec q 0); [lia|]. rewrite zlen_skipn.
    destruct (Z.ltb_spec (Z.max 0 (zlen data - Z.of_nat (Z.to_nat start))) q); [lia|]. cbn [orb].
    rewrite Es. destruct (Z.ltb_spec (decode_size fs sub) 0); [lia|]. reflexivity.
  Qed.

  Lemma scalar_sim {B} (r : res Z) (v : B) off : (bad soft r \/ exists z, r = Ok z) ->
    sim soft (do z <- r; Ok (VNum z, off)) (Ok (v, off)) off.
  Proof. intros [H|(z & ->)]; cbn; split; auto; [left; apply bad_bind; auto|right; eauto]. Qed.

  Lemma tdec_sim : (forall e, TSimE e) /\ (forall fs, TSimF fs).
  Proof.
    apply schema_ind; unfold TSimE, TSimF.
    - intros b dyn w n big from start off data o We _ _ Hh Hq _ _ Hn Hf Hs Hk Hb Hx (-> & Hl) lp n'.
      unfold slot in Hl. cbn [is_fixed_scalar] in Hl, Hn. cbn [tdec_elem rdec_elem req_elem] in *.
      rewrite (offk_base _ _ Hk). destruct Hk as (Hk & _).
      apply scalar_sim. apply (an_scalar _ _ _ _ _ _ _ AS); auto; lia.
    - intros b dyn w n big from start off data o We _ _ Hh Hq _ _ Hn Hf Hs Hk Hb Hx (-> & Hl) lp n'.
      unfold slot in Hl. cbn [is_fixed_scalar] in Hl, Hn. cbn [tdec_elem rdec_elem req_elem] in *.
      rewrite (offk_base _ _ Hk). destruct Hk as (Hk & _).
      apply scalar_sim. apply (an_scalar _ _ _ _ _ _ _ AS); auto; lia.
    - intros dyn w n big from start off data o _ _ _ Hh _ _ _ Hm Hf Hs Hk Hb Hx E lp n'.
      cbn [is_fixed_scalar elem_dyn dsize_elem tdec_elem rdec_elem adm_elem] in *. destruct Hk as (Hk & _).
      unfold dsize_string, dec_string in *. rewrite skipn_skipn in *.
      replace (Z.to_nat start + Z.to_nat (off + from / 8))%nat with (Z.to_nat (start + off + from / 8)) in * by lia.
      destruct (str_scan (skipn (Z.to_nat (start + off + from / 8)) data) 0) as [l|] eqn:Es; [|discriminate].
      injection E as <-.
      destruct (an_string _ _ _ _ _ _ _ AS Hh (start + off + from / 8) data l ltac:(lia) Hb Hx Es) as [H|(s & ->)].
      + cbn. split; auto. left. apply bad_bind; auto.
      + cbn [bind sim]. split; auto. right. exists (VStr s). do 2 f_equal. lia.
    - intros dyn w n big from start off data o _ _ _ Hh. contradiction.
    - intros fs IH dyn w n big from start off data o We Nd Hg Hh Hq Da HP Hm Hf Hs Hk Hb Hx Hds lp n'.
      assert (W : wf_struct fs) by exact We. pose proof W as (Wf & H8).
      cbn [nd_elem go_ok_elem adm_elem req_elem dsa_elem is_fixed_scalar elem_dyn dsize_elem tdec_elem rdec_elem] in *.
      rewrite (offk_base _ _ Hk). destruct Hk as (Hk & _). pose proof (fixed_bits_nonneg fs).
      assert (Es : skipn (Z.to_nat (off + from / 8)) (skipn (Z.to_nat start) data) = skipn (Z.to_nat (start + (off + from / 8))) data).
      { rewrite skipn_skipn. f_equal. lia. }
      assert (Hz : start + off + from / 8 <= zlen data /\ 0 <= decode_size fs (skipn (Z.to_nat (start + (off + from / 8))) data) /\
        o = if fields_dyn fs then off + decode_size fs (skipn (Z.to_nat (start + (off + from / 8))) data) else off).
      { destruct (fields_dyn fs) eqn:D.
        - rewrite zlen_skipn in Hds. rewrite Es in Hds. unfold decode_size.
          destruct (Z.ltb_spec (off + from / 8) (Z.max 0 (zlen data - Z.of_nat (Z.to_nat start)))).
          + split; [lia|].
            match type of Hds with (if ?x <? 0 then _ else _) = _ => destruct (Z.ltb_spec x 0) as [|Hx0]; [discriminate|] end.
            split; [exact Hx0|]. injection Hds as <-. reflexivity.
          + exfalso. pose proof (proj2 dsize_progress fs 0 0 [] Wf Nd ltac:(lia) ltac:(lia) ltac:(constructor)) as Hp.
            match type of Hds with (if ?x <? 0 then _ else _) = _ => destruct (Z.ltb_spec x 0) as [|Hx0]; [discriminate|] end.
            destruct (dsize_fields fs 0 0 []) as [o1|x].
            * change (zlen (@nil Z)) with 0 in Hx0. destruct Hp as (_ & Hp). specialize (Hp D).
              destruct (Z.ltb_spec 0 (o1 + fixed_bits fs / 8)); lia.
            * lia.
        - destruct Hds as (-> & Hl). unfold slot in Hl. cbn [is_fixed_scalar elem_dyn elem_bits] in Hl. rewrite D in Hl.
          split; [lia|]. split; auto. unfold decode_size. rewrite dsize_static by auto. rewrite zlen_skipn.
          destruct (Z.ltb_spec (Z.max 0 (zlen data - Z.of_nat (Z.to_nat (start + (off + from / 8))))) (0 + fixed_bits fs / 8)); lia. }
      destruct Hz as (Hz1 & Hz2 & Ho).
      destruct (sub_struct_sim fs IH start (off + from / 8) data) as (sz & o' & E1 & E2 & E3 & E4 & E5); auto; try lia.
      replace (start + off + from / 8) with (start + (off + from / 8)) by lia.
      rewrite E1, E5. cbn [bind].
      assert (E6 : sim soft (tdec_fields T (t_dyn0 T fs) fs 0 (start + (off + from / 8)) 0 data)
        (do (vs, o) <- rdec_fields (use_loop c) fs 0 0 (skipn (Z.to_nat (start + (off + from / 8))) data); Ok (vs, o + fixed_bits fs / 8)) o' ->
        True) by auto. clear E6.
      destruct (rdec_fields (use_loop c) fs 0 0 (skipn (Z.to_nat (start + (off + from / 8))) data)) as [[vs o1]| |]; cbn [sim bind] in E4 |- *.
      + destruct E4 as (-> & E4). split; [rewrite Ho; destruct (fields_dyn fs); lia|].
        destruct E4 as [E4|(v & E4)]; [left; apply bad_bind; auto|]. right. rewrite E4. cbn [bind]. eexists. do 2 f_equal.
        rewrite Ho. destruct (fields_dyn fs); auto. destruct (t_kt T); auto; [rewrite E2 by auto; lia|lia].
      + apply bad_bind. auto.
      + contradiction.
    - intros top dyn from start off data o _ _ _ _ _ _ _ _ _ _ _ _ E _. cbn [dsize_fields tdec_fields rdec_fields] in *. injection E as <-. apply sim_ok.
    - (* FOne *)
      intros e IHe n big r IHr top dyn from start off data o Hwf Nd Hg Hh Hq Da Ht Hf Hs Hk Hb Hx E Hl.
      cbn [wf_fields] in Hwf. destruct Hwf as (We & Wn & Wr). cbn in Nd. destruct Nd as (N1 & N2 & N3).
      cbn in Hg. destruct Hg as (Ge & Gr).
      cbn [dsize_fields fixed_bits tdec_fields rdec_fields adm_fields req_fields dsa_fields] in *.
      destruct Hh as (Hh & Hhr), Hq as (Hq & Hqr), Da as (Da & Dar).
      pose proof (one_n e n from We Wn) as Hn. pose proof (fixed_bits_nonneg r).
      assert (Hnf : 0 <= next_from from n) by (unfold next_from; destruct (Z.eqb_spec n (-1)); lia).
      set (sub := skipn (Z.to_nat start) data) in *.
      assert (Hbs : bytes_ok sub) by (apply bytes_ok_skipn; auto).
      assert (Lsub : zlen sub = zlen data - start) by (unfold sub; rewrite zlen_skipn; lia).
      assert (Hk0 : 0 <= off) by apply Hk.
      destruct (if n <? 0 then dsize_elem e (from / 8) off sub else DOff off) as [o1|] eqn:E1; [|discriminate].
      assert (Hdn : elem_dyn e = (n <? 0)).
      { destruct (Z.ltb_spec n 0); destruct e; cbn in *; try reflexivity; try lia; try (pose proof (fixed_bits_nonneg fs); lia); auto. }
      assert (Ho1 : off <= o1 /\ (elem_dyn e = false -> o1 = off)).
      { destruct (Z.ltb_spec n 0).
        - pose proof (proj1 dsize_progress e (from / 8) off sub We N2 ltac:(lia) Hk0 Hbs) as Hp.
          rewrite E1 in Hp. split; [lia|]. intros D. congruence.
        - inversion E1; subst. split; [lia|auto]. }
      destruct Ho1 as (Ho1 & Hst).
      pose proof (proj2 dsize_progress r (next_from from n) o1 sub Wr N3 Hnf ltac:(lia) Hbs) as Hp.
      rewrite E in Hp. destruct Hp as (Hp & _).
      assert (Hsize : if elem_dyn e then dsize_elem e (from / 8) off sub = DOff o1
                      else o1 = off /\ 8 * (start + off) + from + slot e n <= 8 * zlen data).
      { destruct (elem_dyn e) eqn:D.
        - rewrite <- Hdn in E1. exact E1.
        - split; auto. unfold slot. rewrite D.
          assert (Hn0 : 0 <= n /\ (if is_fixed_scalar e then n else elem_bits e) = n).
          { destruct e; cbn in *; try discriminate; try (split; auto; lia);
            destruct Wn as (_ & ->); split; auto; apply fixed_bits_nonneg. }
          destruct Hn0 as (Hn0 & Hn1). rewrite Hn1. rewrite if_pos in Hl by lia. lia. }
      assert (Hgeom : if is_fixed_scalar e then 1 <= n <= elem_bits e else from mod 8 = 0).
      { destruct (is_fixed_scalar e) eqn:Sc; [|tauto]. destruct e; try discriminate; cbn in Wn |- *; lia. }
      eapply sim_bind; [exact (VNum 0)| |].
      { apply (IHe dyn (enum_temp_bits n) n big from start off data o1); auto.
        destruct e; auto. cbn in N1. congruence. }
      intros v1 v2. cbn beta iota.
      eapply sim_bind; [exact []| |intros; apply sim_ok].
      apply (IHr top (dyn || (n =? -1)) (next_from from n) start o1 data o); auto.
      + replace o1 with (off + (o1 - off)) by lia. apply offk_next; auto; [lia|]. intros Hn1. rewrite Hst; [lia|].
        rewrite Hdn. destruct (Z.ltb_spec n 0); auto. exfalso. destruct e; cbn in *; lia.
      + unfold next_from. destruct (Z.eqb_spec n (-1)).
        * subst. cbn [Z.ltb Z.compare] in Hl. lia.
        * rewrite if_pos in Hl by lia. lia.
    - (* FArr *)
      intros e IHe len n big r IHr top dyn from start off data o Hwf Nd Hg Hh Hq Da Ht Hf Hs Hk Hb Hx E Hl.
      cbn [wf_fields] in Hwf. destruct Hwf as (We & Wl & Wn & Wr). fold (arr_ok e len n from) in Wn.
      cbn in Nd. destruct Nd as (N2 & N3).
      cbn in Hg. destruct Hg as (Ge & Gu & Gr).
      cbn [dsize_fields fixed_bits tdec_fields rdec_fields adm_fields req_fields dsa_fields] in *.
      destruct Hh as (Hh & Hhr), Hq as (Hq & Hqr), Da as (Da0 & Da & Dar).
      pose proof (arr_n e len n from We Wn) as Hn. pose proof (fixed_bits_nonneg r).
      assert (Hnf : 0 <= next_from from n) by (unfold next_from; destruct (Z.eqb_spec n (-1)); lia).
      set (sub := skipn (Z.to_nat start) data) in *.
      assert (Hbs : bytes_ok sub) by (apply bytes_ok_skipn; auto).
      assert (Lsub : zlen sub = zlen data - start) by (unfold sub; rewrite zlen_skipn; lia).
      assert (Hk0 : 0 <= off) by apply Hk.
      rewrite (offk_base _ _ Hk).
      destruct (if n <? 0 then _ else DOff off) as [o1|] eqn:E1; [|discriminate].
      match goal with |- sim _ (bind ?X _) _ _ => set (D1 := X) end.
      set (G1 := iter_dec (fun i o => rdec_elem (use_loop c) (use_loop c len) e (n / Z.of_nat len) big
               (from + (if elem_dyn e then 0 else i * (n / Z.of_nat len))) o sub) len 0 off).
      assert (Harr : off <= o1 /\ (n <> -1 -> o1 = off) /\ (o1 <= o -> sim soft D1 G1 o1)).
      { unfold D1, G1. clear D1 G1. destruct (elem_dyn e) eqn:D.
        - assert (Sc : is_fixed_scalar e = false) by (destruct e; cbn in D; try discriminate; reflexivity).
          unfold arr_ok in Wn. rewrite Sc, D in Wn. destruct Wn as (Hm & ->).
          cbn [Z.ltb Z.compare] in E1.
          split.
          { pose proof (iter_dsize_ok (fun o => dsize_elem e (from / 8) o sub) true len off) as Hi.
            rewrite E1 in Hi. apply Hi. intros o0 Ho0.
            pose proof (proj1 dsize_progress e (from / 8) o0 sub We N2 ltac:(lia) ltac:(lia) Hbs) as Hp.
            destruct (dsize_elem e (from / 8) o0 sub); intuition lia. }
          split; [intros; lia|]. intros _.
          apply (iter_dec_sim soft (fun _ o => tdec_elem T true e (8 * ((elem_bits e + 7) / 8)) (Z.quot (-1) (Z.of_nat len)) big from start o data)
              (fun _ o => rdec_elem (use_loop c) (use_loop c len) e (-1 / Z.of_nat len) big (from + 0) o sub)
              (fun o => dsize_elem e (from / 8) o sub) (fun o => 0 <= o) (Z.of_nat len)) with (n := len) (i := 0) (off := off) (o := o1); auto; try lia.
          intros i o0 o' Hi Ho Eo. rewrite Z.add_0_r.
          pose proof (proj1 dsize_progress e (from / 8) o0 sub We N2 ltac:(lia) Ho Hbs) as Hp. rewrite Eo in Hp.
          split; [|lia].
          apply (IHe true _ _ big from start o0 data o'); auto.
            * destruct e; cbn in *; try discriminate; auto.
            * rewrite Sc. exact Hm.
            * split; [auto|discriminate].
        - destruct (arr_eb e len n from We Wl Wn D) as (eb & Hn' & Hq' & Hdv & Heb & Hcase).
          rewrite Hq'. rewrite Hdv in *.
          assert (Hn0 : 0 <= n) by lia.
          destruct (Z.ltb_spec n 0); [lia|]. inversion E1; subst o1; clear E1.
          split; [lia|]. split; auto. intros Hoo.
          rewrite if_pos in Hl by lia.
          assert (Hin : forall i, 0 <= i < Z.of_nat len -> 8 * (start + off) + (from + i * eb) + eb <= 8 * zlen data /\ 0 <= i * eb).
          { intros i Hi. split; [|nia]. subst n. assert ((i + 1) * eb <= Z.of_nat len * eb) by (apply Z.mul_le_mono_nonneg_r; lia). lia. }
          assert (Hm8 : is_fixed_scalar e = false -> forall i, (from + i * eb) mod 8 = 0).
          { intros S i. rewrite S in Hcase. destruct Hcase as (_ & Hm & He).
            rewrite Z.add_mod, Z.mul_mod, He, Z.mul_0_r, Z.mod_0_l, Z.add_0_r, Z.mod_mod by lia. exact Hm. }
          assert (Hsl : slot e eb = eb).
          { unfold slot. rewrite D. destruct (is_fixed_scalar e); auto. destruct Hcase as (<- & _). reflexivity. }
          assert (Hgen : forall f, (forall i, 0 <= i < Z.of_nat len -> sim soft (f i off) (rdec_elem (use_loop c) (use_loop c len) e eb big (from + i * eb) off sub) off) ->
            sim soft (iter_dec f len 0 off) (iter_dec (fun i o => rdec_elem (use_loop c) (use_loop c len) e eb big (from + i * eb) o sub) len 0 off) off).
          { intros f Hfg.
            apply (iter_dec_sim soft f (fun i o => rdec_elem (use_loop c) (use_loop c len) e eb big (from + i * eb) o sub)
               (fun o => DOff o) (fun o => o = off) (Z.of_nat len)) with (n := len) (i := 0) (off := off) (o := off); auto; try lia.
            - intros i o0 o' Hi -> Eo. inversion Eo; subst. auto.
            - apply iter_dsize_const. }
          destruct (t_loop T len) eqn:Lp.
          + destruct Hq as (Hnest & Hq).
            assert (Hlst : (if t_lstart T then start else 0) = start).
            { destruct Hnest as [Htop|Hne]; [rewrite (Ht Htop); destruct (t_lstart T); reflexivity|].
              rewrite (an_nested _ _ _ _ _ _ _ AS Hne). reflexivity. }
            rewrite Hlst.
            destruct (is_fixed_scalar e) eqn:Sc.
            * assert (Hgo : sim soft (iter_dec (fun i o => do z <- t_dloop T e eb big (8 * (start + off) + (from + i * eb)) data; Ok (VNum z, o)) len 0 off)
                 (iter_dec (fun i o => rdec_elem (use_loop c) (use_loop c len) e eb big (from + i * eb) o sub) len 0 off) off).
              { apply Hgen. intros i Hi. destruct (Hin i Hi).
                assert (Hd : bad soft (t_dloop T e eb big (8 * (start + off) + (from + i * eb)) data) \/
                  exists z, t_dloop T e eb big (8 * (start + off) + (from + i * eb)) data = Ok z).
                { apply (an_loop _ _ _ _ _ _ _ AS); auto; try lia. destruct e; cbn in Sc; try discriminate; apply Hq; auto. }
                destruct e; cbn in Sc; try discriminate; cbn [rdec_elem]; apply scalar_sim; auto. }
              destruct e; cbn in Sc; try discriminate; exact Hgo.
            * destruct e as [b|b| | |s]; cbn in Sc, D; try discriminate. cbn [elem_bits] in Hcase.
              apply Hgen. intros i Hi. destruct (Hin i Hi). destruct Hcase as (Hfb & Hm & He).
              assert (Heq : i * eb = 8 * (i * (eb / 8))) by lia.
              pose proof (IHe dyn 0 eb big (from + i * eb) start off data off) as X.
              cbn [tdec_elem] in X. rewrite (offk_base _ _ Hk), D in X.
              replace (start + off + from / 8 + i * (eb / 8)) with (start + off + (from + i * eb) / 8) by lia.
              apply X; auto; try lia.
          + apply Hgen. intros i Hi. destruct (Hin i Hi).
            apply (IHe dyn _ eb big (from + i * eb) start off data off); auto; try lia.
            * destruct e; cbn in D |- *; try discriminate; auto; apply Hq; lia.
            * destruct (is_fixed_scalar e) eqn:S; [lia|]. apply Hm8; auto.
            }
      destruct Harr as (Ho1 & Hk1 & Harr).
      pose proof (proj2 dsize_progress r (next_from from n) o1 sub Wr N3 Hnf ltac:(lia) Hbs) as Hp.
      rewrite E in Hp. destruct Hp as (Hp & _). specialize (Harr Hp).
      eapply sim_bind; [exact []|exact Harr|]. intros v1 v2. cbn beta iota.
      eapply sim_bind; [exact []| |intros; apply sim_ok].
      apply (IHr top (dyn || (n =? -1)) (next_from from n) start o1 data o); auto.
      + replace o1 with (off + (o1 - off)) by lia. apply offk_next; auto; [lia|]. intros Hn1. rewrite Hk1; [lia|auto].
      + unfold next_from. destruct (Z.eqb_spec n (-1)).
        * subst. cbn [Z.ltb Z.compare] in Hl. lia.
        * rewrite if_pos in Hl by lia. lia.
    - (* FVoid *)
      intros n r IHr top dyn from start off data o Hwf Nd Hg Hh Hq Da Ht Hf Hs Hk Hb Hx E Hl.
      cbn [wf_fields nd_fields go_ok dsize_fields fixed_bits tdec_fields rdec_fields adm_fields req_fields dsa_fields] in *.
      destruct Hwf as (Hn & Wr). rewrite if_pos in Hl by lia.
      unfold next_from in *. destruct (Z.eqb_spec n (-1)); [lia|]. apply (IHr top dyn (from + n) start off data o); auto; lia.
    - (* FConst *)
      intros b n big z r IHr top dyn from start off data o Hwf Nd Hg Hh Hq Da Ht Hf Hs Hk Hb Hx E Hl.
      cbn [wf_fields nd_fields go_ok dsize_fields fixed_bits tdec_fields rdec_fields adm_fields req_fields dsa_fields] in *.
      destruct Hwf as (Wb & Hn & Wr). destruct Hh as ((w & ->) & Hz & Hh), Hq as (Hq & Hqr), Hg as (_ & Hg).
      rewrite if_pos in Hl by lia. pose proof (fixed_bits_nonneg r).
      unfold next_from in *. destruct (Z.eqb_spec n (-1)); [lia|]. rewrite (offk_base _ _ Hk).
      assert (Hk0 : 0 <= off) by apply Hk. cbn [basic_bits] in Hn.
      pose proof (proj2 dsize_progress r (from + n) off (skipn (Z.to_nat start) data) Wr Nd ltac:(lia) Hk0 ltac:(apply bytes_ok_skipn; auto)) as Hp.
      rewrite E in Hp.
      rewrite (an_const _ _ _ _ _ _ _ AS) by (auto; lia). cbn [bind]. rewrite read_value_skipn by lia. cbn [const_num].
      replace (8 * Z.of_nat (Z.to_nat start) + (8 * off + from)) with (8 * (start + off) + from) by lia.
      destruct (_ =? z); [|left; reflexivity]. apply (IHr top dyn (from + n) start off data o); auto; lia.
    - (* FEmb *)
      intros r IHr top dyn from start off data o Hwf Nd Hg Hh Hq Da Ht Hf Hs Hk Hb Hx E Hl.
      cbn [wf_fields nd_fields go_ok dsize_fields fixed_bits tdec_fields rdec_fields adm_fields req_fields dsa_fields] in *.
      apply (IHr top dyn from start off data o); auto.
  Qed.

  (** On any bytes the target consumes what Go consumes, or gives up; and it gives up whenever Go does. *)
  Lemma tdecode_sim fs data :
    wf_struct fs -> nd_fields fs -> go_ok c fs -> adm_fields en st fs ->
    req_fields (t_loop T) R True fs 0 -> dsa_fields P fs -> bytes_ok data -> zlen data < mx ->
    t_checked T = true \/ 0 <= decode_size fs data ->
    match decode c fs data with
    | Ok (_, n) => bad soft (tdecode T fs 0 data) \/ exists vs, tdecode T fs 0 data = Ok (vs, n)
    | Fail => bad soft (tdecode T fs 0 data)
    | Panic => False
    end.
  Proof.
    intros W Nd G Hh Q Da Hb Hx Hc. pose proof (zlen_nonneg data). unfold tdecode.
    assert (Ck : tcheck T fs data 0 = (if t_checked T then if decode_size fs data <? 0 then Fail else Ok (decode_size fs data) else Ok 0)).
    { unfold tcheck. destruct (t_checked T); auto. rewrite (an_sub _ _ _ _ _ _ _ AS) by lia. cbn [bind].
      change (skipn (Z.to_nat 0) data) with data. rewrite tdecode_size_any by auto. reflexivity. }
    rewrite Ck. destruct (decode_rdec c fs data W Nd G Hb) as [(Hneg & ->)|(o & Do & Dz & Rg & -> & Sf)].
    - destruct Hc as [->|]; [|lia]. destruct (Z.ltb_spec (decode_size fs data) 0); [left; reflexivity|lia].
    - replace (if t_checked T then if decode_size fs data <? 0 then Fail else Ok (decode_size fs data) else Ok 0)
        with (Ok (if t_checked T then decode_size fs data else 0)).
      2:{ destruct (t_checked T); auto. destruct (Z.ltb_spec (decode_size fs data) 0); [lia|reflexivity]. }
      cbn [bind]. pose proof W as (Wf & W8). pose proof (fixed_bits_nonneg fs).
      pose proof (proj2 tdec_sim fs True (t_dyn0 T fs) 0 0 0 data o) as X.
      specialize (X Wf Nd G Hh Q Da (fun _ => eq_refl) ltac:(lia) ltac:(lia) (dyn0_offk _ _) Hb Hx Do ltac:(lia)).
      change (skipn (Z.to_nat 0) data) with data in X.
      destruct (rdec_fields (use_loop c) fs 0 0 data) as [[vs o1]| |]; cbn [sim bind] in *.
      + destruct X as (-> & [X|(v & X)]); [left; apply bad_bind; auto|]. right. rewrite X. cbn [bind]. eauto.
      + apply bad_bind; auto.
      + contradiction.
  Qed.
End Any.
