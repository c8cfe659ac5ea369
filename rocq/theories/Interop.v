(** The nine targets side by side: which generated encoder and decoder, what each asks of the schema
    and of the values, and that any of them reads what any other wrote.

    This file: definitions and the general lemmas; PropsTargets.v has the property theorems. *)
From Coq Require Import ZArith List Lia Bool.
From Verif Require Import Base BaseProofs Schema SpecWire GoModel GoBitProofs GoEncProofs GoEncMain GoDecProofs GoRound
  GoCore CfBits CfBitProofs TgtModel TgtEncProofs TgtDecProofs TgtPrims PyTarget KtTarget CTarget JavaTarget CsTarget JsTarget.
Import ListNotations.
Open Scope Z_scope.

(** A target with the options it was generated with and the parts of its runtime the model leaves
    open ([known]: which numbers the enum type names; [repl]: what its string type does to malformed
    UTF-8; [ew]: width of the C enum type; [feq]: comparison of floating-point constants). *)
Inductive lang : Type :=
| LGo (c : cfg)
| LC (loop : nat -> bool) (arith : bool) (ew : Z -> Z) (feq : Z -> Z -> Z -> bool)      (* C and C++ *)
| LCs (loop : nat -> bool) (arith : bool) (repl : list Z -> list Z)
| LJava (loop : nat -> bool) (arith : bool) (known : Z -> Z -> bool) (repl : list Z -> list Z)
| LJs (loop : nat -> bool) (known : Z -> Z -> bool) (feq : Z -> Z -> bool)               (* CommonJS and ES modules *)
| LPy (unr : Z) (known : Z -> Z -> bool)
| LKt (arith : bool) (known : Z -> Z -> bool) (repl : list Z -> list Z).

Definition lang_tgt (L : lang) : option tgt :=
  match L with
  | LGo _ => None
  | LC loop arith ew feq => Some (c_tgt loop arith ew feq)
  | LCs loop arith repl => Some (cs_tgt loop arith repl)
  | LJava loop arith known repl => Some (jv_tgt loop arith known repl)
  | LJs loop known feq => Some (js_tgt loop known feq)
  | LPy unr known => Some (py_tgt unr known)
  | LKt arith known repl => Some (kt_tgt arith known repl)
  end.

(** encode() and decode() of a message. *)
Definition lang_encode (L : lang) (fs : fields) (vs : list val) : res (list Z) :=
  match L, lang_tgt L with
  | LGo c, _ => encode c fs vs
  | _, Some T => tencode T fs vs
  | _, None => Panic
  end.
Definition lang_decode (L : lang) (fs : fields) (data : list Z) : res (list val * Z) :=
  match L, lang_tgt L with
  | LGo c, _ => decode c fs data
  | _, Some T => tdecode T fs 0 data
  | _, None => Panic
  end.

(** ** What a target asks of the schema, to encode and to decode it. *)
Definition lang_ereq (L : lang) : treq :=
  match L with
  | LGo _ | LPy _ _ => py_ereq
  | LC _ _ _ _ => c_ereq
  | LCs _ _ _ => cs_ereq
  | LJava _ _ _ _ => jv_ereq
  | LJs _ _ _ => js_ereq
  | LKt _ _ _ => kt_req
  end.
Definition lang_dreq (L : lang) : treq :=
  match L with
  | LGo _ => py_ereq
  | LPy _ _ => py_dreq
  | LC _ _ _ _ => c_dreq
  | LCs _ arith _ => cs_dreq arith
  | LJava _ arith _ _ => jv_dreq arith
  | LJs _ _ _ => js_dreq
  | LKt _ _ _ => kt_req
  end.
Definition can_encode (L : lang) (fs : fields) : Prop :=
  match L, lang_tgt L with
  | LGo c, _ => go_ok c fs
  | _, Some T => req_fields (t_loop T) (lang_ereq L) True fs 0
  | _, None => False
  end.
Definition can_decode (L : lang) (fs : fields) : Prop :=
  match L, lang_tgt L with
  | LGo c, _ => go_ok c fs /\ consts_ok fs
  | _, Some T => req_fields (t_loop T) (lang_dreq L) True fs 0
  | _, None => False
  end.
(** Numbers and strings its variables can hold. *)
Definition lang_num (L : lang) (e : elem) (n z : Z) : Prop :=
  match L with
  | LGo _ => True
  | LC _ _ ew _ => c_vp ew e n z
  | LCs _ _ _ => cs_vp e n z
  | LJava _ _ known _ => jv_vp known e n z
  | LJs _ known _ => js_vp known e n z
  | LPy _ known | LKt _ known _ => py_vp known e n z
  end.
Definition lang_str (L : lang) (bs : list Z) : Prop :=
  match L with LGo _ | LC _ _ _ _ => True | _ => utf8_ok bs = true end.
Definition can_hold (L : lang) (fs : fields) (vs : list val) : Prop :=
  match L with LGo _ => True | _ => nums_fields (lang_num L) (lang_str L) fs vs end.
(** Messages must be shorter than this (array index types; JavaScript's 32-bit shifts on bit positions). *)
Definition lang_limit (L : lang) : Z :=
  match L with
  | LGo _ | LPy _ _ => 2 ^ 63
  | LC _ _ _ _ | LCs _ _ _ | LJava _ _ _ _ | LKt _ _ _ => 2 ^ 31
  | LJs _ _ _ => 2 ^ 28
  end.

(** ** Schemas that ask nothing of Python's encoder *)
Lemma req_true_mut lp :
  (forall e w n big from, req_elem lp py_ereq e w n big from) /\
  (forall fs top from, req_fields lp py_ereq top fs from).
Proof.
  apply schema_ind; intros; cbn; auto.
  split; auto. destruct (elem_dyn e) eqn:Ed.
  - apply H.
  - destruct (lp len).
    + split; [right; exact I|]. destruct e; cbn; auto. exact (H 0 0 big 0).
    + destruct e; cbn; auto. exact (H 0 0 big 0).
Qed.

(** ** Every encoder produces the wire image *)
Lemma tencode_ok T R zr mx : 0 < mx -> enc_spec T R zr mx -> forall fs vs,
  wf_struct fs -> nd_fields fs -> storable_fields fs vs -> req_fields (t_loop T) R True fs 0 ->
  encode_size fs vs < mx ->
  exists b, tencode T fs vs = Ok b /\ overlay (repeat 0 (Z.to_nat (encode_size fs vs))) 0 (image_fields fs vs) b.
Proof.
  intros Hm ES fs vs W Nd S Q Hx. pose proof (encode_size_nonneg fs vs W S).
  unfold tencode. rewrite (tsize_ok T R zr mx ES) by (auto; apply (fold_lens_bound mx); auto).
  destruct (tencode_to_ok T R zr mx Hm ES True fs vs 0 (repeat 0 (Z.to_nat (encode_size fs vs)))) as (b & E & O); auto; try lia.
  - apply bytes_ok_zeros.
  - rewrite zlen_repeat. lia.
  - rewrite zlen_repeat. lia.
  - intros _ i Hi. apply bitat_zeros.
  - exists b. rewrite E. split; auto.
Qed.

Lemma lang_encode_ok L fs vs :
  wf_struct fs -> nd_fields fs -> storable_fields fs vs -> can_encode L fs -> encode_size fs vs < lang_limit L ->
  exists b, lang_encode L fs vs = Ok b /\ overlay (repeat 0 (Z.to_nat (encode_size fs vs))) 0 (image_fields fs vs) b.
Proof.
  intros W Nd S C H.
  destruct L; cbn [lang_encode lang_tgt lang_limit can_encode lang_ereq] in *.
  - destruct (encode_ok c fs vs W C S) as (b & E & B & L & O). eauto.
  - eapply tencode_ok; eauto; [|apply c_enc_spec]; lia.
  - eapply tencode_ok; eauto; [|apply cs_enc_spec]; lia.
  - eapply tencode_ok; eauto; [|apply jv_enc_spec]; lia.
  - eapply tencode_ok; eauto; [|apply js_enc_spec]; lia.
  - eapply tencode_ok; eauto; [|apply py_enc_spec]; lia.
  - eapply tencode_ok; eauto; [|apply kt_enc_spec]; lia.
Qed.

(** ** Every decoder reads it, whatever follows *)
Lemma lang_decode_ok L fs vs data :
  wf_struct fs -> nd_fields fs -> storable_fields fs vs -> can_decode L fs -> can_hold L fs vs ->
  bytes_ok data -> zlen data < lang_limit L -> matches data 0 (image_fields fs vs) ->
  lang_decode L fs data = Ok (norm_fields fs vs, encode_size fs vs).
Proof.
  intros W Nd S C V Hb H M.
  destruct L; cbn [lang_decode lang_tgt lang_limit can_decode lang_dreq can_hold lang_num lang_str] in *.
  - destruct C as (G & C). apply decode_matches; auto.
  - eapply (tdecode_match _ _ _ _ _ (c_dec_spec loop arith ew feq) True); eauto; lia.
  - eapply (tdecode_match _ _ _ _ _ (cs_dec_spec loop arith repl) True); eauto; lia.
  - eapply (tdecode_match _ _ _ _ _ (jv_dec_spec loop arith known repl) True); eauto; lia.
  - eapply (tdecode_match _ _ _ _ _ (js_dec_spec loop known feq) True); eauto; lia.
  - eapply (tdecode_match _ _ _ _ _ (py_dec_spec unr known) True); eauto; lia.
  - eapply (tdecode_match _ _ _ _ _ (kt_dec_spec arith known repl) True); eauto; lia.
Qed.

(** ** Byte-aligned schemas
    Every field is as wide as its type, padding is whole bytes, enums have 8, 16 or 32 bits, and
    constants are unsigned, of at most 32 bits and below 2^31. *)
Fixpoint plain_elem (e : elem) : Prop :=
  match e with
  | EBasic _ | EString | EBytes => True
  | EEnum bits => bits = 8 \/ bits = 16 \/ bits = 32
  | EStruct fs => plain_fields fs
  end
with plain_fields (fs : fields) : Prop :=
  match fs with
  | FNil => True
  | FOne e n _ r => plain_elem e /\ n = elem_bits e /\ plain_fields r
  | FArr e len n _ r => plain_elem e /\ (elem_dyn e = false -> n = Z.of_nat len * elem_bits e) /\ plain_fields r
  | FVoid n r => n mod 8 = 0 /\ plain_fields r
  | FConst b n _ z r =>
      n = basic_bits b /\ (match b with BUint w => w <= 32 | _ => False end) /\ 0 <= z < 2 ^ 31 /\ z < 2 ^ n /\
      plain_fields r
  | FEmb r => plain_fields r
  end.

(** No arrays at all, and none inside nested structs. *)
Fixpoint no_arr_elem (e : elem) : Prop :=
  match e with EStruct fs => no_arr_fields fs | _ => True end
with no_arr_fields (fs : fields) : Prop :=
  match fs with
  | FNil => True
  | FOne e _ _ r => no_arr_elem e /\ no_arr_fields r
  | FArr _ _ _ _ _ => False
  | FVoid _ r | FConst _ _ _ _ r | FEmb r => no_arr_fields r
  end.
Fixpoint no_nested_arr (fs : fields) : Prop :=
  match fs with
  | FNil => True
  | FOne e _ _ r | FArr e _ _ _ r => no_arr_elem e /\ no_nested_arr r
  | FVoid _ r | FConst _ _ _ _ r | FEmb r => no_nested_arr r
  end.

(** The two restrictions on targets that remain: C# with -signext arith does not handle int64, and the
    Java loops over arrays are wrong in nested structs. *)
Definition plain_lang (L : lang) (fs : fields) : Prop :=
  match L with
  | LCs _ arith _ => arith = false
  | LJava loop _ _ _ => (forall len, loop len = false) \/ no_nested_arr fs
  | _ => True
  end.

Section PlainReq.
  Variable lp : nat -> bool.
  Variable R : treq.
  Hypothesis Hs : forall e big from, wf_elem e -> is_fixed_scalar e = true -> plain_elem e -> from mod 8 = 0 ->
    r_scalar R e (elem_bits e) (elem_bits e) big from.
  Hypothesis Hl : forall e big from, wf_elem e -> is_fixed_scalar e = true -> plain_elem e -> from mod 8 = 0 ->
    r_loop R e (elem_bits e) big from.
  Hypothesis Hc : forall w big from z, wf_basic (BUint w) -> w <= 32 -> 0 <= z < 2 ^ 31 -> z < 2 ^ w -> from mod 8 = 0 ->
    r_const R (BUint w) w big from z.

  Lemma plain_bits e : wf_elem e -> is_fixed_scalar e = true -> plain_elem e ->
    (elem_bits e = 8 \/ elem_bits e = 16 \/ elem_bits e = 32 \/ elem_bits e = 64) /\ enum_temp_bits (elem_bits e) = elem_bits e.
  Proof.
    intros W S P. destruct e as [[ |w|w|w]|b| | |]; try discriminate; cbn in *;
    [split; [auto|reflexivity]| | | |]; intuition (subst; auto).
  Qed.

  Lemma plain_req_mut :
    (forall e, wf_elem e -> plain_elem e -> (r_nested R \/ (forall len, lp len = false) \/ no_arr_elem e) ->
       forall w n big from, (is_fixed_scalar e = true -> w = elem_bits e /\ n = elem_bits e /\ from mod 8 = 0) -> req_elem lp R e w n big from) /\
    (forall fs from, wf_fields fs from -> plain_fields fs -> from mod 8 = 0 ->
       (r_nested R \/ (forall len, lp len = false) \/ no_arr_fields fs -> req_fields lp R False fs from) /\
       (r_nested R \/ (forall len, lp len = false) \/ no_nested_arr fs -> req_fields lp R True fs from)).
  Proof.
    apply schema_ind.
    - intros b W P _ w n big from H. destruct (H eq_refl) as (-> & -> & ?). cbn [req_elem]. now apply Hs.
    - intros bits W P _ w n big from H. destruct (H eq_refl) as (-> & -> & ?). cbn [req_elem]. now apply Hs.
    - cbn; auto.
    - cbn; auto.
    - intros fs IH W P N w n big from _. cbn [req_elem plain_elem no_arr_elem] in *. destruct W as (W & _).
      apply IH; auto.
    - cbn; auto.
    - intros e IHe n big r IHr from W P Hf. cbn [wf_fields plain_fields] in W, P. destruct W as (We & Wn & Wr), P as (Pe & -> & Pr).
      assert (Hf' : next_from from (elem_bits e) mod 8 = 0).
      { unfold next_from. destruct (Z.eqb_spec (elem_bits e) (-1)); auto. destruct (is_fixed_scalar e) eqn:S.
        - destruct (plain_bits e We S Pe) as ([H|[H|[H|H]]] & _); rewrite H in *; lia.
        - destruct e; try discriminate; cbn [elem_bits wf_elem] in *; lia. }
      destruct (IHr _ Wr Pr Hf') as (I1 & I2).
      assert (X : forall w n0 b, r_nested R \/ (forall len, lp len = false) \/ no_arr_elem e ->
                 w = enum_temp_bits (elem_bits e) -> n0 = elem_bits e -> req_elem lp R e w n0 b from).
      { intros w n0 b N -> ->. apply IHe; auto. intros S. destruct (plain_bits e We S Pe) as (_ & H). auto. }
      cbn [req_fields no_arr_fields no_nested_arr]. split; intros N; (split; [apply X; tauto|]); [apply I1|apply I2]; tauto.
    - intros e IHe len n big r IHr from W P Hf. cbn [wf_fields plain_fields] in W, P. destruct W as (We & Hlen & Wn & Wr), P as (Pe & Pn & Pr).
      assert (Hb8 : elem_dyn e = false -> elem_bits e mod 8 = 0).
      { intros Hd. destruct (is_fixed_scalar e) eqn:S.
        - destruct (plain_bits e We S Pe) as ([H|[H|[H|H]]] & _); rewrite H in *; reflexivity.
        - destruct e; try discriminate; cbn [elem_bits wf_elem] in *. tauto. }
      assert (Hf' : next_from from n mod 8 = 0).
      { unfold next_from. destruct (Z.eqb_spec n (-1)); auto.
        destruct (elem_dyn e) eqn:Hd.
        - destruct (is_fixed_scalar e) eqn:S; [destruct e; discriminate|lia].
        - rewrite (Pn eq_refl). specialize (Hb8 eq_refl). apply Z.mod_divide in Hb8 as (q & ->); try lia.
      }
      destruct (IHr _ Wr Pr Hf') as (I1 & I2).
      assert (X : forall top : Prop, (r_nested R \/ (forall len, lp len = false) \/ (no_arr_elem e /\ top)) ->
         (if elem_dyn e then req_elem lp R e 0 0 big 0
       else if lp len then
         (top \/ r_nested R) /\
         match e with
         | EStruct s => req_fields lp R False s 0
         | _ => forall i, 0 <= i < Z.of_nat len -> r_loop R e (n / Z.of_nat len) big (from + i * (n / Z.of_nat len))
         end
       else
         match e with
         | EStruct s => req_fields lp R False s 0
         | _ => forall i, 0 <= i < Z.of_nat len ->
                  r_scalar R e (8 * ((elem_bits e + 7) / 8)) (n / Z.of_nat len) big (from + i * (n / Z.of_nat len))
         end)).
      { intros top N.
        assert (Y : forall w n0, (is_fixed_scalar e = true -> False) -> req_elem lp R e w n0 big 0).
        { intros w n0 F. apply IHe; auto; [tauto|]. intros S. destruct (F S). }
        destruct (elem_dyn e) eqn:Hd; [apply Y; destruct e; discriminate|].
        rewrite (Pn eq_refl). replace (Z.of_nat len * elem_bits e / Z.of_nat len) with (elem_bits e)
          by (rewrite Z.mul_comm, Z.div_mul; lia).
        specialize (Hb8 eq_refl).
        assert (Z8 : forall i, (from + i * elem_bits e) mod 8 = 0).
        { intros i. apply Z.mod_divide in Hb8 as (q & ->); lia. }
        assert (T8 : 8 * ((elem_bits e + 7) / 8) = elem_bits e) by lia.
        destruct (lp len) eqn:El.
        - split; [destruct N as [N|[N|N]]; [auto|rewrite N in El; discriminate|tauto]|].
          destruct e; try discriminate; try (intros; apply Hl; auto; fail). apply (Y 0 0); discriminate.
        - rewrite T8. destruct e; try discriminate; try (intros; apply Hs; auto; fail). apply (Y 0 0); discriminate. }
      cbn [req_fields no_arr_fields no_nested_arr].
      split; intros N; (split; [apply X; tauto|]); [apply I1|apply I2]; tauto.
    - intros n r IH from W P Hf. cbn [wf_fields plain_fields] in *. destruct W as (Hn & W), P as (Pn & P).
      cbn [req_fields no_arr_fields no_nested_arr]. apply IH; auto. lia.
    - intros b n big z r IH from W P Hf. cbn [wf_fields plain_fields] in *. destruct W as (Wb & Hn & W), P as (-> & Pb & Pz & Pz2 & P).
      cbn [req_fields no_arr_fields no_nested_arr].
      assert (Hf' : (from + basic_bits b) mod 8 = 0).
      { destruct b; cbn [wf_basic basic_bits] in *; intuition (subst; lia). }
      destruct (IH _ W P Hf') as (I1 & I2).
      destruct b; try contradiction. cbn [basic_bits] in *.
      split; intros N; (split; [apply Hc; auto|]); auto.
    - intros r IH from W P Hf. cbn [wf_fields plain_fields req_fields no_arr_fields no_nested_arr] in *. apply IH; auto.
  Qed.
End PlainReq.

Lemma plain_go_ok c : (forall e, wf_elem e -> plain_elem e -> go_ok_elem c e) /\
  (forall fs from, wf_fields fs from -> plain_fields fs -> go_ok c fs).
Proof.
  apply schema_ind; intros; cbn [wf_elem wf_fields plain_elem plain_fields go_ok_elem go_ok] in *; auto.
  - destruct H0. eauto.
  - destruct H1 as (? & ? & ?), H2 as (? & ? & ?). split; eauto.
  - destruct H1 as (? & ? & ? & ?), H2 as (? & ? & ?). split; [auto|]. split; [|eauto].
    destruct e; auto. right. cbn in H2. intuition (subst; reflexivity).
  - destruct H0, H1; eauto.
  - destruct H0 as (Wb & _ & ?), H1 as (-> & Pb & ? & ? & ?). split; [|eauto].
    destruct b; try contradiction. cbn [basic_bits wf_basic] in *. unfold const_compiles.
    rewrite (proj2 (Z.leb_le _ _)) by lia. cbn [andb].
    destruct Wb as [->|[->|[->| ->]]]; try lia; cbn [andb];
      match goal with |- context [enum_temp_bits ?n] => change (enum_temp_bits n) with n end;
      rewrite (proj2 (Z.ltb_lt _ _)) by lia; reflexivity.
  - eauto.
Qed.
Lemma plain_consts : (forall e, wf_elem e -> plain_elem e -> consts_ok_elem e) /\
  (forall fs from, wf_fields fs from -> plain_fields fs -> consts_ok fs).
Proof.
  apply schema_ind; intros; cbn [wf_elem wf_fields plain_elem plain_fields consts_ok_elem consts_ok] in *; auto.
  - destruct H0. eauto.
  - destruct H1 as (? & ? & ?), H2 as (? & ? & ?). split; eauto.
  - destruct H1 as (? & ? & ? & ?), H2 as (? & ? & ?). split; eauto.
  - destruct H0, H1; eauto.
  - destruct H0 as (? & ? & ?), H1 as (-> & Pb & ? & ? & ?). split; [|eauto].
    apply received_simple; auto; try lia. intros w ->; contradiction.
  - eauto.
Qed.

Lemma cf_good_0 n from : from mod 8 = 0 -> cf_good n from.
Proof. left; auto. Qed.

Lemma has_uint_plain w : w = 8 \/ w = 16 \/ w = 32 -> has_uint w = true.
Proof. intuition (subst; reflexivity). Qed.

Lemma plain_can_encode L fs : wf_struct fs -> plain_fields fs -> plain_lang L fs -> can_encode L fs.
Proof.
  intros (W & _) P N. assert (Z0 : 0 mod 8 = 0) by reflexivity.
  destruct L; cbn [can_encode lang_tgt lang_ereq plain_lang] in *.
  1: now apply (proj2 (plain_go_ok c) fs 0).
  5: apply req_true_mut.
  all: match goal with |- req_fields _ ?R _ _ _ => eapply (plain_req_mut _ R) end; auto.
  all: try (right; exact N).
  all: try (left; exact I).
  all: cbn [c_ereq cs_ereq jv_ereq js_ereq kt_req r_scalar r_loop r_const].
  all: intros; auto using cf_good_0.
  all: split; auto using cf_good_0; intros bits ->; cbn [elem_bits plain_elem] in *; try split; auto using has_uint_plain; lia.
Qed.

Lemma plain_can_decode L fs : wf_struct fs -> plain_fields fs -> plain_lang L fs -> can_decode L fs.
Proof.
  intros (W & _) P N. assert (Z0 : 0 mod 8 = 0) by reflexivity.
  destruct L; cbn [can_decode lang_tgt lang_dreq plain_lang] in *.
  1: split; [now apply (proj2 (plain_go_ok c) fs 0)|now apply (proj2 plain_consts fs 0)].
  all: match goal with |- req_fields _ ?R _ _ _ => eapply (plain_req_mut _ R) end; auto.
  all: try (right; exact N).
  all: try (left; exact I).
  all: cbn [py_dreq c_dreq cs_dreq jv_dreq js_dreq kt_req r_scalar r_loop r_const].
  all: intros; auto.
  - subst e. cbn [elem_bits plain_elem] in *. split; auto using has_uint_plain. lia.
  - cbn [basic_bits]. split; auto. lia.
  - destruct e as [[ |w|w|w]|b| | |]; auto. cbn [elem_bits plain_elem] in *. split; auto using has_uint_plain. lia.
  - cbn [basic_bits wf_basic] in *. split; auto. split; [intuition (subst; reflexivity)|lia].
  - destruct e as [[ |w|w|w]|b| | |]; auto; cbn [elem_bits plain_elem wf_elem wf_basic basic_bits] in *.
    + split; [intuition (subst; reflexivity)|lia].
    + split; auto. lia.
  - destruct e as [[ |w|w|w]|b| | |]; auto; cbn [elem_bits basic_bits]. lia.
  - cbn [basic_bits wf_basic] in *. split; auto. split; [intuition (subst; reflexivity)|lia].
  - destruct e as [[ |w|w|w]|b| | |]; auto; cbn [elem_bits basic_bits plain_elem wf_elem wf_basic] in *; [|lia].
    intuition (subst; auto; lia).
  - cbn [basic_bits]. split; auto. lia.
  - left; auto.
  - cbn [basic_bits]. split; [left; auto|]. split; auto. lia.
Qed.
