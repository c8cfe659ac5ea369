(** When the C-family encoders do not depend on what the buffer held before.

    They store with "=" when a field enters a byte at its first bit and with "|=" otherwise (inline
    statements), or with "=" only when an element covers the whole byte (array loops); padding stores
    nothing.  [clears_fields] says that every byte of the message is entered by an "=". *)
From Coq Require Import ZArith List Lia Bool.
From Verif Require Import Base BaseProofs Schema SpecWire GoModel GoBitProofs GoEncProofs GoEncMain GoDecProofs GoRound
  GoCore CfBits CfBitProofs TgtModel TgtEncProofs TgtDecProofs TgtPrims PyTarget KtTarget CTarget JavaTarget CsTarget JsTarget Interop.
Import ListNotations.
Open Scope Z_scope.
Ltac Zify.zify_post_hook ::= Z.to_euclidean_division_equations.

(** The schema condition.  [lp]: which array lengths are coded as loops. *)
Definition inside_byte (from n : Z) : Prop := from mod 8 <> 0 /\ from / 8 = (from + n - 1) / 8.
Fixpoint clears_elem (lp : nat -> bool) (e : elem) : Prop :=
  match e with EStruct fs => clears_fields lp fs 0 | _ => True end
with clears_fields (lp : nat -> bool) (fs : fields) (from : Z) : Prop :=
  match fs with
  | FNil => True
  | FOne e n _ r => clears_elem lp e /\ clears_fields lp r (next_from from n)
  | FArr e len n _ r =>
      clears_elem lp e /\
      (is_fixed_scalar e = true -> lp len = true ->
       (from mod 8 = 0 /\ (n / Z.of_nat len) mod 8 = 0) \/ inside_byte from n) /\
      clears_fields lp r (next_from from n)
  | FVoid n r => inside_byte from n /\ clears_fields lp r (from + n)
  | FConst _ n _ _ r => clears_fields lp r (from + n)
  | FEmb r => clears_fields lp r from
  end.

(** ** Two runs of the same encoder
    [agree P E b1 b2]: the buffers have the same length and the same bytes below [P] and from [E] on. *)
Definition agree (P E : Z) (b1 b2 : list Z) : Prop :=
  length b1 = length b2 /\ forall j, 0 <= j -> j < P \/ E <= j -> rd b1 j = rd b2 j.

Lemma agree_mono P P' E b1 b2 : P' <= P -> agree P E b1 b2 -> agree P' E b1 b2.
Proof. intros H (L & A). split; auto. intros j Hj Hc. apply A; lia. Qed.

Lemma rd_upd b i v j : 0 <= i < zlen b -> 0 <= j -> rd (upd_nat b (Z.to_nat i) v) j = if j =? i then Ok v else rd b j.
Proof.
  intros Hi Hj. destruct (Z.ltb_spec j (zlen b)).
  - rewrite rd_ok by (unfold zlen; rewrite upd_nat_length; unfold zlen in *; lia).
    rewrite upd_nat_nth. destruct (Z.eqb_spec j i).
    + subst. destruct (Nat.eqb_spec (Z.to_nat i) (Z.to_nat i)); [|lia].
      destruct (Nat.ltb_spec (Z.to_nat i) (length b)); [reflexivity|unfold zlen in *; lia].
    + destruct (Nat.eqb_spec (Z.to_nat j) (Z.to_nat i)); [lia|]. cbn [andb]. rewrite rd_ok by lia. reflexivity.
  - unfold rd. destruct (Z.ltb_spec j 0); [lia|].
    destruct (Z.eqb_spec j i); [lia|].
    rewrite (proj2 (nth_error_None _ _)) by (rewrite upd_nat_length; unfold zlen in *; lia).
    rewrite (proj2 (nth_error_None _ _)) by (unfold zlen in *; lia). reflexivity.
Qed.

Lemma wr_agree P E b1 b2 i v b2' : agree P E b1 b2 -> wr b2 i v = Ok b2' ->
  exists b1', wr b1 i v = Ok b1' /\ agree P E b1' b2' /\ (i = P -> agree (P + 1) E b1' b2').
Proof.
  intros (L & A) W. unfold wr in *. assert (EL : zlen b1 = zlen b2) by (unfold zlen; lia). rewrite EL.
  destruct ((i <? 0) || (zlen b2 <=? i)) eqn:G; [discriminate|]. injection W as <-.
  apply orb_false_iff in G as (G1 & G2). apply Z.ltb_ge in G1. apply Z.leb_gt in G2.
  assert (X : forall j, 0 <= j -> (j < P \/ E <= j) \/ j = i ->
    rd (upd_nat b1 (Z.to_nat i) v) j = rd (upd_nat b2 (Z.to_nat i) v) j).
  { intros j Hj Hc. rewrite !rd_upd by lia. destruct (Z.eqb_spec j i); auto. apply A; tauto. }
  eexists. split; [reflexivity|]. split; [|intros ->]; (split; [rewrite !upd_nat_length; auto|]); intros j Hj Hc; apply X; auto; lia.
Qed.

Lemma rd_agree P E b1 b2 i x : agree P E b1 b2 -> i < P -> rd b2 i = Ok x -> rd b1 i = Ok x.
Proof.
  intros (L & A) H R. rewrite A; auto.
  unfold rd in R. destruct (Z.ltb_spec i 0); [discriminate|lia].
Qed.

(** Inline statements: no matter what, every byte touched agrees afterwards. *)
Definition up8 (x : Z) : Z := (x + 7) / 8.
Lemma cf_enc_loop_agree fd base from E : forall fuel to i b1 b2 b2', 0 <= base -> 0 <= i ->
  agree (base + up8 i) E b1 b2 ->
  cf_enc_loop fuel (fun i _ => i mod 8 =? 0) fd base from to i b2 = Ok b2' -> to - i <= Z.of_nat fuel ->
  exists b1', cf_enc_loop fuel (fun i _ => i mod 8 =? 0) fd base from to i b1 = Ok b1' /\ agree (base + up8 to) E b1' b2'.
Proof.
  induction fuel; intros to i b1 b2 b2' Hb Hi A H Hf; cbn [cf_enc_loop] in *.
  - injection H as <-. exists b1. split; auto. eapply agree_mono; [|exact A]. unfold up8. lia.
  - destruct (Z.ltb_spec i to).
    + set (ni := Z.min to (cf_next8 i)) in *. set (x := Z.land (Z.shiftl (cf_part fd (i - from) (ni - from)) (i mod 8)) (cf_mask i ni)) in *.
      destruct (rd b2 (base + i / 8)) as [old| |] eqn:R2; cbn [bind] in H; try discriminate.
      destruct (wr b2 (base + i / 8) ((if i mod 8 =? 0 then x else Z.lor old x) mod 256)) as [b2m| |] eqn:W2; cbn [bind] in H; try discriminate.
      assert (R1 : exists old1, rd b1 (base + i / 8) = Ok old1 /\
                (if i mod 8 =? 0 then x else Z.lor old1 x) = (if i mod 8 =? 0 then x else Z.lor old x)).
      { destruct (Z.eqb_spec (i mod 8) 0).
        - apply rd_inv in R2 as (R2 & _). destruct A as (L & _).
          exists (nth (Z.to_nat (base + i / 8)) b1 0). split; auto. apply rd_ok. unfold zlen in *. lia.
        - exists old. split; auto. eapply rd_agree; eauto. unfold up8. lia. }
      destruct R1 as (old1 & -> & Ex). cbn [bind]. rewrite Ex.
      destruct (wr_agree _ _ _ _ _ _ _ A W2) as (b1m & -> & A1 & A2). cbn [bind].
      eapply (IHfuel to (cf_next8 i) b1m b2m b2'); auto.
      * rewrite cf_next8_eq. lia.
      * rewrite cf_next8_eq. destruct (Z.eq_dec (i mod 8) 0).
        -- eapply agree_mono; [|apply A2; unfold up8; lia]. unfold up8. lia.
        -- eapply agree_mono; [|exact A1]. unfold up8. lia.
      * rewrite cf_next8_eq. lia.
    + injection H as <-. exists b1. split; auto. eapply agree_mono; [|exact A]. unfold up8. lia.
Qed.

Lemma cf_enc_agree fd from n base E b1 b2 b2' : 0 <= base -> 0 <= from -> 0 <= n ->
  agree (base + up8 from) E b1 b2 -> cf_enc fd from n base b2 = Ok b2' ->
  exists b1', cf_enc fd from n base b1 = Ok b1' /\ agree (base + up8 (from + n)) E b1' b2'.
Proof. intros Hb Hf Hn A H. unfold cf_enc in *. eapply cf_enc_loop_agree; eauto. lia. Qed.

(** Array loops: whole bytes, or inside a byte that already agrees. *)
Lemma mask_full i ni : 0 <= i -> i < ni -> ni <= 8 * (i / 8 + 1) -> (cf_mask i ni =? 255) = (i mod 8 =? 0) && (ni =? 8 * (i / 8 + 1)).
Proof.
  intros Hi Hn H8. assert (B : forall j, 0 <= j -> Z.testbit (cf_mask i ni) j = (i mod 8 <=? j) && (j <? ni - 8 * (i / 8)))
    by (intros; apply cf_mask_bit; auto).
  assert (F : forall j, 0 <= j -> Z.testbit 255 j = (j <? 8)).
  { intros j Hj. change 255 with (Z.ones 8). destruct (Z.ltb_spec j 8); [apply Z.ones_spec_low; lia|apply Z.ones_spec_high; lia]. }
  destruct (Z.eqb_spec (i mod 8) 0), (Z.eqb_spec ni (8 * (i / 8 + 1))); cbn [andb].
  - apply Z.eqb_eq. apply Z.bits_inj'. intros j Hj. rewrite B, F by lia.
    destruct (Z.leb_spec (i mod 8) j), (Z.ltb_spec j (ni - 8 * (i / 8))), (Z.ltb_spec j 8); cbn [andb]; try reflexivity; lia.
  - apply Z.eqb_neq. intros X. pose proof (B 7 ltac:(lia)) as Y. rewrite X in Y. rewrite F in Y by lia.
    destruct (Z.leb_spec (i mod 8) 7), (Z.ltb_spec 7 (ni - 8 * (i / 8))); cbn [andb] in Y; try discriminate; lia.
  - apply Z.eqb_neq. intros X. pose proof (B 0 ltac:(lia)) as Y. rewrite X in Y. rewrite F in Y by lia.
    destruct (Z.leb_spec (i mod 8) 0); [lia|]. discriminate.
  - apply Z.eqb_neq. intros X. pose proof (B 0 ltac:(lia)) as Y. rewrite X in Y. rewrite F in Y by lia.
    destruct (Z.leb_spec (i mod 8) 0); [lia|]. discriminate.
Qed.

Lemma cf_write_loop_agree fd from E : forall fuel to i b1 b2 b2', 0 <= i ->
  (i mod 8 = 0 /\ to mod 8 = 0) \/ inside_byte i (to - i) \/ to <= i ->
  agree (up8 i) E b1 b2 ->
  cf_enc_loop fuel (fun _ m => m =? 255) fd 0 from to i b2 = Ok b2' -> to - i <= Z.of_nat fuel ->
  exists b1', cf_enc_loop fuel (fun _ m => m =? 255) fd 0 from to i b1 = Ok b1' /\ agree (up8 to) E b1' b2'.
Proof.
  induction fuel; intros to i b1 b2 b2' Hi Hc A H Hf; cbn [cf_enc_loop] in *.
  - injection H as <-. exists b1. split; auto. eapply agree_mono; [|exact A]. unfold up8. lia.
  - destruct (Z.ltb_spec i to).
    + set (ni := Z.min to (cf_next8 i)) in *. set (x := Z.land (Z.shiftl (cf_part fd (i - from) (ni - from)) (i mod 8)) (cf_mask i ni)) in *.
      assert (Hni : i < ni /\ ni <= 8 * (i / 8 + 1) /\ ni = Z.min to (8 * (i / 8 + 1))) by (unfold ni; rewrite cf_next8_eq; lia).
      rewrite (mask_full i ni) in * by lia.
      set (pl := (i mod 8 =? 0) && (ni =? 8 * (i / 8 + 1))) in *.
      destruct (rd b2 (0 + i / 8)) as [old| |] eqn:R2; cbn [bind] in H; try discriminate.
      destruct (wr b2 (0 + i / 8) ((if pl then x else Z.lor old x) mod 256)) as [b2m| |] eqn:W2; cbn [bind] in H; try discriminate.
      assert (Hpl : pl = true <-> i mod 8 = 0).
      { unfold pl. destruct (Z.eqb_spec (i mod 8) 0), (Z.eqb_spec ni (8 * (i / 8 + 1))); cbn [andb]; split; intros; try discriminate; try lia; auto. exfalso.
        unfold inside_byte in Hc. lia. }
      assert (R1 : exists old1, rd b1 (0 + i / 8) = Ok old1 /\
                (if pl then x else Z.lor old1 x) = (if pl then x else Z.lor old x)).
      { destruct pl eqn:Ep.
        - apply rd_inv in R2 as (R2 & _). destruct A as (L & _).
          exists (nth (Z.to_nat (0 + i / 8)) b1 0). split; auto. apply rd_ok. unfold zlen in *. lia.
        - exists old. split; auto. eapply rd_agree; eauto. assert (i mod 8 <> 0) by (intros X; apply Hpl in X; discriminate). unfold up8. lia. }
      destruct R1 as (old1 & -> & Ex). cbn [bind]. rewrite Ex.
      destruct (wr_agree _ _ _ _ _ _ _ A W2) as (b1m & -> & A1 & A2). cbn [bind].
      eapply (IHfuel to (cf_next8 i) b1m b2m b2'); auto; rewrite ?cf_next8_eq.
      * lia.
      * unfold inside_byte in *. lia.
      * destruct (Z.eq_dec (i mod 8) 0).
        -- eapply agree_mono; [|apply A2; unfold up8; lia]. unfold up8. lia.
        -- eapply agree_mono; [|exact A1]. unfold up8. lia.
      * lia.
    + injection H as <-. exists b1. split; auto. eapply agree_mono; [|exact A]. unfold up8. lia.
Qed.

Lemma cf_write_agree pos n z big E b1 b2 b2' : 0 <= pos -> 1 <= n ->
  (pos mod 8 = 0 /\ n mod 8 = 0) \/ inside_byte pos n ->
  agree (up8 pos) E b1 b2 -> cf_write_bits pos n z big b2 = Ok b2' ->
  exists b1', cf_write_bits pos n z big b1 = Ok b1' /\ agree (up8 (pos + n)) E b1' b2'.
Proof.
  intros Hp Hn Hc A H. unfold cf_write_bits in *. destruct (Z.leb_spec n 0); [lia|]. cbv zeta in *.
  eapply cf_write_loop_agree; eauto; [|lia]. unfold inside_byte in *. lia.
Qed.

(** Strings and byte strings overwrite what they cover. *)
Lemma nth_error_skipn_eq {A} : forall k (b : list A) i, nth_error (skipn k b) i = nth_error b (k + i).
Proof. induction k; intros b i; [reflexivity|]. destruct b; cbn; [destruct i; reflexivity|apply IHk]. Qed.
Lemma nth_error_firstn_eq {A} : forall k (b : list A) i, (i < k)%nat -> nth_error (firstn k b) i = nth_error b i.
Proof. induction k; intros b i H; [lia|]. destruct b; [reflexivity|]. destruct i; [reflexivity|]. cbn. apply IHk. lia. Qed.
Lemma g_copy_agree P E b1 b2 src b2' : agree P E b1 b2 -> g_copy b2 P src = Ok b2' ->
  exists b1', g_copy b1 P src = Ok b1' /\ agree (P + zlen src) E b1' b2'.
Proof.
  intros (L & A) H. unfold g_copy in *. assert (EL : zlen b1 = zlen b2) by (unfold zlen; lia). rewrite EL.
  destruct ((P <? 0) || (zlen b2 <? P + zlen src)) eqn:G; [discriminate|].
  apply orb_false_iff in G as (G1 & G2). apply Z.ltb_ge in G1, G2.
  unfold copy_at in *. rewrite EL. destruct ((P <? 0) || (zlen b2 <? P)) eqn:G; [discriminate|].
  injection H as <-. eexists. split; [reflexivity|]. unfold zlen in *.
  rewrite !(firstn_all2 src) by lia.
  assert (X : forall b j, length b = length b2 -> 0 <= j ->
     rd (firstn (Z.to_nat P) b ++ src ++ skipn (Z.to_nat P + length src) b) j =
     if (P <=? j) && (j <? P + Z.of_nat (length src)) then rd src (j - P) else rd b j).
  { intros b j Lb Hj. unfold rd. destruct (Z.ltb_spec j 0); [lia|].
    assert (Lf : length (firstn (Z.to_nat P) b) = Z.to_nat P) by (rewrite firstn_length; lia).
    destruct (Z.leb_spec P j), (Z.ltb_spec j (P + Z.of_nat (length src))); cbn [andb].
    - destruct (Z.ltb_spec (j - P) 0); [lia|]. rewrite nth_error_app2 by lia. rewrite Lf, nth_error_app1 by lia.
      replace (Z.to_nat j - Z.to_nat P)%nat with (Z.to_nat (j - P)) by lia. reflexivity.
    - rewrite nth_error_app2 by lia. rewrite Lf, nth_error_app2 by lia.
      replace (nth_error (skipn (Z.to_nat P + length src) b) (Z.to_nat j - Z.to_nat P - length src)) with (nth_error b (Z.to_nat j)); [reflexivity|].
      rewrite nth_error_skipn_eq. f_equal. lia.
    - rewrite nth_error_app1 by lia. rewrite nth_error_firstn_eq by lia. reflexivity.
    - lia. }
  split.
  - rewrite !app_length, !firstn_length, !skipn_length. lia.
  - intros j Hj Hc. rewrite !X by lia. destruct (Z.leb_spec P j), (Z.ltb_spec j (P + Z.of_nat (length src))); cbn [andb]; auto; apply A; lia.
Qed.

Lemma g_estring_agree P E b1 b2 bs b2' k : agree P E b1 b2 -> g_estring P bs b2 = Ok (b2', k) ->
  exists b1', g_estring P bs b1 = Ok (b1', k) /\ 0 <= k /\ agree (P + k) E b1' b2'.
Proof.
  intros A H. unfold g_estring in *. destruct (g_copy b2 P bs) as [m2| |] eqn:C; cbn [bind] in H; try discriminate.
  destruct (g_copy_agree _ _ _ _ _ _ A C) as (m1 & -> & A1). cbn [bind].
  destruct (wr m2 (P + zlen bs) 0) as [f2| |] eqn:W; cbn [bind] in H; try discriminate. injection H as <- <-.
  destruct (wr_agree _ _ _ _ _ _ _ A1 W) as (f1 & -> & _ & A2). cbn [bind]. exists f1. split; auto.
  pose proof (zlen_nonneg bs). split; [lia|]. replace (P + (zlen bs + 1)) with (P + zlen bs + 1) by lia. auto.
Qed.

Lemma enc_varint_agree E : forall fuel temp P b1 b2 b2' p, agree P E b1 b2 -> enc_varint fuel 0 temp P b2 = Ok (b2', p) ->
  exists b1', enc_varint fuel 0 temp P b1 = Ok (b1', p) /\ P + 1 <= p /\ agree p E b1' b2'.
Proof.
  induction fuel; intros temp P b1 b2 b2' p A H; [discriminate|]. cbn [enc_varint] in *.
  replace (P + 0) with P in * by lia.
  destruct (wr b2 P (Z.lor (Z.land temp 127) 128)) as [m2| |] eqn:W; cbn [bind] in H; try discriminate.
  destruct (wr_agree _ _ _ _ _ _ _ A W) as (m1 & -> & _ & A2). cbn [bind].
  destruct (Z.shiftr temp 7 =? 0).
  - injection H as <- <-. exists m1. split; auto. split; [lia|]. auto.
  - destruct (IHfuel _ _ _ _ _ _ (A2 eq_refl) H) as (b1' & -> & Hp & A3). exists b1'. split; auto. split; [lia|auto].
Qed.

Lemma g_ebytes_agree P E b1 b2 bs b2' k : agree P E b1 b2 -> g_ebytes P bs b2 = Ok (b2', k) ->
  exists b1', g_ebytes P bs b1 = Ok (b1', k) /\ 0 <= k /\ agree (P + k) E b1' b2'.
Proof.
  intros A H. unfold g_ebytes in *.
  destruct (enc_varint 10 0 (zlen bs) P b2) as [[m2 p]| |] eqn:C; cbn [bind] in H; try discriminate.
  destruct (enc_varint_agree _ _ _ _ _ _ _ _ A C) as (m1 & -> & Hp & A1). cbn [bind].
  destruct (rd m2 (p - 1)) as [l| |] eqn:R; cbn [bind] in H; try discriminate.
  rewrite (rd_agree p E m1 m2 (p - 1) l A1 ltac:(lia) R). cbn [bind].
  destruct (wr m2 (p - 1) (Z.ldiff l 128)) as [n2| |] eqn:W; cbn [bind] in H; try discriminate.
  destruct (wr_agree _ _ _ _ _ _ _ A1 W) as (n1 & -> & A2 & _). cbn [bind].
  destruct (g_copy n2 p bs) as [f2| |] eqn:C2; cbn [bind] in H; try discriminate. injection H as <- <-.
  destruct (g_copy_agree _ _ _ _ _ _ A2 C2) as (f1 & -> & A3). cbn [bind]. exists f1. split; auto.
  pose proof (zlen_nonneg bs). split; [lia|]. replace (P + (p + zlen bs - P)) with (p + zlen bs) by lia. auto.
Qed.

Lemma js_varint_agree E : forall fuel temp P b1 b2 b2' p, agree P E b1 b2 -> js_varint fuel temp P b2 = Ok (b2', p) ->
  exists b1', js_varint fuel temp P b1 = Ok (b1', p) /\ P + 1 <= p /\ agree p E b1' b2'.
Proof.
  induction fuel; intros temp P b1 b2 b2' p A H; [discriminate|]. cbn [js_varint] in *. cbv zeta in *.
  match type of H with bind ?w _ = _ => destruct w as [m2| |] eqn:W end; cbn [bind] in H; try discriminate.
  destruct (wr_agree _ _ _ _ _ _ _ A W) as (m1 & -> & _ & A2). cbn [bind].
  destruct (0 <? temp / 128).
  - destruct (IHfuel _ _ _ _ _ _ (A2 eq_refl) H) as (b1' & -> & Hp & A3). exists b1'. split; auto. split; [lia|auto].
  - injection H as <- <-. exists m1. split; auto. split; [lia|]. auto.
Qed.

Lemma js_ebytes_agree P E b1 b2 bs b2' k : agree P E b1 b2 -> js_ebytes P bs b2 = Ok (b2', k) ->
  exists b1', js_ebytes P bs b1 = Ok (b1', k) /\ 0 <= k /\ agree (P + k) E b1' b2'.
Proof.
  intros A H. unfold js_ebytes in *.
  destruct (js_varint 10 (zlen bs) P b2) as [[m2 p]| |] eqn:C; cbn [bind] in H; try discriminate.
  destruct (js_varint_agree _ _ _ _ _ _ _ _ A C) as (m1 & -> & Hp & A1). cbn [bind].
  destruct (g_copy m2 p bs) as [f2| |] eqn:C2; cbn [bind] in H; try discriminate. injection H as <- <-.
  destruct (g_copy_agree _ _ _ _ _ _ A1 C2) as (f1 & -> & A3). cbn [bind]. exists f1. split; auto.
  pose proof (zlen_nonneg bs). split; [lia|]. replace (P + (p + zlen bs - P)) with (p + zlen bs) by lia. auto.
Qed.

(** ** Whole messages *)
Record sc_spec (T : tgt) : Prop := {
  sc_kt : t_kt T = false;
  sc_scalar : forall e w n big from base z, (forall buf, t_escalar T e w n big from base z buf = Panic) \/
    exists fd, forall buf, t_escalar T e w n big from base z buf = cf_enc fd from n base buf;
  sc_const : forall b n big from base z, exists fd, forall buf, t_econst T b n big from base z buf = cf_enc fd from n base buf;
  sc_loop : forall e n big pos z, (forall buf, t_eloop T e n big pos z buf = Panic) \/
    exists x, forall buf, t_eloop T e n big pos z buf = cf_write_bits pos n x big buf;
  sc_string : forall P E b1 b2 bs b2' k, agree P E b1 b2 -> t_estring T P bs b2 = Ok (b2', k) ->
    exists b1', t_estring T P bs b1 = Ok (b1', k) /\ 0 <= k /\ agree (P + k) E b1' b2';
  sc_bytes : forall P E b1 b2 bs b2' k, agree P E b1 b2 -> t_ebytes T P bs b2 = Ok (b2', k) ->
    exists b1', t_ebytes T P bs b1 = Ok (b1', k) /\ 0 <= k /\ agree (P + k) E b1' b2'
}.

Lemma c_sc loop arith ew feq : sc_spec (c_tgt loop arith ew feq).
Proof.
  constructor; cbn.
  - reflexivity.
  - intros e w n big from base z. destruct e; cbn; eauto. destruct (has_uint w); eauto.
  - intros. unfold c_econst. eauto.
  - intros. right. unfold c_eloop. eauto.
  - intros. eapply g_estring_agree; eauto.
  - intros. eapply g_ebytes_agree; eauto.
Qed.
Lemma cs_sc loop arith repl : sc_spec (cs_tgt loop arith repl).
Proof.
  constructor; cbn.
  - reflexivity.
  - intros e w n big from base z. destruct e as [b| | | |]; cbn; eauto. destruct b; eauto. destruct (has_uint w); eauto.
  - intros. unfold c_econst. eauto.
  - intros. destruct e as [b| | | |]; cbn; eauto. destruct b; eauto.
  - intros. eapply g_estring_agree; eauto.
  - intros. eapply g_ebytes_agree; eauto.
Qed.
Lemma jv_sc loop arith known repl : sc_spec (jv_tgt loop arith known repl).
Proof.
  constructor; cbn.
  - reflexivity.
  - intros e w n big from base z. destruct e as [b| | | |]; cbn; eauto. destruct (z =? -1); eauto. destruct (has_uint w); eauto.
  - intros. unfold c_econst. eauto.
  - intros. destruct e as [b| | | |]; cbn; eauto. destruct b; eauto. destruct (z =? -1); eauto.
  - intros. eapply g_estring_agree; eauto.
  - intros. eapply g_ebytes_agree; eauto.
Qed.
Lemma js_sc loop known feq : sc_spec (js_tgt loop known feq).
Proof.
  constructor; cbn.
  - reflexivity.
  - intros e w n big from base z. destruct e as [b| | | |]; cbn; eauto.
  - intros. unfold c_econst. eauto.
  - intros. destruct e as [b| | | |]; cbn; eauto.
  - intros. eapply g_estring_agree; eauto.
  - intros. eapply js_ebytes_agree; eauto.
Qed.

Section SC.
  Variable T : tgt.
  Variable R : treq.
  Hypothesis SC : sc_spec T.
  Hypothesis NR : r_nested R -> t_lstart T = true.

  (** Where the element ends. *)
  Definition e_end (e : elem) (n from : Z) : Z :=
    if elem_dyn e then from else if is_fixed_scalar e then from + n else from + elem_bits e.

  Definition SCE (e : elem) : Prop := forall dyn w n big from v start off E b1 b2 b2' o,
    wf_elem e -> nd_elem e -> storable_elem e v -> clears_elem (t_loop T) e -> req_elem (t_loop T) R e w n big from ->
    (if is_fixed_scalar e then 1 <= n else from mod 8 = 0) -> 0 <= from -> 0 <= start -> offk dyn off ->
    agree (start + off + up8 from) E b1 b2 ->
    tenc_elem T dyn e w n big from v start off b2 = Ok (b2', o) ->
    exists b1', tenc_elem T dyn e w n big from v start off b1 = Ok (b1', o) /\
      off <= o /\ (elem_dyn e = false -> o = off) /\ agree (start + o + up8 (e_end e n from)) E b1' b2'.

  Definition SCF (fs : fields) : Prop := forall (top : Prop) dyn vs from start off E b1 b2 b2' o,
    wf_fields fs from -> nd_fields fs -> storable_fields fs vs -> clears_fields (t_loop T) fs from ->
    req_fields (t_loop T) R top fs from -> (top -> start = 0) ->
    0 <= from -> 0 <= start -> offk dyn off ->
    agree (start + off + up8 from) E b1 b2 ->
    tenc_fields T dyn fs vs from start off b2 = Ok (b2', o) ->
    exists b1', tenc_fields T dyn fs vs from start off b1 = Ok (b1', o) /\
      off <= o /\ (fields_dyn fs = false -> o = off) /\ agree (start + o + up8 (from + fixed_bits fs)) E b1' b2'.

  Lemma iter_agree (f : Z -> val -> Z -> list Z -> res (list Z * Z)) (Q : val -> Prop) (pos : Z -> Z -> Z) (K : Z -> Prop) (N E : Z) :
    (forall i v o b1 b2 b2' o', 0 <= i < N -> Q v -> K o -> agree (pos i o) E b1 b2 -> f i v o b2 = Ok (b2', o') ->
       exists b1', f i v o b1 = Ok (b1', o') /\ K o' /\ agree (pos (i + 1) o') E b1' b2') ->
    forall arr i o b1 b2 b2' o', 0 <= i -> i + zlen arr <= N -> Forall Q arr -> K o -> agree (pos i o) E b1 b2 ->
      iter_enc f i arr o b2 = Ok (b2', o') ->
      exists b1', iter_enc f i arr o b1 = Ok (b1', o') /\ K o' /\ agree (pos (i + zlen arr) o') E b1' b2'.
  Proof.
    intros Hf. induction arr as [|v arr IH]; intros i o b1 b2 b2' o' Hi HN HQ HK A H; cbn [iter_enc] in *.
    - injection H as <- <-. exists b1. change (zlen []) with 0. rewrite Z.add_0_r. auto.
    - rewrite zlen_cons in *. pose proof (zlen_nonneg arr). inversion HQ; subst.
      destruct (f i v o b2) as [[m2 om]| |] eqn:F; cbn [bind] in H; try discriminate.
      destruct (Hf i v o b1 b2 m2 om) as (m1 & -> & K1 & A1); auto; try lia. cbn [bind].
      destruct (IH (i + 1) om m1 m2 b2' o') as (b1' & -> & K2 & A2); auto; try lia.
      exists b1'. split; auto. split; auto. match goal with |- agree (pos ?x _) _ _ _ => replace x with (i + 1 + zlen arr) by lia end. exact A2.
  Qed.

  Lemma sc_main : (forall e, SCE e) /\ (forall fs, SCF fs).
  Proof.
    apply schema_ind.
    - (* EBasic *)
      intros b dyn w n big from v start off E b1 b2 b2' o We Nd Sv Cl Rq Hn Hf Hs Hk A H.
      destruct v; cbn in Sv; try contradiction. cbn [tenc_elem] in *. rewrite (offk_base _ _ Hk) in *. destruct Hk as (Hk & _).
      destruct (sc_scalar T SC (EBasic b) w n big from (start + off) z) as [P|(fd & P)]; rewrite P in *; [discriminate|].
      destruct (cf_enc fd from n (start + off) b2) as [m2| |] eqn:C; cbn [bind] in H; try discriminate. injection H as <- <-.
      cbn in Hn. destruct (cf_enc_agree fd from n (start + off) E b1 b2 m2) as (m1 & -> & A1); auto; try lia.
      cbn [bind]. exists m1. split; auto. split; [lia|]. split; auto.
    - (* EEnum *)
      intros b dyn w n big from v start off E b1 b2 b2' o We Nd Sv Cl Rq Hn Hf Hs Hk A H.
      destruct v; cbn in Sv; try contradiction. cbn [tenc_elem] in *. rewrite (offk_base _ _ Hk) in *. destruct Hk as (Hk & _).
      destruct (sc_scalar T SC (EEnum b) w n big from (start + off) z) as [P|(fd & P)]; rewrite P in *; [discriminate|].
      destruct (cf_enc fd from n (start + off) b2) as [m2| |] eqn:C; cbn [bind] in H; try discriminate. injection H as <- <-.
      cbn in Hn. destruct (cf_enc_agree fd from n (start + off) E b1 b2 m2) as (m1 & -> & A1); auto; try lia.
      cbn [bind]. exists m1. split; auto. split; [lia|]. split; auto.
    - (* EString *)
      intros dyn w n big from v start off E b1 b2 b2' o We Nd Sv Cl Rq Hn Hf Hs Hk A H.
      destruct v; cbn in Sv; try contradiction. cbn [tenc_elem] in *. cbn in Hn.
      replace (start + off + up8 from) with (start + off + from / 8) in A by (unfold up8; lia).
      destruct (t_estring T (start + off + from / 8) bs b2) as [[m2 k]| |] eqn:C; cbn [bind] in H; try discriminate. injection H as <- <-.
      destruct (sc_string T SC _ _ _ _ _ _ _ A C) as (m1 & -> & Hk0 & A1). cbn [bind].
      exists m1. split; auto. split; [lia|]. split; [discriminate|]. unfold e_end. cbn [elem_dyn].
      eapply agree_mono; [|exact A1]. unfold up8. lia.
    - (* EBytes *)
      intros dyn w n big from v start off E b1 b2 b2' o We Nd Sv Cl Rq Hn Hf Hs Hk A H.
      destruct v; cbn in Sv; try contradiction. cbn [tenc_elem] in *. cbn in Hn.
      replace (start + off + up8 from) with (start + off + from / 8) in A by (unfold up8; lia).
      destruct (t_ebytes T (start + off + from / 8) bs b2) as [[m2 k]| |] eqn:C; cbn [bind] in H; try discriminate. injection H as <- <-.
      destruct (sc_bytes T SC _ _ _ _ _ _ _ A C) as (m1 & -> & Hk0 & A1). cbn [bind].
      exists m1. split; auto. split; [lia|]. split; [discriminate|]. unfold e_end. cbn [elem_dyn].
      eapply agree_mono; [|exact A1]. unfold up8. lia.
    - (* EStruct *)
      intros fs IH dyn w n big from v start off E b1 b2 b2' o We Nd Sv Cl Rq Hn Hf Hs Hk A H.
      destruct v as [| |vs|]; cbn in Sv; try contradiction. cbn [tenc_elem] in *.
      cbn in Hn, We. destruct We as (We & H8). rewrite (offk_base _ _ Hk) in *. destruct Hk as (Hk & _).
      destruct (tenc_fields T (t_dyn0 T fs) fs vs 0 (start + off + from / 8) 0 b2) as [[m2 k]| |] eqn:C; cbn [bind] in H; try discriminate.
      destruct (IH False (t_dyn0 T fs) vs 0 (start + off + from / 8) 0 E b1 b2 m2 k) as (m1 & E1 & Hk0 & Hd & A1); auto; try lia; try tauto.
      { split; [lia|auto]. }
      { eapply agree_mono; [|exact A]. unfold up8. lia. }
      rewrite E1. cbn [bind]. rewrite (sc_kt T SC) in *. injection H as <- <-.
      pose proof (fixed_bits_nonneg fs) as Hfb.
      exists m1. split; auto. unfold e_end. cbn [elem_dyn is_fixed_scalar elem_bits].
      destruct (fields_dyn fs) eqn:D.
      + split; [lia|]. split; [discriminate|]. eapply agree_mono; [|exact A1]. unfold up8. lia.
      + split; [lia|]. split; auto. rewrite Hd in A1 by auto. eapply agree_mono; [|exact A1]. unfold up8. lia.
    - (* FNil *)
      intros top dyn vs from start off E b1 b2 b2' o _ _ _ _ _ _ _ _ _ A H. cbn in *. injection H as <- <-.
      exists b1. split; auto. split; [lia|]. split; auto. eapply agree_mono; [|exact A]. unfold up8. lia.
    - (* FOne *)
      intros e IHe n big r IHr top dyn vs from start off E b1 b2 b2' o Wf Nd Sv Cl Rq Ht Hf Hs Hk A H.
      cbn [wf_fields] in Wf. destruct Wf as (We & Wn & Wr).
      destruct vs as [|v vs]; cbn in Sv; [contradiction|]. destruct Sv as (Sv & Ss).
      cbn [clears_fields] in Cl. destruct Cl as (Ce & Cr).
      cbn [req_fields] in Rq. destruct Rq as (Rq & Rr).
      cbn in Nd. destruct Nd as (Ns & Ne & Nr).
      cbn [tenc_fields fixed_bits fields_dyn] in *.
      pose proof (one_n e n from We Wn) as Hn.
      destruct (tenc_elem T dyn e (enum_temp_bits n) n big from v start off b2) as [[m2 om]| |] eqn:C; cbn [bind] in H; try discriminate.
      destruct (IHe dyn (enum_temp_bits n) n big from v start off E b1 b2 m2 om) as (m1 & -> & Ho & Hd & A1); auto.
      { destruct (is_fixed_scalar e); [lia|tauto]. }
      cbn [bind].
      assert (Hen : elem_dyn e = (n =? -1) /\ e_end e n from = next_from from n).
      { unfold e_end, next_from. destruct e; cbn in *; try (destruct Wn as (Wn1 & ->)); auto; try (destruct (Z.eqb_spec n (-1)); [lia|auto]).
        rewrite Ns. pose proof (fixed_bits_nonneg fs). destruct (Z.eqb_spec (fixed_bits fs) (-1)); [lia|auto]. }
      destruct Hen as (Hen & Hend). rewrite Hend in A1.
      destruct (IHr top (dyn || (n =? -1)) vs (next_from from n) start om E m1 m2 b2' o) as (b1' & -> & Ho2 & Hd2 & A2); auto.
      { unfold next_from. destruct (Z.eqb_spec n (-1)); lia. }
      { destruct Hk as (Hk1 & Hk2). split; [lia|]. intros Hor. apply orb_false_iff in Hor as (O1 & O2). rewrite Hd; auto. congruence. }
      exists b1'. split; auto. split; [lia|]. split.
      { intros Hor. apply orb_false_iff in Hor as (O1 & O2). rewrite Hd2, Hd; auto. }
      eapply agree_mono; [|exact A2]. unfold next_from, up8. destruct (Z.eqb_spec n (-1)), (Z.ltb_spec 0 n); lia.
    - (* FArr *)
      intros e IHe len n big r IHr top dyn vs from start off E b1 b2 b2' o Wf Nd Sv Cl Rq Ht Hf Hs Hk A H.
      cbn [wf_fields] in Wf. destruct Wf as (We & Wl & Wn & Wr). fold (arr_ok e len n from) in Wn.
      destruct vs as [|v vs]; cbn in Sv; [contradiction|]. destruct v as [| | |arr]; try contradiction.
      destruct Sv as (Sl & Sv & Ss).
      cbn [clears_fields] in Cl. destruct Cl as (Ce & Cl & Cr).
      cbn [req_fields] in Rq. destruct Rq as (Rq & Rr).
      cbn in Nd. destruct Nd as (Ne & Nr).
      cbn [tenc_fields fixed_bits fields_dyn] in *.
      pose proof (arr_n e len n from We Wn) as Hn.
      match type of H with bind ?m _ = _ => destruct m as [[m2 om]| |] eqn:C end; cbn [bind] in H; try discriminate.
      match goal with |- context [bind ?m _] => assert (Harr : exists m1, m = Ok (m1, om) /\ off <= om /\ (elem_dyn e = false -> om = off) /\
         agree (start + om + up8 (next_from from n)) E m1 m2) end.
      {
        assert (HN : 0 + zlen arr <= Z.of_nat len) by (unfold zlen; lia).
        assert (HN' : 0 + zlen arr = Z.of_nat len) by (unfold zlen; lia).
        assert (H0off : 0 <= off) by apply Hk.
        destruct (elem_dyn e) eqn:D.
        - assert (Sc : is_fixed_scalar e = false) by (destruct e; cbn in D; try discriminate; reflexivity).
          unfold arr_ok in Wn. rewrite Sc, D in Wn. destruct Wn as (Hm & ->).
          destruct (iter_agree (fun _ v o b => tenc_elem T true e (8 * ((elem_bits e + 7) / 8)) (Z.quot (-1) (Z.of_nat len)) big from v start o b)
                      (storable_elem e) (fun _ o => start + o + up8 from) (fun o => off <= o) (Z.of_nat len) E) with
            (arr := arr) (i := 0) (o := off) (b1 := b1) (b2 := b2) (b2' := m2) (o' := om) as (m1 & E1 & Ho & A1); auto; try lia.
          { intros i v o0 c1 c2 c2' o0' Hi Qv Ho Ac Hc.
            destruct (IHe true (8 * ((elem_bits e + 7) / 8)) (Z.quot (-1) (Z.of_nat len)) big from v start o0 E c1 c2 c2' o0')
              as (c1' & Ec & Hoc & _ & Ac'); auto.
            - destruct e; cbn in Sc; try discriminate; exact Rq.
            - rewrite Sc. exact Hm.
            - split; [lia|discriminate].
            - exists c1'. split; auto. split; [lia|]. unfold e_end in Ac'. rewrite D in Ac'. exact Ac'. }
          exists m1. split; auto. split; auto. split; [discriminate|]. exact A1.
        - destruct (arr_eb e len n from We Wl Wn D) as (eb & Hneb & Hqt & Hdv & Heb & Hcase).
          rewrite Hqt in *. rewrite Hdv in *.
          pose proof (offk_base _ _ Hk) as Hbase.
          assert (Hnf : next_from from n = from + Z.of_nat len * eb).
          { unfold next_from. destruct (Z.eqb_spec n (-1)); [nia|lia]. }
          enough (HH : exists m1 : list Z,
             (if t_loop T len then match e with
               | EStruct s => iter_enc (fun i v o b => match v with
                     | VStruct ws => do (b', _) <- tenc_fields T (t_dyn0 T s) s ws 0
                                         ((if t_lstart T then start else 0) + (if dyn then off else 0) + from / 8 + i * (eb / 8)) 0 b; Ok (b', o)
                     | _ => Panic end) 0 arr off b1
               | _ => iter_enc (fun i v o b => match v with
                     | VNum z => do b' <- t_eloop T e eb big (8 * ((if t_lstart T then start else 0) + (if dyn then off else 0)) + (from + i * eb)) z b; Ok (b', o)
                     | _ => Panic end) 0 arr off b1 end
              else iter_enc (fun i v o b => tenc_elem T dyn e (8 * ((elem_bits e + 7) / 8)) eb big (from + i * eb) v start o b) 0 arr off b1) = Ok (m1, om) /\
              om = off /\ agree (start + off + up8 (from + (0 + zlen arr) * eb)) E m1 m2).
          { destruct HH as (m1 & Em & -> & Am). exists m1. split; [exact Em|]. split; [lia|]. split; auto.
            rewrite HN' in Am. rewrite Hnf. exact Am. }
          assert (A0 : agree (start + off + up8 (from + 0 * eb)) E b1 b2) by (replace (from + 0 * eb) with from by lia; exact A).
          destruct (t_loop T len) eqn:UL.
          + destruct Rq as (Hlst & Rq).
            assert (Elst : (if t_lstart T then start else 0) = start).
            { destruct Hlst as [Ht1|Hr1]; [rewrite (Ht Ht1); destruct (t_lstart T); reflexivity|].
              rewrite (NR Hr1). reflexivity. }
            rewrite Elst, Hbase in *.
            destruct (is_fixed_scalar e) eqn:S.
            * specialize (Cl eq_refl eq_refl).
              assert (Hgoal : iter_enc (fun i v o b => match v with
                     | VNum z => do b' <- t_eloop T e eb big (8 * (start + off) + (from + i * eb)) z b; Ok (b', o)
                     | _ => Panic end) 0 arr off b2 = Ok (m2, om) ->
                  exists m1, iter_enc (fun i v o b => match v with
                     | VNum z => do b' <- t_eloop T e eb big (8 * (start + off) + (from + i * eb)) z b; Ok (b', o)
                     | _ => Panic end) 0 arr off b1 = Ok (m1, om) /\ om = off /\ agree (start + off + up8 (from + (0 + zlen arr) * eb)) E m1 m2).
              { intros Hit. eapply (iter_agree _ (storable_elem e) (fun i _ => start + off + up8 (from + i * eb)) (fun o => o = off) (Z.of_nat len) E) with (b2 := b2); eauto; try lia.
                intros i v o0 c1 c2 c2' o0' Hi Qv -> Ac Hc.
                destruct v as [z| | |]; try discriminate.
                assert (Hie : 0 <= i * eb /\ i * eb + eb <= Z.of_nat len * eb) by nia.
                destruct (sc_loop T SC e eb big (8 * (start + off) + (from + i * eb)) z) as [Px|(x & Px)]; rewrite Px in *; [discriminate|].
                destruct (cf_write_bits (8 * (start + off) + (from + i * eb)) eb x big c2) as [d2| |] eqn:Cw; cbn [bind] in Hc; try discriminate.
                injection Hc as <- <-.
                destruct (cf_write_agree (8 * (start + off) + (from + i * eb)) eb x big E c1 c2 d2) as (d1 & -> & Ad); auto; try lia.
                - clear - Cl Hie Hcase Hneb Hi. rewrite Hneb in Cl. destruct Cl as [(C1 & C2)|C1].
                  + left. assert (He8 : exists q, eb = 8 * q) by (exists (eb / 8); lia). destruct He8 as (q & He8).
                    assert (i * eb = 8 * (i * q)) by nia. lia.
                  + right. unfold inside_byte in *. lia.
                - eapply agree_mono; [|exact Ac]. unfold up8. lia.
                - cbn [bind]. exists d1. split; auto. split; auto. eapply agree_mono; [|exact Ad].
                  replace (from + (i + 1) * eb) with (from + i * eb + eb) by lia. unfold up8. lia. }
              destruct e; cbn in S; try discriminate; apply Hgoal; exact C.
            * destruct e; cbn in S, D; try discriminate.
              eapply (iter_agree _ (storable_elem (EStruct fs)) (fun i _ => start + off + up8 (from + i * eb)) (fun o => o = off) (Z.of_nat len) E) with (b2 := b2); eauto; try lia.
              intros i v o0 c1 c2 c2' o0' Hi Qv -> Ac Hc.
              destruct v as [| |ws|]; try discriminate.
              assert (0 <= i * eb) by (apply Z.mul_nonneg_nonneg; lia).
              destruct Hcase as (Heq0 & Hm & He).
              assert (Heq : i * eb = 8 * (i * (eb / 8))) by lia.
              replace (start + off + from / 8 + i * (eb / 8)) with (start + off + (from + i * eb) / 8) in * by lia.
              destruct (tenc_fields T (t_dyn0 T fs) fs ws 0 (start + off + (from + i * eb) / 8) 0 c2) as [[d2 k]| |] eqn:Cf; cbn [bind] in Hc; try discriminate.
              injection Hc as <- <-.
              destruct (IHe dyn 0 eb big (from + i * eb) (VStruct ws) start off E c1 c2 d2 off) as (d1 & Ed & _ & _ & Ad); auto; try lia.
              { cbn [is_fixed_scalar]. lia. }
              { cbn [tenc_elem]. rewrite Hbase, Cf. cbn [bind]. rewrite D. reflexivity. }
              cbn [tenc_elem] in Ed. rewrite Hbase, D in Ed.
              destruct (tenc_fields T (t_dyn0 T fs) fs ws 0 (start + off + (from + i * eb) / 8) 0 c1) as [[x1 k1]| |] eqn:Cx; cbn [bind] in *; try discriminate.
              injection Ed as ->. exists d1. split; auto. split; auto.
              unfold e_end in Ad. cbn [elem_dyn is_fixed_scalar] in Ad. rewrite D in Ad. rewrite <- Heq0 in Ad.
              replace (from + (i + 1) * eb) with (from + i * eb + eb) by lia. exact Ad.
          + eapply (iter_agree _ (storable_elem e) (fun i _ => start + off + up8 (from + i * eb)) (fun o => o = off) (Z.of_nat len) E) with (b2 := b2); eauto; try lia.
            intros i v o0 c1 c2 c2' o0' Hi Qv -> Ac Hc.
            assert (0 <= i * eb) by (apply Z.mul_nonneg_nonneg; lia).
            destruct (IHe dyn (8 * ((elem_bits e + 7) / 8)) eb big (from + i * eb) v start off E c1 c2 c2' o0') as (d1 & Ed & _ & Hd & Ad); auto; try lia.
            { destruct e; cbn in D |- *; try discriminate; auto. }
            { destruct (is_fixed_scalar e) eqn:S; [lia|]. destruct Hcase as (_ & Hm & He).
              rewrite Z.add_mod, Z.mul_mod, He, Z.mul_0_r, Z.mod_0_l, Z.add_0_r, Z.mod_mod by lia. exact Hm. }
            exists d1. split; auto. specialize (Hd D). split; auto. subst o0'.
            assert (Ee : e_end e eb (from + i * eb) = from + (i + 1) * eb).
            { unfold e_end. rewrite D. destruct (is_fixed_scalar e); [lia|]. destruct Hcase as (<- & _). lia. }
            rewrite Ee in Ad. exact Ad. }
      destruct Harr as (m1 & -> & Ho & Hd & A1). cbn [bind].
      assert (Hen : elem_dyn e = false -> n <> -1).
      { intros D. destruct (arr_eb e len n from We Wl Wn D) as (eb & Hneb & _ & _ & Heb & _). nia. }
      destruct (IHr top (dyn || (n =? -1)) vs (next_from from n) start om E m1 m2 b2' o) as (b1' & -> & Ho2 & Hd2 & A2); auto.
      { unfold next_from. destruct (Z.eqb_spec n (-1)); lia. }
      { destruct Hk as (Hk1 & Hk2). split; [lia|]. intros Hor. apply orb_false_iff in Hor as (O1 & O2). apply Z.eqb_neq in O2. rewrite Hd; auto.
        unfold arr_ok in Wn. destruct (is_fixed_scalar e) eqn:S; [destruct e; cbn in S; try discriminate; reflexivity|].
        destruct (elem_dyn e); [lia|auto]. }
      exists b1'. split; auto. split; [lia|]. split.
      { intros Hor. apply orb_false_iff in Hor as (O1 & O2). rewrite Hd2, Hd; auto. }
      eapply agree_mono; [|exact A2]. unfold next_from, up8. destruct (Z.eqb_spec n (-1)), (Z.ltb_spec 0 n); lia.
    - (* FVoid *)
      intros n r IHr top dyn vs from start off E b1 b2 b2' o Wf Nd Sv Cl Rq Ht Hf Hs Hk A H.
      cbn [wf_fields] in Wf. destruct Wf as (Hn & Wr). cbn [clears_fields] in Cl. destruct Cl as ((Cm & Cq) & Cr).
      cbn [tenc_fields storable_fields req_fields nd_fields fixed_bits fields_dyn] in *.
      unfold next_from in *. destruct (Z.eqb_spec n (-1)); [lia|].
      destruct (IHr top dyn vs (from + n) start off E b1 b2 b2' o) as (b1' & -> & Ho & Hd & A2); auto; try lia.
      { eapply agree_mono; [|exact A]. unfold up8. lia. }
      exists b1'. split; auto. split; auto. split; auto. eapply agree_mono; [|exact A2]. unfold up8. destruct (Z.ltb_spec 0 n); lia.
    - (* FConst *)
      intros b n big z r IHr top dyn vs from start off E b1 b2 b2' o Wf Nd Sv Cl Rq Ht Hf Hs Hk A H.
      cbn [wf_fields] in Wf. destruct Wf as (Wb & Hn & Wr).
      cbn [tenc_fields storable_fields req_fields nd_fields fixed_bits fields_dyn clears_fields] in *. destruct Rq as (_ & Rr).
      unfold next_from in *. destruct (Z.eqb_spec n (-1)); [lia|].
      rewrite (offk_base _ _ Hk) in *.
      destruct (sc_const T SC b n big from (start + off) z) as (fd & P). rewrite P in *.
      destruct (cf_enc fd from n (start + off) b2) as [m2| |] eqn:C; cbn [bind] in H; try discriminate.
      assert (0 <= off) by apply Hk.
      destruct (cf_enc_agree fd from n (start + off) E b1 b2 m2) as (m1 & -> & A1); auto; try lia. cbn [bind].
      destruct (IHr top dyn vs (from + n) start off E m1 m2 b2' o) as (b1' & -> & Ho & Hd & A2); auto; try lia.
      exists b1'. split; auto. split; auto. split; auto. eapply agree_mono; [|exact A2]. unfold up8. destruct (Z.ltb_spec 0 n); lia.
    - (* FEmb *)
      intros r IHr top dyn vs from start off E b1 b2 b2' o Wf Nd Sv Cl Rq Ht Hf Hs Hk A H.
      cbn [wf_fields tenc_fields storable_fields req_fields nd_fields fixed_bits fields_dyn clears_fields] in *.
      eapply IHr; eauto.
  Qed.
End SC.

Lemma agree_eq P E b1 b2 : E <= P -> agree P E b1 b2 -> b1 = b2.
Proof.
  intros H (L & A). apply (nth_ext _ _ 0 0 L). intros i Hi.
  specialize (A (Z.of_nat i) ltac:(lia) ltac:(lia)). rewrite !rd_ok in A by (unfold zlen; lia).
  injection A as A. rewrite Nat2Z.id in A. exact A.
Qed.

(** The buffer with the message area set to zero. *)
Definition wiped (start size : Z) (buf : list Z) : list Z :=
  firstn (Z.to_nat start) buf ++ repeat 0 (Z.to_nat size) ++ skipn (Z.to_nat (start + size)) buf.

Lemma wiped_length start size buf : 0 <= start -> 0 <= size -> start + size <= zlen buf -> length (wiped start size buf) = length buf.
Proof. intros. unfold wiped, zlen in *. rewrite !app_length, firstn_length, repeat_length, skipn_length. lia. Qed.

Lemma wiped_nth start size buf i : 0 <= start -> 0 <= size -> start + size <= zlen buf -> 0 <= i ->
  nth (Z.to_nat i) (wiped start size buf) 0 = if (start <=? i) && (i <? start + size) then 0 else nth (Z.to_nat i) buf 0.
Proof.
  intros H1 H2 H3 Hi. unfold wiped, zlen in *.
  assert (Lf : length (firstn (Z.to_nat start) buf) = Z.to_nat start) by (rewrite firstn_length; lia).
  destruct (Z.leb_spec start i), (Z.ltb_spec i (start + size)); cbn [andb].
  - rewrite app_nth2 by lia. rewrite Lf, app_nth1 by (rewrite repeat_length; lia). apply nth_repeat.
  - rewrite app_nth2 by lia. rewrite Lf, app_nth2 by (rewrite repeat_length; lia). rewrite repeat_length.
    rewrite <- (firstn_skipn (Z.to_nat (start + size)) buf) at 2. rewrite app_nth2 by (rewrite firstn_length; lia).
    rewrite firstn_length. f_equal. lia.
  - rewrite app_nth1 by lia. rewrite <- (firstn_skipn (Z.to_nat start) buf) at 2. rewrite app_nth1 by lia. reflexivity.
  - lia.
Qed.

Lemma wiped_agree start size buf : 0 <= start -> 0 <= size -> start + size <= zlen buf -> agree start (start + size) buf (wiped start size buf).
Proof.
  intros H1 H2 H3. pose proof (wiped_length start size buf H1 H2 H3) as L. split; [auto|]. intros j Hj Hc.
  destruct (Z.ltb_spec j (zlen buf)).
  - rewrite !rd_ok by (unfold zlen in *; lia). rewrite wiped_nth by lia.
    destruct (Z.leb_spec start j), (Z.ltb_spec j (start + size)); cbn [andb]; auto; lia.
  - unfold rd. destruct (Z.ltb_spec j 0); [lia|].
    rewrite !(proj2 (nth_error_None _ _)) by (unfold zlen in *; lia). reflexivity.
Qed.

Lemma wiped_bytes start size buf : bytes_ok buf -> bytes_ok (wiped start size buf).
Proof.
  intros H. unfold wiped. rewrite !bytes_ok_app.
  split; [apply bytes_ok_firstn; auto|]. split; [apply bytes_ok_zeros|apply bytes_ok_skipn; auto].
Qed.

Lemma wiped_bit start size buf k : 0 <= start -> 0 <= size -> start + size <= zlen buf -> 0 <= k ->
  bitat (wiped start size buf) k = if (8 * start <=? k) && (k <? 8 * (start + size)) then false else bitat buf k.
Proof.
  intros H1 H2 H3 Hk. unfold bitat. rewrite wiped_nth by lia.
  destruct (Z.leb_spec start (k / 8)), (Z.ltb_spec (k / 8) (start + size)), (Z.leb_spec (8 * start) k), (Z.ltb_spec k (8 * (start + size)));
    cbn [andb]; try lia; auto. apply Z.bits_0.
Qed.

Lemma sc_tencode T R mx : sc_spec T -> enc_spec T R true mx -> 0 < mx -> forall (top : Prop) fs vs start buf,
  wf_struct fs -> nd_fields fs -> storable_fields fs vs -> clears_fields (t_loop T) fs 0 ->
  req_fields (t_loop T) R top fs 0 -> (top -> start = 0) ->
  0 <= start -> bytes_ok buf -> start + encode_size fs vs <= zlen buf -> zlen buf < mx ->
  exists b, tencode_to T fs vs start buf = Ok (b, encode_size fs vs) /\
    overlay (wiped start (encode_size fs vs) buf) (8 * start) (image_fields fs vs) b.
Proof.
  intros SC ES Hm top fs vs start buf W Nd S Cl Q Ht Hs Hb Hl Hx.
  pose proof (encode_size_nonneg fs vs W S) as Hz.
  pose proof (wiped_length start _ buf Hs Hz Hl) as WL. assert (WZ : zlen (wiped start (encode_size fs vs) buf) = zlen buf) by (unfold zlen; lia).
  destruct (tencode_to_ok T R true mx Hm ES top fs vs start (wiped start (encode_size fs vs) buf)) as (b & E & O); auto; try lia.
  { apply wiped_bytes; auto. }
  { intros _ k Hk. rewrite wiped_bit by lia. destruct (Z.leb_spec (8 * start) k), (Z.ltb_spec k (8 * (start + encode_size fs vs))); auto; lia. }
  exists b. split; auto. unfold tencode_to in *.
  destruct (tenc_fields T (t_dyn0 T fs) fs vs 0 start 0 (wiped start (encode_size fs vs) buf)) as [[m2 o]| |] eqn:C; cbn [bind] in E; try discriminate.
  injection E as <- E.
  destruct (proj2 (sc_main T R SC (es_nested _ _ _ _ ES)) fs top (t_dyn0 T fs) vs 0 start 0 (start + encode_size fs vs) buf
              (wiped start (encode_size fs vs) buf) m2 o) as (m1 & E1 & Ho & _ & A); auto; try lia.
  - apply W.
  - split; auto; lia.
  - eapply agree_mono; [|apply wiped_agree; lia]. unfold up8. lia.
  - rewrite E1. cbn [bind]. apply agree_eq in A; [subst; do 2 f_equal; lia|].
    destruct W as (_ & W8). unfold up8. lia.
Qed.
