(** C76: enum numbers without a name.  Java and Kotlin decode them to null and Python refuses them; Java and
    Kotlin refuse to encode null, wherever in the value it is. *)
From Coq Require Import ZArith List Lia Bool.
From Verif Require Import Base BaseProofs Schema SpecWire GoModel TgtModel TgtPrims PyTarget KtTarget CTarget JavaTarget CsTarget JsTarget
  GoCore PropsGo JsString Interop SelfClear PropsTargets TgtPrefix PropsSize TgtAny TgtAnyInst PropsAny.
Import ListNotations.
Open Scope Z_scope.

(** [enum_at fs vs bits z]: among the fields [fs] with values [vs] there is, at any depth, in structs and
    arrays, a field of the enum type with [bits] bits whose value has the number [z]. *)
Inductive enum_in : elem -> val -> Z -> Z -> Prop :=
| in_enum bits z : enum_in (EEnum bits) (VNum z) bits z
| in_struct fs vs bits z : enum_at fs vs bits z -> enum_in (EStruct fs) (VStruct vs) bits z
with enum_at : fields -> list val -> Z -> Z -> Prop :=
| at_one e n big r v vs bits z : enum_in e v bits z -> enum_at (FOne e n big r) (v :: vs) bits z
| at_arr e len n big r arr v vs bits z : In v arr -> enum_in e v bits z -> enum_at (FArr e len n big r) (VArr arr :: vs) bits z
| at_one_r e n big r v vs bits z : enum_at r vs bits z -> enum_at (FOne e n big r) (v :: vs) bits z
| at_arr_r e len n big r v vs bits z : enum_at r vs bits z -> enum_at (FArr e len n big r) (v :: vs) bits z
| at_void n r vs bits z : enum_at r vs bits z -> enum_at (FVoid n r) vs bits z
| at_const b n big l r vs bits z : enum_at r vs bits z -> enum_at (FConst b n big l r) vs bits z
| at_emb r vs bits z : enum_at r vs bits z -> enum_at (FEmb r) vs bits z.

Scheme enum_in_mind := Minimality for enum_in Sort Prop
  with enum_at_mind := Minimality for enum_at Sort Prop.
Combined Scheme enum_ind from enum_in_mind, enum_at_mind.

Definition not_ok {A} (r : res A) : Prop := forall a, r <> Ok a.
Lemma not_ok_bind {A B} (r : res A) (k : A -> res B) : (forall a, r = Ok a -> not_ok (k a)) -> not_ok (bind r k).
Proof. intros H a E. destruct r as [x| |]; cbn in E; try discriminate. exact (H x eq_refl a E). Qed.
Lemma not_ok_first {A B} (r : res A) (k : A -> res B) : not_ok r -> not_ok (bind r k).
Proof. intros H. apply not_ok_bind. intros a E. destruct (H a E). Qed.
Lemma not_ok_iter f v : (forall i o b, not_ok (f i v o b)) -> forall arr i o b, In v arr -> not_ok (iter_enc f i arr o b).
Proof.
  intros H. induction arr as [|x arr IH]; intros i o b I; [destruct I|]. cbn [iter_enc]. destruct I as [->|I].
  - apply not_ok_first. apply H.
  - apply not_ok_bind. intros [b' o'] _. apply IH. exact I.
Qed.

Lemma null_not_ok T
  (Hs : forall bits w n big from base b, not_ok (t_escalar T (EEnum bits) w n big from base (-1) b))
  (Hl : forall bits n big pos b, not_ok (t_eloop T (EEnum bits) n big pos (-1) b)) :
  (forall e v bits z, enum_in e v bits z -> z = -1 ->
     (forall dyn w n big from start off b, not_ok (tenc_elem T dyn e w n big from v start off b)) /\
     match e, v with
     | EStruct s, VStruct ws => forall dyn from start off b, not_ok (tenc_fields T dyn s ws from start off b)
     | EEnum _, VNum _ => True
     | _, _ => False
     end) /\
  (forall fs vs bits z, enum_at fs vs bits z -> z = -1 ->
     forall dyn from start off b, not_ok (tenc_fields T dyn fs vs from start off b)).
Proof.
  apply enum_ind.
  - intros bits z ->. split; [|exact I]. intros. cbn [tenc_elem]. apply not_ok_first. apply Hs.
  - intros fs vs bits z _ IH E. specialize (IH E). split; [|exact IH]. intros. cbn [tenc_elem]. apply not_ok_first. apply IH.
  - intros e n big r v vs bits z _ IH E. destruct (IH E) as (IH1 & _). intros. cbn [tenc_fields]. apply not_ok_first. apply IH1.
  - intros e len n big r arr v vs bits z Hi Hv IH E. destruct (IH E) as (IH1 & IH2). intros. cbn [tenc_fields].
    apply not_ok_first. destruct (elem_dyn e); [|destruct (t_loop T len)].
    + apply (not_ok_iter _ v); auto.
    + destruct e as [| | | |s]; destruct v as [z0| | | ]; try contradiction; try (inversion Hv; fail).
      * apply (not_ok_iter _ (VNum z0)); auto. intros. apply not_ok_first. assert (z0 = z) by (inversion Hv; reflexivity). subst. apply Hl.
      * apply (not_ok_iter _ (VStruct vs0)); auto. intros. apply not_ok_first. apply IH2.
    + apply (not_ok_iter _ v); auto.
  - intros e n big r v vs bits z _ IH E. intros. cbn [tenc_fields]. apply not_ok_bind. intros [b' o'] _. apply IH; auto.
  - intros e len n big r v vs bits z _ IH E. intros. cbn [tenc_fields]. destruct v; try (intros ? ?; discriminate).
    apply not_ok_bind. intros [b' o'] _. apply IH; auto.
  - intros n r vs bits z _ IH E. intros. cbn [tenc_fields]. apply IH; auto.
  - intros b n big l r vs bits z _ IH E. intros. cbn [tenc_fields]. apply not_ok_bind. intros b' _. apply IH; auto.
  - intros r vs bits z _ IH E. intros. cbn [tenc_fields]. apply IH; auto.
Qed.

(** *** Encoding null raises. *)
Definition has_null (L : lang) : Prop := match L with LJava _ _ _ _ | LKt _ _ _ => True | _ => False end.
Theorem C76_null_refused : forall L fs vs bits, has_null L -> enum_at fs vs bits (-1) -> forall b, lang_encode L fs vs <> Ok b.
Proof.
  intros L fs vs bits N H.
  assert (G : forall T, (forall bits w n big from base b, not_ok (t_escalar T (EEnum bits) w n big from base (-1) b)) ->
    (forall bits n big pos b, not_ok (t_eloop T (EEnum bits) n big pos (-1) b)) -> not_ok (tencode T fs vs)).
  { intros T Hs Hl. unfold tencode, tencode_to. apply not_ok_first. apply not_ok_first.
    apply (proj2 (null_not_ok T Hs Hl) fs vs bits (-1) H eq_refl). }
  destruct L; try contradiction; cbn [lang_encode lang_tgt]; apply G; intros; intros ? E; cbn in E; discriminate.
Qed.

(** *** Decoding gives enum values that have a name, or null (undefined in JavaScript). *)
Definition names (L : lang) : option (Z -> Z -> bool) :=
  match L with
  | LJava _ _ known _ | LJs _ known _ | LPy _ known | LKt _ known _ => Some known
  | _ => None
  end.
Lemma bind_ok {A B} (r : res A) (k : A -> res B) b : bind r k = Ok b -> exists a, r = Ok a /\ k a = Ok b.
Proof. destruct r as [a| |]; cbn; try discriminate. eauto. Qed.
Lemma iter_dec_in f : forall n i o vs o', iter_dec f n i o = Ok (vs, o') -> forall v, In v vs -> exists i' o1 o2, f i' o1 = Ok (v, o2).
Proof.
  induction n; intros i o vs o' E v Hv; cbn [iter_dec] in E.
  - injection E as <- <-. destruct Hv.
  - apply bind_ok in E as ([v0 o0] & E0 & E). apply bind_ok in E as ([vs0 o1] & E1 & E). injection E as <- <-.
    destruct Hv as [->|Hv]; eauto.
Qed.
Lemma decoded_named T (P : Z -> Z -> Prop)
  (Hs : forall bits w n big from base data z, t_dscalar T (EEnum bits) w n big from base data = Ok z -> P bits z)
  (Hl : forall bits n big pos data z, t_dloop T (EEnum bits) n big pos data = Ok z -> P bits z) :
  (forall e, (forall dyn w n big from start off data v o, tdec_elem T dyn e w n big from start off data = Ok (v, o) ->
     forall bits z, enum_in e v bits z -> P bits z) /\
   match e with
   | EStruct s => forall dyn from start off data vs o, tdec_fields T dyn s from start off data = Ok (vs, o) ->
       forall bits z, enum_at s vs bits z -> P bits z
   | _ => True
   end) /\
  (forall fs dyn from start off data vs o, tdec_fields T dyn fs from start off data = Ok (vs, o) ->
     forall bits z, enum_at fs vs bits z -> P bits z).
Proof.
  apply schema_ind.
  - intros b. split; [|exact I]. intros dyn w n big from start off data v o _ bits z H. inversion H.
  - intros b. split; [|exact I]. intros dyn w n big from start off data v o E bits z H. cbn [tdec_elem] in E. apply bind_ok in E as (p & E0 & E). injection E as <- <-.
    inversion H; subst. eauto.
  - split; [|exact I]. intros dyn w n big from start off data v o _ bits z H. inversion H.
  - split; [|exact I]. intros dyn w n big from start off data v o _ bits z H. inversion H.
  - intros fs IH. split; [|exact IH]. intros dyn w n big from start off data v o E bits z H. cbn [tdec_elem] in E.
    apply bind_ok in E as (sz & _ & E). apply bind_ok in E as ([vs o1] & E1 & E). injection E as <- <-. inversion H; subst. eauto.
  - intros dyn from start off data vs o _ bits z H. inversion H.
  - intros e (IHe & IHs) n big r IHr dyn from start off data vs o E bits z H. cbn [tdec_fields] in E.
    apply bind_ok in E as ([v o1] & E1 & E). apply bind_ok in E as ([vs0 o2] & E2 & E). injection E as <- <-. inversion H; subst; eauto.
  - intros e (IHe & IHs) len n big r IHr dyn from start off data vs o E bits z H. cbn [tdec_fields] in E.
    apply bind_ok in E as ([arr o1] & E1 & E). apply bind_ok in E as ([vs0 o2] & E2 & E). injection E as <- <-.
    inversion H; subst; eauto.
    destruct (elem_dyn e); [|destruct (t_loop T len)].
    + destruct (iter_dec_in _ _ _ _ _ _ E1 v) as (i' & o3 & o4 & Ev); eauto.
    + destruct e as [| | | |s]; try match goal with X : enum_in _ _ _ _ |- _ => inversion X; fail end.
      * destruct (iter_dec_in _ _ _ _ _ _ E1 v) as (i' & o3 & o4 & Ev); auto.
        apply bind_ok in Ev as (z0 & Ez & Ev). injection Ev as <- <-.
        match goal with X : enum_in _ _ _ _ |- _ => inversion X; subst end. eauto.
      * destruct (iter_dec_in _ _ _ _ _ _ E1 v) as (i' & o3 & o4 & Ev); auto.
        apply bind_ok in Ev as (u & _ & Ev). apply bind_ok in Ev as ([ws o5] & Ew & Ev). injection Ev as <- <-.
        match goal with X : enum_in _ _ _ _ |- _ => inversion X; subst end. eauto.
    + destruct (iter_dec_in _ _ _ _ _ _ E1 v) as (i' & o3 & o4 & Ev); eauto.
  - intros n r IH dyn from start off data vs o E bits z H. cbn [tdec_fields] in E. inversion H; subst; eauto.
  - intros b n big l r IH dyn from start off data vs o E bits z H. cbn [tdec_fields] in E.
    apply bind_ok in E as (ok & _ & E). destruct ok; [|discriminate]. inversion H; subst; eauto.
  - intros r IH dyn from start off data vs o E bits z H. cbn [tdec_fields] in E. inversion H; subst; eauto.
Qed.

Theorem C76_decoded_named : forall L known fs data vs n bits z, names L = Some known ->
  lang_decode L fs data = Ok (vs, n) -> enum_at fs vs bits z ->
  known bits z = true \/ (z = -1 /\ match L with LPy _ _ => False | _ => True end).
Proof.
  intros L known fs data vs n bits z N E H.
  set (P := fun bits z => known bits z = true \/ (z = -1 /\ match L with LPy _ _ => False | _ => True end)).
  assert (G : forall T, (forall bits w n big from base data z, t_dscalar T (EEnum bits) w n big from base data = Ok z -> P bits z) ->
    (forall bits n big pos data z, t_dloop T (EEnum bits) n big pos data = Ok z -> P bits z) ->
    tdecode T fs 0 data = Ok (vs, n) -> P bits z).
  { intros T Hs Hl ET. unfold tdecode in ET. apply bind_ok in ET as (u & _ & ET). apply bind_ok in ET as ([ws o] & Ew & ET).
    injection ET as -> _. exact (proj2 (decoded_named T P Hs Hl) fs _ _ _ _ _ _ _ Ew bits z H). }
  destruct L; cbn [names] in N; try discriminate; injection N as ->; cbn [lang_decode lang_tgt] in E; apply (G _) in E; auto; subst P;
    clear; cbn [jv_tgt js_tgt py_tgt kt_tgt t_dscalar t_dloop jv_dscalar jv_dloop js_dscalar js_dloop]; intros.
  all: repeat match goal with
    | X : jv_dloop _ _ _ _ _ _ _ = Ok _ |- _ => unfold jv_dloop in X
    | X : js_dloop _ _ _ _ _ _ = Ok _ |- _ => unfold js_dloop in X
    | X : bind _ _ = Ok _ |- _ => apply bind_ok in X as (? & _ & X)
    | X : (if ?c then _ else _) = Ok _ |- _ => destruct c eqn:?; try discriminate
    | X : jv_enum _ _ _ = Ok _ |- _ => unfold jv_enum in X
    | X : kt_value _ _ _ _ _ = Ok _ |- _ => unfold kt_value in X
    | X : py_value _ _ _ _ = Ok _ |- _ => unfold py_value in X
    | X : Ok _ = Ok _ |- _ => injection X as <-
    end; auto; match goal with |- context [if ?c then _ else _] => destruct c eqn:?; auto | _ => idtac end.
Qed.

(** *** So what Java and Kotlin can send on has names only. *)
Theorem C76_relayed_named : forall L known fs data vs n b bits z, has_null L -> names L = Some known ->
  lang_decode L fs data = Ok (vs, n) -> lang_encode L fs vs = Ok b -> enum_at fs vs bits z -> known bits z = true.
Proof.
  intros L known fs data vs n b bits z Nl N D E H. destruct (C76_decoded_named L known fs data vs n bits z N D H) as [K|(-> & _)]; auto.
  destruct (C76_null_refused L fs vs bits Nl H b E).
Qed.

(** A message from a peer with a fourth enum value: Go sends it on unchanged, Java and Kotlin read it and
    cannot write it, Python does not read it; with a named value all do. *)
Definition null_fs : fields := FOne (EStruct (FArr (EEnum 8) 2 16 false FNil)) 16 false (FOne (EBasic (BUint 8)) 8 false FNil).
Example C76_instance :
  let named := fun bits z : Z => (bits =? 8) && (0 <=? z) && (z <=? 3) in
  let jv := LJava (fun n => Nat.leb 5 n) true named (fun l => l) in
  let kt := LKt true named (fun l => l) in
  let vs := [VStruct [VArr [VNum 1; VNum (-1)]]; VNum 7] in
  Forall (fun L : lang => lang_decode L null_fs [1; 5; 7] = Ok (vs, 3) /\ lang_encode L null_fs vs = Panic /\
    lang_decode L null_fs [1; 2; 7] = Ok ([VStruct [VArr [VNum 1; VNum 2]]; VNum 7], 3) /\
    lang_encode L null_fs [VStruct [VArr [VNum 1; VNum 2]]; VNum 7] = Ok [1; 2; 7]) [jv; kt] /\
  enum_at null_fs vs 8 (-1) /\ lang_decode (LPy 4 named) null_fs [1; 5; 7] = Panic /\
  lang_decode (LGo ex_c1) null_fs [1; 5; 7] = Ok ([VStruct [VArr [VNum 1; VNum 5]]; VNum 7], 3) /\
  lang_encode (LGo ex_c1) null_fs [VStruct [VArr [VNum 1; VNum 5]]; VNum 7] = Ok [1; 5; 7].
Proof.
  intros named jv kt vs. split; [repeat apply Forall_cons; try apply Forall_nil; repeat split; vm_compute; reflexivity|].
  split; [|repeat split; vm_compute; reflexivity].
  apply at_one, in_struct. eapply at_arr; [right; left; reflexivity|constructor].
Qed.

Print Assumptions C76_null_refused.
Print Assumptions C76_decoded_named.
Print Assumptions C76_relayed_named.
