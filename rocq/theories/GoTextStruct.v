(** Whole structs: the printed encoding and decoding statements do what EncodeTo and Decode do in GoModel.v. *)
From Coq Require Import ZArith Lia Bool String Ascii List.
Import ListNotations.
From Verif Require Import Base BaseProofs Schema SpecWire GoModel GoEncMain Literals PropsLit ExprModel ExprSpec ExprProofs ExprLex ExprParse PrintTree GoSem GoText GoTextLex GoTextEnc GoTextField GoTextDec GoTextDecField.
Open Scope string_scope.
Open Scope Z_scope.
Open Scope list_scope.
Ltac Zify.zify_post_hook ::= Z.to_euclidean_division_equations.

(** ** Which structs, and the state before *)

(** Structs of basic types, enums, constants, padding and arrays that are written out. *)
Fixpoint flat (c : cfg) (fs : fields) : Prop :=
  match fs with
  | FNil => True
  | FOne e _ _ r => is_fixed_scalar e = true /\ flat c r
  | FArr e len _ _ r => is_fixed_scalar e = true /\ use_loop c len = false /\ flat c r
  | FVoid _ r | FConst _ _ _ _ r | FEmb r => flat c r
  end.
(** The Go type of a field or element: GenerateEnum declares an enum with an unsigned type of HighBit bytes
    (golang.go:1123, 1136-1139). *)
Definition fld_ty (e : elem) (en : chars) : gty :=
  match e with EBasic b => gty_of b | EEnum bits => GN en (enum_temp_bits bits) | _ => GB end.
Definition elem_named (named : chars -> option Z) (e : elem) (en : chars) : Prop :=
  match e with EEnum bits => enum_ok named en (enum_temp_bits bits) | _ => True end.
Fixpoint names_ok (named : chars -> option Z) (fs : fields) (names : list fname) : Prop :=
  match fs with
  | FNil => names = []
  | FOne e _ _ r | FArr e _ _ _ r =>
      match names with
      | f :: names => name_okb (f_name f) = true /\ elem_named named e (f_enum f) /\ names_ok named r names
      | [] => False
      end
  | FVoid _ r | FConst _ _ _ _ r | FEmb r => names_ok named r names
  end.
Definition nums (vs : list val) (zs : list Z) : Prop := vs = map VNum zs.
(** The receiver's fields hold the values [vs]. *)
Fixpoint holds (st : gst) (fs : fields) (names : list fname) (vs : list val) : Prop :=
  match fs with
  | FNil => vs = []
  | FOne e _ _ r =>
      match names, vs with
      | f :: names, VNum z :: vs => g_fld st (f_name f) = Some (One (fld_ty e (f_enum f)) z) /\ holds st r names vs
      | _, _ => False
      end
  | FArr e len _ _ r =>
      match names, vs with
      | f :: names, VArr arr :: vs =>
          (exists zs, arr = map VNum zs /\ List.length zs = len /\ g_fld st (f_name f) = Some (Many (fld_ty e (f_enum f)) zs)) /\
          holds st r names vs
      | _, _ => False
      end
  | FVoid _ r | FConst _ _ _ _ r | FEmb r => holds st r names vs
  end.
(** The receiver has the fields, with some values. *)
Definition declared (st : gst) (fs : fields) (names : list fname) : Prop := exists vs, holds st fs names vs.

(** ** In terms of variables *)
Definition vheld (st : gst) (p : place) (t : gty) (v : val) : Prop := exists z, v = VNum z /\ get st p = Some (t, z).
Definition aheld (st : gst) (f : chars) (t : gty) (i : nat) (arr : list val) : Prop :=
  forall j v, nth_error arr j = Some v -> vheld st (PE f (Z.of_nat (i + j))) t v.
Fixpoint gholds (st : gst) (fs : fields) (names : list fname) (vs : list val) : Prop :=
  match fs with
  | FNil => vs = []
  | FOne e _ _ r =>
      match names, vs with
      | f :: names, v :: vs => vheld st (PF (f_name f)) (fld_ty e (f_enum f)) v /\ gholds st r names vs
      | _, _ => False
      end
  | FArr e len _ _ r =>
      match names, vs with
      | f :: names, VArr arr :: vs => (List.length arr = len /\ aheld st (f_name f) (fld_ty e (f_enum f)) 0 arr) /\ gholds st r names vs
      | _, _ => False
      end
  | FVoid _ r | FConst _ _ _ _ r | FEmb r => gholds st r names vs
  end.
Lemma holds_gholds st fs : forall names vs, holds st fs names vs -> gholds st fs names vs.
Proof.
  induction fs; intros names vs H; cbn [holds gholds] in *; auto.
  - destruct names as [|f names]; [contradiction|]. destruct vs as [|[z| | |] vs]; try contradiction. destruct H as [H1 H2]. split; [|auto].
    exists z. split; auto. cbn [get]. rewrite H1. reflexivity.
  - destruct names as [|f names]; [contradiction|]. destruct vs as [|[| | |arr] vs]; try contradiction. destruct H as [(zs & -> & L & H1) H2]. split; [|auto].
    split; [rewrite map_length; exact L|]. intros j v Hj. rewrite nth_error_map in Hj. destruct (nth_error zs j) as [z|] eqn:E; [|discriminate].
    injection Hj as <-. exists z. split; auto. cbn [get]. rewrite H1. cbn [Nat.add].
    assert (j < List.length zs)%nat by (apply nth_error_Some; congruence).
    destruct (Z.leb_spec 0 (Z.of_nat j)); [|lia]. destruct (Z.ltb_spec (Z.of_nat j) (Z.of_nat (List.length zs))); [|lia]. cbn [andb].
    rewrite Nat2Z.id, E. reflexivity.
Qed.
Definition nonlocal (q : place) : Prop := match q with PL _ => False | _ => True end.
Definition keeps (st st' : gst) : Prop := forall q, nonlocal q -> get st' q = get st q.
Lemma gholds_keeps st st' fs : keeps st st' -> forall names vs, gholds st fs names vs -> gholds st' fs names vs.
Proof.
  intros K. induction fs; intros names vs H; cbn [gholds] in *; auto.
  - destruct names as [|f names]; [contradiction|]. destruct vs as [|v vs]; try contradiction. destruct H as [(z & -> & G) H2]. split; [|auto].
    exists z. split; auto. rewrite K; [exact G|exact I].
  - destruct names as [|f names]; [contradiction|]. destruct vs as [|[| | |arr] vs]; try contradiction. destruct H as [(L & A) H2]. split; [|auto].
    split; auto. intros j v Hj. destruct (A j v Hj) as (z & -> & G). exists z. split; auto. rewrite K; [exact G|exact I].
Qed.
Definition free (st : gst) (from : Z) : Prop := forall k, from <= k -> get st (PL (temp_name k)) = None.
Lemma free_le st a b : free st a -> a <= b -> free st b.
Proof. intros F L k Hk. apply F. lia. Qed.

Lemma temp_ne j k : 0 <= j -> 0 <= k -> j <> k -> PL (temp_name j) <> PL (temp_name k).
Proof. intros Hj Hk N E. apply N, temp_inj; auto. congruence. Qed.

Lemma place_dec (p q : place) : {p = q} + {p <> q}.
Proof. decide equality; try apply Z.eq_dec; apply (list_eq_dec ascii_dec). Qed.
Lemma enum_small bits : 1 <= bits <= 64 -> exists m, (bits + 7) / 8 = m /\ (m = 1 \/ m = 2 \/ m = 3 \/ m = 4 \/ m = 5 \/ m = 6 \/ m = 7 \/ m = 8).
Proof. intros H. eexists. split; [reflexivity|]. lia. Qed.
Lemma enum_temp_exact bits : 1 <= bits <= 64 -> has_uint (8 * ((bits + 7) / 8)) = true -> enum_temp_bits bits = 8 * ((bits + 7) / 8).
Proof.
  intros H U. unfold enum_temp_bits. destruct (enum_small bits H) as (m & E & C). rewrite E in *.
  destruct C as [->|[->|[->|[->|[->|[->|[->| ->]]]]]]]; vm_compute in U |- *; congruence.
Qed.
Lemma enum_temp_mono a b : 1 <= a <= b -> b <= 64 -> enum_temp_bits a <= enum_temp_bits b.
Proof.
  intros H L. unfold enum_temp_bits. destruct (enum_small a ltac:(lia)) as (m & E & C), (enum_small b ltac:(lia)) as (k & E2 & C2).
  assert (m <= k) by lia. rewrite E, E2. clear E E2.
  destruct C as [->|[->|[->|[->|[->|[->|[->| ->]]]]]]]; destruct C2 as [->|[->|[->|[->|[->|[->|[->| ->]]]]]]]; try lia; vm_compute; discriminate.
Qed.

(** ** Encoding *)
Definition after (named : chars -> option Z) (st : gst) (ls : list chars) (r : res (list Z * Z)) (T : gst -> Prop) : Prop :=
  match r with
  | Ok (d, o) => o = 0 /\ bytes_ok d /\ exists st', runs named st ls (Ok st') /\ g_data st' = d /\ g_off st' = g_off st /\ keeps st st' /\ T st'
  | Panic => runs named st ls Panic
  | Fail => False
  end.
Lemma after_app named st ls ls' r f (T T' : gst -> Prop) : after named st ls r T ->
  (forall st', bytes_ok (g_data st') -> keeps st st' -> T st' -> after named st' ls' (f 0 (g_data st')) T') ->
  after named st (ls ++ ls') (do (d, o) <- r; f o d) T'.
Proof.
  intros H F. destruct r as [[d o]| |]; cbn [bind after] in *; auto.
  - destruct H as (-> & B & st1 & R1 & <- & O1 & K1 & T1). specialize (F st1 B K1 T1).
    destruct (f 0 (g_data st1)) as [[d o]| |]; cbn [after] in *; auto.
    + destruct F as (-> & B2 & st2 & R2 & D2 & O2 & K2 & T2). split; auto. split; auto. exists st2. split; [eapply runs_app; eauto|].
      split; auto. split; [congruence|]. split; auto. intros q N. rewrite K2, K1; auto.
    + eapply runs_app; eauto.
  - apply runs_app_panic; [exact H|congruence].
Qed.
Lemma after_impl named st ls r (T T' : gst -> Prop) : after named st ls r T -> (forall s, T s -> T' s) -> after named st ls r T'.
Proof. intros H I. destruct r as [[d o]| |]; cbn [after] in *; auto. destruct H as (A & B & s & C & D & E & F & G). eauto 10. Qed.
Lemma after_lift named st ls r (T : gst -> Prop) : (forall d, bytes_ok (g_data st) -> r = Ok d -> bytes_ok d) -> r <> Fail -> bytes_ok (g_data st) ->
  runs named st ls (lift_data st r) -> (forall d, T (set_data st d)) -> after named st ls (do d <- r; Ok (d, 0)) T.
Proof.
  intros H1 H2 B R HT. destruct r as [d| |]; cbn [bind after lift_data] in *; [|congruence|exact R].
  split; auto. split; [auto|]. exists (set_data st d). split; auto. split; auto. split; auto. split; auto. intros q _. apply get_set.
Qed.
Lemma enc_basic_bytes w n big from base z d d' : bytes_ok d -> enc_basic w n big from base z d = Ok d' -> bytes_ok d'.
Proof. unfold enc_basic. intros B E. exact (run_chunks_bytes _ _ _ _ _ _ B E). Qed.
Lemma enc_const_bytes b n big from base z d d' : bytes_ok d -> enc_const b n big from base z d = Ok d' -> bytes_ok d'.
Proof. unfold enc_const. intros B E. exact (run_chunks_bytes _ _ _ _ _ _ B E). Qed.
Lemma no_dyn st to : fits_int st false to. Proof. discriminate. Qed.
Lemma after_basic named st dn b n big from x p z (T : gst -> Prop) : wf_basic b -> 0 <= from -> 0 <= n -> bytes_ok (g_data st) ->
  var st x p -> get st p = Some (gty_of b, z) -> typed_ok b z -> (forall d, T (set_data st d)) ->
  after named st (enc_basic_text dn false b n big from (show x)) (do d <- enc_basic (basic_bits b) n big from 0 z (g_data st); Ok (d, 0)) T.
Proof.
  intros Wb Hf Hn B V G Ty HT. apply after_lift; auto.
  - intros d _ E. eapply enc_basic_bytes; eauto.
  - unfold enc_basic. apply run_chunks_nofail.
  - exact (enc_basic_runs named st dn false b n big from x p z Wb Hf Hn B V G Ty (no_dyn _ _)).
Qed.
Lemma after_out named st k ls r (T : gst -> Prop) : enc_out named st k ls r ->
  (forall st', (forall q, q <> PL (temp_name k) -> get st' q = get st q) ->
     (exists t y, get st' (PL (temp_name k)) = Some (t, y) /\ (forall u z, get st (PL (temp_name k)) = Some (u, z) -> t = u)) -> T st') ->
  after named st ls (do d <- r; Ok (d, 0)) T.
Proof.
  intros H HT. destruct r as [d| |]; cbn [bind after enc_out] in *; auto.
  destruct H as (st' & R & D & B & O & X & K). split; auto. split; auto. exists st'. split; auto. split; auto. split; auto. split; auto.
  intros q N. apply K. destruct q; try discriminate. destruct N.
Qed.
Lemma typed_storable b z : storable_num (EBasic b) z -> typed_ok b z.
Proof. destruct b; cbn; auto. Qed.

Section Struct.
Variables (named : chars -> option Z) (c : cfg) (dn : bool).

(** The elements of an array that is written out. *)
Lemma enc_basics_run b eb big from f next : wf_basic b -> 0 <= from -> 0 <= eb -> name_okb f = true -> forall arr (i : nat) st,
  aheld st f (gty_of b) i arr -> Forall (storable_elem (EBasic b)) arr -> bytes_ok (g_data st) -> free st next ->
  after named st (enc_elems_text dn false (EBasic b) 0 eb big from 0 f (List.length arr) (Z.of_nat i))
    (iter_enc (fun i v o d => enc_elem c false (EBasic b) 0 eb big (from + i * eb) v o d) (Z.of_nat i) arr 0 (g_data st)) (fun s => free s next).
Proof.
  intros Wb Hf He Hn. induction arr as [|v arr IH]; intros i st A Sf B F; cbn [List.length enc_elems_text iter_enc].
  - cbn [after]. split; auto. split; auto. exists st. split; [constructor|]. repeat split; auto.
  - inversion Sf as [|? ? S1 S2]; subst. destruct (A O v eq_refl) as (z & -> & G). rewrite Nat.add_0_r in G. cbn [storable_elem] in S1.
    cbn [enc_elem]. set (fr := from + Z.of_nat i * eb). assert (Hfr : 0 <= fr) by (subst fr; nia).
    apply (after_app named st _ _ _ (fun o d => iter_enc (fun i v o d => enc_elem c false (EBasic b) 0 eb big (from + i * eb) v o d) (Z.of_nat i + 1) arr o d) (fun s => free s next)).
    + rewrite <- show_elem. apply (after_basic named st dn b eb big fr (elem_px f (Z.of_nat i)) (PE f (Z.of_nat i)) z); auto.
      * apply var_elem; auto. lia.
      * now apply typed_storable.
    + intros st' B' K F'. replace (Z.of_nat i + 1) with (Z.of_nat (S i)) by lia. apply IH; auto.
      intros j v Hj. replace (S i + j)%nat with (i + S j)%nat by lia. destruct (A (S j) v Hj) as (y & -> & Gy). exists y. split; auto. rewrite K; [exact Gy|exact I].
Qed.
Lemma enc_enums_run bits en we tw eb big from k f next : has_uint tw = true -> 0 <= from -> 0 <= k < next -> 0 <= eb -> name_okb f = true -> forall arr (i : nat) st,
  aheld st f (GN en we) i arr -> bytes_ok (g_data st) -> free st next -> (exists y, get st (PL (temp_name k)) = Some (GU tw, y)) ->
  after named st (enc_elems_text dn false (EEnum bits) tw eb big from k f (List.length arr) (Z.of_nat i))
    (iter_enc (fun i v o d => enc_elem c false (EEnum bits) tw eb big (from + i * eb) v o d) (Z.of_nat i) arr 0 (g_data st)) (fun s => free s next).
Proof.
  intros U Hf Hk He Hn. induction arr as [|v arr IH]; intros i st A B F [y0 Gt]; cbn [List.length enc_elems_text iter_enc].
  - cbn [after]. split; auto. split; auto. exists st. split; [constructor|]. repeat split; auto.
  - destruct (A O v eq_refl) as (z & -> & G). rewrite Nat.add_0_r in G.
    set (fr := from + Z.of_nat i * eb). assert (Hfr : 0 <= fr) by (subst fr; nia).
    assert (Ee : enc_elem c false (EEnum bits) tw eb big fr (VNum z) 0 (g_data st) = do d <- enc_basic tw eb big fr 0 z (g_data st); Ok (d, 0))
      by (cbn [enc_elem]; rewrite U; reflexivity). rewrite Ee. clear Ee.
    apply (after_app named st _ _ _ (fun o d => iter_enc (fun i v o d => enc_elem c false (EEnum bits) tw eb big (from + i * eb) v o d) (Z.of_nat i + 1) arr o d)
      (fun s => free s next /\ exists y, get s (PL (temp_name k)) = Some (GU tw, y))).
    + apply (after_out named st k).
      * rewrite <- show_elem. change 0 with (base_of st false).
        apply (enc_elem_runs named st dn false tw eb big fr k (elem_px f (Z.of_nat i)) (PE f (Z.of_nat i)) en we z y0); auto; try lia.
        -- apply var_elem; auto. lia.
        -- apply no_dyn.
      * intros st' K (t & y & Gy & Ht). split; [|exists y; rewrite Gy; f_equal; f_equal; eauto].
        intros j Hj. rewrite K; [now apply F|]. apply temp_ne; lia.
    + intros st' B' K (F' & Gt'). replace (Z.of_nat i + 1) with (Z.of_nat (S i)) by lia. apply IH; auto.
      intros j v Hj. replace (S i + j)%nat with (i + S j)%nat by lia. destruct (A (S j) v Hj) as (y & -> & Gy). exists y. split; auto. rewrite K; [exact Gy|exact I].
Qed.

Lemma quot_elems len eb : (0 < len)%nat -> Z.quot (Z.of_nat len * eb) (Z.of_nat len) = eb.
Proof. intros H. rewrite Z.mul_comm. apply Z.quot_mul. lia. Qed.
Lemma next_scalar from n : 1 <= n -> next_from from n = from + n.
Proof. intros H. unfold next_from. destruct (Z.eqb_spec n (-1)); lia. Qed.

Theorem enc_fields_run : forall fs names vs from st, wf_fields fs from -> flat c fs -> go_ok c fs -> names_ok named fs names ->
  gholds st fs names vs -> storable_fields fs vs -> 0 <= from -> bytes_ok (g_data st) -> free st from ->
  after named st (enc_text dn fs names from) (enc_fields c false fs vs from 0 (g_data st)) (fun _ => True).
Proof.
  induction fs as [|e n big r IH|e len n big r IH|n r IH|b n big z r IH|r IH]; intros names vs from st W Fl Go Nm Hd Sv Hf B Fr; cbn [enc_text enc_fields].
  - cbn [after]. split; auto. split; auto. exists st. split; [constructor|]. repeat split; auto.
  - cbn [wf_fields flat go_ok names_ok gholds storable_fields] in *. destruct Fl as [Fs Fl]. rewrite Fs in W. destruct W as (We & Hn & Wr). destruct Go as [_ Go].
    destruct names as [|f names]; [contradiction|]. destruct Nm as (N1 & N2 & Nm). destruct vs as [|v vs]; [contradiction|]. destruct Hd as [(z & -> & G) Hd]. destruct Sv as [S1 Sv].
    rewrite next_scalar in * by lia.
    apply (after_app named st _ _ _ (fun o d => enc_fields c false r vs (from + n) o d) (fun s => free s (from + n))).
    + destruct e as [b|bits| | |s]; try discriminate Fs; cbn [enc_elem fld_ty elem_bits wf_elem storable_elem] in *.
      * rewrite <- show_field. apply (after_basic named st dn b n big from (field_px (f_name f)) (PF (f_name f)) z); auto; try lia.
        -- now apply var_field.
        -- now apply typed_storable.
        -- intros d k Hk. apply Fr. lia.
      * destruct (enum_temp_ok n ltac:(lia)) as [U _]. rewrite U.
        apply (after_out named st from).
        -- rewrite <- show_field. change (enc_basic (enum_temp_bits n) n big from 0 z (g_data st)) with (enc_basic (enum_temp_bits n) n big from (base_of st false) z (g_data st)). apply (enc_enum_runs named st dn false n big from (field_px (f_name f)) (PF (f_name f)) (f_enum f) (enum_temp_bits bits) z); auto; try lia.
           ++ now apply var_field.
           ++ apply Fr. lia.
           ++ apply no_dyn.
        -- intros st' K _ k Hk. rewrite K; [apply Fr; lia|]. apply temp_ne; lia.
    + intros st' B' K F'. apply IH; auto; [|lia]. now apply (gholds_keeps st st').
  - cbn [wf_fields flat go_ok names_ok gholds storable_fields] in *. destruct Fl as (Fs & Ul & Fl). rewrite Fs in W. destruct W as (We & Hl & (eb & He & ->) & Wr).
    destruct Go as (_ & Ge & Go). rewrite Ul in *.
    destruct names as [|f names]; [contradiction|]. destruct Nm as (N1 & N2 & Nm). destruct vs as [|[| | |arr] vs]; try contradiction.
    destruct Hd as [(L & A) Hd]. destruct Sv as (_ & S1 & Sv). rewrite quot_elems by auto.
    assert (P : 1 <= Z.of_nat len * eb) by nia. rewrite next_scalar in * by exact P. set (nx := from + Z.of_nat len * eb) in *. assert (Hnx : from < nx) by (subst nx; nia).
    rewrite app_assoc.
    apply (after_app named st _ _ _ (fun o d => enc_fields c false r vs nx o d) (fun s => free s nx)).
    + destruct e as [b|bits| | |s]; try discriminate Fs; cbn [fld_ty elem_bits wf_elem] in *.
      * cbn [app]. rewrite <- L.
        assert (E : forall a b' from k l i, enc_elems_text dn false (EBasic b) a eb big from k (f_name f) l i = enc_elems_text dn false (EBasic b) b' eb big from 0 (f_name f) l i).
        { intros a b' fr k l. induction l as [|l IHl]; intros i; cbn [enc_elems_text]; auto. rewrite (IHl (i + 1)). reflexivity. }
        rewrite (E _ 0). apply (enc_basics_run b eb big from (f_name f) nx We Hf ltac:(lia) N1 arr O); auto. eapply free_le; eauto; lia.
      * assert (U : has_uint (8 * ((bits + 7) / 8)) = true) by (destruct Ge as [Ge|Ge]; [discriminate|exact Ge]).
        destruct (run_var named st from _ Hf U (Fr from ltac:(lia))) as (st1 & R1 & M1).
        assert (K1 : keeps st st1) by (intros q Q; apply M1; destruct q; try discriminate; destruct Q).
        assert (A1 : aheld st1 (f_name f) (GN (f_enum f) (enum_temp_bits bits)) 0 arr).
        { intros j v Hj. destruct (A j v Hj) as (y & -> & Gy). exists y. split; auto. rewrite K1; [exact Gy|exact I]. }
        pose proof (enc_enums_run bits (f_enum f) (enum_temp_bits bits) (8 * ((bits + 7) / 8)) eb big from from (f_name f) nx U Hf ltac:(lia) ltac:(lia) N1 arr O st1 A1) as X.
        rewrite (m_data _ _ _ _ _ M1), L in X.
        assert (F1 : free st1 nx).
        { intros k Hk. rewrite (m_else _ _ _ _ _ M1); [apply Fr; lia|]. apply temp_ne; lia. }
        specialize (X B F1 (ex_intro _ 0 (m_here _ _ _ _ _ M1))). change (Z.of_nat 0) with 0 in X.
        destruct (iter_enc _ 0 arr 0 (g_data st)) as [[d o]| |]; cbn [after] in *; auto.
        -- destruct X as (-> & B2 & st2 & R2 & D2 & O2 & K2 & T2). split; auto. split; auto. exists st2.
           split; [exact (runs_app named [_] _ st st1 _ R1 R2)|]. split; auto. split; [rewrite O2; apply (m_off _ _ _ _ _ M1)|]. split; auto. intros q Q. rewrite K2, K1; auto.
        -- exact (runs_app named [_] _ st st1 _ R1 X).
    + intros st' B' K F'. apply IH; auto; [|lia]. now apply (gholds_keeps st st').
  - cbn [wf_fields flat go_ok names_ok gholds storable_fields] in *. destruct W as [Hn Wr]. rewrite next_scalar by lia. apply IH; auto; [lia|]. eapply free_le; eauto; lia.
  - cbn [wf_fields flat go_ok names_ok gholds storable_fields] in *. destruct W as (Wb & Hn & Wr). destruct Go as [_ Go]. rewrite next_scalar by lia.
    assert (X : after named st (enc_const_text dn false b n big from z) (do d <- enc_const b n big from 0 z (g_data st); Ok (d, 0)) (fun s => free s (from + n))).
    { apply after_lift; auto.
      - intros d _ E. eapply enc_const_bytes; eauto.
      - unfold enc_const. apply run_chunks_nofail.
      - exact (enc_const_runs named st dn false b n big from z Hf ltac:(lia) B (no_dyn _ _)).
      - intros d k Hk. apply Fr. lia. }
    pose proof (after_app named st _ (enc_text dn r names (from + n)) _ (fun o d => enc_fields c false r vs (from + n) o d) _ (fun _ => True) X) as Q.
    assert (E : (do (d, o) <- (do d <- enc_const b n big from 0 z (g_data st); Ok (d, 0)); enc_fields c false r vs (from + n) o d) =
      (do b' <- enc_const b n big from 0 z (g_data st); enc_fields c false r vs (from + n) 0 b')) by (destruct (enc_const b n big from 0 z (g_data st)); reflexivity).
    cbv beta in Q. rewrite E in Q. apply Q. intros st' B' K F'. apply IH; auto; [|lia]. now apply (gholds_keeps st st').
  - cbn [wf_fields flat go_ok names_ok gholds storable_fields] in *. apply IH; auto.
Qed.
End Struct.

(** ** Decoding *)
Definition one (named : chars -> option Z) (st : gst) (p : place) (t : gty) (ls : list chars) (r : res val) (J : gst -> Prop) : Prop :=
  match r with
  | Ok v => exists st', runs named st ls (Ok st') /\ g_data st' = g_data st /\ g_off st' = g_off st /\ vheld st' p t v /\
      (forall q, nonlocal q -> q <> p -> get st' q = get st q) /\ J st'
  | Panic => runs named st ls Panic
  | Fail => False
  end.
Section Dec.
Variables (named : chars -> option Z) (c : cfg) (dn : bool).

Lemma one_basic st b n big from x p z (J : gst -> Prop) : wf_basic b -> 0 <= from -> 1 <= n <= basic_bits b -> bytes_ok (g_data st) ->
  var st x p -> nonlocal p -> get st p = Some (gty_of b, z) -> (forall st', (forall y, get st' (PL y) = get st (PL y)) -> J st') ->
  one named st p (gty_of b) (dec_basic_text c dn false b n big from (show x)) (do p <- dec_pattern (basic_bits b) n big from 0 0 (g_data st); Ok (VNum (dec_value c b n p))) J.
Proof.
  intros Wb Hf Hn B V Np G HJ. pose proof (dec_basic_runs named st c dn false b n big from x p z Wb Hf Hn B V G (no_dyn _ _)) as H. cbn [base_of] in H.
  destruct (dec_pattern (basic_bits b) n big from 0 0 (g_data st)) as [v| |]; cbn [bind one]; auto.
  destruct H as (_ & st' & R & M). exists st'. split; auto. destruct M as [M1 M2 M3 M4]. split; auto. split; auto. split; [eexists; eauto|]. split; [auto|].
  apply HJ. intros y. apply M4. intros <-. destruct Np.
Qed.
Lemma loc_ne p k : nonlocal p -> p <> PL (temp_name k).
Proof. intros N ->. destruct N. Qed.

Lemma dec_loop (data : list Z) f t (J : gst -> Prop) (text : Z -> list chars) (elems : nat -> Z -> list chars) (step : Z -> Z -> res (val * Z)) :
  (forall i, elems O i = []) -> (forall k i, elems (S k) i = text i ++ elems k (i + 1)) ->
  (forall i st z, 0 <= i -> J st -> g_data st = data -> get st (PE f i) = Some (t, z) ->
     exists r, step i 0 = (do v <- r; Ok (v, 0)) /\ one named st (PE f i) t (text i) r J) ->
  forall len (i : nat) st, J st -> g_data st = data -> (forall j, (i <= j < i + len)%nat -> exists z, get st (PE f (Z.of_nat j)) = Some (t, z)) ->
  match iter_dec step len (Z.of_nat i) 0 with
  | Ok (arr, o) => o = 0 /\ List.length arr = len /\ exists st', runs named st (elems len (Z.of_nat i)) (Ok st') /\ g_data st' = data /\ g_off st' = g_off st /\
      aheld st' f t i arr /\ (forall q, nonlocal q -> (forall j, (i <= j < i + len)%nat -> q <> PE f (Z.of_nat j)) -> get st' q = get st q) /\ J st'
  | Panic => runs named st (elems len (Z.of_nat i)) Panic
  | Fail => False
  end.
Proof.
  intros E0 E1 Hs. induction len as [|len IH]; intros i st HJ D G; cbn [iter_dec].
  - rewrite E0. split; auto. split; auto. exists st. split; [constructor|]. split; auto. split; auto. split; [intros [|j] v Hj; discriminate|]. auto.
  - rewrite E1. destruct (G i ltac:(lia)) as [z Gz]. destruct (Hs (Z.of_nat i) st z ltac:(lia) HJ D Gz) as (r & -> & H).
    destruct r as [v| |]; cbn [bind one] in *; auto; [|apply runs_app_panic; [exact H|congruence]].
    destruct H as (st1 & R1 & D1 & O1 & V1 & K1 & J1).
    specialize (IH (S i) st1 J1 ltac:(congruence)). replace (Z.of_nat (S i)) with (Z.of_nat i + 1) in IH by lia.
    assert (G1 : forall j, (S i <= j < S i + len)%nat -> exists z, get st1 (PE f (Z.of_nat j)) = Some (t, z)).
    { intros j Hj. rewrite K1; [apply G; lia|exact I|]. intros E. injection E as E. lia. }
    specialize (IH G1). destruct (iter_dec step len (Z.of_nat i + 1) 0) as [[arr o]| |]; cbn [bind]; auto.
    + destruct IH as (-> & L & st2 & R2 & D2 & O2 & A2 & K2 & J2). split; auto. split; [cbn; now rewrite L|]. exists st2.
      split; [eapply runs_app; eauto|]. split; auto. split; [congruence|]. split; [|split; auto].
      * intros [|j] w Hj; cbn [nth_error] in Hj.
        -- injection Hj as <-. rewrite Nat.add_0_r. destruct V1 as (y & -> & Gy). exists y. split; auto. rewrite K2; [exact Gy|exact I|].
           intros j Hj E. injection E as E. lia.
        -- replace (i + S j)%nat with (S i + j)%nat by lia. now apply A2.
      * intros q Q N. rewrite K2; auto.
        -- apply K1; auto. apply N. lia.
        -- intros j Hj. apply N. lia.
    + eapply runs_app; eauto.
Qed.

Definition fld_of (q : place) : chars := match q with PF f | PE f _ => f | PL x => x end.
Record frame (st st' : gst) (own : list chars) : Prop := {
  fr_data : g_data st' = g_data st;
  fr_off : g_off st' = g_off st;
  fr_keep : forall q, nonlocal q -> ~ In (fld_of q) own -> get st' q = get st q;
  fr_none : forall q, nonlocal q -> get st q = None -> get st' q = None
}.
Lemma frame_trans a b d l1 l2 l : frame a b l1 -> frame b d l2 -> incl l1 l -> incl l2 l -> frame a d l.
Proof.
  intros [A1 A2 A3 A4] [B1 B2 B3 B4] I1 I2. split; try congruence.
  - intros q N H. rewrite B3, A3; auto.
  - auto.
Qed.
Lemma frame_weaken a b l l' : frame a b l -> incl l l' -> frame a b l'.
Proof. intros [A1 A2 A3 A4] I. split; auto. Qed.
Fixpoint gdecl (st : gst) (fs : fields) (names : list fname) : Prop :=
  match fs with
  | FNil => True
  | FOne e _ _ r =>
      match names with
      | f :: names => (exists z, get st (PF (f_name f)) = Some (fld_ty e (f_enum f), z)) /\ gdecl st r names
      | _ => False
      end
  | FArr e len _ _ r =>
      match names with
      | f :: names => (forall j, (j < len)%nat -> exists z, get st (PE (f_name f) (Z.of_nat j)) = Some (fld_ty e (f_enum f), z)) /\ gdecl st r names
      | _ => False
      end
  | FVoid _ r | FConst _ _ _ _ r | FEmb r => gdecl st r names
  end.
Lemma gdecl_frame st st' own fs : frame st st' own -> forall names, (forall f, In f names -> ~ In (f_name f) own) -> gdecl st fs names -> gdecl st' fs names.
Proof.
  intros K. induction fs; intros names N H; cbn [gdecl] in *; auto.
  - destruct names as [|f names]; [contradiction|]. destruct H as [[z H1] H2]. split; [|apply IHfs; auto; intros g Hg; apply N; now right].
    exists z. rewrite (fr_keep _ _ _ K); [exact H1|exact I|]. apply N. now left.
  - destruct names as [|f names]; [contradiction|]. destruct H as [H1 H2]. split; [|apply IHfs; auto; intros g Hg; apply N; now right].
    intros j Hj. rewrite (fr_keep _ _ _ K); [now apply H1|exact I|]. apply N. now left.
Qed.
Lemma gholds_frame st st' own fs : frame st st' own -> forall names vs, (forall f, In f names -> ~ In (f_name f) own) -> gholds st fs names vs -> gholds st' fs names vs.
Proof.
  intros K. induction fs; intros names vs N H; cbn [gholds] in *; auto.
  - destruct names as [|f names]; [contradiction|]. destruct vs as [|v vs]; [contradiction|]. destruct H as [(z & -> & H1) H2]. split; [|apply IHfs; auto; intros g Hg; apply N; now right].
    exists z. split; auto. rewrite (fr_keep _ _ _ K); [exact H1|exact I|]. apply N. now left.
  - destruct names as [|f names]; [contradiction|]. destruct vs as [|[| | |arr] vs]; try contradiction. destruct H as [[L H1] H2]. split; [|apply IHfs; auto; intros g Hg; apply N; now right].
    split; auto. intros j v Hj. destruct (H1 j v Hj) as (z & -> & G). exists z. split; auto. rewrite (fr_keep _ _ _ K); [exact G|exact I|]. apply N. now left.
Qed.
Lemma holds_gdecl st fs : forall names vs, holds st fs names vs -> gdecl st fs names.
Proof.
  intros names vs H. apply holds_gholds in H. revert names vs H. induction fs; intros names vs H; cbn [gholds gdecl] in *; eauto.
  - destruct names as [|f names]; [contradiction|]. destruct vs as [|v vs]; [contradiction|]. destruct H as [(z & -> & H1) H2]. eauto.
  - destruct names as [|f names]; [contradiction|]. destruct vs as [|[| | |arr] vs]; try contradiction. destruct H as [[L H1] H2]. split; [|eauto].
    intros j Hj. rewrite <- L in Hj. destruct (nth_error arr j) as [v|] eqn:E; [|apply nth_error_None in E; lia].
    destruct (H1 j v E) as (z & -> & G). eauto.
Qed.

Definition dout (st : gst) (fs : fields) (names : list fname) (ls : list chars) (r : res (list val * Z)) : Prop :=
  match r with
  | Ok (vs, o) => o = 0 /\ exists st', runs named st ls (Ok st') /\ gholds st' fs names vs /\ frame st st' (map f_name names)
  | Panic => runs named st ls Panic
  | Fail => runs named st ls Fail
  end.
Variable base : Z -> ibase.
Theorem dec_fields_run : forall fs names from st, wf_fields fs from -> flat c fs -> go_ok c fs -> names_ok named fs names -> NoDup (map f_name names) ->
  gdecl st fs names -> 0 <= from -> bytes_ok (g_data st) -> free st from ->
  dout st fs names (dec_text c dn base fs names from) (dec_fields c false fs from 0 (g_data st)).
Proof.
  induction fs as [|e n big r IH|e len n big r IH|n r IH|b n big z r IH|r IH]; intros names from st W Fl Go Nm Nd Hd Hf B Fr; cbn [dec_text dec_fields].
  - cbn [dout]. split; auto. exists st. split; [constructor|]. split; [reflexivity|]. split; auto.
  - cbn [wf_fields flat go_ok names_ok gdecl] in *. destruct Fl as [Fs Fl]. rewrite Fs in W. destruct W as (We & Hn & Wr). destruct Go as [_ Go].
    destruct names as [|f names]; [contradiction|]. destruct Nm as (N1 & N2 & Nm). destruct Hd as [(z & G) Hd]. cbn [map] in Nd. inversion Nd as [|? ? Nf Nd']; subst.
    rewrite next_scalar in * by lia.
    assert (X : exists q, dec_elem c false e (enum_temp_bits n) n big from 0 (g_data st) = (do v <- q; Ok (v, 0)) /\
      one named st (PF (f_name f)) (fld_ty e (f_enum f)) (match e with
          | EBasic b => dec_basic_text c dn false b n big from (field_name (f_name f))
          | EEnum _ => dec_enum_text c dn false (f_enum f) n big from (field_name (f_name f))
          | _ => [] end) q (fun s => free s (from + n))).
    { destruct e as [b|bits| | |s]; try discriminate Fs; cbn [dec_elem fld_ty elem_bits wf_elem elem_named] in *.
      - eexists. split.
        2: { rewrite <- show_field. apply (one_basic st b n big from (field_px (f_name f)) (PF (f_name f)) z); auto; try lia; try exact I; [now apply var_field|].
          intros st' H k Hk. rewrite H. apply Fr. lia. }
        destruct (dec_pattern (basic_bits b) n big from 0 0 (g_data st)); reflexivity.
      - destruct (enum_temp_ok n ltac:(lia)) as [U Ln]. rewrite U. assert (Lm : enum_temp_bits n <= enum_temp_bits bits) by (apply enum_temp_mono; lia).
        pose proof (dec_enum_runs named st c dn false n big from (field_px (f_name f)) (PF (f_name f)) (f_enum f) (enum_temp_bits bits) z ltac:(lia) Hf Lm B N2 (var_field st (f_name f) N1) G
          (loc_ne (PF (f_name f)) from I) (Fr from ltac:(lia)) (no_dyn _ _)) as H.
        rewrite show_field in H. cbn [base_of] in H. exists (do p <- dec_pattern (enum_temp_bits n) n big from 0 0 (g_data st); Ok (VNum p)).
        destruct (dec_pattern (enum_temp_bits n) n big from 0 0 (g_data st)) as [v| |]; cbn [bind one]; [|destruct H|split; auto].
        split; auto. destruct H as (st' & R & [M1 M2 M3 M4 M5]). exists st'. split; auto. split; auto. split; auto. split; [eexists; eauto|]. split.
        + intros q Q N. apply M5; auto. now apply loc_ne.
        + intros k Hk. rewrite M5; [apply Fr; lia|discriminate|]. apply temp_ne; lia. }
    destruct X as (q & -> & X). destruct q as [v| |]; cbn [bind one] in *; [|destruct X|cbn [dout]; apply runs_app_panic; [exact X|congruence]].
    destruct X as (st1 & R1 & D1 & O1 & V1 & K1 & F1).
    assert (Fm : frame st st1 [f_name f]).
    { split; auto.
      - intros q Q N. apply K1; auto. intros ->. apply N. now left.
      - intros q Q E. destruct (place_dec q (PF (f_name f))) as [->|Ne]; [congruence|]. rewrite K1; auto. }
    assert (Nn : forall g, In g names -> ~ In (f_name g) [f_name f]).
    { intros g Hg [E|[]]. apply Nf. rewrite E. now apply in_map. }
    specialize (IH names (from + n) st1 Wr Fl Go Nm Nd' (gdecl_frame st st1 _ r Fm names Nn Hd) ltac:(lia)). rewrite D1 in IH. specialize (IH B F1).
    destruct (dec_fields c false r (from + n) 0 (g_data st)) as [[vs o]| |]; cbn [bind dout] in *.
    + destruct IH as (-> & st2 & R2 & H2 & F2). split; auto. exists st2. split; [eapply runs_app; eauto|]. split.
      * cbn [gholds]. split; [|exact H2]. destruct V1 as (y & -> & Gy). exists y. split; auto. rewrite (fr_keep _ _ _ F2); [exact Gy|exact I|exact Nf].
      * eapply frame_trans; [exact Fm|exact F2| |]; cbn [map]; intros g Hg; [destruct Hg as [<-|[]]; now left|now right].
    + eapply runs_app; eauto.
    + eapply runs_app; eauto.
  - cbn [wf_fields flat go_ok names_ok gdecl] in *. destruct Fl as (Fs & Ul & Fl). rewrite Fs in W. destruct W as (We & Hl & (eb & He & ->) & Wr).
    destruct Go as (_ & Ge & Go). rewrite Ul in *.
    destruct names as [|f names]; [contradiction|]. destruct Nm as (N1 & N2 & Nm). destruct Hd as [G Hd]. cbn [map] in Nd. inversion Nd as [|? ? Nf Nd']; subst.
    rewrite quot_elems by auto.
    assert (P : 1 <= Z.of_nat len * eb) by nia. rewrite next_scalar in * by exact P. set (nx := from + Z.of_nat len * eb) in *. assert (Hnx : from < nx) by (subst nx; nia).
    set (tw := 8 * ((elem_bits e + 7) / 8)). rewrite app_assoc.
    set (head := match e with EEnum _ => [cs "var " ++ temp_name from ++ cs " " ++ uint_name tw] | _ => [] end ++ dec_elems_text c dn false e tw eb big from from f len 0).
    assert (X : match iter_dec (fun i o => dec_elem c false e tw eb big (from + i * eb) o (g_data st)) len 0 0 with
      | Ok (arr, o) => o = 0 /\ List.length arr = len /\ exists st', runs named st head (Ok st') /\ g_data st' = g_data st /\ g_off st' = g_off st /\
          aheld st' (f_name f) (fld_ty e (f_enum f)) 0 arr /\ (forall q, nonlocal q -> (forall j, (0 <= j < 0 + len)%nat -> q <> PE (f_name f) (Z.of_nat j)) -> get st' q = get st q) /\ free st' nx
      | Panic => runs named st head Panic
      | Fail => False
      end).
    { destruct e as [b|bits| | |s]; try discriminate Fs; cbn [fld_ty elem_bits wf_elem elem_named app] in *; subst head.
      - apply (dec_loop (g_data st) (f_name f) (gty_of b) (fun s => free s nx) (fun i => dec_basic_text c dn false b eb big (from + i * eb) (elem_name (f_name f) i))
          (fun k i => dec_elems_text c dn false (EBasic b) tw eb big from from f k i) _ ltac:(reflexivity) ltac:(reflexivity)) with (i := O); auto.
        + intros i s y Hi Fs' Ds Gs. exists (do p <- dec_pattern (basic_bits b) eb big (from + i * eb) 0 0 (g_data st); Ok (VNum (dec_value c b eb p))). split.
          * cbn [dec_elem]. destruct (dec_pattern (basic_bits b) eb big (from + i * eb) 0 0 (g_data st)); reflexivity.
          * rewrite <- Ds, <- show_elem. apply (one_basic s b eb big (from + i * eb) (elem_px (f_name f) i) (PE (f_name f) i) y); auto; try nia; try exact I.
            -- rewrite Ds. exact B.
            -- now apply var_elem.
            -- intros st' H k Hk. rewrite H. apply Fs'. lia.
        + eapply free_le; eauto; lia.
        + intros j Hj. apply G. lia.
      - assert (U : has_uint tw = true) by (destruct Ge as [Ge|Ge]; [discriminate|exact Ge]).
        destruct (run_var named st from _ Hf U (Fr from ltac:(lia))) as (st1 & R1 & M1).
        assert (Etw : enum_temp_bits bits = tw) by (apply enum_temp_exact; [lia|exact U]).
        pose proof (dec_loop (g_data st) (f_name f) (GN (f_enum f) (enum_temp_bits bits)) (fun s => free s nx /\ exists y, get s (PL (temp_name from)) = Some (GU tw, y))
          (fun i => dec_basic_text c dn false (BUint tw) eb big (from + i * eb) (temp_name from) ++ [elem_name (f_name f) i ++ cs " = " ++ f_enum f ++ cs "(" ++ temp_name from ++ cs ")"])
          (fun k i => dec_elems_text c dn false (EEnum bits) tw eb big from from f k i) (fun i o => dec_elem c false (EEnum bits) tw eb big (from + i * eb) o (g_data st)) ltac:(reflexivity)) as L.
        assert (L1 : forall k i, dec_elems_text c dn false (EEnum bits) tw eb big from from f (S k) i =
          (dec_basic_text c dn false (BUint tw) eb big (from + i * eb) (temp_name from) ++ [elem_name (f_name f) i ++ cs " = " ++ f_enum f ++ cs "(" ++ temp_name from ++ cs ")"]) ++
          dec_elems_text c dn false (EEnum bits) tw eb big from from f k (i + 1)) by reflexivity.
        specialize (L L1). clear L1.
        match type of L with ?A -> _ => assert (L2 : A) end.
        { intros i s y Hi (Fs' & y1 & Gt) Ds Gs. exists (do p <- dec_pattern tw eb big (from + i * eb) 0 0 (g_data st); Ok (VNum p)). split.
          - cbn [dec_elem]. rewrite U. destruct (dec_pattern tw eb big (from + i * eb) 0 0 (g_data st)); reflexivity.
          - assert (Bs : bytes_ok (g_data s)) by (rewrite Ds; exact B). assert (Hfr : 0 <= from + i * eb) by nia.
            assert (Eb : 1 <= eb <= tw) by (subst tw; lia).
            pose proof (dec_enum_body named s c dn false tw eb big (from + i * eb) from (elem_px (f_name f) i) (PE (f_name f) i) (f_enum f) (enum_temp_bits bits) y y1 U Hfr Hf Eb ltac:(lia) Bs N2
              (var_elem s (f_name f) i N1 Hi) Gs (loc_ne (PE (f_name f) i) from I) Gt (no_dyn _ _)) as H. cbv zeta in H.
            rewrite show_elem in H. cbn [base_of] in H. rewrite Ds in H.
            destruct (dec_pattern tw eb big (from + i * eb) 0 0 (g_data st)) as [v| |]; cbn [bind one]; [|destruct H|auto].
            destruct H as (st' & R & [Q1 Q2 Q3 Q4 Q5]). exists st'. split; auto. split; auto. split; auto. split; [eexists; eauto|]. split.
            + intros q Q N. apply Q5; auto. now apply loc_ne.
            + split; [|exact Q3]. intros k Hk. rewrite Q5; [apply Fs'; lia|discriminate|]. apply temp_ne; lia. }
        specialize (L L2 len O st1). clear L2.
        assert (F1 : free st1 nx).
        { intros k Hk. rewrite (m_else _ _ _ _ _ M1); [apply Fr; lia|]. apply temp_ne; lia. }
        assert (G1 : forall j, (0 <= j < 0 + len)%nat -> exists z, get st1 (PE (f_name f) (Z.of_nat j)) = Some (GN (f_enum f) (enum_temp_bits bits), z)).
        { intros j Hj. rewrite (m_else _ _ _ _ _ M1) by discriminate. apply G. lia. }
        specialize (L (conj F1 (ex_intro _ 0 (m_here _ _ _ _ _ M1))) (m_data _ _ _ _ _ M1) G1). change (Z.of_nat 0) with 0 in L.
        destruct (iter_dec _ len 0 0) as [[arr o]| |]; auto.
        + destruct L as (-> & Ll & st2 & R2 & D2 & O2 & A2 & K2 & F2 & _). split; auto. split; auto. exists st2. split; [exact (runs_app named [_] _ st st1 _ R1 R2)|].
          split; auto. split; [rewrite O2; apply (m_off _ _ _ _ _ M1)|]. split; auto. split; auto. intros q Q N. rewrite K2; auto. apply (m_else _ _ _ _ _ M1). now apply loc_ne.
        + exact (runs_app named [_] _ st st1 _ R1 L). }
    destruct (iter_dec (fun i o => dec_elem c false e tw eb big (from + i * eb) o (g_data st)) len 0 0) as [[arr o]| |]; cbn [bind]; [|destruct X|cbn [dout]; apply runs_app_panic; [exact X|congruence]].
    destruct X as (-> & La & st1 & R1 & D1 & O1 & A1 & K1 & F1).
    assert (Fm : frame st st1 [f_name f]).
    { split; auto.
      - intros q Q N. apply K1; auto. intros j Hj ->. apply N. now left.
      - intros q Q E. rewrite K1; auto. intros j Hj ->. destruct (G j ltac:(lia)) as [z Gz]. congruence. }
    assert (Nn : forall g, In g names -> ~ In (f_name g) [f_name f]).
    { intros g Hg [E|[]]. apply Nf. rewrite E. now apply in_map. }
    specialize (IH names nx st1 Wr Fl Go Nm Nd' (gdecl_frame st st1 _ r Fm names Nn Hd) ltac:(lia)). rewrite D1 in IH. specialize (IH B F1).
    destruct (dec_fields c false r nx 0 (g_data st)) as [[vs o]| |]; cbn [bind dout] in *.
    + destruct IH as (-> & st2 & R2 & H2 & F2). split; auto. exists st2. split; [eapply runs_app; eauto|]. split.
      * cbn [gholds]. split; [|exact H2]. split; auto. intros j v Hj. destruct (A1 j v Hj) as (y & -> & Gy). exists y. split; auto.
        rewrite (fr_keep _ _ _ F2); [exact Gy|exact I|exact Nf].
      * eapply frame_trans; [exact Fm|exact F2| |]; cbn [map]; intros g Hg; [destruct Hg as [<-|[]]; now left|now right].
    + eapply runs_app; eauto.
    + eapply runs_app; eauto.
  - cbn [wf_fields flat go_ok names_ok gdecl] in *. destruct W as [Hn Wr]. rewrite next_scalar by lia. apply IH; auto; [lia|]. eapply free_le; eauto; lia.
  - cbn [wf_fields flat go_ok names_ok gdecl] in *. destruct W as (Wb & Hn & Wr). destruct Go as [Cc Go]. rewrite next_scalar by lia. rewrite Cc.
    pose proof (dec_const_runs named st c dn false b n big from z (base from) Wb Hf Hn B Cc (Fr from ltac:(lia)) (no_dyn _ _)) as X. cbn [base_of] in X.
    destruct (dec_pattern (basic_bits b) n big from 0 0 (g_data st)) as [v| |]; cbn [bind]; [|destruct X|cbn [dout]; apply runs_app_panic; [exact X|congruence]].
    destruct (const_value b n v =? z); [|cbn [dout]; apply runs_app_panic; [exact X|congruence]].
    destruct X as (st1 & y & R1 & [M1 M2 M3 M4]).
    assert (Fm : frame st st1 []).
    { split; auto.
      - intros q Q N. apply M4. now apply loc_ne.
      - intros q Q E. rewrite M4; auto. now apply loc_ne. }
    assert (F1 : free st1 (from + n)).
    { intros k Hk. rewrite M4; [apply Fr; lia|]. apply temp_ne; lia. }
    specialize (IH names (from + n) st1 Wr Fl Go Nm Nd (gdecl_frame st st1 _ r Fm names (fun _ _ => @in_nil _ _) Hd) ltac:(lia)). rewrite M1 in IH. specialize (IH B F1).
    destruct (dec_fields c false r (from + n) 0 (g_data st)) as [[vs o]| |]; cbn [dout] in *.
    + destruct IH as (-> & st2 & R2 & H2 & F2). split; auto. exists st2. split; [eapply runs_app; eauto|]. split; [exact H2|].
      eapply frame_trans; [exact Fm|exact F2| |]; [intros g []|intros g Hg; exact Hg].
    + eapply runs_app; eauto.
    + eapply runs_app; eauto.
  - cbn [wf_fields flat go_ok names_ok gdecl] in *. apply IH; auto.
Qed.
End Dec.
