(** Whole structs: the printed Python statements do what encode and decode do in PyTarget.v. *)
From Coq Require Import ZArith Lia Bool String Ascii List.
Import ListNotations.
From Verif Require Import Base BaseProofs Schema SpecWire GoModel GoBitProofs TgtModel PyTarget Literals PropsLit ExprModel ExprSpec ExprProofs ExprLex ExprParse PrintTree PySem PyText PyTextLex PyTextEnc PyTextDec.
Open Scope string_scope.
Open Scope Z_scope.
Open Scope list_scope.
Ltac Zify.zify_post_hook ::= Z.to_euclidean_division_equations.

(** ** Which structs, and the state before *)

(** Structs of basic types other than floats, enums, constants, padding and arrays that are written out. *)
Definition plain_elem (e : elem) : bool :=
  match e with EBasic (BFloat _) => false | EBasic _ | EEnum _ => true | _ => false end.
Fixpoint flat (unr : Z) (fs : fields) : Prop :=
  match fs with
  | FNil => True
  | FOne e _ _ r => plain_elem e = true /\ flat unr r
  | FArr e len _ _ r => plain_elem e = true /\ (0 <=? unr) && (unr <? Z.of_nat len) = false /\ flat unr r
  | FVoid _ r | FConst _ _ _ _ r | FEmb r => flat unr r
  end.
(** Enum fields: the class is there, with the members the schema gives it. *)
Definition elem_named (enums : chars -> option (Z -> bool)) (known : Z -> Z -> bool) (e : elem) (en : chars) : Prop :=
  match e with
  | EEnum bits => plain_id OPy en = true /\ exists member, enums en = Some member /\ forall p, member p = known bits p
  | _ => True
  end.
Fixpoint names_ok (enums : chars -> option (Z -> bool)) (known : Z -> Z -> bool) (fs : fields) (names : list fname) : Prop :=
  match fs with
  | FNil => names = []
  | FOne e _ _ r | FArr e _ _ _ r =>
      match names with
      | f :: names => name_okb (att (f_name f)) = true /\ elem_named enums known e (f_enum f) /\ names_ok enums known r names
      | [] => False
      end
  | FVoid _ r | FConst _ _ _ _ r | FEmb r => names_ok enums known r names
  end.
(** The Python value of a number of the model: a member of the class, or an int. *)
Definition pv (e : elem) (en : chars) (z : Z) : pval := match e with EEnum _ => VE en z | _ => VI z end.
(** The attributes of self hold the values [vs]. *)
Fixpoint holds (st : pst) (fs : fields) (names : list fname) (vs : list val) : Prop :=
  match fs with
  | FNil => vs = []
  | FOne e _ _ r =>
      match names, vs with
      | f :: names, VNum z :: vs => p_att st (att (f_name f)) = Some (One (pv e (f_enum f) z)) /\ holds st r names vs
      | _, _ => False
      end
  | FArr e len _ _ r =>
      match names, vs with
      | f :: names, VArr arr :: vs =>
          (exists zs, arr = map VNum zs /\ List.length zs = len /\ p_att st (att (f_name f)) = Some (Many (map (pv e (f_enum f)) zs))) /\
          holds st r names vs
      | _, _ => False
      end
  | FVoid _ r | FConst _ _ _ _ r | FEmb r => holds st r names vs
  end.
(** Before decoding: the array attributes are lists of the right length; a scalar attribute may hold anything but a list. *)
Fixpoint ready (st : pst) (fs : fields) (names : list fname) : Prop :=
  match fs with
  | FNil => True
  | FOne e _ _ r =>
      match names with f :: names => writable st (PF (att (f_name f))) /\ ready st r names | [] => False end
  | FArr e len _ _ r =>
      match names with
      | f :: names => (exists vs, p_att st (att (f_name f)) = Some (Many vs) /\ List.length vs = len) /\ ready st r names
      | [] => False
      end
  | FVoid _ r | FConst _ _ _ _ r | FEmb r => ready st r names
  end.

(** ** In terms of variables *)
Definition vheld (st : pst) (p : place) (e : elem) (en : chars) (v : val) : Prop := exists z, v = VNum z /\ get st p = Some (Ok (pv e en z)).
Definition aheld (st : pst) (f : chars) (e : elem) (en : chars) (i : nat) (arr : list val) : Prop :=
  forall j v, nth_error arr j = Some v -> vheld st (PE f (Z.of_nat (i + j))) e en v.
Fixpoint gholds (st : pst) (fs : fields) (names : list fname) (vs : list val) : Prop :=
  match fs with
  | FNil => vs = []
  | FOne e _ _ r =>
      match names, vs with
      | f :: names, v :: vs => vheld st (PF (att (f_name f))) e (f_enum f) v /\ gholds st r names vs
      | _, _ => False
      end
  | FArr e len _ _ r =>
      match names, vs with
      | f :: names, VArr arr :: vs => (List.length arr = len /\ aheld st (att (f_name f)) e (f_enum f) 0 arr) /\ gholds st r names vs
      | _, _ => False
      end
  | FVoid _ r | FConst _ _ _ _ r | FEmb r => gholds st r names vs
  end.
Lemma get_elem_ltb j : (Z.of_nat j <? 0) = false.
Proof. destruct (Z.ltb_spec (Z.of_nat j) 0); lia. Qed.
Lemma holds_gholds st fs : forall names vs, holds st fs names vs -> gholds st fs names vs.
Proof.
  induction fs; intros names vs H; cbn [holds gholds] in *; auto.
  - destruct names as [|f names]; [contradiction|]. destruct vs as [|[z| | |] vs]; try contradiction. destruct H as [H1 H2]. split; [|auto].
    exists z. split; auto. cbn [get]. rewrite H1. reflexivity.
  - destruct names as [|f names]; [contradiction|]. destruct vs as [|[| | |arr] vs]; try contradiction. destruct H as [(zs & -> & L & H1) H2]. split; [|auto].
    split; [rewrite map_length; exact L|]. intros j v Hj. rewrite nth_error_map in Hj. destruct (nth_error zs j) as [z|] eqn:E; [|discriminate].
    cbn [option_map] in Hj. injection Hj as <-. exists z. split; auto. cbn [get]. rewrite H1, get_elem_ltb, Nat2Z.id. cbn [Nat.add].
    rewrite nth_error_map, E. reflexivity.
Qed.
Definition nonlocal (q : place) : Prop := match q with PL _ => False | _ => True end.
Definition keeps (st st' : pst) : Prop := forall q, nonlocal q -> get st' q = get st q.
Lemma gholds_keeps st st' fs : keeps st st' -> forall names vs, gholds st fs names vs -> gholds st' fs names vs.
Proof.
  intros K. induction fs; intros names vs H; cbn [gholds] in *; auto.
  - destruct names as [|f names]; [contradiction|]. destruct vs as [|v vs]; try contradiction. destruct H as [(z & -> & G) H2]. split; [|auto].
    exists z. split; auto. rewrite K; [exact G|exact I].
  - destruct names as [|f names]; [contradiction|]. destruct vs as [|[| | |arr] vs]; try contradiction. destruct H as [(L & A) H2]. split; [|auto].
    split; auto. intros j v Hj. destruct (A j v Hj) as (z & -> & G). exists z. split; auto. rewrite K; [exact G|exact I].
Qed.
Lemma loc_ne p k : nonlocal p -> p <> PL (temp_name k).
Proof. intros N ->. destruct N. Qed.
Lemma quot_elems len eb : (0 < len)%nat -> Z.quot (Z.of_nat len * eb) (Z.of_nat len) = eb.
Proof. intros H. rewrite Z.mul_comm. apply Z.quot_mul. lia. Qed.
Lemma next_scalar from n : 1 <= n -> next_from from n = from + n.
Proof. intros H. unfold next_from. destruct (Z.eqb_spec n (-1)); lia. Qed.
Lemma not_m1 n : 1 <= n -> (n =? -1) = false.
Proof. intros H. destruct (Z.eqb_spec n (-1)); [lia|reflexivity]. Qed.
Lemma plain_fixed e : plain_elem e = true -> is_fixed_scalar e = true /\ elem_dyn e = false.
Proof. destruct e; try discriminate; auto. Qed.

(** ** Encoding *)
Lemma py_chunk_nofail fd base c buf : py_chunk fd base c buf <> Fail.
Proof.
  unfold py_chunk. destruct (GoTextEnc.rd_cases buf (base + c_pos c)) as [[b ->]| ->]; cbn [bind]; [|discriminate].
  cbv zeta. match goal with |- (if ?c then _ else _) <> _ => destruct c end; [discriminate|]. unfold wr. match goal with |- (if ?c then _ else _) <> _ => destruct c end; discriminate.
Qed.
Lemma py_chunks_nofail fd base l : forall buf, py_chunks fd base l buf <> Fail.
Proof.
  induction l as [|c l IH]; intros buf; cbn [py_chunks]; [discriminate|]. pose proof (py_chunk_nofail fd base c buf).
  destruct (py_chunk fd base c buf); cbn [bind]; [apply IH|congruence|discriminate].
Qed.

Definition after (enums : chars -> option (Z -> bool)) (st : pst) (ls : list chars) (r : res (list Z * Z)) : Prop :=
  match r with
  | Ok (d, o) => o = 0 /\ exists st', runs enums st ls (Ok st') /\ p_data st' = d /\ keeps st st'
  | Panic => runs enums st ls Panic
  | Fail => False
  end.
Lemma after_app enums st ls ls' r f : after enums st ls r ->
  (forall st', keeps st st' -> after enums st' ls' (f 0 (p_data st'))) ->
  after enums st (ls ++ ls') (do (d, o) <- r; f o d).
Proof.
  intros H F. destruct r as [[d o]| |]; cbn [bind after] in *; auto.
  - destruct H as (-> & st1 & R1 & <- & K1). specialize (F st1 K1).
    destruct (f 0 (p_data st1)) as [[d o]| |]; cbn [after] in *; auto.
    + destruct F as (-> & st2 & R2 & D2 & K2). split; auto. exists st2. split; [eapply runs_app; eauto|].
      split; auto. intros q N. rewrite K2, K1; auto.
    + eapply runs_app; eauto.
  - apply runs_app_panic; [exact H|congruence].
Qed.
Lemma after_lift enums st st1 ls r : r <> Fail -> keeps st st1 -> runs enums st ls (lift_data st1 r) -> after enums st ls (do d <- r; Ok (d, 0)).
Proof.
  intros H2 K R. destruct r as [d| |]; cbn [bind after lift_data] in *; [|congruence|exact R].
  split; [reflexivity|]. exists (set_data st1 d). split; [exact R|]. split; [reflexivity|]. intros q Q. rewrite get_set. auto.
Qed.

Section Struct.
Variables (enums : chars -> option (Z -> bool)) (unr : Z) (known : Z -> Z -> bool) (dn : bool).
Let T := py_tgt unr known.

(** One scalar. *)
Lemma enc_one_runs st e n big from k x p en z w : plain_elem e = true -> 0 <= from -> 0 <= k -> var x p -> ends_num x = false ->
  place_of (NMem (tree x) (cs ".") (cs "value")) = None -> get st p = Some (Ok (pv e en z)) ->
  after enums st (match e with
      | EBasic _ => enc_basic_text dn n big from (show x)
      | EEnum _ => enc_enum_text dn n big from k (show x)
      | _ => [] end) (tenc_elem T false e w n big from (VNum z) 0 0 (p_data st)).
Proof.
  intros Pe Hf Hk V Nn Np G. destruct e as [b|bits| | |s]; try discriminate Pe; cbn [pv] in G.
  - apply (after_lift enums st st); [apply py_chunks_nofail|intros q _; reflexivity|].
    exact (enc_basic_runs enums st dn n big from x p z Hf V G).
  - destruct (enc_enum_runs enums st dn n big from k x p en z Hf Hk V Nn Np G) as (st1 & M & R).
    apply (after_lift enums st st1); [apply py_chunks_nofail| |exact R].
    intros q Q. apply (m_else _ _ _ _ M). now apply loc_ne.
Qed.

(** The elements of an array that is written out. *)
Lemma enc_elems_run e en w eb big from k f : plain_elem e = true -> 0 <= from -> 0 <= k -> 0 <= eb -> name_okb (att f) = true -> forall arr (i : nat) st,
  aheld st (att f) e en i arr ->
  after enums st (enc_elems_text dn e eb big from k f (List.length arr) (Z.of_nat i))
    (iter_enc (fun i v o d => tenc_elem T false e w eb big (from + i * eb) v 0 o d) (Z.of_nat i) arr 0 (p_data st)).
Proof.
  intros Pe Hf Hk He Hn. induction arr as [|v arr IH]; intros i st A; cbn [List.length enc_elems_text iter_enc].
  - cbn [after]. split; auto. exists st. split; [constructor|]. split; [reflexivity|]. intros q _. reflexivity.
  - destruct (A O v eq_refl) as (z & -> & G). rewrite Nat.add_0_r in G.
    set (fr := from + Z.of_nat i * eb). assert (Hfr : 0 <= fr) by (subst fr; nia).
    apply (after_app enums st _ _ _ (fun o d => iter_enc (fun i v o d => tenc_elem T false e w eb big (from + i * eb) v 0 o d) (Z.of_nat i + 1) arr o d)).
    + rewrite <- show_elem. apply (enc_one_runs st e eb big fr k (elem_px f (Z.of_nat i)) (PE (att f) (Z.of_nat i)) en z w); auto.
      apply var_elem; auto. lia.
    + intros st' K. replace (Z.of_nat i + 1) with (Z.of_nat (S i)) by lia. apply IH.
      intros j v Hj. replace (S i + j)%nat with (i + S j)%nat by lia. destruct (A (S j) v Hj) as (y & -> & Gy). exists y. split; auto. rewrite K; [exact Gy|exact I].
Qed.

Theorem enc_fields_run : forall fs names vs from st, wf_fields fs from -> flat unr fs -> names_ok enums known fs names ->
  gholds st fs names vs -> 0 <= from ->
  after enums st (enc_text dn fs names from) (tenc_fields T false fs vs from 0 0 (p_data st)).
Proof.
  induction fs as [|e n big r IH|e len n big r IH|n r IH|b n big z r IH|r IH]; intros names vs from st W Fl Nm Hd Hf; cbn [enc_text tenc_fields].
  - cbn [after]. split; auto. exists st. split; [constructor|]. split; [reflexivity|]. intros q _. reflexivity.
  - cbn [wf_fields flat names_ok gholds] in *. destruct Fl as [Pe Fl]. destruct (plain_fixed e Pe) as [Fs _]. rewrite Fs in W. destruct W as (We & Hn & Wr).
    destruct names as [|f names]; [contradiction|]. destruct Nm as (N1 & N2 & Nm). destruct vs as [|v vs]; [contradiction|]. destruct Hd as [(z & -> & G) Hd].
    rewrite next_scalar in * by lia. rewrite not_m1 by lia. cbn [orb].
    apply (after_app enums st _ _ _ (fun o d => tenc_fields T false r vs (from + n) 0 o d)).
    + rewrite <- show_field. apply (enc_one_runs st e n big from from (field_px (f_name f)) (PF (att (f_name f))) (f_enum f) z); auto.
      now apply var_field.
    + intros st' K. apply IH; auto; [|lia]. now apply (gholds_keeps st st').
  - cbn [wf_fields flat names_ok gholds] in *. destruct Fl as (Pe & Ul & Fl). destruct (plain_fixed e Pe) as [Fs Fd]. rewrite Fs in W. destruct W as (We & Hl & (eb & He & ->) & Wr).
    destruct names as [|f names]; [contradiction|]. destruct Nm as (N1 & N2 & Nm). destruct vs as [|[| | |arr] vs]; try contradiction.
    destruct Hd as [(L & A) Hd]. rewrite quot_elems by auto. rewrite Fd. change (t_loop T len) with ((0 <=? unr) && (unr <? Z.of_nat len)). rewrite Ul.
    assert (P : 1 <= Z.of_nat len * eb) by nia. rewrite next_scalar in * by exact P. rewrite not_m1 by exact P. cbn [orb].
    apply (after_app enums st _ _ _ (fun o d => tenc_fields T false r vs (from + Z.of_nat len * eb) 0 o d)).
    + rewrite <- L. change 0 with (Z.of_nat 0) at 1. change (iter_enc ?g 0 arr 0 (p_data st)) with (iter_enc g (Z.of_nat 0) arr 0 (p_data st)).
      apply (enc_elems_run e (f_enum f)); auto; lia.
    + intros st' K. apply IH; auto; [|lia]. now apply (gholds_keeps st st').
  - cbn [wf_fields flat names_ok gholds] in *. destruct W as [Hn Wr]. rewrite next_scalar by lia. apply IH; auto. lia.
  - cbn [wf_fields flat names_ok gholds] in *. destruct W as (Wb & Hn & Wr). rewrite next_scalar by lia.
    change (t_econst T b n big from (0 + 0) z (p_data st)) with (py_chunks (const_data (basic_bits b) big z) 0 (gen_encode_impl from (from + n)) (p_data st)).
    set (q := py_chunks (const_data (basic_bits b) big z) 0 (gen_encode_impl from (from + n)) (p_data st)).
    assert (X : after enums st (enc_const_text dn b n big from z) (do d <- q; Ok (d, 0))).
    { apply (after_lift enums st st); [apply py_chunks_nofail|intros k _; reflexivity|]. exact (enc_const_runs enums st dn b n big from z Hf). }
    pose proof (after_app enums st _ (enc_text dn r names (from + n)) _ (fun o d => tenc_fields T false r vs (from + n) 0 o d) X) as Q.
    assert (E : (do (d, o) <- (do d <- q; Ok (d, 0)); tenc_fields T false r vs (from + n) 0 o d) =
      (do b' <- q; tenc_fields T false r vs (from + n) 0 0 b')) by (destruct q; reflexivity).
    cbv beta in Q. rewrite E in Q. apply Q. intros st' K. apply IH; auto; [|lia]. now apply (gholds_keeps st st').
  - cbn [wf_fields flat names_ok gholds] in *. apply IH; auto.
Qed.
End Struct.

(** ** Decoding *)
Definition fld_of (q : place) : chars := match q with PF f | PE f _ => f | PL x => x end.
Record frame (st st' : pst) (own : list chars) : Prop := {
  fr_data : p_data st' = p_data st;
  fr_keep : forall q, nonlocal q -> ~ In (fld_of q) own -> get st' q = get st q;
  fr_wr : forall q, writable st q -> writable st' q;
  fr_end : forall q, nonlocal q -> get st q = Some Panic -> get st' q = Some Panic
}.
Lemma frame_trans a b d l1 l2 l : frame a b l1 -> frame b d l2 -> incl l1 l -> incl l2 l -> frame a d l.
Proof.
  intros [A1 A2 A3 A4] [B1 B2 B3 B4] I1 I2. split; try congruence; auto.
  intros q N H. rewrite B2, A2; auto.
Qed.
Lemma writable_get st p : writable st p -> get st p <> Some Panic.
Proof.
  destruct p as [f|f i|x]; cbn [writable get].
  - destruct (p_att st f) as [[v|vs]|]; discriminate.
  - intros (vs & -> & H). destruct (i <? 0); [discriminate|]. destruct (nth_error vs (Z.to_nat i)) eqn:E; [discriminate|]. apply nth_error_None in E. lia.
  - destruct (p_loc st x); discriminate.
Qed.
Lemma place_dec (p q : place) : {p = q} + {p <> q}.
Proof. decide equality; try apply Z.eq_dec; apply (list_eq_dec ascii_dec). Qed.
Fixpoint gready (st : pst) (fs : fields) (names : list fname) : Prop :=
  match fs with
  | FNil => True
  | FOne e _ _ r =>
      match names with f :: names => writable st (PF (att (f_name f))) /\ gready st r names | [] => False end
  | FArr e len _ _ r =>
      match names with
      | f :: names => (forall j, (j < len)%nat -> writable st (PE (att (f_name f)) (Z.of_nat j))) /\ gready st r names
      | [] => False
      end
  | FVoid _ r | FConst _ _ _ _ r | FEmb r => gready st r names
  end.
Lemma ready_gready st fs : forall names, ready st fs names -> gready st fs names.
Proof.
  induction fs; intros names H; cbn [ready gready] in *; auto.
  - destruct names as [|f names]; [contradiction|]. destruct H as [H1 H2]. auto.
  - destruct names as [|f names]; [contradiction|]. destruct H as [(vs & H1 & L) H2]. split; auto. intros j Hj. exists vs. split; auto. lia.
Qed.
Lemma gready_mono st st' fs : (forall q, writable st q -> writable st' q) -> forall names, gready st fs names -> gready st' fs names.
Proof.
  intros K. induction fs; intros names H; cbn [gready] in *; auto; destruct names as [|f names]; auto; destruct H as [H1 H2]; auto.
Qed.

(** One value read into [p]. *)
Definition one (enums : chars -> option (Z -> bool)) (st : pst) (p : place) (e : elem) (en : chars) (ls : list chars) (r : res val) : Prop :=
  match r with
  | Ok v => exists st', runs enums st ls (Ok st') /\ p_data st' = p_data st /\ vheld st' p e en v /\
      (forall q, nonlocal q -> q <> p -> get st' q = get st q) /\ (forall q, writable st q -> writable st' q)
  | Panic => runs enums st ls Panic
  | Fail => False
  end.
Section Dec.
Variables (enums : chars -> option (Z -> bool)) (unr : Z) (known : Z -> Z -> bool) (dn : bool).
Let T := py_tgt unr known.

Lemma dec_one_runs st e n big from k x p en w : plain_elem e = true -> 0 <= from -> 0 <= k -> 1 <= n <= 64 -> elem_named enums known e en ->
  var x p -> nonlocal p -> writable st p ->
  exists q, tdec_elem T false e w n big from 0 0 (p_data st) = (do v <- q; Ok (v, 0)) /\
  one enums st p e en (match e with
      | EBasic b => dec_basic_text dn b n big from (show x)
      | EEnum _ => dec_enum_text dn en n big from k (show x)
      | _ => [] end) q.
Proof.
  intros Pe Hf Hk Hn Nm V Np G. destruct e as [b|bits| | |s]; try discriminate Pe; cbn [elem_named] in Nm.
  - exists (do p <- py_dec n big from 0 (p_data st); Ok (VNum (signed b n p))). split.
    + cbn [tdec_elem T py_tgt t_dscalar]. change (0 + 0) with 0. destruct (py_dec n big from 0 (p_data st)); cbn [bind]; auto. destruct b; reflexivity.
    + pose proof (dec_basic_runs enums st dn b n big from x p Hf Hn V G) as H. destruct (py_dec n big from 0 (p_data st)) as [v| |]; cbn [bind one]; auto.
      destruct H as (st' & R & [M1 M2 M3 M4]). exists st'. split; auto. split; auto. split; [eexists; split; [reflexivity|exact M2]|]. split; auto.
  - destruct Nm as (Pn & member & En & Km).
    exists (do v <- (do v <- py_dec n big from 0 (p_data st); if member v then Ok v else Panic); Ok (VNum v)). split.
    + cbn [tdec_elem T py_tgt t_dscalar py_value]. change (0 + 0) with 0. destruct (py_dec n big from 0 (p_data st)) as [v| |]; cbn [bind]; auto. rewrite Km.
      destruct (known bits v); reflexivity.
    + pose proof (dec_enum_runs enums st dn n big from k x p en member Hf Hk Hn Pn En V G (loc_ne p k Np)) as H.
      destruct (do v <- py_dec n big from 0 (p_data st); if member v then Ok v else Panic) as [v| |]; cbn [bind one]; auto.
      destruct H as (st' & R & [M1 M2 M3 M4]). exists st'. split; auto. split; auto. split; [eexists; split; [reflexivity|exact M2]|]. split; auto.
      intros q Q N. apply M3; auto. now apply loc_ne.
Qed.

Lemma dec_elems_run e w eb big from k f : plain_elem e = true -> 0 <= from -> 0 <= k -> 1 <= eb <= 64 -> elem_named enums known e (f_enum f) ->
  name_okb (att (f_name f)) = true -> forall data len (i : nat) st, p_data st = data ->
  (forall j, (i <= j < i + len)%nat -> writable st (PE (att (f_name f)) (Z.of_nat j))) ->
  match iter_dec (fun i o => tdec_elem T false e w eb big (from + i * eb) 0 o data) len (Z.of_nat i) 0 with
  | Ok (arr, o) => o = 0 /\ List.length arr = len /\ exists st', runs enums st (dec_elems_text dn e eb big from k f len (Z.of_nat i)) (Ok st') /\ p_data st' = data /\
      aheld st' (att (f_name f)) e (f_enum f) i arr /\
      (forall q, nonlocal q -> (forall j, (i <= j < i + len)%nat -> q <> PE (att (f_name f)) (Z.of_nat j)) -> get st' q = get st q) /\
      (forall q, writable st q -> writable st' q)
  | Panic => runs enums st (dec_elems_text dn e eb big from k f len (Z.of_nat i)) Panic
  | Fail => False
  end.
Proof.
  intros Pe Hf Hk He Nm Hn data. induction len as [|len IH]; intros i st D G; cbn [iter_dec dec_elems_text].
  - split; auto. split; auto. exists st. split; [constructor|]. split; auto. split; [intros [|j] v Hj; discriminate|]. auto.
  - assert (Hfr : 0 <= from + Z.of_nat i * eb) by nia.
    destruct (dec_one_runs st e eb big (from + Z.of_nat i * eb) k (elem_px (f_name f) (Z.of_nat i)) (PE (att (f_name f)) (Z.of_nat i)) (f_enum f) w Pe Hfr Hk He Nm
      (var_elem (f_name f) (Z.of_nat i) Hn ltac:(lia)) I (G i ltac:(lia))) as (r & E & H).
    rewrite D in E. rewrite E. clear E. rewrite show_elem in H.
    destruct r as [v| |]; cbn [bind one] in *; auto; [|apply runs_app_panic; [exact H|congruence]].
    destruct H as (st1 & R1 & D1 & V1 & K1 & W1).
    specialize (IH (S i) st1 ltac:(congruence)). replace (Z.of_nat (S i)) with (Z.of_nat i + 1) in IH by lia.
    assert (G1 : forall j, (S i <= j < S i + len)%nat -> writable st1 (PE (att (f_name f)) (Z.of_nat j))) by (intros j Hj; apply W1, G; lia).
    specialize (IH G1). destruct (iter_dec _ len (Z.of_nat i + 1) 0) as [[arr o]| |]; cbn [bind]; auto.
    + destruct IH as (-> & L & st2 & R2 & D2 & A2 & K2 & W2). split; auto. split; [cbn; now rewrite L|]. exists st2.
      split; [eapply runs_app; eauto|]. split; auto. split; [|split; auto].
      * intros [|j] u Hj; cbn [nth_error] in Hj.
        -- injection Hj as <-. rewrite Nat.add_0_r. destruct V1 as (y & -> & Gy). exists y. split; auto. rewrite K2; [exact Gy|exact I|].
           intros j Hj E. injection E as E. lia.
        -- replace (i + S j)%nat with (S i + j)%nat by lia. now apply A2.
      * intros q Q N. rewrite K2; auto.
        -- apply K1; auto. apply N. lia.
        -- intros j Hj. apply N. lia.
    + eapply runs_app; eauto.
Qed.

Variable base : Z -> ibase.
(** Negative constants are printed in decimal (in another base Python cannot read them: C52). *)
Fixpoint consts_shown (fs : fields) (from : Z) : Prop :=
  match fs with
  | FNil => True
  | FOne _ n _ r | FArr _ _ n _ r | FVoid n r => consts_shown r (next_from from n)
  | FConst _ n _ z r => shows_base dn z (base from) /\ consts_shown r (next_from from n)
  | FEmb r => consts_shown r from
  end.
Definition dout (st : pst) (fs : fields) (names : list fname) (ls : list chars) (r : res (list val * Z)) : Prop :=
  match r with
  | Ok (vs, o) => o = 0 /\ exists st', runs enums st ls (Ok st') /\ gholds st' fs names vs /\ frame st st' (map (fun f => att (f_name f)) names)
  | Panic => runs enums st ls Panic
  | Fail => runs enums st ls Fail
  end.
Theorem dec_fields_run : forall fs names from st, wf_fields fs from -> flat unr fs -> names_ok enums known fs names -> NoDup (map (fun f => att (f_name f)) names) ->
  consts_shown fs from -> gready st fs names -> 0 <= from ->
  dout st fs names (dec_text dn base fs names from) (tdec_fields T false fs from 0 0 (p_data st)).
Proof.
  induction fs as [|e n big r IH|e len n big r IH|n r IH|b n big z r IH|r IH]; intros names from st W Fl Nm Nd Cs Hd Hf; cbn [dec_text tdec_fields].
  - cbn [dout]. split; auto. exists st. split; [constructor|]. split; [reflexivity|]. split; auto.
  - cbn [wf_fields flat names_ok gready consts_shown] in *. destruct Fl as [Pe Fl]. destruct (plain_fixed e Pe) as [Fs _]. rewrite Fs in W. destruct W as (We & Hn & Wr).
    destruct names as [|f names]; [contradiction|]. destruct Nm as (N1 & N2 & Nm). destruct Hd as [G Hd]. cbn [map] in Nd. inversion Nd as [|? ? Nf Nd']; subst.
    rewrite next_scalar in * by lia. rewrite not_m1 by lia. cbn [orb]. pose proof (elem_bits_le e We Fs) as L64.
    destruct (dec_one_runs st e n big from from (field_px (f_name f)) (PF (att (f_name f))) (f_enum f) (enum_temp_bits n) Pe Hf Hf ltac:(lia) N2 (var_field _ N1) I G) as (q & -> & X).
    rewrite show_field in X.
    destruct q as [v| |]; cbn [bind one] in *; [|destruct X|cbn [dout]; apply runs_app_panic; [exact X|congruence]].
    destruct X as (st1 & R1 & D1 & V1 & K1 & W1).
    assert (Fm : frame st st1 [att (f_name f)]).
    { split; auto.
      - intros q Q N. apply K1; auto. intros ->. apply N. now left.
      - intros q Q E. destruct (place_dec q (PF (att (f_name f)))) as [->|Ne]; [now apply writable_get in G|]. rewrite K1; auto. }
    specialize (IH names (from + n) st1 Wr Fl Nm Nd' Cs (gready_mono st st1 r W1 names Hd) ltac:(lia)). rewrite D1 in IH.
    destruct (tdec_fields T false r (from + n) 0 0 (p_data st)) as [[vs o]| |]; cbn [bind dout] in *.
    + destruct IH as (-> & st2 & R2 & H2 & F2). split; auto. exists st2. split; [eapply runs_app; eauto|]. split.
      * cbn [gholds]. split; [|exact H2]. destruct V1 as (y & -> & Gy). exists y. split; auto. rewrite (fr_keep _ _ _ F2); [exact Gy|exact I|exact Nf].
      * eapply frame_trans; [exact Fm|exact F2| |]; cbn [map]; intros g Hg; [destruct Hg as [<-|[]]; now left|now right].
    + eapply runs_app; eauto.
    + eapply runs_app; eauto.
  - cbn [wf_fields flat names_ok gready consts_shown] in *. destruct Fl as (Pe & Ul & Fl). destruct (plain_fixed e Pe) as [Fs Fd]. rewrite Fs in W. destruct W as (We & Hl & (eb & He & ->) & Wr).
    destruct names as [|f names]; [contradiction|]. destruct Nm as (N1 & N2 & Nm). destruct Hd as [G Hd]. cbn [map] in Nd. inversion Nd as [|? ? Nf Nd']; subst.
    rewrite quot_elems by auto. rewrite Fd. change (t_loop T len) with ((0 <=? unr) && (unr <? Z.of_nat len)). rewrite Ul. pose proof (elem_bits_le e We Fs) as L64.
    assert (P : 1 <= Z.of_nat len * eb) by nia. rewrite next_scalar in * by exact P. rewrite not_m1 by exact P. cbn [orb]. set (nx := from + Z.of_nat len * eb) in *.
    assert (Hnx : 0 <= nx) by (subst nx; lia).
    pose proof (dec_elems_run e (8 * ((elem_bits e + 7) / 8)) eb big from from f Pe Hf Hf ltac:(lia) N2 N1 (p_data st) len O st eq_refl ltac:(intros j Hj; apply G; lia)) as X.
    change (Z.of_nat 0) with 0 in X.
    destruct (iter_dec _ len 0 0) as [[arr o]| |]; cbn [bind]; [|destruct X|cbn [dout]; apply runs_app_panic; [exact X|congruence]].
    destruct X as (-> & La & st1 & R1 & D1 & A1 & K1 & W1).
    assert (Fm : frame st st1 [att (f_name f)]).
    { split; auto.
      - intros q Q N. apply K1; auto. intros j Hj ->. apply N. now left.
      - intros q Q E. rewrite K1; auto. intros j Hj ->. specialize (G j ltac:(lia)). now apply writable_get in G. }
    specialize (IH names nx st1 Wr Fl Nm Nd' Cs (gready_mono st st1 r W1 names Hd) Hnx). rewrite D1 in IH.
    destruct (tdec_fields T false r nx 0 0 (p_data st)) as [[vs o]| |]; cbn [bind dout] in *.
    + destruct IH as (-> & st2 & R2 & H2 & F2). split; auto. exists st2. split; [eapply runs_app; eauto|]. split.
      * cbn [gholds]. split; [|exact H2]. split; auto. intros j v Hj. destruct (A1 j v Hj) as (y & -> & Gy). exists y. split; auto.
        rewrite (fr_keep _ _ _ F2); [exact Gy|exact I|exact Nf].
      * eapply frame_trans; [exact Fm|exact F2| |]; cbn [map]; intros g Hg; [destruct Hg as [<-|[]]; now left|now right].
    + eapply runs_app; eauto.
    + eapply runs_app; eauto.
  - cbn [wf_fields flat names_ok gready consts_shown] in *. destruct W as [Hn Wr]. rewrite next_scalar in * by lia. apply IH; auto. lia.
  - cbn [wf_fields flat names_ok gready consts_shown] in *. destruct W as (Wb & Hn & Wr). destruct Cs as [Sb Cs]. rewrite next_scalar in * by lia.
    pose proof (GoBitProofs.basic_bits_range b Wb) as B64.
    pose proof (dec_const_runs enums st dn b n big from z (base from) Hf ltac:(lia) Sb) as X.
    change (t_dconst T b n big from (0 + 0) z (p_data st)) with (py_dconst b n big from 0 z (p_data st)).
    destruct (py_dconst b n big from 0 z (p_data st)) as [[|]| |]; cbn [bind]; [|cbn [dout]; apply runs_app_panic; [exact X|congruence]|destruct X|cbn [dout]; apply runs_app_panic; [exact X|congruence]].
    destruct X as (st1 & y & R1 & [M1 M2 M3 M4]).
    assert (Fm : frame st st1 []).
    { split; auto.
      - intros q Q N. apply M3. now apply loc_ne.
      - intros q Q E. rewrite M3; auto. now apply loc_ne. }
    specialize (IH names (from + n) st1 Wr Fl Nm Nd Cs (gready_mono st st1 r M4 names Hd) ltac:(lia)). rewrite M1 in IH.
    destruct (tdec_fields T false r (from + n) 0 0 (p_data st)) as [[vs o]| |]; cbn [dout] in *.
    + destruct IH as (-> & st2 & R2 & H2 & F2). split; auto. exists st2. split; [eapply runs_app; eauto|]. split; [exact H2|].
      eapply frame_trans; [exact Fm|exact F2| |]; [intros g []|intros g Hg; exact Hg].
    + eapply runs_app; eauto.
    + eapply runs_app; eauto.
  - cbn [wf_fields flat names_ok gready consts_shown] in *. apply IH; auto.
Qed.
End Dec.
