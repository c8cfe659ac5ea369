(** Theorems about the front end: C23-C26, C43-C45. *)
From Coq Require Import String ZArith List Bool Lia.
From Verif Require Import Base BaseProofs Schema NameStyle FrontModel FrontSpec FrontProofs.
Import ListNotations.
Open Scope string_scope.
Open Scope Z_scope.
Open Scope list_scope.

(** Types a definition may refer to: each was itself accepted by the compiler, in an environment of
    such types, and is of a size that an int64 can hold. *)
Inductive accepted_type : ctype -> Prop :=
| acc_struct ts ns d s ns' : accepted_env ts -> fits_int64 ts d ->
    visit_struct wrap64 ts ns d = Ok (s, ns') -> accepted_type (CTStruct s)
| acc_enum ns d e ns' : size_bits (en_size d) < 2 ^ 63 ->
    visit_enum wrap64 ns d = Ok (e, ns') -> accepted_type (CTEnum e)
with accepted_env : types_t -> Prop :=
| ae_nil : accepted_env []
| ae_cons n c ts : accepted_type c -> accepted_env ts -> accepted_env ((n, c) :: ts).

Scheme accepted_type_mind := Minimality for accepted_type Sort Prop
  with accepted_env_mind := Minimality for accepted_env Sort Prop.
Combined Scheme accepted_ind from accepted_type_mind, accepted_env_mind.

Lemma get_In {V} k (m : list (string * V)) v : get k m = Some v -> In (k, v) m.
Proof.
  induction m as [|[k' v'] r IH]; cbn; [discriminate|].
  destruct (String.eqb_spec k k'); [intros [= <-]; subst; auto|auto].
Qed.

Lemma visit_enum_inv w ns d e ns' : visit_enum w ns d = Ok (e, ns') ->
  exists ns1 vals, is_capitalized (en_name d) = true /\
    add_name ns (en_name d) (NPos (en_pos d)) = Ok ns1 /\
    visit_size w (en_size d) = Ok (ce_bits e) /\ visit_enumvals w ns1 (en_vals d) [] = Ok vals /\
    vals <> [] /\ add_enum_names ns1 vals = Ok ns' /\ ce_name e = en_name d /\
    ce_vals e = map (fun x => (fst x, fst (snd x))) vals.
Proof.
  unfold visit_enum. intros H.
  apply bind_ok in H. destruct H as (nm & E1 & H).
  apply bind_ok in H. destruct H as (ns1 & E2 & H).
  apply bind_ok in H. destruct H as (sz & E3 & H).
  apply bind_ok in H. destruct H as (vals & E4 & H).
  unfold cap_name in E1. destruct (is_capitalized (en_name d)); [|discriminate].
  injection E1 as <-.
  destruct vals as [|v0 vr]; [discriminate|].
  apply bind_ok in H. destruct H as (ns2 & E5 & H). injection H as <- <-.
  exists ns1, (v0 :: vr). repeat split; auto. discriminate.
Qed.

Lemma accepted_sound :
  (forall c, accepted_type c -> vt_ok (vtype_of c)) /\
  (forall ts, accepted_env ts -> env_full ts).
Proof.
  apply accepted_ind.
  - intros ts ns d s ns' _ He Hw H. cbn [vtype_of].
    destruct visit_exact as (_ & Hx & _). destruct (Hx d ts ns He Hw) as [Heq _].
    rewrite Heq in H. eapply visit_sound; eauto.
  - intros ns d e ns' Hs H. apply enum_vt_ok. apply visit_enum_inv in H.
    destruct H as (ns1 & vals & _ & _ & H & _). rewrite visit_size_exact in H by exact Hs.
    apply visit_size_ideal in H. lia.
  - intros n c H. discriminate.
  - intros n c ts _ Hc _ Hts n' c' H. cbn in H.
    destruct (String.eqb n' n); [injection H as <-; exact Hc|exact (Hts _ _ H)].
Qed.
Lemma accepted_full ts : accepted_env ts -> env_full ts.
Proof. apply accepted_sound. Qed.

Lemma struct_exact ts ns d r : accepted_env ts -> fits_int64 ts d ->
  visit_struct wrap64 ts ns d = r -> visit_struct ideal ts ns d = r.
Proof.
  intros He Hw <-. symmetry. apply visit_exact; [apply accepted_full|]; assumption.
Qed.

Lemma needs_must f : needs_byte_boundary f -> must_align f = true.
Proof. destruct f as [nm ms [[] tb td] a n big|n|nm b n big z|nm]; cbn; tauto. Qed.

Lemma variable_dyn l : Forall field_ok l -> sum_dyn l = false -> forall f, In f l -> ~ variable_size f.
Proof.
  intros Hf Hs f Hi Hv. rewrite Forall_forall in Hf. specialize (Hf _ Hi).
  unfold sum_dyn in Hs. assert (ndyn f = false).
  { destruct (ndyn f) eqn:E; [|reflexivity]. assert (existsb ndyn l = true); [|congruence].
    apply existsb_exists. eauto. }
  destruct f; cbn [variable_size ndyn field_ok] in *; try contradiction.
  destruct Hf as ((_ & _ & Hd) & _). congruence.
Qed.

(** Everything one learns from the acceptance of a struct definition. *)
Lemma struct_accepted ts ns p name size body s ns' :
  env_full ts -> visit_struct ideal ts ns (AStruct p name size body) = Ok (s, ns') ->
  struct_ok s /\ Forall field_ok (cs_fields s) /\ cs_name s = name /\ cs_fields s <> [] /\
  check_align ideal (cs_fields s) 0 = true /\ cs_bits s = fixed_width (cs_fields s) /\
  cs_bits s mod 8 = 0 /\ cs_dyn s = sum_dyn (cs_fields s) /\
  (forall x, size = Some x -> cs_bits s = 8 * Z.of_N (fst x) + Z.of_N (snd x) /\ cs_dyn s = false).
Proof.
  intros He H. cbn [visit_struct] in H.
  apply bind_ok in H. destruct H as (nm & E1 & H).
  apply bind_ok in H. destruct H as (ns1 & E2 & H).
  apply bind_ok in H. destruct H as (sz & E3 & H).
  apply bind_ok in H. destruct H as ([st ns2] & E4 & H).
  apply bind_ok in H. destruct H as (s0 & E5 & H). injection H as <- _.
  assert (nm = name) as ->.
  { unfold cap_name in E1. destruct (is_capitalized name); congruence. }
  pose proof E3 as E3'.
  apply visit_opt_size_ideal in E3. destruct E3 as (Hsz & Hz & Hx).
  apply visit_sound in E4; [|exact He|split; [reflexivity|constructor]|constructor|right; reflexivity].
  destruct E4 as ((Hn1 & Hn2) & Hf & Hr). rewrite Hn1 in Hn2.
  apply check_struct_ok in E5; auto.
  destruct E5 as (Hs & Hfs & Hnm & Hne & Ha & Hb & Hb8 & Hd & Hdecl).
  rewrite Hfs. split; [exact Hs|]. split; [exact Hf|]. split; [exact Hnm|]. split; [exact Hne|].
  split; [exact Ha|]. split; [exact Hb|]. split; [exact Hb8|]. split; [exact Hd|].
  intros x ->. cbn [visit_opt_size] in E3'. apply visit_size_ideal in E3'.
  rewrite <- (Hx x eq_refl). apply Hdecl. lia.
Qed.

(** ** C23 *)
Theorem C23_struct_layout : forall ts ns p name size body s ns',
  accepted_env ts -> fits_int64 ts (AStruct p name size body) ->
  visit_struct wrap64 ts ns (AStruct p name size body) = Ok (s, ns') ->
  cs_name s = name /\ cs_fields s <> [] /\
  cs_bits s = fixed_width (cs_fields s) /\ cs_bits s mod 8 = 0 /\
  (forall x, size = Some x ->
     cs_bits s = 8 * Z.of_N (fst x) + Z.of_N (snd x) /\
     forall f, In f (cs_fields s) -> ~ variable_size f) /\
  (forall pre f post, cs_fields s = pre ++ f :: post -> needs_byte_boundary f ->
     fixed_width pre mod 8 = 0).
Proof.
  intros ts ns p name size body s ns' He Ho H. apply struct_exact in H; [|assumption..].
  apply struct_accepted in H; [|apply accepted_sound; exact He].
  destruct H as (_ & Hf & Hnm & Hne & Ha & Hb & Hb8 & Hd & Hx).
  split; [exact Hnm|]. split; [exact Hne|]. split; [exact Hb|]. split; [exact Hb8|]. split.
  - intros x Hs. destruct (Hx x Hs) as [Hbx Hdx]. split; [exact Hbx|].
    apply variable_dyn; [exact Hf|congruence].
  - intros pre f post Hl Hm. apply needs_must in Hm.
    exact (check_align_spec _ Hf 0 (Z.le_refl 0) Ha pre f post Hl Hm).
Qed.

(** ** C24 *)
Theorem C24_field_widths : forall ts ns d s ns',
  accepted_env ts -> fits_int64 ts d -> visit_struct wrap64 ts ns d = Ok (s, ns') ->
  Forall width_ok (cs_fields s).
Proof.
  intros ts ns d s ns' He Ho H. apply struct_exact in H; [|assumption..].
  assert (Hv : vt_ok (VTStruct s)) by (eapply visit_sound; [apply accepted_sound|]; eauto).
  destruct Hv as ((_ & _ & _ & Hw & _) & _). exact Hw.
Qed.

(** ** C25 *)
Theorem C25_unique_names : forall ts ns d s ns',
  visit_struct wrap64 ts ns d = Ok (s, ns') ->
  NoDup (flat_map names_of (cs_fields s)).
Proof.
  intros ts ns [p name size body] s ns' H. rewrite visit_struct_def in H.
  apply bind_ok in H. destruct H as (nm & E1 & H).
  apply bind_ok in H. destruct H as (ns1 & E2 & H).
  apply bind_ok in H. destruct H as (sz & E3 & H).
  apply bind_ok in H. destruct H as ([st ns2] & E4 & H).
  apply bind_ok in H. destruct H as (s0 & E5 & H). injection H as <- _.
  assert (Hfs : cs_fields s0 = snd st).
  { unfold check_struct in E5. destruct (snd st) as [|f0 r0]; [discriminate|].
    destruct (check_align _ _ _); [|discriminate].
    destruct (Z.rem (sum_bits _ _ _) 8 =? 0); [|discriminate].
    destruct (sz =? 0); [injection E5 as <-; reflexivity|].
    destruct (sum_dyn _); [discriminate|]. destruct (sum_bits _ _ _ =? sz); [|discriminate].
    injection E5 as <-. reflexivity. }
  rewrite Hfs. clear E5 Hfs E1 E2 E3.
  assert (Hst : st_ok ([], [])) by (split; [reflexivity|constructor]).
  assert (K : st_ok st); [|destruct K as [K1 K2]; rewrite <- K1; exact K2].
  clear - E4 Hst. revert ns1 E4 Hst. generalize (@nil string, @nil nfield). induction body; intros st0 ns1 H Hst.
  - injection H as <- _. exact Hst.
  - eapply IHbody; eauto.
  - cbn [visit_body] in H. apply bind_ok in H. destruct H as (sz & E1 & H).
    apply bind_ok in H. destruct H as (o & E2 & H).
    apply bind_ok in H. destruct H as (st1 & E3 & H).
    apply add_field_ok in E3; [|exact Hst]. destruct E3 as (Hs1 & Hf1). eauto.
  - cbn [visit_body] in H. apply bind_ok in H. destruct H as (nm & E1 & H).
    apply bind_ok in H. destruct H as (sz & E2 & H).
    apply bind_ok in H. destruct H as (n & E3 & H).
    apply bind_ok in H. destruct H as (l & E4 & H).
    destruct (const_match (basic_of b) l); [|discriminate].
    apply bind_ok in H. destruct H as (o & E5 & H).
    apply bind_ok in H. destruct H as (st1 & E6 & H).
    apply add_field_ok in E6; [|exact Hst]. destruct E6 as (Hs1 & Hf1). eauto.
  - rewrite visit_body_emb in H. apply bind_ok in H. destruct H as ([v ns3] & E1 & H).
    apply bind_ok in H. destruct H as (a & E2 & H).
    destruct v as [s|t]; [|discriminate]. destruct a; [discriminate|].
    apply bind_ok in H. destruct H as (o & E3 & H).
    apply bind_ok in H. destruct H as (st1 & E4 & H).
    apply add_embedded_ok in E4; [|exact Hst]. destruct E4 as (Hs1 & Hf1). eauto.
  - rewrite visit_body_normal in H. apply bind_ok in H. destruct H as ([v ns3] & E1 & H).
    apply bind_ok in H. destruct H as (a & E2 & H).
    apply bind_ok in H. destruct H as (nm & E3 & H).
    apply bind_ok in H. destruct H as (sz & E4 & H).
    apply bind_ok in H. destruct H as (n & E5 & H).
    apply bind_ok in H. destruct H as (o & E6 & H).
    apply bind_ok in H. destruct H as (g & E7 & H).
    apply bind_ok in H. destruct H as (st1 & E8 & H).
    apply add_field_ok in E8; [|exact Hst]. destruct E8 as (Hs1 & Hf1). eauto.
Qed.

(** *** Options *)
Lemma has_keys {V} k (m : list (string * V)) : has k m = false <-> ~ In k (map fst m).
Proof.
  unfold has. induction m as [|[k' v'] r IH]; cbn; [tauto|].
  destruct (String.eqb_spec k k').
  - subst. split; [discriminate|tauto].
  - rewrite IH. split; [intros H [?|?]; [congruence|tauto]|tauto].
Qed.
Lemma put_new {V} k (v : V) m : has k m = false -> put k v m = m ++ [(k, v)].
Proof. unfold put. intros ->. reflexivity. Qed.
Lemma get_nodup {V} k (v : V) m : NoDup (map fst m) -> (get k m = Some v <-> In (k, v) m).
Proof.
  induction m as [|[k' v'] r IH]; cbn; intros Hn; [split; [discriminate|tauto]|].
  inversion Hn as [|x y Hx Hy]; subst. destruct (String.eqb_spec k k').
  - subst. split; [intros [= ->]; auto|]. intros [[= ->]|Hi]; [reflexivity|].
    exfalso. apply Hx. apply in_map_iff. exists (k', v). auto.
  - rewrite IH by exact Hy. split; [auto|]. intros [[= -> ->]|]; [congruence|auto].
Qed.

Definition opt_rel (x : string * a_lit) (y : string * literal) : Prop :=
  fst x = fst y /\ visit_lit (snd x) = Ok (snd y) /\ option_valid (fst x) (snd y) = true.
Lemma visit_options_spec l : forall acc o, visit_options l acc = Ok o -> NoDup (map fst acc) ->
  exists l', o = acc ++ l' /\ Forall2 opt_rel l l' /\ NoDup (map fst o).
Proof.
  induction l as [|[k v] r IH]; intros acc o H Hn; cbn [visit_options] in H.
  - injection H as <-. exists []. rewrite app_nil_r. auto.
  - apply bind_ok in H. destruct H as (v' & E & H).
    destruct (option_valid k v') eqn:Ev; [|discriminate].
    destruct (has k acc) eqn:Eh; [discriminate|]. rewrite put_new in H by exact Eh.
    apply has_keys in Eh.
    destruct (IH _ _ H) as (l' & -> & Hf & Hn').
    { rewrite map_app. apply NoDup_snoc; assumption. }
    exists ((k, v') :: l'). rewrite <- app_assoc in *. split; [reflexivity|].
    split; [|exact Hn']. constructor; [|exact Hf]. unfold opt_rel. auto.
Qed.

Lemma visit_lit_str v s : visit_lit v = Ok (StrL s) -> v = LStr s.
Proof.
  destruct v; cbn [visit_lit]; intros H; try discriminate; [|congruence].
  apply bind_ok in H. destruct H as (z & _ & H). discriminate.
Qed.
Lemma Forall2_In_l {A B} (R : A -> B -> Prop) l l' x : Forall2 R l l' -> In x l ->
  exists y, In y l' /\ R x y.
Proof. induction 1; cbn; [tauto|]. intros [->|Hi]; [eauto|]. destruct (IHForall2 Hi) as (z & ? & ?). eauto. Qed.
Lemma Forall2_In_r {A B} (R : A -> B -> Prop) l l' y : Forall2 R l l' -> In y l' ->
  exists x, In x l /\ R x y.
Proof. induction 1; cbn; [tauto|]. intros [->|Hi]; [eauto|]. destruct (IHForall2 Hi) as (z & ? & ?). eauto. Qed.

Lemma visit_options_ok l o : visit_options l [] = Ok o -> options_ok l (order_big o).
Proof.
  intros H. apply visit_options_spec in H; [|constructor]. destruct H as (l' & Ho & Hf & Hn).
  cbn [app] in Ho. subst l'. assert (Hk : map fst l = map fst o).
  { clear -Hf. induction Hf as [|x y l l' (H & _) _ IH]; cbn; congruence. }
  unfold options_ok. split; [rewrite Hk; exact Hn|]. split.
  - intros v Hi. destruct (Forall2_In_l _ _ _ _ Hf Hi) as ([k v'] & Hi' & Hk' & Hl & Hv).
    cbn [fst snd] in *. subst k. unfold option_valid in Hv. cbn in Hv.
    destruct v' as [| | |s']; try discriminate. apply visit_lit_str in Hl. subst v.
    apply orb_true_iff in Hv. destruct Hv as [Hv|Hv]; apply String.eqb_eq in Hv; subst; auto.
  - unfold order_big. split.
    + destruct (get "order" o) as [[| | |s']|] eqn:Eg; try discriminate. intros Hs.
      apply String.eqb_eq in Hs. subst s'. apply get_In in Eg.
      destruct (Forall2_In_r _ _ _ _ Hf Eg) as ([k v'] & Hi' & Hk' & Hl & _).
      cbn [fst snd] in *. subst k. apply visit_lit_str in Hl. subst v'. exact Hi'.
    + intros Hi. destruct (Forall2_In_l _ _ _ _ Hf Hi) as ([k v'] & Hi' & Hk' & Hl & _).
      cbn [fst snd visit_lit] in *. subst k. injection Hl as <-.
      apply get_nodup in Hi'; [|exact Hn]. rewrite Hi'. reflexivity.
Qed.

(** *** Methods *)
Lemma basic_of_inj a b : basic_eqb (basic_of a) (basic_of b) = true -> a = b.
Proof. destruct a, b; cbn; intros H; try reflexivity; discriminate. Qed.
Lemma basic_eqb_refl b : basic_eqb b b = true.
Proof. destruct b; cbn; try apply Z.eqb_refl; reflexivity. Qed.

Lemma get_upd k k' v m : get k' (upd k v m) =
  if String.eqb k' k then match get k m with Some _ => Some v | None => None end else get k' m.
Proof.
  induction m as [|[q w] r IH]; cbn [upd get].
  - destruct (String.eqb k' k); reflexivity.
  - destruct (String.eqb_spec k q); cbn [get].
    + subst q. destruct (String.eqb_spec k' k); reflexivity.
    + destruct (String.eqb_spec k' q).
      * subst q. destruct (String.eqb_spec k' k); [congruence|reflexivity].
      * exact IH.
Qed.
Lemma keys_upd k v m : map fst (upd k v m) = map fst m.
Proof.
  induction m as [|[q w] r IH]; cbn [upd map]; [reflexivity|].
  destruct (String.eqb k q); cbn [map fst]; congruence.
Qed.
Lemma get_app {V} k (m m' : list (string * V)) :
  get k (m ++ m') = match get k m with Some v => Some v | None => get k m' end.
Proof. induction m as [|[q w] r IH]; cbn [app get]; [reflexivity|]. destruct (String.eqb k q); auto. Qed.
Lemma get_none_keys {V} k (m : list (string * V)) : get k m = None <-> ~ In k (map fst m).
Proof. rewrite <- has_keys. unfold has. destruct (get k m); split; congruence. Qed.

Definition minv (pre : list a_method) (acc : list (string * (bool * bool * basic))) : Prop :=
  NoDup (map fst acc) /\
  (forall m, In m pre -> exists n, m_name m = Some n /\ is_uncapitalized n = true /\
     In n (map fst acc)) /\
  (forall n g s t, get n acc = Some (g, s, t) ->
     (g = true <-> exists m, In m pre /\ m_name m = Some n /\ m_get m = true) /\
     (s = true <-> exists m, In m pre /\ m_name m = Some n /\ m_get m = false) /\
     (forall m, In m pre -> m_name m = Some n -> basic_of (m_type m) = t) /\
     exists m, In m pre /\ m_name m = Some n) /\
  (forall i j m m', nth_error pre i = Some m -> nth_error pre j = Some m' -> m_name m = m_name m' ->
     m_type m = m_type m' /\ (m_get m = m_get m' -> i = j)).

Lemma nth_error_snoc {A} (l : list A) a i x : nth_error (l ++ [a]) i = Some x ->
  nth_error l i = Some x \/ (i = length l /\ x = a).
Proof.
  intros H. destruct (Nat.lt_ge_cases i (length l)).
  - left. rewrite nth_error_app1 in H by assumption. exact H.
  - right. rewrite nth_error_app2 in H by assumption.
    destruct (i - length l)%nat as [|k] eqn:E; cbn in H.
    + injection H as <-. split; [lia|reflexivity].
    + destruct k; discriminate.
Qed.

Lemma minv_step pre acc m name acc' : minv pre acc ->
  m_name m = Some name -> is_uncapitalized name = true ->
  match get name acc with
  | Some (g, s, t) =>
      (if m_get m then g else s) = false /\ basic_eqb t (basic_of (m_type m)) = true /\
      acc' = upd name (g || m_get m, s || negb (m_get m), t) acc
  | None => acc' = put name (m_get m, negb (m_get m), basic_of (m_type m)) acc
  end -> minv (pre ++ [m]) acc'.
Proof.
  intros (H1 & H2 & H3 & H4) Hnm Hun Hc.
  assert (Hin : forall m', In m' (pre ++ [m]) <-> In m' pre \/ m' = m).
  { intros m'. rewrite in_app_iff. cbn. intuition. }
  destruct (get name acc) as [[[g s] t]|] eqn:Eg.
  - destruct Hc as (Hfree & Hty & ->).
    destruct (H3 _ _ _ _ Eg) as (Hg & Hs & Ht & Hex).
    assert (Htm : basic_of (m_type m) = t).
    { destruct Hex as (m0 & Hi & Hn0). rewrite <- (Ht m0 Hi Hn0) in Hty |- *.
      apply basic_of_inj in Hty. congruence. }
    split; [rewrite keys_upd; exact H1|]. split; [|split].
    + intros m' Hi. rewrite keys_upd. apply Hin in Hi. destruct Hi as [Hi| ->]; [auto|].
      exists name. split; [exact Hnm|]. split; [exact Hun|].
      apply get_In in Eg. apply in_map_iff. eexists. split; [|exact Eg]. reflexivity.
    + intros n g' s' t' Hgt. rewrite get_upd in Hgt. destruct (String.eqb_spec n name).
      * subst n. rewrite Eg in Hgt. injection Hgt as <- <- <-.
        split; [|split; [|split]].
        -- rewrite orb_true_iff, Hg. split.
           ++ intros [(m0 & Hi & Hr)|Hm]; [exists m0; rewrite Hin; tauto|].
              exists m. rewrite Hin. auto.
           ++ intros (m0 & Hi & Hn0 & Hr). apply Hin in Hi. destruct Hi as [Hi| ->]; [left; eauto|auto].
        -- rewrite orb_true_iff, Hs, negb_true_iff. split.
           ++ intros [(m0 & Hi & Hr)|Hm]; [exists m0; rewrite Hin; tauto|].
              exists m. rewrite Hin. auto.
           ++ intros (m0 & Hi & Hn0 & Hr). apply Hin in Hi. destruct Hi as [Hi| ->]; [left; eauto|auto].
        -- intros m0 Hi Hn0. apply Hin in Hi. destruct Hi as [Hi| ->]; [auto|exact Htm].
        -- exists m. rewrite Hin. auto.
      * destruct (H3 _ _ _ _ Hgt) as (K1 & K2 & K3 & (m1 & K4 & K5)).
        assert (Hne : m_name m <> Some n) by congruence.
        split; [|split; [|split]].
        -- rewrite K1. split; intros (m0 & Hi & Hn0 & Hr); exists m0.
           ++ rewrite Hin. auto.
           ++ apply Hin in Hi. destruct Hi as [Hi| ->]; [auto|congruence].
        -- rewrite K2. split; intros (m0 & Hi & Hn0 & Hr); exists m0.
           ++ rewrite Hin. auto.
           ++ apply Hin in Hi. destruct Hi as [Hi| ->]; [auto|congruence].
        -- intros m0 Hi Hn0. apply Hin in Hi. destruct Hi as [Hi| ->]; [auto|congruence].
        -- exists m1. rewrite Hin. auto.
    + assert (Hnew : forall i m0, nth_error pre i = Some m0 -> m_name m0 = m_name m ->
                m_type m0 = m_type m /\ m_get m0 <> m_get m).
      { intros i m0 Hi Hn0. apply nth_error_In in Hi. rewrite Hnm in Hn0. split.
        - apply basic_of_inj. rewrite (Ht m0 Hi Hn0), Htm. apply basic_eqb_refl.
        - intros Heq. destruct (m_get m) eqn:Em.
          + assert (g = true) by (apply Hg; eauto). congruence.
          + assert (s = true) by (apply Hs; eauto). congruence. }
      intros i j a b Hi Hj Hn. apply nth_error_snoc in Hi. apply nth_error_snoc in Hj.
      destruct Hi as [Hi|[-> ->]], Hj as [Hj|[-> ->]].
      * eauto.
      * destruct (Hnew _ _ Hi Hn). split; [assumption|contradiction].
      * symmetry in Hn. destruct (Hnew _ _ Hj Hn) as [K1 K2]. split; [auto|]. intros K. congruence.
      * auto.
  - subst acc'. assert (Hni : ~ In name (map fst acc)) by (apply get_none_keys; exact Eg).
    assert (Hput : put name (m_get m, negb (m_get m), basic_of (m_type m)) acc
                   = acc ++ [(name, (m_get m, negb (m_get m), basic_of (m_type m)))]).
    { apply put_new. apply has_keys. exact Hni. }
    rewrite Hput. clear Hput.
    assert (Hno : forall m0, In m0 pre -> m_name m0 <> Some name).
    { intros m0 Hi Hn0. destruct (H2 _ Hi) as (n0 & E0 & _ & Hi0). congruence. }
    split; [|split; [|split]].
    + rewrite map_app. apply NoDup_snoc; assumption.
    + intros m' Hi. rewrite map_app. apply Hin in Hi. destruct Hi as [Hi| ->].
      * destruct (H2 _ Hi) as (n0 & E0 & Hu & Hi0). exists n0. rewrite in_app_iff. auto.
      * exists name. rewrite in_app_iff. cbn. auto.
    + intros n g' s' t' Hgt. rewrite get_app in Hgt. destruct (get n acc) as [x|] eqn:En.
      * injection Hgt as ->. destruct (H3 _ _ _ _ En) as (K1 & K2 & K3 & (m1 & K4 & K5)).
        assert (Hne : m_name m <> Some n) by congruence.
        split; [|split; [|split]].
        -- rewrite K1. split; intros (m0 & Hi & Hn0 & Hr); exists m0.
           ++ rewrite Hin. auto.
           ++ apply Hin in Hi. destruct Hi as [Hi| ->]; [auto|congruence].
        -- rewrite K2. split; intros (m0 & Hi & Hn0 & Hr); exists m0.
           ++ rewrite Hin. auto.
           ++ apply Hin in Hi. destruct Hi as [Hi| ->]; [auto|congruence].
        -- intros m0 Hi Hn0. apply Hin in Hi. destruct Hi as [Hi| ->]; [auto|congruence].
        -- exists m1. rewrite Hin. auto.
      * cbn [get] in Hgt. destruct (String.eqb_spec n name); [|discriminate]. subst n.
        injection Hgt as <- <- <-. split; [|split; [|split]].
        -- split.
           ++ intros Hm. exists m. rewrite Hin. auto.
           ++ intros (m0 & Hi & Hn0 & Hr). apply Hin in Hi.
              destruct Hi as [Hi| ->]; [exfalso; exact (Hno _ Hi Hn0)|exact Hr].
        -- rewrite negb_true_iff. split.
           ++ intros Hm. exists m. rewrite Hin. auto.
           ++ intros (m0 & Hi & Hn0 & Hr). apply Hin in Hi.
              destruct Hi as [Hi| ->]; [exfalso; exact (Hno _ Hi Hn0)|exact Hr].
        -- intros m0 Hi Hn0. apply Hin in Hi.
           destruct Hi as [Hi| ->]; [exfalso; exact (Hno _ Hi Hn0)|reflexivity].
        -- exists m. rewrite Hin. auto.
    + intros i j a b Hi Hj Hn. apply nth_error_snoc in Hi. apply nth_error_snoc in Hj.
      destruct Hi as [Hi|[-> ->]], Hj as [Hj|[-> ->]].
      * eauto.
      * apply nth_error_In in Hi. exfalso. apply (Hno _ Hi). congruence.
      * apply nth_error_In in Hj. exfalso. apply (Hno _ Hj). congruence.
      * auto.
Qed.

Lemma visit_methods_inv l : forall pre acc g, minv pre acc -> visit_methods l acc = Ok g ->
  minv (pre ++ l) g.
Proof.
  induction l as [|m r IH]; intros pre acc g Hi H; cbn [visit_methods] in H.
  - injection H as <-. rewrite app_nil_r. exact Hi.
  - apply bind_ok in H. destruct H as (name & E & H).
    destruct (m_name m) as [n|] eqn:En; [|discriminate]. unfold uncap_name in E.
    destruct (is_uncapitalized n) eqn:Eu; [|discriminate]. injection E as ->.
    change (pre ++ m :: r) with (pre ++ [m] ++ r). rewrite app_assoc.
    destruct (get name acc) as [[[g0 s0] t0]|] eqn:Eg.
    + destruct (if m_get m then g0 else s0) eqn:Ef; [discriminate|].
      destruct (basic_eqb t0 (basic_of (m_type m))) eqn:Et; [|discriminate].
      eapply IH; [|exact H]. eapply minv_step; [exact Hi|exact En|exact Eu|].
      rewrite Eg. auto.
    + eapply IH; [|exact H]. eapply minv_step; [exact Hi|exact En|exact Eu|].
      rewrite Eg. reflexivity.
Qed.
Lemma visit_methods_ok l g : visit_methods l [] = Ok g -> methods_ok l (map fst g).
Proof.
  intros H. assert (K : minv ([] ++ l) g).
  { eapply visit_methods_inv; [|exact H].
    split; [constructor|]. split; [intros m []|]. split; [intros n ? ? ?; discriminate|].
    intros [|i]; discriminate. }
  destruct K as (K1 & K2 & K3 & K4). split; [exact K1|]. split; [exact K2|]. split; [|exact K4].
  intros n Hi. destruct (get n g) as [[[a b] t]|] eqn:Eg.
  - destruct (K3 _ _ _ _ Eg) as (_ & _ & _ & Hex). exact Hex.
  - apply get_none_keys in Eg. contradiction.
Qed.

(** *** Constants *)
Lemma add_name_const ns n p ns' c : add_name ns n (NPos p) = Ok ns' ->
  const_value ns' c = const_value ns c.
Proof.
  unfold add_name. intros H. destruct (get n ns) as [v|] eqn:Eg.
  - destruct (pos_eqb _ _); congruence.
  - injection H as <-. destruct c as [l|k]; [reflexivity|]. cbn [const_value].
    rewrite get_app. destruct (get k ns); [reflexivity|]. cbn. destruct (String.eqb k n); reflexivity.
Qed.
Lemma visit_const_ok ns c l b : visit_const ns c = Ok l -> const_match b l = true ->
  const_value ns c = Some (lit_num l) /\ const_suits b c (lit_num l).
Proof.
  destruct c as [[neg n|z|x|s]|k]; cbn [visit_const visit_lit const_value]; intros H Hm.
  - apply bind_ok in H. destruct H as (y & E & H). apply int_lit_ok in E. injection H as <-. subst y.
    split; [reflexivity|]. destruct b; cbn in *; try discriminate; auto. apply negb_true_iff in Hm.
    destruct (_ <? 0) eqn:E0; [discriminate|]. apply Z.ltb_ge in E0. exact E0.
  - injection H as <-. split; [reflexivity|]. destruct b; cbn in *; try discriminate; auto.
  - injection H as <-. split; [reflexivity|]. destruct b; cbn in *; try discriminate; auto.
  - injection H as <-. destruct b; discriminate.
  - destruct (get k ns) as [[p|p v]|]; try discriminate. injection H as <-.
    split; [reflexivity|]. destruct b; cbn in *; try discriminate; auto. apply negb_true_iff in Hm.
    apply Z.ltb_ge in Hm. exact Hm.
Qed.

Lemma visit_names w :
  (forall e ts ns v ns' c, visit_elem w ts ns e = Ok (v, ns') -> const_value ns' c = const_value ns c) /\
  (forall d ts ns s ns' c, visit_struct w ts ns d = Ok (s, ns') -> const_value ns' c = const_value ns c) /\
  (forall b ts ns st st' ns' c, visit_body w ts ns b st = Ok (st', ns') ->
     const_value ns' c = const_value ns c).
Proof.
  apply ast_ind; intros; cbn [visit_body] in *.
  - cbn in H. congruence.
  - cbn in H. congruence.
  - cbn in H. congruence.
  - cbn [visit_elem] in H. apply bind_ok in H. destruct H as (x & _ & H). congruence.
  - rewrite visit_elem_def in H0. apply bind_ok in H0. destruct H0 as ([s ns1] & E & H0).
    injection H0 as _ <-. eauto.
  - cbn [visit_elem] in H. apply bind_ok in H. destruct H as (x & _ & H). congruence.
  - cbn [visit_elem] in H. apply bind_ok in H. destruct H as (x & _ & H). congruence.
  - rewrite visit_struct_def in H0. rename H0 into H1.
    apply bind_ok in H1. destruct H1 as (nm & E1 & H1).
    apply bind_ok in H1. destruct H1 as (ns1 & E2 & H1).
    apply bind_ok in H1. destruct H1 as (sz & E3 & H1).
    apply bind_ok in H1. destruct H1 as ([st ns2] & E4 & H1).
    apply bind_ok in H1. destruct H1 as (s0 & E5 & H1). injection H1 as _ <-.
    apply H with (c := c) in E4. apply add_name_const with (c := c) in E2. congruence.
  - congruence.
  - eauto.
  - rename H0 into H1. apply bind_ok in H1. destruct H1 as (sz & E1 & H1).
    apply bind_ok in H1. destruct H1 as (o & E2 & H1).
    apply bind_ok in H1. destruct H1 as (st1 & E3 & H1). eauto.
  - rename H0 into H1. apply bind_ok in H1. destruct H1 as (nm & E1 & H1).
    apply bind_ok in H1. destruct H1 as (sz & E2 & H1).
    apply bind_ok in H1. destruct H1 as (n & E3 & H1).
    apply bind_ok in H1. destruct H1 as (l & E4 & H1).
    destruct (const_match (basic_of b) l); [|discriminate].
    apply bind_ok in H1. destruct H1 as (o & E5 & H1).
    apply bind_ok in H1. destruct H1 as (st1 & E6 & H1). eauto.
  - rename H1 into H2. change (visit_body w ts ns (ABEmb e arr opts rest) st = Ok (st', ns')) in H2.
    rewrite visit_body_emb in H2.
    apply bind_ok in H2. destruct H2 as ([v ns1] & E1 & H2).
    apply bind_ok in H2. destruct H2 as (a & E2 & H2).
    destruct v as [s|t]; [|discriminate]. destruct a; [discriminate|].
    apply bind_ok in H2. destruct H2 as (o & E3 & H2).
    apply bind_ok in H2. destruct H2 as (st1 & E4 & H2).
    rewrite (H0 _ _ _ _ _ c H2). eauto.
  - rename H1 into H2.
    change (visit_body w ts ns (ABNormal e arr name size opts methods rest) st = Ok (st', ns')) in H2.
    rewrite visit_body_normal in H2.
    apply bind_ok in H2. destruct H2 as ([v ns1] & E1 & H2).
    apply bind_ok in H2. destruct H2 as (a & E2 & H2).
    apply bind_ok in H2. destruct H2 as (nm & E3 & H2).
    apply bind_ok in H2. destruct H2 as (sz & E4 & H2).
    apply bind_ok in H2. destruct H2 as (n & E5 & H2).
    apply bind_ok in H2. destruct H2 as (o & E6 & H2).
    apply bind_ok in H2. destruct H2 as (g & E7 & H2).
    apply bind_ok in H2. destruct H2 as (st1 & E8 & H2).
    rewrite (H0 _ _ _ _ _ c H2). eauto.
Qed.

(** *** Bodies *)
Lemma body_items ns0 : forall b ts ns st st' ns', st_ok st ->
  (forall c, const_value ns c = const_value ns0 c) ->
  visit_body ideal ts ns b st = Ok (st', ns') ->
  exists items, Forall2 (elaborates ideal ts ns0) (items_of b) items /\
    st_ok st' /\ snd st' = snd st ++ flat_map expand items.
Proof.
  induction b; intros ts ns st st' ns' Hst Hns H; cbn [items_of] in *.
  - injection H as <- _. exists []. cbn. rewrite app_nil_r. auto.
  - cbn [visit_body] in H. eauto.
  - cbn [visit_body] in H. apply bind_ok in H. destruct H as (sz & E1 & H).
    apply bind_ok in H. destruct H as (o & E2 & H).
    apply bind_ok in H. destruct H as (st1 & E3 & H).
    apply add_field_ok in E3; [|exact Hst]. destruct E3 as (Hs1 & Hf1).
    destruct (IHb _ _ _ _ _ Hs1 Hns H) as (items & Hi & Hs' & Hf').
    apply visit_size_ideal in E1.
    exists (IOwn (NVoid sz) :: items). split; [constructor; [apply E1|exact Hi]|]. split; [exact Hs'|].
    rewrite Hf', Hf1, <- app_assoc. reflexivity.
  - cbn [visit_body] in H. apply bind_ok in H. destruct H as (nm & E1 & H).
    apply bind_ok in H. destruct H as (sz & E2 & H).
    apply bind_ok in H. destruct H as (n & E3 & H).
    apply bind_ok in H. destruct H as (l & E4 & H).
    destruct (const_match (basic_of b) l) eqn:Em; [|discriminate].
    apply bind_ok in H. destruct H as (o & E5 & H).
    apply bind_ok in H. destruct H as (st1 & E6 & H).
    apply add_field_ok in E6; [|exact Hst]. destruct E6 as (Hs1 & Hf1).
    destruct (IHb _ _ _ _ _ Hs1 Hns H) as (items & Hi & Hs' & Hf').
    exists (IOwn (NConst nm (basic_of b) n (order_big o) (lit_num l)) :: items).
    split; [|split; [exact Hs'|rewrite Hf', Hf1, <- app_assoc; reflexivity]].
    constructor; [|exact Hi]. destruct (visit_const_ok _ _ _ _ E4 Em) as [Hc1 Hc2].
    rewrite Hns in Hc1. split; [reflexivity|]. split.
    { destruct name as [x|]; [|congruence]. unfold uncap_name in E1.
      destruct (is_uncapitalized x); congruence. }
    split; [|split; [apply visit_options_ok; exact E5|]; split; assumption].
    pose proof (visit_opt_size_ideal _ _ E2) as (_ & Hz & Hx).
    destruct size as [x|].
    + destruct (sz =? 0) eqn:E0; [apply Z.eqb_eq in E0; apply Hz in E0; discriminate|].
      destruct (_ <? sz); [discriminate|]. injection E3 as <-. unfold size_bits. auto.
    + assert (sz = 0) as -> by (apply Hz; reflexivity). cbn in E3. congruence.
  - rewrite visit_body_emb in H. apply bind_ok in H. destruct H as ([v ns1] & E1 & H).
    apply bind_ok in H. destruct H as (a & E2 & H).
    destruct v as [s|t]; [|discriminate]. destruct a; [discriminate|].
    apply bind_ok in H. destruct H as (o & E3 & H).
    apply bind_ok in H. destruct H as (st1 & E4 & H).
    apply add_embedded_ok in E4; [|exact Hst]. destruct E4 as (Hs1 & Hf1).
    destruct (IHb _ _ _ _ _ Hs1 (fun c => eq_trans (proj1 (visit_names ideal) _ _ _ _ _ c E1) (Hns c)) H)
      as (items & Hi & Hs' & Hf').
    exists (IEmb s :: items). split; [apply Forall2_cons; [exists ns, ns1; exact E1|exact Hi]|]. split; [exact Hs'|].
    rewrite Hf', Hf1, <- app_assoc. reflexivity.
  - rewrite visit_body_normal in H. apply bind_ok in H. destruct H as ([v ns1] & E1 & H).
    apply bind_ok in H. destruct H as (a & E2 & H).
    apply bind_ok in H. destruct H as (nm & E3 & H).
    apply bind_ok in H. destruct H as (sz & E4 & H).
    apply bind_ok in H. destruct H as (n & E5 & H).
    apply bind_ok in H. destruct H as (o & E6 & H).
    apply bind_ok in H. destruct H as (g & E7 & H).
    apply bind_ok in H. destruct H as (st1 & E8 & H).
    apply add_field_ok in E8; [|exact Hst]. destruct E8 as (Hs1 & Hf1).
    destruct (IHb _ _ _ _ _ Hs1 (fun c => eq_trans (proj1 (visit_names ideal) _ _ _ _ _ c E1) (Hns c)) H)
      as (items & Hi & Hs' & Hf').
    exists (IOwn (NNormal nm (map fst g) (fty_of v) a n (order_big o)) :: items). split; [|split; [exact Hs'|rewrite Hf', Hf1, <- app_assoc; reflexivity]].
    constructor; [|exact Hi]. unfold uncap_name in E3.
    split; [destruct (is_uncapitalized name); congruence|].
    apply visit_arr_ok in E2. destruct E2 as (Ha & _). split; [exact Ha|].
    split; [|split; [apply visit_options_ok; exact E6|split]].
    + pose proof (visit_opt_size_ideal _ _ E4) as (_ & Hz & Hx). unfold normal_size in E5.
      destruct size as [x|].
      * destruct (sz =? 0) eqn:E0; [apply Z.eqb_eq in E0; apply Hz in E0; discriminate|].
        assert (n = sz) as ->; [|apply Hx; reflexivity]. clear E0.
        revert E5. destruct (_ =? -1); [discriminate|]. destruct (_ <? sz); [discriminate|].
        destruct a as [len|].
        -- destruct (len =? 0); [discriminate|]. destruct (Z.rem sz len =? 0); congruence.
        -- destruct v; [|congruence]. destruct (sz =? _); congruence.
      * assert (sz = 0) as -> by (apply Hz; reflexivity). cbn [Z.eqb] in E5. injection E5 as <-.
        rewrite Ha. destruct arr; reflexivity.
    + destruct methods as [|m0 mr].
      * injection E7 as <-. split; [constructor|]. split; [intros m []|]. split; [intros k []|].
        intros [|i]; discriminate.
      * apply visit_methods_ok.
        destruct v as [s|[[] tb td]]; try discriminate. destruct a; [discriminate|]. exact E7.
    + eauto.
Qed.

Lemma elaborates_exact ts ns : env_full ts -> forall b items, weight_body ts b < 2 ^ 63 ->
  Forall2 (elaborates ideal ts ns) (items_of b) items ->
  Forall2 (elaborates wrap64 ts ns) (items_of b) items.
Proof.
  intros He. destruct (weight_nonneg ts) as (Hwe & _ & Hwb).
  induction b; intros items Hw H; cbn [items_of weight_body] in *; try (specialize (Hwb b)).
  - inversion H. constructor.
  - auto.
  - inversion H as [|x y l l' H1 H2]; subst. assert (0 <= size_bits size) by (unfold size_bits; lia).
    constructor; [exact H1|]. apply IHb; [lia|exact H2].
  - inversion H as [|x y l l' H1 H2]; subst. pose proof (weight_size_nonneg size).
    constructor; [exact H1|]. apply IHb; [|exact H2]. specialize (Hwb b0). lia.
  - inversion H as [|x y l l' H1 H2]; subst. specialize (Hwe e).
    constructor; [|apply IHb; [lia|exact H2]].
    destruct y as [|s]; cbn [elaborates] in *; [contradiction|].
    destruct H1 as (ns1 & ns2 & H1). exists ns1, ns2.
    rewrite (proj1 (proj1 visit_exact e ts ns1 He ltac:(lia))). exact H1.
  - inversion H as [|x y l l' H1 H2]; subst. specialize (Hwe e).
    pose proof (weight_size_nonneg size). pose proof (weight_arr_pos arr).
    constructor; [|apply IHb; [nia|exact H2]].
    destruct y as [[]|s]; cbn [elaborates] in *; try contradiction.
    destruct H1 as (K1 & K2 & K3 & K4 & K5 & (v & ns1 & ns2 & K6 & K7)).
    split; [exact K1|]. split; [exact K2|]. split; [exact K3|]. split; [exact K4|].
    split; [exact K5|]. exists v, ns1, ns2. split; [|exact K7].
    rewrite (proj1 (proj1 visit_exact e ts ns1 He ltac:(nia))). exact K6.
Qed.

(** The struct is what its definition says: every body element contributes, in order, one field of
    the declared name, type, array length, width, byte order, methods or constant value, except that
    an embedded struct contributes a marker and exactly its own fields, in order. *)
Theorem C25_elaboration : forall ts ns p name size body s ns',
  accepted_env ts -> fits_int64 ts (AStruct p name size body) ->
  visit_struct wrap64 ts ns (AStruct p name size body) = Ok (s, ns') ->
  exists items,
    cs_fields s = flat_map expand items /\
    Forall2 (elaborates wrap64 ts ns) (items_of body) items.
Proof.
  intros ts ns p name size body s ns' He Hw H. apply struct_exact in H; [|assumption..].
  rewrite visit_struct_def in H.
  apply bind_ok in H. destruct H as (nm & E1 & H).
  apply bind_ok in H. destruct H as (ns1 & E2 & H).
  apply bind_ok in H. destruct H as (sz & E3 & H).
  apply bind_ok in H. destruct H as ([st ns2] & E4 & H).
  apply bind_ok in H. destruct H as (s0 & E5 & H). injection H as <- _.
  apply body_items with (ns0 := ns) in E4; [|split; [reflexivity|constructor]|].
  2:{ intros c. eapply add_name_const; eauto. }
  destruct E4 as (items & Hi & (Hn1 & Hn2) & Hf). cbn [snd app] in Hf.
  assert (Hfs : cs_fields s0 = snd st).
  { unfold check_struct in E5. destruct (snd st) as [|f0 r0]; [discriminate|].
    destruct (check_align _ _ _); [|discriminate].
    destruct (Z.rem (sum_bits _ _ _) 8 =? 0); [|discriminate].
    destruct (sz =? 0); [injection E5 as <-; reflexivity|].
    destruct (sum_dyn _); [discriminate|]. destruct (sum_bits _ _ _ =? sz); [|discriminate].
    injection E5 as <-. reflexivity. }
  exists items. split; [congruence|].
  apply elaborates_exact; [apply accepted_full; exact He| |exact Hi].
  unfold fits_int64 in Hw. cbn [weight_struct] in Hw. pose proof (weight_size_nonneg size). lia.
Qed.

(** ** The hypotheses of the Go theorems hold of every accepted struct *)
Lemma acc_limits_wf :
  (forall e, acc_elem e -> limits_elem e -> wf_elem e) /\
  (forall fs from, acc_fields fs from -> limits fs -> wf_fields fs from).
Proof.
  apply schema_ind; cbn [acc_elem limits_elem wf_elem acc_fields limits wf_fields]; try tauto.
  - intros fs IH (_ & H1 & H2) Hl. auto.
  - intros e IHe n big r IHr from (He & Hw & Hr) (Hle & Hlr). auto.
  - intros e IHe len n big r IHr from (He & Hl0 & Hw & Hr) (Hle & Hls & Hlr).
    split; [auto|]. split; [exact Hl0|]. split; [|auto].
    destruct e as [b|w| | |s]; cbn [is_fixed_scalar] in *; try exact Hw.
    destruct Hw as [Ha Hw]. split; [exact Ha|]. cbn [elem_dyn] in *.
    destruct (fields_dyn s); [exact Hw|]. exact (Hls eq_refl).
  - intros n r IH from (H1 & H2) H3. auto.
  - intros b n big z r IH from (H1 & H2 & H3) H4. auto.
Qed.

(** The hypotheses under which the Go theorems (C01-C17) are proved hold of every accepted struct,
    up to the two restrictions of [limits]. *)
Theorem C23_accepted_wf : forall ts ns d s ns',
  accepted_env ts -> fits_int64 ts d -> visit_struct wrap64 ts ns d = Ok (s, ns') ->
  limits (erase (cs_fields s)) -> wf_struct (erase (cs_fields s)).
Proof.
  intros ts ns d s ns' He Ho H Hl. apply struct_exact in H; [|assumption..].
  assert (Hv : vt_ok (VTStruct s)) by (eapply visit_sound; [apply accepted_sound|]; eauto).
  destruct Hv as (((_ & Ha & H8) & _) & _).
  split; [|exact H8]. apply acc_limits_wf; assumption.
Qed.

(** ** Whole files *)
(** Every definition of the file is of a size that an int64 can hold. *)
Fixpoint fits_file (ts : types_t) (ns : names_t) (l : list a_top) : Prop :=
  match l with
  | [] => True
  | ATStruct d :: r =>
      fits_int64 ts d /\
      forall s ns', visit_struct wrap64 ts ns d = Ok (s, ns') ->
        fits_file (put (cs_name s) (CTStruct s) ts) ns' r
  | ATEnum d :: r =>
      size_bits (en_size d) < 2 ^ 63 /\
      forall e ns', visit_enum wrap64 ns d = Ok (e, ns') ->
        fits_file (put (ce_name e) (CTEnum e) ts) ns' r
  end.

Lemma accepted_app ts n c : accepted_env ts -> accepted_type c -> accepted_env (ts ++ [(n, c)]).
Proof.
  induction ts as [|[n' c'] r IH]; intros He Hc; cbn [app]; inversion He; subst;
    constructor; auto.
Qed.
Lemma accepted_put ts n c : accepted_env ts -> accepted_type c -> accepted_env (put n c ts).
Proof. intros. unfold put. destruct (has n ts); [assumption|]. apply accepted_app; assumption. Qed.

(** Every type of a file that the compiler accepts is one of C23-C25: what holds of one definition
    holds of all of them. *)
Theorem C23_file : forall l ts ns ts' ns',
  accepted_env ts -> fits_file ts ns l -> visit_tops wrap64 ts ns l = Ok (ts', ns') ->
  accepted_env ts'.
Proof.
  induction l as [|[d|d] r IH]; intros ts ns ts' ns' He Hf H; cbn [visit_tops fits_file] in *.
  - injection H as <- _. exact He.
  - apply bind_ok in H. destruct H as ([s ns1] & E & H). destruct Hf as [Hw Hf].
    eapply IH; [|apply Hf; exact E|exact H]. apply accepted_put; [exact He|]. econstructor; eauto.
  - apply bind_ok in H. destruct H as ([e ns1] & E & H). destruct Hf as [Hw Hf].
    eapply IH; [|apply Hf; exact E|exact H]. apply accepted_put; [exact He|]. econstructor; eauto.
Qed.

(** ** C26 *)
Lemma add_name_enum ns n p ns' v : add_name ns n (NPos p) = Ok ns' ->
  visit_enumval ns' v = visit_enumval ns v.
Proof.
  unfold visit_enumval. destruct (ev_val v) as [[l|k]|]; auto. intros H.
  apply add_name_const with (c := ACIdent k) in H. cbn [const_value] in H.
  destruct (get k ns') as [[|]|], (get k ns) as [[|]|]; congruence.
Qed.
Lemma visit_enumval_given ns v z : visit_enumval ns v = Ok z ->
  match ev_val v with None => z = -1 | Some c => const_value ns c = Some z end.
Proof.
  unfold visit_enumval. destruct (ev_val v) as [[l|k]|]; cbn [const_value].
  - intros H. apply bind_ok in H. destruct H as (x & E & H). destruct x; try discriminate.
    injection H as ->. destruct l; cbn [visit_lit] in E; try discriminate.
    apply bind_ok in E. destruct E as (y & E & E'). apply int_lit_ok in E. subst y. injection E' as <-. reflexivity.
  - destruct (get k ns) as [[|]|]; congruence.
  - congruence.
Qed.

Lemma enumvals_spec w ns l : forall acc vals, visit_enumvals w ns l acc = Ok vals ->
  NoDup (map fst acc) ->
  exists new, vals = acc ++ new /\ map fst new = map ev_name l /\ NoDup (map fst vals) /\
    (forall v, In v l -> is_capitalized (ev_name v) = true) /\
    forall i v, nth_error l i = Some v -> exists nm p z g,
      nth_error new i = Some (nm, (z, p)) /\ p = ev_pos v /\ visit_enumval ns v = Ok g /\
      z = if g =? -1 then
            match rev (acc ++ firstn i new) with [] => 0 | (_, (x, _)) :: _ => w (x + 1) end
          else g.
Proof.
  induction l as [|v r IH]; intros acc vals H Hn; cbn [visit_enumvals] in H.
  - injection H as <-. exists []. rewrite app_nil_r. split; [reflexivity|]. split; [reflexivity|].
    split; [exact Hn|]. split; [intros v []|]. intros [|i]; discriminate.
  - apply bind_ok in H. destruct H as (name & E1 & H).
    apply bind_ok in H. destruct H as (z & E2 & H).
    unfold cap_name in E1. destruct (is_capitalized (ev_name v)) eqn:Ec; [|discriminate].
    injection E1 as <-. destruct (has (ev_name v) acc) eqn:Eh; [discriminate|].
    rewrite put_new in H by exact Eh. apply has_keys in Eh.
    set (z' := if z =? -1 then _ else z) in H.
    destruct (IH _ _ H) as (new & -> & Hk & Hnd & Hcap & Hi).
    { rewrite map_app. apply NoDup_snoc; assumption. }
    exists ((ev_name v, (z', ev_pos v)) :: new). rewrite <- app_assoc in *.
    split; [reflexivity|]. split; [cbn [map fst]; congruence|]. split; [exact Hnd|].
    split; [intros v0 [<-|Hv]; auto|].
    intros [|i] v0 H0; cbn [nth_error firstn] in *.
    + injection H0 as <-. exists (ev_name v), (ev_pos v), z', z. rewrite app_nil_r. auto.
    + destruct (Hi _ _ H0) as (nm & p & z0 & g & K1 & K2 & K3 & K4).
      exists nm, p, z0, g. rewrite <- app_assoc in K4. auto.
Qed.

(** The members of an enum keep their names and order; names are unique; a member given an explicit
    value other than -1 has that value; one without a value has the value of its predecessor plus
    one, the first one 0 (C26_minus_one_refuted shows what happens to -1). *)
Theorem C26_enum_values : forall ns d e ns',
  visit_enum wrap64 ns d = Ok (e, ns') ->
  map fst (ce_vals e) = map ev_name (en_vals d) /\ NoDup (map fst (ce_vals e)) /\
  ce_vals e <> [] /\
  (forall v, In v (en_vals d) -> is_capitalized (ev_name v) = true) /\
  forall i v, nth_error (en_vals d) i = Some v -> exists z,
    nth_error (map snd (ce_vals e)) i = Some z /\
    match ev_val v with
    | Some c => exists x, const_value ns c = Some x /\ (x <> -1 -> z = x)
    | None =>
        match i with
        | O => z = 0
        | S j => forall x, nth_error (map snd (ce_vals e)) j = Some x ->
                   - 2 ^ 63 <= x < 2 ^ 63 - 1 -> z = x + 1
        end
    end.
Proof.
  intros ns d e ns' H. apply visit_enum_inv in H.
  destruct H as (ns1 & vals & _ & Ea & _ & Ev & Hne & _ & _ & Hce).
  apply enumvals_spec in Ev; [|constructor]. destruct Ev as (new & Hv & Hk & Hnd & Hcap & Hi).
  cbn [app] in Hv. subst new.
  assert (Hf : map fst (ce_vals e) = map fst vals).
  { rewrite Hce, map_map. reflexivity. }
  split; [congruence|]. split; [congruence|]. split.
  { rewrite Hce. destruct vals; [congruence|discriminate]. }
  split; [exact Hcap|]. intros i v Hiv.
  destruct (Hi _ _ Hiv) as (nm & p & z & g & K1 & _ & K3 & K4).
  assert (Hs : map snd (ce_vals e) = map (fun x => fst (snd x)) vals).
  { rewrite Hce, map_map. reflexivity. }
  exists z. rewrite Hs. split; [rewrite nth_error_map, K1; reflexivity|].
  rewrite (add_name_enum _ _ _ _ _ Ea) in K3.
  apply visit_enumval_given in K3. destruct (ev_val v) as [c|].
  - exists g. split; [exact K3|]. intros Hg. destruct (g =? -1) eqn:E; [lia|exact K4].
  - subst g. cbn [Z.eqb app] in K4. 
    destruct i as [|j]; [cbn in K4; exact K4|].
    intros x Hx Hr. rewrite nth_error_map in Hx.
    destruct (nth_error vals j) as [[nm' [x' p']]|] eqn:Ej; [|discriminate].
    cbn in Hx. injection Hx as ->.
    assert (Hfn : firstn (S j) vals = firstn j vals ++ [(nm', (x, p'))]).
    { clear -Ej. revert vals Ej. induction j as [|j IH]; intros [|a r] Ej; cbn in *; try discriminate.
      - injection Ej as ->. reflexivity.
      - f_equal. apply IH. exact Ej. }
    rewrite Hfn, rev_app_distr in K4. cbn [rev app] in K4.
    change (z = wrap64 (x + 1)) in K4. rewrite K4.
    unfold wrap64, sext. change (2 ^ 63) with 9223372036854775808 in *.
    change (2 ^ (64 - 1)) with 9223372036854775808. change (2 ^ 64) with 18446744073709551616.
    cbv zeta. destruct (Z.leb_spec 0 (x + 1)).
    + rewrite Z.mod_small by lia. destruct (_ <? _) eqn:E; lia.
    + replace ((x + 1) mod 18446744073709551616) with (x + 1 + 18446744073709551616).
      * destruct (_ <? _) eqn:E; lia.
      * apply Z.mod_unique with (q := -1); lia.
Qed.

(** ** C43 *)
(** References [struct x] and [enum x] use capitalised names. *)
Fixpoint refs_elem (e : a_elem) : Prop :=
  match e with
  | AeStructRef n | AeEnumRef n => is_capitalized n = true
  | AeStructDef d => refs_struct d
  | _ => True
  end
with refs_struct (d : a_struct) : Prop :=
  match d with AStruct _ _ _ b => refs_body b end
with refs_body (b : a_body) : Prop :=
  match b with
  | ABNil => True
  | ABEmpty r | ABVoid _ _ r | ABConst _ _ _ _ _ r => refs_body r
  | ABEmb e _ _ r | ABNormal e _ _ _ _ _ r => refs_elem e /\ refs_body r
  end.
Definition refs_top (t : a_top) : Prop :=
  match t with ATStruct d => refs_struct d | ATEnum _ => True end.

Lemma bind_panic {A B} (m : res A) (f : A -> res B) :
  bind m f = Panic -> m = Panic \/ exists a, m = Ok a /\ f a = Panic.
Proof. destruct m; cbn; eauto; discriminate. Qed.
Lemma int_lit_np n : int_lit n <> Panic.
Proof. unfold int_lit. destruct (_ <? _); discriminate. Qed.
Lemma visit_lit_np l : visit_lit l <> Panic.
Proof.
  destruct l; cbn [visit_lit]; try discriminate. intros H. apply bind_panic in H.
  destruct H as [H|(a & _ & H)]; [exact (int_lit_np _ H)|discriminate].
Qed.
Lemma visit_size_np w s : visit_size w s <> Panic.
Proof.
  unfold visit_size. intros H. apply bind_panic in H.
  destruct H as [H|(a & _ & H)]; [exact (int_lit_np _ H)|]. apply bind_panic in H.
  destruct H as [H|(b & _ & H)]; [exact (int_lit_np _ H)|].
  cbv zeta in H. destruct (_ =? 0); discriminate.
Qed.
Lemma visit_opt_size_np w s : visit_opt_size w s <> Panic.
Proof. destruct s; [apply visit_size_np|discriminate]. Qed.
Lemma visit_options_np l : forall acc, visit_options l acc <> Panic.
Proof.
  induction l as [|[k v] r IH]; intros acc; cbn [visit_options]; [discriminate|]. intros H.
  apply bind_panic in H. destruct H as [H|(a & _ & H)]; [exact (visit_lit_np _ H)|].
  destruct (option_valid k a); [|discriminate]. destruct (has k acc); [discriminate|].
  exact (IH _ H).
Qed.
Lemma uncap_np n : uncap_name n <> Panic.
Proof. unfold uncap_name. destruct (is_uncapitalized n); discriminate. Qed.
Lemma cap_np n : cap_name n <> Panic.
Proof. unfold cap_name. destruct (is_capitalized n); discriminate. Qed.
Lemma visit_methods_np l : forall acc, visit_methods l acc <> Panic.
Proof.
  induction l as [|m r IH]; intros acc; cbn [visit_methods]; [discriminate|]. intros H.
  apply bind_panic in H. destruct H as [H|(a & _ & H)].
  - destruct (m_name m); [exact (uncap_np _ H)|discriminate].
  - destruct (get a acc) as [[[g s] t]|]; [|exact (IH _ H)].
    destruct (if m_get m then g else s); [discriminate|].
    destruct (basic_eqb _ _); [exact (IH _ H)|discriminate].
Qed.
Lemma add_name_np ns n v : add_name ns n v <> Panic.
Proof. unfold add_name. destruct (get n ns); [destruct (pos_eqb _ _)|]; discriminate. Qed.
Lemma visit_arr_np a : visit_arr a <> Panic.
Proof.
  destruct a; cbn [visit_arr]; [|discriminate]. intros H. apply bind_panic in H.
  destruct H as [H|(x & _ & H)]; [exact (int_lit_np _ H)|]. destruct (x =? 0); discriminate.
Qed.
Lemma body_names_np l : forall seen, body_names seen l <> Panic.
Proof.
  induction l as [|n r IH]; intros seen; cbn [body_names]; [discriminate|]. intros H.
  apply bind_panic in H. destruct H as [H|(x & _ & H)]; [|exact (IH _ H)].
  unfold body_name in H. destruct (mem n seen); discriminate.
Qed.
Lemma add_field_np st f : add_field st f <> Panic.
Proof.
  unfold add_field. intros H. apply bind_panic in H.
  destruct H as [H|(x & _ & H)]; [exact (body_names_np _ _ H)|discriminate].
Qed.
Lemma add_fields_np l : forall st, add_fields st l <> Panic.
Proof.
  induction l as [|f r IH]; intros st; cbn [add_fields]; [discriminate|]. intros H.
  apply bind_panic in H. destruct H as [H|(x & _ & H)]; [exact (add_field_np _ _ H)|exact (IH _ H)].
Qed.
Lemma check_struct_np w p n sz l : check_struct w p n sz l <> Panic.
Proof.
  unfold check_struct. destruct l; [discriminate|]. destruct (check_align _ _ _); [|discriminate].
  cbv zeta. destruct (Z.rem _ 8 =? 0); [|discriminate]. destruct (sz =? 0); [discriminate|].
  destruct (sum_dyn _); [discriminate|]. destruct (_ =? sz); discriminate.
Qed.

Lemma visit_np w :
  (forall e ts ns, refs_elem e -> visit_elem w ts ns e <> Panic) /\
  (forall d ts ns, refs_struct d -> visit_struct w ts ns d <> Panic) /\
  (forall b ts ns st, refs_body b -> visit_body w ts ns b st <> Panic).
Proof.
  apply ast_ind.
  - discriminate.
  - discriminate.
  - discriminate.
  - intros n ts ns Hr H. cbn [visit_elem refs_elem] in *. apply bind_panic in H.
    destruct H as [H|(x & _ & H)]; [|discriminate]. unfold visit_struct_ref in H.
    rewrite Hr in H. destruct (get n ts) as [[|]|]; discriminate.
  - intros d IH ts ns Hr H. rewrite visit_elem_def in H. apply bind_panic in H.
    destruct H as [H|([s ns'] & _ & H)]; [|discriminate]. exact (IH _ _ Hr H).
  - intros n ts ns Hr H. cbn [visit_elem refs_elem] in *. apply bind_panic in H.
    destruct H as [H|(x & _ & H)]; [|discriminate]. unfold visit_enum_ref in H.
    rewrite Hr in H. destruct (get n ts) as [[|]|]; discriminate.
  - intros n ts ns Hr H. cbn [visit_elem] in *. apply bind_panic in H.
    destruct H as [H|(x & _ & H)]; [|discriminate]. unfold visit_ident in H.
    destruct (get n ts); discriminate.
  - intros p name size body IH ts ns Hr H. rewrite visit_struct_def in H.
    apply bind_panic in H. destruct H as [H|(nm & _ & H)]; [exact (cap_np _ H)|].
    apply bind_panic in H. destruct H as [H|(ns1 & _ & H)]; [exact (add_name_np _ _ _ H)|].
    apply bind_panic in H. destruct H as [H|(sz & _ & H)]; [exact (visit_opt_size_np _ _ H)|].
    apply bind_panic in H. destruct H as [H|([st ns2] & _ & H)]; [exact (IH _ _ _ Hr H)|].
    apply bind_panic in H. destruct H as [H|(s & _ & H)]; [exact (check_struct_np _ _ _ _ _ H)|].
    discriminate.
  - discriminate.
  - intros r IH ts ns st Hr. exact (IH ts ns st Hr).
  - intros size opts r IH ts ns st Hr H. cbn [visit_body refs_body] in *.
    apply bind_panic in H. destruct H as [H|(sz & _ & H)]; [exact (visit_size_np _ _ H)|].
    apply bind_panic in H. destruct H as [H|(o & _ & H)]; [exact (visit_options_np _ _ H)|].
    apply bind_panic in H. destruct H as [H|(st1 & _ & H)]; [exact (add_field_np _ _ H)|].
    exact (IH _ _ _ Hr H).
  - intros b name size c opts r IH ts ns st Hr H. cbn [visit_body refs_body] in *.
    apply bind_panic in H. destruct H as [H|(nm & _ & H)].
    { destruct name; [exact (uncap_np _ H)|discriminate]. }
    apply bind_panic in H. destruct H as [H|(sz & _ & H)]; [exact (visit_opt_size_np _ _ H)|].
    apply bind_panic in H. destruct H as [H|(n & _ & H)].
    { destruct (sz =? 0); [discriminate|]. destruct (_ <? sz); discriminate. }
    apply bind_panic in H. destruct H as [H|(l & _ & H)].
    { destruct c as [l|k]; cbn [visit_const] in H; [exact (visit_lit_np _ H)|].
      destruct (get k ns) as [[|]|]; discriminate. }
    destruct (const_match (basic_of b) l); [|discriminate].
    apply bind_panic in H. destruct H as [H|(o & _ & H)]; [exact (visit_options_np _ _ H)|].
    apply bind_panic in H. destruct H as [H|(st1 & _ & H)]; [exact (add_field_np _ _ H)|].
    exact (IH _ _ _ Hr H).
  - intros e IHe arr opts r IH ts ns st [Hr1 Hr2] H. rewrite visit_body_emb in H.
    apply bind_panic in H. destruct H as [H|([v ns1] & _ & H)]; [exact (IHe _ _ Hr1 H)|].
    apply bind_panic in H. destruct H as [H|(a & _ & H)]; [exact (visit_arr_np _ H)|].
    destruct v as [s|t]; [|discriminate]. destruct a; [discriminate|].
    apply bind_panic in H. destruct H as [H|(o & _ & H)]; [exact (visit_options_np _ _ H)|].
    apply bind_panic in H. destruct H as [H|(st1 & _ & H)].
    { unfold add_embedded in H. apply bind_panic in H.
      destruct H as [H|(x & _ & H)]; [exact (add_field_np _ _ H)|exact (add_fields_np _ _ H)]. }
    exact (IH _ _ _ Hr2 H).
  - intros e IHe arr name size opts ms r IH ts ns st [Hr1 Hr2] H. rewrite visit_body_normal in H.
    apply bind_panic in H. destruct H as [H|([v ns1] & _ & H)]; [exact (IHe _ _ Hr1 H)|].
    apply bind_panic in H. destruct H as [H|(a & Ea & H)]; [exact (visit_arr_np _ H)|].
    apply bind_panic in H. destruct H as [H|(nm & _ & H)]; [exact (uncap_np _ H)|].
    apply bind_panic in H. destruct H as [H|(sz & _ & H)]; [exact (visit_opt_size_np _ _ H)|].
    apply bind_panic in H. destruct H as [H|(n & _ & H)].
    { unfold normal_size in H. cbv zeta in H. apply visit_arr_ok in Ea. destruct Ea as [_ Ea].
      destruct (sz =? 0); [discriminate|]. destruct (type_bits _ _ _ =? -1); [discriminate|].
      destruct (type_bits _ _ _ <? sz); [discriminate|]. destruct a as [len|].
      - specialize (Ea len eq_refl). destruct (len =? 0) eqn:E0; [lia|].
        destruct (Z.rem sz len =? 0); discriminate.
      - destruct v; [|discriminate]. destruct (sz =? type_bits _ _ _); discriminate. }
    apply bind_panic in H. destruct H as [H|(o & _ & H)]; [exact (visit_options_np _ _ H)|].
    apply bind_panic in H. destruct H as [H|(g & _ & H)].
    { destruct ms; [discriminate|]. destruct v as [s|[[] tb td]]; try discriminate.
      destruct a; [discriminate|]. exact (visit_methods_np _ _ H). }
    apply bind_panic in H. destruct H as [H|(st1 & _ & H)]; [exact (add_field_np _ _ H)|].
    exact (IH _ _ _ Hr2 H).
Qed.

Lemma visit_enum_np w ns d : visit_enum w ns d <> Panic.
Proof.
  unfold visit_enum. intros H.
  apply bind_panic in H. destruct H as [H|(nm & _ & H)]; [exact (cap_np _ H)|].
  apply bind_panic in H. destruct H as [H|(ns1 & _ & H)]; [exact (add_name_np _ _ _ H)|].
  apply bind_panic in H. destruct H as [H|(sz & _ & H)]; [exact (visit_size_np _ _ H)|].
  apply bind_panic in H. destruct H as [H|(vals & _ & H)].
  - revert H. generalize (@nil (string * (Z * pos))). induction (en_vals d) as [|v r IH]; intros acc H;
      cbn [visit_enumvals] in H; [discriminate|].
    apply bind_panic in H. destruct H as [H|(n & _ & H)]; [exact (cap_np _ H)|].
    apply bind_panic in H. destruct H as [H|(z & _ & H)].
    { unfold visit_enumval in H. destruct (ev_val v) as [[l|k]|]; [| |discriminate].
      - apply bind_panic in H. destruct H as [H|(x & _ & H)]; [exact (visit_lit_np _ H)|].
        destruct x; discriminate.
      - destruct (get k ns1) as [[|]|]; discriminate. }
    destruct (has n acc); [discriminate|]. exact (IH _ H).
  - destruct vals as [|v0 vr]; [discriminate|].
    apply bind_panic in H. destruct H as [H|(x & _ & H)]; [|discriminate].
    revert H. generalize (v0 :: vr). intros l. revert ns1.
    induction l as [|[n [z p]] r IH]; intros ns1 H; cbn [add_enum_names] in H; [discriminate|].
    apply bind_panic in H. destruct H as [H|(y & _ & H)]; [exact (add_name_np _ _ _ H)|].
    exact (IH _ H).
Qed.

(** Compiling a file never crashes, whatever the sizes, names, options, constants, types and
    nesting, provided that references written [struct x] or [enum x] use capitalised names. *)
Theorem C43_no_crash : forall l ts ns,
  Forall refs_top l -> visit_tops wrap64 ts ns l <> Panic.
Proof.
  induction l as [|[d|d] r IH]; intros ts ns Hr; cbn [visit_tops]; [discriminate| |];
    inversion Hr as [|x y Hx Hy]; subst; intros H; apply bind_panic in H.
  - destruct H as [H|([s ns'] & _ & H)]; [|exact (IH _ _ Hy H)].
    exact (proj1 (proj2 (visit_np wrap64)) _ _ _ Hx H).
  - destruct H as [H|([s ns'] & _ & H)]; [|exact (IH _ _ Hy H)]. exact (visit_enum_np _ _ _ H).
Qed.

(** ** Concrete cases *)
Definition at_ (l c : Z) : pos := {| p_file := "/a.bb"; p_line := l; p_col := c |}.

(** enum Color[1] { RED = 2; GREEN; BLUE = 0x10; }
    struct Point[4] { int16 x; int16 y [order = "big"]; }
    struct Frame {
      uint8 kind = 7;  Point;  void[#4];  uint8 lo[#4] { get low(): uint8 ... };
      Color<3> cols;  string name;  struct Point<2> pts;  Color c[1]; } *)
Definition ex_enum : a_enum :=
  {| en_pos := at_ 1 5; en_name := "Color"; en_size := (1, 0)%N;
     en_vals := [ {| ev_pos := at_ 1 16; ev_name := "RED"; ev_val := Some (ACLit (LInt false 2)) |};
                  {| ev_pos := at_ 1 25; ev_name := "GREEN"; ev_val := None |};
                  {| ev_pos := at_ 1 32; ev_name := "BLUE"; ev_val := Some (ACLit (LInt false 16)) |} ] |}.
Definition ex_point : a_struct :=
  AStruct (at_ 2 7) "Point" (Some (4, 0)%N)
    (ABNormal (AeBasic Int16) None "x" None [] []
    (ABNormal (AeBasic Int16) None "y" None [("order", LStr "big")] [] ABNil)).
Definition ex_method : a_method := {| m_get := true; m_name := Some "low"; m_type := Uint8 |}.
Definition ex_frame : a_struct :=
  AStruct (at_ 3 7) "Frame" None
    (ABConst Uint8 (Some "kind") None (ACIdent "GREEN") []
    (ABEmb (AeIdent "Point") None []
    (ABVoid (0, 4)%N []
    (ABNormal (AeBasic Uint8) None "lo" (Some (0, 4)%N) [] [ex_method]
    (ABNormal (AeEnumRef "Color") (Some 3%N) "cols" None [] []
    (ABNormal AeString None "name" None [] []
    (ABNormal (AeStructRef "Point") (Some 2%N) "pts" None [] []
    (ABEmpty ABNil)))))))).
Definition ex_file : list a_top := [ATEnum ex_enum; ATStruct ex_point; ATStruct ex_frame].
Definition ex_env : res (types_t * names_t) := visit_tops wrap64 [] [] ex_file.

(** A decision procedure for the size hypothesis. *)
Fixpoint fits_fileb (ts : types_t) (ns : names_t) (l : list a_top) : bool :=
  match l with
  | [] => true
  | ATStruct d :: r =>
      (weight_struct ts d <? 2 ^ 63) &&
      match visit_struct wrap64 ts ns d with
      | Ok (s, ns') => fits_fileb (put (cs_name s) (CTStruct s) ts) ns' r
      | _ => true
      end
  | ATEnum d :: r =>
      (size_bits (en_size d) <? 2 ^ 63) &&
      match visit_enum wrap64 ns d with
      | Ok (e, ns') => fits_fileb (put (ce_name e) (CTEnum e) ts) ns' r
      | _ => true
      end
  end.
Lemma fits_fileb_ok l : forall ts ns, fits_fileb ts ns l = true -> fits_file ts ns l.
Proof.
  induction l as [|[d|d] r IH]; intros ts ns H; cbn [fits_fileb fits_file] in *; [exact I| |];
    apply andb_true_iff in H; destruct H as [H1 H2]; apply Z.ltb_lt in H1;
    (split; [exact H1|]); intros x ns' E; rewrite E in H2; auto.
Qed.

Definition ex_types : types_t := Eval vm_compute in match ex_env with Ok (ts, _) => ts | _ => [] end.
Definition ex_names : names_t := Eval vm_compute in match ex_env with Ok (_, ns) => ns | _ => [] end.
Lemma ex_visited : visit_tops wrap64 [] [] ex_file = Ok (ex_types, ex_names).
Proof. vm_compute. reflexivity. Qed.
Lemma ex_fits : fits_file [] [] ex_file.
Proof. apply fits_fileb_ok. vm_compute. reflexivity. Qed.

Example C23_instance :
  fits_file [] [] ex_file /\
  visit_tops wrap64 [] [] ex_file = Ok (ex_types, ex_names) /\ accepted_env ex_types /\
  exists s, get "Frame" ex_types = Some (CTStruct s) /\ limits (erase (cs_fields s)) /\
    cs_bits s = 136 /\ cs_dyn s = true /\
    map nbits (cs_fields s) = [8; 0; 16; 16; 4; 4; 24; -1; 64] /\
    flat_map names_of (cs_fields s) = ["kind"; "Point"; "x"; "y"; "lo"; "low"; "cols"; "name"; "pts"].
Proof.
  split; [exact ex_fits|]. split; [exact ex_visited|].
  split; [exact (C23_file _ _ _ _ _ ae_nil ex_fits ex_visited)|].
  eexists. split; [reflexivity|].
  split; [cbn; repeat split; lia || auto|]. split; [reflexivity|]. split; [reflexivity|].
  split; reflexivity.
Qed.

Example C26_instance : exists e ns', visit_enum wrap64 [] ex_enum = Ok (e, ns') /\
  ce_vals e = [("RED", 2); ("GREEN", 3); ("BLUE", 16)].
Proof. eexists _, _. split; [vm_compute; reflexivity|reflexivity]. Qed.

Example C43_instance : Forall refs_top ex_file.
Proof. repeat constructor. Qed.

(** C24: without the size hypothesis the widths are not what they should be: [void[2^60]] is a field
    of -2^63 bits (2^60 bytes, times 8, wraps around), and the struct is accepted as having 8 bits. *)
Definition ex_wrap : a_struct :=
  AStruct (at_ 1 7) "S" None
    (ABVoid (1152921504606846976, 0)%N [] (ABNormal (AeBasic Uint8) None "a" None [] [] ABNil)).
Theorem C24_int64_wrap_refuted : exists s ns',
  visit_struct wrap64 [] [] ex_wrap = Ok (s, ns') /\
  ~ Forall width_ok (cs_fields s) /\ cs_bits s = 8.
Proof.
  eexists _, _. split; [vm_compute; reflexivity|]. split; [|reflexivity].
  cbn [cs_fields]. intros H. inversion H as [|x y Hx Hy]; subst. cbn [width_ok] in Hx. lia.
Qed.
(** A scalar field can be given a negative width, too: [uint8 a[1152921504606846976]]. *)
Definition ex_wrap2 : a_struct :=
  AStruct (at_ 1 7) "S" None
    (ABNormal (AeBasic Uint8) None "a" (Some (1152921504606846976, 0)%N) [] []
    (ABNormal (AeBasic Uint8) None "b" None [] [] ABNil)).
Theorem C24_negative_width_refuted : exists s ns',
  visit_struct wrap64 [] [] ex_wrap2 = Ok (s, ns') /\
  map nbits (cs_fields s) = [- 2 ^ 63; 8].
Proof. eexists _, _. split; [vm_compute; reflexivity|reflexivity]. Qed.

(** C23: the two restrictions of [limits] are really not checked: an enum of 80 bits, and an array
    of two 16-bit structs declared to have 2 bytes in all. *)
Definition ex_wide : a_struct :=
  AStruct (at_ 2 7) "S" None (ABNormal (AeIdent "E") None "e" None [] [] ABNil).
Definition ex_wide_enum : a_enum :=
  {| en_pos := at_ 1 5; en_name := "E"; en_size := (10, 0)%N;
     en_vals := [ {| ev_pos := at_ 1 12; ev_name := "A"; ev_val := None |} ] |}.
Theorem C24_wide_enum_refuted : exists ts ns s,
  visit_tops wrap64 [] [] [ATEnum ex_wide_enum; ATStruct ex_wide] = Ok (ts, ns) /\
  get "S" ts = Some (CTStruct s) /\ ~ wf_struct (erase (cs_fields s)).
Proof.
  eexists _, _, _. split; [vm_compute; reflexivity|]. split; [reflexivity|].
  intros [H _]. cbn in H. lia.
Qed.
Definition ex_narrow : a_struct :=
  AStruct (at_ 2 7) "S" None
    (ABNormal (AeStructDef (AStruct (at_ 3 2) "P" None (ABNormal (AeBasic Uint16) None "x" None [] [] ABNil)))
              (Some 2%N) "p" (Some (2, 0)%N) [] [] ABNil).
Theorem C24_struct_array_width_refuted : exists s ns',
  visit_struct wrap64 [] [] ex_narrow = Ok (s, ns') /\
  cs_bits s = 16 /\ ~ wf_struct (erase (cs_fields s)).
Proof.
  eexists _, _. split; [vm_compute; reflexivity|]. split; [reflexivity|].
  intros [H _]. cbn in H. destruct H as (_ & _ & (_ & H) & _). lia.
Qed.

(** C26: an explicit value of -1 is silently replaced, two members can have the same value, and a
    value need not fit the declared width. *)
Definition ex_bad_enum : a_enum :=
  {| en_pos := at_ 1 5; en_name := "E"; en_size := (0, 2)%N;
     en_vals := [ {| ev_pos := at_ 1 12; ev_name := "A"; ev_val := Some (ACLit (LInt false 9)) |};
                  {| ev_pos := at_ 1 20; ev_name := "B"; ev_val := Some (ACLit (LInt true 1)) |};
                  {| ev_pos := at_ 1 30; ev_name := "C"; ev_val := Some (ACLit (LInt false 10)) |} ] |}.
Theorem C26_minus_one_refuted : exists e ns',
  visit_enum wrap64 [] ex_bad_enum = Ok (e, ns') /\
  ce_bits e = 2 /\ ce_vals e = [("A", 9); ("B", 10); ("C", 10)].
Proof. eexists _, _. split; [vm_compute; reflexivity|split; reflexivity]. Qed.

(** C43: a reference [struct foo] with a lower-case name crashes the compiler. *)
Theorem C43_lower_case_refuted :
  visit_tops wrap64 [] [] [ATStruct (AStruct (at_ 1 7) "S" None
    (ABNormal (AeStructRef "foo") None "f" None [] [] ABNil))] = Panic.
Proof. vm_compute. reflexivity. Qed.

(** ** C44: which options are accepted *)
Lemma visit_options_complete l : forall acc,
  NoDup (map fst l) -> (forall k, In k (map fst l) -> ~ In k (map fst acc)) ->
  (forall v, In ("order", v) l -> v = LStr "big" \/ v = LStr "little") ->
  (forall k neg n, In (k, LInt neg n) l -> Z.of_N n < 2 ^ 63) ->
  exists o, visit_options l acc = Ok o.
Proof.
  induction l as [|[k v] r IH]; intros acc Hn Hd Ho Hi; cbn [visit_options]; [eauto|].
  inversion Hn as [|x y Hx Hy]; subst.
  assert (Hlit : exists v', visit_lit v = Ok v').
  { destruct v as [neg n|z|b|s]; cbn [visit_lit]; eauto. unfold int_lit.
    specialize (Hi k neg n (or_introl eq_refl)). destruct (_ <? _) eqn:E; [cbn; eauto|].
    apply Z.ltb_ge in E. lia. }
  destruct Hlit as [v' Hv]. rewrite Hv. cbn [bind].
  assert (Hval : option_valid k v' = true).
  { unfold option_valid. destruct (String.eqb_spec k "order"); [|reflexivity]. subst k.
    destruct (Ho v (or_introl eq_refl)) as [-> | ->]; injection Hv as <-; reflexivity. }
  rewrite Hval. assert (Hh : has k acc = false) by (apply has_keys; apply Hd; left; reflexivity).
  rewrite Hh, put_new by exact Hh. apply IH.
  - exact Hy.
  - intros k' Hk'. rewrite map_app, in_app_iff. cbn. intros [H|[H|[]]].
    + exact (Hd k' (or_intror Hk') H).
    + subst k'. exact (Hx Hk').
  - intros w Hw. apply Ho. right. exact Hw.
  - intros k' neg n Hk'. apply (Hi k' neg n). right. exact Hk'.
Qed.

(** The options of a field are accepted exactly if no option is repeated, the byte order is "big" or
    "little" and the integers fit an int64. *)
Theorem C44_options_accepted : forall opts,
  (exists o, visit_options opts [] = Ok o) <->
  NoDup (map fst opts) /\
  (forall v, In ("order", v) opts -> v = LStr "big" \/ v = LStr "little") /\
  (forall k neg n, In (k, LInt neg n) opts -> Z.of_N n < 2 ^ 63).
Proof.
  intros opts. split.
  - intros [o H]. pose proof (visit_options_ok _ _ H) as (K1 & K2 & _). split; [exact K1|].
    split; [exact K2|]. intros k neg n Hi.
    apply visit_options_spec in H; [|constructor]. destruct H as (l' & _ & Hf & _).
    destruct (Forall2_In_l _ _ _ _ Hf Hi) as ([k' v'] & _ & _ & Hl & _). cbn [snd visit_lit] in Hl.
    apply bind_ok in Hl. destruct Hl as (z & E & _). unfold int_lit in E.
    destruct (Z.of_N n <? 2 ^ 63) eqn:E0; [|discriminate]. apply Z.ltb_lt. exact E0.
  - intros (K1 & K2 & K3). apply visit_options_complete; auto.
Qed.
(** And the byte order they give is big endian exactly if [order = "big"] is among them. *)
Theorem C44_order : forall opts o, visit_options opts [] = Ok o ->
  (order_big o = true <-> In ("order", LStr "big") opts).
Proof. intros opts o H. apply visit_options_ok in H. apply H. Qed.
Example C44_instance :
  (exists o, visit_options [("order", LStr "little"); ("unit", LStr "mm"); ("max", LInt true 5)] [] = Ok o) /\
  ~ (exists o, visit_options [("order", LStr "middle")] [] = Ok o) /\
  ~ (exists o, visit_options [("order", LStr "big"); ("order", LStr "big")] [] = Ok o).
Proof. split; [eexists; reflexivity|]. split; intros [o H]; discriminate. Qed.

(** ** C45: which getters and setters are accepted *)
Lemma visit_methods_complete l : forall pre acc, minv pre acc ->
  (forall m, In m l -> exists n, m_name m = Some n /\ is_uncapitalized n = true) ->
  (forall i j m m', nth_error (pre ++ l) i = Some m -> nth_error (pre ++ l) j = Some m' ->
     m_name m = m_name m' -> m_type m = m_type m' /\ (m_get m = m_get m' -> i = j)) ->
  exists g, visit_methods l acc = Ok g.
Proof.
  induction l as [|m r IH]; intros pre acc Hi Hnm Hp; cbn [visit_methods]; [eauto|].
  destruct (Hnm m (or_introl eq_refl)) as (n & En & Eu). rewrite En. unfold uncap_name. rewrite Eu.
  cbn [bind]. change (pre ++ m :: r) with (pre ++ [m] ++ r) in Hp. rewrite app_assoc in Hp.
  assert (Hm : nth_error ((pre ++ [m]) ++ r) (length pre) = Some m).
  { rewrite nth_error_app1 by (rewrite app_length; cbn; lia).
    rewrite nth_error_app2 by lia. rewrite Nat.sub_diag. reflexivity. }
  assert (Hpre : forall m', In m' pre -> m_name m' = Some n ->
            m_type m' = m_type m /\ m_get m' <> m_get m).
  { intros m' Hin En'. apply In_nth_error in Hin. destruct Hin as [i Hin].
    assert (i < length pre)%nat by (apply nth_error_Some; congruence).
    destruct (Hp i (length pre) m' m) as [K1 K2]; [|exact Hm|congruence|].
    - rewrite <- app_assoc, nth_error_app1 by assumption. exact Hin.
    - split; [exact K1|]. intros K. apply K2 in K. lia. }
  destruct (get n acc) as [[[g s] t]|] eqn:Eg.
  - destruct Hi as (I1 & I2 & I3 & I4). destruct (I3 _ _ _ _ Eg) as (J1 & J2 & J3 & J4).
    assert (Hfree : (if m_get m then g else s) = false).
    { destruct (m_get m) eqn:Em.
      - destruct g; [|reflexivity]. destruct (proj1 J1 eq_refl) as (m' & A & B & C).
        destruct (Hpre _ A B) as [_ K]. congruence.
      - destruct s; [|reflexivity]. destruct (proj1 J2 eq_refl) as (m' & A & B & C).
        destruct (Hpre _ A B) as [_ K]. congruence. }
    assert (Hty : basic_eqb t (basic_of (m_type m)) = true).
    { destruct J4 as (m' & A & B). rewrite <- (J3 _ A B). destruct (Hpre _ A B) as [-> _].
      apply basic_eqb_refl. }
    rewrite Hfree, Hty.
    apply (IH (pre ++ [m])); [|intros m' Hin; apply Hnm; right; exact Hin|exact Hp].
    eapply minv_step; [split; [exact I1|split; [exact I2|split; [exact I3|exact I4]]]|exact En|exact Eu|].
    rewrite Eg. auto.
  - apply (IH (pre ++ [m])); [|intros m' Hin; apply Hnm; right; exact Hin|exact Hp].
    eapply minv_step; [exact Hi|exact En|exact Eu|]. rewrite Eg. reflexivity.
Qed.

(** The methods of a field are accepted exactly if each has a lower-case name and no two of the same
    name are both getters, both setters or of different types. *)
Theorem C45_methods_accepted : forall ms,
  (exists g, visit_methods ms [] = Ok g) <->
  (forall m, In m ms -> exists n, m_name m = Some n /\ is_uncapitalized n = true) /\
  (forall i j m m', nth_error ms i = Some m -> nth_error ms j = Some m' -> m_name m = m_name m' ->
     m_type m = m_type m' /\ (m_get m = m_get m' -> i = j)).
Proof.
  intros ms. split.
  - intros [g H]. apply visit_methods_ok in H. destruct H as (_ & H2 & _ & H4). split; [|exact H4].
    intros m Hm. destruct (H2 m Hm) as (n & A & B & _). eauto.
  - intros [H1 H2]. apply (visit_methods_complete ms []); auto.
    split; [constructor|]. split; [intros m []|]. split; [intros n ? ? ?; discriminate|].
    intros [|i]; discriminate.
Qed.
Theorem C45_method_names : forall ms g, visit_methods ms [] = Ok g -> methods_ok ms (map fst g).
Proof. exact visit_methods_ok. Qed.
Example C45_instance :
  (exists g, visit_methods [ex_method; {| m_get := false; m_name := Some "low"; m_type := Uint8 |}] [] = Ok g)
  /\ ~ (exists g, visit_methods [ex_method; ex_method] [] = Ok g).
Proof. split; [eexists; reflexivity|]. intros [g H]. discriminate. Qed.

(** ** C23, converse: a body accepted field by field is rejected only for its layout *)
Theorem C23_layout_complete : forall ts ns p name size body ns1 st ns2,
  accepted_env ts -> fits_int64 ts (AStruct p name size body) ->
  is_capitalized name = true -> add_name ns name (NPos p) = Ok ns1 ->
  visit_body wrap64 ts ns1 body ([], []) = Ok (st, ns2) ->
  (forall x, size = Some x -> Z.of_N (fst x) < 2 ^ 63 /\ Z.of_N (snd x) < 2 ^ 63) ->
  snd st <> [] -> fixed_width (snd st) mod 8 = 0 ->
  (forall pre f post, snd st = pre ++ f :: post -> needs_byte_boundary f -> fixed_width pre mod 8 = 0) ->
  (forall x, size = Some x -> 0 < size_bits x /\ size_bits x = fixed_width (snd st) /\
     forall f, In f (snd st) -> ~ variable_size f) ->
  exists s, visit_struct wrap64 ts ns (AStruct p name size body) = Ok (s, ns2) /\
    cs_fields s = snd st.
Proof.
  intros ts ns p name size body ns1 st ns2 He Hw Hcap Hadd Hbody Hlit Hne H8 Hal Hsz.
  pose proof (accepted_full _ He) as Hfull.
  assert (Hwb : weight_body ts body < 2 ^ 63 /\ weight_size size < 2 ^ 63).
  { unfold fits_int64 in Hw. cbn [weight_struct] in Hw. pose proof (weight_size_nonneg size).
    destruct (weight_nonneg ts) as (_ & _ & K). specialize (K body). lia. }
  destruct Hwb as [Hwb Hws].
  assert (Hst0 : st_ok ([], [])) by (split; [reflexivity|constructor]).
  destruct (proj2 (proj2 visit_exact) body ts ns1 ([], []) Hfull Hst0) as [Heq Hb];
    [constructor|right; reflexivity|change (fixed_width (snd (@nil string, @nil nfield))) with 0; lia|].
  pose proof Hbody as Hbody'. rewrite Heq in Hbody'. specialize (Hb _ _ Hbody').
  change (fixed_width (snd (@nil string, @nil nfield))) with 0 in Hb.
  apply visit_sound in Hbody'; [|assumption|assumption|constructor|right; reflexivity].
  destruct Hbody' as (_ & Hf & _).
  rewrite visit_struct_def. unfold cap_name. rewrite Hcap. cbn [bind]. rewrite Hadd. cbn [bind].
  assert (Hs : visit_opt_size wrap64 size = Ok (weight_size size)).
  { rewrite visit_opt_size_exact by exact Hws.
    destruct size as [x|]; [|reflexivity]. cbn [visit_opt_size weight_size].
    destruct (Hlit x eq_refl) as [L1 L2]. destruct (Hsz x eq_refl) as [L3 _].
    unfold visit_size, int_lit. apply Z.ltb_lt in L1. apply Z.ltb_lt in L2. rewrite L1, L2.
    cbn [bind]. cbv zeta. unfold ideal, size_bits in *.
    destruct (_ =? 0) eqn:E0; [lia|]. f_equal. lia. }
  rewrite Hs. cbn [bind]. rewrite Hbody. cbn [bind].
  rewrite check_struct_exact; [|exact Hf|lia].
  assert (Ha : check_align ideal (snd st) 0 = true).
  { assert (Hgen : forall l from, Forall field_ok l -> 0 <= from ->
      (forall pre f post, l = pre ++ f :: post -> must_align f = true ->
         (from + fixed_width pre) mod 8 = 0) -> check_align ideal l from = true).
    { clear. induction l as [|f r IH]; intros from Hf Hfrom H; [reflexivity|].
      inversion Hf as [|x y Hx Hy]; subst. cbn [check_align]. apply andb_true_iff. split.
      - apply negb_true_iff. destruct (must_align f) eqn:Em; [|reflexivity].
        specialize (H [] f r eq_refl Em). change (fixed_width []) with 0 in H.
        rewrite Z.add_0_r in H. cbn [andb]. apply negb_false_iff. apply Z.eqb_eq.
        rewrite Z.rem_mod_nonneg by lia. exact H.
      - pose proof (nbits_ok _ Hx) as Hnb. unfold ideal at 2. apply IH; [exact Hy| |].
        + destruct (nbits f =? -1) eqn:E; lia.
        + intros pre g post -> Hm. specialize (H (f :: pre) g post eq_refl Hm).
          rewrite fixed_width_cons in H. destruct (nbits f =? -1) eqn:E.
          * apply Z.eqb_eq in E. rewrite E in H. exact H.
          * replace (from + nbits f + fixed_width pre) with (from + (Z.max 0 (nbits f) + fixed_width pre))
              by lia. exact H. }
    apply Hgen; [exact Hf|lia|]. intros pre f post Hl Hm. rewrite Z.add_0_l. eapply Hal; [exact Hl|].
    clear -Hm. destruct f as [nm ms [[] tb td] a n big|n|nm b n big z|nm]; cbn in *; try discriminate; exact I. }
  assert (Hdyn : forall x, size = Some x -> sum_dyn (snd st) = false).
  { intros x Hx. destruct (Hsz x Hx) as (_ & _ & Hv). unfold sum_dyn.
    destruct (existsb ndyn (snd st)) eqn:E; [|reflexivity]. apply existsb_exists in E.
    destruct E as (f & Hin & Hd). exfalso. apply (Hv f Hin). rewrite Forall_forall in Hf.
    specialize (Hf f Hin). destruct f; cbn [ndyn field_ok variable_size] in *; try discriminate.
    destruct Hf as ((_ & _ & K) & _). congruence. }
  unfold check_struct. destruct (snd st) as [|f0 r0] eqn:Est; [congruence|]. rewrite <- Est in *.
  rewrite Ha, sum_bits_ideal, Z.add_0_l. cbv zeta.
  assert (H8' : Z.rem (fixed_width (snd st)) 8 =? 0 = true).
  { apply Z.eqb_eq. rewrite Z.rem_mod_nonneg by (pose proof (fixed_width_nonneg (snd st)); lia). exact H8. }
  rewrite H8'. destruct size as [x|]; cbn [weight_size].
  - destruct (Hsz x eq_refl) as (L1 & L2 & _). rewrite (Hdyn x eq_refl).
    replace (size_bits x =? 0) with false by (symmetry; apply Z.eqb_neq; lia).
    rewrite <- L2, Z.eqb_refl. cbn [bind]. eexists. split; reflexivity.
  - cbn [Z.eqb bind]. eexists. split; reflexivity.
Qed.
