(** The front end looks at positions only to compare them: sources that differ in their positions alone, in a way
    that keeps equal positions equal and different ones different, compile to the same up to positions. *)
From Coq Require Import String Ascii ZArith List Bool.
From Verif Require Import Base Schema FrontModel CompileModel.
Import ListNotations.
Open Scope string_scope.
Open Scope Z_scope.
Open Scope list_scope.

Section Related.
Variable R : pos -> pos -> Prop.
Hypothesis R_eq : forall p q p' q', R p q -> R p' q' -> pos_eqb p p' = pos_eqb q q'.

Inductive rel_elem : a_elem -> a_elem -> Prop :=
| re_basic b : rel_elem (AeBasic b) (AeBasic b)
| re_string : rel_elem AeString AeString
| re_bytes : rel_elem AeBytes AeBytes
| re_ref n : rel_elem (AeStructRef n) (AeStructRef n)
| re_def d d' : rel_struct d d' -> rel_elem (AeStructDef d) (AeStructDef d')
| re_enum n : rel_elem (AeEnumRef n) (AeEnumRef n)
| re_ident n : rel_elem (AeIdent n) (AeIdent n)
with rel_struct : a_struct -> a_struct -> Prop :=
| rs_struct p p' n s b b' : R p p' -> rel_body b b' -> rel_struct (AStruct p n s b) (AStruct p' n s b')
with rel_body : a_body -> a_body -> Prop :=
| rb_nil : rel_body ABNil ABNil
| rb_empty b b' : rel_body b b' -> rel_body (ABEmpty b) (ABEmpty b')
| rb_void s o b b' : rel_body b b' -> rel_body (ABVoid s o b) (ABVoid s o b')
| rb_const t n s c o b b' : rel_body b b' -> rel_body (ABConst t n s c o b) (ABConst t n s c o b')
| rb_emb e e' a o b b' : rel_elem e e' -> rel_body b b' -> rel_body (ABEmb e a o b) (ABEmb e' a o b')
| rb_normal e e' a n s o m b b' : rel_elem e e' -> rel_body b b' ->
    rel_body (ABNormal e a n s o m b) (ABNormal e' a n s o m b').
Scheme rel_elem_mind := Induction for rel_elem Sort Prop
  with rel_struct_mind := Induction for rel_struct Sort Prop
  with rel_body_mind := Induction for rel_body Sort Prop.
Combined Scheme rel_ind from rel_elem_mind, rel_struct_mind, rel_body_mind.

Definition rel_val (v v' : a_enumval) : Prop := R (ev_pos v) (ev_pos v') /\ ev_name v = ev_name v' /\ ev_val v = ev_val v'.
Definition rel_enum (d d' : a_enum) : Prop :=
  R (en_pos d) (en_pos d') /\ en_name d = en_name d' /\ en_size d = en_size d' /\ Forall2 rel_val (en_vals d) (en_vals d').
Inductive rel_top : a_top -> a_top -> Prop :=
| rt_struct d d' : rel_struct d d' -> rel_top (ATStruct d) (ATStruct d')
| rt_enum d d' : rel_enum d d' -> rel_top (ATEnum d) (ATEnum d').
Definition rel_source (s s' : source) : Prop :=
  s_imports s = s_imports s' /\ s_packages s = s_packages s' /\ s_options s = s_options s' /\
  Forall2 rel_top (s_tops s) (s_tops s').

Inductive rel_res {A B} (P : A -> B -> Prop) : res A -> res B -> Prop :=
| rr_ok a b : P a b -> rel_res P (Ok a) (Ok b)
| rr_fail : rel_res P Fail Fail
| rr_panic : rel_res P Panic Panic.
Inductive rel_opt {A B} (P : A -> B -> Prop) : option A -> option B -> Prop :=
| ro_some a b : P a b -> rel_opt P (Some a) (Some b)
| ro_none : rel_opt P None None.
Definition rel_pair {A B C D} (P : A -> B -> Prop) (Q : C -> D -> Prop) (x : A * C) (y : B * D) : Prop :=
  P (fst x) (fst y) /\ Q (snd x) (snd y).
Lemma rel_bind {A B C D} (P : A -> B -> Prop) (Q : C -> D -> Prop) x y f g :
  rel_res P x y -> (forall a b, P a b -> rel_res Q (f a) (g b)) ->
  rel_res Q (match x with Ok a => f a | Fail => Fail | Panic => Panic end)
            (match y with Ok b => g b | Fail => Fail | Panic => Panic end).
Proof. intros X H. destruct X; [now apply H|constructor..]. Qed.
Lemma rel_same {A D E} (Q : D -> E -> Prop) (x : res A) f g :
  (forall a, rel_res Q (f a) (g a)) ->
  rel_res Q (match x with Ok a => f a | Fail => Fail | Panic => Panic end)
            (match x with Ok b => g b | Fail => Fail | Panic => Panic end).
Proof. destruct x; intros H; [apply H|constructor..]. Qed.

Definition rel_map {V W} (P : V -> W -> Prop) : list (string * V) -> list (string * W) -> Prop :=
  Forall2 (rel_pair eq P).
Lemma get_rel {V W} (P : V -> W -> Prop) k m m' : rel_map P m m' -> rel_opt P (get k m) (get k m').
Proof.
  induction 1 as [|[a v] [b w] m m' [E H] _ IH]; cbn; [constructor|]. cbn in E, H. subst b.
  destruct (String.eqb k a); [now constructor|exact IH].
Qed.
Lemma has_rel {V W} (P : V -> W -> Prop) k m m' : rel_map P m m' -> has k m = has k m'.
Proof. intros H. unfold has. now destruct (get_rel P k _ _ H). Qed.
Lemma put_rel {V W} (P : V -> W -> Prop) k v w m m' : rel_map P m m' -> P v w -> rel_map P (put k v m) (put k w m').
Proof.
  intros H Hv. unfold put. rewrite <- (has_rel P k _ _ H). destruct (has k m); auto.
  apply Forall2_app; auto. repeat constructor. exact Hv.
Qed.

(** Checked definitions. *)
Definition rel_cs (s t : cstruct) : Prop :=
  R (cs_pos s) (cs_pos t) /\ cs_name s = cs_name t /\ cs_bits s = cs_bits t /\ cs_dyn s = cs_dyn t /\
  cs_fields s = cs_fields t.
Definition rel_ce (e f : cenum) : Prop :=
  R (ce_pos e) (ce_pos f) /\ ce_name e = ce_name f /\ ce_bits e = ce_bits f /\ ce_vals e = ce_vals f.
Inductive rel_type : ctype -> ctype -> Prop :=
| rct_struct s t : rel_cs s t -> rel_type (CTStruct s) (CTStruct t)
| rct_enum e f : rel_ce e f -> rel_type (CTEnum e) (CTEnum f).
Inductive rel_vtype : vtype -> vtype -> Prop :=
| rv_struct s t : rel_cs s t -> rel_vtype (VTStruct s) (VTStruct t)
| rv_other t : rel_vtype (VTOther t) (VTOther t).
Inductive rel_named : named -> named -> Prop :=
| rn_pos p q : R p q -> rel_named (NPos p) (NPos q)
| rn_val p q v : R p q -> rel_named (NEnumVal p v) (NEnumVal q v).
Notation rel_names := (rel_map rel_named).
Notation rel_types := (rel_map rel_type).

Lemma named_pos_rel x y : rel_named x y -> R (named_pos x) (named_pos y).
Proof. now destruct 1. Qed.
Lemma fty_rel v w : rel_vtype v w -> fty_of v = fty_of w.
Proof.
  destruct 1 as [s t (H1 & H2 & H3 & H4 & H5)|]; auto. cbn. unfold fty_struct. now rewrite H3, H4, H5.
Qed.
Lemma vtype_rel x y : rel_type x y -> rel_vtype (vtype_of x) (vtype_of y).
Proof.
  destruct 1 as [s t H|e f (H1 & H2 & H3 & H4)]; cbn; [now constructor|]. unfold fty_enum. rewrite H3. constructor.
Qed.
Lemma add_name_rel ns ns' n v v' : rel_names ns ns' -> rel_named v v' ->
  rel_res rel_names (add_name ns n v) (add_name ns' n v').
Proof.
  intros H Hv. unfold add_name. destruct (get_rel _ n _ _ H) as [x y Hx|].
  - rewrite (R_eq _ _ _ _ (named_pos_rel _ _ Hx) (named_pos_rel _ _ Hv)).
    destruct (pos_eqb _ _); constructor. exact H.
  - constructor. apply Forall2_app; auto. repeat constructor. exact Hv.
Qed.

Section Visit.
Variable w : Z -> Z.
Lemma visit_const_rel ns ns' c : rel_names ns ns' -> visit_const ns c = visit_const ns' c.
Proof. intros H. destruct c as [l|n]; auto. cbn. destruct (get_rel _ n _ _ H) as [x y [p q Hp|p q v Hp]|]; auto. Qed.
Lemma normal_size_rel v v' a z : rel_vtype v v' -> normal_size w v a z = normal_size w v' a z.
Proof. intros H. pose proof (fty_rel _ _ H) as E. unfold normal_size. rewrite E. destruct H; reflexivity. Qed.
Lemma check_struct_rel p p' n z fs : R p p' -> rel_res rel_cs (check_struct w p n z fs) (check_struct w p' n z fs).
Proof.
  intros H. unfold check_struct. destruct fs as [|f fs]; [constructor|]. destruct (check_align w (f :: fs) 0); [|constructor].
  cbn zeta. destruct (Z.rem _ 8 =? 0); [|constructor]. destruct (z =? 0); [constructor; repeat split; auto|].
  destruct (sum_dyn _); [constructor|]. destruct (_ =? z); [constructor; repeat split; auto|constructor].
Qed.
Lemma add_embedded_rel st s t : rel_cs s t -> add_embedded st s = add_embedded st t.
Proof. intros (H1 & H2 & H3 & H4 & H5). unfold add_embedded. now rewrite H2, H5. Qed.
Lemma struct_ref_rel ts ts' n : rel_types ts ts' -> rel_res rel_vtype (visit_struct_ref ts n) (visit_struct_ref ts' n).
Proof.
  intros H. unfold visit_struct_ref. destruct (is_capitalized n); [|constructor].
  destruct (get_rel _ n _ _ H) as [x y [s t Hs|e f He]|]; constructor. now constructor.
Qed.
Lemma enum_ref_rel ts ts' n : rel_types ts ts' -> rel_res rel_vtype (visit_enum_ref ts n) (visit_enum_ref ts' n).
Proof.
  intros H. unfold visit_enum_ref. destruct (is_capitalized n); [|constructor].
  destruct (get_rel _ n _ _ H) as [x y [s t Hs|e f (H1 & H2 & H3 & H4)]|]; constructor.
  unfold fty_enum. rewrite H3. constructor.
Qed.
Lemma ident_rel ts ts' n : rel_types ts ts' -> rel_res rel_vtype (visit_ident ts n) (visit_ident ts' n).
Proof.
  intros H. unfold visit_ident. destruct (get_rel _ n _ _ H) as [x y Hx|]; constructor. now apply vtype_rel.
Qed.

Lemma visit_rel :
  (forall e e', rel_elem e e' -> forall ts ts' ns ns', rel_types ts ts' -> rel_names ns ns' ->
     rel_res (rel_pair rel_vtype rel_names) (visit_elem w ts ns e) (visit_elem w ts' ns' e')) /\
  (forall d d', rel_struct d d' -> forall ts ts' ns ns', rel_types ts ts' -> rel_names ns ns' ->
     rel_res (rel_pair rel_cs rel_names) (visit_struct w ts ns d) (visit_struct w ts' ns' d')) /\
  (forall b b', rel_body b b' -> forall ts ts' ns ns' st, rel_types ts ts' -> rel_names ns ns' ->
     rel_res (rel_pair eq rel_names) (visit_body w ts ns b st) (visit_body w ts' ns' b' st)).
Proof.
  apply rel_ind.
  - intros b ts ts' ns ns' Ht Hn. cbn. constructor. split; [constructor|exact Hn].
  - intros ts ts' ns ns' Ht Hn. cbn. constructor. split; [constructor|exact Hn].
  - intros ts ts' ns ns' Ht Hn. cbn. constructor. split; [constructor|exact Hn].
  - intros n ts ts' ns ns' Ht Hn. cbn [visit_elem]. eapply rel_bind; [apply struct_ref_rel; exact Ht|].
    intros v v' Hv. constructor. now split.
  - intros d d' _ IH ts ts' ns ns' Ht Hn. cbn [visit_elem]. eapply rel_bind; [apply IH; [exact Ht|exact Hn]|].
    intros [s n] [s' n'] [H1 H2]. constructor. split; [now constructor|exact H2].
  - intros n ts ts' ns ns' Ht Hn. cbn [visit_elem]. eapply rel_bind; [apply enum_ref_rel; exact Ht|].
    intros v v' Hv. constructor. now split.
  - intros n ts ts' ns ns' Ht Hn. cbn [visit_elem]. eapply rel_bind; [apply ident_rel; exact Ht|].
    intros v v' Hv. constructor. now split.
  - intros p p' n s b b' Hp _ IH ts ts' ns ns' Ht Hn. cbn [visit_struct].
    apply rel_same. intros nm. eapply rel_bind; [apply add_name_rel; [exact Hn|now constructor]|].
    intros n1 n1' Hn1. apply rel_same. intros sz. eapply rel_bind; [apply IH; [exact Ht|exact Hn1]|].
    intros [st n2] [st' n2'] [E Hn2]. cbn in E. subst st'. eapply rel_bind; [apply check_struct_rel; exact Hp|].
    intros c c' Hc. constructor. now split.
  - intros ts ts' ns ns' st Ht Hn. cbn. constructor. now split.
  - intros b b' _ IH ts ts' ns ns' st Ht Hn. cbn [visit_body]. now apply IH.
  - intros s o b b' _ IH ts ts' ns ns' st Ht Hn. cbn [visit_body]. do 3 (apply rel_same; intros ?). now apply IH.
  - intros t n s c o b b' _ IH ts ts' ns ns' st Ht Hn. cbn [visit_body]. rewrite (visit_const_rel _ _ c Hn).
    do 4 (apply rel_same; intros ?). destruct (const_match _ _); [|constructor].
    do 2 (apply rel_same; intros ?). now apply IH.
  - intros e e' a o b b' _ IHe _ IH ts ts' ns ns' st Ht Hn. cbn [visit_body].
    eapply rel_bind; [apply IHe; [exact Ht|exact Hn]|]. intros [v n1] [v' n1'] [Hv Hn1]. cbn in Hv, Hn1.
    apply rel_same. intros arr. destruct Hv as [s t Hs|]; [|constructor]. destruct arr; [constructor|].
    apply rel_same. intros _. rewrite (add_embedded_rel _ _ _ Hs). apply rel_same. intros st'. now apply IH.
  - intros e e' a n s o m b b' _ IHe _ IH ts ts' ns ns' st Ht Hn. cbn [visit_body].
    eapply rel_bind; [apply IHe; [exact Ht|exact Hn]|]. intros [v n1] [v' n1'] [Hv Hn1]. cbn in Hv, Hn1.
    do 3 (apply rel_same; intros ?). rewrite (normal_size_rel _ _ _ _ Hv), (fty_rel _ _ Hv).
    do 2 (apply rel_same; intros ?).
    destruct Hv; do 2 (apply rel_same; intros ?); now apply IH.
Qed.

Lemma enumval_rel ns ns' v v' : rel_names ns ns' -> rel_val v v' -> visit_enumval ns v = visit_enumval ns' v'.
Proof.
  intros H (_ & _ & E). unfold visit_enumval. rewrite <- E. destruct (ev_val v) as [[l|n]|]; auto.
  destruct (get_rel _ n _ _ H) as [x y [p q Hp|p q z Hp]|]; auto.
Qed.
Notation rel_vals := (rel_map (rel_pair (@eq Z) R)).
Lemma last_rel (m m' : list (string * (Z * pos))) : rel_vals m m' ->
  match rev m with [] => 0 | (_, (l, _)) :: _ => w (l + 1) end = match rev m' with [] => 0 | (_, (l, _)) :: _ => w (l + 1) end.
Proof.
  intros H. assert (Hr : rel_vals (rev m) (rev m')).
  { induction H; cbn; [constructor|]. apply Forall2_app; auto. }
  destruct Hr as [|[a [z p]] [b [z' q]] ? ? [_ [E _]] _]; auto. cbn in E. now subst.
Qed.
Lemma enumvals_rel ns ns' l l' : rel_names ns ns' -> Forall2 rel_val l l' -> forall acc acc', rel_vals acc acc' ->
  rel_res rel_vals (visit_enumvals w ns l acc) (visit_enumvals w ns' l' acc').
Proof.
  intros Hn H. induction H as [|v v' l l' Hv _ IH]; intros acc acc' Ha; cbn [visit_enumvals]; [now constructor|].
  destruct Hv as (Hp & En & Ev). rewrite <- En. apply rel_same. intros nm.
  rewrite <- (enumval_rel ns ns' v v' Hn) by (repeat split; auto). apply rel_same. intros z.
  rewrite <- (has_rel _ nm _ _ Ha). destruct (has nm acc); [constructor|]. cbn zeta. apply IH. apply put_rel; auto.
  split; auto. cbn. rewrite (last_rel _ _ Ha). reflexivity.
Qed.
Lemma add_enum_names_rel l l' : rel_vals l l' -> forall ns ns', rel_names ns ns' ->
  rel_res rel_names (add_enum_names ns l) (add_enum_names ns' l').
Proof.
  induction 1 as [|[n [z p]] [n' [z' p']] l l' [E [Ez Hp]] _ IH]; intros ns ns' Hn; cbn [add_enum_names]; [now constructor|].
  cbn in E, Ez, Hp. subst n' z'. eapply rel_bind; [apply add_name_rel; [exact Hn|now constructor]|]. intros a b Hab. now apply IH.
Qed.
Lemma visit_enum_rel ns ns' d d' : rel_names ns ns' -> rel_enum d d' ->
  rel_res (rel_pair rel_ce rel_names) (visit_enum w ns d) (visit_enum w ns' d').
Proof.
  intros Hn (Hp & En & Es & Hv). unfold visit_enum. rewrite <- En, <- Es. apply rel_same. intros nm.
  eapply rel_bind; [apply add_name_rel; [exact Hn|now constructor]|]. intros n1 n1' Hn1. apply rel_same. intros sz.
  eapply rel_bind; [apply enumvals_rel; [exact Hn1|exact Hv|constructor]|]. intros vs vs' Hvs.
  assert (E : map (fun x : string * (Z * pos) => (fst x, fst (snd x))) vs =
              map (fun x : string * (Z * pos) => (fst x, fst (snd x))) vs').
  { clear -Hvs. induction Hvs as [|x y l l' (H1 & H2 & H3) _ IH]; cbn; auto. rewrite H1. f_equal; auto. f_equal. exact H2. }
  destruct Hvs as [|x y l l' Hxy Hl]; [constructor|].
  eapply rel_bind; [apply add_enum_names_rel; [constructor; [exact Hxy|exact Hl]|exact Hn1]|].
  intros n2 n2' Hn2. constructor. split; [|exact Hn2]. repeat split; cbn [ce_vals ce_pos fst]; auto.
Qed.
Lemma visit_tops_rel l l' : Forall2 rel_top l l' -> forall ts ts' ns ns', rel_types ts ts' -> rel_names ns ns' ->
  rel_res (rel_pair rel_types rel_names) (visit_tops w ts ns l) (visit_tops w ts' ns' l').
Proof.
  induction 1 as [|x y l l' Hxy _ IH]; intros ts ts' ns ns' Ht Hn; cbn [visit_tops]; [constructor; now split|].
  destruct Hxy as [d d' Hd|d d' Hd].
  - eapply rel_bind; [apply visit_rel; [exact Hd|exact Ht|exact Hn]|]. intros [s n] [s' n'] [Hs Hn']. cbn in Hs, Hn'.
    apply IH; auto. destruct Hs as (H1 & H2 & H3 & H4 & H5). rewrite <- H2. apply put_rel; auto. constructor. now repeat split.
  - eapply rel_bind; [apply visit_enum_rel; [exact Hn|exact Hd]|]. intros [s n] [s' n'] [Hs Hn']. cbn in Hs, Hn'.
    apply IH; auto. destruct Hs as (H1 & H2 & H3 & H4). rewrite <- H2. apply put_rel; auto. constructor. now repeat split.
Qed.
End Visit.

(** Units and the runtime. *)
Definition rel_unit (u v : comp_unit) : Prop :=
  u_path u = u_path v /\ u_package u = u_package v /\ u_local_imports u = u_local_imports v /\
  u_global_imports u = u_global_imports v /\ rel_types (u_types u) (u_types v) /\ rel_names (u_names u) (u_names v) /\
  rel_types (u_local_types u) (u_local_types v) /\ rel_names (u_local_names u) (u_local_names v).
Definition rel_runtime (r s : runtime) : Prop :=
  rel_map rel_unit (r_units r) (r_units s) /\ r_packages r = r_packages s /\ r_stack r = r_stack s.

Lemma type_pos_rel x y : rel_type x y -> R (ctype_pos x) (ctype_pos y) /\ ctype_name x = ctype_name y.
Proof. destruct 1 as [s t (H1 & H2 & _)|e f (H1 & H2 & _)]; auto. Qed.
Lemma clash_rel ns ns' n p q : rel_names ns ns' -> R p q -> name_clash ns n p = name_clash ns' n q.
Proof.
  intros H Hp. unfold name_clash. destruct (get_rel _ n _ _ H) as [x y Hx|]; auto.
  now rewrite (R_eq _ _ _ _ (named_pos_rel _ _ Hx) Hp).
Qed.
Lemma global_names_rel l l' : rel_names l l' -> forall ns ns', rel_names ns ns' ->
  fst (add_global_names ns l) = fst (add_global_names ns' l') /\
  rel_names (snd (add_global_names ns l)) (snd (add_global_names ns' l')).
Proof.
  induction 1 as [|[n v] [n' v'] l l' [E Hv] _ IH]; intros ns ns' Hn; cbn [add_global_names]; [auto|].
  cbn in E, Hv. subst n'. rewrite (clash_rel _ _ n _ _ Hn (named_pos_rel _ _ Hv)). destruct (name_clash _ _ _).
  - specialize (IH ns ns' Hn). destruct (add_global_names ns l), (add_global_names ns' l'). cbn in *. tauto.
  - apply IH. now apply put_rel.
Qed.
Lemma global_types_rel l l' : rel_types l l' -> forall ns ns' ts ts', rel_names ns ns' -> rel_types ts ts' ->
  fst (fst (add_global_types ns ts l)) = fst (fst (add_global_types ns' ts' l')) /\
  rel_names (snd (fst (add_global_types ns ts l))) (snd (fst (add_global_types ns' ts' l'))) /\
  rel_types (snd (add_global_types ns ts l)) (snd (add_global_types ns' ts' l')).
Proof.
  induction 1 as [|[n v] [n' v'] l l' [E Hv] _ IH]; intros ns ns' ts ts' Hn Ht; cbn [add_global_types]; [auto|].
  cbn in E, Hv. subst n'. destruct (type_pos_rel _ _ Hv) as [Hp En]. cbn zeta. rewrite <- En.
  rewrite (clash_rel _ _ (ctype_name v) _ _ Hn Hp). destruct (name_clash _ _ _).
  - specialize (IH ns ns' ts ts' Hn Ht). destruct (add_global_types ns ts l) as [[? ?] ?], (add_global_types ns' ts' l') as [[? ?] ?].
    cbn in *. tauto.
  - apply IH; apply put_rel; auto. now constructor.
Qed.
Lemma add_import_rel u v o o' : rel_unit u v -> rel_unit o o' ->
  fst (add_import u o) = fst (add_import v o') /\ rel_unit (snd (add_import u o)) (snd (add_import v o')).
Proof.
  intros (H1 & H2 & H3 & H4 & H5 & H6 & H7 & H8) (G1 & G2 & G3 & G4 & G5 & G6 & G7 & G8). unfold add_import.
  rewrite <- H1, <- H2, <- H3, <- H4, <- G1, <- G4. destruct (mem _ _).
  - split; auto. repeat split; auto.
  - destruct (global_names_rel _ _ G6 _ _ H6) as [E1 N1].
    destruct (add_global_names (u_names u) (u_names o)) as [ok1 ns1], (add_global_names (u_names v) (u_names o')) as [ok1' ns1'].
    cbn in E1, N1. subst ok1'. destruct (global_types_rel _ _ G5 _ _ _ _ N1 H5) as (E2 & N2 & T2).
    destruct (add_global_types ns1 (u_types u) (u_types o)) as [[ok2 ns2] ts2],
             (add_global_types ns1' (u_types v) (u_types o')) as [[ok2' ns2'] ts2'].
    cbn in E2, N2, T2. subst ok2'. split; auto. repeat split; auto.
Qed.

Definition rel_step {A} (P : A -> A -> Prop) (x y : option (res A * runtime)) : Prop :=
  rel_opt (rel_pair (rel_res P) rel_runtime) x y.
Lemma imports_rel rec rec' : (forall r s p, rel_runtime r s -> rel_step eq (rec r p) (rec' s p)) ->
  forall l r s u v ok, rel_runtime r s -> rel_unit u v ->
  rel_step (rel_pair eq rel_unit) (compile_imports rec l r u ok) (compile_imports rec' l s v ok).
Proof.
  intros Hrec. induction l as [|p l IH]; intros r s u v ok Hr Hu; cbn [compile_imports].
  - constructor. split; auto. constructor. now split.
  - destruct (Hrec r s p Hr) as [[x r'] [y s'] [Hx Hr']|]; [|constructor]. cbn in Hx, Hr'.
    destruct Hx as [a b _| |]; [|now apply IH|constructor; split; [constructor|auto]].
    destruct Hr' as (Hun & Hr2). destruct (get_rel _ p _ _ Hun) as [o o' Ho|]; [|apply IH; auto; now split].
    destruct (add_import_rel _ _ _ _ Hu Ho) as [E Hu']. destruct (add_import u o), (add_import v o'). cbn in E, Hu'. subst.
    apply IH; auto. now split.
Qed.

Definition rel_fs (f g : filesystem) : Prop := rel_map (rel_opt rel_source) f g.
Lemma visit_info_rel s t : rel_source s t -> visit_info s = visit_info t.
Proof. intros (H1 & H2 & H3 & H4). unfold visit_info. now rewrite H2, H3. Qed.
Lemma update_rel {V W} (P : V -> W -> Prop) k v x m m' : rel_map P m m' -> P v x -> rel_map P (update k v m) (update k x m').
Proof.
  intros H Hv. induction H as [|[a y] [b z] m m' [E Hy] Hm IH]; cbn; [constructor|]. cbn in E, Hy. subst b.
  destruct (String.eqb k a); constructor; auto; split; auto.
Qed.
Lemma skipn_rel {A B} (P : A -> B -> Prop) n l m : Forall2 P l m -> Forall2 P (skipn n l) (skipn n m).
Proof. intros H. revert n. induction H; intros [|n]; cbn; auto. Qed.
Lemma length_rel {A B} (P : A -> B -> Prop) l m : Forall2 P l m -> length l = length m.
Proof. induction 1; cbn; auto. Qed.

Lemma compile_rel fs gs : rel_fs fs gs -> forall fuel r s p, rel_runtime r s ->
  rel_step eq (compile fuel fs r p) (compile fuel gs s p).
Proof.
  intros Hf. induction fuel as [|fuel IH]; intros r s p Hr; cbn [compile]; [constructor|].
  destruct (get_rel _ p _ _ Hf) as [c c' Hc|]; [|constructor; split; [constructor|auto]].
  pose proof Hr as (Hu & Hp & Hs). rewrite <- Hs. destruct (mem p (r_stack r)); [constructor; split; [constructor|auto]|].
  rewrite <- (has_rel _ p _ _ Hu). destruct (has p (r_units r)); [constructor; split; [now constructor|auto]|].
  destruct Hc as [src src' Hsrc|]; [|constructor; split; [constructor|auto]].
  rewrite <- (visit_info_rel _ _ Hsrc). destruct (visit_info src) as [pkg| |]; try (constructor; split; [constructor|auto]; fail).
  rewrite <- Hp. destruct (mem pkg (r_packages r)); [constructor; split; [constructor|auto]|].
  destruct Hsrc as (Hi & _ & _ & Ht). rewrite <- Hi. cbn zeta.
  assert (Hnu : rel_unit (new_unit p pkg) (new_unit p pkg)) by (repeat split; constructor).
  assert (Hr1 : rel_runtime {| r_units := r_units r; r_packages := r_packages r ++ [pkg]; r_stack := r_stack r ++ [p] |}
                            {| r_units := r_units s; r_packages := r_packages r ++ [pkg]; r_stack := r_stack r ++ [p] |})
    by (repeat split; auto).
  destruct (imports_rel _ _ IH (s_imports src) _ _ _ _ true Hr1 Hnu) as [[x r2] [y s2] [Hx Hr2]|]; [|constructor].
  cbn in Hx, Hr2. destruct Hx as [[ok u] [ok' v] [E Hu2]| |]; try (constructor; split; [constructor|auto]; fail).
  cbn in E, Hu2. subst ok'. destruct ok; [|constructor; split; [constructor|auto]].
  destruct Hu2 as (U1 & U2 & U3 & U4 & U5 & U6 & U7 & U8). destruct Hr2 as (R1 & R2 & R3).
  assert (Hput : rel_map rel_unit (put p u (r_units r2)) (put p v (r_units s2))) by (apply put_rel; auto; repeat split; auto).
  destruct (visit_tops_rel wrap64 _ _ Ht _ _ _ _ U5 U6) as [[ts ns] [ts' ns'] [T N]| |].
  - cbn in T, N. constructor. split; [now constructor|]. repeat split; cbn [r_packages r_stack r_units fst snd]; auto; [|now rewrite R3].
    apply update_rel; auto. repeat split; cbn; auto.
    + rewrite (length_rel _ _ _ U5). now apply skipn_rel.
    + rewrite (length_rel _ _ _ U6). now apply skipn_rel.
  - constructor. split; [constructor|]. repeat split; cbn; auto. now rewrite R3.
  - constructor. split; [constructor|]. repeat split; cbn; auto. now rewrite R3.
Qed.
Lemma compile_file_rel fs gs p : rel_fs fs gs -> rel_res (rel_map rel_unit) (compile_file fs p) (compile_file gs p).
Proof.
  intros H. unfold compile_file. rewrite (length_rel _ _ _ H).
  assert (Hr : rel_runtime new_runtime new_runtime) by (repeat split; constructor).
  destruct (compile_rel _ _ H (S (length gs)) _ _ p Hr) as [[x r] [y s] [Hx (Hu & _)]|]; [|constructor].
  cbn in Hx, Hu. destruct Hx; constructor. exact Hu.
Qed.
End Related.
