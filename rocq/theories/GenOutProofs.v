(** Proofs about GenOut.v. *)
From Coq Require Import String Ascii ZArith List Bool Lia Relations.
From Verif Require Import Base FrontModel FrontProofs PropsFront CompileModel CompileSpec CompileProofs PropsCompile GenOut GenOutSpec.
From Verif Require Package.
Import ListNotations.
Open Scope string_scope.
Open Scope list_scope.

(** ** Types that are generated, with everything they use, in order *)
Definition fields_before (l : list string) (n : string) (fs : gtys) : Prop :=
  forall t, field_type t fs -> before (gname t) n l.
Fixpoint good (done l : list string) (t : gty) : Prop :=
  match t with
  | GEnum o n => In o done /\ In n l
  | GStruct o n fs => In o done /\ In n l /\ goods done l fs /\ fields_before l n fs
  end
with goods (done l : list string) (fs : gtys) : Prop :=
  match fs with GNil => True | GCons t r => good done l t /\ goods done l r end.

Lemma before_app a b l l' : before a b l -> before a b (l ++ l').
Proof. intros (l1 & l2 & -> & H). exists l1, (l2 ++ l'). rewrite <- app_assoc. auto. Qed.
Lemma good_mono done l d' l' :
  (forall t, good done l t -> good (done ++ d') (l ++ l') t) /\
  (forall fs, goods done l fs -> goods (done ++ d') (l ++ l') fs).
Proof.
  apply gty_mut; cbn [good goods].
  - intros o n (H1 & H2). split; apply in_or_app; auto.
  - intros o n fs IH (H1 & H2 & H3 & H4). split; [apply in_or_app; auto|]. split; [apply in_or_app; auto|].
    split; [auto|]. intros t Ht. apply before_app. auto.
  - auto.
  - intros t IHt r IHr (H1 & H2). auto.
Qed.
Lemma good_name done l t : good done l t -> In (gname t) l.
Proof. destruct t; cbn; intuition. Qed.
Lemma goods_app done l a b : goods done l (gapp a b) <-> goods done l a /\ goods done l b.
Proof. induction a as [|t r IH]; cbn [gapp goods]; [tauto|]. rewrite IH. tauto. Qed.
Lemma goods_field done l fs t : goods done l fs -> field_type t fs -> good done l t.
Proof. induction fs as [|x r IH]; cbn; [intros _ []|]. intros (H1 & H2) [-> |H]; auto. Qed.

Lemma gen_type_done v stk st t : In (gname t) st -> gen_type v stk st t = st.
Proof. intros H. apply mem_In in H. destruct t; cbn [gen_type gname] in *; rewrite H; reflexivity. Qed.
Lemma gen_fields_done v done stk st fs : goods done st fs -> gen_fields v stk st fs = st.
Proof.
  induction fs as [|t r IH]; cbn [gen_fields goods]; [reflexivity|]. intros (H1 & H2).
  rewrite gen_type_done by (eapply good_name; eauto). auto.
Qed.
Lemma gen_fields_app v stk st a b : gen_fields v stk st (gapp a b) = gen_fields v stk (gen_fields v stk st a) b.
Proof. revert st. induction a as [|t r IH]; intros st; cbn [gapp gen_fields]; auto. Qed.

(** ** One definition *)
Lemma types_names :
  (forall e, incl (types_elem e) (map fst (defs_elem e)) /\ incl (embedded_elem e) (map fst (defs_elem e))) /\
  (forall d, incl (types_struct d) (map fst (defs_struct d)) /\
             incl (embedded_elem (AeStructDef d)) (map fst (defs_struct d))) /\
  (forall b, incl (types_body b) (map fst (defs_body b))).
Proof.
  apply ast_ind; cbn [types_elem embedded_elem types_struct types_body defs_elem defs_struct defs_body].
  all: try (intros; split; intros ? []; fail).
  - intros d (H1 & H2). auto.
  - intros p name size body H. cbn [map fst]. split; intros x Hx.
    + apply in_app_or in Hx as [Hx|[<- |[]]]; [right; auto|left; reflexivity].
    + right; auto.
  - intros x [].
  - auto.
  - auto.
  - auto.
  - intros e (_ & He) arr opts r Hr. rewrite map_app. intros x Hx. apply in_or_app. apply in_app_or in Hx as [Hx|Hx]; auto.
  - intros e (He & _) arr n sz o ms r Hr. rewrite map_app. intros x Hx. apply in_or_app. apply in_app_or in Hx as [Hx|Hx]; auto.
Qed.

Lemma nodup_app_inv {A} (a b : list A) : NoDup (a ++ b) -> NoDup a /\ NoDup b /\ forall x, In x a -> ~ In x b.
Proof.
  induction a as [|x a IH]; cbn; intros H.
  - split; [constructor|]. split; [exact H|]. intros ? [].
  - inversion H; subst. destruct (IH H3) as (Ha & Hb & Hd). split.
    + constructor; [|exact Ha]. intros Hx. apply H2. apply in_or_app; auto.
    + split; [exact Hb|]. intros y [<- |Hy]; [|auto]. intros Hy. apply H2. apply in_or_app; auto.
Qed.

Section One.
  Context (own : string) (env : genv) (done : list string).
  Hypothesis Hown : In own done.

  Definition env_good (st : list string) : Prop := forall n t, get n env = Some t -> good done st t.
  Definition fresh (names st stk : list string) : Prop := forall n, In n names -> ~ In n st /\ ~ In n stk.

  Lemma env_good_app st l : env_good st -> env_good (st ++ l).
  Proof. intros H n t Hn. rewrite <- (app_nil_r done). apply (proj1 (good_mono done st [] l)). eauto. Qed.
  Lemma goods_more st l fs : goods done st fs -> goods done (st ++ l) fs.
  Proof. intros H. rewrite <- (app_nil_r done). apply (proj2 (good_mono done st [] l)). auto. Qed.
  Lemma good_more st l fs : good done st fs -> good done (st ++ l) fs.
  Proof. intros H. rewrite <- (app_nil_r done). apply (proj1 (good_mono done st [] l)). auto. Qed.

  Definition type_ok (e : a_elem) (stk st : list string) : Prop :=
    match resolve_elem own env e with
    | None => types_elem e = []
    | Some t => gen_type true stk st t = st ++ types_elem e /\ good done (st ++ types_elem e) t
    end.
  Definition emb_ok (e : a_elem) (stk st : list string) : Prop :=
    match resolve_elem own env e with
    | Some (GStruct _ _ fs) => gen_fields true stk st fs = st ++ embedded_elem e /\
                               goods done (st ++ embedded_elem e) fs
    | _ => embedded_elem e = []
    end.

  Lemma ref_ok n stk st : env_good st ->
    match get n env with
    | None => True
    | Some t => gen_type true stk st t = st ++ [] /\ good done (st ++ []) t
    end /\
    match get n env with
    | Some (GStruct _ _ fs) => gen_fields true stk st fs = st ++ [] /\ goods done (st ++ []) fs
    | _ => True
    end.
  Proof.
    intros He. rewrite app_nil_r. destruct (get n env) as [t|] eqn:E; [|auto]. pose proof (He _ _ E) as G.
    split.
    - split; [|exact G]. apply gen_type_done. eapply good_name; eauto.
    - destruct t as [o m|o m fs]; [exact I|]. cbn in G. destruct G as (_ & _ & G & _).
      split; [|exact G]. eapply gen_fields_done; eauto.
  Qed.

  Lemma one_ok :
    (forall e stk st, env_good st -> NoDup (map fst (defs_elem e)) -> fresh (map fst (defs_elem e)) st stk ->
       type_ok e stk st /\ emb_ok e stk st) /\
    (forall d stk st, env_good st -> NoDup (map fst (defs_struct d)) -> fresh (map fst (defs_struct d)) st stk ->
       type_ok (AeStructDef d) stk st /\ emb_ok (AeStructDef d) stk st) /\
    (forall b stk st, env_good st -> NoDup (map fst (defs_body b)) -> fresh (map fst (defs_body b)) st stk ->
       gen_fields true stk st (resolve_body own env b) = st ++ types_body b /\
       goods done (st ++ types_body b) (resolve_body own env b)).
  Proof.
    apply ast_ind; unfold type_ok, emb_ok;
      cbn [types_elem embedded_elem types_struct types_body defs_elem defs_struct defs_body
           resolve_elem resolve_struct resolve_body].
    - intros; split; reflexivity.
    - intros; split; reflexivity.
    - intros; split; reflexivity.
    - intros n stk st He _ _. destruct (ref_ok n stk st He) as (H1 & H2).
      destruct (get n env) as [[]|]; auto.
    - intros d IH stk st He Hn Hf. exact (IH stk st He Hn Hf).
    - intros n stk st He _ _. destruct (ref_ok n stk st He) as (H1 & H2).
      destruct (get n env) as [[]|]; auto.
    - intros n stk st He _ _. destruct (ref_ok n stk st He) as (H1 & H2).
      destruct (get n env) as [[]|]; auto.
    - (* struct *)
      intros p name size body IH stk st He Hn Hf. cbn [map fst] in Hn, Hf. inversion Hn as [|? ? Hn1 Hn2]; subst.
      destruct (Hf name (or_introl eq_refl)) as (Hs & Hk).
      split.
      + destruct (IH (name :: stk) st He Hn2) as (E & G).
        { intros n Hi. destruct (Hf n (or_intror Hi)) as (A & B). split; [exact A|].
          intros [<- |Q]; [exact (Hn1 Hi)|exact (B Q)]. }
        cbn [gen_type]. apply mem_nIn in Hs, Hk. rewrite Hs, Hk. cbn [orb]. rewrite E.
        assert (Nn : ~ In name (st ++ types_body body)).
        { intros Hi. apply in_app_or in Hi as [Hi|Hi]; [apply mem_nIn in Hs; exact (Hs Hi)|].
          apply Hn1. apply (proj2 (proj2 types_names)). exact Hi. }
        unfold put_name. apply mem_nIn in Nn. rewrite Nn.
        split; [rewrite app_assoc; reflexivity|]. rewrite app_assoc.
        cbn [good]. split; [exact Hown|]. split; [apply in_or_app; right; left; reflexivity|].
        split; [apply goods_more; exact G|].
        intros t Ht. exists (st ++ types_body body), []. split; [reflexivity|].
        eapply good_name. eapply goods_field; eauto.
      + apply IH; [exact He|exact Hn2|]. intros n Hi. apply Hf. right; exact Hi.
    - intros stk st He _ _. cbn [gen_fields goods]. rewrite app_nil_r. auto.
    - intros r IH stk st He Hn Hf. apply IH; auto.
    - intros size o r IH stk st He Hn Hf. apply IH; auto.
    - intros b n size c o r IH stk st He Hn Hf. apply IH; auto.
    - (* embedded *)
      intros e IHe arr o r IHr stk st He Hn Hf. rewrite map_app in Hn, Hf.
      destruct (nodup_app_inv _ _ Hn) as (Ne & Nr & Nd).
      destruct (IHe stk st He Ne) as (_ & Q); [intros n Hi; apply Hf; apply in_or_app; auto|].
      assert (K : exists fs, gen_fields true stk st fs = st ++ embedded_elem e /\ goods done (st ++ embedded_elem e) fs /\
                match resolve_elem own env e with
                | Some (GStruct _ _ fs) => gapp fs (resolve_body own env r)
                | _ => resolve_body own env r
                end = gapp fs (resolve_body own env r)).
      { destruct (resolve_elem own env e) as [[o' n'|o' n' fs]|].
        - exists GNil. rewrite Q, app_nil_r. cbn. auto.
        - exists fs. destruct Q. auto.
        - exists GNil. rewrite Q, app_nil_r. cbn. auto. }
      destruct K as (fs & E & G & ->).
      destruct (IHr stk (st ++ embedded_elem e)) as (E2 & G2).
      { apply env_good_app; exact He. }
      { exact Nr. }
      { intros n Hi. destruct (Hf n) as (A & B); [apply in_or_app; auto|]. split; [|exact B].
        intros Hx. apply in_app_or in Hx as [Hx|Hx]; [exact (A Hx)|].
        apply (Nd n); [|exact Hi]. exact (proj2 (proj1 types_names e) _ Hx). }
      rewrite gen_fields_app, E, E2, app_assoc. split; [reflexivity|].
      apply goods_app. split; [apply goods_more; exact G|exact G2].
    - (* normal *)
      intros e IHe arr nm sz o ms r IHr stk st He Hn Hf. rewrite map_app in Hn, Hf.
      destruct (nodup_app_inv _ _ Hn) as (Ne & Nr & Nd).
      destruct (IHe stk st He Ne) as (Q & _); [intros n Hi; apply Hf; apply in_or_app; auto|].
      assert (K : exists fs, gen_fields true stk st fs = st ++ types_elem e /\ goods done (st ++ types_elem e) fs /\
                match resolve_elem own env e with
                | Some t => GCons t (resolve_body own env r)
                | None => resolve_body own env r
                end = gapp fs (resolve_body own env r)).
      { destruct (resolve_elem own env e) as [t|].
        - exists (GCons t GNil). cbn [gen_fields goods gapp]. destruct Q. auto.
        - exists GNil. rewrite Q, app_nil_r. cbn. auto. }
      destruct K as (fs & E & G & ->).
      destruct (IHr stk (st ++ types_elem e)) as (E2 & G2).
      { apply env_good_app; exact He. }
      { exact Nr. }
      { intros n Hi. destruct (Hf n) as (A & B); [apply in_or_app; auto|]. split; [|exact B].
        intros Hx. apply in_app_or in Hx as [Hx|Hx]; [exact (A Hx)|].
        apply (Nd n); [|exact Hi]. exact (proj1 (proj1 types_names e) _ Hx). }
      rewrite gen_fields_app, E, E2, app_assoc. split; [reflexivity|].
      apply goods_app. split; [apply goods_more; exact G|exact G2].
  Qed.
End One.

(** ** The definitions of a file *)
Lemma get_snoc {V} n (env : list (string * V)) d t : get n (env ++ [d]) = Some t -> get n env = Some t \/ d = (n, t).
Proof.
  induction env as [|[k v] r IH]; cbn.
  - destruct d as [k v]. destruct (String.eqb_spec n k) as [-> |]; [intros [= ->]; auto|discriminate].
  - destruct (String.eqb n k); auto.
Qed.
Lemma resolve_tops_names own : forall l env, map fst (resolve_tops own env l) = map top_name l /\
  Forall (fun d => gname (snd d) = fst d /\ gown (snd d) = own) (resolve_tops own env l).
Proof.
  induction l as [|t r IH]; intros env; cbn [resolve_tops map]; [split; constructor|].
  destruct (IH (env ++ [resolve_top own env t])) as (A & B). rewrite A. split.
  - f_equal. destruct t as [[? ? ? ?]|]; reflexivity.
  - constructor; [|exact B]. destruct t as [[? ? ? ?]|]; split; reflexivity.
Qed.
Lemma gen_all_app v st a b : gen_all v st (a ++ b) = gen_all v (gen_all v st a) b.
Proof. unfold gen_all. apply fold_left_app. Qed.

Lemma tops_ok own done : In own done -> forall l env st,
  env_good env done st -> NoDup (map fst (flat_map defs_top l)) -> fresh (map fst (flat_map defs_top l)) st [] ->
  gen_all true st (resolve_tops own env l) = st ++ flat_map types_top l /\
  Forall (fun d => good done (st ++ flat_map types_top l) (snd d)) (resolve_tops own env l).
Proof.
  intros Hown. induction l as [|t r IH]; intros env st He Hn Hf; cbn [resolve_tops flat_map].
  - cbn. rewrite app_nil_r. auto.
  - cbn [flat_map] in Hn, Hf. rewrite map_app in Hn, Hf. destruct (nodup_app_inv _ _ Hn) as (Ne & Nr & Nd).
    assert (K : gen_type true [] st (snd (resolve_top own env t)) = st ++ types_top t /\
                good done (st ++ types_top t) (snd (resolve_top own env t)) /\
                incl (types_top t) (map fst (defs_top t))).
    { destruct t as [d|d].
      - destruct (proj1 (proj2 (one_ok own env done Hown)) d [] st He Ne) as (Q & _).
        { intros n Hi. apply Hf. apply in_or_app; auto. }
        unfold type_ok in Q. cbn [resolve_elem types_elem] in Q. destruct Q as (Q1 & Q2).
        assert (Es : snd (resolve_top own env (ATStruct d)) = resolve_struct own env d) by (destruct d; reflexivity).
        rewrite Es. split; [exact Q1|]. split; [exact Q2|]. exact (proj1 (proj1 (proj2 types_names) d)).
      - cbn [resolve_top snd types_top gen_type good defs_top map fst].
        destruct (Hf (en_name d)) as (A & B); [apply in_or_app; left; left; reflexivity|].
        unfold put_name. apply mem_nIn in A. rewrite A. cbn [orb mem existsb]. split; [reflexivity|].
        split; [split; [exact Hown|apply in_or_app; right; left; reflexivity]|].
        intros x [<- |[]]. left; reflexivity. }
    destruct K as (E & G & Hi).
    destruct (IH (env ++ [resolve_top own env t]) (st ++ types_top t)) as (E2 & G2).
    { intros n x Hx. apply get_snoc in Hx as [Hx|Hx].
      - apply good_more. eapply He; eauto.
      - rewrite Hx in G. exact G. }
    { exact Nr. }
    { intros n Hn'. destruct (Hf n) as (A & B); [apply in_or_app; auto|]. split; [|exact B].
      intros Hx. apply in_app_or in Hx as [Hx|Hx]; [exact (A Hx)|]. exact (Nd n (Hi _ Hx) Hn'). }
    rewrite app_assoc. split.
    + unfold gen_all in *. cbn [fold_left]. rewrite E. exact E2.
    + constructor; [|exact G2]. apply good_more. exact G.
Qed.

(** GenTypes only grows at its end. *)
Lemma gen_ext v :
  (forall t stk st, exists l, gen_type v stk st t = st ++ l) /\
  (forall fs stk st, exists l, gen_fields v stk st fs = st ++ l).
Proof.
  assert (P : forall n st, exists l, put_name n st = st ++ l).
  { intros n st. unfold put_name. destruct (mem n st); [exists []; rewrite app_nil_r|]; eauto. }
  apply gty_mut; cbn [gen_type gen_fields].
  - intros o n stk st. destruct (_ || _); [exists []; rewrite app_nil_r; reflexivity|apply P].
  - intros o n fs IH stk st. destruct (_ || _); [exists []; rewrite app_nil_r; reflexivity|].
    destruct v.
    + destruct (IH (n :: stk) st) as (l & ->). destruct (P n (st ++ l)) as (l' & ->). exists (l ++ l'). rewrite app_assoc. reflexivity.
    + apply P.
  - intros stk st. exists []. rewrite app_nil_r. reflexivity.
  - intros t IHt r IHr stk st. destruct (IHt stk st) as (l & ->). destruct (IHr stk (st ++ l)) as (l' & ->).
    exists (l ++ l'). rewrite app_assoc. reflexivity.
Qed.
Lemma gen_all_ext v : forall l st, exists x, gen_all v st l = st ++ x.
Proof.
  induction l as [|d r IH]; intros st; [exists []; cbn; rewrite app_nil_r; reflexivity|].
  destruct (proj1 (gen_ext v) (snd d) [] st) as (a & E). unfold gen_all in *. cbn [fold_left]. rewrite E.
  destruct (IH (st ++ a)) as (b & ->). exists (a ++ b). rewrite app_assoc. reflexivity.
Qed.
Lemma skipn_app_len {A} (a b : list A) : skipn (length a) (a ++ b) = b.
Proof. rewrite skipn_app, skipn_all, Nat.sub_diag. reflexivity. Qed.
Lemma java_types_eq mk : forall l st ws,
  java_types mk l st ws = (gen_all true st l, ws ++ map mk (skipn (length st) (gen_all true st l))).
Proof.
  induction l as [|[k ty] r IH]; intros st ws; cbn [java_types].
  - unfold gen_all. cbn. rewrite skipn_all. cbn. rewrite app_nil_r. reflexivity.
  - cbv zeta. rewrite IH. unfold gen_all. cbn [fold_left snd]. fold (gen_all true (gen_type true [] st ty) r).
    f_equal. destruct (proj1 (gen_ext true) ty [] st) as (a & E). rewrite E.
    destruct (gen_all_ext true r (st ++ a)) as (b & Eb). rewrite Eb, !skipn_app_len, <- !app_assoc, skipn_app_len, map_app.
    reflexivity.
Qed.

(** Without the fields: the top level names. *)
Lemma tops_flat own : forall l env st,
  NoDup (map top_name l) -> (forall n, In n (map top_name l) -> ~ In n st) ->
  gen_all false st (resolve_tops own env l) = st ++ map top_name l.
Proof.
  induction l as [|t r IH]; intros env st Hn Hf; cbn [resolve_tops map].
  - unfold gen_all. cbn. rewrite app_nil_r. reflexivity.
  - cbn [map] in Hn, Hf. inversion Hn as [|? ? N1 N2]; subst.
    assert (E : gen_type false [] st (snd (resolve_top own env t)) = st ++ [top_name t]).
    { pose proof (Hf _ (or_introl eq_refl)) as A. apply mem_nIn in A.
      destruct t as [[p n z b]|d]; cbn in *; rewrite A; cbn [orb]; unfold put_name; rewrite A; reflexivity. }
    unfold gen_all in *. cbn [fold_left]. rewrite E, IH, <- app_assoc; [reflexivity|exact N2|].
    intros n Hi Hx. apply in_app_or in Hx as [Hx|[<- |[]]]; [exact (Hf n (or_intror Hi) Hx)|exact (N1 Hi)].
Qed.

(** ** Options *)
Lemma get_none_keys {V} k (m : list (string * V)) : ~ In k (map fst m) -> get k m = None.
Proof.
  induction m as [|[k' v] r IH]; cbn; [reflexivity|]. intros H.
  destruct (String.eqb_spec k k') as [-> |]; [exfalso; apply H; auto|]. apply IH. tauto.
Qed.
Lemma get_app2 {V} k (a b : list (string * V)) : get k (a ++ b) = match get k a with Some v => Some v | None => get k b end.
Proof. induction a as [|[k' v] r IH]; cbn; [reflexivity|]. destruct (String.eqb k k'); auto. Qed.
Lemma file_options_get k : forall l acc o, visit_file_options l acc = Ok o ->
  get k o = match get k acc with
            | Some v => Some v
            | None => match get k l with
                      | Some v => match visit_lit v with Ok v' => Some v' | _ => None end
                      | None => None end
            end.
Proof.
  induction l as [|[n v] r IH]; intros acc o H; cbn [visit_file_options] in H.
  - injection H as <-. destruct (get k acc); reflexivity.
  - apply bind_ok in H. destruct H as (v' & E & H). destruct (file_option_valid n v'); [|discriminate].
    destruct (has n acc) eqn:Eh; [discriminate|]. rewrite put_new in H by exact Eh.
    rewrite (IH _ _ H), get_app2. destruct (get k acc) as [x|] eqn:Ek; [reflexivity|]. cbn [get].
    destruct (String.eqb_spec k n) as [-> |]; [rewrite E; reflexivity|reflexivity].
Qed.

(** ** The units of a compilation *)
Definition no_source : source := {| s_imports := []; s_packages := []; s_options := []; s_tops := [] |}.
Definition src (fs : filesystem) (x : string * comp_unit) : source :=
  match get (fst x) fs with Some (Some s) => s | _ => no_source end.
Definition there (fs : filesystem) (x : string * comp_unit) : Prop :=
  contains fs (fst x) (src fs x) /\ exists k, visit_info (src fs x) = Ok k.
Definition key (t : target) (fs : filesystem) (x : string * comp_unit) : list string :=
  if not_wanted (src fs x) then [] else [String.concat "." (target_package t (src fs x))].
Definition unit_of (fs : filesystem) (acc : genv) (x : string * comp_unit) : gunit :=
  {| g_path := fst x; g_package := hd [] (s_packages (src fs x));
     g_opts := match visit_file_options (s_options (src fs x)) [] with Ok o => o | _ => [] end;
     g_imports := u_local_imports (snd x);
     g_tops := resolve_tops (fst x) (filter (fun e => has (fst e) (u_types (snd x))) acc) (s_tops (src fs x)) |}.

Lemma program_cons fs x us acc : there fs x ->
  program fs (x :: us) acc = unit_of fs acc x :: program fs us (acc ++ g_tops (unit_of fs acc x)).
Proof.
  destruct x as [q u]. intros (H & _). cbn [program]. unfold contains in H. cbn [fst] in H. rewrite H.
  unfold unit_of. cbn [fst snd]. reflexivity.
Qed.

Lemma unit_option fs acc x k : there fs x -> opt_str k (g_opts (unit_of fs acc x)) = str_option k (src fs x).
Proof.
  intros (_ & n & Hv). unfold opt_str, str_option, unit_of. cbn [g_opts].
  unfold visit_info in Hv. destruct (s_packages (src fs x)) as [|pkg [|]]; try discriminate.
  apply bind_ok in Hv. destruct Hv as (o & E & _). rewrite E, (file_options_get k _ _ _ E). cbn [get].
  destruct (get k (s_options (src fs x))) as [v|]; [|reflexivity].
  destruct v as [neg z|b|b|t]; cbn [visit_lit]; try reflexivity.
  unfold int_lit. destruct (_ <? _)%Z; reflexivity.
Qed.
Lemma unit_omitted fs acc x : there fs x -> omitted (unit_of fs acc x) = not_wanted (src fs x).
Proof.
  intros (_ & n & Hv). unfold omitted, not_wanted, unit_of. cbn [g_opts g_tops].
  unfold visit_info in Hv. destruct (s_packages (src fs x)) as [|pkg [|]]; try discriminate.
  apply bind_ok in Hv. destruct Hv as (o & E & _). rewrite E, (file_options_get "omit_empty" _ _ _ E). cbn [get].
  destruct (s_tops (src fs x)) as [|t r]; cbn [resolve_tops]; [|reflexivity].
  destruct (get "omit_empty" (s_options (src fs x))) as [v|]; [|reflexivity].
  destruct v as [neg z|b|b|t]; cbn [visit_lit]; try reflexivity.
  unfold int_lit. destruct (_ <? _)%Z; reflexivity.
Qed.
Lemma unit_package fs acc x t : there fs x -> out_package t (unit_of fs acc x) = target_package t (src fs x).
Proof.
  intros H. unfold out_package, target_package.
  destruct t; try reflexivity; rewrite (unit_option fs acc x _ H); reflexivity.
Qed.
Lemma not_wanted_types s : not_wanted s = true -> types_source s = [] /\ s_tops s = [].
Proof. unfold not_wanted, types_source. destruct (s_tops s); [auto|discriminate]. Qed.

Lemma pkg_file_eq l ext : pkg_file l ext = (String.concat "/" l ++ ext)%string.
Proof. unfold pkg_file, Package.to_file_path, Package.new_package, Package.join. destruct l; reflexivity. Qed.

Definition fd (w : write) : string * list string := (w_file w, w_decls w).

(** ** Go's imports *)
Lemma go_some done l me :
  (forall t, good done l t -> forall acc, exists r, go_ty done me t acc = Some r) /\
  (forall fs, goods done l fs -> forall acc, exists r, go_dfs done me fs acc = Some r).
Proof.
  apply gty_mut; cbn [good goods go_ty go_dfs].
  - intros o n (H & _) acc. apply mem_In in H. rewrite H. destruct (String.eqb o me); eauto.
  - intros o n fs IH (H & _ & G & _) acc. apply mem_In in H. destruct (IH G acc) as (r & ->). rewrite H.
    destruct (String.eqb o me); eauto.
  - eauto.
  - intros t IHt r IHr (G1 & G2) acc. destruct (IHt G1 acc) as (a & ->). auto.
Qed.
Lemma go_imports_some done l me : forall tops, Forall (fun d => good done l (snd d)) tops ->
  forall acc, exists r, go_imports done me tops acc = Some r.
Proof.
  induction tops as [|[k ty] r IH]; intros H acc; cbn [go_imports]; [eauto|]. inversion H; subst.
  destruct ty as [o n|o n fs]; [auto|]. cbn [snd good] in H2. destruct H2 as (_ & _ & G & _).
  destruct (proj2 (go_some done l me) fs G acc) as (a & ->). auto.
Qed.

(** ** A run over the units: the targets that generate the types of fields *)
Definition plain (t : target) : bool :=
  match t with TJava | TKotlin | TESM => false | _ => true end.

Lemma filter_get {V} (f : string * V -> bool) m n v : get n (filter f m) = Some v -> In (n, v) m.
Proof.
  induction m as [|[k x] r IH]; cbn [filter get]; [discriminate|].
  destruct (f (k, x)); cbn [get].
  - destruct (String.eqb_spec n k) as [-> |]; [intros [= ->]; left; reflexivity|intros H; right; auto].
  - intros H; right; auto.
Qed.

Definition frees (fs : filesystem) (us : list (string * comp_unit)) : list string :=
  flat_map (fun x => map fst (defs_source (src fs x))) us.

Lemma step_tops fs x acc done st :
  In (fst x) done -> Forall (fun d => good done st (snd d)) acc ->
  NoDup (map fst (defs_source (src fs x))) -> (forall n, In n (map fst (defs_source (src fs x))) -> ~ In n st) ->
  gen_all true st (g_tops (unit_of fs acc x)) = st ++ types_source (src fs x) /\
  Forall (fun d => good done (st ++ types_source (src fs x)) (snd d)) (acc ++ g_tops (unit_of fs acc x)).
Proof.
  intros Hd Ha Hn Hf. unfold unit_of. cbn [g_tops]. unfold types_source, defs_source in *.
  destruct (tops_ok (fst x) done Hd (s_tops (src fs x)) (filter (fun e => has (fst e) (u_types (snd x))) acc) st)
    as (E & G).
  - intros n t Hg. apply filter_get in Hg. rewrite Forall_forall in Ha. exact (Ha _ Hg).
  - exact Hn.
  - intros n Hi. split; [auto|intros []].
  - split; [exact E|]. apply Forall_app. split; [|exact G].
    apply Forall_forall. intros d Hi. rewrite Forall_forall in Ha. apply good_more. auto.
Qed.

Lemma types_defs s : incl (types_source s) (map fst (defs_source s)).
Proof.
  unfold types_source, defs_source. intros n H. apply in_flat_map in H. destruct H as (t & Ht & Hn).
  apply in_map_iff.
  assert (K : In n (map fst (defs_top t))).
  { destruct t as [d|d]; cbn [types_top defs_top] in *.
    - exact (proj1 (proj1 (proj2 types_names) d) _ Hn).
    - destruct Hn as [<- |[]]. left; reflexivity. }
  apply in_map_iff in K. destruct K as (e & <- & He). exists e. split; [reflexivity|]. apply in_flat_map. eauto.
Qed.

Lemma has_put_keys {V} k (v : V) m n : In n (map fst (put k v m)) <-> In n (map fst m) \/ n = k.
Proof.
  unfold put. destruct (has k m) eqn:E.
  - split; [auto|]. intros [H| ->]; [auto|]. destruct (in_dec string_dec k (map fst m)); [auto|].
    apply get_none_keys in n. unfold has in E. rewrite n in E. discriminate.
  - rewrite map_app, in_app_iff. cbn. intuition.
Qed.

Definition good_acc (x : gstate) (acc : genv) : Prop :=
  Forall (fun d => good (x_done x) (x_types x) (snd d)) acc.

Lemma good_acc_done st acc done d : Forall (fun e => good done st (snd e)) acc ->
  Forall (fun e : string * gty => good (done ++ d) st (snd e)) acc.
Proof.
  intros H. apply Forall_forall. intros e He. rewrite Forall_forall in H.
  rewrite <- (app_nil_r st). apply (proj1 (good_mono done st d [])). auto.
Qed.

Lemma unit_plain fs t single all x acc y : plain t = true -> there fs y -> not_wanted (src fs y) = false ->
  has (String.concat "." (target_package t (src fs y))) (x_units x) = false ->
  good_acc x acc ->
  NoDup (map fst (defs_source (src fs y))) -> (forall n, In n (map fst (defs_source (src fs y))) -> ~ In n (x_types x)) ->
  exists ws,
    generate_unit t single all x (unit_of fs acc y) =
      (true, {| x_types := x_types x ++ types_source (src fs y);
                x_units := put (String.concat "." (target_package t (src fs y))) (types_source (src fs y)) (x_units x);
                x_done := x_done x ++ [fst y]; x_writes := ws |}) /\
    map fd ws = map fd (x_writes x) ++ (if single then [] else source_files t (src fs y)) /\
    Forall (fun d => good (x_done x ++ [fst y]) (x_types x ++ types_source (src fs y)) (snd d))
      (acc ++ g_tops (unit_of fs acc y)).
Proof.
  intros Ht Hy Ew Hh Hg Ny Hf.
  assert (Hd : In (fst y) (x_done x ++ [fst y])) by (apply in_or_app; right; left; reflexivity).
  destruct (step_tops fs y acc (x_done x ++ [fst y]) (x_types x) Hd (good_acc_done _ _ _ _ Hg) Ny Hf) as (E1 & G1).
  assert (Gt : Forall (fun d => good (x_done x ++ [fst y]) (x_types x ++ types_source (src fs y)) (snd d))
                 (g_tops (unit_of fs acc y))) by (apply Forall_app in G1; tauto).
  destruct (go_imports_some (x_done x ++ [fst y]) _ (g_path (unit_of fs acc y)) _ Gt []) as (gi & Egi).
  unfold generate_unit. rewrite (unit_omitted fs acc y Hy), Ew, (unit_package fs acc y t Hy). cbv zeta.
  unfold pkg_string. rewrite Hh.
  change (g_path (unit_of fs acc y)) with (fst y) in *.
  destruct t; try discriminate; cbn [visits_fields x_done x_types x_units x_writes]; rewrite E1, skipn_app_len;
    destruct single.
  all: try (eexists; split; [reflexivity|]; split; [rewrite app_nil_r; reflexivity|exact G1]).
  all: try rewrite Egi.
  all: eexists; (split; [reflexivity|]); split; [|exact G1].
  all: rewrite map_app; f_equal; unfold source_files; rewrite Ew; cbv zeta; rewrite ?map_map; cbn [map];
       unfold fd; cbn [w_file w_decls]; rewrite !pkg_file_eq; try reflexivity.
  destruct (target_package TGo (src fs y)); reflexivity.
Qed.

Lemma accept_plain fs t single all : plain t = true -> forall us acc x,
  Forall (there fs) us -> good_acc x acc ->
  NoDup (frees fs us) -> (forall n, In n (frees fs us) -> ~ In n (x_types x)) ->
  NoDup (flat_map (key t fs) us) -> (forall k, In k (flat_map (key t fs) us) -> ~ In k (map fst (x_units x))) ->
  exists x', accept t single all (program fs us acc) x = (true, x') /\
    x_types x' = x_types x ++ flat_map (fun y => types_source (src fs y)) us /\
    flat_map snd (x_units x') = flat_map snd (x_units x) ++ flat_map (fun y => types_source (src fs y)) us /\
    map fd (x_writes x') = map fd (x_writes x) ++
      (if single then [] else flat_map (fun y => source_files t (src fs y)) us) /\
    map fst (x_units x') = map fst (x_units x) ++ flat_map (key t fs) us.
Proof.
  intros Ht. induction us as [|y us IH]; intros acc x Hth Hg Hn Hf Hk Hkf.
  - cbn [program accept flat_map]. exists x. rewrite !app_nil_r. destruct single; rewrite ?app_nil_r; auto.
  - inversion Hth as [|? ? Hy Hth']; subst. rewrite program_cons by exact Hy. cbn [accept].
    cbn [frees flat_map] in Hn, Hf. destruct (nodup_app_inv _ _ Hn) as (Ny & Nr & Nd).
    cbn [flat_map] in Hk, Hkf. destruct (nodup_app_inv _ _ Hk) as (_ & Kr & Kd).
    assert (Ek : key t fs y = if not_wanted (src fs y) then [] else [String.concat "." (target_package t (src fs y))]) by reflexivity.
    destruct (not_wanted (src fs y)) eqn:Ew.
    + destruct (not_wanted_types _ Ew) as (Et & Es).
      assert (Eu : generate_unit t single all x (unit_of fs acc y) = (true, x)).
      { unfold generate_unit. rewrite (unit_omitted fs acc y Hy), Ew. reflexivity. }
      rewrite Eu.
      destruct (IH (acc ++ g_tops (unit_of fs acc y)) x) as (x' & E & Q1 & Q2 & Q3 & Q4); auto.
      * replace (g_tops (unit_of fs acc y)) with (@nil (string * gty)); [rewrite app_nil_r; exact Hg|].
        unfold unit_of. cbn [g_tops]. rewrite Es. reflexivity.
      * intros n Hi. apply Hf. apply in_or_app; auto.
      * intros k Hi. apply Hkf. apply in_or_app; auto.
      * exists x'. split; [exact E|]. cbn [flat_map]. rewrite Et, Ek. cbn [app]. split; [exact Q1|]. split; [exact Q2|].
        split; [|exact Q4].
        rewrite Q3. f_equal. destruct single; [reflexivity|].
        assert (Ef : source_files t (src fs y) = []) by (unfold source_files; rewrite Ew; reflexivity).
        rewrite Ef. reflexivity.
    + set (k := String.concat "." (target_package t (src fs y))) in *.
      assert (Hnk : ~ In k (map fst (x_units x))) by (apply Hkf; rewrite Ek; left; reflexivity).
      assert (Hh : has k (x_units x) = false) by (unfold has; rewrite get_none_keys; auto).
      destruct (unit_plain fs t single all x acc y Ht Hy Ew Hh Hg Ny) as (ws & Eu & Ew' & G1).
      { intros n Hi. apply Hf. apply in_or_app; auto. }
      rewrite Eu. fold k.
      destruct (IH (acc ++ g_tops (unit_of fs acc y))
        {| x_types := x_types x ++ types_source (src fs y); x_units := put k (types_source (src fs y)) (x_units x);
           x_done := x_done x ++ [fst y]; x_writes := ws |}) as (x' & E & Q1 & Q2 & Q3 & Q4); auto.
      * intros n Hi Hx. cbn [x_types] in Hx. apply in_app_or in Hx as [Hx|Hx].
        -- exact (Hf n (in_or_app _ _ _ (or_intror Hi)) Hx).
        -- exact (Nd n (types_defs _ _ Hx) Hi).
      * intros k' Hi Hx. cbn [x_units] in Hx. apply has_put_keys in Hx as [Hx| ->].
        -- exact (Hkf k' (in_or_app _ _ _ (or_intror Hi)) Hx).
        -- apply (Kd k); [rewrite Ek; left; reflexivity|exact Hi].
      * exists x'. split; [exact E|]. cbn [x_types x_units x_writes] in Q1, Q2, Q3, Q4.
        rewrite (put_new _ _ _ Hh) in Q2, Q4. rewrite flat_map_app in Q2. rewrite map_app in Q4. cbn [flat_map map snd fst] in Q2, Q4.
        rewrite app_nil_r in Q2. cbn [flat_map].
        split; [rewrite Q1, <- app_assoc; reflexivity|].
        split; [rewrite Q2, <- app_assoc; reflexivity|].
        split; [rewrite Q3, Ew', <- app_assoc; destruct single; reflexivity|].
        rewrite Q4, Ek, <- app_assoc. reflexivity.
Qed.

(** ** The other targets *)
Section Accept.
  Context (fs : filesystem) (t : target) (single : bool) (all : list gunit).
  Context (I : gstate -> genv -> Prop) (U : source -> list string) (F : source -> list (string * list string)).
  Hypothesis U_empty : forall s, not_wanted s = true -> U s = [].
  Hypothesis F_empty : forall s, not_wanted s = true -> F s = [].
  Hypothesis step : forall x acc y, I x acc -> there fs y -> not_wanted (src fs y) = false ->
    ~ In (String.concat "." (target_package t (src fs y))) (map fst (x_units x)) ->
    NoDup (map fst (defs_source (src fs y))) ->
    (forall n, In n (map fst (defs_source (src fs y))) -> ~ In n (x_types x)) ->
    exists x', generate_unit t single all x (unit_of fs acc y) = (true, x') /\
      I x' (acc ++ g_tops (unit_of fs acc y)) /\
      (forall n, In n (x_types x') -> In n (x_types x) \/ In n (map fst (defs_source (src fs y)))) /\
      (forall k, In k (map fst (x_units x')) <-> In k (map fst (x_units x)) \/ k = String.concat "." (target_package t (src fs y))) /\
      flat_map snd (x_units x') = flat_map snd (x_units x) ++ U (src fs y) /\
      map fd (x_writes x') = map fd (x_writes x) ++ F (src fs y).

  Lemma accept_other : forall us acc x,
    Forall (there fs) us -> I x acc ->
    NoDup (frees fs us) -> (forall n, In n (frees fs us) -> ~ In n (x_types x)) ->
    NoDup (flat_map (key t fs) us) -> (forall k, In k (flat_map (key t fs) us) -> ~ In k (map fst (x_units x))) ->
    exists x', accept t single all (program fs us acc) x = (true, x') /\
      flat_map snd (x_units x') = flat_map snd (x_units x) ++ flat_map (fun y => U (src fs y)) us /\
      map fd (x_writes x') = map fd (x_writes x) ++ flat_map (fun y => F (src fs y)) us /\
      (forall k, In k (map fst (x_units x')) <-> In k (map fst (x_units x)) \/ In k (flat_map (key t fs) us)).
  Proof.
    induction us as [|y us IH]; intros acc x Hth Hi Hn Hf Hk Hkf.
    - cbn [program accept flat_map]. exists x. rewrite !app_nil_r. cbn. intuition.
    - inversion Hth as [|? ? Hy Hth']; subst. rewrite program_cons by exact Hy. cbn [accept].
      cbn [frees flat_map] in Hn, Hf. destruct (nodup_app_inv _ _ Hn) as (Ny & Nr & Nd).
      cbn [flat_map] in Hk, Hkf. destruct (nodup_app_inv _ _ Hk) as (_ & Kr & Kd).
      assert (Ek : key t fs y = if not_wanted (src fs y) then [] else [String.concat "." (target_package t (src fs y))]) by reflexivity.
      destruct (not_wanted (src fs y)) eqn:Ew.
      + destruct (not_wanted_types _ Ew) as (Et & Es).
        assert (Eu : generate_unit t single all x (unit_of fs acc y) = (true, x)).
        { unfold generate_unit. rewrite (unit_omitted fs acc y Hy), Ew. reflexivity. }
        rewrite Eu.
        destruct (IH (acc ++ g_tops (unit_of fs acc y)) x) as (x' & E & Q1 & Q2 & Q3); auto.
        * replace (g_tops (unit_of fs acc y)) with (@nil (string * gty)); [rewrite app_nil_r; exact Hi|].
          unfold unit_of. cbn [g_tops]. rewrite Es. reflexivity.
        * intros n Hx. apply Hf. apply in_or_app; auto.
        * intros k Hx. apply Hkf. apply in_or_app; auto.
        * exists x'. split; [exact E|]. cbn [flat_map]. rewrite (U_empty _ Ew), (F_empty _ Ew), Ek. auto.
      + set (k := String.concat "." (target_package t (src fs y))) in *.
        assert (Hnk : ~ In k (map fst (x_units x))) by (apply Hkf; rewrite Ek; left; reflexivity).
        destruct (step x acc y Hi Hy Ew Hnk Ny) as (x1 & Eu & Hi' & Ht & Hu & EU & EF).
        { intros n Hx. apply Hf. apply in_or_app; auto. }
        rewrite Eu.
        destruct (IH (acc ++ g_tops (unit_of fs acc y)) x1) as (x' & E & Q1 & Q2 & Q3); auto.
        * intros n Hx Hx2. destruct (Ht n Hx2) as [H|H].
          -- exact (Hf n (in_or_app _ _ _ (or_intror Hx)) H).
          -- exact (Nd n H Hx).
        * intros k' Hx Hx2. destruct (proj1 (Hu k') Hx2) as [H| ->].
          -- exact (Hkf k' (in_or_app _ _ _ (or_intror Hx)) H).
          -- apply (Kd k); [rewrite Ek; left; reflexivity|exact Hx].
        * exists x'. split; [exact E|]. cbn [flat_map]. rewrite Q1, Q2, EU, EF, <- !app_assoc.
          split; [reflexivity|]. split; [reflexivity|]. intros k'. rewrite Q3, Hu, Ek, in_app_iff. cbn [In].
          split; intros HH; intuition.
  Qed.
End Accept.

Lemma tops_nodup l : NoDup (map fst (flat_map defs_top l)) -> NoDup (map top_name l) /\
  incl (map top_name l) (map fst (flat_map defs_top l)).
Proof.
  induction l as [|t r IH]; cbn [flat_map map]; [split; [constructor|intros ? []]|].
  rewrite map_app. intros H. destruct (nodup_app_inv _ _ H) as (A & B & D). destruct (IH B) as (N & J).
  assert (K : In (top_name t) (map fst (defs_top t))) by (destruct t as [[? ? ? ?]|]; left; reflexivity).
  split.
  - constructor; [|exact N]. intros Q. exact (D _ K (J _ Q)).
  - intros x [<- |Q]; apply in_or_app; auto.
Qed.

(** Replacing dots by slashes is splitting at dots and joining with slashes. *)
Lemma dots_split s : dots_to_slashes s = String.concat "/" (Package.split "." s).
Proof.
  induction s as [|c s IH]; [reflexivity|]. cbn [dots_to_slashes Package.split]. rewrite IH.
  assert (N : exists h r, Package.split "." s = h :: r).
  { destruct s as [|d s]; cbn [Package.split]; [eauto|]. destruct (Ascii.eqb d "."); [eauto|].
    destruct (Package.split "." s); eauto. }
  destruct N as (h & r & ->). destruct (Ascii.eqb c "."); destruct r; reflexivity.
Qed.

(** What the targets that do not look at fields declare. *)
Definition top_files (t : target) (s : source) : list (string * list string) :=
  if not_wanted s then []
  else match t with
       | TKotlin => map (fun n => ((kotlin_dir s ++ n ++ ".kt")%string, [n])) (map top_name (s_tops s))
       | _ => [((String.concat "/" (target_package t s) ++ ".bb.js")%string, map top_name (s_tops s))]
       end.

Lemma accept_java fs single all us acc x :
  Forall (there fs) us -> good_acc x acc ->
  NoDup (frees fs us) -> (forall n, In n (frees fs us) -> ~ In n (x_types x)) ->
  NoDup (flat_map (key TJava fs) us) -> (forall k, In k (flat_map (key TJava fs) us) -> ~ In k (map fst (x_units x))) ->
  exists x', accept TJava single all (program fs us acc) x = (true, x') /\
    map fd (x_writes x') = map fd (x_writes x) ++ flat_map (fun y => source_files TJava (src fs y)) us /\
    (forall k, In k (map fst (x_units x')) <-> In k (map fst (x_units x)) \/ In k (flat_map (key TJava fs) us)).
Proof.
  intros H1 H2 H3 H4 H5 H6.
  destruct (accept_other fs TJava single all good_acc (fun _ => []) (source_files TJava)) with (us := us) (acc := acc) (x := x)
    as (x' & E & _ & Q & QK); auto; [| |eauto].
  - intros s Hs. unfold source_files. rewrite Hs. reflexivity.
  - clear. intros x acc y Hg Hy Ew Hk Ny Hf.
    assert (Hh : has (String.concat "." (target_package TJava (src fs y))) (x_units x) = false)
      by (unfold has; rewrite get_none_keys; auto).
    assert (Hd : In (fst y) (x_done x ++ [fst y])) by (apply in_or_app; right; left; reflexivity).
    destruct (step_tops fs y acc (x_done x ++ [fst y]) (x_types x) Hd (good_acc_done _ _ _ _ Hg) Ny Hf) as (E1 & G1).
    unfold generate_unit. rewrite (unit_omitted fs acc y Hy), Ew, (unit_package fs acc y TJava Hy). cbv zeta.
    unfold pkg_string. rewrite Hh, java_types_eq, E1, skipn_app_len.
    eexists. split; [reflexivity|]. cbn [x_types x_units x_writes]. split; [exact G1|]. split.
    { intros n Hi. apply in_app_or in Hi as [Hi|Hi]; [auto|]. right. exact (types_defs _ _ Hi). }
    split; [intros k; apply has_put_keys|]. split.
    { rewrite (put_new _ _ _ Hh), flat_map_app. reflexivity. }
    rewrite map_app, map_map. f_equal. unfold source_files. rewrite Ew. cbv zeta. apply map_ext. intros n.
    unfold fd. cbn [w_file w_decls]. rewrite pkg_file_eq. reflexivity.
Qed.

Lemma accept_esm fs single all us acc x :
  Forall (there fs) us ->
  NoDup (frees fs us) -> (forall n, In n (frees fs us) -> ~ In n (x_types x)) ->
  NoDup (flat_map (key TESM fs) us) -> (forall k, In k (flat_map (key TESM fs) us) -> ~ In k (map fst (x_units x))) ->
  exists x', accept TESM single all (program fs us acc) x = (true, x') /\
    flat_map snd (x_units x') = flat_map snd (x_units x) ++ flat_map (fun y => map top_name (s_tops (src fs y))) us /\
    map fd (x_writes x') = map fd (x_writes x) ++ (if single then [] else flat_map (fun y => top_files TESM (src fs y)) us).
Proof.
  intros H1 H3 H4 H5 H6.
  destruct (accept_other fs TESM single all (fun _ _ => True) (fun s => map top_name (s_tops s))
     (if single then fun _ => [] else top_files TESM)) with (us := us) (acc := acc) (x := x)
    as (x' & E & Q1 & Q2 & _); auto.
  - intros s Hs. destruct (not_wanted_types _ Hs) as (_ & ->). reflexivity.
  - intros s Hs. destruct single; [reflexivity|]. unfold top_files. rewrite Hs. reflexivity.
  - clear. intros x acc y _ Hy Ew Hk Ny Hf.
    assert (Hh : has (String.concat "." (target_package TESM (src fs y))) (x_units x) = false)
      by (unfold has; rewrite get_none_keys; auto).
    destruct (tops_nodup _ Ny) as (Nt & It).
    assert (E1 : gen_all false (x_types x) (g_tops (unit_of fs acc y)) = x_types x ++ map top_name (s_tops (src fs y))).
    { unfold unit_of. cbn [g_tops]. apply tops_flat; [exact Nt|]. intros n Hn. apply Hf. apply It. exact Hn. }
    unfold generate_unit. rewrite (unit_omitted fs acc y Hy), Ew, (unit_package fs acc y TESM Hy). cbv zeta.
    unfold pkg_string. cbn [visits_fields]. rewrite E1, skipn_app_len.
    destruct single; (eexists; split; [reflexivity|]); cbn [x_types x_units x_writes]; (split; [exact Logic.I|]).
    all: (split; [intros n Hi; apply in_app_or in Hi as [Hi|Hi]; [auto|right; apply It; exact Hi]|]).
    all: (split; [intros k; apply has_put_keys|]).
    all: (split; [rewrite (put_new _ _ _ Hh), flat_map_app; cbn [flat_map snd]; rewrite app_nil_r; reflexivity|]).
    + rewrite app_nil_r. reflexivity.
    + rewrite map_app, map_map. f_equal. unfold top_files. rewrite Ew. cbn [map]. unfold fd. cbn [w_file w_decls].
      rewrite pkg_file_eq. reflexivity.
  - exists x'. split; [exact E|]. split; [exact Q1|]. rewrite Q2. f_equal. destruct single; [|reflexivity].
    clear. induction us; auto.
Qed.

Lemma accept_kotlin fs single all : forall us acc x, Forall (there fs) us ->
  exists x', accept TKotlin single all (program fs us acc) x = (true, x') /\
    map fd (x_writes x') = map fd (x_writes x) ++ flat_map (fun y => top_files TKotlin (src fs y)) us.
Proof.
  induction us as [|y us IH]; intros acc x Hth.
  - cbn [program accept flat_map]. exists x. rewrite app_nil_r. auto.
  - inversion Hth as [|? ? Hy Hth']; subst. rewrite program_cons by exact Hy. cbn [accept flat_map].
    unfold generate_unit. rewrite (unit_omitted fs acc y Hy). unfold top_files at 1.
    destruct (not_wanted (src fs y)) eqn:Ew; [apply IH; exact Hth'|]. cbv zeta.
    match goal with |- context [program fs us ?a] => match goal with |- context [accept _ _ _ _ ?z] =>
      destruct (IH a z Hth') as (x' & E & Q) end end.
    exists x'. split; [exact E|]. rewrite Q. cbn [x_writes]. rewrite map_app, map_map, <- app_assoc. f_equal. f_equal.
    unfold fd. cbn [w_file w_decls].
    destruct (resolve_tops_names (fst y) (s_tops (src fs y)) (filter (fun e => has (fst e) (u_types (snd y))) acc)) as (A & B).
    unfold unit_of at 2. cbn [g_tops]. rewrite <- A, map_map. apply map_ext_in. intros d Hd. rewrite Forall_forall in B.
    destruct (B _ Hd) as (-> & _). f_equal.
    assert (Ens : unit_ns TKotlin (unit_of fs acc y) =
      match str_option "kotlin_package" (src fs y) with Some x => x | None => String.concat "." (package_parts (src fs y)) end).
    { unfold unit_ns. rewrite (unit_option fs acc y _ Hy). reflexivity. }
    rewrite Ens, dots_split. reflexivity.
Qed.

(** ** Runs that stop *)
Lemma program_app fs : forall a b acc, Forall (there fs) a ->
  program fs (a ++ b) acc = program fs a acc ++ program fs b (acc ++ flat_map g_tops (program fs a acc)).
Proof.
  induction a as [|x a IH]; intros b acc H; cbn [app].
  - cbn [program flat_map app]. rewrite app_nil_r. reflexivity.
  - inversion H as [|? ? Hx Ha]; subst. rewrite !(program_cons fs x) by exact Hx. rewrite IH by exact Ha.
    cbn [app flat_map]. rewrite <- app_assoc. reflexivity.
Qed.
Lemma accept_app t single all : forall a b x, accept t single all (a ++ b) x =
  match accept t single all a x with (true, x') => accept t single all b x' | r => r end.
Proof.
  induction a as [|u a IH]; intros b x; cbn [app accept]; [reflexivity|].
  destruct (generate_unit t single all x u) as [[] x']; [apply IH|reflexivity].
Qed.

(** ** The order of the types *)
Lemma program_good fs : forall us acc done st,
  Forall (there fs) us -> Forall (fun d => good done st (snd d)) acc ->
  NoDup (frees fs us) -> (forall n, In n (frees fs us) -> ~ In n st) ->
  Forall (fun g => Forall (fun d => good (done ++ map fst us) (st ++ flat_map (fun y => types_source (src fs y)) us) (snd d))
                     (g_tops g)) (program fs us acc).
Proof.
  induction us as [|y us IH]; intros acc done st Hth Ha Hn Hf; [constructor|].
  inversion Hth as [|? ? Hy Hth']; subst. rewrite program_cons by exact Hy.
  cbn [frees flat_map] in Hn, Hf. destruct (nodup_app_inv _ _ Hn) as (Ny & Nr & Nd).
  destruct (step_tops fs y acc (done ++ [fst y]) st) as (_ & G).
  { apply in_or_app; right; left; reflexivity. }
  { apply good_acc_done. exact Ha. }
  { exact Ny. }
  { intros n Hi. apply Hf. apply in_or_app; auto. }
  cbn [map flat_map]. rewrite (app_assoc st).
  replace (done ++ fst y :: map fst us) with ((done ++ [fst y]) ++ map fst us) by (rewrite <- app_assoc; reflexivity).
  constructor.
  - apply Forall_app in G as (_ & G). apply Forall_forall. intros d Hd. rewrite Forall_forall in G.
    apply (proj1 (good_mono _ _ _ _)). auto.
  - apply IH; auto. intros n Hi Hx. apply in_app_or in Hx as [Hx|Hx].
    + exact (Hf n (in_or_app _ _ _ (or_intror Hi)) Hx).
    + exact (Nd n (types_defs _ _ Hx) Hi).
Qed.
Lemma good_node done l o n fs :
  (forall t, good done l t -> node_of o n fs t -> In o done /\ In n l /\ goods done l fs /\ fields_before l n fs) /\
  (forall r, goods done l r -> node_in o n fs r -> In o done /\ In n l /\ goods done l fs /\ fields_before l n fs).
Proof.
  apply gty_mut; cbn [good goods node_of node_in].
  - intros ? ? _ [].
  - intros o' n' r IH (H1 & H2 & H3 & H4) [(-> & -> & ->)|H]; auto.
  - intros _ [].
  - intros t IHt r IHr (H1 & H2) [H|H]; auto.
Qed.
