(** Proofs about compilation: termination, soundness and completeness with respect to [means]. *)
From Coq Require Import String ZArith List Bool Lia Relations Permutation.
From Verif Require Import Base BaseProofs Schema FrontModel FrontSpec FrontProofs PropsFront CompileModel CompileSpec.
Import ListNotations.
Open Scope string_scope.
Open Scope list_scope.

(** ** Maps *)
Lemma mem_In k l : mem k l = true <-> In k l.
Proof.
  unfold mem. rewrite existsb_exists. split.
  - intros (x & Hx & E). apply String.eqb_eq in E. congruence.
  - intros H. exists k. split; [exact H|apply String.eqb_refl].
Qed.
Lemma mem_nIn k l : mem k l = false <-> ~ In k l.
Proof. rewrite <- mem_In. destruct (mem k l); split; congruence. Qed.
Lemma has_true {V} k (m : list (string * V)) : has k m = true <-> In k (map fst m).
Proof.
  destruct (has k m) eqn:E.
  - split; [|reflexivity]. intros _. destruct (in_dec string_dec k (map fst m)) as [H|H]; [exact H|].
    apply has_keys in H. congruence.
  - apply has_keys in E. split; [discriminate|contradiction].
Qed.
Lemma update_app {V} k (v : V) m m' : ~ In k (map fst m) ->
  update k v (m ++ m') = m ++ update k v m'.
Proof.
  induction m as [|[k' v'] r IH]; cbn; [reflexivity|]. intros H.
  destruct (String.eqb_spec k k'); [subst; tauto|]. rewrite IH; tauto.
Qed.
Lemma filter_other k l : ~ In k l -> filter (fun q => negb (String.eqb k q)) l = l.
Proof.
  induction l as [|a r IH]; cbn; [reflexivity|]. intros H.
  destruct (String.eqb_spec k a); [subst; tauto|]. cbn. rewrite IH; tauto.
Qed.
Lemma keys_put {V} k (v : V) m : forall x, In x (map fst (put k v m)) <-> In x (map fst m) \/ x = k.
Proof.
  intros x. unfold put. destruct (has k m) eqn:E.
  - apply has_true in E. split; [auto|]. intros [H| ->]; auto.
  - rewrite map_app, in_app_iff. cbn. intuition congruence.
Qed.
Lemma keys_update {V} k (v : V) m : map fst (update k v m) = map fst m.
Proof. induction m as [|[k' v'] r IH]; cbn; [reflexivity|]. destruct (String.eqb k k'); cbn; congruence. Qed.

(** ** Termination *)
(** Files that were begun. *)
Definition seen (r : runtime) : list string := map fst (r_units r) ++ r_stack r.
Definition left_over (fs : filesystem) (r : runtime) : nat :=
  length (filter (fun x => negb (mem x (seen r))) (map fst fs)).

Definition grows (f : runtime -> string -> option (res unit * runtime)) : Prop :=
  forall r p x r', f r p = Some (x, r') -> incl (seen r) (seen r').

Lemma imports_grow rec l : grows rec -> forall r u ok x r',
  compile_imports rec l r u ok = Some (x, r') -> incl (seen r) (seen r').
Proof.
  intros Hg. induction l as [|p rest IH]; intros r u ok x r' H; cbn [compile_imports] in H.
  - injection H as _ <-. apply incl_refl.
  - destruct (rec r p) as [[[[]| |] r1]|] eqn:E; try discriminate; pose proof (Hg _ _ _ _ E) as G1.
    + destruct (get p (r_units r1)) as [o|].
      * destruct (add_import u o) as [ok' u']. eapply incl_tran; eauto.
      * eapply incl_tran; eauto.
    + eapply incl_tran; eauto.
    + injection H as _ <-. exact G1.
Qed.

Lemma seen_remove {V} p l (us : list (string * V)) : incl (map fst us ++ l)
  (map fst us ++ (p :: filter (fun q => negb (String.eqb p q)) l)).
Proof.
  intros x Hx. apply in_app_iff in Hx. apply in_app_iff. destruct Hx as [Hx|Hx]; [auto|]. right.
  destruct (String.eqb_spec p x); [left; assumption|]. right. apply filter_In. split; [assumption|].
  destruct (String.eqb_spec p x); [contradiction|reflexivity].
Qed.

Lemma compile_grows fs n : grows (compile n fs).
Proof.
  induction n as [|n IH]; intros r p x r' H; cbn [compile] in H; [discriminate|].
  destruct (get p fs) as [content|]; [|injection H as _ <-; apply incl_refl].
  destruct (mem p (r_stack r)); [injection H as _ <-; apply incl_refl|].
  destruct (has p (r_units r)); [injection H as _ <-; apply incl_refl|].
  destruct content as [src|]; [|injection H as _ <-; apply incl_refl].
  destruct (visit_info src) as [pkg| |]; [|injection H as _ <-; apply incl_refl..].
  destruct (mem pkg (r_packages r)); [injection H as _ <-; apply incl_refl|].
  destruct (compile_imports _ _ _ _ _) as [[y r2]|] eqn:E; [|discriminate].
  pose proof (imports_grow _ _ IH _ _ _ _ _ E) as G. unfold seen in G at 1.
  cbn [r_units r_stack] in G.
  assert (G' : incl (seen r) (seen r2)).
  { intros z Hz. apply G. unfold seen in Hz. rewrite app_assoc. apply in_app_iff. auto. }
  assert (G3 : forall u pk, incl (seen r2) (seen {| r_units := put p u (r_units r2);
             r_packages := pk;
             r_stack := filter (fun q => negb (String.eqb p q)) (r_stack r2) |})).
  { intros u pk z Hz. unfold seen in *. cbn [r_units r_stack].
    pose proof (seen_remove p (r_stack r2) (r_units r2) z Hz) as Hz'.
    apply in_app_iff in Hz'. apply in_app_iff. rewrite keys_put. cbn in Hz'. intuition. }
  destruct y as [[[|] u]| |]; [|injection H as _ <-; exact G'..].
  destruct (visit_tops _ _ _ _) as [[ts ns]| |]; injection H as _ <-.
  - intros z Hz. unfold seen. cbn [r_units r_stack]. rewrite keys_update.
    exact (G3 u [] z (G' z Hz)).
  - intros z Hz. exact (G3 u [] z (G' z Hz)).
  - intros z Hz. exact (G3 u [] z (G' z Hz)).
Qed.

Lemma filter_le {A} (f g : A -> bool) l : (forall x, f x = true -> g x = true) ->
  (length (filter f l) <= length (filter g l))%nat.
Proof.
  intros H. induction l as [|a r IH]; cbn; [lia|].
  destruct (f a) eqn:E; [rewrite (H _ E); cbn; lia|]. destruct (g a); cbn; lia.
Qed.
Lemma filter_lt {A} (f g : A -> bool) l x : (forall x, f x = true -> g x = true) ->
  In x l -> f x = false -> g x = true -> (length (filter f l) < length (filter g l))%nat.
Proof.
  intros H. induction l as [|a r IH]; cbn; [tauto|]. intros [->|Hi] Hf Hg.
  - rewrite Hf, Hg. cbn. pose proof (filter_le f g r H). lia.
  - specialize (IH Hi Hf Hg). destruct (f a) eqn:E; [rewrite (H _ E); cbn; lia|].
    destruct (g a); cbn; lia.
Qed.
Lemma left_le fs r r' : incl (seen r) (seen r') -> (left_over fs r' <= left_over fs r)%nat.
Proof.
  intros H. apply filter_le. intros x Hx. apply negb_true_iff in Hx. apply negb_true_iff.
  rewrite mem_nIn in *. auto.
Qed.
Lemma get_key {V} k (m : list (string * V)) v : get k m = Some v -> In k (map fst m).
Proof. intros H. apply get_In in H. apply (in_map fst) in H. exact H. Qed.

Lemma imports_total rec l m fs : grows rec ->
  (forall r p, (left_over fs r < m)%nat -> rec r p <> None) ->
  forall r u ok, (left_over fs r < m)%nat -> compile_imports rec l r u ok <> None.
Proof.
  intros Hg Hr. induction l as [|p rest IH]; intros r u ok Hm; cbn [compile_imports]; [discriminate|].
  specialize (Hr r p Hm). destruct (rec r p) as [[x r1]|] eqn:E; [|congruence].
  assert (Hm1 : (left_over fs r1 < m)%nat) by (pose proof (left_le fs _ _ (Hg _ _ _ _ E)); lia).
  destruct x as [[]| |]; [|auto|discriminate].
  destruct (get p (r_units r1)) as [o|]; [|auto]. destruct (add_import u o). auto.
Qed.
Lemma compile_total fs n : forall r p, (left_over fs r < n)%nat -> compile n fs r p <> None.
Proof.
  induction n as [|n IH]; intros r p Hm; cbn [compile]; [lia|].
  destruct (get p fs) as [content|] eqn:Eg; [|discriminate].
  destruct (mem p (r_stack r)) eqn:Es; [discriminate|].
  destruct (has p (r_units r)) eqn:Eu; [discriminate|].
  destruct content as [src|]; [|discriminate].
  destruct (visit_info src) as [pkg| |]; [|discriminate..].
  destruct (mem pkg (r_packages r)); [discriminate|].
  set (r1 := {| r_units := r_units r; r_packages := _; r_stack := _ |}).
  assert (Hn : compile_imports (compile n fs) (s_imports src) r1 (new_unit p pkg) true <> None).
  { apply imports_total with (m := n) (fs := fs); [apply compile_grows|exact IH|].
    enough (left_over fs r1 < left_over fs r)%nat by lia.
    apply filter_lt with (x := p).
    - intros x Hx. apply negb_true_iff in Hx. apply negb_true_iff. rewrite mem_nIn in *.
      unfold seen in *. cbn [r_units r_stack r1] in *. rewrite !in_app_iff in *. tauto.
    - eapply get_key; eauto.
    - apply negb_false_iff. apply mem_In. unfold seen. cbn [r1 r_units r_stack].
      rewrite !in_app_iff. cbn. tauto.
    - apply negb_true_iff. apply mem_nIn. unfold seen. rewrite in_app_iff.
      apply mem_nIn in Es. apply has_keys in Eu. tauto. }
  destruct (compile_imports _ _ _ _ _) as [[y r2]|]; [|congruence].
  destruct y as [[[|] u]| |]; try discriminate.
  destruct (visit_tops _ _ _ _) as [[ts ns]| |]; discriminate.
Qed.

Lemma imports_more rec rec' l : (forall r p x, rec r p = Some x -> rec' r p = Some x) ->
  forall r u ok x, compile_imports rec l r u ok = Some x -> compile_imports rec' l r u ok = Some x.
Proof.
  intros Hr. induction l as [|p rest IH]; intros r u ok x H; cbn [compile_imports] in *; [exact H|].
  destruct (rec r p) as [[y r1]|] eqn:E; [|discriminate]. rewrite (Hr _ _ _ E).
  destruct y as [[]| |]; [|auto|auto].
  destruct (get p (r_units r1)) as [o|]; [|auto]. destruct (add_import u o). auto.
Qed.
Lemma compile_more fs n : forall r p x, compile n fs r p = Some x -> compile (S n) fs r p = Some x.
Proof.
  induction n as [|n IH]; intros r p x H; [discriminate|].
  cbn [compile] in H. remember (S n) as m. cbn [compile].
  destruct (get p fs) as [content|]; [|exact H].
  destruct (mem p (r_stack r)); [exact H|].
  destruct (has p (r_units r)); [exact H|].
  destruct content as [src|]; [|exact H].
  destruct (visit_info src) as [pkg| |]; [|exact H..].
  destruct (mem pkg (r_packages r)); [exact H|].
  destruct (compile_imports (compile n fs) _ _ _ _) as [y|] eqn:E; [|discriminate].
  erewrite imports_more; [|intros; apply IH; eassumption|exact E]. exact H.
Qed.
Lemma compile_fuel fs n m r p x : (n <= m)%nat -> compile n fs r p = Some x ->
  compile m fs r p = Some x.
Proof. intros H. induction H; [auto|]. intros E. apply compile_more. auto. Qed.

(** ** Soundness *)
Lemma means_fun fs :
  (forall p u, means fs p u -> forall u', means fs p u' -> u' = u) /\
  (forall l us, all_mean fs l us -> forall us', all_mean fs l us' -> us' = us).
Proof.
  apply means_ind2.
  - intros p s pkg os u ts ns Hc Hi _ IH Hall Ht u' H. inversion H; subst.
    unfold contains in *. rewrite Hc in H0. injection H0 as <-.
    rewrite Hi in H1. injection H1 as <-.
    apply IH in H2. subst os0. rewrite Hall in H3. injection H3 as <-.
    rewrite Ht in H4. injection H4 as <- <-. reflexivity.
  - intros us' H. inversion H. reflexivity.
  - intros p u l us _ IH _ IHs us' H. inversion H; subst. f_equal; auto.
Qed.

Lemma add_import_path u o ok u' : add_import u o = (ok, u') ->
  u_path u' = u_path u /\ u_package u' = u_package u /\
  u_local_types u' = u_local_types u /\ u_local_names u' = u_local_names u.
Proof.
  unfold add_import. destruct (mem _ _); [intros [= _ <-]; auto|].
  destruct (add_global_names _ _) as [ok1 ns1]. destruct (add_global_types _ _ _) as [[ok2 ns2] ts2].
  intros [= _ <-]. auto.
Qed.
Lemma import_all_path l : forall u u', import_all u l = Some u' ->
  u_path u' = u_path u /\ u_package u' = u_package u /\
  u_local_types u' = u_local_types u /\ u_local_names u' = u_local_names u.
Proof.
  induction l as [|o r IH]; intros u u' H; cbn [import_all] in H; [injection H as <-; auto|].
  destruct (add_import u o) as [[|] u1] eqn:E; [|discriminate].
  apply add_import_path in E. apply IH in H. intuition congruence.
Qed.

(** The units so far: distinct, each what its file means, each after its imports, packages distinct. *)
Record inv (fs : filesystem) (r : runtime) : Prop :=
  { i_nodup : NoDup (map fst (r_units r));
    i_means : forall q u, In (q, u) (r_units r) -> means fs q u;
    i_order : forall l1 q u l2, r_units r = l1 ++ (q, u) :: l2 ->
                forall q', imports fs q q' -> In q' (map fst l1);
    i_disj : forall q, In q (r_stack r) -> ~ In q (map fst (r_units r));
    i_pkgs : forall q u, In (q, u) (r_units r) -> In (u_package u) (r_packages r);
    i_pnodup : NoDup (map (fun x => u_package (snd x)) (r_units r)) }.

(** What one successful call does. *)
Definition step_ok (fs : filesystem) (f : runtime -> string -> option (res unit * runtime)) : Prop :=
  forall r p r', inv fs r -> f r p = Some (Ok tt, r') ->
    inv fs r' /\ In p (map fst (r_units r')) /\ r_stack r' = r_stack r /\
    exists new, r_units r' = r_units r ++ new /\
      (forall q u, In (q, u) new ->
         reaches fs p q /\ ~ In q (r_stack r) /\ ~ In (u_package u) (r_packages r)) /\
      incl (r_packages r) (r_packages r').

Lemma imports_flag rec l : forall r u ok u' r',
  compile_imports rec l r u ok = Some (Ok (true, u'), r') -> ok = true.
Proof.
  induction l as [|p rest IH]; intros r u ok u' r' H; cbn [compile_imports] in H.
  - congruence.
  - destruct (rec r p) as [[[[]| |] r1]|]; try discriminate.
    + destruct (get p (r_units r1)) as [o|]; [|eauto]. destruct (add_import u o) as [ok' u1].
      apply IH in H. apply andb_prop in H. tauto.
    + apply IH in H. discriminate.
Qed.

Lemma imports_ok fs rec l : step_ok fs rec -> forall r u u' r', inv fs r ->
  compile_imports rec l r u true = Some (Ok (true, u'), r') ->
  inv fs r' /\ r_stack r' = r_stack r /\
  (forall q, In q l -> In q (map fst (r_units r'))) /\
  (exists os, all_mean fs l os /\ import_all u os = Some u') /\
  exists new, r_units r' = r_units r ++ new /\
    (forall q v, In (q, v) new -> (exists p, In p l /\ reaches fs p q) /\
       ~ In q (r_stack r) /\ ~ In (u_package v) (r_packages r)) /\
    incl (r_packages r) (r_packages r').
Proof.
  intros Hs. induction l as [|p rest IH]; intros r u u' r' Hi H; cbn [compile_imports] in H.
  - injection H as <- <-. split; [exact Hi|]. split; [reflexivity|]. split; [intros q []|].
    split; [exists []; split; [constructor|reflexivity]|].
    exists []. rewrite app_nil_r. split; [reflexivity|]. split; [intros q v []|apply incl_refl].
  - destruct (rec r p) as [[[[]| |] r1]|] eqn:E; try discriminate.
    2:{ apply imports_flag in H. discriminate. }
    destruct (Hs _ _ _ Hi E) as (Hi1 & Hp & Hst & new & Hu & Hn & Hpk).
    destruct (get p (r_units r1)) as [o|] eqn:Eg.
    2:{ apply get_none_keys in Eg. contradiction. }
    destruct (add_import u o) as [ok' u1] eqn:Ea. cbn [andb] in H.
    assert (ok' = true) as -> by (eapply imports_flag; eauto).
    destruct (IH _ _ _ _ Hi1 H) as (Hi2 & Hst2 & Hin & (os & Hos & Hall) & new2 & Hu2 & Hn2 & Hpk2).
    split; [exact Hi2|]. split; [congruence|]. split.
    { intros q [<-|Hq]; [|auto]. rewrite Hu2, map_app, in_app_iff. auto. }
    split.
    { exists (o :: os). split.
      - constructor; [|exact Hos]. apply (i_means _ _ Hi1). apply get_In. exact Eg.
      - cbn [import_all]. rewrite Ea. exact Hall. }
    exists (new ++ new2). rewrite Hu2, Hu, app_assoc. split; [reflexivity|]. split.
    { intros q v Hq. apply in_app_iff in Hq. destruct Hq as [Hq|Hq].
      - destruct (Hn _ _ Hq) as (A & B & C). split; [|auto]. exists p. split; [left; reflexivity|exact A].
      - destruct (Hn2 _ _ Hq) as ((p' & A & A') & B & C). rewrite Hst in B.
        split; [exists p'; split; [right|]; assumption|]. split; [exact B|]. intros D. apply C. auto. }
    eapply incl_tran; eauto.
Qed.

Lemma NoDup_snoc {A} (l : list A) x : NoDup l -> ~ In x l -> NoDup (l ++ [x]).
Proof.
  intros H Hx. apply (Permutation_NoDup (l := x :: l)).
  - apply Permutation_cons_append.
  - constructor; assumption.
Qed.

Lemma snoc_split {A} (l l1 l2 : list A) x y : l ++ [x] = l1 ++ y :: l2 ->
  (l2 = [] /\ l1 = l /\ x = y) \/ exists l3, l2 = l3 ++ [x] /\ l = l1 ++ y :: l3.
Proof.
  destruct l2 as [|z l2'] using rev_ind.
  - intros H. apply app_inj_tail in H. destruct H. left. auto.
  - intros H. right. exists l2'. clear IHl2'.
    replace (l1 ++ y :: l2' ++ [z]) with ((l1 ++ y :: l2') ++ [z]) in H
      by (rewrite <- app_assoc; reflexivity).
    apply app_inj_tail in H. destruct H as [H1 H2]. subst. auto.
Qed.

Lemma compile_sound fs n : step_ok fs (compile n fs).
Proof.
  induction n as [|n IH]; intros r p r' Hi H; cbn [compile] in H; [discriminate|].
  destruct (get p fs) as [content|] eqn:Ec; [|discriminate].
  destruct (mem p (r_stack r)) eqn:Es; [discriminate|]. apply mem_nIn in Es.
  destruct (has p (r_units r)) eqn:Eu.
  { injection H as <-. apply has_true in Eu. split; [exact Hi|]. split; [exact Eu|].
    split; [reflexivity|]. exists []. rewrite app_nil_r. split; [reflexivity|].
    split; [intros q u []|apply incl_refl]. }
  apply has_keys in Eu.
  destruct content as [src|]; [|discriminate].
  destruct (visit_info src) as [pkg| |] eqn:Ei; try discriminate.
  destruct (mem pkg (r_packages r)) eqn:Ep; [discriminate|]. apply mem_nIn in Ep.
  set (r1 := {| r_units := r_units r; r_packages := _; r_stack := _ |}) in *.
  assert (Hi1 : inv fs r1).
  { split; cbn [r1 r_units r_packages r_stack]; try apply Hi.
    - intros q Hq. apply in_app_iff in Hq. destruct Hq as [Hq|[<-|[]]]; [|exact Eu].
      apply (i_disj _ _ Hi _ Hq).
    - intros q u Hq. apply in_app_iff. left. exact (i_pkgs _ _ Hi _ _ Hq). }
  destruct (compile_imports _ _ _ _ _) as [[y r2]|] eqn:E; [|discriminate].
  destruct y as [[[|] u]| |]; try discriminate.
  destruct (imports_ok _ _ _ IH _ _ _ _ Hi1 E)
    as (Hi2 & Hst & Hin & (os & Hos & Hall) & new & Hu & Hn & Hpk).
  cbn [r1 r_units r_packages r_stack] in Hu, Hn, Hpk, Hst.
  assert (Hp2 : ~ In p (map fst (r_units r2))).
  { apply (i_disj _ _ Hi2). rewrite Hst. apply in_app_iff. right. left. reflexivity. }
  assert (Hq2 : ~ In pkg (map (fun x => u_package (snd x)) (r_units r2))).
  { rewrite Hu, map_app, in_app_iff. intros [Hx|Hx]; apply in_map_iff in Hx;
      destruct Hx as ([q v] & Hv & Hx); cbn in Hv.
    - apply Ep. rewrite <- Hv. exact (i_pkgs _ _ Hi _ _ Hx).
    - destruct (Hn _ _ Hx) as (_ & _ & Hx'). apply Hx'. rewrite Hv. apply in_app_iff. right. left. reflexivity. }
  destruct (visit_tops _ _ _ _) as [[ts ns]| |] eqn:Et; try discriminate.
  injection H as <-. cbn [r_units r_packages r_stack] in *.
  assert (Hput : put p u (r_units r2) = r_units r2 ++ [(p, u)])
    by (apply put_new; apply has_keys; exact Hp2).
  rewrite Hput, update_app by exact Hp2. cbn [update]. rewrite String.eqb_refl.
  destruct (import_all_path _ _ _ Hall) as (Hup & Hupk & Hul & _). cbn [new_unit u_path u_package] in Hup, Hupk.
  set (u' := {| u_path := _; u_package := _; u_local_imports := _; u_global_imports := _;
                u_types := _; u_names := _; u_local_types := _; u_local_names := _ |}).
  assert (Hm : means fs p u').
  { unfold u'. rewrite Hup, Hupk. econstructor; eauto. }
  assert (Hst' : filter (fun q => negb (String.eqb p q)) (r_stack r2) = r_stack r).
  { rewrite Hst, filter_app, filter_other by exact Es. cbn. rewrite String.eqb_refl. cbn.
    apply app_nil_r. }
  rewrite Hst'.
  split; [|split; [|split; [reflexivity|]]].
  - split; cbn [r_units r_packages r_stack].
    + rewrite map_app. cbn. apply NoDup_snoc; [apply Hi2|exact Hp2].
    + intros q v Hq. apply in_app_iff in Hq. destruct Hq as [Hq|[Hq|[]]].
      * exact (i_means _ _ Hi2 _ _ Hq).
      * injection Hq as <- <-. exact Hm.
    + intros l1 q v l2 Hsp q' Him. apply snoc_split in Hsp.
      destruct Hsp as [(-> & -> & Hx)|(l3 & -> & Hx)].
      * injection Hx as <- _. destruct Him as (s' & Hc & Hq'). unfold contains in Hc.
        rewrite Ec in Hc. injection Hc as <-. auto.
      * exact (i_order _ _ Hi2 _ _ _ _ Hx _ Him).
    + intros q Hq. rewrite map_app, in_app_iff. cbn. intros [Hx|[Hx|[]]].
      * apply (i_disj _ _ Hi2 q); [rewrite Hst; apply in_app_iff; auto|exact Hx].
      * congruence.
    + intros q v Hq. apply in_app_iff in Hq. destruct Hq as [Hq|[Hq|[]]].
      * exact (i_pkgs _ _ Hi2 _ _ Hq).
      * injection Hq as <- <-. cbn [u' u_package]. rewrite Hupk. apply Hpk. apply in_app_iff.
        right. left. reflexivity.
    + rewrite map_app. cbn [map snd u' u_package]. rewrite Hupk.
      apply NoDup_snoc; [apply Hi2|exact Hq2].
  - cbn [r_units]. rewrite map_app, in_app_iff. right. left. reflexivity.
  - exists (new ++ [(p, u')]). cbn [r_units r_packages]. rewrite Hu, <- app_assoc.
    split; [reflexivity|]. split.
    + intros q v Hq. apply in_app_iff in Hq. destruct Hq as [Hq|[Hq|[]]].
      * destruct (Hn _ _ Hq) as ((p' & A & A') & B & C). split.
        { eapply rt_trans; [apply rt_step|exact A']. exists src. split; [exact Ec|exact A]. }
        split; intros D; [apply B|apply C]; apply in_app_iff; auto.
      * injection Hq as <- <-. split; [apply rt_refl|]. split; [exact Es|].
        cbn [u' u_package]. rewrite Hupk. exact Ep.
    + intros x Hx. apply Hpk. apply in_app_iff. auto.
Qed.

Lemma inv_new fs : inv fs new_runtime.
Proof.
  split; cbn.
  - constructor.
  - intros q u [].
  - intros [|] ? ? ? H; discriminate.
  - intros q [].
  - intros q u [].
  - constructor.
Qed.

Lemma compile_file_ok fs p us : compile_file fs p = Ok us ->
  exists r, compile (S (length fs)) fs new_runtime p = Some (Ok tt, r) /\ r_units r = us.
Proof.
  unfold compile_file. destruct (compile _ _ _ _) as [[[[]| |] r]|]; try discriminate.
  intros [= <-]. eauto.
Qed.

(** ** Completeness *)
Lemma means_imports fs p u q : means fs p u -> imports fs p q -> exists v, means fs q v.
Proof.
  intros H (s & Hc & Hq). inversion H; subst. unfold contains in *. rewrite Hc in H0.
  injection H0 as <-. clear - H2 Hq. revert Hq. induction H2; [intros []|]. intros [<-|Hq]; eauto.
Qed.
Lemma means_reaches fs p q : reaches fs p q -> forall u, means fs p u -> exists v, means fs q v.
Proof.
  induction 1; intros u Hu; [eapply means_imports; eauto|eauto|].
  destruct (IHclos_refl_trans1 _ Hu) as (v & Hv). eauto.
Qed.
Lemma means_acyclic fs :
  (forall p u, means fs p u -> forall q, clos_trans _ (imports fs) p q -> q <> p) /\
  (forall l us, all_mean fs l us -> forall p q, In p l -> clos_trans _ (imports fs) p q -> q <> p).
Proof.
  apply means_ind2.
  - intros p s pkg os u ts ns Hc _ _ IH _ _ q H ->.
    apply clos_trans_t1n in H.
    assert (K : forall a, imports fs p a -> ~ clos_trans _ (imports fs) a a).
    { intros a (s' & Hs' & Ha) Hl. unfold contains in *. rewrite Hc in Hs'. injection Hs' as <-.
      exact (IH _ _ Ha Hl eq_refl). }
    inversion H; subst.
    + apply (K p); [exact H0|]. apply t_step. exact H0.
    + apply (K y); [exact H0|]. eapply t_trans; [apply clos_t1n_trans; exact H1|].
      apply t_step. exact H0.
  - intros p q [].
  - intros p u l us _ IH _ IHs p' q [<-|Hp] H; eauto.
Qed.

(** What stays true of a runtime when the files reachable from [root] are compiled. *)
Record inv2 (fs : filesystem) (root : string) (r : runtime) : Prop :=
  { j_reach : forall q, In q (seen r) -> reaches fs root q;
    j_pkgs : forall k, In k (r_packages r) -> exists q, In q (seen r) /\ package_of fs q k }.

Lemma visit_info_package fs p s pkg : contains fs p s -> visit_info s = Ok pkg -> package_of fs p pkg.
Proof.
  unfold visit_info. intros Hc H. destruct (s_packages s) as [|parts [|]] eqn:E; try discriminate.
  apply bind_ok in H. destruct H as (o & _ & H). injection H as <-. exists s, parts. auto.
Qed.
Lemma package_of_fun fs p k k' : package_of fs p k -> package_of fs p k' -> k = k'.
Proof.
  intros (s & x & A & B & C) (s' & x' & A' & B' & C'). unfold contains in *. congruence.
Qed.

Section Complete.
  Variables (fs : filesystem) (root : string).
  Hypothesis Hroot : exists u, means fs root u.
  Hypothesis Hpk : forall q q' k, reaches fs root q -> reaches fs root q' ->
    package_of fs q k -> package_of fs q' k -> q = q'.

  Definition step_all (f : runtime -> string -> option (res unit * runtime)) : Prop :=
    forall r p x r', inv fs r -> inv2 fs root r -> reaches fs root p ->
      (forall q, In q (r_stack r) -> clos_trans _ (imports fs) q p) ->
      f r p = Some (x, r') -> x = Ok tt /\ inv2 fs root r'.

  Lemma imports_complete rec l : step_ok fs rec -> step_all rec -> forall r u os u' x r',
    inv fs r -> inv2 fs root r ->
    (forall p, In p l -> reaches fs root p /\
       forall q, In q (r_stack r) -> clos_trans _ (imports fs) q p) ->
    all_mean fs l os -> import_all u os = Some u' ->
    compile_imports rec l r u true = Some (x, r') ->
    x = Ok (true, u') /\ inv2 fs root r'.
  Proof.
    intros Hs Ha. induction l as [|p rest IH]; intros r u os u' x r' Hi Hj Hl Hos Hall H;
      inversion Hos; subst; cbn [compile_imports import_all] in *.
    - injection H as <- <-. injection Hall as <-. auto.
    - destruct (add_import u u0) as [[|] u1] eqn:Ea; [|discriminate].
      destruct (rec r p) as [[y r1]|] eqn:E; [|discriminate].
      destruct (Hl p (or_introl eq_refl)) as [Hp Hst].
      destruct (Ha _ _ _ _ Hi Hj Hp Hst E) as [-> Hj1].
      destruct (Hs _ _ _ Hi E) as (Hi1 & Hin & Hst1 & _).
      destruct (get p (r_units r1)) as [o|] eqn:Eg; [|apply get_none_keys in Eg; contradiction].
      assert (o = u0) as ->.
      { destruct (means_fun fs) as [F _]. eapply F; [eassumption|].
        apply (i_means _ _ Hi1). apply get_In. exact Eg. }
      rewrite Ea in H. cbn [andb] in H. eapply IH; eauto.
      intros p' Hp'. rewrite Hst1. apply Hl. right. exact Hp'.
  Qed.

  Lemma compile_complete n : step_all (compile n fs).
  Proof.
    induction n as [|n IH]; intros r p x r' Hi Hj Hp Hst H; cbn [compile] in H; [discriminate|].
    destruct Hroot as (u0 & Hu0). destruct (means_reaches _ _ _ Hp _ Hu0) as (up & Hup).
    pose proof Hup as Hup'. inversion Hup as [p0 s pkg os u ts ns Hc Hvi Hos Hall Ht]; subst p0.
    unfold contains in Hc. rewrite Hc in H.
    destruct (mem p (r_stack r)) eqn:Es.
    { exfalso. apply mem_In in Es. apply Hst in Es.
      destruct (means_acyclic fs) as [A _]. exact (A _ _ Hup' _ Es eq_refl). }
    apply mem_nIn in Es.
    destruct (has p (r_units r)) eqn:Eu; [injection H as <- <-; auto|].
    apply has_keys in Eu.
    rewrite Hvi in H.
    assert (Hpp : package_of fs p pkg) by (eapply visit_info_package; eauto).
    destruct (mem pkg (r_packages r)) eqn:Ep.
    { exfalso. apply mem_In in Ep. apply (j_pkgs _ _ _ Hj) in Ep. destruct Ep as (q & Hq & Hqk).
      assert (q = p) as -> by (eapply Hpk; eauto; apply (j_reach _ _ _ Hj); exact Hq).
      unfold seen in Hq. apply in_app_iff in Hq. tauto. }
    apply mem_nIn in Ep.
    set (r1 := {| r_units := r_units r; r_packages := _; r_stack := _ |}) in *.
    assert (Hi1 : inv fs r1).
    { split; cbn [r1 r_units r_packages r_stack]; try apply Hi.
      - intros q Hq. apply in_app_iff in Hq. destruct Hq as [Hq|[<-|[]]]; [|exact Eu].
        apply (i_disj _ _ Hi _ Hq).
      - intros q v Hq. apply in_app_iff. left. exact (i_pkgs _ _ Hi _ _ Hq). }
    assert (Hseen : forall z, In z (seen r1) <-> In z (seen r) \/ z = p).
    { intros z. unfold seen. cbn [r1 r_units r_stack]. rewrite !in_app_iff. cbn. intuition. }
    assert (Hj1 : inv2 fs root r1).
    { split.
      - intros q Hq. apply Hseen in Hq. destruct Hq as [Hq| ->]; [|exact Hp].
        exact (j_reach _ _ _ Hj _ Hq).
      - cbn [r1 r_packages]. intros k Hk. apply in_app_iff in Hk. destruct Hk as [Hk|[<-|[]]].
        + destruct (j_pkgs _ _ _ Hj _ Hk) as (q & Hq & Hqk). exists q. split; [apply Hseen; auto|exact Hqk].
        + exists p. split; [apply Hseen; auto|exact Hpp]. }
    destruct (compile_imports _ _ _ _ _) as [[y r2]|] eqn:E; [|discriminate].
    assert (Hl : forall q, In q (s_imports s) -> reaches fs root q /\
       forall z, In z (r_stack r1) -> clos_trans _ (imports fs) z q).
    { intros q Hq. assert (Hpq : imports fs p q) by (exists s; split; assumption). split.
      - eapply rt_trans; [exact Hp|apply rt_step; exact Hpq].
      - intros z Hz. cbn [r1 r_stack] in Hz. apply in_app_iff in Hz.
        destruct Hz as [Hz|[<-|[]]]; [|apply t_step; exact Hpq].
        eapply t_trans; [apply Hst; exact Hz|apply t_step; exact Hpq]. }
    destruct (imports_complete _ _ (compile_sound fs n) IH _ _ _ _ _ _ Hi1 Hj1 Hl
                Hos Hall E) as [-> Hj2].
    destruct (imports_ok _ _ _ (compile_sound fs n) _ _ _ _ Hi1 E) as (Hi2 & Hst2 & _).
    rewrite Ht in H. injection H as <- <-. split; [reflexivity|].
    assert (Hp2 : ~ In p (map fst (r_units r2))).
    { apply (i_disj _ _ Hi2). rewrite Hst2. cbn [r1 r_stack]. apply in_app_iff. right. left. reflexivity. }
    cbn [r_units r_packages r_stack] in *.
    assert (Hs3 : forall z u1 u2 pk, In z (seen {| r_units := update p u1 (put p u2 (r_units r2));
        r_packages := pk; r_stack := filter (fun q => negb (String.eqb p q)) (r_stack r2) |}) <->
        In z (seen r2)).
    { intros z u1 u2 pk. unfold seen. cbn [r_units r_stack]. rewrite keys_update, !in_app_iff, keys_put.
      rewrite filter_In. split.
      - intros [[A|A]|[A B]]; [auto| |auto]. subst z. right. rewrite Hst2. cbn. apply in_app_iff.
        right. left. reflexivity.
      - intros [A|A]; [auto|]. destruct (String.eqb_spec p z); [left; right; congruence|]. right. auto. }
    split.
    - intros q Hq. apply Hs3 in Hq. exact (j_reach _ _ _ Hj2 _ Hq).
    - cbn [r_packages]. intros k Hk. destruct (j_pkgs _ _ _ Hj2 _ Hk) as (q & Hq & Hqk).
      exists q. split; [apply Hs3; exact Hq|exact Hqk].
  Qed.
End Complete.

Lemma inv2_new fs root : inv2 fs root new_runtime.
Proof. split; cbn; intros ? []. Qed.
Lemma left_new fs : (left_over fs new_runtime < S (length fs))%nat.
Proof.
  unfold left_over. rewrite <- (map_length fst fs).
  enough (forall f (l : list string), (length (filter f l) <= length l)%nat) as H
    by (specialize (H (fun x => negb (mem x (seen new_runtime))) (map fst fs)); lia).
  intros f l. induction l as [|a r IH]; cbn; [lia|]. destruct (f a); cbn; lia.
Qed.
