(** Theorems about whole compilations: C27-C29, C35, C46. *)
From Coq Require Import String ZArith List Bool Lia Relations Permutation.
From Verif Require Import Base BaseProofs Schema SpecWire GoModel PropsGo FrontModel FrontSpec FrontProofs PropsFront CompileModel
  CompileSpec CompileProofs.
Import ListNotations.
Open Scope string_scope.
Open Scope list_scope.

(** ** C27 *)
(** Compilation ends on every set of files, whatever they import: with any bound on the depth of
    recursion above the number of files the bound is never met, and the result does not depend on it. *)
Theorem C27_terminates : forall fs p, exists x r,
  forall n, (length fs < n)%nat -> compile n fs new_runtime p = Some (x, r).
Proof.
  intros fs p. pose proof (compile_total fs _ _ p (left_new fs)) as H.
  destruct (compile (S (length fs)) fs new_runtime p) as [[x r]|] eqn:E; [|congruence].
  exists x, r. intros n Hn. eapply compile_fuel; [|exact E]. lia.
Qed.

Lemma sound_root fs p us : compile_file fs p = Ok us ->
  exists r, inv fs r /\ r_units r = us /\ In p (map fst us) /\
    forall q u, In (q, u) us -> reaches fs p q.
Proof.
  intros H. apply compile_file_ok in H. destruct H as (r & H & <-).
  destruct (compile_sound fs _ _ _ _ (inv_new fs) H) as (Hi & Hp & _ & new & Hu & Hn & _).
  exists r. split; [exact Hi|]. split; [reflexivity|]. split; [exact Hp|]. intros q u Hq. rewrite Hu in Hq. cbn in Hq.
  apply (Hn _ _ Hq).
Qed.
Lemma units_closed fs p us r : inv fs r -> r_units r = us -> In p (map fst us) ->
  forall q, reaches fs p q -> exists u, In (q, u) us.
Proof.
  intros Hi <- Hp q H. apply clos_rt_rt1n in H. induction H as [|p m q Hm _ IH].
  - apply in_map_iff in Hp. destruct Hp as ([p' u] & <- & Hx). eauto.
  - apply IH. apply in_map_iff in Hp. destruct Hp as ([p' u] & Hp' & Hx). cbn in Hp'. subst p'.
    apply in_split in Hx. destruct Hx as (l1 & l2 & Hx).
    pose proof (i_order _ _ Hi _ _ _ _ Hx _ Hm) as Hm'. rewrite Hx, map_app, in_app_iff. auto.
Qed.

(** In an accepted compilation no file that the root reaches imports itself, directly or not; so a
    cycle that the root reaches is always rejected. *)
Theorem C27_no_cycle : forall fs p us, compile_file fs p = Ok us ->
  forall q, reaches fs p q -> ~ clos_trans _ (imports fs) q q.
Proof.
  intros fs p us H q Hq Hc. destruct (sound_root _ _ _ H) as (r & Hi & Hu & Hp & _).
  destruct (units_closed _ _ _ _ Hi Hu Hp _ Hq) as (u & Hx).
  destruct (means_acyclic fs) as [A _]. rewrite <- Hu in Hx.
  exact (A _ _ (i_means _ _ Hi _ _ Hx) _ Hc eq_refl).
Qed.

(** ** C28 *)
(** The result lists exactly the files the root reaches, each once, and each after all it imports. *)
Theorem C28_order : forall fs p us, compile_file fs p = Ok us ->
  NoDup (map fst us) /\
  (forall q, In q (map fst us) <-> reaches fs p q) /\
  (forall i j q u q' u', nth_error us i = Some (q, u) -> nth_error us j = Some (q', u') ->
     imports fs q q' -> (j < i)%nat).
Proof.
  intros fs p us H. destruct (sound_root _ _ _ H) as (r & Hi & Hu & Hp & Hr).
  pose proof (i_nodup _ _ Hi) as Hn. rewrite Hu in Hn. split; [exact Hn|]. split.
  - intros q. split.
    + intros Hq. apply in_map_iff in Hq. destruct Hq as ([q' u] & <- & Hq). eapply Hr; eauto.
    + intros Hq. destruct (units_closed _ _ _ _ Hi Hu Hp _ Hq) as (u & Hx).
      apply (in_map fst) in Hx. exact Hx.
  - intros i j q u q' u' Ei Ej Him.
    apply nth_error_split in Ei. destruct Ei as (l1 & l2 & Hs & <-).
    pose proof Hs as Hs'. rewrite <- Hu in Hs'.
    pose proof (i_order _ _ Hi _ _ _ _ Hs' _ Him) as Hin.
    apply In_nth_error in Hin. destruct Hin as (k & Hk).
    assert (Hkl : (k < length l1)%nat).
    { rewrite <- (map_length fst). apply nth_error_Some. congruence. }
    enough (j = k) by lia.
    apply (proj1 (NoDup_nth_error (map fst us)) Hn).
    + rewrite map_length. apply nth_error_Some. congruence.
    + rewrite (map_nth_error fst _ _ Ej), Hs, map_app, nth_error_app1 by (rewrite map_length; lia).
      cbn. symmetry. exact Hk.
Qed.

(** The unit of a file is what the file means on its own: neither the root, nor the order of the
    imports, nor what was compiled before makes a difference. *)
Theorem C28_units : forall fs p us, compile_file fs p = Ok us ->
  forall q u, In (q, u) us -> means fs q u.
Proof.
  intros fs p us H q u Hq. destruct (sound_root _ _ _ H) as (r & Hi & Hu & _).
  rewrite <- Hu in Hq. exact (i_means _ _ Hi _ _ Hq).
Qed.
Theorem C28_deterministic : forall fs p u u', means fs p u -> means fs p u' -> u = u'.
Proof. intros fs p u u' H H'. destruct (means_fun fs) as [F _]. eapply F; eauto. Qed.

(** ** C29 *)
Lemma means_package fs p u : means fs p u -> package_of fs p (u_package u) /\ u_path u = p.
Proof. intros H. inversion H; subst. cbn. split; [eapply visit_info_package; eauto|reflexivity]. Qed.

(** Two different files of an accepted compilation declare different packages. *)
Theorem C29_packages : forall fs p us, compile_file fs p = Ok us ->
  forall q q', reaches fs p q -> reaches fs p q' ->
  exists k k', package_of fs q k /\ package_of fs q' k' /\ (k = k' -> q = q').
Proof.
  intros fs p us H q q' Hq Hq'. destruct (sound_root _ _ _ H) as (r & Hi & Hu & Hp & _).
  destruct (units_closed _ _ _ _ Hi Hu Hp _ Hq) as (u & Hx).
  destruct (units_closed _ _ _ _ Hi Hu Hp _ Hq') as (u' & Hx'). rewrite <- Hu in Hx, Hx'.
  exists (u_package u), (u_package u').
  split; [apply means_package; eapply i_means; eauto|].
  split; [apply means_package; eapply i_means; eauto|].
  intros Hk. pose proof (i_pnodup _ _ Hi) as Hn.
  apply In_nth_error in Hx, Hx'. destruct Hx as (i & Hx). destruct Hx' as (j & Hx').
  assert (i = j) as ->.
  { apply (proj1 (NoDup_nth_error _) Hn).
    - rewrite map_length. apply nth_error_Some. congruence.
    - rewrite (map_nth_error _ _ _ Hx), (map_nth_error _ _ _ Hx'). cbn. congruence. }
  congruence.
Qed.

(** *** Exactly these compilations are accepted: the root means something (its imports do, and so on),
    and the packages of the files it reaches are distinct. *)
Theorem C28_accepted : forall fs p,
  (exists us, compile_file fs p = Ok us) <->
  (exists u, means fs p u) /\
  (forall q q' k, reaches fs p q -> reaches fs p q' ->
     package_of fs q k -> package_of fs q' k -> q = q').
Proof.
  intros fs p. split.
  - intros (us & H). split.
    + destruct (sound_root _ _ _ H) as (r & Hi & Hu & Hp & _).
      destruct (units_closed _ _ _ _ Hi Hu Hp p (rt_refl _ _ _)) as (u & Hx).
      exists u. eapply C28_units; eauto.
    + intros q q' k Hq Hq' Hk Hk'.
      destruct (C29_packages _ _ _ H q q' Hq Hq') as (k1 & k2 & H1 & H2 & H3). apply H3.
      rewrite (package_of_fun _ _ _ _ H1 Hk). eapply package_of_fun; eauto.
  - intros [Hm Hpk]. pose proof (compile_total fs _ _ p (left_new fs)) as Ht.
    unfold compile_file. destruct (compile (S (length fs)) fs new_runtime p) as [[x r]|] eqn:E; [|congruence].
    destruct (compile_complete fs p Hm Hpk _ _ _ _ _ (inv_new fs) (inv2_new fs p) (rt_refl _ _ _)
                (fun q (Hq : In q []) => match Hq with end) E) as [-> _].
    eauto.
Qed.

(** ** Imports of a unit *)
Lemma put_path_In l p q : In q (put_path l p) <-> In q l \/ q = p.
Proof.
  unfold put_path. destruct (mem p l) eqn:E.
  - apply mem_In in E. split; [auto|]. intros [H| ->]; auto.
  - rewrite in_app_iff. cbn. intuition congruence.
Qed.
Lemma put_path_nodup l p : NoDup l -> NoDup (put_path l p).
Proof.
  unfold put_path. destruct (mem p l) eqn:E; [auto|]. apply mem_nIn in E. intros. apply NoDup_snoc; auto.
Qed.
Lemma fold_put_In l' : forall l q, In q (fold_left put_path l' l) <-> In q l \/ In q l'.
Proof.
  induction l' as [|p r IH]; intros l q; cbn [fold_left].
  - cbn. tauto.
  - rewrite IH, put_path_In. cbn. intuition congruence.
Qed.
Lemma fold_put_nodup l' : forall l, NoDup l -> NoDup (fold_left put_path l' l).
Proof. induction l' as [|p r IH]; intros l H; cbn; [exact H|]. apply IH. apply put_path_nodup. exact H. Qed.

Definition closed (fs : filesystem) (l : list string) : Prop :=
  forall q q', In q l -> clos_trans _ (imports fs) q q' -> In q' l.

Lemma add_import_imports fs u o u' :
  add_import u o = (true, u') ->
  (forall q, In q (u_global_imports o) <-> clos_trans _ (imports fs) (u_path o) q) ->
  closed fs (u_global_imports u) ->
  closed fs (u_global_imports u') /\
  (forall q, In q (u_global_imports u') <->
     In q (u_global_imports u) \/ reaches fs (u_path o) q) /\
  (forall q, In q (u_local_imports u') <-> In q (u_local_imports u) \/ q = u_path o) /\
  (NoDup (u_global_imports u) -> NoDup (u_global_imports u')) /\
  (NoDup (u_local_imports u) -> NoDup (u_local_imports u')).
Proof.
  intros H Ho Hc. unfold add_import in H.
  assert (Hr : forall a b, reaches fs a b <-> a = b \/ clos_trans _ (imports fs) a b).
  { intros a b. split.
    - intros K. induction K as [| |a b c K1 IH1 K2 IH2]; [right; apply t_step; assumption|auto|].
      destruct IH1 as [->|IH1]; [exact IH2|]. destruct IH2 as [->|IH2]; [auto|].
      right. eapply t_trans; eauto.
    - intros [->|K]; [apply rt_refl|]. induction K; [apply rt_step; assumption|eapply rt_trans; eauto]. }
  destruct (mem (u_path o) (u_global_imports u)) eqn:Em.
  - apply mem_In in Em. injection H as <-. cbn [u_global_imports u_local_imports].
    split; [exact Hc|]. split.
    + intros q. split; [auto|]. intros [A|A]; [exact A|]. apply Hr in A.
      destruct A as [<-|A]; [exact Em|]. eapply Hc; eauto.
    + split; [intros q; apply put_path_In|]. split; [auto|]. apply put_path_nodup.
  - destruct (add_global_names _ _) as [ok1 ns1].
    destruct (add_global_types _ _ _) as [[ok2 ns2] ts2].
    destruct (ok1 && ok2); [|discriminate].
    injection H as <-. cbn [u_global_imports u_local_imports].
    assert (Hg : forall q, In q (fold_left put_path (u_global_imports o)
        (put_path (u_global_imports u) (u_path o))) <->
        In q (u_global_imports u) \/ reaches fs (u_path o) q).
    { intros q. rewrite fold_put_In, put_path_In, Ho, Hr. intuition congruence. }
    split; [|split; [exact Hg|]].
    + intros q q' A B. apply Hg in A. apply Hg. destruct A as [A|A]; [left; eapply Hc; eauto|].
      right. eapply rt_trans; [exact A|]. apply Hr. auto.
    + split; [intros q; apply put_path_In|].
      split; [intros; apply fold_put_nodup, put_path_nodup; assumption|apply put_path_nodup].
Qed.

Lemma import_all_imports fs l : forall u u', import_all u l = Some u' ->
  Forall (fun o => forall q, In q (u_global_imports o) <-> clos_trans _ (imports fs) (u_path o) q) l ->
  closed fs (u_global_imports u) ->
  closed fs (u_global_imports u') /\
  (forall q, In q (u_global_imports u') <->
     In q (u_global_imports u) \/ exists o, In o l /\ reaches fs (u_path o) q) /\
  (forall q, In q (u_local_imports u') <->
     In q (u_local_imports u) \/ exists o, In o l /\ q = u_path o) /\
  (NoDup (u_global_imports u) -> NoDup (u_global_imports u')) /\
  (NoDup (u_local_imports u) -> NoDup (u_local_imports u')).
Proof.
  induction l as [|o r IH]; intros u u' H Ho Hc; cbn [import_all] in H.
  - injection H as <-. repeat (split; [first [exact Hc|intros q; split; [auto|intros [A|(o & [] & _)]; exact A]]|]).
    auto.
  - destruct (add_import u o) as [[|] u1] eqn:E; [|discriminate].
    inversion Ho as [|? ? Ho1 Ho2]; subst.
    destruct (add_import_imports _ _ _ _ E Ho1 Hc) as (C1 & G1 & L1 & N1 & M1).
    destruct (IH _ _ H Ho2 C1) as (C2 & G2 & L2 & N2 & M2).
    split; [exact C2|]. split; [|split; [|auto]].
    + intros q. rewrite G2, G1. split.
      * intros [[A|A]|(o' & A & B)]; [auto|right; exists o; split; [left; reflexivity|exact A]|].
        right. exists o'. split; [right; exact A|exact B].
      * intros [A|(o' & [<-|A] & B)]; [auto|auto|]. right. eauto.
    + intros q. rewrite L2, L1. split.
      * intros [[A|A]|(o' & A & B)]; [auto|right; exists o; split; [left; reflexivity|exact A]|].
        right. exists o'. split; [right; exact A|exact B].
      * intros [A|(o' & [<-|A] & B)]; [auto|auto|]. right. eauto.
Qed.

Lemma all_mean_In fs l os : all_mean fs l os ->
  (forall p, In p l -> exists o, In o os /\ means fs p o) /\
  (forall o, In o os -> exists p, In p l /\ means fs p o /\ u_path o = p).
Proof.
  induction 1 as [|p u l us Hm _ [IH1 IH2]]; [split; intros ? []|]. split.
  - intros q [<-|Hq]; [exists u; split; [left; reflexivity|exact Hm]|].
    destruct (IH1 _ Hq) as (o & A & B). exists o. split; [right|]; assumption.
  - intros o [<-|Ho]; [exists p; split; [left; reflexivity|split; [exact Hm|apply (means_package _ _ _ Hm)]]|].
    destruct (IH2 _ Ho) as (q & A & B). exists q. split; [right|]; assumption.
Qed.
Lemma all_mean_Forall fs (P : comp_unit -> Prop) l os :
  all_mean fs l os -> (forall p u, In p l -> means fs p u -> P u) -> Forall P os.
Proof.
  induction 1; intros H'; constructor.
  - apply H' with (p := p); [left; reflexivity|assumption].
  - apply IHall_mean. intros. eapply H'; [right; eassumption|assumption].
Qed.

Lemma trans_first fs p q : clos_trans _ (imports fs) p q <->
  exists m, imports fs p m /\ reaches fs m q.
Proof.
  split.
  - intros H. apply clos_trans_t1n in H. inversion H; subst; [exists q; split; [assumption|apply rt_refl]|].
    exists y. split; [assumption|]. apply clos_t1n_trans in H1. clear - H1.
    induction H1; [apply rt_step; assumption|eapply rt_trans; eauto].
  - intros (m & H1 & H2). apply clos_rt_rt1n in H2. revert p H1.
    induction H2; intros p H1; [apply t_step; exact H1|].
    eapply t_trans; [apply t_step; exact H1|]. apply IHclos_refl_trans_1n. assumption.
Qed.

Lemma means_global fs :
  (forall p u, means fs p u ->
     (forall q, In q (u_global_imports u) <-> clos_trans _ (imports fs) p q) /\
     (forall q, In q (u_local_imports u) <-> imports fs p q) /\
     NoDup (u_global_imports u) /\ NoDup (u_local_imports u)) /\
  (forall l os, all_mean fs l os ->
     Forall (fun o => forall q, In q (u_global_imports o) <-> clos_trans _ (imports fs) (u_path o) q) os).
Proof.
  apply means_ind2.
  - intros p s pkg os u ts ns Hc _ Hos IH Hall _. cbn [u_global_imports u_local_imports].
    assert (C0 : closed fs (u_global_imports (new_unit p pkg))) by (intros ? ? []).
    destruct (import_all_imports fs os _ _ Hall IH C0) as (_ & G & L & N & M).
    cbn [new_unit u_global_imports u_local_imports] in *.
    destruct (all_mean_In _ _ _ Hos) as [A B].
    split; [|split; [|split; [apply N; constructor|apply M; constructor]]].
    + intros q. rewrite G, trans_first. split.
      * intros [[]|(o & Ho & Hr)]. destruct (B _ Ho) as (m & Hm & _ & <-).
        exists (u_path o). split; [exists s; auto|exact Hr].
      * intros (m & (s' & Hs' & Hm) & Hr). unfold contains in *. rewrite Hc in Hs'. injection Hs' as <-.
        destruct (A _ Hm) as (o & Ho & Hmo). right. exists o. split; [exact Ho|].
        rewrite (proj2 (means_package _ _ _ Hmo)). exact Hr.
    + intros q. rewrite L. split.
      * intros [[]|(o & Ho & ->)]. destruct (B _ Ho) as (m & Hm & _ & <-). exists s. auto.
      * intros (s' & Hs' & Hm). unfold contains in *. rewrite Hc in Hs'. injection Hs' as <-.
        destruct (A _ Hm) as (o & Ho & Hmo). right. exists o. split; [exact Ho|].
        rewrite (proj2 (means_package _ _ _ Hmo)). reflexivity.
  - constructor.
  - intros p u l us Hm (G & _) _ IH. constructor; [|exact IH].
    intros q. rewrite (proj2 (means_package _ _ _ Hm)). apply G.
Qed.

(** The two import lists of a unit are the files it imports directly, and directly or indirectly,
    each once (generators emit one include or import per entry). *)
Theorem C28_import_lists : forall fs p us, compile_file fs p = Ok us ->
  forall q u, In (q, u) us ->
    (forall q', In q' (u_local_imports u) <-> imports fs q q') /\
    (forall q', In q' (u_global_imports u) <-> clos_trans _ (imports fs) q q') /\
    NoDup (u_local_imports u) /\ NoDup (u_global_imports u).
Proof.
  intros fs p us H q u Hq. pose proof (C28_units _ _ _ H _ _ Hq) as Hm.
  destruct (means_global fs) as [K _]. destruct (K _ _ Hm) as (A & B & C & D). auto.
Qed.

(** ** C35: names *)
Fixpoint add_all (ns : names_t) (l : list (string * named)) : res names_t :=
  match l with
  | [] => Ok ns
  | (n, v) :: r => do ns' <- add_name ns n v; add_all ns' r
  end.
Definition key_pos (x : string * named) : string * pos := (fst x, named_pos (snd x)).

Lemma add_all_app l : forall l' ns ns1 ns2, add_all ns l = Ok ns1 -> add_all ns1 l' = Ok ns2 ->
  add_all ns (l ++ l') = Ok ns2.
Proof.
  induction l as [|[n v] r IH]; intros l' ns ns1 ns2 H1 H2; cbn [add_all app] in *.
  - injection H1 as <-. exact H2.
  - apply bind_ok in H1. destruct H1 as (x & E & H1). rewrite E. cbn [bind]. eauto.
Qed.

Lemma visit_adds w :
  (forall e ts ns v ns', visit_elem w ts ns e = Ok (v, ns') ->
     exists l, map key_pos l = defs_elem e /\ add_all ns l = Ok ns') /\
  (forall d ts ns s ns', visit_struct w ts ns d = Ok (s, ns') ->
     exists l, map key_pos l = defs_struct d /\ add_all ns l = Ok ns') /\
  (forall b ts ns st st' ns', visit_body w ts ns b st = Ok (st', ns') ->
     exists l, map key_pos l = defs_body b /\ add_all ns l = Ok ns').
Proof.
  apply ast_ind; intros; cbn [visit_body defs_elem defs_struct defs_body] in *.
  - cbn in H. injection H as _ <-. exists []. auto.
  - cbn in H. injection H as _ <-. exists []. auto.
  - cbn in H. injection H as _ <-. exists []. auto.
  - cbn [visit_elem] in H. apply bind_ok in H. destruct H as (x & _ & H). injection H as _ <-. exists []. auto.
  - rewrite visit_elem_def in H0. apply bind_ok in H0. destruct H0 as ([s ns1] & E & H0).
    injection H0 as _ <-. eauto.
  - cbn [visit_elem] in H. apply bind_ok in H. destruct H as (x & _ & H). injection H as _ <-. exists []. auto.
  - cbn [visit_elem] in H. apply bind_ok in H. destruct H as (x & _ & H). injection H as _ <-. exists []. auto.
  - rewrite visit_struct_def in H0. rename H0 into H1.
    apply bind_ok in H1. destruct H1 as (nm & E1 & H1).
    apply bind_ok in H1. destruct H1 as (ns1 & E2 & H1).
    apply bind_ok in H1. destruct H1 as (sz & E3 & H1).
    apply bind_ok in H1. destruct H1 as ([st ns2] & E4 & H1).
    apply bind_ok in H1. destruct H1 as (s0 & E5 & H1). injection H1 as _ <-.
    destruct (H _ _ _ _ _ E4) as (l & Hl & Ha).
    assert (nm = name) as -> by (unfold cap_name in E1; destruct (is_capitalized name); congruence).
    exists ((name, NPos p) :: l). cbn [map add_all key_pos fst snd named_pos]. rewrite Hl, E2. auto.
  - injection H as _ <-. exists []. auto.
  - eauto.
  - rename H0 into H1. apply bind_ok in H1. destruct H1 as (sz & E1 & H1).
    apply bind_ok in H1. destruct H1 as (o & E2 & H1).
    apply bind_ok in H1. destruct H1 as (st1 & E3 & H1). eauto.
  - rename H0 into H1. apply bind_ok in H1. destruct H1 as (nm & E1 & H1).
    apply bind_ok in H1. destruct H1 as (sz & E2 & H1).
    apply bind_ok in H1. destruct H1 as (n & E3 & H1).
    apply bind_ok in H1. destruct H1 as (l & E4 & H1).
    destruct (const_match (basic_of b) l); [|discriminate].
    apply bind_ok in H1. destruct H1 as (o & E5 & H1).
    apply bind_ok in H1. destruct H1 as (st1 & E6 & H1). eauto.
  - rename H1 into H2. change (visit_body w ts ns (ABEmb e arr opts rest) st = Ok (st', ns')) in H2.
    rewrite visit_body_emb in H2.
    apply bind_ok in H2. destruct H2 as ([v ns1] & E1 & H2).
    apply bind_ok in H2. destruct H2 as (a & E2 & H2).
    destruct v as [s|t]; [|discriminate]. destruct a; [discriminate|].
    apply bind_ok in H2. destruct H2 as (o & E3 & H2).
    apply bind_ok in H2. destruct H2 as (st1 & E4 & H2).
    destruct (H _ _ _ _ E1) as (l1 & A1 & B1). destruct (H0 _ _ _ _ _ H2) as (l2 & A2 & B2).
    exists (l1 ++ l2). rewrite map_app, A1, A2. split; [reflexivity|]. eapply add_all_app; eauto.
  - rename H1 into H2.
    change (visit_body w ts ns (ABNormal e arr name size opts methods rest) st = Ok (st', ns')) in H2.
    rewrite visit_body_normal in H2.
    apply bind_ok in H2. destruct H2 as ([v ns1] & E1 & H2).
    apply bind_ok in H2. destruct H2 as (a & E2 & H2).
    apply bind_ok in H2. destruct H2 as (nm & E3 & H2).
    apply bind_ok in H2. destruct H2 as (sz & E4 & H2).
    apply bind_ok in H2. destruct H2 as (n & E5 & H2).
    apply bind_ok in H2. destruct H2 as (o & E6 & H2).
    apply bind_ok in H2. destruct H2 as (g & E7 & H2).
    apply bind_ok in H2. destruct H2 as (st1 & E8 & H2).
    destruct (H _ _ _ _ E1) as (l1 & A1 & B1). destruct (H0 _ _ _ _ _ H2) as (l2 & A2 & B2).
    exists (l1 ++ l2). rewrite map_app, A1, A2. split; [reflexivity|]. eapply add_all_app; eauto.
Qed.

Lemma enumvals_pos w ns l : forall acc vals, visit_enumvals w ns l acc = Ok vals ->
  map (fun x => (fst x, snd (snd x))) vals =
  map (fun x => (fst x, snd (snd x))) acc ++ map (fun v => (ev_name v, ev_pos v)) l.
Proof.
  induction l as [|v r IH]; intros acc vals H; cbn [visit_enumvals] in H.
  - injection H as <-. cbn. rewrite app_nil_r. reflexivity.
  - apply bind_ok in H. destruct H as (nm & E1 & H). apply bind_ok in H. destruct H as (z & E2 & H).
    destruct (has nm acc) eqn:Eh; [discriminate|]. apply IH in H. rewrite H, put_new by exact Eh.
    assert (nm = ev_name v) as -> by (unfold cap_name in E1; destruct (is_capitalized _); congruence).
    rewrite map_app, <- app_assoc. reflexivity.
Qed.
Lemma enum_names_all l : forall ns, add_enum_names ns l =
  add_all ns (map (fun x => (fst x, NEnumVal (snd (snd x)) (fst (snd x)))) l).
Proof.
  induction l as [|[n [z p]] r IH]; intros ns; cbn; [reflexivity|].
  destruct (add_name _ _ _); cbn; auto.
Qed.

Lemma tops_add w l : forall ts ns ts' ns', visit_tops w ts ns l = Ok (ts', ns') ->
  exists a, map key_pos a = flat_map defs_top l /\ add_all ns a = Ok ns'.
Proof.
  induction l as [|[d|d] r IH]; intros ts ns ts' ns' H; cbn [visit_tops flat_map] in H |- *.
  - injection H as _ <-. exists []. auto.
  - apply bind_ok in H. destruct H as ([s ns1] & E & H).
    destruct (visit_adds w) as (_ & V & _). destruct (V _ _ _ _ _ E) as (a1 & A1 & B1).
    destruct (IH _ _ _ _ H) as (a2 & A2 & B2). exists (a1 ++ a2). cbn [defs_top].
    rewrite map_app, A1, A2. split; [reflexivity|]. eapply add_all_app; eauto.
  - apply bind_ok in H. destruct H as ([e ns1] & E & H).
    apply visit_enum_inv in E. destruct E as (ns0 & vals & _ & Ea & _ & Ev & _ & En & _).
    destruct (IH _ _ _ _ H) as (a2 & A2 & B2).
    rewrite enum_names_all in En. apply enumvals_pos in Ev. cbn in Ev.
    exists (((en_name d, NPos (en_pos d)) ::
       map (fun x => (fst x, NEnumVal (snd (snd x)) (fst (snd x)))) vals) ++ a2).
    split.
    + rewrite map_app, A2. cbn [map defs_top key_pos fst snd named_pos app]. f_equal. f_equal.
      rewrite map_map. rewrite <- Ev. apply map_ext. intros [n [z p]]. reflexivity.
    + eapply add_all_app; [|exact B2]. cbn [add_all]. rewrite Ea. cbn [bind]. exact En.
Qed.

Lemma pos_eqb_eq a b : pos_eqb a b = true <-> a = b.
Proof.
  unfold pos_eqb. rewrite !andb_true_iff, String.eqb_eq, !Z.eqb_eq. destruct a, b. cbn.
  intuition congruence.
Qed.

Lemma add_name_get ns n v ns' : add_name ns n v = Ok ns' ->
  (forall k, get k ns' = match get k ns with Some x => Some x
                         | None => if String.eqb k n then Some v else None end) /\
  exists v', get n ns' = Some v' /\ named_pos v' = named_pos v.
Proof.
  unfold add_name. intros H. destruct (get n ns) as [x|] eqn:E.
  - destruct (pos_eqb _ _) eqn:Ep; [|discriminate]. injection H as <-. apply pos_eqb_eq in Ep. split.
    + intros k. destruct (String.eqb_spec k n); [subst; rewrite E; reflexivity|].
      destruct (get k ns); reflexivity.
    + exists x. auto.
  - injection H as <-. split.
    + intros k. rewrite get_app. destruct (get k ns); [reflexivity|]. reflexivity.
    + exists v. rewrite get_app, E. cbn. rewrite String.eqb_refl. auto.
Qed.
Lemma add_all_get l : forall ns ns', add_all ns l = Ok ns' ->
  (forall k, get k ns' = match get k ns with Some x => Some x | None => get k l end) /\
  (forall n v, In (n, v) l -> exists v', get n ns' = Some v' /\ named_pos v' = named_pos v).
Proof.
  induction l as [|[n v] r IH]; intros ns ns' H; cbn [add_all] in H.
  - injection H as <-. split; [intros k; cbn; destruct (get k ns); reflexivity|intros n v []].
  - apply bind_ok in H. destruct H as (ns1 & E & H). apply add_name_get in E. destruct E as [E1 E2].
    apply IH in H. destruct H as [H1 H2]. split.
    + intros k. rewrite H1, E1. cbn. destruct (get k ns); [reflexivity|].
      destruct (String.eqb k n); reflexivity.
    + intros n' v' [Hi|Hi]; [|auto]. injection Hi as <- <-. destruct E2 as (x & Ex & Px).
      exists x. rewrite H1, Ex. auto.
Qed.

(** Importing. *)
Lemma name_clash_no ns n p : name_clash ns n p = false -> get n ns = None \/
  exists v, get n ns = Some v /\ named_pos v = p.
Proof.
  unfold name_clash. destruct (get n ns) as [v|]; [|auto]. intros H. apply negb_false_iff in H.
  apply pos_eqb_eq in H. eauto.
Qed.
Lemma get_put {V} k (v : V) m k' : get k' (put k v m) =
  match get k' m with Some x => Some x | None => if String.eqb k' k then Some v else None end.
Proof.
  unfold put, has. destruct (get k m) as [x|] eqn:E.
  - destruct (String.eqb_spec k' k); [subst; rewrite E; reflexivity|]. destruct (get k' m); reflexivity.
  - rewrite get_app. destruct (get k' m); reflexivity.
Qed.
Lemma global_names_get l : forall ns ns', add_global_names ns l = (true, ns') ->
  (forall k, get k ns' = match get k ns with Some x => Some x | None => get k l end) /\
  (forall n v, In (n, v) l -> exists v', get n ns' = Some v' /\ named_pos v' = named_pos v).
Proof.
  induction l as [|[n v] r IH]; intros ns ns' H; cbn [add_global_names] in H.
  - injection H as <-. split; [intros k; cbn; destruct (get k ns); reflexivity|intros n v []].
  - destruct (name_clash ns n (named_pos v)) eqn:Ec.
    { destruct (add_global_names ns r). discriminate. }
    apply IH in H. destruct H as [H1 H2]. split.
    + intros k. rewrite H1, get_put. cbn. destruct (get k ns); [reflexivity|].
      destruct (String.eqb k n); reflexivity.
    + intros n' v' [Hi|Hi]; [|auto]. injection Hi as <- <-. rewrite H1, get_put, String.eqb_refl.
      apply name_clash_no in Ec. destruct Ec as [->|(x & -> & Hx)]; eauto.
Qed.
Definition keyed (ts : types_t) : Prop := forall n c, In (n, c) ts -> n = ctype_name c.
Lemma global_types_get l : forall ns ts ns' ts', keyed l ->
  add_global_types ns ts l = (true, ns', ts') ->
  (forall n, get n ts' = match get n ts with Some x => Some x | None => get n l end) /\
  (forall n v, get n ns = Some v -> get n ns' = Some v) /\
  (forall n v', get n ns' = Some v' -> get n ns = Some v' \/ exists c, In (n, c) l /\ v' = NPos (ctype_pos c)).
Proof.
  induction l as [|[n c] r IH]; intros ns ts ns' ts' Hk H; cbn [add_global_types] in H.
  - injection H as <- <-. split; [intros n; cbn; destruct (get n ts); reflexivity|auto].
  - destruct (name_clash ns (ctype_name c) (ctype_pos c)) eqn:Ec.
    { destruct (add_global_types ns ts r) as [[? ?] ?]. discriminate. }
    assert (n = ctype_name c) as -> by (apply Hk; left; reflexivity).
    apply IH in H; [|intros a b Hab; apply Hk; right; exact Hab]. destruct H as (H1 & H2 & H3).
    split; [|split].
    + intros k. rewrite H1, get_put. cbn. destruct (get k ts); [reflexivity|].
      destruct (String.eqb k (ctype_name c)); reflexivity.
    + intros k v Hv. apply H2. rewrite get_put, Hv. reflexivity.
    + intros k v Hv. apply H3 in Hv. rewrite get_put in Hv. destruct Hv as [Hv|(c' & Hc & ->)].
      * destruct (get k ns) as [x|]; [left; congruence|].
        destruct (String.eqb_spec k (ctype_name c)); [|discriminate]. injection Hv as <-. right.
        exists c. subst. split; [left|]; reflexivity.
      * right. exists c'. split; [right; exact Hc|reflexivity].
Qed.

(** [knows F ns]: the names in [ns] are those defined in the files of [F], each at its position. *)
Definition knows (fs : filesystem) (F : string -> Prop) (ns : names_t) : Prop :=
  (forall n v, get n ns = Some v -> exists q, F q /\ defines fs q n (named_pos v)) /\
  (forall q n x, F q -> defines fs q n x -> exists v, get n ns = Some v /\ named_pos v = x).
(** Types are known under their own names, at their positions. *)
Definition typed (ns : names_t) (ts : types_t) : Prop :=
  NoDup (map fst ts) /\ keyed ts /\
  forall n c, get n ts = Some c -> exists v, get n ns = Some v /\ named_pos v = ctype_pos c.

Lemma typed_put ns ts c v : typed ns ts -> get (ctype_name c) ns = Some v -> named_pos v = ctype_pos c ->
  typed ns (put (ctype_name c) c ts).
Proof.
  intros (N & K & T) Hg Hp. split; [|split].
  - unfold put. destruct (has (ctype_name c) ts) eqn:E; [exact N|]. apply has_keys in E.
    rewrite map_app. apply NoDup_snoc; assumption.
  - unfold put. destruct (has (ctype_name c) ts); [exact K|]. intros n c' Hi. apply in_app_iff in Hi.
    destruct Hi as [Hi|[Hi|[]]]; [auto|]. injection Hi as <- <-. reflexivity.
  - intros n c' H. rewrite get_put in H. destruct (get n ts) as [x|] eqn:E.
    + injection H as <-. auto.
    + destruct (String.eqb_spec n (ctype_name c)); [|discriminate]. injection H as <-. subst. eauto.
Qed.
Lemma typed_more ns ns' ts : (forall n v, get n ns = Some v -> get n ns' = Some v) ->
  typed ns ts -> typed ns' ts.
Proof.
  intros H (N & K & T). split; [exact N|]. split; [exact K|]. intros n c Hc.
  destruct (T _ _ Hc) as (v & Hv & Hp). eauto.
Qed.

Lemma global_types_typed l : forall ns ts ns' ts', typed ns ts ->
  add_global_types ns ts l = (true, ns', ts') -> typed ns' ts'.
Proof.
  induction l as [|[n c] r IH]; intros ns ts ns' ts' Ht H; cbn [add_global_types] in H.
  - injection H as <- <-. exact Ht.
  - destruct (name_clash ns (ctype_name c) (ctype_pos c)) eqn:Ec.
    { destruct (add_global_types ns ts r) as [[? ?] ?]. discriminate. }
    eapply IH; [|exact H]. apply name_clash_no in Ec.
    assert (Hm : forall k v, get k ns = Some v -> get k (put (ctype_name c) (NPos (ctype_pos c)) ns) = Some v)
      by (intros k v Hv; rewrite get_put, Hv; reflexivity).
    destruct Ec as [Ec|(v & Ec & Hv)].
    + eapply typed_put with (v := NPos (ctype_pos c)); [eapply typed_more; eauto| |reflexivity].
      rewrite get_put, Ec, String.eqb_refl. reflexivity.
    + eapply typed_put; [eapply typed_more; eauto|apply Hm; exact Ec|exact Hv].
Qed.

Lemma add_import_knows fs u o u' : add_import u o = (true, u') ->
  (forall q, In q (u_global_imports o) <-> clos_trans _ (imports fs) (u_path o) q) ->
  closed fs (u_global_imports u) ->
  knows fs (fun q => In q (u_global_imports u)) (u_names u) -> typed (u_names u) (u_types u) ->
  knows fs (reaches fs (u_path o)) (u_names o) -> typed (u_names o) (u_types o) ->
  knows fs (fun q => In q (u_global_imports u')) (u_names u') /\ typed (u_names u') (u_types u').
Proof.
  intros H Ho Hc [K1 K2] T [O1 O2] TO.
  destruct (add_import_imports fs _ _ _ H Ho Hc) as (_ & G & _).
  unfold add_import in H. destruct (mem _ _) eqn:Em.
  - injection H as <-. cbn [u_global_imports u_names u_types] in *. repeat split; auto; apply T.
  - destruct (add_global_names _ _) as [ok1 ns1] eqn:E1.
    destruct (add_global_types _ _ _) as [[ok2 ns2] ts2] eqn:E2.
    destruct ok1, ok2; cbn [andb] in H; try discriminate. injection H as <-.
    cbn [u_global_imports u_names u_types] in *.
    apply global_names_get in E1. destruct E1 as [N1 N2].
    assert (T1 : typed ns1 (u_types u)).
    { eapply typed_more; [|exact T]. intros n v Hv. rewrite N1, Hv. reflexivity. }
    pose proof (global_types_typed _ _ _ _ _ T1 E2) as T2. split; [|exact T2].
    apply global_types_get in E2; [|apply TO]. destruct E2 as (_ & M1 & M2).
    assert (Hn2 : forall n v, get n ns2 = Some v -> get n ns1 = Some v).
    { intros n v Hv. destruct (M2 _ _ Hv) as [A|(c & A & ->)]; [exact A|].
      destruct TO as (N & _ & TO). apply (get_nodup n c _ N) in A. apply TO in A.
      destruct A as (v' & A & _). apply get_In in A. destruct (N2 _ _ A) as (v2 & A2 & _).
      rewrite (M1 _ _ A2) in Hv. congruence. }
    split.
    + intros n v Hv. apply Hn2 in Hv. rewrite N1 in Hv. destruct (get n (u_names u)) as [x|] eqn:E.
      * injection Hv as <-. destruct (K1 _ _ E) as (q & A & B). exists q. rewrite G. auto.
      * destruct (O1 _ _ Hv) as (q & A & B). exists q. rewrite G. auto.
    + intros q n x Hq Hd. apply G in Hq. destruct Hq as [Hq|Hq].
      * destruct (K2 _ _ _ Hq Hd) as (v & A & B). exists v. split; [|exact B]. apply M1. rewrite N1, A. reflexivity.
      * destruct (O2 _ _ _ Hq Hd) as (v & A & B). apply get_In in A. destruct (N2 _ _ A) as (v2 & A2 & B2).
        exists v2. split; [apply M1; exact A2|congruence].
Qed.

Lemma import_all_knows fs l : forall u u', import_all u l = Some u' ->
  Forall (fun o => (forall q, In q (u_global_imports o) <-> clos_trans _ (imports fs) (u_path o) q) /\
     knows fs (reaches fs (u_path o)) (u_names o) /\ typed (u_names o) (u_types o)) l ->
  closed fs (u_global_imports u) ->
  knows fs (fun q => In q (u_global_imports u)) (u_names u) -> typed (u_names u) (u_types u) ->
  knows fs (fun q => In q (u_global_imports u')) (u_names u') /\ typed (u_names u') (u_types u').
Proof.
  induction l as [|o r IH]; intros u u' H Ho Hc K T; cbn [import_all] in H.
  - injection H as <-. auto.
  - destruct (add_import u o) as [[|] u1] eqn:E; [|discriminate].
    inversion Ho as [|? ? (Ho1 & Ho2 & Ho3) Hor]; subst.
    destruct (add_import_imports _ _ _ _ E Ho1 Hc) as (C1 & _).
    destruct (add_import_knows _ _ _ _ E Ho1 Hc K T Ho2 Ho3) as [K1 T1]. eauto.
Qed.

Lemma visit_struct_named w ts ns d s ns' : visit_struct w ts ns d = Ok (s, ns') ->
  In (cs_name s, cs_pos s) (defs_struct d) /\ cs_name s = top_name (ATStruct d).
Proof.
  destruct d as [p name size body]. rewrite visit_struct_def. intros H1.
  apply bind_ok in H1. destruct H1 as (nm & E1 & H1).
  apply bind_ok in H1. destruct H1 as (ns1 & E2 & H1).
  apply bind_ok in H1. destruct H1 as (sz & E3 & H1).
  apply bind_ok in H1. destruct H1 as ([st ns2] & E4 & H1).
  apply bind_ok in H1. destruct H1 as (s0 & E5 & H1). injection H1 as -> _.
  assert (nm = name) as -> by (unfold cap_name in E1; destruct (is_capitalized name); congruence).
  assert (cs_name s = name /\ cs_pos s = p) as [-> ->]; [|cbn; auto].
  unfold check_struct in E5. destruct (snd st); [discriminate|].
  destruct (check_align _ _ _); [|discriminate]. destruct (Z.rem _ 8 =? 0)%Z; [|discriminate].
  destruct (sz =? 0)%Z; [injection E5 as <-; auto|]. destruct (sum_dyn _); [discriminate|].
  destruct (_ =? sz)%Z; [injection E5 as <-; auto|discriminate].
Qed.
Lemma visit_enum_named w ns d e ns' : visit_enum w ns d = Ok (e, ns') ->
  ce_name e = en_name d /\ ce_pos e = en_pos d.
Proof.
  unfold visit_enum. intros H.
  apply bind_ok in H. destruct H as (nm & E1 & H).
  apply bind_ok in H. destruct H as (ns1 & E2 & H).
  apply bind_ok in H. destruct H as (sz & E3 & H).
  apply bind_ok in H. destruct H as (vals & E4 & H).
  assert (nm = en_name d) as -> by (unfold cap_name in E1; destruct (is_capitalized _); congruence).
  destruct vals; [discriminate|]. apply bind_ok in H. destruct H as (ns2 & E5 & H). injection H as <- _. auto.
Qed.
Lemma add_all_more l ns ns' : add_all ns l = Ok ns' -> forall n v, get n ns = Some v -> get n ns' = Some v.
Proof. intros H n v Hv. apply add_all_get in H. destruct H as [H _]. rewrite H, Hv. reflexivity. Qed.
Lemma visit_struct_more w ts ns d s ns' : visit_struct w ts ns d = Ok (s, ns') ->
  (forall n v, get n ns = Some v -> get n ns' = Some v) /\
  exists v, get (cs_name s) ns' = Some v /\ named_pos v = cs_pos s.
Proof.
  intros H. destruct (visit_adds w) as (_ & V & _). destruct (V _ _ _ _ _ H) as (l & A & B).
  split; [eapply add_all_more; eauto|]. apply visit_struct_named in H. destruct H as [H _].
  rewrite <- A in H. apply in_map_iff in H. destruct H as ([n v] & Hk & Hi). unfold key_pos in Hk.
  cbn in Hk. injection Hk as <- <-. apply add_all_get in B. destruct B as [_ B]. auto.
Qed.
Lemma visit_enum_more w ns d e ns' : visit_enum w ns d = Ok (e, ns') ->
  (forall n v, get n ns = Some v -> get n ns' = Some v) /\
  exists v, get (ce_name e) ns' = Some v /\ named_pos v = ce_pos e.
Proof.
  intros H. pose proof (visit_enum_named _ _ _ _ _ H) as [Hn Hp]. apply visit_enum_inv in H.
  destruct H as (ns0 & vals & _ & Ea & _ & _ & _ & En & _). rewrite enum_names_all in En.
  apply add_name_get in Ea. destruct Ea as [A1 (v & A2 & A3)].
  pose proof (add_all_more _ _ _ En) as M. split.
  - intros n x Hx. apply M. rewrite A1, Hx. reflexivity.
  - exists v. rewrite Hn, Hp. auto.
Qed.

Lemma tops_typed w l : forall ts ns ts' ns', typed ns ts -> visit_tops w ts ns l = Ok (ts', ns') ->
  typed ns' ts'.
Proof.
  induction l as [|[d|d] r IH]; intros ts ns ts' ns' T H; cbn [visit_tops] in H.
  - injection H as <- <-. exact T.
  - apply bind_ok in H. destruct H as ([s ns1] & E & H). apply visit_struct_more in E.
    destruct E as [E1 (v & E2 & E3)]. eapply IH; [|exact H].
    apply (typed_put _ _ (CTStruct s) v); [eapply typed_more; eauto|exact E2|exact E3].
  - apply bind_ok in H. destruct H as ([e ns1] & E & H). apply visit_enum_more in E.
    destruct E as [E1 (v & E2 & E3)]. eapply IH; [|exact H].
    apply (typed_put _ _ (CTEnum e) v); [eapply typed_more; eauto|exact E2|exact E3].
Qed.

Lemma reaches_first fs p q : reaches fs p q <-> p = q \/ clos_trans _ (imports fs) p q.
Proof.
  split.
  - intros K. induction K as [| |a b c K1 IH1 K2 IH2]; [right; apply t_step; assumption|auto|].
    destruct IH1 as [->|IH1]; [exact IH2|]. destruct IH2 as [->|IH2]; [auto|].
    right. eapply t_trans; eauto.
  - intros [->|K]; [apply rt_refl|]. induction K; [apply rt_step; assumption|eapply rt_trans; eauto].
Qed.

Lemma means_knows fs :
  (forall p u, means fs p u -> knows fs (reaches fs p) (u_names u) /\ typed (u_names u) (u_types u)) /\
  (forall l os, all_mean fs l os ->
     Forall (fun o => (forall q, In q (u_global_imports o) <-> clos_trans _ (imports fs) (u_path o) q) /\
       knows fs (reaches fs (u_path o)) (u_names o) /\ typed (u_names o) (u_types o)) os).
Proof.
  apply means_ind2.
  - intros p s pkg os u ts ns Hc Hi Hos IH Hall Ht. cbn [u_names u_types].
    assert (C0 : closed fs (u_global_imports (new_unit p pkg))) by (intros ? ? []).
    destruct (import_all_knows fs os _ _ Hall IH C0) as [[K1 K2] T].
    { split; cbn; [discriminate|intros ? ? ? []]. }
    { split; [constructor|]. split; [intros ? ? []|]. cbn. discriminate. }
    destruct (import_all_imports fs os _ _ Hall) as (_ & G & _); [|exact C0|].
    { eapply Forall_impl; [|exact IH]. cbn. tauto. }
    assert (G' : forall q, In q (u_global_imports u) <-> clos_trans _ (imports fs) p q).
    { assert (Hm : means fs p {| u_path := p; u_package := pkg;
         u_local_imports := u_local_imports u; u_global_imports := u_global_imports u;
         u_types := ts; u_names := ns;
         u_local_types := skipn (length (u_types u)) ts;
         u_local_names := skipn (length (u_names u)) ns |}) by (econstructor; eauto).
      destruct (means_global fs) as [M _]. apply (M _ _ Hm). }
    split; [|eapply tops_typed; eauto].
    apply tops_add in Ht. destruct Ht as (a & A & B). apply add_all_get in B. destruct B as [B1 B2].
    split.
    + intros n v Hv. rewrite B1 in Hv. destruct (get n (u_names u)) as [x|] eqn:E.
      * injection Hv as <-. destruct (K1 _ _ E) as (q & Hq & Hd). apply G' in Hq.
        exists q. split; [apply reaches_first; auto|exact Hd].
      * exists p. split; [apply rt_refl|]. exists s. split; [exact Hc|]. unfold defs_source.
        rewrite <- A. apply get_In in Hv. apply (in_map key_pos) in Hv. exact Hv.
    + intros q n x Hq Hd. apply reaches_first in Hq. destruct Hq as [<-|Hq].
      * destruct Hd as (s' & Hs' & Hd). unfold contains in *. rewrite Hc in Hs'. injection Hs' as <-.
        unfold defs_source in Hd. rewrite <- A in Hd. apply in_map_iff in Hd.
        destruct Hd as ([n' v] & Hk & Hin). unfold key_pos in Hk. cbn in Hk. injection Hk as <- <-. auto.
      * apply G' in Hq. destruct (K2 _ _ _ Hq Hd) as (v & Hv & Hx). exists v. rewrite B1, Hv. auto.
  - constructor.
  - intros p u l us Hm [K T] _ IH. constructor; [|exact IH].
    pose proof (proj2 (means_package _ _ _ Hm)) as Hp. rewrite Hp. split; [|auto].
    destruct (means_global fs) as [M _]. apply (M _ _ Hm).
Qed.

(** In an accepted compilation, a name defined anywhere among the files that one file reaches (as a
    struct, nested or not, an enum, or an enum member) is defined in one place only. *)
Theorem C35_unique_definitions : forall fs p us, compile_file fs p = Ok us ->
  forall q1 q2 n x1 x2, reaches fs p q1 -> reaches fs p q2 ->
    defines fs q1 n x1 -> defines fs q2 n x2 -> x1 = x2.
Proof.
  intros fs p us H q1 q2 n x1 x2 R1 R2 D1 D2.
  destruct (sound_root _ _ _ H) as (r & Hi & Hu & Hp & _).
  destruct (units_closed _ _ _ _ Hi Hu Hp p (rt_refl _ _ _)) as (u & Hx).
  pose proof (C28_units _ _ _ H _ _ Hx) as Hm.
  destruct (means_knows fs) as [K _]. destruct (K _ _ Hm) as [[_ K2] _].
  destruct (K2 _ _ _ R1 D1) as (v1 & A1 & B1). destruct (K2 _ _ _ R2 D2) as (v2 & A2 & B2). congruence.
Qed.

(** With the positions of a parser this says that names are unique: in every file, and across files. *)
Theorem C35_unique_names : forall fs p us, well_located fs -> compile_file fs p = Ok us ->
  (forall q s, reaches fs p q -> contains fs q s -> NoDup (map fst (defs_source s))) /\
  (forall q1 q2 n x1 x2, reaches fs p q1 -> reaches fs p q2 ->
     defines fs q1 n x1 -> defines fs q2 n x2 -> q1 = q2).
Proof.
  intros fs p us Hw H. split.
  - intros q s Hq Hs. destruct (Hw _ _ Hs) as [_ Hn].
    assert (K : forall n x y, In (n, x) (defs_source s) -> In (n, y) (defs_source s) -> x = y).
    { intros n x y A B. eapply (C35_unique_definitions _ _ _ H q q n); eauto; exists s; auto. }
    clear Hw. revert Hn K. induction (defs_source s) as [|[n x] r IH]; intros Hn K; [constructor|].
    cbn in Hn. inversion Hn; subst. cbn. constructor.
    + intros Hi. apply in_map_iff in Hi. destruct Hi as ([n' y] & Hn' & Hy). cbn in Hn'. subst n'.
      assert (x = y) as -> by (eapply K; [left; reflexivity|right; exact Hy]).
      apply H2. apply (in_map snd) in Hy. exact Hy.
    + apply IH; [assumption|]. intros. eapply K; right; eassumption.
  - intros q1 q2 n x1 x2 R1 R2 D1 D2.
    assert (x1 = x2) as -> by exact (C35_unique_definitions _ _ _ H _ _ _ _ _ R1 R2 D1 D2).
    destruct D1 as (s1 & C1 & I1), D2 as (s2 & C2 & I2).
    rewrite <- (proj1 (Hw _ _ C1) _ _ I1), <- (proj1 (Hw _ _ C2) _ _ I2). reflexivity.
Qed.

(** *** No false alarms *)
Lemma add_name_nodup ns n v ns' : NoDup (map fst ns) -> add_name ns n v = Ok ns' -> NoDup (map fst ns').
Proof.
  unfold add_name. intros Hn H. destruct (get n ns) eqn:E.
  - destruct (pos_eqb _ _); congruence.
  - injection H as <-. rewrite map_app. apply NoDup_snoc; [exact Hn|]. apply get_none_keys. exact E.
Qed.
Lemma add_all_nodup l : forall ns ns', NoDup (map fst ns) -> add_all ns l = Ok ns' -> NoDup (map fst ns').
Proof.
  induction l as [|[n v] r IH]; intros ns ns' Hn H; cbn [add_all] in H; [congruence|].
  apply bind_ok in H. destruct H as (ns1 & E & H). eapply IH; [|exact H]. eapply add_name_nodup; eauto.
Qed.
Lemma put_nodup {V} k (v : V) m : NoDup (map fst m) -> NoDup (map fst (put k v m)).
Proof.
  intros H. unfold put. destruct (has k m) eqn:E; [exact H|]. apply has_keys in E.
  rewrite map_app. apply NoDup_snoc; assumption.
Qed.
Lemma global_names_nodup l : forall ns ok ns', NoDup (map fst ns) -> add_global_names ns l = (ok, ns') ->
  NoDup (map fst ns').
Proof.
  induction l as [|[n v] r IH]; intros ns ok ns' Hn H; cbn [add_global_names] in H; [congruence|].
  destruct (name_clash _ _ _).
  - destruct (add_global_names ns r) as [ok1 ns1] eqn:E. injection H as _ <-. eauto.
  - eapply IH; [|exact H]. apply put_nodup. exact Hn.
Qed.
Lemma global_types_nodup l : forall ns ts ok ns' ts', NoDup (map fst ns) ->
  add_global_types ns ts l = (ok, ns', ts') -> NoDup (map fst ns').
Proof.
  induction l as [|[n v] r IH]; intros ns ts ok ns' ts' Hn H; cbn [add_global_types] in H; [congruence|].
  destruct (name_clash _ _ _).
  - destruct (add_global_types ns ts r) as [[ok1 ns1] ts1] eqn:E. injection H as _ <- _. eauto.
  - eapply IH; [|exact H]. apply put_nodup. exact Hn.
Qed.
Lemma add_import_nodup u o ok u' : NoDup (map fst (u_names u)) -> add_import u o = (ok, u') ->
  NoDup (map fst (u_names u')).
Proof.
  unfold add_import. intros Hn H. destruct (mem _ _); [injection H as _ <-; exact Hn|].
  destruct (add_global_names _ _) as [ok1 ns1] eqn:E1. destruct (add_global_types _ _ _) as [[ok2 ns2] ts2] eqn:E2.
  injection H as _ <-. cbn [u_names]. eapply global_types_nodup; [|exact E2]. eapply global_names_nodup; eauto.
Qed.
Lemma import_all_nodup l : forall u u', NoDup (map fst (u_names u)) -> import_all u l = Some u' ->
  NoDup (map fst (u_names u')).
Proof.
  induction l as [|o r IH]; intros u u' Hn H; cbn [import_all] in H; [congruence|].
  destruct (add_import u o) as [[|] u1] eqn:E; [|discriminate]. eapply IH; [|exact H].
  eapply add_import_nodup; eauto.
Qed.
Lemma means_nodup fs p u : means fs p u -> NoDup (map fst (u_names u)).
Proof.
  intros H. inversion H; subst. cbn [u_names]. apply tops_add in H4. destruct H4 as (a & _ & Ha).
  eapply add_all_nodup; [|exact Ha]. eapply import_all_nodup; [|exact H3]. constructor.
Qed.

Lemma global_names_ok l : forall ns, NoDup (map fst l) ->
  (forall n v v0, In (n, v) l -> get n ns = Some v0 -> named_pos v0 = named_pos v) ->
  exists ns', add_global_names ns l = (true, ns').
Proof.
  induction l as [|[n v] r IH]; intros ns Hn Hc; cbn [add_global_names]; [eauto|].
  inversion Hn as [|? ? Hni Hnr]; subst.
  assert (Ec : name_clash ns n (named_pos v) = false).
  { unfold name_clash. destruct (get n ns) as [v0|] eqn:E; [|reflexivity]. apply negb_false_iff.
    apply pos_eqb_eq. eapply Hc; [left; reflexivity|exact E]. }
  rewrite Ec. apply IH; [exact Hnr|]. intros n' v' v0 Hi Hg. rewrite get_put in Hg.
  destruct (get n' ns) as [x|] eqn:E.
  - injection Hg as <-. eapply Hc; [right; exact Hi|exact E].
  - destruct (String.eqb_spec n' n); [|discriminate]. subst. exfalso. apply Hni.
    apply (in_map fst) in Hi. exact Hi.
Qed.
Lemma global_types_ok l : forall ns ts,
  (forall n c, In (n, c) l -> n = ctype_name c /\ exists v, get n ns = Some v /\ named_pos v = ctype_pos c) ->
  exists ts', add_global_types ns ts l = (true, ns, ts').
Proof.
  induction l as [|[n c] r IH]; intros ns ts Hc; cbn [add_global_types]; [eauto|].
  destruct (Hc n c (or_introl eq_refl)) as (-> & v & Hv & Hp).
  unfold name_clash. rewrite Hv. replace (pos_eqb (named_pos v) (ctype_pos c)) with true
    by (symmetry; apply pos_eqb_eq; exact Hp).
  cbn [negb]. assert (Hput : put (ctype_name c) (NPos (ctype_pos c)) ns = ns).
  { unfold put, has. rewrite Hv. reflexivity. }
  rewrite Hput. apply IH. intros. apply Hc. right. assumption.
Qed.

Lemma import_all_ok fs p l os : all_mean fs l os ->
  (forall q, In q l -> imports fs p q) ->
  (forall q1 q2 n x1 x2, reaches fs p q1 -> reaches fs p q2 ->
     defines fs q1 n x1 -> defines fs q2 n x2 -> x1 = x2) ->
  forall u, closed fs (u_global_imports u) ->
    (forall q, In q (u_global_imports u) -> reaches fs p q) ->
    knows fs (fun q => In q (u_global_imports u)) (u_names u) -> typed (u_names u) (u_types u) ->
    exists u', import_all u os = Some u'.
Proof.
  intros Hos Hl Hu. induction Hos as [|m o l os Hm Hos IH]; intros u Hc Hr K T; cbn [import_all]; [eauto|].
  destruct (means_package _ _ _ Hm) as [_ Hpath].
  destruct (means_global fs) as [MG _]. destruct (MG _ _ Hm) as (Hg & _). rewrite <- Hpath in Hg.
  destruct (means_knows fs) as [MK _]. destruct (MK _ _ Hm) as [KO TO].
  assert (Hadd : exists u1, add_import u o = (true, u1)).
  { unfold add_import. destruct (mem _ _); [eauto|].
    destruct (global_names_ok (u_names o) (u_names u)) as (ns1 & E1).
    - eapply means_nodup; eauto.
    - intros n v v0 Hi Hv0. apply (get_nodup n v) in Hi; [|eapply means_nodup; eauto].
      destruct K as [K1 _]. destruct KO as [KO1 _].
      destruct (K1 _ _ Hv0) as (q0 & Q0 & D0). destruct (KO1 _ _ Hi) as (q1 & Q1 & D1).
      eapply Hu; [apply Hr; exact Q0| |exact D0|exact D1].
      eapply rt_trans; [apply rt_step; apply Hl; left; reflexivity|exact Q1].
    - rewrite E1. apply global_names_get in E1. destruct E1 as [N1 N2].
      destruct (global_types_ok (u_types o) ns1 (u_types u)) as (ts1 & E2).
      + intros n c Hi. destruct TO as (TN & TK & TT). split; [auto|].
        apply (get_nodup n c _ TN) in Hi. destruct (TT _ _ Hi) as (v & Hv & Hp).
        apply get_In in Hv. destruct (N2 _ _ Hv) as (v' & A & B). exists v'. split; [exact A|congruence].
      + rewrite E2. cbn [andb]. eauto. }
  destruct Hadd as (u1 & E). rewrite E.
  destruct (add_import_imports _ _ _ _ E Hg Hc) as (C1 & G1 & _).
  assert (KO' : knows fs (reaches fs (u_path o)) (u_names o)) by (rewrite Hpath; exact KO).
  destruct (add_import_knows _ _ _ _ E Hg Hc K T KO' TO) as [K1 T1].
  apply IH; auto.
  - intros q Hq. apply Hl. right. exact Hq.
  - intros q Hq. apply G1 in Hq. destruct Hq as [Hq|Hq]; [auto|]. rewrite Hpath in Hq.
    eapply rt_trans; [apply rt_step; apply Hl; left; reflexivity|exact Hq].
Qed.

(** Importing never reports a clash of names that is not one: if no name has two definitions among the
    files reached, then all imports of a file are accepted, however often and along however many
    paths a file is imported. *)
Theorem C35_no_false_clash : forall fs p s pkg os,
  contains fs p s -> all_mean fs (s_imports s) os ->
  (forall q1 q2 n x1 x2, reaches fs p q1 -> reaches fs p q2 ->
     defines fs q1 n x1 -> defines fs q2 n x2 -> x1 = x2) ->
  exists u, import_all (new_unit p pkg) os = Some u.
Proof.
  intros fs p s pkg os Hc Hos Hu. eapply import_all_ok with (p := p); eauto.
  - intros q Hq. exists s. auto.
  - intros ? ? [].
  - intros ? [].
  - split; cbn; [discriminate|intros ? ? ? []].
  - split; [constructor|]. split; [intros ? ? []|]. cbn. discriminate.
Qed.

(** *** Visible types *)
Lemma top_name_def w ts ns ts' ns' l : visit_tops w ts ns l = Ok (ts', ns') ->
  forall t, In t l -> exists x, In (top_name t, x) (defs_top t).
Proof.
  intros _ t _. destruct t as [[p n sz b]|d]; cbn; eauto.
Qed.
Lemma tops_types w l : forall ts ns ts' ns', visit_tops w ts ns l = Ok (ts', ns') ->
  NoDup (map top_name l) -> (forall t, In t l -> ~ In (top_name t) (map fst ts)) ->
  exists new, ts' = ts ++ new /\ map fst new = map top_name l.
Proof.
  assert (D : forall w (ts : types_t) ts' ns' l t c (ns1 : names_t) name, name = top_name t ->
    (forall ts ns ts' ns', visit_tops w ts ns l = Ok (ts', ns') ->
      NoDup (map top_name l) -> (forall t, In t l -> ~ In (top_name t) (map fst ts)) ->
      exists new, ts' = ts ++ new /\ map fst new = map top_name l) ->
    visit_tops w (put name c ts) ns1 l = Ok (ts', ns') ->
    NoDup (map top_name (t :: l)) -> (forall t', In t' (t :: l) -> ~ In (top_name t') (map fst ts)) ->
    exists new, ts' = ts ++ new /\ map fst new = map top_name (t :: l)).
  { clear. intros w ts ts' ns' l t c ns1 name -> IH H Hn Hf. cbn [map] in Hn. inversion Hn; subst.
    rewrite put_new in H by (apply has_keys; apply Hf; left; reflexivity).
    destruct (IH _ _ _ _ H) as (new & -> & Hk); [assumption| |].
    - intros t' Ht'. rewrite map_app, in_app_iff. cbn. intros [A|[A|[]]].
      + exact (Hf t' (or_intror Ht') A).
      + apply H2. rewrite A. apply in_map. exact Ht'.
    - exists ((top_name t, c) :: new). rewrite <- app_assoc. cbn. rewrite Hk. auto. }
  induction l as [|t r IH]; intros ts ns ts' ns' H Hn Hf.
  - cbn in H. injection H as <- _. exists []. rewrite app_nil_r. auto.
  - destruct t as [d|d]; cbn [visit_tops] in H.
    + apply bind_ok in H. destruct H as ([s ns1] & E & H). apply visit_struct_named in E.
      eapply D; [|exact IH|exact H|exact Hn|exact Hf]. exact (proj2 E).
    + apply bind_ok in H. destruct H as ([e ns1] & E & H). apply visit_enum_named in E.
      eapply D; [|exact IH|exact H|exact Hn|exact Hf]. exact (proj1 E).
Qed.

Lemma tops_names_nodup l : NoDup (map fst (flat_map defs_top l)) -> NoDup (map top_name l).
Proof.
  assert (A : forall t, exists x r, defs_top t = (top_name t, x) :: r).
  { intros [[p n sz b]|d]; cbn; eauto. }
  induction l as [|t r IH]; cbn [flat_map map]; [constructor|]. intros H.
  destruct (A t) as (x & tl & E). rewrite E in H. cbn [map app fst] in H. rewrite map_app in H.
  inversion H; subst. constructor.
  - intros Hi. apply in_map_iff in Hi. destruct Hi as (t' & Ht' & Hi). apply H2.
    apply in_app_iff. right. apply in_map_iff. destruct (A t') as (x' & tl' & E').
    exists (top_name t', x'). split; [exact Ht'|]. apply in_flat_map. exists t'. split; [exact Hi|].
    rewrite E'. left. reflexivity.
  - apply IH. clear - H3. induction (map fst tl) as [|a m IHm]; [exact H3|]. cbn in H3.
    inversion H3; subst. auto.
Qed.

(** The names seen so far and the types of imported files, for one file. *)
Lemma means_local fs p u : well_located fs -> means fs p u ->
  exists s pkg os u0, contains fs p s /\ all_mean fs (s_imports s) os /\
    import_all (new_unit p pkg) os = Some u0 /\
    u_types u = u_types u0 ++ u_local_types u /\
    map fst (u_local_types u) = map top_name (s_tops s) /\
    NoDup (map fst (defs_source s)) /\
    visit_tops wrap64 (u_types u0) (u_names u0) (s_tops s) = Ok (u_types u, u_names u).
Proof.
  intros Hw Hm. pose proof Hm as Hm'. inversion Hm as [p' s pkg os u0 ts ns Hc Hi Hos Hall Ht]; subst.
  exists s, pkg, os, u0. cbn [u_types u_local_types u_names].
  destruct (means_knows fs) as [MK MKs]. destruct (MK _ _ Hm') as [[K1 K2] T]. cbn [u_names u_types] in *.
  assert (Hnames : NoDup (map fst (defs_source s))).
  { destruct (Hw _ _ Hc) as [_ Hn].
    assert (K : forall n x y, In (n, x) (defs_source s) -> In (n, y) (defs_source s) -> x = y).
    { intros n x y A B.
      destruct (K2 p n x (rt_refl _ _ _)) as (v1 & V1 & P1); [exists s; auto|].
      destruct (K2 p n y (rt_refl _ _ _)) as (v2 & V2 & P2); [exists s; auto|]. congruence. }
    revert Hn K. induction (defs_source s) as [|[n x] r IH]; intros Hn K; [constructor|].
    cbn in Hn. inversion Hn; subst. cbn. constructor.
    + intros Hin. apply in_map_iff in Hin. destruct Hin as ([n' y] & Hn' & Hy). cbn in Hn'. subst n'.
      assert (x = y) as -> by (eapply K; [left; reflexivity|right; exact Hy]).
      apply H1. apply (in_map snd) in Hy. exact Hy.
    + apply IH; [assumption|]. intros. eapply K; right; eassumption. }
  assert (C0 : closed fs (u_global_imports (new_unit p pkg))) by (intros ? ? []).
  destruct (import_all_knows fs os _ _ Hall (MKs _ _ Hos) C0) as [[I1 I2] IT].
  { split; cbn; [discriminate|intros ? ? ? []]. }
  { split; [constructor|]. split; [intros ? ? []|]. cbn. discriminate. }
  assert (Hfresh : forall t, In t (s_tops s) -> ~ In (top_name t) (map fst (u_types u0))).
  { intros t Hti Hin. destruct (get (top_name t) (u_types u0)) as [c|] eqn:Eg.
    2:{ apply get_none_keys in Eg. contradiction. }
    destruct IT as (_ & _ & IT). destruct (IT _ _ Eg) as (v & Hv & Hp).
    destruct (I1 _ _ Hv) as (q & Hq & (sq & Hsq & Hdq)).
    destruct (means_global fs) as [MG _]. destruct (MG _ _ Hm') as (Hg & _). apply Hg in Hq.
    destruct (means_acyclic fs) as [MA _]. pose proof (MA _ _ Hm' _ Hq) as Hne.
    destruct (top_name_def _ _ _ _ _ _ Ht _ Hti) as (x & Hx).
    assert (Hdp : In (top_name t, x) (defs_source s)) by (apply in_flat_map; eauto).
    destruct (K2 p (top_name t) x (rt_refl _ _ _)) as (v2 & V2 & P2); [exists s; auto|].
    apply tops_add in Ht. destruct Ht as (a & _ & Ha). pose proof (add_all_more _ _ _ Ha _ _ Hv) as Hv'.
    assert (v2 = v) as -> by congruence.
    apply Hne. rewrite <- (proj1 (Hw _ _ Hsq) _ _ Hdq). rewrite P2. apply (proj1 (Hw _ _ Hc) _ _ Hdp). }
  destruct (tops_types _ _ _ _ _ _ Ht) as (new & Hts & Hk).
  { apply tops_names_nodup. exact Hnames. }
  { exact Hfresh. }
  subst ts. rewrite skipn_app, skipn_all, Nat.sub_diag. cbn [app skipn].
  repeat (split; [first [assumption|reflexivity]|]). exact Ht.
Qed.

(** [sees F ts]: the types of [ts] are those defined at top level in the files of [F]. *)
Definition sees (fs : filesystem) (F : string -> Prop) (ts : types_t) : Prop :=
  (forall n c, get n ts = Some c -> exists q v, F q /\ means fs q v /\ In (n, c) (u_local_types v)) /\
  (forall q v n c, F q -> means fs q v -> In (n, c) (u_local_types v) -> get n ts = Some c).

Lemma local_types_defined fs q v n c : well_located fs -> means fs q v -> In (n, c) (u_local_types v) ->
  get n (u_types v) = Some c /\ exists x, defines fs q n x.
Proof.
  intros Hw Hm Hi. destruct (means_local fs q v Hw Hm) as (s & pkg & os & u0 & Hc & _ & _ & Ht & Hk & _).
  destruct (means_knows fs) as [MK _]. destruct (MK _ _ Hm) as [_ (TN & _ & TT)]. split.
  - apply (get_nodup n c _ TN). rewrite Ht. apply in_app_iff. right. exact Hi.
  - apply (in_map fst) in Hi. rewrite Hk in Hi. apply in_map_iff in Hi. destruct Hi as (t & Hn & Hti).
    cbn in Hn. subst n. destruct t as [[p n sz b]|d]; cbn [top_name].
    + exists p. exists s. split; [exact Hc|]. apply in_flat_map. eexists. split; [exact Hti|]. left. reflexivity.
    + exists (en_pos d). exists s. split; [exact Hc|]. apply in_flat_map. eexists. split; [exact Hti|]. left. reflexivity.
Qed.

Lemma import_all_sees fs l : well_located fs -> forall u u', import_all u l = Some u' ->
  Forall (fun o => means fs (u_path o) o /\ sees fs (reaches fs (u_path o)) (u_types o)) l ->
  closed fs (u_global_imports u) ->
  knows fs (fun q => In q (u_global_imports u)) (u_names u) -> typed (u_names u) (u_types u) ->
  sees fs (fun q => In q (u_global_imports u)) (u_types u) ->
  sees fs (fun q => In q (u_global_imports u')) (u_types u').
Proof.
  intros Hw. induction l as [|o r IH]; intros u u' H Ho Hc K T S; cbn [import_all] in H.
  - injection H as <-. exact S.
  - destruct (add_import u o) as [[|] u1] eqn:E; [|discriminate].
    inversion Ho as [|? ? [Hm HS] Hor]; subst.
    destruct (means_global fs) as [MG _]. destruct (MG _ _ Hm) as (Hg & _).
    destruct (means_knows fs) as [MK _]. destruct (MK _ _ Hm) as [KO TO].
    destruct (add_import_imports _ _ _ _ E Hg Hc) as (C1 & G1 & _).
    destruct (add_import_knows _ _ _ _ E Hg Hc K T KO TO) as [K1 T1].
    eapply IH; eauto. clear IH H Hor Ho.
    assert (M : (forall n c, get n (u_types u1) = Some c ->
                   get n (u_types u) = Some c \/ get n (u_types o) = Some c) /\
                (forall n c, get n (u_types u) = Some c -> get n (u_types u1) = Some c) /\
                (mem (u_path o) (u_global_imports u) = false ->
                 forall n c, get n (u_types o) = Some c -> exists c', get n (u_types u1) = Some c')).
    { unfold add_import in E. destruct (mem _ _); [injection E as <-; cbn [u_types]; repeat split; auto; discriminate|].
      destruct (add_global_names _ _) as [ok1 ns1] eqn:E1.
      destruct (add_global_types _ _ _) as [[ok2 ns2] ts2] eqn:E2.
      destruct ok1, ok2; cbn [andb] in E; try discriminate. injection E as <-. cbn [u_types].
      apply global_types_get in E2; [|apply TO]. destruct E2 as (N & _).
      split; [|split].
      - intros n c Hc'. rewrite N in Hc'. destruct (get n (u_types u)); auto.
      - intros n c Hc'. rewrite N, Hc'. reflexivity.
      - intros _ n c Hc'. rewrite N, Hc'. destruct (get n (u_types u)); eauto. }
    destruct M as (M1 & M2 & M3). destruct S as [S1 S2]. destruct HS as [O1 O2].
    split.
    + intros n c Hn. apply M1 in Hn. destruct Hn as [Hn|Hn].
      * destruct (S1 _ _ Hn) as (q & v & A & B). exists q, v. rewrite G1. auto.
      * destruct (O1 _ _ Hn) as (q & v & A & B). exists q, v. rewrite G1. auto.
    + intros q v n c Hq Hmv Hi. apply G1 in Hq.
      destruct (mem (u_path o) (u_global_imports u)) eqn:Em.
      { apply M2. eapply S2; eauto. destruct Hq as [Hq|Hq]; [exact Hq|].
        apply mem_In in Em. apply reaches_first in Hq. destruct Hq as [<-|Hq]; [exact Em|].
        exact (Hc _ _ Em Hq). }
      destruct Hq as [Hq|Hq]; [apply M2; eapply S2; eauto|].
      destruct (M3 eq_refl n c (O2 _ _ _ _ Hq Hmv Hi)) as (c' & Hc').
      rewrite Hc'. f_equal.
      destruct (local_types_defined _ _ _ _ _ Hw Hmv Hi) as [Gv (x & Dx)].
      assert (Hqq : exists q' v', In q' (u_global_imports u1) /\ means fs q' v' /\ In (n, c') (u_local_types v')).
      { apply M1 in Hc'. destruct Hc' as [Hn|Hn].
        - destruct (S1 _ _ Hn) as (q' & v' & A & B & C). exists q', v'. rewrite G1. auto.
        - destruct (O1 _ _ Hn) as (q' & v' & A & B & C). exists q', v'. rewrite G1. auto. }
      destruct Hqq as (q' & v' & Hq' & Hmv' & Hi').
      destruct (local_types_defined _ _ _ _ _ Hw Hmv' Hi') as [Gv' (x' & Dx')].
      destruct K1 as [_ K12].
      assert (In q (u_global_imports u1)) as Hq1 by (apply G1; auto).
      destruct (K12 _ _ _ Hq1 Dx) as (w1 & W1 & P1). destruct (K12 _ _ _ Hq' Dx') as (w2 & W2 & P2).
      assert (x = x') as <- by congruence.
      assert (q = q') as <-.
      { destruct Dx as (s1 & A1 & B1), Dx' as (s2 & A2 & B2).
        rewrite <- (proj1 (Hw _ _ A1) _ _ B1). apply (proj1 (Hw _ _ A2) _ _ B2). }
      destruct (means_fun fs) as [F _]. rewrite (F _ _ Hmv _ Hmv') in Gv'. congruence.
Qed.

Lemma means_sees fs : well_located fs ->
  (forall p u, means fs p u -> sees fs (reaches fs p) (u_types u)) /\
  (forall l os, all_mean fs l os ->
     Forall (fun o => means fs (u_path o) o /\ sees fs (reaches fs (u_path o)) (u_types o)) os).
Proof.
  intros Hw. apply means_ind2.
  - intros p s pkg os u ts ns Hc Hi Hos IH Hall Ht. cbn [u_types].
    set (u' := {| u_path := p; u_package := pkg;
         u_local_imports := u_local_imports u; u_global_imports := u_global_imports u;
         u_types := ts; u_names := ns;
         u_local_types := skipn (length (u_types u)) ts;
         u_local_names := skipn (length (u_names u)) ns |}).
    assert (Hm : means fs p u') by (econstructor; eauto).
    assert (C0 : closed fs (u_global_imports (new_unit p pkg))) by (intros ? ? []).
    destruct (means_knows fs) as [MK MKs].
    assert (S0 : sees fs (fun q => In q (u_global_imports u)) (u_types u)).
    { eapply import_all_sees; eauto.
      - split; cbn; [discriminate|intros ? ? ? []].
      - split; [constructor|]. split; [intros ? ? []|]. cbn. discriminate.
      - split; cbn; [discriminate|intros ? ? ? ? []]. }
    destruct (means_global fs) as [MG _]. destruct (MG _ _ Hm) as (G' & _).
    cbn [u' u_global_imports] in G'.
    destruct (means_local fs p u' Hw Hm) as (s' & pkg' & os' & u0 & Hc' & Hos' & Hall' & Hts & Hk & _).
    unfold contains in *. rewrite Hc in Hc'. injection Hc' as <-.
    destruct (means_fun fs) as [F Fs]. apply (Fs _ _ Hos) in Hos'. subst os'.
    assert (u_types u0 = u_types u) as Hu0.
    { (* the package does not matter *)
      assert (Gen : forall os a b a' b', import_all a os = Some a' -> import_all b os = Some b' ->
         u_global_imports a = u_global_imports b -> u_types a = u_types b -> u_names a = u_names b ->
         u_types a' = u_types b').
      { clear. induction os as [|o r IH]; intros a b a' b' Ha Hb E1 E2 E3; cbn [import_all] in *; [congruence|].
        destruct (add_import a o) as [[|] a1] eqn:Ea; [|discriminate].
        destruct (add_import b o) as [[|] b1] eqn:Eb; [|discriminate].
        unfold add_import in Ea, Eb. rewrite E1, E2, E3 in Ea. destruct (mem _ _).
        - injection Ea as <-. injection Eb as <-. eapply IH; eauto.
        - destruct (add_global_names _ _) as [ok1 ns1]. destruct (add_global_types _ _ _) as [[ok2 ns2] ts2].
          destruct (ok1 && ok2); [|discriminate]. injection Ea as <-. injection Eb as <-.
          eapply IH; eauto; cbn; congruence. }
      eapply Gen; [exact Hall'|exact Hall|reflexivity..]. }
    rewrite Hu0 in Hts. change (u_types u') with ts in Hts.
    destruct (MK _ _ Hm) as [_ (TN & _)]. cbn [u' u_types] in TN.
    destruct S0 as [S1 S2]. split.
    + intros n c Hn. rewrite Hts, get_app in Hn. destruct (get n (u_types u)) as [c0|] eqn:E.
      * injection Hn as <-. destruct (S1 _ _ E) as (q & v & A & B). apply G' in A.
        exists q, v. split; [apply reaches_first; auto|exact B].
      * exists p, u'. split; [apply rt_refl|]. split; [exact Hm|]. apply get_In. exact Hn.
    + intros q v n c Hq Hmv Hin. apply reaches_first in Hq. destruct Hq as [<-|Hq].
      * rewrite (F _ _ Hm _ Hmv) in Hin. apply (get_nodup n c _ TN). rewrite Hts. apply in_app_iff. auto.
      * apply G' in Hq. rewrite Hts, get_app, (S2 _ _ _ _ Hq Hmv Hin). reflexivity.
  - constructor.
  - intros p u l us Hm S _ IH. constructor; [|exact IH].
    rewrite (proj2 (means_package _ _ _ Hm)). auto.
Qed.

(** What a file of an accepted compilation sees: exactly the types defined at top level in itself and
    in the files it imports directly or indirectly; the types that a file adds are its own definitions,
    in order. *)
Theorem C35_visible_types : forall fs p us, well_located fs -> compile_file fs p = Ok us ->
  forall q u, In (q, u) us ->
    (forall n c, get n (u_types u) = Some c <->
       exists q' u', In (q', u') us /\ reaches fs q q' /\ In (n, c) (u_local_types u')) /\
    exists s, contains fs q s /\ map fst (u_local_types u) = map top_name (s_tops s).
Proof.
  intros fs p us Hw H q u Hq. destruct (sound_root _ _ _ H) as (r & Hi & Hu & Hp & Hr).
  pose proof (C28_units _ _ _ H _ _ Hq) as Hm.
  destruct (means_sees fs Hw) as [MS _]. destruct (MS _ _ Hm) as [S1 S2].
  split.
  - intros n c. split.
    + intros Hn. destruct (S1 _ _ Hn) as (q' & v & A & B & C). exists q', v.
      assert (Hq' : reaches fs p q') by (eapply rt_trans; [eapply Hr; exact Hq|exact A]).
      destruct (units_closed _ _ _ _ Hi Hu Hp _ Hq') as (v' & Hv').
      destruct (means_fun fs) as [F _]. rewrite (F _ _ B v') in Hv' by (eapply C28_units; eauto). auto.
    + intros (q' & v & A & B & C). eapply S2; eauto. eapply C28_units; eauto.
  - destruct (means_local fs q u Hw Hm) as (s & pkg & os & u0 & Hc & _ & _ & _ & Hk & _). eauto.
Qed.

(** ** C43 for whole compilations *)
Lemma visit_file_options_np l : forall acc, visit_file_options l acc <> Panic.
Proof.
  induction l as [|[n v] r IH]; intros acc; cbn [visit_file_options]; [discriminate|]. intros H.
  apply bind_panic in H. destruct H as [H|(x & _ & H)]; [exact (visit_lit_np _ H)|].
  destruct (file_option_valid n x); [|discriminate]. destruct (has n acc); [discriminate|]. exact (IH _ H).
Qed.
Lemma visit_info_np s : visit_info s <> Panic.
Proof.
  unfold visit_info. destruct (s_packages s) as [|k [|]]; try discriminate. intros H.
  apply bind_panic in H. destruct H as [H|(x & _ & H)]; [exact (visit_file_options_np _ _ H)|discriminate].
Qed.
Lemma imports_np rec l : (forall r p r', rec r p <> Some (Panic, r')) ->
  forall r u ok r', compile_imports rec l r u ok <> Some (Panic, r').
Proof.
  intros Hr. induction l as [|p rest IH]; intros r u ok r' H; cbn [compile_imports] in H; [discriminate|].
  destruct (rec r p) as [[[[]| |] r1]|] eqn:E; try discriminate.
  - destruct (get p (r_units r1)) as [o|]; [|exact (IH _ _ _ _ H)]. destruct (add_import u o). exact (IH _ _ _ _ H).
  - exact (IH _ _ _ _ H).
  - exact (Hr _ _ _ E).
Qed.
Lemma compile_np fs n : (forall p s, contains fs p s -> Forall refs_top (s_tops s)) ->
  forall r p r', compile n fs r p <> Some (Panic, r').
Proof.
  intros Hf. induction n as [|n IH]; intros r p r' H; cbn [compile] in H; [discriminate|].
  destruct (get p fs) as [content|] eqn:Ec; [|discriminate].
  destruct (mem p (r_stack r)); [discriminate|]. destruct (has p (r_units r)); [discriminate|].
  destruct content as [src|]; [|discriminate].
  destruct (visit_info src) as [pkg| |] eqn:Ei; [| |exact (visit_info_np _ Ei)]; try discriminate.
  destruct (mem pkg (r_packages r)); [discriminate|].
  destruct (compile_imports _ _ _ _ _) as [[y r2]|] eqn:E; [|discriminate].
  destruct y as [[[|] u]| |]; try discriminate.
  - destruct (visit_tops _ _ _ _) as [[ts ns]| |] eqn:Et; try discriminate.
    exact (C43_no_crash _ _ _ (Hf _ _ Ec) Et).
  - exact (imports_np _ _ IH _ _ _ _ E).
Qed.
(** The compiler never crashes on a set of files, whatever they contain and however they import each
    other, provided references written [struct x] or [enum x] use capitalised names. *)
Theorem C43_no_crash_files : forall fs p,
  (forall q s, contains fs q s -> Forall refs_top (s_tops s)) -> compile_file fs p <> Panic.
Proof.
  intros fs p Hf H. unfold compile_file in H.
  destruct (compile _ _ _ _) as [[[[]| |] r]|] eqn:E; try discriminate. exact (compile_np _ _ Hf _ _ _ E).
Qed.

(** ** C23 for whole compilations *)
(** Every definition in a file that [p] reaches is of a size that an int64 can hold. *)
Definition program_fits (fs : filesystem) (p : string) : Prop :=
  forall q s pkg os u, reaches fs p q -> contains fs q s -> all_mean fs (s_imports s) os ->
    import_all (new_unit q pkg) os = Some u -> fits_file (u_types u) (u_names u) (s_tops s).

Lemma global_types_accepted l : forall ns ts ok ns' ts', accepted_env l -> accepted_env ts ->
  add_global_types ns ts l = (ok, ns', ts') -> accepted_env ts'.
Proof.
  induction l as [|[n c] r IH]; intros ns ts ok ns' ts' Hl Ht H; cbn [add_global_types] in H.
  - injection H as _ _ <-. exact Ht.
  - inversion Hl; subst. destruct (name_clash _ _ _).
    + destruct (add_global_types ns ts r) as [[ok1 ns1] ts1] eqn:E. injection H as _ _ <-. eauto.
    + eapply IH; [eassumption| |exact H]. apply accepted_put; assumption.
Qed.
Lemma import_all_accepted l : forall u u', Forall (fun o => accepted_env (u_types o)) l ->
  accepted_env (u_types u) -> import_all u l = Some u' -> accepted_env (u_types u').
Proof.
  induction l as [|o r IH]; intros u u' Hl Hu H; cbn [import_all] in H; [congruence|].
  destruct (add_import u o) as [[|] u1] eqn:E; [|discriminate]. inversion Hl; subst.
  eapply IH; [eassumption| |exact H]. unfold add_import in E. destruct (mem _ _); [injection E as <-; exact Hu|].
  destruct (add_global_names _ _) as [ok1 ns1]. destruct (add_global_types _ _ _) as [[ok2 ns2] ts2] eqn:E2.
  injection E as _ <-. cbn [u_types]. exact (global_types_accepted _ _ _ _ _ _ H2 Hu E2).
Qed.

(** Every type in view of any file of an accepted compilation was accepted and is of a size that an
    int64 can hold: so C23, C24 and C25 hold of it, wherever it was defined. *)
Theorem C23_program : forall fs p us, compile_file fs p = Ok us -> program_fits fs p ->
  forall q u, In (q, u) us -> accepted_env (u_types u).
Proof.
  intros fs p us H Hf q u Hq. destruct (sound_root _ _ _ H) as (r & Hi & Hu & Hp & Hr).
  pose proof (C28_units _ _ _ H _ _ Hq) as Hm. pose proof (Hr _ _ Hq) as Hrq.
  assert (G : (forall q u, means fs q u -> reaches fs p q -> accepted_env (u_types u)) /\
              (forall l os, all_mean fs l os -> (forall q, In q l -> reaches fs p q) ->
                 Forall (fun o => accepted_env (u_types o)) os)).
  { apply means_ind2.
    - intros p' s pkg os u' ts ns Hc Hin Hos IH Hall Ht Hrp. cbn [u_types].
      eapply C23_file; [| |exact Ht].
      + eapply import_all_accepted; [| |exact Hall]; [|constructor].
        apply IH. intros q' Hq'. eapply rt_trans; [exact Hrp|]. apply rt_step. exists s. auto.
      + eapply Hf; eauto.
    - constructor.
    - intros p' u' l us' _ IHu _ IHs Hin. constructor; [apply IHu; apply Hin; left; reflexivity|].
      apply IHs. intros. apply Hin. right. assumption. }
  destruct G as [G _]. eauto.
Qed.

(** ** C46: from source text to messages.  A struct of an accepted compilation, of sizes an int64 can
    hold and within the limits of C24, C09 and C15, can be sent and received by the generated Go code. *)
Theorem C46_source_to_go_roundtrip : forall fs p us q u n s c1 c2 vs buf,
  compile_file fs p = Ok us -> program_fits fs p ->
  In (q, u) us -> get n (u_types u) = Some (CTStruct s) ->
  let sch := erase (cs_fields s) in
  limits sch -> nd_fields sch -> consts_ok sch -> go_ok c1 sch -> go_ok c2 sch ->
  fits_fields sch vs -> bytes_ok buf -> (encode_size sch vs <= zlen buf)%Z ->
  exists buf' k, encode_to c1 sch vs buf = Ok (buf', k) /\ decode c2 sch buf' = Ok (vs, k).
Proof.
  intros fs p us q u n s c1 c2 vs buf H Hf Hq Hn sch Hl Nd Co G1 G2 F Hb Hlen.
  pose proof (C23_program _ _ _ H Hf _ _ Hq) as Henv.
  assert (Ht : accepted_type (CTStruct s)).
  { clear - Henv Hn. revert Hn. induction (u_types u) as [|[n' c'] r IH]; cbn; [discriminate|].
    inversion Henv; subst. destruct (String.eqb n n'); [intros [= ->]; assumption|auto]. }
  inversion Ht; subst. eapply C01_go_roundtrip; eauto. eapply C23_accepted_wf; eauto.
Qed.

(** ** Concrete cases *)
Definition pos_in (f : string) (l : Z) : pos := {| p_file := f; p_line := l; p_col := 0 |}.
Definition one_field (f : string) (l : Z) (n : string) (e : a_elem) : a_top :=
  ATStruct (AStruct (pos_in f l) n None (ABNormal e None "x" None [] [] ABNil)).
Definition file (imps : list string) (pkg : string) (tops : list a_top) : option source :=
  Some {| s_imports := imps; s_packages := [[pkg]]; s_options := []; s_tops := tops |}.
(** A diamond: /r.bb imports /a.bb and /b.bb (twice), which both import /c.bb. *)
Definition ex_fs : filesystem :=
  [("/r.bb", file ["/a.bb"; "/b.bb"; "/a.bb"] "r" [one_field "/r.bb" 3 "R" (AeIdent "A"); one_field "/r.bb" 5 "R2" (AeIdent "C")]);
   ("/a.bb", file ["/c.bb"] "a" [one_field "/a.bb" 3 "A" (AeIdent "C")]);
   ("/b.bb", file ["/c.bb"] "b" [one_field "/b.bb" 3 "B" (AeIdent "C")]);
   ("/c.bb", file [] "c" [one_field "/c.bb" 3 "C" (AeBasic Uint16)]);
   ("/d.bb", file ["/e.bb"] "d" []);
   ("/e.bb", file ["/d.bb"] "e" []);
   ("/f.bb", file ["/a.bb"; "/g.bb"] "f" []);
   ("/g.bb", file [] "a" []);
   ("/h.bb", file ["/a.bb"; "/i.bb"] "h" []);
   ("/i.bb", file [] "i" [one_field "/i.bb" 3 "A" (AeBasic Uint8)]);
   ("/j.bb", None)].
Definition ex_units : list (string * comp_unit) :=
  Eval vm_compute in match compile_file ex_fs "/r.bb" with Ok us => us | _ => [] end.
Lemma ex_compiled : compile_file ex_fs "/r.bb" = Ok ex_units.
Proof. vm_compute. reflexivity. Qed.
(** Accepted, each once, dependencies first; a cycle, a package used twice, a name defined twice and a
    file that is not there are rejected. *)
Example C28_instance : map fst ex_units = ["/c.bb"; "/a.bb"; "/b.bb"; "/r.bb"] /\
  map (fun x => u_local_imports (snd x)) ex_units = [[]; ["/c.bb"]; ["/c.bb"]; ["/a.bb"; "/b.bb"]] /\
  map (fun x => u_global_imports (snd x)) ex_units =
    [[]; ["/c.bb"]; ["/c.bb"]; ["/a.bb"; "/c.bb"; "/b.bb"]] /\
  map (fun x => map fst (u_types (snd x))) ex_units =
    [["C"]; ["C"; "A"]; ["C"; "B"]; ["C"; "A"; "B"; "R"; "R2"]].
Proof. vm_compute. auto. Qed.
Example C27_instance : compile_file ex_fs "/d.bb" = Fail /\ clos_trans _ (imports ex_fs) "/d.bb" "/d.bb".
Proof.
  split; [vm_compute; reflexivity|]. apply t_trans with "/e.bb"; apply t_step.
  - eexists. split; [reflexivity|]. left. reflexivity.
  - eexists. split; [reflexivity|]. left. reflexivity.
Qed.
Example C29_instance : compile_file ex_fs "/f.bb" = Fail /\ compile_file ex_fs "/a.bb" <> Fail /\
  compile_file ex_fs "/g.bb" <> Fail.
Proof. vm_compute. repeat split; discriminate. Qed.
Example C35_instance : compile_file ex_fs "/h.bb" = Fail /\ compile_file ex_fs "/i.bb" <> Fail /\
  compile_file ex_fs "/j.bb" = Fail /\ compile_file ex_fs "/k.bb" = Fail.
Proof. vm_compute. repeat split; discriminate. Qed.
Lemma ex_located : well_located ex_fs.
Proof.
  intros p s H. apply get_In in H. cbn in H.
  repeat (destruct H as [H|H]; [injection H as <- <-; cbn; split;
    [intros n x Hx; repeat (destruct Hx as [Hx|Hx]; [injection Hx as _ <-; reflexivity|]); destruct Hx
    |repeat constructor; cbn; intuition discriminate]|]);
  [destruct H as [H|[]]; discriminate].
Qed.
Example C43_files_instance : forall q s, contains ex_fs q s -> Forall refs_top (s_tops s).
Proof.
  intros q s H. apply get_In in H. cbn in H.
  repeat (destruct H as [H|H]; [injection H as <- <-; repeat constructor|]);
  [destruct H as [H|[]]; discriminate].
Qed.
Lemma ex_program_fits : program_fits ex_fs "/r.bb".
Proof.
  intros q s pkg os u Hr Hc Hos Hall.
  destruct (C28_order _ _ _ ex_compiled) as (_ & Hk & _). apply Hk in Hr. clear Hk.
  assert (K : forall l os, all_mean ex_fs l os ->
      (forall p, In p l -> In p ["/c.bb"; "/a.bb"; "/b.bb"]) ->
      os = map (fun p => match get p ex_units with Some v => v | None => new_unit "" "" end) l).
  { induction 1 as [|p v l vs Hm _ IH]; intros Hl; [reflexivity|]. cbn [map]. f_equal.
    - assert (Hp : In p ["/c.bb"; "/a.bb"; "/b.bb"]) by (apply Hl; left; reflexivity).
      destruct (get p ex_units) as [v'|] eqn:E.
      + eapply C28_deterministic; [exact Hm|]. eapply C28_units; [exact ex_compiled|]. apply get_In. exact E.
      + cbn in Hp. destruct Hp as [<-|[<-|[<-|[]]]]; discriminate.
    - apply IH. intros. apply Hl. right. assumption. }
  cbn in Hr. destruct Hr as [<-|[<-|[<-|[<-|[]]]]]; injection Hc as <-; cbn [s_imports s_tops file] in *;
    apply K in Hos; try (cbn; intuition congruence); subst os; vm_compute in Hall; injection Hall as <-;
    apply fits_fileb_ok; vm_compute; reflexivity.
Qed.
Example C46_instance : exists u s, In ("/r.bb", u) ex_units /\ get "R" (u_types u) = Some (CTStruct s) /\
  let sch := erase (cs_fields s) in
  limits sch /\ nd_fields sch /\ consts_ok sch /\ go_ok PropsGo.ex_c1 sch /\
  fits_fields sch [VStruct [VStruct [VNum 65535]]] /\ encode_size sch [VStruct [VStruct [VNum 65535]]] = 2%Z.
Proof.
  eexists. eexists. split; [right; right; right; left; reflexivity|]. split; [reflexivity|].
  cbn. repeat split; auto; lia.
Qed.

(** ** C44: the head of a file *)
(** A file's options are acceptable: none twice, the target package and namespace options are
    strings, omit_empty is a boolean, integers fit an int64. *)
Definition file_options_ok (opts : a_opts) : Prop :=
  NoDup (map fst opts) /\
  (forall v, In ("omit_empty", v) opts -> exists b, v = LBool b) /\
  (forall k v, In (k, v) opts ->
     In k ["csharp_namespace"; "cpp_namespace"; "go_package"; "java_package"; "kotlin_package"] ->
     exists t, v = LStr t) /\
  (forall k neg n, In (k, LInt neg n) opts -> (Z.of_N n < 2 ^ 63)%Z).

Lemma visit_lit_inv v v' : visit_lit v = Ok v' ->
  (forall b, v' = BoolL b -> v = LBool b) /\ (forall t, v' = StrL t -> v = LStr t) /\
  (forall neg n, v = LInt neg n -> (Z.of_N n < 2 ^ 63)%Z).
Proof.
  destruct v as [neg n|z|b|t]; cbn [visit_lit]; intros H.
  - apply bind_ok in H. destruct H as (z & E & H). injection H as <-. unfold int_lit in E.
    destruct (Z.of_N n <? 2 ^ 63)%Z eqn:E0; [|discriminate]. apply Z.ltb_lt in E0.
    split; [discriminate|]. split; [discriminate|]. intros ? ? Q. injection Q as <- <-. exact E0.
  - injection H as <-. repeat split; intros; discriminate.
  - injection H as <-. repeat split; intros; try discriminate. congruence.
  - injection H as <-. repeat split; intros; try discriminate. congruence.
Qed.
Lemma visit_lit_ok v : (forall neg n, v = LInt neg n -> (Z.of_N n < 2 ^ 63)%Z) -> exists v', visit_lit v = Ok v'.
Proof.
  intros H. destruct v as [neg n|z|b|t]; cbn [visit_lit]; eauto. unfold int_lit.
  rewrite (proj2 (Z.ltb_lt _ _) (H neg n eq_refl)). cbn. eauto.
Qed.
Lemma file_option_valid_iff k v' : file_option_valid k v' = true <->
  (k = "omit_empty" -> exists b, v' = BoolL b) /\
  (In k ["csharp_namespace"; "cpp_namespace"; "go_package"; "java_package"; "kotlin_package"] -> exists t, v' = StrL t).
Proof.
  unfold file_option_valid. destruct (String.eqb_spec k "omit_empty") as [->|N].
  - split.
    + destruct v'; try discriminate. intros _. split; [eauto|]. intros Q. cbn in Q. repeat destruct Q as [Q|Q]; try discriminate; destruct Q.
    + intros [H _]. destruct (H eq_refl) as [b ->]. reflexivity.
  - destruct (existsb (String.eqb k) _) eqn:E.
    + apply existsb_exists in E as (x & Hx & E). apply String.eqb_eq in E. subst x. split.
      * destruct v'; try discriminate. intros _. split; [contradiction|eauto].
      * intros [_ H]. destruct (H Hx) as [t ->]. reflexivity.
    + split; [|reflexivity]. intros _. split; [contradiction|]. intros Hx. exfalso.
      assert (Q : existsb (String.eqb k) ["csharp_namespace"; "cpp_namespace"; "go_package"; "java_package"; "kotlin_package"] = true)
        by (apply existsb_exists; exists k; split; [exact Hx|apply String.eqb_refl]). congruence.
Qed.

Lemma file_options_iff l : forall acc,
  (exists o, visit_file_options l acc = Ok o) <->
  NoDup (map fst l) /\ (forall k, In k (map fst l) -> ~ In k (map fst acc)) /\
  (forall k v, In (k, v) l -> exists v', visit_lit v = Ok v' /\ file_option_valid k v' = true).
Proof.
  induction l as [|[k v] r IH]; intros acc; cbn [visit_file_options map fst].
  - split; [|eauto]. intros _. split; [constructor|]. split; intros ? []; try intros [].
  - split.
    + intros [o H]. apply bind_ok in H. destruct H as (v' & E & H).
      destruct (file_option_valid k v') eqn:Ev; [|discriminate].
      destruct (has k acc) eqn:Eh; [discriminate|]. rewrite put_new in H by exact Eh.
      destruct (proj1 (IH _) (ex_intro _ o H)) as (H1 & H2 & H3). apply has_keys in Eh.
      assert (Nk : ~ In k (map fst r)).
      { intros Q. apply (H2 k Q). rewrite map_app, in_app_iff. right. left. reflexivity. }
      split; [constructor; assumption|]. split.
      * intros k' [<-|Q]; [exact Eh|]. intros Q'. apply (H2 k' Q). rewrite map_app, in_app_iff. left. exact Q'.
      * intros k' w [Q|Q]; [injection Q as <- <-; eauto|exact (H3 _ _ Q)].
    + intros (H1 & H2 & H3). inversion H1; subst. destruct (H3 k v (or_introl eq_refl)) as (v' & E & Ev).
      rewrite E. cbn [bind]. rewrite Ev.
      assert (Eh : has k acc = false) by (apply has_keys; apply H2; left; reflexivity).
      rewrite Eh, put_new by exact Eh. apply IH. split; [assumption|]. split.
      * intros k' Q. rewrite map_app, in_app_iff. cbn. intros [Q'|[Q'|[]]].
        -- exact (H2 k' (or_intror Q) Q').
        -- subst k'. contradiction.
      * intros k' w Q. apply H3. right. exact Q.
Qed.

(** A file's head is accepted exactly if there is one package statement and its options are
    acceptable; the package's name is its parts joined by dots. *)
Theorem C44_file_head : forall s name,
  visit_info s = Ok name <->
  exists pkg, s_packages s = [pkg] /\ name = String.concat "." pkg /\ file_options_ok (s_options s).
Proof.
  intros s name.
  assert (K : (exists o, visit_file_options (s_options s) [] = Ok o) <-> file_options_ok (s_options s)).
  { rewrite file_options_iff. unfold file_options_ok. split.
    - intros (H1 & _ & H3). split; [exact H1|].
      assert (P : forall k v, In (k, v) (s_options s) -> exists v', visit_lit v = Ok v' /\
        (k = "omit_empty" -> exists b, v' = BoolL b) /\
        (In k ["csharp_namespace"; "cpp_namespace"; "go_package"; "java_package"; "kotlin_package"] -> exists t, v' = StrL t)).
      { intros k v Hi. destruct (H3 k v Hi) as (v' & E & Ev). exists v'. split; [exact E|]. apply file_option_valid_iff. exact Ev. }
      repeat split.
      + intros v Hi. destruct (P _ _ Hi) as (v' & E & Ho & _). destruct (Ho eq_refl) as [b ->].
        exists b. apply (visit_lit_inv _ _ E). reflexivity.
      + intros k v Hi Hk. destruct (P _ _ Hi) as (v' & E & _ & Ho). destruct (Ho Hk) as [t ->].
        exists t. apply (visit_lit_inv _ _ E). reflexivity.
      + intros k neg n Hi. destruct (P _ _ Hi) as (v' & E & _). destruct (visit_lit_inv _ _ E) as (_ & _ & Q). exact (Q neg n eq_refl).
    - intros (H1 & H2 & H3 & H4). split; [exact H1|]. split; [intros ? _ []|]. intros k v Hi.
      destruct (visit_lit_ok v) as [v' E]; [intros neg n ->; exact (H4 _ _ _ Hi)|]. exists v'. split; [exact E|].
      apply file_option_valid_iff. split.
      + intros ->. destruct (H2 v Hi) as [b ->]. injection E as <-. eauto.
      + intros Hk. destruct (H3 _ _ Hi Hk) as [t ->]. injection E as <-. eauto. }
  unfold visit_info. split.
  - destruct (s_packages s) as [|pkg [|? ?]]; try discriminate. intros H.
    apply bind_ok in H. destruct H as (o & E & H). injection H as <-. exists pkg.
    split; [reflexivity|]. split; [reflexivity|]. apply K. eauto.
  - intros (pkg & -> & -> & H). apply K in H. destruct H as [o ->]. reflexivity.
Qed.
Example C44_file_head_instance :
  visit_info {| s_imports := []; s_packages := [["a"; "b"]];
                s_options := [("go_package", LStr "x/y"); ("omit_empty", LBool true); ("weight", LInt true 3)];
                s_tops := [] |} = Ok "a.b" /\
  visit_info {| s_imports := []; s_packages := [["a"]]; s_options := [("omit_empty", LInt false 1)]; s_tops := [] |} = Fail /\
  visit_info {| s_imports := []; s_packages := [["a"]]; s_options := [("x", LBool true); ("x", LBool true)]; s_tops := [] |} = Fail.
Proof. repeat split. Qed.
Print Assumptions C44_file_head.
