(** C69: the files that a run of a generator writes. *)
From Coq Require Import String Ascii ZArith List Bool Lia Relations.
From Verif Require Import Base FrontModel FrontProofs PropsFront CompileModel CompileSpec CompileProofs PropsCompile
  GenOut GenOutSpec GenOutProofs.
From Verif Require Package Paths.
Import ListNotations.
Open Scope string_scope.
Open Scope list_scope.

(** The source file of a unit. *)
Definition source_of (fs : filesystem) (x : string * comp_unit) : source :=
  match get (fst x) fs with Some (Some s) => s | _ => no_source end.
(** The names the Go and Java packages of the files to be written go by are different. *)
Definition packages_differ (t : target) (fs : filesystem) (us : list (string * comp_unit)) : Prop :=
  t = TGo \/ t = TJava ->
  NoDup (map (fun x => String.concat "." (target_package t (source_of fs x)))
             (filter (fun x => negb (not_wanted (source_of fs x))) us)).

Lemma src_eq fs x : src fs x = source_of fs x. Proof. reflexivity. Qed.

Lemma all_there fs p us : compile_file fs p = Ok us -> Forall (there fs) us.
Proof.
  intros H. apply Forall_forall. intros [q u] Hi. pose proof (C28_units _ _ _ H _ _ Hi) as Hm.
  inversion Hm; subst. unfold there, src. cbn [fst]. unfold contains in *. rewrite H0. eauto.
Qed.

Lemma nodup_flat {A B} (f : A -> list B) l : NoDup l -> (forall x, In x l -> NoDup (f x)) ->
  (forall x y b, In x l -> In y l -> In b (f x) -> In b (f y) -> x = y) -> NoDup (flat_map f l).
Proof.
  induction l as [|x l IH]; intros Hn Hf Hd; cbn [flat_map]; [constructor|]. inversion Hn; subst.
  assert (Nr : NoDup (flat_map f l)).
  { apply IH; [assumption|intros; apply Hf; right; assumption|].
    intros a b c Ha Hb. apply Hd; right; assumption. }
  assert (Nx : NoDup (f x)) by (apply Hf; left; reflexivity).
  assert (D : forall b, In b (f x) -> ~ In b (flat_map f l)).
  { intros b Hb Hx. apply in_flat_map in Hx. destruct Hx as (y & Hy & Hb').
    assert (x = y) by (eapply Hd; eauto; [left; reflexivity|right; exact Hy]). subst. contradiction. }
  clear -Nr Nx D. induction (f x) as [|b r IHr]; cbn; [exact Nr|]. inversion Nx; subst. constructor.
  - intros Q. apply in_app_or in Q as [Q|Q]; [contradiction|]. exact (D b (or_introl eq_refl) Q).
  - apply IHr; [assumption|]. intros c Hc. apply D. right; exact Hc.
Qed.

Lemma unit_inj fs p us x y : compile_file fs p = Ok us -> In x us -> In y us -> fst x = fst y -> x = y.
Proof.
  intros H Hx Hy E. destruct (C28_order _ _ _ H) as (Hn & _). clear H. induction us as [|z r IH]; [destruct Hx|].
  cbn in Hn. inversion Hn; subst. destruct Hx as [<- |Hx], Hy as [<- |Hy]; auto.
  - exfalso. apply H1. rewrite E. apply in_map. exact Hy.
  - exfalso. apply H1. rewrite <- E. apply in_map. exact Hx.
Qed.
Lemma us_nodup fs p us : compile_file fs p = Ok us -> NoDup us.
Proof. intros H. destruct (C28_order _ _ _ H) as (Hn & _). exact (NoDup_map_inv _ _ Hn). Qed.

Lemma frees_nodup fs p us : compile_file fs p = Ok us -> well_located fs -> NoDup (frees fs us).
Proof.
  intros H Hw. destruct (C35_unique_names fs p us Hw H) as (N & D).
  pose proof (all_there _ _ _ H) as Hth. rewrite Forall_forall in Hth.
  destruct (C28_order _ _ _ H) as (_ & R & _).
  assert (RR : forall x, In x us -> reaches fs p (fst x)).
  { intros x Hx. apply R. apply in_map. exact Hx. }
  unfold frees. apply nodup_flat.
  - eapply us_nodup; eauto.
  - intros x Hx. eapply N; [apply RR; exact Hx|]. apply (Hth _ Hx).
  - intros x y n Hx Hy Hnx Hny. eapply (unit_inj fs p us); eauto.
    apply in_map_iff in Hnx, Hny. destruct Hnx as ([n1 p1] & E1 & I1), Hny as ([n2 p2] & E2 & I2). cbn in E1, E2. subst n1 n2.
    eapply (D (fst x) (fst y) n p1 p2); [apply RR; exact Hx|apply RR; exact Hy| |].
    + exists (src fs x). split; [apply (Hth _ Hx)|exact I1].
    + exists (src fs y). split; [apply (Hth _ Hy)|exact I2].
Qed.

Lemma keys_nodup fs p us t : compile_file fs p = Ok us -> packages_differ t fs us -> NoDup (flat_map (key t fs) us).
Proof.
  intros H Hd. pose proof (all_there _ _ _ H) as Hth. rewrite Forall_forall in Hth.
  destruct (C28_order _ _ _ H) as (_ & R & _).
  assert (C : (t = TGo \/ t = TJava) \/ (forall s, target_package t s = package_parts s)).
  { destruct t; auto. }
  destruct C as [C|C].
  - pose proof (Hd C) as Nd. clear Hd R H. induction us as [|x r IH]; [constructor|]. cbn [flat_map]. unfold key at 1.
    rewrite src_eq. cbn [filter] in Nd. destruct (not_wanted (source_of fs x)) eqn:Ew; cbn [negb map] in Nd.
    + apply IH; [intros; apply Hth; right; assumption|exact Nd].
    + inversion Nd; subst. cbn [app]. constructor.
      * intros Q. apply H1. apply in_flat_map in Q. destruct Q as (y & Hy & Hk). unfold key in Hk. change (src fs y) with (source_of fs y) in Hk.
        destruct (not_wanted (source_of fs y)) eqn:Ey; [destruct Hk|]. destruct Hk as [<- |[]].
        apply in_map_iff. exists y. split; [reflexivity|]. apply filter_In. rewrite Ey. auto.
      * apply IH; [intros; apply Hth; right; assumption|assumption].
  - apply nodup_flat.
    + eapply us_nodup; eauto.
    + intros x _. unfold key. destruct (not_wanted _); repeat constructor. intros [].
    + intros x y k Hx Hy Hkx Hky. eapply (unit_inj fs p us); eauto. unfold key in Hkx, Hky.
      destruct (not_wanted (src fs x)); [destruct Hkx|]. destruct (not_wanted (src fs y)); [destruct Hky|].
      destruct Hkx as [Ex|[]], Hky as [Ey|[]]. rewrite C in Ex, Ey.
      destruct (C29_packages fs p us H (fst x) (fst y)) as (k1 & k2 & P1 & P2 & D).
      { apply R. apply in_map. exact Hx. }
      { apply R. apply in_map. exact Hy. }
      apply D. destruct P1 as (s1 & l1 & C1 & S1 & ->), P2 as (s2 & l2 & C2 & S2 & ->).
      destruct (Hth _ Hx) as (T1 & _), (Hth _ Hy) as (T2 & _). unfold contains in *.
      rewrite C1 in T1. rewrite C2 in T2. injection T1 as T1. injection T2 as T2.
      rewrite <- T1 in Ex. rewrite <- T2 in Ey. unfold package_parts in Ex, Ey. rewrite S1 in Ex. rewrite S2 in Ey.
      cbn [hd] in Ex, Ey. congruence.
Qed.

(** ** C69 *)

(** C69.  For a set of source files that compiles, C, C++, C#, CommonJS, Python, Go and Java write for
    every source file that has not asked otherwise its files, in the order of compilation, and in them
    the code of the types it defines, those defined inside others included: no type of another file, none
    missing, none twice, each after the types defined inside it. *)
Theorem C69_files : forall fs p us t, compile_file fs p = Ok us -> well_located fs ->
  t <> TESM -> t <> TKotlin -> packages_differ t fs us ->
  let r := generate t false (program fs us []) in
  fst r = true /\
  map (fun w => (w_file w, w_decls w)) (snd r) = flat_map (fun x => source_files t (source_of fs x)) us.
Proof.
  intros fs p us t H Hw N1 N2 Hd r. subst r.
  pose proof (all_there _ _ _ H) as Hth. pose proof (frees_nodup _ _ _ H Hw) as Hf.
  pose proof (keys_nodup _ _ _ _ H Hd) as Hk.
  unfold generate. set (x0 := {| x_types := []; x_units := []; x_done := []; x_writes := [] |}).
  destruct (plain t) eqn:Ep.
  - destruct (accept_plain fs t false (program fs us []) Ep us [] x0) as (x' & E & _ & _ & Q & _); auto.
    { constructor. }
    rewrite E. cbn [fst snd]. split; [reflexivity|]. rewrite app_nil_r. exact Q.
  - assert (t = TJava) as -> by (destruct t; try discriminate; congruence).
    destruct (accept_java fs false (program fs us []) us [] x0) as (x' & E & Q & _); auto.
    { constructor. }
    rewrite E. cbn [fst snd]. split; [reflexivity|]. rewrite app_nil_r. exact Q.
Qed.

(** No type is in two lists, and the lists have every top level type of every file reached. *)
Theorem C69_each_once : forall fs p us, compile_file fs p = Ok us -> well_located fs ->
  NoDup (flat_map (fun x => types_source (source_of fs x)) us) /\
  (forall q s n, reaches fs p q -> contains fs q s -> In n (map top_name (s_tops s)) ->
     In n (flat_map (fun x => types_source (source_of fs x)) us)).
Proof.
  intros fs p us H Hw. split.
  - pose proof (all_there _ _ _ H) as Hth. pose proof (frees_nodup _ _ _ H Hw) as Hf.
    destruct (tops_ok "" [""] (or_introl eq_refl) (flat_map (fun x => s_tops (source_of fs x)) us) [] []) as (E & _).
    { intros n t Ht. discriminate. }
    { unfold frees in Hf. clear -Hf. revert Hf. generalize us. clear us. intros us Hf.
      assert (E : map fst (flat_map defs_top (flat_map (fun x => s_tops (source_of fs x)) us)) =
                  flat_map (fun x => map fst (defs_source (src fs x))) us).
      { clear. induction us as [|x r IH]; [reflexivity|]. cbn [flat_map]. rewrite flat_map_app, map_app, IH. reflexivity. }
      rewrite E. exact Hf. }
    { intros n _. split; intros []. }
    assert (ND : forall v l st, NoDup st -> NoDup (gen_all v st l)).
    { assert (P : forall n st, NoDup st -> NoDup (put_name n st)).
      { intros n st Hn. unfold put_name. destruct (mem n st) eqn:Em; [exact Hn|]. apply mem_nIn in Em.
        apply NoDup_snoc; assumption. }
      assert (K : forall v, (forall t stk st, NoDup st -> NoDup (gen_type v stk st t)) /\
                            (forall l stk st, NoDup st -> NoDup (gen_fields v stk st l))).
      { intros v. apply gty_mut; cbn [gen_type gen_fields].
        - intros o n stk st Hn. destruct (_ || _); auto.
        - intros o n l IH stk st Hn. destruct (_ || _); auto. destruct v; auto.
        - auto.
        - auto. }
      intros v l. unfold gen_all. induction l as [|d r IH]; intros st Hn; cbn [fold_left]; [exact Hn|].
      apply IH. apply K. exact Hn. }
    pose proof (ND true (resolve_tops "" [] (flat_map (fun x => s_tops (source_of fs x)) us)) [] (NoDup_nil _)) as N.
    rewrite E in N. cbn [app] in N.
    assert (E2 : flat_map types_top (flat_map (fun x => s_tops (source_of fs x)) us) =
                 flat_map (fun x => types_source (source_of fs x)) us).
    { clear. induction us as [|x r IH]; [reflexivity|]. cbn [flat_map]. rewrite flat_map_app, IH. reflexivity. }
    rewrite <- E2. exact N.
  - intros q s n Hq Hc Hn. destruct (C28_order _ _ _ H) as (_ & R & _). apply R in Hq.
    apply in_map_iff in Hq. destruct Hq as (x & <- & Hx). apply in_flat_map. exists x. split; [exact Hx|].
    unfold source_of, types_source. unfold contains in Hc. rewrite Hc. apply in_map_iff in Hn. destruct Hn as (t & <- & Ht).
    apply in_flat_map. exists t. split; [exact Ht|]. destruct t as [[pp n z b]|d]; cbn; [apply in_or_app; right|]; left; reflexivity.
Qed.

(** The JavaScript modules (ESM) and the Kotlin code have the top level types, so everything unless a
    file defines a struct inside another. *)
Theorem C69_flat_files : forall fs p us t, compile_file fs p = Ok us -> well_located fs ->
  t = TESM \/ t = TKotlin ->
  (forall q s, reaches fs p q -> contains fs q s -> types_source s = map top_name (s_tops s)) ->
  let r := generate t false (program fs us []) in
  fst r = true /\
  map (fun w => (w_file w, w_decls w)) (snd r) = flat_map (fun x => source_files t (source_of fs x)) us.
Proof.
  intros fs p us t H Hw Ht Hflat r. subst r.
  pose proof (all_there _ _ _ H) as Hth. pose proof (frees_nodup _ _ _ H Hw) as Hf.
  assert (Hk : NoDup (flat_map (key t fs) us)).
  { eapply keys_nodup; eauto. destruct Ht as [-> | ->]; intros [|]; discriminate. }
  unfold generate. set (x0 := {| x_types := []; x_units := []; x_done := []; x_writes := [] |}).
  assert (Ef : flat_map (fun y => top_files t (src fs y)) us = flat_map (fun x => source_files t (source_of fs x)) us).
  { destruct (C28_order _ _ _ H) as (_ & R & _).
    assert (RR : forall x, In x us -> reaches fs p (fst x)) by (intros x Hx; apply R; apply in_map; exact Hx).
    rewrite Forall_forall in Hth. rewrite !flat_map_concat_map. f_equal. apply map_ext_in. intros x Hx.
    unfold top_files, source_files. change (source_of fs x) with (src fs x). rewrite (Hflat _ _ (RR x Hx) (proj1 (Hth x Hx))).
    destruct Ht as [-> | ->]; reflexivity. }
  destruct Ht as [-> | ->].
  - destruct (accept_esm fs false (program fs us []) us [] x0) as (x' & E & _ & Q); auto.
    rewrite E. cbn [fst snd]. split; [reflexivity|]. rewrite app_nil_r, <- Ef. exact Q.
  - destruct (accept_kotlin fs false (program fs us []) us [] x0) as (x' & E & Q); auto.
    rewrite E. cbn [fst snd]. split; [reflexivity|]. rewrite app_nil_r, <- Ef. exact Q.
Qed.

(** With -single: one file with the types of all source files.  Go needs one that is wanted. *)
Theorem C69_single : forall fs p us t, compile_file fs p = Ok us -> well_located fs ->
  t <> TESM -> t <> TKotlin -> t <> TJava -> packages_differ t fs us ->
  (t = TGo -> exists x, In x us /\ not_wanted (source_of fs x) = false) ->
  let r := generate t true (program fs us []) in
  fst r = true /\
  map (fun w => (w_file w, w_decls w)) (snd r) = [("", flat_map (fun x => types_source (source_of fs x)) us)].
Proof.
  intros fs p us t H Hw N1 N2 N3 Hd Hgo r. subst r.
  pose proof (all_there _ _ _ H) as Hth. pose proof (frees_nodup _ _ _ H Hw) as Hf.
  pose proof (keys_nodup _ _ _ _ H Hd) as Hk.
  unfold generate. set (x0 := {| x_types := []; x_units := []; x_done := []; x_writes := [] |}).
  assert (Ep : plain t = true) by (destruct t; first [reflexivity|congruence]).
  destruct (accept_plain fs t true (program fs us []) Ep us [] x0) as (x' & E & Q1 & Q2 & Q3 & Q4); auto.
  { constructor. }
  rewrite E. cbn [fst snd]. split; [reflexivity|]. cbn [x0 x_types x_units x_writes map flat_map app] in Q1, Q2, Q3, Q4.
  assert (Ew : x_writes x' = []) by (destruct (x_writes x'); [reflexivity|discriminate]). rewrite Ew. cbn [app].
  destruct t; try congruence; cbn [map w_file w_decls]; try (rewrite Q1; reflexivity); try (rewrite Q2; reflexivity).
  destruct (x_units x') as [|k l] eqn:Eu.
  - exfalso. destruct (Hgo eq_refl) as (x & Hx & Hn). cbn [map] in Q4.
    assert (In (String.concat "." (target_package TGo (src fs x))) (flat_map (key TGo fs) us)).
    { apply in_flat_map. exists x. split; [exact Hx|]. unfold key. change (src fs x) with (source_of fs x). rewrite Hn. left; reflexivity. }
    rewrite <- Q4 in H0. destruct H0.
  - rewrite <- Eu in *. cbn [map w_file w_decls]. rewrite Q2. reflexivity.
Qed.

(** Java and Kotlin write a file per type whatever -single says. *)
Lemma unit_single_ignored t s1 s2 all x u : t = TJava \/ t = TKotlin -> generate_unit t s1 all x u = generate_unit t s2 all x u.
Proof. intros [-> | ->]; reflexivity. Qed.
Theorem C69_single_ignored : forall t us, t = TJava \/ t = TKotlin -> generate t true us = generate t false us.
Proof.
  intros t us T. unfold generate.
  assert (A : forall l x, accept t true us l x = accept t false us l x).
  { induction l as [|u l IH]; intros x; [reflexivity|]. cbn [accept]. rewrite (unit_single_ignored t true false us x u T).
    destruct (generate_unit t false us x u) as [[] y]; auto. }
  rewrite A. destruct (accept t false us us _) as [ok x]. destruct T as [-> | ->]; reflexivity.
Qed.


(** Go and Java stop with an error at the first file whose package is one already used, after the
    files before it are written. *)
Theorem C69_duplicate : forall fs p l1 x l2 t, compile_file fs p = Ok (l1 ++ x :: l2) -> well_located fs ->
  t = TGo \/ t = TJava -> packages_differ t fs l1 -> not_wanted (source_of fs x) = false ->
  In (String.concat "." (target_package t (source_of fs x)))
     (map (fun y => String.concat "." (target_package t (source_of fs y)))
          (filter (fun y => negb (not_wanted (source_of fs y))) l1)) ->
  let r := generate t false (program fs (l1 ++ x :: l2) []) in
  fst r = false /\
  map (fun w => (w_file w, w_decls w)) (snd r) = flat_map (fun y => source_files t (source_of fs y)) l1.
Proof.
  intros fs p l1 x l2 t H Hw Ht Hd Hx Hin r. subst r.
  pose proof (all_there _ _ _ H) as Hth. pose proof (frees_nodup _ _ _ H Hw) as Hf.
  apply Forall_app in Hth as (Hth1 & Hth2). inversion Hth2 as [|? ? Hthx Hthl]; subst.
  assert (Hk : NoDup (flat_map (key t fs) l1) /\ In (String.concat "." (target_package t (src fs x))) (flat_map (key t fs) l1)).
  { pose proof (Hd Ht) as Nd.
    assert (Ek : map (fun y => String.concat "." (target_package t (source_of fs y)))
                   (filter (fun y => negb (not_wanted (source_of fs y))) l1) = flat_map (key t fs) l1).
    { clear. induction l1 as [|y l IH]; [reflexivity|]. cbn [filter flat_map]. unfold key at 1. change (src fs y) with (source_of fs y).
      destruct (not_wanted (source_of fs y)); cbn [negb map app]; rewrite IH; reflexivity. }
    rewrite Ek in Nd, Hin. auto. }
  destruct Hk as (Nk & Hk).
  unfold frees in Hf. rewrite flat_map_app in Hf. destruct (nodup_app_inv _ _ Hf) as (Hf1 & _ & _).
  unfold generate. set (x0 := {| x_types := []; x_units := []; x_done := []; x_writes := [] |}).
  set (all := program fs (l1 ++ x :: l2) []).
  assert (K : exists x', accept t false all (program fs l1 []) x0 = (true, x') /\
     map fd (x_writes x') = flat_map (fun y => source_files t (src fs y)) l1 /\
     has (String.concat "." (target_package t (src fs x))) (x_units x') = true).
  { assert (HH : forall (u : list (string * list string)) k, In k (map fst u) -> has k u = true).
    { intros u k Hi. unfold has. destruct (get k u) eqn:Eg; [reflexivity|]. exfalso.
      clear -Hi Eg. induction u as [|[a b] u IH]; [exact Hi|]. cbn in *. destruct (String.eqb_spec k a) as [-> |]; [discriminate|].
      destruct Hi as [Hi|Hi]; [congruence|auto]. }
    destruct Ht as [-> | ->].
    - destruct (accept_plain fs TGo false all eq_refl l1 [] x0) as (x' & E & _ & _ & Q3 & Q4); auto; [constructor|].
      exists x'. split; [exact E|]. split; [exact Q3|]. apply HH. rewrite Q4. exact Hk.
    - destruct (accept_java fs false all l1 [] x0) as (x' & E & Q3 & Q4); auto; [constructor|].
      exists x'. split; [exact E|]. split; [exact Q3|]. apply HH. apply Q4. right. exact Hk. }
  destruct K as (x' & E & Q & Hh).
  assert (EA : accept t false all all x0 = (false, x')).
  { unfold all at 2. rewrite program_app by exact Hth1. rewrite accept_app, E, program_cons by exact Hthx. cbn [accept].
    set (a := [] ++ flat_map g_tops (program fs l1 [])).
    assert (Eu : generate_unit t false all x' (unit_of fs a x) = (false, x')); [|rewrite Eu; reflexivity].
    unfold generate_unit. rewrite (unit_omitted fs a x Hthx). change (src fs x) with (source_of fs x) at 1. rewrite Hx.
    rewrite (unit_package fs a x t Hthx). cbv zeta. unfold pkg_string. rewrite Hh. destruct Ht as [-> | ->]; reflexivity. }
  rewrite EA. cbn [fst snd]. split; [reflexivity|]. rewrite app_nil_r. exact Q.
Qed.

(** The code of a struct comes after the code of every type its fields have, in the same file or in one
    written before; in particular in the one file of -single. *)
Theorem C69_order : forall fs p us, compile_file fs p = Ok us -> well_located fs ->
  forall g d o n fields t, In g (program fs us []) -> In d (g_tops g) ->
    node_of o n fields (snd d) -> field_type t fields ->
    before (gname t) n (flat_map (fun x => types_source (source_of fs x)) us).
Proof.
  intros fs p us H Hw g d o n fields t Hg Hd Hn Ht.
  pose proof (all_there _ _ _ H) as Hth. pose proof (frees_nodup _ _ _ H Hw) as Hf.
  pose proof (program_good fs us [] [] [] Hth (Forall_nil _) Hf (fun _ _ x => x)) as G. cbn [app] in G.
  rewrite Forall_forall in G. specialize (G g Hg). rewrite Forall_forall in G. specialize (G d Hd).
  destruct (proj1 (good_node _ _ o n fields) (snd d) G Hn) as (_ & _ & _ & FB). exact (FB t Ht).
Qed.

(** ** Different files *)
(** The path of a file in the absolute directory [out] (gen_ctx.go:66, without -rmpath). *)
Definition written_path (out : string) (f : string) : list ascii :=
  Paths.join2 (list_ascii_of_string out) (list_ascii_of_string f).
(** The names of a source file are identifiers, as the grammar has them; for the Go code also the parts
    of the package it is told to use. *)
Definition named (t : target) (s : source) : Prop :=
  Forall Package.ident (types_source s) /\
  (t <> TJava -> t <> TKotlin -> target_package t s <> [] /\ Forall Package.ident (target_package t s)).

Lemma split_parts s : Paths.parts (list_ascii_of_string s) = map list_ascii_of_string (Package.split "/" s).
Proof.
  induction s as [|c s IH]; [reflexivity|]. cbn [list_ascii_of_string Paths.parts Package.split].
  unfold Paths.slash. destruct (Ascii.eqb c "/"); [rewrite IH; reflexivity|]. rewrite IH.
  destruct (Package.split "/" s); reflexivity.
Qed.
Lemma chars_inj a b : list_ascii_of_string a = list_ascii_of_string b -> a = b.
Proof. intros H. rewrite <- (string_of_list_ascii_of_string a), <- (string_of_list_ascii_of_string b), H. reflexivity. Qed.
Lemma map_chars_inj : forall a b, map list_ascii_of_string a = map list_ascii_of_string b -> a = b.
Proof.
  induction a as [|x a IH]; intros [|y b] H; try discriminate; [reflexivity|]. cbn in H. injection H as H1 H2.
  f_equal; [apply chars_inj; exact H1|auto].
Qed.
Lemma chars_slash s : Package.has_char "/" s = false -> ~ In Paths.slash (list_ascii_of_string s).
Proof.
  induction s as [|c s IH]; cbn; [auto|]. intros H. apply orb_false_elim in H as (H1 & H2). intros [E|E]; [|exact (IH H2 E)].
  subst. discriminate.
Qed.
Lemma chars_app a b : list_ascii_of_string (a ++ b)%string = list_ascii_of_string a ++ list_ascii_of_string b.
Proof. induction a; cbn; congruence. Qed.
Lemma good_ident n ext : Package.ident n -> Package.has_char "/" ext = false ->
  Paths.good (list_ascii_of_string (n ++ ext)%string).
Proof.
  intros Hi He. destruct (Package.ident_ext_not_dots n ext Hi) as (D1 & D2). destruct Hi as (Hn & Hs & Hd).
  repeat split.
  - destruct n; [congruence|discriminate].
  - intros E. apply D1. apply chars_inj. exact E.
  - intros E. apply D2. apply chars_inj. exact E.
  - rewrite chars_app. intros Q. apply in_app_or in Q as [Q|Q]; revert Q; apply chars_slash; assumption.
Qed.
Lemma ident_good n : Package.ident n -> Paths.good (list_ascii_of_string n).
Proof.
  intros H. pose proof (good_ident n "" H eq_refl) as G.
  assert (Z : forall s, (s ++ "")%string = s) by (intro s; induction s; cbn; congruence). rewrite Z in G. exact G.
Qed.
Lemma split_last d n ext : Package.ident n -> Package.has_char "/" ext = false -> exists l,
  Package.split "/" (d ++ String "/" (n ++ ext))%string = l ++ [(n ++ ext)%string].
Proof.
  intros (Hn & Hs & Hd) He. assert (E0 : Package.split "/" (n ++ ext)%string = [(n ++ ext)%string]).
  { apply Package.split_nochar. rewrite Package.has_char_app, Hs, He. reflexivity. }
  induction d as [|c d (l & IH)]; cbn [String.append Package.split].
  - rewrite E0. exists [""]. reflexivity.
  - rewrite IH. destruct (Ascii.eqb c "/"); [exists ("" :: l); reflexivity|].
    destruct l as [|h l]; cbn [app]; [|exists (String c h :: l); reflexivity].
    exfalso. clear -IH. assert (L : forall d r, (2 <= length (Package.split "/" (d ++ String "/" r)%string))%nat).
    { clear. induction d as [|c d IH]; intros r; cbn [String.append Package.split].
      - cbn. destruct r; cbn; [lia|]. destruct (Ascii.eqb a "/"); cbn; [lia|]. destruct (Package.split "/" r); cbn; lia.
      - specialize (IH r). destruct (Ascii.eqb c "/"); cbn [length]; [lia|].
        destruct (Package.split "/" (d ++ String "/" r)%string); cbn in *; lia. }
    specialize (L d (n ++ ext)%string). rewrite IH in L. cbn in L. lia.
Qed.

Lemma place_written out f : Paths.absolute (list_ascii_of_string out) ->
  Paths.place_of (written_path out f) =
  Paths.walk (Paths.place_of (list_ascii_of_string out)) (map list_ascii_of_string (Package.split "/" f)).
Proof.
  intros (r & E). unfold written_path. rewrite Paths.join_abs by (rewrite E; reflexivity).
  rewrite Paths.place_path; [rewrite split_parts; reflexivity|].
  apply Paths.walk_good; [apply Paths.place_good|apply Paths.parts_no_slash].
Qed.
Lemma place_idents out f : Paths.absolute (list_ascii_of_string out) ->
  Forall (fun n => Paths.good (list_ascii_of_string n)) (Package.split "/" f) ->
  Paths.place_of (written_path out f) =
  Paths.place_of (list_ascii_of_string out) ++ map list_ascii_of_string (Package.split "/" f).
Proof.
  intros Ha Hg. rewrite place_written by exact Ha. apply Paths.walk_self. apply Forall_map. exact Hg.
Qed.
Lemma place_last out f l n : Paths.absolute (list_ascii_of_string out) ->
  Package.split "/" f = l ++ [n] -> Paths.good (list_ascii_of_string n) ->
  last (Paths.place_of (written_path out f)) [] = list_ascii_of_string n.
Proof.
  intros Ha E Hg. rewrite place_written, E, map_app, Paths.walk_app by exact Ha. cbn [map].
  rewrite Paths.walk_cons. cbn [Paths.walk fold_left]. rewrite Paths.step_down by exact Hg. apply last_last.
Qed.
Lemma package_split pkg ext : pkg <> [] -> Forall Package.ident pkg -> Package.has_char "/" ext = false ->
  Package.split "/" (String.concat "/" pkg ++ ext)%string = removelast pkg ++ [(last pkg "" ++ ext)%string] /\
  Forall (fun n => Paths.good (list_ascii_of_string n)) (removelast pkg ++ [(last pkg "" ++ ext)%string]).
Proof.
  intros Hne Hi He. rewrite (app_removelast_last "" Hne) in Hi at 1. pose proof Hi as Hi'. apply Forall_app in Hi' as (H1 & H2).
  split.
  - rewrite (app_removelast_last "" Hne) at 1. apply Package.split_join; [|exact He]. apply Package.ident_forall_slash. exact Hi.
  - apply Forall_app. split.
    + eapply Forall_impl; [|exact H1]. intros n. apply ident_good.
    + constructor; [|constructor]. inversion H2; subst. apply good_ident; assumption.
Qed.
Lemma package_split_go pkg : pkg <> [] -> Forall Package.ident pkg ->
  Package.split "/" (String.concat "/" pkg ++ "/" ++ last pkg "" ++ ".bb.go")%string = pkg ++ [(last pkg "" ++ ".bb.go")%string] /\
  Forall (fun n => Paths.good (list_ascii_of_string n)) (pkg ++ [(last pkg "" ++ ".bb.go")%string]).
Proof.
  intros Hne Hi. assert (Hl : Package.ident (last pkg "")).
  { rewrite (app_removelast_last "" Hne) in Hi. apply Forall_app in Hi as (_ & H2). inversion H2; subst. assumption. }
  split.
  - change (String.concat "/" pkg ++ "/" ++ last pkg "" ++ ".bb.go")%string with
      (Package.join "/" pkg ++ "/" ++ (last pkg "" ++ ".bb.go"))%string.
    rewrite <- (Package.str_app_assoc _ "/" (last pkg "" ++ ".bb.go")%string).
    rewrite <- (Package.str_app_assoc (Package.join "/" pkg ++ "/") (last pkg "") ".bb.go")%string.
    rewrite (Package.str_app_assoc _ "/" (last pkg "")).
    rewrite <- (Package.join_snoc "/" pkg (last pkg "")) by exact Hne.
    apply Package.split_join; [|reflexivity]. apply Forall_app. split; [apply Package.ident_forall_slash; exact Hi|].
    constructor; [apply Hl|constructor].
  - apply Forall_app. split; [eapply Forall_impl; [|exact Hi]; intros n; apply ident_good|].
    constructor; [|constructor]. apply good_ident; [exact Hl|reflexivity].
Qed.
Lemma flat_inj {A B} (f : A -> list B) : forall l x y b, NoDup (flat_map f l) -> In x l -> In y l ->
  In b (f x) -> In b (f y) -> x = y.
Proof.
  induction l as [|a l IH]; intros x y b Hn Hx Hy Hbx Hby; [destruct Hx|]. cbn [flat_map] in Hn.
  destruct (nodup_app_inv _ _ Hn) as (_ & Nr & Nd).
  destruct Hx as [<- |Hx], Hy as [<- |Hy]; [reflexivity| | |eauto].
  - exfalso. apply (Nd b Hbx). apply in_flat_map. eauto.
  - exfalso. apply (Nd b Hby). apply in_flat_map. eauto.
Qed.

Lemma ext_diff a b x y : last (list_ascii_of_string x) " "%char <> last (list_ascii_of_string y) " "%char ->
  x <> "" -> y <> "" -> (a ++ x)%string <> (b ++ y)%string.
Proof.
  intros H Hx Hy E. apply (f_equal list_ascii_of_string) in E. rewrite !chars_app in E. apply H.
  assert (L : forall l s, s <> "" -> last (l ++ list_ascii_of_string s) " "%char = last (list_ascii_of_string s) " "%char).
  { intros l s Hs. induction l as [|c l IH]; [reflexivity|]. cbn [app]. rewrite <- IH.
    destruct (l ++ list_ascii_of_string s) eqn:El; [|reflexivity]. destruct l; [|discriminate]. destruct s; [congruence|discriminate]. }
  rewrite <- (L (list_ascii_of_string a) x Hx), <- (L (list_ascii_of_string b) y Hy), E. reflexivity.
Qed.
Lemma cpp_diff a b : (a ++ ".bb.hpp")%string <> (b ++ ".bb.cpp")%string.
Proof.
  intros E. apply (f_equal list_ascii_of_string) in E. rewrite !chars_app in E.
  apply (f_equal (@rev ascii)) in E. rewrite !rev_app_distr in E. cbn in E. discriminate.
Qed.

(** The files of the targets that write by package. *)
Definition by_package (t : target) : bool := match t with TJava | TKotlin => false | _ => true end.
Definition exts (t : target) : list string :=
  match t with
  | TC => [".bb.h"; ".bb.c"] | TCpp => [".bb.hpp"; ".bb.cpp"] | TCSharp => [".bb.cs"]
  | TCommonJS | TESM => [".bb.js"] | TPython => ["_bb.py"] | TGo => [".bb.go"] | _ => []
  end.
Definition go_dir (t : target) (pkg : list string) : list string :=
  match t with TGo => pkg | _ => removelast pkg end.
Definition file_at (t : target) (pkg : list string) (e : string) : string :=
  match t with
  | TGo => (String.concat "/" pkg ++ "/" ++ last pkg "" ++ e)%string
  | _ => (String.concat "/" pkg ++ e)%string
  end.
Lemma file_at_split t pkg e : In e (exts t) -> pkg <> [] -> Forall Package.ident pkg ->
  Package.split "/" (file_at t pkg e) = go_dir t pkg ++ [(last pkg "" ++ e)%string] /\
  Forall (fun n => Paths.good (list_ascii_of_string n)) (go_dir t pkg ++ [(last pkg "" ++ e)%string]).
Proof.
  intros He Hn Hi. destruct t; cbn [exts] in He; cbn [file_at go_dir].
  all: try solve [repeat (destruct He as [<- |He]; [apply package_split; auto|]); destruct He].
  destruct He as [<- |[]]. apply package_split_go; auto.
Qed.
Lemma file_at_inj t p1 p2 e1 e2 out : Paths.absolute (list_ascii_of_string out) ->
  In e1 (exts t) -> In e2 (exts t) -> p1 <> [] -> p2 <> [] -> Forall Package.ident p1 -> Forall Package.ident p2 ->
  written_path out (file_at t p1 e1) = written_path out (file_at t p2 e2) -> p1 = p2 /\ e1 = e2.
Proof.
  intros Ha H1 H2 N1 N2 I1 I2 E. destruct (file_at_split t p1 e1 H1 N1 I1) as (S1 & G1), (file_at_split t p2 e2 H2 N2 I2) as (S2 & G2).
  apply (f_equal Paths.place_of) in E.
  rewrite !place_idents in E by (auto; rewrite ?S1, ?S2; assumption). apply app_inv_head in E. apply map_chars_inj in E.
  rewrite S1, S2 in E. apply app_inj_tail in E as (Ed & El).
  assert (Ee : e1 = e2).
  { destruct t; cbn [exts] in H1, H2; repeat (destruct H1 as [<- |H1]); repeat (destruct H2 as [<- |H2]);
      try reflexivity; try contradiction; exfalso; revert El.
    - apply ext_diff; cbn; discriminate.
    - apply ext_diff; cbn; discriminate.
    - apply cpp_diff.
    - intros El. symmetry in El. revert El. apply cpp_diff. }
  split; [|exact Ee]. subst e2. apply Package.str_app_inj_r in El.
  destruct t; cbn [go_dir] in Ed; try (rewrite (app_removelast_last "" N1), (app_removelast_last "" N2), Ed, El; reflexivity).
  exact Ed.
Qed.

Lemma paths_by_package fs p us t out F : compile_file fs p = Ok us -> packages_differ t fs us ->
  Paths.absolute (list_ascii_of_string out) -> by_package t = true ->
  (forall x, In x us -> not_wanted (source_of fs x) = false -> named t (source_of fs x)) ->
  (forall s, map fst (F s : list (string * list string)) = if not_wanted s then [] else map (file_at t (target_package t s)) (exts t)) ->
  NoDup (map (fun f => written_path out (fst f)) (flat_map (fun x => F (source_of fs x)) us)).
Proof.
  intros H Hd Ha Ht Hnm HF. pose proof (keys_nodup _ _ _ _ H Hd) as Hk.
  assert (E : map (fun f => written_path out (fst f)) (flat_map (fun x => F (source_of fs x)) us) =
              flat_map (fun x => map (written_path out) (if not_wanted (source_of fs x) then [] else map (file_at t (target_package t (source_of fs x))) (exts t))) us).
  { clear -HF. induction us as [|x r IH]; [reflexivity|]. cbn [flat_map]. rewrite map_app, IH, <- HF, map_map. reflexivity. }
  assert (P : forall x, In x us -> not_wanted (source_of fs x) = false ->
                target_package t (source_of fs x) <> [] /\ Forall Package.ident (target_package t (source_of fs x))).
  { intros x Hx Hw. apply (proj2 (Hnm x Hx Hw)); intros ->; discriminate. }
  rewrite E. apply nodup_flat.
  - eapply us_nodup; eauto.
  - intros x Hx. destruct (not_wanted (source_of fs x)) eqn:Ew; [constructor|]. destruct (P x Hx Ew) as (P1 & P2).
    rewrite map_map. assert (Ne : NoDup (exts t)) by (destruct t; repeat constructor; cbn; intuition discriminate).
    assert (J : forall e1 e2, In e1 (exts t) -> In e2 (exts t) ->
      written_path out (file_at t (target_package t (source_of fs x)) e1) = written_path out (file_at t (target_package t (source_of fs x)) e2) -> e1 = e2).
    { intros e1 e2 H1 H2 Q. exact (proj2 (file_at_inj t _ _ _ _ out Ha H1 H2 P1 P1 P2 P2 Q)). }
    clear -Ne J. induction (exts t) as [|e l IH]; cbn [map]; [constructor|]. inversion Ne; subst. constructor.
    + intros Q. apply in_map_iff in Q. destruct Q as (e' & Q & He'). apply J in Q; [subst; contradiction|right; exact He'|left; reflexivity].
    + apply IH; [assumption|]. intros; apply J; try right; assumption.
  - intros x y w Hx Hy Hwx Hwy.
    destruct (not_wanted (source_of fs x)) eqn:Ex; [destruct Hwx|]. destruct (not_wanted (source_of fs y)) eqn:Ey; [destruct Hwy|].
    rewrite map_map in Hwx, Hwy. apply in_map_iff in Hwx, Hwy. destruct Hwx as (e1 & Q1 & H1), Hwy as (e2 & Q2 & H2).
    destruct (P x Hx Ex) as (P1 & P2), (P y Hy Ey) as (P3 & P4). subst w. symmetry in Q2.
    destruct (file_at_inj t _ _ _ _ out Ha H1 H2 P1 P3 P2 P4 Q2) as (Ep & _).
    apply (flat_inj (key t fs) us x y (String.concat "." (target_package t (source_of fs x)))); auto.
    + unfold key. change (src fs x) with (source_of fs x). rewrite Ex. left; reflexivity.
    + unfold key. change (src fs y) with (source_of fs y). rewrite Ey, Ep. left; reflexivity.
Qed.

Lemma paths_by_type fs us out ext (dir : source -> string) (names : source -> list string) :
  Paths.absolute (list_ascii_of_string out) -> Package.has_char "/" ext = false ->
  (forall x, In x us -> Forall Package.ident (names (source_of fs x))) ->
  (forall s, dir s = "" \/ exists d, dir s = (d ++ "/")%string) ->
  NoDup (flat_map (fun x => names (source_of fs x)) us) ->
  NoDup (map (written_path out) (flat_map (fun x => map (fun n => (dir (source_of fs x) ++ n ++ ext)%string) (names (source_of fs x))) us)).
Proof.
  intros Ha He Hi Hd Hn.
  apply (NoDup_map_inv (fun w => last (Paths.place_of w) [])).
  assert (E : map (fun w => last (Paths.place_of w) []) (map (written_path out)
     (flat_map (fun x => map (fun n => (dir (source_of fs x) ++ n ++ ext)%string) (names (source_of fs x))) us)) =
     map (fun n => list_ascii_of_string (n ++ ext)%string) (flat_map (fun x => names (source_of fs x)) us)).
  { clear Hn. induction us as [|x r IH]; [reflexivity|]. cbn [flat_map]. rewrite !map_app, IH by (intros; apply Hi; right; assumption).
    f_equal. rewrite !map_map. apply map_ext_in. intros n Hn.
    pose proof (Hi x (or_introl eq_refl)) as Ii. rewrite Forall_forall in Ii. specialize (Ii n Hn).
    destruct (Hd (source_of fs x)) as [-> |(d & ->)].
    - apply (place_last out _ []); [exact Ha| |apply good_ident; assumption]. cbn [String.append app].
      destruct Ii as (_ & Hs & _). apply Package.split_nochar. rewrite Package.has_char_app, Hs, He. reflexivity.
    - rewrite Package.str_app_assoc. destruct (split_last d n ext Ii He) as (l & El).
      apply (place_last out _ l); [exact Ha|exact El|apply good_ident; assumption]. }
  rewrite E. clear -Hn. induction (flat_map (fun x => names (source_of fs x)) us) as [|n l IH]; cbn [map]; [constructor|].
  inversion Hn; subst. constructor; [|auto]. intros Q. apply in_map_iff in Q. destruct Q as (m & Q & Hm).
  apply chars_inj in Q. apply Package.str_app_inj_r in Q. subst. contradiction.
Qed.

(** A run without -single and -rmpath writes no file twice: the paths its files have in the output
    directory are all different. *)
Theorem C69_no_overwrite : forall fs p us t out, compile_file fs p = Ok us -> well_located fs ->
  packages_differ t fs us -> Paths.absolute (list_ascii_of_string out) ->
  (forall q s, reaches fs p q -> contains fs q s -> not_wanted s = false -> named t s) ->
  NoDup (map (fun w => written_path out (w_file w)) (snd (generate t false (program fs us [])))).
Proof.
  intros fs p us t out H Hw Hd Ha Hnm.
  pose proof (all_there _ _ _ H) as Hth. pose proof (frees_nodup _ _ _ H Hw) as Hf.
  pose proof (keys_nodup _ _ _ _ H Hd) as Hk.
  destruct (C28_order _ _ _ H) as (_ & R & _).
  assert (RR : forall x, In x us -> reaches fs p (fst x)) by (intros x Hx; apply R; apply in_map; exact Hx).
  assert (Nm : forall x, In x us -> not_wanted (source_of fs x) = false -> named t (source_of fs x)).
  { intros x Hx Hn. rewrite Forall_forall in Hth. exact (Hnm _ _ (RR x Hx) (proj1 (Hth x Hx)) Hn). }
  assert (Ids : forall x, In x us -> Forall Package.ident (types_source (source_of fs x))).
  { intros x Hx. destruct (not_wanted (source_of fs x)) eqn:Ew; [|apply Nm; auto].
    destruct (not_wanted_types _ Ew) as (-> & _). constructor. }
  set (F := if by_package t then if match t with TESM => true | _ => false end then top_files t else source_files t
            else if match t with TKotlin => true | _ => false end then top_files t else source_files t).
  assert (K : map fd (snd (generate t false (program fs us []))) = flat_map (fun x => F (source_of fs x)) us).
  { set (x0 := {| x_types := []; x_units := []; x_done := []; x_writes := [] |}).
    destruct t; cbn [by_package] in F; subst F.
    1-4,6-7,9: (apply (C69_files fs p us); auto; discriminate).
    - unfold generate. fold x0. destruct (accept_esm fs false (program fs us []) us [] x0) as (x' & E & _ & Q); auto.
      rewrite E. cbn [fst snd]. rewrite app_nil_r. exact Q.
    - unfold generate. fold x0. destruct (accept_kotlin fs false (program fs us []) us [] x0) as (x' & E & Q); auto.
      rewrite E. cbn [fst snd]. rewrite app_nil_r. exact Q. }
  assert (E : map (fun w => written_path out (w_file w)) (snd (generate t false (program fs us []))) =
              map (fun f => written_path out (fst f)) (flat_map (fun x => F (source_of fs x)) us)).
  { rewrite <- K, map_map. reflexivity. }
  rewrite E. clear E K. destruct (by_package t) eqn:Eb.
  - apply (paths_by_package fs p us t out F); auto. intros s. subst F.
    destruct t; try discriminate; unfold source_files, top_files; destruct (not_wanted s); reflexivity.
  - assert (MM : forall l : list (string * list string), map (fun f => written_path out (fst f)) l = map (written_path out) (map fst l))
      by (intros l; rewrite map_map; reflexivity).
    rewrite MM.
    assert (FM : forall (G : source -> list (string * list string)), map fst (flat_map (fun x => G (source_of fs x)) us) =
              flat_map (fun x => map fst (G (source_of fs x))) us).
    { intros G. clear. induction us as [|x r IH]; [reflexivity|]. cbn [flat_map]. rewrite map_app, IH. reflexivity. }
    rewrite FM.
    assert (ND : t = TJava \/ t = TKotlin) by (destruct t; try discriminate; auto).
    destruct ND as [-> | ->]; subst F.
    + assert (EJ : flat_map (fun x => map fst (source_files TJava (source_of fs x))) us =
        flat_map (fun x => map (fun n => ((String.concat "/" (target_package TJava (source_of fs x)) ++ "/") ++ n ++ ".java")%string)
          (types_source (source_of fs x))) us).
      { clear. induction us as [|x r IH]; [reflexivity|]. cbn [flat_map]. rewrite IH. f_equal. unfold source_files.
        destruct (not_wanted (source_of fs x)) eqn:Ew; [destruct (not_wanted_types _ Ew) as (-> & _); reflexivity|].
        rewrite map_map. apply map_ext. intros n. cbn [fst]. rewrite Package.str_app_assoc. reflexivity. }
      rewrite EJ. apply (paths_by_type fs us out ".java" (fun s => (String.concat "/" (target_package TJava s) ++ "/")%string) types_source); auto.
      { intros s. right. eauto. }
      apply (C69_each_once fs p us H Hw).
    + assert (EJ : flat_map (fun x => map fst (top_files TKotlin (source_of fs x))) us =
        flat_map (fun x => map (fun n => (kotlin_dir (source_of fs x) ++ n ++ ".kt")%string)
          (map top_name (s_tops (source_of fs x)))) us).
      { clear. induction us as [|x r IH]; [reflexivity|]. cbn [flat_map]. rewrite IH. f_equal. unfold top_files.
        destruct (not_wanted (source_of fs x)) eqn:Ew; [destruct (not_wanted_types _ Ew) as (_ & ->); reflexivity|].
        rewrite map_map. reflexivity. }
      assert (TI : forall s, incl (map top_name (s_tops s)) (types_source s)).
      { intros s n Hn. apply in_map_iff in Hn. destruct Hn as (t & <- & Ht). apply in_flat_map. exists t. split; [exact Ht|].
        destruct t as [[pp n z b]|d]; cbn; [apply in_or_app; right|]; left; reflexivity. }
      rewrite EJ. apply (paths_by_type fs us out ".kt" kotlin_dir (fun s => map top_name (s_tops s))); auto.
      { intros x Hx. apply Forall_forall. intros n Hn. specialize (Ids x Hx). rewrite Forall_forall in Ids. apply Ids. apply TI. exact Hn. }
      { intros s. unfold kotlin_dir. destruct (String.concat "/" (Package.split _ _)); [left; reflexivity|right; eauto]. }
      apply nodup_flat.
      * eapply us_nodup; eauto.
      * intros x Hx. unfold frees in Hf. clear -Hf Hx. induction us as [|y r IH]; [destruct Hx|]. cbn [flat_map] in Hf.
        destruct (nodup_app_inv _ _ Hf) as (A & B & _). destruct Hx as [-> |Hx]; [|auto]. exact (proj1 (tops_nodup _ A)).
      * intros x y n Hx Hy Hnx Hny. apply (flat_inj (fun x => map fst (defs_source (src fs x))) us x y n); auto.
        -- apply types_defs. apply TI. exact Hnx.
        -- apply types_defs. apply TI. exact Hny.
Qed.

(** ** Concrete cases, and where the claims fail *)
Definition u8_field (n : string) (r : a_body) : a_body := ABNormal (AeBasic Uint8) None n None [] [] r.
(** /m.bb imports /t.bb, which has a struct, and /e.bb, which has nothing and asks to be left out; its struct M
    has a field of a struct defined on the spot, one of type T and an embedded struct whose field is of
    another struct defined on the spot. *)
Definition out_fs : filesystem :=
  [("/m.bb", Some {| s_imports := ["/t.bb"; "/e.bb"]; s_packages := [["m"]]; s_options := [("go_package", LStr "x/m")];
      s_tops := [ATStruct (AStruct (pos_in "/m.bb" 1) "M" None
        (ABNormal (AeStructDef (AStruct (pos_in "/m.bb" 2) "N" None (u8_field "x" ABNil))) None "n" None [] []
        (ABNormal (AeIdent "T") None "t" None [] []
        (ABEmb (AeStructDef (AStruct (pos_in "/m.bb" 3) "Q" None
          (ABNormal (AeStructDef (AStruct (pos_in "/m.bb" 4) "P" None (u8_field "x" ABNil))) None "p" None [] [] ABNil))) None [] ABNil))))] |});
   ("/t.bb", Some {| s_imports := []; s_packages := [["a"; "t"]]; s_options := [];
      s_tops := [ATStruct (AStruct (pos_in "/t.bb" 1) "T" None (u8_field "x" ABNil))] |});
   ("/e.bb", Some {| s_imports := []; s_packages := [["a"; "e"]]; s_options := [("omit_empty", LBool true)]; s_tops := [] |})].
Definition out_units : list (string * comp_unit) :=
  Eval vm_compute in match compile_file out_fs "/m.bb" with Ok us => us | _ => [] end.
Lemma out_compiled : compile_file out_fs "/m.bb" = Ok out_units.
Proof. vm_compute. reflexivity. Qed.
Ltac located := intros p s H; apply get_In in H; cbn in H;
  repeat (destruct H as [H|H]; [injection H as <- <-; cbn; split;
    [intros n x Hx; repeat (destruct Hx as [Hx|Hx]; [injection Hx as _ <-; reflexivity|]); destruct Hx
    |repeat constructor; cbn; intuition discriminate]|]); destruct H.
Lemma out_located : well_located out_fs.
Proof. located. Qed.
Lemma out_differ t : packages_differ t out_fs out_units.
Proof. intros [-> | ->]; vm_compute; repeat constructor; cbn; intuition discriminate. Qed.
Lemma out_named t : forall q s, reaches out_fs "/m.bb" q -> contains out_fs q s -> not_wanted s = false -> named t s.
Proof.
  intros q s _ H _. unfold contains in H. apply get_In in H. cbn in H.
  repeat (destruct H as [H|H]; [injection H as <- <-; split; [cbn; repeat constructor; discriminate|
    intros _ _; destruct t; cbn; split; try discriminate; repeat constructor; discriminate]|]); destruct H.
Qed.
Example C69_files_instance :
  map (fun x => types_source (source_of out_fs x)) out_units = [["T"]; []; ["N"; "P"; "M"]] /\
  map (fun w => (w_file w, w_decls w)) (snd (generate TGo false (program out_fs out_units []))) =
    [("a/t/t.bb.go", ["T"]); ("x/m/m.bb.go", ["N"; "P"; "M"])] /\
  map (fun w => (w_file w, w_decls w)) (snd (generate TC false (program out_fs out_units []))) =
    [("a/t.bb.h", ["T"]); ("a/t.bb.c", ["T"]); ("m.bb.h", ["N"; "P"; "M"]); ("m.bb.c", ["N"; "P"; "M"])] /\
  map w_file (snd (generate TJava false (program out_fs out_units []))) = ["a/t/T.java"; "m/N.java"; "m/P.java"; "m/M.java"].
Proof. vm_compute. auto. Qed.
Example C69_each_once_instance : forall t, t <> TESM -> t <> TKotlin ->
  fst (generate t false (program out_fs out_units [])) = true /\
  NoDup (map (fun w => written_path "/out" (w_file w)) (snd (generate t false (program out_fs out_units [])))).
Proof.
  intros t H1 H2. split.
  - exact (proj1 (C69_files _ _ _ t out_compiled out_located H1 H2 (out_differ t))).
  - apply (C69_no_overwrite _ _ _ t "/out" out_compiled out_located (out_differ t)); [eexists; reflexivity|]. apply out_named.
Qed.
Example C69_single_instance :
  map (fun w => (w_file w, w_decls w)) (snd (generate TPython true (program out_fs out_units []))) = [("", ["T"; "N"; "P"; "M"])].
Proof. vm_compute. auto. Qed.
Example C69_order_instance : before "T" "M" (flat_map (fun x => types_source (source_of out_fs x)) out_units) /\
  before "P" "M" (flat_map (fun x => types_source (source_of out_fs x)) out_units).
Proof. split; exists ["T"; "N"; "P"], []; cbn; auto. Qed.

(** The full claim fails for ESM and Kotlin: no code for the structs defined inside others (N and P),
    which the code for M refers to. *)
Theorem C69_nested_refuted : exists fs p us, compile_file fs p = Ok us /\ well_located fs /\
  (exists x, In x us /\ In "N" (types_source (source_of fs x))) /\
  (exists g o d f t, In g (program fs us []) /\ In d (g_tops g) /\ snd d = GStruct o "M" f /\ field_type t f /\ gname t = "N") /\
  forall t, t = TESM \/ t = TKotlin -> let r := generate t false (program fs us []) in
    fst r = true /\ In "M" (flat_map w_decls (snd r)) /\ ~ In "N" (flat_map w_decls (snd r)).
Proof.
  exists out_fs, "/m.bb", out_units. split; [exact out_compiled|]. split; [exact out_located|]. split.
  { eexists. split; [right; right; left; reflexivity|]. vm_compute. auto. }
  split.
  { eexists. eexists. eexists. eexists. eexists. split; [right; right; left; reflexivity|]. split; [left; reflexivity|].
    split; [reflexivity|]. split; [left; reflexivity|reflexivity]. }
  intros t [-> | ->]; vm_compute; intuition discriminate.
Qed.
Example C69_flat_files_instance : exists us, compile_file ex_fs "/r.bb" = Ok us /\
  (forall x, In x us -> types_source (source_of ex_fs x) = map top_name (s_tops (source_of ex_fs x))) /\
  map w_file (snd (generate TKotlin false (program ex_fs us []))) = ["c/C.kt"; "a/A.kt"; "b/B.kt"; "r/R.kt"; "r/R2.kt"].
Proof.
  exists ex_units. split; [exact ex_compiled|]. split; [|vm_compute; reflexivity].
  intros x Hx. cbn in Hx. repeat (destruct Hx as [<- |Hx]; [reflexivity|]). destruct Hx.
Qed.

(** Two files with the given go_package options, the second importing the first. *)
Definition two_fs (p1 p2 : string) : filesystem :=
  [("/a.bb", Some {| s_imports := []; s_packages := [["a"]]; s_options := [("go_package", LStr p1)];
      s_tops := [ATStruct (AStruct (pos_in "/a.bb" 1) "A" None (u8_field "x" ABNil))] |});
   ("/b.bb", Some {| s_imports := ["/a.bb"]; s_packages := [["b"]]; s_options := [("go_package", LStr p2)];
      s_tops := [ATStruct (AStruct (pos_in "/b.bb" 1) "B" None (u8_field "x" ABNil))] |})].
Definition two_units : list (string * comp_unit) :=
  Eval vm_compute in match compile_file (two_fs "" "") "/b.bb" with Ok us => us | _ => [] end.
Lemma two_located p1 p2 : well_located (two_fs p1 p2).
Proof. located. Qed.
Example C69_duplicate_instance : compile_file (two_fs "x/y" "x/y") "/b.bb" = Ok two_units /\
  generate TGo false (program (two_fs "x/y" "x/y") two_units []) =
    (false, [{| w_file := "x/y/y.bb.go"; w_package := "x/y"; w_imports := []; w_decls := ["A"] |}]).
Proof. split; vm_compute; reflexivity. Qed.
(** Whether the package is taken is asked for its parts joined with dots: with go_package "x//y" next to
    "x/y" nothing is noticed and the second file is written over the first... *)
Theorem C69_go_overwrite_refuted : exists fs p us out, compile_file fs p = Ok us /\ well_located fs /\
  packages_differ TGo fs us /\ Paths.absolute (list_ascii_of_string out) /\
  fst (generate TGo false (program fs us [])) = true /\
  exists w1 w2, snd (generate TGo false (program fs us [])) = [w1; w2] /\ w_decls w1 = ["A"] /\ w_decls w2 = ["B"] /\
    written_path out (w_file w1) = written_path out (w_file w2).
Proof.
  exists (two_fs "x/y" "x//y"), "/b.bb", two_units, "/out". split; [vm_compute; reflexivity|]. split; [apply two_located|].
  split; [intros _; vm_compute; repeat constructor; cbn; intuition discriminate|]. split; [eexists; reflexivity|].
  split; [vm_compute; reflexivity|]. eexists. eexists. split; [vm_compute; reflexivity|]. vm_compute. auto.
Qed.
(** ... and "x.com/y" and "x/com/y", which are different packages with different files, are refused. *)
Theorem C69_go_different_refused_refuted : exists fs p us, compile_file fs p = Ok us /\ well_located fs /\
  (exists x y, us = [x; y] /\ str_option "go_package" (source_of fs x) = Some "x.com/y" /\
               str_option "go_package" (source_of fs y) = Some "x/com/y" /\
               source_files TGo (source_of fs x) = [("x.com/y/y.bb.go", ["A"])] /\
               source_files TGo (source_of fs y) = [("x/com/y/y.bb.go", ["B"])]) /\
  fst (generate TGo false (program fs us [])) = false.
Proof.
  exists (two_fs "x.com/y" "x/com/y"), "/b.bb", two_units. split; [vm_compute; reflexivity|]. split; [apply two_located|].
  split; [|vm_compute; reflexivity]. eexists. eexists. split; [reflexivity|]. vm_compute. auto.
Qed.
Print Assumptions C69_files.
Print Assumptions C69_each_once.
Print Assumptions C69_flat_files.
Print Assumptions C69_single.
Print Assumptions C69_duplicate.
Print Assumptions C69_order.
Print Assumptions C69_no_overwrite.
Print Assumptions C69_nested_refuted.
Print Assumptions C69_go_overwrite_refuted.
Print Assumptions C69_go_different_refused_refuted.
