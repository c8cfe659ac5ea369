(** C70: what the written files import. *)
From Coq Require Import String Ascii ZArith List Bool Lia Relations.
From Verif Require Import Base FrontModel FrontProofs PropsFront CompileModel CompileSpec CompileProofs PropsCompile
  GenOut GenOutSpec GenOutProofs PropsOut.
From Verif Require Package.
Import ListNotations.
Open Scope string_scope.
Open Scope list_scope.

(** ** The writes of a run, unit by unit *)
Definition imports_ok (t : target) (all : list gunit) (u : gunit) (w : write) : Prop :=
  match t with
  | TGo => exists done l, go_imports done (g_path u) (g_tops u) [] = Some l /\ w_imports w = flat_map (ns_of TGo all) l
  | TKotlin => w_imports w = kotlin_imports all u
  | _ => w_imports w = local_imports t all u
  end.
Definition written_for (t : target) (all : list gunit) (u : gunit) (w : write) : Prop :=
  w_package w = unit_ns t u /\ imports_ok t all u w.

Lemma unit_writes t all x u x' : generate_unit t false all x u = (true, x') ->
  exists ws, x_writes x' = x_writes x ++ ws /\ Forall (written_for t all u) ws.
Proof.
  unfold generate_unit. destruct (omitted u).
  { intros [= <-]. exists []. rewrite app_nil_r. auto. }
  cbv zeta. unfold written_for.
  destruct t; cbv beta iota.
  all: try (intros HH; apply (f_equal snd) in HH; cbn [snd] in HH; subst x'; eexists; split; [cbn [x_writes]; reflexivity|]; rewrite Forall_forall; intros w Hw;
            apply in_map_iff in Hw; destruct Hw as (f & <- & _); split; reflexivity).
  - (* Go *)
    match goal with |- context [if has ?k ?m then _ else _] => destruct (has k m) end; [discriminate|]. cbn [x_done].
    destruct (go_imports _ (g_path u) (g_tops u) []) as [l|] eqn:El; [|discriminate].
    intros HH; apply (f_equal snd) in HH; cbn [snd] in HH; subst x'. eexists. split; [cbn [x_writes]; reflexivity|]. apply Forall_forall. intros w Hw.
    apply in_map_iff in Hw. destruct Hw as (f & <- & _). split; [reflexivity|]. exists (x_done x ++ [g_path u]), l. auto.
  - (* Java *)
    match goal with |- context [if has ?k ?m then _ else _] => destruct (has k m) end; [discriminate|]. rewrite java_types_eq. intros [= <-]. eexists. split; [cbn [x_writes]; reflexivity|].
    apply Forall_forall. intros w Hw. apply in_map_iff in Hw. destruct Hw as (f & <- & _). split; reflexivity.
Qed.

Lemma accept_parts t all : forall gs x x', accept t false all gs x = (true, x') ->
  exists wss, x_writes x' = x_writes x ++ concat wss /\ Forall2 (fun g ws => Forall (written_for t all g) ws) gs wss /\
    forall i, exists xi, accept t false all (firstn i gs) x = (true, xi) /\ x_writes xi = x_writes x ++ concat (firstn i wss).
Proof.
  induction gs as [|g gs IH]; intros x x' H; cbn [accept] in H.
  - injection H as <-. exists []. cbn [concat]. rewrite app_nil_r. split; [reflexivity|]. split; [constructor|].
    intros i. exists x. rewrite !firstn_nil. cbn [accept concat]. rewrite app_nil_r. auto.
  - destruct (generate_unit t false all x g) as [[] x1] eqn:E; [|discriminate].
    destruct (unit_writes _ _ _ _ _ E) as (ws & Ew & Fw). destruct (IH _ _ H) as (wss & Ex & F2 & P).
    exists (ws :: wss). cbn [concat]. rewrite Ex, Ew, <- app_assoc. split; [reflexivity|]. split; [constructor; assumption|].
    intros [|i]; cbn [firstn].
    + exists x. cbn [accept concat]. rewrite app_nil_r. auto.
    + destruct (P i) as (xi & E1 & E2). exists xi. cbn [accept]. rewrite E. split; [exact E1|].
      cbn [concat]. rewrite E2, Ew, <- app_assoc. reflexivity.
Qed.

Lemma program_firstn fs : forall us acc i, Forall (there fs) us ->
  firstn i (program fs us acc) = program fs (firstn i us) acc.
Proof.
  induction us as [|y us IH]; intros acc i H; [cbn [program]; rewrite !firstn_nil; reflexivity|].
  inversion H as [|? ? Hy Hus]; subst. destruct i as [|i]; [reflexivity|]. cbn [firstn].
  rewrite !program_cons by exact Hy. cbn [firstn]. rewrite IH by exact Hus. reflexivity.
Qed.
Lemma program_paths fs : forall us acc, Forall (there fs) us ->
  Forall2 (fun y g => exists acc', g = unit_of fs acc' y) us (program fs us acc).
Proof.
  induction us as [|y us IH]; intros acc H; [constructor|]. inversion H as [|? ? Hy Hus]; subst.
  rewrite program_cons by exact Hy. constructor; eauto.
Qed.

(** The files of a source file in a run without -single. *)
Definition files_of (t : target) (s : source) : list (string * list string) :=
  match t with TESM | TKotlin => top_files t s | _ => source_files t s end.

Lemma run_writes fs p us t all : compile_file fs p = Ok us -> well_located fs -> packages_differ t fs us ->
  forall i, exists x', accept t false all (program fs (firstn i us) []) {| x_types := []; x_units := []; x_done := []; x_writes := [] |} = (true, x') /\
    map fd (x_writes x') = flat_map (fun y => files_of t (src fs y)) (firstn i us).
Proof.
  intros H Hw Hd i. pose proof (all_there _ _ _ H) as Hth. pose proof (frees_nodup _ _ _ H Hw) as Hf.
  pose proof (keys_nodup _ _ _ _ H Hd) as Hk.
  rewrite <- (firstn_skipn i us) in Hth, Hf, Hk. apply Forall_app in Hth as (Hth & _).
  unfold frees in Hf. rewrite flat_map_app in Hf, Hk. destruct (nodup_app_inv _ _ Hf) as (Hf' & _). destruct (nodup_app_inv _ _ Hk) as (Hk' & _).
  set (x0 := {| x_types := []; x_units := []; x_done := []; x_writes := [] |}).
  destruct (plain t) eqn:Ep.
  - destruct (accept_plain fs t false all Ep (firstn i us) [] x0) as (x' & E & _ & _ & Q & _); auto; [constructor|].
    exists x'. split; [exact E|]. rewrite Q. destruct t; try discriminate; reflexivity.
  - destruct t; try discriminate.
    + destruct (accept_esm fs false all (firstn i us) [] x0) as (x' & E & _ & Q); auto. exists x'. split; [exact E|exact Q].
    + destruct (accept_java fs false all (firstn i us) [] x0) as (x' & E & Q & _); auto; [constructor|]. exists x'. split; [exact E|exact Q].
    + destruct (accept_kotlin fs false all (firstn i us) [] x0) as (x' & E & Q); auto. exists x'. split; [exact E|exact Q].
Qed.

Lemma f2_len {A B} (R : A -> B -> Prop) l m : Forall2 R l m -> length l = length m.
Proof. induction 1; cbn; congruence. Qed.
Lemma parts_files {A B C} (f : A -> list C) (m : B -> C) : forall (us : list A) (wss : list (list B)),
  length us = length wss ->
  (forall i, map m (concat (firstn i wss)) = flat_map f (firstn i us)) ->
  Forall2 (fun y ws => map m ws = f y) us wss.
Proof.
  induction us as [|y us IH]; intros [|ws wss] Hl H; try discriminate; [constructor|].
  pose proof (H 1%nat) as H1. cbn [firstn concat flat_map] in H1. rewrite !app_nil_r in H1.
  constructor; [exact H1|]. apply IH; [cbn in Hl; lia|]. intros i. pose proof (H (Datatypes.S i)) as H2. cbn [firstn concat flat_map] in H2.
  rewrite map_app, H1 in H2. exact (app_inv_head _ _ _ H2).
Qed.

(** Every write is one for a unit, and every unit has the writes its source file should have. *)
Lemma run_parts fs p us t : compile_file fs p = Ok us -> well_located fs -> packages_differ t fs us ->
  let all := program fs us [] in
  exists wss, snd (generate t false all) = concat wss /\
    Forall2 (fun y ws => exists acc, In (unit_of fs acc y) all /\ Forall (written_for t all (unit_of fs acc y)) ws /\
                         map fd ws = files_of t (src fs y)) us wss.
Proof.
  intros H Hw Hd all. pose proof (all_there _ _ _ H) as Hth.
  set (x0 := {| x_types := []; x_units := []; x_done := []; x_writes := [] |}).
  destruct (run_writes fs p us t all H Hw Hd (length us)) as (x' & E & _). fold x0 in E. rewrite firstn_all in E.
  destruct (accept_parts t all _ _ _ E) as (wss & Ew & F2 & P).
  exists wss. split.
  { unfold generate. fold x0. fold all in E. rewrite E. cbn [snd]. rewrite app_nil_r. exact Ew. }
  fold all in F2, P.
  pose proof (program_paths fs us [] Hth) as F1. fold all in F1.
  assert (F3 : Forall2 (fun y ws => map fd ws = files_of t (src fs y)) us wss).
  { apply parts_files.
    - rewrite (f2_len _ _ _ F1), (f2_len _ _ _ F2). reflexivity.
    - intros i. destruct (P i) as (xi & E1 & E2). destruct (run_writes fs p us t all H Hw Hd i) as (x2 & E3 & E4). fold x0 in E3.
      unfold all in E1 at 2. rewrite program_firstn in E1 by exact Hth. rewrite E3 in E1. injection E1 as <-.
      cbn [x0 x_writes app] in E2. rewrite <- E2. exact E4. }
  assert (G : forall gs us wss, incl gs all -> Forall2 (fun y g => exists acc', g = unit_of fs acc' y) us gs ->
     Forall2 (fun g ws => Forall (written_for t all g) ws) gs wss -> Forall2 (fun y ws => map fd ws = files_of t (src fs y)) us wss ->
     Forall2 (fun y ws => exists acc, In (unit_of fs acc y) all /\ Forall (written_for t all (unit_of fs acc y)) ws /\
                         map fd ws = files_of t (src fs y)) us wss).
  { clear. induction gs as [|g gs IH]; intros us0 wss0 Hi H1 H2 H3; inversion H1; subst; inversion H2; subst; inversion H3; subst; constructor.
    - match goal with E : exists acc', g = _ |- _ => destruct E as (acc & ->) end. exists acc. split; [apply Hi; left; reflexivity|]. auto.
    - apply IH; auto. intros z Hz. apply Hi. right; exact Hz. }
  exact (G all us wss (incl_refl _) F1 F2 F3).
Qed.

(** ** Where the types of fields come from *)
Definition src_at (fs : filesystem) (q : string) : source :=
  match get q fs with Some (Some s) => s | _ => no_source end.
Fixpoint owned (fs : filesystem) (t : gty) : Prop :=
  match t with
  | GEnum o n => In n (types_source (src_at fs o))
  | GStruct o n l => In n (types_source (src_at fs o)) /\ owneds fs o l
  end
with owneds (fs : filesystem) (q : string) (l : gtys) : Prop :=
  match l with GNil => True | GCons t r => (owned fs t /\ reaches fs q (gown t)) /\ owneds fs q r end.

Lemma owneds_app fs q a b : owneds fs q (gapp a b) <-> owneds fs q a /\ owneds fs q b.
Proof. induction a as [|t r IH]; cbn [gapp owneds]; [tauto|]. rewrite IH. tauto. Qed.
Lemma owneds_reach fs q q' l : reaches fs q q' -> owneds fs q' l -> owneds fs q l.
Proof.
  intros H. induction l as [|t r IH]; cbn [owneds]; [auto|]. intros ((A & B) & C). split; [|auto]. split; [exact A|].
  eapply rt_trans; eauto.
Qed.
Lemma owned_name fs t : owned fs t -> In (gname t) (types_source (src_at fs (gown t))).
Proof. destruct t; cbn; tauto. Qed.
Lemma owneds_field fs q l t : owneds fs q l -> field_type t l -> owned fs t /\ reaches fs q (gown t).
Proof. induction l as [|x r IH]; cbn; [intros _ []|]. intros (H1 & H2) [-> |H]; auto. Qed.
Lemma owned_node fs o n l :
  (forall t, owned fs t -> node_of o n l t -> In n (types_source (src_at fs o)) /\ owneds fs o l) /\
  (forall r, forall q, owneds fs q r -> node_in o n l r -> In n (types_source (src_at fs o)) /\ owneds fs o l).
Proof.
  apply gty_mut; cbn [owned owneds node_of node_in].
  - intros ? ? _ [].
  - intros o' n' r IH (H1 & H2) [(-> & -> & ->)|H]; eauto.
  - intros _ _ [].
  - intros t IHt r IHr q ((H1 & _) & H2) [H|H]; eauto.
Qed.

Section Owned.
  Context (fs : filesystem) (own : string) (env : genv).
  Hypothesis He : forall n t, get n env = Some t -> owned fs t /\ reaches fs own (gown t).
  Let L := types_source (src_at fs own).

  Lemma ref_owned n : (forall t, get n env = Some t -> owned fs t /\ reaches fs own (gown t)) /\
    (forall o m l, get n env = Some (GStruct o m l) -> owneds fs own l).
  Proof.
    split; [exact (He n)|]. intros o m l H. destruct (He _ _ H) as ((_ & A) & B). cbn in B. eapply owneds_reach; eauto.
  Qed.
  Lemma resolved_owned :
    (forall e, (incl (types_elem e) L -> forall t, resolve_elem own env e = Some t -> owned fs t /\ reaches fs own (gown t)) /\
               (incl (embedded_elem e) L -> forall o n l, resolve_elem own env e = Some (GStruct o n l) -> owneds fs own l)) /\
    (forall d, (incl (types_struct d) L -> owned fs (resolve_struct own env d) /\ gown (resolve_struct own env d) = own) /\
               (incl (embedded_elem (AeStructDef d)) L -> forall o n l, resolve_struct own env d = GStruct o n l -> owneds fs own l)) /\
    (forall b, incl (types_body b) L -> owneds fs own (resolve_body own env b)).
  Proof.
    apply ast_ind; cbn [types_elem embedded_elem types_struct types_body resolve_elem resolve_struct resolve_body].
    1-3: (intros; split; intros; discriminate).
    - intros n. destruct (ref_owned n) as (A & B). split; intros _; assumption.
    - intros d (A & B). split.
      + intros Hi t [= <-]. destruct (A Hi) as (A1 & A2). rewrite A2. split; [exact A1|apply rt_refl].
      + intros Hi o n l E. apply (B Hi o n l). injection E as E. exact E.
    - intros n. destruct (ref_owned n) as (A & B). split; intros _; assumption.
    - intros n. destruct (ref_owned n) as (A & B). split; intros _; assumption.
    - intros p name size body IH. split.
      + intros Hi. cbn [owned gown]. split; [|reflexivity]. split.
        * apply Hi. apply in_or_app; right; left; reflexivity.
        * apply IH. intros x Hx. apply Hi. apply in_or_app; left; exact Hx.
      + intros Hi o n l [= _ _ <-]. auto.
    - intros _. exact I.
    - auto.
    - auto.
    - auto.
    - intros e (_ & IHe) arr o r IHr Hi.
      assert (Hr : owneds fs own (resolve_body own env r)) by (apply IHr; intros x Hx; apply Hi; apply in_or_app; right; exact Hx).
      destruct (resolve_elem own env e) as [[o' n'|o' n' l]|]; auto. apply owneds_app. split; [|exact Hr].
      apply (IHe (fun x Hx => Hi x (in_or_app _ _ _ (or_introl Hx))) o' n' l eq_refl).
    - intros e (IHe & _) arr nm sz o ms r IHr Hi.
      assert (Hr : owneds fs own (resolve_body own env r)) by (apply IHr; intros x Hx; apply Hi; apply in_or_app; right; exact Hx).
      destruct (resolve_elem own env e) as [t|]; auto. cbn [owneds]. split; [|exact Hr].
      apply (IHe (fun x Hx => Hi x (in_or_app _ _ _ (or_introl Hx))) t eq_refl).
  Qed.
End Owned.

Lemma tops_owned fs own : forall l env,
  (forall n t, get n env = Some t -> owned fs t /\ reaches fs own (gown t)) ->
  incl (flat_map types_top l) (types_source (src_at fs own)) ->
  Forall (fun d => owned fs (snd d)) (resolve_tops own env l).
Proof.
  induction l as [|t r IH]; intros env He Hi; cbn [resolve_tops]; [constructor|].
  assert (K : owned fs (snd (resolve_top own env t)) /\ gown (snd (resolve_top own env t)) = own).
  { cbn [flat_map] in Hi. destruct t as [d|d].
    - assert (Es : snd (resolve_top own env (ATStruct d)) = resolve_struct own env d) by (destruct d; reflexivity).
      rewrite Es. apply (proj1 (proj1 (proj2 (resolved_owned fs own env He)) d)).
      intros x Hx. apply Hi. apply in_or_app; left; exact Hx.
    - cbn. split; [|reflexivity]. apply Hi. left; reflexivity. }
  constructor; [apply K|]. apply IH.
  - intros n x Hx. apply get_snoc in Hx as [Hx|Hx]; [exact (He n x Hx)|]. rewrite Hx in K. cbn [snd] in K. destruct K as (K1 & K2).
    rewrite K2. split; [exact K1|apply rt_refl].
  - intros x Hx. apply Hi. cbn [flat_map]. apply in_or_app; right; exact Hx.
Qed.

Definition acc_ok (fs : filesystem) (p : string) (acc : genv) : Prop :=
  Forall (fun d => owned fs (snd d) /\ fst d = gname (snd d) /\ reaches fs p (gown (snd d)) /\
            In (fst d) (map top_name (s_tops (src_at fs (gown (snd d)))))) acc.

Lemma program_owned fs p us : compile_file fs p = Ok us -> well_located fs ->
  forall l acc, incl l us -> acc_ok fs p acc ->
  Forall (fun g => Forall (fun d => owned fs (snd d)) (g_tops g)) (program fs l acc).
Proof.
  intros H Hw. pose proof (all_there _ _ _ H) as Hth. rewrite Forall_forall in Hth.
  destruct (C28_order _ _ _ H) as (_ & R & _). destruct (C35_unique_names fs p us Hw H) as (_ & D).
  induction l as [|y l IH]; intros acc Hl Ha; [constructor|].
  assert (Hy : In y us) by (apply Hl; left; reflexivity).
  rewrite program_cons by (apply Hth; exact Hy).
  assert (Ry : reaches fs p (fst y)) by (apply R; apply in_map; exact Hy).
  assert (K : Forall (fun d => owned fs (snd d)) (g_tops (unit_of fs acc y))).
  { unfold unit_of. cbn [g_tops]. apply tops_owned.
    - intros n t Hg.
      assert (Hh : In (n, t) acc /\ has n (u_types (snd y)) = true).
      { clear -Hg. induction acc as [|[k v] r IH]; cbn [filter get] in Hg; [discriminate|]. cbn [fst] in Hg.
        destruct (has k (u_types (snd y))) eqn:E; cbn [get] in Hg.
        - destruct (String.eqb_spec n k) as [-> |]; [injection Hg as ->; split; [left; reflexivity|exact E]|].
          destruct (IH Hg). split; [right|]; assumption.
        - destruct (IH Hg). split; [right|]; assumption. }
      destruct Hh as (Hin & Hh). unfold acc_ok in Ha. rewrite Forall_forall in Ha. destruct (Ha _ Hin) as (A1 & A2 & A3 & A4). cbn [fst snd] in *.
      split; [exact A1|]. unfold has in Hh. destruct (get n (u_types (snd y))) as [c|] eqn:Eg; [|discriminate].
      destruct y as [q u]. cbn [fst snd] in *.
      destruct (C35_visible_types fs p us Hw H q u Hy) as (V & _). apply V in Eg. destruct Eg as (q' & u' & I' & R' & L').
      destruct (C35_visible_types fs p us Hw H q' u' I') as (_ & s' & C' & M').
      assert (T1 : In n (map top_name (s_tops s'))) by (rewrite <- M'; apply in_map_iff; exists (n, c); auto).
      assert (TD : forall s, In n (map top_name (s_tops s)) -> exists x, In (n, x) (defs_source s)).
      { clear. intros s Hn. apply in_map_iff in Hn. destruct Hn as (t & <- & Ht). unfold defs_source.
        destruct t as [[pp m z b]|d].
        - exists pp. apply in_flat_map. exists (ATStruct (AStruct pp m z b)). split; [exact Ht|left; reflexivity].
        - exists (en_pos d). apply in_flat_map. exists (ATEnum d). split; [exact Ht|left; reflexivity]. }
      destruct (TD _ T1) as (x1 & X1). destruct (TD _ A4) as (x2 & X2).
      assert (E : q' = gown t).
      { apply (D q' (gown t) n x1 x2).
        - exact (rt_trans _ _ _ _ _ Ry R').
        - exact A3.
        - exists s'. auto.
        - exists (src_at fs (gown t)). split; [|exact X2]. apply R in A3. apply in_map_iff in A3. destruct A3 as (z & Ez & Hz).
          rewrite <- Ez. exact (proj1 (Hth z Hz)). }
      rewrite <- E. exact R'.
    - intros x Hx. exact Hx. }
  constructor; [exact K|]. apply IH; [intros z Hz; apply Hl; right; exact Hz|].
  apply Forall_app. split; [exact Ha|]. unfold unit_of in K |- *. cbn [g_tops] in K |- *.
  set (env := filter (fun e => has (fst e) (u_types (snd y))) acc) in *.
  destruct (resolve_tops_names (fst y) (s_tops (src fs y)) env) as (A & B).
  apply Forall_forall. intros d Hd. rewrite Forall_forall in B, K. destruct (B _ Hd) as (B1 & B2).
  split; [apply K; exact Hd|]. split; [congruence|]. rewrite B2. split; [exact Ry|].
  change (src_at fs (fst y)) with (src fs y). rewrite <- A. apply in_map. exact Hd.
Qed.

(** ** Names of units *)
Lemma unit_ns_eq fs acc y t : there fs y -> unit_ns t (unit_of fs acc y) = source_ns t (src fs y).
Proof.
  intros H. unfold unit_ns, source_ns.
  destruct t; try reflexivity; try (rewrite (unit_package fs acc y _ H); reflexivity);
    rewrite (unit_option fs acc y _ H); reflexivity.
Qed.
Lemma find_program fs : forall us acc y, Forall (there fs) us -> In y us ->
  (forall x, In x us -> fst x = fst y -> x = y) ->
  exists acc', find_unit (program fs us acc) (fst y) = Some (unit_of fs acc' y).
Proof.
  induction us as [|x us IH]; intros acc y Hth Hy Hu; [destruct Hy|]. inversion Hth as [|? ? Hx Hus]; subst.
  rewrite program_cons by exact Hx. unfold find_unit. cbn [find]. change (g_path (unit_of fs acc x)) with (fst x).
  destruct (String.eqb_spec (fst x) (fst y)) as [E|E].
  - rewrite (Hu x (or_introl eq_refl) E). eauto.
  - apply IH; [exact Hus| |intros; apply Hu; [right|]; assumption]. destruct Hy as [-> |Hy]; [congruence|exact Hy].
Qed.
Lemma ns_of_eq fs p us t y : compile_file fs p = Ok us -> In y us ->
  ns_of t (program fs us []) (fst y) = [source_ns t (src fs y)].
Proof.
  intros H Hy. pose proof (all_there _ _ _ H) as Hth.
  destruct (find_program fs us [] y Hth Hy) as (acc & E).
  { intros x Hx Ex. eapply (unit_inj fs p us); eauto. }
  unfold ns_of. rewrite E, unit_ns_eq; [reflexivity|]. rewrite Forall_forall in Hth. auto.
Qed.

(** ** What Go imports *)
Definition mine_or (me : string) (r : list string) (t : gty) : Prop := gown t = me \/ In (gown t) r.
Lemma put_name_in n l x : In x (put_name n l) <-> In x l \/ x = n.
Proof.
  unfold put_name. destruct (mem n l) eqn:E.
  - apply mem_In in E. split; [auto|]. intros [H| ->]; assumption.
  - rewrite in_app_iff. cbn. split; intros [H|H]; auto; destruct H; auto. contradiction.
Qed.
Lemma mine_more me r r' t : incl r r' -> mine_or me r t -> mine_or me r' t.
Proof. intros H [E|E]; [left; exact E|right; auto]. Qed.
Fixpoint type_at (q : string) (t : gty) : Prop :=
  match t with GEnum o _ => o = q | GStruct o _ l => o = q \/ type_in q l end
with type_in (q : string) (l : gtys) : Prop :=
  match l with GNil => False | GCons t r => type_at q t \/ type_in q r end.

Lemma go_spec done me :
  (forall t acc r, go_ty done me t acc = Some r -> incl acc r /\ mine_or me r t /\
     (forall o n l t', node_of o n l t -> field_type t' l -> mine_or me r t') /\
     (forall q, In q r -> In q acc \/ (q <> me /\ type_at q t))) /\
  (forall fs acc r, go_dfs done me fs acc = Some r -> incl acc r /\ (forall t', field_type t' fs -> mine_or me r t') /\
     (forall o n l t', node_in o n l fs -> field_type t' l -> mine_or me r t') /\
     (forall q, In q r -> In q acc \/ (q <> me /\ type_in q fs))).
Proof.
  apply gty_mut; cbn [go_ty go_dfs node_of node_in field_type type_at type_in].
  - intros o n acc r H. destruct (String.eqb_spec o me) as [-> |N].
    + injection H as <-. split; [apply incl_refl|]. split; [left; reflexivity|]. split; [intros ? ? ? ? []|]. auto.
    + destruct (mem o done); [|discriminate]. injection H as <-. split; [intros x Hx; apply put_name_in; auto|].
      split; [right; apply put_name_in; right; reflexivity|]. split; [intros ? ? ? ? []|].
      intros q Hq. apply put_name_in in Hq as [Hq| ->]; auto.
  - intros o n fs IH acc r H. destruct (go_dfs done me fs acc) as [a|] eqn:E; [|discriminate].
    destruct (IH _ _ E) as (I1 & I2 & I3 & I4).
    assert (K : incl a r /\ (forall q, In q r -> In q a \/ (q <> me /\ q = o)) /\ (o = me \/ In o r)).
    { destruct (String.eqb_spec o me) as [-> |N].
      - injection H as <-. split; [apply incl_refl|]. auto.
      - destruct (mem o done); [|discriminate]. injection H as <-. split; [intros x Hx; apply put_name_in; auto|]. split.
        + intros q Hq. apply put_name_in in Hq as [Hq| ->]; auto.
        + right. apply put_name_in. auto. }
    destruct K as (K1 & K2 & K3). split; [exact (incl_tran I1 K1)|]. split; [exact K3|]. split.
    + intros o' n' l t' [(-> & -> & ->)|Hn] Ht.
      * exact (mine_more _ _ _ _ K1 (I2 _ Ht)).
      * exact (mine_more _ _ _ _ K1 (I3 _ _ _ _ Hn Ht)).
    + intros q Hq. destruct (K2 q Hq) as [Hq'|(A & ->)]; [|auto]. destruct (I4 q Hq') as [|(A & B)]; auto.
  - intros acc r [= <-]. split; [apply incl_refl|]. split; [intros ? []|]. split; [intros ? ? ? ? []|]. auto.
  - intros t IHt fs IHfs acc r H. destruct (go_ty done me t acc) as [a|] eqn:E; [|discriminate].
    destruct (IHt _ _ E) as (I1 & I2 & I3 & I4). destruct (IHfs _ _ H) as (J1 & J2 & J3 & J4).
    split; [exact (incl_tran I1 J1)|]. split.
    + intros t' [-> |Ht]; [exact (mine_more _ _ _ _ J1 I2)|exact (J2 _ Ht)].
    + split.
      * intros o n l t' [Hn|Hn] Ht; [exact (mine_more _ _ _ _ J1 (I3 _ _ _ _ Hn Ht))|exact (J3 _ _ _ _ Hn Ht)].
      * intros q Hq. destruct (J4 q Hq) as [Hq'|(A & B)]; [|auto]. destruct (I4 q Hq') as [|(A & B)]; auto.
Qed.
Lemma go_imports_spec done me : forall tops acc r, go_imports done me tops acc = Some r ->
  incl acc r /\ (forall d o n l t', In d tops -> node_of o n l (snd d) -> field_type t' l -> mine_or me r t') /\
  (forall q, In q r -> In q acc \/ (q <> me /\ exists d, In d tops /\ exists o n l, snd d = GStruct o n l /\ type_in q l)).
Proof.
  induction tops as [|[k ty] tops IH]; intros acc r H; cbn [go_imports] in H.
  - injection H as <-. split; [apply incl_refl|]. split; [intros ? ? ? ? ? []|]. auto.
  - destruct ty as [o n|o n fs].
    + destruct (IH _ _ H) as (I1 & I2 & I3). split; [exact I1|]. split.
      * intros d o' n' l t' [<- |Hd] Hn Ht; [destruct Hn|]. exact (I2 _ _ _ _ _ Hd Hn Ht).
      * intros q Hq. destruct (I3 q Hq) as [|(A & d & Hd & B)]; [auto|]. right. split; [exact A|]. exists d. split; [right; exact Hd|exact B].
    + destruct (go_dfs done me fs acc) as [a|] eqn:E; [|discriminate].
      destruct (proj2 (go_spec done me) _ _ _ E) as (J1 & J2 & J3 & J4). destruct (IH _ _ H) as (I1 & I2 & I3).
      split; [exact (incl_tran J1 I1)|]. split.
      * intros d o' n' l t' [<- |Hd] Hn Ht; [|exact (I2 _ _ _ _ _ Hd Hn Ht)]. cbn [snd node_of] in Hn.
        destruct Hn as [(-> & -> & ->)|Hn].
        -- exact (mine_more _ _ _ _ I1 (J2 _ Ht)).
        -- exact (mine_more _ _ _ _ I1 (J3 _ _ _ _ Hn Ht)).
      * intros q Hq. destruct (I3 q Hq) as [Hq'|(A & d & Hd & B)].
        -- destruct (J4 q Hq') as [|(A & B)]; [auto|]. right. split; [exact A|]. exists (k, GStruct o n fs).
           split; [left; reflexivity|]. exists o, n, fs. auto.
        -- right. split; [exact A|]. exists d. split; [right; exact Hd|exact B].
Qed.

(** ** The other targets *)
Lemma kotlin_imports_in all u i : In i (kotlin_imports all u) <->
  i <> "" /\ i <> unit_ns TKotlin u /\ exists q, In q (g_imports u) /\ In i (ns_of TKotlin all q).
Proof.
  unfold kotlin_imports.
  assert (K : forall l acc, In i (fold_left (fun acc p => fold_left (fun acc ns =>
      if String.eqb ns "" || String.eqb ns (unit_ns TKotlin u) then acc else put_name ns acc) (ns_of TKotlin all p) acc) l acc) <->
      In i acc \/ (i <> "" /\ i <> unit_ns TKotlin u /\ exists q, In q l /\ In i (ns_of TKotlin all q))).
  { induction l as [|q l IH]; intros acc; cbn [fold_left].
    - split; [auto|]. intros [H|(_ & _ & q & [] & _)]. exact H.
    - rewrite IH.
      assert (E : forall m a, In i (fold_left (fun acc ns =>
        if String.eqb ns "" || String.eqb ns (unit_ns TKotlin u) then acc else put_name ns acc) m a) <->
        In i a \/ (i <> "" /\ i <> unit_ns TKotlin u /\ In i m)).
      { clear. induction m as [|n m IH]; intros a; cbn [fold_left]; [cbn; tauto|]. rewrite IH. cbn [In].
        destruct (String.eqb_spec n "") as [E1|E1]; cbn [orb].
        - split; [tauto|]. intros [H|(A & B & [C|C])]; auto. congruence.
        - destruct (String.eqb_spec n (unit_ns TKotlin u)) as [E2|E2].
          + split; [tauto|]. intros [H|(A & B & [C|C])]; auto. congruence.
          + rewrite put_name_in. split; [intros [[H| ->]|H]; tauto|]. intros [H|(A & B & [C|C])]; auto. }
      rewrite E. split.
      + intros [[H|(A & B & C)]|(A & B & q' & C & D)]; [auto| |].
        * right. split; [exact A|]. split; [exact B|]. exists q. split; [left; reflexivity|exact C].
        * right. split; [exact A|]. split; [exact B|]. exists q'. split; [right; exact C|exact D].
      + intros [H|(A & B & q' & [<- |C] & D)]; [auto|auto|]. right. eauto 6. }
  rewrite K. cbn [In]. tauto.
Qed.

(** ** C70 *)
Lemma f2_left {A B} (R : A -> B -> Prop) l m : Forall2 R l m -> forall x, In x l -> exists y, In y m /\ R x y.
Proof. induction 1 as [|a b l m H F IH]; intros x []; [subst; exists b; split; [left; reflexivity|exact H]|].
  destruct (IH x H0) as (y & A1 & A2). exists y. split; [right; exact A1|exact A2]. Qed.
Lemma f2_right {A B} (R : A -> B -> Prop) l m : Forall2 R l m -> forall y, In y m -> exists x, In x l /\ R x y.
Proof. induction 1 as [|a b l m H F IH]; intros y []; [subst; exists a; split; [left; reflexivity|exact H]|].
  destruct (IH y H0) as (x & A1 & A2). exists x. split; [right; exact A1|exact A2]. Qed.

(** What is known of a run. *)
Lemma run_facts fs p us t : compile_file fs p = Ok us -> well_located fs -> packages_differ t fs us ->
  let all := program fs us [] in let ws := snd (generate t false all) in
  (forall w, In w ws -> exists y acc, In y us /\ In (unit_of fs acc y) all /\ written_for t all (unit_of fs acc y) w /\
                                  In (fd w) (files_of t (src fs y))) /\
  (forall y f, In y us -> In f (files_of t (src fs y)) -> exists w acc, In w ws /\ fd w = f /\ written_for t all (unit_of fs acc y) w).
Proof.
  intros H Hw Hd all ws. destruct (run_parts fs p us t H Hw Hd) as (wss & E & F). fold all in E, F. fold ws in E.
  split.
  - intros w Hi. rewrite E in Hi. apply in_concat in Hi. destruct Hi as (l & Hl & Hi).
    destruct (f2_right _ _ _ F l Hl) as (y & Hy & acc & A & B & C). exists y, acc. split; [exact Hy|]. split; [exact A|].
    rewrite Forall_forall in B. split; [auto|]. rewrite <- C. apply in_map. exact Hi.
  - intros y f Hy Hf. destruct (f2_left _ _ _ F y Hy) as (l & Hl & acc & A & B & C). rewrite <- C in Hf.
    apply in_map_iff in Hf. destruct Hf as (w & <- & Hi). exists w, acc. split; [rewrite E; apply in_concat; eauto|].
    split; [reflexivity|]. rewrite Forall_forall in B. auto.
Qed.

Lemma files_decls t s f : In f (files_of t s) -> not_wanted s = false /\ incl (snd f) (types_source s) /\
  (t <> TJava -> t <> TESM -> t <> TKotlin -> snd f = types_source s).
Proof.
  assert (TI : incl (map top_name (s_tops s)) (types_source s)).
  { intros n Hn. apply in_map_iff in Hn. destruct Hn as (tt & <- & Ht). apply in_flat_map. exists tt. split; [exact Ht|].
    destruct tt as [[pp n z b]|d]; cbn; [apply in_or_app; right|]; left; reflexivity. }
  unfold files_of, source_files, top_files. destruct (not_wanted s); [destruct t; intros []|]. cbv zeta.
  intros H. split; [reflexivity|].
  destruct t; try (cbn [In] in H; repeat (destruct H as [H|H]); try contradiction; subst f; cbn [snd];
    (split; [first [exact TI|apply incl_refl]|first [congruence|intros; reflexivity]])).
  - apply in_map_iff in H. destruct H as (n & <- & Hn). split; [|congruence]. cbn [snd]. intros x [<- |[]]. exact Hn.
  - apply in_map_iff in H. destruct H as (n & <- & Hn). split; [|congruence]. cbn [snd]. intros x [<- |[]]. apply TI. exact Hn.
Qed.
Lemma files_has t s n : In n (types_source s) -> (t = TESM \/ t = TKotlin -> types_source s = map top_name (s_tops s)) ->
  exists f, In f (files_of t s) /\ In n (snd f).
Proof.
  intros Hn Hf. assert (Ew : not_wanted s = false).
  { destruct (not_wanted s) eqn:E; [|reflexivity]. destruct (not_wanted_types _ E) as (E2 & _). rewrite E2 in Hn. destruct Hn. }
  unfold files_of, source_files, top_files. rewrite Ew. cbv zeta.
  destruct t; try (eexists; split; [left; reflexivity|exact Hn]).
  - eexists. split; [left; reflexivity|]. cbn [snd]. rewrite <- Hf by auto. exact Hn.
  - exists ((String.concat "/" (target_package TJava s) ++ "/" ++ n ++ ".java")%string, [n]).
    split; [apply in_map_iff; exists n; auto|left; reflexivity].
  - exists ((kotlin_dir s ++ n ++ ".kt")%string, [n]). rewrite <- Hf by auto. split; [apply in_map_iff; exists n; auto|left; reflexivity].
Qed.

(** A struct whose code is in a written file belongs to the source file of it. *)
Lemma owner_of fs p us y g d o n l : compile_file fs p = Ok us -> well_located fs -> In y us ->
  In g (program fs us []) -> In d (g_tops g) -> node_of o n l (snd d) -> In n (types_source (src fs y)) ->
  o = fst y /\ owneds fs o l.
Proof.
  intros H Hw Hy Hg Hd Hn Hin.
  pose proof (all_there _ _ _ H) as Hth. pose proof (frees_nodup _ _ _ H Hw) as Hf.
  pose proof (program_good fs us [] [] [] Hth (Forall_nil _) Hf (fun _ _ x => x)) as G. cbn [app] in G.
  rewrite Forall_forall in G. specialize (G g Hg). rewrite Forall_forall in G. specialize (G d Hd).
  destruct (proj1 (good_node _ _ o n l) (snd d) G Hn) as (Ho & _).
  pose proof (program_owned fs p us H Hw us [] (incl_refl _) (Forall_nil _)) as O.
  rewrite Forall_forall in O. specialize (O g Hg). rewrite Forall_forall in O. specialize (O d Hd).
  destruct (proj1 (owned_node fs o n l) (snd d) O Hn) as (Hon & Hol). split; [|exact Hol].
  apply in_map_iff in Ho. destruct Ho as (z & <- & Hz).
  destruct (C28_order _ _ _ H) as (_ & R & _). destruct (C35_unique_names fs p us Hw H) as (_ & D).
  rewrite Forall_forall in Hth.
  assert (TD : forall x, In x us -> In n (types_source (src fs x)) -> exists k, defines fs (fst x) n k).
  { intros x Hx Hi. apply types_defs in Hi. apply in_map_iff in Hi. destruct Hi as ([n' k] & E & Hi). cbn in E. subst n'.
    exists k. exists (src fs x). split; [apply (Hth x Hx)|exact Hi]. }
  destruct (TD z Hz Hon) as (k1 & D1). destruct (TD y Hy Hin) as (k2 & D2).
  eapply D; [apply R; apply in_map; exact Hz|apply R; apply in_map; exact Hy|exact D1|exact D2].
Qed.

(** C70.  C, C++, Python and CommonJS: when no file that is left out is imported, a written file can see
    the type of every field of every struct whose code it has: some written file it imports, directly
    or through others, declares it. *)
Theorem C70_closed : forall fs p us t, compile_file fs p = Ok us -> well_located fs -> passes_on t = true ->
  (forall q q' s, reaches fs p q -> imports fs q q' -> contains fs q' s -> not_wanted s = false) ->
  let ws := snd (generate t false (program fs us [])) in
  forall w g d o n fields ty, In w ws -> In g (program fs us []) -> In d (g_tops g) ->
    node_of o n fields (snd d) -> In n (w_decls w) -> field_type ty fields ->
    sees true ws w (gname ty).
Proof.
  intros fs p us t H Hw Ht Hom ws w g d o n fields ty Hi Hg Hd Hn Hin Hty.
  assert (Hpd : packages_differ t fs us) by (intros [-> | ->]; discriminate).
  assert (Tn : t <> TJava /\ t <> TESM /\ t <> TKotlin) by (destruct t; try discriminate; repeat split; congruence).
  destruct Tn as (T1 & T2 & T3).
  destruct (run_facts fs p us t H Hw Hpd) as (F1 & F2). fold ws in F1, F2.
  destruct (C28_order _ _ _ H) as (_ & R & _). pose proof (all_there _ _ _ H) as Hth. rewrite Forall_forall in Hth.
  destruct (F1 w Hi) as (y & acc & Hy & _ & W & Hfd). destruct (files_decls _ _ _ Hfd) as (_ & _ & Ed).
  specialize (Ed T1 T2 T3). cbn [fd snd] in Ed.
  destruct (owner_of fs p us y g d o n fields H Hw Hy Hg Hd Hn) as (-> & Hol); [rewrite <- Ed; exact Hin|].
  destruct (owneds_field _ _ _ _ Hol Hty) as (Ho & Hr). apply owned_name in Ho.
  apply clos_rt_rt1n in Hr. clear Hin Hn Hd Hg Hol.
  assert (K : forall a b, clos_refl_trans_1n _ (imports fs) a b -> forall y w acc, fst y = a -> In y us -> In w ws ->
     written_for t (program fs us []) (unit_of fs acc y) w -> w_decls w = types_source (src fs y) ->
     In (gname ty) (types_source (src_at fs b)) -> sees true ws w (gname ty)).
  { clear - H Hw Hom F1 F2 R Hth T1 T2 T3 Ht. induction 1 as [a|a a1 b Hstep _ IH]; intros y w acc Ey Hy Hi W Ed Hb.
    - apply Sees_own. rewrite Ed. subst a. exact Hb.
    - subst a. assert (Ra : reaches fs p a1).
      { eapply rt_trans; [apply R; apply in_map; exact Hy|]. apply rt_step. exact Hstep. }
      pose proof Ra as Ra'. apply R in Ra'. apply in_map_iff in Ra'. destruct Ra' as (y1 & E1 & Hy1).
      assert (Ew : not_wanted (src fs y1) = false).
      { apply (Hom (fst y) (fst y1) (src fs y1)); [apply R; apply in_map; exact Hy|rewrite E1; exact Hstep|exact (proj1 (Hth _ Hy1))]. }
      assert (Ef : exists f, In f (files_of t (src fs y1))).
      { unfold files_of, source_files. rewrite Ew. cbv zeta. destruct t; try congruence; eexists; left; reflexivity. }
      destruct Ef as (f & Hf). destruct (F2 y1 f Hy1 Hf) as (w1 & acc1 & Hw1 & Efd & W1).
      apply (Sees_far true ws w (gname ty) w1); [reflexivity|exact Hw1| |].
      + destruct W1 as (-> & _). rewrite unit_ns_eq by (apply Hth; exact Hy1). destruct W as (_ & W).
        assert (E : w_imports w = local_imports t (program fs us []) (unit_of fs acc y)) by (destruct t; try discriminate; exact W).
        rewrite E. unfold local_imports. apply in_flat_map. exists a1. split.
        * cbn [unit_of g_imports]. destruct y as [q u]. apply (C28_import_lists fs p us H q u Hy). exact Hstep.
        * rewrite <- E1, (ns_of_eq fs p us t y1 H Hy1). left; reflexivity.
      + apply (IH y1 w1 acc1); auto. rewrite <- Efd in Hf. destruct (files_decls _ _ _ Hf) as (_ & _ & Ed1). exact (Ed1 T1 T2 T3). }
  eapply K; eauto.
Qed.

Definition target_go (t : target) : bool := match t with TGo => true | _ => false end.
Lemma map_inj_in {A B} (f : A -> B) l x y : NoDup (map f l) -> In x l -> In y l -> f x = f y -> x = y.
Proof.
  induction l as [|a l IH]; intros Hn Hx Hy E; [destruct Hx|]. cbn in Hn. inversion Hn; subst.
  destruct Hx as [<- |Hx], Hy as [<- |Hy]; auto.
  - exfalso. apply H1. rewrite E. apply in_map. exact Hy.
  - exfalso. apply H1. rewrite <- E. apply in_map. exact Hx.
Qed.
Lemma program_path_list fs : forall us acc, Forall (there fs) us -> map g_path (program fs us acc) = map fst us.
Proof.
  induction us as [|y us IH]; intros acc H; [reflexivity|]. inversion H; subst. rewrite program_cons by assumption.
  cbn [map]. rewrite IH by assumption. reflexivity.
Qed.

(** C70.  Every target: a written file can see the types of the fields that are its own or those of
    source files imported by the one it is for; the Go code also those imported indirectly.  For Kotlin, whose packages
    cannot be imported if their name is empty, and ESM with structs defined at top level only. *)
Theorem C70_direct : forall fs p us t, compile_file fs p = Ok us -> well_located fs -> packages_differ t fs us ->
  (t = TESM \/ t = TKotlin -> forall q s, reaches fs p q -> contains fs q s -> types_source s = map top_name (s_tops s)) ->
  (t = TKotlin -> forall q s, reaches fs p q -> contains fs q s -> source_ns TKotlin s <> "") ->
  let ws := snd (generate t false (program fs us [])) in
  forall w g d n fields ty, In w ws -> In g (program fs us []) -> In d (g_tops g) ->
    node_of (g_path g) n fields (snd d) -> In n (w_decls w) -> field_type ty fields ->
    t = TGo \/ gown ty = g_path g \/ imports fs (g_path g) (gown ty) ->
    sees false ws w (gname ty).
Proof.
  intros fs p us t H Hw Hpd Hflat Hkt ws w g d n fields ty Hi Hg Hd Hn Hin Hty Hdir.
  destruct (run_facts fs p us t H Hw Hpd) as (F1 & F2). fold ws in F1, F2.
  destruct (C28_order _ _ _ H) as (_ & R & _). pose proof (all_there _ _ _ H) as Hth. rewrite Forall_forall in Hth.
  destruct (F1 w Hi) as (y & acc & Hy & Hu & W & Hfd). destruct (files_decls _ _ _ Hfd) as (_ & Hincl & _).
  destruct (owner_of fs p us y g d _ n fields H Hw Hy Hg Hd Hn) as (Eo & Hol); [apply Hincl; exact Hin|].
  destruct (owneds_field _ _ _ _ Hol Hty) as (Ho & Hr). apply owned_name in Ho.
  assert (Rz : reaches fs p (gown ty)).
  { eapply rt_trans; [apply R; apply in_map; exact Hy|rewrite <- Eo; exact Hr]. }
  pose proof Rz as Rz'. apply R in Rz'. apply in_map_iff in Rz'. destruct Rz' as (z & Ez & Hz).
  change (src_at fs (gown ty)) with (match get (gown ty) fs with Some (Some s) => s | _ => no_source end) in Ho.
  rewrite <- Ez in Ho. change (In (gname ty) (types_source (src fs z))) in Ho.
  destruct (files_has t (src fs z) (gname ty) Ho) as (f & Hf & Hfn).
  { intros HT. apply (Hflat HT (fst z)); [rewrite Ez; exact Rz|apply (Hth z Hz)]. }
  destruct (F2 z f Hz Hf) as (w' & acc' & Hw' & Efd & (Wp & _)). rewrite unit_ns_eq in Wp by (apply Hth; exact Hz).
  rewrite <- Efd in Hfn. cbn [fd snd] in Hfn.
  destruct W as (Wp0 & Wi). rewrite unit_ns_eq in Wp0 by (apply Hth; exact Hy).
  assert (Own : fst z = fst y -> sees false ws w (gname ty)).
  { intros E. apply (unit_inj fs p us z y H Hz Hy) in E. subst z. apply (Sees_package false ws w _ w'); auto. congruence. }
  assert (Hns : ns_of t (program fs us []) (fst z) = [source_ns t (src fs z)]) by (apply (ns_of_eq fs p us); assumption).
  assert (Imp : imports fs (fst y) (fst z) -> t <> TGo -> sees false ws w (gname ty)).
  { intros Hstep NG.
    assert (Hl : In (fst z) (g_imports (unit_of fs acc y))).
    { cbn [unit_of g_imports]. destruct y as [q u]. apply (C28_import_lists fs p us H q u Hy). exact Hstep. }
    assert (Hns' : In (source_ns t (src fs z)) (ns_of t (program fs us []) (fst z))) by (rewrite Hns; left; reflexivity).
    assert (LI : In (source_ns t (src fs z)) (local_imports t (program fs us []) (unit_of fs acc y))).
    { apply in_flat_map. eauto. }
    destruct t; try congruence; cbn [imports_ok] in Wi.
    1-6,8: (apply (Sees_import false ws w _ w'); [exact Hw'|rewrite Wi, Wp; exact LI|exact Hfn]).
    destruct (string_dec (source_ns TKotlin (src fs z)) (source_ns TKotlin (src fs y))) as [E|E].
    - apply (Sees_package false ws w _ w'); [exact Hw'|congruence|exact Hfn].
    - apply (Sees_import false ws w _ w'); [exact Hw'| |exact Hfn]. rewrite Wi, Wp. apply kotlin_imports_in.
      split; [apply (Hkt eq_refl (fst z)); [rewrite Ez; exact Rz|apply (Hth z Hz)]|].
      split; [rewrite unit_ns_eq by (apply Hth; exact Hy); exact E|]. exists (fst z). auto. }
  destruct (string_dec (fst z) (fst y)) as [E|NE]; [auto|].
  destruct (target_go t) eqn:Etg.
  - assert (t = TGo) as -> by (destruct t; try discriminate; reflexivity).
    destruct Wi as (done & l & El & Ew). destruct (go_imports_spec _ _ _ _ _ El) as (_ & K & _).
    assert (Eg : g = unit_of fs acc y).
    { apply (map_inj_in g_path (program fs us [])); auto. rewrite program_path_list; [|apply Forall_forall; exact Hth].
      apply (C28_order _ _ _ H). }
    subst g. destruct (K d _ n fields ty Hd Hn Hty) as [E|E]; [exfalso; apply NE; rewrite Ez; exact E|].
    apply (Sees_import false ws w _ w'); [exact Hw'| |exact Hfn]. rewrite Ew, Wp. apply in_flat_map. exists (gown ty).
    split; [exact E|]. rewrite <- Ez, Hns. left; reflexivity.
  - assert (NG : t <> TGo) by (intros ->; discriminate). destruct Hdir as [-> |[E|E]]; [congruence|exfalso; apply NE; congruence|].
    apply Imp; [|exact NG]. rewrite <- Eo, Ez. exact E.
Qed.

(** Nothing else is imported: each import of a written file is of a source file that the one it is for
    imports, or for Go of one some type of which is met when following the fields of its structs. *)
Theorem C70_only : forall fs p us t, compile_file fs p = Ok us -> well_located fs -> packages_differ t fs us ->
  forall w, In w (snd (generate t false (program fs us []))) ->
  exists g, In g (program fs us []) /\ In (w_file w, w_decls w) (files_of t (src_at fs (g_path g))) /\
    w_package w = source_ns t (src_at fs (g_path g)) /\
    forall i, In i (w_imports w) -> exists q, i = source_ns t (src_at fs q) /\ reaches fs p q /\
      match t with
      | TGo => q <> g_path g /\ exists d o n l, In d (g_tops g) /\ snd d = GStruct o n l /\ type_in q l
      | _ => imports fs (g_path g) q
      end.
Proof.
  intros fs p us t H Hw Hpd w Hi.
  destruct (run_facts fs p us t H Hw Hpd) as (F1 & _).
  destruct (C28_order _ _ _ H) as (_ & R & _). pose proof (all_there _ _ _ H) as Hth. rewrite Forall_forall in Hth.
  destruct (F1 w Hi) as (y & acc & Hy & Hu & (Wp & Wi) & Hfd). exists (unit_of fs acc y).
  split; [exact Hu|]. change (g_path (unit_of fs acc y)) with (fst y) in *. change (src_at fs (fst y)) with (src fs y).
  split; [exact Hfd|]. split; [rewrite <- unit_ns_eq with (acc := acc) by (apply Hth; exact Hy); exact Wp|].
  assert (NS : forall q i, In i (ns_of t (program fs us []) q) -> exists z, In z us /\ fst z = q /\ i = source_ns t (src fs z)).
  { intros q i Hx. unfold ns_of in Hx. destruct (find_unit (program fs us []) q) as [g|] eqn:E; [|destruct Hx].
    apply find_some in E. destruct E as (E1 & E2). apply String.eqb_eq in E2. destruct Hx as [<- |[]].
    destruct (f2_right _ _ _ (program_paths fs us [] (all_there _ _ _ H)) g E1) as (z & Hz & acc' & ->).
    exists z. split; [exact Hz|]. split; [exact E2|]. apply unit_ns_eq. apply Hth. exact Hz. }
  assert (LI : forall q i, In q (u_local_imports (snd y)) -> In i (ns_of t (program fs us []) q) ->
     exists q, i = source_ns t (src_at fs q) /\ reaches fs p q /\ imports fs (fst y) q).
  { intros q i Hq Hx. destruct (NS q i Hx) as (z & Hz & Ez & ->). exists q. rewrite <- Ez in *. split; [reflexivity|].
    split; [apply R; apply in_map; exact Hz|]. destruct y as [qy u]. apply (C28_import_lists fs p us H qy u Hy). exact Hq. }
  intros i Hx. destruct t; cbn [imports_ok] in Wi;
    try (rewrite Wi in Hx; unfold local_imports in Hx; apply in_flat_map in Hx; destruct Hx as (q & Hq & Hx); exact (LI q i Hq Hx)).
  - destruct Wi as (done & l & El & Ew). rewrite Ew in Hx. apply in_flat_map in Hx. destruct Hx as (q & Hq & Hx).
    destruct (NS q i Hx) as (z & Hz & Ez & ->). exists q. rewrite <- Ez in *. split; [reflexivity|].
    split; [apply R; apply in_map; exact Hz|]. destruct (go_imports_spec _ _ _ _ _ El) as (_ & _ & K).
    destruct (K _ Hq) as [[]|(A & d & Hd & o & n & l' & E1 & E2)]. split; [exact A|]. eauto 8.
  - rewrite Wi in Hx. apply kotlin_imports_in in Hx. destruct Hx as (_ & _ & q & Hq & Hx). exact (LI q i Hq Hx).
Qed.

(** ** Concrete cases, and where the claims fail *)
Lemma ex_differ t : packages_differ t ex_fs ex_units.
Proof. intros [-> | ->]; vm_compute; repeat constructor; cbn; intuition discriminate. Qed.
Definition ex_prog : list gunit := Eval vm_compute in program ex_fs ex_units [].
Lemma ex_prog_eq : program ex_fs ex_units [] = ex_prog.
Proof. vm_compute. reflexivity. Qed.
Lemma ex_wanted : forall q q' s, reaches ex_fs "/r.bb" q -> imports ex_fs q q' -> contains ex_fs q' s -> not_wanted s = false.
Proof.
  intros q q' s _ _ H. unfold contains in H. apply get_In in H. cbn in H.
  repeat (destruct H as [H|H]; [injection H as <- <-; reflexivity|]); [destruct H as [H|[]]; discriminate].
Qed.
Example C70_closed_instance :
  let ws := snd (generate TC false (program ex_fs ex_units [])) in
  exists w, In w ws /\ w_file w = "r.bb.h" /\ w_decls w = ["R"; "R2"] /\ w_imports w = ["a"; "b"] /\ sees true ws w "C".
Proof.
  cbv zeta.
  set (w := {| w_file := "r.bb.h"; w_package := "r"; w_imports := ["a"; "b"]; w_decls := ["R"; "R2"] |}).
  assert (Hw : In w (snd (generate TC false (program ex_fs ex_units [])))) by (vm_compute; auto 20).
  exists w. split; [exact Hw|]. split; [reflexivity|]. split; [reflexivity|]. split; [reflexivity|].
  assert (N : exists g d fields ty, In g ex_prog /\ In d (g_tops g) /\ node_of "/r.bb" "R2" fields (snd d) /\ field_type ty fields /\ gname ty = "C").
  { eexists. eexists. eexists. eexists. split; [do 3 right; left; reflexivity|]. split; [right; left; reflexivity|].
    split; [left; split; [reflexivity|split; reflexivity]|]. split; [left; reflexivity|reflexivity]. }
  destruct N as (g & d & fields & ty & N1 & N2 & N3 & N4 & <-). rewrite <- ex_prog_eq in N1.
  refine (C70_closed _ _ _ TC ex_compiled ex_located eq_refl ex_wanted w g d "/r.bb" "R2" fields ty Hw N1 N2 N3 _ N4).
  right; left; reflexivity.
Qed.
Example C70_direct_instance : forall t, t <> TESM -> t <> TKotlin ->
  let ws := snd (generate t false (program ex_fs ex_units [])) in
  exists w, In w ws /\ In "R" (w_decls w) /\ sees false ws w "A".
Proof.
  intros t N1 N2. cbv zeta.
  assert (E : exists w, In w (snd (generate t false (program ex_fs ex_units []))) /\ In "R" (w_decls w)).
  { assert (K : forall ws, existsb (fun w => mem "R" (w_decls w)) ws = true -> exists w, In w ws /\ In "R" (w_decls w)).
    { intros ws Hb. apply existsb_exists in Hb. destruct Hb as (w & A & B). apply mem_In in B. eauto. }
    apply K. destruct t; try congruence; vm_compute; reflexivity. }
  destruct E as (w & Hw & Hr). exists w. split; [exact Hw|]. split; [exact Hr|].
  assert (N : exists g d fields ty, In g ex_prog /\ In d (g_tops g) /\ node_of (g_path g) "R" fields (snd d) /\ field_type ty fields /\ gname ty = "A" /\
     imports ex_fs (g_path g) (gown ty)).
  { eexists. eexists. eexists. eexists. split; [do 3 right; left; reflexivity|]. split; [left; reflexivity|].
    split; [left; split; [reflexivity|split; reflexivity]|]. split; [left; reflexivity|]. split; [reflexivity|].
    eexists. split; [reflexivity|]. left; reflexivity. }
  destruct N as (g & d & fields & ty & M1 & M2 & M3 & M4 & <- & M5). rewrite <- ex_prog_eq in M1.
  refine (C70_direct _ _ _ t ex_compiled ex_located (ex_differ t) _ _ w g d "R" fields ty Hw M1 M2 M3 Hr M4 (or_intror (or_intror M5))).
  - intros [|]; contradiction.
  - intros; contradiction.
Qed.
(** Java, C#, Kotlin and ESM: the schema language lets a file use the types of files imported
    indirectly (C35); the generated code does not import them.  R2 of /r.bb has a field of type C of
    /c.bb, which /r.bb imports through /a.bb only. *)
Theorem C70_indirect_refuted : exists fs p us, compile_file fs p = Ok us /\ well_located fs /\
  (forall q q' s, reaches fs p q -> imports fs q q' -> contains fs q' s -> not_wanted s = false) /\
  forall t, t = TJava \/ t = TCSharp \/ t = TKotlin \/ t = TESM ->
    packages_differ t fs us /\
    let ws := snd (generate t false (program fs us [])) in
    exists w g d n fields ty, In w ws /\ In g (program fs us []) /\ In d (g_tops g) /\
      node_of (g_path g) n fields (snd d) /\ In n (w_decls w) /\ field_type ty fields /\
      ~ sees false ws w (gname ty).
Proof.
  exists ex_fs, "/r.bb", ex_units. split; [exact ex_compiled|]. split; [exact ex_located|]. split; [exact ex_wanted|].
  intros t Ht. split; [apply ex_differ|]. cbv zeta.
  assert (E : exists w, In w (snd (generate t false (program ex_fs ex_units []))) /\ In "R2" (w_decls w) /\
    ~ sees false (snd (generate t false (program ex_fs ex_units []))) w "C").
  { assert (K : forall ws, existsb (fun w => mem "R2" (w_decls w) && negb (mem "C" (w_decls w)) &&
         forallb (fun w' => negb (mem "C" (w_decls w')) || (negb (String.eqb (w_package w') (w_package w)) && negb (mem (w_package w') (w_imports w)))) ws) ws = true ->
       exists w, In w ws /\ In "R2" (w_decls w) /\ ~ sees false ws w "C").
    { intros ws Hb. apply existsb_exists in Hb. destruct Hb as (w & H1 & Hb). apply andb_prop in Hb as (Hb & H4).
      apply andb_prop in Hb as (H2 & H3). apply mem_In in H2. apply negb_true_iff, mem_nIn in H3. rewrite forallb_forall in H4.
      assert (H5 : forall w', In w' ws -> In "C" (w_decls w') -> w_package w' <> w_package w /\ ~ In (w_package w') (w_imports w)).
      { intros w' A B. specialize (H4 w' A). apply mem_In in B. rewrite B in H4. cbn [negb orb] in H4. apply andb_prop in H4 as (P & Q).
        apply negb_true_iff in P, Q. apply mem_nIn in Q. apply String.eqb_neq in P. auto. }
      exists w. split; [exact H1|]. split; [exact H2|]. intros S0. inversion S0 as [A|w' A B C|w' A B C|w' A]; subst.
      - contradiction.
      - destruct (H5 _ A C). congruence.
      - destruct (H5 _ A C). contradiction.
      - discriminate. }
    apply K. destruct Ht as [-> |[-> |[-> | ->]]]; vm_compute; reflexivity. }
  destruct E as (w & E1 & E2 & E3). exists w.
  assert (N : exists g d fields ty, In g ex_prog /\ In d (g_tops g) /\ node_of (g_path g) "R2" fields (snd d) /\ field_type ty fields /\ gname ty = "C").
  { eexists. eexists. eexists. eexists. split; [do 3 right; left; reflexivity|]. split; [right; left; reflexivity|].
    split; [left; split; [reflexivity|split; reflexivity]|]. split; [left; reflexivity|reflexivity]. }
  destruct N as (g & d & fields & ty & N1 & N2 & N3 & N4 & N5). rewrite <- ex_prog_eq in N1.
  exists g, d, "R2", fields, ty. rewrite N5. auto 10.
Qed.
(** Go: a file imports packages none of whose types its structs have a field of, which the Go compiler
    refuses ("imported and not used"): X has a field of type A, and only A one of type C. *)
Definition chain_fs : filesystem :=
  [("/x.bb", file ["/a.bb"] "x" [one_field "/x.bb" 3 "X" (AeIdent "A")]);
   ("/a.bb", file ["/c.bb"] "a" [one_field "/a.bb" 3 "A" (AeIdent "C")]);
   ("/c.bb", file [] "c" [one_field "/c.bb" 3 "C" (AeBasic Uint16)])].
Definition chain_units : list (string * comp_unit) :=
  Eval vm_compute in match compile_file chain_fs "/x.bb" with Ok us => us | _ => [] end.
Definition chain_prog : list gunit := Eval vm_compute in program chain_fs chain_units [].
Lemma chain_prog_eq : program chain_fs chain_units [] = chain_prog.
Proof. vm_compute. reflexivity. Qed.
Theorem C70_go_unused_refuted : exists fs p us w g, compile_file fs p = Ok us /\ well_located fs /\
  In w (snd (generate TGo false (program fs us []))) /\ In g (program fs us []) /\ w_package w = unit_ns TGo g /\
  In "c" (w_imports w) /\ get "/c.bb" fs <> None /\ source_ns TGo (src_at fs "/c.bb") = "c" /\
  forall d n fields ty, In d (g_tops g) -> node_of (g_path g) n fields (snd d) -> field_type ty fields -> gown ty <> "/c.bb".
Proof.
  set (w := {| w_file := "x/x.bb.go"; w_package := "x"; w_imports := ["c"; "a"]; w_decls := ["X"] |}).
  assert (Hw : In w (snd (generate TGo false (program chain_fs chain_units [])))) by (vm_compute; auto 20).
  assert (N : exists g, In g chain_prog /\ w_package w = unit_ns TGo g /\
     forall d n fields ty, In d (g_tops g) -> node_of (g_path g) n fields (snd d) -> field_type ty fields -> gown ty <> "/c.bb").
  { eexists. split; [right; right; left; reflexivity|]. split; [reflexivity|].
    intros d n fields ty [<- |[]] Hn Ht. cbn in Hn.
    destruct Hn as [(_ & _ & ->)|[[(E & _)|[[(E & _)|[]]|[]]]|[]]]; try discriminate.
    cbn in Ht. destruct Ht as [-> |[]]. discriminate. }
  destruct N as (g & N1 & N2 & N3). rewrite <- chain_prog_eq in N1.
  exists chain_fs, "/x.bb", chain_units, w, g. split; [vm_compute; reflexivity|]. split; [located|].
  split; [exact Hw|]. split; [exact N1|]. split; [exact N2|].
  split; [left; reflexivity|]. split; [discriminate|]. split; [reflexivity|]. exact N3.
Qed.
(** A file left out because of omit_empty is still imported by the others. *)
Theorem C70_omitted_refuted : exists fs p us, compile_file fs p = Ok us /\ well_located fs /\
  forall t, t <> TGo -> let ws := snd (generate t false (program fs us [])) in
    exists w, In w ws /\ In "a.e" (w_imports w) /\ forall w', In w' ws -> w_package w' <> "a.e".
Proof.
  exists out_fs, "/m.bb", out_units. split; [exact out_compiled|]. split; [exact out_located|]. intros t Ht. cbv zeta.
  assert (K : forall ws, existsb (fun w => mem "a.e" (w_imports w)) ws && forallb (fun w => negb (String.eqb (w_package w) "a.e")) ws = true ->
     exists w, In w ws /\ In "a.e" (w_imports w) /\ forall w', In w' ws -> w_package w' <> "a.e").
  { intros ws Hb. apply andb_prop in Hb as (H1 & H2). apply existsb_exists in H1. destruct H1 as (w & A & B). apply mem_In in B.
    exists w. split; [exact A|]. split; [exact B|]. intros w' Hw'. rewrite forallb_forall in H2. specialize (H2 w' Hw').
    apply negb_true_iff in H2. apply String.eqb_neq in H2. exact H2. }
  apply K. destruct t; try congruence; vm_compute; reflexivity.
Qed.
(** An ESM file binds what it imports to "$" and the last part of the package (esm.go:291): with the
    packages x.t and y.t the same name is bound twice, an error in JavaScript. *)
Definition names_fs : filesystem :=
  [("/m.bb", Some {| s_imports := ["/a.bb"; "/b.bb"]; s_packages := [["m"]]; s_options := []; s_tops := [one_field "/m.bb" 3 "M" (AeIdent "A")] |});
   ("/a.bb", Some {| s_imports := []; s_packages := [["x"; "t"]]; s_options := []; s_tops := [one_field "/a.bb" 3 "A" (AeBasic Uint8)] |});
   ("/b.bb", Some {| s_imports := []; s_packages := [["y"; "t"]]; s_options := []; s_tops := [one_field "/b.bb" 3 "B" (AeBasic Uint8)] |})].
Definition names_units : list (string * comp_unit) :=
  Eval vm_compute in match compile_file names_fs "/m.bb" with Ok us => us | _ => [] end.
Theorem C70_esm_names_refuted : exists fs p us w, compile_file fs p = Ok us /\ well_located fs /\
  In w (snd (generate TESM false (program fs us []))) /\
  ~ NoDup (map (fun i => last (Package.split "." i) "") (w_imports w)).
Proof.
  exists names_fs, "/m.bb", names_units, {| w_file := "m.bb.js"; w_package := "m"; w_imports := ["x.t"; "y.t"]; w_decls := ["M"] |}.
  split; [vm_compute; reflexivity|]. split; [located|].
  split; [vm_compute; auto 20|]. vm_compute. intros N. inversion N; subst. apply H1. left; reflexivity.
Qed.
Print Assumptions C70_closed.
Print Assumptions C70_direct.
Print Assumptions C70_only.
Print Assumptions C70_indirect_refuted.
Print Assumptions C70_go_unused_refuted.
Print Assumptions C70_omitted_refuted.
Print Assumptions C70_esm_names_refuted.
