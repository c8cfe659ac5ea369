(** Model of util/name_style.go (identifier case conversion) for ASCII identifiers; properties
    C36 (stability) and C42 (collisions). *)
From Coq Require Import Ascii String ZArith List Lia Bool.
Import ListNotations.
Open Scope list_scope.

Definition text := list ascii.
Definition txt (s : string) : text := list_ascii_of_string s.
Definition US : ascii := "_".
Definition DOT : ascii := ".".
Definition is_us (c : ascii) : bool := Ascii.eqb c US.

Definition between (lo hi : nat) (c : ascii) : bool :=
  Nat.leb lo (nat_of_ascii c) && Nat.leb (nat_of_ascii c) hi.
(** name_style.go:5-19 *)
Definition is_upper (c : ascii) : bool := between 65 90 c.
Definition is_lower (c : ascii) : bool := between 97 122 c.
Definition is_digit (c : ascii) : bool := between 48 57 c.
Definition is_letter (c : ascii) : bool := is_upper c || is_lower c.
(** name_style.go:21-33 *)
Definition to_upper (c : ascii) : ascii :=
  if is_lower c then ascii_of_nat (nat_of_ascii c - 97 + 65) else c.
Definition to_lower (c : ascii) : ascii :=
  if is_upper c then ascii_of_nat (nat_of_ascii c - 65 + 97) else c.

(** name_style.go:35-48 *)
Definition is_all_upper (s : text) : bool :=
  match s with
  | [] => false
  | _ => forallb (fun c => is_us c || is_upper c || is_digit c) s
  end.

(** name_style.go:298-311 *)
Fixpoint cut_prefix (s : text) : text * text :=
  match s with
  | [] => ([], [])
  | c :: t => if is_us c then let '(p, r) := cut_prefix t in (c :: p, r) else ([], s)
  end.

(** name_style.go:313-326 *)
Definition cut_suffix (s : text) : text * text :=
  let '(p, r) := cut_prefix (rev s) in (rev r, rev p).

(** The three parts toPascalCase &c. work with: leading underscores, middle, trailing ones. *)
Definition cut3 (s : text) : text * text * text :=
  let '(p, s1) := cut_prefix s in let '(m, q) := cut_suffix s1 in (p, m, q).

(** The loop of toPascalCase (name_style.go:110-133); the TrimPrefix at 109 does nothing, the
    middle does not start with an underscore. *)
Fixpoint pascal_loop (allup doCap isUp : bool) (s : text) : text :=
  match s with
  | [] => []
  | c :: t =>
      if is_us c then pascal_loop allup true isUp t
      else if doCap then to_upper c :: pascal_loop allup false (is_upper c) t
      else if allup && isUp then to_lower c :: pascal_loop allup false (is_upper c) t
      else c :: pascal_loop allup false (is_upper c) t
  end.

(** name_style.go:99-136 *)
Definition pascal_seg (s : text) : text :=
  let '(p, m, q) := cut3 s in p ++ pascal_loop (is_all_upper m) true false m ++ q.

(** The loop of tocamelCase (name_style.go:156-185); [first] is i == 0. *)
Fixpoint camel_loop (allup first doCap isUp : bool) (s : text) : text :=
  match s with
  | [] => []
  | c :: t =>
      if is_us c then camel_loop allup false true isUp t
      else if first then to_lower c :: camel_loop allup false doCap (is_upper c) t
      else if doCap then to_upper c :: camel_loop allup false false (is_upper c) t
      else if allup && isUp then to_lower c :: camel_loop allup false false (is_upper c) t
      else c :: camel_loop allup false false (is_upper c) t
  end.

(** name_style.go:146-188 *)
Definition camel_seg (s : text) : text :=
  let '(p, m, q) := cut3 s in p ++ camel_loop (is_all_upper m) true false false m ++ q.

(** The loop of tosnake_case (208-239) and toALLCAP_CASE (262-293), which differ only in the
    letter conversion [conv]; in tosnake_case a later character that is not upper case is copied
    (236), which is what to_lower does to it. *)
Fixpoint snake_loop (conv : ascii -> ascii) (allup first isUp hasUS : bool) (s : text) : text :=
  match s with
  | [] => []
  | c :: t =>
      if is_us c then
        if hasUS then snake_loop conv allup false isUp hasUS t
        else c :: snake_loop conv allup false isUp true t
      else if first then conv c :: snake_loop conv allup false (is_upper c) false t
      else if is_upper c then
        (if negb hasUS && negb (allup && isUp) then [US] else [])
          ++ conv c :: snake_loop conv allup false true false t
      else conv c :: snake_loop conv allup false false false t
  end.

(** name_style.go:198-242, 252-296 *)
Definition snake_seg (s : text) : text :=
  let '(p, m, q) := cut3 s in p ++ snake_loop to_lower (is_all_upper m) true false false m ++ q.
Definition allcap_seg (s : text) : text :=
  let '(p, m, q) := cut3 s in p ++ snake_loop to_upper (is_all_upper m) true false false m ++ q.

(** strings.Split(s, ".") and Join(_, "."): 91-97, 138-144, 190-196, 244-250 *)
Fixpoint split_dot (s : text) : list text :=
  match s with
  | [] => [[]]
  | c :: t => if Ascii.eqb c DOT then [] :: split_dot t
              else match split_dot t with l :: r => (c :: l) :: r | [] => [[c]] end
  end.
Fixpoint join_dot (l : list text) : text :=
  match l with [] => [] | [x] => x | x :: r => x ++ DOT :: join_dot r end.
Definition per_seg (f : text -> text) (s : text) : text := join_dot (map f (split_dot s)).

Definition to_pascal := per_seg pascal_seg.
Definition to_camel := per_seg camel_seg.
Definition to_snake := per_seg snake_seg.
Definition to_allcap := per_seg allcap_seg.

(** ** Character facts, by inspection of the 256 characters *)
Ltac all_ascii := intros [[] [] [] [] [] [] [] []]; vm_compute; try reflexivity; try discriminate; auto.

Lemma lower_us c : is_us (to_lower c) = is_us c. Proof. revert c. all_ascii. Qed.
Lemma upper_us c : is_us (to_upper c) = is_us c. Proof. revert c. all_ascii. Qed.
Lemma lower_not_upper c : is_upper (to_lower c) = false. Proof. revert c. all_ascii. Qed.
Lemma lower_idem c : to_lower (to_lower c) = to_lower c. Proof. revert c. all_ascii. Qed.
Lemma upper_idem c : to_upper (to_upper c) = to_upper c. Proof. revert c. all_ascii. Qed.
Lemma lower_id c : is_upper c = false -> to_lower c = c.
Proof. unfold to_lower. intros ->. reflexivity. Qed.
Lemma upper_of_upper c : is_upper c = true -> to_upper c = c. Proof. revert c. all_ascii. Qed.
Lemma us_is c : is_us c = true -> c = US. Proof. apply Ascii.eqb_eq. Qed.
Lemma us_not_upper : is_upper US = false. Proof. reflexivity. Qed.
Lemma lower_dot c : Ascii.eqb (to_lower c) DOT = Ascii.eqb c DOT. Proof. revert c. all_ascii. Qed.
Lemma upper_dot c : Ascii.eqb (to_upper c) DOT = Ascii.eqb c DOT. Proof. revert c. all_ascii. Qed.
Lemma lower_letter c : is_letter c = true -> is_lower (to_lower c) = true. Proof. revert c. all_ascii. Qed.
Lemma lower_not_allup c : is_lower c = true -> is_us c || is_upper c || is_digit c = false.
Proof. revert c. all_ascii. Qed.

(** ** Cutting underscores *)
Lemma cut_prefix_spec s : let '(p, r) := cut_prefix s in
  s = p ++ r /\ forallb is_us p = true /\ match r with [] => True | c :: _ => is_us c = false end.
Proof.
  induction s as [|c t IH]; cbn [cut_prefix]; [auto|].
  destruct (is_us c) eqn:E.
  - destruct (cut_prefix t) as [p r]. destruct IH as (-> & H1 & H2). cbn. rewrite E. auto.
  - auto.
Qed.

Lemma cut_prefix_app p r : forallb is_us p = true ->
  match r with [] => True | c :: _ => is_us c = false end -> cut_prefix (p ++ r) = (p, r).
Proof.
  intros Hp Hr. induction p as [|c p IH]; cbn [app].
  - destruct r as [|c r]; [reflexivity|]. cbn. rewrite Hr. reflexivity.
  - cbn in Hp. apply andb_true_iff in Hp as [Hc Hp]. cbn. rewrite Hc, IH by assumption. reflexivity.
Qed.

Definition no_us_head (m : text) : Prop := match m with [] => True | c :: _ => is_us c = false end.
Definition core (m : text) : Prop := no_us_head m /\ no_us_head (rev m).

Lemma forallb_rev {A} (f : A -> bool) l : forallb f (rev l) = forallb f l.
Proof.
  induction l as [|x l IH]; [reflexivity|]. cbn [rev]. rewrite forallb_app, IH. cbn. rewrite andb_true_r.
  apply andb_comm.
Qed.

Lemma cut3_spec s : let '(p, m, q) := cut3 s in
  s = p ++ m ++ q /\ forallb is_us p = true /\ forallb is_us q = true /\ core m /\ (m = [] -> q = []).
Proof.
  unfold cut3, cut_suffix. pose proof (cut_prefix_spec s) as H. destruct (cut_prefix s) as [p s1].
  destruct H as (-> & Hp & H1). pose proof (cut_prefix_spec (rev s1)) as H.
  destruct (cut_prefix (rev s1)) as [q m]. destruct H as (E & Hq & H2).
  assert (E1 : s1 = rev m ++ rev q).
  { rewrite <- (rev_involutive s1), E, rev_app_distr. reflexivity. }
  repeat split; auto.
  - rewrite E1. reflexivity.
  - rewrite forallb_rev. exact Hq.
  - unfold no_us_head. destruct (rev m) as [|c t] eqn:Em; [exact I|]. rewrite E1 in H1. cbn in H1. exact H1.
  - unfold no_us_head. rewrite rev_involutive. exact H2.
  - intros Em. rewrite Em in E1. cbn in E1. subst s1. destruct (rev q) as [|c t] eqn:Eq; [reflexivity|].
    exfalso. assert (F : forallb is_us (c :: t) = true) by (rewrite <- Eq, forallb_rev; exact Hq).
    cbn in F. rewrite H1 in F. discriminate.
Qed.

Lemma cut3_app p m q : forallb is_us p = true -> forallb is_us q = true -> core m ->
  (m = [] -> q = []) -> cut3 (p ++ m ++ q) = (p, m, q).
Proof.
  intros Hp Hq [H1 H2] H3. unfold cut3, cut_suffix. rewrite cut_prefix_app; auto.
  - rewrite rev_app_distr. rewrite cut_prefix_app.
    + rewrite !rev_involutive. reflexivity.
    + rewrite forallb_rev. exact Hq.
    + exact H2.
  - destruct m as [|c m]; [rewrite (H3 eq_refl); exact I|exact H1].
Qed.

(** A conversion that keeps the outer underscores and maps cores to cores. *)
Lemma seg_twice (L : text -> text) s :
  (forall m, core m -> core (L m) /\ (L m = [] -> m = [])) ->
  let f := fun s => let '(p, m, q) := cut3 s in p ++ L m ++ q in
  (let '(p, m, q) := cut3 s in L (L m) = L m) -> f (f s) = f s.
Proof.
  intros HL f H. unfold f at 2 3. pose proof (cut3_spec s) as C. destruct (cut3 s) as [[p m] q].
  destruct C as (_ & Hp & Hq & Hm & Hn). destruct (HL m Hm) as [Hc He]. unfold f.
  rewrite cut3_app; auto. rewrite H. reflexivity.
Qed.

(** ** The snake/ALLCAP loop keeps cores *)
Section SnakeLoop.
Variable conv : ascii -> ascii.
Hypothesis conv_us : forall c, is_us (conv c) = is_us c.

Lemma snake_loop_last allup m : forall first isUp hasUS c,
  is_us c = false -> exists t, snake_loop conv allup first isUp hasUS (m ++ [c]) = t ++ [conv c].
Proof.
  induction m as [|d m IH]; intros first isUp hasUS c Hc; cbn [app snake_loop].
  - rewrite Hc. destruct first; [exists []; reflexivity|].
    destruct (is_upper c); [|exists []; reflexivity].
    destruct (negb hasUS && negb (allup && isUp)); [exists [US]; reflexivity|exists []; reflexivity].
  - assert (W : forall x f i h, exists t, x :: snake_loop conv allup f i h (m ++ [c]) = t ++ [conv c]).
    { intros x f i h. destruct (IH f i h c Hc) as [t ->]. exists (x :: t). reflexivity. }
    destruct (is_us d).
    + destruct hasUS; [apply IH; exact Hc|apply W].
    + destruct first; [apply W|]. destruct (is_upper d); [|apply W].
      destruct (negb hasUS && negb (allup && isUp)); cbn [app]; [|apply W].
      destruct (W (conv d) false true false) as [t ->]. exists (US :: t). reflexivity.
Qed.

Lemma snake_loop_core allup m : core m ->
  core (snake_loop conv allup true false false m) /\
  (snake_loop conv allup true false false m = [] -> m = []).
Proof.
  intros [H1 H2]. destruct m as [|c m]; [split; [split; exact I|auto]|].
  split.
  - split.
    + cbn [snake_loop]. cbn in H1. rewrite H1. cbn. rewrite conv_us. exact H1.
    + destruct (exists_last (l := c :: m) ltac:(discriminate)) as (m' & d & E).
      rewrite E in *. rewrite rev_app_distr in H2. cbn in H2.
      destruct (snake_loop_last allup m' true false false d H2) as [t ->].
      rewrite rev_app_distr. cbn. rewrite conv_us. exact H2.
  - cbn [snake_loop]. cbn in H1. rewrite H1. discriminate.
Qed.

(** Shape of the output: no two underscores in a row (given the flag), every letter converted. *)
Fixpoint single_us (hasUS : bool) (s : text) : bool :=
  match s with
  | [] => true
  | c :: t => if is_us c then negb hasUS && single_us true t else single_us false t
  end.

Lemma snake_loop_single allup m : forall first isUp hasUS,
  (first = true -> hasUS = false /\ no_us_head m) ->
  single_us hasUS (snake_loop conv allup first isUp hasUS m) = true.
Proof.
  induction m as [|c m IH]; intros first isUp hasUS Hf; cbn [snake_loop]; [reflexivity|].
  assert (Wc : forall h f i, is_us c = false ->
     single_us h (conv c :: snake_loop conv allup false f i m) =
     single_us false (snake_loop conv allup false f i m)).
  { intros h f i Hc. cbn [single_us]. rewrite conv_us, Hc. reflexivity. }
  destruct (is_us c) eqn:Ec.
  - destruct hasUS.
    + apply IH. discriminate.
    + cbn [single_us]. rewrite Ec. cbn [negb andb]. apply IH. discriminate.
  - destruct first.
    + rewrite Wc by reflexivity. apply IH. discriminate.
    + destruct (is_upper c).
      * destruct hasUS; cbn [negb andb app].
        -- rewrite Wc by reflexivity. apply IH. discriminate.
        -- destruct (negb (allup && isUp)); cbn [app].
           ++ cbn [single_us]. change (is_us US) with true. cbn [negb andb].
              rewrite conv_us, Ec. apply IH. discriminate.
           ++ rewrite Wc by reflexivity. apply IH. discriminate.
      * rewrite Wc by reflexivity. apply IH. discriminate.
Qed.

Lemma snake_loop_forall allup (P : ascii -> Prop) : P US -> (forall c, P (conv c)) ->
  forall m first isUp hasUS, Forall P (snake_loop conv allup first isUp hasUS m).
Proof.
  intros H0 H1. induction m as [|c m IH]; intros first isUp hasUS; cbn [snake_loop]; [constructor|].
  destruct (is_us c) eqn:Ec.
  - destruct hasUS; [apply IH|]. apply us_is in Ec. subst c. constructor; auto.
  - destruct first; [constructor; auto|]. destruct (is_upper c); [|constructor; auto].
    destruct (negb hasUS && negb (allup && isUp)); cbn [app]; [constructor; auto|]; constructor; auto.
Qed.

End SnakeLoop.

Lemma snake_loop_fix allup m : forall first isUp hasUS,
  Forall (fun c => is_upper c = false) m -> single_us hasUS m = true ->
  snake_loop to_lower allup first isUp hasUS m = m.
Proof.
  induction m as [|c m IH]; intros first isUp hasUS HF HS; cbn [snake_loop]; [reflexivity|].
  inversion HF as [|? ? Hc HF']; subst. cbn [single_us] in HS. destruct (is_us c) eqn:Ec.
  - apply andb_true_iff in HS as [H1 H2]. destruct hasUS; [discriminate|]. rewrite IH; auto.
  - rewrite Hc, (lower_id c Hc). destruct first; rewrite IH; auto.
Qed.

Lemma snake_seg_idem s : snake_seg (snake_seg s) = snake_seg s.
Proof.
  set (L := fun m => snake_loop to_lower (is_all_upper m) true false false m).
  apply (seg_twice L).
  - intros m Hm. apply snake_loop_core; [apply lower_us|exact Hm].
  - pose proof (cut3_spec s) as C. destruct (cut3 s) as [[p m] q]. destruct C as (_ & _ & _ & Hm & _).
    unfold L. apply snake_loop_fix.
    + apply snake_loop_forall; [reflexivity|apply lower_not_upper].
    + apply snake_loop_single; [apply lower_us|]. intros _. split; [reflexivity|apply Hm].
Qed.

(** ** Segments and dots *)
Lemma split_dot_nonempty s : exists l r, split_dot s = l :: r.
Proof.
  induction s as [|c s (l & r & H)]; cbn [split_dot]; [eauto|]. rewrite H. destruct (Ascii.eqb c DOT); eauto.
Qed.
Lemma split_dot_no s : ~ In DOT s -> split_dot s = [s].
Proof.
  induction s as [|c s IH]; cbn [split_dot]; intros H; [reflexivity|].
  destruct (Ascii.eqb_spec c DOT) as [->|]; [exfalso; apply H; left; reflexivity|].
  rewrite IH; [reflexivity|]. intro; apply H; right; assumption.
Qed.
Lemma split_dot_app s t : ~ In DOT s -> split_dot (s ++ DOT :: t) = s :: split_dot t.
Proof.
  induction s as [|c s IH]; cbn [split_dot app]; intros H; [reflexivity|].
  destruct (Ascii.eqb_spec c DOT) as [->|]; [exfalso; apply H; left; reflexivity|].
  rewrite IH; [reflexivity|]. intro; apply H; right; assumption.
Qed.
Lemma split_join_dot l : l <> [] -> Forall (fun s => ~ In DOT s) l -> split_dot (join_dot l) = l.
Proof.
  induction l as [|x r IH]; intros Hn H; [contradiction|]. inversion H; subst. destruct r as [|y r].
  - cbn. apply split_dot_no. assumption.
  - change (join_dot (x :: y :: r)) with (x ++ DOT :: join_dot (y :: r)).
    rewrite split_dot_app by assumption. rewrite IH; [reflexivity|discriminate|assumption].
Qed.
Lemma split_dot_segs s : Forall (fun l => ~ In DOT l) (split_dot s).
Proof.
  induction s as [|c s IH]; cbn [split_dot]; [constructor; auto|].
  destruct (split_dot_nonempty s) as (l & r & E). rewrite E in *. inversion IH; subst.
  destruct (Ascii.eqb_spec c DOT); constructor; auto. intros [H|H]; auto.
Qed.

(** Idempotence lifts from segments to dotted names. *)
Lemma per_seg_idem f s :
  (forall t, ~ In DOT t -> ~ In DOT (f t)) ->
  (forall t, In t (split_dot s) -> f (f t) = f t) ->
  per_seg f (per_seg f s) = per_seg f s.
Proof.
  intros Hd Hi. unfold per_seg. rewrite split_join_dot.
  - f_equal. rewrite map_map. apply map_ext_in. exact Hi.
  - destruct (split_dot_nonempty s) as (l & r & ->). discriminate.
  - pose proof (split_dot_segs s) as F. rewrite Forall_map. revert F. apply Forall_impl. exact Hd.
Qed.

Lemma cut3_parts s : let '(p, m, q) := cut3 s in forall c, In c s <-> In c p \/ In c m \/ In c q.
Proof.
  pose proof (cut3_spec s) as H. destruct (cut3 s) as [[p m] q]. destruct H as (-> & _).
  intros c. rewrite !in_app_iff. tauto.
Qed.

Lemma snake_loop_dot conv allup : (forall c, Ascii.eqb (conv c) DOT = Ascii.eqb c DOT) ->
  forall m first isUp hasUS, ~ In DOT m -> ~ In DOT (snake_loop conv allup first isUp hasUS m).
Proof.
  intros Hc. induction m as [|c m IH]; intros first isUp hasUS H; cbn [snake_loop]; [intros []|].
  assert (H1 : c <> DOT) by (intros ->; apply H; left; reflexivity).
  assert (H2 : ~ In DOT m) by (intro; apply H; right; assumption).
  assert (H3 : conv c <> DOT).
  { intros E. specialize (Hc c). rewrite E in Hc. rewrite Ascii.eqb_refl in Hc.
    symmetry in Hc. apply Ascii.eqb_eq in Hc. contradiction. }
  assert (W : forall x f i h, x <> DOT -> ~ In DOT (x :: snake_loop conv allup f i h m)).
  { intros x f i h Hx [E|E]; [contradiction|]. exact (IH _ _ _ H2 E). }
  destruct (is_us c).
  - destruct hasUS; [apply IH; exact H2|apply W; exact H1].
  - destruct first; [apply W; exact H3|]. destruct (is_upper c); [|apply W; exact H3].
    destruct (negb hasUS && negb (allup && isUp)); cbn [app]; [|apply W; exact H3].
    intros [E|E]; [discriminate|]. revert E. apply W; exact H3.
Qed.

Lemma pascal_loop_dot allup m : forall d i, ~ In DOT m -> ~ In DOT (pascal_loop allup d i m).
Proof.
  induction m as [|c m IH]; intros d i H; cbn [pascal_loop]; [intros []|].
  assert (H1 : c <> DOT) by (intros ->; apply H; left; reflexivity).
  assert (H2 : ~ In DOT m) by (intro; apply H; right; assumption).
  assert (Hu : to_upper c <> DOT).
  { intros E. pose proof (upper_dot c) as Q. rewrite E, Ascii.eqb_refl in Q. symmetry in Q.
    apply Ascii.eqb_eq in Q. contradiction. }
  assert (Hl : to_lower c <> DOT).
  { intros E. pose proof (lower_dot c) as Q. rewrite E, Ascii.eqb_refl in Q. symmetry in Q.
    apply Ascii.eqb_eq in Q. contradiction. }
  destruct (is_us c); [apply IH; exact H2|].
  destruct d; [intros [E|E]; [contradiction|exact (IH _ _ H2 E)]|].
  destruct (allup && i); intros [E|E]; try contradiction; exact (IH _ _ H2 E).
Qed.

Lemma camel_loop_dot allup m : forall f d i, ~ In DOT m -> ~ In DOT (camel_loop allup f d i m).
Proof.
  induction m as [|c m IH]; intros f d i H; cbn [camel_loop]; [intros []|].
  assert (H1 : c <> DOT) by (intros ->; apply H; left; reflexivity).
  assert (H2 : ~ In DOT m) by (intro; apply H; right; assumption).
  assert (Hu : to_upper c <> DOT).
  { intros E. pose proof (upper_dot c) as Q. rewrite E, Ascii.eqb_refl in Q. symmetry in Q.
    apply Ascii.eqb_eq in Q. contradiction. }
  assert (Hl : to_lower c <> DOT).
  { intros E. pose proof (lower_dot c) as Q. rewrite E, Ascii.eqb_refl in Q. symmetry in Q.
    apply Ascii.eqb_eq in Q. contradiction. }
  destruct (is_us c); [apply IH; exact H2|].
  destruct f; [intros [E|E]; [contradiction|exact (IH _ _ _ H2 E)]|].
  destruct d; [intros [E|E]; [contradiction|exact (IH _ _ _ H2 E)]|].
  destruct (allup && i); intros [E|E]; try contradiction; exact (IH _ _ _ H2 E).
Qed.

Lemma seg_dot (L : text -> text) t :
  (forall m, ~ In DOT m -> ~ In DOT (L m)) -> ~ In DOT t ->
  ~ In DOT (let '(p, m, q) := cut3 t in p ++ L m ++ q).
Proof.
  intros HL Ht. pose proof (cut3_parts t) as H. destruct (cut3 t) as [[p m] q].
  rewrite !in_app_iff. intros [E|[E|E]]; [apply Ht, H; auto| |apply Ht, H; auto].
  revert E. apply HL. intro E. apply Ht, H. auto.
Qed.

(** C36.  snake_case conversion is idempotent on every name. *)
Theorem C36_snake_idempotent : forall s, to_snake (to_snake s) = to_snake s.
Proof.
  intros s. apply per_seg_idem.
  - intros t Ht. apply (seg_dot (fun m => snake_loop to_lower (is_all_upper m) true false false m));
      [|exact Ht]. intros m. apply snake_loop_dot. apply lower_dot.
  - intros t _. apply snake_seg_idem.
Qed.

(** ** camelCase *)
Lemma camel_loop_last allup m : forall f d i c, is_us c = false ->
  exists t x, camel_loop allup f d i (m ++ [c]) = t ++ [x] /\ is_us x = false.
Proof.
  induction m as [|e m IH]; intros f d i c Hc; cbn [app camel_loop].
  - rewrite Hc. assert (Hl := lower_us c). assert (Hu := upper_us c). rewrite Hc in Hl, Hu.
    destruct f; [exists [], (to_lower c); auto|]. destruct d; [exists [], (to_upper c); auto|].
    destruct (allup && i); [exists [], (to_lower c)|exists [], c]; auto.
  - assert (W : forall y f d i, exists t x, y :: camel_loop allup f d i (m ++ [c]) = t ++ [x] /\ is_us x = false).
    { intros y f0 d0 i0. destruct (IH f0 d0 i0 c Hc) as (t & x & -> & Hx). exists (y :: t), x. auto. }
    destruct (is_us e); [apply IH; exact Hc|]. destruct f; [apply W|]. destruct d; [apply W|].
    destruct (allup && i); apply W.
Qed.

Lemma camel_loop_no_us allup m : forall f d i, forallb (fun c => negb (is_us c)) (camel_loop allup f d i m) = true.
Proof.
  induction m as [|e m IH]; intros f d i; cbn [camel_loop]; [reflexivity|].
  destruct (is_us e) eqn:E; [apply IH|].
  destruct f; [cbn; rewrite lower_us, E; apply IH|].
  destruct d; [cbn; rewrite upper_us, E; apply IH|].
  destruct (allup && i); cbn; rewrite ?lower_us, E; apply IH.
Qed.

Lemma camel_loop_core allup m : core m ->
  core (camel_loop allup true false false m) /\ (camel_loop allup true false false m = [] -> m = []).
Proof.
  intros [H1 H2]. destruct m as [|c m]; [split; [split; exact I|auto]|]. split.
  - split.
    + cbn [camel_loop]. cbn in H1. rewrite H1. cbn. rewrite lower_us. exact H1.
    + destruct (exists_last (l := c :: m) ltac:(discriminate)) as (m' & d & E). rewrite E in *.
      rewrite rev_app_distr in H2. cbn in H2.
      destruct (camel_loop_last allup m' true false false d H2) as (t & x & -> & Hx).
      rewrite rev_app_distr. cbn. exact Hx.
  - cbn [camel_loop]. cbn in H1. rewrite H1. discriminate.
Qed.

Lemma camel_loop_copy m : forall i, forallb (fun c => negb (is_us c)) m = true ->
  camel_loop false false false i m = m.
Proof.
  induction m as [|c m IH]; intros i H; cbn [camel_loop]; [reflexivity|].
  cbn in H. apply andb_true_iff in H as [H1 H2]. apply negb_true_iff in H1. rewrite H1. cbn [andb].
  rewrite IH by exact H2. reflexivity.
Qed.

Definition first_letter (s : text) : Prop :=
  forall c t, snd (cut_prefix s) = c :: t -> is_letter c = true.

Lemma cut3_mid_head s : let '(p, m, q) := cut3 s in
  match m with [] => True | c :: _ => exists t, snd (cut_prefix s) = c :: t end.
Proof.
  unfold cut3, cut_suffix. pose proof (cut_prefix_spec s) as Hs. destruct (cut_prefix s) as [p s1].
  pose proof (cut_prefix_spec (rev s1)) as H. destruct (cut_prefix (rev s1)) as [q m].
  destruct H as (E & _). destruct (rev m) as [|c t] eqn:Em; [exact I|]. exists (t ++ rev q). cbn [snd].
  rewrite <- (rev_involutive s1), E, rev_app_distr, Em. reflexivity.
Qed.

Lemma camel_seg_idem s : first_letter s -> camel_seg (camel_seg s) = camel_seg s.
Proof.
  intros Hf. set (L := fun m => camel_loop (is_all_upper m) true false false m).
  apply (seg_twice L); [intros m; apply camel_loop_core|].
  pose proof (cut3_mid_head s) as Hh. pose proof (cut3_spec s) as C.
  destruct (cut3 s) as [[p m] q]. destruct C as (_ & _ & _ & [Hm _] & _).
  destruct m as [|c m]; [reflexivity|]. destruct Hh as [t Ht]. specialize (Hf c t Ht).
  cbn in Hm. unfold L. cbn [camel_loop]. rewrite Hm. set (a := is_all_upper (c :: m)).
  pose proof (camel_loop_no_us a m false false (is_upper c)) as Hn.
  set (r := camel_loop a false false (is_upper c) m) in *.
  assert (Ha : is_all_upper (to_lower c :: r) = false).
  { unfold is_all_upper. cbn [forallb]. rewrite lower_not_allup by (apply lower_letter; exact Hf). reflexivity. }
  rewrite Ha. cbn [camel_loop]. rewrite lower_us, Hm, lower_idem, camel_loop_copy by exact Hn. reflexivity.
Qed.

(** C36.  camelCase conversion is idempotent on names whose segments start (after underscores)
    with a letter. *)
Theorem C36_camel_idempotent : forall s, (forall t, In t (split_dot s) -> first_letter t) ->
  to_camel (to_camel s) = to_camel s.
Proof.
  intros s H. apply per_seg_idem.
  - intros t Ht. apply (seg_dot (fun m => camel_loop (is_all_upper m) true false false m)); [|exact Ht].
    intros m. apply camel_loop_dot.
  - intros t Hin. apply camel_seg_idem. apply H. exact Hin.
Qed.

(** ** PascalCase *)
Lemma pascal_loop_last allup m : forall d i c, is_us c = false ->
  exists t x, pascal_loop allup d i (m ++ [c]) = t ++ [x] /\ is_us x = false.
Proof.
  induction m as [|e m IH]; intros d i c Hc; cbn [app pascal_loop].
  - rewrite Hc. assert (Hl := lower_us c). assert (Hu := upper_us c). rewrite Hc in Hl, Hu.
    destruct d; [exists [], (to_upper c); auto|].
    destruct (allup && i); [exists [], (to_lower c)|exists [], c]; auto.
  - assert (W : forall y d i, exists t x, y :: pascal_loop allup d i (m ++ [c]) = t ++ [x] /\ is_us x = false).
    { intros y d0 i0. destruct (IH d0 i0 c Hc) as (t & x & -> & Hx). exists (y :: t), x. auto. }
    destruct (is_us e); [apply IH; exact Hc|]. destruct d; [apply W|]. destruct (allup && i); apply W.
Qed.

Lemma pascal_loop_no_us allup m : forall d i, forallb (fun c => negb (is_us c)) (pascal_loop allup d i m) = true.
Proof.
  induction m as [|e m IH]; intros d i; cbn [pascal_loop]; [reflexivity|].
  destruct (is_us e) eqn:E; [apply IH|]. destruct d; [cbn; rewrite upper_us, E; apply IH|].
  destruct (allup && i); cbn; rewrite ?lower_us, E; apply IH.
Qed.

Lemma pascal_loop_core allup m : core m ->
  core (pascal_loop allup true false m) /\ (pascal_loop allup true false m = [] -> m = []).
Proof.
  intros [H1 H2]. destruct m as [|c m]; [split; [split; exact I|auto]|]. split.
  - split.
    + cbn [pascal_loop]. cbn in H1. rewrite H1. cbn. rewrite upper_us. exact H1.
    + destruct (exists_last (l := c :: m) ltac:(discriminate)) as (m' & d & E). rewrite E in *.
      rewrite rev_app_distr in H2. cbn in H2.
      destruct (pascal_loop_last allup m' true false d H2) as (t & x & -> & Hx).
      rewrite rev_app_distr. cbn. exact Hx.
  - cbn [pascal_loop]. cbn in H1. rewrite H1. discriminate.
Qed.

Lemma pascal_loop_copy m : forall i, forallb (fun c => negb (is_us c)) m = true ->
  pascal_loop false false i m = m.
Proof.
  induction m as [|c m IH]; intros i H; cbn [pascal_loop]; [reflexivity|].
  cbn in H. apply andb_true_iff in H as [H1 H2]. apply negb_true_iff in H1. rewrite H1. cbn [andb].
  rewrite IH by exact H2. reflexivity.
Qed.

Lemma pascal_seg_idem s : (exists c, In c (pascal_seg s) /\ is_lower c = true) ->
  pascal_seg (pascal_seg s) = pascal_seg s.
Proof.
  intros (x & Hx & Hlow). set (L := fun m => pascal_loop (is_all_upper m) true false m).
  apply (seg_twice L); [intros m; apply pascal_loop_core|].
  unfold pascal_seg in Hx. pose proof (cut3_spec s) as C.
  destruct (cut3 s) as [[p m] q]. destruct C as (_ & Hp & Hq & [Hm _] & _).
  assert (Hus : forall l, forallb is_us l = true -> ~ In x l).
  { intros l Hl Hi. rewrite forallb_forall in Hl. specialize (Hl x Hi). apply us_is in Hl. subst. discriminate. }
  apply in_app_or in Hx as [Hx|Hx]; [exfalso; exact (Hus p Hp Hx)|].
  apply in_app_or in Hx as [Hx|Hx]; [|exfalso; exact (Hus q Hq Hx)].
  fold (L m) in Hx.
  assert (Ha : is_all_upper (L m) = false).
  { unfold is_all_upper. destruct (L m) as [|c r] eqn:E; [reflexivity|].
    apply not_true_iff_false. intros F. rewrite forallb_forall in F. specialize (F x Hx).
    rewrite lower_not_allup in F by exact Hlow. discriminate. }
  unfold L at 1. rewrite Ha.
  pose proof (pascal_loop_no_us (is_all_upper m) m true false) as Hn. fold (L m) in Hn.
  destruct m as [|c m]; [reflexivity|]. cbn in Hm. unfold L in *. cbn [pascal_loop] in *. rewrite Hm in *.
  cbn [pascal_loop]. rewrite upper_us, Hm, upper_idem.
  rewrite pascal_loop_copy; [reflexivity|]. apply pascal_loop_no_us.
Qed.

(** C36.  PascalCase conversion is idempotent on names each of whose converted segments has a
    lower-case letter. *)
Theorem C36_pascal_idempotent : forall s,
  (forall t, In t (split_dot s) -> exists c, In c (pascal_seg t) /\ is_lower c = true) ->
  to_pascal (to_pascal s) = to_pascal s.
Proof.
  intros s H. apply per_seg_idem.
  - intros t Ht. apply (seg_dot (fun m => pascal_loop (is_all_upper m) true false m)); [|exact Ht].
    intros m. apply pascal_loop_dot.
  - intros t Hin. apply pascal_seg_idem. apply H. exact Hin.
Qed.

(** ** ALLCAP_CASE *)
(** Every upper-case letter but the first follows an upper-case letter or an underscore. *)
Fixpoint caps_ok (isUp hasUS : bool) (s : text) : bool :=
  match s with
  | [] => true
  | c :: t => if is_us c then caps_ok isUp true t
              else if is_upper c then (hasUS || isUp) && caps_ok true false t
              else caps_ok false false t
  end.

Lemma allcap_fix allup m : forall first isUp hasUS,
  allup = true \/ Forall (fun c => is_upper c = false) m ->
  (first = true -> isUp = false /\ hasUS = false) ->
  Forall (fun c => to_upper c = c) m -> single_us hasUS m = true ->
  (first = false -> caps_ok isUp hasUS m = true) ->
  (first = true -> match m with [] => True | c :: t => caps_ok (is_upper c) false t = true end) ->
  snake_loop to_upper allup first isUp hasUS m = m.
Proof.
  induction m as [|c m IH]; intros first isUp hasUS HA H0 HF HS HC HC1; cbn [snake_loop]; [reflexivity|].
  inversion HF as [|? ? Hc HF']; subst.
  assert (HA' : allup = true \/ Forall (fun c => is_upper c = false) m)
    by (destruct HA as [|HA]; [auto|right; inversion HA; auto]).
  cbn [single_us] in HS. destruct (is_us c) eqn:Ec.
  - apply andb_true_iff in HS as [H1 H2]. destruct hasUS; [discriminate|].
    rewrite IH; auto; try discriminate. intros _. destruct first.
    + specialize (HC1 eq_refl). destruct (H0 eq_refl) as [-> _].
      apply us_is in Ec. subst c. rewrite us_not_upper in HC1.
      clear - HC1. destruct m as [|d m]; [reflexivity|]. cbn [caps_ok] in *.
      destruct (is_us d); [exact HC1|]. destruct (is_upper d); [discriminate|exact HC1].
    + specialize (HC eq_refl). cbn [caps_ok] in HC. rewrite Ec in HC. exact HC.
  - destruct first.
    + rewrite Hc, IH; auto; discriminate.
    + specialize (HC eq_refl). cbn [caps_ok] in HC. rewrite Ec in HC. destruct (is_upper c) eqn:Eu.
      * apply andb_true_iff in HC as [Hh HC].
        assert (E : negb hasUS && negb (allup && isUp) = false).
        { destruct hasUS; [reflexivity|]. cbn [orb] in Hh. subst isUp. rewrite andb_true_r.
          destruct HA as [->|HA]; [reflexivity|]. inversion HA; congruence. }
        rewrite E. cbn [app]. rewrite Hc, IH; auto; discriminate.
      * rewrite Hc, IH; auto; discriminate.
Qed.

Definition identc (c : ascii) : bool := is_letter c || is_digit c || is_us c.
Lemma upper_allupc c : identc c = true -> is_us (to_upper c) || is_upper (to_upper c) || is_digit (to_upper c) = true.
Proof. revert c. all_ascii. Qed.

(** No letter directly after a digit. *)
Fixpoint no_digit_letter (s : text) : bool :=
  match s with
  | c :: (d :: _) as t => negb (is_digit c && is_letter d) && no_digit_letter t
  | _ => true
  end.

Lemma ndl_tail c t : no_digit_letter (c :: t) = true -> no_digit_letter t = true.
Proof. destruct t; cbn [no_digit_letter]; [reflexivity|]. intros H. apply andb_true_iff in H as [_ H]. exact H. Qed.

(** In a string of upper-case letters, digits and underscores, caps_ok is exactly that. *)
Lemma caps_of_ndl t : forall c, (is_us c || is_upper c || is_digit c = true) ->
  Forall (fun c => is_us c || is_upper c || is_digit c = true) t ->
  no_digit_letter (c :: t) = true -> forall u,
  caps_ok (if is_us c then u else is_upper c) (is_us c) t = true.
Proof.
  induction t as [|d t IH]; intros c Hc HF HN u; [reflexivity|].
  inversion HF as [|? ? Hd HF']; subst. pose proof (ndl_tail _ _ HN) as HN'.
  specialize (IH d Hd HF' HN'). cbn [caps_ok]. destruct (is_us d) eqn:Ed.
  - apply IH.
  - destruct (is_upper d) eqn:Eu; [|apply (IH false)].
    cbn [no_digit_letter] in HN. apply andb_true_iff in HN as [HN _].
    unfold is_letter in HN. rewrite Eu in HN. cbn [orb] in HN. rewrite andb_true_r in HN.
    apply negb_true_iff in HN. rewrite HN, orb_false_r in Hc.
    rewrite (IH true), andb_true_r. destruct (is_us c); [reflexivity|]. exact Hc.
Qed.

Lemma snake_loop_ident allup m : forall first isUp hasUS, Forall (fun c => identc c = true) m ->
  Forall (fun c => is_us c || is_upper c || is_digit c = true) (snake_loop to_upper allup first isUp hasUS m).
Proof.
  induction m as [|c m IH]; intros first isUp hasUS H; cbn [snake_loop]; [constructor|].
  inversion H as [|? ? Hc H']; subst. pose proof (upper_allupc c Hc) as Hu.
  destruct (is_us c) eqn:Ec.
  - destruct hasUS; [apply IH; exact H'|]. constructor; [rewrite Ec; reflexivity|apply IH; exact H'].
  - destruct first; [constructor; auto|]. destruct (is_upper c); [|constructor; auto].
    destruct (negb hasUS && negb (allup && isUp)); cbn [app]; repeat constructor; auto.
Qed.

Lemma allcap_seg_idem s : Forall (fun c => identc c = true) s ->
  no_digit_letter (allcap_seg s) = true ->
  allcap_seg (allcap_seg s) = allcap_seg s.
Proof.
  intros Hid Hn. set (L := fun m => snake_loop to_upper (is_all_upper m) true false false m).
  apply (seg_twice L).
  { intros m Hm. apply snake_loop_core; [apply upper_us|exact Hm]. }
  unfold allcap_seg in Hn. pose proof (cut3_spec s) as C. destruct (cut3 s) as [[p m] q].
  destruct C as (Es & Hp & Hq & [Hm1 Hm2] & _). fold (L m) in Hn.
  assert (HmF : Forall (fun c => identc c = true) m).
  { rewrite Es in Hid. apply Forall_app in Hid as [_ Hid]. apply Forall_app in Hid as [Hid _]. exact Hid. }
  pose proof (snake_loop_ident (is_all_upper m) m true false false HmF) as HU. fold (L m) in HU.
  assert (Hnd : no_digit_letter (L m) = true).
  { clear - Hn. assert (G : forall a b, no_digit_letter (a ++ b) = true -> no_digit_letter b = true).
    { induction a as [|x a IH]; intros b H; [exact H|]. apply IH. apply (ndl_tail x). exact H. }
    apply G in Hn. revert Hn. generalize (L m) as l. induction l as [|x l IH]; intros H; [reflexivity|].
    destruct l as [|y l]; [reflexivity|]. cbn [app] in H. cbn [no_digit_letter] in *.
    apply andb_true_iff in H as [-> H]. cbn [andb]. apply IH. exact H. }
  unfold L at 1. destruct (L m) as [|c t] eqn:EL; [reflexivity|].
  assert (Hall : is_all_upper (c :: t) = true).
  { unfold is_all_upper. apply forallb_forall. rewrite Forall_forall in HU. exact HU. }
  rewrite Hall. inversion HU as [|? ? Hc HU']; subst.
  assert (Hcu : is_us c = false).
  { destruct (snake_loop_core to_upper upper_us (is_all_upper m) m (conj Hm1 Hm2)) as [[Hh _] _].
    fold (L m) in Hh. rewrite EL in Hh. exact Hh. }
  apply allcap_fix; auto; try discriminate.
  - rewrite <- EL. apply snake_loop_forall; [reflexivity|apply upper_idem].
  - rewrite <- EL. apply snake_loop_single; [apply upper_us|]. intros _. split; [reflexivity|exact Hm1].
  - intros _. pose proof (caps_of_ndl t c Hc HU' Hnd false) as G. rewrite Hcu in G. exact G.
Qed.

(** C36.  ALLCAP_CASE conversion is idempotent on identifiers whose converted segments have no
    letter directly after a digit. *)
Theorem C36_allcap_idempotent : forall s,
  (forall t, In t (split_dot s) ->
     Forall (fun c => identc c = true) t /\ no_digit_letter (allcap_seg t) = true) ->
  to_allcap (to_allcap s) = to_allcap s.
Proof.
  intros s H. apply per_seg_idem.
  - intros t Ht. apply (seg_dot (fun m => snake_loop to_upper (is_all_upper m) true false false m)); [|exact Ht].
    intros m. apply snake_loop_dot. apply upper_dot.
  - intros t Hin. destruct (H t Hin). apply allcap_seg_idem; assumption.
Qed.

(** Without the side conditions idempotence is false. *)
Theorem C36_camel_pascal_allcap_refuted :
  to_camel (to_camel (txt "_1A_B")) <> to_camel (txt "_1A_B") /\
  to_pascal (to_pascal (txt "A_B")) <> to_pascal (txt "A_B") /\
  to_allcap (to_allcap (txt "hello1world")) <> to_allcap (txt "hello1world").
Proof. repeat split; vm_compute; discriminate. Qed.

Example C36_instance :
  to_snake (txt "com.HelloWorld__x") = txt "com.hello_world_x" /\
  to_camel (txt "HELLO_WORLD") = txt "helloWorld" /\
  to_pascal (txt "__hello_world_") = txt "__HelloWorld_" /\
  to_allcap (txt "helloWorld2") = txt "HELLO_WORLD2" /\
  (forall t, In t (split_dot (txt "HELLO_WORLD")) -> first_letter t) /\
  (forall t, In t (split_dot (txt "__hello_world_")) -> exists c, In c (pascal_seg t) /\ is_lower c = true) /\
  (forall t, In t (split_dot (txt "helloWorld2")) ->
     Forall (fun c => identc c = true) t /\ no_digit_letter (allcap_seg t) = true).
Proof.
  repeat match goal with |- _ /\ _ => split end; try (vm_compute; reflexivity).
  - intros t [<-|[]] c r E. vm_compute in E. injection E as <- <-. reflexivity.
  - intros t [<-|[]]. exists "e"%char. split; [vm_compute; tauto|reflexivity].
  - intros t [<-|[]]. split; [repeat constructor|vm_compute; reflexivity].
Qed.

(** ** C42: distinct names, distinct target identifiers *)

(** Canonical snake_case: lower-case letters and digits, single underscores, every word starting
    with a letter. *)
Fixpoint canon (start : bool) (s : text) : bool :=
  match s with
  | [] => negb start
  | c :: t => if start then is_lower c && canon false t
              else if is_us c then canon true t
              else (is_lower c || is_digit c) && canon false t
  end.

(** The inverse of PascalCase on such names. *)
Fixpoint unpascal (s : text) : text :=
  match s with
  | [] => []
  | c :: t => if is_upper c then US :: to_lower c :: unpascal t else c :: unpascal t
  end.

Lemma lu c : is_lower c = true -> to_lower (to_upper c) = c /\ is_upper (to_upper c) = true /\ is_us c = false.
Proof. revert c. all_ascii. Qed.
Lemma ld_facts c : is_lower c || is_digit c = true -> is_upper c = false. Proof. revert c. all_ascii. Qed.

Lemma unpascal_loop m : forall d, canon d m = true -> forall i,
  unpascal (pascal_loop false d i m) = if d then US :: m else m.
Proof.
  induction m as [|c m IH]; intros d H i; [destruct d; [discriminate|reflexivity]|].
  cbn [canon] in H. cbn [pascal_loop]. destruct d.
  - apply andb_true_iff in H as [Hc H]. destruct (lu c Hc) as (H1 & H2 & H3). rewrite H3.
    cbn [unpascal]. rewrite H2, H1, (IH false H). reflexivity.
  - destruct (is_us c) eqn:Ec.
    + rewrite (IH true H). apply us_is in Ec. subst. reflexivity.
    + apply andb_true_iff in H as [Hc H]. cbn [andb unpascal]. rewrite (ld_facts c Hc), (IH false H). reflexivity.
Qed.

Lemma canon_last m : forall d, canon d m = true -> no_us_head (rev m).
Proof.
  intros d H. destruct m as [|c m] using rev_ind; [exact I|]. clear IHm.
  rewrite rev_app_distr. cbn. revert d H. induction m as [|e m IH]; intros d H; cbn [app canon] in H.
  - destruct d.
    + apply andb_true_iff in H as [H _]. apply lu in H as (_ & _ & H). exact H.
    + destruct (is_us c) eqn:E; [discriminate|reflexivity].
  - destruct d; [apply andb_true_iff in H as [_ H]; eapply IH; eauto|].
    destruct (is_us e); [eapply IH; eauto|]. apply andb_true_iff in H as [_ H]. eapply IH; eauto.
Qed.

Lemma canon_core m : canon true m = true -> core m /\ is_all_upper m = false.
Proof.
  intros H. split; [split|].
  - destruct m as [|c m]; [discriminate|]. cbn in *. apply andb_true_iff in H as [H _].
    apply lu in H as (_ & _ & H). exact H.
  - eapply canon_last; eauto.
  - destruct m as [|c m]; [discriminate|]. cbn in *. apply andb_true_iff in H as [H _].
    rewrite (lower_not_allup c H). reflexivity.
Qed.

Lemma pascal_canon m : canon true m = true -> unpascal (pascal_seg m) = US :: m.
Proof.
  intros H. destruct (canon_core m H) as [Hc Ha]. unfold pascal_seg.
  pose proof (cut3_app [] m [] eq_refl eq_refl Hc (fun _ => eq_refl)) as E.
  rewrite app_nil_r in E. cbn [app] in E. rewrite E, Ha, app_nil_r. cbn [app].
  apply (unpascal_loop m true H).
Qed.

Lemma canon_no_dot m : forall d, canon d m = true -> ~ In DOT m.
Proof.
  induction m as [|c m IH]; intros d H; [intros []|]. cbn [canon] in H. intros [->|Hi].
  - destruct d; discriminate.
  - destruct d; [apply andb_true_iff in H as [_ H]; exact (IH _ H Hi)|].
    destruct (is_us c); [exact (IH _ H Hi)|]. apply andb_true_iff in H as [_ H]. exact (IH _ H Hi).
Qed.

(** C42.  On names in canonical snake_case, PascalCase never merges two of them. *)
Theorem C42_pascal_injective_on_canonical : forall a b,
  canon true a = true -> canon true b = true -> to_pascal a = to_pascal b -> a = b.
Proof.
  intros a b Ha Hb E. unfold to_pascal, per_seg in E.
  rewrite !split_dot_no in E by (eapply canon_no_dot; eauto). cbn [map join_dot] in E.
  apply (f_equal unpascal) in E. rewrite !pascal_canon in E by assumption. congruence.
Qed.

(** In general it does: a struct may have both fields, and gets one Go field name for them. *)
Theorem C42_distinct_names_refuted : exists a b,
  a <> b /\ to_pascal a = to_pascal b /\ to_camel a = to_camel b /\ to_snake a = to_snake b.
Proof. exists (txt "foo_bar"), (txt "fooBar"). repeat split; vm_compute; try reflexivity. discriminate. Qed.

Example C42_instance : canon true (txt "foo_bar2_baz") = true /\ to_pascal (txt "foo_bar2_baz") = txt "FooBar2Baz".
Proof. split; vm_compute; reflexivity. Qed.

(** ** C49: what the conversions keep and what they produce *)
(** Letter case, from the two alphabets. *)
Definition az : text := txt "abcdefghijklmnopqrstuvwxyz".
Definition AZ : text := txt "ABCDEFGHIJKLMNOPQRSTUVWXYZ".
Definition table (l : list (ascii * ascii)) (c : ascii) : ascii :=
  match find (fun p => Ascii.eqb (fst p) c) l with Some p => snd p | None => c end.
Definition upcase := table (combine az AZ).
Definition downcase := table (combine AZ az).
(** A name up to letter case and underscores. *)
Definition skeleton (s : text) : text := map downcase (filter (fun c => negb (Ascii.eqb c "_")) s).

Lemma upcase_eq c : to_upper c = upcase c. Proof. revert c. all_ascii. Qed.
Lemma downcase_eq c : to_lower c = downcase c. Proof. revert c. all_ascii. Qed.
Lemma down_up c : downcase (to_upper c) = downcase c. Proof. revert c. all_ascii. Qed.
Lemma down_low c : downcase (to_lower c) = downcase c. Proof. revert c. all_ascii. Qed.
Lemma skel_app a b : skeleton (a ++ b) = skeleton a ++ skeleton b.
Proof. unfold skeleton. rewrite filter_app, map_app. reflexivity. Qed.
Lemma skel_cons c t : is_us c = false -> skeleton (c :: t) = downcase c :: skeleton t.
Proof. intros H. unfold skeleton. cbn [filter]. change (Ascii.eqb c "_") with (is_us c). rewrite H. reflexivity. Qed.
Lemma skel_us c t : is_us c = true -> skeleton (c :: t) = skeleton t.
Proof. intros H. unfold skeleton. cbn [filter]. change (Ascii.eqb c "_") with (is_us c). rewrite H. reflexivity. Qed.

Lemma pascal_skel a m : forall d i, skeleton (pascal_loop a d i m) = skeleton m.
Proof.
  induction m as [|c m IH]; intros d i; cbn [pascal_loop]; [reflexivity|]. destruct (is_us c) eqn:E.
  - rewrite skel_us by exact E. apply IH.
  - rewrite (skel_cons c m E). destruct d; [|destruct (a && i)]; rewrite skel_cons, ?IH, ?down_up, ?down_low;
      rewrite ?upper_us, ?lower_us; auto.
Qed.
Lemma camel_skel a m : forall f d i, skeleton (camel_loop a f d i m) = skeleton m.
Proof.
  induction m as [|c m IH]; intros f d i; cbn [camel_loop]; [reflexivity|]. destruct (is_us c) eqn:E.
  - rewrite skel_us by exact E. apply IH.
  - rewrite (skel_cons c m E). destruct f; [|destruct d; [|destruct (a && i)]];
      rewrite skel_cons, ?IH, ?down_up, ?down_low; rewrite ?upper_us, ?lower_us; auto.
Qed.
Lemma snake_skel conv a m : (forall c, is_us (conv c) = is_us c) -> (forall c, downcase (conv c) = downcase c) ->
  forall f i h, skeleton (snake_loop conv a f i h m) = skeleton m.
Proof.
  intros H1 H2. induction m as [|c m IH]; intros f i h; cbn [snake_loop]; [reflexivity|]. destruct (is_us c) eqn:E.
  - rewrite (skel_us c m E). destruct h; [apply IH|]. rewrite skel_us by exact E. apply IH.
  - rewrite (skel_cons c m E). destruct f; [|destruct (is_upper c)].
    + rewrite skel_cons, IH, H2 by (rewrite H1; exact E). reflexivity.
    + rewrite skel_app, skel_cons, IH, H2 by (rewrite H1; exact E). destruct (negb h && negb (a && i)); reflexivity.
    + rewrite skel_cons, IH, H2 by (rewrite H1; exact E). reflexivity.
Qed.
Lemma seg_skel (L : text -> text) s : (forall m, skeleton (L m) = skeleton m) ->
  skeleton (let '(p, m, q) := cut3 s in p ++ L m ++ q) = skeleton s.
Proof.
  intros H. pose proof (cut3_spec s) as C. destruct (cut3 s) as [[p m] q]. destruct C as (-> & _).
  rewrite !skel_app, H. reflexivity.
Qed.
Lemma join_split_dot s : join_dot (split_dot s) = s.
Proof.
  induction s as [|c s IH]; cbn [split_dot]; [reflexivity|].
  destruct (split_dot_nonempty s) as (l & r & E). rewrite E in *.
  destruct (Ascii.eqb_spec c DOT) as [->|].
  - change (join_dot ([] :: l :: r)) with (DOT :: join_dot (l :: r)). congruence.
  - destruct r as [|x r]; cbn [join_dot app] in *; congruence.
Qed.
Lemma per_seg_skel f s : (forall t, skeleton (f t) = skeleton t) -> skeleton (per_seg f s) = skeleton s.
Proof.
  intros H. unfold per_seg. rewrite <- (join_split_dot s) at 2. induction (split_dot s) as [|x l IH]; [reflexivity|].
  destruct l as [|y l]; cbn [map join_dot]; [apply H|].
  change (f y :: map f l) with (map f (y :: l)). rewrite !skel_app, H. f_equal.
  change (skeleton ([DOT] ++ join_dot (map f (y :: l))) = skeleton ([DOT] ++ join_dot (y :: l))).
  rewrite !skel_app, IH. reflexivity.
Qed.

(** C49.  No conversion loses, adds or reorders a letter, digit or dot. *)
Theorem C49_letters_kept : forall s,
  skeleton (to_pascal s) = skeleton s /\ skeleton (to_camel s) = skeleton s /\
  skeleton (to_snake s) = skeleton s /\ skeleton (to_allcap s) = skeleton s.
Proof.
  intros s. repeat split; apply per_seg_skel; intros t.
  - apply (seg_skel (fun m => pascal_loop (is_all_upper m) true false m)). intros m. apply pascal_skel.
  - apply (seg_skel (fun m => camel_loop (is_all_upper m) true false false m)). intros m. apply camel_skel.
  - apply (seg_skel (fun m => snake_loop to_lower (is_all_upper m) true false false m)). intros m.
    apply snake_skel; [apply lower_us|apply down_low].
  - apply (seg_skel (fun m => snake_loop to_upper (is_all_upper m) true false false m)). intros m.
    apply snake_skel; [apply upper_us|apply down_up].
Qed.

Lemma forall_join_dot (P : ascii -> Prop) l : P DOT -> Forall (Forall P) l -> Forall P (join_dot l).
Proof.
  intros HD H. induction H as [|x l Hx Hl IH]; [constructor|]. destruct l as [|y l]; [exact Hx|].
  change (join_dot (x :: y :: l)) with (x ++ DOT :: join_dot (y :: l)). apply Forall_app. split; [exact Hx|].
  constructor; assumption.
Qed.
Lemma forall_us (P : ascii -> Prop) p : P US -> forallb is_us p = true -> Forall P p.
Proof.
  intros H Hp. rewrite Forall_forall. intros c Hc. rewrite forallb_forall in Hp. rewrite (us_is c (Hp c Hc)). exact H.
Qed.
Lemma to_upper_not_low c : is_lower (to_upper c) = false. Proof. revert c. all_ascii. Qed.
Lemma in_existsb c l : existsb (Ascii.eqb c) l = true <-> In c l.
Proof.
  rewrite existsb_exists. split.
  - intros (x & Hx & E). apply Ascii.eqb_eq in E. subst. exact Hx.
  - intros H. exists c. split; [exact H|apply Ascii.eqb_refl].
Qed.
Lemma is_lower_in c : is_lower c = true <-> In c az.
Proof.
  rewrite <- in_existsb. replace (is_lower c) with (existsb (Ascii.eqb c) az); [reflexivity|]. revert c. all_ascii.
Qed.
Lemma is_upper_in c : is_upper c = true <-> In c AZ.
Proof.
  rewrite <- in_existsb. replace (is_upper c) with (existsb (Ascii.eqb c) AZ); [reflexivity|]. revert c. all_ascii.
Qed.

(** C49.  snake_case has no capital letter, ALLCAP_CASE no small one. *)
Theorem C49_shape : forall s c,
  (In c (to_snake s) -> ~ In c AZ) /\ (In c (to_allcap s) -> ~ In c az).
Proof.
  intros s c.
  assert (F : forall conv (P : ascii -> Prop), P US -> P DOT -> (forall c, P (conv c)) ->
     Forall P (per_seg (fun s => let '(p, m, q) := cut3 s in p ++ snake_loop conv (is_all_upper m) true false false m ++ q) s)).
  { intros conv P H0 HD H1. apply forall_join_dot; [exact HD|]. rewrite Forall_forall. intros x Hx.
    apply in_map_iff in Hx as (t & <- & _). pose proof (cut3_spec t) as C. destruct (cut3 t) as [[p m] q].
    destruct C as (_ & Hp & Hq & _). apply Forall_app. split; [apply forall_us; assumption|].
    apply Forall_app. split; [|apply forall_us; assumption]. apply snake_loop_forall; assumption. }
  split; intros H Q.
  - apply is_upper_in in Q. pose proof (F to_lower (fun c => is_upper c = false) eq_refl eq_refl lower_not_upper) as G.
    rewrite Forall_forall in G. rewrite (G c H) in Q. discriminate.
  - apply is_lower_in in Q. pose proof (F to_upper (fun c => is_lower c = false) eq_refl eq_refl to_upper_not_low) as G.
    rewrite Forall_forall in G. rewrite (G c H) in Q. discriminate.
Qed.

(** A name made of words: a small letter, then small letters and digits. *)
Definition word (w : text) : Prop :=
  exists c t, w = c :: t /\ In c az /\ forall d, In d t -> In d az \/ In d (txt "0123456789").
Fixpoint underscored (ws : list text) : text :=
  match ws with [] => [] | [w] => w | w :: r => w ++ txt "_" ++ underscored r end.
Definition capitalized (w : text) : text := match w with [] => [] | c :: t => upcase c :: t end.

Lemma is_digit_in c : is_digit c = true <-> In c (txt "0123456789").
Proof.
  rewrite <- in_existsb. replace (is_digit c) with (existsb (Ascii.eqb c) (txt "0123456789")); [reflexivity|]. revert c. all_ascii.
Qed.
Definition wtail (t : text) : Prop := forall d, In d t -> is_lower d || is_digit d = true.
Lemma word_alt w : word w -> exists c t, w = c :: t /\ is_lower c = true /\ wtail t.
Proof.
  intros (c & t & -> & Hc & Ht). exists c, t. split; [reflexivity|]. split; [apply is_lower_in; exact Hc|].
  intros d Hd. apply orb_true_iff. rewrite is_lower_in, is_digit_in. apply Ht. exact Hd.
Qed.
Lemma low_facts c : is_lower c = true -> is_us c = false /\ is_upper c = false /\ to_lower c = c /\ Ascii.eqb c DOT = false.
Proof. revert c. all_ascii. Qed.
Lemma ldg_facts c : is_lower c || is_digit c = true -> is_us c = false /\ is_upper c = false /\ to_lower c = c /\ Ascii.eqb c DOT = false.
Proof. revert c. all_ascii. Qed.

Lemma underscored_cons w ws : underscored (w :: ws) = w ++ match ws with [] => [] | _ => US :: underscored ws end.
Proof. destruct ws; cbn; rewrite ?app_nil_r; reflexivity. Qed.

Lemma pascal_tail t : wtail t -> forall i r, pascal_loop false false i (t ++ r) = t ++ pascal_loop false false (if t then i else false) r.
Proof.
  induction t as [|c t IH]; intros H i r; [reflexivity|]. cbn [app pascal_loop].
  destruct (ldg_facts c (H c (or_introl eq_refl))) as (E & U & _). rewrite E. cbn [andb]. rewrite U, IH.
  - destruct t; reflexivity.
  - intros d Hd. apply H. right. exact Hd.
Qed.
Lemma pascal_words ws : Forall word ws -> forall i,
  pascal_loop false true i (underscored ws) = flat_map capitalized ws.
Proof.
  induction ws as [|w ws IH]; intros H i; [reflexivity|]. inversion H as [|? ? Hw H']; subst.
  destruct (word_alt w Hw) as (c & t & -> & Hc & Ht). destruct (low_facts c Hc) as (E & U & _).
  rewrite underscored_cons. cbn [app pascal_loop flat_map capitalized]. rewrite E, U, <- upcase_eq, pascal_tail by exact Ht.
  f_equal. f_equal. replace (if t then false else false) with false by (destruct t; reflexivity).
  destruct ws as [|x ws]; [reflexivity|]. cbn [pascal_loop]. change (is_us US) with true. cbv iota. apply IH. exact H'.
Qed.
Lemma camel_tail t : wtail t -> forall i r, camel_loop false false false i (t ++ r) = t ++ camel_loop false false false (if t then i else false) r.
Proof.
  induction t as [|c t IH]; intros H i r; [reflexivity|]. cbn [app camel_loop].
  destruct (ldg_facts c (H c (or_introl eq_refl))) as (E & U & _). rewrite E. cbn [andb]. rewrite U, IH.
  - destruct t; reflexivity.
  - intros d Hd. apply H. right. exact Hd.
Qed.
Lemma camel_words ws : Forall word ws -> forall i,
  camel_loop false false true i (underscored ws) = flat_map capitalized ws.
Proof.
  induction ws as [|w ws IH]; intros H i; [reflexivity|]. inversion H as [|? ? Hw H']; subst.
  destruct (word_alt w Hw) as (c & t & -> & Hc & Ht). destruct (low_facts c Hc) as (E & U & _).
  rewrite underscored_cons. cbn [app camel_loop flat_map capitalized]. rewrite E, U, <- upcase_eq, camel_tail by exact Ht.
  f_equal. f_equal. replace (if t then false else false) with false by (destruct t; reflexivity).
  destruct ws as [|x ws]; [reflexivity|]. cbn [camel_loop]. change (is_us US) with true. cbv iota. apply IH. exact H'.
Qed.
Lemma snake_tail conv t : wtail t -> forall f i h r, t <> [] ->
  snake_loop conv false f i h (t ++ r) = map conv t ++ snake_loop conv false false false false r.
Proof.
  induction t as [|c t IH]; intros H f i h r Hn; [contradiction|]. cbn [app snake_loop map].
  destruct (ldg_facts c (H c (or_introl eq_refl))) as (E & U & _). rewrite E, U.
  match goal with |- _ = ?R => assert (Q : conv c :: snake_loop conv false false false false (t ++ r) = R) end.
  2:{ destruct f; exact Q. }
  cbn [app]. f_equal. destruct t as [|d t]; [reflexivity|]. apply IH; [|discriminate]. intros x Hx. apply H. right. exact Hx.
Qed.
Lemma wtail_word w : word w -> wtail w.
Proof.
  intros H. destruct (word_alt w H) as (c & t & -> & Hc & Ht). intros d [<-|Hd]; [rewrite Hc; reflexivity|apply Ht; exact Hd].
Qed.
Lemma snake_words conv ws : Forall word ws -> forall f i,
  snake_loop conv false f i (negb f) (underscored ws) = underscored (map (map conv) ws).
Proof.
  induction ws as [|w ws IH]; intros H f i; [reflexivity|]. inversion H as [|? ? Hw H']; subst.
  rewrite underscored_cons. assert (Hn : w <> []) by (destruct Hw as (? & ? & -> & _); discriminate).
  rewrite snake_tail by (auto using wtail_word). cbn [map]. rewrite underscored_cons. f_equal.
  destruct ws as [|x ws]; [reflexivity|]. cbn [snake_loop map]. change (is_us US) with true. cbv iota.
  f_equal. exact (IH H' false false).
Qed.

Lemma word_last w : word w -> no_us_head (rev w).
Proof.
  intros H. destruct (exists_last (l := w)) as (p & c & E); [destruct H as (? & ? & -> & _); discriminate|].
  pose proof (wtail_word w H c) as Q. rewrite E in *. rewrite rev_app_distr. cbn.
  apply ldg_facts. apply Q. apply in_or_app. right. left. reflexivity.
Qed.
Lemma words_core ws : ws <> [] -> Forall word ws -> core (underscored ws).
Proof.
  intros Hn H. split.
  - destruct H as [|w ws Hw H]; [contradiction|]. destruct (word_alt w Hw) as (c & t & -> & Hc & _).
    rewrite underscored_cons. cbn. apply low_facts. exact Hc.
  - induction H as [|w ws Hw H IH]; [contradiction|]. rewrite underscored_cons. destruct ws as [|x ws].
    + rewrite app_nil_r. apply word_last. exact Hw.
    + specialize (IH ltac:(discriminate)). rewrite rev_app_distr. cbn [rev]. rewrite <- app_assoc.
      destruct (rev (underscored (x :: ws))) as [|c t] eqn:E; [|exact IH].
      exfalso. apply (f_equal (@rev ascii)) in E. rewrite rev_involutive, underscored_cons in E.
      inversion H as [|? ? Hx _]; subst. destruct Hx as (? & ? & -> & _). discriminate.
Qed.
Lemma words_nodot ws : Forall word ws -> ~ In DOT (underscored ws).
Proof.
  induction 1 as [|w ws Hw H IH]; [intros []|]. rewrite underscored_cons. intros Q. apply in_app_or in Q as [Q|Q].
  - pose proof (wtail_word w Hw _ Q) as F. discriminate.
  - destruct ws; [destruct Q|]. destruct Q as [Q|Q]; [discriminate|]. exact (IH Q).
Qed.
Lemma words_notup ws : ws <> [] -> Forall word ws -> is_all_upper (underscored ws) = false.
Proof.
  intros Hn H. destruct H as [|w ws Hw H]; [contradiction|]. destruct (word_alt w Hw) as (c & t & -> & Hc & _).
  rewrite underscored_cons. cbn [app is_all_upper forallb]. rewrite (lower_not_allup c Hc). reflexivity.
Qed.
Lemma all_us_spec p : (forall c, In c p -> c = US) -> forallb is_us p = true.
Proof. intros H. apply forallb_forall. intros c Hc. rewrite (H c Hc). reflexivity. Qed.
Lemma nodot_us p : (forall c, In c p -> c = US) -> ~ In DOT p.
Proof. intros H Q. specialize (H _ Q). discriminate. Qed.

(** C49.  A name of words joined by underscores, with any underscores around it, becomes in each
    convention what its name says; the underscores around it stay. *)
Theorem C49_words : forall pre ws post, ws <> [] -> Forall word ws ->
  (forall c, In c pre -> c = "_"%char) -> (forall c, In c post -> c = "_"%char) ->
  let s := pre ++ underscored ws ++ post in
  to_snake s = s /\
  to_allcap s = pre ++ underscored (map (map upcase) ws) ++ post /\
  to_pascal s = pre ++ flat_map capitalized ws ++ post /\
  to_camel s = pre ++ (hd [] ws ++ flat_map capitalized (tl ws)) ++ post.
Proof.
  intros pre ws post Hn H Hp Hq s.
  assert (EC : cut3 s = (pre, underscored ws, post)).
  { apply cut3_app; auto using all_us_spec, words_core. intros Q. exfalso.
    destruct ws as [|w ws]; [contradiction|]. inversion H as [|? ? Hw _]; subst.
    destruct Hw as (? & ? & -> & _). rewrite underscored_cons in Q. discriminate. }
  assert (ED : split_dot s = [s]).
  { apply split_dot_no. intros Q. apply in_app_or in Q as [Q|Q]; [exact (nodot_us pre Hp Q)|].
    apply in_app_or in Q as [Q|Q]; [exact (words_nodot ws H Q)|exact (nodot_us post Hq Q)]. }
  pose proof (words_notup ws Hn H) as EU.
  unfold to_snake, to_allcap, to_pascal, to_camel, per_seg. rewrite ED. cbn [map join_dot].
  unfold snake_seg, allcap_seg, pascal_seg, camel_seg. rewrite EC, EU.
  split; [|split; [|split]].
  - pose proof (snake_words to_lower ws H true false) as SW. cbn [negb] in SW. rewrite SW. clear SW. unfold s. do 2 f_equal. clear - H.
    assert (E : map (map to_lower) ws = ws); [|congruence].
    induction H as [|w ws Hw H IH]; [reflexivity|]. cbn [map]. rewrite IH. f_equal.
    pose proof (wtail_word w Hw) as F. clear - F. induction w as [|c w IH]; [reflexivity|]. cbn [map].
    rewrite IH by (intros d Hd; apply F; right; exact Hd). f_equal. apply ldg_facts. apply F. left. reflexivity.
  - pose proof (snake_words to_upper ws H true false) as SW. cbn [negb] in SW. rewrite SW. clear SW. do 2 f_equal.
    rewrite (map_ext (map to_upper) (map upcase)); [reflexivity|]. intros w. apply map_ext. apply upcase_eq.
  - rewrite pascal_words by exact H. reflexivity.
  - destruct ws as [|w ws]; [contradiction|]. inversion H as [|? ? Hw H']; subst. cbn [hd tl].
    destruct (word_alt w Hw) as (c & t & -> & Hc & Ht). destruct (low_facts c Hc) as (E & U & L & _).
    rewrite underscored_cons. cbn [app camel_loop]. rewrite E, U, L, camel_tail by exact Ht.
    replace (if t then false else false) with false by (destruct t; reflexivity).
    f_equal. destruct ws as [|x ws]; [reflexivity|].
    cbn [camel_loop]. change (is_us US) with true. cbv iota. rewrite camel_words by exact H'. reflexivity.
Qed.

Example C49_instance :
  let ws := [txt "foo"; txt "b2"; txt "baz"] in
  Forall word ws /\
  to_pascal (txt "__foo_b2_baz_") = txt "__FooB2Baz_" /\ to_camel (txt "__foo_b2_baz_") = txt "__fooB2Baz_" /\
  to_allcap (txt "__foo_b2_baz_") = txt "__FOO_B2_BAZ_" /\ to_snake (txt "__FooB2Baz_") = txt "__foo_b2_baz_".
Proof.
  split; [|vm_compute; auto].
  constructor; [|constructor; [|constructor; [|constructor]]]; (eexists _, _; split; [reflexivity|]);
    (split; [vm_compute; tauto|intros d Hd; cbn in Hd; repeat destruct Hd as [<-|Hd]; try destruct Hd; vm_compute; tauto]).
Qed.

Print Assumptions C49_letters_kept.
Print Assumptions C49_shape.
Print Assumptions C49_words.
Print Assumptions C36_snake_idempotent.
Print Assumptions C36_camel_idempotent.
Print Assumptions C36_pascal_idempotent.
Print Assumptions C36_allcap_idempotent.
Print Assumptions C36_camel_pascal_allcap_refuted.
Print Assumptions C42_pascal_injective_on_canonical.
Print Assumptions C42_distinct_names_refuted.
