(** Model of normalizeGeneratedIndent (generator/gen/gen_ctx.go:18-41), the pass every generated
    file goes through, and property C32. *)
From Coq Require Import Ascii String ZArith List Lia Bool.
Import ListNotations.
Open Scope list_scope.

Definition text := list ascii.
Definition LF : ascii := ascii_of_nat 10.
Definition CR : ascii := ascii_of_nat 13.
Definition TAB : ascii := ascii_of_nat 9.
Definition SP : ascii := ascii_of_nat 32.

(** gen_ctx.go:21, strings.ReplaceAll(text, "\r\n", "\n") *)
Fixpoint crlf (s : text) : text :=
  match s with
  | [] => []
  | c :: t => match t with
              | d :: t' => if Ascii.eqb c CR && Ascii.eqb d LF then LF :: crlf t' else c :: crlf t
              | [] => [c]
              end
  end.

(** gen_ctx.go:22, strings.ReplaceAll(text, "\t", "    ") *)
Definition detab (s : text) : text :=
  flat_map (fun c => if Ascii.eqb c TAB then [SP; SP; SP; SP] else [c]) s.

(** strings.Split(text, "\n") *)
Fixpoint lines (s : text) : list text :=
  match s with
  | [] => [[]]
  | c :: t => if Ascii.eqb c LF then [] :: lines t
              else match lines t with l :: r => (c :: l) :: r | [] => [[c]] end
  end.

(** strings.Join(lines, "\n") *)
Fixpoint unlines (l : list text) : text :=
  match l with
  | [] => []
  | [x] => x
  | x :: r => x ++ LF :: unlines r
  end.

(** strings.TrimRight(line, cutset) *)
Fixpoint trim_right (cut : ascii -> bool) (s : text) : text :=
  match s with
  | [] => []
  | c :: t => match trim_right cut t with
              | [] => if cut c then [] else [c]
              | r => c :: r
              end
  end.

Definition blankc (c : ascii) : bool := Ascii.eqb c SP || Ascii.eqb c TAB.
Definition is_nl (c : ascii) : bool := Ascii.eqb c LF.

(** gen_ctx.go:27-38; [n] is the variable blankLines. *)
Fixpoint squeeze (n : nat) (ls : list text) : list text :=
  match ls with
  | [] => []
  | l :: r =>
      match trim_right blankc l with
      | [] => if Nat.ltb 2 (S n) then squeeze (S n) r else [] :: squeeze (S n) r
      | l' => l' :: squeeze 0 r
      end
  end.

(** gen_ctx.go:18-41 *)
Definition normalize (s : text) : text :=
  trim_right is_nl (unlines (squeeze 0 (lines (detab (crlf s))))) ++ [LF].

(** ** Specification vocabulary *)
Definition ends_with (c : ascii) (l : text) : Prop := exists p, l = p ++ [c].
(** Every carriage return is part of a "\r\n" pair. *)
Definition cr_paired (s : text) : Prop := forall p q, s = p ++ CR :: q -> exists r, q = LF :: r.
Definition nonblank (l : text) : bool := match l with [] => false | _ => true end.
(** The printable content of a text: its lines, tabs expanded, trailing blanks cut, empty ones
    left out. *)
Definition content (s : text) : list text :=
  filter nonblank (map (trim_right blankc) (lines (detab (crlf s)))).

(** ** Proofs *)
Lemma trim_right_spec cut s : exists t, s = trim_right cut s ++ t /\ forallb cut t = true.
Proof.
  induction s as [|c s (t & Ht & Hc)]; [exists []; auto|]. cbn [trim_right].
  destruct (trim_right cut s) as [|d r] eqn:E.
  - destruct (cut c) eqn:Ec.
    + exists (c :: s). split; [reflexivity|]. cbn. rewrite Ec. cbn in Ht. rewrite Ht. exact Hc.
    + exists t. split; [cbn in *; congruence|exact Hc].
  - exists t. split; [|exact Hc]. rewrite Ht at 1. reflexivity.
Qed.

Lemma trim_right_end cut s p c : trim_right cut s = p ++ [c] -> cut c = false.
Proof.
  revert p. induction s as [|d s IH]; intros p H; cbn [trim_right] in H.
  - destruct p; discriminate.
  - destruct (trim_right cut s) as [|e r] eqn:E.
    + destruct (cut d) eqn:Ed; [destruct p; discriminate|].
      destruct p as [|x p]; [injection H as ->; exact Ed|]. destruct p; discriminate.
    + destruct p as [|x p]; [discriminate|]. cbn in H. injection H as _ H. apply (IH p). exact H.
Qed.

Lemma trim_right_id cut s : (forall p c, s = p ++ [c] -> cut c = false) -> trim_right cut s = s.
Proof.
  intros H. destruct (trim_right_spec cut s) as (t & Ht & Hc).
  destruct t as [|c t] using rev_ind; [rewrite app_nil_r in Ht; congruence|].
  exfalso. rewrite app_assoc in Ht. specialize (H _ _ Ht). rewrite forallb_app in Hc.
  cbn in Hc. rewrite H in Hc. rewrite andb_false_r in Hc. discriminate.
Qed.

Lemma lines_nonempty s : exists l r, lines s = l :: r.
Proof.
  induction s as [|c s (l & r & H)]; cbn [lines]; [eauto|].
  rewrite H. destruct (Ascii.eqb c LF); eauto.
Qed.

Lemma lines_app_lf s t : lines (s ++ LF :: t) = lines s ++ lines t.
Proof.
  induction s as [|c s IH]; cbn [app lines].
  - reflexivity.
  - rewrite IH. destruct (Ascii.eqb c LF); [reflexivity|].
    destruct (lines_nonempty s) as (l & r & ->). reflexivity.
Qed.

Lemma lines_snoc_lf s : lines (s ++ [LF]) = lines s ++ [[]].
Proof. apply lines_app_lf. Qed.

Lemma lines_no_lf l : ~ In LF l -> lines l = [l].
Proof.
  induction l as [|c l IH]; cbn [lines]; intros H; [reflexivity|].
  destruct (Ascii.eqb_spec c LF) as [->|]; [exfalso; apply H; left; reflexivity|].
  rewrite IH; [reflexivity|]. intro; apply H; right; assumption.
Qed.

Lemma lines_in_no_lf s : Forall (fun l => ~ In LF l) (lines s).
Proof.
  induction s as [|c s IH]; cbn [lines]; [constructor; auto|].
  destruct (Ascii.eqb_spec c LF) as [->|].
  - constructor; auto.
  - destruct (lines_nonempty s) as (l & r & E). rewrite E in *. inversion IH; subst.
    constructor; auto. intros [H|H]; auto.
Qed.

Lemma unlines_lines s : unlines (lines s) = s.
Proof.
  induction s as [|c s IH]; cbn [lines]; [reflexivity|].
  destruct (lines_nonempty s) as (l & r & E). rewrite E in *.
  destruct (Ascii.eqb_spec c LF) as [->|].
  - change (unlines ([] :: l :: r)) with (LF :: unlines (l :: r)). rewrite IH. reflexivity.
  - destruct r; cbn [unlines app] in *; congruence.
Qed.

Lemma lines_unlines L : L <> [] -> Forall (fun l => ~ In LF l) L -> lines (unlines L) = L.
Proof.
  induction L as [|l r IH]; intros Hn H; [contradiction|]. inversion H; subst.
  destruct r as [|l2 r].
  - cbn. apply lines_no_lf. assumption.
  - change (unlines (l :: l2 :: r)) with (l ++ LF :: unlines (l2 :: r)).
    rewrite lines_app_lf, lines_no_lf by assumption. rewrite IH; [reflexivity|discriminate|assumption].
Qed.

(** No tab, and every line's tail is not a blank: the normal form of a line. *)
Definition line_ok (l : text) : Prop := trim_right blankc l = l /\ ~ In TAB l /\ ~ In LF l.

(** What [squeeze] leaves alone. *)
Fixpoint bl_ok (n : nat) (ls : list text) : bool :=
  match ls with
  | [] => true
  | [] :: r => negb (Nat.ltb 2 (S n)) && bl_ok (S n) r
  | _ :: r => bl_ok 0 r
  end.

Lemma squeeze_id ls : forall n, Forall line_ok ls -> bl_ok n ls = true -> squeeze n ls = ls.
Proof.
  induction ls as [|l r IH]; intros n H Hb; [reflexivity|]. inversion H as [|? ? (H1 & _) H2]; subst.
  cbn [squeeze]. rewrite H1. destruct l as [|c l].
  - cbn [bl_ok] in Hb. apply andb_true_iff in Hb as [Hb1 Hb2]. apply negb_true_iff in Hb1.
    rewrite Hb1, IH by assumption. reflexivity.
  - cbn [bl_ok] in Hb. rewrite IH by assumption. reflexivity.
Qed.

Lemma squeeze_bl_ok ls : forall n, bl_ok n (squeeze n ls) = true.
Proof.
  assert (G : forall ls n m, m <= n -> bl_ok m (squeeze n ls) = true).
  { clear. induction ls as [|l r IH]; intros n m Hm; [reflexivity|]. cbn [squeeze].
    destruct (trim_right blankc l) as [|c l'].
    - destruct (Nat.ltb 2 (S n)) eqn:E.
      + apply IH. lia.
      + cbn [bl_ok]. apply Nat.ltb_ge in E.
        replace (Nat.ltb 2 (S m)) with false by (symmetry; apply Nat.ltb_ge; lia).
        cbn [negb andb]. apply IH. lia.
    - cbn [bl_ok]. apply IH. lia. }
  intro n. apply G. lia.
Qed.

Lemma squeeze_line_ok ls : forall n, Forall (fun l => ~ In TAB l /\ ~ In LF l) ls ->
  Forall line_ok (squeeze n ls).
Proof.
  induction ls as [|l r IH]; intros n H; [constructor|]. inversion H as [|? ? (H1 & H2) H3]; subst.
  cbn [squeeze].
  assert (Hok : line_ok (trim_right blankc l)).
  { destruct (trim_right_spec blankc l) as (t & Ht & Hc). split; [|split].
    - apply trim_right_id. intros p c. apply trim_right_end.
    - intro Hi. apply H1. rewrite Ht. apply in_or_app; left; exact Hi.
    - intro Hi. apply H2. rewrite Ht. apply in_or_app; left; exact Hi. }
  destruct (trim_right blankc l) as [|c l'] eqn:E.
  - destruct (Nat.ltb 2 (S n)); [|constructor; [exact Hok|]]; apply IH; assumption.
  - constructor; [exact Hok|]. apply IH; assumption.
Qed.

Lemma squeeze_content ls : forall n,
  filter nonblank (squeeze n ls) = filter nonblank (map (trim_right blankc) ls).
Proof.
  induction ls as [|l r IH]; intros n; [reflexivity|]. cbn [squeeze map].
  destruct (trim_right blankc l) as [|c l'].
  - destruct (Nat.ltb 2 (S n)); cbn [filter nonblank]; apply IH.
  - cbn [filter nonblank]. rewrite IH. reflexivity.
Qed.

Lemma squeeze_nonempty ls : ls <> [] -> squeeze 0 ls <> [].
Proof.
  intros H. destruct ls as [|l r]; [contradiction|]. cbn [squeeze].
  destruct (trim_right blankc l); discriminate.
Qed.

Lemma detab_no_tab s : ~ In TAB (detab s).
Proof.
  unfold detab. rewrite in_flat_map. intros (c & _ & H).
  destruct (Ascii.eqb_spec c TAB).
  - cbn in H. repeat (destruct H as [H|H]; [discriminate|]). destruct H.
  - destruct H as [H|[]]. congruence.
Qed.

Lemma lines_no_char x s : x <> LF -> ~ In x s -> Forall (fun l => ~ In x l) (lines s).
Proof.
  intros Hx. induction s as [|c s IH]; cbn [lines]; intros H; [constructor; auto|].
  assert (H' : ~ In x s) by (intro; apply H; right; assumption). specialize (IH H').
  destruct (Ascii.eqb_spec c LF) as [->|].
  - constructor; auto.
  - destruct (lines_nonempty s) as (l & r & E). rewrite E in *. inversion IH; subst.
    constructor; auto. intros [Hc|Hc]; auto. apply H; left; exact Hc.
Qed.

Lemma bl_ok_prefix a : forall n b, bl_ok n (a ++ b) = true -> bl_ok n a = true.
Proof.
  induction a as [|[|c l] a IH]; intros n b H; cbn [app bl_ok] in *; [reflexivity| |].
  - apply andb_true_iff in H as [H1 H2]. rewrite H1, (IH _ _ H2). reflexivity.
  - eapply IH; eauto.
Qed.

(** Trailing newlines are trailing empty lines. *)
Lemma trim_nl_lines s (P : list text -> Prop) :
  (forall a b, P (a ++ b) -> P a) -> P (lines s) -> P (lines (trim_right is_nl s)).
Proof.
  intros Hpre H. destruct (trim_right_spec is_nl s) as (t & Ht & Hc).
  set (b := trim_right is_nl s) in *. clearbody b. subst s. revert H.
  induction t as [|c t IH] using rev_ind; intros H; [rewrite app_nil_r in H; exact H|].
  rewrite forallb_app in Hc. apply andb_true_iff in Hc as [Hc1 Hc2]. cbn in Hc2.
  rewrite andb_true_r in Hc2. unfold is_nl in Hc2. apply Ascii.eqb_eq in Hc2. subst c.
  apply IH; [exact Hc1|]. rewrite app_assoc, lines_snoc_lf in H. eapply Hpre; eauto.
Qed.

(** The body (all but the final newline) of a normalised text. *)
Lemma normalize_body s : let b := trim_right is_nl (unlines (squeeze 0 (lines (detab (crlf s))))) in
  Forall line_ok (lines b) /\ bl_ok 0 (lines b) = true /\ (forall p, b <> p ++ [LF]).
Proof.
  cbv zeta. set (L := squeeze 0 (lines (detab (crlf s)))).
  assert (HL : Forall line_ok L).
  { apply squeeze_line_ok. rewrite Forall_forall. intros l Hl. split.
    - pose proof (lines_no_char TAB (detab (crlf s)) ltac:(discriminate) (detab_no_tab _)) as F.
      rewrite Forall_forall in F. apply F; exact Hl.
    - pose proof (lines_in_no_lf (detab (crlf s))) as F. rewrite Forall_forall in F. apply F; exact Hl. }
  assert (HU : lines (unlines L) = L).
  { apply lines_unlines.
    - apply squeeze_nonempty. destruct (lines_nonempty (detab (crlf s))) as (? & ? & ->). discriminate.
    - revert HL. apply Forall_impl. intros l (_ & _ & H). exact H. }
  split; [|split].
  - apply (trim_nl_lines (unlines L) (Forall line_ok)).
    + intros a b H. apply Forall_app in H as [H _]. exact H.
    + rewrite HU. exact HL.
  - apply (trim_nl_lines (unlines L) (fun l => bl_ok 0 l = true)).
    + intros a b. apply bl_ok_prefix.
    + rewrite HU. apply squeeze_bl_ok.
  - intros p H. apply trim_right_end in H. unfold is_nl in H. rewrite Ascii.eqb_refl in H. discriminate.
Qed.

Lemma bl_ok_three a : forall n b, bl_ok n (a ++ [] :: [] :: [] :: b) = true -> False.
Proof.
  induction a as [|[|c l] a IH]; intros n b H; cbn [app] in H.
  - cbn [bl_ok] in H. apply andb_true_iff in H as [H1 H]. apply andb_true_iff in H as [H2 H].
    apply andb_true_iff in H as [H3 _]. apply negb_true_iff, Nat.ltb_ge in H3. lia.
  - cbn [bl_ok] in H. apply andb_true_iff in H as [_ H]. eapply IH; eauto.
  - cbn [bl_ok] in H. eapply IH; eauto.
Qed.

Lemma in_lines_in x s l : In l (lines s) -> In x l -> In x s.
Proof.
  revert l. induction s as [|c s IH]; cbn [lines]; intros l Hl Hx.
  - destruct Hl as [<-|[]]. destruct Hx.
  - destruct (Ascii.eqb_spec c LF).
    + destruct Hl as [<-|Hl]; [destruct Hx|]. right. eapply IH; eauto.
    + destruct (lines_nonempty s) as (l0 & r & E). rewrite E in *.
      destruct Hl as [<-|Hl].
      * destruct Hx as [->|Hx]; [left; reflexivity|]. right. apply (IH l0); [left; reflexivity|exact Hx].
      * right. apply (IH l); [right; exact Hl|exact Hx].
Qed.

Lemma in_in_lines x s : x <> LF -> In x s -> exists l, In l (lines s) /\ In x l.
Proof.
  intros Hx. induction s as [|c s IH]; intros H; [destruct H|]. cbn [lines].
  destruct (lines_nonempty s) as (l0 & r & E). rewrite E in *.
  destruct (Ascii.eqb_spec c LF) as [->|Hc].
  - destruct H as [H|H]; [congruence|]. destruct (IH H) as (l & H1 & H2). exists l. split; auto.
    right; exact H1.
  - destruct H as [->|H].
    + exists (x :: l0). split; left; reflexivity.
    + destruct (IH H) as (l & [<-|H1] & H2).
      * exists (c :: l0). split; [left; reflexivity|right; exact H2].
      * exists l. split; [right; exact H1|exact H2].
Qed.

(** C32.  What a normalised text looks like. *)
Theorem C32_normal_form : forall s,
  ~ In TAB (normalize s) /\
  (forall l, In l (lines (normalize s)) -> ~ ends_with SP l /\ ~ ends_with TAB l) /\
  (forall a b, lines (normalize s) <> a ++ [] :: [] :: [] :: b) /\
  (exists b, normalize s = b ++ [LF] /\ ~ ends_with LF b).
Proof.
  intros s. destruct (normalize_body s) as (HL & HB & HE). unfold normalize.
  set (b := trim_right is_nl _) in *.
  assert (Hlok : forall l, In l (lines (b ++ [LF])) -> line_ok l).
  { intros l Hl. rewrite lines_snoc_lf in Hl. apply in_app_or in Hl as [Hl|[<-|[]]].
    - rewrite Forall_forall in HL. apply HL; exact Hl.
    - split; [reflexivity|]. split; intros []. }
  split; [|split; [|split]].
  - intros H. destruct (in_in_lines TAB _ ltac:(discriminate) H) as (l & Hl & Hx).
    destruct (Hlok l Hl) as (_ & Ht & _). contradiction.
  - intros l Hl. destruct (Hlok l Hl) as (H1 & _). split; intros (p & ->);
      apply trim_right_end in H1; discriminate.
  - intros x y Hxy. rewrite lines_snoc_lf in Hxy.
    destruct y as [|e y] using rev_ind.
    + (* the three empty lines would be the end of the text *)
      assert (E : lines b = x ++ [[]; []]).
      { change ([[]; []; []]) with ([[]; []] ++ [@nil ascii]) in Hxy. rewrite app_assoc in Hxy.
        apply app_inj_tail in Hxy as [Hxy _]. exact Hxy. }
      assert (E2 : b = unlines (x ++ [[]]) ++ [LF]).
      { rewrite <- (unlines_lines b), E. clear.
        induction x as [|h t IH]; [reflexivity|].
        destruct t as [|h2 t]; [cbn; rewrite <- app_assoc; reflexivity|].
        change ((h :: h2 :: t) ++ [[]; []]) with (h :: ((h2 :: t) ++ [[]; []])).
        change ((h :: h2 :: t) ++ [[]]) with (h :: ((h2 :: t) ++ [[]])).
        change (unlines (h :: ((h2 :: t) ++ [[]; []]))) with (h ++ LF :: unlines ((h2 :: t) ++ [[]; []])).
        change (unlines (h :: ((h2 :: t) ++ [[]]))) with (h ++ LF :: unlines ((h2 :: t) ++ [[]])).
        rewrite IH, <- app_assoc. reflexivity. }
      exact (HE _ E2).
    + rewrite app_comm_cons, app_comm_cons, app_comm_cons, app_assoc in Hxy.
      apply app_inj_tail in Hxy as [Hxy _]. rewrite Hxy in HB. eapply bl_ok_three; eauto.
  - exists b. split; [reflexivity|]. intros (p & Hp). exact (HE p Hp).
Qed.

Lemma crlf_id s : (forall p q, s <> p ++ CR :: LF :: q) -> crlf s = s.
Proof.
  induction s as [|c t IH]; intros H; [reflexivity|]. cbn [crlf]. destruct t as [|d t'].
  - reflexivity.
  - destruct (Ascii.eqb_spec c CR) as [->|]; destruct (Ascii.eqb_spec d LF) as [->|]; cbn [andb].
    + exfalso. apply (H [] t'). reflexivity.
    + f_equal. apply IH. intros p q E. apply (H (CR :: p) q). cbn. f_equal. exact E.
    + f_equal. apply IH. intros p q E. apply (H (c :: p) q). cbn. f_equal. exact E.
    + f_equal. apply IH. intros p q E. apply (H (c :: p) q). cbn. f_equal. exact E.
Qed.

Lemma detab_id s : ~ In TAB s -> detab s = s.
Proof.
  induction s as [|c s IH]; intros H; [reflexivity|]. unfold detab in *. cbn [flat_map].
  destruct (Ascii.eqb_spec c TAB) as [->|]; [exfalso; apply H; left; reflexivity|].
  cbn [app]. rewrite IH; [reflexivity|]. intro; apply H; right; assumption.
Qed.

Lemma last_line_nonempty b : (forall p, b <> p ++ [LF]) -> b <> [] ->
  exists a c l, lines b = a ++ [c :: l].
Proof.
  intros H Hn. destruct b as [|c b] using rev_ind; [contradiction|]. clear IHb.
  assert (Hc : c <> LF) by (intros ->; apply (H b); reflexivity).
  clear H Hn. induction b as [|d b IH]; cbn [app lines].
  - destruct (Ascii.eqb_spec c LF); [contradiction|]. exists [], c, []. reflexivity.
  - destruct IH as (a & c' & l & E). rewrite E. destruct (Ascii.eqb d LF).
    + exists ([] :: a), c', l. reflexivity.
    + destruct a as [|h a].
      * exists [], d, (c' :: l). reflexivity.
      * exists ((d :: h) :: a), c', l. reflexivity.
Qed.

Lemma bl_ok_snoc a : forall n c l, bl_ok n (a ++ [c :: l]) = true -> bl_ok n (a ++ [c :: l] ++ [[]]) = true.
Proof.
  induction a as [|[|d m] a IH]; intros n c l H; cbn [app bl_ok] in *.
  - reflexivity.
  - apply andb_true_iff in H as [-> H]. cbn [andb]. apply IH. exact H.
  - apply IH. exact H.
Qed.

(** C32.  Normalising again changes nothing, if no "\r\n" is left over by the first pass. *)
Theorem C32_idempotent_no_crlf : forall s,
  (forall p q, normalize s <> p ++ CR :: LF :: q) ->
  normalize (normalize s) = normalize s.
Proof.
  intros s Hcr. destruct (normalize_body s) as (HL & HB & HE).
  destruct (C32_normal_form s) as (Ht & _).
  unfold normalize at 1. rewrite (crlf_id _ Hcr), (detab_id _ Ht).
  unfold normalize in *. set (b := trim_right is_nl _) in *. clearbody b.
  rewrite lines_snoc_lf.
  assert (Hok : Forall line_ok (lines b ++ [[]])).
  { apply Forall_app; split; [exact HL|]. constructor; [|constructor].
    split; [reflexivity|]. split; intros []. }
  assert (Hb : bl_ok 0 (lines b ++ [[]]) = true).
  { destruct b as [|c b'] eqn:Eb; [reflexivity|].
    destruct (last_line_nonempty b ltac:(subst; exact HE) ltac:(subst; discriminate)) as (a & d & l & E).
    rewrite <- Eb in *. rewrite E in *. rewrite <- app_assoc. apply bl_ok_snoc. exact HB. }
  rewrite (squeeze_id _ 0 Hok Hb), <- lines_snoc_lf, unlines_lines.
  assert (Hid : trim_right is_nl (b ++ [LF]) = b).
  { assert (Hb' : trim_right is_nl b = b).
    { apply trim_right_id. intros p c ->. unfold is_nl. destruct (Ascii.eqb_spec c LF); [|reflexivity].
      subst. exfalso. apply (HE p). reflexivity. }
    rewrite <- Hb' at 2. clear. induction b as [|c b IH]; [reflexivity|].
    cbn [app trim_right]. rewrite IH. reflexivity. }
  rewrite Hid. reflexivity.
Qed.

Lemma crlf_paired s : cr_paired s -> ~ In CR (crlf s).
Proof.
  intros H. remember (length s) as n eqn:Hn. assert (Hle : length s <= n) by lia. clear Hn.
  revert s H Hle. induction n as [|n IH]; intros s H Hle.
  - destruct s; [intros []|cbn in Hle; lia].
  - destruct s as [|c t]; [intros []|]. cbn [crlf].
    assert (Ht : c <> CR -> cr_paired t).
    { intros Hc p q E. apply (H (c :: p) q). rewrite E. reflexivity. }
    destruct (Ascii.eqb_spec c CR) as [->|Hc].
    + destruct (H [] t eq_refl) as (r & ->). rewrite Ascii.eqb_refl. cbn [andb].
      intros [E|E]; [discriminate|]. revert E. apply IH; [|cbn in Hle; lia].
      intros p q E. apply (H (CR :: LF :: p) q). rewrite E. reflexivity.
    + specialize (Ht Hc). assert (Hin : ~ In CR (c :: crlf t)).
      { intros [E|E]; [congruence|]. revert E. apply IH; [exact Ht|cbn in Hle; lia]. }
      destruct t as [|d t']; [exact Hin|]. cbn [andb]. exact Hin.
Qed.

Lemma in_unlines x L : In x (unlines L) -> x = LF \/ exists l, In l L /\ In x l.
Proof.
  induction L as [|l r IH]; intros H; [destruct H|]. destruct r as [|l2 r].
  - right. exists l. split; [left; reflexivity|exact H].
  - change (unlines (l :: l2 :: r)) with (l ++ LF :: unlines (l2 :: r)) in H.
    apply in_app_or in H as [H|[H|H]].
    + right. exists l. split; [left; reflexivity|exact H].
    + left. congruence.
    + destruct (IH H) as [E|(m & H1 & H2)]; [left; exact E|]. right. exists m. split; [right; exact H1|exact H2].
Qed.

Lemma in_squeeze x L : forall n l, In l (squeeze n L) -> In x l -> exists m, In m L /\ In x m.
Proof.
  induction L as [|k r IH]; intros n l Hl Hx; [destruct Hl|]. cbn [squeeze] in Hl.
  destruct (trim_right_spec blankc k) as (t & Ht & _).
  destruct (trim_right blankc k) as [|c k'].
  - destruct (Nat.ltb 2 (S n)).
    + destruct (IH _ _ Hl Hx) as (m & H1 & H2). exists m. split; [right; exact H1|exact H2].
    + destruct Hl as [<-|Hl]; [destruct Hx|].
      destruct (IH _ _ Hl Hx) as (m & H1 & H2). exists m. split; [right; exact H1|exact H2].
  - destruct Hl as [<-|Hl].
    + exists k. split; [left; reflexivity|]. rewrite Ht. apply in_or_app; left; exact Hx.
    + destruct (IH _ _ Hl Hx) as (m & H1 & H2). exists m. split; [right; exact H1|exact H2].
Qed.

Lemma normalize_no_cr s : cr_paired s -> ~ In CR (normalize s).
Proof.
  intros H Hin. pose proof (crlf_paired s H) as Hc. unfold normalize in Hin.
  apply in_app_or in Hin as [Hin|[Hin|[]]]; [|discriminate].
  match type of Hin with In _ (trim_right _ ?u) => destruct (trim_right_spec is_nl u) as (t & Ht & _) end.
  assert (Hin2 : In CR (unlines (squeeze 0 (lines (detab (crlf s)))))).
  { rewrite Ht. apply in_or_app; left; exact Hin. }
  apply in_unlines in Hin2 as [E|(l & Hl & Hx)]; [discriminate|].
  destruct (in_squeeze _ _ _ _ Hl Hx) as (m & Hm & Hxm).
  pose proof (in_lines_in _ _ _ Hm Hxm) as Hd. unfold detab in Hd. apply in_flat_map in Hd as (c & Hc1 & Hc2).
  destruct (Ascii.eqb_spec c TAB).
  - cbn in Hc2. repeat (destruct Hc2 as [Hc2|Hc2]; [discriminate|]). destruct Hc2.
  - destruct Hc2 as [->|[]]. contradiction.
Qed.

(** C32, idempotence for texts without stray carriage returns. *)
Theorem C32_idempotent : forall s, cr_paired s -> normalize (normalize s) = normalize s.
Proof.
  intros s H. apply C32_idempotent_no_crlf. intros p q E.
  apply (normalize_no_cr s H). rewrite E. apply in_or_app. right; left; reflexivity.
Qed.

(** C32.  The printable content survives: the lines that are not blank, in order. *)
Lemma filter_trailing (L : list text) t : forallb is_nl t = true -> forall b,
  unlines L = b ++ t -> Forall (fun l => ~ In LF l) L -> L <> [] ->
  filter nonblank (lines b) = filter nonblank L.
Proof.
  intros Hc b E HL Hn. rewrite <- (lines_unlines L Hn HL), E. clear E HL Hn L.
  induction t as [|c t IH] using rev_ind; [rewrite app_nil_r; reflexivity|].
  rewrite forallb_app in Hc. apply andb_true_iff in Hc as [Hc1 Hc2]. cbn in Hc2.
  rewrite andb_true_r in Hc2. apply Ascii.eqb_eq in Hc2. subst c.
  rewrite app_assoc, lines_snoc_lf, filter_app, <- IH by exact Hc1. cbn. rewrite app_nil_r. reflexivity.
Qed.

Theorem C32_content_kept : forall s,
  filter nonblank (lines (normalize s)) = content s.
Proof.
  intros s. unfold normalize, content. rewrite lines_snoc_lf, filter_app. cbn [filter nonblank].
  rewrite app_nil_r. rewrite <- (squeeze_content _ 0).
  set (L := squeeze 0 (lines (detab (crlf s)))).
  destruct (trim_right_spec is_nl (unlines L)) as (t & Ht & Hc).
  eapply filter_trailing; eauto.
  - assert (HL : Forall line_ok L).
    { apply squeeze_line_ok. rewrite Forall_forall. intros l Hl. split.
      - pose proof (lines_no_char TAB (detab (crlf s)) ltac:(discriminate) (detab_no_tab _)) as F.
        rewrite Forall_forall in F. apply F; exact Hl.
      - pose proof (lines_in_no_lf (detab (crlf s))) as F. rewrite Forall_forall in F. apply F; exact Hl. }
    revert HL. apply Forall_impl. intros l (_ & _ & H). exact H.
  - apply squeeze_nonempty. destruct (lines_nonempty (detab (crlf s))) as (? & ? & ->). discriminate.
Qed.

(** ** What the pass does to a document, line by line *)
(** A source line: its characters and whether it ends in "\r\n" rather than "\n". *)
Definition sline := (text * bool)%type.
Definition src (l : sline) : text := fst l ++ (if snd l then [CR; LF] else [LF]).
(** A line of blanks and tabs only, and one with something on it; neither contains "\r" or "\n". *)
Definition blank_line (l : sline) : Prop := forall c, In c (fst l) -> c = SP \/ c = TAB.
Definition ink_line (l : sline) : Prop :=
  ~ In LF (fst l) /\ ~ In CR (fst l) /\ exists c, In c (fst l) /\ c <> SP /\ c <> TAB.
(** [expanded l m]: m is l with every tab replaced by four blanks. *)
Inductive expanded : text -> text -> Prop :=
| ex_nil : expanded [] []
| ex_tab l m : expanded l m -> expanded (TAB :: l) (SP :: SP :: SP :: SP :: m)
| ex_char c l m : c <> TAB -> expanded l m -> expanded (c :: l) (c :: m).
(** [printed l m]: m is l with tabs expanded and the blanks at its end cut off. *)
Definition printed (l : sline) (m : text) : Prop :=
  exists k, expanded (fst l) (m ++ repeat SP k) /\ exists p c, m = p ++ [c] /\ c <> SP.
(** A document: blocks of any number of blank lines followed by a line with ink, then more
    blank lines. *)
Definition block := (list sline * sline)%type.
Definition block_ok (b : block) : Prop := Forall blank_line (fst b) /\ ink_line (snd b).
Definition block_src (b : block) : text := flat_map src (fst b) ++ src (snd b).

Lemma crlf_plain l t : ~ In CR l -> crlf (l ++ t) = l ++ crlf t.
Proof.
  induction l as [|c l IH]; intros H; [reflexivity|]. cbn [app].
  assert (Hc : c <> CR) by (intros ->; apply H; left; reflexivity).
  assert (Hl : ~ In CR l) by (intro; apply H; right; assumption).
  rewrite <- IH by exact Hl. cbn [crlf]. destruct (l ++ t); [reflexivity|].
  rewrite (proj2 (Ascii.eqb_neq _ _) Hc). reflexivity.
Qed.
Lemma crlf_src l t : ~ In CR (fst l) -> crlf (src l ++ t) = fst l ++ LF :: crlf t.
Proof.
  destruct l as [x b]. cbn [fst snd]. intros H. unfold src. cbn [fst snd]. rewrite <- app_assoc, crlf_plain by exact H. destruct b.
  - reflexivity.
  - cbn [app crlf]. destruct t; reflexivity.
Qed.
Lemma detab_app a b : detab (a ++ b) = detab a ++ detab b.
Proof. apply flat_map_app. Qed.
Lemma detab_lf_free l : ~ In LF l -> ~ In LF (detab l).
Proof.
  intros H Q. unfold detab in Q. apply in_flat_map in Q as (c & Hc & Q).
  destruct (Ascii.eqb_spec c TAB).
  - cbn in Q. repeat destruct Q as [Q|Q]; try discriminate. destruct Q.
  - destruct Q as [->|[]]. contradiction.
Qed.
Lemma lines_detab_lf l s : ~ In LF l -> lines (detab (l ++ LF :: s)) = detab l :: lines (detab s).
Proof.
  intros H. rewrite detab_app. change (detab (LF :: s)) with (LF :: detab s).
  rewrite lines_app_lf, lines_no_lf by (apply detab_lf_free; exact H). reflexivity.
Qed.

Lemma blank_free l : blank_line l -> ~ In CR (fst l) /\ ~ In LF (fst l).
Proof. intros H. split; intros Q; destruct (H _ Q) as [E|E]; discriminate. Qed.

Lemma trim_blank l : (forall c, In c l -> c = SP \/ c = TAB) -> trim_right blankc l = [].
Proof.
  induction l as [|c l IH]; intros H; [reflexivity|]. cbn [trim_right].
  rewrite IH by (intros; apply H; right; assumption). destruct (H c (or_introl eq_refl)) as [-> | ->]; reflexivity.
Qed.
Lemma detab_blank l : (forall c, In c l -> c = SP \/ c = TAB) -> (forall c, In c (detab l) -> c = SP \/ c = TAB).
Proof.
  intros H c Q. unfold detab in Q. apply in_flat_map in Q as (d & Hd & Q).
  destruct (Ascii.eqb_spec d TAB); cbn in Q; intuition.
  subst. auto.
Qed.

Lemma detab_expanded l : expanded l (detab l).
Proof.
  induction l as [|c l IH]; [constructor|]. unfold detab. cbn [flat_map].
  destruct (Ascii.eqb_spec c TAB) as [->|]; cbn [app]; constructor; assumption.
Qed.

Lemma printed_trim l : ink_line l -> printed l (trim_right blankc (detab (fst l))).
Proof.
  intros (_ & _ & c & Hc & N1 & N2). set (d := detab (fst l)).
  destruct (trim_right_spec blankc d) as (t & Ht & Hb).
  assert (NT : ~ In TAB d) by apply detab_no_tab.
  assert (Et : t = repeat SP (length t)).
  { clear - Ht Hb NT. assert (Q : forall c, In c t -> c = SP).
    { intros c Hc. rewrite forallb_forall in Hb. specialize (Hb c Hc). apply orb_true_iff in Hb as [E|E]; apply Ascii.eqb_eq in E; [exact E|].
      exfalso. apply NT. rewrite Ht. apply in_or_app. right. subst. exact Hc. }
    clear Ht Hb NT. induction t as [|c t IH]; [reflexivity|]. cbn [length repeat]. f_equal; [apply Q; left; reflexivity|].
    apply IH. intros; apply Q; right; assumption. }
  assert (Hd : In c d).
  { unfold d, detab. apply in_flat_map. exists c. split; [exact Hc|]. rewrite (proj2 (Ascii.eqb_neq _ _) N2). left; reflexivity. }
  exists (length t). split.
  - rewrite <- Et, <- Ht. apply detab_expanded.
  - destruct (trim_right blankc d) as [|x m] eqn:E.
    + exfalso. cbn in Ht. rewrite Ht in Hd. rewrite forallb_forall in Hb. specialize (Hb _ Hd).
      apply orb_true_iff in Hb as [Q|Q]; apply Ascii.eqb_eq in Q; contradiction.
    + destruct (exists_last (l := x :: m) ltac:(discriminate)) as (p & e & Q). rewrite Q in *.
      exists p, e. split; [reflexivity|]. apply trim_right_end in E. intros ->. discriminate.
Qed.

(** Blank lines in front of [rest]: at most two survive. *)
Lemma squeeze_blanks bs : forall n rest, Forall blank_line bs ->
  squeeze n (map (fun b => detab (fst b)) bs ++ rest) = repeat [] (Nat.min (2 - n) (length bs)) ++ squeeze (n + length bs) rest.
Proof.
  induction bs as [|b bs IH]; intros n rest H; cbn [map app length].
  - rewrite Nat.min_0_r, Nat.add_0_r. reflexivity.
  - inversion H; subst. cbn [squeeze]. rewrite trim_blank by (apply detab_blank; assumption).
    rewrite IH by assumption. rewrite Nat.add_succ_r. cbn [Nat.add]. destruct (Nat.ltb_spec 2 (S n)).
    + replace (2 - S n)%nat with O by lia. replace (2 - n)%nat with O by lia. reflexivity.
    + replace (2 - n)%nat with (S (2 - S n)) by lia. cbn [Nat.min repeat app]. reflexivity.
Qed.

Definition kept_block (b : block) : list text :=
  repeat [] (Nat.min 2 (length (fst b))) ++ [trim_right blankc (detab (fst (snd b)))].

Lemma printed_nonempty l m : printed l m -> m <> [].
Proof. intros (_ & _ & p & c & -> & _) E. destruct p; discriminate. Qed.

Lemma lines_blanks bs t : Forall blank_line bs ->
  lines (detab (crlf (flat_map src bs ++ t))) = map (fun b => detab (fst b)) bs ++ lines (detab (crlf t)).
Proof.
  induction bs as [|b bs IH]; intros H; [reflexivity|]. inversion H; subst. cbn [flat_map map app].
  rewrite <- app_assoc. destruct (blank_free b) as [F1 F2]; [assumption|].
  rewrite crlf_src, lines_detab_lf, IH by assumption. reflexivity.
Qed.

Lemma lines_doc doc t : Forall block_ok doc ->
  lines (detab (crlf (flat_map block_src doc ++ t))) =
  flat_map (fun b => map (fun l => detab (fst l)) (fst b) ++ [detab (fst (snd b))]) doc ++ lines (detab (crlf t)).
Proof.
  induction doc as [|[bl l] doc IH]; intros H; [reflexivity|]. inversion H as [|? ? [H1 H2] H3]; subst.
  cbn [flat_map fst snd] in *. unfold block_src at 1. cbn [fst snd]. rewrite <- !app_assoc, lines_blanks by assumption.
  destruct H2 as (F1 & F2 & _). rewrite crlf_src, lines_detab_lf, IH by assumption. rewrite <- ?app_assoc. reflexivity.
Qed.

Lemma squeeze_doc doc rest : Forall block_ok doc ->
  squeeze 0 (flat_map (fun b => map (fun l => detab (fst l)) (fst b) ++ [detab (fst (snd b))]) doc ++ rest)
  = flat_map kept_block doc ++ squeeze 0 rest.
Proof.
  induction doc as [|[bl l] doc IH]; intros H; [reflexivity|]. inversion H as [|? ? [H1 H2] H3]; subst.
  cbn [flat_map fst snd] in *. unfold kept_block at 1. cbn [fst snd]. rewrite <- !app_assoc, squeeze_blanks by assumption.
  rewrite Nat.sub_0_r. f_equal. cbn [app squeeze]. pose proof (printed_nonempty _ _ (printed_trim l H2)) as N.
  destruct (trim_right blankc (detab (fst l))) as [|c m]; [contradiction|]. rewrite IH by assumption. reflexivity.
Qed.

Lemma unlines_flat L : L <> [] -> unlines L ++ [LF] = flat_map (fun l => l ++ [LF]) L.
Proof.
  induction L as [|x L IH]; intros H; [contradiction|]. destruct L as [|y L].
  - cbn. rewrite app_nil_r. reflexivity.
  - change (unlines (x :: y :: L)) with (x ++ LF :: unlines (y :: L)).
    change (flat_map (fun l => l ++ [LF]) (x :: y :: L)) with ((x ++ [LF]) ++ flat_map (fun l => l ++ [LF]) (y :: L)).
    rewrite <- IH by discriminate. rewrite <- !app_assoc. reflexivity.
Qed.

Lemma unlines_trail A k : A <> [] -> unlines (A ++ repeat [] k) = unlines A ++ repeat LF k.
Proof.
  intros HA. induction A as [|x A IH]; [contradiction|]. destruct A as [|y A].
  - cbn [app]. clear. revert x. induction k as [|k IHk]; intros x; cbn [repeat app].
    + cbn. rewrite app_nil_r. reflexivity.
    + change (unlines (x :: [] :: repeat [] k)) with (x ++ LF :: unlines ([] :: repeat [] k)).
      rewrite (IHk []). reflexivity.
  - change (unlines (x :: y :: A)) with (x ++ LF :: unlines (y :: A)).
    change ((x :: y :: A) ++ repeat [] k) with (x :: y :: (A ++ repeat [] k)).
    change (unlines (x :: y :: A ++ repeat [] k)) with (x ++ LF :: unlines ((y :: A) ++ repeat [] k)).
    rewrite IH by discriminate. rewrite <- app_assoc. reflexivity.
Qed.

Lemma trim_lfs k : trim_right is_nl (repeat LF k) = [].
Proof. induction k; [reflexivity|]. cbn [repeat trim_right]. rewrite IHk. reflexivity. Qed.
Lemma trim_nl_app s c k : c <> LF -> trim_right is_nl (s ++ c :: repeat LF k) = s ++ [c].
Proof.
  intros H. assert (E : trim_right is_nl (c :: repeat LF k) = [c]).
  { cbn [trim_right]. rewrite trim_lfs. unfold is_nl. rewrite (proj2 (Ascii.eqb_neq _ _) H). reflexivity. }
  induction s as [|d s IH]; cbn [app]; [exact E|]. cbn [trim_right]. rewrite IH.
  destruct (s ++ [c]) eqn:Q; [destruct s; discriminate|reflexivity].
Qed.

Lemma kept_last doc : doc <> [] -> Forall block_ok doc ->
  exists A m c, flat_map kept_block doc = A ++ [m ++ [c]] /\ c <> LF.
Proof.
  intros Hn H. destruct (exists_last Hn) as (d & [bl l] & ->). apply Forall_app in H as [_ H].
  inversion H as [|? ? [_ Hi] _]; subst. cbn [snd] in Hi.
  destruct (printed_trim l Hi) as (k & Hx & m & c & E & Hc).
  rewrite flat_map_app. cbn [flat_map]. rewrite app_nil_r. unfold kept_block at 2. cbn [fst snd]. rewrite E, app_assoc.
  eexists _, m, c. split; [reflexivity|].
  destruct Hi as (NL & _). pose proof (detab_lf_free _ NL) as NL2.
  intros ->. apply NL2. destruct (trim_right_spec blankc (detab (fst l))) as (t & Ht & _). rewrite Ht, E.
  apply in_or_app. left. apply in_or_app. right. left. reflexivity.
Qed.

Lemma unlines_snoc A x : A <> [] -> unlines (A ++ [x]) = unlines A ++ LF :: x.
Proof.
  intros H. induction A as [|y A IH]; [contradiction|]. destruct A as [|z A].
  - reflexivity.
  - change (unlines ((y :: z :: A) ++ [x])) with (y ++ LF :: unlines ((z :: A) ++ [x])).
    rewrite IH by discriminate. change (unlines (y :: z :: A)) with (y ++ LF :: unlines (z :: A)).
    rewrite <- app_assoc. reflexivity.
Qed.

(** C32.  The whole effect of the pass on a document: before each line with ink at most two of the
    blank lines in front of it are kept, emptied; the line itself is kept with tabs expanded and
    trailing blanks cut; line ends become "\n"; blank lines at the end go. *)
Theorem C32_document : forall doc trail, Forall block_ok doc -> Forall blank_line trail ->
  exists outs, Forall2 (fun b m => printed (snd b) m) doc outs /\
    normalize (flat_map block_src doc ++ flat_map src trail) =
    match doc with
    | [] => [LF]
    | _ => flat_map (fun bm => repeat LF (Nat.min 2 (length (fst (fst bm)))) ++ snd bm ++ [LF]) (combine doc outs)
    end.
Proof.
  intros doc trail Hd Ht. exists (map (fun b => trim_right blankc (detab (fst (snd b)))) doc). split.
  { clear Ht. induction Hd as [|b doc Hb Hd IH]; constructor; [|exact IH]. apply printed_trim. apply Hb. }
  unfold normalize. rewrite lines_doc, squeeze_doc by assumption.
  rewrite <- (app_nil_r (flat_map src trail)), lines_blanks by assumption.
  rewrite squeeze_blanks by assumption. rewrite Nat.sub_0_r.
  change (lines (detab (crlf []))) with [@nil ascii].
  assert (ET : exists k, repeat [] (Nat.min 2 (length trail)) ++ squeeze (0 + length trail) [[]] = repeat (@nil ascii) k).
  { cbn [squeeze trim_right]. destruct (Nat.ltb 2 (S (0 + length trail))).
    - eexists. rewrite app_nil_r. reflexivity.
    - exists (Nat.min 2 (length trail) + 1)%nat. rewrite repeat_app. reflexivity. }
  destruct ET as [k ->]. destruct doc as [|b0 doc0] eqn:Ed.
  - cbn [flat_map app]. replace (trim_right is_nl (unlines (repeat [] k))) with (@nil ascii); [reflexivity|].
    clear. destruct k as [|k]; [reflexivity|].
    change (repeat [] (S k)) with ([[]] ++ repeat (@nil ascii) k). rewrite unlines_trail by discriminate.
    cbn [unlines app]. rewrite trim_lfs. reflexivity.
  - rewrite <- Ed in *. assert (Hn : doc <> []) by (rewrite Ed; discriminate). clear Ed b0 doc0.
    transitivity (flat_map (fun bm => repeat LF (Nat.min 2 (length (fst (fst bm)))) ++ snd bm ++ [LF])
      (combine doc (map (fun b => trim_right blankc (detab (fst (snd b)))) doc))); [|destruct doc; [contradiction|reflexivity]].
    destruct (kept_last doc Hn Hd) as (A & m & c & EA & Hc).
    assert (Hk : flat_map kept_block doc <> []) by (rewrite EA; destruct A; discriminate).
    rewrite unlines_trail by exact Hk.
    replace (trim_right is_nl (unlines (flat_map kept_block doc) ++ repeat LF k)) with (unlines (flat_map kept_block doc)).
    + rewrite unlines_flat by exact Hk. clear. induction doc as [|[bl l] doc IH]; [reflexivity|].
      cbn [flat_map map combine fst snd]. rewrite flat_map_app.
      match goal with |- _ = _ ++ ?B => replace B with (flat_map (fun l : text => l ++ [LF]) (flat_map kept_block doc)) by exact IH end. f_equal. unfold kept_block. cbn [fst snd].
      rewrite flat_map_app. f_equal.
      * induction (Nat.min 2 (length bl)) as [|j IHj]; [reflexivity|]. cbn [repeat flat_map app]. f_equal. exact IHj.
      * cbn. rewrite app_nil_r. reflexivity.
    + rewrite EA. destruct A as [|a A].
      * cbn [app unlines]. rewrite <- app_assoc. symmetry. exact (trim_nl_app m c k Hc).
      * rewrite unlines_snoc by discriminate.
        replace ((unlines (a :: A) ++ LF :: m ++ [c]) ++ repeat LF k) with ((unlines (a :: A) ++ LF :: m) ++ c :: repeat LF k)
          by (rewrite <- !app_assoc; cbn [app]; rewrite <- app_assoc; reflexivity).
        rewrite trim_nl_app by exact Hc. rewrite <- app_assoc. reflexivity.
Qed.

(** C32.  No visible character is lost, added or moved, whatever the text. *)
Definition visible (s : text) : text :=
  filter (fun c => negb (Ascii.eqb c SP || Ascii.eqb c TAB || Ascii.eqb c CR || Ascii.eqb c LF)) s.
Lemma visible_app a b : visible (a ++ b) = visible a ++ visible b.
Proof. apply filter_app. Qed.
Lemma visible_crlf s : visible (crlf s) = visible s.
Proof.
  remember (length s) as n eqn:Hn. assert (Hle : length s <= n) by lia. clear Hn. revert s Hle.
  induction n as [|n IH]; intros [|c [|d t]] Hle; try reflexivity; cbn [length] in Hle; [lia|].
  cbn [crlf]. destruct (Ascii.eqb_spec c CR) as [->|]; cbn [andb].
  - destruct (Ascii.eqb_spec d LF) as [->|].
    + change (visible (LF :: crlf t)) with (visible (crlf t)). rewrite IH by lia. reflexivity.
    + change (visible (crlf (d :: t)) = visible (d :: t)). apply IH. cbn [length]; lia.
  - change (visible ([c] ++ crlf (d :: t)) = visible ([c] ++ d :: t)).
    rewrite !visible_app. f_equal. apply IH. cbn [length]; lia.
Qed.
Lemma visible_detab s : visible (detab s) = visible s.
Proof.
  induction s as [|c s IH]; [reflexivity|]. change (detab (c :: s)) with ((if Ascii.eqb c TAB then [SP; SP; SP; SP] else [c]) ++ detab s).
  change (c :: s) with ([c] ++ s). rewrite !visible_app, IH. f_equal. destruct (Ascii.eqb_spec c TAB) as [->|]; reflexivity.
Qed.
Lemma visible_trim cut s : (forall c, cut c = true -> visible [c] = []) -> visible (trim_right cut s) = visible s.
Proof.
  intros H. destruct (trim_right_spec cut s) as (t & Ht & Hc).
  assert (E : visible t = []).
  { clear Ht. induction t as [|c t IH]; [reflexivity|]. cbn in Hc. apply andb_true_iff in Hc as [H1 H2].
    change (c :: t) with ([c] ++ t). rewrite visible_app, (H c H1), IH by exact H2. reflexivity. }
  transitivity (visible (trim_right cut s ++ t)); [|congruence]. rewrite visible_app, E, app_nil_r. reflexivity.
Qed.
Lemma visible_unlines L : visible (unlines L) = flat_map visible L.
Proof.
  induction L as [|x L IH]; [reflexivity|]. destruct L as [|y L].
  - cbn. rewrite app_nil_r. reflexivity.
  - change (unlines (x :: y :: L)) with (x ++ [LF] ++ unlines (y :: L)). rewrite !visible_app, IH. reflexivity.
Qed.
Lemma visible_squeeze L : forall n, flat_map visible (squeeze n L) = flat_map visible L.
Proof.
  assert (B : forall c, blankc c = true -> visible [c] = []).
  { intros c H. apply orb_true_iff in H as [E|E]; apply Ascii.eqb_eq in E; subst; reflexivity. }
  induction L as [|x L IH]; intros n; [reflexivity|]. cbn [squeeze flat_map].
  pose proof (visible_trim blankc x B) as V.
  destruct (trim_right blankc x) as [|c m] eqn:E.
  - cbn in V. rewrite <- V. destruct (Nat.ltb 2 (S n)); cbn [flat_map app]; apply IH.
  - cbn [flat_map]. rewrite V, IH. reflexivity.
Qed.

Theorem C32_visible_kept : forall s, visible (normalize s) = visible s.
Proof.
  intros s. unfold normalize. rewrite visible_app. cbn [visible filter]. change (visible [LF]) with (@nil ascii).
  rewrite app_nil_r, visible_trim, visible_unlines, visible_squeeze, <- visible_unlines, unlines_lines, visible_detab, visible_crlf.
  - reflexivity.
  - intros c H. apply Ascii.eqb_eq in H. subst. reflexivity.
Qed.

(** WritePackage normalises before handing on to WriteFile, which does it again before WriteFileAbs,
    which does it a third time (gen_ctx.go:43-75): once is enough. *)
Theorem C32_written_once : forall s, cr_paired s -> normalize (normalize (normalize s)) = normalize s.
Proof. intros s H. rewrite (C32_idempotent s H). apply C32_idempotent; exact H. Qed.

(** Idempotence is false in general: a doubled carriage return loses one on each pass. *)
Theorem C32_idempotent_refuted : exists s, normalize (normalize s) <> normalize s.
Proof.
  exists ([ascii_of_nat 97; CR; CR; LF; ascii_of_nat 98]). vm_compute. discriminate.
Qed.

Definition txt (s : string) : text := list_ascii_of_string s.
Example C32_instance :
  let s := txt "a " ++ [CR; LF; TAB] ++ txt "b" ++ [TAB; LF; LF; LF; LF; LF] ++ txt "c" ++ [LF; LF] in
  normalize s = txt "a" ++ [LF] ++ txt "    b" ++ [LF; LF; LF] ++ txt "c" ++ [LF] /\
  cr_paired [ascii_of_nat 97; CR; LF].
Proof.
  split; [vm_compute; reflexivity|].
  intros p q E. destruct p as [|x p]; [discriminate|]. injection E as _ E.
  destruct p as [|y p]; [injection E as <-; exists []; reflexivity|].
  injection E as _ E. destruct p as [|z p]; [discriminate|]. injection E as _ E. destruct p; discriminate.
Qed.

(** A document with three blank lines (one with a "\r\n" end), a tab-indented line and trailing blanks. *)
Example C32_document_instance :
  let doc := [([], (txt "a ", true)); ([([], false); ([TAB], true); ([SP], false)], (TAB :: txt "b" ++ [TAB], false))] in
  let trail := [([SP], false)] in
  Forall block_ok doc /\ Forall blank_line trail /\
  normalize (flat_map block_src doc ++ flat_map src trail) = txt "a" ++ [LF; LF; LF] ++ txt "    b" ++ [LF].
Proof.
  cbv zeta. split; [|split; [|vm_compute; reflexivity]].
  - constructor; [|constructor; [|constructor]]; split; cbn [fst snd].
    + constructor.
    + unfold ink_line. cbn. split; [intuition discriminate|]. split; [intuition discriminate|].
      exists (ascii_of_nat 97). split; [left; reflexivity|split; discriminate].
    + constructor; [|constructor; [|constructor; [|constructor]]]; intros c H; cbn in H; intuition.
    + unfold ink_line. cbn. split; [intuition discriminate|]. split; [intuition discriminate|].
      exists (ascii_of_nat 98). split; [right; left; reflexivity|split; discriminate].
  - constructor; [|constructor]. intros c H. cbn in H. intuition.
Qed.

Print Assumptions C32_document.
Print Assumptions C32_visible_kept.
Print Assumptions C32_written_once.
Print Assumptions C32_normal_form.
Print Assumptions C32_idempotent.
Print Assumptions C32_idempotent_no_crlf.
Print Assumptions C32_content_kept.
Print Assumptions C32_idempotent_refuted.
