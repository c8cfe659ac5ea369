(** Indentation of blocks of generated text: util/indent.go and indentKotlin (generator/target/kotlin/kotlin.go:621-630),
    and property C71.  Texts are lists of bytes, as in TextNorm.v, whose [lines] (strings.Split at line feeds),
    [unlines] (strings.Join) and [trim_right] (strings.TrimRight) are used. *)
From Coq Require Import Ascii String ZArith List Lia Bool Arith.
Import ListNotations.
From Verif Require Import TextNorm.
Open Scope list_scope.

(** ** Model *)

(** Go's strings.ReplaceAll(s, old, new) for a nonempty [old]: occurrences are looked for from the left and
    do not overlap.  [n] bounds the number of steps. *)
Fixpoint cut_front (p s : text) : option text :=
  match p, s with
  | [], _ => Some s
  | x :: p', y :: s' => if Ascii.eqb x y then cut_front p' s' else None
  | _ :: _, [] => None
  end.
Fixpoint replace (n : nat) (old new s : text) : text :=
  match n, s with
  | S n', c :: t => match cut_front old s with
                    | Some r => new ++ replace n' old new r
                    | None => c :: replace n' old new t
                    end
  | _, _ => s
  end.
Definition replace_all (old new s : text) : text := replace (length s) old new s.

(** util/indent.go:8-15 IndentTab ([c] is a tab), 21-28 IndentSpace ([c] is a space). *)
Definition indent (c : ascii) (n : nat) (v : text) : text :=
  let pad := repeat c n in
  let s := pad ++ v in
  let s := replace_all [LF] (LF :: pad) s in
  let s := trim_right (Ascii.eqb c) s in
  replace_all (LF :: pad ++ [LF]) [LF; LF] s.
(** util/indent.go:38-45 IndentSpaceNoFirst. *)
Definition indent_no_first (c : ascii) (n : nat) (v : text) : text :=
  let pad := repeat c n in
  let s := replace_all [LF] (LF :: pad) v in
  let s := trim_right (Ascii.eqb c) s in
  replace_all (LF :: pad ++ [LF]) [LF; LF] s.
(** kotlin.go:621-630 indentKotlin; strings.TrimSuffix(s, "\n"). *)
Definition trim_lf (s : text) : text :=
  match rev s with c :: r => if Ascii.eqb c LF then rev r else s | [] => s end.
Definition indent_kotlin (n : nat) (s : text) : text :=
  unlines (map (fun l => match l with [] => [] | _ => repeat SP n ++ l end) (lines (trim_lf s))) ++ [LF].

(** ** Specification *)

(** What a reader who goes by indentation sees of a line: how many [c] it begins with and what comes after
    them, without the [c]s at its end.  A line of nothing but [c] is not seen. *)
Fixpoint look (c : ascii) (l : text) : option (nat * text) :=
  match l with
  | [] => None
  | x :: r => if Ascii.eqb x c then option_map (fun '(k, t) => (S k, t)) (look c r)
              else Some (0, trim_right (Ascii.eqb c) l)
  end.
Definition layout (c : ascii) (s : text) : list (nat * text) :=
  flat_map (fun l => match look c l with Some x => [x] | None => [] end) (lines s).
Definition deeper (n : nat) (l : list (nat * text)) : list (nat * text) := map (fun '(k, t) => (n + k, t)) l.

(** A line and the line it becomes. *)
Definition moved (c : ascii) (n : nat) (l o : text) : Prop := o = repeat c n ++ l \/ (l = [] /\ o = []).

(** ** Proofs *)

Lemma cut_front_app p s : cut_front p (p ++ s) = Some s.
Proof. induction p as [|x p IH]; cbn; [reflexivity|]. now rewrite Ascii.eqb_refl. Qed.
Lemma cut_front_some p s r : cut_front p s = Some r -> s = p ++ r.
Proof.
  revert s. induction p as [|x p IH]; intros s H; cbn in *; [congruence|].
  destruct s as [|y s]; [discriminate|]. destruct (Ascii.eqb_spec x y) as [->|]; [|discriminate].
  cbn. f_equal. auto.
Qed.
Lemma replace_nil n o w : replace n o w [] = [].
Proof. now destruct n. Qed.

(** The first replacement: every line gets its prefix. *)
Definition pads (pad : text) (ls : list text) : list text :=
  match ls with [] => [] | l :: r => l :: map (app pad) r end.
Lemma replace_lf n pad s : length s <= n -> replace n [LF] (LF :: pad) s = unlines (pads pad (lines s)).
Proof.
  revert s. induction n as [|n IH]; intros s H.
  - destruct s; [reflexivity|cbn in H; lia].
  - destruct s as [|c t]; [reflexivity|]. cbn [length] in H. assert (L : length t <= n) by lia.
    specialize (IH t L). cbn [replace cut_front lines].
    destruct (lines_nonempty t) as (l & r & E). rewrite E in *.
    destruct (Ascii.eqb_spec LF c) as [<-|N].
    + rewrite Ascii.eqb_refl. rewrite IH. cbn [pads map].
      destruct r; cbn [unlines map app]; [reflexivity|]. rewrite <- !app_assoc. reflexivity.
    + destruct (Ascii.eqb_spec c LF) as [X|_]; [congruence|]. rewrite IH. cbn [pads].
      destruct r; cbn [unlines map app]; reflexivity.
Qed.
Lemma replace_all_lf pad s : replace_all [LF] (LF :: pad) s = unlines (pads pad (lines s)).
Proof. apply replace_lf, Nat.le_refl. Qed.
Lemma unlines_cons (x : text) (l : list text) : l <> [] -> unlines (x :: l) = x ++ LF :: unlines l.
Proof. destruct l; [congruence|reflexivity]. Qed.
Lemma lines_pad pad s : ~ In LF pad -> lines (pad ++ s) =
  match lines s with l :: r => (pad ++ l) :: r | [] => [] end.
Proof.
  induction pad as [|c p IH]; intros N; cbn [app].
  - destruct (lines s); reflexivity.
  - cbn [lines]. destruct (Ascii.eqb_spec c LF) as [->|]; [exfalso; apply N; now left|].
    rewrite IH by (intros X; apply N; now right). destruct (lines_nonempty s) as (l & r & ->). reflexivity.
Qed.

(** Trimming concerns the last line. *)
Lemma trim_stop cut a c s : cut c = false -> trim_right cut (a ++ c :: s) = a ++ c :: trim_right cut s.
Proof.
  intros N. induction a as [|x a IH]; cbn [app trim_right].
  - destruct (trim_right cut s); [now rewrite N|reflexivity].
  - rewrite IH. destruct (a ++ c :: trim_right cut s) eqn:E; [destruct a; discriminate|reflexivity].
Qed.
Lemma trim_unlines cut (L : list text) (x : text) : cut LF = false -> trim_right cut (unlines (L ++ [x])) = unlines (L ++ [trim_right cut x]).
Proof.
  intros N. induction L as [|l L IH]; [reflexivity|]. cbn [app].
  rewrite !unlines_cons by (destruct L; discriminate). rewrite trim_stop by exact N. now rewrite IH.
Qed.

(** The second replacement: some of the lines that are a prefix and nothing else become empty. *)
Fixpoint blanks (pad : text) (avail : bool) (ls : list text) : list text :=
  match ls with
  | [] => []
  | x :: r => match r with
              | [] => [x]
              | _ :: _ => if avail && (if list_eq_dec Ascii.ascii_dec x pad then true else false)
                          then [] :: blanks pad false r else x :: blanks pad true r
              end
  end.
Lemma blanks_ne pad b x r : blanks pad b (x :: r) <> [].
Proof. destruct r; cbn [blanks]; [discriminate|]. destruct (_ && _); discriminate. Qed.
Lemma blanks_eq pad b x y r : blanks pad b (x :: y :: r) =
  if b && (if list_eq_dec Ascii.ascii_dec x pad then true else false)
  then [] :: blanks pad false (y :: r) else x :: blanks pad true (y :: r).
Proof. reflexivity. Qed.
Lemma cut_line pad x r : ~ In LF pad -> ~ In LF x -> x <> pad -> cut_front (pad ++ [LF]) (x ++ LF :: r) = None.
Proof.
  revert x. induction pad as [|p pad IH]; intros x N M D; cbn [app cut_front].
  - destruct x as [|c x]; [congruence|]. cbn [app]. destruct (Ascii.eqb_spec LF c) as [E|]; [|reflexivity].
    exfalso. apply M. left. congruence.
  - destruct x as [|c x]; cbn [app].
    + destruct (Ascii.eqb_spec p LF) as [->|]; [|reflexivity]. exfalso. apply N. now left.
    + destruct (Ascii.eqb_spec p c) as [->|]; [|reflexivity]. apply IH; [| |congruence].
      * intros X. apply N. now right.
      * intros X. apply M. now right.
Qed.
Lemma cut_last pad x : ~ In LF x -> cut_front (pad ++ [LF]) x = None.
Proof.
  intros M. destruct (cut_front _ x) as [r|] eqn:E; [|reflexivity]. apply cut_front_some in E.
  exfalso. apply M. rewrite E, <- app_assoc. apply in_or_app. right. now left.
Qed.
Lemma replace_blanks n (pad : text) (ls : list text) : ~ In LF pad -> ls <> [] -> Forall (fun l : text => ~ In LF l) ls ->
  (length (unlines ls) <= n -> replace n (LF :: pad ++ [LF]) [LF; LF] (unlines ls) = unlines (blanks pad false ls)) /\
  (length (unlines ls) < n -> replace n (LF :: pad ++ [LF]) [LF; LF] (LF :: unlines ls) = LF :: unlines (blanks pad true ls)).
Proof.
  intros NP. revert ls. induction n as [n IH] using lt_wf_ind. intros ls NE F.
  assert (COPY : forall x r, ~ In LF x -> forall k, length x + k <= n -> 
    (forall j, j + length x = n -> replace j (LF :: pad ++ [LF]) [LF; LF] r = replace (n - length x) (LF :: pad ++ [LF]) [LF; LF] r) ->
    replace n (LF :: pad ++ [LF]) [LF; LF] (x ++ r) = x ++ replace (n - length x) (LF :: pad ++ [LF]) [LF; LF] r).
  { intros x r NX k Hk _. clear IH. revert n Hk. induction x as [|c x IHx]; intros m Hm.
    - cbn. now rewrite Nat.sub_0_r.
    - cbn [length] in Hm. destruct m as [|m]; [lia|]. cbn [app replace cut_front length Nat.sub].
      destruct (Ascii.eqb_spec LF c) as [<-|]; [exfalso; apply NX; now left|].
      rewrite IHx; [reflexivity| |lia]. intros X. apply NX. now right. }
  assert (FIRST : length (unlines ls) <= n -> replace n (LF :: pad ++ [LF]) [LF; LF] (unlines ls) = unlines (blanks pad false ls)).
  { destruct ls as [|x r]; [congruence|]. inversion F; subst. destruct r as [|y r].
    - cbn [unlines blanks]. intros L. pose proof (COPY x [] H1 0) as C. rewrite app_nil_r, replace_nil, app_nil_r in C.
      apply C; [lia|]. intros. now rewrite replace_nil.
    - rewrite unlines_cons by discriminate. intros L. rewrite app_length in L. cbn [length] in L.
      rewrite (COPY x _ H1 0) by (try lia; intros j J; f_equal; lia).
      rewrite blanks_eq; cbn [andb]. rewrite (unlines_cons x) by apply blanks_ne.
      f_equal. destruct x as [|c x].
      + cbn [length] in *. rewrite Nat.sub_0_r.
        (* the same [n]: one step of the other half, done by hand *)
        destruct n as [|m]; [lia|]. cbn [replace].
        change (cut_front (LF :: pad ++ [LF]) (LF :: unlines (y :: r)))
          with (if Ascii.eqb LF LF then cut_front (pad ++ [LF]) (unlines (y :: r)) else None).
        rewrite Ascii.eqb_refl. inversion H2; subst. destruct r as [|z r].
        * cbn [unlines]. rewrite cut_last by assumption. cbn [blanks unlines]. f_equal.
          assert (LL : length (unlines [y]) <= m) by (cbn [unlines] in *; lia).
          exact (proj1 (IH m (Nat.lt_succ_diag_r m) [y] ltac:(discriminate) H2) LL).
        * rewrite unlines_cons by discriminate. rewrite blanks_eq; cbn [andb].
          destruct (list_eq_dec Ascii.ascii_dec y pad) as [->|D].
          -- replace (pad ++ LF :: unlines (z :: r)) with ((pad ++ [LF]) ++ unlines (z :: r)) by now rewrite <- app_assoc.
             rewrite cut_front_app. cbn [app]. rewrite (unlines_cons []) by apply blanks_ne.
             cbn [app]. f_equal. f_equal. inversion H4; subst.
             apply (proj1 (IH m (Nat.lt_succ_diag_r m) (z :: r) ltac:(discriminate) H4)).
             rewrite unlines_cons in L by discriminate. rewrite app_length in L. cbn [length] in L. lia.
          -- rewrite cut_line by assumption. f_equal.
             rewrite <- (unlines_cons y (z :: r)) by discriminate.
             refine (eq_trans (proj1 (IH m (Nat.lt_succ_diag_r m) (y :: z :: r) ltac:(discriminate) H2) _) _); [lia|reflexivity].
      + cbn [length] in L |- *. apply (proj2 (IH (n - S (length x)) ltac:(lia) (y :: r) ltac:(discriminate) H2)).
        lia. }
  split; [exact FIRST|]. intros L. destruct n as [|m]; [lia|].
  destruct ls as [|y r]; [congruence|]. cbn [replace].
  change (cut_front (LF :: pad ++ [LF]) (LF :: unlines (y :: r)))
    with (if Ascii.eqb LF LF then cut_front (pad ++ [LF]) (unlines (y :: r)) else None).
  rewrite Ascii.eqb_refl. inversion F; subst. destruct r as [|z r].
  - cbn [unlines]. rewrite cut_last by assumption. cbn [blanks unlines]. f_equal.
    exact (proj1 (IH m (Nat.lt_succ_diag_r m) [y] ltac:(discriminate) F) ltac:(cbn [unlines] in *; lia)).
  - rewrite unlines_cons by discriminate. rewrite blanks_eq; cbn [andb].
    destruct (list_eq_dec Ascii.ascii_dec y pad) as [->|D].
    + replace (pad ++ LF :: unlines (z :: r)) with ((pad ++ [LF]) ++ unlines (z :: r)) by now rewrite <- app_assoc.
      rewrite cut_front_app. cbn [app]. rewrite (unlines_cons []) by apply blanks_ne.
      cbn [app]. f_equal. f_equal.
      apply (proj1 (IH m (Nat.lt_succ_diag_r m) (z :: r) ltac:(discriminate) H2)).
      rewrite unlines_cons in L by discriminate. rewrite app_length in L. cbn [length] in L. lia.
    + rewrite cut_line by assumption. f_equal.
      rewrite <- (unlines_cons y (z :: r)) by discriminate.
      refine (eq_trans (proj1 (IH m (Nat.lt_succ_diag_r m) (y :: z :: r) ltac:(discriminate) F) _) _); [lia|reflexivity].
Qed.

Lemma blanks_rel (pad : text) b (L : list text) (x : text) : exists os, blanks pad b (L ++ [x]) = os ++ [x] /\
  Forall2 (fun a o : text => o = a \/ (a = pad /\ o = [])) L os.
Proof.
  revert b. induction L as [|a L IH]; intros b; [exists []; split; [reflexivity|constructor]|].
  cbn [app]. destruct (L ++ [x]) as [|y r] eqn:E; [destruct L; discriminate|]. rewrite blanks_eq.
  destruct b; cbn [andb].
  - destruct (list_eq_dec Ascii.ascii_dec a pad) as [->|].
    + destruct (IH false) as (os & H & F). exists ([] :: os). split; [now rewrite H|]. constructor; auto.
    + destruct (IH true) as (os & H & F). exists (a :: os). split; [now rewrite H|]. constructor; auto.
  - destruct (IH true) as (os & H & F). exists (a :: os). split; [now rewrite H|]. constructor; auto.
Qed.
Lemma no_lf_pad c n : c <> LF -> ~ In LF (repeat c n).
Proof. intros N H. apply repeat_spec in H. congruence. Qed.
Lemma no_lf_trim cut (x : text) : ~ In LF x -> ~ In LF (trim_right cut x).
Proof. intros N H. apply N. destruct (trim_right_spec cut x) as (t & -> & _). apply in_or_app. now left. Qed.
Lemma finish c n (L : list text) (x : text) : c <> LF -> Forall (fun l : text => ~ In LF l) (L ++ [x]) ->
  exists os, lines (replace_all (LF :: repeat c n ++ [LF]) [LF; LF] (trim_right (Ascii.eqb c) (unlines (L ++ [x]))))
             = os ++ [trim_right (Ascii.eqb c) x] /\
  Forall2 (fun a o : text => o = a \/ (a = repeat c n /\ o = [])) L os.
Proof.
  intros N F. apply Forall_app in F as [F1 F2]. inversion F2; subst.
  rewrite trim_unlines by (destruct (Ascii.eqb_spec c LF); congruence).
  assert (F : Forall (fun l : text => ~ In LF l) (L ++ [trim_right (Ascii.eqb c) x])).
  { apply Forall_app. split; [exact F1|]. constructor; [now apply no_lf_trim|constructor]. }
  unfold replace_all.
  rewrite (proj1 (replace_blanks _ (repeat c n) (L ++ [trim_right (Ascii.eqb c) x]) (no_lf_pad c n N)
             ltac:(destruct L; discriminate) F) (Nat.le_refl _)).
  destruct (blanks_rel (repeat c n) false L (trim_right (Ascii.eqb c) x)) as (os & -> & R).
  exists os. split; [|exact R]. apply lines_unlines; [destruct os; discriminate|].
  apply Forall_app in F as [_ F]. apply Forall_app. split; [|exact F].
  clear - R F1. induction R as [|a o L os [->|[_ ->]] R IH]; inversion F1; subst; constructor; auto.
Qed.
Lemma moved_of c n (ls os : list text) : Forall2 (fun a o : text => o = a \/ (a = repeat c n /\ o = [])) (map (app (repeat c n)) ls) os ->
  Forall2 (moved c n) ls os.
Proof.
  revert os. induction ls as [|l ls IH]; intros os F; cbn [map] in F; inversion F; subst; constructor; auto.
  destruct H1 as [->|[E ->]]; [now left|]. right. split; [|reflexivity].
  apply (app_inv_head (repeat c n)). now rewrite app_nil_r.
Qed.

Lemma no_lf_map (pad : text) (L : list text) (x : text) : ~ In LF pad -> Forall (fun l : text => ~ In LF l) (L ++ [x]) ->
  Forall (fun l : text => ~ In LF l) (map (app pad) L ++ [pad ++ x]).
Proof.
  intros N F. induction L as [|a L IH]; cbn [map app] in *.
  - inversion F; subst. constructor; [|constructor]. intros X. apply in_app_or in X as [X|X]; auto.
  - inversion F; subst. constructor; auto. intros X. apply in_app_or in X as [X|X]; auto.
Qed.

(** Every line but the last is moved as a whole (an empty line may stay empty); the last one too, except that it
    loses the [c]s at its end.  No line is added, lost or cut. *)
Theorem C71_lines : forall c n v ls l, c <> LF -> lines v = ls ++ [l] ->
  exists os, lines (indent c n v) = os ++ [trim_right (Ascii.eqb c) (repeat c n ++ l)] /\ Forall2 (moved c n) ls os.
Proof.
  intros c n v ls l N E. unfold indent. rewrite !replace_all_lf.
  rewrite lines_pad by now apply no_lf_pad.
  assert (P : pads (repeat c n) (match lines v with l :: r => (repeat c n ++ l) :: r | [] => [] end)
              = map (app (repeat c n)) ls ++ [repeat c n ++ l]).
  { rewrite E. destruct ls as [|a ls]; [reflexivity|]. cbn [app pads map]. now rewrite map_app. }
  rewrite P.
  destruct (finish c n (map (app (repeat c n)) ls) (repeat c n ++ l) N) as (os & H & R).
  { apply no_lf_map; [now apply no_lf_pad|]. rewrite <- E. apply lines_in_no_lf. }
  exists os. split; [exact H|]. now apply moved_of.
Qed.
Theorem C71_no_first : forall c n v, c <> LF ->
  (forall l, lines v = [l] -> lines (indent_no_first c n v) = [trim_right (Ascii.eqb c) l]) /\
  (forall f ls l, lines v = f :: ls ++ [l] -> exists os,
     lines (indent_no_first c n v) = f :: os ++ [trim_right (Ascii.eqb c) (repeat c n ++ l)] /\
     Forall2 (moved c n) ls os).
Proof.
  intros c n v N. unfold indent_no_first. rewrite !replace_all_lf.
  pose proof (lines_in_no_lf v) as F. split.
  - intros l E. rewrite E in *. destruct (finish c n [] l N F) as (os & H & R). inversion R; subst.
    exact H.
  - intros f ls l E. rewrite E in *. cbn [pads]. rewrite map_app. cbn [map].
    set (pad := repeat c n) in *. inversion F; subst.
    assert (G : Forall (fun l : text => ~ In LF l) ((f :: map (app pad) ls) ++ [pad ++ l])).
    { cbn [app]. constructor; [assumption|].
      apply no_lf_map; [now apply no_lf_pad|assumption]. }
    pose proof G as G'. apply Forall_app in G' as [_ G2]. inversion G2; subst.
    unfold replace_all. change (f :: map (app pad) ls ++ [pad ++ l]) with ((f :: map (app pad) ls) ++ [pad ++ l]).
    rewrite trim_unlines by (destruct (Ascii.eqb_spec c LF); congruence).
    assert (G3 : Forall (fun l : text => ~ In LF l) ((f :: map (app pad) ls) ++ [trim_right (Ascii.eqb c) (pad ++ l)])).
    { apply Forall_app in G as [G1 _]. apply Forall_app. split; [exact G1|]. constructor; [now apply no_lf_trim|constructor]. }
    rewrite (proj1 (replace_blanks _ pad ((f :: map (app pad) ls) ++ [trim_right (Ascii.eqb c) (pad ++ l)]) (no_lf_pad c n N) ltac:(discriminate) G3) (Nat.le_refl _)).
    cbn [app]. 
    assert (B : forall r, r <> [] -> blanks pad false (f :: r) = f :: blanks pad true r)
      by (intros [|y r] NE; [congruence|reflexivity]).
    rewrite B by (destruct ls; discriminate).
    destruct (blanks_rel pad true (map (app pad) ls) (trim_right (Ascii.eqb c) (pad ++ l))) as (os & -> & R).
    exists os. split; [|now apply moved_of].
    apply lines_unlines; [discriminate|]. cbn [app] in G3. inversion G3; subst. constructor; [assumption|].
    match goal with H : Forall _ (_ ++ _) |- _ => apply Forall_app in H as [K1 K2] end.
    apply Forall_app. split; [|exact K2]. clear - R K1.
    induction R as [|a o L os [->|[_ ->]] R IH]; inversion K1; subst; constructor; auto.
Qed.

(** ** Layout *)
Lemma look_pad c n l : look c (repeat c n ++ l) = option_map (fun '(k, t) => (n + k, t)) (look c l).
Proof.
  induction n as [|n IH]; cbn [repeat app look].
  - destruct (look c l) as [[k t]|]; reflexivity.
  - rewrite Ascii.eqb_refl, IH. destruct (look c l) as [[k t]|]; reflexivity.
Qed.
Lemma trim_all cut l : forallb cut l = true -> trim_right cut l = [].
Proof.
  induction l as [|c l IH]; [reflexivity|]. cbn. intros H. apply andb_prop in H as [A B].
  now rewrite IH, A.
Qed.
Lemma trim_idem cut l : trim_right cut (trim_right cut l) = trim_right cut l.
Proof. apply trim_right_id. intros p c H. eapply trim_right_end; eauto. Qed.
Lemma look_trim c l : look c (trim_right (Ascii.eqb c) l) = look c l.
Proof.
  induction l as [|x l IH]; [reflexivity|]. cbn [look].
  destruct (Ascii.eqb_spec x c) as [->|N].
  - rewrite <- IH. cbn [trim_right]. destruct (trim_right (Ascii.eqb c) l) as [|y r] eqn:E.
    + now rewrite Ascii.eqb_refl.
    + cbn [look]. now rewrite Ascii.eqb_refl.
  - assert (M : Ascii.eqb c x = false) by (destruct (Ascii.eqb_spec c x); congruence).
    assert (T : trim_right (Ascii.eqb c) (x :: l) = x :: trim_right (Ascii.eqb c) l)
      by (cbn [trim_right]; destruct (trim_right (Ascii.eqb c) l); [now rewrite M|reflexivity]).
    rewrite T. cbn [look]. destruct (Ascii.eqb_spec x c); [congruence|].
    f_equal. f_equal. rewrite <- T. apply trim_idem.
Qed.
Lemma flat_snoc {A B} (f : A -> list B) l x : flat_map f (l ++ [x]) = flat_map f l ++ f x.
Proof. rewrite flat_map_app. cbn. now rewrite app_nil_r. Qed.
Lemma lines_last v : exists ls l, lines v = ls ++ [l].
Proof.
  destruct (lines_nonempty v) as (a & r & E). destruct (exists_last (l := lines v)) as (ls & l & H).
  - rewrite E. discriminate.
  - eauto.
Qed.

(** Whoever goes by indentation sees the same lines, each [n] deeper. *)
Theorem C71_layout : forall c n v, c <> LF -> layout c (indent c n v) = deeper n (layout c v).
Proof.
  intros c n v N. destruct (lines_last v) as (ls & l & E).
  destruct (C71_lines c n v ls l N E) as (os & H & R). unfold layout. rewrite H, E, !flat_snoc.
  unfold deeper. rewrite map_app. f_equal.
  - clear E H. induction R as [|a o ls os M R IH]; [reflexivity|]. cbn [flat_map]. rewrite map_app, <- IH. f_equal.
    destruct M as [->|[-> ->]]; [|reflexivity]. rewrite look_pad. destruct (look c a) as [[k t]|]; reflexivity.
  - rewrite look_trim, look_pad. destruct (look c l) as [[k t]|]; reflexivity.
Qed.
(** So a block under a header, and blocks within blocks. *)
Theorem C71_block : forall c n h b, c <> LF ->
  layout c (h ++ LF :: indent c n b) = layout c h ++ deeper n (layout c b).
Proof.
  intros c n h b N. unfold layout at 1. rewrite lines_app_lf, flat_map_app. f_equal. now apply C71_layout.
Qed.
Theorem C71_nested : forall c n m v, c <> LF -> layout c (indent c n (indent c m v)) = layout c (indent c (n + m) v).
Proof.
  intros c n m v N. rewrite !C71_layout by exact N. unfold deeper. rewrite map_map. apply map_ext.
  intros [k t]. f_equal. lia.
Qed.
(** A text without empty lines (but perhaps the last) and without [c] at its end is moved to the letter. *)
Theorem C71_exact : forall c n v ls l, c <> LF -> lines v = ls ++ [l] -> ~ In [] ls -> l <> [] ->
  (forall p, l <> p ++ [c]) -> indent c n v = unlines (map (app (repeat c n)) (lines v)).
Proof.
  intros c n v ls l N E NE L0 T. destruct (C71_lines c n v ls l N E) as (os & H & R).
  rewrite <- (unlines_lines (indent c n v)), H, E, map_app. f_equal. f_equal.
  - clear - R NE. induction R as [|a o ls os M R IH]; [reflexivity|]. cbn [map]. f_equal.
    + destruct M as [->|[-> ->]]; [reflexivity|]. exfalso. apply NE. now left.
    + apply IH. intros X. apply NE. now right.
  - cbn [map]. f_equal. apply trim_right_id. intros p x P.
    destruct (exists_last L0) as (q & y & ->). rewrite app_assoc in P. apply app_inj_tail in P as [_ <-].
    destruct (Ascii.eqb_spec c y) as [->|]; [|reflexivity]. exfalso. now apply (T q).
Qed.
(** The Kotlin generator's own function does the same. *)
Lemma lines_trim_lf s : lines s = lines (trim_lf s) \/ lines s = lines (trim_lf s) ++ [[]].
Proof.
  unfold trim_lf. destruct (rev s) as [|c r] eqn:E; [now left|].
  destruct (Ascii.eqb_spec c LF) as [->|]; [|now left]. right.
  rewrite <- (rev_involutive s), E. cbn [rev]. apply lines_snoc_lf.
Qed.
Theorem C71_kotlin : forall n v, layout SP (indent_kotlin n v) = deeper n (layout SP v).
Proof.
  intros n v. unfold indent_kotlin.
  set (f := fun l : text => match l with [] => [] | _ => repeat SP n ++ l end).
  assert (N : SP <> LF) by discriminate.
  unfold layout. rewrite lines_snoc_lf, lines_unlines.
  - assert (A : forall L, flat_map (fun l => match look SP l with Some x => [x] | None => [] end) (map f L)
      = deeper n (flat_map (fun l => match look SP l with Some x => [x] | None => [] end) L)).
    { induction L as [|a L IH]; [reflexivity|]. cbn [map flat_map]. rewrite IH. unfold deeper. rewrite map_app. f_equal.
      destruct a as [|x a]; [reflexivity|]. unfold f. rewrite look_pad. destruct (look SP (x :: a)) as [[k t]|]; reflexivity. }
    rewrite flat_snoc. cbn [look]. rewrite app_nil_r, A. f_equal.
    destruct (lines_trim_lf v) as [-> | ->]; [reflexivity|]. rewrite flat_snoc. cbn [look]. now rewrite app_nil_r.
  - destruct (lines_nonempty (trim_lf v)) as (a & r & ->). discriminate.
  - apply Forall_map. eapply Forall_impl; [|apply lines_in_no_lf]. intros l H X. unfold f in X.
    destruct l; [destruct X|]. apply in_app_or in X as [X|X]; [now apply (no_lf_pad SP n N)|now apply H].
Qed.
(** But a last line that is text ending in blanks is shortened: what is indented must not end in a blank that matters. *)
Definition tx (s : string) : text := list_ascii_of_string s.
Theorem C71_last_blank_refuted : exists v, indent SP 4 v <> unlines (map (app (repeat SP 4)) (lines v)) /\
  v = tx "x = 'a" ++ [LF] ++ tx "b " /\ indent SP 4 v = tx "    x = 'a" ++ [LF] ++ tx "    b".
Proof. eexists. split; [|split; [reflexivity|]]; vm_compute; [discriminate|reflexivity]. Qed.

(** Not vacuous: a Python loop whose body has an empty line. *)
Definition ex_body : text := tx "v = data[offset]" ++ [LF; LF] ++ tx "if v == 0:" ++ [LF] ++ tx "    break".
Example C71_example :
  indent SP 4 ex_body = tx "    v = data[offset]" ++ [LF; LF] ++ tx "    if v == 0:" ++ [LF] ++ tx "        break" /\
  layout SP (tx "for i in range(3):" ++ LF :: indent SP 4 ex_body) =
    [(0, tx "for i in range(3):"); (4, tx "v = data[offset]"); (4, tx "if v == 0:"); (8, tx "break")].
Proof. split; vm_compute; reflexivity. Qed.
