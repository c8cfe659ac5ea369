(** The matching functions of LexModel compute what LexSpec asks for. *)
From Coq Require Import String Ascii List Bool Lia Arith.
From Verif Require Import Literals LexModel LexSpec.
Import ListNotations.
Open Scope string_scope.
Open Scope nat_scope.
Open Scope list_scope.

(** ** Derivatives *)
Lemma lang_seq_inv a b w : lang (RSeq a b) w -> exists u v, w = u ++ v /\ lang a u /\ lang b v.
Proof. inversion 1; subst; eauto. Qed.
Lemma lang_alt_inv a b w : lang (RAlt a b) w -> lang a w \/ lang b w.
Proof. inversion 1; subst; auto. Qed.
Lemma lang_none w : ~ lang RNone w.
Proof. inversion 1. Qed.
Lemma lang_star_cons a c w :
  lang (RStar a) (c :: w) -> exists u v, w = u ++ v /\ lang a (c :: u) /\ lang (RStar a) v.
Proof.
  remember (RStar a) as r eqn:Er. remember (c :: w) as x eqn:Ex. intros H. revert a c w Er Ex.
  induction H; intros; try discriminate. injection Er as ->.
  destruct u as [|c' u].
  - cbn in Ex. eapply IHlang2; eauto.
  - cbn in Ex. injection Ex as -> <-. exists u, v. auto.
Qed.

Lemma nullable_ok r : nullable r = true <-> lang r [].
Proof.
  induction r; cbn; split; intros H; try discriminate; try (inversion H; fail); auto using lang.
  - apply andb_prop in H as [H1 H2]. apply (l_seq r1 r2 [] []); [apply IHr1|apply IHr2]; auto.
  - apply lang_seq_inv in H as (u & v & E & H1 & H2). symmetry in E. apply app_eq_nil in E as [-> ->].
    apply andb_true_intro. split; [apply IHr1|apply IHr2]; auto.
  - apply orb_prop in H as [H|H]; [apply l_left, IHr1|apply l_right, IHr2]; auto.
  - apply lang_alt_inv in H as [H|H]; [apply IHr1 in H|apply IHr2 in H]; rewrite H; auto using orb_true_r.
Qed.

Lemma seq_eps b w : lang (RSeq REps b) w <-> lang b w.
Proof.
  split; intros H.
  - apply lang_seq_inv in H as (u & v & -> & H1 & H2). inversion H1; subst. exact H2.
  - apply (l_seq REps b [] w l_eps H).
Qed.
Lemma seq_none_l b w : lang (RSeq RNone b) w <-> lang RNone w.
Proof.
  split; intros H; [|destruct (lang_none _ H)].
  apply lang_seq_inv in H as (u & v & -> & H1 & H2). destruct (lang_none _ H1).
Qed.
Lemma seq_none_r a w : lang (RSeq a RNone) w <-> lang RNone w.
Proof.
  split; intros H; [|destruct (lang_none _ H)].
  apply lang_seq_inv in H as (u & v & -> & H1 & H2). destruct (lang_none _ H2).
Qed.
Lemma seq'_ok a b w : lang (seq' a b) w <-> lang (RSeq a b) w.
Proof.
  unfold seq'. destruct a;
    first [rewrite seq_none_l; reflexivity | rewrite seq_eps; reflexivity |
           destruct b; first [rewrite seq_none_r; reflexivity | reflexivity]].
Qed.
Lemma alt'_ok a b w : lang (alt' a b) w <-> lang (RAlt a b) w.
Proof.
  unfold alt'. destruct a; try (destruct b); split; intros H; auto using lang;
    try (apply lang_alt_inv in H as [H|H]; auto; destruct (lang_none _ H)).
Qed.

Lemma deriv_ok c r : forall w, lang (deriv c r) w <-> lang r (c :: w).
Proof.
  induction r; intros w; cbn [deriv].
  - split; intros H; inversion H.
  - split; intros H; inversion H.
  - split; intros H.
    + destruct (p c) eqn:E; inversion H; subst. auto using lang.
    + inversion H; subst. match goal with K : p c = true |- _ => rewrite K end. auto using lang.
  - assert (A : lang (RSeq r1 r2) (c :: w) <->
                lang (RSeq (deriv c r1) r2) w \/ (nullable r1 = true /\ lang (deriv c r2) w)).
    { split; intros H.
      - apply lang_seq_inv in H as (u & v & E & H1 & H2). destruct u as [|c' u].
        + cbn in E. subst v. right. split; [now apply nullable_ok|now apply IHr2].
        + cbn in E. injection E as <- ->. left. constructor; auto. now apply IHr1.
      - destruct H as [H|[H1 H2]].
        + apply lang_seq_inv in H as (u & v & -> & H1 & H2). apply IHr1 in H1.
          apply (l_seq _ _ (c :: u) v); auto.
        + apply nullable_ok in H1. apply IHr2 in H2. apply (l_seq _ _ [] (c :: w)); auto. }
    destruct (nullable r1) eqn:E.
    + rewrite alt'_ok. split; intros H.
      * apply A. apply lang_alt_inv in H as [H|H]; [left; now apply seq'_ok|right; auto].
      * apply A in H as [H|[_ H]]; [apply l_left; now apply seq'_ok|now apply l_right].
    + rewrite seq'_ok, A. split; intros H; [now left|]. destruct H as [H|[H _]]; auto; discriminate.
  - rewrite alt'_ok. split; intros H; apply lang_alt_inv in H as [H|H];
      try (apply IHr1 in H); try (apply IHr2 in H); auto using lang.
  - rewrite seq'_ok. split; intros H.
    + apply lang_seq_inv in H as (u & v & -> & H1 & H2). apply IHr in H1.
      apply (l_more _ (c :: u) v); auto.
    + apply lang_star_cons in H as (u & v & -> & H1 & H2). constructor; auto. now apply IHr.
Qed.

(** ** One rule *)
Lemma is_none_ok r w : is_none r = true -> ~ lang r w.
Proof. destruct r; try discriminate. intros _. apply lang_none. Qed.

Lemma longest_ok s : forall r,
  match longest r s with
  | Some n => n <= length s /\ lang r (firstn n s) /\ forall m, m <= length s -> lang r (firstn m s) -> m <= n
  | None => forall m, m <= length s -> ~ lang r (firstn m s)
  end.
Proof.
  induction s as [|c s IH]; intros r; cbn [longest].
  - destruct (is_none r) eqn:E.
    + intros m _. now apply is_none_ok.
    + destruct (nullable r) eqn:N.
      * repeat split; auto. { now apply nullable_ok. }
      * intros m Hm H. destruct m; [|cbn in Hm; lia]. cbn in H. apply nullable_ok in H. congruence.
  - destruct (is_none r) eqn:E.
    + intros m _. now apply is_none_ok.
    + specialize (IH (deriv c r)). destruct (longest (deriv c r) s) as [n|].
      * destruct IH as (H1 & H2 & H3). cbn [length firstn]. split; [lia|]. split; [now apply deriv_ok|].
        intros [|m] Hm H; [lia|]. cbn in H. apply deriv_ok in H. apply H3 in H; lia.
      * destruct (nullable r) eqn:N.
        -- split; [lia|]. split; [now apply nullable_ok|]. intros [|m] Hm H; [lia|]. cbn in H, Hm.
           apply deriv_ok in H. apply IH in H; [easy|lia].
        -- intros [|m] Hm H; cbn in H, Hm; [apply nullable_ok in H; congruence|].
           apply deriv_ok in H. apply IH in H; [easy|lia].
Qed.
Lemma shortest_ok s : forall r,
  match shortest r s with
  | Some n => n <= length s /\ lang r (firstn n s) /\ forall m, m <= length s -> lang r (firstn m s) -> n <= m
  | None => forall m, m <= length s -> ~ lang r (firstn m s)
  end.
Proof.
  induction s as [|c s IH]; intros r; cbn [shortest].
  - destruct (nullable r) eqn:N.
    + split; [lia|]. split; [now apply nullable_ok|]. lia.
    + assert (A : forall m, m <= @length ascii [] -> ~ lang r (firstn m [])).
      { intros m Hm H. destruct m; [|cbn in Hm; lia]. cbn in H. apply nullable_ok in H. congruence. }
      destruct (is_none r); auto.
  - destruct (nullable r) eqn:N.
    + split; [lia|]. split; [now apply nullable_ok|]. lia.
    + destruct (is_none r) eqn:E; [intros m _; now apply is_none_ok|].
      specialize (IH (deriv c r)). destruct (shortest (deriv c r) s) as [n|].
      * destruct IH as (H1 & H2 & H3). cbn [length firstn]. split; [lia|]. split; [now apply deriv_ok|].
        intros [|m] Hm H; cbn in H, Hm; [apply nullable_ok in H; congruence|].
        apply deriv_ok in H. apply H3 in H; lia.
      * intros [|m] Hm H; cbn in H, Hm; [apply nullable_ok in H; congruence|].
        apply deriv_ok in H. apply IH in H; [easy|lia].
Qed.

Lemma prefix_firstn w s : prefix w s <-> w = firstn (length w) s /\ length w <= length s.
Proof.
  split.
  - intros [r ->]. rewrite app_length. split; [|lia].
    rewrite firstn_app, Nat.sub_diag, firstn_all. cbn. now rewrite app_nil_r.
  - intros [E _]. exists (skipn (length w) s). rewrite E at 1. now rewrite firstn_skipn.
Qed.
Lemma prefix_of_firstn n s : n <= length s -> prefix (firstn n s) s.
Proof. intros H. exists (skipn n s). now rewrite firstn_skipn. Qed.

Lemma scan_takes r s w : takes r s w <-> exists n, scan r s = Some n /\ n <= length s /\ w = firstn n s.
Proof.
  unfold takes, scan. split.
  - intros (P & L & M). apply prefix_firstn in P as [E Hl].
    destruct (r_greedy r).
    + pose proof (longest_ok s (r_re r)) as K. destruct (longest (r_re r) s) as [n|].
      * destruct K as (K1 & K2 & K3). exists n. repeat split; auto.
        assert (length w <= n) by (apply K3; [lia|now rewrite <- E]).
        assert (n <= length w).
        { specialize (M (firstn n s) (prefix_of_firstn n s K1) K2). rewrite firstn_length_le in M; auto. }
        replace n with (length w) by lia. auto.
      * exfalso. apply (K (length w)); auto. now rewrite <- E.
    + pose proof (shortest_ok s (r_re r)) as K. destruct (shortest (r_re r) s) as [n|].
      * destruct K as (K1 & K2 & K3). exists n. repeat split; auto.
        assert (n <= length w) by (apply K3; [lia|now rewrite <- E]).
        assert (length w <= n).
        { specialize (M (firstn n s) (prefix_of_firstn n s K1) K2). rewrite firstn_length_le in M; auto. }
        replace n with (length w) by lia. auto.
      * exfalso. apply (K (length w)); auto. now rewrite <- E.
  - intros (n & S & Hn & ->).
    destruct (r_greedy r).
    + pose proof (longest_ok s (r_re r)) as K. rewrite S in K. destruct K as (K1 & K2 & K3).
      split; [now apply prefix_of_firstn|]. split; auto. intros w' P L'. apply prefix_firstn in P as [E Hl].
      rewrite firstn_length_le by auto. apply K3; auto. now rewrite <- E.
    + pose proof (shortest_ok s (r_re r)) as K. rewrite S in K. destruct K as (K1 & K2 & K3).
      split; [now apply prefix_of_firstn|]. split; auto. intros w' P L'. apply prefix_firstn in P as [E Hl].
      rewrite firstn_length_le by auto. apply K3; auto. now rewrite <- E.
Qed.
Lemma scan_le r s n : scan r s = Some n -> n <= length s.
Proof.
  unfold scan. destruct (r_greedy r); intros H.
  - pose proof (longest_ok s (r_re r)) as K. rewrite H in K. tauto.
  - pose proof (shortest_ok s (r_re r)) as K. rewrite H in K. tauto.
Qed.

(** ** All rules *)
Lemma best_ok l s :
  match best l s with
  | Some (k, n) => exists i r, nth_error l i = Some r /\ r_kind r = k /\ scan r s = Some n /\
      forall j r' m, nth_error l j = Some r' -> scan r' s = Some m -> m < n \/ (m = n /\ i <= j)
  | None => forall j r', nth_error l j = Some r' -> scan r' s = None
  end.
Proof.
  induction l as [|r l IH]; cbn [best].
  - intros j r' H. destruct j; discriminate.
  - destruct (scan r s) as [n|] eqn:E; destruct (best l s) as [[k m]|] eqn:B.
    + destruct (Nat.leb m n) eqn:Lm.
      * apply Nat.leb_le in Lm. exists 0, r. repeat split; auto.
        intros [|j] r' x N S'; cbn in N.
        -- injection N as <-. assert (x = n) by congruence. lia.
        -- destruct IH as (i & r0 & _ & _ & _ & IH). specialize (IH j r' x N S'). lia.
      * apply Nat.leb_gt in Lm. destruct IH as (i & r0 & N & K & S' & IH). exists (S i), r0.
        repeat split; auto. intros [|j] r' x N' Sx; cbn in N'.
        -- injection N' as <-. assert (x = n) by congruence. lia.
        -- specialize (IH j r' x N' Sx). lia.
    + exists 0, r. repeat split; auto. intros [|j] r' x N S'; cbn in N.
      * injection N as <-. assert (x = n) by congruence. lia.
      * rewrite (IH j r' N) in S'. discriminate.
    + destruct IH as (i & r0 & N & K & S' & IH). exists (S i), r0.
      repeat split; auto. intros [|j] r' x N' Sx; cbn in N'.
      * injection N' as <-. congruence.
      * specialize (IH j r' x N' Sx). lia.
    + intros [|j] r' N; cbn in N; [injection N as <-; auto|eauto].
Qed.

Lemma next_best s k w :
  next_token s k w <-> exists n, best rules s = Some (k, S n) /\ w = firstn (S n) s /\ S n <= length s.
Proof.
  pose proof (best_ok rules s) as B. split.
  - intros (i & r & N & K & T & Nw & M).
    apply scan_takes in T as (n & Sn & Hn & ->).
    destruct (best rules s) as [[k' n']|].
    + destruct B as (i' & r' & N' & K' & S' & M').
      pose proof (scan_le _ _ _ S') as Hn'.
      assert (T' : takes r' s (firstn n' s)) by (apply scan_takes; eauto).
      specialize (M i' r' _ N' T'). specialize (M' i r n N Sn).
      rewrite !firstn_length_le in M by auto.
      assert (n = n' /\ i = i') as [<- <-] by lia.
      assert (r' = r) by congruence. subst r'. subst k'. subst k.
      destruct n as [|n]; [now cbn in Nw|]. exists n. auto.
    + rewrite (B i r N) in Sn. discriminate.
  - intros (n & Bn & -> & Hn). rewrite Bn in B. destruct B as (i & r & N & K & Sn & M).
    exists i, r. split; auto. split; auto. split; [apply scan_takes; eauto|]. split.
    { intros E. apply (f_equal (@length _)) in E. rewrite firstn_length_le in E by auto. discriminate. }
    intros j r' w' N' T'. apply scan_takes in T' as (m & Sm & Hm & ->).
    rewrite !firstn_length_le by auto. eauto.
Qed.
Lemma next_det s k w k' w' : next_token s k w -> next_token s k' w' -> k = k' /\ w = w'.
Proof.
  intros H H'. apply next_best in H as (n & B & -> & _). apply next_best in H' as (n' & B' & -> & _).
  rewrite B in B'. injection B' as <- <-. auto.
Qed.

(** ** A text *)
Lemma lex_all_cut fuel : forall s ts, lex_all fuel s = Some ts -> cut s ts.
Proof.
  induction fuel as [|fuel IH]; intros s ts H; [discriminate|]. cbn [lex_all] in H.
  destruct s as [|c s']; [injection H as <-; constructor|].
  set (s := c :: s') in *.
  destruct (best rules s) as [[k [|n]]|] eqn:B; try discriminate.
  destruct (lex_all fuel (skipn (S n) s)) as [ts'|] eqn:L; [|discriminate]. injection H as <-.
  apply IH in L.
  assert (Hn : S n <= length s).
  { pose proof (best_ok rules s) as K. rewrite B in K. destruct K as (i & r & _ & _ & Sn & _).
    now apply scan_le in Sn. }
  pose proof (cut_cons k (firstn (S n) s) (skipn (S n) s) ts') as C. rewrite firstn_skipn in C.
  apply C; auto. apply next_best. eauto.
Qed.
Lemma cut_lex_all s ts : cut s ts -> forall fuel, length s < fuel -> lex_all fuel s = Some ts.
Proof.
  induction 1 as [|k w rest ts N C IH]; intros fuel F.
  - destruct fuel; [lia|reflexivity].
  - pose proof N as N0. apply next_best in N as (n & B & E & Hn).
    destruct fuel as [|fuel]; [lia|]. cbn [lex_all].
    destruct (w ++ rest) as [|c s'] eqn:Es; [cbn in Hn; lia|]. rewrite B.
    rewrite <- Es in *.
    assert (Lw : length w = S n) by (rewrite E; now apply firstn_length_le).
    replace (skipn (S n) (w ++ rest)) with rest
      by (rewrite <- Lw, skipn_app, skipn_all, Nat.sub_diag; reflexivity).
    rewrite IH.
    + now rewrite <- E.
    + rewrite app_length in F. lia.
Qed.
Theorem tokens_cut s ts : tokens s = Some ts <-> cut s ts.
Proof.
  split; [apply lex_all_cut|]. intros H. apply (cut_lex_all _ _ H). lia.
Qed.
