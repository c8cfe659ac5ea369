(** Layout: what stands between the tokens does not matter. *)
From Coq Require Import String Ascii List Bool Lia Arith.
From Verif Require Import Literals LexModel LexSpec LexProofs.
Import ListNotations.
Open Scope string_scope.
Open Scope nat_scope.
Open Scope list_scope.

(** ** Tables over all characters *)
Definition all_chars : list ascii := Eval vm_compute in map ascii_of_nat (seq 0 256).
Lemma all_chars_in c : In c all_chars.
Proof.
  change all_chars with (map ascii_of_nat (seq 0 256)). apply in_map_iff. exists (nat_of_ascii c). split; [apply ascii_nat_embedding|].
  apply in_seq. pose proof (nat_ascii_bounded c). lia.
Qed.
Lemma char_table (f : ascii -> bool) : forallb f all_chars = true -> forall c, f c = true.
Proof. intros H c. rewrite forallb_forall in H. apply H, all_chars_in. Qed.
Lemma rule_table (f : rule -> bool) : forallb f rules = true -> forall r, In r rules -> f r = true.
Proof. intros H. now apply forallb_forall. Qed.

(** ** Scanning past the end of a token *)
Lemma longest_no_word r s : (forall w, ~ lang r w) -> longest r s = None.
Proof.
  intros H. pose proof (longest_ok s r) as K. destruct (longest r s) as [n|]; auto.
  destruct K as (_ & K & _). destruct (H _ K).
Qed.
Lemma shortest_no_word r s : (forall w, ~ lang r w) -> shortest r s = None.
Proof.
  intros H. pose proof (shortest_ok s r) as K. destruct (shortest r s) as [n|]; auto.
  destruct K as (_ & K & _). destruct (H _ K).
Qed.
Definition stops (r : re) (t : chars) (c : ascii) : Prop := forall w, ~ lang r (t ++ c :: w).
Lemma stops_deriv r x t c : stops r (x :: t) c -> stops (deriv x r) t c.
Proof. intros H w L. apply deriv_ok in L. now apply (H w). Qed.
Lemma longest_stop t c rest : forall r, stops r t c -> longest r (t ++ c :: rest) = longest r t.
Proof.
  induction t as [|x t IH]; intros r H; cbn [app longest].
  - rewrite (longest_no_word (deriv c r) rest); [reflexivity|].
    intros w L. apply deriv_ok in L. now apply (H w).
  - rewrite IH by now apply stops_deriv. reflexivity.
Qed.
Lemma shortest_stop t c rest : forall r, stops r t c -> shortest r (t ++ c :: rest) = shortest r t.
Proof.
  induction t as [|x t IH]; intros r H; cbn [app shortest].
  - rewrite (shortest_no_word (deriv c r) rest); [reflexivity|].
    intros w L. apply deriv_ok in L. now apply (H w).
  - rewrite IH by now apply stops_deriv. reflexivity.
Qed.
Lemma shortest_app s x : forall r n, shortest r s = Some n -> shortest r (s ++ x) = Some n.
Proof.
  induction s as [|c s IH]; intros r n; cbn [app shortest].
  - destruct (nullable r) eqn:N.
    + intros [= <-]. destruct x; cbn; now rewrite N.
    + destruct (is_none r); discriminate.
  - destruct (nullable r); auto. destruct (is_none r); auto.
    destruct (shortest (deriv c r) s) as [m|] eqn:E; [|discriminate]. now rewrite (IH _ _ E).
Qed.
Lemma scan_stop r t c rest : stops (r_re r) t c -> scan r (t ++ c :: rest) = scan r t.
Proof. unfold scan. destruct (r_greedy r); auto using longest_stop, shortest_stop. Qed.
Lemma best_ext l s s' : (forall r, In r l -> scan r s = scan r s') -> best l s = best l s'.
Proof.
  induction l as [|r l IH]; intros H; [reflexivity|]. cbn [best].
  rewrite (H r (or_introl eq_refl)), IH; [reflexivity|]. intros; apply H; now right.
Qed.
Lemma best_some l s k n : best l s = Some (k, n) -> exists r, In r l /\ r_kind r = k /\ scan r s = Some n.
Proof.
  intros H. pose proof (best_ok l s) as K. rewrite H in K. destruct K as (i & r & N & Kk & Sn & _).
  exists r. split; [now apply nth_error_In in N|auto].
Qed.

(** ** Characters of words *)
Fixpoint fst_b (r : re) (c : ascii) : bool :=
  match r with
  | RNone | REps => false
  | RSet p => p c
  | RSeq a b => fst_b a c || (nullable a && fst_b b c)
  | RAlt a b => fst_b a c || fst_b b c
  | RStar a => fst_b a c
  end.
Fixpoint lst_b (r : re) (c : ascii) : bool :=
  match r with
  | RNone | REps => false
  | RSet p => p c
  | RSeq a b => lst_b b c || (nullable b && lst_b a c)
  | RAlt a b => lst_b a c || lst_b b c
  | RStar a => lst_b a c
  end.
Fixpoint pair_b (r : re) (c d : ascii) : bool :=
  match r with
  | RNone | REps | RSet _ => false
  | RSeq a b => pair_b a c d || pair_b b c d || (lst_b a c && fst_b b d)
  | RAlt a b => pair_b a c d || pair_b b c d
  | RStar a => pair_b a c d || (lst_b a c && fst_b a d)
  end.
Fixpoint has_b (r : re) (c : ascii) : bool :=
  match r with
  | RNone | REps => false
  | RSet p => p c
  | RSeq a b | RAlt a b => has_b a c || has_b b c
  | RStar a => has_b a c
  end.

Ltac bools :=
  repeat match goal with
  | |- (_ || _)%bool = true => apply orb_true_intro
  | |- (_ && _)%bool = true => apply andb_true_intro
  end.
Lemma fst_ok r w : lang r w -> forall c v, w = c :: v -> fst_b r c = true.
Proof.
  induction 1; intros x t E; cbn [fst_b]; try discriminate.
  - injection E as <- <-. auto.
  - destruct u as [|y u]; cbn in E.
    + bools. right. bools. split; [now apply nullable_ok|eauto].
    + injection E as <- <-. bools. left. eauto.
  - bools. left. eauto.
  - bools. right. eauto.
  - destruct u as [|y u]; cbn in E; [exact (IHlang2 x t E)|]. injection E as <- <-. eauto.
Qed.
Lemma last_case {A} (l : list A) : l = [] \/ exists u c, l = u ++ [c].
Proof. induction l using rev_ind; [auto|right; eauto]. Qed.
Lemma lst_ok r w : lang r w -> forall c u, w = u ++ [c] -> lst_b r c = true.
Proof.
  induction 1 as [ |p c H|a b u v H1 IH1 H2 IH2|a b u H IH|a b u H IH|a|a u v H1 IH1 H2 IH2];
    intros x t E; cbn [lst_b]; try (destruct t; discriminate).
  - destruct t as [|y t]; cbn in E; [injection E as <-; auto|]. injection E as _ E. destruct t; discriminate.
  - destruct (last_case v) as [->|(v' & y & ->)].
    + rewrite app_nil_r in E. bools. right. bools. split; [now apply nullable_ok|eauto].
    + rewrite app_assoc in E. apply app_inj_tail in E as [_ ->]. bools. left. eauto.
  - bools. left. eauto.
  - bools. right. eauto.
  - destruct (last_case v) as [->|(v' & y & ->)].
    + rewrite app_nil_r in E. eauto.
    + rewrite app_assoc in E. apply app_inj_tail in E as [_ ->]. exact (IH2 x v' eq_refl).
Qed.
(** Two neighbours in u ++ v: both in u, the seam, or both in v. *)
Lemma neighbours {A} (u v : list A) p c d q :
  u ++ v = p ++ c :: d :: q ->
  (exists q', u = p ++ c :: d :: q') \/ (u = p ++ [c] /\ v = d :: q) \/ (exists p', v = p' ++ c :: d :: q).
Proof.
  revert p. induction u as [|x u IH]; intros p E; cbn in E.
  - right. right. exists p. auto.
  - destruct p as [|y p]; cbn in E.
    + injection E as -> E. destruct u as [|y u]; cbn in E.
      * right. left. split; auto.
      * injection E as -> E. left. exists u. auto.
    + injection E as -> E. apply IH in E as [(q' & ->)|[[-> ->]|(p' & ->)]];
        [left; eexists; reflexivity|right; left; auto|right; right; eauto].
Qed.
Lemma pair_ok r w : lang r w -> forall u c d v, w = u ++ c :: d :: v -> pair_b r c d = true.
Proof.
  induction 1 as [ |p x H|a b u v H1 IH1 H2 IH2|a b u H IH|a b u H IH|a|a u v H1 IH1 H2 IH2];
    intros p' c d q E; cbn [pair_b].
  - destruct p'; discriminate.
  - destruct p' as [|? [|]]; discriminate.
  - apply neighbours in E as [(q' & E)|[[E1 E2]|(p & E)]].
    + rewrite (IH1 _ _ _ _ E). auto.
    + rewrite (lst_ok _ _ H1 _ _ E1), (fst_ok _ _ H2 _ _ E2). apply orb_true_r.
    + rewrite (IH2 _ _ _ _ E). now rewrite orb_true_r.
  - rewrite (IH _ _ _ _ E). auto.
  - rewrite (IH _ _ _ _ E). apply orb_true_r.
  - destruct p'; discriminate.
  - apply neighbours in E as [(q' & E)|[[E1 E2]|(p & E)]].
    + rewrite (IH1 _ _ _ _ E). auto.
    + pose proof (fst_ok _ _ H2 _ _ E2) as F. cbn in F. rewrite (lst_ok _ _ H1 _ _ E1), F. apply orb_true_r.
    + exact (IH2 _ _ _ _ E).
Qed.
Lemma has_ok r w : lang r w -> forall c, In c w -> has_b r c = true.
Proof.
  induction 1 as [ |p x H|a b u v H1 IH1 H2 IH2|a b u H IH|a b u H IH|a|a u v H1 IH1 H2 IH2];
    intros y I; cbn [has_b].
  - destruct I.
  - destruct I as [<-|[]]. auto.
  - apply in_app_or in I as [I|I]; [rewrite (IH1 _ I)|rewrite (IH2 _ I)]; auto using orb_true_r.
  - rewrite (IH _ I). auto.
  - rewrite (IH _ I). apply orb_true_r.
  - destruct I.
  - apply in_app_or in I as [I|I]; [exact (IH1 _ I)|exact (IH2 _ I)].
Qed.

(** ** After a token *)
Definition fst_none (r : rule) (x : ascii) : bool := negb (fst_b (r_re r) x).
Lemma fst_none_stops r x t c : fst_none r x = true -> stops (r_re r) (x :: t) c.
Proof.
  unfold fst_none. intros H w L.
  pose proof (fst_ok _ _ L x (t ++ c :: w) eq_refl) as F. rewrite F in H. discriminate.
Qed.

Definition quote (x : ascii) : bool := Ascii.eqb x "'" || Ascii.eqb x """".
Lemma table_quote : forallb (fun r => forallb (fun x => negb (quote x) || fst_none r x || match r_kind r with KStr => true | _ => false end)
  all_chars) rules = true.
Proof. vm_compute. reflexivity. Qed.
Lemma table_letter :
  forallb (fun r => forallb (fun x => if letter x then
     if fst_none r x then true else let d := deriv x (r_re r) in forallb (fun c => if word_char c then true else negb (has_b d c)) all_chars
     else true) all_chars) rules = true.
Proof. vm_compute. reflexivity. Qed.
Lemma table_number :
  forallb (fun r => if forallb (fun x => if decimal_digit x || Ascii.eqb x "." then fst_none r x else true) all_chars
     then true else forallb (fun c => if word_char c || Ascii.eqb c "." then true
       else if has_b (r_re r) c then
         forallb (fun l => if one_of (cs "+-") c && one_of (cs "eE") l then true else negb (pair_b (r_re r) l c)) all_chars
       else true) all_chars) rules = true.
Proof. vm_compute. reflexivity. Qed.
Fixpoint derivs (t : chars) (r : re) : re := match t with [] => r | c :: t => derivs t (deriv c r) end.
Lemma derivs_ok t : forall r w, lang (derivs t r) w <-> lang r (t ++ w).
Proof.
  induction t as [|c t IH]; intros r w; cbn [derivs app]; [reflexivity|]. rewrite IH. apply deriv_ok.
Qed.
Lemma table_symbol :
  forallb (fun t => forallb (fun c => if may_touch t c then
    forallb (fun r => is_none (derivs (t ++ [c]) (r_re r))) rules else true) all_chars) symbols = true.
Proof. vm_compute. reflexivity. Qed.
Definition is_symbol_rule (r : rule) : bool :=
  existsb (fun t => fst_b (r_re r) (hd " "%char t) && negb (is_none (derivs t (r_re r)))) symbols.
Lemma text_lang t w : lang (RText t) w -> w = t.
Proof.
  revert w. induction t as [|c t IH]; intros w L; cbn in L.
  - inversion L; auto.
  - destruct t as [|d t].
    + inversion L; subst. unfold is_char in *. match goal with H : Ascii.eqb _ _ = true |- _ => apply Ascii.eqb_eq in H end.
      now subst.
    + apply lang_seq_inv in L as (u & v & -> & L1 & L2). rewrite (IH _ L2).
      inversion L1; subst. match goal with H : is_char _ _ = true |- _ => apply Ascii.eqb_eq in H end. now subst.
Qed.
Lemma lang_text t : lang (RText t) t.
Proof.
  induction t as [|c t IH]; cbn; [constructor|]. destruct t as [|d t].
  - constructor. unfold is_char. apply Ascii.eqb_refl.
  - apply (l_seq _ _ [c] (d :: t)); auto. constructor. unfold is_char. apply Ascii.eqb_refl.
Qed.
Lemma rules_cases r : In r rules ->
  (exists t, In t keywords /\ r = greedy KFixed (RText t)) \/ (exists t, In t symbols /\ r = greedy KFixed (RText t)) \/
  In r [shortest_first KStr str_lit; greedy KBool bool_lit; greedy KFloat float_lit; greedy KInt int_lit;
        greedy KIdent identifier; greedy KWs ws; greedy KLine line_comment; shortest_first KComment comment;
        greedy KKeywords keywords_rule].
Proof.
  unfold rules. intros H. apply in_app_or in H as [H|H]; [|auto].
  apply in_map_iff in H as (t & <- & H). apply in_app_or in H as [H|H]; eauto.
Qed.
Definition other (x : ascii) : bool := negb (quote x || letter x || decimal_digit x).
Lemma table_other :
  forallb (fun x => if other x then
    forallb (fun r => negb (fst_b (r_re r) x) || hidden (r_kind r) || (Ascii.eqb x "." && match r_kind r with KFloat => true | _ => false end))
      (map (fun t => greedy KFixed (RText t)) keywords ++
       [shortest_first KStr str_lit; greedy KBool bool_lit; greedy KFloat float_lit; greedy KInt int_lit;
        greedy KIdent identifier; greedy KWs ws; greedy KLine line_comment; shortest_first KComment comment;
        greedy KKeywords keywords_rule]) else true) all_chars = true.
Proof. vm_compute. reflexivity. Qed.

Lemma token_rule k t : is_token k t -> exists r, In r rules /\ r_kind r = k /\ lang (r_re r) t /\
  best rules t = Some (k, length t) /\ scan r t = Some (length t) /\ t <> [].
Proof.
  intros [N H]. pose proof N as N0. apply next_best in N as (n & B & E & Hn).
  assert (L : length t = S n) by (rewrite E; now apply firstn_length_le).
  destruct (best_some _ _ _ _ B) as (r & I & K & Sn). exists r. rewrite L. repeat split; auto.
  - assert (T : takes r t t) by (apply scan_takes; eauto). apply T.
  - intros ->. discriminate.
Qed.
Lemma other_symbol k t : is_token k t -> other (hd " "%char t) = true ->
  (hd " "%char t = "."%char -> t = ["."%char]) -> In t symbols.
Proof.
  intros T O D. pose proof T as [_ Hk]. apply token_rule in T as (r & I & K & L & _ & _ & Nt).
  destruct t as [|x t]; [easy|]. cbn [hd] in *.
  pose proof (char_table _ table_other x) as Tx. cbn beta in Tx. rewrite O in Tx.
  rewrite forallb_forall in Tx.
  pose proof (fst_ok _ _ L x t eq_refl) as F.
  apply rules_cases in I as [(s & Is & ->)|[(s & Is & ->)|I]].
  - assert (Ir : In (greedy KFixed (RText s)) (map (fun t => greedy KFixed (RText t)) keywords)) by (apply in_map_iff; eauto).
    specialize (Tx _ (in_or_app _ _ _ (or_introl Ir))). rewrite F in Tx. cbn in K. subst k.
    cbn in Tx. rewrite andb_false_r in Tx. discriminate.
  - cbn in L. apply text_lang in L. subst s. auto.
  - specialize (Tx _ (in_or_app _ _ _ (or_intror I))). rewrite F, K, Hk in Tx. cbn in Tx.
    apply andb_prop in Tx as [Ex Ek]. apply Ascii.eqb_eq in Ex. specialize (D Ex). injection D as -> ->.
    destruct k; try discriminate.
    assert (R : r = greedy KFloat float_lit).
    { repeat (destruct I as [<-|I]; [cbn in K; try discriminate; reflexivity|]). destruct I. }
    rewrite R in L. exfalso. revert L. change (["."%char]) with (["."%char] ++ []). rewrite <- derivs_ok.
    rewrite <- nullable_ok. vm_compute. discriminate.
Qed.

Lemma last_snoc t : t <> [] -> exists u, t = u ++ [last_char t].
Proof.
  intros H. exists (removelast t). unfold last_char. now apply app_removelast_last.
Qed.

(** The token is found again in front of a character it may touch. *)
Lemma touch k t c rest : is_token k t -> may_touch t c = true ->
  best rules (t ++ c :: rest) = Some (k, length t).
Proof.
  intros T M. pose proof T as T0. apply token_rule in T0 as (r0 & I0 & K0 & L0 & B0 & S0 & Nt).
  rewrite <- B0. apply best_ext. intros r Ir.
  destruct t as [|x t]; [easy|]. pose proof M as Cs. unfold may_touch in Cs. set (w := x :: t) in *.
  fold (quote x) in Cs.
  destruct (quote x) eqn:Q.
  - pose proof (char_table _ (rule_table _ table_quote r Ir) x) as Tx. cbn beta in Tx. rewrite Q in Tx.
    cbn [negb orb] in Tx. apply orb_prop in Tx as [Tx|Tx].
    { apply scan_stop. now apply fst_none_stops. }
    assert (Kr : r_kind r = KStr) by (destruct (r_kind r); congruence).
    assert (Kr0 : r_kind r0 = KStr).
    { pose proof (char_table _ (rule_table _ table_quote r0 I0) x) as Ty. cbn beta in Ty. rewrite Q in Ty.
      cbn [negb orb] in Ty. unfold fst_none in Ty. rewrite (fst_ok _ _ L0 x t eq_refl) in Ty.
      cbn in Ty. destruct (r_kind r0); congruence. }
    assert (U : forall r, In r rules -> r_kind r = KStr -> r = shortest_first KStr str_lit).
    { clear. intros r I K. apply rules_cases in I as [(s & _ & ->)|[(s & _ & ->)|I]]; try discriminate.
      repeat (destruct I as [<-|I]; [cbn in K; try discriminate; reflexivity|]). destruct I. }
    rewrite (U r Ir Kr), <- (U r0 I0 Kr0). rewrite S0. rewrite (U r0 I0 Kr0) in S0 |- *.
    unfold scan in *. cbn [r_greedy shortest_first r_re] in *. now apply shortest_app.
  - apply scan_stop. destruct (letter x) eqn:Lx.
    + pose proof (char_table _ (rule_table _ table_letter r Ir) x) as Tx. cbn beta zeta in Tx. rewrite Lx in Tx.
      destruct (fst_none r x) eqn:Fx; [apply fst_none_stops; exact Fx|].
      pose proof (char_table _ Tx c) as Tc. cbn beta in Tc.
      apply negb_true_iff in Cs. rewrite Cs in Tc. apply negb_true_iff in Tc.
      intros v Lv. cbn in Lv. apply deriv_ok in Lv.
      rewrite (has_ok _ _ Lv c) in Tc; [discriminate|]. apply in_or_app. right. now left.
    + destruct (decimal_digit x || Ascii.eqb x "." && negb (match t with [] => true | _ => false end)) eqn:D.
      * apply andb_prop in Cs as [Cs C3]. apply andb_prop in Cs as [C1 C2].
        apply negb_true_iff in C1, C2, C3.
        pose proof (rule_table _ table_number r Ir) as Tx. cbn beta in Tx.
        match type of Tx with (if ?b then _ else _) = _ => destruct b eqn:Tn end.
        -- clear Tx. rename Tn into Tx. pose proof (char_table _ Tx x) as Ty. cbn beta in Ty.
           assert (Dx : decimal_digit x || Ascii.eqb x "." = true).
           { clear Tx. destruct (decimal_digit x); [reflexivity|]. cbn [orb] in D |- *. apply andb_prop in D as [D _]. exact D. }
           rewrite Dx in Ty. apply fst_none_stops. exact Ty.
        -- pose proof (char_table _ Tx c) as Ty. cbn beta in Ty. rewrite C1, C2 in Ty. cbn [orb] in Ty.
           intros v Lv. destruct (has_b (r_re r) c) eqn:Hh.
           2:{ rewrite (has_ok _ _ Lv c) in Hh; [discriminate|]. apply in_or_app. right. now left. }
           pose proof (char_table _ Ty (last_char w)) as Tz. cbn beta in Tz. rewrite C3 in Tz.
           apply negb_true_iff in Tz. destruct (last_snoc w) as (u & E); [discriminate|].
           rewrite E in Lv. rewrite <- app_assoc in Lv. cbn [app] in Lv.
           rewrite (pair_ok _ _ Lv _ _ _ _ eq_refl) in Tz. discriminate.
      * assert (Is : In w symbols).
        { apply (other_symbol k); [exact T| |].
          - cbn [hd w]. unfold other. rewrite Q, Lx. destruct (decimal_digit x); [discriminate|reflexivity].
          - cbn [hd w]. intros ->. destruct t; [reflexivity|]. rewrite orb_true_r in D. discriminate. }
        pose proof table_symbol as Tx. rewrite forallb_forall in Tx. specialize (Tx w Is).
        pose proof (char_table _ Tx c) as Ty. cbn beta in Ty. rewrite M in Ty.
        rewrite forallb_forall in Ty. specialize (Ty r Ir). 
        intros v Lv. replace (w ++ c :: v) with ((w ++ [c]) ++ v) in Lv by now rewrite <- app_assoc.
        apply derivs_ok in Lv. exact (is_none_ok _ v Ty Lv).
Qed.

(** ** Gaps *)
Definition V (s : chars) (vs : list token) : Prop := exists ts, cut s ts /\ visible ts = vs.
Lemma lex_V s vs : lex s = Some vs <-> V s vs.
Proof.
  unfold lex, V. split.
  - intros H. destruct (tokens s) as [ts|] eqn:E; [|discriminate]. injection H as <-. exists ts.
    split; auto. now apply tokens_cut.
  - intros (ts & C & <-). apply tokens_cut in C. now rewrite C.
Qed.
Lemma V_step s k n vs : best rules s = Some (k, S n) -> V (skipn (S n) s) vs ->
  V s (if hidden k then vs else (k, firstn (S n) s) :: vs).
Proof.
  intros B (ts & C & <-).
  assert (Hn : S n <= length s).
  { destruct (best_some _ _ _ _ B) as (r & _ & _ & Sn). now apply scan_le in Sn. }
  exists ((k, firstn (S n) s) :: ts). split.
  - pose proof (cut_cons k (firstn (S n) s) (skipn (S n) s) ts) as K. rewrite firstn_skipn in K.
    apply K; auto. apply next_best. eauto.
  - cbn [visible filter fst]. destruct (hidden k); reflexivity.
Qed.
Lemma V_token k t s vs : is_token k t -> (forall c s', s = c :: s' -> may_touch t c = true) -> V s vs ->
  V (t ++ s) ((k, t) :: vs).
Proof.
  intros T M H.
  assert (B : best rules (t ++ s) = Some (k, length t)).
  { destruct s as [|c s'].
    - rewrite app_nil_r. now apply token_rule in T as (r & _ & _ & _ & B & _).
    - apply touch; eauto. }
  pose proof T as [_ Hk]. apply token_rule in T as (_ & _ & _ & _ & _ & _ & Nt).
  destruct (length t) as [|n] eqn:E; [destruct t; [destruct (Nt eq_refl)|discriminate E]|].
  pose proof (V_step _ _ _ vs B) as K. rewrite Hk in K.
  rewrite <- E in K. rewrite skipn_app, skipn_all, Nat.sub_diag in K. cbn in K.
  rewrite firstn_app, firstn_all, Nat.sub_diag in K. cbn in K. rewrite app_nil_r in K. exact (K H).
Qed.

(** Blanks. *)
Fixpoint blanks (s : chars) : nat := match s with c :: s' => if blank c then S (blanks s') else 0 | [] => 0 end.
Lemma star_set p s : longest (RStar (RSet p)) s =
  Some ((fix go (s : chars) := match s with c :: s' => if p c then S (go s') else 0 | [] => 0 end) s).
Proof.
  induction s as [|c s IH]; [reflexivity|]. cbn [longest is_none deriv nullable].
  destruct (p c); cbn [seq'].
  - now rewrite IH.
  - destruct s; reflexivity.
Qed.
Lemma table_blank : forallb (fun x => if blank x then
  forallb (fun r => fst_none r x || match r_kind r with KWs => true | _ => false end) rules else true) all_chars = true.
Proof. vm_compute. reflexivity. Qed.
Lemma table_nullable : forallb (fun r => negb (nullable (r_re r))) rules = true.
Proof. vm_compute. reflexivity. Qed.
Lemma scan_fst r x s n : In r rules -> scan r (x :: s) = Some n -> fst_b (r_re r) x = true /\ n <> 0.
Proof.
  intros I H. assert (T : takes r (x :: s) (firstn n (x :: s))).
  { apply scan_takes. exists n. repeat split; auto. now apply scan_le in H. }
  destruct T as (_ & L & _). destruct n as [|n].
  - exfalso. cbn in L. apply nullable_ok in L.
    pose proof (rule_table _ table_nullable r I) as K. cbn beta in K. rewrite L in K. discriminate.
  - split; [|discriminate]. apply (fst_ok _ _ L x (firstn n s)). reflexivity.
Qed.
Lemma best_pick r0 s n : In r0 rules -> scan r0 s = Some n ->
  (forall r m, In r rules -> scan r s = Some m -> m < n \/ (m = n /\ r_kind r = r_kind r0)) ->
  best rules s = Some (r_kind r0, n).
Proof.
  intros I S0 M. pose proof (best_ok rules s) as B. apply In_nth_error in I as (i & N).
  destruct (best rules s) as [[k n']|].
  - destruct B as (i' & r' & N' & K' & S' & M').
    specialize (M' i r0 n N S0). pose proof (nth_error_In _ _ N') as I'.
    destruct (M r' n' I' S') as [?|[-> E]]; [lia|]. congruence.
  - rewrite (B i r0 N) in S0. discriminate.
Qed.
Lemma kind_rule k r0 : In r0 rules -> r_kind r0 = k -> k <> KFixed ->
  forall r, In r rules -> r_kind r = k -> r = r0.
Proof.
  intros I0 K0 N r I K.
  apply rules_cases in I0 as [(s & _ & ->)|[(s & _ & ->)|I0]]; try (cbn in K0; congruence).
  apply rules_cases in I as [(s & _ & ->)|[(s & _ & ->)|I]]; try (cbn in K; congruence).
  repeat (destruct I0 as [<-|I0]; [repeat (destruct I as [<-|I]; [cbn in K, K0; congruence || reflexivity|]); destruct I|]).
  destruct I0.
Qed.
Lemma tail_rule r : In r [shortest_first KStr str_lit; greedy KBool bool_lit; greedy KFloat float_lit; greedy KInt int_lit;
        greedy KIdent identifier; greedy KWs ws; greedy KLine line_comment; shortest_first KComment comment;
        greedy KKeywords keywords_rule] -> In r rules.
Proof. intros H. unfold rules. apply in_or_app. now right. Qed.

Lemma best_blank c s : blank c = true -> best rules (c :: s) = Some (KWs, S (blanks s)).
Proof.
  intros Hc. apply (best_pick (greedy KWs ws)).
  - apply tail_rule. cbn; tauto.
  - unfold scan, greedy, ws, RPlus. cbn [r_greedy r_re longest is_none deriv nullable]. rewrite Hc. cbn [seq'].
    rewrite star_set. reflexivity.
  - intros r m I S'. pose proof (scan_fst r c s m I S') as [F _].
    pose proof (char_table _ table_blank c) as Tx. cbn beta in Tx. rewrite Hc in Tx.
    rewrite forallb_forall in Tx. specialize (Tx r I). unfold fst_none in Tx. rewrite F in Tx. cbn in Tx.
    assert (K : r_kind r = KWs) by (destruct (r_kind r); congruence).
    assert (r = greedy KWs ws) as ->.
    { apply (kind_rule KWs); [apply tail_rule; cbn; tauto|reflexivity|discriminate|exact I|exact K]. }
    unfold scan, greedy, ws, RPlus in S'. cbn [r_greedy r_re longest is_none deriv nullable] in S'.
    rewrite Hc in S'. cbn [seq'] in S'. rewrite star_set in S'. injection S' as <-. right. split; reflexivity.
Qed.
Lemma V_drop s vs : V s vs -> V (skipn (blanks s) s) vs.
Proof.
  destruct s as [|c s]; [auto|]. cbn [blanks]. destruct (blank c) eqn:Hc; [|auto].
  intros (ts & C & <-). pose proof (best_blank c s Hc) as B.
  remember (c :: s) as s0 eqn:E0. destruct C as [|k w rest ts' N C']; [discriminate|].
  apply next_best in N as (n & B' & Ew & Hn).
  assert (k = KWs /\ n = blanks s) as [-> ->] by (split; congruence).
  exists ts'. split; [|reflexivity].
  assert (Lw : length w = S (blanks s)) by (rewrite Ew; apply firstn_length_le; exact Hn).
  rewrite skipn_app, <- Lw, skipn_all, Nat.sub_diag. exact C'.
Qed.
Lemma V_blank c s vs : blank c = true -> V s vs -> V (c :: s) vs.
Proof.
  intros Hc H. apply (V_step (c :: s) KWs (blanks s) vs); [now apply best_blank|]. cbn [skipn]. now apply V_drop.
Qed.

(** Comments. *)
Lemma table_line : forallb (fun r => match r_kind r with KLine => true | _ => is_none (derivs (cs "//") (r_re r)) end) rules = true.
Proof. vm_compute. reflexivity. Qed.
Lemma table_comment : forallb (fun r => match r_kind r with KComment => true | _ => is_none (derivs (cs "/*") (r_re r)) end) rules = true.
Proof. vm_compute. reflexivity. Qed.
Lemma lang_line body : Forall no_break body -> lang line_comment (cs "//" ++ body).
Proof.
  intros H. unfold line_comment. apply l_seq; [apply lang_text|].
  induction H as [|c body Hc _ IH]; [constructor|]. apply (l_more _ [c] body); auto. constructor.
  destruct Hc as [H1 H2]. unfold one_of. cbn [existsb].
  destruct (Ascii.eqb c return_) eqn:E1; [apply Ascii.eqb_eq in E1; easy|].
  destruct (Ascii.eqb c newline) eqn:E2; [apply Ascii.eqb_eq in E2; easy|]. reflexivity.
Qed.
Lemma table_break : forallb (fun c => negb (one_of [return_; newline] c) || negb (has_b line_comment c)) all_chars = true.
Proof. vm_compute. reflexivity. Qed.
Lemma prefix_len w w' s : prefix w s -> prefix w' s -> length w <= length w' -> prefix w w'.
Proof.
  intros [r ->] [r' E] L. exists (skipn (length w) w').
  apply (f_equal (firstn (length w))) in E. rewrite !firstn_app, firstn_all, Nat.sub_diag in E.
  replace (length w - length w') with 0 in E by lia. cbn [firstn] in E. rewrite !app_nil_r in E.
  rewrite E at 1. symmetry. apply firstn_skipn.
Qed.
Lemma scan_word r s n : scan r s = Some n -> exists w, takes r s w /\ length w = n.
Proof.
  intros H. exists (firstn n s). split; [|apply firstn_length_le; now apply scan_le in H].
  apply scan_takes. exists n. repeat split; auto. now apply scan_le in H.
Qed.
Lemma takes_scan r s w : takes r s w -> scan r s = Some (length w).
Proof.
  intros H. apply scan_takes in H as (n & S' & Hn & ->). now rewrite firstn_length_le.
Qed.
Lemma short_of_two r a b s n : is_none (derivs [a; b] (r_re r)) = true -> scan r (a :: b :: s) = Some n -> n < 2.
Proof.
  intros H S'. apply scan_word in S' as (w & (P & L & _) & <-). destruct w as [|x [|y w]]; cbn; try lia.
  destruct P as [rest P]. cbn in P. injection P as <- <- _.
  exfalso. apply (is_none_ok _ w H). apply derivs_ok. exact L.
Qed.
Lemma best_line body tail : Forall no_break body -> (forall c t, tail = c :: t -> c = newline \/ c = return_) ->
  best rules (cs "//" ++ body ++ tail) = Some (KLine, S (S (length body))).
Proof.
  intros Hb Ht. set (s := cs "//" ++ body ++ tail).
  assert (T : takes (greedy KLine line_comment) s (cs "//" ++ body)).
  { split; [exists tail; unfold s; now rewrite <- app_assoc|]. split; [now apply lang_line|].
    cbn [r_greedy greedy r_re]. intros w' P L.
    destruct (Nat.le_gt_cases (length w') (length (cs "//" ++ body))) as [|G]; auto. exfalso.
    assert (P' : prefix (cs "//" ++ body) w').
    { apply (prefix_len _ _ s); auto; [|lia]. exists tail. unfold s. now rewrite <- app_assoc. }
    destruct P' as [x ->]. destruct P as [y P]. unfold s in P. rewrite <- !app_assoc in P.
    apply app_inv_head in P. apply app_inv_head in P.
    destruct x as [|c x]; [rewrite app_nil_r in G; lia|]. cbn in P. apply Ht in P as Hc.
    assert (Hh : has_b line_comment c = true) by (apply (has_ok _ _ L); rewrite !in_app_iff; right; now left).
    destruct Hc as [-> | ->]; vm_compute in Hh; discriminate. }
  replace (S (S (length body))) with (length (cs "//" ++ body)) by reflexivity.
  apply (best_pick (greedy KLine line_comment)).
  - apply tail_rule. cbn; tauto.
  - now apply takes_scan.
  - intros r m I S'. pose proof (rule_table _ table_line r I) as Tx. cbn beta in Tx.
    destruct (r_kind r) eqn:K.
    8:{ right. assert (r = greedy KLine line_comment) as ->.
        { apply (kind_rule KLine); [apply tail_rule; cbn; tauto|reflexivity|discriminate|exact I|exact K]. }
        rewrite (takes_scan _ _ _ T) in S'. injection S' as <-. split; reflexivity. }
    all: left; pose proof (short_of_two _ _ _ _ _ Tx S'); cbn [app length cs list_ascii_of_string]; lia.
Qed.
Lemma lang_all body : lang (RStar (RSet (fun _ => true))) body.
Proof. induction body as [|c b IH]; [constructor|]. apply (l_more _ [c] b); auto. constructor. reflexivity. Qed.
Lemma best_comment body g : (forall u v, body ++ cs "*/" = u ++ cs "*/" ++ v -> v = []) ->
  best rules (cs "/*" ++ body ++ cs "*/" ++ g) = Some (KComment, S (S (length body + 2))).
Proof.
  intros Hb. set (s := cs "/*" ++ body ++ cs "*/" ++ g).
  assert (T : takes (shortest_first KComment comment) s (cs "/*" ++ body ++ cs "*/")).
  { split; [exists g; unfold s; now rewrite <- !app_assoc|]. split.
    { apply l_seq; [apply lang_text|]. apply l_seq; [apply lang_all|apply lang_text]. }
    cbn [r_greedy shortest_first r_re]. intros w' P L.
    destruct (Nat.le_gt_cases (length (cs "/*" ++ body ++ cs "*/")) (length w')) as [|G]; auto. exfalso.
    unfold comment in L. apply lang_seq_inv in L as (a & b & -> & La & Lb). apply text_lang in La. subst a.
    apply lang_seq_inv in Lb as (u & b' & -> & _ & Lb). apply text_lang in Lb. subst b'.
    assert (P' : prefix (cs "/*" ++ u ++ cs "*/") (cs "/*" ++ body ++ cs "*/")).
    { apply (prefix_len _ _ s); auto; [|lia]. exists g. unfold s. now rewrite <- !app_assoc. }
    destruct P' as [v P']. rewrite <- !app_assoc in P'. apply app_inv_head in P'.
    pose proof (Hb _ _ P') as ->. rewrite app_nil_r in P'. rewrite P' in G. lia. }
  replace (S (S (length body + 2))) with (length (cs "/*" ++ body ++ cs "*/"))
    by (cbn [cs list_ascii_of_string app length]; rewrite app_length; reflexivity).
  apply (best_pick (shortest_first KComment comment)).
  - apply tail_rule. cbn; tauto.
  - now apply takes_scan.
  - intros r m I S'. pose proof (rule_table _ table_comment r I) as Tx. cbn beta in Tx.
    destruct (r_kind r) eqn:K.
    9:{ right. assert (r = shortest_first KComment comment) as ->.
        { apply (kind_rule KComment); [apply tail_rule; cbn; tauto|reflexivity|discriminate|exact I|exact K]. }
        rewrite (takes_scan _ _ _ T) in S'. injection S' as <-. split; reflexivity. }
    all: left; pose proof (short_of_two _ _ _ _ _ Tx S'); cbn [app length cs list_ascii_of_string]; lia.
Qed.

Lemma V_line body e g vs : Forall no_break body -> (e = newline \/ e = return_) -> V (e :: g) vs ->
  V (cs "//" ++ body ++ e :: g) vs.
Proof.
  intros Hb He H. apply (V_step _ KLine (S (length body)) vs).
  - apply best_line; auto. intros c t E. injection E as <- _. exact He.
  - cbn [cs list_ascii_of_string app skipn]. rewrite skipn_app, skipn_all, Nat.sub_diag. exact H.
Qed.
Lemma V_comment body g vs : (forall u v, body ++ cs "*/" = u ++ cs "*/" ++ v -> v = []) -> V g vs ->
  V (cs "/*" ++ body ++ cs "*/" ++ g) vs.
Proof.
  intros Hb H. apply (V_step _ KComment (S (length body + 2)) vs); [now apply best_comment|].
  replace (cs "/*" ++ body ++ cs "*/" ++ g) with (cs "/*" ++ (body ++ cs "*/") ++ g) by now rewrite <- !app_assoc.
  cbn [cs list_ascii_of_string app skipn].
  replace (length body + 2) with (length (body ++ cs "*/")) by (rewrite app_length; reflexivity).
  change ["*"%char; "/"%char] with (cs "*/").
  rewrite skipn_app, skipn_all, Nat.sub_diag. exact H.
Qed.
Lemma V_gap g : gap g -> forall s vs, V s vs -> V (g ++ s) vs.
Proof.
  induction 1 as [|c g Hc _ IH|body e g Hb He _ IH|body g Hb _ IH]; intros s vs H.
  - exact H.
  - cbn [app]. apply V_blank; auto. cbn in Hc. unfold blank, one_of. cbn [existsb].
    destruct Hc as [<-|[<-|[<-|[<-|[<-|[]]]]]]; reflexivity.
  - rewrite <- !app_assoc. cbn [app]. apply V_line; auto. apply V_blank; auto.
    destruct He as [-> | ->]; reflexivity.
  - rewrite <- !app_assoc. apply V_comment; auto.
Qed.
Lemma V_last g : last_gap g -> V g [].
Proof.
  assert (N : V [] []) by (exists []; split; [constructor|reflexivity]).
  intros [H|(g' & body & -> & H & Hb)].
  - rewrite <- (app_nil_r g). now apply V_gap.
  - apply V_gap; auto.
    replace (cs "//" ++ body) with (cs "//" ++ body ++ []) by now rewrite app_nil_r.
    apply (V_step _ KLine (S (length body)) []).
    + apply best_line; auto. discriminate.
    + cbn [cs list_ascii_of_string app skipn]. rewrite app_nil_r, skipn_all. exact N.
Qed.
Lemma written_lex ts s : written ts s -> lex s = Some ts.
Proof.
  intros H. apply lex_V. induction H as [g Hg|g k t ts s Hg T _ IH M].
  - now apply V_last.
  - apply V_gap; auto. apply V_token; auto.
Qed.
