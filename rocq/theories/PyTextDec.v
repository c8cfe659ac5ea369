(** Fields: the printed Python decoding statements of one field, and enums when encoding. *)
From Coq Require Import ZArith Lia Bool String Ascii List.
Import ListNotations.
From Verif Require Import Base BaseProofs Schema GoModel Literals PropsLit ExprModel ExprSpec ExprProofs ExprLex ExprParse PrintTree PySem PyText PyTextLex PyTarget PyTextEnc.
From Verif Require GoTextEnc GoTextField GoTextDec.
Open Scope string_scope.
Open Scope Z_scope.
Open Scope list_scope.
Ltac Zify.zify_post_hook ::= Z.to_euclidean_division_equations.

(** ** What an assignment changes *)
Definition writable (st : pst) (p : place) : Prop :=
  match p with
  | PF f => match p_att st f with Some (Many _) => False | _ => True end
  | PE f i => exists vs, p_att st f = Some (Many vs) /\ 0 <= i < Z.of_nat (List.length vs)
  | PL _ => True
  end.
Record moved (st : pst) (p : place) (v : pval) (st' : pst) : Prop := {
  m_data : p_data st' = p_data st;
  m_here : get st' p = Some (Ok v);
  m_else : forall q, q <> p -> get st' q = get st q;
  m_wr : forall q, writable st q -> writable st' q
}.
Lemma upd_same {A} (m : chars -> A) k v : upd m k v k = v.
Proof. unfold upd. destruct (list_eq_dec ascii_dec k k); congruence. Qed.
Lemma upd_other {A} (m : chars -> A) k v x : x <> k -> upd m k v x = m x.
Proof. unfold upd. destruct (list_eq_dec ascii_dec x k); congruence. Qed.
Lemma set_nth_len {A} (l : list A) i v : (i < List.length l)%nat -> List.length (set_nth l i v) = List.length l.
Proof. intros H. unfold set_nth. rewrite app_length. cbn [List.length]. rewrite firstn_length, skipn_length. lia. Qed.
Lemma set_nth_here {A} (l : list A) i v : (i < List.length l)%nat -> nth_error (set_nth l i v) i = Some v.
Proof. intros H. unfold set_nth. rewrite nth_error_app2; rewrite firstn_length; [|lia]. replace (i - min i (List.length l))%nat with O by lia. reflexivity. Qed.
Lemma set_nth_else {A} (l : list A) i v j : (i < List.length l)%nat -> j <> i -> nth_error (set_nth l i v) j = nth_error l j.
Proof.
  intros H N. unfold set_nth. destruct (Nat.lt_ge_cases j i) as [L|L].
  - rewrite nth_error_app1 by (rewrite firstn_length; lia). rewrite <- (firstn_skipn i l) at 2.
    rewrite nth_error_app1 by (rewrite firstn_length; lia). reflexivity.
  - rewrite nth_error_app2; rewrite firstn_length; [|lia]. replace (j - min i (List.length l))%nat with (S (j - i - 1)) by lia. cbn [nth_error].
    rewrite <- (firstn_skipn (S i) l) at 2. rewrite nth_error_app2; rewrite firstn_length; [|lia]. f_equal. lia.
Qed.
Lemma put_moved st p v : writable st p -> exists st', put st p v = Some (Ok st') /\ moved st p v st'.
Proof.
  intros G. destruct p as [f|f i|x]; cbn [put writable] in *.
  - eexists. split; [reflexivity|]. split; try reflexivity; cbn [get p_att].
    + now rewrite upd_same.
    + intros [h|h j|y] N; cbn [get p_att p_loc]; auto.
      * rewrite upd_other by congruence. reflexivity.
      * destruct (list_eq_dec ascii_dec h f) as [->|M]; [rewrite upd_same|rewrite upd_other by auto; reflexivity].
        destruct (p_att st f) as [[]|]; auto. destruct G.
    + intros [h|h j|y]; cbn [writable p_att]; auto.
      * destruct (list_eq_dec ascii_dec h f) as [->|M]; [now rewrite upd_same|rewrite upd_other by auto; auto].
      * destruct (list_eq_dec ascii_dec h f) as [->|M]; [|rewrite upd_other by auto; auto].
        intros (vs & E & _). rewrite E in G. destruct G.
  - destruct G as (vs & E & B). rewrite E. destruct (Z.ltb_spec i 0); [lia|]. destruct (Z.ltb_spec i (Z.of_nat (List.length vs))); [|lia].
    assert (L : (Z.to_nat i < List.length vs)%nat) by lia.
    eexists. split; [reflexivity|]. split; try reflexivity; cbn [get p_att].
    + rewrite upd_same, set_nth_here by auto. destruct (Z.ltb_spec i 0); [lia|]. reflexivity.
    + intros [h|h j|y] N; cbn [get p_att p_loc]; auto.
      * destruct (list_eq_dec ascii_dec h f) as [->|M]; [rewrite upd_same, E; reflexivity|rewrite upd_other by auto; reflexivity].
      * destruct (list_eq_dec ascii_dec h f) as [->|M]; [|rewrite upd_other by auto; reflexivity].
        rewrite upd_same, E. destruct (Z.ltb_spec j 0); auto.
        rewrite set_nth_else; auto. intros E2. apply N. f_equal. lia.
    + intros [h|h j|y]; cbn [writable p_att]; auto.
      * destruct (list_eq_dec ascii_dec h f) as [->|M]; [rewrite upd_same, E; auto|rewrite upd_other by auto; auto].
      * destruct (list_eq_dec ascii_dec h f) as [->|M]; [|rewrite upd_other by auto; auto].
        intros (us & Eu & Bu). rewrite upd_same. eexists. split; [reflexivity|]. rewrite set_nth_len by auto. congruence.
  - eexists. split; [reflexivity|]. split; try reflexivity; cbn [get p_loc].
    + now rewrite upd_same.
    + intros [h|h j|y] N; cbn [get p_att p_loc]; auto. rewrite upd_other by congruence. reflexivity.
    + intros [h|h j|y]; cbn [writable p_att]; auto.
Qed.
Lemma moved_trans st p v s1 v' s2 : moved st p v s1 -> moved s1 p v' s2 -> moved st p v' s2.
Proof. intros [A B C D] [A' B' C' D']. split; try congruence; [intros q N; rewrite C', C; auto|auto]. Qed.
Lemma moved_refl st p v : get st p = Some (Ok v) -> moved st p v st.
Proof. split; auto. Qed.

(** ** Reading *)
Lemma read_texts dn fuel : forall from ff cz con,
  dec_part_texts dn fuel from ff cz con = map (part_text dn data_at) (GoTextDec.read_list fuel from ff cz con).
Proof.
  induction fuel as [|fuel IH]; intros from ff cz con; cbn [dec_part_texts GoTextDec.read_list]; auto.
  destruct (con <? cz); auto. cbn [map]. rewrite IH. reflexivity.
Qed.
Definition read_part (data : list Z) (p : part) : res Z :=
  do b <- rd data (p_src p); Ok (Z.shiftl (Z.land (Z.shiftr b (p_shr p)) (p_mask p)) (p_shl p)).
Fixpoint read_all (data : list Z) (ps : list part) : res (list Z) :=
  match ps with [] => Ok [] | p :: ps => do v <- read_part data p; do r <- read_all data ps; Ok (v :: r) end.
Lemma py_dparts_list data fuel : forall from ff cz con,
  py_dparts fuel from ff cz con 0 data = read_all data (GoTextDec.read_list fuel from ff cz con).
Proof.
  induction fuel as [|fuel IH]; intros from ff cz con; cbn [py_dparts GoTextDec.read_list]; auto.
  destruct (con <? cz); auto. cbn [read_all]. unfold read_part. cbn [p_src p_shr p_mask p_shl]. change (0 + (from + ff + con) / 8) with ((from + ff + con) / 8).
  destruct (rd data ((from + ff + con) / 8)); cbn [bind]; auto. rewrite IH. reflexivity.
Qed.
Lemma read_part_cases data p : (exists v, read_part data p = Ok v) \/ read_part data p = Panic.
Proof. unfold read_part. destruct (GoTextEnc.rd_cases data (p_src p)) as [[b ->]| ->]; cbn [bind]; eauto. Qed.
Lemma read_all_cases data ps : (exists v, read_all data ps = Ok v) \/ read_all data ps = Panic.
Proof.
  induction ps as [|p ps IH]; cbn [read_all]; eauto. destruct (read_part_cases data p) as [[v ->]| ->]; cbn [bind]; auto.
  destruct IH as [[r ->]| ->]; cbn [bind]; eauto.
Qed.

(** The parts, the last of them shifted. *)
Fixpoint joinx (dn : bool) (sh : Z) (ps : list part) : list px :=
  match ps with
  | [] => []
  | [p] => [PBin "<<" (part_px dn data_px p) (PNum (declit dn sh))]
  | p :: r => part_px dn data_px p :: joinx dn sh r
  end.
Definition join_px (dn : bool) (sh : Z) (ps : list part) : px :=
  match joinx dn sh ps with x :: l => or_px x l | [] => PNum (fmtd 0) end.
Lemma joinx_cons dn sh p q r : joinx dn sh (p :: q :: r) = part_px dn data_px p :: joinx dn sh (q :: r). Proof. reflexivity. Qed.
Lemma show_or_list x l : show (or_px x l) = join_or (map show (x :: l)).
Proof. cbn [map]. rewrite GoTextEnc.show_or, join_or_concat, map_map. reflexivity. Qed.
Lemma joinx_ne dn sh p r : joinx dn sh (p :: r) <> []. Proof. destruct r; discriminate. Qed.
Lemma join_or_cons x l : l <> [] -> join_or (x :: l) = x ++ cs " | " ++ join_or l.
Proof. destruct l; [congruence|reflexivity]. Qed.
Lemma show_joinx dn sh ps : ps <> [] -> join_or (map show (joinx dn sh ps)) = join_or (map (part_text dn data_at) ps) ++ cs " << " ++ declit dn sh.
Proof.
  induction ps as [|p ps IH]; [congruence|]. intros _. pose proof (show_part dn data_px data_at p show_data) as P. destruct ps as [|q ps].
  - cbn [joinx map join_or show]. rewrite P. reflexivity.
  - rewrite joinx_cons. rewrite !map_cons. rewrite join_or_cons.
    2: { intros E. apply map_eq_nil in E. now apply joinx_ne in E. }
    rewrite IH by discriminate. rewrite (join_or_cons _ (map (part_text dn data_at) (q :: ps))) by discriminate. rewrite P, <- !app_assoc. reflexivity.
Qed.
Lemma show_join_px dn sh ps : ps <> [] -> show (join_px dn sh ps) = join_or (map (part_text dn data_at) ps) ++ cs " << " ++ declit dn sh.
Proof.
  intros N. rewrite <- show_joinx by exact N. unfold join_px. destruct (joinx dn sh ps) as [|x l] eqn:E; [|apply show_or_list].
  destruct ps as [|p r]; [congruence|]. now apply joinx_ne in E.
Qed.
Lemma pwf_part dn p : part_ok p -> pwf OPy (part_px dn data_px p) = true.
Proof. intros P. destruct P. apply pwf_slot; try lia. now apply pwf_data. Qed.
Lemma lev_part dn p : lev OPy (part_px dn data_px p) = 100.
Proof. apply GoTextEnc.prim_lev, prim_slot. Qed.
Lemma pwf_joinx dn sh ps : 0 <= sh -> Forall part_ok ps -> Forall (fun y => pwf OPy y = true /\ 7 <= lev OPy y) (joinx dn sh ps).
Proof.
  intros Hs. induction 1 as [|p ps P F IH]; [constructor|]. destruct ps as [|q ps].
  - cbn [joinx]. constructor; [|constructor]. split.
    + apply GoTextEnc.pwf_bin; try reflexivity; [now apply pwf_part|now apply GoTextEnc.pwf_num, declit_int_lit|]. rewrite lev_part. reflexivity.
    + change (lev OPy (PBin "<<" (part_px dn data_px p) (PNum (declit dn sh)))) with 9. lia.
  - rewrite joinx_cons. constructor; [|exact IH]. split; [now apply pwf_part|]. rewrite lev_part. lia.
Qed.
Lemma pwf_join dn sh ps : 0 <= sh -> ps <> [] -> Forall part_ok ps -> pwf OPy (join_px dn sh ps) = true.
Proof.
  intros Hs N F. pose proof (pwf_joinx dn sh ps Hs F) as P. unfold join_px. destruct (joinx dn sh ps) as [|x l]; [reflexivity|].
  inversion P as [|? ? [W L] Fl]; subst. apply pwf_or; auto. lia.
Qed.

Definition pvr (r : res Z) : res pval := match r with Ok v => Ok (VI v) | Fail => Fail | Panic => Panic end.
Section Read.
Variable enums : chars -> option (Z -> bool).
Variable st : pst.

Lemma eval_read dn p : part_ok p -> eval enums st (tree (part_px dn data_px p)) = Some (pvr (read_part (p_data st) p)).
Proof.
  intros P. destruct P. pose proof (eval_data enums st (p_src p) po_src) as E. unfold read_part, part_px.
  destruct (GoTextEnc.rd_cases (p_data st) (p_src p)) as [[b Eb]|Eb]; rewrite Eb in *; cbn [bind pvr].
  - apply (eval_slot enums st _ b); auto; lia.
  - now apply eval_slot_panic.
Qed.
Lemma eval_shifted dn sh p : 0 <= sh -> part_ok p -> eval enums st (tree (PBin "<<" (part_px dn data_px p) (PNum (declit dn sh)))) =
  Some (pvr (do v <- read_part (p_data st) p; Ok (Z.shiftl v sh))).
Proof.
  intros Hs P. pose proof (eval_read dn p P) as E. cbn [tree]. destruct (read_part_cases (p_data st) p) as [[v Ev]|Ev]; rewrite Ev in *; cbn [bind pvr] in *.
  - apply eval_shl; [exact E|now apply eval_num, declit_reads|exact Hs].
  - now apply eval_bin_panic.
Qed.
Lemma ors_panic l : forall x, eval enums st (tree x) = Some Panic -> eval enums st (tree (or_px x l)) = Some Panic.
Proof.
  induction l as [|y l IH]; intros x E; cbn [GoTextEnc.or_px fold_left]; auto.
  apply (IH (PBin "|" x y)). cbn [tree]. now apply eval_bin_panic.
Qed.
Lemma eval_joins dn sh ps : 0 <= sh -> ps <> [] -> Forall part_ok ps -> forall x acc, eval enums st (tree x) = Some (Ok (VI acc)) ->
  eval enums st (tree (or_px x (joinx dn sh ps))) = Some (pvr (do r <- read_all (p_data st) ps; Ok (Z.lor acc (py_join sh r)))).
Proof.
  intros Hs N F. revert N. induction F as [|p ps P F IH]; [congruence|]. intros _ x acc E. destruct ps as [|q ps].
  - cbn [joinx GoTextEnc.or_px fold_left read_all]. pose proof (eval_shifted dn sh p Hs P) as Es.
    destruct (read_part_cases (p_data st) p) as [[v Ev]|Ev]; rewrite Ev in *; cbn [bind pvr py_join] in *.
    + cbn [tree] in *. now apply eval_or.
    + cbn [tree] in *. eapply eval_bin_panic2; eauto.
  - rewrite joinx_cons. cbn [GoTextEnc.or_px fold_left]. fold (or_px (PBin "|" x (part_px dn data_px p)) (joinx dn sh (q :: ps))).
    change (read_all (p_data st) (p :: q :: ps)) with (do v <- read_part (p_data st) p; do r <- read_all (p_data st) (q :: ps); Ok (v :: r)).
    pose proof (eval_read dn p P) as Ep. destruct (read_part_cases (p_data st) p) as [[v Ev]|Ev]; rewrite Ev in *; cbn [bind pvr] in *.
    + rewrite (IH ltac:(discriminate) _ (Z.lor acc v)) by (cbn [tree]; now apply eval_or).
      cbn [read_all]. destruct (read_part (p_data st) q) as [w| |]; cbn [bind]; auto. destruct (read_all (p_data st) ps) as [r| |]; cbn [bind]; auto.
      cbn [py_join]. rewrite Z.lor_assoc. reflexivity.
    + apply ors_panic. cbn [tree]. eapply eval_bin_panic2; eauto.
Qed.
Lemma eval_join dn sh ps : 0 <= sh -> ps <> [] -> Forall part_ok ps ->
  eval enums st (tree (join_px dn sh ps)) = Some (pvr (do r <- read_all (p_data st) ps; Ok (py_join sh r))).
Proof.
  intros Hs N F. unfold join_px. destruct ps as [|p [|q ps]]; [congruence| |].
  - cbn [joinx GoTextEnc.or_px fold_left read_all]. inversion F; subst. rewrite eval_shifted by auto.
    destruct (read_part (p_data st) p); reflexivity.
  - rewrite joinx_cons. inversion F as [|? ? P F']; subst. pose proof (eval_read dn p P) as Ep.
    change (read_all (p_data st) (p :: q :: ps)) with (do v <- read_part (p_data st) p; do r <- read_all (p_data st) (q :: ps); Ok (v :: r)).
    destruct (read_part_cases (p_data st) p) as [[v Ev]|Ev]; rewrite Ev in *; cbn [bind pvr] in *.
    + rewrite (eval_joins dn sh (q :: ps) Hs ltac:(discriminate) F' _ v Ep).
      cbn [read_all]. destruct (read_part (p_data st) q) as [w| |]; cbn [bind]; auto. destruct (read_all (p_data st) ps) as [r| |]; cbn [bind]; auto.
    + now apply ors_panic.
Qed.
End Read.

(** ** One assignment *)
Lemma store_place enums st l p v : place_of l = Some p -> store enums st l v = put st p v.
Proof.
  intros H. destruct l as [x|s|s a|s a b|ty a|a s f|f args|a i|ty c a b]; try discriminate H.
  - cbn [store]. rewrite H. reflexivity.
  - cbn [store]. rewrite H. reflexivity.
  - destruct a as [x|s|s a|s a b|ty a|a s f|f args|a j|ty c a b]; try (cbn [store]; rewrite H; reflexivity).
    discriminate H.
Qed.
Lemma run_set enums st x p r v : var x p -> writable st p -> pwf OPy r = true -> eval enums st (tree r) = Some (Ok v) ->
  exists st', runs enums st [show x ++ cs " = " ++ show r] (Ok st') /\ moved st p v st'.
Proof.
  intros V G W E. destruct (put_moved st p v G) as (st' & Ep & M). exists st'. split; [|exact M].
  eapply runs_cons; [apply (set_reads "=" x r); [now left|apply V|exact W]| |constructor].
  unfold exec. change (eqs (cs "=") "=") with true. cbv iota. rewrite E.
  rewrite (store_place enums st _ p v (v_place _ _ V)), Ep. reflexivity.
Qed.
Lemma run_set_panic enums st x p r : var x p -> pwf OPy r = true -> eval enums st (tree r) = Some Panic ->
  runs enums st [show x ++ cs " = " ++ show r] Panic.
Proof.
  intros V W E. eapply runs_raise; [apply (set_reads "=" x r); [now left|apply V|exact W]|].
  unfold exec. change (eqs (cs "=") "=") with true. cbv iota. rewrite E. reflexivity.
Qed.

(** ** All the assignments of a field *)
Lemma read_ok from ff cz : 0 <= from -> 0 <= ff -> cz <= 8 -> Forall part_ok (GoTextDec.read_list 8 from ff cz 0).
Proof.
  intros H1 H2 H4. eapply Forall_impl; [|apply (GoTextDec.read_list_ok 8 from ff cz 0); lia]. intros p [P _]. exact P.
Qed.
Lemma dec_chunks_run enums dn n big from x p : 0 <= from -> var x p -> forall fuel ff st acc,
  writable st p -> 0 <= ff ->
  (ff = 0 /\ 0 < n /\ fuel <> O \/ 8 <= ff /\ get st p = Some (Ok (VI acc))) ->
  match py_dchunks fuel from n ff big 0 acc (p_data st) with
  | Ok v => exists st', runs enums st (dec_chunk_texts dn fuel from n ff big (show x)) (Ok st') /\ moved st p (VI v) st'
  | Panic => runs enums st (dec_chunk_texts dn fuel from n ff big (show x)) Panic
  | Fail => False
  end.
Proof.
  intros Hf V. induction fuel as [|fuel IH]; intros ff st acc G Hff C; cbn [py_dchunks dec_chunk_texts].
  - destruct C as [(_ & _ & C)|(_ & C)]; [congruence|]. exists st. split; [constructor|now apply moved_refl].
  - destruct (Z.ltb_spec ff n) as [L|L].
    2: { destruct C as [(C1 & C2 & _)|(_ & C)]; [lia|]. exists st. split; [constructor|now apply moved_refl]. }
    set (cz := Z.min 8 (n - ff)). assert (Hcz : 0 < cz <= 8 /\ ff + cz <= n) by (subst cz; lia).
    pose proof (read_ok from ff cz Hf Hff ltac:(lia)) as RI.
    set (sh := if big then Z.max 0 (n - 8 * (ff / 8 + 1)) else ff / 8 * 8). assert (Hsh : 0 <= sh) by (subst sh; destruct big; lia).
    rewrite py_dparts_list, (read_texts dn). set (ps := GoTextDec.read_list 8 from ff cz 0) in *.
    assert (N : ps <> []) by (apply GoTextDec.read_list_some; lia).
    pose proof (eval_join enums st dn sh ps Hsh N RI) as E. pose proof (pwf_join dn sh ps Hsh N RI) as W.
    set (first := ff / 8 =? 0).
    assert (R : reads_stmt (show x ++ (if first then cs " = " else cs " |= ") ++ cs "(" ++ join_or (map (part_text dn data_at) ps) ++ cs " << " ++ declit dn sh ++ cs ")")
        (SSet (cs (if first then "=" else "|=")) (tree x) (tree (join_px dn sh ps)))).
    { assert (Ex : show x ++ (if first then cs " = " else cs " |= ") ++ cs "(" ++ join_or (map (part_text dn data_at) ps) ++ cs " << " ++ declit dn sh ++ cs ")" =
        show x ++ cs " " ++ cs (if first then "=" else "|=") ++ cs " " ++ show (PPar (join_px dn sh ps))).
      { cbn [show]. rewrite show_join_px by exact N. rewrite <- !app_assoc. destruct first; reflexivity. }
      rewrite Ex. apply (set_reads (if first then "=" else "|=") x (PPar (join_px dn sh ps))); [destruct first; [now left|now right]|apply V|exact W]. }
    assert (First : first = true \/ get st p = Some (Ok (VI acc))).
    { destruct C as [(-> & _)|(C1 & C)]; [left; reflexivity|now right]. }
    destruct (read_all_cases (p_data st) ps) as [[vs Ev]|Ev]; rewrite Ev in *; cbn [bind pvr] in *.
    + set (acc' := if first then py_join sh vs else Z.lor acc (py_join sh vs)) in *.
      destruct (put_moved st p (VI acc') G) as (st1 & Ep & M).
      assert (Ex : exec enums st (SSet (cs (if first then "=" else "|=")) (tree x) (tree (join_px dn sh ps))) = Some (Ok st1)).
      { unfold exec. destruct first eqn:Ef.
        - change (eqs (cs "=") "=") with true. cbv iota. rewrite E, (store_place enums st _ p _ (v_place _ _ V)). exact Ep.
        - destruct First as [First|First]; [discriminate|].
          change (eqs (cs "|=") "=") with false. cbv iota. rewrite (eval_place enums st _ _ _ (v_place _ _ V) First). cbn [look]. rewrite E. cbn [look arith].
          rewrite (store_place enums st _ p _ (v_place _ _ V)). exact Ep. }
      specialize (IH (ff + 8) st1 acc' (m_wr _ _ _ _ M p G) ltac:(lia)). rewrite (m_data _ _ _ _ M) in IH.
      assert (X : 8 <= ff + 8 /\ get st1 p = Some (Ok (VI acc'))) by (split; [lia|apply M]). specialize (IH (or_intror X)). clear X.
      destruct (py_dchunks fuel from n (ff + 8) big 0 acc' (p_data st)) as [v| |]; [|exact IH|].
      * destruct IH as (st2 & R2 & M2). exists st2. split; [eapply runs_cons; eauto|]. eapply moved_trans; eauto.
      * eapply runs_cons; eauto.
    + eapply runs_raise; [exact R|]. unfold exec. destruct first eqn:Ef.
      * change (eqs (cs "=") "=") with true. cbv iota. rewrite E. reflexivity.
      * destruct First as [First|First]; [discriminate|].
        change (eqs (cs "|=") "=") with false. cbv iota. rewrite (eval_place enums st _ _ _ (v_place _ _ V) First). cbn [look]. rewrite E. reflexivity.
Qed.

Definition arith_px (dn : bool) (n : Z) (x : px) : px :=
  PBin "-" (PPar (PBin "^" (PPar x) (PNum (hexlit dn (Z.shiftl 1 (n - 1)))))) (PNum (hexlit dn (Z.shiftl 1 (n - 1)))).
Lemma mask_range n : 1 <= n <= 64 -> 0 < Z.shiftl 1 (n - 1) < 2 ^ 64.
Proof. intros H. rewrite Z.shiftl_1_l. split; [apply Z.pow_pos_nonneg; lia|apply Z.pow_lt_mono_r; lia]. Qed.
Lemma pwf_arith dn n x : 1 <= n <= 64 -> pwf OPy x = true -> pwf OPy (arith_px dn n x) = true.
Proof.
  intros H V. destruct (mask_range n H) as [A _]. pose proof (hexlit_int_lit dn (Z.shiftl 1 (n - 1)) ltac:(lia)) as L.
  unfold arith_px. apply GoTextEnc.pwf_bin; try reflexivity; [|now apply GoTextEnc.pwf_num]. apply GoTextEnc.pwf_par.
  apply GoTextEnc.pwf_bin; try reflexivity; [exact V|now apply GoTextEnc.pwf_num].
Qed.
Definition signed (b : basic) (n p : Z) : Z := match b with BInt _ => py_sx n p | _ => p end.
Theorem dec_basic_runs enums st dn b n big from x p : 0 <= from -> 1 <= n <= 64 -> var x p -> writable st p ->
  match py_dec n big from 0 (p_data st) with
  | Ok v => exists st', runs enums st (dec_basic_text dn b n big from (show x)) (Ok st') /\ moved st p (VI (signed b n v)) st'
  | Panic => runs enums st (dec_basic_text dn b n big from (show x)) Panic
  | Fail => False
  end.
Proof.
  intros Hf Hn V G. unfold py_dec, dec_basic_text.
  assert (C0 : 0 = 0 /\ 0 < n /\ Z.to_nat n <> O \/ 8 <= 0 /\ get st p = Some (Ok (VI 0))) by (left; lia).
  pose proof (dec_chunks_run enums dn n big from x p Hf V (Z.to_nat n) 0 st 0 G ltac:(lia) C0) as H. clear C0.
  destruct (py_dchunks (Z.to_nat n) from n 0 big 0 0 (p_data st)) as [v| |]; [|exact H|].
  2: { apply runs_app_panic; [exact H|congruence]. }
  destruct H as (st1 & R & M).
  destruct b as [|w|w|w]; cbn [sign_text signed]; try (rewrite app_nil_r; eauto).
  destruct (mask_range n Hn) as [M1 M2]. rewrite hexulit_eq by lia.
  destruct (run_set enums st1 x p (arith_px dn n x) (VI (py_sx n v)) V (m_wr _ _ _ _ M p G) (pwf_arith dn n x Hn (v_pwf _ _ V))) as (st2 & R2 & M2').
  - unfold arith_px, py_sx. cbn [tree]. pose proof (eval_num enums st1 _ _ (hexlit_reads dn (Z.shiftl 1 (n - 1)) ltac:(lia))) as El.
    apply eval_sub; [apply eval_xor; [|exact El]|exact El]. apply (eval_place enums st1 _ p _ (v_place _ _ V)). apply M.
  - exists st2. split; [|eapply moved_trans; eauto]. eapply runs_app; [exact R|].
    unfold arith_px in R2. cbn [show] in R2. repeat rewrite <- app_assoc in R2. exact R2.
Qed.

(** ** Temporaries *)
Lemma fmtd_word k : 0 <= k -> forallb is_word (fmtd k) = true.
Proof.
  intros H. pose proof (fmtd_int_lit k H) as L. unfold int_lit in L. destruct (fmtd k) as [|c r]; [discriminate|]. apply andb_true_iff in L as [L1 L2].
  cbn [forallb]. rewrite L2, andb_true_r. unfold is_word. rewrite L1. destruct (is_alpha c); reflexivity.
Qed.
Lemma temp_plain k : 0 <= k -> plain_id OPy (temp_name k) = true.
Proof.
  intros H. pose proof (fmtd_word k H) as W. unfold plain_id, temp_name.
  assert (N : name_okb (cs "temp_field_at_pos_" ++ fmtd k) = true).
  { cbn [cs list_ascii_of_string app name_okb forallb]. rewrite W. reflexivity. }
  rewrite N. generalize (fmtd k). intros r. vm_compute. reflexivity.
Qed.
Lemma temp_other k : eqs (temp_name k) "data" = false /\ eqs (temp_name k) "self" = false.
Proof. unfold temp_name. generalize (fmtd k). intros r. repeat split; vm_compute; reflexivity. Qed.
Lemma temp_var k : 0 <= k -> var (PId (temp_name k)) (PL (temp_name k)).
Proof. intros H. destruct (temp_other k) as (A & B). apply var_local; auto. now apply temp_plain. Qed.

(** ** Enums *)
Record moved2 (st : pst) (k : Z) (p : place) (v : pval) (st' : pst) : Prop := {
  m2_data : p_data st' = p_data st;
  m2_here : get st' p = Some (Ok v);
  m2_else : forall q, q <> p -> q <> PL (temp_name k) -> get st' q = get st q;
  m2_wr : forall q, writable st q -> writable st' q
}.
Theorem dec_enum_runs enums st dn n big from k x p en (member : Z -> bool) : 0 <= from -> 0 <= k -> 1 <= n <= 64 ->
  plain_id OPy en = true -> enums en = Some member -> var x p -> writable st p -> p <> PL (temp_name k) ->
  match (do v <- py_dec n big from 0 (p_data st); if member v then Ok v else Panic) with
  | Ok v => exists st', runs enums st (dec_enum_text dn en n big from k (show x)) (Ok st') /\ moved2 st k p (VE en v) st'
  | Panic => runs enums st (dec_enum_text dn en n big from k (show x)) Panic
  | Fail => False
  end.
Proof.
  intros Hf Hk Hn Pn En V G Np. unfold dec_enum_text.
  pose proof (dec_basic_runs enums st dn (BUint 64) n big from (PId (temp_name k)) (PL (temp_name k)) Hf Hn (temp_var k Hk) I) as H.
  cbn [show signed] in H. destruct (py_dec n big from 0 (p_data st)) as [v| |]; cbn [bind]; [|exact H|].
  2: { apply runs_app_panic; [exact H|congruence]. }
  destruct H as (st1 & R & M).
  assert (W : pwf OPy (PCall (PId en) (PId (temp_name k))) = true).
  { apply GoTextEnc.pwf_call; [exact Pn|now apply temp_plain|reflexivity]. }
  assert (E : eval enums st1 (tree (PCall (PId en) (PId (temp_name k)))) = Some (if member v then Ok (VE en v) else Panic)).
  { cbn [tree]. cbn [eval]. rewrite En. change (read_var st1 (NId (temp_name k))) with (eval enums st1 (NId (temp_name k))).
    rewrite (eval_place enums st1 (NId (temp_name k)) _ _ (v_place _ _ (temp_var k Hk)) (m_here _ _ _ _ M)). reflexivity. }
  destruct (member v).
  - destruct (run_set enums st1 x p _ _ V (m_wr _ _ _ _ M p G) W E) as (st2 & R2 & M2). exists st2. split; [eapply runs_app; [exact R|exact R2]|].
    destruct M as [A1 A2 A3 A4], M2 as [B1 B2 B3 B4]. split; try congruence; [|auto].
    intros q N1 N2. rewrite B3, A3; auto.
  - eapply runs_app; [exact R|]. exact (run_set_panic enums st1 x p _ V W E).
Qed.

(** ** Constants *)
Definition shows_base (dn : bool) (z : Z) (base : ibase) : Prop :=
  0 <= z \/ (if dn then BDec else match base with BAuto => BDec | x => x end) = BDec.
Definition lit_px (dn : bool) (z : Z) (base : ibase) : px :=
  if z <? 0 then PUn "-" (PNum (fmtd (- z))) else PNum (emit_int OPy dn (make_int_lit true z base)).
Lemma show_lit dn z base : shows_base dn z base -> show (lit_px dn z base) = emit_int OPy dn (make_int_lit true z base).
Proof.
  intros H. unfold lit_px. destruct (Z.ltb_spec z 0); [|reflexivity]. destruct H as [H|H]; [lia|]. unfold make_int_lit. rewrite emit_signed by (now right).
  destruct (Z.ltb_spec z 0); [|lia]. rewrite H. cbn [suffix_of show base_pre base_num]. rewrite app_nil_r. unfold fmtd, fmt_int.
  destruct (Z.ltb_spec (- z) 0); [lia|]. rewrite Z.abs_neq by lia. reflexivity.
Qed.
Lemma pwf_lit dn z base : pwf OPy (lit_px dn z base) = true /\ 6 <= lev OPy (lit_px dn z base).
Proof.
  unfold lit_px. destruct (Z.ltb_spec z 0).
  - split; [|vm_compute; discriminate]. pose proof (fmtd_int_lit (- z) ltac:(lia)) as M. cbn [pwf show lev]. rewrite M.
    destruct (fmtd (- z)) as [|h t]; [discriminate M|]. cbn [int_lit] in M. apply andb_true_iff in M as [M _]. unfold un_okb.
    assert (A : forallb (fun h => negb (is_num h) || chk OPy (cs "-") h) all_ascii = true) by (vm_compute; reflexivity).
    rewrite forallb_forall in A. specialize (A h (in_all_ascii h)). cbv beta in A. rewrite M in A. cbn [negb orb] in A.
    change (find_op (prefix OPy) (sy "-")) with (Some (sign OPy)). rewrite A. reflexivity.
  - split; [|vm_compute; discriminate]. now apply GoTextEnc.pwf_num, emit_int_lit.
Qed.
Lemma eval_lit enums st dn z base : eval enums st (tree (lit_px dn z base)) = Some (Ok (VI z)).
Proof.
  unfold lit_px. destruct (Z.ltb_spec z 0); cbn [tree].
  - rewrite (eval_neg enums st _ (- z)); [f_equal; f_equal; f_equal; lia|]. apply eval_num, fmtd_reads. lia.
  - now apply eval_num, emit_reads.
Qed.
Theorem dec_const_runs enums st dn b n big from z base : 0 <= from -> 1 <= n <= 64 -> shows_base dn z base ->
  match py_dconst b n big from 0 z (p_data st) with
  | Ok true => exists st' y, runs enums st (dec_const_text dn b n big from z base) (Ok st') /\ moved st (PL (temp_name from)) y st'
  | Ok false => runs enums st (dec_const_text dn b n big from z base) Fail
  | Panic => runs enums st (dec_const_text dn b n big from z base) Panic
  | Fail => False
  end.
Proof.
  intros Hf Hn Sb. unfold dec_const_text, py_dconst.
  pose proof (dec_basic_runs enums st dn b n big from (PId (temp_name from)) (PL (temp_name from)) Hf Hn (temp_var from Hf) I) as H. cbn [show] in H.
  destruct (pwf_lit dn z base) as [Wl Ll].
  pose proof (check_reads (PId (temp_name from)) (lit_px dn z base) (temp_plain from Hf) eq_refl Wl Ll) as Rc. rewrite (show_lit dn z base Sb) in Rc. cbn [show tree] in Rc.
  destruct (py_dec n big from 0 (p_data st)) as [v| |]; cbn [bind]; [|exact H|apply runs_app_panic; [exact H|congruence]].
  destruct H as (st2 & R2 & M2).
  assert (E : equal enums st2 (NId (temp_name from)) (tree (lit_px dn z base)) = Some (signed b n v =? z)).
  { unfold equal. rewrite (eval_place enums st2 (NId (temp_name from)) _ _ (v_place _ _ (temp_var from Hf)) (m_here _ _ _ _ M2)), eval_lit. reflexivity. }
  fold (signed b n v). destruct (Z.eqb_spec (signed b n v) z) as [Ev|Ev].
  - exists st2, (VI (signed b n v)). split; [|exact M2]. eapply runs_app; [exact R2|]. eapply runs_check; [exact Rc|exact E|constructor].
  - eapply runs_app; [exact R2|]. eapply runs_return; [exact Rc|exact E].
Qed.

(** ** Encoding enums *)
Theorem enc_enum_runs enums st dn n big from k x p en z : 0 <= from -> 0 <= k -> var x p -> ends_num x = false ->
  place_of (NMem (tree x) (cs ".") (cs "value")) = None -> get st p = Some (Ok (VE en z)) ->
  exists st1, moved st (PL (temp_name k)) (VI z) st1 /\
    runs enums st (enc_enum_text dn n big from k (show x)) (lift_data st1 (py_chunks (field_data n big z) 0 (gen_encode_impl from (from + n)) (p_data st))).
Proof.
  intros Hf Hk V Nn Np G. destruct (put_moved st (PL (temp_name k)) (VI z) I) as (st1 & Ep & M). exists st1. split; [exact M|].
  assert (W : pwf OPy (PMem x (cs "value")) = true).
  { cbn [pwf]. rewrite (v_pwf _ _ V), (v_prim _ _ V), Nn. reflexivity. }
  assert (E : eval enums st (tree (PMem x (cs "value"))) = Some (Ok (VI z))).
  { cbn [tree]. cbn [eval]. rewrite Np. change (eqs (cs "value") "value") with true. cbv iota. rewrite (eval_place enums st _ _ _ (v_place _ _ V) G). reflexivity. }
  pose proof (enc_basic_runs enums st1 dn n big from (PId (temp_name k)) (PL (temp_name k)) z Hf (temp_var k Hk) (m_here _ _ _ _ M)) as R. cbn [show] in R.
  rewrite (m_data _ _ _ _ M) in R. unfold enc_enum_text. eapply runs_cons; [| |exact R].
  - apply (set_reads "=" (PId (temp_name k)) (PMem x (cs "value"))); [now left|now apply temp_plain|exact W].
  - unfold exec. change (eqs (cs "=") "=") with true. cbv iota. rewrite E. rewrite (store_place enums st _ (PL (temp_name k)) _ (v_place _ _ (temp_var k Hk))). exact Ep.
Qed.
