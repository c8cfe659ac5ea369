(** Running the printed Python encoding statements does what PyTarget.v says. *)
From Coq Require Import ZArith Lia Bool String Ascii List.
Import ListNotations.
From Verif Require Import Base BaseProofs Schema GoModel Literals PropsLit ExprModel ExprSpec ExprProofs ExprLex ExprParse PrintTree PySem PyText PyTextLex PyTarget.
From Verif Require GoTextEnc GoTextField.
Open Scope string_scope.
Open Scope Z_scope.
Open Scope list_scope.
Ltac Zify.zify_post_hook ::= Z.to_euclidean_division_equations.

(** ** Evaluation, one step at a time *)
Section Steps.
Variable enums : chars -> option (Z -> bool).
Variable st : pst.
Notation ev := (eval enums st).

Lemma eval_num s z : reads OPy s = Some z -> ev (NNum s) = Some (Ok (VI z)).
Proof. intros H. cbn [eval]. rewrite H. reflexivity. Qed.
Lemma eval_shr a b x y : ev a = Some (Ok (VI x)) -> ev b = Some (Ok (VI y)) -> 0 <= y -> ev (NBin (cs ">>") a b) = Some (Ok (VI (Z.shiftr x y))).
Proof. intros H1 H2 H. cbn [eval]. rewrite H1, H2. cbn [look shift]. destruct (Z.ltb_spec y 0); [lia|]. reflexivity. Qed.
Lemma eval_shl a b x y : ev a = Some (Ok (VI x)) -> ev b = Some (Ok (VI y)) -> 0 <= y -> ev (NBin (cs "<<") a b) = Some (Ok (VI (Z.shiftl x y))).
Proof. intros H1 H2 H. cbn [eval]. rewrite H1, H2. cbn [look shift]. destruct (Z.ltb_spec y 0); [lia|]. reflexivity. Qed.
Lemma eval_and a b x y : ev a = Some (Ok (VI x)) -> ev b = Some (Ok (VI y)) -> ev (NBin (cs "&") a b) = Some (Ok (VI (Z.land x y))).
Proof. intros H1 H2. cbn [eval]. rewrite H1, H2. reflexivity. Qed.
Lemma eval_or a b x y : ev a = Some (Ok (VI x)) -> ev b = Some (Ok (VI y)) -> ev (NBin (cs "|") a b) = Some (Ok (VI (Z.lor x y))).
Proof. intros H1 H2. cbn [eval]. rewrite H1, H2. reflexivity. Qed.
Lemma eval_xor a b x y : ev a = Some (Ok (VI x)) -> ev b = Some (Ok (VI y)) -> ev (NBin (cs "^") a b) = Some (Ok (VI (Z.lxor x y))).
Proof. intros H1 H2. cbn [eval]. rewrite H1, H2. reflexivity. Qed.
Lemma eval_sub a b x y : ev a = Some (Ok (VI x)) -> ev b = Some (Ok (VI y)) -> ev (NBin (cs "-") a b) = Some (Ok (VI (x - y))).
Proof. intros H1 H2. cbn [eval]. rewrite H1, H2. reflexivity. Qed.
Lemma eval_not a x : ev a = Some (Ok (VI x)) -> ev (NUn (cs "~") a) = Some (Ok (VI (Z.lnot x))).
Proof. intros H. cbn [eval]. rewrite H. reflexivity. Qed.
Lemma eval_neg a x : ev a = Some (Ok (VI x)) -> ev (NUn (cs "-") a) = Some (Ok (VI (- x))).
Proof. intros H. cbn [eval]. rewrite H. reflexivity. Qed.
Lemma eval_bin_panic s a b : ev a = Some Panic -> ev (NBin s a b) = Some Panic.
Proof. intros H. cbn [eval]. now rewrite H. Qed.
Lemma eval_bin_panic2 s a b x : ev a = Some (Ok x) -> ev b = Some Panic -> ev (NBin s a b) = Some Panic.
Proof. intros H1 H2. cbn [eval]. now rewrite H1, H2. Qed.
End Steps.

(** ** Pieces of text *)
Definition data_px (pos : Z) : px := PIdx (PId (cs "data")) (PNum (fmtd pos)).
Definition slot_px (src : px) (shr mask : Z) (dn : bool) (shl : Z) : px :=
  let q := PPar (PBin "&" (PPar (PBin ">>" (PPar src) (PNum (fmtd shr)))) (PNum (hexlit dn mask))) in
  if shl =? 0 then q else PPar (PBin "<<" q (PNum (fmtd shl))).
Definition part_px (dn : bool) (fdx : Z -> px) (p : part) : px := slot_px (fdx (p_src p)) (p_shr p) (p_mask p) dn (p_shl p).
Notation or_px := GoTextEnc.or_px.
Definition chunk_px (dn : bool) (fdx : Z -> px) (c : chunk) : px :=
  let m := PNum (hexlit dn (c_mask c)) in
  let parts := match map (part_px dn fdx) (c_parts c) with x :: l => or_px x l | [] => m end in
  PBin "|" (PPar (PBin "&" (data_px (c_pos c)) (PUn "~" m))) (PPar (PBin "&" (PPar parts) m)).

Ltac show_eq := cbn [show]; rewrite <- ?app_assoc; reflexivity.
Lemma show_data pos : show (data_px pos) = data_at pos.
Proof. unfold data_px, data_at. show_eq. Qed.
Lemma show_slot src shr mask dn shl : show (slot_px src shr mask dn shl) =
  let part := cs "(((" ++ show src ++ cs ") >> " ++ fmtd shr ++ cs ") & " ++ hexlit dn mask ++ cs ")" in
  if shl =? 0 then part else cs "(" ++ part ++ cs " << " ++ fmtd shl ++ cs ")".
Proof. unfold slot_px. destruct (shl =? 0); cbv zeta; show_eq. Qed.
Lemma show_part dn fdx fd p : (forall i, show (fdx i) = fd i) -> show (part_px dn fdx p) = part_text dn fd p.
Proof. intros H. unfold part_px, part_text. rewrite show_slot, H. reflexivity. Qed.
Lemma join_or_concat l : forall x, join_or (x :: l) = x ++ concat (map (fun y => cs " | " ++ y) l).
Proof.
  induction l as [|y l IH]; intros x; cbn [map concat]; [cbn [join_or]; now rewrite app_nil_r|].
  change (join_or (x :: y :: l)) with (x ++ cs " | " ++ join_or (y :: l)). rewrite IH, <- !app_assoc. reflexivity.
Qed.
Lemma show_join dn fdx fd p ps : (forall i, show (fdx i) = fd i) ->
  show (or_px (part_px dn fdx p) (map (part_px dn fdx) ps)) = join_or (map (part_text dn fd) (p :: ps)).
Proof.
  intros H. cbn [map]. rewrite GoTextEnc.show_or, join_or_concat. f_equal; [now apply show_part|]. f_equal. rewrite !map_map.
  apply map_ext. intros q. f_equal. now apply show_part.
Qed.
Lemma show_chunk dn fdx fd c : (forall i, show (fdx i) = fd i) -> c_parts c <> [] ->
  show (data_px (c_pos c)) ++ cs " " ++ cs "=" ++ cs " " ++ show (chunk_px dn fdx c) = chunk_text dn fd c.
Proof.
  intros H N. unfold chunk_px, chunk_text. destruct (c_parts c) as [|p ps]; [congruence|]. cbn [map].
  rewrite show_data. cbn [show]. fold (show (data_px (c_pos c))). rewrite show_data.
  rewrite (show_join dn fdx fd p ps H). cbn [map]. rewrite <- !app_assoc. reflexivity.
Qed.

(** ** Well-formed text *)
Lemma pwf_data pos : 0 <= pos -> pwf OPy (data_px pos) = true.
Proof. intros H. unfold data_px. cbn [pwf]. rewrite fmtd_int_lit by auto. reflexivity. Qed.
Lemma pwf_slot src shr mask dn shl : pwf OPy src = true -> 0 <= shr -> 0 <= mask -> 0 <= shl ->
  pwf OPy (slot_px src shr mask dn shl) = true.
Proof.
  intros H1 H2 H3 H4. unfold slot_px.
  assert (Q : pwf OPy (PPar (PBin "&" (PPar (PBin ">>" (PPar src) (PNum (fmtd shr)))) (PNum (hexlit dn mask)))) = true).
  { apply GoTextEnc.pwf_par, GoTextEnc.pwf_bin; try reflexivity; [|now apply GoTextEnc.pwf_num, hexlit_int_lit].
    apply GoTextEnc.pwf_par, GoTextEnc.pwf_bin; try reflexivity; [exact H1|now apply GoTextEnc.pwf_num, fmtd_int_lit]. }
  destruct (shl =? 0); [exact Q|]. apply GoTextEnc.pwf_par, GoTextEnc.pwf_bin; try reflexivity; [exact Q|now apply GoTextEnc.pwf_num, fmtd_int_lit].
Qed.
Lemma prim_slot src shr mask dn shl : prim (slot_px src shr mask dn shl) = true.
Proof. unfold slot_px. destruct (shl =? 0); reflexivity. Qed.
Lemma or_lev : bin_lev OPy "|" = 6. Proof. reflexivity. Qed.
(** Operands of "|": anything that binds more tightly. *)
Lemma pwf_or l : forall x, pwf OPy x = true -> 6 <= lev OPy x -> Forall (fun y => pwf OPy y = true /\ 7 <= lev OPy y) l ->
  pwf OPy (or_px x l) = true /\ 6 <= lev OPy (or_px x l).
Proof.
  induction l as [|y l IH]; intros x Wx Lx F; cbn [GoTextEnc.or_px fold_left]; auto.
  inversion F as [|? ? [Wy Py] F']; subst. apply (IH (PBin "|" x y)); auto.
  - apply GoTextEnc.pwf_bin; auto; rewrite or_lev; apply Z.leb_le; lia.
  - change (lev OPy (PBin "|" x y)) with 6. lia.
Qed.
Notation part_ok := GoTextEnc.part_ok.
Notation chunk_ok := GoTextEnc.chunk_ok.
Lemma pwf_chunk dn fdx c : (forall i, 0 <= i -> pwf OPy (fdx i) = true) -> chunk_ok c -> pwf OPy (chunk_px dn fdx c) = true.
Proof.
  intros Hf C. destruct C as [Hp Hm Hn F]. unfold chunk_px. destruct (c_parts c) as [|p ps]; [congruence|]. cbn [map]. inversion F as [|? ? Fp Fs]; subst.
  assert (P : forall p, part_ok p -> pwf OPy (part_px dn fdx p) = true).
  { intros q Q. destruct Q. unfold part_px. apply pwf_slot; try lia. now apply Hf. }
  destruct (pwf_or (map (part_px dn fdx) ps) (part_px dn fdx p)) as (W & _).
  - now apply P.
  - unfold part_px. rewrite (GoTextEnc.prim_lev _ _ (prim_slot _ _ _ _ _)). lia.
  - apply Forall_map. eapply Forall_impl; [|exact Fs]. intros q Q. split; [now apply P|].
    unfold part_px. rewrite (GoTextEnc.prim_lev _ _ (prim_slot _ _ _ _ _)). lia.
  - assert (M : int_lit (hexlit dn (c_mask c)) = true) by (apply hexlit_int_lit; lia).
    apply GoTextEnc.pwf_bin; try reflexivity.
    + apply GoTextEnc.pwf_par, GoTextEnc.pwf_bin; try reflexivity; [now apply pwf_data|].
      cbn [pwf]. rewrite M. cbn [andb]. cbn [show lev]. destruct (hexlit dn (c_mask c)) as [|h t]; [discriminate M|].
      cbn [int_lit] in M. apply andb_true_iff in M as [M _]. unfold un_okb.
      assert (A : forallb (fun h => negb (is_num h) || chk OPy (cs "~") h) all_ascii = true) by (vm_compute; reflexivity).
      rewrite forallb_forall in A. specialize (A h (in_all_ascii h)). cbv beta in A. rewrite M in A. cbn [negb orb] in A.
      change (find_op (prefix OPy) (sy "~")) with (Some (sign OPy)). rewrite A. reflexivity.
    + apply GoTextEnc.pwf_par, GoTextEnc.pwf_bin; try reflexivity; [exact W|exact M].
Qed.

(** ** Evaluation *)
Section Chunk.
Variable enums : chars -> option (Z -> bool).
Variable st : pst.

Lemma eval_slot src v shr mask dn shl : eval enums st (tree src) = Some (Ok (VI v)) -> 0 <= shr -> 0 <= mask -> 0 <= shl ->
  eval enums st (tree (slot_px src shr mask dn shl)) = Some (Ok (VI (Z.shiftl (Z.land (Z.shiftr v shr) mask) shl))).
Proof.
  intros E H1 H2 H3.
  assert (Q : eval enums st (NBin (cs "&") (NBin (cs ">>") (tree src) (NNum (fmtd shr))) (NNum (hexlit dn mask))) =
    Some (Ok (VI (Z.land (Z.shiftr v shr) mask)))).
  { apply eval_and; [apply eval_shr; [exact E|now apply eval_num, fmtd_reads|exact H1]|now apply eval_num, hexlit_reads]. }
  unfold slot_px. destruct (Z.eqb_spec shl 0) as [->|N].
  - rewrite Z.shiftl_0_r. exact Q.
  - cbn [tree]. apply eval_shl; [exact Q|now apply eval_num, fmtd_reads|exact H3].
Qed.
Lemma eval_slot_panic src shr mask dn shl : eval enums st (tree src) = Some Panic ->
  eval enums st (tree (slot_px src shr mask dn shl)) = Some Panic.
Proof.
  intros E. assert (Q : eval enums st (NBin (cs "&") (NBin (cs ">>") (tree src) (NNum (fmtd shr))) (NNum (hexlit dn mask))) = Some Panic).
  { apply eval_bin_panic, eval_bin_panic, E. }
  unfold slot_px. destruct (shl =? 0); cbn [tree]; [exact Q|apply eval_bin_panic, Q].
Qed.
Lemma eval_ors dn fdx (fd : Z -> Z) : (forall i, 0 <= i -> eval enums st (tree (fdx i)) = Some (Ok (VI (fd i)))) ->
  forall ps x acc, eval enums st (tree x) = Some (Ok (VI acc)) -> Forall part_ok ps ->
  eval enums st (tree (or_px x (map (part_px dn fdx) ps))) = Some (Ok (VI (fold_left (fun a p => Z.lor a (py_part fd p)) ps acc))).
Proof.
  intros Hf. induction ps as [|p ps IH]; intros x acc E F; cbn [map GoTextEnc.or_px fold_left]; auto.
  inversion F as [|? ? Fp Fs]; subst. apply (IH (PBin "|" x (part_px dn fdx p))); auto.
  cbn [tree]. destruct Fp. apply eval_or; [exact E|]. unfold part_px, py_part. apply eval_slot; try lia. now apply Hf.
Qed.
Lemma eval_parts dn fdx (fd : Z -> Z) p ps : (forall i, 0 <= i -> eval enums st (tree (fdx i)) = Some (Ok (VI (fd i)))) -> Forall part_ok (p :: ps) ->
  eval enums st (tree (or_px (part_px dn fdx p) (map (part_px dn fdx) ps))) = Some (Ok (VI (py_parts fd (p :: ps)))).
Proof.
  intros Hf F. inversion F as [|? ? Fp Fs]; subst. unfold py_parts. cbn [fold_left]. rewrite Z.lor_0_l.
  apply eval_ors; auto. destruct Fp. unfold part_px, py_part. apply eval_slot; try lia. now apply Hf.
Qed.
Lemma eval_data pos : 0 <= pos -> eval enums st (tree (data_px pos)) =
  match rd (p_data st) pos with Ok b => Some (Ok (VI b)) | _ => Some Panic end.
Proof.
  intros H. unfold data_px. cbn [tree]. cbn [eval]. change (eqs (cs "data") "data") with true.
  rewrite fmtd_reads by auto. cbv iota. cbn [look]. destruct (Z.ltb_spec pos 0); [lia|]. reflexivity.
Qed.
End Chunk.

Definition lift_data (st : pst) (r : res (list Z)) : res pst :=
  match r with Ok d => Ok (set_data st d) | Fail => Fail | Panic => Panic end.

Lemma exec_chunk enums st dn fdx fd c : chunk_ok c ->
  (forall i, 0 <= i -> eval enums st (tree (fdx i)) = Some (Ok (VI (fd i)))) ->
  exec enums st (SSet (cs "=") (tree (data_px (c_pos c))) (tree (chunk_px dn fdx c))) =
  Some (lift_data st (py_chunk fd 0 c (p_data st))).
Proof.
  intros C Hf. destruct C. unfold exec. change (eqs (cs "=") "=") with true. cbv iota.
  unfold chunk_px. destruct (c_parts c) as [|p ps] eqn:Ec; [congruence|]. cbn [map].
  pose proof (eval_parts enums st dn fdx fd p ps Hf co_parts) as Ep.
  set (P := py_parts fd (p :: ps)) in *.
  pose proof (eval_data enums st (c_pos c) co_pos) as Ed.
  set (X := data_px (c_pos c)) in *. set (Y := or_px (part_px dn fdx p) (map (part_px dn fdx) ps)) in *.
  cbn [tree].
  pose proof (eval_num enums st (hexlit dn (c_mask c)) (c_mask c) (hexlit_reads dn (c_mask c) (proj1 co_mask))) as Em.
  unfold py_chunk. rewrite Ec. fold P. change (0 + c_pos c) with (c_pos c).
  destruct (GoTextEnc.rd_cases (p_data st) (c_pos c)) as [[b Eb]|Eb]; rewrite Eb in *; cbn [bind].
  - rewrite (eval_or enums st _ _ (Z.ldiff b (c_mask c)) (Z.land P (c_mask c))).
    + unfold store, X, data_px. cbn [tree]. change (eqs (cs "data") "data") with true. cbv iota.
      rewrite (eval_num enums st (fmtd (c_pos c)) (c_pos c) (fmtd_reads _ co_pos)). destruct (Z.ltb_spec (c_pos c) 0); [lia|].
      destruct ((_ <? 0) || (255 <? _)); [reflexivity|]. destruct (wr _ _ _); reflexivity.
    + rewrite Z.ldiff_land. apply eval_and; [exact Ed|]. now apply eval_not.
    + now apply eval_and.
  - rewrite (eval_bin_panic enums st); [reflexivity|]. apply eval_bin_panic, Ed.
Qed.

Lemma runs_app enums ls ls' st st' r : runs enums st ls (Ok st') -> runs enums st' ls' r -> runs enums st (ls ++ ls') r.
Proof.
  intros H. remember (Ok st') as q. revert st' Heqq. induction H; intros s' E Hr; cbn [app]; try discriminate.
  - injection E as ->. exact Hr.
  - subst. eapply runs_cons; eauto.
  - subst. eapply runs_check; eauto.
Qed.
Lemma runs_app_panic enums ls ls' st r : runs enums st ls r -> (forall s, r <> Ok s) -> runs enums st (ls ++ ls') r.
Proof.
  induction 1; intros N; cbn [app].
  - exfalso. now apply (N st).
  - eapply runs_cons; eauto.
  - eapply runs_raise; eauto.
  - eapply runs_check; eauto.
  - eapply runs_return; eauto.
Qed.

Lemma set_data_data st d : p_data (set_data st d) = d. Proof. reflexivity. Qed.
Lemma set_data_same st : set_data st (p_data st) = st. Proof. destruct st; reflexivity. Qed.
Lemma set_set st d e : set_data (set_data st d) e = set_data st e. Proof. reflexivity. Qed.
Lemma py_chunk_cases fd base c d : (exists d', py_chunk fd base c d = Ok d') \/ py_chunk fd base c d = Panic.
Proof.
  unfold py_chunk. destruct (GoTextEnc.rd_cases d (base + c_pos c)) as [[b ->]| ->]; auto. cbn [bind]. destruct (_ || _); auto. apply GoTextEnc.wr_cases.
Qed.

Lemma run_lines enums dn fdx fdt fd : (forall i, show (fdx i) = fdt i) -> (forall i, 0 <= i -> pwf OPy (fdx i) = true) ->
  forall cs st, Forall chunk_ok cs ->
  (forall d i, 0 <= i -> eval enums (set_data st d) (tree (fdx i)) = Some (Ok (VI (fd i)))) ->
  runs enums st (map (chunk_text dn fdt) cs) (lift_data st (py_chunks fd 0 cs (p_data st))).
Proof.
  intros Hs Hw. induction cs as [|c cs IH]; intros st F He; cbn [map py_chunks].
  - cbn [lift_data]. rewrite set_data_same. constructor.
  - inversion F as [|? ? Fc Fs]; subst.
    assert (R : reads_stmt (chunk_text dn fdt c) (SSet (Literals.cs "=") (tree (data_px (c_pos c))) (tree (chunk_px dn fdx c)))).
    { rewrite <- (show_chunk dn fdx fdt c Hs) by apply Fc. apply (set_reads "="); [now left| |].
      - apply pwf_data. apply Fc.
      - apply pwf_chunk; auto. }
    assert (E' : exec enums st (SSet (Literals.cs "=") (tree (data_px (c_pos c))) (tree (chunk_px dn fdx c))) =
      Some (lift_data st (py_chunk fd 0 c (p_data st)))).
    { apply exec_chunk; auto. intros i Hi'. rewrite <- (set_data_same st) at 1. now apply He. }
    destruct (py_chunk_cases fd 0 c (p_data st)) as [[d' Ed]|Ed]; rewrite Ed in *; cbn [bind lift_data] in *.
    + eapply runs_cons; [exact R|exact E'|]. apply (IH (set_data st d')); auto.
    + eapply runs_raise; [exact R|exact E'].
Qed.

(** ** Variables *)
Record var (x : px) (p : place) : Prop := {
  v_pwf : pwf OPy x = true;
  v_prim : prim x = true;
  v_rp : not_rp (ptoks x) = true;
  v_place : place_of (tree x) = Some p
}.
Definition field_px (f : chars) : px := PMem (PId (cs "self")) (att f).
Definition elem_px (f : chars) (i : Z) : px := PIdx (field_px f) (PNum (fmtd i)).
Lemma show_field f : show (field_px f) = field_name f. Proof. reflexivity. Qed.
Lemma show_elem f i : show (elem_px f i) = elem_name f i.
Proof. unfold elem_px, elem_name. cbn [show field_px]. unfold field_name. rewrite <- !app_assoc. reflexivity. Qed.
Lemma var_field f : name_okb (att f) = true -> var (field_px f) (PF (att f)).
Proof. intros H. split; try reflexivity. cbn [field_px pwf]. rewrite H. reflexivity. Qed.
Lemma var_elem f i : name_okb (att f) = true -> 0 <= i -> var (elem_px f i) (PE (att f) i).
Proof.
  intros H Hi. split; try reflexivity.
  - cbn [elem_px field_px pwf]. rewrite H, fmtd_int_lit by auto. reflexivity.
  - cbn [elem_px field_px tree place_of]. change (eqs (cs "self") "self") with true. cbv iota. rewrite fmtd_reads by auto. reflexivity.
Qed.
Lemma var_local x : plain_id OPy x = true -> eqs x "data" = false -> eqs x "self" = false -> var (PId x) (PL x).
Proof.
  intros H A B. split; try reflexivity.
  - exact H.
  - cbn [tree place_of]. rewrite A, B. reflexivity.
Qed.
Lemma get_set st d p : get (set_data st d) p = get st p. Proof. destruct p; reflexivity. Qed.
Lemma eval_place enums st n p v : place_of n = Some p -> get st p = Some v -> eval enums st n = Some v.
Proof.
  intros H G. assert (R : read_var st n = Some v) by (unfold read_var; now rewrite H).
  destruct n as [x|s|s a|s a b|ty a|a s f|f args|a i|ty c a b]; try discriminate H.
  - exact R.
  - cbn [eval]. rewrite H. exact G.
  - cbn [eval]. destruct a as [x|s|s a|s a b|ty a|a s f|f args|a j|ty c a b]; try exact R.
    discriminate H.
Qed.

Definition fd_px (dn : bool) (n : Z) (big : bool) (x : px) (i : Z) : px :=
  PPar (PBin ">>" x (PNum (declit dn (if big then Z.max 0 (n - 8 * (i + 1)) else 8 * i)))).
Lemma show_fd dn n big x i : show (fd_px dn n big x i) = field_data_text dn n big (show x) i.
Proof. unfold fd_px, field_data_text. cbn [show]. rewrite <- ?app_assoc. reflexivity. Qed.

Lemma chunks_ok from n : 0 <= from -> Forall chunk_ok (gen_encode_impl from (from + n)).
Proof.
  intros Hf. unfold gen_encode_impl. pose proof (GoTextField.gen_chunks_ok (Z.to_nat (from + n - from)) from (from + n - from) 0 Hf ltac:(lia)) as C.
  eapply Forall_impl; [|exact C]. intros c [H _]. exact H.
Qed.
Theorem enc_basic_runs enums st dn n big from x p z : 0 <= from ->
  var x p -> get st p = Some (Ok (VI z)) ->
  runs enums st (enc_basic_text dn n big from (show x))
    (lift_data st (py_chunks (field_data n big z) 0 (gen_encode_impl from (from + n)) (p_data st))).
Proof.
  intros Hf V G. unfold enc_basic_text, encode_text. destruct V.
  apply (run_lines enums dn (fd_px dn n big x) _ (field_data n big z)).
  - intros i. apply show_fd.
  - intros i Hi. apply GoTextEnc.pwf_par, GoTextEnc.pwf_bin; try reflexivity; auto.
    + apply GoTextEnc.pwf_num, declit_int_lit. destruct big; lia.
    + rewrite (GoTextEnc.prim_lev _ _ v_prim0). reflexivity.
  - now apply chunks_ok.
  - intros d i Hi. unfold fd_px. cbn [tree]. unfold field_data. apply eval_shr.
    + apply (eval_place enums (set_data st d) _ p); [assumption|rewrite get_set; exact G].
    + apply eval_num, declit_reads. destruct big; lia.
    + destruct big; lia.
Qed.
Theorem enc_const_runs enums st dn b n big from z : 0 <= from ->
  runs enums st (enc_const_text dn b n big from z)
    (lift_data st (py_chunks (const_data (basic_bits b) big z) 0 (gen_encode_impl from (from + n)) (p_data st))).
Proof.
  intros Hf. unfold enc_const_text, encode_text.
  assert (R : forall i, 0 <= const_data (basic_bits b) big z i < 256) by (intros i; unfold const_data; apply Z.mod_pos_bound; lia).
  apply (run_lines enums dn (fun i => PNum (hexlit dn (const_data (basic_bits b) big z i))) _ (const_data (basic_bits b) big z)).
  - reflexivity.
  - intros i _. apply GoTextEnc.pwf_num, hexlit_int_lit, R.
  - now apply chunks_ok.
  - intros d i _. apply eval_num, hexlit_reads, R.
Qed.
