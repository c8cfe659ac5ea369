(** The printed Python statements are read as the statements they should be. *)
From Coq Require Import ZArith Lia Bool String Ascii List.
Import ListNotations.
From Verif Require Import Base BaseProofs Schema GoModel Literals PropsLit ExprModel ExprSpec ExprProofs ExprLex ExprParse PrintTree PySem PyText.
From Verif Require GoTextLex GoTextEnc.
Open Scope string_scope.
Open Scope Z_scope.
Open Scope list_scope.

(** ** Literals *)
Lemma emit_py dn b v : 0 <= v -> emit_int OPy dn (make_int_lit true v b) =
  let e := if dn then BDec else match b with BAuto => BDec | x => x end in base_pre e ++ fmt_uint (base_num e) v.
Proof.
  intros Hv. unfold make_int_lit. rewrite emit_signed by (now left). destruct (Z.ltb_spec v 0); [lia|].
  rewrite Z.abs_eq by lia. cbn [suffix_of app]. now rewrite app_nil_r.
Qed.
Lemma emit_int_lit dn b v : 0 <= v -> int_lit (emit_int OPy dn (make_int_lit true v b)) = true.
Proof. intros Hv. rewrite emit_py by auto. apply GoTextLex.pre_int_lit. exact Hv. Qed.
Lemma reads_fmt_py b n : 0 <= n -> reads OPy (base_pre b ++ fmt_uint (base_num b) n) = Some n.
Proof.
  intros Hn. pose proof (reads_fmt OPy b false n) as R. destruct (Z.ltb_spec n 0); [lia|]. rewrite Z.abs_eq in R by lia.
  cbn [suffix_of app] in R. rewrite app_nil_r in R. apply R. exact I.
Qed.
Lemma emit_reads dn b v : 0 <= v -> reads OPy (emit_int OPy dn (make_int_lit true v b)) = Some v.
Proof. intros Hv. rewrite emit_py by auto. now apply reads_fmt_py. Qed.
Lemma fmtd_emit v : 0 <= v -> fmtd v = emit_int OPy true (make_int_lit true v BDec).
Proof. intros Hv. rewrite emit_py by auto. unfold fmtd, fmt_int. destruct (Z.ltb_spec v 0); [lia|]. reflexivity. Qed.
Lemma fmtd_int_lit v : 0 <= v -> int_lit (fmtd v) = true.
Proof. intros H. rewrite fmtd_emit by auto. now apply emit_int_lit. Qed.
Lemma fmtd_reads v : 0 <= v -> reads OPy (fmtd v) = Some v.
Proof. intros H. rewrite fmtd_emit by auto. now apply emit_reads. Qed.
Lemma hexlit_int_lit dn v : 0 <= v -> int_lit (hexlit dn v) = true.
Proof. apply emit_int_lit. Qed.
Lemma hexlit_reads dn v : 0 <= v -> reads OPy (hexlit dn v) = Some v.
Proof. apply emit_reads. Qed.
Lemma declit_int_lit dn v : 0 <= v -> int_lit (declit dn v) = true.
Proof. apply emit_int_lit. Qed.
Lemma declit_reads dn v : 0 <= v -> reads OPy (declit dn v) = Some v.
Proof. apply emit_reads. Qed.
Lemma hexulit_eq dn v : 0 <= v < 2 ^ 64 -> hexulit dn v = hexlit dn v.
Proof.
  intros H. unfold hexulit, hexlit. rewrite emit_py by lia.
  assert (E : sext 64 v mod 2 ^ 64 = v) by (rewrite sext_mod by lia; apply Z.mod_small; lia).
  unfold emit_int, make_int_lit, format_int. cbn [i_base i_uns i_val]. rewrite E. destruct dn; reflexivity.
Qed.

(** ** Statements *)
Definition assign_op (op : string) : Prop := op = "=" \/ op = "|=".
Lemma assign_closing op k : assign_op op -> closing OPy (sy op :: k).
Proof. intros [->| ->]; vm_compute; reflexivity. Qed.
Lemma parses_px x k : pwf OPy x = true -> closing OPy k -> parses (ptoks x ++ k) (tree x) k.
Proof. intros W C. destruct (parse_px OPy x W) as [P _]. exact (closed_parse OPy x k W P C). Qed.
Lemma parses_px_nil x : pwf OPy x = true -> parses (ptoks x) (tree x) [].
Proof. intros W. rewrite <- (app_nil_r (ptoks x)). now apply parses_px. Qed.
Lemma lex_px_end x : pwf OPy x = true -> lexes OPy (show x) (ptoks x).
Proof.
  intros W. rewrite <- (app_nil_r (show x)), <- (app_nil_r (ptoks x)). apply lex_px; auto; [exact I|intros _; exact I|constructor].
Qed.
Lemma set_reads op l r : assign_op op -> pwf OPy l = true -> pwf OPy r = true ->
  reads_stmt (show l ++ cs " " ++ cs op ++ cs " " ++ show r) (SSet (cs op) (tree l) (tree r)).
Proof.
  intros O Wl Wr. apply (rs_set _ (ptoks l ++ sy op :: ptoks r) _ _ _ (ptoks r)).
  - apply lex_px; auto.
    + reflexivity.
    + intros _. repeat split; discriminate.
    + cbn [app]. constructor. apply (lex_op OPy (cs op) " " (show r)).
      * destruct O as [->| ->]; vm_compute; reflexivity.
      * constructor. now apply lex_px_end.
  - destruct O as [->| ->]; auto.
  - apply parses_px; auto. now apply assign_closing.
  - now apply parses_px_nil.
Qed.
(** if x != y: *)
Lemma parses_ne x y : pwf OPy x = true -> prim x = true -> pwf OPy y = true -> 6 <= lev OPy y ->
  parses (ptoks x ++ sy "!=" :: ptoks y ++ [sy ":"]) (NBin (cs "!=") (tree x) (tree y)) [sy ":"].
Proof.
  intros Wx Px Wy Ly. destruct (parse_px OPy x Wx) as [P _], (parse_px OPy y Wy) as [Q _].
  assert (F : forall v, follow OPy v [sy ":"]) by (intros v; apply closing_follow; vm_compute; reflexivity).
  assert (E : ev (fun n => pexpr OPy n 6 (ptoks y ++ [sy ":"]) = Some (tree y, [sy ":"]))).
  { apply Q; auto. apply ploop_end; [lia|]. exact I. }
  assert (L : ev (fun n => ploop OPy n 0 (NBin (cs "!=") (tree x) (tree y)) [sy ":"] = Some (NBin (cs "!=") (tree x) (tree y), [sy ":"]))).
  { apply ploop_stop. vm_compute; reflexivity. }
  apply P.
  - rewrite (GoTextEnc.prim_lev _ _ Px). split; [reflexivity|]. split; [discriminate|]. vm_compute. discriminate.
  - rewrite (GoTextEnc.prim_lev _ _ Px). lia.
  - eapply ev_step2; [exact E|exact L|]. intros n A B. cbv beta.
    transitivity (match pexpr OPy n 6 (ptoks y ++ [sy ":"]) with
      | Some (b, r') =>
          match (match r' with u :: _ => find_op (infix OPy) u | [] => None end) with
          | Some (lvl', _, _) => if true && (lvl' =? 5) then None else ploop OPy n 0 (NBin (cs "!=") (tree x) b) r'
          | None => ploop OPy n 0 (NBin (cs "!=") (tree x) b) r'
          end
      | None => None
      end); [reflexivity|]. rewrite A. exact B.
Qed.
Lemma check_reads x y : pwf OPy x = true -> prim x = true -> pwf OPy y = true -> 6 <= lev OPy y ->
  reads_check (cs "if " ++ show x ++ cs " != " ++ show y ++ cs ":") (cs "            return False, 0") (tree x) (tree y).
Proof.
  intros Wx Px Wy Ly. apply (rc _ _ (ptoks x ++ sy "!=" :: ptoks y ++ [sy ":"])).
  - change (cs "if " ++ show x ++ cs " != " ++ show y ++ cs ":") with (cs "if" ++ " "%char :: show x ++ " "%char :: (cs "!=" ++ " "%char :: (show y ++ cs ":"))).
    apply lex_name; [now vm_compute|reflexivity|]. constructor. apply lex_px; auto.
    + reflexivity.
    + intros _. repeat split; discriminate.
    + constructor. apply (lex_op OPy (cs "!=") " "); [vm_compute; reflexivity|]. constructor. apply lex_px; auto.
      * reflexivity.
      * intros _. repeat split; discriminate.
      * apply (lex_sym OPy ":"%char [] (cs ":") [] []); [discriminate|reflexivity|vm_compute; reflexivity|discriminate|reflexivity|constructor].
  - now apply parses_ne.
  - cbn [cs list_ascii_of_string]. do 12 constructor. apply (lex_name OPy (cs "return")); [now vm_compute|reflexivity|]. constructor.
    apply (lex_name OPy (cs "False")); [now vm_compute|reflexivity|]. apply (lex_solid OPy (cs ",")); [vm_compute; reflexivity|]. constructor.
    apply (lex_int OPy (cs "0") [] []); [reflexivity|exact I|constructor].
Qed.
