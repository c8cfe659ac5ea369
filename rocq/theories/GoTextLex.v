(** The printed statements are read as the statements they should be. *)
From Coq Require Import ZArith Lia Bool String Ascii List.
Import ListNotations.
From Verif Require Import Base Schema GoModel Literals PropsLit ExprModel ExprSpec ExprProofs ExprLex ExprParse PrintTree GoSem GoText.
Open Scope string_scope.
Open Scope Z_scope.
Open Scope list_scope.

(** ** Literals *)

Lemma digits_word b n : 0 <= n -> forallb is_word (fmt_uint (base_num b) n) = true.
Proof.
  intros Hn. apply forallb_forall. intros c Hc. apply digit_word.
  assert (2 <= base_num b <= 16) by (destruct b; cbn; lia).
  pose proof (fmt_digits (base_num b) n H Hn) as F. rewrite Forall_forall in F. auto.
Qed.
Lemma pre_int_lit b n : 0 <= n -> int_lit (base_pre b ++ fmt_uint (base_num b) n) = true.
Proof.
  intros Hn. pose proof (digits_word b n Hn) as W. destruct b; cbn [base_pre cs list_ascii_of_string app int_lit forallb] in *;
    try (rewrite W; reflexivity);
    cbn [base_num] in *; destruct (fmt_head 10 n ltac:(lia) Hn) as (d & r & E & Hd & _); rewrite E in *; cbn [forallb int_lit] in *;
    apply andb_true_iff in W as [_ W]; rewrite W, dchar_num by lia; reflexivity.
Qed.
Lemma emit_go dn b v : 0 <= v -> emit_int OGo dn (make_int_lit true v b) =
  let e := if dn then BDec else match b with BAuto => BDec | x => x end in base_pre e ++ fmt_uint (base_num e) v.
Proof.
  intros Hv. unfold make_int_lit. rewrite emit_signed by (now left). destruct (Z.ltb_spec v 0); [lia|].
  rewrite Z.abs_eq by lia. cbn [suffix_of app]. now rewrite app_nil_r.
Qed.
Lemma emit_int_lit dn b v : 0 <= v -> int_lit (emit_int OGo dn (make_int_lit true v b)) = true.
Proof. intros Hv. rewrite emit_go by auto. apply pre_int_lit. exact Hv. Qed.
Lemma emit_reads dn b v : 0 <= v < 2 ^ 63 -> reads OGo (emit_int OGo dn (make_int_lit true v b)) = Some v.
Proof. intros Hv. unfold make_int_lit. apply reads_signed; [lia|now left]. Qed.
Lemma fmtd_emit v : 0 <= v -> fmtd v = emit_int OGo true (make_int_lit true v BDec).
Proof. intros Hv. rewrite emit_go by auto. unfold fmtd, fmt_int. destruct (Z.ltb_spec v 0); [lia|]. reflexivity. Qed.
Lemma fmtd_int_lit v : 0 <= v -> int_lit (fmtd v) = true.
Proof. intros H. rewrite fmtd_emit by auto. now apply emit_int_lit. Qed.
Lemma reads_fmt_go b n : 0 <= n -> reads OGo (base_pre b ++ fmt_uint (base_num b) n) = Some n.
Proof.
  intros Hn. pose proof (reads_fmt OGo b false n) as R. destruct (Z.ltb_spec n 0); [lia|]. rewrite Z.abs_eq in R by lia.
  cbn [suffix_of app] in R. rewrite app_nil_r in R. apply R. exact I.
Qed.
Lemma fmtd_reads v : 0 <= v -> reads OGo (fmtd v) = Some v.
Proof. intros H. rewrite fmtd_emit by auto. rewrite emit_go by auto. now apply reads_fmt_go. Qed.
Lemma hexlit_int_lit dn v : 0 <= v -> int_lit (hexlit dn v) = true.
Proof. apply emit_int_lit. Qed.
Lemma hexlit_reads dn v : 0 <= v -> reads OGo (hexlit dn v) = Some v.
Proof. intros H. unfold hexlit. rewrite emit_go by auto. now apply reads_fmt_go. Qed.
Lemma declit_int_lit dn v : 0 <= v -> int_lit (declit dn v) = true.
Proof. apply emit_int_lit. Qed.
Lemma declit_reads dn v : 0 <= v -> reads OGo (declit dn v) = Some v.
Proof. intros H. unfold declit. rewrite emit_go by auto. now apply reads_fmt_go. Qed.

(** ** Statements *)

Definition assign_op (op : string) : Prop := op = "=" \/ op = "|=".
Lemma assign_closing op k : assign_op op -> closing OGo (sy op :: k).
Proof. intros [->| ->]; vm_compute; reflexivity. Qed.
Lemma parses_px x k : pwf OGo x = true -> closing OGo k -> parses (ptoks x ++ k) (tree x) k.
Proof. intros W C. destruct (parse_px OGo x W) as [P _]. exact (closed_parse OGo x k W P C). Qed.
Lemma parses_px_nil x : pwf OGo x = true -> parses (ptoks x) (tree x) [].
Proof. intros W. rewrite <- (app_nil_r (ptoks x)). now apply parses_px. Qed.
Lemma lex_px_end x : pwf OGo x = true -> lexes OGo (show x) (ptoks x).
Proof.
  intros W. rewrite <- (app_nil_r (show x)), <- (app_nil_r (ptoks x)). apply lex_px; auto; [exact I|intros _; exact I|constructor].
Qed.
Lemma set_reads op l r : assign_op op -> pwf OGo l = true -> pwf OGo r = true ->
  reads_stmt (show l ++ cs " " ++ cs op ++ cs " " ++ show r) (SSet (cs op) (tree l) (tree r)).
Proof.
  intros O Wl Wr. apply (rs_set _ (ptoks l ++ sy op :: ptoks r) _ _ _ (ptoks r)).
  - apply lex_px; auto.
    + reflexivity.
    + intros _. repeat split; discriminate.
    + cbn [app]. constructor. apply (lex_op OGo (cs op) " " (show r)).
      * destruct O as [->| ->]; vm_compute; reflexivity.
      * constructor. now apply lex_px_end.
  - destruct O as [->| ->]; auto.
  - apply parses_px; auto. now apply assign_closing.
  - now apply parses_px_nil.
Qed.
Lemma decl_reads x r : name_okb x = true -> pwf OGo r = true -> reads_stmt (x ++ cs " := " ++ show r) (SDecl x (tree r)).
Proof.
  intros N W. apply (rs_decl _ _ _ (ptoks r)).
  - apply lex_name; [now apply name_okb_ok|reflexivity|]. constructor. apply (lex_op OGo (cs ":=") " " (show r)); [vm_compute; reflexivity|].
    constructor. now apply lex_px_end.
  - now apply parses_px_nil.
Qed.
Lemma var_reads x t : name_okb x = true -> name_okb t = true -> reads_stmt (cs "var " ++ x ++ cs " " ++ t) (SVar x t).
Proof.
  intros N1 N2. constructor. change (cs "var " ++ x ++ cs " " ++ t) with (cs "var" ++ (" "%char :: x ++ (" "%char :: t))).
  apply lex_name; [now apply name_okb_ok|reflexivity|]. constructor. apply lex_name; [now apply name_okb_ok|reflexivity|].
  constructor. rewrite <- (app_nil_r t) at 1. apply lex_name; [now apply name_okb_ok|exact I|constructor].
Qed.
