(** C64: custom getters and setters from the schema's text to the target's; C65 for every literal of the lexer. *)
From Coq Require Import ZArith Lia Bool String Ascii List.
Import ListNotations.
From Verif Require Import Base Literals PropsLit FloatLit FloatShort PropsFloat FrontModel ExprModel.
From Verif Require ExprSpec ExprProofs PropsExpr.
From Verif Require Import LexModel LexSpec LexProofs LexLayout PropsLex Syntax Parser PropsParse ExprVisit.
Open Scope string_scope.
Open Scope Z_scope.
Open Scope list_scope.

(** ** Every floating-point literal *)

Lemma lang_opt_inv r w : lang (ROpt r) w -> w = [] \/ lang r w.
Proof. intros L. unfold ROpt in L. apply lang_alt_inv in L as [L|L]; [left; now inversion L|now right]. Qed.
Lemma lang_decimals w : lang decimals w -> exists v, numeral 10 w v.
Proof.
  intros L. unfold decimals, RPlus in L. apply lang_seq_inv in L as (u & r & -> & L1 & L2). apply lang_set_inv in L1 as (c & -> & Hc).
  apply star_forall in L2. apply (numeral_of _ _ dec_class); [discriminate|]. now constructor.
Qed.
Lemma two_of c a b : one_of [a; b] c = true -> c = a \/ c = b.
Proof. unfold one_of. cbn [existsb]. rewrite orb_false_r. intros H. apply orb_prop in H as [H|H]; apply Ascii.eqb_eq in H; auto. Qed.
Lemma lang_exponent w : lang exponent w -> exists e, exponent_says w e.
Proof.
  intros L. unfold exponent in L. apply lang_seq_inv in L as (u & r & -> & L1 & L2). apply lang_set_inv in L1 as (c & -> & Hc).
  apply two_of in Hc. apply lang_seq_inv in L2 as (u & r' & -> & L1 & L2). apply lang_decimals in L2 as [v N].
  apply lang_opt_inv in L1 as [->|L1]; [eexists; apply ex_bare; eauto|]. apply lang_set_inv in L1 as (s & -> & Hs).
  apply two_of in Hs as [-> | ->]; eexists; [apply ex_plus|apply ex_minus]; eauto.
Qed.
Lemma lang_opt_exponent w : lang (ROpt exponent) w -> exists e, exponent_says w e.
Proof. intros L. apply lang_opt_inv in L as [->|L]; [exists 0; constructor|now apply lang_exponent]. Qed.
Lemma numeral_join a b v w : numeral 10 a v -> numeral 10 b w -> exists x, numeral 10 (a ++ b) x.
Proof.
  intros A B. assert (F : Forall (fun c => decimal_digit c = true) (a ++ b)).
  { apply Forall_app. split; (apply (numeral_of _ _ dec_class); [eapply numeral_nonempty; eauto|eauto]). }
  apply (numeral_of _ _ dec_class) in F; [exact F|]. apply numeral_nonempty in A. destruct a; [contradiction|discriminate].
Qed.
Lemma lang_dot w : lang (RChar ".") w -> w = ["."%char].
Proof. intros L. apply lang_set_inv in L as (c & -> & H). apply Ascii.eqb_eq in H. congruence. Qed.
(** The lexer's floating-point literals are inf, nan and decimal fractions. *)
Theorem C65_literal t : is_token KFloat t -> t = cs "inf" \/ t = cs "nan" \/ exists m e, fraction_says t m e.
Proof.
  intros T. apply token_rule in T as (r & I & K & L & _).
  assert (r = greedy KFloat float_lit) as ->.
  { apply (kind_rule KFloat); [apply tail_rule; cbn; tauto|reflexivity|discriminate|exact I|exact K]. }
  cbn [r_re greedy] in L. unfold float_lit in L. apply lang_alt_inv in L as [L|L].
  - right; right. apply lang_alt_inv in L as [L|L]; [|apply lang_alt_inv in L as [L|L]].
    + apply lang_seq_inv in L as (a & r & -> & La & L). apply lang_seq_inv in L as (d & r1 & -> & Ld & L). apply lang_dot in Ld as ->.
      apply lang_seq_inv in L as (b & x & -> & Lb & Lx). apply lang_decimals in La as [v Na]. apply lang_opt_exponent in Lx as [e X].
      cbn [app]. apply lang_opt_inv in Lb as [->|Lb].
      * eexists _, _. apply (fr_point a [] x v e); [now rewrite app_nil_r|exact X].
      * apply lang_decimals in Lb as [w Nb]. destruct (numeral_join a b v w Na Nb) as [y Ny]. eexists _, _. apply (fr_point a b x y e Ny X).
    + apply lang_seq_inv in L as (a & x & -> & La & Lx). apply lang_decimals in La as [v Na]. apply lang_exponent in Lx as [e X].
      eexists _, _. apply (fr_whole a x v e Na X).
    + apply lang_seq_inv in L as (d & r1 & -> & Ld & L). apply lang_dot in Ld as ->.
      apply lang_seq_inv in L as (b & x & -> & Lb & Lx). apply lang_decimals in Lb as [v Nb]. apply lang_opt_exponent in Lx as [e X].
      eexists _, _. apply (fr_point [] b x v e Nb X).
  - apply lang_alt_inv in L as [L|L]; apply text_lang in L; auto.
Qed.

(** ** C64 *)

(** The generated code reads as a tree that says what the schema's text says, whatever its layout. *)
Theorem C64_expression g dn b field e src out :
  (forall f, field = Some f -> ExprSpec.name_ok f) -> lex src = Some (y_expr e) -> meant e -> handled g dn e ->
  generated g dn b field src = Some out -> exists n, ExprSpec.reads_as g out n /\ means g b field e n.
Proof.
  intros F L M H G. unfold generated in G. rewrite L in G.
  assert (R : read_expr (y_expr e) = Some e) by (apply C59_expr; auto). rewrite R in G.
  destruct (visit_handled g dn e H) as (x & V & Gd & _). rewrite V in G.
  destruct (PropsExpr.C53_expr g dn (bty_of b) field x out F Gd G) as (n & Rn & Sn). exists n. split; [exact Rn|].
  eapply says_means; eauto.
Qed.
Theorem C64_layout g dn b field e src out :
  (forall f, field = Some f -> ExprSpec.name_ok f) -> written (y_expr e) src -> meant e -> handled g dn e ->
  generated g dn b field src = Some out -> exists n, ExprSpec.reads_as g out n /\ means g b field e n.
Proof. intros F W. apply C64_expression; auto. now apply C55_layout. Qed.
(** There is generated code: always, except that Go needs the types of conditionals. *)
Theorem C64_generated g dn b field e src : lex src = Some (y_expr e) -> meant e -> handled g dn e ->
  ((exists out, generated g dn b field src = Some out) <-> (g = OGo -> ifs_settled b e)).
Proof.
  intros L M H. unfold generated. rewrite L. assert (R : read_expr (y_expr e) = Some e) by (apply C59_expr; auto). rewrite R.
  destruct (visit_handled g dn e H) as (x & V & Gd & _). rewrite V.
  assert (D : g = OGo \/ g <> OGo) by (destruct g; auto; right; discriminate). destruct D as [->|D].
  - rewrite PropsExpr.C53_go_conditional, (ifs_settled_typed OGo dn b e H x V). split; auto.
  - split; [intros _ G; contradiction|intros _; now apply PropsExpr.C53_total].
Qed.
(** Parentheses around an expression change nothing in the generated code. *)
Theorem C64_parentheses g e : visit_expr g (PParens e) = visit_expr g e.
Proof. reflexivity. Qed.

(** ** Instances *)

Definition source : chars := cs "value & 0x0F /* low */ << 2 == +07 ? (float64) 1.25 * -3 ** value : (float64) (value ? 100. : 1e2)".
Definition source_tree : option pexpr := match lex source with Some ts => read_expr ts | None => None end.
Definition tree : pexpr :=
  PTern (PBin OBand PValue (PBin OEq (PBin OShl (PConst (CInt None (cs "0x0F"))) (PConst (CInt None (cs "2"))))
           (PConst (CInt (Some Plus) (cs "07")))))
        (PBin OMul (PCast Float64 (PConst (CFloat None (cs "1.25")))) (PBin OPow (PConst (CInt (Some Minus) (cs "3"))) PValue))
        (PCast Float64 (PParens (PTern PValue (PConst (CFloat None (cs "100."))) (PConst (CFloat None (cs "1e2")))))).
Example C64_instance_tree : source_tree = Some tree /\ lex source = Some (y_expr tree).
Proof. vm_compute. auto. Qed.
Example C64_instance :
  generated OC false Uint32 (Some (cs "temp")) source = Some (cs "((ptr->temp & ((0xF << 2) == 7)) ? ((double)1.250000 * pow(-3, ptr->temp)) : (double)(ptr->temp ? 100.000000 : 100.000000))") /\
  generated OKt false Uint32 None source = Some (cs "(if ((value and ((0xF shl (2).toInt()) == 7))) ((1.25).toDouble() * (-3).toDouble().pow((value).toDouble())) else ((if (value) 100.0 else 100.0)).toDouble())") /\
  generated OGo false Uint32 None source = None.
Proof. vm_compute. auto. Qed.
(** It meets the hypotheses of the theorems above. *)
Example C64_instance_meets : meant tree /\ handled OC false tree.
Proof.
  split.
  { apply (C59_expr (y_expr tree)). vm_compute. reflexivity. }
  assert (FL : forall t m e k, fraction_says t m e -> 0 <= k -> td m e = to_double k (10 ^ 6) -> td m e <> None ->
            exists M, reads_double t M /\ (six OC -> exists k, 0 <= k /\ rounds k (10 ^ 6) (Some M))).
  { intros t m e k F K E N. destruct (td m e) as [M|] eqn:T; [|contradiction]. exists M. split; [now apply (reads_td t M m e F)|].
    intros _. exists k. split; [exact K|]. rewrite E. apply to_double_rounds; lia. }
  assert (D1 : forall c v, digit_value c = Some v -> 0 < v < 10 -> int_token [c] v).
  { intros c v H L. apply tok_dec; [intros ->; vm_compute in H; injection H as <-; lia|apply num_one; [exact H|lia]]. }
  assert (I1 : fraction_says (cs "1.25") 125 (-2)) by (apply (fr_point ["1"%char] ["2"%char; "5"%char] [] 125 0); [|constructor]; apply (num_more 10 ["1"%char; "2"%char] _ 12 5); [apply (num_more 10 ["1"%char] _ 1 2); [apply num_one| |]| |]; reflexivity || lia).
  assert (I2 : fraction_says (cs "100.") 100 0) by (apply (fr_point ["1"%char; "0"%char; "0"%char] [] [] 100 0); [|constructor]; apply (num_more 10 ["1"%char; "0"%char] _ 10 0); [apply (num_more 10 ["1"%char] _ 1 0); [apply num_one| |]| |]; reflexivity || lia).
  assert (I3 : fraction_says (cs "1e2") 1 2) by (apply (fr_whole ["1"%char] ["e"%char; "2"%char] 1 2); [apply num_one; reflexivity || lia|apply ex_bare; [now left|apply num_one; reflexivity || lia]]).
  cbn [handled tree]. repeat match goal with |- _ /\ _ => split end; try exact I; try (intros E; discriminate E); try (intros _ [E|[E|E]]; discriminate E).
  - exists 15. split; [apply tok_hex; [now left|apply (num_more 16 [_] _ 0 15); [now apply num_one|reflexivity|lia]]|split; [lia|discriminate]].
  - exists 2. split; [apply D1; [reflexivity|lia]|split; [lia|discriminate]].
  - exists 7. split; [apply tok_oct, num_one; [reflexivity|lia]|split; [lia|discriminate]].
  - apply (FL _ _ _ 1250000 I1); [lia|vm_compute; reflexivity|vm_compute; discriminate].
  - exists 3. split; [apply D1; [reflexivity|lia]|split; [lia|]]. intros _ (x & ds & E & _). discriminate.
  - apply (FL _ _ _ 100000000 I2); [lia|vm_compute; reflexivity|vm_compute; discriminate].
  - apply (FL _ _ _ 100000000 I3); [lia|vm_compute; reflexivity|vm_compute; discriminate].
Qed.
