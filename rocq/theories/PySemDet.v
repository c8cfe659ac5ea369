(** The reading of PySem.v leaves no choice: a text has at most one outcome. *)
From Coq Require Import ZArith Lia Bool String Ascii List.
Import ListNotations.
From Verif Require Import Base Literals ExprModel ExprSpec ExprLex PropsExpr PySem.
Open Scope string_scope.
Open Scope Z_scope.
Open Scope list_scope.

Lemma parses_det ts a r b q : parses ts a r -> parses ts b q -> a = b /\ r = q.
Proof.
  intros [n1 H1] [n2 H2]. specialize (H1 (n1 + n2)%nat ltac:(lia)). specialize (H2 (n1 + n2)%nat ltac:(lia)). rewrite H1 in H2. injection H2 as <- <-. auto.
Qed.
Lemma if_not_expr ts l rest : ~ parses (kw "if" :: ts) l rest.
Proof. intros [n0 P]. specialize (P (4 + n0)%nat ltac:(lia)). cbn [Nat.add] in P. discriminate P. Qed.
Theorem reads_stmt_det text a b : reads_stmt text a -> reads_stmt text b -> a = b.
Proof.
  intros [ts op l r rest L O P Q] [ts' op' l' r' rest' L' O' P' Q'].
  rewrite (lexes_unique _ _ _ L _ L') in P. destruct (parses_det _ _ _ _ _ P P') as [-> E]. injection E as -> ->.
  destruct (parses_det _ _ _ _ _ Q Q') as [-> _]. reflexivity.
Qed.
Theorem reads_check_det l1 l2 x y x' y' : reads_check l1 l2 x y -> reads_check l1 l2 x' y' -> x = x' /\ y = y'.
Proof.
  intros [ts ? ? L P _] [ts' ? ? L' P' _]. pose proof (lexes_unique _ _ _ L _ L') as E. injection E as ->.
  destruct (parses_det _ _ _ _ _ P P') as [E _]. injection E as -> ->. auto.
Qed.
Theorem check_not_stmt l1 l2 x y s : reads_check l1 l2 x y -> ~ reads_stmt l1 s.
Proof.
  intros [ts ? ? L P _] [ts' op l r' rest L' O P' _]. rewrite (lexes_unique _ _ _ L' _ L) in P'. exact (if_not_expr _ _ _ P').
Qed.
Theorem runs_det enums st ls r : runs enums st ls r -> forall r', runs enums st ls r' -> r = r'.
Proof.
  induction 1 as [st|st l s st' ls r R E _ IH|st l s ls R E|st l1 l2 x y ls r C Q _ IH|st l1 l2 x y ls C Q]; intros r' H;
    inversion H as [|? ? s2 st2 ? ? R2 E2 H2|? ? s2 ? R2 E2|? ? ? x2 y2 ? ? C2 Q2 H2|? ? ? x2 y2 ? C2 Q2]; subst; auto;
    try (exfalso; exact (check_not_stmt _ _ _ _ _ C R2)); try (exfalso; exact (check_not_stmt _ _ _ _ _ C2 R));
    try (rewrite (reads_stmt_det _ _ _ R R2) in E; rewrite E in E2; try discriminate; injection E2 as <-; auto);
    destruct (reads_check_det _ _ _ _ _ _ C C2) as [-> ->]; try congruence; auto.
Qed.
