(** The reading of GoSem.v leaves no choice: a text has at most one outcome. *)
From Coq Require Import ZArith Lia Bool String Ascii List.
Import ListNotations.
From Verif Require Import Base Literals ExprModel ExprSpec ExprLex PropsExpr GoSem.
Open Scope string_scope.
Open Scope Z_scope.
Open Scope list_scope.

Lemma parses_det ts a r b q : parses ts a r -> parses ts b q -> a = b /\ r = q.
Proof.
  intros [n1 H1] [n2 H2]. specialize (H1 (n1 + n2)%nat ltac:(lia)). specialize (H2 (n1 + n2)%nat ltac:(lia)). rewrite H1 in H2. injection H2 as <- <-. auto.
Qed.
Lemma lexes_id g text ts : lexes g text ts -> forall x, In (TId x) ts -> exists c a, x = c :: a /\ is_alpha c = true.
Proof.
  induction 1; intros x Hx; cbn [In] in Hx; auto.
  - contradiction.
  - destruct Hx as [E|Hx]; [discriminate|auto].
  - destruct Hx as [E|Hx]; [|auto]. injection E as <-. eauto.
  - destruct Hx as [E|Hx]; [discriminate|auto].
Qed.
Lemma infix_alpha c a : is_alpha c = true -> find_op (infix OGo) (TId (c :: a)) = None.
Proof.
  intros H. cbv [infix lv map app find_op find fst snd].
  repeat match goal with |- context [list_eq_dec ascii_dec ?x ?y] => destruct (list_eq_dec ascii_dec x y) as [E|_]; [exfalso; injection E as <-; discriminate H|] end.
  reflexivity.
Qed.
Lemma parses_at (k : nat) ts x rest : parses ts x rest -> exists n, pexpr OGo (k + n) 0 ts = Some (x, rest).
Proof. intros [n0 H]. exists n0. apply H. lia. Qed.
Lemma bind_start_sym s r x rest : find_op (prefix OGo) (sy s) = None -> tok_eq (sy s) (sy "(") = false -> ~ parses (sy s :: r) x rest.
Proof.
  intros F T P. destruct (parses_at 2 _ _ _ P) as [n H]. cbn [Nat.add] in H.
  assert (E : pexpr OGo (S (S n)) 0 (sy s :: r) = None).
  { cbn [pexpr pprefix]. rewrite F. unfold sy at 1. fold (sy s). rewrite T. reflexivity. }
  congruence.
Qed.
Lemma decl_not_set x r l op rest : op = cs "=" \/ op = cs "|=" -> ~ parses (TId x :: sy ":=" :: r) l (TSym op :: rest).
Proof.
  intros O P. destruct (parses_at 6 _ _ _ P) as [n H]. cbn [Nat.add] in H.
  assert (E : pexpr OGo (S (S (S (S (S (S n)))))) 0 (TId x :: sy ":=" :: r) = None \/
              pexpr OGo (S (S (S (S (S (S n)))))) 0 (TId x :: sy ":=" :: r) = Some (NId x, sy ":=" :: r)).
  { cbn [pexpr pprefix]. destruct (find_op (prefix OGo) (TId x)) as [q|].
    - left. destruct (q <? 0); [destruct (11 <? q)|]; reflexivity.
    - destruct (is_keyword OGo x).
      + left. cbn [pkeyword]. destruct (tok_eq (TId x) (kw "func")); [|reflexivity]. destruct r as [|t2 [|[] [|t3 [|t4 r]]]]; reflexivity.
      + right. reflexivity. }
  destruct E as [E|E]; rewrite E in H; [discriminate|]. injection H as _ E2 _. destruct O as [O|O]; rewrite O in E2; discriminate.
Qed.
Lemma var_not_set x t l op rest : (exists c a, x = c :: a /\ is_alpha c = true) -> ~ parses [kw "var"; TId x; TId t] l (TSym op :: rest).
Proof.
  intros (c & a & -> & A) P. destruct (parses_at 6 _ _ _ P) as [n H]. cbn [Nat.add] in H.
  assert (E : pexpr OGo (S (S (S (S (S (S n)))))) 0 [kw "var"; TId (c :: a); TId t] = Some (NId (cs "var"), [TId (c :: a); TId t])).
  { assert (E1 : pprefix OGo (S (S (S (S (S n))))) 0 [kw "var"; TId (c :: a); TId t] = Some (NId (cs "var"), [TId (c :: a); TId t])) by reflexivity.
    cbn [pexpr]. rewrite E1. cbn [ploop]. rewrite (infix_alpha c a A). reflexivity. }
  rewrite E in H. discriminate.
Qed.
Lemma if_not_expr ts l rest : ~ parses (kw "if" :: ts) l rest.
Proof. intros P. destruct (parses_at 4 _ _ _ P) as [n H]. cbn [Nat.add] in H. discriminate H. Qed.

Theorem reads_stmt_det text a b : reads_stmt text a -> reads_stmt text b -> a = b.
Proof.
  intros Ha Hb.
  assert (X : forall a b, reads_stmt text a -> reads_stmt text b -> match a, b with SSet _ _ _, SDecl _ _ => False | SSet _ _ _, SVar _ _ => False | SDecl _ _, SVar _ _ => False | _, _ => True end).
  { clear. intros a b [ts op l r rest L O P _|x r rest L P|x t L] [ts' op' l' r' rest' L' O' P' _|x' r' rest' L' P'|x' t' L']; auto.
    - rewrite (lexes_unique _ _ _ L _ L') in P. exact (decl_not_set _ _ _ _ _ O P).
    - rewrite (lexes_unique _ _ _ L _ L') in P. refine (var_not_set _ _ _ _ _ _ P). apply (lexes_id _ _ _ L'). cbn; auto.
    - pose proof (lexes_unique _ _ _ L _ L'). discriminate. }
  pose proof (X a b Ha Hb) as X1. pose proof (X b a Hb Ha) as X2. clear X.
  destruct Ha as [ts op l r rest L O P Q|x r rest L P|x t L], Hb as [ts' op' l' r' rest' L' O' P' Q'|x' r' rest' L' P'|x' t' L']; try contradiction.
  - rewrite (lexes_unique _ _ _ L _ L') in P. destruct (parses_det _ _ _ _ _ P P') as [-> E]. injection E as -> ->.
    destruct (parses_det _ _ _ _ _ Q Q') as [-> _]. reflexivity.
  - pose proof (lexes_unique _ _ _ L _ L') as E. injection E as -> ->. destruct (parses_det _ _ _ _ _ P P') as [-> _]. reflexivity.
  - pose proof (lexes_unique _ _ _ L _ L') as E. injection E as -> ->. reflexivity.
Qed.
Theorem reads_check_det l1 l2 l3 x y x' y' : reads_check l1 l2 l3 x y -> reads_check l1 l2 l3 x' y' -> x = x' /\ y = y'.
Proof.
  intros [ts ? ? r L P _ _ _] [ts' ? ? r' L' P' _ _ _]. pose proof (lexes_unique _ _ _ L _ L') as E. injection E as ->.
  destruct (parses_det _ _ _ _ _ P P') as [E _]. injection E as -> ->. auto.
Qed.
Theorem check_not_stmt l1 l2 l3 x y s : reads_check l1 l2 l3 x y -> ~ reads_stmt l1 s.
Proof.
  intros [ts ? ? r L P _ _ _] [ts' op l r' rest L' O P' _|z r' rest L' P'|z t L'].
  - rewrite (lexes_unique _ _ _ L' _ L) in P'. exact (if_not_expr _ _ _ P').
  - pose proof (lexes_unique _ _ _ L _ L') as E. injection E as _ ->. refine (bind_start_sym ":=" _ _ _ _ _ P); reflexivity.
  - pose proof (lexes_unique _ _ _ L _ L') as E. discriminate.
Qed.
Theorem runs_det named st ls r : runs named st ls r -> forall r', runs named st ls r' -> r = r'.
Proof.
  induction 1 as [st|st l s st' ls r R E _ IH|st l s ls R E|st l1 l2 l3 x y ls r C Q _ IH|st l1 l2 l3 x y ls C Q]; intros r' H;
    inversion H as [|? ? s2 st2 ? ? R2 E2 H2|? ? s2 ? R2 E2|? ? ? ? x2 y2 ? ? C2 Q2 H2|? ? ? ? x2 y2 ? C2 Q2]; subst; auto;
    try (exfalso; exact (check_not_stmt _ _ _ _ _ _ C R2)); try (exfalso; exact (check_not_stmt _ _ _ _ _ _ C2 R));
    try (rewrite (reads_stmt_det _ _ _ R R2) in E; rewrite E in E2; try discriminate; injection E2 as <-; auto);
    destruct (reads_check_det _ _ _ _ _ _ _ C C2) as [-> ->]; try congruence; auto.
Qed.
