(** The reading of CSem.v leaves no choice: a text has at most one outcome. *)
From Coq Require Import ZArith Lia Bool String Ascii List.
Import ListNotations.
From Verif Require Import Base Literals ExprModel ExprSpec ExprLex PropsExpr CSem.
Open Scope string_scope.
Open Scope Z_scope.
Open Scope list_scope.

Lemma parses_det ts a r b q : parses ts a r -> parses ts b q -> a = b /\ r = q.
Proof.
  intros [n1 H1] [n2 H2]. specialize (H1 (n1 + n2)%nat ltac:(lia)). specialize (H2 (n1 + n2)%nat ltac:(lia)). rewrite H1 in H2. injection H2 as <- <-. auto.
Qed.
Lemma parses_at (k : nat) ts x rest : parses ts x rest -> exists n, pexpr OC (k + n) 0 ts = Some (x, rest).
Proof. intros [n0 H]. exists n0. apply H. lia. Qed.
Lemma lexes_id g text ts : lexes g text ts -> forall x, In (TId x) ts -> exists c a, x = c :: a /\ is_alpha c = true.
Proof.
  induction 1; intros x Hx; cbn [In] in Hx; auto.
  - contradiction.
  - destruct Hx as [E|Hx]; [discriminate|auto].
  - destruct Hx as [E|Hx]; [|auto]. injection E as <-. eauto.
  - destruct Hx as [E|Hx]; [discriminate|auto].
Qed.
Lemma infix_alpha c a : is_alpha c = true -> find_op (infix OC) (TId (c :: a)) = None.
Proof.
  intros H. cbv [infix c_levels lv map app find_op find fst snd].
  repeat match goal with |- context [list_eq_dec ascii_dec ?x ?y] => destruct (list_eq_dec ascii_dec x y) as [E|_]; [exfalso; injection E as <-; discriminate H|] end.
  reflexivity.
Qed.
Lemma prefix_alpha c a : is_alpha c = true -> find_op (prefix OC) (TId (c :: a)) = None.
Proof.
  intros H. cbv [prefix map app find_op find fst snd].
  repeat match goal with |- context [list_eq_dec ascii_dec ?x ?y] => destruct (list_eq_dec ascii_dec x y) as [E|_]; [exfalso; injection E as <-; discriminate H|] end.
  reflexivity.
Qed.
(** "T x ..." does not start an assignment. *)
Lemma decl_not_set t x r l op rest : (exists c a, t = c :: a /\ is_alpha c = true) -> (exists c a, x = c :: a /\ is_alpha c = true) ->
  ~ parses (TId t :: TId x :: r) l (TSym op :: rest).
Proof.
  intros (c & a & -> & A) (d & b & -> & B) P. destruct (parses_at 6 _ _ _ P) as [n H]. cbn [Nat.add] in H.
  assert (E : pprefix OC (S (S (S (S (S n))))) 0 (TId (c :: a) :: TId (d :: b) :: r) = None \/
              pprefix OC (S (S (S (S (S n))))) 0 (TId (c :: a) :: TId (d :: b) :: r) = Some (NId (c :: a), TId (d :: b) :: r)).
  { cbn [pprefix]. rewrite (prefix_alpha c a A). destruct (is_keyword OC (c :: a)); [left; reflexivity|right; reflexivity]. }
  destruct E as [E|E].
  - cbn [pexpr] in H. rewrite E in H. discriminate.
  - cbn [pexpr] in H. rewrite E in H. cbn [ploop] in H. rewrite (infix_alpha d b B) in H. discriminate.
Qed.
Theorem reads_stmt_det text a b : reads_stmt text a -> reads_stmt text b -> a = b.
Proof.
  assert (D : forall t x r l op rest, lexes OC text (TId t :: TId x :: r) -> ~ parses (TId t :: TId x :: r) l (TSym op :: rest)).
  { intros t x r l op rest L. apply decl_not_set; apply (lexes_id _ _ _ L); [left|right; left]; reflexivity. }
  assert (I : forall r l op rest, ~ parses (kw "if" :: r) l (TSym op :: rest)).
  { intros r l op rest P. destruct (parses_at 6 _ _ _ P) as [n H]. cbn [Nat.add] in H. vm_compute in H. discriminate. }
  intros [ts op l r rest L O P Q|t x e rest L P|t x L|c rest L P] [ts' op' l' r' rest' L' O' P' Q'|t' x' e' rest' L' P'|t' x' L'|c' rest' L' P'];
    pose proof (lexes_unique _ _ _ L _ L') as E.
  - subst ts'. destruct (parses_det _ _ _ _ _ P P') as [-> F]. injection F as -> ->. destruct (parses_det _ _ _ _ _ Q Q') as [-> _]. reflexivity.
  - subst ts. exfalso. exact (D _ _ _ _ _ _ L P).
  - subst ts. exfalso. exact (D _ _ _ _ _ _ L P).
  - subst ts. exfalso. exact (I _ _ _ _ P).
  - subst ts'. exfalso. exact (D _ _ _ _ _ _ L' P').
  - injection E as -> -> ->. destruct (parses_det _ _ _ _ _ P P') as [-> _]. reflexivity.
  - discriminate E.
  - discriminate E.
  - subst ts'. exfalso. exact (D _ _ _ _ _ _ L' P').
  - discriminate E.
  - injection E as -> ->. reflexivity.
  - discriminate E.
  - subst ts'. exfalso. exact (I _ _ _ _ P').
  - discriminate E.
  - discriminate E.
  - injection E as ->. destruct (parses_det _ _ _ _ _ P P') as [-> _]. reflexivity.
Qed.
Theorem runs_det st ls r : runs st ls r -> forall r', runs st ls r' -> r = r'.
Proof.
  induction 1 as [st|st l s st' ls r R E _ IH|st l s ls R E|st l s ls R E]; intros r' H;
    inversion H as [|? ? s2 st2 ? ? R2 E2 H2|? ? s2 ? R2 E2|? ? s2 ? R2 E2]; subst; auto;
    rewrite (reads_stmt_det _ _ _ R R2) in E; rewrite E in E2; try discriminate; auto. injection E2 as <-; auto.
Qed.
