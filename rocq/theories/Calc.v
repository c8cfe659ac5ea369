(** Model of util/calc.go, the [calc] function of the code templates, over integers and booleans
    (no template passes it a float); property C37. *)
From Coq Require Import ZArith List Lia Bool.
From Verif Require Import Base.
Import ListNotations.
Open Scope Z_scope.

(** int64 wrap-around *)
Definition i64 (z : Z) : Z := sext 64 z.

Inductive bop := Mul | Div | Rem | Add | Sub | Shl | Shr | Lt | Gt | Le | Ge | Eq | Ne
               | BAnd | BXor | BOr | LAnd | LOr.
Inductive punct := POp (o : bop) | PNot | PInv | PQuest | PColon | PLp | PRp.

(** A template argument: an int64 (struct and field sizes), an int (literals), a bool, an operator
    string, or nil (reading past the end). *)
Inductive val := VI64 (z : Z) | VInt (z : Z) | VBool (b : bool) | VStr (p : punct) | VNil.

(** util/type.go ToInt64, ToBool: a panic on any other type *)
Definition to_i64 (v : val) : res Z :=
  match v with VI64 z | VInt z => Ok z | _ => Panic end.
Definition to_bool (v : val) : res bool :=
  match v with VBool b => Ok b | VI64 z | VInt z => Ok (negb (z =? 0)) | _ => Panic end.

(** Go == on interface values: same dynamic type and same value. *)
Definition iface_eq (a b : val) : bool :=
  match a, b with
  | VI64 x, VI64 y | VInt x, VInt y => x =? y
  | VBool x, VBool y => Bool.eqb x y
  | VNil, VNil => true
  | _, _ => false
  end.

(** The operations at each level (calc.go:57-231). *)
Definition apply_op (o : bop) (a b : val) : res val :=
  match o with
  | LOr => do x <- to_bool a; if x then Ok (VBool true) else do y <- to_bool b; Ok (VBool y)
  | LAnd => do x <- to_bool a; if x then do y <- to_bool b; Ok (VBool y) else Ok (VBool false)
  | Eq => Ok (VBool (iface_eq a b))
  | Ne => Ok (VBool (negb (iface_eq a b)))
  | _ =>
      do x <- to_i64 a; do y <- to_i64 b;
      match o with
      | Mul => Ok (VI64 (i64 (x * y)))
      | Div => if y =? 0 then Panic else Ok (VI64 (i64 (Z.quot x y)))
      | Rem => if y =? 0 then Panic else Ok (VI64 (i64 (Z.rem x y)))
      | Add => Ok (VI64 (i64 (x + y)))
      | Sub => Ok (VI64 (i64 (x - y)))
      | Shl => if y <? 0 then Panic else Ok (VI64 (i64 (Z.shiftl x y)))
      | Shr => if y <? 0 then Panic else Ok (VI64 (Z.shiftr x y))
      | Lt => Ok (VBool (x <? y)) | Gt => Ok (VBool (y <? x))
      | Le => Ok (VBool (x <=? y)) | Ge => Ok (VBool (y <=? x))
      | BAnd => Ok (VI64 (Z.land x y)) | BXor => Ok (VI64 (Z.lxor x y)) | BOr => Ok (VI64 (Z.lor x y))
      | _ => Panic
      end
  end.

(** Which level an operator belongs to: 1 calcMultiplicative ... 10 calcOr. *)
Definition level (o : bop) : nat :=
  match o with
  | Mul | Div | Rem => 1 | Add | Sub => 2 | Shl | Shr => 3 | Lt | Gt | Le | Ge => 4 | Eq | Ne => 5
  | BAnd => 6 | BXor => 7 | BOr => 8 | LAnd => 9 | LOr => 10
  end%nat.

(** Parsing and evaluation are one recursive descent over the argument list; [lvl] 0 is
    calcUnary/calcPrimary (233-267), 1..10 the binary levels (57-231), 11 calcTenary (39-55).
    [fuel] bounds the recursion depth; running out cannot happen from [calculate] (see the
    theorems), it is a model artefact. *)
Fixpoint calc (fuel lvl : nat) (c : list val) : res (val * list val) :=
  match fuel with
  | O => Panic
  | S f =>
    match lvl with
    | O => match c with
           | VStr (POp Add) :: t => calc f O t
           | VStr (POp Sub) :: t => do (v, r) <- calc f O t; do x <- to_i64 v; Ok (VI64 (i64 (- x)), r)
           | VStr PInv :: t => do (v, r) <- calc f O t; do x <- to_i64 v; Ok (VI64 (Z.lnot x), r)
           | VStr PNot :: t => do (v, r) <- calc f O t; do x <- to_bool v; Ok (VBool (negb x), r)
           | VStr PLp :: t => do (v, r) <- calc f 11 t;
                              match r with VStr PRp :: r' => Ok (v, r') | _ => Panic end
           | v :: t => Ok (v, t)
           | [] => Ok (VNil, [])
           end
    | 11%nat =>
        do (v1, r1) <- calc f 10 c;
        match r1 with
        | VStr PQuest :: r2 =>
            do (v2, r3) <- calc f 11 r2;
            do (v3, r4) <- calc f 11 (tl r3);
            do b <- to_bool v1; Ok (if b then v2 else v3, r4)
        | _ => Ok (v1, r1)
        end
    | S low =>
        do (v1, r1) <- calc f low c;
        match r1 with
        | VStr (POp o) :: r2 =>
            if Nat.eqb (level o) lvl
            then do (v2, r3) <- calc f lvl r2; do v <- apply_op o v1 v2; Ok (v, r3)
            else Ok (v1, r1)
        | _ => Ok (v1, r1)
        end
    end
  end.

(** calc.go:8-13.  Depth: at most 13 per argument. *)
Definition calculate (args : list val) : res val :=
  do (v, _) <- calc (13 * (length args + 1)) 11 args; Ok v.

(** ** Proofs *)
Definition operand (v : val) : Prop := match v with VStr _ | VNil => False | _ => True end.

Lemma calc_operand v t f : operand v -> calc (S f) 0 (v :: t) = Ok (v, t).
Proof. intros H. destruct v; try destruct H; reflexivity. Qed.

(** Descending to a level with an operand in front and an operator of a higher level (or nothing)
    behind. *)
Definition stops (lvl : nat) (t : list val) : Prop :=
  match t with
  | [] => True
  | VStr (POp o) :: _ => (lvl < level o)%nat
  | VStr PQuest :: _ => False
  | VStr PRp :: _ | VStr PColon :: _ => True
  | _ => False
  end.

Lemma calc_descend lvl : (lvl <= 10)%nat -> forall v t f, operand v -> stops lvl t -> (lvl < f)%nat ->
  calc f lvl (v :: t) = Ok (v, t).
Proof.
  induction lvl as [|lvl IH]; intros Hl v t f Hv Hs Hf.
  - destruct f as [|f]; [lia|]. apply calc_operand. exact Hv.
  - destruct f as [|f]; [lia|].
    assert (Hs' : stops lvl t).
    { destruct t as [|[| | |p|] t]; cbn in *; auto. destruct p; auto. lia. }
    assert (E : calc (S f) (S lvl) (v :: t) =
      do (v1, r1) <- calc f lvl (v :: t);
        match r1 with
        | VStr (POp o) :: r2 =>
            if Nat.eqb (level o) (S lvl)
            then do (v2, r3) <- calc f (S lvl) r2; do v <- apply_op o v1 v2; Ok (v, r3)
            else Ok (v1, r1)
        | _ => Ok (v1, r1)
        end).
    { do 10 (destruct lvl as [|lvl]; [reflexivity|]). lia. }
    rewrite E, IH by (auto; lia). cbn [bind].
    destruct t as [|[| | |p|] t]; cbn in Hs; try contradiction; try reflexivity.
    destruct p; try reflexivity. replace (Nat.eqb (level o) (S lvl)) with false; [reflexivity|].
    symmetry. apply Nat.eqb_neq. lia.
Qed.

Lemma calc_step_op lvl v o rest f v2 r :
  (1 <= lvl <= 10)%nat -> level o = lvl -> operand v -> (lvl < f)%nat ->
  calc (f - 1) lvl rest = Ok (v2, r) ->
  calc f lvl (v :: VStr (POp o) :: rest) = do x <- apply_op o v v2; Ok (x, r).
Proof.
  intros Hl Ho Hv Hf Hr. destruct f as [|f]; [lia|]. replace (S f - 1)%nat with f in Hr by lia.
  destruct lvl as [|lvl]; [lia|].
  assert (E : calc (S f) (S lvl) (v :: VStr (POp o) :: rest) =
      do (v1, r1) <- calc f lvl (v :: VStr (POp o) :: rest);
        match r1 with
        | VStr (POp o) :: r2 =>
            if Nat.eqb (level o) (S lvl)
            then do (v2, r3) <- calc f (S lvl) r2; do v <- apply_op o v1 v2; Ok (v, r3)
            else Ok (v1, r1)
        | _ => Ok (v1, r1)
        end).
  { do 10 (destruct lvl as [|lvl]; [reflexivity|]). lia. }
  rewrite E, calc_descend by (auto; try lia; cbn; lia). cbn [bind].
  rewrite Ho, Nat.eqb_refl, Hr. reflexivity.
Qed.

(** Climbing from the operators' level up to the top when nothing is left. *)
Lemma calc_climb l1 l2 c v f :
  (l1 <= l2 <= 10)%nat -> calc f l1 c = Ok (v, []) -> calc (f + (l2 - l1)) l2 c = Ok (v, []).
Proof.
  intros Hl H. remember (l2 - l1)%nat as d eqn:Ed. revert l2 Hl Ed.
  induction d as [|d IH]; intros l2 Hl Ed.
  - replace l2 with l1 by lia. rewrite Nat.add_0_r. exact H.
  - destruct l2 as [|l2]; [lia|]. replace (f + S d)%nat with (S (f + d)) by lia.
    assert (Hg : calc (f + d) l2 c = Ok (v, [])) by (apply IH; lia).
    do 10 (destruct l2 as [|l2]; [cbn [calc]; cbn [calc] in Hg; rewrite Hg; reflexivity|]). lia.
Qed.

Lemma calc_top f c v : calc f 10 c = Ok (v, []) -> calc (S f) 11 c = Ok (v, []).
Proof. intros H. cbn [calc]. rewrite H. reflexivity. Qed.

Lemma calc_mono f : forall lvl c r, calc f lvl c = Ok r -> forall g, (f <= g)%nat -> calc g lvl c = Ok r.
Proof.
  induction f as [|f IH]; intros lvl c r H g Hg; [discriminate|].
  destruct g as [|g]; [lia|]. assert (Hfg : (f <= g)%nat) by lia.
  cbn [calc] in *. destruct lvl as [|lvl].
  - destruct c as [|[| | |p|] t]; auto.
    destruct p as [o| | | | | |]; auto.
    + destruct o; try exact H.
      * eapply IH; eauto.
      * destruct (calc f 0 t) as [[x y]| |] eqn:Q; try discriminate. rewrite (IH _ _ _ Q g Hfg). exact H.
    + destruct (calc f 0 t) as [[x y]| |] eqn:Q; try discriminate. rewrite (IH _ _ _ Q g Hfg). exact H.
    + destruct (calc f 0 t) as [[x y]| |] eqn:Q; try discriminate. rewrite (IH _ _ _ Q g Hfg). exact H.
    + destruct (calc f 11 t) as [[x y]| |] eqn:Q; try discriminate. rewrite (IH _ _ _ Q g Hfg). exact H.
  - assert (HB : forall L low,
      (do (v1, r1) <- calc f low c;
        match r1 with
        | VStr (POp o) :: r2 =>
            if Nat.eqb (level o) L
            then do (v2, r3) <- calc f L r2; do v <- apply_op o v1 v2; Ok (v, r3)
            else Ok (v1, r1)
        | _ => Ok (v1, r1)
        end) = Ok r ->
      (do (v1, r1) <- calc g low c;
        match r1 with
        | VStr (POp o) :: r2 =>
            if Nat.eqb (level o) L
            then do (v2, r3) <- calc g L r2; do v <- apply_op o v1 v2; Ok (v, r3)
            else Ok (v1, r1)
        | _ => Ok (v1, r1)
        end) = Ok r).
    { intros L low E. destruct (calc f low c) as [[x y]| |] eqn:Q; try discriminate.
      rewrite (IH _ _ _ Q g Hfg). cbn [bind] in *. destruct y as [|[| | |p|] y]; auto.
      destruct p as [o| | | | | |]; auto. destruct (Nat.eqb (level o) L); auto.
      destruct (calc f L y) as [[x2 y2]| |] eqn:Q2; try discriminate.
      rewrite (IH _ _ _ Q2 g Hfg). exact E. }
    do 10 (destruct lvl as [|lvl]; [apply HB; exact H|]).
    destruct lvl as [|lvl]; [|apply HB; exact H].
    destruct (calc f 10 c) as [[x y]| |] eqn:Q; try discriminate. rewrite (IH _ _ _ Q g Hfg).
    cbn [bind] in *. destruct y as [|[| | |p|] y]; auto. destruct p; auto.
    destruct (calc f 11 y) as [[x2 y2]| |] eqn:Q2; try discriminate. rewrite (IH _ _ _ Q2 g Hfg).
    cbn [bind] in *.
    destruct (calc f 11 (tl y2)) as [[x3 y3]| |] eqn:Q3; try discriminate. rewrite (IH _ _ _ Q3 g Hfg).
    exact H.
Qed.

(** C37.  One operator between two operands is that operator's value: the only form templates
    use. *)
Theorem C37_calc_binary : forall o a b v, operand a -> operand b ->
  apply_op o a b = Ok v -> calculate [a; VStr (POp o); b] = Ok v.
Proof.
  intros o a b v Ha Hb Hv. unfold calculate. cbn [length]. change (13 * (3 + 1))%nat with 52%nat.
  assert (Hl : (1 <= level o <= 10)%nat) by (destruct o; cbn; lia).
  assert (H : calc 40 (level o) [a; VStr (POp o); b] = Ok (v, [])).
  { rewrite (calc_step_op (level o) a o [b] 40 b []); try lia; auto.
    - rewrite Hv. reflexivity.
    - apply calc_descend; try lia; auto. exact I. }
  pose proof (calc_climb (level o) 10 _ _ _ ltac:(lia) H) as H1.
  apply calc_top in H1. rewrite (calc_mono _ _ _ _ H1 52%nat) by lia. reflexivity.
Qed.

(** C37, the table of values in plain arithmetic.  An int64 result is the exact one modulo 2^64. *)
Definition is_int64 (z : Z) : Prop := - 2 ^ 63 <= z < 2 ^ 63.
Definition wraps_to (z r : Z) : Prop := is_int64 r /\ exists k, z = r + k * 2 ^ 64.

(** What [x o y] is expected to give for two integers. *)
Definition expected (o : bop) (x y : Z) (v : res val) : Prop :=
  match o with
  | Add => exists r, v = Ok (VI64 r) /\ wraps_to (x + y) r
  | Sub => exists r, v = Ok (VI64 r) /\ wraps_to (x - y) r
  | Mul => exists r, v = Ok (VI64 r) /\ wraps_to (x * y) r
  | Div => if Z.eq_dec y 0 then v = Panic
           else exists q m r, v = Ok (VI64 r) /\ wraps_to q r /\
                x = q * y + m /\ Z.abs m < Z.abs y /\ 0 <= m * x      (* truncation towards zero *)
  | Rem => if Z.eq_dec y 0 then v = Panic
           else exists q m, v = Ok (VI64 m) /\ x = q * y + m /\ Z.abs m < Z.abs y /\ 0 <= m * x
  | Shl => if Z_lt_dec y 0 then v = Panic
           else exists r, v = Ok (VI64 r) /\ wraps_to (x * 2 ^ y) r
  | Shr => if Z_lt_dec y 0 then v = Panic
           else exists r m, v = Ok (VI64 r) /\ x = r * 2 ^ y + m /\ 0 <= m < 2 ^ y
  | Lt => exists b, v = Ok (VBool b) /\ (b = true <-> x < y)
  | Gt => exists b, v = Ok (VBool b) /\ (b = true <-> x > y)
  | Le => exists b, v = Ok (VBool b) /\ (b = true <-> x <= y)
  | Ge => exists b, v = Ok (VBool b) /\ (b = true <-> x >= y)
  | Eq => exists b, v = Ok (VBool b) /\ (b = true <-> x = y)
  | Ne => exists b, v = Ok (VBool b) /\ (b = true <-> x <> y)
  | BAnd => exists r, v = Ok (VI64 r) /\ forall i, 0 <= i -> Z.testbit r i = Z.testbit x i && Z.testbit y i
  | BOr => exists r, v = Ok (VI64 r) /\ forall i, 0 <= i -> Z.testbit r i = Z.testbit x i || Z.testbit y i
  | BXor => exists r, v = Ok (VI64 r) /\ forall i, 0 <= i -> Z.testbit r i = xorb (Z.testbit x i) (Z.testbit y i)
  | LAnd => exists b, v = Ok (VBool b) /\ (b = true <-> x <> 0 /\ y <> 0)
  | LOr => exists b, v = Ok (VBool b) /\ (b = true <-> x <> 0 \/ y <> 0)
  end.

Lemma calc_climb_bad l1 l2 c f (r : res (val * list val)) :
  (l1 <= 10 /\ 11 <= l2)%nat -> r = Fail \/ r = Panic -> calc f l1 c = r -> l2 = 11%nat ->
  calc (f + (l2 - l1)) l2 c = r.
Proof.
  intros [Hl _] Hr H ->.
  assert (G : forall d l2, (l1 <= l2 <= 11)%nat -> d = (l2 - l1)%nat -> calc (f + d) l2 c = r).
  { induction d as [|d IH]; intros l2 Hl2 Ed.
    - replace l2 with l1 by lia. rewrite Nat.add_0_r. exact H.
    - destruct l2 as [|l2]; [lia|]. replace (f + S d)%nat with (S (f + d)) by lia.
      assert (Hg : calc (f + d) l2 c = r) by (apply IH; lia).
      do 11 (destruct l2 as [|l2]; [cbn [calc]; rewrite Hg; destruct Hr as [-> | ->]; reflexivity|]). lia. }
  apply G; lia.
Qed.

Theorem C37_calc_is_operator : forall o a b, operand a -> operand b ->
  calculate [a; VStr (POp o); b] = apply_op o a b.
Proof.
  intros o a b Ha Hb. unfold calculate. cbn [length]. change (13 * (3 + 1))%nat with 52%nat.
  assert (Hl : (1 <= level o <= 10)%nat) by (destruct o; cbn; lia).
  set (c := [a; VStr (POp o); b]).
  assert (H : calc (41 + level o) (level o) c = do x <- apply_op o a b; Ok (x, [])).
  { apply (calc_step_op (level o) a o [b] (41 + level o) b []); try lia; auto.
    apply calc_descend; try lia; auto. exact I. }
  assert (H1 : calc 52 11 c = do x <- apply_op o a b; Ok (x, [])).
  { destruct (apply_op o a b) as [v| |]; cbn [bind] in *.
    - pose proof (calc_climb (level o) 10 _ _ _ (conj (proj2 Hl) (le_n 10)) H) as H1.
      apply calc_top in H1. apply (calc_mono _ _ _ _ H1 52%nat). lia.
    - pose proof (calc_climb_bad (level o) 11 c _ Fail (conj (proj2 Hl) (le_n 11)) ltac:(auto) H eq_refl) as H1.
      replace (41 + level o + (11 - level o))%nat with 52%nat in H1 by lia. exact H1.
    - pose proof (calc_climb_bad (level o) 11 c _ Panic (conj (proj2 Hl) (le_n 11)) ltac:(auto) H eq_refl) as H1.
      replace (41 + level o + (11 - level o))%nat with 52%nat in H1 by lia. exact H1. }
  rewrite H1. destruct (apply_op o a b); reflexivity.
Qed.

Lemma i64_wraps z : wraps_to z (i64 z).
Proof.
  unfold wraps_to, is_int64, i64, sext. change (64 - 1) with 63.
  pose proof (Z.mod_pos_bound z (2 ^ 64) ltac:(lia)). pose proof (Z.div_mod z (2 ^ 64) ltac:(lia)).
  destruct (Z.ltb_spec (z mod 2 ^ 64) (2 ^ 63)); split; try lia.
  - exists (z / 2 ^ 64). lia.
  - exists (z / 2 ^ 64 + 1). lia.
Qed.
Lemma i64_id z : is_int64 z -> i64 z = z.
Proof.
  intros H. destruct (i64_wraps z) as [H1 [k Hk]]. unfold is_int64 in *. assert (k = 0) by lia. lia.
Qed.

(** C37.  Every operator between two integers gives its usual value. *)
Theorem C37_calc_operators : forall o x y, is_int64 x -> is_int64 y ->
  expected o x y (calculate [VI64 x; VStr (POp o); VI64 y]).
Proof.
  intros o x y Hx Hy. rewrite C37_calc_is_operator by exact I.
  assert (Q : y <> 0 -> x = Z.quot x y * y + Z.rem x y /\ Z.abs (Z.rem x y) < Z.abs y /\ 0 <= Z.rem x y * x).
  { intros H. pose proof (Z.quot_rem' x y). pose proof (Z.rem_bound_abs x y H).
    pose proof (Z.rem_sign_mul x y H). lia. }
  destruct o; cbn [expected apply_op to_i64 bind to_bool iface_eq].
  - eexists; split; [reflexivity|apply i64_wraps].
  - destruct (Z.eq_dec y 0) as [->|H]; [reflexivity|]. rewrite (proj2 (Z.eqb_neq y 0) H).
    destruct (Q H) as (A & B & C).
    exists (Z.quot x y), (Z.rem x y), (i64 (Z.quot x y)). repeat split; auto; apply i64_wraps.
  - destruct (Z.eq_dec y 0) as [->|H]; [reflexivity|]. rewrite (proj2 (Z.eqb_neq y 0) H).
    destruct (Q H) as (A & B & C).
    exists (Z.quot x y), (Z.rem x y). rewrite i64_id; [auto|]. unfold is_int64 in *. lia.
  - eexists; split; [reflexivity|apply i64_wraps].
  - eexists; split; [reflexivity|apply i64_wraps].
  - destruct (Z_lt_dec y 0) as [H|H]; [rewrite (proj2 (Z.ltb_lt y 0) H); reflexivity|].
    rewrite (proj2 (Z.ltb_ge y 0)) by lia. eexists; split; [reflexivity|].
    rewrite Z.shiftl_mul_pow2 by lia. apply i64_wraps.
  - destruct (Z_lt_dec y 0) as [H|H]; [rewrite (proj2 (Z.ltb_lt y 0) H); reflexivity|].
    rewrite (proj2 (Z.ltb_ge y 0)) by lia. exists (x / 2 ^ y), (x mod 2 ^ y).
    rewrite Z.shiftr_div_pow2 by lia. split; [reflexivity|].
    assert (0 < 2 ^ y) by (apply Z.pow_pos_nonneg; lia).
    pose proof (Z.div_mod x (2 ^ y) ltac:(lia)). pose proof (Z.mod_pos_bound x (2 ^ y) ltac:(lia)). lia.
  - eexists; split; [reflexivity|]. rewrite Z.ltb_lt. reflexivity.
  - eexists; split; [reflexivity|]. rewrite Z.ltb_lt. lia.
  - eexists; split; [reflexivity|]. rewrite Z.leb_le. reflexivity.
  - eexists; split; [reflexivity|]. rewrite Z.leb_le. lia.
  - eexists; split; [reflexivity|]. apply Z.eqb_eq.
  - eexists; split; [reflexivity|]. rewrite negb_true_iff. apply Z.eqb_neq.
  - eexists; split; [reflexivity|]. intros. apply Z.land_spec.
  - eexists; split; [reflexivity|]. intros. apply Z.lxor_spec.
  - eexists; split; [reflexivity|]. intros. apply Z.lor_spec.
  - destruct (Z.eqb_spec x 0); cbn [negb]; eexists; (split; [reflexivity|]).
    + split; [discriminate|tauto].
    + rewrite negb_true_iff, Z.eqb_neq. tauto.
  - destruct (Z.eqb_spec x 0); cbn [negb]; eexists; (split; [reflexivity|]).
    + rewrite negb_true_iff, Z.eqb_neq. tauto.
    + tauto.
Qed.

(** The cases met at the edges: the table's hypotheses are those of any two int64 values. *)
Example C37_operators_instance :
  is_int64 (- 2 ^ 63) /\ is_int64 (2 ^ 63 - 1) /\
  calculate [VI64 (2 ^ 63 - 1); VStr (POp Add); VI64 1] = Ok (VI64 (- 2 ^ 63)) /\
  calculate [VI64 (-7); VStr (POp Div); VI64 2] = Ok (VI64 (-3)) /\
  calculate [VI64 (-7); VStr (POp Shr); VI64 1] = Ok (VI64 (-4)) /\
  calculate [VI64 3; VStr (POp Le); VI64 3] = Ok (VBool true).
Proof. unfold is_int64. repeat split; try lia; vm_compute; reflexivity. Qed.

(** ** Expressions written with all their parentheses *)
Inductive uop := UPlus | UMinus | UInv | UNot.
Inductive cexpr :=
| CNum (z : Z) | CBool (b : bool)
| CUn (u : uop) (e : cexpr)
| CBin (o : bop) (e1 e2 : cexpr)
| CCond (c e1 e2 : cexpr).

Definition utok (u : uop) : val :=
  VStr match u with UPlus => POp Add | UMinus => POp Sub | UInv => PInv | UNot => PNot end.
(** How a template writes it. *)
Fixpoint cprint (e : cexpr) : list val :=
  match e with
  | CNum z => [VI64 z] | CBool b => [VBool b]
  | CUn u e => utok u :: cprint e
  | CBin o e1 e2 => VStr PLp :: cprint e1 ++ VStr (POp o) :: cprint e2 ++ [VStr PRp]
  | CCond c e1 e2 => VStr PLp :: cprint c ++ VStr PQuest :: cprint e1 ++ VStr PColon :: cprint e2 ++ [VStr PRp]
  end.
(** What it means: the tree's value, unary operators in plain arithmetic. *)
Definition uvalue (u : uop) (v : val) : res val :=
  match u, v with
  | UPlus, _ => Ok v
  | UMinus, (VI64 x | VInt x) => Ok (VI64 (i64 (- x)))
  | UInv, (VI64 x | VInt x) => Ok (VI64 (- x - 1))
  | UNot, VBool b => Ok (VBool (negb b))
  | UNot, (VI64 x | VInt x) => Ok (VBool (x =? 0))
  | _, _ => Panic
  end.
Fixpoint cvalue (e : cexpr) : res val :=
  match e with
  | CNum z => Ok (VI64 z) | CBool b => Ok (VBool b)
  | CUn u e => do v <- cvalue e; uvalue u v
  | CBin o e1 e2 => do v1 <- cvalue e1; do v2 <- cvalue e2; apply_op o v1 v2
  | CCond c e1 e2 => do v <- cvalue c; do v1 <- cvalue e1; do v2 <- cvalue e2;
                     do b <- to_bool v; Ok (if b then v1 else v2)
  end.

Lemma calc_binlevel f lvl c : (lvl < 10)%nat ->
  calc (S f) (S lvl) c =
      do (v1, r1) <- calc f lvl c;
        match r1 with
        | VStr (POp o) :: r2 =>
            if Nat.eqb (level o) (S lvl)
            then do (v2, r3) <- calc f (S lvl) r2; do v <- apply_op o v1 v2; Ok (v, r3)
            else Ok (v1, r1)
        | _ => Ok (v1, r1)
        end.
Proof. intros H. do 10 (destruct lvl as [|lvl]; [reflexivity|]). lia. Qed.

(** After a complete operand at level 0, followed by what does not continue it. *)
Lemma calc_rise f c v t : calc f 0 c = Ok (v, t) -> forall lvl, (lvl <= 10)%nat ->
  match t with VStr (POp o) :: _ => (lvl < level o)%nat | _ => True end ->
  calc (f + lvl) lvl c = Ok (v, t).
Proof.
  intros H. induction lvl as [|lvl IH]; intros Hl Ht; [rewrite Nat.add_0_r; exact H|].
  rewrite Nat.add_succ_r, calc_binlevel, IH by (try lia; destruct t as [|[| | |[]|] ?]; auto; lia).
  cbn [bind]. destruct t as [|[| | |[o| | | | | |]|] t]; try reflexivity.
  replace (Nat.eqb (level o) (S lvl)) with false; [reflexivity|]. symmetry. apply Nat.eqb_neq. lia.
Qed.

Lemma calc_top_any f c v t : calc f 10 c = Ok (v, t) ->
  match t with VStr PQuest :: _ => False | _ => True end -> calc (S f) 11 c = Ok (v, t).
Proof.
  intros H Ht. change (calc (S f) 11 c) with
    (do (v1, r1) <- calc f 10 c;
     match r1 with
     | VStr PQuest :: r2 =>
         do (v2, r3) <- calc f 11 r2; do (v3, r4) <- calc f 11 (tl r3);
         do b <- to_bool v1; Ok (if b then v2 else v3, r4)
     | _ => Ok (v1, r1)
     end).
  rewrite H. cbn [bind]. destruct t as [|[| | |[]|] t]; try reflexivity. destruct Ht.
Qed.

(** Climbing over a closed group. *)
Lemma calc_climb_close l1 c v t f : (l1 <= 10)%nat -> calc f l1 c = Ok (v, t) ->
  match t with VStr (POp _) :: _ => False | _ => True end -> calc (f + (10 - l1)) 10 c = Ok (v, t).
Proof.
  intros Hl H Ht.
  assert (G : forall d l2, (l1 <= l2 <= 10)%nat -> d = (l2 - l1)%nat -> calc (f + d) l2 c = Ok (v, t)).
  { induction d as [|d IH]; intros l2 Hl2 Ed.
    - replace l2 with l1 by lia. rewrite Nat.add_0_r. exact H.
    - destruct l2 as [|l2]; [lia|]. rewrite Nat.add_succ_r, calc_binlevel, IH by lia. cbn [bind].
      destruct t as [|[| | |[]|] t]; try reflexivity. destruct Ht. }
  apply G; lia.
Qed.

Lemma cprint_len e : (1 <= length (cprint e))%nat.
Proof. destruct e; cbn [cprint length]; lia. Qed.

Lemma calc_print e : forall v t, cvalue e = Ok v ->
  calc (13 * length (cprint e)) 0 (cprint e ++ t) = Ok (v, t).
Proof.
  induction e as [z|b|u e IH|o e1 IH1 e2 IH2|c IHc e1 IH1 e2 IH2]; intros v t Hv; cbn [cvalue] in Hv.
  - injection Hv as <-. reflexivity.
  - injection Hv as <-. reflexivity.
  - destruct (cvalue e) as [w| |]; try discriminate. cbn [bind] in Hv. specialize (IH w t eq_refl).
    cbn [cprint length app]. pose proof (cprint_len e).
    destruct (13 * S (length (cprint e)))%nat as [|g] eqn:Eg; [lia|].
    pose proof (calc_mono _ _ _ _ IH g ltac:(lia)) as IH'. clear IH.
    destruct u; cbn [utok calc]; rewrite IH'; cbn [bind];
      destruct w as [x|x|x|x|]; cbn [uvalue to_i64 to_bool bind] in *; try discriminate;
      injection Hv as <-; try reflexivity.
    + rewrite Bool.negb_involutive. reflexivity.
    + rewrite Bool.negb_involutive. reflexivity.
  - destruct (cvalue e1) as [v1| |]; try discriminate. cbn [bind] in Hv.
    destruct (cvalue e2) as [v2| |]; try discriminate. cbn [bind] in Hv.
    cbn [cprint app length]. rewrite <- !app_assoc. cbn [app]. rewrite <- app_assoc. cbn [app].
    rewrite !app_length. cbn [length]. rewrite app_length. cbn [length].
    pose proof (cprint_len e1) as L1. pose proof (cprint_len e2) as L2.
    specialize (IH1 v1 (VStr (POp o) :: cprint e2 ++ VStr PRp :: t) eq_refl).
    specialize (IH2 v2 (VStr PRp :: t) eq_refl).
    set (n1 := length (cprint e1)) in *. set (n2 := length (cprint e2)) in *.
    assert (Hl : (1 <= level o <= 10)%nat) by (destruct o; cbn; lia).
    assert (H2 : calc (13 * n2 + level o) (level o) (cprint e2 ++ VStr PRp :: t) = Ok (v2, VStr PRp :: t)).
    { apply calc_rise; [exact IH2|lia|exact I]. }
    assert (H1 : calc (13 * n1 + (level o - 1)) (level o - 1) (cprint e1 ++ VStr (POp o) :: cprint e2 ++ VStr PRp :: t)
                 = Ok (v1, VStr (POp o) :: cprint e2 ++ VStr PRp :: t)).
    { apply calc_rise; [exact IH1|lia|]. lia. }
    set (N := (13 * (n1 + n2) + level o)%nat).
    assert (H0 : calc (S N) (level o) (cprint e1 ++ VStr (POp o) :: cprint e2 ++ VStr PRp :: t) = Ok (v, VStr PRp :: t)).
    { remember (level o) as lv eqn:Elv. destruct lv as [|lv]; [lia|].
      rewrite calc_binlevel by lia. replace (S lv - 1)%nat with lv in H1 by lia.
      rewrite (calc_mono _ _ _ _ H1 N) by (unfold N; lia). cbn [bind].
      rewrite <- Elv, Nat.eqb_refl. rewrite (calc_mono _ _ _ _ H2 N) by (unfold N; lia). cbn [bind].
      rewrite Hv. reflexivity. }
    pose proof (calc_climb_close (level o) _ _ _ _ (proj2 Hl) H0 I) as H10.
    pose proof (calc_top_any _ _ _ _ H10 I) as H11.
    destruct (13 * S (n1 + S (n2 + 1)))%nat as [|g] eqn:Eg; [lia|].
    cbn [calc]. rewrite (calc_mono _ _ _ _ H11 g) by (unfold N; lia). reflexivity.
  - destruct (cvalue c) as [w| |]; try discriminate. cbn [bind] in Hv.
    destruct (cvalue e1) as [v1| |]; try discriminate. cbn [bind] in Hv.
    destruct (cvalue e2) as [v2| |]; try discriminate. cbn [bind] in Hv.
    destruct (to_bool w) as [b| |] eqn:Eb; try discriminate. cbn [bind] in Hv. injection Hv as <-.
    cbn [cprint app length]. repeat (rewrite <- ?app_assoc; cbn [app]).
    repeat (rewrite ?app_length; cbn [length]).
    pose proof (cprint_len c) as L0. pose proof (cprint_len e1) as L1. pose proof (cprint_len e2) as L2.
    specialize (IHc w (VStr PQuest :: cprint e1 ++ VStr PColon :: cprint e2 ++ VStr PRp :: t) eq_refl).
    specialize (IH1 v1 (VStr PColon :: cprint e2 ++ VStr PRp :: t) eq_refl).
    specialize (IH2 v2 (VStr PRp :: t) eq_refl).
    set (n0 := length (cprint c)) in *. set (n1 := length (cprint e1)) in *. set (n2 := length (cprint e2)) in *.
    pose proof (calc_rise _ _ _ _ IHc 10%nat ltac:(lia) I) as Hc.
    pose proof (calc_top_any _ _ _ _ (calc_rise _ _ _ _ IH1 10%nat ltac:(lia) I) I) as H1.
    pose proof (calc_top_any _ _ _ _ (calc_rise _ _ _ _ IH2 10%nat ltac:(lia) I) I) as H2.
    set (N := (13 * (n0 + n1 + n2) + 11)%nat).
    assert (H11 : calc (S N) 11 (cprint c ++ VStr PQuest :: cprint e1 ++ VStr PColon :: cprint e2 ++ VStr PRp :: t)
                  = Ok (if b then v1 else v2, VStr PRp :: t)).
    { change (calc (S N) 11 (cprint c ++ VStr PQuest :: cprint e1 ++ VStr PColon :: cprint e2 ++ VStr PRp :: t)) with
        (do (v1, r1) <- calc N 10 (cprint c ++ VStr PQuest :: cprint e1 ++ VStr PColon :: cprint e2 ++ VStr PRp :: t);
         match r1 with
         | VStr PQuest :: r2 =>
             do (v2, r3) <- calc N 11 r2; do (v3, r4) <- calc N 11 (tl r3);
             do b <- to_bool v1; Ok (if b then v2 else v3, r4)
         | _ => Ok (v1, r1)
         end).
      rewrite (calc_mono _ _ _ _ Hc N) by (unfold N; lia). cbn [bind].
      rewrite (calc_mono _ _ _ _ H1 N) by (unfold N; lia). cbn [bind tl].
      rewrite (calc_mono _ _ _ _ H2 N) by (unfold N; lia). cbn [bind]. rewrite Eb. reflexivity. }
    match goal with |- calc ?X _ _ = _ => destruct X as [|g] eqn:Eg; [lia|] end.
    cbn [calc]. rewrite (calc_mono _ _ _ _ H11 g) by (unfold N; lia). reflexivity.
Qed.

(** C37.  With every operation parenthesised, an expression of any depth has the value of its tree,
    whatever operators it mixes. *)
Theorem C37_calc_parenthesized : forall e v, cvalue e = Ok v -> calculate (cprint e) = Ok v.
Proof.
  intros e v Hv. pose proof (calc_print e v [] Hv) as H. rewrite app_nil_r in H.
  pose proof (calc_top_any _ _ _ _ (calc_rise _ _ _ _ H 10%nat ltac:(lia) I) I) as H1.
  unfold calculate. rewrite (calc_mono _ _ _ _ H1) by lia. reflexivity.
Qed.

Example C37_parenthesized_instance :
  let e := CCond (CBin Gt (CBin Sub (CBin Sub (CNum 10) (CNum 3)) (CNum 2)) (CNum 4))
                 (CBin Mul (CNum 2) (CBin Add (CNum 3) (CUn UMinus (CNum 1)))) (CUn UInv (CNum 0)) in
  cvalue e = Ok (VI64 4) /\ calculate (cprint e) = Ok (VI64 4).
Proof. split; vm_compute; reflexivity. Qed.

(** The instances templates rely on, in plain arithmetic. *)
Theorem C37_calc_sizes : forall n m, 0 <= n < 2 ^ 62 -> 0 <= m < 2 ^ 62 ->
  calculate [VI64 n; VStr (POp Div); VInt 8] = Ok (VI64 (n / 8)) /\
  calculate [VI64 n; VStr (POp Add); VI64 m] = Ok (VI64 (n + m)) /\
  (n <= 9 -> calculate [VI64 n; VStr (POp Mul); VInt 7] = Ok (VI64 (7 * n))).
Proof.
  assert (F : forall z, 0 <= z < 2 ^ 63 -> i64 z = z).
  { intros z Hz. unfold i64, sext. change (64 - 1) with 63. rewrite Z.mod_small by lia.
    destruct (z <? 2 ^ 63) eqn:E; [reflexivity|]. apply Z.ltb_ge in E. lia. }
  intros n m Hn Hm. split; [|split; [|intros H9]];
    (apply C37_calc_binary; [exact I|exact I|]); cbn [apply_op to_i64 bind].
  - change (8 =? 0) with false. cbv iota. rewrite Z.quot_div_nonneg by lia. rewrite F; [reflexivity|].
    split; [apply Z.div_pos; lia|]. apply Z.div_lt_upper_bound; lia.
  - rewrite F by lia. reflexivity.
  - rewrite F by lia. f_equal. f_equal. lia.
Qed.

(** C37.  A chain of one level's operators is grouped to the right, whatever the operators. *)
Fixpoint chain (a : Z) (l : list (bop * Z)) : list val :=
  match l with
  | [] => [VI64 a]
  | (o, b) :: t => VI64 a :: VStr (POp o) :: chain b t
  end.
Fixpoint right_value (a : Z) (l : list (bop * Z)) : res val :=
  match l with
  | [] => Ok (VI64 a)
  | (o, b) :: t => do v <- right_value b t; apply_op o (VI64 a) v
  end.

Lemma chain_calc lvl : (1 <= lvl <= 10)%nat -> forall l a v,
  Forall (fun ob => level (fst ob) = lvl) l -> right_value a l = Ok v ->
  calc (11 + length (chain a l)) lvl (chain a l) = Ok (v, []).
Proof.
  intros Hl. induction l as [|[o b] t IH]; intros a v HF Hv; cbn [chain right_value] in *.
  - injection Hv as <-. apply calc_descend; [lia|exact I|exact I|cbn [length]; lia].
  - inversion HF as [|? ? H1 H2]; subst. cbn [fst] in *.
    destruct (right_value b t) as [w| |] eqn:Ew; try discriminate. cbn [bind] in Hv.
    specialize (IH b w H2 Ew).
    assert (Hr : calc (11 + length (VI64 a :: VStr (POp o) :: chain b t) - 1) (level o) (chain b t) = Ok (w, [])).
    { apply (calc_mono _ _ _ _ IH). cbn [length]. lia. }
    assert (Hf : (level o < 11 + length (VI64 a :: VStr (POp o) :: chain b t))%nat) by (cbn [length]; lia).
    pose proof (calc_step_op (level o) (VI64 a) o (chain b t) _ w [] Hl eq_refl I Hf Hr) as E.
    rewrite Hv in E. exact E.
Qed.

Theorem C37_calc_right_assoc : forall lvl a l v,
  (1 <= lvl <= 10)%nat -> Forall (fun ob => level (fst ob) = lvl) l ->
  right_value a l = Ok v -> calculate (chain a l) = Ok v.
Proof.
  intros lvl a l v Hl HF Hv.
  pose proof (chain_calc lvl Hl l a v HF Hv) as H.
  pose proof (calc_climb lvl 10 _ _ _ (conj (proj2 Hl) (le_n 10)) H) as H1.
  apply calc_top in H1. unfold calculate.
  assert (E : calc (13 * (length (chain a l) + 1)) 11 (chain a l) = Ok (v, [])).
  { apply (calc_mono _ _ _ _ H1).
    assert (1 <= length (chain a l))%nat by (destruct l as [|[? ?] ?]; cbn [chain length]; lia). lia. }
  rewrite E. reflexivity.
Qed.

(** So longer chains of - or / do not have their usual value. *)
Theorem C37_calc_usual_value_refuted :
  calculate (chain 10 [(Sub, 3); (Sub, 2)]) = Ok (VI64 9) /\ 10 - 3 - 2 <> 9.
Proof. split; [vm_compute; reflexivity|lia]. Qed.

(** And an int64 size is never "==" a literal, which is an int. *)
Theorem C37_calc_equal_literal_refuted : forall n,
  calculate [VI64 n; VStr (POp Eq); VInt n] = Ok (VBool false).
Proof. intros n. apply C37_calc_binary; [exact I|exact I|reflexivity]. Qed.

Example C37_instance :
  calculate [VI64 96; VStr (POp Div); VInt 8] = Ok (VI64 12) /\
  calculate (chain 1 [(Add, 2); (Sub, 3); (Add, 4)]) = Ok (VI64 (-4)) /\
  Forall (fun ob : bop * Z => level (fst ob) = 2%nat) [(Add, 2); (Sub, 3); (Add, 4)].
Proof.
  split; [vm_compute; reflexivity|]. split; [vm_compute; reflexivity|]. repeat constructor.
Qed.

Print Assumptions C37_calc_binary.
Print Assumptions C37_calc_sizes.
Print Assumptions C37_calc_right_assoc.

(** C37.  Between two conditions: "&&", "||", "==" and "!=" have their usual values, the other operators crash. *)
Theorem C37_calc_conditions : forall o x y,
  let v := calculate [VBool x; VStr (POp o); VBool y] in
  match o with
  | LAnd => exists b, v = Ok (VBool b) /\ (b = true <-> x = true /\ y = true)
  | LOr => exists b, v = Ok (VBool b) /\ (b = true <-> x = true \/ y = true)
  | Eq => exists b, v = Ok (VBool b) /\ (b = true <-> x = y)
  | Ne => exists b, v = Ok (VBool b) /\ (b = true <-> x <> y)
  | _ => v = Panic
  end.
Proof.
  intros o x y v. unfold v. rewrite C37_calc_is_operator by exact I.
  destruct o, x, y; cbn; try reflexivity; eexists; (split; [reflexivity|]); intuition congruence.
Qed.

Print Assumptions C37_calc_is_operator.
Print Assumptions C37_calc_conditions.
Print Assumptions C37_calc_operators.
Print Assumptions C37_calc_parenthesized.
