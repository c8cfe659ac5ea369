(** Custom getters and setters from the schema's text to the target's.

    Models ExprVisitor, compiler/proto_visitor.go:1275-1945, with the constants of literal_visitor.go:25-119.
    Simplifications: string constants have no counterpart in [expr] (see ExprModel.v), nor have inf and nan
    (C65_inf_refuted): both give [None] here, as an error does.  [EFloat] carries the text of its magnitude, so the
    target's GenerateFloatLiteral is applied here. *)
From Coq Require Import ZArith Lia Bool String Ascii List.
Import ListNotations.
From Verif Require Import Base Literals PropsLit FloatLit FloatShort PropsFloat FrontModel ExprModel.
From Verif Require ExprSpec ExprProofs.
From Verif Require Import LexModel Syntax Parser PropsParse.
Open Scope string_scope.
Open Scope Z_scope.
Open Scope list_scope.

(** ** Model *)

(** BasicType.TypeTypeID, definition/type.go. *)
Definition bty_of (b : a_basic) : bty :=
  match b with
  | Bool_ => TyBool | Int8 => TyI8 | Int16 => TyI16 | Int32 => TyI32 | Int64 => TyI64
  | Uint8 => TyU8 | Uint16 => TyU16 | Uint32 => TyU32 | Uint64 => TyU64 | Float32 => TyF32 | Float64 => TyF64
  end.
Definition minus (s : option sign) : bool := match s with Some Minus => true | _ => false end.
(** VisitExprConstant, 1307-1338. *)
Definition visit_const (g : olang) (c : constant) : option expr :=
  match c with
  | CInt s t => option_map EInt (visit_int (minus s) t)
  | CFloat s t => match visit_float t with
                  | Some (FFin M) => Some (EFloat (minus s) (emit_float g false (FFin M)))
                  | _ => None
                  end
  | CBool t => Some (EBool (if list_eq_dec ascii_dec t (cs "true") then true else false))
  | CStr _ => None
  end.
(** 1289-1305 (value), 1340-1342 (parentheses), 1381-1420 (unary), 1422-1454 (cast), 1344-1379 and 1456-1896
    (binary), 1898-1945 (conditional). *)
Fixpoint visit_expr (g : olang) (e : pexpr) : option expr :=
  match e with
  | PValue => Some EValue
  | PConst c => visit_const g c
  | PParens a => visit_expr g a
  | PUn o a => match visit_expr g a with Some x => Some (EUn o x) | None => None end
  | PCast b a => match visit_expr g a with Some x => Some (ECast (bty_of b) x) | None => None end
  | PBin o a b => match visit_expr g a, visit_expr g b with Some x, Some y => Some (EBin o x y) | _, _ => None end
  | PTern c a b =>
      match visit_expr g c, visit_expr g a, visit_expr g b with Some x, Some y, Some z => Some (ETern x y z) | _, _, _ => None end
  end.
(** From the text of an expression in the schema - the method's type is [b] - to the text in the generated code. *)
Definition generated (g : olang) (dn : bool) (b : a_basic) (field : option chars) (src : chars) : option chars :=
  match lex src with
  | Some ts =>
      match read_expr ts with
      | Some e => match visit_expr g e with Some x => print g dn (bty_of b) field x | None => None end
      | None => None
      end
  | None => None
  end.

(** ** Specification *)

(** The type of an expression, where the schema settles it. *)
Inductive settled (b : a_basic) : pexpr -> a_basic -> Prop :=
| st_value : settled b PValue b
| st_bool t : settled b (PConst (CBool t)) Bool_
| st_cast t e : settled b (PCast t e) t
| st_parens e t : settled b e t -> settled b (PParens e) t
| st_if c x y t : settled b x t -> settled b y t -> settled b (PTern c x y) t.
Fixpoint ifs_settled (b : a_basic) (e : pexpr) : Prop :=
  match e with
  | PParens a | PUn _ a | PCast _ a => ifs_settled b a
  | PBin _ x y => ifs_settled b x /\ ifs_settled b y
  | PTern c x y => ifs_settled b c /\ ifs_settled b x /\ ifs_settled b y /\ exists t, settled b (PTern c x y) t
  | _ => True
  end.

(** A numeral of the target, with a minus sign before it or not. *)
Definition signed (neg : bool) (n : ExprSpec.node) : ExprSpec.node := if neg then ExprSpec.NUn (cs "-") n else n.

(** [means g b field e n]: the tree [n] of the language [g] says what the schema's expression [e] says. *)
Inductive means (g : olang) (b : a_basic) (field : option chars) : pexpr -> ExprSpec.node -> Prop :=
| mn_value : means g b field PValue (ExprSpec.value_node g field)
| mn_int s t v lit : int_token t v -> reads g lit = Some (if minus s then - v else v) ->
    means g b field (PConst (CInt s t)) (ExprSpec.num_node lit)
| mn_float s t M ds : reads_double t M -> reads_double ds M ->
    means g b field (PConst (CFloat s t)) (signed (minus s) (ExprSpec.NNum ds))
| mn_true : means g b field (PConst (CBool (cs "true"))) (ExprSpec.NId (match g with OPy => cs "True" | _ => cs "true" end))
| mn_false : means g b field (PConst (CBool (cs "false"))) (ExprSpec.NId (match g with OPy => cs "False" | _ => cs "false" end))
| mn_parens e n : means g b field e n -> means g b field (PParens e) n
| mn_un o e n : (g = OKt -> o <> UBnot) -> means g b field e n ->
    means g b field (PUn o e) (ExprSpec.NUn (cs (ExprSpec.un_sym g o)) n)
| mn_inv e n : g = OKt -> means g b field e n -> means g b field (PUn UBnot e) (ExprSpec.call_method n "inv" [])
| mn_bin o e1 e2 n1 n2 : o <> OPow -> (g = OKt -> o <> OShl /\ o <> OShr) -> means g b field e1 n1 -> means g b field e2 n2 ->
    means g b field (PBin o e1 e2) (ExprSpec.NBin (cs (ExprSpec.bin_sym g o)) n1 n2)
| mn_shift o e1 e2 n1 n2 : g = OKt -> o = OShl \/ o = OShr -> means g b field e1 n1 -> means g b field e2 n2 ->
    means g b field (PBin o e1 e2) (ExprSpec.NBin (cs (ExprSpec.bin_sym g o)) n1 (ExprSpec.call_method n2 "toInt" []))
| mn_pow e1 e2 n1 n2 : means g b field e1 n1 -> means g b field e2 n2 -> means g b field (PBin OPow e1 e2) (ExprSpec.power g n1 n2)
| mn_cast t e n : means g b field e n -> means g b field (PCast t e) (ExprSpec.convert g (bty_of t) n)
| mn_if e1 e2 e3 n1 n2 n3 : g <> OGo -> means g b field e1 n1 -> means g b field e2 n2 -> means g b field e3 n3 ->
    means g b field (PTern e1 e2 e3) (ExprSpec.NIf None n1 n2 n3)
| mn_goif e1 e2 e3 n1 n2 n3 t : g = OGo -> settled b (PTern e1 e2 e3) t ->
    means g b field e1 n1 -> means g b field e2 n2 -> means g b field e3 n3 ->
    means g b field (PTern e1 e2 e3) (ExprSpec.NIf (Some (ExprSpec.name_of g (bty_of t))) n1 n2 n3).

(** The expressions of the schema the generators handle.  A negative constant: *)
Fixpoint negative (e : pexpr) : Prop :=
  match e with
  | PConst (CInt s t) => s = Some Minus /\ ~ int_token t 0
  | PConst (CFloat s _) => s = Some Minus
  | PParens a => negative a
  | _ => False
  end.
Fixpoint compound (e : pexpr) : Prop :=
  match e with PUn _ _ | PBin _ _ _ | PTern _ _ _ => True | PParens a => compound a | _ => False end.
Fixpoint handled (g : olang) (dn : bool) (e : pexpr) : Prop :=
  match e with
  | PValue => True
  | PConst (CInt s t) => exists v, int_token t v /\ v < 2 ^ 63 /\ (s = Some Minus -> hex_token t -> dn = false -> v = 0)
  | PConst (CFloat _ t) => exists M, reads_double t M /\ (six g -> exists k, 0 <= k /\ rounds k (10 ^ 6) (Some M))
  | PConst (CBool t) => t = cs "true" \/ t = cs "false"
  | PConst (CStr _) => False
  | PParens a => handled g dn a
  | PUn o a => handled g dn a /\ (o = USub -> negative a -> g = OPy) /\ (o = UNot -> g = OPy -> compound a)
  | PBin o x y => handled g dn x /\ handled g dn y /\ (o = OPow -> g = OPy \/ g = OCjs \/ g = OEsm -> ~ negative x)
  | PCast _ a => handled g dn a
  | PTern c x y => handled g dn c /\ handled g dn x /\ handled g dn y
  end.

(** ** Proofs: numbers *)

Lemma dec_num c : is_dec c = true -> ExprSpec.is_num c = true.
Proof.
  unfold is_dec, digit_value, ExprSpec.is_num, ExprSpec.code. set (n := nat_of_ascii c).
  destruct ((48 <=? Z.of_nat n) && (Z.of_nat n <=? 57)) eqn:E1; [intros _; apply andb_true_iff; rewrite !Nat.leb_le; lia|].
  destruct ((97 <=? Z.of_nat n) && (Z.of_nat n <=? 102)) eqn:E2; [intros H; apply Z.ltb_lt in H; lia|].
  destruct ((65 <=? Z.of_nat n) && (Z.of_nat n <=? 70)) eqn:E3; [intros H; apply Z.ltb_lt in H; lia|discriminate].
Qed.
Definition plain (c : ascii) : bool := ExprSpec.is_word c || Ascii.eqb c ".".
Lemma last_any (l : chars) : forall c d d', last (c :: l) d = last (c :: l) d'.
Proof. induction l as [|c' l IH]; intros c d d'; [reflexivity|]. exact (IH c' d d'). Qed.
Lemma run_plain l : forall p r, forallb plain l = true ->
  ExprSpec.num_run p (l ++ r) = (let (a, b) := ExprSpec.num_run (last (p :: l) p) r in (l ++ a, b)).
Proof.
  induction l as [|c l IH]; intros p r H.
  - cbn [app last]. now destruct (ExprSpec.num_run p r).
  - cbn [forallb] in H. apply andb_true_iff in H as [H1 H2]. cbn [app ExprSpec.num_run]. unfold plain in H1. rewrite H1. cbn [orb].
    rewrite (IH c r H2).
    change (last (p :: c :: l) p) with (last (c :: l) p). rewrite (last_any l c p c). now destruct (ExprSpec.num_run _ r).
Qed.
Lemma plain_dec a : forallb is_dec a = true -> forallb plain a = true.
Proof.
  intros H. apply forallb_forall. intros c I. rewrite forallb_forall in H. specialize (H c I). apply dec_num in H.
  unfold plain, ExprSpec.is_word. now rewrite H.
Qed.
Lemma exponent_run x e : exponent_says x e -> forall p, ExprSpec.num_run p x = (x, []).
Proof.
  intros X p.
  assert (N : forall p ds v, numeral 10 ds v -> ExprSpec.num_run p ds = (ds, [])).
  { intros q ds v N. pose proof (run_plain ds q [] (plain_dec ds (numeral_dec _ _ N))) as R. rewrite app_nil_r in R.
    cbn [ExprSpec.num_run] in R. now rewrite app_nil_r in R. }
  destruct X as [|c ds v C Nm|c ds v C Nm|c ds v C Nm]; [reflexivity|..]; cbn [ExprSpec.num_run]; destruct C as [-> | ->]; cbn;
    now rewrite (N _ _ _ Nm).
Qed.
Lemma fraction_digits t m e : fraction_says t m e -> (exists c r, t = c :: r /\ is_dec c = true) -> ExprSpec.digits_ok t.
Proof.
  intros F (c & r & E & D). unfold ExprSpec.digits_ok. rewrite E. split; [now apply dec_num|].
  assert (P : exists l x ex, r = l ++ x /\ forallb plain l = true /\ exponent_says x ex).
  { destruct F as [a b x m0 e0 N X|a x m0 e0 N X]; (destruct a as [|c' a]; [cbn [app] in E|cbn [app] in E; injection E as _ <-]).
    - injection E as <- _. discriminate.
    - exists (a ++ "."%char :: b), x, e0. split; [now rewrite <- app_assoc|]. split; [|exact X].
      apply numeral_dec in N. cbn [app forallb] in N. apply andb_true_iff in N as [_ N]. rewrite forallb_app in N. apply andb_true_iff in N as [Na Nb].
      rewrite forallb_app, (plain_dec a Na). cbn [forallb]. now rewrite (plain_dec b Nb).
    - exfalso. eapply numeral_nonempty; eauto.
    - exists a, x, e0. split; [reflexivity|]. split; [|exact X]. apply numeral_dec in N. cbn [forallb] in N.
      apply andb_true_iff in N as [_ N]. now apply plain_dec. }
  destruct P as (l & x & ex & -> & Pl & X). rewrite (run_plain l c x Pl), (exponent_run _ _ X). reflexivity.
Qed.
Lemma dec_dchar d : 0 <= d < 10 -> is_dec (dchar d) = true.
Proof. intros H. unfold is_dec. rewrite digit_dchar by lia. apply Z.ltb_lt. lia. Qed.
Lemma fmt_head_dec n : 0 <= n -> exists c r, fmt_uint 10 n = c :: r /\ is_dec c = true.
Proof.
  intros N. pose proof (fmt_nonempty 10 n ltac:(lia) N) as NE. pose proof (read_numeral _ _ NE (fmt_read 10 n ltac:(lia) N)) as Nm.
  apply numeral_dec in Nm. destruct (fmt_uint 10 n) as [|c r]; [contradiction|]. exists c, r. split; [reflexivity|].
  cbn [forallb] in Nm. now apply andb_true_iff in Nm as [Nm _].
Qed.
Lemma g_text_head M : short M -> 0 <= M < huge -> exists c r, g_text M = c :: r /\ is_dec c = true.
Proof.
  intros SH MB. unfold g_text. destruct (Z.eqb_spec M 0); [exists "0"%char, []; split; reflexivity|].
  destruct (short_digits M) as [c e] eqn:Sd. destruct (short_digits_stand M c e SH ltac:(lia) Sd) as [_ C].
  destruct (fmt_head_dec c ltac:(lia)) as (d & r & E & D). rewrite E. cbv zeta.
  match goal with |- context [if ?b then d :: _ else _] => destruct b end; [eexists _, _; split; [reflexivity|exact D]|].
  match goal with |- context [if ?b then "0"%char :: _ else _] => destruct b eqn:E1 end; [eexists _, _; split; [reflexivity|reflexivity]|].
  match goal with |- context [if ?b then _ else _] => destruct b end; [eexists _, _; split; [reflexivity|exact D]|].
  apply Z.leb_gt in E1. destruct (Z.to_nat (Z.of_nat (List.length (d :: r)) + e)) as [|k] eqn:Ek; [lia|].
  eexists _, _; split; [reflexivity|exact D].
Qed.
Lemma emit_float_digits g t M : visit_float t = Some (FFin M) -> ExprSpec.digits_ok (emit_float g false (FFin M)).
Proof.
  intros V. destruct (visit_float_short t M V) as [SH MB].
  destruct (g_text_says M SH MB) as (m & e & F & _). destruct (g_text_head M SH MB) as (c & r & E & D).
  assert (S6 : ExprSpec.digits_ok (fixed6 M)).
  { apply (fraction_digits _ _ _ (fixed6_says M (proj1 MB))). unfold fixed6.
    destruct (fmt_head_dec (rhe (M * 10 ^ 6) unit_ / 10 ^ 6)) as (c1 & r1 & E1 & D1).
    - apply Z.div_pos; [|lia]. apply rhe_nonneg; [lia|apply unit_pos].
    - rewrite E1. eexists _, _; split; [reflexivity|exact D1]. }
  destruct g; try exact S6; unfold emit_float.
  - destruct (mentions (g_text M) "." || mentions (g_text M) "e" || mentions (g_text M) "E") eqn:X.
    + apply (fraction_digits _ _ _ F). eauto.
    + destruct (add_point _ _ _ F X) as (m' & e' & F' & _). apply (fraction_digits _ _ _ F'). rewrite E. eexists _, _; split; [reflexivity|exact D].
  - apply (fraction_digits _ _ _ F). eauto.
Qed.
Lemma reads_visit t M : reads_double t M -> visit_float t = Some (FFin M).
Proof.
  intros (m & e & F & R). destruct (C65_source t m e F) as (x & R' & ->). now rewrite (rounds_unique _ _ _ _ R' R).
Qed.

(** ** Proofs: expressions *)

Lemma basic_inj a b : bty_of a = bty_of b -> a = b.
Proof. destruct a, b; cbn; congruence. Qed.

(** What is handled is visited, and the generators handle it. *)
Lemma visit_handled g dn e : handled g dn e -> exists x, visit_expr g e = Some x /\ ExprSpec.good g dn x /\
  (ExprSpec.negative x = true -> negative e) /\ (compound e -> ExprSpec.enclosed x = true).
Proof.
  induction e as [|c|a IHa|o a IHa|b a IHa|o x IHx y IHy|c IHc x IHx y IHy]; intros H.
  - exists EValue. cbn. repeat split; auto; discriminate.
  - destruct c as [s t|s t|t|t]; cbn [handled] in H.
    + destruct H as (v & T & L & Hx). cbn [visit_expr visit_const]. rewrite (visit_int_token (minus s) t v T L). cbn [option_map].
      eexists. split; [reflexivity|]. pose proof (int_token_nonneg t v T) as V0.
      cbn [ExprSpec.good ExprSpec.negative ExprSpec.enclosed negative compound i_val i_uns i_base].
      split; [|split; [|contradiction]].
      * split; [reflexivity|]. split; [destruct (minus s); lia|]. intros Neg.
        destruct s as [[]|]; cbn [minus] in Neg; try lia. destruct (token_base_cases t v T) as [[-> Hh]|[-> _]]; [|auto].
        destruct dn; [auto|]. specialize (Hx eq_refl Hh eq_refl). lia.
      * intros Neg. apply Z.ltb_lt in Neg. destruct s as [[]|]; cbn [minus] in Neg; try lia. split; [reflexivity|]. intros T0.
        apply parse_int_token in T, T0. rewrite T in T0. change (0 <? 2 ^ 63) with true in T0. destruct (Z.ltb_spec v (2 ^ 63)); [|lia]. injection T0 as T0. lia.
    + destruct H as (M & R & _). cbn [visit_expr visit_const]. rewrite (reads_visit t M R). eexists. split; [reflexivity|].
      cbn [ExprSpec.good ExprSpec.negative ExprSpec.enclosed negative compound]. split; [eapply emit_float_digits, reads_visit; eauto|].
      split; [|contradiction]. destruct s as [[]|]; cbn [minus]; auto; discriminate.
    + contradiction.
    + cbn [visit_expr visit_const]. eexists. split; [reflexivity|]. cbn. repeat split; auto; discriminate.
  - cbn [handled visit_expr negative compound] in *. auto.
  - destruct H as (Ha & Hn & Hc). destruct (IHa Ha) as (xa & E & G & N & C). cbn [visit_expr]. rewrite E. eexists. split; [reflexivity|].
    cbn [ExprSpec.good ExprSpec.negative ExprSpec.enclosed]. split; [|split; [discriminate|auto]]. split; [exact G|]. split; auto.
  - cbn [handled] in H. destruct (IHa H) as (xa & E & G & N & C). cbn [visit_expr]. rewrite E. eexists. split; [reflexivity|].
    cbn [ExprSpec.good ExprSpec.negative ExprSpec.enclosed compound]. split; [exact G|]. split; [discriminate|contradiction].
  - destruct H as (Hx & Hy & Hp). destruct (IHx Hx) as (x1 & E1 & G1 & N1 & _), (IHy Hy) as (x2 & E2 & G2 & _ & _).
    cbn [visit_expr]. rewrite E1, E2. eexists. split; [reflexivity|]. cbn [ExprSpec.good ExprSpec.negative ExprSpec.enclosed].
    split; [|split; [discriminate|auto]]. split; [exact G1|]. split; [exact G2|]. intros O L.
    destruct (ExprSpec.negative x1) eqn:Nx; [|reflexivity]. exfalso. apply (Hp O); [|now apply N1].
    destruct L as [->|L]; [auto|]. destruct g; cbn in L; try discriminate; auto.
  - destruct H as (Hc & Hx & Hy). destruct (IHc Hc) as (x0 & E0 & G0 & _), (IHx Hx) as (x1 & E1 & G1 & _), (IHy Hy) as (x2 & E2 & G2 & _).
    cbn [visit_expr]. rewrite E0, E1, E2. eexists. split; [reflexivity|]. cbn [ExprSpec.good ExprSpec.negative ExprSpec.enclosed].
    split; [auto|]. split; [discriminate|auto].
Qed.

Lemma typed_settled g dn b e : handled g dn e -> forall x, visit_expr g e = Some x ->
  forall t, ExprSpec.typed (bty_of b) x t <-> exists u, settled b e u /\ bty_of u = t.
Proof.
  induction e as [|c|a IHa|o a IHa|b' a IHa|o y IHy z IHz|c IHc y IHy z IHz]; intros H x V t; cbn [visit_expr] in V.
  - injection V as <-. split.
    + intros T. inversion T; subst. exists b. split; [constructor|reflexivity].
    + intros (u & S & <-). inversion S; subst. constructor.
  - destruct c as [s tx|s tx|tx|tx]; cbn [visit_const] in V.
    + destruct (visit_int (minus s) tx); [|discriminate]. injection V as <-. split; [intros T; inversion T|intros (u & S & _); inversion S].
    + destruct (visit_float tx) as [[]|]; try discriminate. injection V as <-. split; [intros T; inversion T|intros (u & S & _); inversion S].
    + discriminate.
    + injection V as <-. split.
      * intros T. inversion T; subst. exists Bool_. split; [constructor|reflexivity].
      * intros (u & S & <-). inversion S; subst. constructor.
  - rewrite (IHa H x V t). split; intros (u & S & E); exists u; (split; [|exact E]); [now constructor|now inversion S].
  - destruct (visit_expr g a); [|discriminate]. injection V as <-. split; [intros T; inversion T|intros (u & S & _); inversion S].
  - destruct (visit_expr g a); [|discriminate]. injection V as <-. split.
    + intros T. inversion T; subst. exists b'. split; [constructor|reflexivity].
    + intros (u & S & <-). inversion S; subst. constructor.
  - destruct (visit_expr g y); [|discriminate]. destruct (visit_expr g z); [|discriminate]. injection V as <-.
    split; [intros T; inversion T|intros (u & S & _); inversion S].
  - destruct H as (_ & Hy & Hz). destruct (visit_expr g c); [|discriminate]. destruct (visit_expr g y) as [y'|]; [|discriminate].
    destruct (visit_expr g z) as [z'|]; [|discriminate]. injection V as <-. split.
    + intros T. inversion T as [| | |c' a' b'' t' T1 T2]; subst. apply (IHy Hy y' eq_refl) in T1 as (u1 & S1 & E1).
      apply (IHz Hz z' eq_refl) in T2 as (u2 & S2 & E2). assert (u1 = u2) by (apply basic_inj; congruence). subst u2.
      exists u1. split; [now constructor|exact E1].
    + intros (u & S & E). inversion S as [| | | |c' y0 z0 u' S1 S2]; subst. constructor.
      * apply (IHy Hy y' eq_refl). eauto.
      * apply (IHz Hz z' eq_refl). eauto.
Qed.

Lemma says_means g dn b field e : handled g dn e -> forall x, visit_expr g e = Some x ->
  forall n, ExprSpec.says g (bty_of b) field x n -> means g b field e n.
Proof.
  induction e as [|c|a IHa|o a IHa|b' a IHa|o y IHy z IHz|c IHc y IHy z IHz]; intros H x V n S; cbn [visit_expr] in V.
  - injection V as <-. inversion S; subst. constructor.
  - destruct c as [s tx|s tx|tx|tx]; cbn [visit_const] in V; cbn [handled] in H.
    + destruct H as (v & T & L & _). rewrite (visit_int_token _ _ _ T L) in V. injection V as <-.
      inversion S as [|l lit R| | | | | | | | | |]; subst. cbn [i_val] in R. eapply mn_int; eauto.
    + destruct H as (M & R & K). rewrite (reads_visit _ _ R) in V. injection V as <-.
      assert (D : reads_double (emit_float g false (FFin M)) M).
      { assert (Dg : six g \/ (g = OEsm \/ g = OKt)) by (unfold six; destruct g; auto; left; split; discriminate).
        destruct Dg as [Dg|Dg]; [|eapply C65_shortest; [exact Dg|eapply reads_visit; eauto]].
        apply (C65_six_decimals g tx M Dg (reads_visit _ _ R)). auto. }
      inversion S as [| |ng ds En| | | | | | | | |]; subst. apply (mn_float g b field s tx M _ R D).
    + contradiction.
    + injection V as <-. inversion S as [| | |bb| | | | | | | |]; subst. destruct H as [-> | ->].
      * destruct (list_eq_dec ascii_dec (cs "true") (cs "true")); [|congruence]. destruct g; exact (mn_true _ b field).
      * destruct (list_eq_dec ascii_dec (cs "false") (cs "true")); [discriminate|]. destruct g; exact (mn_false _ b field).
  - constructor. eapply IHa; eauto.
  - destruct H as (H & _). destruct (visit_expr g a) as [a'|]; [|discriminate]. injection V as <-.
    inversion S; subst; [apply mn_un|apply mn_inv]; eauto.
  - destruct (visit_expr g a) as [a'|]; [|discriminate]. injection V as <-. inversion S; subst. apply mn_cast. eauto.
  - destruct H as (Hy & Hz & _). destruct (visit_expr g y) as [y'|]; [|discriminate]. destruct (visit_expr g z) as [z'|]; [|discriminate].
    injection V as <-. inversion S; subst; [apply mn_bin|apply mn_shift|apply mn_pow]; eauto.
  - pose proof H as H0. destruct H as (Hc & Hy & Hz). pose proof (typed_settled OGo dn b) as TS.
    destruct (visit_expr g c) as [c'|] eqn:Ec; [|discriminate]. destruct (visit_expr g y) as [y'|] eqn:Ey; [|discriminate].
    destruct (visit_expr g z) as [z'|] eqn:Ez; [|discriminate]. injection V as <-.
    inversion S as [| | | | | | | | | |e1 e2 e3 n1 n2 n3 NG S1 S2 S3|e1 e2 e3 n1 n2 n3 t GO T S1 S2 S3]; subst.
    + apply mn_if; eauto.
    + assert (V : visit_expr OGo (PTern c y z) = Some (ETern c' y' z')) by (cbn [visit_expr]; now rewrite Ec, Ey, Ez).
      apply (TS _ H0 _ V) in T as (u & Su & <-). apply mn_goif; eauto.
Qed.
Lemma ifs_settled_typed g dn b e : handled g dn e -> forall x, visit_expr g e = Some x ->
  (ExprSpec.ifs_typed (bty_of b) x <-> ifs_settled b e).
Proof.
  induction e as [|c|a IHa|o a IHa|b' a IHa|o y IHy z IHz|c IHc y IHy z IHz]; intros H x V; pose proof V as V0; cbn [visit_expr] in V; cbn [ifs_settled].
  - injection V as <-. reflexivity.
  - destruct c as [s tx|s tx|tx|tx]; cbn [visit_const] in V.
    + destruct (visit_int (minus s) tx); [|discriminate]. injection V as <-. reflexivity.
    + destruct (visit_float tx) as [[]|]; try discriminate. injection V as <-. reflexivity.
    + discriminate.
    + injection V as <-. reflexivity.
  - apply IHa; auto.
  - destruct H as (H & _). destruct (visit_expr g a) as [a'|]; [|discriminate]. injection V as <-. cbn [ExprSpec.ifs_typed]. auto.
  - destruct (visit_expr g a) as [a'|]; [|discriminate]. injection V as <-. cbn [ExprSpec.ifs_typed]. auto.
  - destruct H as (Hy & Hz & _). destruct (visit_expr g y) as [y'|]; [|discriminate]. destruct (visit_expr g z) as [z'|]; [|discriminate].
    injection V as <-. cbn [ExprSpec.ifs_typed]. rewrite (IHy Hy y' eq_refl), (IHz Hz z' eq_refl). reflexivity.
  - pose proof (typed_settled g dn b _ H _ V0) as TS. destruct H as (Hc & Hy & Hz).
    destruct (visit_expr g c) as [c'|]; [|discriminate]. destruct (visit_expr g y) as [y'|]; [|discriminate].
    destruct (visit_expr g z) as [z'|]; [|discriminate]. injection V as <-. cbn [ExprSpec.ifs_typed].
    rewrite (IHc Hc c' eq_refl), (IHy Hy y' eq_refl), (IHz Hz z' eq_refl).
    split; intros (A & B & C & t & T); (split; [exact A|split; [exact B|split; [exact C|]]]).
    + apply TS in T as (u & Su & _). eauto.
    + exists (bty_of t). apply TS. eauto.
Qed.
