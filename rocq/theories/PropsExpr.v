(** C53: custom getters and setters say in every target language what the schema says. *)
From Coq Require Import ZArith Lia Bool String Ascii List.
Import ListNotations.
From Verif Require Import Base Literals PropsLit ExprModel ExprSpec ExprProofs ExprLex ExprLexMain ExprParse.
Open Scope string_scope.
Open Scope Z_scope.
Open Scope list_scope.

(** ** A text has at most one reading *)

Lemma num_not_alpha c : is_num c = true -> is_alpha c = true -> False.
Proof.
  unfold is_num, is_alpha. rewrite !andb_true_iff, !orb_true_iff, !andb_true_iff, !Nat.leb_le, Nat.eqb_eq. lia.
Qed.
Lemma lexes_unique g l ts : lexes g l ts -> forall ts', lexes g l ts' -> ts = ts'.
Proof.
  induction 1 as [|l ts L IH|c l a b ts Hc Hr L IH|c l a b ts Hc Hr L IH|c l s b ts Hb Hw Hs Hn Hl L IH]; intros ts' L'.
  - inversion L'; reflexivity.
  - inversion L' as [|l2 ts2 L2 E1 E2|c2 l2 a2 b2 ts2 Hc2 Hr2 L2 E1 E2|c2 l2 a2 b2 ts2 Hc2 Hr2 L2 E1 E2|c2 l2 s2 b2 ts2 Hb2 Hw2 Hs2 Hn2 Hl2 L2 E1 E2]; subst.
    + auto.
    + discriminate.
    + discriminate.
    + congruence.
  - inversion L' as [|l2 ts2 L2 E1 E2|c2 l2 a2 b2 ts2 Hc2 Hr2 L2 E1 E2|c2 l2 a2 b2 ts2 Hc2 Hr2 L2 E1 E2|c2 l2 s2 b2 ts2 Hb2 Hw2 Hs2 Hn2 Hl2 L2 E1 E2]; subst.
    + discriminate.
    + rewrite Hr in Hr2. injection Hr2 as <- <-. f_equal. auto.
    + exfalso; eapply num_not_alpha; eauto.
    + unfold is_word in Hw2. rewrite Hc in Hw2. discriminate.
  - inversion L' as [|l2 ts2 L2 E1 E2|c2 l2 a2 b2 ts2 Hc2 Hr2 L2 E1 E2|c2 l2 a2 b2 ts2 Hc2 Hr2 L2 E1 E2|c2 l2 s2 b2 ts2 Hb2 Hw2 Hs2 Hn2 Hl2 L2 E1 E2]; subst.
    + discriminate.
    + exfalso; eapply num_not_alpha; eauto.
    + rewrite Hr in Hr2. injection Hr2 as <- <-. f_equal. auto.
    + unfold is_word in Hw2. rewrite Hc, orb_true_r in Hw2. discriminate.
  - inversion L' as [|l2 ts2 L2 E1 E2|c2 l2 a2 b2 ts2 Hc2 Hr2 L2 E1 E2|c2 l2 a2 b2 ts2 Hc2 Hr2 L2 E1 E2|c2 l2 s2 b2 ts2 Hb2 Hw2 Hs2 Hn2 Hl2 L2 E1 E2].
    + congruence.
    + subst. unfold is_word in Hw. rewrite Hc2 in Hw. discriminate.
    + subst. unfold is_word in Hw. rewrite Hc2, orb_true_r in Hw. discriminate.
    + assert (Es : s2 = s) by congruence. rewrite Es in Hl2 |- *. f_equal. apply IH.
      assert (b2 = b) by (apply (app_inv_head s); congruence). congruence.
Qed.
Theorem C53_one_reading g text t1 t2 : reads_as g text t1 -> reads_as g text t2 -> t1 = t2.
Proof.
  intros (ts & L & n1 & H1) (ts' & L' & n2 & H2). rewrite (lexes_unique g text ts L ts' L') in *.
  specialize (H1 (n1 + n2)%nat ltac:(lia)). specialize (H2 (n1 + n2)%nat ltac:(lia)). congruence.
Qed.

(** ** C53 *)

Lemma type_name_of g t : type_name g t = name_of g t.
Proof. destruct g, t; reflexivity. Qed.
Lemma go_name_inj t1 t2 : type_name OGo t1 = type_name OGo t2 -> t1 = t2.
Proof. destruct t1, t2; vm_compute; congruence. Qed.

(** Go prints an expression exactly if every conditional in it has a type. *)
Lemma typed_expr_type vt e t : typed vt e t -> expr_type vt e = Some t.
Proof. induction 1; cbn [expr_type]; auto. Qed.
Lemma expr_type_typed vt e : ifs_typed vt e -> forall t, expr_type vt e = Some t -> typed vt e t.
Proof.
  induction e; intros H t0 E; cbn [expr_type] in E; try discriminate; try (injection E as <-; constructor).
  destruct H as (_ & _ & _ & t' & H). pose proof (typed_expr_type _ _ _ H) as E'. cbn [expr_type] in E'. congruence.
Qed.
Lemma go_prints dn vt field e : (exists text, print OGo dn vt field e = Some text) <-> ifs_typed vt e.
Proof.
  induction e as [ | l | neg ds | b | o a IHa | o a IHa b IHb | t a IHa | c IHc a IHa b IHb ]; cbn [print ifs_typed].
  1-4: split; eauto.
  - rewrite <- IHa. destruct (print OGo dn vt field a); split; eauto; intros [? [=]].
  - rewrite <- IHa, <- IHb. destruct (print OGo dn vt field a), (print OGo dn vt field b); split; eauto;
      try (intros [? [=]]); intros ([? ?] & [? ?]); congruence.
  - rewrite <- IHa. destruct (print OGo dn vt field a); split; eauto; intros [? [=]].
  - rewrite <- IHc, <- IHa, <- IHb.
    destruct (print OGo dn vt field c); [|split; [intros [? [=]]|intros ([? [=]] & _)]].
    destruct (print OGo dn vt field a); [|split; [intros [? [=]]|intros (_ & [? [=]] & _)]].
    destruct (print OGo dn vt field b); [|split; [intros [? [=]]|intros (_ & _ & [? [=]] & _)]].
    assert (Ta : ifs_typed vt a) by (apply IHa; eauto). assert (Tb : ifs_typed vt b) by (apply IHb; eauto).
    split.
    + intros [text P]. split; [eauto|]. split; [eauto|]. split; [eauto|].
      destruct (expr_type vt a) as [t1|] eqn:T1; [|discriminate]. destruct (expr_type vt b) as [t2|] eqn:T2; [|discriminate].
      destruct (list_eq_dec _ _ _) as [E|]; [|discriminate]. apply go_name_inj in E. subst t2.
      exists t1. constructor; apply expr_type_typed; auto.
    + intros (_ & _ & _ & t & H). inversion H as [| | |c' a' b' t' H1 H2]; subst.
      rewrite (typed_expr_type _ _ _ H1), (typed_expr_type _ _ _ H2).
      destruct (list_eq_dec _ _ _) as [E|N]; [eauto|congruence].
Qed.

Lemma meaning_says g dn vt field : forall e text, good g dn e -> print g dn vt field e = Some text ->
  says g vt field e (meaning g dn vt field e).
Proof.
  induction e as [ | l | neg ds | b | o a IHa | o a IHa b IHb | t a IHa | c IHc a IHa b IHb ]; intros text G P.
  - constructor.
  - constructor. destruct l as [z u b]. cbn [good i_uns i_val i_base] in *. destruct G as (-> & R & H).
    apply reads_signed; [exact R|]. destruct (Z.lt_ge_cases z 0) as [L|L]; [right|now left].
    destruct (H L) as [->|[->| ->]]; [reflexivity|destruct dn; reflexivity|destruct dn; reflexivity].
  - apply says_float.
  - apply says_bool.
  - destruct G as (G & _ & _). cbn [print] in P. destruct (print g dn vt field a) as [x|]; [|discriminate].
    specialize (IHa x G eq_refl). cbn [meaning].
    destruct o, g; first [apply says_inv; [reflexivity|exact IHa] | apply says_un; [discriminate|exact IHa]].
  - destruct G as (Ga & Gb & _). cbn [print] in P. destruct (print g dn vt field a) as [x|]; [|discriminate].
    destruct (print g dn vt field b) as [y|]; [|discriminate].
    specialize (IHa x Ga eq_refl). specialize (IHb y Gb eq_refl). cbn [meaning].
    destruct o, g; first [exact (says_pow _ vt field a b _ _ IHa IHb) | apply says_bin; [discriminate|intros; split; congruence|exact IHa|exact IHb]
      | apply says_shift; [reflexivity|auto|exact IHa|exact IHb]].
  - cbn [print] in P. destruct (print g dn vt field a) as [x|]; [|discriminate].
    specialize (IHa x G eq_refl). pose proof (says_cast g vt field t a _ IHa) as K. cbn [meaning]. unfold convert in K.
    rewrite <- type_name_of in K. destruct g; exact K.
  - destruct G as (Gc & Ga & Gb). cbn [print] in P. destruct (print g dn vt field c) as [x|]; [|discriminate].
    destruct (print g dn vt field a) as [y|] eqn:Pa; [|discriminate]. destruct (print g dn vt field b) as [z|] eqn:Pb; [|discriminate].
    specialize (IHc x Gc eq_refl). specialize (IHa y Ga eq_refl). specialize (IHb z Gb eq_refl). cbn [meaning].
    destruct g; try (apply says_if; [discriminate|assumption..]).
    destruct (expr_type vt a) as [t1|] eqn:T1; [|discriminate]. destruct (expr_type vt b) as [t2|] eqn:T2; [|discriminate].
    destruct (list_eq_dec _ _ _) as [E|]; [|discriminate]. apply go_name_inj in E. subst t2.
    cbn [option_map]. rewrite type_name_of. apply says_goif; auto.
    constructor; apply expr_type_typed; auto; [apply (proj1 (go_prints dn vt field a))|apply (proj1 (go_prints dn vt field b))]; eauto.
Qed.

(** The text printed for an expression is read as a tree that says what the expression says. *)
Theorem C53_expr g dn vt field e text :
  (forall f, field = Some f -> name_ok f) -> good g dn e -> print g dn vt field e = Some text ->
  exists t, reads_as g text t /\ says g vt field e t.
Proof.
  intros F G P. exists (meaning g dn vt field e). split; [|eapply meaning_says; eauto].
  assert (F' : field_ok field) by (destruct field; cbn; auto).
  pose proof (lex_print g dn vt field F' e G text [] [] P I (lex_end g)) as L. rewrite !app_nil_r in L.
  eexists; split; [exact L|].
  assert (Q : match g with OGo => exists x, print g dn vt field e = Some x | _ => True end) by (destruct g; eauto).
  pose proof (parsed_closed g _ _ _ [] 0 (parse_toks g dn vt field e G Q) I (sign_nonneg g)) as [n0 H].
  rewrite app_nil_r in H. exists n0. exact H.
Qed.

(** All targets but Go print every expression; Go refuses a conditional whose branches have no type. *)
Theorem C53_total g dn vt field e : g <> OGo -> exists text, print g dn vt field e = Some text.
Proof.
  intros H. induction e; cbn [print]; eauto.
  - destruct IHe as [x ->]. eauto.
  - destruct IHe1 as [x ->], IHe2 as [y ->]. eauto.
  - destruct IHe as [x ->]. eauto.
  - destruct IHe1 as [x ->], IHe2 as [y ->], IHe3 as [z ->]. destruct g; eauto. congruence.
Qed.
Theorem C53_go_conditional dn vt field e :
  (exists text, print OGo dn vt field e = Some text) <-> ifs_typed vt e.
Proof. exact (go_prints dn vt field e). Qed.

(** ** What goes wrong outside [good] *)

Definition minus5 : expr := EInt {| i_val := -5; i_uns := false; i_base := BDec |}.
Definition two : expr := EInt {| i_val := 2; i_uns := false; i_base := BDec |}.

(** The negation of a negative constant: "(--5)". *)
Theorem C53_double_minus_refuted g dn vt field : g <> OPy ->
  print g dn vt field (EUn USub minus5) = Some (cs "(--5)") /\
  forall t, says g vt field (EUn USub minus5) t -> ~ reads_as g (cs "(--5)") t.
Proof.
  intros Hg. split; [destruct g, dn; vm_compute; reflexivity|]. intros t St (ts & L & n0 & H).
  assert (K : lexes g (cs "(--5)") [sy "("; sy "--"; TNum (cs "5"); sy ")"]).
  { change (cs "(--5)") with (cs "(" ++ (cs "--" ++ (cs "5" ++ (cs ")" ++ [])))). apply lex_lp.
    change (cs "5" ++ (cs ")" ++ [])) with ("5"%char :: cs ")"). apply lex_op; [destruct g; try congruence; vm_compute; reflexivity|].
    change ("5"%char :: cs ")") with (cs "5" ++ (cs ")" ++ [])).
    apply lex_digits; [split; reflexivity|cbn; auto|]. apply lex_rp. constructor. }
  rewrite (lexes_unique _ _ _ L _ K) in H. specialize (H (20 + n0)%nat ltac:(lia)).
  inversion St as [| | | |o e a Ho Sa Eo Et| | | | | | |]; subst.
  destruct g; try congruence; vm_compute in H; discriminate.
Qed.

(** Python: "not" is printed without a space. *)
Theorem C53_python_not_refuted dn vt f : name_ok f ->
  exists text, print OPy dn vt (Some f) (EUn UNot EValue) = Some text /\
    reads_as OPy text (NMem (NId (cs "notself")) (cs ".") ("_"%char :: f)) /\
    forall t, says OPy vt (Some f) (EUn UNot EValue) t -> ~ reads_as OPy text t.
Proof.
  intros F.
  enough (K : exists text, print OPy dn vt (Some f) (EUn UNot EValue) = Some text /\
    reads_as OPy text (NMem (NId (cs "notself")) (cs ".") ("_"%char :: f))).
  { destruct K as (text & P & R). exists text. split; [exact P|]. split; [exact R|]. intros t St Rt.
    pose proof (C53_one_reading _ _ _ _ R Rt) as E. inversion St; subst; discriminate. }
  exists (cs "(notself._" ++ f ++ cs ")"). split; [reflexivity|].
  exists [sy "("; kw "notself"; sy "."; TId ("_"%char :: f); sy ")"]. split.
  - change (cs "(notself._" ++ f ++ cs ")") with (cs "(" ++ (cs "notself" ++ (cs "." ++ ("_"%char :: f ++ (cs ")" ++ []))))).
    apply lex_lp. apply lex_name; [now vm_compute|reflexivity|]. apply lex_op; [reflexivity|].
    apply (lex_name OPy ("_"%char :: f)); [|reflexivity|apply lex_rp; constructor].
    destruct f as [|c f]; [destruct F|]. destruct F as [F1 F2]. split; [reflexivity|]. cbn [forallb]. rewrite F2.
    unfold is_word. now rewrite F1, orb_true_r.
  - exists 20%nat. intros n Hn. replace n with (20 + (n - 20))%nat by lia. generalize (n - 20)%nat. intros k. vm_compute. reflexivity.
Qed.

(** Python raises 5 to the power and then negates; JavaScript has no such expression. *)
Theorem C53_power_refuted dn vt field :
  print OPy dn vt field (EBin OPow minus5 two) = Some (cs "(-5 ** 2)") /\
  reads_as OPy (cs "(-5 ** 2)") (NUn (cs "-") (NBin (cs "**") (NNum (cs "5")) (NNum (cs "2")))) /\
  forall g, g = OCjs \/ g = OEsm ->
    print g dn vt field (EBin OPow minus5 two) = Some (cs "(-5 ** 2)") /\ forall t, ~ reads_as g (cs "(-5 ** 2)") t.
Proof.
  assert (K : forall g, g = OPy \/ g = OCjs \/ g = OEsm ->
    lexes g (cs "(-5 ** 2)") [sy "("; sy "-"; TNum (cs "5"); sy "**"; TNum (cs "2"); sy ")"]).
  { intros g Hg.
    change (cs "(-5 ** 2)") with (cs "(" ++ (cs "-" ++ (cs "5" ++ (cs " " ++ (bin_text g OPow ++ (cs " " ++ (cs "2" ++ (cs ")" ++ [])))))))).
    apply lex_lp.
    match goal with |- lexes _ (cs "-" ++ (cs "5" ++ ?x)) _ => change (cs "5" ++ x) with ("5"%char :: x) end.
    apply lex_op; [destruct Hg as [->|[->| ->]]; vm_compute; reflexivity|].
    match goal with |- lexes _ (_ :: ?x) _ => change ("5"%char :: x) with (cs "5" ++ x) end.
    apply lex_digits; [split; reflexivity|cbn; auto|].
    change (sy "**") with (bin_tok g OPow) || (replace (sy "**") with (bin_tok g OPow) by (destruct g; reflexivity)).
    apply lex_bin; [tauto|]. apply lex_digits; [split; reflexivity|cbn; auto|]. apply lex_rp. constructor. }
  split; [destruct dn; vm_compute; reflexivity|]. split.
  - eexists; split; [apply K; auto|]. exists 20%nat. intros n Hn. replace n with (20 + (n - 20))%nat by lia.
    generalize (n - 20)%nat. intros k. vm_compute. reflexivity.
  - intros g Hg. split; [destruct Hg as [->| ->]; destruct dn; vm_compute; reflexivity|].
    intros t (ts & L & n0 & H). rewrite (lexes_unique _ _ _ L _ (K g ltac:(tauto))) in H. specialize (H (20 + n0)%nat ltac:(lia)).
    destruct Hg as [->| ->]; vm_compute in H; discriminate.
Qed.

(** ** Examples *)

(** ((value << 3) | uint8(-5)) ? value : value *)
Definition ex : expr :=
  ETern (EUn UNot (EBin OLt EValue minus5)) (ECast TyU8 (EBin OBor (EBin OShl EValue two) minus5)) (ECast TyU8 (EUn USub (EBin OPow two two))).
Example C53_ex_good g dn : good g dn ex.
Proof. cbn. repeat split; intros; auto; try discriminate; try lia. Qed.
Example C53_ex_go : print OGo false TyU8 (Some (cs "Temp")) ex =
  Some (cs "func() uint8 { if (!(this.Temp < -5)) { return uint8(((this.Temp << 2) | -5)) } else { return uint8((-math.Pow(2, 2))) } }()").
Proof. vm_compute. reflexivity. Qed.
Example C53_ex_c : print OC false TyU8 None ex =
  Some (cs "((!(value < -5)) ? (uint8_t)((value << 2) | -5) : (uint8_t)(-pow(2, 2)))").
Proof. vm_compute. reflexivity. Qed.
Example C53_ex_py : print OPy false TyU8 (Some (cs "temp")) ex =
  Some (cs "(int(((self._temp << 2) | -5)) if (not(self._temp < -5)) else int((-(2 ** 2))))").
Proof. vm_compute. reflexivity. Qed.
Example C53_ex_kt : print OKt false TyU8 None ex =
  Some (cs "(if ((!(value < -5))) (((value shl (2).toInt()) or -5)).toUInt().toUByte() else ((-(2).toDouble().pow((2).toDouble()))).toUInt().toUByte())").
Proof. vm_compute. reflexivity. Qed.
