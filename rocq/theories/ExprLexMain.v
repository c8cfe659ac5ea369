(** The printed text of an expression is read as its tokens (continued). *)
From Coq Require Import ZArith Lia Bool String Ascii List.
Import ListNotations.
From Verif Require Import Base Literals PropsLit ExprModel ExprSpec ExprProofs ExprLex.
Open Scope string_scope.
Open Scope Z_scope.
Open Scope list_scope.

Lemma lex_bin g o r ts : (o = OPow -> g = OPy \/ g = OCjs \/ g = OEsm) -> lexes g r ts ->
  lexes g (cs " " ++ bin_text g o ++ cs " " ++ r) (bin_tok g o :: ts).
Proof.
  intros H L.
  assert (E : lexc g 10 (cs " " ++ bin_text g o ++ cs " ") = Some [bin_tok g o]).
  { destruct o; try (destruct g; vm_compute; reflexivity). destruct (H eq_refl) as [->|[->| ->]]; vm_compute; reflexivity. }
  pose proof (lex_lit0 g r ts L _ _ _ E) as K. rewrite <- !app_assoc in K. exact K.
Qed.
Lemma lex_open g s ts r rs : lexc g 60 (cs s) = Some ts -> lexes g r rs -> lexes g (cs s ++ r) (ts ++ rs).
Proof. intros H L. eapply lex_lit0; eauto. Qed.
Lemma lex_lp g r ts : lexes g r ts -> lexes g (cs "(" ++ r) (sy "(" :: ts).
Proof. intros L. apply (lex_solid g (cs "(")); [destruct g; vm_compute; reflexivity|exact L]. Qed.
Lemma lex_rp g r ts : lexes g r ts -> lexes g (cs ")" ++ r) (sy ")" :: ts).
Proof. intros L. apply (lex_solid g (cs ")")); [destruct g; vm_compute; reflexivity|exact L]. Qed.
Lemma lex_comma g r ts : lexes g r ts -> lexes g (cs ", " ++ r) (sy "," :: ts).
Proof. intros L. apply (lex_solid g (cs ",") (cs " " ++ r)); [destruct g; vm_compute; reflexivity|]. now constructor. Qed.

Lemma lex_pre g l ts0 r ts out : lexc g 60 l = Some ts0 -> out = ts0 ++ ts -> lexes g r ts -> lexes g (l ++ r) out.
Proof. intros H -> L. eapply lex_lit0; eauto. Qed.

Ltac lit := match goal with |- lexes ?g (?l ++ ?r) _ =>
  let v := eval vm_compute in (lexc g 60 l) in
  match v with Some ?ts0 => eapply (lex_pre g l ts0 r); [vm_compute; reflexivity|reflexivity|] end end.

Definition lexed (g : olang) (dn : bool) (vt : bty) (field : option chars) (e : expr) : Prop :=
  forall x m ts, print g dn vt field e = Some x -> bound m -> lexes g m ts -> lexes g (x ++ m) (toks g dn vt field e ++ ts).

Lemma lex_int g dn vt field l : good g dn (EInt l) -> lexed g dn vt field (EInt l).
Proof.
  intros G x m ts P B L. cbn in P. injection P as <-. cbn in G. destruct G as (U & _ & G). cbn [toks].
  destruct (emit_shape g dn l U G) as (ds & D & ->).
  assert (E : num_toks ((if i_val l <? 0 then ["-"%char] else []) ++ ds) = if i_val l <? 0 then [sy "-"; TNum ds] else [TNum ds]).
  { destruct (i_val l <? 0); [reflexivity|]. destruct (digits_not_minus ds D) as (c & r & -> & _ & Hc). cbn. now rewrite Hc. }
  rewrite E. now apply lex_number.
Qed.
Lemma lex_bool g dn vt field b : lexed g dn vt field (EBool b).
Proof.
  intros x m ts P B L. cbn in P. injection P as <-. cbn [toks app]. apply lex_name; auto using bound_stops.
  destruct g, b; now vm_compute.
Qed.

Lemma lex_unary g dn vt field o a : good g dn (EUn o a) -> lexed g dn vt field a -> lexed g dn vt field (EUn o a).
Proof.
  intros (G & G1 & G2) IH x m ts P B L. unfold lexed in *. cbn [print toks] in *.
  destruct (print g dn vt field a) as [x'|] eqn:E; [|discriminate]. injection P as <-.
  destruct (print_head _ _ _ _ _ G _ E) as (ch & r & Ex & Hh).
  assert (R : lexes g (x' ++ (cs ")" ++ m)) (toks g dn vt field a ++ sy ")" :: ts)).
  { apply IH; auto; [cbn; auto|]. now apply lex_rp. }
  assert (U : lexes g ((cs "(" ++ un_text g o ++ x' ++ cs ")") ++ m)
                ((sy "(" :: un_tok g o :: toks g dn vt field a ++ [sy ")"]) ++ ts)).
  { rewrite <- ?app_assoc. cbn [app]. rewrite <- ?app_assoc. apply lex_lp. rewrite Ex in *. apply lex_un; auto.
    - intros -> ->. specialize (G2 eq_refl eq_refl). clear - E G2.
      destruct a; try discriminate G2; cbn [print] in E.
      + destruct (print OPy dn vt field a); [|discriminate]. injection E as <- _. reflexivity.
      + destruct (print OPy dn vt field a1), (print OPy dn vt field a2); try discriminate. destruct o; injection E as <- _; reflexivity.
      + destruct (print OPy dn vt field a1), (print OPy dn vt field a2), (print OPy dn vt field a3); try discriminate.
        injection E as <- _. reflexivity.
    - apply (un_head g o ch (negative a)); auto. }
  destruct g; try exact U. destruct o; try exact U.
  clear U R. rewrite <- ?app_assoc. cbn [app]. rewrite <- ?app_assoc. apply lex_lp.
  apply IH; [reflexivity|cbn; auto|]. lit. exact L.
Qed.

Ltac norm := rewrite <- ?app_assoc; cbn [app]; rewrite <- ?app_assoc.

Lemma lex_infix g dn vt field o a b xa xb m ts : (o = OPow -> g = OPy \/ g = OCjs \/ g = OEsm) ->
  lexed g dn vt field a -> lexed g dn vt field b -> print g dn vt field a = Some xa -> print g dn vt field b = Some xb -> bound m -> lexes g m ts ->
  lexes g ((cs "(" ++ xa ++ cs " " ++ bin_text g o ++ cs " " ++ xb ++ cs ")") ++ m)
    ((sy "(" :: toks g dn vt field a ++ bin_tok g o :: toks g dn vt field b ++ [sy ")"]) ++ ts).
Proof.
  intros H IHa IHb Ea Eb B L. norm. apply lex_lp. apply IHa; [exact Ea|cbn; auto|]. norm. apply lex_bin; [exact H|].
  apply IHb; [exact Eb|cbn; auto|]. now apply lex_rp.
Qed.
Lemma lex_call g dn vt field f fts a b xa xb m ts : lexc g 60 (cs f) = Some fts -> lexed g dn vt field a -> lexed g dn vt field b -> print g dn vt field a = Some xa -> print g dn vt field b = Some xb ->
  bound m -> lexes g m ts ->
  lexes g ((cs f ++ xa ++ cs ", " ++ xb ++ cs ")") ++ m) ((fts ++ toks g dn vt field a ++ sy "," :: toks g dn vt field b ++ [sy ")"]) ++ ts).
Proof.
  intros H IHa IHb Ea Eb B L. norm. apply lex_open; [exact H|]. apply IHa; [exact Ea|cbn; auto|]. norm. apply lex_comma.
  apply IHb; [exact Eb|cbn; auto|]. now apply lex_rp.
Qed.

Lemma lex_shift o a b xa xb m ts dn vt field : o = OShl \/ o = OShr ->
  lexed OKt dn vt field a -> lexed OKt dn vt field b -> print OKt dn vt field a = Some xa -> print OKt dn vt field b = Some xb ->
  bound m -> lexes OKt m ts ->
  lexes OKt ((cs "(" ++ xa ++ cs " " ++ bin_text OKt o ++ cs " (" ++ xb ++ cs ").toInt())") ++ m)
    ((sy "(" :: toks OKt dn vt field a ++ bin_tok OKt o :: sy "(" :: toks OKt dn vt field b ++ sy ")" :: to_method (cs "toInt") ++ [sy ")"]) ++ ts).
Proof.
  intros Ho IHa IHb Ea Eb B L. norm. apply lex_lp. apply IHa; [exact Ea|cbn; auto|]. norm.
  change (cs " (" ++ xb ++ cs ").toInt())" ++ m) with (cs " " ++ (cs "(" ++ (xb ++ (cs ").toInt())" ++ m)))).
  apply lex_bin; [destruct Ho; congruence|]. apply lex_lp. apply IHb; [exact Eb|cbn; auto|]. lit. exact L.
Qed.
Lemma lex_kpow a b xa xb m ts dn vt field :
  lexed OKt dn vt field a -> lexed OKt dn vt field b -> print OKt dn vt field a = Some xa -> print OKt dn vt field b = Some xb ->
  bound m -> lexes OKt m ts ->
  lexes OKt ((cs "(" ++ xa ++ cs ").toDouble().pow((" ++ xb ++ cs ").toDouble())") ++ m)
    ((sy "(" :: toks OKt dn vt field a ++ sy ")" :: to_method (cs "toDouble") ++ [sy "."; kw "pow"; sy "("; sy "("] ++
      toks OKt dn vt field b ++ sy ")" :: to_method (cs "toDouble") ++ [sy ")"]) ++ ts).
Proof.
  intros IHa IHb Ea Eb B L. norm. apply lex_lp. apply IHa; [exact Ea|cbn; auto|].
  eapply (lex_pre OKt (cs ").toDouble().pow((")); [vm_compute; reflexivity|cbn [to_method app]; reflexivity|].
  norm. apply IHb; [exact Eb|cbn; auto|].
  eapply (lex_pre OKt (cs ").toDouble())")); [vm_compute; reflexivity|cbn [to_method app]; reflexivity|]. exact L.
Qed.

Lemma lex_binary g dn vt field o a b : lexed g dn vt field a -> lexed g dn vt field b -> lexed g dn vt field (EBin o a b).
Proof.
  intros IHa IHb x m ts P B L. cbn [print] in P.
  destruct (print g dn vt field a) as [xa|] eqn:Ea; [|discriminate].
  destruct (print g dn vt field b) as [xb|] eqn:Eb; [|discriminate].
  injection P as <-. pose proof (fun H => lex_infix g dn vt field o a b xa xb m ts H IHa IHb Ea Eb B L) as I.
  pose proof (fun f fts H => lex_call g dn vt field f fts a b xa xb m ts H IHa IHb Ea Eb B L) as C.
  cbn [toks].
  destruct o; try (clear C; destruct g; apply I; discriminate).
  - destruct g; cbn [pow_fun].
    + apply (C "math.Pow("). vm_compute. reflexivity.
    + apply (C "pow("). vm_compute. reflexivity.
    + apply (C "pow("). vm_compute. reflexivity.
    + apply (C "Math.Pow("). vm_compute. reflexivity.
    + apply (C "Math.pow("). vm_compute. reflexivity.
    + apply lex_kpow; assumption.
    + apply I; auto.
    + apply I; auto.
    + apply I; auto.
  - clear C. destruct g; try (apply I; discriminate). apply lex_shift; auto.
  - clear C. destruct g; try (apply I; discriminate). apply lex_shift; auto.
Qed.

Ltac piece g s := eapply (lex_pre g (cs s)); [vm_compute; reflexivity|cbn [to_method app]; reflexivity|].

Lemma lex_kcast dn vt field t a xa m ts : lexed OKt dn vt field a -> print OKt dn vt field a = Some xa -> bound m ->
  lexes OKt m ts -> forall x, print OKt dn vt field (ECast t a) = Some x ->
  lexes OKt (x ++ m) (toks OKt dn vt field (ECast t a) ++ ts).
Proof.
  intros IHa Ea B L x P. cbn [print toks] in *. rewrite Ea in P. injection P as <-.
  assert (K : forall s out, lexc OKt 60 (cs s) = Some out -> bound (cs s ++ m) ->
    lexes OKt ((cs "(" ++ xa ++ cs s) ++ m) ((sy "(" :: toks OKt dn vt field a ++ out) ++ ts)).
  { intros s out H Bs. norm. apply lex_lp. apply IHa; [exact Ea|exact Bs|]. now apply lex_open. }
  destruct t.
  - clear K. norm. apply lex_lp. apply IHa; [exact Ea|cbn; auto|].
    change (cs " != 0)" ++ m) with (cs " != " ++ (cs "0" ++ (cs ")" ++ m))). piece OKt " != ".
    apply (lex_digits OKt (cs "0") (cs ")" ++ m)); [split; reflexivity|cbn; auto|]. apply lex_rp. exact L.
  - apply (K ").toUInt().toUByte()"); [vm_compute; reflexivity|cbn; auto].
  - apply (K ").toUInt().toUShort()"); [vm_compute; reflexivity|cbn; auto].
  - apply (K ").toUInt()"); [vm_compute; reflexivity|cbn; auto].
  - apply (K ").toULong()"); [vm_compute; reflexivity|cbn; auto].
  - apply (K ").toInt().toByte()"); [vm_compute; reflexivity|cbn; auto].
  - apply (K ").toInt().toShort()"); [vm_compute; reflexivity|cbn; auto].
  - apply (K ").toInt()"); [vm_compute; reflexivity|cbn; auto].
  - apply (K ").toLong()"); [vm_compute; reflexivity|cbn; auto].
  - apply (K ").toFloat()"); [vm_compute; reflexivity|cbn; auto].
  - apply (K ").toDouble()"); [vm_compute; reflexivity|cbn; auto].
Qed.

Lemma lex_cast g dn vt field t a : lexed g dn vt field a -> lexed g dn vt field (ECast t a).
Proof.
  intros IHa x m ts P B L. pose proof P as P0. cbn [print] in P.
  destruct (print g dn vt field a) as [xa|] eqn:Ea; [|discriminate]. injection P as <-.
  assert (A : lexes g ((cs "(" ++ type_name g t ++ cs ")" ++ xa) ++ m)
                ((sy "(" :: TId (type_name g t) :: sy ")" :: toks g dn vt field a) ++ ts)).
  { norm. apply lex_lp. apply lex_name; [apply type_name_ok|reflexivity|]. apply lex_rp. apply IHa; auto. }
  assert (C : lexes g ((type_name g t ++ cs "(" ++ xa ++ cs ")") ++ m)
                ((TId (type_name g t) :: sy "(" :: toks g dn vt field a ++ [sy ")"]) ++ ts)).
  { norm. apply lex_name; [apply type_name_ok|reflexivity|]. apply lex_lp. apply IHa; [exact Ea|cbn; auto|]. now apply lex_rp. }
  destruct g; cbn [toks]; try exact A; try exact C. clear A C.
  eapply lex_kcast; eauto.
Qed.

Lemma lex_tern g dn vt field c a b : lexed g dn vt field c -> lexed g dn vt field a -> lexed g dn vt field b ->
  lexed g dn vt field (ETern c a b).
Proof.
  intros IHc IHa IHb x m ts P B L. cbn [print] in P.
  destruct (print g dn vt field c) as [xc|] eqn:Ec; [|discriminate].
  destruct (print g dn vt field a) as [xa|] eqn:Ea; [|discriminate].
  destruct (print g dn vt field b) as [xb|] eqn:Eb; [|discriminate].
  cbn [toks].
  assert (T : lexc g 60 (cs " ? ") = Some [sy "?"] -> lexc g 60 (cs " : ") = Some [sy ":"] ->
    lexes g ((cs "(" ++ xc ++ cs " ? " ++ xa ++ cs " : " ++ xb ++ cs ")") ++ m)
      ((sy "(" :: toks g dn vt field c ++ sy "?" :: toks g dn vt field a ++ sy ":" :: toks g dn vt field b ++ [sy ")"]) ++ ts)).
  { intros H1 H2. norm. apply lex_lp. apply IHc; [exact Ec|cbn; auto|]. norm.
    apply (lex_open g " ? " [sy "?"]); [exact H1|]. apply IHa; [exact Ea|cbn; auto|]. norm.
    apply (lex_open g " : " [sy ":"]); [exact H2|]. apply IHb; [exact Eb|cbn; auto|]. now apply lex_rp. }
  destruct g; try (injection P as <-; apply T; vm_compute; reflexivity).
  - clear T. destruct (expr_type vt a) as [t1|] eqn:T1; [|discriminate]. destruct (expr_type vt b) as [t2|]; [|discriminate].
    destruct (list_eq_dec _ _ _); [|discriminate]. injection P as <-. norm.
    piece OGo "func() ". norm. apply lex_name; [apply type_name_ok|reflexivity|]. piece OGo " { if ".
    norm. apply IHc; [exact Ec|cbn; auto|]. norm. piece OGo " { return ". norm.
    apply IHa; [exact Ea|cbn; auto|]. norm. piece OGo " } else { return ". norm.
    apply IHb; [exact Eb|cbn; auto|]. piece OGo " } }()". exact L.
  - clear T. injection P as <-. norm. piece OKt "(if (". norm. apply IHc; [exact Ec|cbn; auto|]. norm. piece OKt ") ". norm.
    apply IHa; [exact Ea|cbn; auto|]. norm. piece OKt " else ". norm. apply IHb; [exact Eb|cbn; auto|]. piece OKt ")". exact L.
  - clear T. injection P as <-. norm. apply lex_lp. norm. apply IHa; [exact Ea|cbn; auto|]. norm. piece OPy " if ". norm.
    apply IHc; [exact Ec|cbn; auto|]. norm. piece OPy " else ". norm. apply IHb; [exact Eb|cbn; auto|]. piece OPy ")". exact L.
Qed.

Theorem lex_print g dn vt field : field_ok field -> forall e, good g dn e -> lexed g dn vt field e.
Proof.
  intros F. induction e; intros G.
  - intros x m ts P B L. cbn in P. injection P as <-. now apply lex_value.
  - now apply lex_int.
  - intros x m ts P B L. cbn in P. injection P as <-. now apply lex_number.
  - apply lex_bool.
  - apply lex_unary; auto. apply IHe, G.
  - destruct G as (Ga & Gb & _). apply lex_binary; auto.
  - apply lex_cast; auto.
  - destruct G as (Gc & Ga & Gb). apply lex_tern; auto.
Qed.
