(** The printed text of an expression is read as its tokens. *)
From Coq Require Import ZArith Lia Bool String Ascii List.
Import ListNotations.
From Verif Require Import Base Literals PropsLit ExprModel ExprSpec ExprProofs.
Open Scope string_scope.
Open Scope Z_scope.
Open Scope list_scope.

(** ** Lexing the printed text *)

Definition field_ok (field : option chars) : Prop := match field with Some f => name_ok f | None => True end.

Lemma print_head g dn vt field e : good g dn e -> forall x, print g dn vt field e = Some x ->
  exists c r, x = c :: r /\ (c = "("%char \/ is_word c = true \/ c = "-"%char /\ negative e = true).
Proof.
  intros G x P. destruct e; cbn [print] in P.
  - injection P as <-. unfold value_text. destruct field as [f|]; [|eexists _, _; split; [reflexivity|right; left; reflexivity]].
    destruct g; (eexists _, _; split; [reflexivity|right; left; reflexivity]).
  - injection P as <-. cbn [good] in G. destruct G as (U & _ & G). destruct (emit_shape g dn l U G) as (ds & D & ->).
    cbn [negative]. destruct (i_val l <? 0).
    + eexists _, _; split; [reflexivity|]. right; right; auto.
    + destruct (digits_not_minus ds D) as (c & r & -> & Hc & _). eexists _, _; split; [reflexivity|].
      right; left. unfold is_word. now rewrite Hc.
  - injection P as <-. cbn [good negative] in *. destruct neg.
    + eexists _, _; split; [reflexivity|]. right; right; auto.
    + destruct (digits_not_minus _ G) as (c & r & -> & Hc & _). eexists _, _; split; [reflexivity|].
      right; left. unfold is_word. now rewrite Hc.
  - injection P as <-. destruct g, b; (eexists _, _; split; [reflexivity|right; left; reflexivity]).
  - destruct (print g dn vt field e); [|discriminate]. injection P as <-.
    destruct g, o; (eexists _, _; split; [reflexivity|left; reflexivity]).
  - destruct (print g dn vt field e1); [|discriminate]. destruct (print g dn vt field e2); [|discriminate]. injection P as <-.
    destruct g, o; (eexists _, _; split; [reflexivity|first [left; reflexivity | right; left; reflexivity]]).
  - destruct (print g dn vt field e); [|discriminate]. injection P as <-.
    destruct g, t; (eexists _, _; split; [reflexivity|first [left; reflexivity | right; left; reflexivity]]).
  - destruct (print g dn vt field e1); [|discriminate]. destruct (print g dn vt field e2); [|discriminate].
    destruct (print g dn vt field e3); [|discriminate].
    destruct g; try (injection P as <-; eexists _, _; split; [reflexivity|left; reflexivity]).
    destruct (expr_type vt e2), (expr_type vt e3); try discriminate.
    destruct (list_eq_dec _ _ _); [|discriminate]. injection P as <-.
    eexists _, _; split; [reflexivity|right; left; reflexivity].
Qed.

Definition all_ascii : list ascii := map ascii_of_nat (seq 0 256).
Lemma in_all_ascii c : In c all_ascii.
Proof.
  unfold all_ascii. rewrite <- (ascii_nat_embedding c). apply in_map, in_seq.
  pose proof (nat_ascii_bounded c). lia.
Qed.
Definition un_ok (g : olang) (o : unop) (c : ascii) : bool :=
  match o, g with UNot, OPy => true | _, _ => chk g (un_text g o) c end.
Definition all_lang : list olang := [OGo; OC; OCpp; OCs; OJava; OKt; OPy; OCjs; OEsm].
Lemma in_all_lang g : In g all_lang.
Proof. destruct g; repeat (first [left; reflexivity | right]). Qed.
Definition un_chk : bool :=
  forallb (fun c => negb (Ascii.eqb c "(" || is_word c) ||
    forallb (fun g => un_ok g UAdd c && un_ok g USub c && un_ok g UBnot c && un_ok g UNot c) all_lang) all_ascii.
Lemma un_chk_true : un_chk = true.
Proof. vm_compute. reflexivity. Qed.
Lemma un_head_word g o c : (Ascii.eqb c "(" || is_word c) = true -> un_ok g o c = true.
Proof.
  intros E. pose proof un_chk_true as A. unfold un_chk in A. rewrite forallb_forall in A. specialize (A c (in_all_ascii c)).
  cbv beta in A. rewrite E, orb_false_l in A. rewrite forallb_forall in A. specialize (A g (in_all_lang g)). cbv beta in A.
  apply andb_true_iff in A as [A A4]. apply andb_true_iff in A as [A A3]. apply andb_true_iff in A as [A1 A2].
  destruct o; assumption.
Qed.
Lemma un_head g o c neg : (o = USub -> neg = true -> g = OPy) ->
  c = "("%char \/ is_word c = true \/ c = "-"%char /\ neg = true -> un_ok g o c = true.
Proof.
  intros Hs H. destruct H as [->|[H|[-> ->]]].
  - now apply un_head_word.
  - apply un_head_word. now rewrite H, orb_true_r.
  - destruct o.
    + destruct g; vm_compute; reflexivity.
    + rewrite (Hs eq_refl eq_refl). vm_compute. reflexivity.
    + destruct g; vm_compute; reflexivity.
    + destruct g; vm_compute; reflexivity.
Qed.

Lemma lex_lit' g s ts r rs out : lexc g (S (List.length (cs s))) (cs s) = Some ts -> out = ts ++ rs -> lexes g r rs ->
  lexes g (cs s ++ r) out.
Proof. intros H -> L. now apply lex_lit. Qed.
Lemma type_name_ok g t : name_ok (type_name g t).
Proof. destruct g, t; vm_compute; auto. Qed.

Lemma lex_un g o c r ts : (g = OPy -> o = UNot -> c = "("%char) -> un_ok g o c = true -> lexes g (c :: r) ts ->
  lexes g (un_text g o ++ c :: r) (un_tok g o :: ts).
Proof.
  intros Hp H L. assert (D : (g = OPy /\ o = UNot) \/ un_tok g o = TSym (un_text g o) /\ un_ok g o c = chk g (un_text g o) c).
  { destruct g, o; auto. }
  destruct D as [[-> ->]|[E1 E2]].
  - rewrite (Hp eq_refl eq_refl) in *. apply (lex_name OPy (cs "not")); auto. now vm_compute. reflexivity.
  - rewrite E1. apply lex_op; auto. congruence.
Qed.

Definition mem_chk_all : bool :=
  forallb (fun c => negb (is_alpha c) || forallb (fun g => chk g (cs ".") c && chk g (cs "->") c) all_lang) all_ascii.
Lemma mem_chk_true : mem_chk_all = true.
Proof. vm_compute. reflexivity. Qed.
Lemma mem_chk g c : is_alpha c = true -> chk g (cs ".") c = true /\ chk g (cs "->") c = true.
Proof.
  intros F1. pose proof mem_chk_true as A. unfold mem_chk_all in A.
  rewrite forallb_forall in A. specialize (A c (in_all_ascii c)). cbv beta in A. rewrite F1, orb_false_l in A.
  rewrite forallb_forall in A. specialize (A g (in_all_lang g)). cbv beta in A. now apply andb_true_iff.
Qed.
Lemma lex_value g field m ts : field_ok field -> bound m -> lexes g m ts ->
  lexes g (value_text g field ++ m) (value_toks g field ++ ts).
Proof.
  intros F B L. apply bound_stops in B. destruct field as [f|].
  - cbn [value_text value_toks field_ok] in *.
    assert (N : lexes g (f ++ m) (TId f :: ts)) by (apply lex_name; auto).
    destruct f as [|c f]; [destruct F|]. destruct F as [F1 F2].
    destruct (mem_chk g c F1) as [A1 A2].
    destruct g; rewrite <- app_assoc; cbn [app];
      try (change (cs "this." ++ c :: f ++ m) with (cs "this" ++ (cs "." ++ c :: f ++ m)); apply lex_name; [now vm_compute|reflexivity|];
           apply lex_op; auto).
    + change (cs "ptr->" ++ c :: f ++ m) with (cs "ptr" ++ (cs "->" ++ c :: f ++ m)). apply lex_name; [now vm_compute|reflexivity|].
      apply lex_op; auto.
    + change (cs "this->" ++ c :: f ++ m) with (cs "this" ++ (cs "->" ++ c :: f ++ m)). apply lex_name; [now vm_compute|reflexivity|].
      apply lex_op; auto.
    + change (cs "self._" ++ c :: f ++ m) with (cs "self" ++ (cs "." ++ "_"%char :: c :: f ++ m)).
      apply lex_name; [now vm_compute|reflexivity|].
      apply lex_op; [reflexivity|]. apply (lex_name OPy ("_"%char :: c :: f)); auto.
      split; [reflexivity|]. cbn [forallb]. rewrite F2. unfold is_word. now rewrite F1, orb_true_r.
  - apply (lex_name g (cs "value")); auto. now vm_compute.
Qed.

Lemma lex_number g (neg : bool) ds m ts : digits_ok ds -> bound m -> lexes g m ts ->
  lexes g (((if neg then ["-"%char] else []) ++ ds) ++ m) ((if neg then [sy "-"; TNum ds] else [TNum ds]) ++ ts).
Proof.
  intros D B L. rewrite <- app_assoc.
  assert (N : lexes g (ds ++ m) (TNum ds :: ts)) by (now apply lex_digits).
  destruct neg; cbn [app]; auto.
  destruct (digits_not_minus ds D) as (c & r & -> & Hc & _).
  apply (lex_op g (cs "-") c (r ++ m)); auto.
  change (un_ok g USub c = true). apply (un_head g USub c false); [discriminate|].
  right; left. unfold is_word. now rewrite Hc.
Qed.
