(** Proofs about the expressions: lexing and parsing the printed text. *)
From Coq Require Import ZArith Lia Bool String Ascii List.
Import ListNotations.
From Verif Require Import Base Literals PropsLit ExprModel ExprSpec.
Open Scope string_scope.
Open Scope Z_scope.
Open Scope list_scope.

(** ** Symbols *)

Lemma prefixb_app s l : prefixb s (s ++ l) = true.
Proof. induction s; cbn; auto. now rewrite Ascii.eqb_refl. Qed.
Lemma prefixb_spec s : forall l, prefixb s l = true -> exists r, l = s ++ r.
Proof.
  induction s as [|a s IH]; intros l H; [now exists l|]. destruct l as [|b l]; [discriminate|]. cbn in H.
  apply andb_true_iff in H as [H1 H2]. apply Ascii.eqb_eq in H1 as ->. destruct (IH l H2) as [r ->]. now exists r.
Qed.

Definition lstep (l acc t : chars) : chars := if prefixb t l && Nat.ltb (List.length acc) (List.length t) then t else acc.
Lemma fold_longest l : forall tbl acc, prefixb acc l = true ->
  let r := fold_left (lstep l) tbl acc in
  prefixb r l = true /\ (List.length acc <= List.length r)%nat /\ (r = acc \/ In r tbl) /\
  forall t, In t tbl -> prefixb t l = true -> (List.length t <= List.length r)%nat.
Proof.
  induction tbl as [|t tbl IH]; intros acc Ha; cbv zeta; cbn [fold_left].
  - repeat split; auto. intros t [].
  - assert (Hs : lstep l acc t = t /\ prefixb t l = true /\ (List.length acc < List.length t)%nat \/
                 lstep l acc t = acc /\ (prefixb t l = true -> (List.length t <= List.length acc)%nat)).
    { unfold lstep. destruct (prefixb t l); cbn [andb]; [|right; split; auto; discriminate].
      destruct (Nat.ltb_spec (List.length acc) (List.length t)); [left; auto|right; auto]. }
    destruct Hs as [(E & Hp & Hl)|(E & Hl)]; rewrite E.
    + destruct (IH t Hp) as (A & B & C & D). split; [exact A|]. split; [lia|]. split.
      * destruct C as [->|C]; right; [now left|now right].
      * intros u [<-|Hu] Hu'; auto.
    + destruct (IH acc Ha) as (A & B & C & D). split; [exact A|]. split; [exact B|]. split.
      * destruct C as [->|C]; [now left|right; now right].
      * intros u [<-|Hu] Hu'; auto. specialize (Hl Hu'). lia.
Qed.

Lemma same_prefix a b l : prefixb a l = true -> prefixb b l = true -> List.length a = List.length b -> a = b.
Proof.
  revert b l; induction a as [|x a IH]; intros [|y b] [|z l] H1 H2 L; cbn in *; try discriminate; auto.
  apply andb_true_iff in H1 as [E1 H1], H2 as [E2 H2]. apply Ascii.eqb_eq in E1, E2. subst. f_equal. apply (IH b l); auto.
Qed.

Lemma longest_is tbl l s : In s tbl -> prefixb s l = true ->
  (forall t, In t tbl -> prefixb t l = true -> (List.length t <= List.length s)%nat) -> longest tbl l = s.
Proof.
  intros Hi Hp Hm. unfold longest. change (fold_left (lstep l) tbl [] = s).
  destruct (fold_longest l tbl [] eq_refl) as (A & B & C & D). apply (same_prefix _ _ l); auto.
  pose proof (D s Hi Hp). destruct C as [C|C]; [rewrite C in *; cbn in *; lia|]. pose proof (Hm _ C A). lia.
Qed.

(** No symbol goes on after [s] with the character [c]. *)
Definition chk (g : olang) (s : chars) (c : ascii) : bool :=
  forallb (fun t => negb (prefixb (s ++ [c]) t)) (syms g) &&
  existsb (fun t => if list_eq_dec ascii_dec t s then true else false) (syms g) &&
  match s with a :: _ => negb (Ascii.eqb a " ") && negb (is_word a) | [] => false end.

Lemma prefix_longer s t c r : prefixb t (s ++ c :: r) = true -> (List.length s < List.length t)%nat -> prefixb (s ++ [c]) t = true.
Proof.
  revert t; induction s as [|a s IH]; intros [|b t] H L; cbn in *; try lia.
  - apply andb_true_iff in H as [H _]. apply Ascii.eqb_eq in H as ->. now rewrite Ascii.eqb_refl.
  - apply andb_true_iff in H as [H H2]. apply Ascii.eqb_eq in H as ->. rewrite Ascii.eqb_refl. apply IH; auto; lia.
Qed.

Lemma lex_op g s c r ts : chk g s c = true -> lexes g (c :: r) ts -> lexes g (s ++ c :: r) (TSym s :: ts).
Proof.
  intros H L. apply andb_true_iff in H as [H H3]. apply andb_true_iff in H as [H1 H2].
  destruct s as [|a s]; [discriminate|]. apply andb_true_iff in H3 as [H3 H4].
  cbn [app]. eapply lex_sym with (b := c :: r); eauto.
  - intros ->. now rewrite Ascii.eqb_refl in H3.
  - now apply negb_true_iff.
  - apply existsb_exists in H2 as (t & Hi & Ht). destruct (list_eq_dec ascii_dec t (a :: s)) as [->|]; [|discriminate].
    apply longest_is; auto.
    + apply (prefixb_app (a :: s)).
    + intros t Ht' Hp. rewrite forallb_forall in H1. specialize (H1 t Ht'). apply negb_true_iff in H1.
      destruct (Nat.le_gt_cases (List.length t) (List.length (a :: s))) as [Hle|Hgt]; auto.
      rewrite (prefix_longer (a :: s) t c r Hp Hgt) in H1. discriminate.
  - discriminate.
Qed.

(** A symbol that no other begins with. *)
Definition solid (g : olang) (s : chars) : bool :=
  forallb (fun t => negb (prefixb s t) || (if list_eq_dec ascii_dec t s then true else false)) (syms g) &&
  existsb (fun t => if list_eq_dec ascii_dec t s then true else false) (syms g) &&
  match s with a :: _ => negb (Ascii.eqb a " ") && negb (is_word a) | [] => false end.
Lemma prefix_le s t r : prefixb t (s ++ r) = true -> (List.length s < List.length t)%nat -> prefixb s t = true.
Proof.
  revert t; induction s as [|a s IH]; intros [|b t] H L; cbn in *; try lia; auto.
  apply andb_true_iff in H as [H H2]. apply Ascii.eqb_eq in H as ->. rewrite Ascii.eqb_refl. apply IH; auto; lia.
Qed.
Lemma lex_solid g s r ts : solid g s = true -> lexes g r ts -> lexes g (s ++ r) (TSym s :: ts).
Proof.
  intros H L. apply andb_true_iff in H as [H H3]. apply andb_true_iff in H as [H1 H2].
  destruct s as [|a s]; [discriminate|]. apply andb_true_iff in H3 as [H3 H4].
  cbn [app]. eapply lex_sym with (b := r); eauto.
  - intros ->. now rewrite Ascii.eqb_refl in H3.
  - now apply negb_true_iff.
  - apply existsb_exists in H2 as (t & Hi & Ht). destruct (list_eq_dec ascii_dec t (a :: s)) as [->|]; [|discriminate].
    apply longest_is; auto.
    + apply (prefixb_app (a :: s)).
    + intros t Ht' Hp. rewrite forallb_forall in H1. specialize (H1 t Ht').
      destruct (Nat.le_gt_cases (List.length t) (List.length (a :: s))) as [Hle|Hgt]; auto.
      rewrite (prefix_le (a :: s) t r Hp Hgt) in H1. cbn [negb orb] in H1.
      destruct (list_eq_dec ascii_dec t (a :: s)) as [->|]; [lia|discriminate].
  - discriminate.
Qed.

(** ** Words and numbers *)

Definition stops (l : chars) : Prop := match l with c :: _ => is_word c = false | [] => True end.
Lemma word_run_app w r : forallb is_word w = true -> stops r -> word_run (w ++ r) = (w, r).
Proof.
  induction w as [|c w IH]; intros H S; cbn.
  - destruct r as [|c r]; auto. cbn in *. now rewrite S.
  - cbn in H. apply andb_true_iff in H as [H1 H2]. now rewrite H1, IH.
Qed.
Lemma lex_name g w r ts : name_ok w -> stops r -> lexes g r ts -> lexes g (w ++ r) (TId w :: ts).
Proof.
  intros H S L. destruct w as [|c w]; [destruct H|]. destruct H as [H1 H2]. cbn [app].
  eapply lex_word; eauto. now apply word_run_app.
Qed.

(** What may follow an expression. *)
Definition bound (l : chars) : Prop :=
  match l with c :: _ => c = " "%char \/ c = ")"%char \/ c = ","%char | [] => True end.
Lemma bound_stops l : bound l -> stops l.
Proof. destruct l; cbn; auto. intros [->|[->| ->]]; reflexivity. Qed.

Lemma num_run_app r : forall c m, num_run c r = (r, []) -> bound m -> num_run c (r ++ m) = (r, m).
Proof.
  induction r as [|d r IH]; intros c m H B.
  - destruct m as [|x m]; auto. cbn in B. destruct B as [->|[->| ->]]; reflexivity.
  - cbn [app num_run] in *. destruct (is_word d || _ || _); [|discriminate].
    destruct (num_run d r) as [x y] eqn:E. injection H as -> ->. now rewrite (IH d m E B).
Qed.
Lemma lex_digits g ds m ts : digits_ok ds -> bound m -> lexes g m ts -> lexes g (ds ++ m) (TNum ds :: ts).
Proof.
  intros H B L. destruct ds as [|c r]; [destruct H|]. destruct H as [H1 H2]. cbn [app].
  eapply lex_num; eauto. now apply num_run_app.
Qed.
Lemma words_digits c r : is_num c = true -> forallb is_word r = true -> digits_ok (c :: r).
Proof.
  intros H W. split; auto. clear H. revert c. induction r as [|d r IH]; intros c; cbn; auto.
  cbn in W. apply andb_true_iff in W as [W1 W2]. rewrite W1. cbn [orb]. now rewrite (IH W2 d).
Qed.

(** ** Literal pieces of text *)

(** A lexer for pieces whose last token cannot go on. *)
Fixpoint lexc (g : olang) (n : nat) (l : chars) : option (list token) :=
  match n with
  | O => None
  | S n =>
      match l with
      | [] => Some []
      | c :: r =>
          if Ascii.eqb c " " then lexc g n r
          else if is_num c then None
          else if is_alpha c then
            let (a, b) := word_run r in
            match b with [] => None | _ => option_map (cons (TId (c :: a))) (lexc g n b) end
          else
            let s := longest (syms g) l in
            let b := skipn (List.length s) l in
            if prefixb s l && (solid g s || match b with x :: _ => chk g s x | [] => false end)
            then option_map (cons (TSym s)) (lexc g n b) else None
      end
  end.
Lemma word_run_split l : forall a b, word_run l = (a, b) -> l = a ++ b /\ forallb is_word a = true /\ stops b.
Proof.
  induction l as [|c l IH]; intros a b H; cbn in H; [now injection H as <- <-|].
  destruct (is_word c) eqn:E; [|injection H as <- <-; repeat split; auto].
  destruct (word_run l) as [x y]. injection H as <- <-. destruct (IH x y eq_refl) as (-> & A & B). cbn. now rewrite E.
Qed.
Definition sym_step (g : olang) (l : chars) : option (chars * chars) :=
  let s := longest (syms g) l in
  let b := skipn (List.length s) l in
  if prefixb s l && (solid g s || match b with x :: _ => chk g s x | [] => false end) then Some (s, b) else None.
Lemma lexc_S g n c r : lexc g (S n) (c :: r) =
  if Ascii.eqb c " " then lexc g n r
  else if is_num c then None
  else if is_alpha c then
    let (a, b) := word_run r in match b with [] => None | _ => option_map (cons (TId (c :: a))) (lexc g n b) end
  else match sym_step g (c :: r) with Some (s, b) => option_map (cons (TSym s)) (lexc g n b) | None => None end.
Proof.
  cbn [lexc]. destruct (Ascii.eqb c " "); [reflexivity|]. destruct (is_num c); [reflexivity|]. destruct (is_alpha c); [reflexivity|].
  unfold sym_step. cbv zeta. destruct (prefixb _ _ && _); reflexivity.
Qed.
Lemma sym_step_lex g r ts l s b : sym_step g l = Some (s, b) -> lexes g (b ++ r) ts -> lexes g (l ++ r) (TSym s :: ts).
Proof.
  unfold sym_step. cbv zeta. generalize (longest (syms g) l). intros s0 H L.
  destruct (prefixb s0 l) eqn:P; [|discriminate]. destruct (prefixb_spec _ _ P) as [b0 Eb]. clear P. subst l.
  rewrite skipn_app, skipn_all, Nat.sub_diag in H. rewrite app_nil_l, skipn_O in H. rewrite andb_true_l in H.
  destruct (solid g s0) eqn:So.
  - rewrite orb_true_l in H. injection H as E1 E2. subst. rewrite <- app_assoc. now apply lex_solid.
  - rewrite orb_false_l in H. destruct b0 as [|x b0]; [discriminate|]. destruct (chk g s0 x) eqn:Ck; [|discriminate].
    injection H as E1 E2. subst. rewrite <- app_assoc. now apply lex_op.
Qed.
Lemma lex_lit0 g r rs : lexes g r rs -> forall n l ts, lexc g n l = Some ts -> lexes g (l ++ r) (ts ++ rs).
Proof.
  intros L. induction n as [|n IH]; intros l ts H; [discriminate|].
  destruct l as [|c l]; [injection H as <-; auto|]. rewrite lexc_S in H.
  destruct (Ascii.eqb_spec c " ") as [->|Hc]; [cbn [app]; constructor; auto|].
  destruct (is_num c) eqn:En; [discriminate|]. destruct (is_alpha c) eqn:Ea.
  - destruct (word_run l) as [a b] eqn:W. destruct b as [|x b]; [discriminate|].
    destruct (lexc g n (x :: b)) as [ts'|] eqn:E; [|discriminate]. cbn [option_map] in H. injection H as <-.
    destruct (word_run_split _ _ _ W) as (-> & A & B). specialize (IH _ _ E).
    cbn [app]. eapply lex_word with (b := (x :: b) ++ r); auto.
    rewrite <- app_assoc. apply word_run_app; auto.
  - destruct (sym_step g (c :: l)) as [[s b]|] eqn:Es; [|discriminate].
    destruct (lexc g n b) as [ts'|] eqn:E; [|discriminate]. injection H as <-.
    apply (sym_step_lex g r (ts' ++ rs) (c :: l) s b Es). now apply IH.
Qed.
Lemma lex_lit g s ts r rs : lexc g (S (List.length (cs s))) (cs s) = Some ts -> lexes g r rs -> lexes g (cs s ++ r) (ts ++ rs).
Proof. intros H L. eapply lex_lit0; eauto. Qed.

(** ** The tree of an expression *)

(** The tree of the target language that says what the schema's expression says. *)
Fixpoint meaning (g : olang) (dn : bool) (vt : bty) (field : option chars) (e : expr) : node :=
  let m := meaning g dn vt field in
  match e with
  | EValue => value_node g field
  | EInt l => num_node (emit_int g dn l)
  | EFloat neg ds => if neg then NUn (cs "-") (NNum ds) else NNum ds
  | EBool b => NId (cs match g with OPy => if b then "True" else "False" | _ => if b then "true" else "false" end)
  | EUn o a =>
      match o, g with
      | UBnot, OKt => call_method (m a) "inv" []
      | _, _ => NUn (cs (un_sym g o)) (m a)
      end
  | EBin o a b =>
      match o, g with
      | OPow, OGo => NCall (NMem (NId (cs "math")) (cs ".") (cs "Pow")) [m a; m b]
      | OPow, (OC | OCpp) => NCall (NId (cs "pow")) [m a; m b]
      | OPow, OCs => NCall (NMem (NId (cs "Math")) (cs ".") (cs "Pow")) [m a; m b]
      | OPow, OJava => NCall (NMem (NId (cs "Math")) (cs ".") (cs "pow")) [m a; m b]
      | OPow, OKt => call_method (call_method (m a) "toDouble" []) "pow" [call_method (m b) "toDouble" []]
      | (OShl | OShr), OKt => NBin (cs (bin_sym g o)) (m a) (call_method (m b) "toInt" [])
      | _, _ => NBin (cs (bin_sym g o)) (m a) (m b)
      end
  | ECast t a =>
      match g with
      | OC | OCpp | OCs | OJava => NCast (type_name g t) (m a)
      | OKt =>
          match t with
          | TyBool => NBin (cs "!=") (m a) (NNum (cs "0"))
          | TyU8 => call_method (call_method (m a) "toUInt" []) "toUByte" []
          | TyU16 => call_method (call_method (m a) "toUInt" []) "toUShort" []
          | TyU32 => call_method (m a) "toUInt" []
          | TyU64 => call_method (m a) "toULong" []
          | TyI8 => call_method (call_method (m a) "toInt" []) "toByte" []
          | TyI16 => call_method (call_method (m a) "toInt" []) "toShort" []
          | TyI32 => call_method (m a) "toInt" []
          | TyI64 => call_method (m a) "toLong" []
          | TyF32 => call_method (m a) "toFloat" []
          | TyF64 => call_method (m a) "toDouble" []
          end
      | _ => NCall (NId (type_name g t)) [m a]
      end
  | ETern c a b =>
      NIf (match g with OGo => option_map (type_name g) (expr_type vt a) | _ => None end) (m c) (m a) (m b)
  end.

(** ** The tokens of an expression *)

Definition num_toks (l : chars) : list token :=
  match l with
  | c :: r => if Ascii.eqb c "-" then [sy "-"; TNum r] else [TNum l]
  | [] => [TNum l]
  end.
Definition value_toks (g : olang) (field : option chars) : list token :=
  match field with
  | None => [kw "value"]
  | Some f =>
      match g with
      | OPy => [kw "self"; sy "."; TId ("_"%char :: f)]
      | OC => [kw "ptr"; sy "->"; TId f]
      | OCpp => [kw "this"; sy "->"; TId f]
      | _ => [kw "this"; sy "."; TId f]
      end
  end.
Definition un_tok (g : olang) (o : unop) : token := match o, g with UNot, OPy => kw "not" | _, _ => TSym (un_text g o) end.
Definition bin_tok (g : olang) (o : binop) : token :=
  match g, o with
  | OKt, (OShl | OShr | OBand | OBxor | OBor) | OPy, (OAnd | OOr) => TId (bin_text g o)
  | _, _ => TSym (bin_text g o)
  end.
Definition to_method (m : chars) : list token := [sy "."; TId m; sy "("; sy ")"].

Fixpoint toks (g : olang) (dn : bool) (vt : bty) (field : option chars) (e : expr) : list token :=
  let pr := toks g dn vt field in
  match e with
  | EValue => value_toks g field
  | EInt l => num_toks (emit_int g dn l)
  | EFloat neg ds => if neg then [sy "-"; TNum ds] else [TNum ds]
  | EBool b => [TId (bool_text g b)]
  | EUn o a =>
      match g, o with
      | OKt, UBnot => sy "(" :: pr a ++ sy ")" :: to_method (cs "inv")
      | _, _ => sy "(" :: un_tok g o :: pr a ++ [sy ")"]
      end
  | EBin o a b =>
      match o, g with
      | OPow, OKt => sy "(" :: pr a ++ sy ")" :: to_method (cs "toDouble") ++ [sy "."; kw "pow"; sy "("; sy "("] ++ pr b ++
                     sy ")" :: to_method (cs "toDouble") ++ [sy ")"]
      | (OShl | OShr), OKt => sy "(" :: pr a ++ bin_tok g o :: sy "(" :: pr b ++ sy ")" :: to_method (cs "toInt") ++ [sy ")"]
      | OPow, (OC | OCpp) => [kw "pow"; sy "("] ++ pr a ++ sy "," :: pr b ++ [sy ")"]
      | OPow, OGo => [kw "math"; sy "."; kw "Pow"; sy "("] ++ pr a ++ sy "," :: pr b ++ [sy ")"]
      | OPow, OCs => [kw "Math"; sy "."; kw "Pow"; sy "("] ++ pr a ++ sy "," :: pr b ++ [sy ")"]
      | OPow, OJava => [kw "Math"; sy "."; kw "pow"; sy "("] ++ pr a ++ sy "," :: pr b ++ [sy ")"]
      | _, _ => sy "(" :: pr a ++ bin_tok g o :: pr b ++ [sy ")"]
      end
  | ECast t a =>
      match g with
      | OC | OCpp | OCs | OJava => sy "(" :: TId (type_name g t) :: sy ")" :: pr a
      | OKt =>
          match t with
          | TyBool => sy "(" :: pr a ++ [sy "!="; TNum (cs "0"); sy ")"]
          | TyU8 | TyU16 => sy "(" :: pr a ++ sy ")" :: to_method (cs "toUInt") ++ to_method (cs "to" ++ type_name g t)
          | TyI8 | TyI16 => sy "(" :: pr a ++ sy ")" :: to_method (cs "toInt") ++ to_method (cs "to" ++ type_name g t)
          | _ => sy "(" :: pr a ++ sy ")" :: to_method (cs "to" ++ type_name g t)
          end
      | _ => TId (type_name g t) :: sy "(" :: pr a ++ [sy ")"]
      end
  | ETern c a b =>
      match g with
      | OGo => [kw "func"; sy "("; sy ")"; TId (match expr_type vt a with Some t => type_name g t | None => [] end); sy "{"; kw "if"] ++
               pr c ++ [sy "{"; kw "return"] ++ pr a ++ [sy "}"; kw "else"; sy "{"; kw "return"] ++ pr b ++
               [sy "}"; sy "}"; sy "("; sy ")"]
      | OPy => sy "(" :: pr a ++ kw "if" :: pr c ++ kw "else" :: pr b ++ [sy ")"]
      | OKt => [sy "("; kw "if"; sy "("] ++ pr c ++ sy ")" :: pr a ++ kw "else" :: pr b ++ [sy ")"]
      | _ => sy "(" :: pr c ++ sy "?" :: pr a ++ sy ":" :: pr b ++ [sy ")"]
      end
  end.

(** ** Constants *)

Lemma digit_word c : is_digit c -> is_word c = true.
Proof.
  unfold is_digit, digit_value, is_word, is_num, is_alpha, code. destruct c as [b0 b1 b2 b3 b4 b5 b6 b7].
  destruct b0, b1, b2, b3, b4, b5, b6, b7; vm_compute; intros; congruence.
Qed.
Lemma dchar_num d : 0 <= d < 10 -> is_num (dchar d) = true.
Proof.
  intros H. assert (E : d = 0 \/ d = 1 \/ d = 2 \/ d = 3 \/ d = 4 \/ d = 5 \/ d = 6 \/ d = 7 \/ d = 8 \/ d = 9) by lia.
  repeat (destruct E as [->|E]; [reflexivity|]). now subst d.
Qed.

Lemma emit_digits b n g w : 0 <= n -> digits_ok (base_pre b ++ fmt_uint (base_num b) n ++ suffix_of g w).
Proof.
  intros Hn.
  assert (W : forallb is_word (fmt_uint (base_num b) n ++ suffix_of g w) = true).
  { rewrite forallb_app. apply andb_true_iff; split.
    - apply forallb_forall. intros c Hc. apply digit_word.
      assert (2 <= base_num b <= 16) by (destruct b; cbn; lia).
      pose proof (fmt_digits (base_num b) n H Hn) as F. rewrite Forall_forall in F. auto.
    - destruct g, w; reflexivity. }
  destruct b; cbn [base_pre cs list_ascii_of_string app] in *;
    try (apply words_digits; [reflexivity|]; cbn [forallb]; rewrite W; reflexivity);
    cbn [base_num] in *;
    destruct (fmt_head 10 n ltac:(lia) Hn) as (d & r & E & Hd & _); rewrite E in *; cbn [app forallb] in *;
    apply andb_true_iff in W as [_ W]; apply words_digits; auto; apply dchar_num; lia.
Qed.

Lemma emit_shape g dn l : i_uns l = false -> (i_val l < 0 -> dn = true \/ i_base l = BDec \/ i_base l = BAuto) ->
  exists ds, digits_ok ds /\ emit_int g dn l = (if i_val l <? 0 then ["-"%char] else []) ++ ds.
Proof.
  destruct l as [z u b]. cbn [i_uns i_val i_base]. intros -> H.
  eexists; split; [|apply emit_signed].
  - apply emit_digits. lia.
  - destruct (Z.ltb_spec z 0) as [L|L]; [right|now left]. destruct dn; auto. destruct (H L) as [?|[->| ->]]; auto. discriminate.
Qed.

Lemma digits_not_minus ds : digits_ok ds -> exists c r, ds = c :: r /\ is_num c = true /\ Ascii.eqb c "-" = false.
Proof.
  destruct ds as [|c r]; [intros []|]. intros [H _]. exists c, r. repeat split; auto.
  destruct (Ascii.eqb_spec c "-") as [->|]; auto; discriminate.
Qed.
