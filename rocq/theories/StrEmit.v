(** String constants in the generated code, and property C72.
    Models the GenerateStringLiteral of every target (golang.go:3035-3037, c.go:3413-3415, cpp.go:3678-3680,
    csharp.go:3587-3589, java.go:3337-3339, python.go:2580-2582, commonjs.go:3839-3841: the text between quotation marks
    as it is; esm_decode.go:1008-1010 with %q and kotlin.go:582-583 with strconv.Quote).
    Strings of ASCII characters only. *)
From Coq Require Import String Ascii List Bool Lia Arith ZArith.
From Verif Require Import Base BaseProofs Literals.
Import ListNotations.
Open Scope string_scope.
Open Scope nat_scope.
Open Scope list_scope.

Definition QQ : ascii := """"%char.
Definition BS : ascii := "\"%char.

(** ** Model *)

(** Go's strconv.Quote and %q on ASCII (strconv/quote.go: appendEscapedRune). *)
Definition lowhex (n : nat) : ascii := List.nth n (cs "0123456789abcdef") "0"%char.
Definition go_quote_char (c : ascii) : chars :=
  let n := nat_of_ascii c in
  if Ascii.eqb c QQ || Ascii.eqb c BS then [BS; c]
  else if (32 <=? n) && (n <=? 126) then [c]
  else if n =? 7 then [BS; "a"%char] else if n =? 8 then [BS; "b"%char] else if n =? 12 then [BS; "f"%char]
  else if n =? 10 then [BS; "n"%char] else if n =? 13 then [BS; "r"%char] else if n =? 9 then [BS; "t"%char]
  else if n =? 11 then [BS; "v"%char]
  else [BS; "x"%char; lowhex (n / 16); lowhex (n mod 16)].
Definition go_quote (s : chars) : chars := QQ :: flat_map go_quote_char s ++ [QQ].
(** fmt.Sprintf of a quotation mark, %s, a quotation mark. *)
Definition bare_quote (s : chars) : chars := QQ :: s ++ [QQ].
Definition emit_str (g : olang) (s : chars) : chars :=
  match g with OEsm | OKt => go_quote s | _ => bare_quote s end.

(** ** Specification: string literals between quotation marks in the target languages *)

Definition hexv (c : ascii) : option nat := match digit_value c with Some d => Some (Z.to_nat d) | None => None end.
Definition octv (c : ascii) : option nat :=
  match hexv c with Some d => if d <? 8 then Some d else None | None => None end.
(** One-character escapes: the languages' reference manuals. *)
Definition common_escapes : list (ascii * nat) :=
  [("b"%char, 8); ("n"%char, 10); ("r"%char, 13); ("t"%char, 9); (BS, 92); (QQ, 34)].
Definition simple (g : olang) : list (ascii * nat) :=
  common_escapes ++
  match g with
  | OGo => [("a"%char, 7); ("f"%char, 12); ("v"%char, 11)]
  | OC | OCpp => [("a"%char, 7); ("f"%char, 12); ("v"%char, 11); ("'"%char, 39); ("?"%char, 63)]
  | OCs => [("a"%char, 7); ("f"%char, 12); ("v"%char, 11); ("'"%char, 39); ("0"%char, 0)]
  | OJava => [("f"%char, 12); ("s"%char, 32); ("'"%char, 39)]
  | OKt => [("'"%char, 39); ("$"%char, 36)]
  | OPy => [("a"%char, 7); ("f"%char, 12); ("v"%char, 11); ("'"%char, 39)]
  | OCjs | OEsm => [("f"%char, 12); ("v"%char, 11); ("'"%char, 39)]
  end.
Fixpoint lookup (c : ascii) (l : list (ascii * nat)) : option nat :=
  match l with [] => None | (k, v) :: r => if Ascii.eqb k c then Some v else lookup c r end.
(** Up to [k] digits; the value so far. *)
Fixpoint some_digits (dv : ascii -> option nat) (b k acc : nat) (l : chars) : nat * chars :=
  match k, l with
  | S k', c :: r => match dv c with Some d => some_digits dv b k' (acc * b + d) r | None => (acc, l) end
  | _, _ => (acc, l)
  end.
(** What follows a backslash: the characters it stands for and the rest.  [None]: not allowed, not a single
    byte, or a universal character name (backslash u), which no target prints. *)
Definition byte_of (n : nat) (r : chars) : option (chars * chars) := if n <? 256 then Some ([ascii_of_nat n], r) else None.
Definition js_plain (c : ascii) : bool := negb (Ascii.eqb c "u" || Ascii.eqb c "010" || Ascii.eqb c "013").
Definition escape (g : olang) (l : chars) : option (chars * chars) :=
  match l with
  | [] => None
  | c :: r =>
    match lookup c (simple g) with
    | Some v => byte_of v r
    | None =>
      if Ascii.eqb c "x" then
        match g, r with
        | (OGo | OPy | OCjs | OEsm), a :: b :: r' =>
            match hexv a, hexv b with Some x, Some y => byte_of (x * 16 + y) r' | _, _ => None end
        | (OC | OCpp), a :: _ => match hexv a with
                                | Some _ => let '(v, r') := some_digits hexv 16 (length r) 0 r in byte_of v r'
                                | None => None end
        | OCs, a :: _ => match hexv a with
                         | Some _ => let '(v, r') := some_digits hexv 16 4 0 r in byte_of v r'
                         | None => None end
        | _, _ => None
        end
      else match octv c with
      | Some _ =>
          match g with
          | OGo => match r with
                   | a :: b :: r' => match octv c, octv a, octv b with
                                     | Some x, Some y, Some z => byte_of (x * 64 + y * 8 + z) r'
                                     | _, _, _ => None end
                   | _ => None end
          | OC | OCpp | OPy => let '(v, r') := some_digits octv 8 3 0 l in byte_of v r'
          | OJava => let '(v, r') := some_digits octv 8 (if Ascii.leb c "3" then 3 else 2) 0 l in byte_of v r'
          | OCjs | OEsm => match r with       (* \0 not before a digit; other octal escapes only in sloppy mode *)
                           | d :: _ => if Ascii.eqb c "0" then match digit_value d with Some v => if (v <? 10)%Z then None else byte_of 0 r | None => byte_of 0 r end else None
                           | [] => None end
          | _ => None
          end
      | None =>
          match g with
          | OPy => if Ascii.eqb c "N" || Ascii.eqb c "u" || Ascii.eqb c "U" || Ascii.eqb c "010" then None
                   else Some ([BS; c], r)     (* Python keeps the backslash *)
          | OCjs | OEsm => if js_plain c then Some ([c], r) else None
          | _ => None
          end
      end
    end
  end.
(** Characters that stand for themselves; a template in Kotlin (a dollar before a letter, an underscore or a
    brace) is not a constant.  Control characters are left out in all languages. *)
Definition id_start (l : chars) : bool :=
  match l with
  | c :: _ => (Ascii.leb "a" c && Ascii.leb c "z") || (Ascii.leb "A" c && Ascii.leb c "Z") || Ascii.eqb c "_"
              || Ascii.eqb c "{" || Ascii.eqb c "`"
  | [] => false
  end.
Definition itself (g : olang) (c : ascii) (r : chars) : bool :=
  let n := nat_of_ascii c in
  (((32 <=? n) && (n <=? 126)) || (n =? 9)) && match g with OKt => negb (Ascii.eqb c "$" && id_start r) | _ => true end.
Fixpoint read_inside (n : nat) (g : olang) (l : chars) : option chars :=
  match n, l with
  | S n', c :: r =>
      if Ascii.eqb c QQ then match r with [] => Some [] | _ => None end
      else if Ascii.eqb c BS then
        match escape g r with
        | Some (v, r') => option_map (app v) (read_inside n' g r')
        | None => None
        end
      else if itself g c r then option_map (cons c) (read_inside n' g r) else None
  | _, _ => None
  end.
(** The value of a text that is one string literal. *)
Definition read_str (g : olang) (t : chars) : option chars :=
  match t with c :: r => if Ascii.eqb c QQ then read_inside (length r) g r else None | [] => None end.

(** The strings that arrive. *)
Definition plain (c : ascii) : bool :=
  let n := nat_of_ascii c in
  (((32 <=? n) && (n <=? 126)) || (n =? 9)) && negb (Ascii.eqb c QQ) && negb (Ascii.eqb c BS).
Definition ascii_only (s : chars) : Prop := Forall (fun c => nat_of_ascii c < 128) s.

(** ** Proofs *)

Lemma read_bare g s : g <> OKt -> forallb plain s = true -> forall n, length s < n ->
  read_inside n g (s ++ [QQ]) = Some s.
Proof.
  intros K. induction s as [|c s IH]; intros P n L; (destruct n as [|n]; [cbn in L; lia|]); [reflexivity|].
  cbn [forallb] in P. apply andb_prop in P as [P1 P2]. unfold plain in P1. apply andb_prop in P1 as [P1 N2].
  apply andb_prop in P1 as [P1 N1]. apply negb_true_iff in N1, N2.
  cbn [app read_inside]. rewrite N1, N2. unfold itself. rewrite P1.
  cbn [length] in L. rewrite IH by (auto; lia). destruct g; try reflexivity. congruence.
Qed.
(** A string of plain characters arrives in all targets but Kotlin. *)
Theorem C72_plain : forall g s, g <> OKt -> g <> OEsm -> forallb plain s = true -> read_str g (emit_str g s) = Some s.
Proof.
  intros g s K E P. assert (X : emit_str g s = bare_quote s) by (destruct g; congruence || reflexivity).
  rewrite X. unfold bare_quote, read_str. cbn [Ascii.eqb]. rewrite Ascii.eqb_refl.
  apply read_bare; auto. rewrite app_length. cbn. lia.
Qed.

(** Escapes take more characters than they give. *)
Lemma some_digits_len dv b k : forall acc l, length (snd (some_digits dv b k acc l)) <= length l.
Proof.
  induction k as [|k IH]; intros acc l; cbn [some_digits]; [cbn; lia|].
  destruct l as [|c r]; [cbn; lia|]. destruct (dv c); [|cbn; lia]. specialize (IH (acc * b + n) r). cbn [length]. lia.
Qed.
Lemma byte_of_len n r v r' : byte_of n r = Some (v, r') -> length v = 1 /\ r' = r.
Proof. unfold byte_of. destruct (_ <? _); [|discriminate]. intros H. injection H as <- <-. auto. Qed.
Lemma some_digits_lt dv b k acc c r d : dv c = Some d ->
  length (snd (some_digits dv b (S k) acc (c :: r))) <= length r.
Proof. intros H. cbn [some_digits]. rewrite H. apply some_digits_len. Qed.
Lemma escape_len g l v r : g <> OPy -> escape g l = Some (v, r) -> length v + length r <= length l.
Proof.
  intros NP. unfold escape. destruct l as [|c l]; [discriminate|].
  destruct (lookup c (simple g)) as [x|].
  { intros H. apply byte_of_len in H as [H ->]. cbn. lia. }
  destruct (Ascii.eqb c "x").
  { destruct l as [|a [|b l]].
    - destruct g; discriminate.
    - destruct g; try discriminate; destruct (hexv a) eqn:A; try discriminate;
      (destruct (some_digits _ _ _ _ _) as [w q] eqn:E; intros H; apply byte_of_len in H as [H ->];
       match type of E with some_digits ?dv ?b0 ?k ?acc ?l0 = _ => pose proof (some_digits_len dv b0 k acc l0) as S end;
       rewrite E in S; cbn [length snd] in *; lia).
    - destruct g; try discriminate; destruct (hexv a) eqn:A; try discriminate;
      try (destruct (hexv b); [|discriminate]; intros H; apply byte_of_len in H as [H ->]; cbn; lia);
      (destruct (some_digits _ _ _ _ _) as [w q] eqn:E; intros H; apply byte_of_len in H as [H ->];
       match type of E with some_digits ?dv ?b0 ?k ?acc ?l0 = _ => pose proof (some_digits_len dv b0 k acc l0) as S end;
       rewrite E in S; cbn [length snd] in *; lia). }
  destruct (octv c) as [o|] eqn:O.
  - assert (SD : forall k, length (snd (some_digits octv 8 (S k) 0 (c :: l))) <= length l)
      by (intros k; now apply some_digits_lt with o).
    destruct g; try discriminate; try congruence.
    + destruct l as [|a [|b l]]; try discriminate. destruct (octv a), (octv b); try discriminate.
      intros H. apply byte_of_len in H as [H ->]. cbn. lia.
    + specialize (SD 2). destruct (some_digits _ _ _ _ _) as [w q]. intros H. apply byte_of_len in H as [H ->].
      cbn [length snd] in *. lia.
    + specialize (SD 2). destruct (some_digits _ _ _ _ _) as [w q]. intros H. apply byte_of_len in H as [H ->].
      cbn [length snd] in *. lia.
    + destruct (Ascii.leb c "3"); [specialize (SD 2)|specialize (SD 1)]; destruct (some_digits _ _ _ _ _) as [w q];
        intros H; apply byte_of_len in H as [H ->]; cbn [length snd] in *; lia.
    + destruct l as [|d l]; [discriminate|]. destruct (Ascii.eqb c "0"); [|discriminate].
      destruct (digit_value d) as [z|]; [destruct (z <? 10)%Z; [discriminate|]|];
        intros H; apply byte_of_len in H as [H ->]; cbn; lia.
    + destruct l as [|d l]; [discriminate|]. destruct (Ascii.eqb c "0"); [|discriminate].
      destruct (digit_value d) as [z|]; [destruct (z <? 10)%Z; [discriminate|]|];
        intros H; apply byte_of_len in H as [H ->]; cbn; lia.
  - destruct g; try discriminate; try congruence; (destruct (js_plain c); [|discriminate]);
      intros H; injection H as <- <-; cbn; lia.
Qed.
Lemma read_len g n l s : g <> OPy -> read_inside n g l = Some s -> length s < length l.
Proof.
  intros NP. revert l s. induction n as [|n IH]; intros l s H; [discriminate|]. destruct l as [|c r]; [discriminate|].
  cbn [read_inside] in H. destruct (Ascii.eqb c QQ).
  { destruct r; [|discriminate]. injection H as <-. cbn. lia. }
  destruct (Ascii.eqb c BS).
  - destruct (escape g r) as [[v r']|] eqn:E; [|discriminate]. apply escape_len in E; [|exact NP].
    destruct (read_inside n g r') as [t|] eqn:R; [|discriminate]. injection H as <-. apply IH in R.
    rewrite app_length. cbn [length]. lia.
  - destruct (itself g c r); [|discriminate]. destruct (read_inside n g r) as [t|] eqn:R; [|discriminate].
    injection H as <-. apply IH in R. cbn [length]. lia.
Qed.
(** ... and no other string does: one with a quotation mark, a backslash or a control character changes or
    does not compile.  (In Python a backslash before a character that makes no escape survives.) *)
Theorem C72_only_plain : forall g s, g <> OKt -> g <> OEsm -> g <> OPy ->
  read_str g (emit_str g s) = Some s -> forallb plain s = true.
Proof.
  intros g s K E NP. assert (X : emit_str g s = bare_quote s) by (destruct g; congruence || reflexivity).
  rewrite X. unfold bare_quote, read_str. rewrite Ascii.eqb_refl. generalize (length (s ++ [QQ])) as n. intros n.
  revert s X. enough (G : forall s, read_inside n g (s ++ [QQ]) = Some s -> forallb plain s = true) by (intros s _; apply G).
  induction n as [|n IH]; intros s H; [discriminate|]. destruct s as [|c s]; [reflexivity|].
  cbn [app read_inside] in H. destruct (Ascii.eqb c QQ) eqn:Q.
  { destruct s; discriminate. }
  destruct (Ascii.eqb c BS) eqn:B.
  - exfalso. destruct (escape g (s ++ [QQ])) as [[v r']|] eqn:S; [|discriminate].
    apply escape_len in S; [|exact NP]. destruct (read_inside n g r') as [t|] eqn:R; [|discriminate].
    apply read_len in R; [|exact NP]. cbn [option_map] in H. injection H as H. apply (f_equal (@length ascii)) in H.
    rewrite app_length in H, S. cbn [length] in *. lia.
  - destruct (itself g c (s ++ [QQ])) eqn:I; [|discriminate]. destruct (read_inside n g (s ++ [QQ])) as [t|] eqn:R; [|discriminate].
    injection H as ->. cbn [forallb]. rewrite (IH _ R), andb_true_r. unfold plain. rewrite Q, B.
    unfold itself in I. apply andb_prop in I as [I _]. now rewrite I.
Qed.

(** ESM: everything but the bell character, which JavaScript does not know (an escaped "a" is an "a"). *)
Definition BEL : ascii := "007"%char.
Lemma esm_char c n r : nat_of_ascii c < 128 -> c <> BEL ->
  read_inside (S n) OEsm (go_quote_char c ++ r) = option_map (cons c) (read_inside n OEsm r).
Proof.
  intros L N. destruct c as [[] [] [] [] [] [] [] []]; try (exfalso; apply N; reflexivity);
    try (exfalso; vm_compute in L; lia); clear L N;
    cbn [app]; cbv -[read_inside option_map]; cbn [read_inside]; reflexivity.
Qed.
Lemma esm_inside s : ascii_only s -> ~ In BEL s -> forall n, length s < n ->
  read_inside n OEsm (flat_map go_quote_char s ++ [QQ]) = Some s.
Proof.
  induction s as [|c s IH]; intros A N n L; (destruct n as [|n]; [cbn in L; lia|]); [reflexivity|].
  inversion A; subst. cbn [flat_map]. rewrite <- app_assoc, esm_char; auto.
  - cbn [length] in L. rewrite IH; auto; try lia. intros X. apply N. now right.
  - intros ->. apply N. now left.
Qed.
Lemma quote_len s : length s <= length (flat_map go_quote_char s).
Proof.
  induction s as [|c s IH]; [cbn; lia|]. cbn [flat_map length]. rewrite app_length.
  assert (1 <= length (go_quote_char c)); [|lia].
  unfold go_quote_char. repeat match goal with |- context [if ?b then _ else _] => destruct b end; cbn; lia.
Qed.
Theorem C72_esm : forall s, ascii_only s -> ~ In BEL s -> read_str OEsm (emit_str OEsm s) = Some s.
Proof.
  intros s A N. unfold emit_str, go_quote, read_str. rewrite Ascii.eqb_refl. apply esm_inside; auto.
  rewrite app_length. pose proof (quote_len s). cbn. lia.
Qed.
(** Kotlin: printable characters, tab, line feed, carriage return and backspace, and no template. *)
Definition kt_char (c : ascii) : bool :=
  let n := nat_of_ascii c in ((32 <=? n) && (n <=? 126)) || (n =? 8) || (n =? 9) || (n =? 10) || (n =? 13).
Fixpoint no_template (s : chars) : bool :=
  match s with c :: r => negb (Ascii.eqb c "$" && id_start r) && no_template r | [] => true end.
Lemma kt_char_step c n r : kt_char c = true -> negb (Ascii.eqb c "$" && id_start r) = true ->
  read_inside (S n) OKt (go_quote_char c ++ r) = option_map (cons c) (read_inside n OKt r).
Proof.
  intros K T. destruct c as [[] [] [] [] [] [] [] []]; try (vm_compute in K; discriminate K);
    clear K; try (clear T; cbn [app]; cbv -[read_inside option_map]; cbn [read_inside]; reflexivity).
  cbn [app]. change (go_quote_char _) with ["$"%char]. cbn [app read_inside]. cbn [Ascii.eqb] in T.
  unfold itself. unfold andb in T at 1. cbn in T.
  change (Ascii.eqb _ QQ) with false. change (Ascii.eqb _ BS) with false. cbn [Ascii.eqb andb].
  cbv [nat_of_ascii N_of_ascii N_of_digits]. cbn. destruct (id_start r); [discriminate T|]. reflexivity.
Qed.
Lemma id_start_quoted s : id_start (flat_map go_quote_char s ++ [QQ]) = id_start s.
Proof.
  destruct s as [|c s]; [reflexivity|]. cbn [flat_map]. rewrite <- app_assoc.
  generalize (flat_map go_quote_char s ++ [QQ]). intros r.
  destruct c as [[] [] [] [] [] [] [] []]; reflexivity.
Qed.
Lemma kt_inside s : forallb kt_char s = true -> no_template s = true -> forall n, length s < n ->
  read_inside n OKt (flat_map go_quote_char s ++ [QQ]) = Some s.
Proof.
  induction s as [|c s IH]; intros A T n L; (destruct n as [|n]; [cbn in L; lia|]); [reflexivity|].
  cbn [forallb] in A. apply andb_prop in A as [A1 A2]. cbn [no_template] in T. apply andb_prop in T as [T1 T2].
  cbn [flat_map]. rewrite <- app_assoc, kt_char_step; [|exact A1|now rewrite id_start_quoted].
  cbn [length] in L. now rewrite IH by (auto; lia).
Qed.
Theorem C72_kotlin : forall s, forallb kt_char s = true -> no_template s = true ->
  read_str OKt (emit_str OKt s) = Some s.
Proof.
  intros s A N. unfold emit_str, go_quote, read_str. rewrite Ascii.eqb_refl. apply kt_inside; auto.
  rewrite app_length. pose proof (quote_len s). cbn. lia.
Qed.
(** So the property does not hold of all strings: a quotation mark or a backslash breaks or changes the constant in
    seven targets, a bell in ESM, a dollar sign in Kotlin. *)
Theorem C72_escapes_refuted :
  (forall g, In g [OGo; OC; OCpp; OCs; OJava; OPy; OCjs] ->
     read_str g (emit_str g (cs "say ""hi""")) = None /\
     read_str g (emit_str g (cs "a\nb")) = Some (cs "a" ++ ["010"%char] ++ cs "b") /\
     read_str g (emit_str g (cs "a" ++ ["010"%char] ++ cs "b")) = None) /\
  read_str OEsm (emit_str OEsm [BEL]) = Some (cs "a") /\
  read_str OKt (emit_str OKt (cs "costs $x")) = None /\
  read_str OKt (emit_str OKt ["001"%char]) = None.
Proof.
  split; [|repeat split; vm_compute; reflexivity].
  intros g I. cbn in I. repeat (destruct I as [<-|I]; [repeat split; vm_compute; reflexivity|]). destruct I.
Qed.
Example C72_example :
  read_str OGo (emit_str OGo (cs "bubbler: it's 100%")) = Some (cs "bubbler: it's 100%") /\
  emit_str OEsm (cs "a ""b"" \ " ++ ["010"%char; "001"%char]) = cs """a \""b\"" \\ \n\x01""" /\
  forallb plain (cs "bubbler: it's 100%") = true /\
  forallb kt_char (cs "a ""b"" \ $ 5") = true /\ no_template (cs "a ""b"" \ $ 5") = true.
Proof. repeat split; vm_compute; reflexivity. Qed.
