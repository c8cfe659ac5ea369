(** Integer literals: from the schema's source text to the text in the generated code.

    Models compiler/literal_visitor.go:25-60 and 128-146 (with Go's strconv.ParseInt(lit, 0, 64)),
    generator/gen/gen_dispatcher.go:25-82 (MakeIntLit, FormatIntLiteral) and the GenerateIntLiteral of every
    target (golang.go:3027, c.go:3405, cpp.go:3670, csharp.go:3579, java.go:3305-3332, python.go:2572,
    commonjs.go:3820-3833, esm_decode.go:989-1003, kotlin.go:592-613 without a constant type).
    Texts are lists of characters. *)
From Coq Require Import ZArith Lia Bool String Ascii List.
Import ListNotations.
From Verif Require Import Base BaseProofs.
Open Scope string_scope.
Open Scope Z_scope.
Open Scope list_scope.

Notation chars := (list ascii).
Definition cs (s : string) : chars := list_ascii_of_string s.

(** ** Specification: numerals *)

(** The value of a digit: 0-9, a-f, A-F. *)
Definition digit_value (c : ascii) : option Z :=
  let n := Z.of_nat (nat_of_ascii c) in
  if (48 <=? n) && (n <=? 57) then Some (n - 48)
  else if (97 <=? n) && (n <=? 102) then Some (n - 87)
  else if (65 <=? n) && (n <=? 70) then Some (n - 55)
  else None.

(** [numeral b ds v]: the digits [ds], most significant first, denote [v] in base [b]. *)
Inductive numeral (b : Z) : chars -> Z -> Prop :=
| num_one c d : digit_value c = Some d -> d < b -> numeral b [c] d
| num_more ds c v d : numeral b ds v -> digit_value c = Some d -> d < b -> numeral b (ds ++ [c]) (v * b + d).

(** The lexer's INT_LIT rule (bubbler.g4: DECIMAL_LIT, OCTAL_LIT, HEX_LIT) and the value of such a token. *)
Inductive int_token : chars -> Z -> Prop :=
| tok_dec c ds v : c <> "0"%char -> numeral 10 (c :: ds) v -> int_token (c :: ds) v
| tok_zero : int_token ["0"%char] 0
| tok_oct ds v : numeral 8 ds v -> int_token ("0"%char :: ds) v
| tok_hex x ds v : x = "x"%char \/ x = "X"%char -> numeral 16 ds v -> int_token ("0"%char :: x :: ds) v.

(** Is the token written in hexadecimal? *)
Definition hex_token (t : chars) : Prop :=
  exists x ds, t = "0"%char :: x :: ds /\ (x = "x"%char \/ x = "X"%char).

(** ** Specification: how each target language reads an integer literal *)

Inductive olang : Type := OGo | OC | OCpp | OCs | OJava | OKt | OPy | OCjs | OEsm.

Fixpoint read_digits (b acc : Z) (l : chars) : option Z :=
  match l with
  | [] => Some acc
  | c :: r => match digit_value c with
              | Some d => if d <? b then read_digits b (acc * b + d) r else None
              | None => None
              end
  end.
Definition read_base (b : Z) (l : chars) : option Z :=
  match l with [] => None | _ => read_digits b 0 l end.

(** The unsigned part of a literal without its suffix: base and value.  A leading 0 means octal in C, C++,
    Java and JavaScript, and is an error in Python 3 and Kotlin: it is not accepted here. *)
Definition read_body (l : chars) : option (Z * Z) :=
  match l with
  | [c] => option_map (pair 10) (read_base 10 l)
  | c :: x :: r =>
      if Ascii.eqb c "0" then
        if Ascii.eqb x "x" || Ascii.eqb x "X" then option_map (pair 16) (read_base 16 r)
        else if Ascii.eqb x "b" || Ascii.eqb x "B" then option_map (pair 2) (read_base 2 r)
        else None
      else option_map (pair 10) (read_base 10 l)
  | [] => None
  end.

Definition ends_with (c : ascii) (l : chars) : bool :=
  match rev l with x :: _ => Ascii.eqb x c | [] => false end.

(** The value of an unsigned literal, [None] if the language has no such literal; [neg] tells that a minus
    sign stands before it. *)
Definition read_lit (g : olang) (neg : bool) (l : chars) : option Z :=
  match g with
  | OGo | OPy | OCs =>                        (* Go: untyped constants; C#: up to ulong *)
      match read_body l with
      | Some (_, v) => if (match g with OCs => v <? 2 ^ 64 | _ => true end) then Some v else None
      | None => None
      end
  | OC | OCpp =>                              (* decimal: signed types only; others: unsigned too *)
      match read_body l with
      | Some (b, v) => if v <? (if b =? 10 then 2 ^ 63 else 2 ^ 64) then Some v else None
      | None => None
      end
  | OJava =>                                  (* JLS 3.10.1 *)
      let long := ends_with "L" l in
      let bits := if long then 64 else 32 in
      match read_body (if long then removelast l else l) with
      | Some (b, v) =>
          if b =? 10 then (if (v <? 2 ^ (bits - 1)) || (neg && (v =? 2 ^ (bits - 1))) then Some v else None)
          else if v <? 2 ^ bits then Some (sext bits v) else None
      | None => None
      end
  | OKt =>                                    (* Int if it fits, else Long *)
      match read_body l with Some (_, v) => if v <? 2 ^ 63 then Some v else None | None => None end
  | OCjs | OEsm =>                            (* Number, exact below 2^53, or BigInt *)
      if ends_with "n" l then option_map snd (read_body (removelast l))
      else match read_body l with Some (_, v) => if v <? 2 ^ 53 then Some v else None | None => None end
  end.

Definition reads (g : olang) (l : chars) : option Z :=
  match l with
  | c :: r => if Ascii.eqb c "-" then option_map Z.opp (read_lit g true r) else read_lit g false l
  | [] => None
  end.

(** ** Model: source *)

Definition lower (c : ascii) : ascii :=
  let n := nat_of_ascii c in
  if (Nat.leb 65 n && Nat.leb n 90)%bool then ascii_of_nat (n + 32) else c.

(** strconv.ParseUint's loop: [None] is a syntax or range error. *)
Fixpoint parse_uint (b n : Z) (l : chars) : option Z :=
  match l with
  | [] => Some n
  | c :: r =>
      match digit_value c with
      | Some d =>
          if b <=? d then None
          else if (2 ^ 64 - 1) / b + 1 <=? n then None
          else if 2 ^ 64 <=? n * b + d then None
          else parse_uint b (n * b + d) r
      | None => None
      end
  end.

(** strconv.ParseInt(lit, 0, 64) for a text without a sign, literal_visitor.go:130. *)
Definition parse_int (l : chars) : option Z :=
  let un :=
    match l with
    | [] => None
    | c :: r =>
        if Ascii.eqb c "0" then
          match r with
          | x :: (_ :: _) as r' =>
              if Ascii.eqb (lower x) "b" then parse_uint 2 0 (tl r)
              else if Ascii.eqb (lower x) "o" then parse_uint 8 0 (tl r)
              else if Ascii.eqb (lower x) "x" then parse_uint 16 0 (tl r)
              else parse_uint 8 0 r
          | _ => parse_uint 8 0 r
          end
        else parse_uint 10 0 l
    end in
  match un with Some u => if 2 ^ 63 <=? u then None else Some u | None => None end.

Inductive ibase : Type := BAuto | BDec | BHex | BBin.
(** definition.IntLiteral, definition/literal.go:131-136. *)
Record ilit : Type := { i_val : Z; i_uns : bool; i_base : ibase }.

(** LiteralVisitor.VisitConstant for an integer, literal_visitor.go:26-60: [neg] is ctx.SUB() != nil. *)
Definition visit_int (neg : bool) (t : chars) : option ilit :=
  match parse_int t with
  | None => None
  | Some c =>
      let base := match t with
                  | c0 :: c1 :: _ =>
                      if Ascii.eqb c0 "0" && (Ascii.eqb c1 "x" || Ascii.eqb c1 "X") then BHex
                      else if Ascii.eqb c0 "0" && (Ascii.eqb c1 "b" || Ascii.eqb c1 "B") then BBin
                      else BDec
                  | _ => BDec
                  end in
      Some {| i_val := if neg then - c else c; i_uns := false; i_base := base |}
  end.

(** MakeIntLit, gen_dispatcher.go:25-50: of a signed or of an unsigned Go value. *)
Definition make_int_lit (signed : bool) (v : Z) (b : ibase) : ilit :=
  if signed then {| i_val := v; i_uns := false; i_base := b |}
  else {| i_val := sext 64 v; i_uns := true; i_base := b |}.

(** ** Model: fmt's %d, %X and %b *)

Definition dchar (d : Z) : ascii :=
  ascii_of_nat (Z.to_nat (if d <? 10 then 48 + d else 55 + d)).
Fixpoint digs (fuel : nat) (b n : Z) (acc : chars) : chars :=
  match fuel with
  | O => acc
  | S k => if n <? b then dchar n :: acc else digs k b (n / b) (dchar (n mod b) :: acc)
  end.
Definition fmt_uint (b n : Z) : chars := digs (S (Z.to_nat (Z.log2 n))) b n [].
(** Of a signed value: fmt writes the sign and the digits of the magnitude. *)
Definition fmt_int (b n : Z) : chars := if n <? 0 then "-"%char :: fmt_uint b (- n) else fmt_uint b n.

(** FormatIntLiteral, gen_dispatcher.go:56-82. *)
Definition format_int (decnum : bool) (l : ilit) : chars :=
  let base := match i_base l with BAuto => BDec | b => if decnum then BDec else b end in
  let d b := if i_uns l then fmt_uint b (i_val l mod 2 ^ 64) else fmt_int b (i_val l) in
  match base with
  | BHex => cs "0x" ++ d 16
  | BBin => cs "0b" ++ d 2
  | _ => d 10
  end.

(** The test for the suffix, java.go:3320-3328 and commonjs.go:3822-3829. *)
Definition wide (l : ilit) : bool :=
  (2 ^ 31 - 1 <? i_val l) || (i_val l <? - 2 ^ 31) || (i_uns l && (2 ^ 31 - 1 <? i_val l mod 2 ^ 64)).

(** GenerateIntLiteral of each target. *)
Definition emit_int (g : olang) (decnum : bool) (l : ilit) : chars :=
  match g with
  | OJava =>
      let b1 := match i_base l with BAuto => BDec | b => b end in
      let b2 := if decnum then BDec else b1 in
      let b3 := match b2 with BDec => if i_uns l && (i_val l <? 0) then BHex else BDec | b => b end in
      let out := format_int false {| i_val := i_val l; i_uns := i_uns l; i_base := b3 |} in
      if wide l then out ++ cs "L" else out
  | OCjs | OEsm =>
      let out := format_int decnum l in
      if wide l then out ++ cs "n" else out
  | _ => format_int decnum l
  end.

(** ** Proofs *)

Lemma digit_dchar d : 0 <= d < 16 -> digit_value (dchar d) = Some d.
Proof.
  intros H.
  assert (E : d = 0 \/ d = 1 \/ d = 2 \/ d = 3 \/ d = 4 \/ d = 5 \/ d = 6 \/ d = 7 \/ d = 8 \/ d = 9 \/
    d = 10 \/ d = 11 \/ d = 12 \/ d = 13 \/ d = 14 \/ d = 15) by lia.
  repeat (destruct E as [->|E]; [reflexivity|]). now subst d.
Qed.

Lemma read_digits_app b l : forall acc m, read_digits b acc (l ++ m) =
  match read_digits b acc l with Some a => read_digits b a m | None => None end.
Proof.
  induction l as [|c l IH]; intros acc m; [reflexivity|].
  cbn [app read_digits]. destruct (digit_value c) as [z|]; [|reflexivity]. destruct (z <? b); [apply IH|reflexivity].
Qed.

(** The two definitions of a numeral's value agree. *)
Lemma numeral_read b ds v : numeral b ds v -> read_digits b 0 ds = Some v.
Proof.
  induction 1 as [c d Hd Hb|ds c v d _ IH Hd Hb].
  - cbn [read_digits]. rewrite Hd. destruct (Z.ltb_spec d b); [|lia]. reflexivity.
  - rewrite read_digits_app, IH. cbn [read_digits]. rewrite Hd. destruct (Z.ltb_spec d b); [|lia]. reflexivity.
Qed.

Lemma numeral_nonempty b ds v : numeral b ds v -> ds <> [].
Proof. intros [c d ? ?|x c w d ? ? ?]; [discriminate|]. destruct x; discriminate. Qed.

Lemma digit_value_nonneg c d : digit_value c = Some d -> 0 <= d.
Proof.
  unfold digit_value. set (n := Z.of_nat (nat_of_ascii c)).
  destruct ((48 <=? n) && (n <=? 57)) eqn:E1; [intros H; injection H as <-; lia|].
  destruct ((97 <=? n) && (n <=? 102)) eqn:E2; [intros H; injection H as <-; lia|].
  destruct ((65 <=? n) && (n <=? 70)) eqn:E3; [intros H; injection H as <-; lia|discriminate].
Qed.

Lemma read_digits_ge b l : 1 < b -> forall acc v, 0 <= acc -> read_digits b acc l = Some v -> acc <= v.
Proof.
  intros Hb. induction l as [|c l IH]; intros acc v Ha H; cbn [read_digits] in H.
  - injection H as <-. lia.
  - destruct (digit_value c) as [d|] eqn:Ed; [|discriminate]. pose proof (digit_value_nonneg _ _ Ed).
    destruct (Z.ltb_spec d b); [|discriminate]. apply IH in H; nia.
Qed.

Lemma parse_uint_read b l : 1 < b -> forall n, 0 <= n < 2 ^ 64 ->
  parse_uint b n l =
  match read_digits b n l with Some v => if v <? 2 ^ 64 then Some v else None | None => None end.
Proof.
  intros Hb. induction l as [|c l IH]; intros n Hn; cbn [parse_uint read_digits].
  - destruct (Z.ltb_spec n (2 ^ 64)); [reflexivity|lia].
  - destruct (digit_value c) as [d|] eqn:Ed; [|reflexivity]. pose proof (digit_value_nonneg _ _ Ed).
    destruct (Z.leb_spec b d); destruct (Z.ltb_spec d b); try lia; [reflexivity|].
    assert (X : 2 ^ 64 <= n * b + d -> match read_digits b (n * b + d) l with
      Some v => if v <? 2 ^ 64 then Some v else None | None => None end = None).
    { intros Hx. destruct (read_digits b (n * b + d) l) as [v|] eqn:Ev; [|reflexivity].
      apply read_digits_ge in Ev; [|lia|nia]. destruct (Z.ltb_spec v (2 ^ 64)); [lia|reflexivity]. }
    destruct (Z.leb_spec ((2 ^ 64 - 1) / b + 1) n) as [C|C].
    + symmetry. apply X.
      assert (2 ^ 64 <= n * b); [|lia].
      pose proof (Z.mod_pos_bound (2 ^ 64 - 1) b ltac:(lia)). pose proof (Z.div_mod (2 ^ 64 - 1) b ltac:(lia)). nia.
    + destruct (Z.leb_spec (2 ^ 64) (n * b + d)) as [D|D]; [symmetry; auto|]. apply IH. nia.
Qed.

Lemma octal_first x r v : numeral 8 (x :: r) v ->
  Ascii.eqb (lower x) "b" = false /\ Ascii.eqb (lower x) "o" = false /\ Ascii.eqb (lower x) "x" = false.
Proof.
  intros H. apply numeral_read in H. cbn [read_digits] in H.
  destruct (digit_value x) as [d|] eqn:Hd; [|discriminate].
  destruct (Z.ltb_spec d 8) as [H8|H8]; [|discriminate]. clear H.
  unfold digit_value in Hd. unfold lower.
  destruct x as [[] [] [] [] [] [] [] []]; cbn in Hd |- *; try (repeat split; reflexivity); try discriminate;
    injection Hd as Hd; lia.
Qed.

(** Reading a source token: its value, or an error if it does not fit in 63 bits. *)
Lemma parse_int_token t v : int_token t v -> parse_int t = if v <? 2 ^ 63 then Some v else None.
Proof.
  assert (F : forall b ds v, 1 < b -> numeral b ds v ->
     match parse_uint b 0 ds with Some u => if 2 ^ 63 <=? u then None else Some u | None => None end
     = if v <? 2 ^ 63 then Some v else None).
  { clear v. intros b ds v Hb H. rewrite parse_uint_read by lia. rewrite (numeral_read _ _ _ H).
    destruct (Z.ltb_spec v (2 ^ 64)); destruct (Z.leb_spec (2 ^ 63) v); destruct (Z.ltb_spec v (2 ^ 63)); try lia; auto. }
  intros [c ds w Hc H| |ds w H|x ds w Hx H]; unfold parse_int.
  - destruct (Ascii.eqb_spec c "0"); [contradiction|]. apply F; auto; lia.
  - reflexivity.
  - rewrite Ascii.eqb_refl.
    destruct ds as [|x [|y r]].
    + exfalso. eapply numeral_nonempty; eauto.
    + apply F; [lia|exact H].
    + destruct (octal_first x (y :: r) w H) as (-> & -> & ->). apply F; [lia|exact H].
  - rewrite Ascii.eqb_refl.
    assert (N : ds <> []) by (eapply numeral_nonempty; eauto).
    destruct ds as [|y r]; [contradiction|].
    destruct Hx as [-> | ->]; cbn [lower tl]; apply F; auto; lia.
Qed.

Lemma digs_read b : 2 <= b <= 16 -> forall fuel n acc, 0 <= n < 2 ^ Z.of_nat fuel ->
  fuel <> O -> read_digits b 0 (digs fuel b n acc) = read_digits b n acc.
Proof.
  intros Hb. induction fuel as [|k IH]; intros n acc Hn Hf; [contradiction|]. cbn [digs].
  destruct (Z.ltb_spec n b) as [L|L].
  - cbn [read_digits]. rewrite digit_dchar by lia. destruct (Z.ltb_spec n b); [|lia]. f_equal.
  - assert (P : 2 ^ Z.of_nat (S k) = 2 * 2 ^ Z.of_nat k).
    { rewrite Nat2Z.inj_succ, Z.pow_succ_r by lia. reflexivity. }
    assert (0 <= n / b) by (apply Z.div_pos; lia).
    assert (Q : n / b < 2 ^ Z.of_nat k).
    { apply Z.div_lt_upper_bound; [lia|]. nia. }
    destruct k as [|k'].
    { cbn in Q. pose proof (Z.div_str_pos n b). lia. }
    rewrite IH by (auto; lia). cbn [read_digits].
    pose proof (Z.mod_pos_bound n b). rewrite digit_dchar by lia. destruct (Z.ltb_spec (n mod b) b); [|lia].
    f_equal. rewrite (Z.div_mod n b) at 3 by lia. lia.
Qed.

Lemma fmt_read b n : 2 <= b <= 16 -> 0 <= n -> read_digits b 0 (fmt_uint b n) = Some n.
Proof.
  intros Hb Hn. unfold fmt_uint. rewrite digs_read; auto. split; [lia|].
  rewrite Nat2Z.inj_succ, Z2Nat.id by apply Z.log2_nonneg.
  destruct (Z.eq_dec n 0) as [->|Hz]; [cbn; lia|]. pose proof (Z.log2_spec n ltac:(lia)). lia.
Qed.

Definition is_digit (c : ascii) : Prop := digit_value c <> None.

Lemma digs_digits b : 2 <= b <= 16 -> forall fuel n acc, 0 <= n ->
  Forall is_digit acc -> Forall is_digit (digs fuel b n acc).
Proof.
  intros Hb. induction fuel as [|k IH]; intros n acc Hn Ha; [exact Ha|]. cbn [digs].
  destruct (Z.ltb_spec n b) as [L|L].
  - constructor; auto. unfold is_digit. rewrite digit_dchar by lia. discriminate.
  - apply IH; [apply Z.div_pos; lia|]. constructor; auto. unfold is_digit.
    pose proof (Z.mod_pos_bound n b). rewrite digit_dchar by lia. discriminate.
Qed.

(** The first digit is 0 only if it is the only one and the number is 0. *)
Lemma digs_head b : 2 <= b <= 16 -> forall fuel n acc, 0 <= n -> fuel <> O ->
  n < 2 ^ Z.of_nat fuel ->
  exists d r, digs fuel b n acc = dchar d :: r /\ 0 <= d < b /\ (d = 0 -> n = 0 /\ r = acc).
Proof.
  intros Hb. induction fuel as [|k IH]; intros n acc Hn Hf Hp; [contradiction|]. cbn [digs].
  destruct (Z.ltb_spec n b) as [L|L].
  - exists n, acc. repeat split; auto; lia.
  - assert (P : 2 ^ Z.of_nat (S k) = 2 * 2 ^ Z.of_nat k).
    { rewrite Nat2Z.inj_succ, Z.pow_succ_r by lia. reflexivity. }
    assert (0 < n / b) by (apply Z.div_str_pos; lia).
    assert (Q : n / b < 2 ^ Z.of_nat k).
    { apply Z.div_lt_upper_bound; [lia|]. nia. }
    destruct k as [|k']; [cbn in Q; lia|].
    destruct (IH (n / b) (dchar (n mod b) :: acc)) as (d & r & E & Hd & Hz); auto; [lia|].
    exists d, r. repeat split; auto; lia.
Qed.

Lemma fmt_head b n : 2 <= b <= 16 -> 0 <= n ->
  exists d r, fmt_uint b n = dchar d :: r /\ 0 <= d < b /\ (d = 0 -> n = 0 /\ r = []).
Proof.
  intros Hb Hn. unfold fmt_uint. apply digs_head; auto.
  rewrite Nat2Z.inj_succ, Z2Nat.id by apply Z.log2_nonneg.
  destruct (Z.eq_dec n 0) as [->|Hz]; [cbn; lia|]. pose proof (Z.log2_spec n ltac:(lia)). lia.
Qed.

Lemma fmt_nonempty b n : 2 <= b <= 16 -> 0 <= n -> fmt_uint b n <> [].
Proof. intros Hb Hn. destruct (fmt_head b n Hb Hn) as (d & r & -> & _). discriminate. Qed.

Lemma fmt_digits b n : 2 <= b <= 16 -> 0 <= n -> Forall is_digit (fmt_uint b n).
Proof. intros. apply digs_digits; auto. Qed.

Lemma read_base_fmt b n : 2 <= b <= 16 -> 0 <= n -> read_base b (fmt_uint b n) = Some n.
Proof.
  intros Hb Hn. unfold read_base. pose proof (fmt_nonempty b n Hb Hn). destruct (fmt_uint b n) eqn:E; [contradiction|].
  rewrite <- E. now apply fmt_read.
Qed.

Lemma dchar_ne c d : 0 <= d < 16 -> digit_value c <> Some d -> dchar d <> c.
Proof. intros H X E. rewrite <- E, digit_dchar in X by lia. congruence. Qed.

Lemma read_body_dec n : 0 <= n -> read_body (fmt_uint 10 n) = Some (10, n).
Proof.
  intros Hn. destruct (fmt_head 10 n ltac:(lia) Hn) as (d & r & E & Hd & Hz).
  pose proof (read_base_fmt 10 n ltac:(lia) Hn) as R. unfold read_body. rewrite E in *.
  destruct r as [|x r]; [now rewrite R|].
  destruct (Ascii.eqb_spec (dchar d) "0") as [C|C]; [|now rewrite R].
  exfalso. assert (d = 0). { pose proof (digit_dchar d ltac:(lia)) as X. rewrite C in X. change (digit_value "0") with (Some 0) in X. congruence. }
  destruct (Hz H). discriminate.
Qed.

(** The digits after the prefix. *)
Definition base_num (b : ibase) : Z := match b with BHex => 16 | BBin => 2 | _ => 10 end.
Definition base_pre (b : ibase) : chars := match b with BHex => cs "0x" | BBin => cs "0b" | _ => [] end.

Lemma read_body_fmt b n : 0 <= n ->
  read_body (base_pre b ++ fmt_uint (base_num b) n) = Some (base_num b, n).
Proof.
  intros Hn. destruct b; cbn [base_pre base_num app cs list_ascii_of_string];
    try (now apply read_body_dec); cbn [read_body]; rewrite ?Ascii.eqb_refl; cbn [Ascii.eqb orb Bool.eqb];
    rewrite (read_base_fmt _ n) by lia; reflexivity.
Qed.

Lemma ends_with_app c l r : r <> [] -> ends_with c (l ++ r) = ends_with c r.
Proof.
  intros H. unfold ends_with. rewrite rev_app_distr. destruct (rev r) eqn:E; [|reflexivity].
  apply (f_equal (@rev ascii)) in E. rewrite rev_involutive in E. contradiction.
Qed.
Lemma ends_with_last c l : ends_with c (l ++ [c]) = true.
Proof. rewrite ends_with_app by discriminate. cbn. apply Ascii.eqb_refl. Qed.
Lemma ends_with_digits c l : ~ is_digit c -> Forall is_digit l -> ends_with c l = false.
Proof.
  intros Hc Hl. unfold ends_with. destruct (rev l) as [|x r] eqn:E; [reflexivity|].
  destruct (Ascii.eqb_spec x c) as [-> |]; [|reflexivity].
  exfalso. apply Hc. rewrite Forall_forall in Hl. apply Hl. apply in_rev. rewrite E. now left.
Qed.
Lemma ends_with_fmt c b n : ~ is_digit c -> 0 <= n ->
  ends_with c (base_pre b ++ fmt_uint (base_num b) n) = false.
Proof.
  intros Hc Hn. assert (2 <= base_num b <= 16) by (destruct b; cbn; lia).
  rewrite ends_with_app by (apply fmt_nonempty; auto).
  apply ends_with_digits; auto. now apply fmt_digits.
Qed.
Lemma not_digit_L : ~ is_digit "L". Proof. intros H. now apply H. Qed.
Lemma not_digit_n : ~ is_digit "n". Proof. intros H. now apply H. Qed.

Lemma pre_fmt_cons b n : 0 <= n -> exists c r, base_pre b ++ fmt_uint (base_num b) n = c :: r /\ c <> "-"%char.
Proof.
  intros Hn. assert (Hb : 2 <= base_num b <= 16) by (destruct b; cbn; lia).
  destruct (fmt_head (base_num b) n Hb Hn) as (d & r & E & Hd & _).
  destruct b; cbn [base_pre app cs list_ascii_of_string]; try (eexists _, _; split; [reflexivity|discriminate]);
    rewrite E; eexists _, _; (split; [reflexivity|]); apply dchar_ne; try lia; discriminate.
Qed.

(** The suffix written after a non-negative magnitude. *)
Definition suffix_of (g : olang) (w : bool) : chars :=
  match g with
  | OJava => if w then cs "L" else []
  | OCjs | OEsm => if w then cs "n" else []
  | _ => []
  end.

(** When the language reads a magnitude written in base [b]. *)
Definition fits (g : olang) (neg : bool) (b : ibase) (w : bool) (n : Z) : Prop :=
  match g with
  | OGo | OPy => True
  | OCs => n < 2 ^ 64
  | OC | OCpp => n < (if base_num b =? 10 then 2 ^ 63 else 2 ^ 64)
  | OJava =>
      if base_num b =? 10 then n < 2 ^ (if w then 63 else 31) \/ (neg = true /\ n = 2 ^ (if w then 63 else 31))
      else n < 2 ^ (if w then 64 else 32)
  | OKt => n < 2 ^ 63
  | OCjs | OEsm => w = true \/ n < 2 ^ 53
  end.

Lemma read_lit_fmt g neg b w n : 0 <= n -> fits g neg b w n ->
  read_lit g neg (base_pre b ++ fmt_uint (base_num b) n ++ suffix_of g w) =
  Some (match g with OJava => if base_num b =? 10 then n else sext (if w then 64 else 32) n | _ => n end).
Proof.
  intros Hn F. pose proof (read_body_fmt b n Hn) as R.
  destruct g; cbn [suffix_of fits] in *; rewrite ?app_nil_r; unfold read_lit.
  - now rewrite R.
  - rewrite R. destruct (base_num b =? 10); destruct (Z.ltb_spec n (2 ^ 63)); try destruct (Z.ltb_spec n (2 ^ 64)); try lia; auto.
  - rewrite R. destruct (base_num b =? 10); destruct (Z.ltb_spec n (2 ^ 63)); try destruct (Z.ltb_spec n (2 ^ 64)); try lia; auto.
  - rewrite R. destruct (Z.ltb_spec n (2 ^ 64)); [reflexivity|lia].
  - destruct w.
    + change (cs "L") with ["L"%char]. rewrite app_assoc, ends_with_last, removelast_last, R.
      replace (64 - 1) with 63 by lia.
      destruct (base_num b =? 10).
      * destruct (Z.ltb_spec n (2 ^ 63)); [reflexivity|]. destruct F as [F|[-> F]]; [lia|].
        rewrite F, Z.eqb_refl. reflexivity.
      * destruct (Z.ltb_spec n (2 ^ 64)); [reflexivity|lia].
    + rewrite app_nil_r, ends_with_fmt by (auto using not_digit_L). rewrite R. replace (32 - 1) with 31 by lia.
      destruct (base_num b =? 10).
      * destruct (Z.ltb_spec n (2 ^ 31)); [reflexivity|]. destruct F as [F|[-> F]]; [lia|].
        rewrite F, Z.eqb_refl. reflexivity.
      * destruct (Z.ltb_spec n (2 ^ 32)); [reflexivity|lia].
  - rewrite R. destruct (Z.ltb_spec n (2 ^ 63)); [reflexivity|lia].
  - now rewrite R.
  - destruct w.
    + change (cs "n") with ["n"%char]. rewrite app_assoc, ends_with_last, removelast_last, R. reflexivity.
    + rewrite app_nil_r, ends_with_fmt by (auto using not_digit_n). rewrite R.
      destruct (Z.ltb_spec n (2 ^ 53)); [reflexivity|]. destruct F; [discriminate|lia].
  - destruct w.
    + change (cs "n") with ["n"%char]. rewrite app_assoc, ends_with_last, removelast_last, R. reflexivity.
    + rewrite app_nil_r, ends_with_fmt by (auto using not_digit_n). rewrite R.
      destruct (Z.ltb_spec n (2 ^ 53)); [reflexivity|]. destruct F; [discriminate|lia].
Qed.

(** A literal with sign. *)
Lemma reads_fmt g b w z : fits g (z <? 0) b w (Z.abs z) ->
  reads g ((if z <? 0 then ["-"%char] else []) ++ base_pre b ++ fmt_uint (base_num b) (Z.abs z) ++ suffix_of g w) =
  Some (let n := Z.abs z in
        let v := match g with OJava => if base_num b =? 10 then n else sext (if w then 64 else 32) n | _ => n end in
        if z <? 0 then - v else v).
Proof.
  intros F. pose proof (read_lit_fmt g (z <? 0) b w (Z.abs z) ltac:(lia) F) as R.
  destruct (z <? 0).
  - cbn [app reads]. change (Ascii.eqb "-" "-") with true. cbv iota. rewrite R. reflexivity.
  - cbn [app]. destruct (pre_fmt_cons b (Z.abs z) ltac:(lia)) as (c & r & E & Hc).
    rewrite app_assoc, E in R |- *. cbn [app] in R |- *. unfold reads.
    destruct (Ascii.eqb_spec c "-"); [contradiction|]. rewrite R. reflexivity.
Qed.
