(** Floating-point constants: from the schema's source text to the text in the generated code.

    Models compiler/literal_visitor.go:61-86 and 148-166 (with Go's strconv.ParseFloat(lit, 64)) and the
    GenerateFloatLiteral of every target: fmt's %f in golang.go:3031, c.go:3409, cpp.go:3674, csharp.go:3583,
    java.go:3333, python.go:2576 and commonjs.go:3835, fmt's %g in esm_decode.go:1004, strconv's 'g' with the
    smallest sufficient precision in kotlin.go:584-592 (without a constant type).
    A double that is not negative is a whole number of 2^-1074, the smallest positive double: [M] stands for
    M * 2^-1074.  The sign is kept apart. *)
From Coq Require Import ZArith Lia Bool String Ascii List.
Import ListNotations.
From Verif Require Import Base BaseProofs Literals.
Open Scope string_scope.
Open Scope Z_scope.
Open Scope list_scope.

(** ** Specification: decimal fractions *)

(** An exponent: nothing, or e, a sign and digits. *)
Inductive exponent_says : chars -> Z -> Prop :=
| ex_none : exponent_says [] 0
| ex_bare c ds v : c = "e"%char \/ c = "E"%char -> numeral 10 ds v -> exponent_says (c :: ds) v
| ex_plus c ds v : c = "e"%char \/ c = "E"%char -> numeral 10 ds v -> exponent_says (c :: "+"%char :: ds) v
| ex_minus c ds v : c = "e"%char \/ c = "E"%char -> numeral 10 ds v -> exponent_says (c :: "-"%char :: ds) (- v).

(** [fraction_says t m e]: the text [t] - digits, perhaps with a decimal point among them, and perhaps an exponent -
    denotes m * 10^e. *)
Inductive fraction_says : chars -> Z -> Z -> Prop :=
| fr_point a b x m e : numeral 10 (a ++ b) m -> exponent_says x e ->
    fraction_says (a ++ "."%char :: b ++ x) m (e - Z.of_nat (List.length b))
| fr_whole a x m e : numeral 10 a m -> exponent_says x e -> fraction_says (a ++ x) m e.

(** m * 10^e as a fraction of whole numbers. *)
Definition num10 (m e : Z) : Z := m * 10 ^ Z.max 0 e.
Definition den10 (e : Z) : Z := 10 ^ Z.max 0 (- e).

(** ** Specification: doubles *)

Definition unit_ : Z := 2 ^ 1074.
(** Significands of 53 bits, exponents from -1074 up. *)
Definition short (M : Z) : Prop := exists m s, 0 <= m < 2 ^ 53 /\ 0 <= s /\ M = m * 2 ^ s.
Definition huge : Z := 2 ^ (1024 + 1074).
(** [nearest n d M]: of all numbers with significands of 53 bits, [M] is nearest to n/d; if another one is as near,
    [M] is even, in units of their distance. *)
Definition nearest (n d M : Z) : Prop :=
  short M /\
  forall M', short M' -> Z.abs (n - M * d) <= Z.abs (n - M' * d) /\
    (Z.abs (n - M * d) = Z.abs (n - M' * d) -> M' <> M -> exists m, M = m * Z.abs (M - M') /\ Z.even m = true).
(** The double for n/d, in units; none if n/d is too large. *)
Definition rounds (n d : Z) (x : option Z) : Prop :=
  exists M, nearest (n * unit_) d M /\ x = if M <? huge then Some M else None.

(** ** Model: reading *)

(** Round n/d to a whole number, a half to the even one. *)
Definition rhe (n d : Z) : Z :=
  let q := n / d in let r := n mod d in
  if 2 * r <? d then q else if d <? 2 * r then q + 1 else if Z.even q then q else q + 1.
(** Round n/d to 53 bits. *)
Definition round53 (n d : Z) : Z :=
  let s := Z.max 0 (Z.log2 (n / d) - 52) in rhe n (d * 2 ^ s) * 2 ^ s.
Definition to_double (n d : Z) : option Z :=
  let M := round53 (n * unit_) d in if M <? huge then Some M else None.

Definition is_dec (c : ascii) : bool := match digit_value c with Some d => d <? 10 | None => false end.
Fixpoint span (l : chars) : chars * chars :=
  match l with
  | c :: r => if is_dec c then let (a, b) := span r in (c :: a, b) else ([], l)
  | [] => ([], [])
  end.
Definition dec_value (l : chars) : Z := match read_digits 10 0 l with Some v => v | None => 0 end.
(** readFloat, strconv/atof.go: digits, point, digits, exponent. *)
Definition read_exp (l : chars) : option Z :=
  match l with
  | [] => Some 0
  | c :: r =>
      if Ascii.eqb c "e" || Ascii.eqb c "E" then
        let '(neg, r1) := match r with
                          | s :: r1 => if Ascii.eqb s "+" then (false, r1) else if Ascii.eqb s "-" then (true, r1) else (false, r)
                          | [] => (false, r)
                          end in
        match span r1 with
        | ([], _) => None
        | (ds, []) => Some (if neg then - dec_value ds else dec_value ds)
        | _ => None
        end
      else None
  end.
Definition read_frac (t : chars) : option (Z * Z) :=
  let (a, r) := span t in
  let (b, r1) := match r with
                 | c :: r1 => if Ascii.eqb c "." then span r1 else ([], r)
                 | [] => ([], r)
                 end in
  match a ++ b with
  | [] => None
  | ds => match read_exp r1 with
          | Some e => Some (dec_value ds, e - Z.of_nat (List.length b))
          | None => None
          end
  end.

(** float64 without its sign. *)
Inductive fval : Type := FFin (M : Z) | FInf | FNan.
(** VisitFloatLit, literal_visitor.go:148-166: [None] is an error (out of range). *)
Definition visit_float (t : chars) : option fval :=
  if list_eq_dec ascii_dec t (cs "inf") then Some FInf
  else if list_eq_dec ascii_dec t (cs "nan") then Some FNan
  else match read_frac t with
       | Some (m, e) => option_map FFin (to_double (num10 m e) (den10 e))
       | None => None
       end.

(** math.Float64bits, for Text.v: the bit pattern of a double that is not negative. *)
Definition bits_of (x : fval) : N :=
  match x with
  | FFin M => Z.to_N (if M <? 2 ^ 52 then M else let s := Z.log2 M - 52 in s * 2 ^ 52 + M / 2 ^ s)
  | FInf => Z.to_N (2047 * 2 ^ 52)
  | FNan => Z.to_N (2047 * 2 ^ 52 + 2 ^ 51 + 1)
  end.
Definition parse_float (t : chars) : option N := option_map bits_of (visit_float t).

(** ** Model: writing *)

(** The digits of n < 10^k, k of them. *)
Fixpoint padded (k : nat) (n : Z) : chars :=
  match k with O => [] | S k' => padded k' (n / 10) ++ [dchar (n mod 10)] end.
(** fmt's %f: six decimals, correctly rounded (strconv.FormatFloat(x, 'f', 6, 64)). *)
Definition fixed6 (M : Z) : chars :=
  let k := rhe (M * 10 ^ 6) unit_ in fmt_uint 10 (k / 10 ^ 6) ++ "."%char :: padded 6 (k mod 10 ^ 6).

(** strconv's smallest sufficient precision: the least number of digits with which the double can be found again,
    and among those numbers the closest (documentation of strconv.FormatFloat; strconv/ftoa.go uses Ryu's
    algorithm).  [dec_exp M]: 10^(p-1) <= M * 2^-1074 < 10^p. *)
Fixpoint ndigits (fuel : nat) (n : Z) : Z := match fuel with O => 1 | S k => if n <? 10 then 1 else 1 + ndigits k (n / 10) end.
Fixpoint zeros_after (fuel : nat) (M j : Z) : Z :=
  match fuel with O => j | S k => if unit_ <=? M * 10 ^ j then j else zeros_after k M (j + 1) end.
Definition dec_exp (M : Z) : Z :=
  if unit_ <=? M then ndigits (Z.to_nat (Z.log2 (M / unit_))) (M / unit_) else 1 - zeros_after 330 M 1.
(** Does c * 10^e stand for [M]? *)
Definition stands_for (M c e : Z) : bool :=
  match to_double (num10 c e) (den10 e) with Some M' => M' =? M | None => false end.
(** From n digits on, with [fuel] attempts; at last without a test. *)
Fixpoint shortest (fuel : nat) (M p n : Z) : Z * Z :=
  let e := p - n in
  let W := unit_ * 10 ^ Z.max 0 e in
  let c1 := rhe (M * den10 e) W in
  let c2 := if c1 * W <=? M * den10 e then c1 + 1 else c1 - 1 in
  match fuel with
  | O => (c1, e)
  | S k => if stands_for M c1 e then (c1, e) else if stands_for M c2 e then (c2, e) else shortest k M p (n + 1)
  end.
Fixpoint strip0 (fuel : nat) (c e : Z) : Z * Z :=
  match fuel with O => (c, e) | S k => if c mod 10 =? 0 then strip0 k (c / 10) (e + 1) else (c, e) end.
Definition short_digits (M : Z) : Z * Z := let (c, e) := shortest 16 M (dec_exp M) 1 in strip0 17 c e.

Definition zeros (n : Z) : chars := repeat "0"%char (Z.to_nat n).
(** %e, strconv/ftoa.go fmtE: at least two digits in the exponent. *)
Definition exp_text (x : Z) : chars :=
  "e"%char :: (if x <? 0 then "-"%char else "+"%char) :: (if Z.abs x <? 10 then cs "0" else []) ++ fmt_uint 10 (Z.abs x).
(** 'g' with the smallest sufficient precision, strconv/ftoa.go %e and %f. *)
Definition g_text (M : Z) : chars :=
  if M =? 0 then cs "0"
  else
    let (c, e) := short_digits M in
    let ds := fmt_uint 10 c in
    let dp := Z.of_nat (List.length ds) + e in
    if (dp - 1 <? -4) || (6 <=? dp - 1) then
      match ds with
      | d :: r => d :: (match r with [] => [] | _ => "."%char :: r end) ++ exp_text (dp - 1)
      | [] => []
      end
    else if dp <=? 0 then "0"%char :: "."%char :: zeros (- dp) ++ ds
    else if 0 <=? e then ds ++ zeros e
    else firstn (Z.to_nat dp) ds ++ "."%char :: skipn (Z.to_nat dp) ds.

Definition mentions (l : chars) (c : ascii) : bool := existsb (Ascii.eqb c) l.
(** GenerateFloatLiteral of each target, of a value with sign. *)
Definition emit_float (g : olang) (neg : bool) (x : fval) : chars :=
  let minus t := if neg then "-"%char :: t else t in
  match x with
  | FFin M =>
      minus match g with
            | OEsm => g_text M
            | OKt => let t := g_text M in
                     if mentions t "." || mentions t "e" || mentions t "E" then t else t ++ cs ".0"
            | _ => fixed6 M
            end
  | FInf => (if neg then cs "-Inf" else cs "+Inf") ++ match g with OKt => cs ".0" | _ => [] end
  | FNan => cs "NaN" ++ match g with OKt => cs ".0" | _ => [] end
  end.

(** ** Proofs: rounding *)

Lemma rhe_err n d : 0 < d -> 2 * Z.abs (n - d * rhe n d) <= d.
Proof.
  intros D. unfold rhe. pose proof (Z.div_mod n d ltac:(lia)) as E. pose proof (Z.mod_pos_bound n d D) as B.
  set (q := n / d) in *. set (r := n mod d) in *.
  destruct (Z.ltb_spec (2 * r) d); [nia|]. destruct (Z.ltb_spec d (2 * r)); [nia|]. destruct (Z.even q); nia.
Qed.
Lemma rhe_tie n d : 0 < d -> 2 * Z.abs (n - d * rhe n d) = d -> Z.even (rhe n d) = true.
Proof.
  intros D. unfold rhe. pose proof (Z.div_mod n d ltac:(lia)) as E. pose proof (Z.mod_pos_bound n d D) as B.
  set (q := n / d) in *. set (r := n mod d) in *.
  destruct (Z.ltb_spec (2 * r) d); [nia|]. destruct (Z.ltb_spec d (2 * r)); [nia|].
  destruct (Z.even q) eqn:Q; intros _; [exact Q|]. rewrite Z.even_add, Q. reflexivity.
Qed.
Lemma rhe_near n d m : 0 < d -> 2 * Z.abs (n - d * m) < d -> rhe n d = m.
Proof. intros D H. pose proof (rhe_err n d D). set (x := rhe n d) in *. clearbody x. nia. Qed.
Lemma rhe_exact n d : 0 < d -> rhe (n * d) d = n.
Proof. intros D. apply rhe_near; [exact D|]. replace (n * d - d * n) with 0 by ring. cbn. exact D. Qed.
Lemma rhe_nonneg n d : 0 <= n -> 0 < d -> 0 <= rhe n d.
Proof. intros N D. pose proof (rhe_err n d D). set (x := rhe n d) in *. clearbody x. nia. Qed.

Lemma pow_pos s : 0 <= s -> 0 < 2 ^ s.
Proof. intros. apply Z.pow_pos_nonneg; lia. Qed.
Lemma unit_pos : 0 < unit_.
Proof. apply pow_pos. lia. Qed.

(** What the rounding chooses: a shift, and a multiple of that power of two. *)
Lemma round53_shape n d : 0 <= n -> 0 < d -> exists s m, 0 <= s /\ round53 n d = m * 2 ^ s /\ 0 <= m <= 2 ^ 53 /\
  (s = 0 \/ 2 ^ (52 + s) * d <= n) /\ n < 2 ^ (53 + s) * d /\ m = rhe n (d * 2 ^ s).
Proof.
  intros N D. unfold round53. set (q := n / d). assert (Q : 0 <= q) by (apply Z.div_pos; lia).
  pose proof (Z.div_mod n d ltac:(lia)) as E. pose proof (Z.mod_pos_bound n d D) as B. fold q in E.
  set (s := Z.max 0 (Z.log2 q - 52)). assert (S0 : 0 <= s) by lia. pose proof (pow_pos s S0) as PS.
  exists s, (rhe n (d * 2 ^ s)). split; [exact S0|]. split; [reflexivity|].
  assert (U : q < 2 ^ (53 + s)).
  { destruct (Z.eq_dec q 0) as [->|Z0]; [apply pow_pos; lia|].
    pose proof (Z.log2_spec q ltac:(lia)) as [_ L]. eapply Z.lt_le_trans; [exact L|]. apply Z.pow_le_mono_r; lia. }
  assert (L : s = 0 \/ 2 ^ (52 + s) <= q).
  { destruct (Z.eq_dec s 0); [now left|right]. assert (Z.log2 q = 52 + s) as <- by lia. apply Z.log2_spec.
    destruct (Z.eq_dec q 0) as [->|]; [exfalso; cbn in s; lia|lia]. }
  assert (UN : n < 2 ^ (53 + s) * d) by nia.
  split; [|split; [destruct L as [L|L]; [now left|right; nia]|split; [exact UN|reflexivity]]].
  split; [apply rhe_nonneg; nia|].
  pose proof (rhe_err n (d * 2 ^ s) ltac:(nia)) as R. set (m := rhe n (d * 2 ^ s)) in *. clearbody m.
  rewrite Z.pow_add_r in UN by lia. set (P := 2 ^ s) in *. clearbody P. clear - R UN D PS.
  assert (K : 0 < d * P) by nia. set (K1 := d * P) in *. assert (n < 2 ^ 53 * K1) by (unfold K1; nia). clearbody K1.
  change (2 ^ 53) with 9007199254740992 in *. nia.
Qed.

Lemma short_lower m s : 0 <= m <= 2 ^ 53 -> 0 <= s -> short (m * 2 ^ s).
Proof.
  intros M S. destruct (Z.eq_dec m (2 ^ 53)) as [->|].
  - exists (2 ^ 52), (s + 1). split; [lia|]. split; [lia|]. rewrite Z.pow_add_r by lia. change (2 ^ 53) with (2 ^ 52 * 2). change (2 ^ 1) with 2. ring.
  - exists m, s. split; [lia|]. split; [lia|reflexivity].
Qed.

(** The result is the nearest one. *)
Theorem round53_nearest n' d : 0 <= n' -> 0 < d -> nearest n' d (round53 n' d).
Proof.
  intros N' D.
  destruct (round53_shape n' d N' D) as (s & m & S & E & Bm & L & H & Em). rewrite E.
  pose proof (pow_pos s S) as P.
  split; [now apply short_lower|]. intros M' (m' & s' & Bm' & S' & EM').
  pose proof (rhe_err n' (d * 2 ^ s) ltac:(nia)) as R. rewrite <- Em in R.
  pose proof (rhe_tie n' (d * 2 ^ s) ltac:(nia)) as T. rewrite <- Em in T.
  assert (Far : forall c, Z.abs (n' - m * 2 ^ s * d) <= Z.abs (n' - c * 2 ^ s * d) /\
            (Z.abs (n' - m * 2 ^ s * d) = Z.abs (n' - c * 2 ^ s * d) -> c <> m -> Z.abs (m - c) = 1 /\ Z.even m = true)).
  { intros c. replace (m * 2 ^ s * d) with (d * 2 ^ s * m) by ring. replace (c * 2 ^ s * d) with (d * 2 ^ s * c) by ring.
    set (K := d * 2 ^ s) in *. assert (KP : 0 < K) by (unfold K; nia). clearbody K. clear - R T KP.
    assert (A : K * Z.abs (m - c) = Z.abs (K * m - K * c)) by (rewrite <- Z.mul_sub_distr_l, Z.abs_mul; lia).
    destruct (Z.eq_dec c m) as [->|NE]; [split; [lia|congruence]|].
    assert (B : Z.abs (m - c) >= 1) by lia. assert (A' : K <= Z.abs (K * m - K * c)) by nia.
    split; [lia|]. intros Q _. assert (Q2 : 2 * Z.abs (n' - K * m) = K) by lia. split; [|auto].
    assert (K * Z.abs (m - c) <= K) by lia. nia. }
  destruct (Z.lt_ge_cases s' s) as [Ls|Ls].
  - destruct L as [L|L]; [lia|].
    assert (B : M' < 2 ^ (52 + s)).
    { rewrite EM'. apply Z.lt_le_trans with (2 ^ 53 * 2 ^ s'); [pose proof (pow_pos s' S'); nia|].
      rewrite <- Z.pow_add_r by lia. apply Z.pow_le_mono_r; lia. }
    destruct (Far (2 ^ 52)) as [F _]. rewrite <- Z.pow_add_r in F by lia.
    assert (Z.abs (n' - m * 2 ^ s * d) < Z.abs (n' - M' * d)) by nia. split; [lia|]. intros Q; lia.
  - assert (C : M' = m' * 2 ^ (s' - s) * 2 ^ s).
    { rewrite EM'. rewrite <- Z.mul_assoc, <- Z.pow_add_r by lia. f_equal. f_equal. lia. }
    rewrite C. destruct (Far (m' * 2 ^ (s' - s))) as [F G]. split; [exact F|]. intros Q NE.
    destruct (G Q ltac:(intros X; apply NE; rewrite X; reflexivity)) as [G1 G2].
    exists m. split; [|exact G2]. set (c := m' * 2 ^ (s' - s)) in *. clearbody c.
    replace (m * 2 ^ s - c * 2 ^ s) with ((m - c) * 2 ^ s) by ring. rewrite Z.abs_mul, G1, (Z.abs_eq (2 ^ s)) by lia. ring.
Qed.

(** There is only one nearest double. *)
Lemma nearest_unique n d M1 M2 : nearest n d M1 -> nearest n d M2 -> M1 = M2.
Proof.
  intros [S1 H1] [S2 H2]. destruct (Z.eq_dec M1 M2) as [|NE]; [assumption|exfalso].
  destruct (H1 M2 S2) as [A1 B1]. destruct (H2 M1 S1) as [A2 B2].
  destruct (B1 ltac:(lia) ltac:(lia)) as (m1 & E1 & V1). destruct (B2 ltac:(lia) ltac:(lia)) as (m2 & E2 & V2).
  replace (Z.abs (M2 - M1)) with (Z.abs (M1 - M2)) in E2 by lia.
  set (g := Z.abs (M1 - M2)) in *. assert (Z.abs (m1 - m2) = 1).
  { assert (0 < g) by lia. assert (g = Z.abs ((m1 - m2) * g)) by (unfold g at 1; rewrite E1, E2; f_equal; ring).
    rewrite Z.abs_mul, (Z.abs_eq g) in H0 by lia. nia. }
  apply Z.even_spec in V1 as [a ->], V2 as [b ->]. lia.
Qed.
Theorem to_double_rounds n d : 0 <= n -> 0 < d -> rounds n d (to_double n d).
Proof.
  intros N D. exists (round53 (n * unit_) d). split; [|reflexivity]. pose proof unit_pos. apply round53_nearest; nia.
Qed.
Theorem rounds_unique n d x y : rounds n d x -> rounds n d y -> x = y.
Proof. intros (M & A & ->) (M' & B & ->). now rewrite (nearest_unique _ d M M' A B). Qed.

(** ** Proofs: distances between doubles *)

Lemma round53_is n d M : 0 <= n -> 0 < d -> short M ->
  (forall M', short M' -> M' <> M -> Z.abs (n - M * d) < Z.abs (n - M' * d)) -> round53 n d = M.
Proof.
  intros N D S H. destruct (round53_nearest n d N D) as [S' H']. destruct (Z.eq_dec (round53 n d) M) as [|NE]; [assumption|].
  specialize (H _ S' NE). destruct (H' M S) as [H2 _]. lia.
Qed.
Lemma round53_exact M d : 0 < d -> short M -> round53 (M * d) d = M.
Proof.
  intros D S. destruct (S) as (m & s & B & S0 & E). pose proof (pow_pos s S0). apply round53_is; auto; [nia|].
  intros M' _ NE. nia.
Qed.
Lemma round53_short n d : 0 <= n -> 0 < d -> short (round53 n d).
Proof. intros N D. apply (round53_nearest n d N D). Qed.

(** Doubles with all their bits. *)
Definition canonical (M m s : Z) : Prop := 0 <= m < 2 ^ 53 /\ 0 <= s /\ M = m * 2 ^ s /\ (s = 0 \/ 2 ^ 52 <= m).
Lemma short_canonical M : short M -> exists m s, canonical M m s.
Proof.
  intros (m & s & B & S & E). pose proof (pow_pos s S) as P.
  destruct (Z.eq_dec m 0) as [->|M0]; [exists 0, 0; unfold canonical; lia|].
  set (t := Z.max 0 (Z.log2 M - 52)). assert (M1 : 0 < M) by nia.
  pose proof (Z.log2_spec M M1) as [L1 L2].
  assert (T : t <= s).
  { enough (Z.log2 M < 53 + s) by lia. apply Z.log2_lt_pow2; [exact M1|]. rewrite E, Z.pow_add_r by lia. nia. }
  assert (T0 : 0 <= t) by lia. pose proof (pow_pos t T0) as PT.
  assert (E' : M = m * 2 ^ (s - t) * 2 ^ t) by (rewrite <- Z.mul_assoc, <- Z.pow_add_r by lia; rewrite E; do 2 f_equal; lia).
  exists (m * 2 ^ (s - t)), t. unfold canonical. pose proof (pow_pos (s - t) ltac:(lia)).
  set (m' := m * 2 ^ (s - t)) in *. assert (0 < m') by (unfold m'; nia). clearbody m'.
  split; [|split; [exact T0|split; [exact E'|]]].
  - split; [lia|]. assert (M < 2 ^ (53 + t)) by (eapply Z.lt_le_trans; [exact L2|apply Z.pow_le_mono_r; lia]).
    rewrite Z.pow_add_r in H1 by lia. nia.
  - destruct (Z.eq_dec t 0); [now left|right]. assert (X : Z.log2 M = 52 + t) by lia. rewrite X, Z.pow_add_r in L1 by lia. nia.
Qed.
(** The next double is 2^s away, except below a power of two, where it is half as far. *)
Lemma gap M m s M' : canonical M m s -> short M' -> M' <> M ->
  2 ^ s <= Z.abs (M - M') \/ (m = 2 ^ 52 /\ 0 < s /\ M' < M /\ 2 ^ (s - 1) <= M - M').
Proof.
  intros (B & S & E & C) (m' & s' & B' & S' & E') NE. pose proof (pow_pos s S) as P. pose proof (pow_pos s' S') as P'.
  destruct (Z.lt_ge_cases s' s) as [L|L].
  - destruct C as [C|C]; [lia|].
    assert (U : M' <= 2 ^ 53 * 2 ^ s' - 2 ^ s') by nia.
    replace s with ((s - 1) + 1) in E, P |- * by lia. rewrite Z.pow_add_r in E, P |- * by lia. change (2 ^ 1) with 2 in *.
    assert (Q : 2 ^ s' <= 2 ^ (s - 1)) by (apply Z.pow_le_mono_r; lia).
    replace (s - 1 + 1 - 1) with (s - 1) by lia.
    set (G := 2 ^ (s - 1)) in *. set (G' := 2 ^ s') in *. clearbody G G'.
    change (2 ^ 53) with 9007199254740992 in *. change (2 ^ 52) with 4503599627370496 in *.
    destruct (Z.eq_dec m 4503599627370496) as [M5|M5]; [right|left; nia].
    split; [exact M5|]. split; [lia|]. split; nia.
  - left. assert (X : M' = m' * 2 ^ (s' - s) * 2 ^ s) by (rewrite E', <- Z.mul_assoc, <- Z.pow_add_r by lia; do 2 f_equal; lia).
    set (c := m' * 2 ^ (s' - s)) in *. clearbody c. rewrite X, E in NE |- *. rewrite <- Z.mul_sub_distr_r, Z.abs_mul, (Z.abs_eq (2 ^ s)) by lia.
    assert (m <> c) by (intros ->; congruence). nia.
Qed.

(** ** Proofs: six decimals *)

Lemma to_double_ok n d M : to_double n d = Some M <-> round53 (n * unit_) d = M /\ M < huge.
Proof.
  unfold to_double. destruct (Z.ltb_spec (round53 (n * unit_) d) huge) as [L|L]; split.
  - intros H; injection H as <-. auto.
  - intros [-> _]. reflexivity.
  - discriminate.
  - intros [<- H]. lia.
Qed.
Lemma to_double_short n d M : 0 <= n -> 0 < d -> to_double n d = Some M -> short M /\ 0 <= M < huge.
Proof.
  intros N D H. apply to_double_ok in H as [E L]. pose proof unit_pos.
  pose proof (round53_short (n * unit_) d ltac:(nia) D) as S. rewrite E in S. split; [exact S|]. split; [|exact L].
  destruct S as (m & s & B & S0 & ->). pose proof (pow_pos s S0). nia.
Qed.

(** A double survives being written with six decimals exactly if it is the double of some number with six
    decimals. *)
Lemma six_decimals M : short M -> 0 <= M < huge ->
  (to_double (rhe (M * 10 ^ 6) unit_) (10 ^ 6) = Some M <-> exists k, 0 <= k /\ to_double k (10 ^ 6) = Some M).
Proof.
  intros SH [M0 MH]. pose proof unit_pos as U. assert (K0 : 0 <= rhe (M * 10 ^ 6) unit_) by (apply rhe_nonneg; nia).
  split; [intros H; exists (rhe (M * 10 ^ 6) unit_); auto|]. intros (k & Kp & H). apply to_double_ok. split; [|exact MH].
  apply to_double_ok in H as [H _].
  destruct (short_canonical M SH) as (m & s & C).
  destruct (C) as (B & S & E & Ec). pose proof (pow_pos s S) as P.
  destruct (Z.lt_ge_cases s 1055) as [Ls|Ls].
  - (* doubles are at most 2^-20 apart *)
    assert (X : rhe (M * 10 ^ 6) unit_ = k); [|rewrite X; exact H].
    apply rhe_near; [exact U|].
    destruct (round53_shape (k * unit_) (10 ^ 6) ltac:(nia) ltac:(lia)) as (s0 & m0 & S0 & E0 & B0 & L0 & H0 & Em0).
    rewrite H in E0. pose proof (rhe_err (k * unit_) (10 ^ 6 * 2 ^ s0) ltac:(pose proof (pow_pos s0 S0); lia)) as R.
    rewrite <- Em0 in R. pose proof (pow_pos s0 S0) as P0.
    assert (Q : 2 ^ s0 <= 2 ^ 1054).
    { apply Z.pow_le_mono_r; [lia|]. destruct L0 as [L0|L0]; [lia|].
      assert (2 ^ (52 + s0) <= M).
      { enough (2 ^ 52 <= m0) by (rewrite E0, Z.pow_add_r by lia; nia).
        rewrite Z.pow_add_r in L0 by lia.
        set (K := 10 ^ 6 * 2 ^ s0) in *. assert (KP : 0 < K) by (unfold K; lia).
        assert (2 ^ 52 * K <= k * unit_) by (unfold K; lia). set (ku := k * unit_) in *. clearbody K ku. nia. }
      assert (M < 2 ^ (53 + s)) by (rewrite E, Z.pow_add_r by lia; nia).
      assert (52 + s0 < 53 + s) by (apply (Z.pow_lt_mono_r_iff 2); lia). lia. }
    rewrite E0. replace (m0 * 2 ^ s0 * 10 ^ 6 - unit_ * k) with (- (k * unit_ - 10 ^ 6 * 2 ^ s0 * m0)) by ring. rewrite Z.abs_opp.
    apply Z.le_lt_trans with (10 ^ 6 * 2 ^ s0); [exact R|]. unfold unit_.
    replace (2 ^ 1074) with (2 ^ 20 * 2 ^ 1054) by (rewrite <- Z.pow_add_r by lia; reflexivity). set (W := 2 ^ 1054) in *.
    assert (0 < W) by (apply pow_pos; lia). clearbody W. change (2 ^ 20) with 1048576. lia.
  - (* doubles are at least 2^-19 apart *)
    destruct (Z.eq_dec m (2 ^ 52)) as [M5|M5].
    + assert (X : M = 2 ^ (s + 52 - 1074) * unit_).
      { unfold unit_. rewrite E, M5, <- !Z.pow_add_r by lia. f_equal. lia. }
      set (j := 2 ^ (s + 52 - 1074)) in *. clearbody j.
      replace (M * 10 ^ 6) with (j * 10 ^ 6 * unit_) by (rewrite X; ring). rewrite rhe_exact by exact U.
      replace (j * 10 ^ 6 * unit_) with (M * 10 ^ 6) by (rewrite X; ring). apply round53_exact; [lia|exact SH].
    + apply round53_is; [nia|lia|exact SH|]. intros M' S' NE.
      destruct (gap M m s M' C S' NE) as [G|(? & _)]; [|contradiction].
      pose proof (rhe_err (M * 10 ^ 6) unit_ U) as R. set (r := rhe (M * 10 ^ 6) unit_) in *. clearbody r.
      assert (W : unit_ < 10 ^ 6 * 2 ^ s).
      { apply Z.lt_le_trans with (10 ^ 6 * 2 ^ 1055); [|apply Z.mul_le_mono_nonneg_l; [lia|apply Z.pow_le_mono_r; lia]].
        unfold unit_. replace (2 ^ 1074) with (2 ^ 19 * 2 ^ 1055) by (rewrite <- Z.pow_add_r by lia; reflexivity).
        assert (0 < 2 ^ 1055) by (apply pow_pos; lia). set (V := 2 ^ 1055) in *. clearbody V. change (2 ^ 19) with 524288. lia. }
      assert (unit_ < 10 ^ 6 * Z.abs (M - M')) by lia. lia.
Qed.

(** ** Proofs: texts *)

Lemma read_numeral l : forall v, l <> [] -> read_digits 10 0 l = Some v -> numeral 10 l v.
Proof.
  induction l as [|c l IH] using rev_ind; intros v N H; [contradiction|]. rewrite read_digits_app in H.
  destruct (read_digits 10 0 l) as [a|] eqn:A; [|discriminate]. cbn [read_digits] in H.
  destruct (digit_value c) as [d|] eqn:D; [|discriminate]. destruct (Z.ltb_spec d 10); [|discriminate]. injection H as <-.
  destruct l as [|c0 l].
  - cbn [read_digits] in A. injection A as <-. cbn [app]. now apply num_one.
  - apply num_more; auto. apply IH; [discriminate|reflexivity].
Qed.
Lemma numeral_dec l v : numeral 10 l v -> forallb is_dec l = true.
Proof.
  induction 1 as [c d D B|ds c v d N IH D B].
  - cbn [forallb]. unfold is_dec. rewrite D. destruct (Z.ltb_spec d 10); [reflexivity|lia].
  - rewrite forallb_app, IH. cbn [forallb]. unfold is_dec. rewrite D. destruct (Z.ltb_spec d 10); [reflexivity|lia].
Qed.
Lemma numeral_pos l v : numeral 10 l v -> 0 <= v.
Proof. induction 1 as [c d D B|ds c v d N IH D B]; apply digit_value_nonneg in D; lia. Qed.
Lemma dec_value_numeral l v : numeral 10 l v -> dec_value l = v.
Proof. intros N. unfold dec_value. now rewrite (numeral_read _ _ _ N). Qed.
Definition ends (r : chars) : Prop := match r with c :: _ => is_dec c = false | [] => True end.
Lemma span_app a r : forallb is_dec a = true -> ends r -> span (a ++ r) = (a, r).
Proof.
  intros A E. induction a as [|c a IH].
  - cbn [app]. destruct r as [|c r]; [reflexivity|]. cbn [span]. cbn [ends] in E. now rewrite E.
  - cbn [forallb] in A. apply andb_true_iff in A as [A1 A2]. cbn [app span]. rewrite A1, (IH A2). reflexivity.
Qed.
Lemma is_e_dec c : c = "e"%char \/ c = "E"%char -> is_dec c = false.
Proof. intros [-> | ->]; reflexivity. Qed.
Lemma is_e_eqb c : c = "e"%char \/ c = "E"%char -> Ascii.eqb c "e" || Ascii.eqb c "E" = true.
Proof. intros [-> | ->]; reflexivity. Qed.
Lemma exponent_ends x e : exponent_says x e -> ends x.
Proof. intros [|c ds v C N|c ds v C N|c ds v C N]; cbn [ends]; auto using is_e_dec. Qed.
Lemma span_numeral ds v : numeral 10 ds v -> span ds = (ds, []) /\ exists c r, ds = c :: r.
Proof.
  intros N. split.
  - rewrite <- (app_nil_r ds) at 1. apply span_app; [now apply numeral_dec in N|exact I].
  - pose proof (numeral_nonempty _ _ _ N). destruct ds; [contradiction|eauto].
Qed.
Lemma dec_not_sign c : is_dec c = true -> Ascii.eqb c "+" = false /\ Ascii.eqb c "-" = false.
Proof. intros H. split; apply Ascii.eqb_neq; intros ->; discriminate. Qed.
Lemma read_exp_says x e : exponent_says x e -> read_exp x = Some e.
Proof.
  intros [|c ds v C N|c ds v C N|c ds v C N]; [reflexivity|..]; unfold read_exp; rewrite (is_e_eqb c C);
    destruct (span_numeral ds v N) as [Sp (c0 & r0 & E0)].
  - pose proof (numeral_dec _ _ N) as Dc. rewrite E0 in *. cbn [forallb] in Dc. apply andb_true_iff in Dc as [D0 _].
    destruct (dec_not_sign c0 D0) as [-> ->]. rewrite Sp. now rewrite (dec_value_numeral _ _ N).
  - change (Ascii.eqb "+" "+") with true. cbn match. rewrite Sp, E0. rewrite E0 in N. now rewrite (dec_value_numeral _ _ N).
  - change (Ascii.eqb "-" "+") with false. change (Ascii.eqb "-" "-") with true. cbn match. rewrite Sp, E0. rewrite E0 in N. now rewrite (dec_value_numeral _ _ N).
Qed.
Theorem read_frac_says t m e : fraction_says t m e -> read_frac t = Some (m, e).
Proof.
  intros [a b x m' e' N X|a x m' e' N X]; unfold read_frac.
  - pose proof (numeral_dec _ _ N) as D. rewrite forallb_app in D. apply andb_true_iff in D as [Da Db].
    rewrite (span_app a _ Da) by reflexivity. change (Ascii.eqb "." ".") with true. cbn match.
    rewrite (span_app b x Db (exponent_ends _ _ X)). rewrite (read_exp_says _ _ X).
    pose proof (numeral_nonempty _ _ _ N) as NE. pose proof (dec_value_numeral _ _ N) as V.
    destruct (a ++ b); [contradiction|]. now rewrite V.
  - rewrite (span_app a x (numeral_dec _ _ N) (exponent_ends _ _ X)).
    assert (Q : match x with c :: r1 => if Ascii.eqb c "." then span r1 else ([], x) | [] => ([], x) end = ([], x)).
    { destruct X as [|c ds v [-> | ->] _|c ds v [-> | ->] _|c ds v [-> | ->] _]; reflexivity. }
    rewrite Q, app_nil_r, (read_exp_says _ _ X). pose proof (numeral_nonempty _ _ _ N) as NE. pose proof (dec_value_numeral _ _ N) as V.
    destruct a; [contradiction|]. rewrite V. cbn [List.length]. do 2 f_equal. lia.
Qed.
Lemma fraction_unique t m e m' e' : fraction_says t m e -> fraction_says t m' e' -> m = m' /\ e = e'.
Proof. intros A B. apply read_frac_says in A, B. rewrite A in B. injection B as -> ->. auto. Qed.
Lemma fraction_nonneg t m e : fraction_says t m e -> 0 <= m.
Proof. intros [a b x m' e' N X|a x m' e' N X]; eauto using numeral_pos. Qed.

(** Digits in a row. *)
Definition dig (l : chars) (k : nat) (n : Z) : Prop :=
  List.length l = k /\ forall acc, read_digits 10 acc l = Some (acc * 10 ^ Z.of_nat k + n).
Lemma padded_dig k : forall n, 0 <= n < 10 ^ Z.of_nat k -> dig (padded k n) k n.
Proof.
  induction k as [|k IH]; intros n B.
  - cbn [padded]. split; [reflexivity|]. intros acc. cbn [read_digits]. cbn in B. f_equal. change (10 ^ Z.of_nat 0) with 1. lia.
  - rewrite Nat2Z.inj_succ, Z.pow_succ_r in B by lia. destruct (IH (n / 10)) as [L R].
    { split; [apply Z.div_pos; lia|]. apply Z.div_lt_upper_bound; lia. }
    cbn [padded]. split; [rewrite app_length, L; cbn [List.length]; lia|]. intros acc. rewrite read_digits_app, R. cbn [read_digits].
    pose proof (Z.mod_pos_bound n 10 ltac:(lia)) as Bm. rewrite digit_dchar by lia.
    destruct (Z.ltb_spec (n mod 10) 10); [|lia]. f_equal. rewrite Nat2Z.inj_succ, Z.pow_succ_r by lia.
    rewrite (Z.div_mod n 10) at 3 by lia. ring.
Qed.
Lemma app_dig l v l' k n : read_digits 10 0 l = Some v -> dig l' k n -> read_digits 10 0 (l ++ l') = Some (v * 10 ^ Z.of_nat k + n).
Proof. intros H [_ R]. now rewrite read_digits_app, H, R. Qed.
Lemma fixed6_says M : 0 <= M -> fraction_says (fixed6 M) (rhe (M * 10 ^ 6) unit_) (-6).
Proof.
  intros M0. unfold fixed6. assert (K : 0 <= rhe (M * 10 ^ 6) unit_) by (apply rhe_nonneg; [lia|apply unit_pos]).
  set (k := rhe (M * 10 ^ 6) unit_) in *. clearbody k.
  assert (D : dig (padded 6 (k mod 10 ^ 6)) 6 (k mod 10 ^ 6)).
  { apply padded_dig. change (10 ^ Z.of_nat 6) with (10 ^ 6). apply Z.mod_pos_bound. lia. }
  assert (Q : 0 <= k / 10 ^ 6) by (apply Z.div_pos; lia).
  assert (L : List.length (padded 6 (k mod 10 ^ 6)) = 6%nat) by apply D.
  pose proof (fr_point (fmt_uint 10 (k / 10 ^ 6)) (padded 6 (k mod 10 ^ 6)) [] k 0) as F. rewrite app_nil_r in F.
  rewrite L in F. apply F; [|constructor]. apply read_numeral.
  - pose proof (fmt_nonempty 10 (k / 10 ^ 6) ltac:(lia) Q) as N. destruct (fmt_uint 10 (k / 10 ^ 6)); [contradiction|discriminate].
  - rewrite (app_dig _ _ _ _ _ (fmt_read 10 _ ltac:(lia) Q) D). f_equal. change (10 ^ Z.of_nat 6) with (10 ^ 6).
    rewrite (Z.div_mod k (10 ^ 6)) at 3 by lia. ring.
Qed.
