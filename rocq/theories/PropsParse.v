(** C58 and C59: the parser of schema files. *)
From Coq Require Import String Ascii List Bool Arith Lia ZArith.
From Verif Require Import Literals LexModel LexSpec LexProofs LexLayout PropsLex FrontModel ExprModel Syntax Parser ParserProofs ParserDecl ParserLang.
Import ListNotations.
Open Scope string_scope.
Open Scope nat_scope.
Open Scope list_scope.

(** ** C58: files *)

(** The tree found for a list of tokens is the derivation of the grammar with these tokens whose expressions are
    grouped as meant; there is at most one. *)
Theorem C58_parse ts f : parse ts = Some f <-> yield f = ts /\ meant_file f.
Proof. split; [apply parse_sound|]. intros [<- M]. now apply parse_complete. Qed.
(** What the grammar derives is accepted, the rest is rejected. *)
Theorem C58_language ts : (exists f, parse ts = Some f) <-> exists f, yield f = ts.
Proof.
  split.
  - intros (f & H). exists f. now apply C58_parse.
  - intros (f & <-). destruct (file_meant f) as (f' & E & M). exists f'. apply C58_parse. auto.
Qed.
(** Different files have different tokens. *)
Theorem C58_one_tree f1 f2 : meant_file f1 -> meant_file f2 -> yield f1 = yield f2 -> f1 = f2.
Proof.
  intros M1 M2 E. assert (parse (yield f1) = Some f1) by now apply C58_parse.
  assert (parse (yield f1) = Some f2) by (apply C58_parse; auto). congruence.
Qed.
(** The text of a file: every way to write the tokens of [f] is read as [f]. *)
Theorem C58_text f s : meant_file f -> written (yield f) s -> parse_text s = Some f.
Proof.
  intros M W. unfold parse_text. rewrite (C55_layout _ _ W). now apply C58_parse.
Qed.
Theorem C58_text_inv s f : parse_text s = Some f <-> lex s = Some (yield f) /\ meant_file f.
Proof.
  unfold parse_text. destruct (lex s) as [ts|]; [|split; [discriminate|intros [H _]; discriminate]].
  rewrite C58_parse. split; intros [E M]; split; auto; congruence.
Qed.

(** A file with every kind of statement and field. *)
Definition sample : chars := cs "package a.b; import ""x.bb""; option omit_empty = true;
enum Color[1] { RED, GREEN = 0x10; BLUE = -3 [a = 'b', c = 1.5], ; }
struct Point[8] { ; void[#4]; void[1#2] [order = 'big']; uint8 tag = 5; int16 = RED;
  int32 x[4] [order = 'little'] { get half(int64): value / 2 - 1; set half(int64): (int64) value * -2 ** 2 ? 1 : 0; };
  struct Inner { uint8<3> b; } inner; struct Inner<2> more; string s; bytes t; enum Color c; Other; Color<4> cs; };".
Example C58_sample : exists f, parse_text sample = Some f /\ length f = 6.
Proof.
  destruct (parse_text sample) as [f|] eqn:E.
  - exists f. split; [reflexivity|].
    assert (O : option_map (@length statement) (parse_text sample) = Some 6) by (vm_compute; reflexivity).
    rewrite E in O. cbn in O. congruence.
  - exfalso. assert (O : (match parse_text sample with Some _ => true | None => false end) = true) by (vm_compute; reflexivity).
    rewrite E in O. discriminate.
Qed.

(** ** C59: expressions *)

Definition read_expr (ts : list token) : option pexpr :=
  match parse_expr ts with Some (e, []) => Some e | _ => None end.
(** The tree found is the one meant, and there is no other. *)
Theorem C59_expr ts e : read_expr ts = Some e <-> y_expr e = ts /\ meant e.
Proof.
  unfold read_expr. split.
  - destruct (parse_expr ts) as [[e' [|]]|] eqn:E; try discriminate. intros H. injection H as ->.
    apply parse_expr_inv in E as (-> & M & _). now rewrite app_nil_r.
  - intros [<- M]. rewrite <- (app_nil_r (y_expr e)). rewrite parse_expr_ok; auto. intros n [].
Qed.
(** Every expression of the grammar is accepted. *)
Theorem C59_accepts e : exists e', read_expr (y_expr e) = Some e'.
Proof. destruct (expr_meant e) as (e' & E & M). exists e'. apply C59_expr. auto. Qed.

(** Parentheses around every operand give any tree, whatever the operators. *)
Fixpoint bracket (e : pexpr) : pexpr :=
  match e with
  | PValue => PValue
  | PConst c => PConst c
  | PParens e => PParens (bracket e)
  | PUn o e => PUn o (PParens (bracket e))
  | PCast b e => PCast b (PParens (bracket e))
  | PBin o l r => PBin o (PParens (bracket l)) (PParens (bracket r))
  | PTern c a b => PTern (PParens (bracket c)) (PParens (bracket a)) (PParens (bracket b))
  end.
Theorem C59_parentheses e : read_expr (y_expr (bracket e)) = Some (bracket e).
Proof.
  apply C59_expr. split; [reflexivity|].
  induction e; cbn [bracket meant within takes_in]; auto 8.
  split; auto. split; auto. intros _ (k & t & r & E & [-> | ->]); discriminate.
Qed.

(** Two operators between three simple operands: the operator of the earlier alternative takes the middle one; at
    the same alternative, the left operator. *)
Definition simple (e : pexpr) : Prop := match e with PValue | PParens _ => meant e | PConst _ => True | _ => False end.
Lemma simple_meant e : simple e -> meant e /\ (forall n, within n e) /\ (forall n, ~ takes_in n e).
Proof. destruct e; cbn; auto; easy. Qed.
Theorem C59_grouping o1 o2 a b c : simple a -> simple b -> simple c ->
  read_expr (y_expr a ++ fx (bin_tok o1) :: y_expr b ++ fx (bin_tok o2) :: y_expr c) =
  Some (if alternative o1 <=? alternative o2 then PBin o2 (PBin o1 a b) c else PBin o1 a (PBin o2 b c)).
Proof.
  intros A B C. apply simple_meant in A as (Ma & Wa & Ta). apply simple_meant in B as (Mb & Wb & Tb). apply simple_meant in C as (Mc & Wc & Tc).
  apply C59_expr. destruct (Nat.leb_spec (alternative o1) (alternative o2)) as [L|L].
  - split; [cbn [y_expr]; flat; reflexivity|]. cbn [meant within takes_in]. auto 10.
  - split; [cbn [y_expr]; flat; reflexivity|]. cbn [meant within takes_in].
    split; auto. split; auto 8. split; auto. split; auto. pose proof (alt_range o1). lia.
Qed.
(** A prefix operator takes a power but no other binary operation; a cast does the same. *)
Theorem C59_prefix u o a b : simple a -> simple b -> ((u = UAdd \/ u = USub) -> ~ unsigned_number (y_expr a)) ->
  read_expr (fx (un_tok u) :: y_expr a ++ fx (bin_tok o) :: y_expr b) =
  Some (match o with OPow => PUn u (PBin o a b) | _ => PBin o (PUn u a) b end).
Proof.
  intros A B N. apply simple_meant in A as (Ma & Wa & Ta). apply simple_meant in B as (Mb & Wb & Tb).
  apply C59_expr. split; [destruct o; reflexivity|].
  destruct o; cbn [meant within takes_in alternative alt_un]; unfold alt_un; repeat split; auto; try lia.
  - intros [H|H]; [lia|now apply (Ta 8)].
  - intros [H|H]; [lia|now apply (Ta 8)].
  - intros [H|H]; [lia|now apply (Ta 7)].
  - intros [H|H]; [lia|now apply (Ta 7)].
  - intros [H|H]; [lia|now apply (Ta 7)].
  - intros Hu U. apply (N Hu). cbn [y_expr] in U. apply unsigned_app in U; auto. apply y_expr_nonempty.
  - intros [H|H]; [lia|now apply (Ta 9)].
  - intros [H|H]; [lia|now apply (Ta 9)].
  - intros [H|H]; [lia|now apply (Ta 10)].
  - intros [H|H]; [lia|now apply (Ta 10)].
  - intros [H|H]; [lia|now apply (Ta 10)].
  - intros [H|H]; [lia|now apply (Ta 10)].
  - intros [H|H]; [lia|now apply (Ta 11)].
  - intros [H|H]; [lia|now apply (Ta 11)].
  - intros [H|H]; [lia|now apply (Ta 12)].
  - intros [H|H]; [lia|now apply (Ta 13)].
  - intros [H|H]; [lia|now apply (Ta 14)].
  - intros [H|H]; [lia|now apply (Ta 15)].
  - intros [H|H]; [lia|now apply (Ta 16)].
Qed.

(** Findings.  Power groups to the left, against mathematical custom and against Python and JavaScript, to which
    the operator is passed on: [2 ** 3 ** 2] is 64, not 512. *)
Theorem C59_power_left_refuted a b c : simple a -> simple b -> simple c ->
  read_expr (y_expr a ++ fx "**" :: y_expr b ++ fx "**" :: y_expr c) = Some (PBin OPow (PBin OPow a b) c).
Proof. exact (C59_grouping OPow OPow a b c). Qed.
(** The conditional groups to the left: [a ? b : c ? d : e] is [(a ? b : c) ? d : e]; in C, Java, JavaScript and C#
    it is [a ? b : (c ? d : e)]. *)
Theorem C59_conditional_left_refuted a b c d e : simple a -> simple b -> simple c -> simple d -> simple e ->
  read_expr (y_expr a ++ fx "?" :: y_expr b ++ fx ":" :: y_expr c ++ fx "?" :: y_expr d ++ fx ":" :: y_expr e) =
  Some (PTern (PTern a b c) d e).
Proof.
  intros A B C D E. apply simple_meant in A as (Ma & Wa & Ta). apply simple_meant in B as (Mb & Wb & Tb).
  apply simple_meant in C as (Mc & Wc & Tc). apply simple_meant in D as (Md & Wd & Td). apply simple_meant in E as (Me & We & Te).
  apply C59_expr. split; [cbn [y_expr]; flat; reflexivity|]. cbn [meant takes_in]. auto 12.
Qed.
(** A sign before a number belongs to the number: [-n ** b] is [(-n) ** b], but [-value ** b] is [-(value ** b)]. *)
Theorem C59_sign_power_refuted t b : simple b ->
  read_expr (fx "-" :: num t :: fx "**" :: y_expr b) = Some (PBin OPow (PConst (CInt (Some Minus) t)) b) /\
  read_expr (fx "-" :: fx "value" :: fx "**" :: y_expr b) = Some (PUn USub (PBin OPow PValue b)).
Proof.
  intros B. split.
  - apply simple_meant in B as (Mb & Wb & Tb). apply C59_expr. split; [reflexivity|]. cbn [meant takes_in within]. auto 8.
  - apply (C59_prefix USub OPow PValue b I B). intros _ (k & u & r & E & [-> | ->]); discriminate.
Qed.

Example C59_example : option_map read_expr (lex (cs "value & 0xF << 2 == 0 ? -1 : (int8) value * 2 || !value")) =
  Some (Some (PTern (PBin OBand PValue (PBin OEq (PBin OShl (PConst (CInt None (cs "0xF"))) (PConst (CInt None (cs "2")))) (PConst (CInt None (cs "0")))))
    (PConst (CInt (Some Minus) (cs "1")))
    (PBin OOr (PBin OMul (PCast Int8 PValue) (PConst (CInt None (cs "2")))) (PUn UNot PValue)))).
Proof. vm_compute. reflexivity. Qed.

Print Assumptions C58_parse.
Print Assumptions C58_language.
Print Assumptions C58_one_tree.
Print Assumptions C58_text.
Print Assumptions C58_text_inv.
Print Assumptions C59_expr.
Print Assumptions C59_accepts.
Print Assumptions C59_parentheses.
Print Assumptions C59_grouping.
Print Assumptions C59_prefix.
Print Assumptions C59_power_left_refuted.
Print Assumptions C59_conditional_left_refuted.
Print Assumptions C59_sign_power_refuted.
