(** String literals: compiler/literal_visitor.go:174-195 VisitStrLit, with Go's strconv.Unquote
    (strconv/quote.go: unquote, UnquoteChar).  Texts are bytes; texts that are not UTF-8 are left out. *)
From Coq Require Import String Ascii List Bool Lia Arith ZArith.
From Verif Require Import Literals LexModel LexSpec LexProofs LexLayout.
Import ListNotations.
Open Scope string_scope.
Open Scope nat_scope.
Open Scope list_scope.

(** ** Specification *)

(** The pieces of a literal between quotes [q]: what the grammar allows (bubbler.g4:262-281).  The second
    argument is what the piece should stand for. *)
Definition simple_escapes : list (ascii * ascii) :=
  [("a", "007"); ("b", "008"); ("f", "012"); ("n", "010"); ("r", "013"); ("t", "009"); ("v", "011");
   ("\", "\"); ("'", "'"); ("""", """")]%char.
Definition digit_of (c : ascii) : nat := match digit_value c with Some d => Z.to_nat d | None => 0 end.
Inductive piece (q : ascii) : chars -> nat -> Prop :=
| p_plain c : c <> q -> c <> "\"%char -> c <> "010"%char -> c <> "000"%char -> piece q [c] (nat_of_ascii c)
| p_hex x a b : In x (cs "xX") -> hex_digit a = true -> hex_digit b = true ->
    piece q ["\"%char; x; a; b] (digit_of a * 16 + digit_of b)
| p_oct a b c : octal_digit a = true -> octal_digit b = true -> octal_digit c = true ->
    piece q ["\"%char; a; b; c] (digit_of a * 64 + digit_of b * 8 + digit_of c)
| p_simple e v : In (e, v) simple_escapes -> piece q ["\"%char; e] (nat_of_ascii v).
(** A literal's inside as a list of pieces, and their values. *)
Inductive pieces (q : ascii) : list chars -> list nat -> Prop :=
| ps_nil : pieces q [] []
| ps_cons u n us ns : piece q u n -> pieces q us ns -> pieces q (u :: us) (n :: ns).

(** The pieces that the compiler turns down although the grammar allows them. *)
Definition bad_piece (q : ascii) (u : chars) (n : nat) : Prop :=
  (exists a b, u = ["\"%char; "X"%char; a; b])            (* capital X *)
  \/ 255 < n                                              (* more than a byte *)
  \/ u = ["\"%char; "'"%char]                             (* an escaped apostrophe *)
  \/ (q = "'"%char /\ u = [""""%char]).                   (* a plain quotation mark between apostrophes *)

(** ** Model *)

(** UnquoteChar with a quotation mark as the quote: the byte and the rest; [None] is ErrSyntax. *)
Definition unquote_char (s : chars) : option (ascii * chars) :=
  match s with
  | [] => None
  | c :: r =>
      if Ascii.eqb c dquote then None
      else if negb (Ascii.eqb c backslash) then Some (c, r)
      else
        match r with
        | [] => None
        | e :: r =>
            if Ascii.eqb e "a" then Some ("007"%char, r)
            else if Ascii.eqb e "b" then Some ("008"%char, r)
            else if Ascii.eqb e "f" then Some ("012"%char, r)
            else if Ascii.eqb e "n" then Some ("010"%char, r)
            else if Ascii.eqb e "r" then Some ("013"%char, r)
            else if Ascii.eqb e "t" then Some ("009"%char, r)
            else if Ascii.eqb e "v" then Some ("011"%char, r)
            else if Ascii.eqb e "x" then
              match r with
              | a :: b :: r =>
                  match digit_value a, digit_value b with
                  | Some x, Some y => Some (ascii_of_nat (Z.to_nat x * 16 + Z.to_nat y), r)
                  | _, _ => None
                  end
              | _ => None
              end
            else if octal_digit e then
              match r with
              | a :: b :: r =>
                  if octal_digit a && octal_digit b then
                    let v := digit_of e * 64 + digit_of a * 8 + digit_of b in
                    if Nat.leb v 255 then Some (ascii_of_nat v, r) else None
                  else None
              | _ => None
              end
            else if Ascii.eqb e "\" then Some ("\"%char, r)
            else if Ascii.eqb e dquote then Some (dquote, r)
            else None    (* \u and \U cannot come from the lexer; an apostrophe is ErrSyntax here *)
        end
  end.
(** The loop of unquote, after the opening quote; the closing quote must end the text (Unquote). *)
Fixpoint unquote_loop (fuel : nat) (s : chars) : option chars :=
  match fuel with
  | O => None
  | S fuel =>
      match s with
      | [] => None
      | c :: r =>
          if Ascii.eqb c dquote then match r with [] => Some [] | _ => None end
          else if Ascii.eqb c newline then None
          else match unquote_char s with
               | Some (x, r) => option_map (cons x) (unquote_loop fuel r)
               | None => None
               end
      end
  end.
(** strconv.Unquote of a text that starts with a quotation mark.  (The shortcut for texts without escapes gives
    the same result.) *)
Definition unquote (t : chars) : option chars :=
  match t with
  | c :: r => if Ascii.eqb c dquote then unquote_loop (S (length r)) r else None
  | [] => None
  end.
(** VisitStrLit: apostrophes are replaced by quotation marks first. *)
Definition visit_str (t : chars) : option chars :=
  match t with
  | c :: r =>
      if Ascii.eqb c squote && Ascii.eqb (last_char t) squote then unquote (dquote :: removelast r ++ [dquote])
      else unquote t
  | [] => None
  end.

(** ** The tokens *)
Lemma one_of_in l c : one_of l c = true <-> In c l.
Proof.
  unfold one_of. rewrite existsb_exists. split.
  - intros (x & I & E). apply Ascii.eqb_eq in E. now subst.
  - intros I. exists c. split; auto. apply Ascii.eqb_refl.
Qed.
Lemma plain_ok c : plain_char c = true <-> c <> "\"%char /\ c <> "010"%char /\ c <> "000"%char.
Proof.
  unfold plain_char. rewrite negb_true_iff. split.
  - intros H. repeat split; intros ->; vm_compute in H; discriminate.
  - intros (H1 & H2 & H3). destruct (one_of _ c) eqn:E; auto. apply one_of_in in E. cbn in E.
    unfold newline, backslash in E. intuition congruence.
Qed.
Lemma lang_char_value w : lang char_value w ->
  (exists c, w = [c] /\ plain_char c = true) \/
  (exists x a b, w = ["\"%char; x; a; b] /\ In x (cs "xX") /\ hex_digit a = true /\ hex_digit b = true) \/
  (exists a b c, w = ["\"%char; a; b; c] /\ octal_digit a = true /\ octal_digit b = true /\ octal_digit c = true) \/
  (exists e, w = ["\"%char; e] /\ In e (map fst simple_escapes)).
Proof.
  unfold char_value. intros L.
  apply lang_alt_inv in L as [L|L].
  { right. left. apply lang_seq_inv in L as (u & v & -> & L1 & L). apply lang_seq_inv in L as (u2 & v2 & -> & L2 & L).
    apply lang_seq_inv in L as (u3 & v3 & -> & L3 & L4). inversion L1; inversion L2; inversion L3; inversion L4; subst.
    apply Ascii.eqb_eq in H0. subst. exists c0, c1, c2. repeat split; auto. now apply one_of_in. }
  apply lang_alt_inv in L as [L|L].
  { right. right. left. apply lang_seq_inv in L as (u & v & -> & L1 & L). apply lang_seq_inv in L as (u2 & v2 & -> & L2 & L).
    apply lang_seq_inv in L as (u3 & v3 & -> & L3 & L4). inversion L1; inversion L2; inversion L3; inversion L4; subst.
    apply Ascii.eqb_eq in H0. subst. exists c0, c1, c2. auto. }
  apply lang_alt_inv in L as [L|L].
  { right. right. right. apply lang_seq_inv in L as (u & v & -> & L1 & L2). inversion L1; inversion L2; subst.
    apply Ascii.eqb_eq in H0. subst. exists c0. split; auto.
    match goal with H : one_of _ c0 = true |- _ => apply one_of_in in H; exact H end. }
  left. inversion L; subst. eauto.
Qed.
Lemma piece_lang q u n : piece q u n -> lang char_value u.
Proof.
  intros [c H1 H2 H3 H4|x a b Hx Ha Hb|a b c Ha Hb Hc|e v I]; unfold char_value.
  - do 3 apply l_right. constructor. now apply plain_ok.
  - apply l_left. apply (l_seq _ _ ["\"%char] [x; a; b]); [now constructor|].
    apply (l_seq _ _ [x] [a; b]); [constructor; now apply one_of_in|].
    apply (l_seq _ _ [a] [b]); now constructor.
  - apply l_right, l_left. apply (l_seq _ _ ["\"%char] [a; b; c]); [now constructor|].
    apply (l_seq _ _ [a] [b; c]); [now constructor|]. apply (l_seq _ _ [b] [c]); now constructor.
  - do 2 apply l_right. apply l_left. apply (l_seq _ _ ["\"%char] [e]); [now constructor|]. constructor.
    apply one_of_in. change (cs "abfnrtv\'""") with (map fst simple_escapes). apply in_map_iff. exists (e, v). auto.
Qed.
Lemma pieces_lang q us ns : pieces q us ns -> lang (RStar char_value) (concat us).
Proof.
  induction 1 as [|u n us ns H _ IH]; [constructor|]. cbn. constructor; auto. now apply piece_lang in H.
Qed.

(** Reading pieces from the left: a char_value that the text of a piece and a rest starts with is that piece. *)
Lemma octal_not_x a : octal_digit a = true -> ~ In a (cs "xX") /\ ~ In a (map fst simple_escapes) /\ plain_char a = true.
Proof.
  assert (A : forall a, (if octal_digit a then negb (one_of (cs "xX") a || one_of (map fst simple_escapes) a) && plain_char a else true) = true)
    by (apply char_table; vm_compute; reflexivity).
  intros H. specialize (A a). rewrite H in A. apply andb_prop in A as [A1 A2]. apply negb_true_iff in A1.
  apply orb_false_elim in A1 as [A1 A3]. repeat split; auto; intros I; apply one_of_in in I; congruence.
Qed.
Lemma x_not_simple x : In x (cs "xX") -> ~ In x (map fst simple_escapes).
Proof. intros [<-|[<-|[]]]; cbn; intuition discriminate. Qed.
Lemma char_value_piece q u n w r r' : piece q u n -> lang char_value w -> u ++ r = w ++ r' -> w = u.
Proof.
  intros P L E. apply lang_char_value in L.
  destruct P as [c H1 H2 H3 H4|x a b Hx Ha Hb|a b c Ha Hb Hc|e v I];
    destruct L as [(c' & -> & Hc')|[(x' & a' & b' & -> & Hx' & Ha' & Hb')|[(a' & b' & c' & -> & Ha' & Hb' & Hc')|(e' & -> & He')]]];
    cbn in E; injection E; intros; subst; try reflexivity; try congruence; exfalso;
    repeat match goal with
    | H : octal_digit _ = true |- _ => apply octal_not_x in H as (? & ? & ?)
    | H : In (_, _) simple_escapes |- _ => apply (in_map fst) in H; cbn [fst] in H
    | H : In _ (cs "xX") |- _ => pose proof (x_not_simple _ H); revert H
    end; intros; try (apply plain_ok in Hc' as (? & ? & ?)); tauto.
Qed.
Lemma piece_first q u n : piece q u n -> q <> "\"%char -> exists c r, u = c :: r /\ c <> q.
Proof. intros [c H1 H2 H3 H4|x a b Hx Ha Hb|a b c Ha Hb Hc|e v I] Q; eauto. Qed.

Lemma quote_first q us ns : pieces q us ns -> q <> "\"%char -> forall b x,
  lang (RStar char_value) b -> concat us ++ [q] = b ++ q :: x -> x = [].
Proof.
  intros P Q. induction P as [|u n us ns Hu _ IH]; intros b x Lb E; cbn in E.
  - destruct b as [|c b]; cbn in E; [congruence|]. injection E as _ E. destruct b; discriminate.
  - destruct b as [|c b].
    + cbn in E. destruct (piece_first _ _ _ Hu Q) as (y & t & -> & Ny). cbn in E. congruence.
    + apply lang_star_cons in Lb as (w & v & -> & Lw & Lv).
      assert (W : c :: w = u).
      { apply (char_value_piece q u n (c :: w) (concat us ++ [q]) (v ++ q :: x)); auto.
        rewrite app_assoc, E. cbn. now rewrite app_assoc. }
      subst u. cbn in E. injection E as E. rewrite <- !app_assoc in E. apply app_inv_head in E. eauto.
Qed.

(** Any sequence of char_values without an unescaped [q] is a sequence of pieces. *)
Lemma hex_digit_value a : hex_digit a = true -> exists d, digit_value a = Some d /\ (0 <= d < 16)%Z.
Proof.
  assert (A : forall a, (if hex_digit a then match digit_value a with Some d => Z.leb 0 d && Z.ltb d 16 | None => false end else true) = true)
    by (apply char_table; vm_compute; reflexivity).
  intros H. specialize (A a). rewrite H in A. destruct (digit_value a) as [d|]; [|discriminate].
  exists d. split; auto. apply andb_prop in A as [A1 A2]. apply Z.leb_le in A1. apply Z.ltb_lt in A2. lia.
Qed.
Lemma char_value_is_piece q w : lang char_value w -> w <> [q] -> exists n, piece q w n.
Proof.
  intros L N. apply lang_char_value in L.
  destruct L as [(c & -> & H)|[(x & a & b & -> & Hx & Ha & Hb)|[(a & b & c & -> & Ha & Hb & Hc)|(e & -> & I)]]].
  - apply plain_ok in H as (H1 & H2 & H3). eexists. apply p_plain; auto. congruence.
  - eexists. now apply p_hex.
  - eexists. now apply p_oct.
  - apply in_map_iff in I as ((e' & v) & <- & I). eexists. apply p_simple. exact I.
Qed.
Lemma star_pieces q b : lang (RStar char_value) b -> (forall b1 b2, b = b1 ++ q :: b2 -> ~ lang (RStar char_value) b1) ->
  exists us ns, pieces q us ns /\ concat us = b.
Proof.
  remember (RStar char_value) as r eqn:Er. intros L. induction L as [| | | | |a|a u v Lu _ Lv IH]; try discriminate; intros N.
  - exists [], []. split; [constructor|reflexivity].
  - injection Er as ->.
    destruct (list_eq_dec ascii_dec u [q]) as [->|D].
    + exfalso. apply (N [] v); [reflexivity|constructor].
    + destruct (char_value_is_piece q u Lu D) as (n & P).
      destruct IH as (us & ns & Ps & E); auto.
      { intros b1 b2 -> L1. apply (N (u ++ b1) b2); [now rewrite app_assoc|]. now constructor. }
      exists (u :: us), (n :: ns). split; [now constructor|]. cbn. now rewrite E.
Qed.

Lemma lang_char_inv x w : lang (RChar x) w -> w = [x].
Proof. intros L. inversion L; subst. match goal with H : is_char _ _ = true |- _ => apply Ascii.eqb_eq in H end. now subst. Qed.
Lemma str_lit_inv t : lang str_lit t ->
  exists q b, (q = squote \/ q = dquote) /\ t = q :: b ++ [q] /\ lang (RStar char_value) b.
Proof.
  unfold str_lit. intros L. apply lang_alt_inv in L as [L|L]; apply lang_seq_inv in L as (u & v & -> & L1 & L);
    apply lang_seq_inv in L as (b & v2 & -> & L2 & L3); apply lang_char_inv in L1, L3; subst; cbn; eauto 6.
Qed.
Lemma str_token_pieces t : is_token KStr t <->
  exists q us ns, (q = squote \/ q = dquote) /\ pieces q us ns /\ t = q :: concat us ++ [q].
Proof.
  split.
  - intros T. pose proof T as [(i & r & N & K & Tk & Nw & M) _].
    assert (R : r = shortest_first KStr str_lit).
    { apply (kind_rule KStr); auto; try discriminate; [apply tail_rule; cbn; tauto|now apply nth_error_In in N]. }
    subst r. clear M N K. destruct Tk as (_ & L & M). cbn [r_re shortest_first r_greedy] in *.
    pose proof (str_lit_inv _ L) as A.
    destruct A as (q & b & Q & -> & Lb).
    destruct (star_pieces q b Lb) as (us & ns & P & E).
    { intros b1 b2 -> L1. assert (H : length (q :: (b1 ++ q :: b2) ++ [q]) <= length (q :: b1 ++ [q])).
      { apply M.
        - exists (b2 ++ [q]). cbn. rewrite <- !app_assoc. reflexivity.
        - unfold str_lit. destruct Q as [-> | ->]; [apply l_left|apply l_right];
            (apply (l_seq _ _ [_] (b1 ++ [_])); [now constructor|]); apply l_seq; auto; now constructor. }
      cbn [length] in H. rewrite !app_length in H. cbn in H. lia. }
    exists q, us, ns. rewrite E. auto.
  - intros (q & us & ns & Q & P & ->). split; [|reflexivity].
    assert (Qn : q <> "\"%char) by (destruct Q as [-> | ->]; discriminate).
    set (t := q :: concat us ++ [q]).
    assert (T : takes (shortest_first KStr str_lit) t t).
    { split; [exists []; now rewrite app_nil_r|]. split.
      - cbn [r_re shortest_first]. unfold str_lit. pose proof (pieces_lang _ _ _ P).
        destruct Q as [-> | ->]; [apply l_left|apply l_right];
            (apply (l_seq _ _ [_] (concat us ++ [_])); [now constructor|]); apply l_seq; auto; now constructor.
      - cbn [r_re r_greedy shortest_first]. intros w' [x E] L.
        pose proof (str_lit_inv _ L) as A.
        destruct A as (q' & b & Q' & -> & Lb). unfold t in E. cbn in E. injection E as <- E.
        rewrite <- app_assoc in E. cbn in E.
        pose proof (quote_first q us ns P Qn b x Lb E) as ->. unfold t. rewrite E. cbn. reflexivity. }
    apply next_best. unfold t in *. cbn [length]. eexists. split; [|split].
    2:{ symmetry. apply firstn_all2 with (n := S (length (concat us ++ [q]))). cbn. lia. }
    2:{ cbn. lia. }
    change (S (length (concat us ++ [q]))) with (length (q :: concat us ++ [q])).
    change KStr with (r_kind (shortest_first KStr str_lit)).
    apply best_pick.
    + apply tail_rule. cbn; tauto.
    + now apply takes_scan.
    + intros r m I Sm. right. apply scan_fst in Sm as F; auto. destruct F as [F _].
      pose proof (char_table _ (rule_table _ table_quote r I) q) as Ty. cbn beta in Ty.
      assert (Qq : quote q = true) by (destruct Q as [-> | ->]; reflexivity). rewrite Qq in Ty.
      unfold fst_none in Ty. rewrite F in Ty. cbn in Ty.
      assert (K : r_kind r = KStr) by (destruct (r_kind r); congruence).
      assert (r = shortest_first KStr str_lit) as ->.
      { apply (kind_rule KStr); [apply tail_rule; cbn; tauto|reflexivity|discriminate|exact I|exact K]. }
      rewrite (takes_scan _ _ _ T) in Sm. injection Sm as <-. split; reflexivity.
Qed.

(** ** The values *)
Lemma hex_range a b : hex_digit a = true -> hex_digit b = true -> digit_of a * 16 + digit_of b <= 255.
Proof.
  intros Ha Hb. apply hex_digit_value in Ha as (x & Ex & Hx). apply hex_digit_value in Hb as (y & Ey & Hy).
  unfold digit_of. rewrite Ex, Ey. lia.
Qed.
Lemma table_oct : forall e, (if octal_digit e then
  negb (Ascii.eqb e "a" || Ascii.eqb e "b" || Ascii.eqb e "f" || Ascii.eqb e "n" || Ascii.eqb e "r" || Ascii.eqb e "t" ||
        Ascii.eqb e "v" || Ascii.eqb e "x") else true) = true.
Proof. apply char_table. vm_compute. reflexivity. Qed.
Lemma unquote_oct a b c r : octal_digit a = true -> octal_digit b = true -> octal_digit c = true ->
  unquote_char ("\"%char :: a :: b :: c :: r) =
  let v := digit_of a * 64 + digit_of b * 8 + digit_of c in if Nat.leb v 255 then Some (ascii_of_nat v, r) else None.
Proof.
  intros Ha Hb Hc. pose proof (table_oct a) as T. rewrite Ha in T. apply negb_true_iff in T.
  repeat (apply orb_false_elim in T; destruct T as [T ?]).
  unfold unquote_char. cbn [Ascii.eqb]. change (Ascii.eqb "\" dquote) with false. change (Ascii.eqb "\" backslash) with true.
  cbn [negb]. repeat match goal with H : Ascii.eqb a _ = false |- _ => rewrite H; clear H end.
  rewrite Ha, Hb, Hc. reflexivity.
Qed.
Lemma unquote_hex a b r : hex_digit a = true -> hex_digit b = true ->
  unquote_char ("\"%char :: "x"%char :: a :: b :: r) = Some (ascii_of_nat (digit_of a * 16 + digit_of b), r).
Proof.
  intros Ha Hb. apply hex_digit_value in Ha as (x & Ex & _). apply hex_digit_value in Hb as (y & Ey & _).
  unfold digit_of. cbn. rewrite Ex, Ey. reflexivity.
Qed.

Lemma unquote_piece q u n r : (q = squote \/ q = dquote) -> piece q u n ->
  (~ bad_piece q u n -> exists c u', u = c :: u' /\ c <> dquote /\ c <> newline /\ unquote_char (u ++ r) = Some (ascii_of_nat n, r)) /\
  (bad_piece q u n -> u = [dquote] \/ (exists c u', u = c :: u' /\ c <> dquote /\ c <> newline /\ unquote_char (u ++ r) = None)).
Proof.
  intros Q P. unfold bad_piece.
  destruct P as [c H1 H2 H3 H4|x a b Hx Ha Hb|a b c Ha Hb Hc|e v I].
  - split.
    + intros N. assert (Hd : c <> dquote).
      { intros ->. destruct Q as [-> | ->]; [|easy]. apply N. right. right. right. auto. }
      exists c, []. repeat split; auto. cbn [app]. unfold unquote_char.
      destruct (Ascii.eqb c dquote) eqn:E1; [apply Ascii.eqb_eq in E1; easy|].
      destruct (Ascii.eqb c backslash) eqn:E2; [apply Ascii.eqb_eq in E2; easy|].
      cbn. now rewrite ascii_nat_embedding.
    + intros [(a & b & E)|[B|[E|[-> E]]]]; try discriminate.
      * pose proof (nat_ascii_bounded c). lia.
      * injection E as ->. left. reflexivity.
  - assert (R : digit_of a * 16 + digit_of b <= 255) by now apply hex_range.
    split.
    + intros N. destruct Hx as [<-|[<-|[]]].
      * exists "\"%char, ["x"%char; a; b]. split; [reflexivity|]. split; [discriminate|]. split; [discriminate|].
        cbn [app]. now apply unquote_hex.
      * exfalso. apply N. left. eauto.
    + intros [(a' & b' & E)|[B|[E|[-> E]]]]; try discriminate; [|lia].
      injection E as -> -> ->. right. exists "\"%char, ["X"%char; a'; b']. repeat split; try discriminate; reflexivity.
  - split.
    + intros N. exists "\"%char, [a; b; c]. repeat split; try discriminate. cbn [app].
      rewrite unquote_oct by auto. cbn zeta.
      destruct (Nat.leb _ 255) eqn:E; [reflexivity|]. apply Nat.leb_gt in E. exfalso. apply N. right. left. exact E.
    + intros [(a' & b' & E)|[B|[E|[-> E]]]]; try discriminate.
      * injection E as -> _ _. discriminate.
      * right. exists "\"%char, [a; b; c]. repeat split; try discriminate. cbn [app].
        rewrite unquote_oct by auto. cbn zeta. apply Nat.leb_gt in B. now rewrite B.
  - unfold simple_escapes in I.
    split.
    + intros N. exists "\"%char, [e]. split; [reflexivity|]. split; [discriminate|]. split; [discriminate|].
      repeat (destruct I as [I|I]; [injection I as <- <-; try reflexivity; exfalso; apply N; right; right; left; reflexivity|]).
      destruct I.
    + intros [(a' & b' & E)|[B|[E|[-> E]]]]; try discriminate.
      * pose proof (nat_ascii_bounded v). lia.
      * injection E as ->. right. exists "\"%char, ["'"%char]. repeat split; try discriminate; reflexivity.
Qed.

Lemma unquote_loop_S fuel s : unquote_loop (S fuel) s =
  match s with
  | [] => None
  | c :: r =>
      if Ascii.eqb c dquote then match r with [] => Some [] | _ => None end
      else if Ascii.eqb c newline then None
      else match unquote_char s with
           | Some (x, r) => option_map (cons x) (unquote_loop fuel r)
           | None => None
           end
  end.
Proof. reflexivity. Qed.
Lemma eqb_neq c d : c <> d -> Ascii.eqb c d = false.
Proof. intros H. destruct (Ascii.eqb c d) eqn:E; auto. apply Ascii.eqb_eq in E. easy. Qed.

Lemma loop_pieces q us ns : (q = squote \/ q = dquote) -> pieces q us ns -> forall fuel, length us < fuel ->
  ((forall u n, In (u, n) (combine us ns) -> ~ bad_piece q u n) ->
     unquote_loop fuel (concat us ++ [dquote]) = Some (map ascii_of_nat ns)) /\
  ((exists u n, In (u, n) (combine us ns) /\ bad_piece q u n) -> unquote_loop fuel (concat us ++ [dquote]) = None).
Proof.
  intros Q P. induction P as [|u n us ns Hu Hp IH]; intros fuel F; (destruct fuel as [|fuel]; [cbn in F; lia|]).
  - split; [reflexivity|]. intros (u & n & [] & _).
  - cbn [length] in F. destruct (IH fuel) as [IH1 IH2]; [lia|].
    destruct (unquote_piece q u n (concat us ++ [dquote]) Q Hu) as [G B].
    cbn [concat combine map]. rewrite <- app_assoc. rewrite unquote_loop_S.
    assert (D : bad_piece q u n \/ ~ bad_piece q u n).
    { unfold bad_piece.
      destruct (Nat.lt_ge_cases 255 n) as [|H1]; [tauto|].
      destruct (list_eq_dec ascii_dec u ["\"%char; "'"%char]) as [|H2]; [tauto|].
      destruct (list_eq_dec ascii_dec u [""""%char]) as [H3|H3].
      { destruct Q as [-> | ->]; [tauto|]. right. intros [(a & b & E)|[E|[E|[E _]]]]; try lia; try easy; congruence. }
      destruct u as [|c0 [|c1 [|a [|b [|]]]]];
        try (right; intros [(x & y & E)|[E|[E|[_ E]]]]; try lia; congruence).
      destruct (ascii_dec c0 "\") as [->|]; [|right; intros [(x & y & E)|[E|[E|[_ E]]]]; try lia; congruence].
      destruct (ascii_dec c1 "X") as [->|]; [left; left; eauto|].
      right; intros [(x & y & E)|[E|[E|[_ E]]]]; try lia; congruence. }
    split.
    + intros N. destruct G as (c & u' & -> & Hd & Hn & E); [apply N; now left|].
      cbn [app] in *. rewrite (eqb_neq c dquote Hd), (eqb_neq c newline Hn), E.
      rewrite IH1; [reflexivity|]. intros u0 n0 I. apply N. now right.
    + intros Hbad. destruct D as [D|D].
      * destruct (B D) as [->|(c & u' & -> & Hd & Hn & E)].
        -- cbn [app]. change (Ascii.eqb dquote dquote) with true. cbv iota.
           destruct (concat us ++ [dquote]) eqn:Ec; [|reflexivity]. destruct (concat us); discriminate.
        -- cbn [app] in *. now rewrite (eqb_neq c dquote Hd), (eqb_neq c newline Hn), E.
      * destruct (G D) as (c & u' & -> & Hd & Hn & E).
        cbn [app] in *. rewrite (eqb_neq c dquote Hd), (eqb_neq c newline Hn), E.
        rewrite IH2; [reflexivity|]. destruct Hbad as (u0 & n0 & [I|I] & Bd); [|eauto].
        injection I as <- <-. destruct (D Bd).
Qed.
Lemma pieces_length q us ns : pieces q us ns -> length us <= length (concat us).
Proof.
  induction 1 as [|u n us ns Hu _ IH]; [auto|]. cbn. rewrite app_length.
  destruct Hu; cbn; lia.
Qed.
Lemma visit_str_loop q us ns : (q = squote \/ q = dquote) -> pieces q us ns ->
  exists fuel, length us < fuel /\ visit_str (q :: concat us ++ [q]) = unquote_loop fuel (concat us ++ [dquote]).
Proof.
  intros Q P. exists (S (length (concat us ++ [dquote]))). split.
  { apply pieces_length in P. rewrite app_length. lia. }
  assert (La : last_char (q :: concat us ++ [q]) = q).
  { unfold last_char. change (q :: concat us ++ [q]) with ((q :: concat us) ++ [q]). apply last_last. }
  unfold visit_str. rewrite La. destruct Q as [-> | ->].
  - change (Ascii.eqb squote squote && Ascii.eqb squote squote) with true. cbv iota.
    rewrite removelast_last. unfold unquote. change (Ascii.eqb dquote dquote) with true. cbv iota. reflexivity.
  - change (Ascii.eqb dquote squote && Ascii.eqb dquote squote) with false. cbv iota. reflexivity.
Qed.
