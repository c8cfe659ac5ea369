(** C57: string literals of a schema (import paths, option values) stand for what is written. *)
From Coq Require Import String Ascii List Bool Lia Arith ZArith.
From Verif Require Import Literals LexModel LexSpec LexProofs LexLayout StrLit.
Import ListNotations.
Open Scope string_scope.
Open Scope nat_scope.
Open Scope list_scope.

(** A string token is a quote, pieces that do not contain that quote unescaped, and the same quote again: it
    ends at the first quote of its kind that is not escaped. *)
Theorem C57_token : forall t, is_token KStr t <->
  exists q us ns, (q = "'"%char \/ q = """"%char) /\ pieces q us ns /\ t = q :: concat us ++ [q].
Proof. exact str_token_pieces. Qed.

(** Its value is made of the values of its pieces, unless one of them is turned down. *)
Theorem C57_value : forall q us ns, (q = "'"%char \/ q = """"%char) -> pieces q us ns ->
  (forall u n, In (u, n) (combine us ns) -> ~ bad_piece q u n) ->
  visit_str (q :: concat us ++ [q]) = Some (map ascii_of_nat ns).
Proof.
  intros q us ns Q P N. destruct (visit_str_loop q us ns Q P) as (fuel & F & ->).
  now apply (proj1 (loop_pieces q us ns Q P fuel F)).
Qed.
Theorem C57_rejected : forall q us ns, (q = "'"%char \/ q = """"%char) -> pieces q us ns ->
  (exists u n, In (u, n) (combine us ns) /\ bad_piece q u n) ->
  visit_str (q :: concat us ++ [q]) = None.
Proof.
  intros q us ns Q P N. destruct (visit_str_loop q us ns Q P) as (fuel & F & ->).
  now apply (proj2 (loop_pieces q us ns Q P fuel F)).
Qed.

(** Every string of bytes can be written, between quotes of either kind: printable characters as they are, the
    rest in hexadecimal. *)
Definition hex_char (n : nat) : ascii := List.nth n (cs "0123456789abcdef") "0"%char.
Definition write_char (c : ascii) : chars :=
  if Ascii.eqb c """" || Ascii.eqb c "'" || Ascii.eqb c "\" || negb (between " " "~" c)
  then ["\"%char; "x"%char; hex_char (nat_of_ascii c / 16); hex_char (nat_of_ascii c mod 16)]
  else [c].
Lemma write_char_piece q c : q = "'"%char \/ q = """"%char ->
  piece q (write_char c) (nat_of_ascii c) /\ ~ bad_piece q (write_char c) (nat_of_ascii c).
Proof.
  intros Q.
  assert (A : forall c, (if Ascii.eqb c """" || Ascii.eqb c "'" || Ascii.eqb c "\" || negb (between " " "~" c) then
     let a := hex_char (nat_of_ascii c / 16) in let b := hex_char (nat_of_ascii c mod 16) in
     hex_digit a && hex_digit b && Nat.eqb (digit_of a * 16 + digit_of b) (nat_of_ascii c)
     else plain_char c) = true) by (apply char_table; vm_compute; reflexivity).
  specialize (A c). unfold write_char. destruct (_ || _ || _ || _) eqn:E.
  - cbn zeta in A. apply andb_prop in A as [A A3]. apply andb_prop in A as [A1 A2]. apply Nat.eqb_eq in A3.
    split.
    + rewrite <- A3 at 3. apply p_hex; auto. now left.
    + pose proof (nat_ascii_bounded c). intros [(x & y & B)|[B|[B|[_ B]]]]; try discriminate; lia.
  - apply orb_false_elim in E as [E _]. apply orb_false_elim in E as [E E3]. apply orb_false_elim in E as [E1 E2].
    apply Ascii.eqb_neq in E1, E2, E3. apply plain_ok in A as (A1 & A2 & A3). split.
    + apply p_plain; auto. destruct Q as [-> | ->]; auto.
    + pose proof (nat_ascii_bounded c). intros [(x & y & B)|[B|[B|[_ B]]]]; try discriminate; try lia. congruence.
Qed.
Theorem C57_every_string : forall q v, (q = "'"%char \/ q = """"%char) ->
  let t := q :: concat (map write_char v) ++ [q] in is_token KStr t /\ visit_str t = Some v.
Proof.
  intros q v Q t.
  assert (P : pieces q (map write_char v) (map nat_of_ascii v)).
  { induction v as [|c v IH]; [constructor|]. constructor; auto. now apply write_char_piece. }
  split.
  - apply C57_token. exists q, (map write_char v), (map nat_of_ascii v). auto.
  - unfold t. rewrite (C57_value _ _ _ Q P).
    + rewrite map_map. f_equal. induction v as [|c v IH]; [reflexivity|]. cbn. rewrite ascii_nat_embedding.
      f_equal. apply IH. now inversion P.
    + intros u n I. clear P t. induction v as [|c v IH]; [destruct I|].
      cbn in I. destruct I as [I|I]; [|auto]. injection I as <- <-. now apply write_char_piece.
Qed.

(** Not every literal of the grammar is accepted: an apostrophe cannot be escaped, not even between apostrophes,
    and between apostrophes a plain quotation mark is an error. *)
Theorem C57_quotes_refuted :
  is_token KStr (cs "'it\'s'") /\ visit_str (cs "'it\'s'") = None /\
  is_token KStr (cs "'say ""hi""'") /\ visit_str (cs "'say ""hi""'") = None /\
  visit_str (cs """it's""") = Some (cs "it's") /\
  is_token KStr (cs """\X41""") /\ visit_str (cs """\X41""") = None /\
  is_token KStr (cs """\777""") /\ visit_str (cs """\777""") = None.
Proof.
  assert (T : forall t n, best rules t = Some (KStr, S n) -> firstn (S n) t = t -> S n <= length t -> is_token KStr t).
  { intros t n B E L. split; [|reflexivity]. apply next_best. exists n. auto. }
  repeat split; try (vm_compute; reflexivity); (eapply T; [vm_compute; reflexivity|reflexivity|cbn; lia]).
Qed.
Example C57_instance :
  visit_str (cs "'common/\x41\102\t.bb'") = Some (cs "common/AB" ++ ["009"%char] ++ cs ".bb").
Proof. vm_compute. reflexivity. Qed.
