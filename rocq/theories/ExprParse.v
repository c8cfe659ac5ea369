(** The tokens of a printed expression parse to its meaning. *)
From Coq Require Import ZArith Lia Bool String Ascii List.
Import ListNotations.
From Verif Require Import Base Literals PropsLit ExprModel ExprSpec ExprProofs ExprLex.
Open Scope string_scope.
Open Scope Z_scope.
Open Scope list_scope.

(** ** Enough fuel *)

Definition ev (P : nat -> Prop) : Prop := exists n0, forall n, (n0 <= n)%nat -> P n.
Lemma ev_step (P Q : nat -> Prop) : ev P -> (forall n, P n -> Q (S n)) -> ev Q.
Proof. intros [n0 H] K. exists (S n0). intros [|n] Hn; [lia|]. apply K, H. lia. Qed.
Lemma ev_step2 (P1 P2 Q : nat -> Prop) : ev P1 -> ev P2 -> (forall n, P1 n -> P2 n -> Q (S n)) -> ev Q.
Proof.
  intros [n1 H1] [n2 H2] K. exists (S (n1 + n2)). intros [|n] Hn; [lia|]. apply K; [apply H1|apply H2]; lia.
Qed.
Lemma ev_step3 (P1 P2 P3 Q : nat -> Prop) : ev P1 -> ev P2 -> ev P3 -> (forall n, P1 n -> P2 n -> P3 n -> Q (S n)) -> ev Q.
Proof.
  intros [n1 H1] [n2 H2] [n3 H3] K. exists (S (n1 + n2 + n3)). intros [|n] Hn; [lia|].
  apply K; [apply H1|apply H2|apply H3]; lia.
Qed.
Lemma ev_step4 (P1 P2 P3 P4 Q : nat -> Prop) : ev P1 -> ev P2 -> ev P3 -> ev P4 ->
  (forall n, P1 n -> P2 n -> P3 n -> P4 n -> Q (S n)) -> ev Q.
Proof.
  intros [n1 H1] [n2 H2] [n3 H3] [n4 H4] K. exists (S (n1 + n2 + n3 + n4)). intros [|n] Hn; [lia|].
  apply K; [apply H1|apply H2|apply H3|apply H4]; lia.
Qed.
Lemma ev_true (P : nat -> Prop) : (forall n, P (S n)) -> ev P.
Proof. intros K. exists 1%nat. intros [|n] Hn; [lia|]. apply K. Qed.

(** ** The parser, one step at a time *)

Lemma pexpr_S g n min l : pexpr g (S n) min l =
  match pprefix g n min l with Some (a, r) => ploop g n min a r | None => None end.
Proof. reflexivity. Qed.
Lemma pprefix_op g n min t r q : find_op (prefix g) t = Some q -> q <? min = false ->
  pprefix g (S n) min (t :: r) = punary g n t q r.
Proof. intros H1 H2. cbn [pprefix]. rewrite H1, H2. reflexivity. Qed.
Lemma pprefix_num g n min s r : pprefix g (S n) min (TNum s :: r) = ppost g n (NNum s) r.
Proof. reflexivity. Qed.
Lemma pprefix_id g n min s r : find_op (prefix g) (TId s) = None -> is_keyword g s = false ->
  pprefix g (S n) min (TId s :: r) = ppost g n (NId s) r.
Proof. intros H1 H2. cbn [pprefix]. rewrite H1, H2. reflexivity. Qed.
Lemma pprefix_kw g n min s r : find_op (prefix g) (TId s) = None -> is_keyword g s = true ->
  pprefix g (S n) min (TId s :: r) = pkeyword g n s r.
Proof. intros H1 H2. cbn [pprefix]. rewrite H1, H2. reflexivity. Qed.

Definition head_ok (g : olang) (l : list token) : Prop := match l with TId ty :: _ => type_start g ty = false | _ => True end.
Lemma not_prefix_lp g : find_op (prefix g) (sy "(") = None.
Proof. destruct g; vm_compute; reflexivity. Qed.
Lemma cast_end_none g ty l : type_start g ty = false -> cast_end g ty l = None.
Proof.
  unfold type_start. intros H. apply orb_false_iff in H as [H1 H2].
  destruct l as [|[s|t2|c] l]; auto; cbn [cast_end]; rewrite ?H1, ?andb_false_l, ?andb_false_r; auto.
  destruct l as [|[s|s|c] l]; auto. destruct (c_like g) eqn:C; auto. cbn [andb] in *.
  unfold kw, tok_eq. cbn [existsb] in H2. rewrite orb_false_r in H2. apply orb_false_iff in H2 as [A B].
  destruct (list_eq_dec ascii_dec ty (cs "enum")) as [E|_]; [subst; destruct (list_eq_dec ascii_dec (cs "enum") (cs "enum")); congruence|].
  destruct (list_eq_dec ascii_dec ty (cs "const")) as [E|_]; [subst; destruct (list_eq_dec ascii_dec (cs "const") (cs "const")); congruence|].
  reflexivity.
Qed.
Lemma pprefix_lp g n min r : head_ok g r -> pprefix g (S n) min (sy "(" :: r) = pparen g n r.
Proof.
  intros H. cbn [pprefix]. rewrite not_prefix_lp. change (tok_eq (sy "(") (sy "(")) with true. cbv iota.
  unfold sy. cbv iota. destruct r as [|[s|ty|s] r]; auto. cbn [head_ok] in H. now rewrite cast_end_none.
Qed.
Lemma pprefix_cast g n min ty r : is_cast g ty = true ->
  pprefix g (S n) min (sy "(" :: TId ty :: sy ")" :: r) =
  match pexpr g n 13 r with Some (a, r2) => Some (NCast ty a, r2) | None => None end.
Proof.
  intros H. cbn [pprefix]. rewrite not_prefix_lp. change (tok_eq (sy "(") (sy "(")) with true. cbv iota.
  unfold sy. cbv iota. cbn [cast_end]. rewrite H. reflexivity.
Qed.
(** A cast to a type given by several tokens. *)
Lemma pprefix_castn g n min h ts r t r' : cast_end g h (ts ++ r) = Some (t, r') ->
  pprefix g (S n) min (sy "(" :: TId h :: ts ++ r) =
  match pexpr g n 13 r' with Some (a, r2) => Some (NCast t a, r2) | None => None end.
Proof.
  intros H. cbn [pprefix]. rewrite not_prefix_lp. change (tok_eq (sy "(") (sy "(")) with true. cbv iota.
  unfold sy. cbv iota. rewrite H. reflexivity.
Qed.
Lemma punary_S g n t q l : punary g (S n) t q l =
  match pexpr g n q l with
  | Some (a, r) =>
      match r with
      | u :: _ => if js_like g && tok_eq u (sy "**") then None else Some (NUn (tok_text t) a, r)
      | [] => Some (NUn (tok_text t) a, r)
      end
  | None => None
  end.
Proof. reflexivity. Qed.
Lemma pparen_S g n l : pparen g (S n) l =
  match pexpr g n 0 l with
  | Some (a, r) => match expect (sy ")") r with Some r' => ppost g n a r' | None => None end
  | None => None
  end.
Proof. reflexivity. Qed.
Lemma pargs_S g n l : pargs g (S n) l =
  match pexpr g n 0 l with
  | Some (a, t :: r) =>
      if tok_eq t (sy ")") then Some ([a], r)
      else if tok_eq t (sy ",") then
        match pargs g n r with Some (args, r') => Some (a :: args, r') | None => None end
      else None
  | _ => None
  end.
Proof. reflexivity. Qed.

Lemma tok_eq_refl t : tok_eq t t = true.
Proof. destruct t as [s|s|s]; cbn; destruct (list_eq_dec ascii_dec s s); congruence. Qed.
Lemma tok_eq_eq t u : tok_eq t u = true -> t = u.
Proof.
  destruct t as [s|s|s], u as [s'|s'|s']; cbn; try discriminate; destruct (list_eq_dec ascii_dec s s'); congruence.
Qed.
Lemma expect_eq t r : expect t (t :: r) = Some r.
Proof. cbn. now rewrite tok_eq_refl. Qed.

(** ** What follows an expression *)

Definition post_tok (t : token) : bool := negb (tok_eq t (sy "(")) && negb (tok_eq t (sy ".")) && negb (tok_eq t (sy "->")) && negb (tok_eq t (sy "[")).
Definition post_ok (k : list token) : Prop := match k with t :: _ => post_tok t = true | [] => True end.
Definition stop_tok (g : olang) (t : token) : bool :=
  post_tok t && match find_op (infix g) t with None => true | Some _ => false end &&
  negb (tok_eq t (sy "?")) && negb (tok_eq t (kw "if")) &&
  (if list_eq_dec ascii_dec (tok_text t) (cs "**") then false else true).
Definition closing (g : olang) (k : list token) : Prop := match k with t :: _ => stop_tok g t = true | [] => True end.
Definition pow_free (g : olang) (k : list token) : Prop :=
  match g, k with (OPy | OCjs | OEsm), t :: _ => tok_text t <> cs "**" | _, _ => True end.

Lemma stop_parts g t : stop_tok g t = true -> post_tok t = true /\ find_op (infix g) t = None /\
  tok_eq t (sy "?") = false /\ tok_eq t (kw "if") = false /\ tok_text t <> cs "**".
Proof.
  unfold stop_tok. intros H. apply andb_true_iff in H as [H H5]. apply andb_true_iff in H as [H H4].
  apply andb_true_iff in H as [H H3]. apply andb_true_iff in H as [H1 H2]. apply negb_true_iff in H3, H4.
  repeat split; auto.
  - destruct (find_op (infix g) t); [discriminate|reflexivity].
  - destruct (list_eq_dec _ _ _); [discriminate|auto].
Qed.
Lemma closing_post g k : closing g k -> post_ok k.
Proof. destruct k; cbn; auto. intros H. now apply stop_parts in H. Qed.
Lemma closing_pow g k : closing g k -> pow_free g k.
Proof. destruct k as [|t k]; [destruct g; exact (fun _ => I)|]. intros H. apply stop_parts in H as (_ & _ & _ & _ & H). destruct g; exact H || exact I. Qed.

Lemma ppost_stop g a k : post_ok k -> ev (fun n => ppost g n a k = Some (a, k)).
Proof.
  intros H. apply ev_true. intros n. cbn [ppost]. destruct k as [|t k]; auto. cbn [post_ok] in H. unfold post_tok in H.
  apply andb_true_iff in H as [H H4]. apply andb_true_iff in H as [H H3]. apply andb_true_iff in H as [H1 H2].
  apply negb_true_iff in H1, H2, H3, H4. now rewrite H1, H2, H3, H4.
Qed.
Lemma ploop_stop g min a k : closing g k -> ev (fun n => ploop g n min a k = Some (a, k)).
Proof.
  intros H. apply ev_true. intros n. cbn [ploop]. destruct k as [|t k]; auto. cbn [closing] in H.
  apply stop_parts in H as (_ & H1 & H2 & H3 & _). rewrite H1, H2, H3. destruct g; reflexivity.
Qed.

(** The level of the operand of a sign. *)
Definition sign (g : olang) : Z := match g with OGo => 6 | OPy | OKt => 12 | _ => 13 end.

Lemma find_op_in {A} (tbl : list (string * A)) t x : find_op tbl t = Some x ->
  exists s, In (s, x) tbl /\ tok_text t = cs s.
Proof.
  unfold find_op. intros H. destruct t as [s|s|s]; [discriminate| |].
  - destruct (find _ tbl) as [[p y]|] eqn:F; [|discriminate]. cbn [snd] in H. injection H as ->. apply find_some in F as [F1 F2].
    cbn [fst] in F2. exists p. split; auto. cbn [tok_text]. destruct (list_eq_dec _ _ _); [congruence|discriminate].
  - destruct (find _ tbl) as [[p y]|] eqn:F; [|discriminate]. cbn [snd] in H. injection H as ->. apply find_some in F as [F1 F2].
    cbn [fst] in F2. exists p. split; auto. cbn [tok_text]. destruct (list_eq_dec _ _ _); [congruence|discriminate].
Qed.
Definition levels_ok (g : olang) : bool :=
  forallb (fun p : string * (Z * Z * bool) => (fst (fst (snd p)) <? sign g) || String.eqb (fst p) "**") (infix g).
Lemma levels_true g : levels_ok g = true.
Proof. destruct g; vm_compute; reflexivity. Qed.
Lemma pow_level g : match g with OPy => True | _ =>
  forallb (fun p : string * (Z * Z * bool) => (fst (fst (snd p)) <? sign g)) (infix g) = true end.
Proof. destruct g; vm_compute; auto. Qed.
Lemma level_low g t lvl rgt na : find_op (infix g) t = Some (lvl, rgt, na) -> pow_free g (t :: nil) -> lvl <? sign g = true.
Proof.
  intros H P. destruct (find_op_in _ _ _ H) as (s & Hs & Ht).
  assert (D : g = OPy \/ g <> OPy) by (destruct g; (now left) || (right; discriminate)).
  destruct D as [->|D].
  - pose proof (levels_true OPy) as L. unfold levels_ok in L. rewrite forallb_forall in L. specialize (L _ Hs). cbn [fst snd] in L.
    apply orb_true_iff in L as [L|L]; auto. apply String.eqb_eq in L. subst s. cbn [pow_free] in P. contradiction.
  - pose proof (pow_level g) as L.
    assert (L' : forallb (fun p : string * (Z * Z * bool) => (fst (fst (snd p)) <? sign g)) (infix g) = true) by (destruct g; auto; congruence).
    rewrite forallb_forall in L'. exact (L' _ Hs).
Qed.
Lemma ploop_high g a k : pow_free g k -> ev (fun n => ploop g n (sign g) a k = Some (a, k)).
Proof.
  intros P. apply ev_true. intros n. cbn [ploop]. destruct k as [|t k]; auto.
  destruct (find_op (infix g) t) as [[[lvl rgt] na]|] eqn:F.
  - rewrite (level_low g t lvl rgt na F); auto.
  - destruct g; auto; cbn [sign]; destruct (tok_eq t _); reflexivity.
Qed.

(** ** Pieces *)

Lemma ppost_method g a m k k' y : ev (fun n => ppost g n (NCall (NMem a (cs ".") m) []) k = Some (y, k')) ->
  ev (fun n => ppost g n a (to_method m ++ k) = Some (y, k')).
Proof.
  intros H. eapply ev_step; [eapply ev_step; [exact H|]|].
  - intros n Hn. exact (Hn : (fun n => ppost g n (NMem a (cs ".") m) (sy "(" :: sy ")" :: k) = Some (y, k')) (S n)).
  - intros n Hn. exact Hn.
Qed.
Lemma ppost_mem g a s f k : post_ok k -> s = sy "." \/ (s = sy "->" /\ (g = OC \/ g = OCpp)) ->
  ev (fun n => ppost g n a (s :: TId f :: k) = Some (NMem a (tok_text s) f, k)).
Proof.
  intros Hk Hs. eapply ev_step; [apply (ppost_stop g (NMem a (tok_text s) f) k Hk)|].
  intros n Hn. cbn [ppost]. destruct Hs as [->|[-> [-> | ->]]]; exact Hn.
Qed.
Lemma paren_any g l x y k k' : head_ok g (l ++ sy ")" :: k) ->
  ev (fun n => pexpr g n 0 (l ++ sy ")" :: k) = Some (x, sy ")" :: k)) ->
  ev (fun n => ppost g n x k = Some (y, k')) -> forall min,
  ev (fun n => pprefix g n min (sy "(" :: l ++ sy ")" :: k) = Some (y, k')).
Proof.
  intros Hh H1 H2 min. eapply ev_step; [eapply ev_step2; [exact H1|exact H2|]|].
  - intros n A B. exact (eq_trans (pparen_S g n _) ltac:(rewrite A, expect_eq; exact B) : (fun n => pparen g n (l ++ sy ")" :: k) = Some (y, k')) (S n)).
  - intros n A. cbv beta. rewrite pprefix_lp by auto. exact A.
Qed.

(** ** Expressions *)

Definition parsed (g : olang) (l : list token) (x : node) (neg : bool) : Prop :=
  forall k min, post_ok k -> (neg = true -> pow_free g k) -> min <= sign g ->
    ev (fun n => pprefix g n min (l ++ k) = Some (x, k)).

Lemma parsed_closed g l x neg k min : parsed g l x neg -> closing g k -> min <= sign g ->
  ev (fun n => pexpr g n min (l ++ k) = Some (x, k)).
Proof.
  intros H C M. eapply ev_step2; [apply (H k min); [exact (closing_post g k C)|intros _; exact (closing_pow g k C)|exact M]|apply (ploop_stop g min x k C)|].
  intros n A B. cbv beta. rewrite pexpr_S, A. exact B.
Qed.
Lemma sign_nonneg g : 0 <= sign g.
Proof. destruct g; cbn; lia. Qed.

Lemma rp_closing g k : closing g (sy ")" :: k).
Proof. destruct g; vm_compute; reflexivity. Qed.
Lemma comma_closing g k : closing g (sy "," :: k).
Proof. destruct g; vm_compute; reflexivity. Qed.

Lemma parsed_number g (neg : bool) ds :
  parsed g (if neg then [sy "-"; TNum ds] else [TNum ds]) (if neg then NUn (cs "-") (NNum ds) else NNum ds) neg.
Proof.
  intros k min Pk Hn M.
  assert (N : forall m, ev (fun n => pprefix g n m (TNum ds :: k) = Some (NNum ds, k))).
  { intros m. eapply ev_step; [apply (ppost_stop g (NNum ds) k Pk)|]. intros n A. exact A. }
  destruct neg; [|apply N]. cbn [app]. specialize (Hn eq_refl).
  assert (Q : find_op (prefix g) (sy "-") = Some (sign g)) by (destruct g; vm_compute; reflexivity).
  assert (E : ev (fun n => pexpr g n (sign g) (TNum ds :: k) = Some (NNum ds, k))).
  { eapply ev_step2; [apply (N (sign g))|apply (ploop_high g (NNum ds) k Hn)|].
    intros n A B. cbv beta. rewrite pexpr_S, A. exact B. }
  assert (U : ev (fun n => punary g n (sy "-") (sign g) (TNum ds :: k) = Some (NUn (cs "-") (NNum ds), k))).
  { eapply ev_step; [exact E|]. intros n A. cbv beta. rewrite punary_S, A. destruct k as [|u k]; [reflexivity|].
    destruct (js_like g && tok_eq u (sy "**")) eqn:J; [|reflexivity]. exfalso. apply andb_true_iff in J as [J1 J2].
    apply tok_eq_eq in J2. subst u. destruct g; try discriminate J1; apply Hn; reflexivity. }
  eapply ev_step; [exact U|]. intros n A. cbv beta. rewrite (pprefix_op g n min _ _ (sign g)); auto. apply Z.ltb_ge. exact M.
Qed.

Lemma parsed_word g w : find_op (prefix g) (TId w) = None -> is_keyword g w = false -> parsed g [TId w] (NId w) false.
Proof.
  intros H1 H2 k min Pk _ M. eapply ev_step; [apply (ppost_stop g (NId w) k Pk)|]. intros n A. cbv beta. cbn [app].
  rewrite pprefix_id by auto. exact A.
Qed.
Lemma parsed_value g field : parsed g (value_toks g field) (value_node g field) false.
Proof.
  destruct field as [f|]; [|apply parsed_word; destruct g; vm_compute; reflexivity].
  assert (K : forall w s x, find_op (prefix g) (TId w) = None -> is_keyword g w = false ->
    s = sy "." \/ (s = sy "->" /\ (g = OC \/ g = OCpp)) -> parsed g [TId w; s; TId x] (NMem (NId w) (tok_text s) x) false).
  { intros w s x H1 H2 Hs k min Pk _ M. eapply ev_step; [apply (ppost_mem g (NId w) s x k Pk Hs)|]. intros n A. cbv beta. cbn [app].
    rewrite pprefix_id by auto. exact A. }
  destruct g; cbn [value_toks value_node]; apply K; try (vm_compute; reflexivity); auto.
Qed.
Lemma parsed_bool g b : parsed g [TId (bool_text g b)]
  (NId (cs match g with OPy => if b then "True" else "False" | _ => if b then "true" else "false" end)) false.
Proof. destruct g, b; apply parsed_word; vm_compute; reflexivity. Qed.

(** Something in parentheses. *)
Lemma parsed_paren g l x : head_ok g (l ++ [sy ")"]) ->
  (forall k, ev (fun n => pexpr g n 0 (l ++ sy ")" :: k) = Some (x, sy ")" :: k))) -> parsed g (sy "(" :: l ++ [sy ")"]) x false.
Proof.
  intros Hh H k min Pk _ M. cbn [app]. rewrite <- app_assoc. cbn [app].
  apply (paren_any g l x x k k); auto.
  - destruct l as [|t l]; [exact I|exact Hh].
  - apply ppost_stop; auto.
Qed.

Definition q_un (g : olang) (o : unop) : Z := match o, g with UNot, OPy => 4 | _, _ => sign g end.
Lemma un_op g o : (g = OKt -> o <> UBnot) -> find_op (prefix g) (un_tok g o) = Some (q_un g o) /\ tok_text (un_tok g o) = cs (un_sym g o).
Proof. intros H. destruct o, g; split; try (vm_compute; reflexivity). now elim H. Qed.
Lemma un_head_ok g o l : head_ok g (un_tok g o :: l).
Proof. destruct o, g; exact I || (vm_compute; reflexivity). Qed.

Lemma parsed_unary g o la xa neg : (g = OKt -> o <> UBnot) -> parsed g la xa neg ->
  parsed g (sy "(" :: un_tok g o :: la ++ [sy ")"]) (NUn (cs (un_sym g o)) xa) false.
Proof.
  intros Hk Ha. change (un_tok g o :: la ++ [sy ")"]) with ((un_tok g o :: la) ++ [sy ")"]).
  destruct (un_op g o Hk) as [F T]. apply parsed_paren; [apply un_head_ok|]. intros k. cbn [app].
  assert (Q : 0 <= q_un g o <= sign g) by (destruct g, o; cbn; lia).
  assert (E := parsed_closed g la xa neg (sy ")" :: k) (q_un g o) Ha (rp_closing g k) (proj2 Q)).
  assert (U : ev (fun n => punary g n (un_tok g o) (q_un g o) (la ++ sy ")" :: k) = Some (NUn (cs (un_sym g o)) xa, sy ")" :: k))).
  { eapply ev_step; [exact E|]. intros n A. cbv beta. rewrite punary_S, A, T.
    replace (js_like g && tok_eq (sy ")") (sy "**")) with false by (destruct g; reflexivity). reflexivity. }
  assert (P : ev (fun n => pprefix g n 0 (un_tok g o :: la ++ sy ")" :: k) = Some (NUn (cs (un_sym g o)) xa, sy ")" :: k))).
  { eapply ev_step; [exact U|]. intros n A. cbv beta. rewrite (pprefix_op g n 0 _ _ (q_un g o)); auto. apply Z.ltb_ge. lia. }
  eapply ev_step2; [exact P|apply (ploop_stop g 0 (NUn (cs (un_sym g o)) xa) (sy ")" :: k) (rp_closing g k))|]. intros n A B. cbv beta. rewrite pexpr_S, A. exact B.
Qed.

(** Infix operators. *)
Definition bin_op_ok (g : olang) (o : binop) : bool :=
  match find_op (infix g) (bin_tok g o) with
  | Some (lvl, rgt, _) => (0 <=? lvl) && (rgt <=? sign g) && post_tok (bin_tok g o)
  | None => false
  end.
Lemma bin_op g o : (o = OPow -> g = OPy \/ g = OCjs \/ g = OEsm) -> bin_op_ok g o = true /\ tok_text (bin_tok g o) = cs (bin_sym g o) /\
  (o <> OPow -> tok_text (bin_tok g o) <> cs "**").
Proof.
  intros H. repeat split.
  - destruct o; try (destruct g; vm_compute; reflexivity). destruct (H eq_refl) as [->|[->| ->]]; vm_compute; reflexivity.
  - destruct o, g; reflexivity.
  - intros N. destruct o, g; try (vm_compute; discriminate); congruence.
Qed.

Lemma ploop_infix g n min a t r lvl rgt na b u k : find_op (infix g) t = Some (lvl, rgt, na) -> lvl <? min = false ->
  pexpr g n rgt r = Some (b, u :: k) -> find_op (infix g) u = None ->
  ploop g (S n) min a (t :: r) = ploop g n min (NBin (tok_text t) a b) (u :: k).
Proof. intros H1 H2 H3 H4. cbn [ploop]. rewrite H1, H2, H3, H4. reflexivity. Qed.

Lemma rp_not_infix g : find_op (infix g) (sy ")") = None.
Proof. destruct g; vm_compute; reflexivity. Qed.

Lemma pexpr_infix g t la xa na lb xb nb lvl rgt nas k :
  find_op (infix g) t = Some (lvl, rgt, nas) -> 0 <= lvl -> rgt <= sign g -> post_tok t = true ->
  (na = true -> pow_free g [t]) -> parsed g la xa na -> parsed g lb xb nb ->
  ev (fun n => pexpr g n 0 (la ++ t :: lb ++ sy ")" :: k) = Some (NBin (tok_text t) xa xb, sy ")" :: k)).
Proof.
  intros F L R P Hn Ha Hb.
  assert (A : ev (fun n => pprefix g n 0 (la ++ t :: lb ++ sy ")" :: k) = Some (xa, t :: lb ++ sy ")" :: k))).
  { apply Ha; [exact P| |apply sign_nonneg]. intros N. specialize (Hn N). destruct g; exact Hn || exact I. }
  assert (B := parsed_closed g lb xb nb (sy ")" :: k) rgt Hb (rp_closing g k) R).
  assert (C := ploop_stop g 0 (NBin (tok_text t) xa xb) (sy ")" :: k) (rp_closing g k)).
  assert (D : ev (fun n => ploop g n 0 xa (t :: lb ++ sy ")" :: k) = Some (NBin (tok_text t) xa xb, sy ")" :: k))).
  { eapply ev_step2; [exact B|exact C|]. intros n X Y. cbv beta.
    rewrite (ploop_infix g n 0 xa t _ lvl rgt nas xb (sy ")") k F); auto. now apply Z.ltb_ge. apply rp_not_infix. }
  eapply ev_step2; [exact A|exact D|]. intros n X Y. cbv beta. rewrite pexpr_S, X. exact Y.
Qed.

Lemma parsed_infix g o la xa na lb xb nb : (o = OPow -> g = OPy \/ g = OCjs \/ g = OEsm) -> head_ok g (la ++ [bin_tok g o]) ->
  (o = OPow -> na = false) ->
  parsed g la xa na -> parsed g lb xb nb -> parsed g (sy "(" :: la ++ bin_tok g o :: lb ++ [sy ")"]) (NBin (cs (bin_sym g o)) xa xb) false.
Proof.
  intros Ho Hh Hn Ha Hb. replace (la ++ bin_tok g o :: lb ++ [sy ")"]) with ((la ++ bin_tok g o :: lb) ++ [sy ")"])
    by (rewrite <- app_assoc; reflexivity).
  destruct (bin_op g o Ho) as (B & T & N). unfold bin_op_ok in B.
  destruct (find_op (infix g) (bin_tok g o)) as [[[lvl rgt] nas]|] eqn:F; [|discriminate].
  apply andb_true_iff in B as [B B3]. apply andb_true_iff in B as [B1 B2]. apply Z.leb_le in B1, B2.
  apply parsed_paren.
  - rewrite <- app_assoc. cbn [app]. destruct la as [|[s|s|s] la]; auto.
  - intros k. rewrite <- T. rewrite <- app_assoc. cbn [app]. eapply pexpr_infix; eauto.
    intros E. destruct (bin_tok g o) eqn:Et; destruct g; try exact I; cbn [pow_free]; rewrite <- Et in *; apply N; intros ->; rewrite (Hn eq_refl) in E; discriminate.
Qed.

(** Calls. *)
Definition not_rp (l : list token) : Prop := match l with t :: _ => tok_eq t (sy ")") = false | [] => False end.
Lemma ppost_open g n a u r : tok_eq u (sy ")") = false -> ppost g (S n) a (sy "(" :: u :: r) =
  match pargs g n (u :: r) with Some (args, r2) => ppost g n (NCall a args) r2 | None => None end.
Proof. intros H. cbn [ppost]. change (tok_eq (sy "(") (sy ".")) with false. change (tok_eq (sy "(") (sy "->")) with false.
  change (tok_eq (sy "(") (sy "(")) with true. cbn [orb andb]. rewrite H. reflexivity. Qed.
Lemma ppost_args g f la args k k' y : not_rp la -> ev (fun n => pargs g n (la ++ k) = Some (args, k')) ->
  (ev (fun n => ppost g n (NCall f args) k' = Some (y, k'))) -> ev (fun n => ppost g n f (sy "(" :: la ++ k) = Some (y, k')).
Proof.
  intros N H1 H2. destruct la as [|u la]; [destruct N|]. cbn [app]. cbn [not_rp] in N.
  eapply ev_step2; [exact H1|exact H2|]. intros n A B. cbv beta. rewrite ppost_open by auto. cbn [app] in A. rewrite A. exact B.
Qed.
Lemma ppost_call1 g f la xa na k : not_rp la -> parsed g la xa na -> post_ok k ->
  ev (fun n => ppost g n f (sy "(" :: la ++ sy ")" :: k) = Some (NCall f [xa], k)).
Proof.
  intros N Ha Pk. apply (ppost_args g f la [xa] (sy ")" :: k) k); auto; [|now apply ppost_stop].
  eapply ev_step; [apply (parsed_closed g la xa na (sy ")" :: k) 0 Ha (rp_closing g k) (sign_nonneg g))|].
  intros n A. cbv beta. rewrite pargs_S, A. reflexivity.
Qed.
Lemma ppost_call2 g f la xa na lb xb nb k : not_rp la -> parsed g la xa na -> parsed g lb xb nb -> post_ok k ->
  ev (fun n => ppost g n f (sy "(" :: la ++ sy "," :: lb ++ sy ")" :: k) = Some (NCall f [xa; xb], k)).
Proof.
  intros N Ha Hb Pk. apply (ppost_args g f la [xa; xb] (sy "," :: lb ++ sy ")" :: k) k); auto; [|now apply ppost_stop].
  assert (B : ev (fun n => pargs g n (lb ++ sy ")" :: k) = Some ([xb], k))).
  { eapply ev_step; [apply (parsed_closed g lb xb nb (sy ")" :: k) 0 Hb (rp_closing g k) (sign_nonneg g))|].
    intros n A. cbv beta. rewrite pargs_S, A. reflexivity. }
  eapply ev_step2; [apply (parsed_closed g la xa na (sy "," :: lb ++ sy ")" :: k) 0 Ha (comma_closing g _) (sign_nonneg g))|exact B|].
  intros n A C. cbv beta. rewrite pargs_S, A. change (tok_eq (sy ",") (sy ")")) with false. cbv iota. rewrite C. reflexivity.
Qed.

Lemma parsed_call1 g w la xa na : find_op (prefix g) (TId w) = None -> is_keyword g w = false -> not_rp la -> parsed g la xa na ->
  parsed g (TId w :: sy "(" :: la ++ [sy ")"]) (NCall (NId w) [xa]) false.
Proof.
  intros H1 H2 N Ha k min Pk _ M. cbn [app]. rewrite <- app_assoc. cbn [app].
  eapply ev_step; [apply (ppost_call1 g (NId w) la xa na k N Ha Pk)|]. intros n A. cbv beta. rewrite pprefix_id by auto. exact A.
Qed.
Lemma parsed_call2 g w la xa na lb xb nb : find_op (prefix g) (TId w) = None -> is_keyword g w = false -> not_rp la ->
  parsed g la xa na -> parsed g lb xb nb ->
  parsed g ([TId w; sy "("] ++ la ++ sy "," :: lb ++ [sy ")"]) (NCall (NId w) [xa; xb]) false.
Proof.
  intros H1 H2 N Ha Hb k min Pk _ M. rewrite <- app_assoc. cbn [app]. rewrite <- app_assoc. cbn [app]. rewrite <- app_assoc. cbn [app].
  eapply ev_step; [apply (ppost_call2 g (NId w) la xa na lb xb nb k N Ha Hb Pk)|]. intros n A. cbv beta.
  rewrite pprefix_id by auto. exact A.
Qed.
Lemma parsed_mcall2 g w m la xa na lb xb nb : find_op (prefix g) (TId w) = None -> is_keyword g w = false -> not_rp la ->
  parsed g la xa na -> parsed g lb xb nb ->
  parsed g ([TId w; sy "."; TId m; sy "("] ++ la ++ sy "," :: lb ++ [sy ")"]) (NCall (NMem (NId w) (cs ".") m) [xa; xb]) false.
Proof.
  intros H1 H2 N Ha Hb k min Pk _ M. rewrite <- app_assoc. cbn [app]. rewrite <- app_assoc. cbn [app]. rewrite <- app_assoc. cbn [app].
  eapply ev_step; [eapply ev_step; [apply (ppost_call2 g (NMem (NId w) (cs ".") m) la xa na lb xb nb k N Ha Hb Pk)|]|].
  - intros n A. exact (A : (fun n => ppost g n (NId w) (sy "." :: TId m :: sy "(" :: la ++ sy "," :: lb ++ sy ")" :: k) =
      Some (NCall (NMem (NId w) (cs ".") m) [xa; xb], k)) (S n)).
  - intros n A. cbv beta. rewrite pprefix_id by auto. exact A.
Qed.

(** Kotlin: (a).m() *)
Lemma paren_then g la xa na k k' y min : head_ok g (la ++ [sy ")"]) -> parsed g la xa na ->
  ev (fun n => ppost g n xa k = Some (y, k')) -> ev (fun n => pprefix g n min (sy "(" :: la ++ sy ")" :: k) = Some (y, k')).
Proof.
  intros Hh Ha H. apply (paren_any g la xa y k k'); auto.
  - destruct la as [|[s|s|s] la]; auto.
  - exact (parsed_closed g la xa na (sy ")" :: k) 0 Ha (rp_closing g k) (sign_nonneg g)).
Qed.
Lemma parsed_meth g la xa na m : head_ok g (la ++ [sy ")"]) -> parsed g la xa na ->
  parsed g (sy "(" :: la ++ sy ")" :: to_method m) (NCall (NMem xa (cs ".") m) []) false.
Proof.
  intros Hh Ha k min Pk _ M. change ((sy "(" :: la ++ sy ")" :: to_method m) ++ k) with (sy "(" :: (la ++ sy ")" :: to_method m) ++ k).
  rewrite <- app_assoc. change ((sy ")" :: to_method m) ++ k) with (sy ")" :: to_method m ++ k).
  eapply paren_then; eauto. apply ppost_method. now apply ppost_stop.
Qed.
Lemma parsed_meth2 g la xa na m m2 : head_ok g (la ++ [sy ")"]) -> parsed g la xa na ->
  parsed g (sy "(" :: la ++ sy ")" :: to_method m ++ to_method m2) (NCall (NMem (NCall (NMem xa (cs ".") m) []) (cs ".") m2) []) false.
Proof.
  intros Hh Ha k min Pk _ M.
  replace ((sy "(" :: la ++ sy ")" :: to_method m ++ to_method m2) ++ k) with (sy "(" :: la ++ sy ")" :: to_method m ++ to_method m2 ++ k).
  2:{ change ((sy "(" :: la ++ sy ")" :: to_method m ++ to_method m2) ++ k) with (sy "(" :: (la ++ sy ")" :: to_method m ++ to_method m2) ++ k).
      rewrite <- app_assoc. reflexivity. }
  eapply paren_then; eauto. apply ppost_method, ppost_method. now apply ppost_stop.
Qed.
Lemma parsed_kpow la xa na lb xb nb : head_ok OKt (la ++ [sy ")"]) -> head_ok OKt (lb ++ [sy ")"]) ->
  parsed OKt la xa na -> parsed OKt lb xb nb ->
  parsed OKt (sy "(" :: la ++ sy ")" :: to_method (cs "toDouble") ++ [sy "."; kw "pow"; sy "("; sy "("] ++ lb ++
    sy ")" :: to_method (cs "toDouble") ++ [sy ")"])
    (call_method (call_method xa "toDouble" []) "pow" [call_method xb "toDouble" []]) false.
Proof.
  intros Hha Hhb Ha Hb k min Pk _ M.
  set (arg := sy "(" :: lb ++ sy ")" :: to_method (cs "toDouble")).
  replace ((sy "(" :: la ++ sy ")" :: to_method (cs "toDouble") ++ [sy "."; kw "pow"; sy "("; sy "("] ++ lb ++
    sy ")" :: to_method (cs "toDouble") ++ [sy ")"]) ++ k) with
    (sy "(" :: la ++ sy ")" :: to_method (cs "toDouble") ++ sy "." :: kw "pow" :: sy "(" :: arg ++ sy ")" :: k).
  2:{ unfold arg. cbn [app to_method]. rewrite <- ?app_assoc. cbn [app]. rewrite <- ?app_assoc. reflexivity. }
  eapply paren_then; eauto. apply ppost_method.
  eapply ev_step; [apply (ppost_call1 OKt (NMem (call_method xa "toDouble" []) (cs ".") (cs "pow")) arg
    (call_method xb "toDouble" []) false k)|].
  - reflexivity.
  - apply (parsed_meth OKt lb xb nb); auto.
  - exact Pk.
  - intros n A. exact A.
Qed.

(** Casts. *)
Lemma parsed_cast g ty la xa na : is_cast g ty = true -> parsed g la xa na -> parsed g (sy "(" :: TId ty :: sy ")" :: la) (NCast ty xa) false.
Proof.
  intros Hc Ha k min Pk _ M. cbn [app].
  assert (Hs : sign g = 13) by (destruct g; auto; discriminate).
  assert (Hp : forall k, pow_free g k) by (intros k0; destruct g; try discriminate; exact I).
  assert (E : ev (fun n => pexpr g n 13 (la ++ k) = Some (xa, k))).
  { rewrite <- Hs. eapply ev_step2; [apply (Ha k (sign g)); auto; lia|apply (ploop_high g xa k (Hp k))|].
    intros n A B. cbv beta. rewrite pexpr_S, A. exact B. }
  eapply ev_step; [exact E|]. intros n A. cbv beta. rewrite pprefix_cast by auto. now rewrite A.
Qed.

(** Conditionals. *)
Lemma ploop_quest g n a r y r1 z r3 : match g with OC | OCpp | OCs | OJava | OCjs | OEsm => True | _ => False end ->
  pexpr g n 0 r = Some (y, sy ":" :: r1) -> pexpr g n 0 r1 = Some (z, r3) ->
  ploop g (S n) 0 a (sy "?" :: r) = Some (NIf None a y z, r3).
Proof.
  intros G H1 H2. cbn [ploop].
  replace (find_op (infix g) (sy "?")) with (@None (Z * Z * bool)) by (destruct g; vm_compute; reflexivity).
  change (tok_eq (sy "?") (sy "?")) with true. change (0 <? 0) with false. cbv iota. rewrite H1, expect_eq, H2.
  destruct g; try destruct G; reflexivity.
Qed.
Lemma parsed_quest g lc xc nc la xa na lb xb nb : match g with OC | OCpp | OCs | OJava | OCjs | OEsm => True | _ => False end ->
  head_ok g (lc ++ [sy "?"]) -> parsed g lc xc nc -> parsed g la xa na -> parsed g lb xb nb ->
  parsed g (sy "(" :: lc ++ sy "?" :: la ++ sy ":" :: lb ++ [sy ")"]) (NIf None xc xa xb) false.
Proof.
  intros G Hh Hc Ha Hb.
  replace (lc ++ sy "?" :: la ++ sy ":" :: lb ++ [sy ")"]) with ((lc ++ sy "?" :: la ++ sy ":" :: lb) ++ [sy ")"])
    by (rewrite <- ?app_assoc; cbn [app]; rewrite <- ?app_assoc; reflexivity).
  apply parsed_paren; [destruct lc as [|[s|s|s] lc]; auto|]. intros k.
  replace ((lc ++ sy "?" :: la ++ sy ":" :: lb) ++ sy ")" :: k) with (lc ++ sy "?" :: la ++ sy ":" :: lb ++ sy ")" :: k)
    by (rewrite <- ?app_assoc; cbn [app]; rewrite <- ?app_assoc; reflexivity).
  assert (C : ev (fun n => pprefix g n 0 (lc ++ sy "?" :: la ++ sy ":" :: lb ++ sy ")" :: k) = Some (xc, sy "?" :: la ++ sy ":" :: lb ++ sy ")" :: k))).
  { apply Hc; [reflexivity|intros _; destruct g; exact I || discriminate|apply sign_nonneg]. }
  assert (A := parsed_closed g la xa na (sy ":" :: lb ++ sy ")" :: k) 0 Ha ltac:(destruct g; vm_compute; reflexivity) (sign_nonneg g)).
  assert (B := parsed_closed g lb xb nb (sy ")" :: k) 0 Hb (rp_closing g k) (sign_nonneg g)).
  assert (L : ev (fun n => ploop g n 0 xc (sy "?" :: la ++ sy ":" :: lb ++ sy ")" :: k) = Some (NIf None xc xa xb, sy ")" :: k))).
  { eapply ev_step2; [exact A|exact B|]. intros n X Y. exact (ploop_quest g n xc _ xa _ xb _ G X Y). }
  eapply ev_step2; [exact C|exact L|]. intros n X Y. cbv beta. rewrite pexpr_S, X. exact Y.
Qed.

Lemma ploop_if n a r c r1 z r3 : pexpr OPy n 1 r = Some (c, kw "else" :: r1) -> pexpr OPy n 0 r1 = Some (z, r3) ->
  ploop OPy (S n) 0 a (kw "if" :: r) = Some (NIf None c a z, r3).
Proof.
  intros H1 H2. cbn [ploop].
  replace (find_op (infix OPy) (kw "if")) with (@None (Z * Z * bool)) by (vm_compute; reflexivity).
  change (tok_eq (kw "if") (kw "if")) with true. change (0 <? 0) with false. cbv iota. rewrite H1, expect_eq, H2. reflexivity.
Qed.
Lemma parsed_pyif lc xc nc la xa na lb xb nb : parsed OPy lc xc nc -> parsed OPy la xa na -> parsed OPy lb xb nb ->
  parsed OPy (sy "(" :: la ++ kw "if" :: lc ++ kw "else" :: lb ++ [sy ")"]) (NIf None xc xa xb) false.
Proof.
  intros Hc Ha Hb.
  replace (la ++ kw "if" :: lc ++ kw "else" :: lb ++ [sy ")"]) with ((la ++ kw "if" :: lc ++ kw "else" :: lb) ++ [sy ")"])
    by (rewrite <- ?app_assoc; cbn [app]; rewrite <- ?app_assoc; reflexivity).
  apply parsed_paren; [unfold head_ok; destruct (_ ++ _) as [|[s|s|s] l]; exact I || reflexivity|]. intros k.
  replace ((la ++ kw "if" :: lc ++ kw "else" :: lb) ++ sy ")" :: k) with (la ++ kw "if" :: lc ++ kw "else" :: lb ++ sy ")" :: k)
    by (rewrite <- ?app_assoc; cbn [app]; rewrite <- ?app_assoc; reflexivity).
  assert (A : ev (fun n => pprefix OPy n 0 (la ++ kw "if" :: lc ++ kw "else" :: lb ++ sy ")" :: k) = Some (xa, kw "if" :: lc ++ kw "else" :: lb ++ sy ")" :: k))).
  { apply Ha; [reflexivity|intros _; discriminate|cbn; lia]. }
  assert (C := parsed_closed OPy lc xc nc (kw "else" :: lb ++ sy ")" :: k) 1 Hc ltac:(vm_compute; reflexivity) ltac:(cbn; lia)).
  assert (B := parsed_closed OPy lb xb nb (sy ")" :: k) 0 Hb (rp_closing OPy k) (sign_nonneg OPy)).
  assert (L : ev (fun n => ploop OPy n 0 xa (kw "if" :: lc ++ kw "else" :: lb ++ sy ")" :: k) = Some (NIf None xc xa xb, sy ")" :: k))).
  { eapply ev_step2; [exact C|exact B|]. intros n X Y. exact (ploop_if n xa _ xc _ xb _ X Y). }
  eapply ev_step2; [exact A|exact L|]. intros n X Y. cbv beta. rewrite pexpr_S, X. exact Y.
Qed.

Lemma pkeyword_kt n l1 c l3 a l5 b l6 : pexpr OKt n 0 l1 = Some (c, sy ")" :: l3) -> pexpr OKt n 0 l3 = Some (a, kw "else" :: l5) ->
  pexpr OKt n 0 l5 = Some (b, l6) -> pkeyword OKt (S n) (cs "if") (sy "(" :: l1) = Some (NIf None c a b, l6).
Proof.
  intros H1 H2 H3. cbn [pkeyword]. change (tok_eq (TId (cs "if")) (kw "if")) with true. cbv iota.
  rewrite expect_eq, H1, expect_eq, H2, expect_eq, H3. reflexivity.
Qed.
Lemma parsed_ktif lc xc nc la xa na lb xb nb : parsed OKt lc xc nc -> parsed OKt la xa na -> parsed OKt lb xb nb ->
  parsed OKt ([sy "("; kw "if"; sy "("] ++ lc ++ sy ")" :: la ++ kw "else" :: lb ++ [sy ")"]) (NIf None xc xa xb) false.
Proof.
  intros Hc Ha Hb.
  replace ([sy "("; kw "if"; sy "("] ++ lc ++ sy ")" :: la ++ kw "else" :: lb ++ [sy ")"]) with
    (sy "(" :: (kw "if" :: sy "(" :: lc ++ sy ")" :: la ++ kw "else" :: lb) ++ [sy ")"])
    by (cbn [app]; rewrite <- ?app_assoc; cbn [app]; rewrite <- ?app_assoc; reflexivity).
  apply parsed_paren; [reflexivity|]. intros k.
  replace ((kw "if" :: sy "(" :: lc ++ sy ")" :: la ++ kw "else" :: lb) ++ sy ")" :: k) with
    (kw "if" :: sy "(" :: lc ++ sy ")" :: la ++ kw "else" :: lb ++ sy ")" :: k)
    by (cbn [app]; rewrite <- ?app_assoc; cbn [app]; rewrite <- ?app_assoc; reflexivity).
  assert (C := parsed_closed OKt lc xc nc (sy ")" :: la ++ kw "else" :: lb ++ sy ")" :: k) 0 Hc (rp_closing OKt _) (sign_nonneg OKt)).
  assert (A := parsed_closed OKt la xa na (kw "else" :: lb ++ sy ")" :: k) 0 Ha ltac:(vm_compute; reflexivity) (sign_nonneg OKt)).
  assert (B := parsed_closed OKt lb xb nb (sy ")" :: k) 0 Hb (rp_closing OKt k) (sign_nonneg OKt)).
  assert (P : ev (fun n => pprefix OKt n 0 (kw "if" :: sy "(" :: lc ++ sy ")" :: la ++ kw "else" :: lb ++ sy ")" :: k) = Some (NIf None xc xa xb, sy ")" :: k))).
  { eapply ev_step; [eapply ev_step3; [exact C|exact A|exact B|]|].
    - intros n X Y Z0. exact (pkeyword_kt n _ _ _ _ _ _ _ X Y Z0 : (fun n => pkeyword OKt n (cs "if") (sy "(" :: lc ++ sy ")" :: la ++ kw "else" :: lb ++ sy ")" :: k) = Some (NIf None xc xa xb, sy ")" :: k)) (S n)).
    - intros n X. cbv beta. unfold kw at 1. rewrite pprefix_kw by (vm_compute; reflexivity). exact X. }
  eapply ev_step2; [exact P|apply (ploop_stop OKt 0 (NIf None xc xa xb) (sy ")" :: k) (rp_closing OKt k))|].
  intros n X Y. cbv beta. rewrite pexpr_S, X. exact Y.
Qed.

Lemma pkeyword_go n ty l1 c l2 a l3 b l4 :
  pexpr OGo n 0 l1 = Some (c, sy "{" :: kw "return" :: l2) ->
  pexpr OGo n 0 l2 = Some (a, sy "}" :: kw "else" :: sy "{" :: kw "return" :: l3) ->
  pexpr OGo n 0 l3 = Some (b, sy "}" :: sy "}" :: sy "(" :: sy ")" :: l4) ->
  pkeyword OGo (S n) (cs "func") (sy "(" :: sy ")" :: TId ty :: sy "{" :: kw "if" :: l1) = ppost OGo n (NIf (Some ty) c a b) l4.
Proof.
  intros H1 H2 H3. cbn [pkeyword]. change (tok_eq (TId (cs "func")) (kw "func")) with true. cbv iota.
  rewrite !tok_eq_refl. cbn [andb]. rewrite H1. rewrite !tok_eq_refl. cbn [andb]. rewrite H2. rewrite !tok_eq_refl. cbn [andb].
  rewrite H3. rewrite !tok_eq_refl. reflexivity.
Qed.
Lemma parsed_goif ty lc xc nc la xa na lb xb nb : parsed OGo lc xc nc -> parsed OGo la xa na -> parsed OGo lb xb nb ->
  parsed OGo ([kw "func"; sy "("; sy ")"; TId ty; sy "{"; kw "if"] ++ lc ++ [sy "{"; kw "return"] ++ la ++
    [sy "}"; kw "else"; sy "{"; kw "return"] ++ lb ++ [sy "}"; sy "}"; sy "("; sy ")"]) (NIf (Some ty) xc xa xb) false.
Proof.
  intros Hc Ha Hb k min Pk _ M.
  replace (([kw "func"; sy "("; sy ")"; TId ty; sy "{"; kw "if"] ++ lc ++ [sy "{"; kw "return"] ++ la ++
    [sy "}"; kw "else"; sy "{"; kw "return"] ++ lb ++ [sy "}"; sy "}"; sy "("; sy ")"]) ++ k) with
    (kw "func" :: sy "(" :: sy ")" :: TId ty :: sy "{" :: kw "if" :: lc ++ sy "{" :: kw "return" :: la ++
     sy "}" :: kw "else" :: sy "{" :: kw "return" :: lb ++ sy "}" :: sy "}" :: sy "(" :: sy ")" :: k)
    by (rewrite <- ?app_assoc; cbn [app]; rewrite <- ?app_assoc; cbn [app]; rewrite <- ?app_assoc; reflexivity).
  assert (C := fun r => parsed_closed OGo lc xc nc (sy "{" :: r) 0 Hc ltac:(vm_compute; reflexivity) (sign_nonneg OGo)).
  assert (A := fun r => parsed_closed OGo la xa na (sy "}" :: r) 0 Ha ltac:(vm_compute; reflexivity) (sign_nonneg OGo)).
  assert (B := fun r => parsed_closed OGo lb xb nb (sy "}" :: r) 0 Hb ltac:(vm_compute; reflexivity) (sign_nonneg OGo)).
  eapply ev_step; [eapply ev_step4; [apply C|apply A|apply B|apply (ppost_stop OGo (NIf (Some ty) xc xa xb) k Pk)|]|].
  - intros n X Y Z0 W. exact (eq_trans (pkeyword_go n ty _ _ _ _ _ _ _ X Y Z0) W : (fun n => pkeyword OGo n (cs "func")
      (sy "(" :: sy ")" :: TId ty :: sy "{" :: kw "if" :: lc ++ sy "{" :: kw "return" :: la ++
       sy "}" :: kw "else" :: sy "{" :: kw "return" :: lb ++ sy "}" :: sy "}" :: sy "(" :: sy ")" :: k) =
      Some (NIf (Some ty) xc xa xb, k)) (S n)).
  - intros n X. cbv beta. unfold kw at 1. rewrite pprefix_kw by (vm_compute; reflexivity). exact X.
Qed.

(** ** All expressions *)

Lemma head_ok_cons g t l r : head_ok g (t :: l) -> head_ok g ((t :: l) ++ r).
Proof. destruct t; exact (fun H => H). Qed.
Lemma num_toks_shape l : exists t r, num_toks l = t :: r /\ tok_eq t (sy ")") = false /\ forall g r', head_ok g (t :: r').
Proof.
  destruct l as [|c l]; [eexists _, _; split; [reflexivity|split; [reflexivity|intros; exact I]]|]. cbn [num_toks].
  destruct (Ascii.eqb c "-"); (eexists _, _; split; [reflexivity|split; [reflexivity|intros; exact I]]).
Qed.
Lemma toks_head g dn vt field e : exists t r, toks g dn vt field e = t :: r /\ tok_eq t (sy ")") = false /\ forall r', head_ok g (t :: r').
Proof.
  destruct e; cbn [toks].
  - destruct field as [f|], g; (eexists _, _; split; [reflexivity|split; [reflexivity|intros; vm_compute; reflexivity || exact I]]).
  - destruct (num_toks_shape (emit_int g dn l)) as (t & r & E & H & K). exists t, r. repeat split; auto.
  - destruct neg; (eexists _, _; split; [reflexivity|split; [reflexivity|intros; exact I]]).
  - destruct g, b; (eexists _, _; split; [reflexivity|split; [reflexivity|intros; vm_compute; reflexivity]]).
  - destruct g, o; (eexists _, _; split; [reflexivity|split; [reflexivity|intros; exact I]]).
  - destruct o, g; (eexists _, _; split; [reflexivity|split; [reflexivity|intros; exact I || (vm_compute; reflexivity)]]).
  - destruct g, t; (eexists _, _; split; [reflexivity|split; [reflexivity|intros; exact I || (vm_compute; reflexivity)]]).
  - destruct g; (eexists _, _; split; [reflexivity|split; [reflexivity|intros; exact I || (vm_compute; reflexivity)]]).
Qed.
Lemma toks_head_ok g dn vt field e r : head_ok g (toks g dn vt field e ++ r).
Proof. destruct (toks_head g dn vt field e) as (t & l & -> & _ & H). cbn [app]. apply H. Qed.
Lemma toks_not_rp g dn vt field e : not_rp (toks g dn vt field e).
Proof. destruct (toks_head g dn vt field e) as (t & l & -> & H & _). exact H. Qed.

Lemma types_word g t : match g with OGo | OPy | OCjs | OEsm => find_op (prefix g) (TId (type_name g t)) = None /\ is_keyword g (type_name g t) = false
  | OKt => True | _ => is_cast g (type_name g t) = true end.
Proof. destruct g, t; vm_compute; auto. Qed.

Lemma parsed_kcast t la xa na : head_ok OKt (la ++ [sy ")"]) -> head_ok OKt (la ++ [sy "!="]) -> parsed OKt la xa na ->
  parsed OKt (match t with
          | TyBool => sy "(" :: la ++ [sy "!="; TNum (cs "0"); sy ")"]
          | TyU8 | TyU16 => sy "(" :: la ++ sy ")" :: to_method (cs "toUInt") ++ to_method (cs "to" ++ type_name OKt t)
          | TyI8 | TyI16 => sy "(" :: la ++ sy ")" :: to_method (cs "toInt") ++ to_method (cs "to" ++ type_name OKt t)
          | _ => sy "(" :: la ++ sy ")" :: to_method (cs "to" ++ type_name OKt t)
          end)
   (match t with
          | TyBool => NBin (cs "!=") xa (NNum (cs "0"))
          | TyU8 => call_method (call_method xa "toUInt" []) "toUByte" []
          | TyU16 => call_method (call_method xa "toUInt" []) "toUShort" []
          | TyU32 => call_method xa "toUInt" []
          | TyU64 => call_method xa "toULong" []
          | TyI8 => call_method (call_method xa "toInt" []) "toByte" []
          | TyI16 => call_method (call_method xa "toInt" []) "toShort" []
          | TyI32 => call_method xa "toInt" []
          | TyI64 => call_method xa "toLong" []
          | TyF32 => call_method xa "toFloat" []
          | TyF64 => call_method xa "toDouble" []
          end) false.
Proof.
  intros Hh Hh2 Ha. destruct t; try (apply (parsed_meth2 OKt la xa na); assumption); try (apply (parsed_meth OKt la xa na); assumption).
  apply (parsed_infix OKt ONe la xa na [TNum (cs "0")] (NNum (cs "0")) false); auto; try discriminate.
  apply (parsed_number OKt false).
Qed.

Theorem parse_toks g dn vt field : forall e, good g dn e ->
  (match g with OGo => exists x, print g dn vt field e = Some x | _ => True end) ->
  parsed g (toks g dn vt field e) (meaning g dn vt field e) (negative e).
Proof.
  induction e as [ | l | neg ds | b | o a IHa | o a IHa b IHb | t a IHa | c IHc a IHa b IHb ]; intros G P.
  - apply parsed_value.
  - cbn [good toks meaning negative] in *. destruct G as (U & _ & G). destruct (emit_shape g dn l U G) as (ds & D & ->).
    assert (E : num_toks ((if i_val l <? 0 then ["-"%char] else []) ++ ds) = (if i_val l <? 0 then [sy "-"; TNum ds] else [TNum ds]) /\
      num_node ((if i_val l <? 0 then ["-"%char] else []) ++ ds) = if i_val l <? 0 then NUn (cs "-") (NNum ds) else NNum ds).
    { destruct (i_val l <? 0); [split; reflexivity|]. destruct (digits_not_minus ds D) as (c & r & -> & _ & Hc). cbn. now rewrite Hc. }
    destruct E as [-> ->]. apply parsed_number.
  - apply parsed_number.
  - apply parsed_bool.
  - destruct G as (G & G1 & G2).
    assert (Pa : match g with OGo => exists x, print g dn vt field a = Some x | _ => True end).
    { destruct g; auto. destruct P as [x P]. cbn [print] in P. destruct (print OGo dn vt field a); [eauto|discriminate]. }
    specialize (IHa G Pa). cbn [negative].
    assert (U : (g = OKt -> o <> UBnot) -> parsed g (sy "(" :: un_tok g o :: toks g dn vt field a ++ [sy ")"]) (NUn (cs (un_sym g o)) (meaning g dn vt field a)) false).
    { intros H. eapply parsed_unary; eauto. }
    cbn [toks meaning]. destruct g, o; try (apply U; discriminate).
    eapply parsed_meth; eauto. apply toks_head_ok.
  - destruct G as (Ga & Gb & Gp).
    assert (Pab : match g with OGo => (exists x, print g dn vt field a = Some x) /\ (exists x, print g dn vt field b = Some x) | _ => True end).
    { destruct g; auto. destruct P as [x P]. cbn [print] in P. destruct (print OGo dn vt field a); [|discriminate].
      destruct (print OGo dn vt field b); [|discriminate]. eauto. }
    specialize (IHa Ga ltac:(destruct g; tauto)). specialize (IHb Gb ltac:(destruct g; tauto)). cbn [negative].
    assert (I : (o = OPow -> g = OPy \/ g = OCjs \/ g = OEsm) ->
      parsed g (sy "(" :: toks g dn vt field a ++ bin_tok g o :: toks g dn vt field b ++ [sy ")"])
        (NBin (cs (bin_sym g o)) (meaning g dn vt field a) (meaning g dn vt field b)) false).
    { intros Ho. apply (parsed_infix g o _ _ (negative a) _ _ (negative b)); [exact Ho|apply toks_head_ok| |exact IHa|exact IHb].
      intros E. apply (Gp E). destruct (Ho E) as [->|[->| ->]]; auto. }
    pose proof (toks_not_rp g dn vt field a) as N.
    pose proof (toks_head_ok g dn vt field a [sy ")"]) as H1. pose proof (toks_head_ok g dn vt field b [sy ")"]) as H2.
    cbn [toks meaning]. destruct o; try (destruct g; apply I; discriminate).
    + clear Gp. destruct g.
      * clear I. eapply parsed_mcall2; eauto; vm_compute; reflexivity.
      * clear I. eapply parsed_call2; eauto; vm_compute; reflexivity.
      * clear I. eapply parsed_call2; eauto; vm_compute; reflexivity.
      * clear I. eapply parsed_mcall2; eauto; vm_compute; reflexivity.
      * clear I. eapply parsed_mcall2; eauto; vm_compute; reflexivity.
      * clear I. eapply parsed_kpow; eauto.
      * apply I; auto.
      * apply I; auto.
      * apply I; auto.
    + destruct g; try (apply I; discriminate).
      pose proof (parsed_meth OKt _ _ _ (cs "toInt") H2 IHb) as M.
      pose proof (parsed_infix OKt OShl _ _ _ _ _ _ ltac:(discriminate) (toks_head_ok OKt dn vt field a [bin_tok OKt OShl]) ltac:(discriminate) IHa M) as R.
      cbn [app] in R. rewrite <- app_assoc in R. cbn [app] in R. exact R.
    + destruct g; try (apply I; discriminate).
      pose proof (parsed_meth OKt _ _ _ (cs "toInt") H2 IHb) as M.
      pose proof (parsed_infix OKt OShr _ _ _ _ _ _ ltac:(discriminate) (toks_head_ok OKt dn vt field a [bin_tok OKt OShr]) ltac:(discriminate) IHa M) as R.
      cbn [app] in R. rewrite <- app_assoc in R. cbn [app] in R. exact R.
  - assert (Pa : match g with OGo => exists x, print g dn vt field a = Some x | _ => True end).
    { destruct g; auto. destruct P as [x P]. cbn [print] in P. destruct (print OGo dn vt field a); [eauto|discriminate]. }
    specialize (IHa G Pa). pose proof (types_word g t) as W. pose proof (toks_not_rp g dn vt field a) as N. cbn [negative toks meaning].
    destruct g; try (eapply parsed_cast; eauto; fail); try (eapply parsed_call1; [apply W|apply W|exact N|exact IHa]).
    eapply parsed_kcast; eauto; apply toks_head_ok.
  - destruct G as (Gc & Ga & Gb).
    assert (Pab : match g with OGo => (exists x, print g dn vt field c = Some x) /\ (exists x, print g dn vt field a = Some x) /\ (exists x, print g dn vt field b = Some x) /\
       exists t, expr_type vt a = Some t | _ => True end).
    { destruct g; auto. destruct P as [x P]. cbn [print] in P. destruct (print OGo dn vt field c); [|discriminate].
      destruct (print OGo dn vt field a); [|discriminate]. destruct (print OGo dn vt field b); [|discriminate].
      destruct (expr_type vt a); [|discriminate]. eauto 10. }
    specialize (IHc Gc ltac:(destruct g; tauto)). specialize (IHa Ga ltac:(destruct g; tauto)). specialize (IHb Gb ltac:(destruct g; tauto)).
    pose proof (toks_head_ok g dn vt field c [sy "?"]) as H1. cbn [negative toks meaning].
    destruct g; try (eapply parsed_quest; eauto; exact I).
    + destruct Pab as (_ & _ & _ & t & ->). eapply parsed_goif; eauto.
    + eapply parsed_ktif; eauto.
    + eapply parsed_pyif; eauto.
Qed.
