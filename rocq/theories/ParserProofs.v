(** The parser finds the derivations of the grammar, and only those. *)
From Coq Require Import String Ascii List Bool Arith Lia ZArith.
From Verif Require Import Literals LexModel FrontModel ExprModel Syntax Parser.
Import ListNotations.
Open Scope string_scope.
Open Scope nat_scope.
Open Scope list_scope.

(** ** Pieces *)
Lemma bind_inv {A B} (p : parser A) (f : A -> parser B) ts r :
  bind p f ts = Some r -> exists a k, p ts = Some (a, k) /\ f a k = Some r.
Proof. unfold bind. destruct (p ts) as [[a k]|]; [|discriminate]. eauto. Qed.
Lemma bind_ok {A B} (p : parser A) (f : A -> parser B) ts a k :
  p ts = Some (a, k) -> bind p f ts = f a k.
Proof. unfold bind. now intros ->. Qed.
Lemma ret_inv {A} (a b : A) ts k : ret a ts = Some (b, k) -> a = b /\ ts = k.
Proof. unfold ret. intros H. injection H as -> ->. auto. Qed.
Lemma is_fx_inv s t : is_fx s t = true -> t = fx s.
Proof.
  destruct t as [[] u]; cbn; try discriminate. destruct (list_eq_dec ascii_dec u (cs s)) as [->|]; [reflexivity|discriminate].
Qed.
Lemma is_fx_ok s : is_fx s (fx s) = true.
Proof. cbn. now destruct (list_eq_dec ascii_dec (cs s) (cs s)). Qed.
Lemma p_fx_inv s ts u k : p_fx s ts = Some (u, k) -> ts = fx s :: k.
Proof.
  unfold p_fx. destruct ts as [|t r]; [discriminate|]. destruct (is_fx s t) eqn:E; [|discriminate].
  intros H. injection H as _ <-. now rewrite (is_fx_inv _ _ E).
Qed.
Lemma p_fx_ok s k : p_fx s (fx s :: k) = Some (tt, k).
Proof. unfold p_fx. now rewrite is_fx_ok. Qed.
Definition leaf (k : kind) : Prop := k = KInt \/ k = KFloat \/ k = KStr \/ k = KBool \/ k = KIdent.
Lemma of_kind_inv k t : of_kind k t = true -> fst t = k.
Proof. destruct k, t as [[] ?]; cbn; congruence. Qed.
Lemma of_kind_ok k u : leaf k -> of_kind k (k, u) = true.
Proof. intros [-> |[-> |[-> |[-> | ->]]]]; reflexivity. Qed.
Lemma p_kind_inv kd ts a k : p_kind kd ts = Some (a, k) -> ts = (kd, a) :: k.
Proof.
  unfold p_kind. destruct ts as [|[kt u] r]; [discriminate|]. destruct (of_kind kd _) eqn:E; [|discriminate].
  apply of_kind_inv in E. cbn in E. subst. intros H. now injection H as -> ->.
Qed.
Lemma p_kind_ok kd a k : leaf kd -> p_kind kd ((kd, a) :: k) = Some (a, k).
Proof. intros L. unfold p_kind. now rewrite of_kind_ok. Qed.
Lemma p_name_inv ts a k : p_name ts = Some (a, k) -> ts = name a :: k.
Proof. apply p_kind_inv. Qed.
Lemma p_name_ok a k : p_name (name a :: k) = Some (a, k).
Proof. reflexivity. Qed.
Lemma p_num_inv ts a k : p_num ts = Some (a, k) -> ts = num a :: k.
Proof. apply p_kind_inv. Qed.
Lemma p_num_ok a k : p_num (num a :: k) = Some (a, k).
Proof. reflexivity. Qed.
Lemma basic_tok_inv t b : basic_tok t = Some b -> t = fx (basic_text b).
Proof. unfold basic_tok. intros H. apply find_some in H as [_ H]. now apply is_fx_inv. Qed.
Lemma basic_tok_ok b : basic_tok (fx (basic_text b)) = Some b.
Proof. destruct b; reflexivity. Qed.
Lemma p_basic_inv ts b k : p_basic ts = Some (b, k) -> ts = y_basic b ++ k.
Proof.
  unfold p_basic. destruct ts as [|t r]; [discriminate|]. destruct (basic_tok t) eqn:E; [|discriminate].
  intros H. injection H as -> ->. now rewrite (basic_tok_inv _ _ E).
Qed.
Lemma p_basic_ok b k : p_basic (y_basic b ++ k) = Some (b, k).
Proof. cbn [y_basic app p_basic]. now rewrite basic_tok_ok. Qed.
Lemma sign_tok_inv t s : sign_tok t = Some s -> [t] = y_sign s.
Proof.
  unfold sign_tok. destruct (is_fx "+" t) eqn:E1; [|destruct (is_fx "-" t) eqn:E2; [|discriminate]];
    intros H; injection H as <-; apply is_fx_inv in E1 || apply is_fx_inv in E2; now subst.
Qed.
Lemma p_constant_inv ts c k : p_constant ts = Some (c, k) -> ts = y_constant c ++ k.
Proof.
  unfold p_constant. destruct ts as [|[k1 t1] r]; [discriminate|].
  assert (S : forall c, (match r with
    | (KInt, t) :: k => match sign_tok (k1, t1) with Some s => Some (CInt (Some s) t, k) | None => None end
    | (KFloat, t) :: k => match sign_tok (k1, t1) with Some s => Some (CFloat (Some s) t, k) | None => None end
    | _ => None end) = Some (c, k) -> (k1, t1) :: r = y_constant c ++ k).
  { intros c0. destruct r as [|[k2 t2] r]; [discriminate|].
    destruct k2; try discriminate; destruct (sign_tok (k1, t1)) as [s|] eqn:E; try discriminate;
      apply sign_tok_inv in E; intros H; injection H as <- <-; cbn [y_constant y_opt]; rewrite <- E; reflexivity. }
  destruct k1; try apply S; intros H; injection H as <- <-; reflexivity.
Qed.
Lemma p_constant_ok c k : p_constant (y_constant c ++ k) = Some (c, k).
Proof. destruct c as [[[]|]|[[]|]| |]; reflexivity. Qed.

Lemma optional_inv {A} st (p : parser A) y ts o k :
  (forall ts a k, p ts = Some (a, k) -> ts = y a ++ k) ->
  optional st p ts = Some (o, k) -> ts = y_opt y o ++ k.
Proof.
  intros S. unfold optional. destruct (st ts); [|intros H; now injection H as <- <-].
  intros H. apply bind_inv in H as (a & k1 & E & H). apply ret_inv in H as [<- <-]. cbn. now apply S.
Qed.
Lemma optional_ok {A} st (p : parser A) y o k :
  (forall a, o = Some a -> p (y a ++ k) = Some (a, k)) ->
  (forall a, o = Some a -> st (y a ++ k) = true) -> (o = None -> st k = false) ->
  optional st p (y_opt y o ++ k) = Some (o, k).
Proof.
  intros C T F. unfold optional. destruct o as [a|]; cbn [y_opt app].
  - rewrite (T a eq_refl), (bind_ok _ _ _ _ _ (C a eq_refl)). reflexivity.
  - now rewrite (F eq_refl).
Qed.
Lemma many_inv {A} st (p : parser A) y : (forall ts a k, p ts = Some (a, k) -> ts = y a ++ k) ->
  forall n ts l k, many n st p ts = Some (l, k) -> ts = flat_map y l ++ k.
Proof.
  intros S. induction n as [|n IH]; intros ts l k; [discriminate|]. cbn [many]. destruct (st ts); intros H.
  - apply bind_inv in H as (a & k1 & E & H). apply bind_inv in H as (l' & k2 & E2 & H). apply ret_inv in H as [<- <-].
    rewrite (S _ _ _ E), (IH _ _ _ E2). cbn [flat_map]. now rewrite app_assoc.
  - now injection H as <- <-.
Qed.
Lemma many_ok {A} st (p : parser A) y k l :
  (forall a k, In a l -> p (y a ++ k) = Some (a, k)) -> (forall a k, In a l -> st (y a ++ k) = true) ->
  st k = false -> forall n, length l < n -> many n st p (flat_map y l ++ k) = Some (l, k).
Proof.
  intros C T F. induction l as [|a l IH]; intros n L; (destruct n as [|n]; [cbn in L; lia|]); cbn [many flat_map].
  - cbn. now rewrite F.
  - rewrite <- app_assoc, T by now left. rewrite (bind_ok _ _ _ _ _ (C a _ (or_introl eq_refl))).
    rewrite (bind_ok _ _ _ l k).
    + reflexivity.
    + apply IH; cbn in L; [| |lia]; intros; [apply C|apply T]; now right.
Qed.
Lemma repeated_inv {A} st (p : parser A) y ts l k : (forall ts a k, p ts = Some (a, k) -> ts = y a ++ k) ->
  repeated st p ts = Some (l, k) -> ts = flat_map y l ++ k.
Proof. intros S. now apply many_inv. Qed.
Lemma flat_length {A} (y : A -> list token) l : (forall a, In a l -> y a <> []) -> length l <= length (flat_map y l).
Proof.
  intros N. induction l as [|a l IH]; [auto|]. cbn. rewrite app_length.
  assert (y a <> []) by (apply N; now left). specialize (IH (fun b I => N b (or_intror I))).
  destruct (y a); [easy|]. cbn. lia.
Qed.
Lemma repeated_ok {A} st (p : parser A) y k l :
  (forall a k, In a l -> p (y a ++ k) = Some (a, k)) -> (forall a k, In a l -> st (y a ++ k) = true) ->
  (forall a, In a l -> y a <> []) ->
  st k = false -> repeated st p (flat_map y l ++ k) = Some (l, k).
Proof.
  intros C T N F. unfold repeated. apply many_ok; auto. rewrite app_length. apply flat_length in N. lia.
Qed.

(** Hypotheses [p ts = Some _] become equations for [ts]. *)
Ltac opened := match goal with
  | H : bind _ _ _ = Some _ |- _ => apply bind_inv in H; destruct H as (? & ? & ? & ?)
  | H : ret _ _ = Some _ |- _ => apply ret_inv in H; destruct H as [? ?]; subst
  | H : p_fx _ _ = Some _ |- _ => apply p_fx_inv in H; subst
  | H : p_name _ = Some _ |- _ => apply p_name_inv in H; subst
  | H : p_num _ = Some _ |- _ => apply p_num_inv in H; subst
  | H : p_kind _ _ = Some _ |- _ => apply p_kind_inv in H; subst
  | H : p_basic _ = Some _ |- _ => apply p_basic_inv in H; subst
  | H : p_constant _ = Some _ |- _ => apply p_constant_inv in H; subst
  end.
Ltac flat := cbn [app y_opt fst snd]; repeat (rewrite <- ?app_assoc; cbn [app y_opt fst snd]).

Lemma p_rhs_inv ts r k : p_rhs ts = Some (r, k) -> ts = y_rhs r ++ k.
Proof. unfold p_rhs. destruct (next _ ts); intros H; repeat opened; reflexivity. Qed.
Lemma p_rhs_ok r k : p_rhs (y_rhs r ++ k) = Some (r, k).
Proof.
  destruct r as [c|n]; [|reflexivity]. unfold p_rhs. cbn [y_rhs].
  replace (next (of_kind KIdent) (y_constant c ++ k)) with false by (destruct c as [[[]|]|[[]|]| |]; reflexivity).
  rewrite (bind_ok _ _ _ _ _ (p_constant_ok c k)). reflexivity.
Qed.
Lemma p_size_inv ts s k : p_size ts = Some (s, k) -> ts = y_size s ++ k.
Proof.
  unfold p_size. intros H. opened. opened. destruct (next (is_fx "#") _); repeat opened; [reflexivity|].
  destruct (next (is_fx "#") _); repeat opened; reflexivity.
Qed.
Lemma p_size_ok s k : p_size (y_size s ++ k) = Some (s, k).
Proof. destruct s; reflexivity. Qed.
Lemma at_size_ok s k : at_size (y_size s ++ k) = true.
Proof. destruct s; reflexivity. Qed.
Lemma p_pair_inv ts o k : p_pair ts = Some (o, k) -> ts = y_pair o ++ k.
Proof. unfold p_pair. intros H. repeat opened. reflexivity. Qed.
Lemma p_pair_ok o k : p_pair (y_pair o ++ k) = Some (o, k).
Proof.
  destruct o as [n c]. unfold p_pair, y_pair. cbn [fst snd app].
  rewrite (bind_ok _ _ _ _ _ (p_name_ok n _)), (bind_ok _ _ _ _ _ (p_fx_ok "=" _)), (bind_ok _ _ _ _ _ (p_constant_ok c k)).
  reflexivity.
Qed.
Lemma p_sep_inv {A} sep (p : parser A) y ts l k : (forall ts a k, p ts = Some (a, k) -> ts = y a ++ k) ->
  p_sep sep p ts = Some (l, k) -> ts = y_sep y sep l ++ k.
Proof.
  intros S. unfold p_sep. intros H. repeat opened.
  match goal with H : repeated _ _ _ = Some _ |- _ => apply repeated_inv with (y := fun a => fx sep :: y a) in H end.
  - subst. match goal with H : p _ = Some _ |- _ => apply S in H; subst end. unfold y_sep. flat. reflexivity.
  - intros ts1 a1 k1 H9. repeat opened. cbn. f_equal. now apply S.
Qed.
Lemma p_sep_ok {A} sep (p : parser A) y l k : (forall a k, p (y a ++ k) = Some (a, k)) ->
  next (is_fx sep) k = false -> p_sep sep p (y_sep y sep l ++ k) = Some (l, k).
Proof.
  intros C F. unfold p_sep, y_sep. destruct l as [a l]. flat. rewrite (bind_ok _ _ _ _ _ (C a _)).
  rewrite (bind_ok _ _ _ l k); [reflexivity|]. apply repeated_ok; auto.
  - intros b k' _. cbn [app]. rewrite (bind_ok _ _ _ _ _ (p_fx_ok sep _)). apply C.
  - intros b k' _. cbn [app next]. apply is_fx_ok.
  - discriminate.
Qed.
Lemma p_opts_inv ts o k : p_opts ts = Some (o, k) -> ts = y_opts o ++ k.
Proof.
  unfold p_opts. intros H. repeat opened.
  match goal with H : p_sep _ _ _ = Some _ |- _ => apply (p_sep_inv _ _ _ _ _ _ p_pair_inv) in H; subst end.
  unfold y_opts. flat. reflexivity.
Qed.
Lemma p_opts_ok o k : p_opts (y_opts o ++ k) = Some (o, k).
Proof.
  unfold p_opts, y_opts. flat. rewrite (bind_ok _ _ _ _ _ (p_fx_ok "[" _)).
  rewrite (bind_ok _ _ _ o (fx "]" :: k)); [|apply p_sep_ok; [apply p_pair_ok|reflexivity]].
  rewrite (bind_ok _ _ _ _ _ (p_fx_ok "]" _)). reflexivity.
Qed.

(** ** Expressions *)
Lemma bin_of_inv t o : bin_of t = Some o -> t = fx (bin_tok o).
Proof. unfold bin_of. intros H. apply find_some in H as [_ H]. now apply is_fx_inv. Qed.
Lemma bin_of_ok o : bin_of (fx (bin_tok o)) = Some o.
Proof. destruct o; reflexivity. Qed.
Lemma un_of_inv t o : un_of t = Some o -> t = fx (un_tok o).
Proof. unfold un_of. intros H. apply find_some in H as [_ H]. now apply is_fx_inv. Qed.
Lemma un_of_ok o : un_of (fx (un_tok o)) = Some o.
Proof. destruct o; reflexivity. Qed.

(** ANTLR's numbers count the alternatives from the end. *)
Lemma prec_alt o : prec o = 18 - alternative o.
Proof. destruct o; reflexivity. Qed.
Lemma prec_right_alt o : prec_right o = S (18 - alternative o).
Proof. destruct o; reflexivity. Qed.
Lemma alt_range o : 4 <= alternative o <= 16 /\ alternative o <> 5 /\ alternative o <> 6.
Proof. destruct o; cbn; lia. Qed.

(** The alternative of the operator at the front of the tokens that follow. *)
Definition follows (k : list token) (n : nat) : Prop :=
  match k with
  | t :: _ => (exists o, bin_of t = Some o /\ n = alternative o) \/ (bin_of t = None /\ is_fx "?" t = true /\ n = alt_tern)
  | [] => False
  end.
Lemma follows_range k n : follows k n -> 4 <= n <= 17 /\ n <> 5 /\ n <> 6.
Proof.
  destruct k as [|t k]; [easy|]. intros [(o & _ & ->)|(_ & _ & ->)]; [pose proof (alt_range o)|unfold alt_tern]; lia.
Qed.
(** What follows may be joined to [e] as a left operand ... *)
Definition joins (e : pexpr) (k : list token) : Prop := forall n, follows k n -> within n e /\ ~ takes_in n e.
(** ... but is not taken at level [p]. *)
Definition stops (p : nat) (k : list token) : Prop := forall n, follows k n -> 18 - n < p.
Definition reaches (p : nat) (e : pexpr) : Prop := forall n, 18 - n < p -> n <= 17 -> within (n - 1) e.

Lemma within_le m n e : m <= n -> within m e -> within n e.
Proof. destruct e; cbn; auto; lia. Qed.

Lemma within_strong e : within 6 e -> within 4 e.
Proof. destruct e; cbn; auto. pose proof (alt_range o). lia. unfold alt_tern. lia. Qed.

Lemma loop_stop n p e k : stops p k -> p_loop (S n) p e k = Some (e, k).
Proof.
  intros S. cbn [p_loop]. destruct k as [|t k]; auto.
  destruct (bin_of t) as [o|] eqn:E.
  - assert (H : 18 - alternative o < p) by (apply S; left; eauto). rewrite <- prec_alt in H.
    destruct (Nat.leb_spec p (prec o)); [lia|]. reflexivity.
  - destruct (is_fx "?" t) eqn:Q; auto. assert (H : 18 - alt_tern < p) by (apply S; right; auto).
    unfold alt_tern in H. destruct (Nat.leb_spec p 1); [lia|]. reflexivity.
Qed.
Lemma loop_bin n p e o k : p_loop (S n) p e (fx (bin_tok o) :: k) =
  if p <=? prec o then (let* r := p_expr n (prec_right o) in p_loop n p (PBin o e r)) k
  else Some (e, fx (bin_tok o) :: k).
Proof. cbn [p_loop]. rewrite bin_of_ok. reflexivity. Qed.
Lemma loop_tern n p e k : p <= 1 -> p_loop (S n) p e (fx "?" :: k) =
  (let* a := p_expr n 0 in let* _ := p_fx ":" in let* b := p_expr n 2 in p_loop n p (PTern e a b)) k.
Proof.
  intros P. cbn [p_loop]. replace (bin_of (fx "?")) with (@None binop) by reflexivity.
  rewrite is_fx_ok. apply Nat.leb_le in P. now rewrite P.
Qed.

Lemma nofollow_cons t k : bin_of t = None -> is_fx "?" t = false -> forall n, ~ follows (t :: k) n.
Proof. intros B Q n [(o & E & _)|(_ & E & _)]; congruence. Qed.
Lemma y_expr_nonempty e : y_expr e <> [].
Proof.
  destruct e; cbn; try discriminate.
  - destruct c as [[[]|]|[[]|]| |]; discriminate.
  - destruct (y_expr e1); discriminate.
  - destruct (y_expr e1); discriminate.
Qed.

(** The numbers at which [p_expr] is called. *)
Definition fits (p : nat) (e : pexpr) : Prop := within (18 - p) e.

Definition first_ok (p n : nat) (ts : list token) : parser pexpr := p_expr n p.

Lemma expr_head n p ts : p_expr (S n) p ts =
  bind (fun ts =>
           if next (is_fx "value") ts then (let* _ := p_fx "value" in ret PValue) ts
           else match p_constant ts with
           | Some (c, k) => Some (PConst c, k)
           | None =>
               if next (is_fx "(") ts then
                 if next2 is_basic ts then
                   (let* _ := p_fx "(" in let* b := p_basic in let* _ := p_fx ")" in
                    let* e := p_expr n 12 in ret (PCast b e)) ts
                 else
                   (let* _ := p_fx "(" in let* e := p_expr n 0 in let* _ := p_fx ")" in ret (PParens e)) ts
               else
                 match ts with
                 | t :: k =>
                     match un_of t with
                     | Some o => (let* e := p_expr n 13 in ret (PUn o e)) k
                     | None => None
                     end
                 | [] => None
                 end
           end)
        (fun e => p_loop n p e) ts.
Proof. reflexivity. Qed.
Lemma expr_value n p k : p_expr (S n) p (fx "value" :: k) = p_loop n p PValue k.
Proof. reflexivity. Qed.
Lemma expr_const n p c k : p_expr (S n) p (y_constant c ++ k) = p_loop n p (PConst c) k.
Proof.
  rewrite expr_head. apply bind_ok.
  replace (next (is_fx "value") (y_constant c ++ k)) with false by (destruct c as [[[]|]|[[]|]| |]; reflexivity).
  now rewrite p_constant_ok.
Qed.
Lemma first_not_basic e k : next is_basic (y_expr e ++ k) = false.
Proof.
  revert k. induction e as [|c|e IH|o e IH|b e IH|o l IHl r IHr|c IHc a IHa b IHb]; intros k; cbn [y_expr]; flat; try reflexivity.
  - destruct c as [[[]|]|[[]|]| |]; reflexivity.
  - destruct o; reflexivity.
  - apply IHl.
  - apply IHc.
Qed.
Lemma expr_parens n p e k : p_expr (S n) p (fx "(" :: y_expr e ++ k) =
  (let* e := (let* e := p_expr n 0 in let* _ := p_fx ")" in ret (PParens e)) in p_loop n p e) (y_expr e ++ k).
Proof.
  rewrite expr_head. unfold bind at 1. replace (next (is_fx "value") (fx "(" :: y_expr e ++ k)) with false by reflexivity.
  replace (p_constant (fx "(" :: y_expr e ++ k)) with (@None (constant * list token)).
  2:{ cbn. destruct (y_expr e ++ k) as [|[[] t] r]; reflexivity. }
  replace (next (is_fx "(") (fx "(" :: y_expr e ++ k)) with true by reflexivity.
  replace (next2 is_basic (fx "(" :: y_expr e ++ k)) with (next is_basic (y_expr e ++ k)).
  2:{ destruct (y_expr e ++ k); reflexivity. }
  rewrite first_not_basic. rewrite (bind_ok _ _ _ _ _ (p_fx_ok "(" _)). reflexivity.
Qed.
Lemma expr_cast n p b k : p_expr (S n) p (fx "(" :: y_basic b ++ fx ")" :: k) =
  (let* e := (let* e := p_expr n 12 in ret (PCast b e)) in p_loop n p e) k.
Proof.
  rewrite expr_head. unfold bind at 1. cbn [y_basic app]. replace (next (is_fx "value") (fx "(" :: _)) with false by reflexivity.
  replace (p_constant _) with (@None (constant * list token)) by reflexivity.
  replace (next (is_fx "(") (fx "(" :: _)) with true by reflexivity. cbn [next2]. unfold is_basic. rewrite basic_tok_ok.
  rewrite (bind_ok _ _ _ _ _ (p_fx_ok "(" _)).
  rewrite (bind_ok p_basic _ (fx (basic_text b) :: fx ")" :: k) b (fx ")" :: k)) by apply p_basic_ok.
  rewrite (bind_ok _ _ _ _ _ (p_fx_ok ")" _)). reflexivity.
Qed.
Lemma expr_un n p o k : ((o = UAdd \/ o = USub) -> ~ unsigned_number k) ->
  p_expr (S n) p (fx (un_tok o) :: k) = (let* e := (let* e := p_expr n 13 in ret (PUn o e)) in p_loop n p e) k.
Proof.
  intros N. rewrite expr_head. unfold bind at 1.
  replace (next (is_fx "value") (fx (un_tok o) :: k)) with false by (destruct o; reflexivity).
  replace (p_constant (fx (un_tok o) :: k)) with (@None (constant * list token)).
  2:{ destruct k as [|[kd t] k]; [destruct o; reflexivity|].
      destruct kd; try (destruct o; reflexivity);
        destruct o; try reflexivity; exfalso; apply N; try tauto; unfold unsigned_number; eauto 6. }
  replace (next (is_fx "(") (fx (un_tok o) :: k)) with false by (destruct o; reflexivity).
  rewrite un_of_ok. reflexivity.
Qed.
Lemma unsigned_app l k : l <> [] -> unsigned_number (l ++ k) -> unsigned_number l.
Proof.
  intros N (kd & t & r & E & K). destruct l as [|x l]; [easy|]. cbn in E. injection E as -> _. exists kd, t, l. auto.
Qed.

Ltac lens := do 6 (rewrite ?app_length in *; cbn [length y_basic y_expr app] in *).

(** The tree meant is the one found. *)
Lemma expr_complete e : meant e -> forall p k R, fits p e -> joins e k ->
  (forall m, 2 * length k + 1 <= m -> p_loop m p e k = R) ->
  forall n, 2 * length (y_expr e ++ k) + 2 <= n -> p_expr n p (y_expr e ++ k) = R.
Proof.
  induction e as [|c|e IH|o e IH|b e IH|o l IHl r IHr|c IHc a IHa b IHb]; intros M p k R F J HR n L;
    (destruct n as [|n]; [lia|]); cbn [meant] in M.
  - cbn [y_expr app]. rewrite expr_value. apply HR. cbn [y_expr app length] in L. lia.
  - cbn [y_expr]. rewrite expr_const. apply HR. cbn [y_expr] in L. rewrite app_length in L. lia.
  - cbn [y_expr]. flat. rewrite expr_parens. rewrite (bind_ok _ _ _ (PParens e) k).
    { apply HR. lens. lia. }
    rewrite (bind_ok _ _ _ e (fx ")" :: k)).
    { now rewrite (bind_ok _ _ _ _ _ (p_fx_ok ")" _)). }
    assert (Nf : forall i, ~ follows (fx ")" :: k) i) by now apply nofollow_cons.
    apply IH; auto.
    + unfold fits. destruct e; cbn; auto; try (pose proof (alt_range o)); unfold alt_tern; lia.
    + intros i Fi. destruct (Nf _ Fi).
    + intros m Hm. destruct m as [|m]; [lia|]. apply loop_stop. intros i Fi. destruct (Nf _ Fi).
    + lens. lia.
  - destruct M as (M & W & N). cbn [y_expr]. flat. rewrite expr_un.
    2:{ intros Ho U. apply unsigned_app in U; [|apply y_expr_nonempty]. now apply N. }
    rewrite (bind_ok _ _ _ (PUn o e) k).
    { apply HR. lens. lia. }
    rewrite (bind_ok _ _ _ e k); [reflexivity|].
    assert (St : stops 13 k).
    { intros i Fi. pose proof (follows_range _ _ Fi). destruct (J i Fi) as [_ T]. cbn in T. unfold alt_un in T. lia. }
    apply IH; auto.
    + unfold fits. eapply within_le; [|exact W]. unfold alt_un. lia.
    + intros i Fi. destruct (J i Fi) as [_ T]. cbn in T. split; [|tauto].
      eapply within_le; [|exact W]. unfold alt_un in *. lia.
    + intros m Hm. destruct m as [|m]; [lia|]. now apply loop_stop.
    + lens. lia.
  - destruct M as (M & W). cbn [y_expr]. flat. rewrite expr_cast.
    rewrite (bind_ok _ _ _ (PCast b e) k).
    { apply HR. lens. lia. }
    rewrite (bind_ok _ _ _ e k); [reflexivity|].
    assert (St : stops 12 k).
    { intros i Fi. pose proof (follows_range _ _ Fi). destruct (J i Fi) as [_ T]. cbn in T. unfold alt_cast in T. lia. }
    apply IH; auto.
    + unfold fits. eapply within_le; [|exact W]. unfold alt_cast. lia.
    + intros i Fi. destruct (J i Fi) as [_ T]. cbn in T. split; [|tauto].
      eapply within_le; [|exact W]. unfold alt_cast in *. lia.
    + intros m Hm. destruct m as [|m]; [lia|]. now apply loop_stop.
    + lens. lia.
  - destruct M as (Ml & Mr & Wl & Tl & Wr). cbn [y_expr]. flat. unfold fits in F. cbn [within] in F.
    pose proof (alt_range o) as Ar.
    assert (Lr : length (y_expr r) > 0) by (pose proof (y_expr_nonempty r); destruct (y_expr r); [easy|cbn; lia]).
    apply IHl; auto.
    + unfold fits. now apply (within_le (alternative o)).
    + intros i [(o' & E & ->)|(E & _)]; [|rewrite bin_of_ok in E; discriminate].
      rewrite bin_of_ok in E. injection E as <-. auto.
    + intros m Hm. destruct m as [|m]; [lia|]. rewrite loop_bin.
      assert (Hp : p <= prec o) by (rewrite prec_alt; lia). apply Nat.leb_le in Hp. rewrite Hp.
      assert (St : stops (prec_right o) k).
      { intros i Fi. destruct (J i Fi) as [W _]. cbn in W. rewrite prec_right_alt. lia. }
      rewrite (bind_ok _ _ _ r k).
      * apply HR. lens. lia.
      * apply IHr; auto.
        -- unfold fits. rewrite prec_right_alt. eapply within_le; [|exact Wr]. lia.
        -- intros i Fi. destruct (J i Fi) as [W T]. cbn in W, T. split; auto. eapply within_le; [|exact Wr]. lia.
        -- intros m' Hm'. destruct m' as [|m']; [lia|]. now apply loop_stop.
        -- lens. lia.
    + lens. lia.
  - destruct M as (Mc & Ma & Mb & Tc & Wb). cbn [y_expr]. flat. unfold fits in F. cbn [within] in F.
    assert (La : length (y_expr a) > 0) by (pose proof (y_expr_nonempty a); destruct (y_expr a); [easy|cbn; lia]).
    assert (Lb : length (y_expr b) > 0) by (pose proof (y_expr_nonempty b); destruct (y_expr b); [easy|cbn; lia]).
    assert (All : forall x, within 17 x) by (intros []; cbn; auto; [pose proof (alt_range o); lia]).
    apply IHc; auto.
    + unfold fits. apply (within_le alt_tern); auto.
    + intros i [(o' & E & ->)|(E & _ & ->)]; [cbn in E; discriminate|]. split; auto.
    + intros m Hm. destruct m as [|m]; [lia|]. rewrite loop_tern by (unfold alt_tern in F; lia).
      rewrite (bind_ok _ _ _ a (fx ":" :: y_expr b ++ k)).
      2:{ assert (Nf : forall i, ~ follows (fx ":" :: y_expr b ++ k) i) by now apply nofollow_cons.
          apply IHa; auto.
          - unfold fits. apply (within_le 17); [lia|auto].
          - intros i Fi. destruct (Nf _ Fi).
          - intros m' Hm'. destruct m' as [|m']; [lia|]. apply loop_stop. intros i Fi. destruct (Nf _ Fi).
          - lens. lia. }
      rewrite (bind_ok _ _ _ _ _ (p_fx_ok ":" _)).
      rewrite (bind_ok _ _ _ b k).
      { apply HR. lens. lia. }
      apply IHb; auto.
      * intros i Fi. destruct (J i Fi) as [W T]. cbn in T. split; auto.
        eapply within_le; [|exact Wb]. cbn in W. unfold alt_tern in *. lia.
      * intros m' Hm'. destruct m' as [|m']; [lia|]. apply loop_stop. intros i Fi.
        destruct (J i Fi) as [W _]. cbn in W. unfold alt_tern in W. lia.
      * lens. lia.
    + lens. lia.
Qed.

(** The tree found is meant. *)
Definition good (p : nat) (e : pexpr) (k : list token) : Prop := meant e /\ fits p e /\ joins e k.
Lemma expr_sound n : 
  (forall p ts e k, p <= 17 -> p_expr n p ts = Some (e, k) -> ts = y_expr e ++ k /\ good p e k /\ stops p k) /\
  (forall p a ts e k, p <= 17 -> good p a ts -> p_loop n p a ts = Some (e, k) ->
     exists m, ts = m ++ k /\ y_expr e = y_expr a ++ m /\ good p e k /\ stops p k).
Proof.
  induction n as [|n [IHe IHl]]; [split; discriminate|]. split.
  - intros p ts e k P H. rewrite expr_head in H. apply bind_inv in H as (a & k1 & E & H).
    assert (G : ts = y_expr a ++ k1 /\ meant a /\ (forall i, within i a) /\ joins a k1).
    { destruct (next (is_fx "value") ts).
      { repeat opened. split; [reflexivity|]. split; [exact I|]. split; [intros i; exact I|]. intros i _. split; [exact I|intros []]. }
      destruct (p_constant ts) as [[c kc]|] eqn:Ec.
      { injection E as <- <-. apply p_constant_inv in Ec. split; [exact Ec|]. split; [exact I|].
        split; [intros i; exact I|]. intros i _. split; [exact I|intros []]. }
      destruct (next (is_fx "(") ts).
      { destruct (next2 is_basic ts).
        - repeat opened. match goal with H : p_expr n 12 _ = _ |- _ => apply IHe in H as (-> & (M & F & J) & St); [|lia] end.
          split; [cbn [y_expr]; flat; reflexivity|]. split; [split; auto; apply (within_le 4); [unfold alt_cast; lia|now apply within_strong]|].
          split; [intros i; exact I|].
          intros i Fi. split; [exact I|]. cbn. specialize (St i Fi). unfold alt_cast.
          intros [A|A]; [lia|]. now apply (J i Fi).
        - repeat opened. match goal with H : p_expr n 0 _ = _ |- _ => apply IHe in H as (-> & (M & F & J) & St); [|lia] end.
          split; [cbn [y_expr]; flat; reflexivity|]. split; [exact M|].
          split; [intros i; exact I|]. intros i _. split; [exact I|intros []]. }
      destruct ts as [|t kt]; [discriminate|]. destruct (un_of t) as [o|] eqn:Eo; [|discriminate].
      apply un_of_inv in Eo. subst t.
      repeat opened. match goal with H : p_expr n 13 _ = _ |- _ => apply IHe in H as (-> & (M & F & J) & St); [|lia] end.
      split; [reflexivity|]. split; [|split].
      + split; auto. split; [apply within_strong; apply (within_le 5); [lia|exact F]|]. intros Ho (kd & t & r & Er & Kd).
        rewrite Er in Ec. destruct Ho as [-> | ->], Kd as [-> | ->]; discriminate.
      + intros i; exact I.
      + intros i Fi. split; [exact I|]. cbn. specialize (St i Fi). unfold alt_un.
        intros [A|A]; [lia|]. now apply (J i Fi). }
    destruct G as (-> & M & W & J).
    apply IHl in H as (m & -> & Y & G & St); auto.
    + split; [|auto]. rewrite Y. now rewrite app_assoc.
    + split; [exact M|]. split; [apply W|exact J].
  - intros p a ts e k P (M & F & J) H. cbn [p_loop] in H.
    assert (Stop : stops p ts -> Some (a, ts) = Some (e, k) -> exists m, ts = m ++ k /\ y_expr e = y_expr a ++ m /\ good p e k /\ stops p k).
    { intros St Q. injection Q as <- <-. exists []. split; [reflexivity|]. split; [now rewrite app_nil_r|]. split; [split; auto|auto]. }
    destruct ts as [|t kt]; [apply Stop; auto; intros i []|].
    destruct (bin_of t) as [o|] eqn:Eo.
    + destruct (Nat.leb_spec p (prec o)).
      * assert (Ft : follows (t :: kt) (alternative o)) by (left; eauto).
        destruct (J _ Ft) as [Wa Ta]. apply bin_of_inv in Eo. subst t. pose proof (alt_range o) as Ar.
        apply bind_inv in H as (r & k1 & E & H). apply IHe in E as (-> & (Mr & Fr & Jr) & St); [|rewrite prec_right_alt; lia].
        apply IHl in H as (m & -> & Y & G & St'); auto.
        -- exists (fx (bin_tok o) :: y_expr r ++ m). split; [flat; reflexivity|]. split; [|auto].
           rewrite Y. cbn [y_expr]. flat. reflexivity.
        -- unfold fits in Fr. rewrite prec_right_alt in Fr, St. rewrite prec_alt in H0.
           split; [|split].
           ++ cbn [meant]. split; auto. split; auto. split; auto. split; auto. eapply within_le; [|exact Fr]. lia.
           ++ unfold fits. cbn [within]. lia.
           ++ intros i Fi. specialize (St i Fi). split; [cbn [within]; lia|]. cbn [takes_in]. now apply (Jr i Fi).
      * apply Stop; auto. intros i [(o' & E' & ->)|(E' & _)]; [|congruence].
        rewrite Eo in E'. injection E' as <-. rewrite <- prec_alt. lia.
    + destruct (is_fx "?" t) eqn:Q; cbn [andb] in H.
      2:{ apply Stop; auto. intros i [(o' & E' & _)|(_ & E' & _)]; congruence. }
      destruct (Nat.leb_spec p 1).
      * assert (Ft : follows (t :: kt) alt_tern) by (right; auto).
        destruct (J _ Ft) as [Wa Ta]. apply is_fx_inv in Q. subst t.
        repeat opened.
        match goal with H : p_expr n 0 _ = _ |- _ => apply IHe in H as (-> & (M0 & F0 & J0) & St0); [|lia] end.
        match goal with H : p_expr n 2 _ = _ |- _ => apply IHe in H as (-> & (M2 & F2 & J2) & St2); [|lia] end.
        match goal with H : p_loop n p _ _ = _ |- _ => apply IHl in H as (m & -> & Y & G & St'); auto end.
        -- eexists (fx "?" :: y_expr _ ++ fx ":" :: y_expr _ ++ m). split; [flat; reflexivity|]. split; [|auto].
           rewrite Y. cbn [y_expr]. flat. reflexivity.
        -- split; [|split].
           ++ cbn [meant]. auto 6.
           ++ unfold fits. cbn [within]. unfold alt_tern. lia.
           ++ intros i Fi. specialize (St2 i Fi). split; [cbn [within]; unfold alt_tern; lia|]. cbn [takes_in]. now apply (J2 i Fi).
      * apply Stop; auto. intros i [(o' & E' & _)|(_ & _ & ->)]; [congruence|]. unfold alt_tern. lia.
Qed.

(** No operator at the front. *)
Definition expr_end (k : list token) : Prop := forall n, ~ follows k n.
Lemma parse_expr_inv ts e k : parse_expr ts = Some (e, k) -> ts = y_expr e ++ k /\ meant e /\ expr_end k.
Proof.
  unfold parse_expr. intros H. destruct (expr_sound (2 * length ts + 2)) as [S _].
  apply S in H as (E & (M & _ & _) & St); [|lia]. split; auto. split; auto.
  intros n F. specialize (St n F). lia.
Qed.
Lemma parse_expr_ok e k : meant e -> expr_end k -> parse_expr (y_expr e ++ k) = Some (e, k).
Proof.
  intros M N. unfold parse_expr. apply expr_complete; auto.
  - unfold fits. destruct e; cbn; auto; try (pose proof (alt_range o)); unfold alt_tern; lia.
  - intros i F. destruct (N _ F).
  - intros m L. destruct m as [|m]; [lia|]. apply loop_stop. intros i F. destruct (N _ F).
Qed.
