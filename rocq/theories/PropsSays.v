(** C63: the compiler takes a file for what its tokens say (TextSpec.v), no more and no less. *)
From Coq Require Import String Ascii List Bool Arith ZArith Lia.
From Verif Require Import Base Literals LexModel LexSpec LexProofs LexLayout StrLit FrontModel CompileModel
  ExprModel Syntax Parser ParserLang Paths Text TextRel TextSpec PropsLit PropsLex PropsStr PropsParse PropsText.
Import ListNotations.
Open Scope string_scope.
Open Scope nat_scope.
Open Scope list_scope.

(** ** Tokens by themselves *)
Lemma takes_more r w rest u : takes r w u -> exists u', takes r (w ++ rest) u' /\ length u <= length u' /\
  (r_greedy r = false -> u' = u).
Proof.
  intros ([x Hx] & L & M).
  assert (P : prefix u (w ++ rest)) by (exists (x ++ rest); rewrite Hx, <- app_assoc; reflexivity).
  destruct (r_greedy r) eqn:G.
  - pose proof (longest_ok (w ++ rest) (r_re r)) as K. pose proof P as P'. apply prefix_firstn in P' as [E Hl].
    destruct (longest (r_re r) (w ++ rest)) as [n|]; [|destruct (K (length u)); [exact Hl|now rewrite <- E]].
    destruct K as (Hn & Ln & Mx). exists (firstn n (w ++ rest)). split; [|split; [|discriminate]].
    + split; [now apply prefix_of_firstn|]. split; [exact Ln|]. rewrite G. intros w' Pw Lw. apply prefix_firstn in Pw as [Ew Hw].
      rewrite firstn_length_le by exact Hn. apply Mx; [exact Hw|now rewrite <- Ew].
    + rewrite firstn_length_le by exact Hn. apply Mx; [exact Hl|now rewrite <- E].
  - exists u. split; [|auto]. split; [exact P|]. split; [exact L|]. rewrite G. intros w' Pw Lw.
    destruct (le_lt_dec (length u) (length w')) as [H|H]; [exact H|]. apply M; [|exact Lw].
    assert (Hu : length u <= length w) by (rewrite Hx, app_length; lia).
    apply prefix_firstn. apply prefix_firstn in Pw as [Ew Hw]. split; [|lia].
    rewrite Ew at 1. rewrite firstn_app. replace (length w' - length w) with 0 by lia. cbn. now rewrite app_nil_r.
Qed.
Lemma next_alone w rest k : next_token (w ++ rest) k w -> next_token w k w.
Proof.
  intros (i & r & N & K & (_ & L & M) & Nw & B). exists i, r. split; [exact N|]. split; [exact K|].
  split; [|split; [exact Nw|]].
  - split; [exists []; now rewrite app_nil_r|]. split; [exact L|]. intros w' [x Hx] Lw.
    specialize (M w'). destruct (r_greedy r).
    + apply (f_equal (@length _)) in Hx. rewrite app_length in Hx. lia.
    + apply M; [|exact Lw]. exists (x ++ rest). rewrite Hx at 1. now rewrite <- app_assoc.
  - intros j r' w' Nj T. destruct (takes_more r' w rest w' T) as (u & Tu & Hl & _).
    assert (Hw : length w' <= length w) by (destruct T as ([x Hx] & _); rewrite Hx, app_length; lia).
    specialize (B _ _ _ Nj Tu). lia.
Qed.
Definition real (t : token) : Prop := is_token (fst t) (snd t).
Lemma cut_real s ts : cut s ts -> Forall real (visible ts).
Proof.
  induction 1 as [|k w rest ts N _ IH]; [constructor|]. cbn [visible filter fst]. destruct (hidden k) eqn:H; cbn [negb]; [exact IH|].
  constructor; [|exact IH]. split; [|exact H]. exact (next_alone _ _ _ N).
Qed.
(** Every token of a text is a token by itself. *)
Theorem C54_tokens_alone : forall s ts, lex s = Some ts -> Forall (fun t => is_token (fst t) (snd t)) ts.
Proof.
  intros s ts H. unfold lex in H. destruct (tokens s) as [us|] eqn:E; [|discriminate]. injection H as <-.
  apply tokens_cut in E. exact (cut_real _ _ E).
Qed.
Lemma real_bool t : is_token KBool t -> t = cs "true" \/ t = cs "false".
Proof.
  intros T. apply token_rule in T as (r & I & K & L & _).
  assert (r = greedy KBool bool_lit) as ->.
  { apply (kind_rule KBool); [apply tail_rule; cbn; tauto|reflexivity|discriminate|exact I|exact K]. }
  cbn [r_re greedy] in L. unfold bool_lit in L. apply lang_alt_inv in L as [L|L]; apply text_lang in L; auto.
Qed.

Section Reading.
Variable parse_float : chars -> option N.
Variable cwd : chars.
Variable path : chars.
Notation lit_says := (lit_says parse_float).
Notation literal_of := (literal_of parse_float).
Notation options_of := (options_of parse_float).
Notation method_says := (method_says parse_float).

(** ** Literals *)
Lemma num_read t n : num_says t n -> number t = Some n.
Proof.
  intros [H L]. unfold number. rewrite (parse_int_token _ _ H). destruct (Z.ltb_spec (Z.of_N n) (2 ^ 63)) as [_|G]; [|lia].
  cbn [option_map]. now rewrite N2Z.id.
Qed.
Lemma num_said t n : is_token KInt t -> number t = Some n -> num_says t n.
Proof.
  intros T. unfold number, num_says. apply C56_integers in T as [v H]. rewrite (parse_int_token _ _ H).
  pose proof (int_token_nonneg _ _ H). destruct (Z.ltb_spec v (2 ^ 63)) as [L|L]; cbn [option_map]; [|discriminate].
  intros [= <-]. rewrite Z2N.id by lia. auto.
Qed.
Lemma str_read t v : str_says t v -> visit_str t = Some v.
Proof.
  intros [(us & ns & -> & P & N & ->)|(us & ns & -> & P & N & ->)]; apply C57_value; auto.
Qed.
Lemma visit_quoted q us ns v : (q = "'"%char \/ q = """"%char) -> pieces q us ns ->
  visit_str (q :: concat us ++ [q]) = Some v -> quoted q (q :: concat us ++ [q]) v.
Proof.
  intros Q P H. assert (N : forall u n, In (u, n) (combine us ns) -> ~ bad_piece q u n).
  { intros u n I B. rewrite (C57_rejected q us ns Q P) in H; [discriminate|]. exists u, n. auto. }
  rewrite (C57_value q us ns Q P N) in H. injection H as <-. exists us, ns. auto.
Qed.
Lemma str_said t v : is_token KStr t -> visit_str t = Some v -> str_says t v.
Proof.
  intros T H. apply C57_token in T as (q & us & ns & Q & P & ->). pose proof (visit_quoted q us ns v Q P H).
  destruct Q as [-> | ->]; [now left|now right].
Qed.
Definition sign_of (s : option sign) : list token := y_opt y_sign s.
Lemma sign_tree ss neg : sign_says ss neg -> exists s, sign_of s = ss /\ is_minus s = neg.
Proof. destruct 1; [now exists None|now exists (Some Plus)|now exists (Some Minus)]. Qed.
Lemma sign_said s : sign_says (sign_of s) (is_minus s).
Proof. destruct s as [[]|]; constructor. Qed.
Lemma lit_tree ts l : lit_says ts l -> exists c, y_constant c = ts /\ literal_of c = Some l.
Proof.
  destruct 1 as [ss neg t n S H|ss neg t b S H| | |t v H].
  - destruct (sign_tree _ _ S) as (s & <- & <-). exists (CInt s t). split; auto. cbn. now rewrite (num_read _ _ H).
  - destruct (sign_tree _ _ S) as (s & <- & <-). exists (CFloat s t). split; auto. cbn. now rewrite H.
  - now exists (CBool (cs "true")).
  - now exists (CBool (cs "false")).
  - exists (CStr t). split; auto. cbn. now rewrite (str_read _ _ H).
Qed.
Lemma lit_said c l : Forall real (y_constant c) -> literal_of c = Some l -> lit_says (y_constant c) l.
Proof.
  intros F H. destruct c as [s t|s t|t|t]; cbn [Text.literal_of y_constant] in *.
  - apply Forall_app in F as [_ F]. inversion F as [|? ? R _]; subst. cbn in R.
    destruct (number t) as [n|] eqn:E; [|discriminate]. injection H as <-. constructor; [apply sign_said|now apply num_said].
  - destruct (parse_float t) as [b|] eqn:E; [|discriminate]. injection H as <-. constructor; [apply sign_said|exact E].
  - inversion F as [|? ? R _]; subst. cbn in R.
    destruct (visit_str t) as [v|] eqn:E; [|discriminate]. injection H as <-. constructor. now apply str_said.
  - inversion F as [|? ? R _]; subst. change (is_token KBool t) in R. apply real_bool in R as [-> | ->]; injection H as <-; constructor.
Qed.
Lemma value_tree ts v : value_says parse_float ts v -> exists r, y_rhs r = ts /\ rhs_of parse_float r = Some v.
Proof.
  destruct 1 as [ts l H|n].
  - destruct (lit_tree _ _ H) as (c & <- & E). exists (RConst c). cbn. now rewrite E.
  - now exists (RIdent n).
Qed.
Lemma value_said r v : Forall real (y_rhs r) -> rhs_of parse_float r = Some v -> value_says parse_float (y_rhs r) v.
Proof.
  intros F H. destruct r as [c|n]; cbn in *; [|injection H as <-; constructor].
  destruct (literal_of c) as [l|] eqn:E; [|discriminate]. injection H as <-. constructor. now apply lit_said.
Qed.
Lemma size_tree ts z : size_says ts z -> exists s, y_size s = ts /\ size_of s = Some z.
Proof.
  destruct 1 as [b n H|b n c m H K|c m H].
  - exists (SBytes b). cbn. now rewrite (num_read _ _ H).
  - exists (SBoth b c). cbn. now rewrite (num_read _ _ H), (num_read _ _ K).
  - exists (SBits c). cbn. now rewrite (num_read _ _ H).
Qed.
Lemma size_said s z : Forall real (y_size s) -> size_of s = Some z -> size_says (y_size s) z.
Proof.
  intros F H. rewrite Forall_forall in F. destruct s as [b|b c|c]; cbn [size_of y_size] in *.
  - destruct (number b) as [n|] eqn:E; [|discriminate]. injection H as <-. constructor. apply num_said; auto.
    apply (F (num b)). cbn. auto.
  - destruct (number b) as [n|] eqn:E; [|discriminate]. destruct (number c) as [m|] eqn:E2; [|discriminate].
    injection H as <-. constructor; apply num_said; auto; [apply (F (num b))|apply (F (num c))]; cbn; auto 6.
  - destruct (number c) as [n|] eqn:E; [|discriminate]. injection H as <-. constructor. apply num_said; auto.
    apply (F (num c)). cbn. auto.
Qed.
Lemma maybe_tree {A B} (says : list token -> A -> Prop) (y : B -> list token) (f : B -> option A) ts o :
  (forall ts a, says ts a -> exists b, y b = ts /\ f b = Some a) -> maybe says ts o ->
  exists b, y_opt y b = ts /\ opt_of f b = Some o.
Proof.
  intros H M. destruct o as [a|]; cbn in M; [|subst; now exists None].
  destruct (H _ _ M) as (b & <- & E). exists (Some b). cbn. now rewrite E.
Qed.
Lemma maybe_said {A B} (says : list token -> A -> Prop) (y : B -> list token) (f : B -> option A) b o :
  (forall b a, Forall real (y b) -> f b = Some a -> says (y b) a) ->
  Forall real (y_opt y b) -> opt_of f b = Some o -> maybe says (y_opt y b) o.
Proof.
  intros H F E. destruct b as [b|]; cbn in *; [|now injection E as <-].
  destruct (f b) as [a|] eqn:Ef; [|discriminate]. injection E as <-. cbn. auto.
Qed.
Lemma names_tree ns n : maybe name_says ns n -> exists m, y_opt y_name m = ns /\ option_map str m = n.
Proof.
  destruct n as [n|]; cbn; [intros (m & -> & ->); now exists (Some m)|intros ->; now exists None].
Qed.
Lemma names_said m : maybe name_says (y_opt y_name m) (option_map str m).
Proof. destruct m as [m|]; cbn; auto. now exists m. Qed.
Lemma arr_tree ts n : arr_says ts n -> exists a, y_arr a = ts /\ number a = Some n.
Proof. intros (t & -> & H). exists t. split; auto. now apply num_read. Qed.
Lemma arr_said a n : Forall real (y_arr a) -> number a = Some n -> arr_says (y_arr a) n.
Proof.
  intros F H. exists a. split; auto. apply num_said; auto. rewrite Forall_forall in F. apply (F (num a)). cbn. auto.
Qed.
Lemma pair_tree ts x : pair_says parse_float ts x -> exists o, y_pair o = ts /\ option_of parse_float o = Some x.
Proof.
  destruct 1 as [n ts l H]. destruct (lit_tree _ _ H) as (c & <- & E). exists (n, c). unfold option_of. cbn. now rewrite E.
Qed.
Lemma real_cons t ts : Forall real (t :: ts) -> real t /\ Forall real ts.
Proof. intros F. inversion F; auto. Qed.
Lemma pair_said o x : Forall real (y_pair o) -> option_of parse_float o = Some x -> pair_says parse_float (y_pair o) x.
Proof.
  destruct o as [n c]. unfold option_of, y_pair. cbn [fst snd]. intros F H. destruct (literal_of c) as [l|] eqn:E; [|discriminate].
  injection H as <-. apply real_cons in F as [_ F]. apply real_cons in F as [_ F].
  apply (ps_pair parse_float n (y_constant c) l). now apply lit_said.
Qed.
Lemma pairs_tree ts l : pairs_say parse_float ts l -> exists o, y_sep y_pair "," o = ts /\ all_of (option_of parse_float) (fst o :: snd o) = Some l.
Proof.
  induction 1 as [ts x H|ts x us o H _ (p & E & A)]; destruct (pair_tree _ _ H) as (q & <- & Eq).
  - exists (q, []). unfold y_sep. cbn [fst snd flat_map all_of]. rewrite app_nil_r, Eq. auto.
  - exists (q, fst p :: snd p). unfold y_sep. cbn [fst snd flat_map]. split; [now rewrite <- E|].
    cbn [all_of] in *. rewrite Eq. destruct (option_of parse_float (fst p)); [|discriminate].
    destruct (all_of _ (snd p)); [|discriminate]. now injection A as <-.
Qed.
Lemma pairs_said r : forall a l, Forall real (y_sep y_pair "," (a, r)) -> all_of (option_of parse_float) (a :: r) = Some l ->
  pairs_say parse_float (y_sep y_pair "," (a, r)) l.
Proof.
  induction r as [|b r IH]; intros a l F H; unfold y_sep in *; cbn [fst snd flat_map] in *.
  - rewrite app_nil_r in *. cbn [all_of] in H. destruct (option_of parse_float a) as [x|] eqn:E; [|discriminate]. injection H as <-.
    constructor. now apply pair_said.
  - apply Forall_app in F as [F1 F2]. rewrite <- app_comm_cons in *. apply real_cons in F2 as [_ F2].
    change (all_of (option_of parse_float) (a :: b :: r)) with (do? x <- option_of parse_float a; do? m <- all_of (option_of parse_float) (b :: r); Some (x :: m)) in H.
    destruct (option_of parse_float a) as [x|] eqn:E; [|discriminate].
    destruct (all_of (option_of parse_float) (b :: r)) as [m|] eqn:Em; [|discriminate]. injection H as <-.
    apply pr_more; [now apply pair_said|]. now apply IH.
Qed.
Lemma opts_tree ts l : opts_say parse_float ts l -> exists o, y_opt y_opts o = ts /\ options_of o = Some l.
Proof.
  destruct 1 as [|ts l H]; [now exists None|]. destruct (pairs_tree _ _ H) as ([a r] & <- & A). exists (Some (a, r)). auto.
Qed.
Lemma opts_said o l : Forall real (y_opt y_opts o) -> options_of o = Some l -> opts_say parse_float (y_opt y_opts o) l.
Proof.
  intros F H. destruct o as [[a r]|]; [|injection H as <-; constructor]. cbn [y_opt] in *. unfold y_opts in *.
  apply real_cons in F as [_ F]. apply Forall_app in F as [F _]. constructor. now apply pairs_said.
Qed.

(** ** Methods *)
Lemma constant_words c l : Forall real (y_constant c) -> literal_of c = Some l -> Forall (word_ok parse_float) (y_constant c).
Proof.
  intros F H. pose proof (lit_said _ _ F H) as S.
  assert (G : forall s, Forall (word_ok parse_float) (sign_of s)) by (intros [[]|]; repeat constructor).
  destruct c as [s t|s t|t|t]; cbn [y_constant Text.literal_of] in *.
  + apply Forall_app. split; [apply G|]. repeat constructor. cbn. apply Forall_app in F as [_ F]. apply real_cons in F as [R _].
    destruct (number t) as [n|] eqn:E; [|discriminate]. exists n. now apply num_said.
  + apply Forall_app. split; [apply G|]. repeat constructor. cbn. destruct (parse_float t) as [n|] eqn:E; [|discriminate]. eauto.
  + repeat constructor. cbn. apply real_cons in F as [R _]. destruct (visit_str t) as [v|] eqn:E; [|discriminate]. exists v. now apply str_said.
  + repeat constructor.
Qed.
Lemma words_constant c : Forall (word_ok parse_float) (y_constant c) -> exists l, literal_of c = Some l.
Proof.
  intros W. destruct c as [s t|s t|t|t]; cbn [y_constant Text.literal_of] in *.
  + apply Forall_app in W as [_ W]. destruct (Forall_inv W) as [n N]. cbn [snd] in N. rewrite (num_read _ _ N). eauto.
  + apply Forall_app in W as [_ W]. destruct (Forall_inv W) as [n N]. cbn [snd] in N. rewrite N. eauto.
  + destruct (Forall_inv W) as [n N]. cbn [snd] in N. rewrite (str_read _ _ N). eauto.
  + eauto.
Qed.
Lemma readable_words e : Forall real (y_expr e) -> readable parse_float e = true -> Forall (word_ok parse_float) (y_expr e).
Proof.
  induction e as [|c|e IH|o e IH|b e IH|o l IHl r IHr|c IHc a IHa b IHb]; intros F; cbn [readable y_expr] in *.
  - intros _. repeat constructor.
  - destruct (literal_of c) as [l|] eqn:E; [|discriminate]. intros _. now apply (constant_words c l).
  - apply real_cons in F as [_ F]. apply Forall_app in F as [F _]. intros W. constructor; [exact I|]. apply Forall_app.
    split; [now apply IH|]. repeat constructor.
  - apply real_cons in F as [_ F]. intros W. constructor; [exact I|now apply IH].
  - apply real_cons in F as [_ F]. cbn [y_basic app] in *. apply real_cons in F as [_ F]. apply real_cons in F as [_ F].
    intros W. repeat (constructor; [exact I|]). now apply IH.
  - apply Forall_app in F as [F1 F2]. apply real_cons in F2 as [_ F2]. rewrite andb_true_iff. intros [W1 W2].
    apply Forall_app. split; [now apply IHl|]. constructor; [exact I|now apply IHr].
  - apply Forall_app in F as [F1 F2]. apply real_cons in F2 as [_ F2]. apply Forall_app in F2 as [F2 F3]. apply real_cons in F3 as [_ F3].
    rewrite !andb_true_iff. intros [[W1 W2] W3]. apply Forall_app. split; [now apply IHc|]. constructor; [exact I|].
    apply Forall_app. split; [now apply IHa|]. constructor; [exact I|now apply IHb].
Qed.
Lemma words_cons t ts : Forall (word_ok parse_float) (t :: ts) -> Forall (word_ok parse_float) ts.
Proof. intros F. now inversion F. Qed.
Lemma words_readable e : Forall (word_ok parse_float) (y_expr e) -> readable parse_float e = true.
Proof.
  induction e as [|c|e IH|o e IH|b e IH|o l IHl r IHr|c IHc a IHa b IHb]; intros F; cbn [readable y_expr] in *; auto.
  - destruct (words_constant c F) as [l ->]. reflexivity.
  - apply words_cons in F. apply Forall_app in F as [F _]. auto.
  - apply words_cons in F. auto.
  - do 3 apply words_cons in F. auto.
  - apply Forall_app in F as [F1 F2]. apply words_cons in F2. rewrite IHl, IHr; auto.
  - apply Forall_app in F as [F1 F2]. apply words_cons in F2. apply Forall_app in F2 as [F2 F3]. apply words_cons in F3. rewrite IHc, IHa, IHb; auto.
Qed.
Lemma method_tree ts m : method_says ts m -> exists p, y_method p = ts /\ meant_method p /\ method_of parse_float p = Some m.
Proof.
  destruct 1 as [g ns n b es N [[e E] W]]. destruct (names_tree _ _ N) as (m & <- & <-).
  destruct (expr_meant e) as (e' & E' & M). rewrite E in E'. subst es. rewrite <- E' in W.
  exists {| pm_get := g; pm_name := m; pm_type := b; pm_expr := e' |}. unfold y_method, meant_method, method_of. cbn [pm_get pm_name pm_type pm_expr].
  rewrite (words_readable e' W), E'. auto.
Qed.
Lemma method_said p m : Forall real (y_method p) -> method_of parse_float p = Some m -> method_says (y_method p) m.
Proof.
  destruct p as [g n b e]. unfold y_method, method_of. cbn [pm_get pm_name pm_type pm_expr]. intros F H.
  destruct (readable parse_float e) eqn:R; [|discriminate]. injection H as <-.
  apply (md_method parse_float g (y_opt (fun n => [name n]) n) (option_map str n) b (y_expr e)); [apply names_said|].
  split; [eauto|]. apply readable_words; auto. apply real_cons in F as [_ F]. apply Forall_app in F as [_ F].
  apply real_cons in F as [_ F]. cbn [y_basic app] in F. do 3 apply real_cons in F as [_ F]. now apply Forall_app in F as [F _].
Qed.
Lemma many_method_tree ts l : many_say method_says ts l ->
  exists p, y_list y_method p = ts /\ Forall meant_method p /\ all_of (method_of parse_float) p = Some l.
Proof.
  induction 1 as [|ts a us l H _ (p & <- & M & E)]; [exists []; repeat constructor|].
  destruct (method_tree _ _ H) as (q & <- & Mq & Eq). exists (q :: p). split; [reflexivity|]. split; [now constructor|]. cbn. now rewrite Eq, E.
Qed.
Lemma many_method_said p : forall l, Forall real (y_list y_method p) -> all_of (method_of parse_float) p = Some l ->
  many_say method_says (y_list y_method p) l.
Proof.
  induction p as [|q p IH]; intros l F H; cbn [all_of] in H; [injection H as <-; constructor|]. unfold y_list in *. cbn [flat_map] in *.
  apply Forall_app in F as [F1 F2]. destruct (method_of parse_float q) as [a|] eqn:E; [|discriminate].
  destruct (all_of _ p) as [m|] eqn:Em; [|discriminate]. injection H as <-. constructor; [now apply method_said|now apply IH].
Qed.

(** ** Structs *)
Section Places.
Variable at_ : nat -> Z * Z.
Variable file : string.
Notation elem_of := (elem_of parse_float file at_).
Notation struct_of := (struct_of parse_float file at_).
Notation body_of := (body_of parse_float file at_).
Notation element_of := (element_of parse_float file at_).
Notation elem_says := (elem_says parse_float).
Notation struct_says := (struct_says parse_float).
Notation body_says := (body_says parse_float).
Notation methods_of := (methods_of parse_float).
Definition anywhere (p q : pos) : Prop := True.

Lemma methods_tree (B : Prop) ms m t a : methods_say parse_float B ms m -> (B -> (exists b, t = XBasic b) /\ a = None) ->
  exists p, y_opt y_methods p = ms /\ match p with Some l => Forall meant_method l | None => True end /\ methods_of t a p = Some m.
Proof.
  intros H K. destruct H as [|ts l M Hb]; [now exists None|]. destruct (many_method_tree _ _ M) as (p & <- & Mp & E).
  exists (Some p). split; [reflexivity|]. split; [exact Mp|]. destruct p as [|q p]; [|exact E].
  cbn in E. injection E as <-. destruct (K (Hb eq_refl)) as [[b ->] ->]. reflexivity.
Qed.
Lemma methods_said (B : Prop) p m t a : Forall real (y_opt y_methods p) -> methods_of t a p = Some m ->
  ((exists b, t = XBasic b) -> a = None -> B) -> methods_say parse_float B (y_opt y_methods p) m.
Proof.
  intros F H K. destruct p as [p|]; cbn [y_opt Text.methods_of] in *; [|injection H as <-; constructor].
  unfold y_methods in *. apply real_cons in F as [_ F]. apply Forall_app in F as [F _].
  destruct p as [|q p].
  - assert (m = []) as -> by (destruct t; try discriminate; destruct a; try discriminate; now injection H as <-).
    apply (mt_some parse_float B [] []); [constructor|]. intros _. destruct t; try discriminate; destruct a; try discriminate. apply K; eauto.
  - apply mt_some; [now apply many_method_said|]. intros ->. cbn in H. destruct (method_of _ q); [|discriminate].
    destruct (all_of _ p); discriminate.
Qed.
Definition meant_body (l : list pelement) : Prop := fold_right (fun e P => meant_element e /\ P) True l.
Lemma trees_said_tree :
  (forall ts e, elem_says ts e -> exists t, y_type t = ts /\ meant_type t /\ (forall b, e = AeBasic b -> t = XBasic b) /\
     forall i, exists e', elem_of i t = Some e' /\ rel_elem anywhere e e') /\
  (forall ts s, struct_says ts s -> exists d, y_struct d = ts /\ meant_struct d /\
     forall i, exists s', struct_of i d = Some s' /\ rel_struct anywhere s s') /\
  (forall ts b, body_says ts b -> exists l, flat_map y_element l = ts /\ meant_body l /\
     forall i, exists b', body_of i l = Some b' /\ rel_body anywhere b b').
Proof.
  apply (says_ind parse_float
    (fun ts e _ => exists t, y_type t = ts /\ meant_type t /\ (forall b, e = AeBasic b -> t = XBasic b) /\
       forall i, exists e', elem_of i t = Some e' /\ rel_elem anywhere e e')
    (fun ts s _ => exists d, y_struct d = ts /\ meant_struct d /\
       forall i, exists s', struct_of i d = Some s' /\ rel_struct anywhere s s')
    (fun ts b _ => exists l, flat_map y_element l = ts /\ meant_body l /\
       forall i, exists b', body_of i l = Some b' /\ rel_body anywhere b b')).
  - intros b. exists (XBasic b). repeat split; [congruence|]. intros i. eexists. split; [reflexivity|constructor].
  - exists XString. repeat split; [discriminate|]. intros i. eexists. split; [reflexivity|constructor].
  - exists XBytes. repeat split; [discriminate|]. intros i. eexists. split; [reflexivity|constructor].
  - intros n. exists (XStruct n). repeat split; [discriminate|]. intros i. eexists. split; [reflexivity|constructor].
  - intros n. exists (XEnum n). repeat split; [discriminate|]. intros i. eexists. split; [reflexivity|constructor].
  - intros n. exists (XIdent n). repeat split; [discriminate|]. intros i. eexists. split; [reflexivity|constructor].
  - intros ts d _ (p & Y & M & H). exists (XDef p). split; [exact Y|]. split; [exact M|]. split; [discriminate|].
    intros i. destruct (H i) as (s & E & R). exists (AeStructDef s). rewrite elem_of_def, E. split; [reflexivity|now constructor].
  - intros x n zs z ts b Z _ (l & <- & M & H). destruct (maybe_tree _ y_size size_of _ _ size_tree Z) as (s & <- & Es).
    exists (PStruct n s l). split; [reflexivity|]. split; [exact M|]. intros i.
    destruct (H (i + 3 + length (y_opt y_size s))) as (b' & Eb & R). eexists. rewrite struct_of_eq, Es, Eb.
    split; [reflexivity|]. constructor; [exact I|exact R].
  - exists []. split; [reflexivity|]. split; [exact I|]. intros i. exists ABNil. split; [reflexivity|constructor].
  - intros ts b _ (l & <- & M & H). exists (LEmpty :: l). split; [reflexivity|]. split; [now split|]. intros i.
    destruct (H (i + 1)) as (b' & Eb & R). exists (ABEmpty b'). cbn [Text.body_of y_element length]. rewrite Eb. split; [reflexivity|now constructor].
  - intros zs z os o ts b Z O _ (l & <- & M & H). destruct (size_tree _ _ Z) as (s & <- & Es). destruct (opts_tree _ _ O) as (p & <- & Ep).
    exists (LVoid s p :: l). split; [reflexivity|]. split; [now split|]. intros i.
    destruct (H (i + length (y_element (LVoid s p)))) as (b' & Eb & R). eexists. cbn [Text.body_of]. rewrite Eb.
    cbn [Text.element_of]. rewrite Es, Ep. split; [reflexivity|now constructor].
  - intros t ns n zs z vs v os o ts b N Z V O _ (l & <- & M & H). destruct (maybe_tree _ y_size size_of _ _ size_tree Z) as (s & <- & Es).
    destruct (opts_tree _ _ O) as (p & <- & Ep). destruct (names_tree _ _ N) as (m & <- & <-). destruct (value_tree _ _ V) as (r & <- & Er).
    exists (LConst t m s r p :: l). split; [reflexivity|]. split; [now split|]. intros i.
    destruct (H (i + length (y_element (LConst t m s r p)))) as (b' & Eb & R). eexists. cbn [Text.body_of]. rewrite Eb.
    cbn [Text.element_of]. rewrite Es, Er, Ep. split; [reflexivity|now constructor].
  - intros es e as_ a os o ts b _ (t & <- & Mt & _ & He) A O _ (l & <- & M & H).
    destruct (maybe_tree _ y_arr number _ _ arr_tree A) as (c & <- & Ec). destruct (opts_tree _ _ O) as (p & <- & Ep).
    exists (LEmbed t c p :: l). split; [reflexivity|]. split; [now split|]. intros i. destruct (He i) as (e' & Ee & Re).
    destruct (H (i + length (y_element (LEmbed t c p)))) as (b' & Eb & R). eexists. cbn [Text.body_of]. rewrite Eb.
    rewrite element_embed, Ee, Ec, Ep. split; [reflexivity|now constructor].
  - intros es e as_ a n zs z os o ms m ts b _ (t & <- & Mt & Bt & He) A Z O Ms _ (l & <- & M & H).
    destruct (maybe_tree _ y_arr number _ _ arr_tree A) as (c & <- & Ec). destruct (opts_tree _ _ O) as (p & <- & Ep).
    destruct (maybe_tree _ y_size size_of _ _ size_tree Z) as (s & <- & Es).
    destruct (methods_tree _ _ _ t c Ms) as (q & <- & Mq & Eq).
    { intros [[x ->] ->]. split; [exists x; now apply Bt|]. destruct c as [c|]; [|reflexivity]. cbn in Ec. destruct (number c); discriminate. }
    exists (LNormal t c n s p q :: l). split; [reflexivity|]. split; [now repeat split|]. intros i. destruct (He i) as (e' & Ee & Re).
    destruct (H (i + length (y_element (LNormal t c n s p q)))) as (b' & Eb & R). eexists. cbn [Text.body_of]. rewrite Eb.
    rewrite element_normal, Eq, Ee, Ec, Es, Ep. split; [reflexivity|now constructor].
Qed.
Lemma trees_tree_said :
  (forall t i e, elem_of i t = Some e -> Forall real (y_type t) -> elem_says (y_type t) e) /\
  (forall d i s, struct_of i d = Some s -> Forall real (y_struct d) -> struct_says (y_struct d) s) /\
  (forall e i r b, element_of i e r = Some b -> Forall real (y_element e) -> forall ts, body_says ts r -> body_says (y_element e ++ ts) b).
Proof.
  apply tree_ind.
  - intros t N i e H F. destruct t as [x| | |n|d|n|n]; cbn in H; try (injection H as <-; constructor). exfalso. now apply (N d).
  - intros d IH i e H F. rewrite elem_of_def in H. destruct (struct_of i d) as [s|] eqn:E; [|discriminate].
    injection H as <-. constructor. exact (IH _ _ E F).
  - intros n s body Fb i st H C. rewrite struct_of_eq in H. destruct (opt_of size_of s) as [sz|] eqn:Es; [|discriminate].
    destruct (body_of _ body) as [b|] eqn:Eb; [|discriminate]. injection H as <-. cbn [y_struct] in *.
    do 2 apply real_cons in C as [_ C]. apply Forall_app in C as [C1 C]. apply real_cons in C as [_ C].
    apply Forall_app in C as [C _]. constructor; [now apply (maybe_said size_says y_size size_of s sz size_said)|].
    revert b Eb C. generalize (i + 3 + length (y_opt y_size s)) as j. clear - Fb cwd path.
    induction Fb as [|e l He _ IH]; intros j b Eb C; cbn [Text.body_of flat_map] in *; [injection Eb as <-; constructor|].
    destruct (body_of (j + length (y_element e)) l) as [r|] eqn:Er; [|discriminate].
    apply Forall_app in C as [C1 C2]. apply (He _ _ _ Eb C1). exact (IH _ _ Er C2).
  - intros i r b H F ts S. injection H as <-. now constructor.
  - intros s o i r b H F ts S. cbn [Text.element_of y_element] in *. destruct (size_of s) as [z|] eqn:Es; [|discriminate].
    destruct (options_of o) as [l|] eqn:Eo; [|discriminate]. injection H as <-.
    apply real_cons in F as [_ F]. apply Forall_app in F as [F1 F]. apply Forall_app in F as [F2 _].
    constructor; [now apply size_said|now apply opts_said|exact S].
  - intros t n s c o i r b H F ts S. cbn [Text.element_of y_element] in *. destruct (opt_of size_of s) as [z|] eqn:Es; [|discriminate].
    destruct (rhs_of parse_float c) as [v|] eqn:Ev; [|discriminate]. destruct (options_of o) as [l|] eqn:Eo; [|discriminate]. injection H as <-.
    cbn [y_basic app] in F. apply real_cons in F as [_ F]. apply Forall_app in F as [F1 F]. apply Forall_app in F as [F2 F].
    apply real_cons in F as [_ F]. apply Forall_app in F as [F3 F]. apply Forall_app in F as [F4 _]. cbn [y_basic app].
    apply (bs_const parse_float t (y_opt y_name n)); [apply names_said|now apply (maybe_said size_says y_size size_of s z size_said)|now apply value_said|now apply opts_said|exact S].
  - intros t a o IH i r b H F ts S. rewrite element_embed in H. destruct (elem_of i t) as [e|] eqn:E; [|discriminate].
    destruct (opt_of number a) as [n|] eqn:Ea; [|discriminate]. destruct (options_of o) as [l|] eqn:Eo; [|discriminate].
    injection H as <-. cbn [y_element] in *. apply Forall_app in F as [F1 F]. apply Forall_app in F as [F2 F]. apply Forall_app in F as [F3 _].
    constructor; [exact (IH _ _ E F1)|now apply (maybe_said arr_says y_arr number a n arr_said)|now apply opts_said|exact S].
  - intros t a n s o m IH i r b H F ts S. rewrite element_normal in H. destruct (methods_of t a m) as [ms|] eqn:Em; [|discriminate].
    destruct (elem_of i t) as [e|] eqn:E; [|discriminate].
    destruct (opt_of number a) as [k|] eqn:Ea; [|discriminate]. destruct (opt_of size_of s) as [z|] eqn:Es; [|discriminate].
    destruct (options_of o) as [l|] eqn:Eo; [|discriminate].
    injection H as <-. cbn [y_element] in *. apply Forall_app in F as [F1 F]. apply Forall_app in F as [F2 F]. apply real_cons in F as [_ F].
    apply Forall_app in F as [F3 F]. apply Forall_app in F as [F4 F]. apply Forall_app in F as [F5 _].
    constructor; [exact (IH _ _ E F1)|now apply (maybe_said arr_says y_arr number a k arr_said)|now apply (maybe_said size_says y_size size_of s z size_said)|now apply opts_said| |exact S].
    eapply methods_said; [exact F5|exact Em|]. intros [x ->] ->. split; [|now injection Ea as <-]. cbn in E. injection E as <-. eauto.
Qed.

(** ** Enums and files *)
Notation members_of := (members_of parse_float file at_).
Notation enum_of := (enum_of parse_float file at_).
Notation tops_of := (tops_of parse_float file at_).
Lemma set_tree ts v : set_says parse_float ts v -> exists r, fx "=" :: y_rhs r = ts /\ rhs_of parse_float r = Some v.
Proof. intros (us & -> & V). destruct (value_tree _ _ V) as (r & <- & E). eauto. Qed.
Lemma set_said r v : Forall real (fx "=" :: y_rhs r) -> rhs_of parse_float r = Some v -> set_says parse_float (fx "=" :: y_rhs r) v.
Proof. intros F H. apply real_cons in F as [_ F]. exists (y_rhs r). split; auto. now apply value_said. Qed.
Lemma members_tree ts l : members_say parse_float ts l ->
  exists p, y_list y_member p = ts /\ forall i, exists l', members_of i p = Some l' /\ Forall2 (rel_val anywhere) l l'.
Proof.
  induction 1 as [|ts l _ (p & <- & H)|x n vs v o sep ts l V Hs _ (p & <- & H)].
  - exists []. split; [reflexivity|]. intros i. exists []. split; [reflexivity|constructor].
  - exists (None :: p). split; [reflexivity|]. intros i. destruct (H (i + 1)) as (l' & E & R). exists l'. split; [exact E|exact R].
  - destruct (maybe_tree _ (fun r => fx "=" :: y_rhs r) (rhs_of parse_float) _ _ set_tree V) as (r & <- & Er).
    set (q := {| pv_name := n; pv_rhs := r; pv_opts := o; pv_comma := String.eqb sep "," |}).
    exists (Some q :: p). split.
    + unfold y_list. cbn [flat_map y_member]. f_equal. unfold y_value, q. cbn [pv_name pv_rhs pv_opts pv_comma].
      do 4 f_equal. destruct Hs as [-> | ->]; reflexivity.
    + intros i. destruct (H (i + length (y_value q))) as (l' & E & R). eexists. cbn [Text.members_of]. cbn [pv_rhs q]. rewrite Er, E.
      split; [reflexivity|]. constructor; [|exact R]. repeat split.
Qed.
Lemma members_said p : forall i l, members_of i p = Some l -> Forall real (y_list y_member p) -> members_say parse_float (y_list y_member p) l.
Proof.
  induction p as [|[v|] p IH]; intros i l H F; cbn [Text.members_of] in H.
  - injection H as <-. constructor.
  - destruct (opt_of (rhs_of parse_float) (pv_rhs v)) as [x|] eqn:Ex; [|discriminate].
    destruct (members_of _ p) as [m|] eqn:Em; [|discriminate]. injection H as <-.
    unfold y_list in *. cbn [flat_map y_member] in *. apply Forall_app in F as [F1 F2]. destruct v as [n r o c]. unfold y_value in *. cbn [pv_name pv_rhs pv_opts pv_comma] in *.
    apply (me_member parse_float _ n (y_opt (fun r => fx "=" :: y_rhs r) r)); [|destruct c; auto|exact (IH _ _ Em F2)].
    apply real_cons in F1 as [_ F1]. apply Forall_app in F1 as [F1 _]. now apply (maybe_said (set_says parse_float) _ (rhs_of parse_float) r x set_said).
  - unfold y_list in *. cbn [flat_map y_member app] in *. apply real_cons in F as [_ F]. constructor. exact (IH _ _ H F).
Qed.
Lemma enum_tree ts e : enum_says parse_float ts e ->
  exists p, y_enum p = ts /\ forall i, exists e', enum_of i p = Some e' /\ rel_enum anywhere e e'.
Proof.
  destruct 1 as [x n zs z ts l Z M]. destruct (size_tree _ _ Z) as (s & <- & Es). destruct (members_tree _ _ M) as (p & <- & H).
  exists {| pe_name := n; pe_size := s; pe_members := p |}. split; [reflexivity|]. intros i. unfold Text.enum_of. cbn [pe_name pe_size pe_members].
  destruct (H (i + 3 + length (y_size s))) as (l' & E & R). eexists. rewrite Es, E. split; [reflexivity|]. repeat split. exact R.
Qed.
Lemma enum_said p i e : enum_of i p = Some e -> Forall real (y_enum p) -> enum_says parse_float (y_enum p) e.
Proof.
  unfold Text.enum_of, y_enum. intros H F. destruct (size_of (pe_size p)) as [z|] eqn:Es; [|discriminate].
  destruct (members_of _ (pe_members p)) as [m|] eqn:Em; [|discriminate]. injection H as <-.
  do 2 apply real_cons in F as [_ F]. apply Forall_app in F as [F1 F]. apply real_cons in F as [_ F]. apply Forall_app in F as [F2 _].
  constructor; [now apply size_said|exact (members_said _ _ _ Em F2)].
Qed.

Lemma y_dotted n l : y_sep y_name "." (n, l) = dotted n l.
Proof. reflexivity. Qed.
Lemma unquote_visit t v : quoted """" t v -> unquote t = Some v.
Proof.
  intros (us & ns & -> & P & N & ->). pose proof (C57_value """"%char us ns (or_intror eq_refl) P N) as H.
  unfold visit_str in H. change (Ascii.eqb """" squote && _) with false in H. exact H.
Qed.
Lemma abs_iff v : is_abs v = true <-> absolute v.
Proof.
  destruct v as [|c v]; cbn; [split; [discriminate|intros (r & H); discriminate]|]. split.
  - intros H. apply Ascii.eqb_eq in H. subst. now exists v.
  - intros (r & H). injection H as -> _. reflexivity.
Qed.
Hypothesis file_path : cs file = path.
Hypothesis path_abs : absolute path.
Lemma resolve_says v p : p = str (resolve cwd v path) <->
  (absolute v /\ p = text_of v) \/ (~ absolute v /\ p = text_of (path_of (walk (dir_of path) (parts v)))).
Proof.
  destruct (is_abs v) eqn:A.
  - assert (B : absolute v) by now apply abs_iff. unfold resolve. rewrite A. unfold text_of, str. tauto.
  - assert (B : ~ absolute v) by (rewrite <- abs_iff; congruence). rewrite C60_import by assumption. unfold text_of, str. tauto.
Qed.
Notation import_of := (import_of cwd file).
Lemma import_read t p : import_says path t p -> import_of t = Some p.
Proof.
  intros (v & Q & S). unfold Text.import_of. rewrite file_path. assert (N : import_name t = Some v).
  { unfold import_name. destruct Q as [Q|(c & -> & Nc & ->)].
    - pose proof (unquote_visit t v Q) as U. destruct Q as (us & ns & -> & _). change (Ascii.eqb """" squote) with false. exact U.
    - change (Ascii.eqb "'" squote) with true. cbv iota. destruct (Ascii.eqb_spec c backslash) as [->|]; [now destruct Nc|reflexivity]. }
  rewrite N. f_equal. symmetry. now apply resolve_says.
Qed.
Lemma import_said t p : is_token KStr t -> import_of t = Some p -> import_says path t p.
Proof.
  intros T H. unfold Text.import_of in H. rewrite file_path in H. destruct (import_name t) as [v|] eqn:N; [|discriminate].
  assert (S : p = str (resolve cwd v path)) by congruence. exists v. split; [|now apply resolve_says].
  apply C57_token in T as (q & us & ns & Q & P & ->). unfold import_name in N. destruct Q as [-> | ->].
  - change (Ascii.eqb "'" squote) with true in N. cbv iota in N. right.
    destruct (concat us ++ ["'"%char]) as [|x [|y [|]]] eqn:E; try discriminate.
    destruct (Ascii.eqb_spec x backslash) as [|Nx]; [discriminate|]. injection N as <-.
    exists x. change (["'"; x; y])%char with ("'" :: [x] ++ [y])%char. change [x; y] with ([x] ++ [y]) in E. apply app_inj_tail in E as [_ <-].
    auto.
  - left. change (Ascii.eqb """" squote) with false in N. cbv iota in N. apply (visit_quoted """"%char us ns); [now right|exact P|].
    unfold visit_str. change (Ascii.eqb """" squote && _) with false. exact N.
Qed.

Notation source_of := (source_of parse_float cwd file at_).
Lemma file_tree ts s : file_says parse_float path ts s -> exists f, yield f = ts /\ meant_file f /\
  imports_of cwd file f = Some (s_imports s) /\ packages_of f = s_packages s /\ file_options_of parse_float f = Some (s_options s) /\
  forall i, exists l, tops_of i f = Some l /\ Forall2 (rel_top anywhere) (s_tops s) l.
Proof.
  induction 1 as [|ts s _ (f & <- & M & I1 & P & O & H)|t p ts s Hi _ (f & <- & M & I1 & P & O & H)|n l ts s _ (f & <- & M & I1 & P & O & H)
    |us x ts s Hx _ (f & <- & M & I1 & P & O & H)|us e ts s He _ (f & <- & M & I1 & P & O & H)|us d ts s Hd _ (f & <- & M & I1 & P & O & H)];
    cbn [s_imports s_packages s_options s_tops].
  - exists []. split; [reflexivity|]. split; [constructor|]. repeat split. intros i. exists []. split; [reflexivity|constructor].
  - exists (SEmpty :: f). split; [reflexivity|]. split; [now constructor|]. repeat split; auto. intros i.
    destruct (H (i + 1)) as (l & E & R). exists l. cbn [Text.tops_of y_statement length]. rewrite E. auto.
  - exists (SImport t :: f). split; [reflexivity|]. split; [now constructor|]. cbn [Text.imports_of]. rewrite (import_read _ _ Hi), I1.
    repeat split; auto. intros i. destruct (H (i + 3)) as (l & E & R). exists l. cbn [Text.tops_of y_statement length]. rewrite E. auto.
  - exists (SPackage (n, l) :: f). split; [reflexivity|]. split; [now constructor|]. cbn [Text.packages_of]. rewrite P.
    repeat split; auto. intros i. destruct (H (i + length (y_statement (SPackage (n, l))))) as (m & E & R). exists m.
    cbn [Text.tops_of]. rewrite E. auto.
  - destruct (pair_tree _ _ Hx) as (o & <- & Eo). exists (SOption o :: f). split; [reflexivity|]. split; [now constructor|].
    cbn [Text.file_options_of]. rewrite Eo, O. repeat split; auto. intros i.
    destruct (H (i + length (y_statement (SOption o)))) as (m & E & R). exists m. cbn [Text.tops_of]. rewrite E. auto.
  - destruct (enum_tree _ _ He) as (p & <- & K). exists (SEnum p :: f). split; [reflexivity|]. split; [now constructor|].
    repeat split; auto. intros i. destruct (H (i + length (y_statement (SEnum p)))) as (m & E & R). destruct (K i) as (e' & Ee & Re).
    exists (ATEnum e' :: m). cbn [Text.tops_of]. rewrite E, Ee. split; [reflexivity|]. constructor; [now constructor|exact R].
  - destruct (proj1 (proj2 trees_said_tree) _ _ Hd) as (p & <- & Md & K). exists (SStruct p :: f). split; [reflexivity|]. split; [now constructor|].
    repeat split; auto. intros i. destruct (H (i + length (y_statement (SStruct p)))) as (m & E & R). destruct (K i) as (d' & Ed & Rd).
    exists (ATStruct d' :: m). cbn [Text.tops_of]. rewrite E, Ed. split; [reflexivity|]. constructor; [now constructor|exact R].
Qed.
Lemma file_said f : forall i il ol l, Forall real (yield f) -> imports_of cwd file f = Some il -> file_options_of parse_float f = Some ol ->
  tops_of i f = Some l -> file_says parse_float path (yield f) {| s_imports := il; s_packages := packages_of f; s_options := ol; s_tops := l |}.
Proof.
  induction f as [|s f IH]; intros i il ol l F I1 O T; unfold yield, y_list in *; cbn [flat_map Text.imports_of Text.file_options_of Text.tops_of] in *.
  - injection I1 as <-. injection O as <-. injection T as <-. constructor.
  - apply Forall_app in F as [F1 F2]. destruct (tops_of (i + length (y_statement s)) f) as [m|] eqn:Em; [|discriminate].
    destruct s as [t|[n q]|o|e|d|]; cbn [y_statement] in *.
    + destruct (import_of t) as [p|] eqn:Ep; [|discriminate]. destruct (imports_of cwd file f) as [il'|] eqn:Ei; [|discriminate].
      injection I1 as <-. injection T as <-. specialize (IH _ _ _ _ F2 eq_refl O Em).
      apply (fs_import parse_float path t p _ _) in IH; [exact IH|]. apply import_said; auto.
      apply real_cons in F1 as [_ F1]. now apply real_cons in F1 as [F1 _].
    + injection T as <-. specialize (IH _ _ _ _ F2 I1 O Em). apply (fs_package parse_float path n q) in IH. exact IH.
    + destruct (option_of parse_float o) as [x|] eqn:Eo; [|discriminate]. destruct (file_options_of parse_float f) as [ol'|] eqn:Eol; [|discriminate].
      injection O as <-. injection T as <-. specialize (IH _ _ _ _ F2 I1 eq_refl Em).
      apply (fs_option parse_float path (y_pair o) x) in IH; [exact IH|]. apply real_cons in F1 as [_ F1]. apply Forall_app in F1 as [F1 _]. now apply pair_said.
    + destruct (enum_of i e) as [x|] eqn:Ee; [|discriminate]. injection T as <-. specialize (IH _ _ _ _ F2 I1 O Em).
      apply (fs_enum parse_float path (y_enum e) x) in IH; [exact IH|]. exact (enum_said _ _ _ Ee F1).
    + destruct (struct_of i d) as [x|] eqn:Ed; [|discriminate]. injection T as <-. specialize (IH _ _ _ _ F2 I1 O Em).
      apply (fs_struct parse_float path (y_struct d) x) in IH; [exact IH|]. exact (proj1 (proj2 trees_tree_said) _ _ _ Ed F1).
    + injection T as <-. specialize (IH _ _ _ _ F2 I1 O Em). apply (fs_empty parse_float path) in IH. exact IH.
Qed.
End Places.
End Reading.

(** ** C63 *)
(** Two sources that differ in positions only. *)
Definition same_source : source -> source -> Prop := rel_source (fun _ _ => True).

(** The compiler sees exactly what the tokens of a file say: what is said is seen, and what is seen was said. *)
Theorem C63_said_is_seen : forall parse_float cwd path s ts src, absolute (cs path) ->
  lex s = Some ts -> file_says parse_float (cs path) ts src ->
  exists src', read_text parse_float cwd path s = Some src' /\ same_source src src'.
Proof.
  intros pf cwd path s ts src A L F. destruct (file_tree pf cwd (cs path) (text_places s) path eq_refl A ts src F) as (f & Y & M & I1 & P & O & H).
  rewrite (read_text_lex pf cwd path s ts L). assert (parse ts = Some f) as -> by (apply C58_parse; auto).
  unfold source_of. rewrite I1, O. destruct (H 0) as (l & -> & R). eexists. split; [reflexivity|]. repeat split; auto.
Qed.
Theorem C63_seen_is_said : forall parse_float cwd path s src, absolute (cs path) ->
  read_text parse_float cwd path s = Some src -> exists ts, lex s = Some ts /\ file_says parse_float (cs path) ts src.
Proof.
  intros pf cwd path s src A H. destruct (lex s) as [ts|] eqn:L.
  2: { unfold read_text in H. unfold lex in L. destruct (tokens s); discriminate. }
  exists ts. split; [reflexivity|]. rewrite (read_text_lex pf cwd path s ts L) in H. apply C54_tokens_alone in L.
  destruct (parse ts) as [f|] eqn:Ep; [|discriminate]. apply C58_parse in Ep as [<- M].
  unfold source_of in H. destruct (imports_of cwd path f) as [il|] eqn:Ei; [|discriminate].
  destruct (file_options_of pf f) as [ol|] eqn:Eo; [|discriminate].
  destruct (tops_of pf path (text_places s) 0 f) as [l|] eqn:El; [|discriminate]. injection H as <-.
  exact (file_said pf cwd (cs path) (text_places s) path eq_refl A f 0 il ol l L Ei Eo El).
Qed.
(** So tokens say one thing only. *)
Theorem C63_one_meaning : forall parse_float path s ts src1 src2, absolute (cs path) -> lex s = Some ts ->
  file_says parse_float (cs path) ts src1 -> file_says parse_float (cs path) ts src2 ->
  exists src, same_source src1 src /\ same_source src2 src.
Proof.
  intros pf path s ts s1 s2 A L F1 F2. destruct (C63_said_is_seen pf [] path s ts s1 A L F1) as (x & E1 & R1).
  destruct (C63_said_is_seen pf [] path s ts s2 A L F2) as (y & E2 & R2). rewrite E1 in E2. injection E2 as <-. eauto.
Qed.

(** An instance: the tokens of a file with fields of most kinds, and what they say. *)
Definition ex_says : chars := cs "package a.b; import ""../c.bb""; option x = -0x1F;
enum E[#4] { P = 1, ; Q; }
struct S[8] { uint8<4> v [#12] [order = 'big', n = false]; struct T { E e; } t; void[#3]; int16 k[1#2] = P;; int8 z { get y(uint8) : value + 1; set y(uint8) : (value); }; }".
Definition ex_said : source :=
  {| s_imports := ["/c.bb"]; s_packages := [["a"; "b"]]; s_options := [("x", LInt true 31)];
     s_tops :=
       [ATEnum {| en_pos := nowhere; en_name := "E"; en_size := (0, 4)%N;
          en_vals := [{| ev_pos := nowhere; ev_name := "P"; ev_val := Some (ACLit (LInt false 1)) |};
                      {| ev_pos := nowhere; ev_name := "Q"; ev_val := None |}] |};
        ATStruct (AStruct nowhere "S" (Some (8, 0)%N)
          (ABNormal (AeBasic Uint8) (Some 4%N) "v" (Some (0, 12)%N) [("order", LStr "big"); ("n", LBool false)] []
          (ABNormal (AeStructDef (AStruct nowhere "T" None (ABNormal (AeIdent "E") None "e" None [] [] ABNil))) None "t" None [] []
          (ABVoid (0, 3)%N []
          (ABConst Int16 (Some "k") (Some (1, 2)%N) (ACIdent "P") []
          (ABEmpty
          (ABNormal (AeBasic Int8) None "z" None []
             [{| m_get := true; m_name := Some "y"; m_type := Uint8 |}; {| m_get := false; m_name := Some "y"; m_type := Uint8 |}]
           ABNil)))))))] |}.
Fixpoint no_pos_elem (e : a_elem) : a_elem := match e with AeStructDef d => AeStructDef (no_pos_struct d) | _ => e end
with no_pos_struct (d : a_struct) : a_struct := match d with AStruct _ n s b => AStruct nowhere n s (no_pos_body b) end
with no_pos_body (b : a_body) : a_body :=
  match b with
  | ABNil => ABNil
  | ABEmpty r => ABEmpty (no_pos_body r)
  | ABVoid s o r => ABVoid s o (no_pos_body r)
  | ABConst t n s c o r => ABConst t n s c o (no_pos_body r)
  | ABEmb e a o r => ABEmb (no_pos_elem e) a o (no_pos_body r)
  | ABNormal e a n s o m r => ABNormal (no_pos_elem e) a n s o m (no_pos_body r)
  end.
Definition no_pos_top (t : a_top) : a_top :=
  match t with
  | ATStruct d => ATStruct (no_pos_struct d)
  | ATEnum d => ATEnum {| en_pos := nowhere; en_name := en_name d; en_size := en_size d;
      en_vals := map (fun v => {| ev_pos := nowhere; ev_name := ev_name v; ev_val := ev_val v |}) (en_vals d) |}
  end.
Definition no_pos (s : source) : source :=
  {| s_imports := s_imports s; s_packages := s_packages s; s_options := s_options s; s_tops := map no_pos_top (s_tops s) |}.
Example C63_instance : option_map no_pos (read_text no_floats [] "/w/a.bb" ex_says) = Some ex_said /\
  exists ts src, lex ex_says = Some ts /\ file_says no_floats (cs "/w/a.bb") ts src.
Proof.
  split; [vm_compute; reflexivity|].
  destruct (read_text no_floats [] "/w/a.bb" ex_says) as [src|] eqn:E; [|exfalso; vm_compute in E; discriminate].
  apply C63_seen_is_said in E; [|eexists; reflexivity]. destruct E as (ts & L & F). eauto.
Qed.

Print Assumptions C54_tokens_alone.
Print Assumptions C63_said_is_seen.
Print Assumptions C63_seen_is_said.
Print Assumptions C63_one_meaning.
