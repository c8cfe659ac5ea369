(** C54: how a text is cut into tokens.  C55: layout does not matter.  C56: which words are names. *)
From Coq Require Import String Ascii List Bool Lia Arith ZArith.
From Verif Require Import Literals LexModel LexSpec LexProofs LexLayout.
Import ListNotations.
Open Scope string_scope.
Open Scope nat_scope.
Open Scope list_scope.

(** ** C54 *)

(** The lexer accepts a text exactly if it can be cut into tokens, each the longest possible one at its place
    (the first rule of the grammar if two match as long); it delivers those that are not blanks or comments. *)
Theorem C54_longest_match : forall s vs,
  lex s = Some vs <-> exists ts, cut s ts /\ vs = filter (fun t => negb (hidden (fst t))) ts.
Proof.
  intros s vs. rewrite lex_V. unfold V, visible. split; intros (ts & C & E); exists ts; auto.
Qed.

(** Nothing of the text is lost or made up, and there is only one way to cut it. *)
Theorem C54_lossless : forall s ts, cut s ts -> s = concat (map snd ts).
Proof. induction 1 as [|k w rest ts _ _ IH]; [reflexivity|]. cbn. now rewrite <- IH. Qed.
Theorem C54_one_way : forall s ts ts', cut s ts -> cut s ts' -> ts = ts'.
Proof. intros s ts ts' H H'. apply tokens_cut in H, H'. congruence. Qed.

Example C54_instance : lex (cs "uint8<08>x1=1.5e+3;/*a*/ 0x1e+1 in inf""a\""b""//c") =
  Some [(KFixed, cs "uint8"); (KFixed, cs "<"); (KInt, cs "0"); (KInt, cs "8"); (KFixed, cs ">"); (KIdent, cs "x1");
        (KFixed, cs "="); (KFloat, cs "1.5e+3"); (KFixed, cs ";"); (KInt, cs "0x1e"); (KFixed, cs "+");
        (KInt, cs "1"); (KIdent, cs "in"); (KFloat, cs "inf"); (KStr, cs """a\""b""")].
Proof. vm_compute. reflexivity. Qed.
Example C54_rejects : lex (cs "a @ b") = None /\ lex (cs "'abc") = None.
Proof. vm_compute. auto. Qed.

(** ** C55 *)

(** However a list of tokens is written - any blanks and comments between them, or nothing where the two may
    touch - the lexer delivers just these tokens. *)
Theorem C55_layout : forall ts s, written ts s -> lex s = Some ts.
Proof. exact written_lex. Qed.
(** So two ways to write the same tokens cannot be told apart. *)
Corollary C55_same_tokens : forall ts s s', written ts s -> written ts s' -> lex s = lex s'.
Proof. intros ts s s' H H'. now rewrite (C55_layout _ _ H), (C55_layout _ _ H'). Qed.

(** Blanks may follow every token; a comment may follow every token but the division sign. *)
Theorem C55_separators : forall k t c, is_token k t -> blank c = true -> may_touch t c = true.
Proof.
  intros k t c T Hc. apply token_rule in T as (r & I & K & L & _ & _ & Nt).
  destruct t as [|x t]; [easy|].
  assert (A : forall c, (if blank c then negb (word_char c || Ascii.eqb c "." || one_of (cs "+-") c) else true) = true)
    by (apply char_table; vm_compute; reflexivity).
  specialize (A c). rewrite Hc in A. apply negb_true_iff in A. apply orb_false_elim in A as [A A3].
  apply orb_false_elim in A as [A1 A2].
  unfold may_touch. destruct (_ || _); auto. rewrite A1, A2, A3.
  destruct (letter x); auto. destruct (_ || _); auto.
  apply negb_true_iff. cbn [existsb].
  assert (Ch : c = " "%char \/ c = "009"%char \/ c = return_ \/ c = newline \/ c = "012"%char).
  { unfold blank, one_of in Hc. cbn [existsb] in Hc.
    repeat (apply orb_prop in Hc as [Hc|Hc]; [apply Ascii.eqb_eq in Hc; auto|]); try discriminate. }
  destruct Ch as [-> |[-> |[-> |[-> | -> ]]]];
    repeat match goal with |- context [list_eq_dec ?d ?a ?b] => destruct (list_eq_dec d a b) end; reflexivity.
Qed.
Theorem C55_comment_after : forall k t, is_token k t -> t <> cs "/" -> may_touch t "/" = true.
Proof.
  intros k t T Nd. apply token_rule in T as (r & I & K & L & _ & _ & Nt).
  destruct t as [|x t]; [easy|]. unfold may_touch. destruct (_ || _); auto.
  destruct (letter x); auto. destruct (_ || _); auto. apply negb_true_iff. cbn [existsb].
  repeat match goal with |- context [list_eq_dec ?d ?a ?b] => destruct (list_eq_dec d a b) end; try reflexivity;
    congruence.
Qed.
Theorem C55_division_comment_refuted :
  lex (cs "a / /*x*/ b") = Some [(KIdent, cs "a"); (KFixed, cs "/"); (KIdent, cs "b")] /\
  lex (cs "a //*x*/ b") = Some [(KIdent, cs "a")].
Proof. vm_compute. auto. Qed.

Ltac solve_token := split; [apply next_best; eexists; split; [vm_compute; reflexivity|split; [reflexivity|cbn; lia]]|reflexivity].
Example C55_instance :
  written [(KFixed, cs "struct"); (KIdent, cs "A"); (KFixed, cs "{"); (KFixed, cs "}")] (cs "/* ** */struct//*
A{ }// end").
Proof.
  apply (wr_tok (cs "/* ** */") KFixed (cs "struct") _ (cs "//*
A{ }// end")).
  { apply (gap_comment (cs " ** ") []); [|constructor].
    intros u v E. assert (Lu : length u + 2 + length v = 6) by (apply (f_equal (@length _)) in E; rewrite !app_length in E; cbn in E; lia).
    do 5 (destruct u as [|? u]; [cbn in E; injection E; intros; subst; auto; discriminate|]).
    cbn in Lu. lia. }
  { solve_token. }
  2:{ intros c s' [= <- _]. reflexivity. }
  apply (wr_tok (cs "//*
") KIdent (cs "A") _ (cs "{ }// end")).
  { apply (gap_line (cs "*") "010"%char []); auto; [|constructor].
    constructor; [|constructor]. split; discriminate. }
  { solve_token. }
  2:{ intros c s' [= <- _]. reflexivity. }
  apply (wr_tok [] KFixed (cs "{") _ (cs " }// end")).
  { constructor. }
  { solve_token. }
  2:{ intros c s' [= <- _]. reflexivity. }
  apply (wr_tok (cs " ") KFixed (cs "}") _ (cs "// end")).
  { apply gap_blank; [cbn; auto|constructor]. }
  { solve_token. }
  2:{ intros c s' [= <- _]. reflexivity. }
  constructor. right. exists [], (cs " end"). split; [reflexivity|]. split; [constructor|].
  repeat constructor; discriminate.
Qed.

(** ** C56 *)

(** The shape of a name, and the reserved words. *)
Definition name_shape (w : chars) : Prop :=
  exists x r, w = x :: r /\ letter x = true /\ Forall (fun c => word_char c = true) r.
Definition reserved : list chars :=
  map cs ["syntax"; "import"; "get"; "set"; "value"; "package"; "option"; "void"; "int8"; "int16"; "int32";
          "int64"; "uint8"; "uint16"; "uint32"; "uint64"; "float32"; "float64"; "bool"; "string"; "bytes";
          "enum"; "struct"; "true"; "false"; "inf"; "nan"].

Lemma lang_ident w : lang identifier w <-> name_shape w.
Proof.
  split.
  - intros L. unfold identifier in L. apply lang_seq_inv in L as (u & v & -> & L1 & L2). inversion L1; subst.
    exists c, v. split; auto. split; auto. clear -L2.
    remember (RStar _) as r eqn:E. induction L2; try discriminate; [constructor|].
    injection E as ->. inversion L2_1; subst. constructor; auto.
  - intros (x & r & -> & Hx & Hr). apply (l_seq _ _ [x] r); [now constructor|].
    induction Hr as [|c r Hc _ IH]; [constructor|]. apply (l_more _ [c] r); auto. constructor. exact Hc.
Qed.
(** A rule other than that of names which matches a word of this shape is that of a reserved word. *)
Lemma word_rule r w : In r rules -> lang (r_re r) w -> name_shape w -> r_kind r <> KIdent -> In w reserved.
Proof.
  intros I L (x & t & -> & Hx & Ht) N.
  pose proof (fst_ok _ _ L x t eq_refl) as F.
  apply rules_cases in I as [(s & Is & ->)|[(s & Is & ->)|I]].
  - cbn in L. apply text_lang in L. rewrite L. unfold reserved.
    change (map cs _) with (keywords ++ map cs ["true"; "false"; "inf"; "nan"]). apply in_or_app. now left.
  - exfalso. cbn in L. apply text_lang in L. subst s.
    assert (A : forallb (fun s => negb (letter (hd " "%char s))) symbols = true) by (vm_compute; reflexivity).
    rewrite forallb_forall in A. specialize (A _ Is). cbn in A. rewrite Hx in A. discriminate.
  - destruct I as [<-|[<-|[<-|[<-|[<-|[<-|[<-|[<-|[<-|[]]]]]]]]]]; cbn [r_re r_kind greedy shortest_first] in *;
      try congruence.
    + exfalso. revert x F Hx L. clear. intros x F Hx _.
      assert (A : forallb (fun x => if letter x then negb (fst_b str_lit x) else true) all_chars = true) by (vm_compute; reflexivity).
      pose proof (char_table _ A x) as B. cbn beta in B. rewrite Hx, F in B. discriminate.
    + unfold bool_lit in L. apply lang_alt_inv in L as [L|L]; apply text_lang in L; rewrite L;
        unfold reserved; apply in_map; cbn; tauto.
    + unfold float_lit in L. apply lang_alt_inv in L as [L|L].
      * exfalso. pose proof (fst_ok _ _ L x t eq_refl) as F'.
        match type of L with lang ?r _ =>
          assert (A : forallb (fun x => if letter x then negb (fst_b r x) else true) all_chars = true) by (vm_compute; reflexivity)
        end.
        pose proof (char_table _ A x) as B. cbn beta in B. rewrite Hx, F' in B. discriminate.
      * apply lang_alt_inv in L as [L|L]; apply text_lang in L; rewrite L; unfold reserved; apply in_map; cbn; tauto.
    + exfalso. 
      assert (A : forallb (fun x => if letter x then negb (fst_b int_lit x) else true) all_chars = true) by (vm_compute; reflexivity).
      pose proof (char_table _ A x) as B. cbn beta in B. rewrite Hx, F in B. discriminate.
    + exfalso. 
      assert (A : forallb (fun x => if letter x then negb (fst_b ws x) else true) all_chars = true) by (vm_compute; reflexivity).
      pose proof (char_table _ A x) as B. cbn beta in B. rewrite Hx, F in B. discriminate.
    + exfalso. 
      assert (A : forallb (fun x => if letter x then negb (fst_b line_comment x) else true) all_chars = true) by (vm_compute; reflexivity).
      pose proof (char_table _ A x) as B. cbn beta in B. rewrite Hx, F in B. discriminate.
    + exfalso. 
      assert (A : forallb (fun x => if letter x then negb (fst_b comment x) else true) all_chars = true) by (vm_compute; reflexivity).
      pose proof (char_table _ A x) as B. cbn beta in B. rewrite Hx, F in B. discriminate.
    + unfold keywords_rule in L.
      assert (G : forall l b, lang (fold_right (fun t r => RAlt (RText t) r) b l) (x :: t) -> In (x :: t) l \/ lang b (x :: t)).
      { clear. induction l as [|s l IH]; intros b L; [right; exact L|]. cbn in L.
        apply lang_alt_inv in L as [L|L]; [apply text_lang in L; left; left; auto|].
        apply IH in L as [L|L]; [left; now right|now right]. }
      apply G in L as [L|L].
      * unfold reserved. change (map cs _) with (keywords ++ map cs ["true"; "false"; "inf"; "nan"]).
        apply in_or_app. now left.
      * unfold bool_lit in L. apply lang_alt_inv in L as [L|L]; apply text_lang in L; rewrite L;
          unfold reserved; apply in_map; cbn; tauto.
Qed.

(** A word is a name exactly if it has the shape of one and is not reserved. *)
Theorem C56_names : forall w, is_token KIdent w <-> name_shape w /\ ~ In w reserved.
Proof.
  intros w. split.
  - intros T. pose proof T as [(i & r & N & K & Tk & Nw & M) _]. 
    assert (R : r = greedy KIdent identifier).
    { apply (kind_rule KIdent); auto; try discriminate; [apply tail_rule; cbn; tauto|now apply nth_error_In in N]. }
    subst r. destruct Tk as (_ & L & _). cbn in L. pose proof L as L'. apply lang_ident in L'. split; auto.
    intros I. 
    assert (Hr : exists j r', nth_error rules j = Some r' /\ j < 61 /\ takes r' w w).
    { assert (A : forallb (fun w => existsb (fun j => match nth_error rules j with
                       | Some r => r_greedy r && match scan r w with Some n => Nat.eqb n (length w) | None => false end
                       | None => false end) (seq 0 61)) reserved = true) by (vm_compute; reflexivity).
      rewrite forallb_forall in A. specialize (A w I). apply existsb_exists in A as (j & Hj & A).
      apply in_seq in Hj. destruct (nth_error rules j) as [r'|] eqn:Ej; [|discriminate].
      apply andb_prop in A as [G A]. destruct (scan r' w) as [n|] eqn:Sn; [|discriminate].
      apply Nat.eqb_eq in A. subst n. exists j, r'. split; auto. split; [lia|].
      apply scan_takes. exists (length w). rewrite firstn_all. auto. }
    destruct Hr as (j & r' & Ej & Hj & Tj). specialize (M j r' w Ej Tj).
    assert (i = 61).
    { clear -N.
      destruct (Nat.eq_dec i 61) as [|D]; auto. exfalso.
      assert (B : forallb (fun i => Nat.eqb i 61 || match nth_error rules i with
                    | Some r => match r_kind r with KIdent => false | _ => true end | None => true end) (seq 0 66) = true)
        by (vm_compute; reflexivity).
      assert (Li : i < 66). { change 66 with (length rules). apply nth_error_Some. congruence. }
      rewrite forallb_forall in B. 
      assert (Ii : In i (seq 0 66)) by (apply in_seq; lia). specialize (B i Ii). rewrite N in B.
      cbn [r_kind greedy] in B. rewrite orb_false_r in B. apply D, Nat.eqb_eq, B. }
    lia.
  - intros [Sh Nr]. split; [|reflexivity].
    assert (Lid : lang identifier w) by now apply lang_ident.
    assert (T : takes (greedy KIdent identifier) w w).
    { split; [exists []; now rewrite app_nil_r|]. split; auto. cbn. intros w' [y ->] _. rewrite app_length. lia. }
    apply next_best. 
    assert (Nw : w <> []) by (destruct Sh as (x & r & -> & _); discriminate).
    destruct (length w) as [|n] eqn:E; [destruct w; easy|]. exists n.
    split; [|split; [rewrite <- E; now rewrite firstn_all|lia]].
    change KIdent with (r_kind (greedy KIdent identifier)). rewrite <- E.
    apply best_pick.
    + apply tail_rule. cbn; tauto.
    + now apply takes_scan.
    + intros r m I Sm. pose proof (scan_le _ _ _ Sm) as Hm.
      destruct (Nat.eq_dec m (length w)) as [->|]; [|left; lia]. right. split; auto.
      assert (Tr : takes r w w) by (apply scan_takes; exists (length w); rewrite firstn_all; auto).
      destruct Tr as (_ & Lr & _).
      destruct (r_kind r) eqn:K; try reflexivity; exfalso; apply Nr; apply (word_rule r); auto; congruence.
Qed.

Example C56_instance : is_token KIdent (cs "value_2") /\ ~ is_token KIdent (cs "value") /\ ~ is_token KIdent (cs "2x").
Proof.
  repeat split.
  - apply C56_names. split; [|cbn; intros H; repeat destruct H as [H|H]; discriminate || contradiction].
    exists "v"%char, (cs "alue_2"). repeat split; try reflexivity. repeat constructor.
  - intros H. apply C56_names in H as [_ H]. apply H. cbn. tauto.
  - intros H. apply C56_names in H as [(x & r & E & Hx & _) _]. injection E as <- _. discriminate.
Qed.

(** A word is an integer literal exactly if it is one of C52's tokens. *)
Lemma numeral_of p b : (forall c, p c = true <-> exists d, digit_value c = Some d /\ Z.lt d b) ->
  forall l, l <> [] -> (Forall (fun c => p c = true) l <-> exists v, numeral b l v).
Proof.
  intros P l. induction l as [|c l IH] using rev_ind; intros N; [easy|].
  split.
  - intros F. apply Forall_app in F as [F1 F2]. inversion F2 as [|x y Hc _]; subst.
    apply P in Hc as (d & E & Hd).
    destruct l as [|x l].
    + exists d. now constructor.
    + apply IH in F1 as (v & Hv); [|discriminate]. eexists. eapply num_more; eauto.
  - intros (v & Hv). apply Forall_app.
    inversion Hv as [c0 d E Hd Ec|ds c0 v0 d H1 E Hd Ec]; subst.
    + destruct l as [|? []]; try discriminate. injection Ec as <-. split; constructor; auto.
      apply P. eauto.
    + apply app_inj_tail in Ec as [-> ->]. split.
      * apply IH; eauto. intros ->. inversion H1. destruct ds; discriminate.
      * constructor; auto. apply P. eauto.
Qed.
Lemma star_forall p l : lang (RStar (RSet p)) l <-> Forall (fun c => p c = true) l.
Proof.
  split.
  - intros L. remember (RStar (RSet p)) as r eqn:E. induction L; try discriminate; [constructor|].
    injection E as ->. inversion L1; subst. constructor; auto.
  - induction 1 as [|c l Hc _ IH]; [constructor|]. apply (l_more _ [c] l); auto. now constructor.
Qed.
Lemma digit_class b p : (forallb (fun c => Bool.eqb (p c) match digit_value c with Some d => Z.ltb d b | None => false end) all_chars = true) ->
  forall c, p c = true <-> exists d, digit_value c = Some d /\ Z.lt d b.
Proof.
  intros T c. pose proof (char_table _ T c) as E. cbn beta in E. apply eqb_prop in E. rewrite E.
  destruct (digit_value c) as [d|].
  - rewrite Z.ltb_lt. split; [eauto|]. intros (d' & [= ->] & H). exact H.
  - split; [discriminate|]. intros (d & H & _). discriminate.
Qed.
Lemma dec_class c : decimal_digit c = true <-> exists d, digit_value c = Some d /\ Z.lt d 10.
Proof. apply digit_class. vm_compute. reflexivity. Qed.
Lemma oct_class c : octal_digit c = true <-> exists d, digit_value c = Some d /\ Z.lt d 8.
Proof. apply digit_class. vm_compute. reflexivity. Qed.
Lemma hex_class c : hex_digit c = true <-> exists d, digit_value c = Some d /\ Z.lt d 16.
Proof. apply digit_class. vm_compute. reflexivity. Qed.
Lemma lang_set_inv p w : lang (RSet p) w -> exists c, w = [c] /\ p c = true.
Proof. inversion 1; subst; eauto. Qed.
Lemma nonzero_digit c : between "1" "9" c = true <-> decimal_digit c = true /\ c <> "0"%char.
Proof.
  assert (T : forallb (fun c => Bool.eqb (between "1" "9" c) (decimal_digit c && negb (Ascii.eqb c "0"))) all_chars = true)
    by (vm_compute; reflexivity).
  pose proof (char_table _ T c) as E. cbn beta in E. apply eqb_prop in E. rewrite E, andb_true_iff, negb_true_iff, Ascii.eqb_neq.
  reflexivity.
Qed.
Lemma lang_int t : lang int_lit t <-> exists v, int_token t v.
Proof.
  unfold int_lit. split.
  - intros L. apply lang_alt_inv in L as [L|L]; [|apply lang_alt_inv in L as [L|L]];
      apply lang_seq_inv in L as (u & r & -> & L1 & L2).
    + apply lang_set_inv in L1 as (c & -> & Hc). apply nonzero_digit in Hc as [Hc Nc].
      apply star_forall in L2.
      assert (F : Forall (fun c => decimal_digit c = true) (c :: r)) by now constructor.
      apply (numeral_of _ _ dec_class) in F as (v & Hv); [|discriminate]. exists v. now constructor.
    + apply lang_set_inv in L1 as (c & -> & Hc). apply Ascii.eqb_eq in Hc. subst c. cbn [app].
      apply star_forall in L2. destruct r as [|d r].
      * eexists. apply tok_zero.
      * apply (numeral_of _ _ oct_class) in L2 as (v & Hv); [|discriminate]. exists v. now apply tok_oct.
    + apply lang_set_inv in L1 as (c & -> & Hc). apply Ascii.eqb_eq in Hc. subst c.
      apply lang_seq_inv in L2 as (u & r' & -> & L1 & L2). apply lang_set_inv in L1 as (x & -> & Hx).
      apply lang_seq_inv in L2 as (u & r & -> & L1 & L2). apply lang_set_inv in L1 as (d & -> & Hd).
      apply star_forall in L2. cbn [app].
      assert (F : Forall (fun c => hex_digit c = true) (d :: r)) by now constructor.
      apply (numeral_of _ _ hex_class) in F as (v & Hv); [|discriminate]. exists v. apply tok_hex; auto.
      unfold one_of in Hx. cbn in Hx. rewrite orb_false_r in Hx.
      apply orb_prop in Hx as [Hx|Hx]; apply Ascii.eqb_eq in Hx; auto.
  - intros (v & H). destruct H as [c ds v Nc Hv| |ds v Hv|x ds v Hx Hv].
    + assert (F : Forall (fun c => decimal_digit c = true) (c :: ds)) by (apply (numeral_of _ _ dec_class); [discriminate|eauto]).
      inversion F as [|a b Hc Hr]; subst. apply l_left. apply (l_seq _ _ [c] ds).
      * constructor. now apply nonzero_digit.
      * now apply star_forall.
    + apply l_right, l_left. apply (l_seq _ _ ["0"%char] []); constructor. reflexivity.
    + apply l_right, l_left. apply (l_seq _ _ ["0"%char] ds); [now constructor|]. apply star_forall.
      apply (numeral_of _ _ oct_class); [|eauto]. inversion Hv; [discriminate|]. destruct ds0; discriminate.
    + assert (Nd : ds <> []) by (inversion Hv; [discriminate|destruct ds0; discriminate]).
      assert (F : Forall (fun c => hex_digit c = true) ds) by (apply (numeral_of _ _ hex_class); eauto).
      apply l_right, l_right. apply (l_seq _ _ ["0"%char] (x :: ds)); [now constructor|].
      apply (l_seq _ _ [x] ds); [constructor; destruct Hx as [-> | ->]; reflexivity|].
      destruct ds as [|d r]; [easy|]. inversion F as [|a b Hc Hr]; subst.
      apply (l_seq _ _ [d] r); [now constructor|]. now apply star_forall.
Qed.
(** Fractional literals contain a point, an exponent, or are inf or nan: never an integer token. *)
Lemma float_not_int t : lang float_lit t -> lang int_lit t -> False.
Proof.
  intros Lf Li.
  assert (Nx : forall x r, t = "0"%char :: x :: r -> x = "x"%char \/ x = "X"%char -> False).
  { intros x r -> Hx. change (lang float_lit (["0"%char; x] ++ r)) in Lf. apply derivs_ok in Lf.
    destruct Hx as [-> | ->]; vm_compute in Lf; inversion Lf. }
  assert (D : Forall (fun c => decimal_digit c = true) t).
  { apply lang_int in Li as (v & H). destruct H as [c ds v Nc Hv| |ds v Hv|x ds v Hx Hv].
    - apply (numeral_of _ _ dec_class); [discriminate|eauto].
    - repeat constructor.
    - constructor; [reflexivity|]. apply Forall_impl with (P := fun c => octal_digit c = true).
      { intros c Hc. apply oct_class in Hc as (d & E & Hd). apply dec_class. exists d. split; auto. lia. }
      apply (numeral_of _ _ oct_class); [|eauto]. inversion Hv; [discriminate|]. destruct ds0; discriminate.
    - exfalso. eauto. }
  unfold float_lit in Lf. apply lang_alt_inv in Lf as [Lf|Lf].
  - assert (B : exists c, In c t /\ decimal_digit c = false).
    { apply lang_alt_inv in Lf as [Lf|Lf]; [|apply lang_alt_inv in Lf as [Lf|Lf]].
      - apply lang_seq_inv in Lf as (u & r & -> & _ & L). apply lang_seq_inv in L as (u2 & r2 & -> & L & _).
        apply lang_set_inv in L as (c & -> & Hc). apply Ascii.eqb_eq in Hc. subst c.
        exists "."%char. split; [|reflexivity]. rewrite !in_app_iff. right. left. now left.
      - apply lang_seq_inv in Lf as (u & r & -> & _ & L). unfold exponent in L.
        apply lang_seq_inv in L as (u2 & r2 & -> & L & _). apply lang_set_inv in L as (c & -> & Hc).
        exists c. split; [rewrite !in_app_iff; right; left; now left|].
        unfold one_of in Hc. cbn in Hc. rewrite orb_false_r in Hc.
        apply orb_prop in Hc as [Hc|Hc]; apply Ascii.eqb_eq in Hc; subst c; reflexivity.
      - apply lang_seq_inv in Lf as (u & r & -> & L & _). apply lang_set_inv in L as (c & -> & Hc).
        apply Ascii.eqb_eq in Hc. subst c. exists "."%char. split; [now left|reflexivity]. }
    destruct B as (c & I & Hc). rewrite Forall_forall in D. rewrite (D c I) in Hc. discriminate.
  - apply lang_alt_inv in Lf as [Lf|Lf]; apply text_lang in Lf; subst t; inversion D; discriminate.
Qed.
Theorem C56_integers : forall t, is_token KInt t <-> exists v, int_token t v.
Proof.
  intros t. split.
  - intros T. apply token_rule in T as (r & I & K & L & _).
    assert (r = greedy KInt int_lit) as ->.
    { apply (kind_rule KInt); [apply tail_rule; cbn; tauto|reflexivity|discriminate|exact I|exact K]. }
    now apply lang_int.
  - intros H. apply lang_int in H as L. split; [|reflexivity].
    assert (T : takes (greedy KInt int_lit) t t).
    { split; [exists []; now rewrite app_nil_r|]. split; auto. cbn. intros w' [y ->] _. rewrite app_length. lia. }
    assert (Nt : t <> []) by (intros ->; apply nullable_ok in L; discriminate).
    destruct t as [|x t']; [easy|]. set (t := x :: t') in *.
    assert (F : fst_b int_lit x = true) by (apply (fst_ok _ _ L x t'); reflexivity).
    apply next_best. exists (length t'). split; [|split; [symmetry; apply (firstn_all t)|cbn; lia]].
    change KInt with (r_kind (greedy KInt int_lit)). change (S (length t')) with (length t).
    apply best_pick.
    + apply tail_rule. cbn; tauto.
    + now apply takes_scan.
    + intros r m I Sm. pose proof (scan_le _ _ _ Sm) as Hm.
      destruct (Nat.eq_dec m (length t)) as [->|]; [|left; lia]. right. split; auto.
      assert (Tr : takes r t t) by (apply scan_takes; exists (length t); rewrite firstn_all; auto).
      destruct Tr as (_ & Lr & _).
      pose proof (fst_ok _ _ Lr x t' eq_refl) as Fr.
      assert (A : forallb (fun x => if fst_b int_lit x then
                 forallb (fun r => negb (fst_b (r_re r) x) || match r_kind r with KInt | KFloat => true | _ => false end) rules
                 else true) all_chars = true) by (vm_compute; reflexivity).
      pose proof (char_table _ A x) as B. cbn beta in B. rewrite F in B. rewrite forallb_forall in B.
      specialize (B r I). rewrite Fr in B. cbn [negb orb] in B.
      destruct (r_kind r) eqn:K; try discriminate; try reflexivity.
      exfalso. assert (r = greedy KFloat float_lit) as ->.
      { apply (kind_rule KFloat); [apply tail_rule; cbn; tauto|reflexivity|discriminate|exact I|exact K]. }
      exact (float_not_int t Lr L).
Qed.
Example C56_integer_instance : is_token KInt (cs "0x1E") /\ ~ is_token KInt (cs "1e5") /\ ~ is_token KInt (cs "08").
Proof.
  split; [|split].
  - apply C56_integers. exists 30%Z. apply (tok_hex "x" (cs "1E") 30); auto.
    apply (num_more 16 (cs "1") "E" 1 14); [constructor|..]; reflexivity.
  - intros H. apply C56_integers, lang_int in H. change (lang int_lit (cs "1e" ++ cs "5")) in H.
    apply derivs_ok in H. vm_compute in H. inversion H.
  - intros H. apply C56_integers, lang_int in H. change (lang int_lit (cs "08" ++ [])) in H.
    apply derivs_ok in H. vm_compute in H. inversion H.
Qed.
