(** C61: what the compiler makes of the text of a file: where definitions are, and that layout does not matter. *)
From Coq Require Import String Ascii List Bool Arith ZArith Lia Sorted.
From Verif Require Import Base Literals LexModel LexSpec LexProofs LexLayout StrLit FrontModel CompileModel CompileSpec
  ExprModel Syntax Parser ParserDecl Paths Text TextRel PropsLex PropsFront PropsCompile PropsParse.
Import ListNotations.
Open Scope string_scope.
Open Scope nat_scope.
Open Scope list_scope.

(** ** Induction over the nested trees *)
Section TreeInd.
  Variables (Pt : ptype -> Prop) (Ps : pstruct -> Prop) (Pe : pelement -> Prop).
  Hypothesis Hother : forall t, (forall d, t <> XDef d) -> Pt t.
  Hypothesis Hdef : forall d, Ps d -> Pt (XDef d).
  Hypothesis Hstruct : forall n s body, Forall Pe body -> Ps (PStruct n s body).
  Hypothesis Hempty : Pe LEmpty.
  Hypothesis Hvoid : forall s o, Pe (LVoid s o).
  Hypothesis Hconst : forall b n s r o, Pe (LConst b n s r o).
  Hypothesis Hembed : forall t a o, Pt t -> Pe (LEmbed t a o).
  Hypothesis Hnormal : forall t a n s o m, Pt t -> Pe (LNormal t a n s o m).
  Fixpoint t_ind (t : ptype) : Pt t :=
    match t with
    | XDef d => Hdef d (s_ind d)
    | XBasic b => Hother (XBasic b) (fun d E => ltac:(discriminate E))
    | XString => Hother XString (fun d E => ltac:(discriminate E))
    | XBytes => Hother XBytes (fun d E => ltac:(discriminate E))
    | XStruct n => Hother (XStruct n) (fun d E => ltac:(discriminate E))
    | XEnum n => Hother (XEnum n) (fun d E => ltac:(discriminate E))
    | XIdent n => Hother (XIdent n) (fun d E => ltac:(discriminate E))
    end
  with s_ind (d : pstruct) : Ps d :=
    match d with
    | PStruct n s body =>
        Hstruct n s body ((fix go l : Forall Pe l :=
          match l with [] => Forall_nil Pe | e :: r => Forall_cons e (e_ind e) (go r) end) body)
    end
  with e_ind (e : pelement) : Pe e :=
    match e with
    | LEmpty => Hempty
    | LVoid s o => Hvoid s o
    | LConst b n s r o => Hconst b n s r o
    | LEmbed t a o => Hembed t a o (t_ind t)
    | LNormal t a n s o m => Hnormal t a n s o m (t_ind t)
    end.
  Lemma tree_ind : (forall t, Pt t) /\ (forall d, Ps d) /\ (forall e, Pe e).
  Proof. exact (conj t_ind (conj s_ind e_ind)). Qed.
End TreeInd.

(** ** Places *)
Definition before (a b : Z * Z) : Prop := (fst a < fst b \/ (fst a = fst b /\ snd a < snd b))%Z.
Definition upto (a b : Z * Z) : Prop := (fst a < fst b \/ (fst a = fst b /\ snd a <= snd b))%Z.
Lemma advance_upto a c : upto a (advance a c).
Proof. unfold advance, upto. destruct (Ascii.eqb c newline); cbn; [lia|]. destruct (continues c); cbn; lia. Qed.
Lemma after_upto t : forall a, upto a (after a t).
Proof.
  induction t as [|c t IH]; intros a; [unfold after, upto; cbn; lia|]. cbn. specialize (IH (advance a c)).
  pose proof (advance_upto a c). unfold upto in *. fold (after (advance a c) t). lia.
Qed.
Lemma after_before c t a : continues c = false -> before a (after a (c :: t)).
Proof.
  intros H. cbn. pose proof (after_upto t (advance a c)) as U. fold (after (advance a c) t).
  unfold before, upto, advance in *. rewrite H in *. destruct (Ascii.eqb c newline); cbn in *; lia.
Qed.
Definition starts_well (t : token) : Prop := exists c r, snd t = c :: r /\ continues c = false.
Lemma visible_first : forallb (fun r => hidden (r_kind r) || forallb (fun c => negb (continues c && fst_b (r_re r) c)) all_chars) rules = true.
Proof. vm_compute. reflexivity. Qed.
Lemma token_starts s k w : next_token s k w -> hidden k = false -> starts_well (k, w).
Proof.
  intros (i & r & N & K & (_ & L & _) & Nw & _) H. destruct w as [|c w]; [easy|]. exists c, w. split; auto.
  pose proof visible_first as T. rewrite forallb_forall in T. apply nth_error_In in N. specialize (T r N).
  rewrite K, H, orb_false_l in T. pose proof (char_table _ T c) as B. cbn beta in B.
  rewrite (fst_ok _ _ L c w eq_refl), andb_true_r in B. now apply negb_true_iff in B.
Qed.
Lemma cut_starts s ts : cut s ts -> Forall (fun t => hidden (fst t) = false -> starts_well t) ts.
Proof. induction 1 as [|k w rest ts N _ IH]; constructor; auto. cbn. intros H. eapply token_starts; eauto. Qed.
Lemma places_sorted ts : Forall (fun t => hidden (fst t) = false -> starts_well t) ts -> forall lc,
  Forall (upto lc) (places lc ts) /\ StronglySorted before (places lc ts).
Proof.
  induction 1 as [|[k t] ts H _ IH]; intros lc; cbn [places]; [split; constructor|].
  destruct (IH (after lc t)) as [U S]. pose proof (after_upto t lc) as A. destruct (hidden k) eqn:K.
  - split; auto. eapply Forall_impl; [|exact U]. intros b Hb. unfold upto in *. lia.
  - destruct (H K) as (c & r & E & Hc). cbn in E. subst t. pose proof (after_before c r lc Hc) as B. split.
    + constructor; [unfold upto; lia|]. eapply Forall_impl; [|exact U]. intros b Hb. unfold upto in *. lia.
    + constructor; auto. eapply Forall_impl; [|exact U]. intros b Hb. unfold upto, before in *. lia.
Qed.
Lemma sorted_nth l : StronglySorted before l -> forall i j d, i < j -> j < length l -> before (nth i l d) (nth j l d).
Proof.
  induction 1 as [|a l S IH F]; intros i j d Hij Hj; [cbn in Hj; lia|]. destruct j as [|j]; [lia|]. cbn in Hj.
  destruct i as [|i]; cbn [nth]; [|apply IH; lia]. rewrite Forall_forall in F. apply F, nth_In. lia.
Qed.
Lemma token_at_inj l : Forall (upto (1, 0)%Z) l -> StronglySorted before l ->
  forall i j, token_at l i = token_at l j -> i = j.
Proof.
  intros U S. assert (Pos : forall i, i < length l -> (1 <= fst (token_at l i))%Z).
  { intros i Hi. rewrite Forall_forall in U. specialize (U (token_at l i)). unfold token_at, upto in *. cbn in U.
    assert (I : In (nth i l (- Z.of_nat i, 0)%Z) l) by now apply nth_In. apply U in I. lia. }
  assert (Neg : forall i, length l <= i -> token_at l i = (- Z.of_nat i, 0)%Z) by (intros; now apply nth_overflow).
  assert (Lt : forall i j, i < j -> token_at l i <> token_at l j).
  { intros i j Hij E. destruct (le_lt_dec (length l) i) as [Hi|Hi].
    - rewrite !Neg in E by lia. injection E. lia.
    - destruct (le_lt_dec (length l) j) as [Hj|Hj].
      + pose proof (Pos i Hi) as P. rewrite E, (Neg j Hj) in P. cbn in P. lia.
      + pose proof (sorted_nth l S i j (0, 0)%Z Hij Hj) as B. unfold token_at in E.
        rewrite (nth_indep l _ (0, 0)%Z Hi), (nth_indep l _ (0, 0)%Z Hj) in E. rewrite E in B. unfold before in B. lia. }
  intros i j E. destruct (lt_eq_lt_dec i j) as [[H|H]|H]; auto; exfalso; [now apply (Lt i j)|now apply (Lt j i)].
Qed.
Lemma text_inj s ts : tokens s = Some ts -> forall i j, token_at (places (1, 0)%Z ts) i = token_at (places (1, 0)%Z ts) j -> i = j.
Proof.
  intros H. apply tokens_cut, cut_starts in H. destruct (places_sorted _ H (1, 0)%Z). now apply token_at_inj.
Qed.

Section Reading.
Variable parse_float : chars -> option N.
Variable cwd : chars.
Notation elem_of := (elem_of parse_float).
Notation struct_of := (struct_of parse_float).
Notation element_of := (element_of parse_float).
Notation body_of := (body_of parse_float).
Notation enum_of := (enum_of parse_float).
Notation members_of := (members_of parse_float).
Notation tops_of := (tops_of parse_float).
Notation source_of := (source_of parse_float cwd).
Notation read_text := (read_text parse_float cwd).
Notation load := (load parse_float cwd).
Notation compile_texts := (compile_texts parse_float cwd).

Lemma struct_of_eq path at_ i n s body : struct_of path at_ i (PStruct n s body) =
  do? sz <- opt_of size_of s; do? b <- body_of path at_ (i + 3 + length (y_opt y_size s)) body;
  Some (AStruct (pos_at path at_ i) (str n) sz b).
Proof. reflexivity. Qed.

Lemma elem_of_def path at_ i d : elem_of path at_ i (XDef d) = do? s <- struct_of path at_ i d; Some (AeStructDef s).
Proof. reflexivity. Qed.
Lemma element_embed path at_ i t a o rest : element_of path at_ i (LEmbed t a o) rest =
  do? e <- elem_of path at_ i t; do? a <- opt_of number a; do? o <- options_of parse_float o; Some (ABEmb e a o rest).
Proof. reflexivity. Qed.
Lemma element_normal path at_ i t a n s o m rest : element_of path at_ i (LNormal t a n s o m) rest =
  do? m <- methods_of parse_float t a m; do? e <- elem_of path at_ i t; do? a <- opt_of number a; do? s <- opt_of size_of s;
  do? o <- options_of parse_float o; Some (ABNormal e a (str n) s o m rest).
Proof. reflexivity. Qed.

(** ** The same tree at two sets of places *)
Section Two.
Variable R : pos -> pos -> Prop.
Variable path : string.
Variables at1 at2 : nat -> Z * Z.
Hypothesis HR : forall i, R (pos_at path at1 i) (pos_at path at2 i).
Lemma rel_opt_bind {A B C D} (P : A -> B -> Prop) (Q : C -> D -> Prop) x y f g :
  rel_opt P x y -> (forall a b, P a b -> rel_opt Q (f a) (g b)) ->
  rel_opt Q (match x with Some a => f a | None => None end) (match y with Some b => g b | None => None end).
Proof. intros X H. destruct X; [now apply H|constructor]. Qed.
Lemma rel_opt_same {A D E} (Q : D -> E -> Prop) (x : option A) f g :
  (forall a, rel_opt Q (f a) (g a)) ->
  rel_opt Q (match x with Some a => f a | None => None end) (match x with Some b => g b | None => None end).
Proof. destruct x; intros H; [apply H|constructor]. Qed.
Lemma trees_two :
  (forall t i, rel_opt (rel_elem R) (elem_of path at1 i t) (elem_of path at2 i t)) /\
  (forall d i, rel_opt (rel_struct R) (struct_of path at1 i d) (struct_of path at2 i d)) /\
  (forall e i b b', rel_body R b b' -> rel_opt (rel_body R) (element_of path at1 i e b) (element_of path at2 i e b')).
Proof.
  apply tree_ind.
  - intros t H i. destruct t; try (repeat constructor; fail). exfalso. now apply (H d).
  - intros d IH i. cbn [Text.elem_of]. eapply rel_opt_bind; [apply IH|]. intros a b Hab. constructor. now constructor.
  - intros n s body F i. rewrite !struct_of_eq. apply rel_opt_same. intros sz.
    eapply (rel_opt_bind (rel_body R)).
    + generalize (i + 3 + length (y_opt y_size s)) as j. induction F as [|e r He _ IH]; intros j; cbn [Text.body_of]; [repeat constructor|].
      eapply rel_opt_bind; [apply IH|]. intros b b' Hb. now apply He.
    + intros b b' Hb. constructor. now constructor.
  - intros i b b' H. cbn. constructor. now constructor.
  - intros s o i b b' H. cbn [Text.element_of]. do 2 (apply rel_opt_same; intros ?). constructor. now constructor.
  - intros t n s r o i b b' H. cbn [Text.element_of]. do 3 (apply rel_opt_same; intros ?). constructor. now constructor.
  - intros t a o IH i b b' H. cbn [Text.element_of]. eapply rel_opt_bind; [apply IH|]. intros e e' He.
    do 2 (apply rel_opt_same; intros ?). constructor. now constructor.
  - intros t a n s o m IH i b b' H. cbn [Text.element_of]. apply rel_opt_same. intros ms.
    eapply rel_opt_bind; [apply IH|]. intros e e' He.
    do 3 (apply rel_opt_same; intros ?). constructor. now constructor.
Qed.
Lemma members_two l : forall i, rel_opt (Forall2 (rel_val R)) (members_of path at1 i l) (members_of path at2 i l).
Proof.
  induction l as [|[v|] l IH]; intros i; cbn [Text.members_of]; [repeat constructor| |apply IH].
  apply rel_opt_same. intros x. eapply rel_opt_bind; [apply IH|]. intros a b H. constructor. constructor; auto.
  repeat split; cbn; auto.
Qed.
Lemma tops_two f : forall i, rel_opt (Forall2 (rel_top R)) (tops_of path at1 i f) (tops_of path at2 i f).
Proof.
  induction f as [|s f IH]; intros i; cbn [Text.tops_of]; [repeat constructor|].
  eapply rel_opt_bind; [apply IH|]. intros l l' Hl. destruct s; try now constructor.
  - unfold Text.enum_of. destruct (size_of (pe_size e)) as [z|]; [|constructor].
    destruct (members_two (pe_members e) (i + 3 + length (y_size (pe_size e)))) as [m m' Hm|]; [|constructor].
    constructor. constructor; auto. constructor. repeat split; cbn; auto.
  - eapply rel_opt_bind; [apply trees_two|]. intros a b H. constructor. constructor; auto. now constructor.
Qed.
Lemma source_two f : rel_opt (rel_source R) (source_of path at1 f) (source_of path at2 f).
Proof.
  unfold Text.source_of. do 2 (apply rel_opt_same; intros ?). eapply rel_opt_bind; [apply tops_two|]. intros l l' H.
  constructor. repeat split; auto.
Qed.
End Two.

(** ** C61: layout *)

(** A result without its positions. *)
Definition nowhere : pos := {| p_file := ""; p_line := 0; p_col := 0 |}.
Definition forget_type (c : ctype) : ctype :=
  match c with
  | CTStruct s => CTStruct {| cs_pos := nowhere; cs_name := cs_name s; cs_bits := cs_bits s; cs_dyn := cs_dyn s; cs_fields := cs_fields s |}
  | CTEnum e => CTEnum {| ce_pos := nowhere; ce_name := ce_name e; ce_bits := ce_bits e; ce_vals := ce_vals e |}
  end.
Definition forget_named (n : named) : named :=
  match n with NPos _ => NPos nowhere | NEnumVal _ v => NEnumVal nowhere v end.
Definition on_values {V W} (f : V -> W) (m : list (string * V)) : list (string * W) := map (fun x => (fst x, f (snd x))) m.
Definition forget_unit (u : comp_unit) : comp_unit :=
  {| u_path := u_path u; u_package := u_package u; u_local_imports := u_local_imports u;
     u_global_imports := u_global_imports u;
     u_types := on_values forget_type (u_types u); u_names := on_values forget_named (u_names u);
     u_local_types := on_values forget_type (u_local_types u); u_local_names := on_values forget_named (u_local_names u) |}.
Definition forget (x : res (list (string * comp_unit))) : res (list (string * comp_unit)) :=
  match x with Ok us => Ok (on_values forget_unit us) | Fail => Fail | Panic => Panic end.

Lemma on_values_rel {V W} (P : V -> V -> Prop) (f : V -> W) m m' : (forall a b, P a b -> f a = f b) ->
  rel_map P m m' -> on_values f m = on_values f m'.
Proof.
  intros H M. induction M as [|[a x] [b y] m m' [E Hx] _ IH]; auto. cbn in *. subst. f_equal; auto. f_equal. auto.
Qed.
Lemma forget_type_rel R a b : rel_type R a b -> forget_type a = forget_type b.
Proof.
  destruct 1 as [s t (H1 & H2 & H3 & H4 & H5)|e f (H1 & H2 & H3 & H4)]; cbn.
  - now rewrite H2, H3, H4, H5.
  - now rewrite H2, H3, H4.
Qed.
Lemma forget_named_rel R a b : rel_named R a b -> forget_named a = forget_named b.
Proof. now destruct 1. Qed.
Lemma forget_unit_rel R a b : rel_unit R a b -> forget_unit a = forget_unit b.
Proof.
  intros (H1 & H2 & H3 & H4 & H5 & H6 & H7 & H8). unfold forget_unit. rewrite H1, H2, H3, H4.
  f_equal; first [eapply on_values_rel; [apply forget_type_rel|eassumption]
                 |eapply on_values_rel; [apply forget_named_rel|eassumption]].
Qed.

(** Two sets of files with the same visible tokens in each file: they differ in white space and comments only. *)
Definition same_tokens (T1 T2 : texts) : Prop :=
  Forall2 (fun a b => fst a = fst b /\ lex (snd a) = lex (snd b)) T1 T2.

Definition text_places (s : chars) : nat -> Z * Z :=
  match tokens s with Some ts => token_at (places (1, 0)%Z ts) | None => fun i => (Z.of_nat i, 0)%Z end.
Lemma text_places_inj s i j : text_places s i = text_places s j -> i = j.
Proof.
  unfold text_places. destruct (tokens s) as [ts|] eqn:E; [now apply (text_inj s)|]. intros H. injection H. lia.
Qed.
Lemma read_text_lex path s ts : lex s = Some ts ->
  read_text path s = do? f <- parse ts; source_of path (text_places s) f.
Proof.
  unfold lex, Text.read_text, text_places. destruct (tokens s) as [us|]; [|discriminate]. cbn. now intros [= <-].
Qed.
Lemma get_in {V} (m : list (string * V)) k v : NoDup (map fst m) -> In (k, v) m -> get k m = Some v.
Proof.
  induction m as [|[a x] m IH]; [easy|]. cbn. intros N [[= -> ->]|I].
  - now rewrite String.eqb_refl.
  - inversion N as [|? ? Na Nm]; subst. destruct (String.eqb_spec k a) as [->|]; [|now apply IH].
    destruct Na. apply in_map_iff. exists (a, v). auto.
Qed.
Lemma pos_eqb_at p1 p2 (a1 a2 : nat -> Z * Z) i j : 
  pos_eqb (pos_at p1 a1 i) (pos_at p2 a2 j) = true <-> p1 = p2 /\ a1 i = a2 j.
Proof.
  unfold pos_eqb, pos_at. cbn. rewrite !andb_true_iff, String.eqb_eq, !Z.eqb_eq. split.
  - intros [[-> H1] H2]. split; auto. now apply injective_projections.
  - intros [-> E]. now rewrite E.
Qed.

Theorem C61_layout : forall T1 T2 p, NoDup (map fst T1) -> same_tokens T1 T2 ->
  forget (compile_texts T1 p) = forget (compile_texts T2 p).
Proof.
  intros T1 T2 p N S.
  assert (E : map fst T1 = map fst T2) by (clear -S; induction S as [|a b l m [H _] _ IH]; cbn; congruence).
  set (R := fun x y => exists q s1 s2 i, get q T1 = Some s1 /\ get q T2 = Some s2 /\
                        x = pos_at q (text_places s1) i /\ y = pos_at q (text_places s2) i).
  assert (RE : forall a b a' b', R a b -> R a' b' -> pos_eqb a a' = pos_eqb b b').
  { intros a b a' b' (q & s1 & s2 & i & G1 & G2 & -> & ->) (q' & s1' & s2' & i' & G1' & G2' & -> & ->).
    apply Bool.eq_iff_eq_true. rewrite !pos_eqb_at. split; intros [-> H]; (split; [reflexivity|]).
    - assert (s1 = s1') by congruence. assert (s2 = s2') by congruence. subst. apply text_places_inj in H. now subst.
    - assert (s1 = s1') by congruence. assert (s2 = s2') by congruence. subst. apply text_places_inj in H. now subst. }
  assert (Fs : rel_fs R (load T1) (load T2)).
  { assert (Hin : forall a, In a T1 -> get (fst a) T1 = Some (snd a)) by (intros [k v] I; now apply get_in).
    assert (Hin2 : forall a, In a T2 -> get (fst a) T2 = Some (snd a)).
    { intros [k v] I. apply get_in; auto. now rewrite <- E. }
        assert (G : forall l m, Forall2 (fun a b => fst a = fst b /\ lex (snd a) = lex (snd b)) l m ->
                (forall a, In a l -> get (fst a) T1 = Some (snd a)) -> (forall a, In a m -> get (fst a) T2 = Some (snd a)) ->
                (forall q s1 s2 i, get q T1 = Some s1 -> get q T2 = Some s2 -> R (pos_at q (text_places s1) i) (pos_at q (text_places s2) i)) ->
                rel_fs R (load l) (load m)).
    { clearbody R. clear. intros l m H. induction H as [|[k v] [k' v'] l m [Ek L] _ IH]; intros I1 I2 HR; [constructor|].
      cbn in Ek, L. subst k'. cbn [Text.load map]. constructor; [|apply IH; auto; intros; [apply I1|apply I2]; now right].
      split; [reflexivity|]. cbn [snd fst]. destruct (lex v) as [ts|] eqn:L1; symmetry in L.
      2: { unfold Text.read_text. unfold lex in L, L1. destruct (tokens v); [discriminate|]. destruct (tokens v'); [discriminate|]. constructor. }
      rewrite (read_text_lex _ _ _ L1), (read_text_lex _ _ _ L).
      apply rel_opt_same. intros f. apply source_two. intros i. apply HR.
      - apply (I1 (k, v)). now left.
      - apply (I2 (k, v')). now left. }
    apply G; auto. intros q s1 s2 i G1 G2. exists q, s1, s2, i. auto. }
  unfold Text.compile_texts. destruct (compile_file_rel R RE _ _ p Fs) as [us vs H| |]; auto.
  cbn. f_equal. eapply on_values_rel; [|exact H]. apply forget_unit_rel.
Qed.

(** The same, for texts written from the same tokens with any layout between them (C55). *)
Theorem C61_reformat : forall T1 T2 p, NoDup (map fst T1) ->
  Forall2 (fun a b => fst a = fst b /\ exists ts, written ts (snd a) /\ written ts (snd b)) T1 T2 ->
  forget (compile_texts T1 p) = forget (compile_texts T2 p).
Proof.
  intros T1 T2 p N F. apply C61_layout; auto. unfold same_tokens. clear N.
  induction F as [|a b l m (E & ts & W1 & W2) _ IH]; constructor; auto. split; auto.
  rewrite (written_lex _ _ W1). symmetry. now apply written_lex.
Qed.

(** ** C61: positions *)

(** The line (from 1) and column (from 0, in characters) after a text. *)
Definition line_col (b : chars) (l c : Z) : Prop :=
  exists u v, b = u ++ v /\ ~ In newline v /\ (u = [] \/ exists w, u = w ++ [newline]) /\
    l = (1 + Z.of_nat (count_occ ascii_dec u newline))%Z /\
    c = Z.of_nat (length (filter (fun x => negb (continues x)) v)).
Lemma after_line_col b : line_col b (fst (after (1, 0)%Z b)) (snd (after (1, 0)%Z b)).
Proof.
  induction b as [|x b (u & v & -> & Nv & Hu & L & C)] using rev_ind.
  - exists [], []. repeat split; auto.
  - unfold after in *. rewrite fold_left_app. cbn [fold_left]. set (lc := fold_left advance (u ++ v) (1, 0)%Z) in *. unfold advance.
    destruct (Ascii.eqb_spec x newline) as [->|Nx]; cbn [fst snd].
    + exists ((u ++ v) ++ [newline]), []. rewrite app_nil_r. repeat split; auto; [right; eauto|].
      rewrite L, !count_occ_app. cbn [count_occ]. destruct (ascii_dec newline newline) as [_|[]]; auto.
      apply (count_occ_not_In ascii_dec) in Nv. lia.
    + exists u, (v ++ [x]). rewrite app_assoc. repeat split; auto.
      * intros I. apply in_app_or in I as [I|[I|[]]]; auto.
      * destruct (continues x); exact L.
      * rewrite filter_app, app_length. cbn [filter]. destruct (continues x); cbn [negb length fst snd]; lia.
Qed.

Section Defs.
Variable path : string.
Variable at_ : nat -> Z * Z.
Notation pos_at := (pos_at path at_).
(** The first token of a definition: a keyword, or for an enum member its name. *)
Definition first_of (n : string) (t : token) : Prop :=
  t = (KFixed, cs "struct") \/ t = (KFixed, cs "enum") \/ t = (KIdent, cs n).
Definition defs_at (i : nat) (ts : list token) (l : list (string * pos)) : Prop :=
  exists idx : list (string * nat), l = map (fun x => (fst x, pos_at (i + snd x))) idx /\
    StronglySorted lt (map snd idx) /\
    Forall (fun x => exists t, nth_error ts (snd x) = Some t /\ first_of (fst x) t) idx.
Lemma defs_none i ts : defs_at i ts [].
Proof. exists []. repeat split; constructor. Qed.
Lemma sorted_app l m n : StronglySorted lt l -> StronglySorted lt m -> Forall (fun x => x < n) l -> Forall (fun x => n <= x) m ->
  StronglySorted lt (l ++ m).
Proof.
  induction 1 as [|a l _ IH F]; intros Sm Fl Fm; auto. inversion Fl; subst. cbn. constructor; auto.
  apply Forall_app. split; auto. eapply Forall_impl; [|exact Fm]. cbv beta. intros. lia.
Qed.
Lemma defs_app i a b l m : defs_at i a l -> defs_at (i + length a) b m -> defs_at i (a ++ b) (l ++ m).
Proof.
  intros (x & -> & S1 & F1) (y & -> & S2 & F2). exists (x ++ map (fun z => (fst z, length a + snd z)) y).
  rewrite !map_app, !map_map. cbn [fst snd]. split; [|split].
  - f_equal. apply map_ext. intros z. now rewrite Nat.add_assoc.
  - apply (sorted_app _ _ (length a)); auto.
    + clear -S2. induction y as [|z y IH]; cbn; [constructor|]. inversion S2 as [|? ? S F]; subst. constructor; auto.
      rewrite Forall_map in F |- *. eapply Forall_impl; [|exact F]. cbv beta. cbn. intros. lia.
    + rewrite Forall_map. eapply Forall_impl; [|exact F1]. cbv beta. intros z (t & N & _). apply nth_error_Some. congruence.
    + rewrite Forall_map. apply Forall_forall. intros. lia.
  - apply Forall_app. split.
    + eapply Forall_impl; [|exact F1]. cbv beta. intros z (t & N & H). exists t. split; auto.
      rewrite nth_error_app1; auto. apply nth_error_Some. congruence.
    + rewrite Forall_map. eapply Forall_impl; [|exact F2]. cbv beta. cbn. intros z (t & N & H). exists t. split; auto.
      rewrite nth_error_app2 by lia. replace (length a + snd z - length a) with (snd z) by lia. exact N.
Qed.
Lemma defs_pre i a b m : defs_at (i + length a) b m -> defs_at i (a ++ b) m.
Proof. intros H. apply (defs_app i a b [] m); auto. apply defs_none. Qed.
Lemma defs_post i a b m : defs_at i a m -> defs_at i (a ++ b) m.
Proof. intros H. rewrite <- (app_nil_r m). apply defs_app; auto. apply defs_none. Qed.
Lemma defs_one i n t : first_of n t -> defs_at i [t] [(n, pos_at i)].
Proof.
  intros H. exists [(n, 0)]. cbn. rewrite Nat.add_0_r. repeat split; [repeat constructor|]. constructor; [|constructor].
  exists t. auto.
Qed.

Lemma trees_defs :
  (forall t i e, elem_of path at_ i t = Some e -> defs_at i (y_type t) (defs_elem e)) /\
  (forall d i s, struct_of path at_ i d = Some s -> defs_at i (y_struct d) (defs_struct s)) /\
  (forall e i r b, element_of path at_ i e r = Some b -> exists l, defs_body b = l ++ defs_body r /\ defs_at i (y_element e) l).
Proof.
  apply tree_ind.
  - intros t N i e H. destruct t; cbn in H; try (injection H as <-; apply defs_none). exfalso. now apply (N d).
  - intros d IH i e H. rewrite elem_of_def in H. destruct (struct_of path at_ i d) as [s|] eqn:E; [|discriminate].
    injection H as <-. cbn. now apply IH.
  - intros n s body F i st H. rewrite struct_of_eq in H. destruct (opt_of size_of s) as [sz|]; [|discriminate].
    destruct (body_of path at_ _ body) as [b|] eqn:Eb; [|discriminate]. injection H as <-. cbn [defs_struct y_struct].
    change (fx "struct" :: name n :: y_opt y_size s ++ fx "{" :: flat_map y_element body ++ [fx "}"])
      with ([fx "struct"] ++ [name n] ++ y_opt y_size s ++ [fx "{"] ++ flat_map y_element body ++ [fx "}"]).
    change ((str n, pos_at i) :: defs_body b) with ([(str n, pos_at i)] ++ defs_body b).
    apply defs_app; [apply defs_one; now left|]. do 3 apply defs_pre. apply defs_post.
    cbn [length]. replace (i + 1 + 1 + length (y_opt y_size s) + 1) with (i + 3 + length (y_opt y_size s)) by lia.
    revert b Eb. generalize (i + 3 + length (y_opt y_size s)) as j. clear - F cwd.
    induction F as [|e l He _ IH]; intros j b Eb; cbn [Text.body_of] in Eb.
    + injection Eb as <-. apply defs_none.
    + destruct (body_of path at_ (j + length (y_element e)) l) as [r|] eqn:Er; [|discriminate].
      destruct (He _ _ _ Eb) as (d & -> & Hd). cbn [flat_map]. apply defs_app; auto.
  - intros i r b H. injection H as <-. exists []. split; auto. apply defs_none.
  - intros s o i r b H. cbn [Text.element_of] in H. destruct (size_of s); [|discriminate]. destruct (options_of _ o); [|discriminate].
    injection H as <-. exists []. split; auto. apply defs_none.
  - intros t n s c o i r b H. cbn [Text.element_of] in H. destruct (opt_of size_of s); [|discriminate].
    destruct (rhs_of _ c); [|discriminate]. destruct (options_of _ o); [|discriminate].
    injection H as <-. exists []. split; auto. apply defs_none.
  - intros t a o IH i r b H. rewrite element_embed in H. destruct (elem_of path at_ i t) as [e|] eqn:E; [|discriminate].
    destruct (opt_of number a); [|discriminate]. destruct (options_of _ o); [|discriminate].
    injection H as <-. exists (defs_elem e). split; auto. cbn [y_element]. apply defs_post. now apply IH.
  - intros t a n s o m IH i r b H. rewrite element_normal in H. destruct (methods_of _ t a m); [|discriminate].
    destruct (elem_of path at_ i t) as [e|] eqn:E; [|discriminate].
    destruct (opt_of number a); [|discriminate]. destruct (opt_of size_of s); [|discriminate].
    destruct (options_of _ o); [|discriminate].
    injection H as <-. exists (defs_elem e). split; auto. cbn [y_element]. apply defs_post. now apply IH.
Qed.
Lemma members_defs l : forall i m, members_of path at_ i l = Some m ->
  defs_at i (y_list y_member l) (map (fun v => (ev_name v, ev_pos v)) m).
Proof.
  induction l as [|[v|] l IH]; intros i m H; cbn [Text.members_of] in H.
  - injection H as <-. apply defs_none.
  - destruct (opt_of _ (pv_rhs v)); [|discriminate]. destruct (members_of path at_ _ l) as [k|] eqn:E; [|discriminate].
    injection H as <-. cbn [map ev_name ev_pos]. unfold y_list. cbn [flat_map y_member].
    change ((str (pv_name v), pos_at i) :: map (fun v => (ev_name v, ev_pos v)) k)
      with ([(str (pv_name v), pos_at i)] ++ map (fun v => (ev_name v, ev_pos v)) k).
    apply defs_app; [|apply IH; exact E].
    unfold y_value. change (name (pv_name v) :: ?r) with ([name (pv_name v)] ++ r).
    apply defs_post. apply defs_one. right. right. unfold name, str. f_equal. symmetry. apply list_ascii_of_string_of_list_ascii.
  - unfold y_list. cbn [flat_map y_member]. apply defs_pre. now apply IH.
Qed.
Lemma tops_defs f : forall i l, tops_of path at_ i f = Some l -> defs_at i (yield f) (flat_map defs_top l).
Proof.
  induction f as [|s f IH]; intros i l H; cbn [Text.tops_of] in H; [injection H as <-; apply defs_none|].
  destruct (tops_of path at_ _ f) as [m|] eqn:E; [|discriminate]. specialize (IH _ _ E).
  unfold yield, y_list in *. cbn [flat_map].
  destruct s as [t|p|o|e|d|]; try (injection H as <-; now apply defs_pre).
  - destruct (enum_of path at_ i e) as [x|] eqn:Ee; [|discriminate]. injection H as <-. cbn [flat_map].
    apply defs_app; auto. unfold Text.enum_of in Ee. destruct (size_of (pe_size e)); [|discriminate].
    destruct (members_of path at_ _ (pe_members e)) as [k|] eqn:Em; [|discriminate]. injection Ee as <-.
    cbn [defs_top en_name en_pos en_vals y_statement]. unfold y_enum.
    change (fx "enum" :: name (pe_name e) :: y_size (pe_size e) ++ fx "{" :: y_list y_member (pe_members e) ++ [fx "}"])
      with ([fx "enum"] ++ [name (pe_name e)] ++ y_size (pe_size e) ++ [fx "{"] ++ y_list y_member (pe_members e) ++ [fx "}"]).
    match goal with |- defs_at _ _ (?a :: ?r) => change (a :: r) with ([a] ++ r) end.
    apply defs_app; [apply defs_one; right; now left|]. do 3 apply defs_pre. apply defs_post. apply members_defs.
    cbn [length]. rewrite <- Em. f_equal. lia.
  - destruct (struct_of path at_ i d) as [x|] eqn:Ed; [|discriminate]. injection H as <-. cbn [flat_map].
    apply defs_app; auto. cbn [defs_top y_statement]. now apply trees_defs.
Qed.
End Defs.

Lemma place_text ts : forall lc j k t, nth_error (visible ts) j = Some (k, t) ->
  exists b r, concat (map snd ts) = b ++ t ++ r /\ nth_error (places lc ts) j = Some (after lc b).
Proof.
  induction ts as [|[k t] ts IH]; intros lc j k' t' H; [destruct j; discriminate|].
  cbn [visible filter fst] in H. cbn [map snd concat places]. destruct (hidden k) eqn:K; cbn [negb] in H.
  - destruct (IH (after lc t) j _ _ H) as (b & r & E & N). exists (t ++ b), r. rewrite E, <- app_assoc. split; auto.
    rewrite N. unfold after. now rewrite fold_left_app.
  - destruct j as [|j]; cbn [nth_error] in *.
    + injection H as -> ->. exists [], (concat (map snd ts)). split; reflexivity.
    + destruct (IH (after lc t) j _ _ H) as (b & r & E & N). exists (t ++ b), r. rewrite E, <- app_assoc. split; auto.
      rewrite N. unfold after. now rewrite fold_left_app.
Qed.

(** Every definition is at the line and column of its first token: the keyword, for an enum member its name. *)
Theorem C61_position : forall path s src n x, read_text path s = Some src -> In (n, x) (defs_source src) ->
  p_file x = path /\
  exists b t r, s = b ++ t ++ r /\ (t = cs "struct" \/ t = cs "enum" \/ t = cs n) /\ line_col b (p_line x) (p_col x).
Proof.
  intros path s src n x H I. unfold Text.read_text in H. destruct (tokens s) as [ts|] eqn:Et; [|discriminate].
  destruct (parse (visible ts)) as [f|] eqn:Ep; [|discriminate]. apply C58_parse in Ep as [Y _].
  unfold Text.source_of in H. destruct (imports_of _ _ f) as [il|]; [|discriminate]. destruct (file_options_of _ f) as [fl|]; [|discriminate].
  destruct (tops_of path _ 0 f) as [tl|] eqn:El; [|discriminate]. injection H as <-.
  unfold defs_source in I. cbn [s_tops] in I. apply tops_defs in El as (idx & E & _ & F). rewrite E in I.
  apply in_map_iff in I as ([m j] & Em & I). cbn in Em. injection Em as -> <-. cbn. split; auto.
  rewrite Forall_forall in F. destruct (F _ I) as ([k t] & N & Ht). cbn in N, Ht. rewrite Y in N.
  destruct (place_text ts (1, 0)%Z _ _ _ N) as (b & r & Ec & Np). exists b, t, r.
  split; [rewrite <- Ec; now apply C54_lossless, tokens_cut|]. split.
  - destruct Ht as [Ht|[Ht|Ht]]; injection Ht as _ ->; auto.
  - unfold token_at. rewrite (nth_error_nth _ _ _ Np). apply after_line_col.
Qed.

(** The hypothesis of C35 holds for all files that are read from texts. *)
Theorem C61_located : forall T, well_located (load T).
Proof.
  intros T p src C. unfold contains in C.
  assert (H : exists s, read_text p s = Some src).
  { unfold Text.load in C. induction T as [|[q s] T IH]; [discriminate|]. cbn [map get fst snd] in C.
    destruct (String.eqb_spec p q) as [->|]; [|now apply IH]. injection C as C. now exists s. }
  destruct H as [s H]. split.
  - intros n x I. now apply (C61_position p s src n x).
  - unfold Text.read_text in H. destruct (tokens s) as [ts|] eqn:Et; [|discriminate].
    destruct (parse (visible ts)) as [f|] eqn:Ep; [|discriminate].
    unfold Text.source_of in H. destruct (imports_of _ _ f) as [il|]; [|discriminate]. destruct (file_options_of _ f) as [fl|]; [|discriminate].
    destruct (tops_of p _ 0 f) as [tl|] eqn:El; [|discriminate]. injection H as <-.
    apply tops_defs in El as (idx & E & S & _). unfold defs_source. cbn [s_tops]. rewrite E, map_map. cbn [snd Nat.add].
    rewrite <- (map_map snd (pos_at p (token_at (places (1, 0)%Z ts)))). 
    apply FinFun.Injective_map_NoDup.
    + intros i j Hij. apply (text_inj _ _ Et). unfold pos_at in Hij. injection Hij. intros. now apply injective_projections.
    + clear -S. induction S as [|a l S IH F]; constructor; auto. intros I. rewrite Forall_forall in F. apply F in I. lia.
Qed.

(** ** C62: the front end on texts *)

(** For files read from texts no assumption on positions is left: names are unique within the files that an
    accepted file reaches. *)
Theorem C62_unique_names : forall T p us, compile_texts T p = Ok us ->
  (forall q s, reaches (load T) p q -> contains (load T) q s -> NoDup (map fst (defs_source s))) /\
  (forall q1 q2 n x1 x2, reaches (load T) p q1 -> reaches (load T) p q2 ->
     defines (load T) q1 n x1 -> defines (load T) q2 n x2 -> q1 = q2).
Proof. intros T p us H. exact (C35_unique_names _ _ _ (C61_located T) H). Qed.
Theorem C62_visible_types : forall T p us, compile_texts T p = Ok us ->
  forall q u, In (q, u) us ->
    (forall n c, get n (u_types u) = Some c <->
       exists q' u', In (q', u') us /\ reaches (load T) q q' /\ In (n, c) (u_local_types u')) /\
    exists s, contains (load T) q s /\ map fst (u_local_types u) = map top_name (s_tops s).
Proof. intros T p us H. exact (C35_visible_types _ _ _ (C61_located T) H). Qed.

(** Every name after the words [struct] and [enum] is capitalised. *)
Definition capitalised_names (ts : list token) : Prop :=
  forall a b w n, ts = a ++ (KFixed, w) :: (KIdent, n) :: b -> w = cs "struct" \/ w = cs "enum" ->
    is_capitalized (str n) = true.
Lemma capitalised_app a b : capitalised_names (a ++ b) -> capitalised_names a /\ capitalised_names b.
Proof.
  intros H. split; intros x y w n E W.
  - apply (H x (y ++ b) w n); auto. rewrite E, <- app_assoc. reflexivity.
  - apply (H (a ++ x) y w n); auto. rewrite E, app_assoc. reflexivity.
Qed.
Lemma capitalised_cons a b : capitalised_names (a :: b) -> capitalised_names b.
Proof. intros H. now apply (capitalised_app [a] b). Qed.
Lemma trees_refs path at_ :
  (forall t i e, elem_of path at_ i t = Some e -> capitalised_names (y_type t) -> refs_elem e) /\
  (forall d i s, struct_of path at_ i d = Some s -> capitalised_names (y_struct d) -> refs_struct s) /\
  (forall e i r b, element_of path at_ i e r = Some b -> capitalised_names (y_element e) -> refs_body r -> refs_body b).
Proof.
  apply tree_ind.
  - intros t N i e H C. destruct t as [x| | |n|d|n|n]; cbn in H; try (injection H as <-; exact I).
    + injection H as <-. cbn. apply (C [] [] (cs "struct") n); auto.
    + exfalso. now apply (N d).
    + injection H as <-. cbn. apply (C [] [] (cs "enum") n); auto.
  - intros d IH i e H C. rewrite elem_of_def in H. destruct (struct_of path at_ i d) as [s|] eqn:E; [|discriminate].
    injection H as <-. cbn. exact (IH _ _ E C).
  - intros n s body F i st H C. rewrite struct_of_eq in H. destruct (opt_of size_of s) as [sz|]; [|discriminate].
    destruct (body_of path at_ _ body) as [b|] eqn:Eb; [|discriminate]. injection H as <-. cbn [refs_struct y_struct] in *.
    do 2 apply capitalised_cons in C. apply capitalised_app in C as [_ C]. apply capitalised_cons in C.
    apply capitalised_app in C as [C _]. revert b Eb C. generalize (i + 3 + length (y_opt y_size s)) as j. clear - F cwd.
    induction F as [|e l He _ IH]; intros j b Eb C; cbn [Text.body_of flat_map] in *; [injection Eb as <-; exact I|].
    destruct (body_of path at_ (j + length (y_element e)) l) as [r|] eqn:Er; [|discriminate].
    apply capitalised_app in C as [C1 C2]. apply (He _ _ _ Eb C1). exact (IH _ _ Er C2).
  - intros i r b H C Hr. injection H as <-. exact Hr.
  - intros s o i r b H C Hr. cbn [Text.element_of] in H. destruct (size_of s); [|discriminate]. destruct (options_of _ o); [|discriminate].
    injection H as <-. exact Hr.
  - intros t n s c o i r b H C Hr. cbn [Text.element_of] in H. destruct (opt_of size_of s); [|discriminate].
    destruct (rhs_of _ c); [|discriminate]. destruct (options_of _ o); [|discriminate].
    injection H as <-. exact Hr.
  - intros t a o IH i r b H C Hr. rewrite element_embed in H. destruct (elem_of path at_ i t) as [e|] eqn:E; [|discriminate].
    destruct (opt_of number a); [|discriminate]. destruct (options_of _ o); [|discriminate].
    injection H as <-. cbn [y_element] in C. apply capitalised_app in C as [C _]. split; [exact (IH _ _ E C)|exact Hr].
  - intros t a n s o m IH i r b H C Hr. rewrite element_normal in H. destruct (methods_of _ t a m); [|discriminate].
    destruct (elem_of path at_ i t) as [e|] eqn:E; [|discriminate].
    destruct (opt_of number a); [|discriminate]. destruct (opt_of size_of s); [|discriminate].
    destruct (options_of _ o); [|discriminate].
    injection H as <-. cbn [y_element] in C. apply capitalised_app in C as [C _]. split; [exact (IH _ _ E C)|exact Hr].
Qed.
Lemma tops_refs path at_ f : forall i l, tops_of path at_ i f = Some l -> capitalised_names (yield f) -> Forall refs_top l.
Proof.
  induction f as [|s f IH]; intros i l H C; cbn [Text.tops_of] in H; [injection H as <-; constructor|].
  destruct (tops_of path at_ _ f) as [m|] eqn:E; [|discriminate].
  unfold yield, y_list in C. cbn [flat_map] in C. apply capitalised_app in C as [C1 C2]. specialize (IH _ _ E C2).
  destruct s as [t|p|o|e|d|]; try (injection H as <-; assumption).
  - destruct (enum_of path at_ i e) as [x|]; [|discriminate]. injection H as <-. constructor; [exact I|assumption].
  - destruct (struct_of path at_ i d) as [x|] eqn:Ed; [|discriminate]. injection H as <-. constructor; [|assumption].
    cbn [refs_top]. exact (proj1 (proj2 (trees_refs path at_)) _ _ _ Ed C1).
Qed.

(** The compiler does not crash, whatever bytes the files consist of, provided each name after [struct] and
    [enum] is capitalised. *)
Theorem C62_no_crash : forall T p,
  (forall q s ts, In (q, s) T -> lex s = Some ts -> capitalised_names ts) -> compile_texts T p <> Panic.
Proof.
  intros T p H. apply C43_no_crash_files. intros q src C. unfold contains in C.
  assert (K : exists s, In (q, s) T /\ read_text q s = Some src).
  { clear H. unfold Text.load in C. induction T as [|[k s] T IH]; [discriminate|]. cbn [map get fst snd] in C.
    destruct (String.eqb_spec q k) as [->|]; [|destruct (IH C) as (s' & I & R); exists s'; split; [now right|exact R]].
    injection C as C. exists s. split; [now left|exact C]. }
  destruct K as (s & I & R). unfold Text.read_text in R. destruct (tokens s) as [ts|] eqn:Et; [|discriminate].
  destruct (parse (visible ts)) as [f|] eqn:Ep; [|discriminate].
  assert (L : lex s = Some (visible ts)) by (unfold lex; now rewrite Et). specialize (H _ _ _ I L).
  apply C58_parse in Ep as [Y _]. rewrite <- Y in H.
  unfold Text.source_of in R. destruct (imports_of _ _ f) as [il|]; [|discriminate].
  destruct (file_options_of _ f) as [fl|]; [|discriminate].
  destruct (tops_of q _ 0 f) as [tl|] eqn:El; [|discriminate]. injection R as <-. cbn [s_tops]. exact (tops_refs _ _ _ _ _ El H).
Qed.
(** A text that is not a schema file is refused, and so is one that does not exist. *)
Theorem C62_not_a_schema : forall T p us, compile_texts T p = Ok us ->
  forall q, reaches (load T) p q -> exists s ts f, get q T = Some s /\ lex s = Some ts /\ yield f = ts /\ parse ts = Some f.
Proof.
  intros T p us H q R. unfold Text.compile_texts in H.
  destruct (sound_root _ _ _ H) as (r & Hi & Hu & Hp & _).
  destruct (units_closed _ _ _ _ Hi Hu Hp q R) as (u & Hx).
  pose proof (C28_units _ _ _ H _ _ Hx) as Hm.
  assert (K : exists src, get q (load T) = Some (Some src)) by (destruct Hm; eauto).
  destruct K as [src K]. assert (E : exists s, get q T = Some s /\ read_text q s = Some src).
  { clear - K cwd. unfold Text.load in K. induction T as [|[k s] T IH]; [discriminate|]. cbn [map get fst snd] in *.
    destruct (String.eqb_spec q k) as [->|]; [|now apply IH]. injection K as K. exists s. split; [reflexivity|exact K]. }
  destruct E as (s & G & Rd). exists s. unfold Text.read_text in Rd. unfold lex. destruct (tokens s) as [ts|]; [|discriminate].
  destruct (parse (visible ts)) as [f|] eqn:Ep; [|discriminate]. exists (visible ts), f.
  split; [exact G|]. split; [reflexivity|]. split; [|exact Ep]. now apply C58_parse in Ep as [Y _].
Qed.
End Reading.

(** ** Instances *)
Definition no_floats (t : chars) : option N := None.
Definition nl : string := String newline EmptyString.
Definition ex_a : chars := cs ("package a; import ""./b.bb"";" ++ nl ++ "struct A { uint8 x; B b; enum C c; };").
Definition ex_a2 : chars := cs ("package/**/a   ;import ""./b.bb"";// two" ++ nl ++ nl ++ "  struct A{uint8 x;B b;" ++ nl ++ "enum C c;} ;").
Definition ex_b : chars := cs ("package b; struct B[2] { uint16 y; }; enum C[1] { P = 1," ++ nl ++ " Q, };").
Definition ex_T1 : texts := [("/w/a.bb", ex_a); ("/w/b.bb", ex_b)].
Definition ex_T2 : texts := [("/w/a.bb", ex_a2); ("/w/b.bb", ex_b)].
Definition summary (x : res (list (string * comp_unit))) : option (list (string * list string)) :=
  match x with Ok us => Some (map (fun u => (fst u, map fst (u_types (snd u)))) us) | _ => None end.
Example C61_instance : NoDup (map fst ex_T1) /\ same_tokens ex_T1 ex_T2 /\ ex_a <> ex_a2 /\
  summary (compile_texts no_floats (cs "/w") ex_T1 "/w/a.bb") =
    Some [("/w/b.bb", ["B"; "C"]); ("/w/a.bb", ["B"; "C"; "A"])].
Proof.
  split; [repeat constructor; cbn; intuition discriminate|]. split; [|split; [discriminate|vm_compute; reflexivity]].
  constructor; [split; [reflexivity|vm_compute; reflexivity]|]. constructor; [split; reflexivity|constructor].
Qed.
Definition ex_defs (s : chars) : option (list (string * (Z * Z))) :=
  option_map (fun x => map (fun d => (fst d, (p_line (snd d), p_col (snd d)))) (defs_source x)) (read_text no_floats (cs "/w") "/w/a.bb" s).
Example C61_position_instance : ex_defs ex_a2 = Some [("A", (3, 2)%Z)] /\
  ex_defs ex_b = Some [("B", (1, 11)); ("C", (1, 38)); ("P", (1, 50)); ("Q", (2, 1))]%Z.
Proof. split; vm_compute; reflexivity. Qed.
Example C62_instance : forall q s ts, In (q, s) ex_T1 -> lex s = Some ts -> capitalised_names ts.
Proof.
  assert (D : forall l, (fix ok l := match l with
              | (KFixed, w) :: r => match r with
                 | (KIdent, n) :: _ => (if list_eq_dec ascii_dec w (cs "struct") then is_capitalized (str n) else
                                        if list_eq_dec ascii_dec w (cs "enum") then is_capitalized (str n) else true) && ok r
                 | _ => ok r end
              | _ :: r => ok r | [] => true end) l = true -> capitalised_names l).
  { intros l H a. revert l H. induction a as [|[k t] a IH]; intros l H b w n -> W.
    - cbn [app] in H. apply andb_true_iff in H as [H _]. destruct (list_eq_dec ascii_dec w (cs "struct")) as [e|e]; [exact H|].
      destruct (list_eq_dec ascii_dec w (cs "enum")) as [e'|e']; [exact H|]. destruct W as [W|W]; [destruct (e W)|destruct (e' W)].
    - cbn [app] in H. eapply IH; [|reflexivity|exact W].
      destruct k; try exact H. destruct (a ++ (KFixed, w) :: (KIdent, n) :: b) as [|[k' t'] r] eqn:E; [exact H|].
      destruct k'; try exact H. now apply andb_true_iff in H as [_ H]. }
  intros q s ts [I|[I|[]]] L; injection I as <- <-; vm_compute in L; injection L as <-; apply D; vm_compute; reflexivity.
Qed.

(** ** Findings *)
(** The quotes of a string do not matter (C57) except in an import: there apostrophes are refused. *)
Theorem C57_import_apostrophes_refuted : exists s1 s2,
  option_map (map snd) (lex s1) = Some [cs "import"; cs "'./b.bb'"; cs ";"; cs "package"; cs "a"; cs ";"] /\
  option_map (map snd) (lex s2) = Some [cs "import"; cs """./b.bb"""; cs ";"; cs "package"; cs "a"; cs ";"] /\
  visit_str (cs "'./b.bb'") = visit_str (cs """./b.bb""") /\
  (forall cwd, read_text no_floats cwd "/w/a.bb" s1 = None) /\
  (forall cwd, read_text no_floats cwd "/w/a.bb" s2 <> None).
Proof.
  exists (cs "import './b.bb'; package a;"), (cs "import ""./b.bb""; package a;").
  split; [vm_compute; reflexivity|]. split; [vm_compute; reflexivity|]. split; [vm_compute; reflexivity|].
  split; intros cwd; [vm_compute; reflexivity|]. vm_compute. discriminate.
Qed.
(** Two ways of importing one file, once relative and once with a path that is not clean: the file is compiled
    twice and its package is then a duplicate. *)
Definition ex_diamond (import : string) : texts :=
  [("/w/a.bb", cs ("package a; import ""b.bb""; import """ ++ import ++ """;"));
   ("/w/b.bb", cs "package b;"); ("/w/./b.bb", cs "package b;"); ("/w/../w/c.bb", cs "package c; import ""b.bb"";");
   ("/w/c.bb", cs "package c; import ""/w/./b.bb"";")].
Theorem C60_diamond_refuted :
  summary (compile_texts no_floats (cs "/w") (ex_diamond "./x/../b.bb") "/w/a.bb") <> None /\
  summary (compile_texts no_floats (cs "/w") (ex_diamond "/w/./b.bb") "/w/a.bb") = None.
Proof. split; vm_compute; [discriminate|reflexivity]. Qed.

Print Assumptions C61_layout.
Print Assumptions C61_reformat.
Print Assumptions C61_position.
Print Assumptions C61_located.
Print Assumptions C62_unique_names.
Print Assumptions C62_visible_types.
Print Assumptions C62_no_crash.
Print Assumptions C62_not_a_schema.
Print Assumptions C57_import_apostrophes_refuted.
Print Assumptions C60_diamond_refuted.
