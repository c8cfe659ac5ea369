(** Expressions as printed, with their parentheses: the text, its tokens and the tree a compiler reads. *)
From Coq Require Import ZArith Lia Bool String Ascii List.
Import ListNotations.
From Verif Require Import Base Literals ExprModel ExprSpec ExprProofs ExprLex ExprParse.
Open Scope string_scope.
Open Scope Z_scope.
Open Scope list_scope.

(** The type of a cast: "T", and in C "T*", "const T*" and "enum E". *)
Inductive cty : Type := CtS (t : chars) | CtP (t : chars) | CtCP (t : chars) | CtE (e : chars).
Definition cty_text (t : cty) : chars :=
  match t with CtS t => t | CtP t => t ++ cs "*" | CtCP t => cs "const " ++ t ++ cs "*" | CtE e => cs "enum " ++ e end.
Definition cty_toks (t : cty) : list token :=
  match t with CtS t => [TId t] | CtP t => [TId t; sy "*"] | CtCP t => [kw "const"; TId t; sy "*"] | CtE e => [kw "enum"; TId e] end.

Inductive px : Type :=
| PNum (s : chars)
| PId (s : chars)
| PPar (x : px)
| PMem (a : px) (f : chars)
| PIdx (a i : px)
| PCall (f x : px)
| PUn (s : string) (x : px)
| PBin (s : string) (a b : px)
| PArr (a : px) (f : chars)
| PCast (t : cty) (x : px).

Fixpoint show (x : px) : chars :=
  match x with
  | PNum s | PId s => s
  | PPar x => cs "(" ++ show x ++ cs ")"
  | PMem a f => show a ++ cs "." ++ f
  | PIdx a i => show a ++ cs "[" ++ show i ++ cs "]"
  | PCall f x => show f ++ cs "(" ++ show x ++ cs ")"
  | PUn s x => cs s ++ show x
  | PBin s a b => show a ++ cs " " ++ cs s ++ cs " " ++ show b
  | PArr a f => show a ++ cs "->" ++ f
  | PCast t x => cs "(" ++ cty_text t ++ cs ")" ++ show x
  end.
Definition optok (s : string) : token :=
  match cs s with c :: _ => if is_alpha c then kw s else sy s | [] => sy s end.
Fixpoint ptoks (x : px) : list token :=
  match x with
  | PNum s => [TNum s]
  | PId s => [TId s]
  | PPar x => sy "(" :: ptoks x ++ [sy ")"]
  | PMem a f => ptoks a ++ [sy "."; TId f]
  | PIdx a i => ptoks a ++ sy "[" :: ptoks i ++ [sy "]"]
  | PCall f x => ptoks f ++ sy "(" :: ptoks x ++ [sy ")"]
  | PUn s x => sy s :: ptoks x
  | PBin s a b => ptoks a ++ optok s :: ptoks b
  | PArr a f => ptoks a ++ [sy "->"; TId f]
  | PCast t x => sy "(" :: cty_toks t ++ sy ")" :: ptoks x
  end.
Fixpoint tree (x : px) : node :=
  match x with
  | PNum s => NNum s
  | PId s => NId s
  | PPar x => tree x
  | PMem a f => NMem (tree a) (cs ".") f
  | PIdx a i => NIdx (tree a) (tree i)
  | PCall f x => NCall (tree f) [tree x]
  | PUn s x => NUn (cs s) (tree x)
  | PBin s a b => NBin (cs s) (tree a) (tree b)
  | PArr a f => NMem (tree a) (cs "->") f
  | PCast t x => NCast (cty_text t) (tree x)
  end.

Definition prim (x : px) : bool := match x with PUn _ _ | PBin _ _ _ | PCast _ _ => false | _ => true end.
Definition bin_lev (g : olang) (s : string) : Z :=
  match find_op (infix g) (optok s) with Some (l, _, _) => l | None => 0 end.
Definition lev (g : olang) (x : px) : Z :=
  match x with PUn _ _ => sign g | PCast _ _ => 13 | PBin s _ _ => bin_lev g s | _ => 100 end.
Definition int_lit (s : chars) : bool :=
  match s with c :: r => is_num c && forallb is_word r | [] => false end.
Definition name_okb (f : chars) : bool := match f with c :: r => is_alpha c && forallb is_word r | [] => false end.
(** The last token is a number. *)
Fixpoint ends_num (x : px) : bool :=
  match x with PNum _ => true | PUn _ x => ends_num x | PBin _ _ b => ends_num b | PCast _ x => ends_num x | _ => false end.
Definition plain_id (g : olang) (s : chars) : bool :=
  name_okb s && negb (is_keyword g s) && negb (type_start g s) && match find_op (prefix g) (TId s) with None => true | Some _ => false end.
Definition not_rp (l : list token) : bool := match l with t :: _ => negb (tok_eq t (sy ")")) | [] => false end.
Definition bin_ok (g : olang) (s : string) : bool :=
  match find_op (infix g) (optok s) with
  | Some (l, r, na) => (0 <? l) && (r =? l + 1) && negb na && (l <? 100)
  | None => false
  end && (if name_okb (cs s) then true else chk g (cs s) " ") && post_tok (optok s) && negb (if list_eq_dec ascii_dec (cs s) (cs "**") then true else false).
Definition un_okb (g : olang) (s : string) (next : chars) : bool :=
  match find_op (prefix g) (sy s) with Some q => q =? sign g | None => false end &&
  match next with c :: _ => chk g (cs s) c | [] => false end.
Definition cty_ok (g : olang) (t : cty) : bool :=
  match t with
  | CtS t => is_cast g t && name_okb t
  | CtP t | CtCP t => c_like g && is_cast g t && name_okb t
  | CtE e => c_like g && name_okb e
  end.
Fixpoint pwf (g : olang) (x : px) : bool :=
  match x with
  | PNum s => int_lit s
  | PId s => plain_id g s
  | PPar x => pwf g x
  | PMem a f => pwf g a && prim a && negb (ends_num a) && name_okb f
  | PIdx a i => pwf g a && prim a && pwf g i
  | PCall f x => pwf g f && prim f && pwf g x && not_rp (ptoks x)
  | PUn s x => pwf g x && un_okb g s (show x) && (sign g <=? lev g x)
  | PBin s a b => pwf g a && pwf g b && bin_ok g s && (bin_lev g s <=? lev g a) && (bin_lev g s + 1 <=? lev g b)
  | PArr a f => c_like g && pwf g a && prim a && negb (ends_num a) && name_okb f
  | PCast t x => cty_ok g t && pwf g x && (13 <=? lev g x)
  end.

Ltac bools := repeat match goal with
  | H : _ && _ = true |- _ => apply andb_true_iff in H as [? ?]
  | H : negb _ = true |- _ => apply negb_true_iff in H
  | H : (_ <=? _) = true |- _ => apply Z.leb_le in H
  | H : (_ <? _) = true |- _ => apply Z.ltb_lt in H
  | H : (_ =? _) = true |- _ => apply Z.eqb_eq in H
  end.

(** ** Lexing *)

Definition edge (l : chars) : Prop :=
  match l with c :: _ => is_word c = false /\ c <> "."%char /\ c <> "+"%char /\ c <> "-"%char | [] => True end.
Lemma name_okb_ok f : name_okb f = true -> name_ok f.
Proof. destruct f; cbn; [discriminate|]. intros H. now apply andb_true_iff in H. Qed.
Lemma lex_int g s m ts : int_lit s = true -> edge m -> lexes g m ts -> lexes g (s ++ m) (TNum s :: ts).
Proof.
  intros H E L. destruct s as [|c r]; [discriminate|]. cbn [int_lit] in H. apply andb_true_iff in H as [H1 H2]. cbn [app].
  eapply lex_num; [exact H1| |exact L].
  clear H1 L. revert c. induction r as [|d r IH]; intros c; cbn [app].
  - destruct m as [|x m]; [reflexivity|]. cbn [edge] in E. destruct E as (E1 & E2 & E3 & E4). cbn [num_run].
    rewrite E1. apply Ascii.eqb_neq in E2, E3, E4. rewrite E2, E3, E4. reflexivity.
  - cbn [forallb] in H2. apply andb_true_iff in H2 as [H2 H3]. cbn [num_run]. rewrite H2. cbn [orb]. now rewrite (IH H3 d).
Qed.
Lemma solid_lp g : solid g (cs "(") = true. Proof. destruct g; vm_compute; reflexivity. Qed.
Lemma solid_rp g : solid g (cs ")") = true. Proof. destruct g; vm_compute; reflexivity. Qed.
Lemma solid_lb g : solid g (cs "[") = true. Proof. destruct g; vm_compute; reflexivity. Qed.
Lemma solid_rb g : solid g (cs "]") = true. Proof. destruct g; vm_compute; reflexivity. Qed.

Lemma solid_star g : c_like g = true -> chk g (cs "*") ")"%char = true. Proof. destruct g; vm_compute; auto. Qed.
Lemma lex_cty g t m ts : cty_ok g t = true -> lexes g (cs ")" ++ m) ts -> lexes g (cty_text t ++ cs ")" ++ m) (cty_toks t ++ ts).
Proof.
  destruct t as [t|t|t|e]; cbn [cty_ok cty_text cty_toks]; intros W L; bools.
  - apply (lex_name g t); [now apply name_okb_ok|reflexivity|exact L].
  - rewrite <- app_assoc. apply (lex_name g t); [now apply name_okb_ok|reflexivity|].
    apply (lex_op g (cs "*") ")"%char m); [now apply solid_star|exact L].
  - change (cs "const " ++ t ++ cs "*") with (cs "const" ++ " "%char :: t ++ cs "*"). rewrite <- app_assoc.
    apply (lex_name g (cs "const")); [now vm_compute|reflexivity|]. cbn [app]. constructor. rewrite <- app_assoc.
    apply (lex_name g t); [now apply name_okb_ok|reflexivity|].
    apply (lex_op g (cs "*") ")"%char m); [now apply solid_star|exact L].
  - change (cs "enum " ++ e) with (cs "enum" ++ " "%char :: e). rewrite <- app_assoc.
    apply (lex_name g (cs "enum")); [now vm_compute|reflexivity|]. cbn [app]. constructor.
    apply (lex_name g e); [now apply name_okb_ok|reflexivity|exact L].
Qed.
Lemma lex_px g x : pwf g x = true -> forall m ts, stops m -> (ends_num x = true -> edge m) -> lexes g m ts ->
  lexes g (show x ++ m) (ptoks x ++ ts).
Proof.
  induction x as [s|s|x IH|a IHa f|a IHa i IHi|f IHf x IHx|s x IH|s a IHa b IHb|a IHa f|t x IH]; intros W m ts S E L; cbn [pwf] in W; cbn [show ptoks].
  - apply lex_int; auto.
  - unfold plain_id in W. bools. apply lex_name; auto. now apply name_okb_ok.
  - rewrite <- app_assoc, <- app_comm_cons. apply (lex_solid g (cs "(")); [apply solid_lp|]. rewrite <- !app_assoc. apply IH; auto.
    + reflexivity.
    + intros _. repeat split; discriminate.
    + apply (lex_solid g (cs ")")); [apply solid_rp|exact L].
  - bools. rewrite <- !app_assoc. apply IHa; auto.
    + reflexivity.
    + intros X. congruence.
    + destruct f as [|c f]; [discriminate|]. assert (N : name_ok (c :: f)) by (now apply name_okb_ok).
      cbn [app]. apply (lex_op g (cs ".") c (f ++ m)). { exact (proj1 (mem_chk g c (proj1 N))). }
      apply (lex_name g (c :: f)); auto.
  - bools. rewrite <- !app_assoc. apply IHa; auto.
    + reflexivity.
    + intros X. repeat split; discriminate.
    + rewrite <- app_comm_cons. apply (lex_solid g (cs "[")); [apply solid_lb|]. rewrite <- !app_assoc. apply IHi; auto.
      * reflexivity.
      * intros X. repeat split; discriminate.
      * apply (lex_solid g (cs "]")); [apply solid_rb|exact L].
  - bools. rewrite <- !app_assoc. apply IHf; auto.
    + reflexivity.
    + intros X. repeat split; discriminate.
    + rewrite <- app_comm_cons. apply (lex_solid g (cs "(")); [apply solid_lp|]. rewrite <- !app_assoc. apply IHx; auto.
      * reflexivity.
      * intros X. repeat split; discriminate.
      * apply (lex_solid g (cs ")")); [apply solid_rp|exact L].
  - unfold un_okb in W. bools. rewrite <- app_assoc. cbn [app].
    assert (Q : lexes g (show x ++ m) (ptoks x ++ ts)).
    { apply IH; auto. }
    destruct (show x) as [|c r]; [discriminate|]. apply lex_op; auto.
  - unfold bin_ok in W. bools. rewrite <- !app_assoc. apply IHa; auto.
    + reflexivity.
    + intros X. repeat split; discriminate.
    + cbn [app]. constructor. assert (Q : lexes g (show b ++ m) (ptoks b ++ ts)).
      { apply IHb; auto. }
      unfold optok. destruct (name_okb (cs s)) eqn:N.
      * pose proof (name_okb_ok _ N) as N'. destruct (cs s) as [|c r] eqn:C; [discriminate|].
        destruct N' as [N1 N2]. rewrite N1. unfold kw. rewrite C. apply (lex_name g (c :: r)); [now split|reflexivity|].
        constructor. exact Q.
      * destruct (cs s) as [|c r] eqn:C.
        { cbn in *. unfold chk in *. bools. discriminate. }
        assert (A : is_alpha c = false).
        { match goal with H : chk _ _ _ = true |- _ => unfold chk in H end. bools. unfold is_word in *.
          match goal with H : _ || _ = false |- _ => apply orb_false_iff in H as [_ H] end. assumption. }
        rewrite A. unfold sy. rewrite C. apply lex_op; auto. constructor. exact Q.
  - bools. rewrite <- !app_assoc. apply IHa; auto.
    + reflexivity.
    + intros X. congruence.
    + destruct f as [|c f]; [discriminate|]. assert (N : name_ok (c :: f)) by (now apply name_okb_ok).
      cbn [app]. apply (lex_op g (cs "->") c (f ++ m)). { exact (proj2 (mem_chk g c (proj1 N))). }
      apply (lex_name g (c :: f)); auto.
  - bools. rewrite <- app_comm_cons, <- app_assoc, <- !app_assoc. apply (lex_solid g (cs "(")); [apply solid_lp|].
    apply lex_cty; auto. cbn [app]. apply (lex_solid g (cs ")")); [apply solid_rp|]. apply IH; auto.
Qed.

(** ** Parsing *)

Definition follow (g : olang) (v : Z) (k : list token) : Prop :=
  match k with
  | t :: _ => post_tok t = true /\ tok_text t <> cs "**" /\
      match find_op (infix g) t with Some (l, _, _) => l <= v | None => True end
  | [] => True
  end.
Lemma follow_post g v k : follow g v k -> post_ok k.
Proof. destruct k; cbn; intuition. Qed.
Lemma follow_pow g v k : follow g v k -> pow_free g k.
Proof. destruct k as [|t k]; [destruct g; exact (fun _ => I)|]. intros (_ & H & _). destruct g; exact H || exact I. Qed.
Lemma follow_mono g v w k : v <= w -> follow g v k -> follow g w k.
Proof.
  destruct k as [|t k]; cbn; auto. intros H (A & B & C). repeat split; auto.
  destruct (find_op (infix g) t) as [[[l r] na]|]; auto. lia.
Qed.
Lemma ploop_end g min a k : 0 < min ->
  match k with t :: _ => match find_op (infix g) t with Some (l, _, _) => l < min | None => True end | [] => True end ->
  ev (fun n => ploop g n min a k = Some (a, k)).
Proof.
  intros M H. apply ev_true. intros n. cbn [ploop]. destruct k as [|t k]; auto.
  destruct (find_op (infix g) t) as [[[l r] na]|].
  - apply Z.ltb_lt in H. now rewrite H.
  - apply Z.ltb_lt in M. destruct g; rewrite ?M; repeat match goal with |- context [if ?b then _ else _] => destruct b end; reflexivity.
Qed.
Lemma ploop_bin g n min a t r l na : find_op (infix g) t = Some (l, l + 1, na) -> na = false -> l <? min = false ->
  ploop g (S n) min a (t :: r) =
  match pexpr g n (l + 1) r with
  | Some (b, r') => ploop g n min (NBin (tok_text t) a b) r'
  | None => None
  end.
Proof.
  intros F -> H. cbn [ploop]. rewrite F, H. destruct (pexpr g n (l + 1) r) as [[b r']|]; auto.
  destruct r' as [|u r']; auto. destruct (find_op (infix g) u) as [[[l' x] y]|]; auto.
Qed.
Lemma ppost_dot g a f k Y : ev (fun n => ppost g n (NMem a (cs ".") f) k = Y) -> ev (fun n => ppost g n a (sy "." :: TId f :: k) = Y).
Proof. intros H. eapply ev_step; [exact H|]. intros n A. exact A. Qed.
Lemma ppost_arr g a f k Y : c_like g = true ->
  ev (fun n => ppost g n (NMem a (cs "->") f) k = Y) -> ev (fun n => ppost g n a (sy "->" :: TId f :: k) = Y).
Proof. intros C H. eapply ev_step; [exact H|]. intros n A. destruct g; discriminate || exact A. Qed.
Lemma cast_end_cty g t r : cty_ok g t = true -> exists h l, cty_toks t = TId h :: l /\
  cast_end g h (l ++ sy ")" :: r) = Some (cty_text t, r).
Proof.
  assert (K : forall u : token, tok_eq u u = true) by apply tok_eq_refl.
  destruct t as [t|t|t|e]; cbn [cty_ok cty_text cty_toks]; intros W; bools; eexists; eexists; (split; [reflexivity|]); cbn [app cast_end sy].
  - match goal with H : is_cast g t = true |- _ => rewrite H end. reflexivity.
  - match goal with H : is_cast g t = true |- _ => rewrite H end. match goal with H : c_like g = true |- _ => rewrite H end. reflexivity.
  - match goal with H : is_cast g t = true |- _ => rewrite H end. match goal with H : c_like g = true |- _ => rewrite H end. reflexivity.
  - match goal with H : c_like g = true |- _ => rewrite H end. reflexivity.
Qed.
Lemma ppost_idx_eq g n a l : ppost g (S n) a (sy "[" :: l) =
  match pexpr g n 0 l with
  | Some (i, r1) => match expect (sy "]") r1 with Some r2 => ppost g n (NIdx a i) r2 | None => None end
  | None => None
  end.
Proof. reflexivity. Qed.
Lemma ppost_idx g a l i k Y : ev (fun n => pexpr g n 0 (l ++ sy "]" :: k) = Some (i, sy "]" :: k)) ->
  ev (fun n => ppost g n (NIdx a i) k = Y) -> ev (fun n => ppost g n a (sy "[" :: l ++ sy "]" :: k) = Y).
Proof.
  intros H1 H2. eapply ev_step2; [exact H1|exact H2|]. intros n A B. cbv beta. rewrite ppost_idx_eq, A, expect_eq. exact B.
Qed.
Lemma ppost_call_eq g n a u l : tok_eq u (sy ")") = false -> ppost g (S n) a (sy "(" :: u :: l) =
  match pargs g n (u :: l) with Some (args, r2) => ppost g n (NCall a args) r2 | None => None end.
Proof.
  intros H. transitivity (if tok_eq u (sy ")") then ppost g n (NCall a []) l else
    match pargs g n (u :: l) with Some (args, r2) => ppost g n (NCall a args) r2 | None => None end); [reflexivity|now rewrite H].
Qed.
Lemma ppost_call1 g a l x k Y : not_rp l = true -> ev (fun n => pexpr g n 0 (l ++ sy ")" :: k) = Some (x, sy ")" :: k)) ->
  ev (fun n => ppost g n (NCall a [x]) k = Y) -> ev (fun n => ppost g n a (sy "(" :: l ++ sy ")" :: k) = Y).
Proof.
  intros N H1 H2. destruct l as [|u l]; [discriminate|]. cbn [not_rp] in N. apply negb_true_iff in N. cbn [app] in *.
  assert (P : ev (fun n => pargs g n (u :: l ++ sy ")" :: k) = Some ([x], k))).
  { eapply ev_step; [exact H1|]. intros n A. cbv beta. rewrite pargs_S, A. reflexivity. }
  eapply ev_step2; [exact P|exact H2|]. intros n A B. cbv beta. rewrite ppost_call_eq, A by exact N. exact B.
Qed.
Lemma rb_closing g k : closing g (sy "]" :: k).
Proof. destruct g; vm_compute; reflexivity. Qed.
Lemma closing_follow g v k : closing g k -> follow g v k.
Proof. destruct k as [|t k]; cbn; auto. intros H. apply stop_parts in H as (A & B & _ & _ & C). rewrite B. auto. Qed.
Lemma ptoks_head g x k : pwf g x = true -> head_ok g (ptoks x ++ k).
Proof.
  revert k. induction x as [s|s|x IH|a IHa f|a IHa i IHi|f IHf x IHx|s x IH|s a IHa b IHb|a IHa f|t x IH]; intros k W; cbn [pwf] in W; cbn [ptoks app];
    try exact I; bools; rewrite <- ?app_assoc; auto.
  unfold plain_id in W. bools. assumption.
Qed.
Lemma bin_lev_pos g s : bin_ok g s = true -> find_op (infix g) (optok s) = Some (bin_lev g s, bin_lev g s + 1, false) /\
  0 < bin_lev g s < 100 /\ post_tok (optok s) = true /\ tok_text (optok s) <> cs "**" /\ tok_text (optok s) = cs s.
Proof.
  unfold bin_ok, bin_lev. intros H. bools.
  assert (T : tok_text (optok s) = cs s) by (unfold optok; destruct (cs s) as [|c r] eqn:C; [exact C|destruct (is_alpha c); exact C]).
  destruct (find_op (infix g) (optok s)) as [[[l r] na]|]; [|discriminate]. bools. subst. repeat split; auto.
  rewrite T. intros X. rewrite X in *. destruct (list_eq_dec ascii_dec (cs "**") (cs "**")); congruence.
Qed.
Lemma lev_pos g x : pwf g x = true -> 0 < lev g x.
Proof.
  destruct x; cbn [pwf lev]; intros H; try lia.
  - destruct g; cbn; lia.
  - bools. match goal with H : bin_ok _ _ = true |- _ => apply bin_lev_pos in H end. lia.
Qed.

Definition parse1 (g : olang) (x : px) : Prop :=
  forall k min R, follow g (lev g x) k -> min <= lev g x ->
    ev (fun n => ploop g n min (tree x) k = R) -> ev (fun n => pexpr g n min (ptoks x ++ k) = R).
Definition parse2 (g : olang) (x : px) : Prop :=
  forall k min Y, ev (fun n => ppost g n (tree x) k = Y) -> ev (fun n => pprefix g n min (ptoks x ++ k) = Y).
Lemma parse2_1 g x : prim x = true -> parse2 g x -> parse1 g x.
Proof.
  intros P H k min R F M L. pose proof (H k min _ (ppost_stop g (tree x) k (follow_post _ _ _ F))) as Q.
  eapply ev_step2; [exact Q|exact L|]. intros n A B. cbv beta. rewrite pexpr_S, A. exact B.
Qed.
Lemma closed_parse g x k : pwf g x = true -> parse1 g x -> closing g k -> ev (fun n => pexpr g n 0 (ptoks x ++ k) = Some (tree x, k)).
Proof.
  intros W P C. apply P; [now apply closing_follow| |now apply ploop_stop]. apply lev_pos in W. lia.
Qed.
Lemma parse_px g x : pwf g x = true -> parse1 g x /\ (prim x = true -> parse2 g x).
Proof.
  induction x as [s|s|x IH|a IHa f|a IHa i IHi|f IHf x IHx|s x IH|s a IHa b IHb|a IHa f|t x IH]; intros W; cbn [pwf] in W.
  1-6: match goal with |- parse1 ?g ?x /\ _ => assert (Q : parse2 g x); [|split; [now apply parse2_1|intros _; exact Q]] end; unfold parse2; cbn [tree ptoks].
  - intros k min Y HY. eapply ev_step; [exact HY|]. intros n A. cbv beta. cbn [app]. rewrite pprefix_num. exact A.
  - unfold plain_id in W. bools. intros k min Y HY. eapply ev_step; [exact HY|]. intros n A. cbv beta. cbn [app].
    destruct (find_op (prefix g) (TId s)) eqn:F; [discriminate|].
    rewrite pprefix_id by auto. exact A.
  - destruct (IH W) as [I1 _]. intros k min Y H.
    pose proof (closed_parse g x (sy ")" :: k) W I1 (rp_closing g k)) as Q.
    rewrite <- app_comm_cons, <- app_assoc. cbn [app].
    assert (Q2 : ev (fun n => pparen g n (ptoks x ++ sy ")" :: k) = Y)).
    { eapply ev_step2; [exact Q|exact H|]. intros n A B. cbv beta. rewrite pparen_S, A, expect_eq. exact B. }
    eapply ev_step; [exact Q2|]. intros n A. cbv beta. rewrite pprefix_lp; [exact A|]. now apply ptoks_head.
  - bools. destruct IHa as [_ I2]; auto. intros k min Y HY. rewrite <- app_assoc. apply I2; auto. cbn [app]. now apply ppost_dot.
  - bools. destruct IHa as [_ I2]; auto. destruct IHi as [J1 _]; auto. intros k min Y HY. rewrite <- app_assoc. apply I2; auto.
    cbn [app]. rewrite <- app_assoc. cbn [app]. apply ppost_idx with (i := tree i); auto.
    apply closed_parse; auto. apply rb_closing.
  - bools. destruct IHf as [_ I2]; auto. destruct IHx as [J1 _]; auto. intros k min Y HY. rewrite <- app_assoc. apply I2; auto.
    cbn [app]. rewrite <- app_assoc. cbn [app]. apply ppost_call1 with (x := tree x); auto.
    apply closed_parse; auto. apply rp_closing.
  - split; [|discriminate]. unfold un_okb in W. bools. destruct IH as [I1 _]; auto.
    intros k min R F M L. cbn [ptoks lev tree app] in *.
    destruct (find_op (prefix g) (sy s)) as [q|] eqn:Fq; [|discriminate]. bools. subst q.
    assert (E : ev (fun n => pexpr g n (sign g) (ptoks x ++ k) = Some (tree x, k))).
    { apply I1; auto. - eapply follow_mono; [|exact F]. assumption.
      - apply ploop_high. eapply follow_pow; exact F. }
    assert (U : ev (fun n => pprefix g n min (sy s :: ptoks x ++ k) = Some (NUn (cs s) (tree x), k))).
    { eapply ev_step; [eapply ev_step; [exact E|]|].
      - intros n A. refine ((_ : (fun n => punary g n (sy s) (sign g) (ptoks x ++ k) = Some (NUn (cs s) (tree x), k)) (S n))). cbv beta.
        rewrite punary_S, A. destruct k as [|u k]; [reflexivity|].
        destruct (js_like g && tok_eq u (sy "**")) eqn:J; [|reflexivity]. exfalso. apply andb_true_iff in J as [_ J].
        apply tok_eq_eq in J. subst u. cbn [follow] in F. destruct F as (_ & F & _). apply F. reflexivity.
      - intros n A. cbv beta. rewrite (pprefix_op g n min _ _ (sign g)); auto. apply Z.ltb_ge. exact M. }
    eapply ev_step2; [exact U|exact L|]. intros n A B. cbv beta. rewrite pexpr_S, A. exact B.
  - split; [|discriminate]. bools. destruct IHa as [I1 _]; auto. destruct IHb as [J1 _]; auto.
    match goal with H : bin_ok _ _ = true |- _ => apply bin_lev_pos in H as (Hf & Hl & Hp & Hs & Ht) end.
    intros k min R F M L. cbn [ptoks lev tree] in *. rewrite <- app_assoc, <- app_comm_cons.
    apply I1.
    + cbn [follow]. rewrite Hf. auto.
    + lia.
    + assert (E : ev (fun n => pexpr g n (bin_lev g s + 1) (ptoks b ++ k) = Some (tree b, k))).
      { apply J1; auto. - eapply follow_mono; [|exact F]. lia.
        - apply ploop_end; [lia|]. destruct k as [|t k]; auto. cbn [follow] in F. destruct F as (_ & _ & F).
          destruct (find_op (infix g) t) as [[[l r] na]|]; auto. lia. }
      eapply ev_step2; [exact E|exact L|]. intros n A B. cbv beta.
      rewrite (ploop_bin g n min _ _ _ (bin_lev g s) false Hf eq_refl) by (apply Z.ltb_ge; exact M).
      rewrite A, Ht. exact B.
  - match goal with |- parse1 ?g ?x /\ _ => assert (Q : parse2 g x); [|split; [now apply parse2_1|intros _; exact Q]] end; unfold parse2; cbn [tree ptoks].
    bools. destruct IHa as [_ I2]; auto. intros k min Y HY. rewrite <- app_assoc. apply I2; auto. cbn [app]. now apply ppost_arr.
  - split; [|discriminate]. bools. destruct IH as [I1 _]; auto.
    intros k min R F M L. cbn [ptoks lev tree app] in *. rewrite <- app_assoc. cbn [app].
    assert (S13 : sign g = 13) by (destruct t, g; try reflexivity; discriminate).
    assert (E : ev (fun n => pexpr g n 13 (ptoks x ++ k) = Some (tree x, k))).
    { apply I1; auto. - eapply follow_mono; [|exact F]. assumption.
      - rewrite <- S13. apply ploop_high. eapply follow_pow; exact F. }
    destruct (cast_end_cty g t (ptoks x ++ k)) as (h & l & T1 & T2); auto.
    eapply ev_step2; [eapply ev_step; [exact E|]|exact L|].
    + intros n A. refine ((_ : (fun n => pprefix g n min (sy "(" :: cty_toks t ++ sy ")" :: ptoks x ++ k) = Some (NCast (cty_text t) (tree x), k)) (S n))).
      cbv beta. rewrite T1. cbn [app]. rewrite (pprefix_castn g n min h l _ _ _ T2), A. reflexivity.
    + intros n A B. cbv beta in *. rewrite pexpr_S, A. exact B.
Qed.

Theorem show_reads g x : pwf g x = true -> reads_as g (show x) (tree x).
Proof.
  intros W. exists (ptoks x). split.
  - rewrite <- (app_nil_r (show x)), <- (app_nil_r (ptoks x)). apply lex_px; auto.
    + exact I. + intros _; exact I. + constructor.
  - destruct (parse_px g x W) as [P _]. pose proof (closed_parse g x [] W P I) as [n0 Q]. exists n0. intros n Hn.
    rewrite <- (app_nil_r (ptoks x)). now apply Q.
Qed.
