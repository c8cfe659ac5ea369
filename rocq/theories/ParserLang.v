(** Every derivation has a meant one with the same tokens: the rules that choose between trees reject nothing. *)
From Coq Require Import String Ascii List Bool Arith Lia ZArith.
From Verif Require Import Literals LexModel FrontModel ExprModel Syntax Parser ParserProofs ParserDecl.
Import ListNotations.
Open Scope string_scope.
Open Scope nat_scope.
Open Scope list_scope.

(** An expression as prefix operators and operands with operators between. *)
Inductive flat_e : list token -> Prop :=
| f_value m : tail m -> flat_e (fx "value" :: m)
| f_const c m : tail m -> flat_e (y_constant c ++ m)
| f_parens a m : flat_e a -> tail m -> flat_e (fx "(" :: a ++ fx ")" :: m)
| f_un o a : flat_e a -> flat_e (fx (un_tok o) :: a)
| f_cast b a : flat_e a -> flat_e (fx "(" :: y_basic b ++ fx ")" :: a)
with tail : list token -> Prop :=
| t_nil : tail []
| t_bin o a : flat_e a -> tail (fx (bin_tok o) :: a)
| t_tern a b : flat_e a -> flat_e b -> tail (fx "?" :: a ++ fx ":" :: b).
Scheme flat_mind := Induction for flat_e Sort Prop with tail_mind := Induction for tail Sort Prop.
Combined Scheme flat_tail_ind from flat_mind, tail_mind.

Lemma flat_app : (forall a, flat_e a -> forall m, tail m -> flat_e (a ++ m)) /\ (forall a, tail a -> forall m, tail m -> tail (a ++ m)).
Proof.
  apply (flat_tail_ind (fun a _ => forall m, tail m -> flat_e (a ++ m)) (fun a _ => forall m, tail m -> tail (a ++ m)));
    intros; flat; auto; try (constructor; auto; fail).
Qed.
Lemma flat_expr e : flat_e (y_expr e).
Proof.
  induction e as [|c|e IH|o e IH|b e IH|o l IHl r IHr|c IHc a IHa b IHb]; cbn [y_expr].
  - repeat constructor.
  - rewrite <- (app_nil_r (y_constant c)). repeat constructor.
  - apply (f_parens _ []); auto. constructor.
  - now constructor.
  - now constructor.
  - apply flat_app; auto. now constructor.
  - apply flat_app; auto. now constructor.
Qed.
Lemma flat_first a k : flat_e a -> next is_basic (a ++ k) = false /\ a <> [].
Proof.
  intros [m _|c m _|b m _ _|o b _|b c _]; cbn; try (split; [reflexivity|discriminate]).
  - destruct c as [[[]|]|[[]|]| |]; split; reflexivity || discriminate.
  - destruct o; split; reflexivity || discriminate.
Qed.
Lemma flat_number a : flat_e a -> unsigned_number a ->
  exists f t m, a = (if f : bool then KFloat else KInt, t) :: m /\ tail m.
Proof.
  intros [m H|c m H|b m Hb H|o b H|b c H] (kd & t & r & E & K).
  - injection E as <- _. destruct K; discriminate.
  - destruct c as [[[]|] u|[[]|] u|u|u]; cbn in E; injection E as <- E1; destruct K; try discriminate.
    + exists false, u, m. auto.
    + exists true, u, m. auto.
  - injection E as <- _. destruct K; discriminate.
  - injection E as <- _. destruct K; discriminate.
  - injection E as <- _. destruct K; discriminate.
Qed.
Lemma tail_end m k p : tail m -> stops p (m ++ k) -> p = 0 -> m = [].
Proof.
  intros [|o a _|a b _ _] St ->; auto.
  - assert (18 - alternative o < 0) by (apply St; left; exists o; now rewrite bin_of_ok). lia.
  - assert (18 - alt_tern < 0) by (apply St; right; auto). lia.
Qed.
Lemma stop_expr_level n p ts e k : p <= 17 -> p_expr n p ts = Some (e, k) -> stops p k.
Proof. intros P H. now apply expr_sound in H. Qed.
Lemma expr_parens' n p a k : next is_basic (a ++ k) = false -> p_expr (S n) p (fx "(" :: a ++ k) =
  (let* e := (let* e := p_expr n 0 in let* _ := p_fx ")" in ret (PParens e)) in p_loop n p e) (a ++ k).
Proof.
  intros F. rewrite expr_head. unfold bind at 1. replace (next (is_fx "value") (fx "(" :: a ++ k)) with false by reflexivity.
  replace (p_constant (fx "(" :: a ++ k)) with (@None (constant * list token)).
  2:{ cbn. destruct (a ++ k) as [|[[] t] r]; reflexivity. }
  replace (next (is_fx "(") (fx "(" :: a ++ k)) with true by reflexivity.
  replace (next2 is_basic (fx "(" :: a ++ k)) with (next is_basic (a ++ k)).
  2:{ destruct (a ++ k); reflexivity. }
  rewrite F. rewrite (bind_ok _ _ _ _ _ (p_fx_ok "(" _)). reflexivity.
Qed.
Lemma unsigned_dec l : unsigned_number l \/ ~ unsigned_number l.
Proof.
  destruct l as [|[[] t] r]; try (right; intros (k & u & s & E & [-> | ->]); discriminate);
    left; eexists; eexists; eexists; eauto.
Qed.

Ltac lens' := do 6 (rewrite ?app_length in *; cbn [length y_basic app] in *).
Lemma total n :
  (forall p a k, p <= 17 -> flat_e a -> expr_end k -> 2 * length (a ++ k) + 2 <= n ->
     exists e m, p_expr n p (a ++ k) = Some (e, m ++ k) /\ tail m /\ length m < length a) /\
  (forall p e m k, p <= 17 -> tail m -> expr_end k -> 2 * length (m ++ k) + 1 <= n ->
     exists e' m', p_loop n p e (m ++ k) = Some (e', m' ++ k) /\ tail m' /\ length m' <= length m).
Proof.
  induction n as [|n [IHe IHl]]; [split; intros; lia|]. split.
  - intros p a k P Fa K L. destruct Fa as [m Hm|c m Hm|b m Hb Hm|o b Hb|b c Hc].
    + cbn [app]. rewrite expr_value. destruct (IHl p PValue m k) as (e & m' & E & T & Lm); auto; [lens'; lia|].
      exists e, m'. split; [exact E|]. split; [exact T|]. lens'; lia.
    + flat. rewrite expr_const. destruct (IHl p (PConst c) m k) as (e & m' & E & T & Lm); auto.
      { lens'. assert (1 <= length (y_constant c)) by (destruct c as [[[]|]|[[]|]| |]; cbn; lia). lia. }
      exists e, m'. split; [exact E|]. split; [exact T|].
      assert (1 <= length (y_constant c)) by (destruct c as [[[]|]|[[]|]| |]; cbn; lia). lens'; lia.
    + flat. destruct (flat_first b (fx ")" :: m ++ k) Hb) as [Fb _]. rewrite expr_parens' by exact Fb.
      destruct (IHe 0 b (fx ")" :: m ++ k)) as (e & m0 & E & T & Lm); auto; try lia; [intros i; now apply nofollow_cons|lens'; lia|].
      apply stop_expr_level in E as St; [|lia].
      apply tail_end in St; auto. subst m0. cbn [app] in E.
      rewrite (bind_ok _ _ _ (PParens e) (m ++ k)).
      2:{ rewrite (bind_ok _ _ _ _ _ E). now rewrite (bind_ok _ _ _ _ _ (p_fx_ok ")" _)). }
      destruct (IHl p (PParens e) m k) as (e' & m' & E' & T' & Lm'); auto; [lens'; lia|].
      exists e', m'. split; [exact E'|]. split; [exact T'|]. lens'; lia.
    + flat. destruct (unsigned_dec (b ++ k)) as [U|U].
      * destruct (flat_first b k Hb) as [_ Nb].
        apply unsigned_app in U; auto. destruct (flat_number b Hb U) as (f & t & m & -> & Hm).
        assert (D : (exists s, fx (un_tok o) :: (if f then KFloat else KInt, t) :: m ++ k =
                         y_constant (if f then CFloat (Some s) t else CInt (Some s) t) ++ m ++ k)
                    \/ o = UBnot \/ o = UNot).
        { destruct o; auto; left; [exists Plus|exists Minus]; destruct f; reflexivity. }
        destruct D as [(s & D)|D].
        -- match goal with |- exists e m0, p_expr _ _ ?l = _ /\ _ => assert (Dl : l = fx (un_tok o) :: (if f then KFloat else KInt, t) :: m ++ k) by reflexivity; rewrite Dl, D, expr_const; clear Dl end.
           destruct (IHl p (PConst (if f then CFloat (Some s) t else CInt (Some s) t)) m k) as (e' & m' & E' & T' & Lm'); auto; [lens'; lia|].
           exists e', m'. split; [exact E'|]. split; [exact T'|]. lens'; lia.
        -- rewrite expr_un by (intros [-> | ->]; destruct D; discriminate).
           destruct (IHe 13 ((if f then KFloat else KInt, t) :: m) k) as (e & m0 & E & T & Lm); [lia|exact Hb|exact K|cbn [app length] in *; rewrite ?app_length in *; lia|].
           rewrite (bind_ok _ _ _ (PUn o e) (m0 ++ k)).
           2:{ rewrite (bind_ok _ _ _ _ _ E). reflexivity. }
           destruct (IHl p (PUn o e) m0 k) as (e' & m' & E' & T' & Lm'); auto; [lens'; lia|].
           exists e', m'. split; [exact E'|]. split; [exact T'|]. lens'; lia.
      * rewrite expr_un by auto.
        destruct (IHe 13 b k) as (e & m0 & E & T & Lm); auto; try lia; [lens'; lia|].
        rewrite (bind_ok _ _ _ (PUn o e) (m0 ++ k)).
        2:{ rewrite (bind_ok _ _ _ _ _ E). reflexivity. }
        destruct (IHl p (PUn o e) m0 k) as (e' & m' & E' & T' & Lm'); auto; [lens'; lia|].
        exists e', m'. split; [exact E'|]. split; [exact T'|]. lens'; lia.
    + flat. rewrite expr_cast.
      destruct (IHe 12 c k) as (e & m0 & E & T & Lm); auto; try lia; [lens'; lia|].
      rewrite (bind_ok _ _ _ (PCast b e) (m0 ++ k)).
      2:{ rewrite (bind_ok _ _ _ _ _ E). reflexivity. }
      destruct (IHl p (PCast b e) m0 k) as (e' & m' & E' & T' & Lm'); auto; [lens'; lia|].
      exists e', m'. split; [exact E'|]. split; [exact T'|]. lens'; lia.
  - intros p e m k P Tm K L. destruct Tm as [|o a Ha|a b Ha Hb].
    + exists e, []. cbn [app]. split; [|split; [constructor|auto]]. apply loop_stop. intros i Fi. destruct (K i Fi).
    + cbn [app]. rewrite loop_bin. destruct (p <=? prec o).
      * pose proof (alt_range o).
        destruct (IHe (prec_right o) a k) as (r & m0 & E & T & Lm); auto; [rewrite prec_right_alt; lia|lens'; lia|].
        rewrite (bind_ok _ _ _ _ _ E).
        destruct (IHl p (PBin o e r) m0 k) as (e' & m' & E' & T' & Lm'); auto; [lens'; lia|].
        exists e', m'. split; [exact E'|]. split; [exact T'|]. lens'; lia.
      * exists e, (fx (bin_tok o) :: a). split; [reflexivity|]. split; [now constructor|auto].
    + cbn [app]. destruct (Nat.le_gt_cases p 1) as [Hp|Hp].
      * rewrite loop_tern by exact Hp. flat.
        destruct (IHe 0 a (fx ":" :: b ++ k)) as (ea & m0 & E & T & Lm); auto; try lia; [intros i; now apply nofollow_cons|lens'; lia|].
        apply stop_expr_level in E as St; [|lia].
        apply tail_end in St; auto. subst m0. cbn [app] in E.
        rewrite (bind_ok _ _ _ _ _ E). rewrite (bind_ok _ _ _ _ _ (p_fx_ok ":" _)).
        destruct (IHe 2 b k) as (eb & m1 & E1 & T1 & L1); auto; try lia; [lens'; lia|].
        rewrite (bind_ok _ _ _ _ _ E1).
        destruct (IHl p (PTern e ea eb) m1 k) as (e' & m' & E' & T' & Lm'); auto; [lens'; lia|].
        exists e', m'. split; [exact E'|]. split; [exact T'|]. lens'; lia.
      * exists e, (fx "?" :: a ++ fx ":" :: b). split; [|split; [now constructor|auto]].
        cbn [app]. apply loop_stop. intros i [(o & Eo & _)|(_ & _ & ->)]; [discriminate|]. unfold alt_tern. lia.
Qed.

Theorem expr_meant e : exists e', y_expr e' = y_expr e /\ meant e'.
Proof.
  destruct (total (2 * length (y_expr e ++ []) + 2)) as [T _].
  destruct (T 0 (y_expr e) []) as (e' & m & E & Tm & _); auto; [lia|apply flat_expr|intros i []|].
  apply stop_expr_level in E as St; [|lia]. apply tail_end in St; auto. subst m. cbn [app] in E.
  apply expr_sound in E as (Y & (M & _) & _); [|lia].
  exists e'. rewrite !app_nil_r in Y. auto.
Qed.

(** Trees with the same tokens. *)
Lemma same_list {A} (y : A -> list token) (Q : A -> Prop) l :
  (forall a, In a l -> exists a', y a' = y a /\ Q a') -> exists l', flat_map y l' = flat_map y l /\ Forall Q l'.
Proof.
  induction l as [|a l IH]; intros H; [exists []; auto|].
  destruct (H a (or_introl eq_refl)) as (a' & E & Qa). destruct IH as (l' & E' & Ql); [intros; apply H; now right|].
  exists (a' :: l'). cbn. rewrite E, E'. auto.
Qed.
Lemma same_method m : exists m', y_method m' = y_method m /\ meant_method m'.
Proof.
  destruct m as [g n b e]. destruct (expr_meant e) as (e' & E & M).
  exists {| pm_get := g; pm_name := n; pm_type := b; pm_expr := e' |}. split; [|exact M].
  unfold y_method. cbn [pm_get pm_name pm_type pm_expr]. now rewrite E.
Qed.
Lemma Forall_fold (l : list pelement) : Forall meant_element l -> fold_right (fun e P => meant_element e /\ P) True l.
Proof. induction 1; cbn; auto. Qed.
Lemma same_type n : forall t, length (y_type t) <= n -> exists t', y_type t' = y_type t /\ meant_type t'.
Proof.
  induction n as [|n IH]; intros t L.
  { destruct (y_type_first t) as (x & r & E & _). rewrite E in L. cbn in L. lia. }
  destruct t as [b| | |nm|[nm s body]|nm|nm]; try (eexists; split; [reflexivity|exact I]).
  destruct (same_list y_element meant_element body) as (body' & E & M).
  - intros e Ie.
    assert (T : forall t, type_of_element e = Some t -> exists t', y_type t' = y_type t /\ meant_type t').
    { intros t Et. apply IH. pose proof (type_in_struct nm s body e t Ie Et). cbn [y_type] in L. lia. }
    destruct e as [|sz o|b n0 sz r o|t a o|t a n0 sz o m]; try (eexists; split; [reflexivity|exact I]).
    + destruct (T t eq_refl) as (t' & Et & Mt). exists (LEmbed t' a o). cbn [y_element]. rewrite Et. auto.
    + destruct (T t eq_refl) as (t' & Et & Mt).
      destruct m as [l|].
      * destruct (same_list y_method meant_method l) as (l' & El & Ml); [intros; apply same_method|].
        exists (LNormal t' a n0 sz o (Some l')). cbn [y_element y_opt]. unfold y_methods, y_list. rewrite Et, El. split; [reflexivity|].
        cbn. auto.
      * exists (LNormal t' a n0 sz o None). cbn [y_element]. rewrite Et. split; [reflexivity|]. cbn. auto.
  - exists (XDef (PStruct nm s body')). cbn [y_type y_struct]. rewrite E. split; [reflexivity|].
    cbn [meant_type meant_struct]. now apply Forall_fold.
Qed.
Theorem file_meant f : exists f', yield f' = yield f /\ meant_file f'.
Proof.
  apply same_list. intros s _. destruct s as [t|p|o|e|d|]; try (eexists; split; [reflexivity|exact I]).
  destruct (same_type _ (XDef d) (le_n _)) as (t' & E & M).
  destruct t' as [b| | |nm|d'|nm|nm].
  5:{ exists (SStruct d'). split; [exact E|exact M]. }
  all: exfalso; destruct d as [n [[]|] b']; cbn [y_type y_struct] in E; try destruct b; discriminate.
Qed.
