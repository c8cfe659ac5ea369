(** Model of util/ordered_map.go (the generic insertion-ordered map used for units, packages,
    names, fields, options) and its refinement to a plain association list (property C30). *)
From Coq Require Import ZArith List Lia Bool.
From Verif Require Import Base.
Import ListNotations.
Open Scope Z_scope.

Section OrderedMap.
Variables (K V : Type).
Variable keqb : K -> K -> bool.                       (* Go's == on the comparable type K *)
Hypothesis keqb_spec : forall a b, reflect (a = b) (keqb a b).
Variables (dk : K) (dv : V).                          (* the zero values defaultK, defaultV *)

(** util/ordered_map.go:8-13.  The Go map [index] is a partial function.  Entry values are
    modelled as values (the Go slice holds them by value as well). *)
Record omap := OM { entries : list (K * V); index : K -> option Z }.

Definition iput (ix : K -> option Z) (k : K) (i : Z) : K -> option Z :=
  fun k' => if keqb k' k then Some i else ix k'.
Definition idel (ix : K -> option Z) (k : K) : K -> option Z :=
  fun k' => if keqb k' k then None else ix k'.

(** ordered_map.go:15-20 *)
Definition om_new : omap := OM [] (fun _ => None).

(** slice indexing m.entries[i]: a panic when out of range *)
Definition ent_at (l : list (K * V)) (i : Z) : res (K * V) :=
  if i <? 0 then Panic
  else match nth_error l (Z.to_nat i) with Some e => Ok e | None => Panic end.

(** ordered_map.go:55-62 *)
Definition om_put (m : omap) (k : K) (v : V) : omap * bool :=
  match index m k with
  | Some _ => (m, false)
  | None => (OM (entries m ++ [(k, v)]) (iput (index m) k (zlen (entries m))), true)
  end.

Fixpoint set_val (l : list (K * V)) (i : nat) (v : V) : list (K * V) :=
  match l, i with
  | [], _ => []
  | (k, _) :: t, O => (k, v) :: t
  | h :: t, S i' => h :: set_val t i' v
  end.

(** ordered_map.go:64-71 *)
Definition om_mustput (m : omap) (k : K) (v : V) : omap :=
  match index m k with
  | Some i => OM (set_val (entries m) (Z.to_nat i) v) (index m)
  | None => OM (entries m ++ [(k, v)]) (iput (index m) k (zlen (entries m)))
  end.

(** ordered_map.go:73-78; MustGet (80-85) is its first component *)
Definition om_get (m : omap) (k : K) : res (V * bool) :=
  match index m k with
  | Some i => do e <- ent_at (entries m) i; Ok (snd e, true)
  | None => Ok (dv, false)
  end.

(** ordered_map.go:87-90 *)
Definition om_has (m : omap) (k : K) : bool :=
  match index m k with Some _ => true | None => false end.

(** ordered_map.go:92-97 *)
Definition om_rank (m : omap) (k : K) : Z :=
  match index m k with Some i => i | None => -1 end.

(** ordered_map.go:99-102 *)
Definition om_clear (m : omap) : omap := OM [] (fun _ => None).

(** The loop of Remove (ordered_map.go:108-112): reindex the entries from [i] on. *)
Fixpoint reindex (l : list (K * V)) (i : Z) (ix : K -> option Z) : K -> option Z :=
  match l with
  | [] => ix
  | (k, _) :: t => reindex t (i + 1) (if keqb k dk then ix else iput ix k i)
  end.

(** ordered_map.go:104-114 *)
Definition om_remove (m : omap) (k : K) : omap :=
  match index m k with
  | Some i =>
      let n := Z.to_nat i in
      let es := firstn n (entries m) ++ skipn (S n) (entries m) in
      OM es (reindex (skipn n es) i (idel (index m) k))
  | None => m
  end.

(** ordered_map.go:145-147 *)
Definition om_putanon (m : omap) (v : V) : omap := OM (entries m ++ [(dk, v)]) (index m).

(** ordered_map.go:22-41.  [None] is the nil map returned when start > end; a slice expression
    with bounds outside the slice is a panic. *)
Definition om_sub (m : omap) (s e : Z) : res (option omap) :=
  let n := zlen (entries m) in
  let s := if s <? 0 then n + s else s in
  let e := if e <? 0 then n + e else e in
  if e <? s then Ok None
  else if (s <? 0) || (n <? e) then Panic
  else
    let es := firstn (Z.to_nat (e - s)) (skipn (Z.to_nat s) (entries m)) in
    Ok (Some (fold_left (fun c kv => if keqb (fst kv) dk then om_putanon c (snd kv)
                                     else fst (om_put c (fst kv) (snd kv))) es om_new)).

(** One call of the API and what it shows its caller. *)
Inductive op :=
| OPut (k : K) (v : V) | OMustPut (k : K) (v : V) | OGet (k : K) | OHas (k : K)
| ORank (k : K) | OClear | ORemove (k : K) | OLen | OKeys | OValues
| OIndex (i : Z) | OFirst | OLast | OPutAnon (v : V) | OSub (s e : Z).

Inductive out :=
| RUnit | RBool (b : bool) | RVal (v : V) (b : bool) | RInt (z : Z) | RKeys (l : list K)
| RVals (l : list V) | REnt (k : K) (v : V) | RNil | RMap (l : list (K * V)) | RPanic.

Definition rent (r : res (K * V)) : out :=
  match r with Ok (k, v) => REnt k v | _ => RPanic end.

(** Index 43-45, First 47-49, Last 51-53, Len 116-118, Keys 120-126, Values 128-134. *)
Definition step (m : omap) (o : op) : omap * out :=
  match o with
  | OPut k v => let '(m', b) := om_put m k v in (m', RBool b)
  | OMustPut k v => (om_mustput m k v, RUnit)
  | OGet k => (m, match om_get m k with Ok (v, b) => RVal v b | _ => RPanic end)
  | OHas k => (m, RBool (om_has m k))
  | ORank k => (m, RInt (om_rank m k))
  | OClear => (om_clear m, RUnit)
  | ORemove k => (om_remove m k, RUnit)
  | OLen => (m, RInt (zlen (entries m)))
  | OKeys => (m, RKeys (map fst (entries m)))
  | OValues => (m, RVals (map snd (entries m)))
  | OIndex i => (m, rent (ent_at (entries m) i))
  | OFirst => (m, rent (ent_at (entries m) 0))
  | OLast => (m, rent (ent_at (entries m) (zlen (entries m) - 1)))
  | OPutAnon v => (om_putanon m v, RUnit)
  | OSub s e => (m, match om_sub m s e with
                    | Ok (Some c) => RMap (entries c) | Ok None => RNil | _ => RPanic end)
  end.

Fixpoint run (m : omap) (ops : list op) : omap * list out :=
  match ops with
  | [] => (m, [])
  | o :: t => let '(m1, r) := step m o in let '(m2, rs) := run m1 t in (m2, r :: rs)
  end.

(** ** Specification: a list of entries, [Some k] for keyed ones, [None] for anonymous ones. *)
Definition alist := list (option K * V).
Definition keyed (k : K) (e : option K * V) : bool :=
  match fst e with Some k' => keqb k' k | None => false end.
Definition show (e : option K * V) : K * V :=
  (match fst e with Some k => k | None => dk end, snd e).
Fixpoint position (k : K) (a : alist) : option Z :=
  match a with
  | [] => None
  | e :: t => if keyed k e then Some 0 else option_map Z.succ (position k t)
  end.
Definition nthz (a : alist) (i : Z) : out :=
  if i <? 0 then RPanic
  else match nth_error a (Z.to_nat i) with
       | Some e => REnt (fst (show e)) (snd (show e)) | None => RPanic end.

Definition astep (a : alist) (o : op) : alist * out :=
  match o with
  | OPut k v => if existsb (keyed k) a then (a, RBool false)
                else (a ++ [(Some k, v)], RBool true)
  | OMustPut k v =>
      (if existsb (keyed k) a
       then map (fun e => if keyed k e then (fst e, v) else e) a
       else a ++ [(Some k, v)], RUnit)
  | OGet k => (a, match find (keyed k) a with
                  | Some e => RVal (snd e) true | None => RVal dv false end)
  | OHas k => (a, RBool (existsb (keyed k) a))
  | ORank k => (a, RInt (match position k a with Some i => i | None => -1 end))
  | OClear => ([], RUnit)
  | ORemove k => (filter (fun e => negb (keyed k e)) a, RUnit)
  | OLen => (a, RInt (zlen a))
  | OKeys => (a, RKeys (map (fun e => fst (show e)) a))
  | OValues => (a, RVals (map snd a))
  | OIndex i => (a, nthz a i)
  | OFirst => (a, nthz a 0)
  | OLast => (a, nthz a (zlen a - 1))
  | OPutAnon v => (a ++ [(None, v)], RUnit)
  | OSub s e =>
      let s := if s <? 0 then zlen a + s else s in
      let e := if e <? 0 then zlen a + e else e in
      (a, if e <? s then RNil
          else if (s <? 0) || (zlen a <? e) then RPanic
          else RMap (map show (firstn (Z.to_nat (e - s)) (skipn (Z.to_nat s) a))))
  end.

Fixpoint arun (a : alist) (ops : list op) : alist * list out :=
  match ops with
  | [] => (a, [])
  | o :: t => let '(a1, r) := astep a o in let '(a2, rs) := arun a1 t in (a2, r :: rs)
  end.

(** No call names the zero key (the library reserves it for anonymous entries). *)
Definition op_ok (o : op) : Prop :=
  match o with
  | OPut k _ | OMustPut k _ | OGet k | OHas k | ORank k | ORemove k => k <> dk
  | _ => True
  end.

(** ** Refinement *)
Definition skeys (a : alist) : list K :=
  flat_map (fun e => match fst e with Some k => [k] | None => [] end) a.

Definition R (m : omap) (a : alist) : Prop :=
  entries m = map show a /\ ~ In dk (skeys a) /\ NoDup (skeys a) /\
  (forall k, k <> dk -> index m k = position k a) .

Lemma keyed_spec k e : keyed k e = true <-> fst e = Some k.
Proof.
  unfold keyed. destruct (fst e) as [k'|]; [|split; discriminate].
  destruct (keqb_spec k' k); split; congruence.
Qed.

Lemma position_none k a : position k a = None <-> existsb (keyed k) a = false.
Proof.
  induction a as [|e t IH]; cbn [position existsb]; [split; auto|].
  destruct (keyed k e); cbn [orb]; [split; discriminate|].
  destruct (position k t); cbn [option_map]; split; intros H; try discriminate;
    try (apply IH in H; discriminate); [apply IH; reflexivity|reflexivity].
Qed.

Lemma position_existsb k a :
  existsb (keyed k) a = match position k a with Some _ => true | None => false end.
Proof.
  destruct (position k a) eqn:E.
  - destruct (existsb (keyed k) a) eqn:E'; [reflexivity|].
    apply position_none in E'. congruence.
  - apply position_none in E. exact E.
Qed.

Lemma position_some k a i : position k a = Some i ->
  exists l e r, a = l ++ e :: r /\ fst e = Some k /\ zlen l = i /\ existsb (keyed k) l = false.
Proof.
  revert i. induction a as [|e t IH]; cbn [position]; intros i H; [discriminate|].
  destruct (keyed k e) eqn:E.
  - injection H as <-. exists [], e, t. apply keyed_spec in E.
    repeat split; try reflexivity. exact E.
  - destruct (position k t) eqn:P; [|discriminate]. cbn [option_map] in H. injection H as <-.
    destruct (IH _ eq_refl) as (l & e' & r & -> & Hf & Hl & Hn).
    exists (e :: l), e', r. split; [reflexivity|]. split; [exact Hf|]. split.
    + rewrite <- Hl. unfold zlen. cbn [length]. lia.
    + cbn [existsb]. rewrite E, Hn. reflexivity.
Qed.

Lemma skeys_app a b : skeys (a ++ b) = skeys a ++ skeys b.
Proof. apply flat_map_app. Qed.

Lemma existsb_skeys k a : existsb (keyed k) a = true <-> In k (skeys a).
Proof.
  unfold skeys. rewrite in_flat_map, existsb_exists. split; intros (e & Hin & H); exists e; split; auto.
  - apply keyed_spec in H. rewrite H. left; reflexivity.
  - apply keyed_spec. destruct (fst e); [destruct H as [->|[]]; reflexivity|destruct H].
Qed.

Lemma position_app_l k a b : existsb (keyed k) a = false ->
  position k (a ++ b) = option_map (Z.add (zlen a)) (position k b).
Proof.
  induction a as [|e t IH]; cbn [existsb app position]; intros H.
  - destruct (position k b); reflexivity.
  - apply orb_false_elim in H as [H1 H2]. rewrite H1, IH by assumption.
    destruct (position k b); [|reflexivity]. cbn [option_map]. f_equal.
    unfold zlen. cbn [length]. lia.
Qed.

Lemma position_app_r k a b : existsb (keyed k) a = true -> position k (a ++ b) = position k a.
Proof.
  induction a as [|e t IH]; cbn [existsb app position]; intros H; [discriminate|].
  destruct (keyed k e); [reflexivity|]. cbn [orb] in H. rewrite IH by assumption. reflexivity.
Qed.

Lemma zlen_map {A B} (f : A -> B) l : zlen (map f l) = zlen l.
Proof. unfold zlen. rewrite map_length. reflexivity. Qed.

Lemma keqb_refl k : keqb k k = true.
Proof. destruct (keqb_spec k k); congruence. Qed.

Lemma R_new : R om_new [].
Proof.
  split; [reflexivity|]. split; [intros []|]. split; [constructor|]. reflexivity.
Qed.

Lemma R_append m a k v : R m a -> k <> dk -> position k a = None ->
  R (OM (entries m ++ [(k, v)]) (iput (index m) k (zlen (entries m)))) (a ++ [(Some k, v)]).
Proof.
  intros (He & Hd & Hn & Hi) Hk Hp. cbn [entries index].
  pose proof (proj1 (position_none k a) Hp) as Hx.
  assert (Hnin : ~ In k (skeys a)) by (rewrite <- existsb_skeys; congruence).
  repeat split; cbn [entries index].
  - rewrite map_app, He. reflexivity.
  - rewrite skeys_app, in_app_iff. cbn. intros [H|[H|[]]]; congruence.
  - rewrite skeys_app. cbn.
    apply NoDup_rev in Hn. rewrite <- (rev_involutive (skeys a ++ [k])). apply NoDup_rev.
    rewrite rev_app_distr. cbn. constructor; [rewrite <- in_rev; exact Hnin | exact Hn].
  - intros k' Hk'. unfold iput. destruct (keqb_spec k' k) as [->|Hne].
    + rewrite position_app_l by assumption. cbn [position keyed fst].
      unfold keyed; cbn [fst]. rewrite keqb_refl. cbn [option_map].
      rewrite He, zlen_map. f_equal. lia.
    + rewrite Hi by assumption. destruct (existsb (keyed k') a) eqn:E.
      * rewrite position_app_r by assumption. reflexivity.
      * rewrite position_app_l by assumption. cbn [position keyed fst]. unfold keyed; cbn [fst].
        destruct (keqb_spec k k'); [congruence|]. cbn [option_map].
        apply position_none. exact E.
Qed.

Lemma R_anon m a v : R m a -> R (om_putanon m v) (a ++ [(None, v)]).
Proof.
  intros (He & Hd & Hn & Hi). unfold om_putanon. repeat split; cbn [entries index].
  - rewrite map_app, He. reflexivity.
  - rewrite skeys_app. cbn. rewrite app_nil_r. exact Hd.
  - rewrite skeys_app. cbn. rewrite app_nil_r. exact Hn.
  - intros k Hk. rewrite Hi by assumption. destruct (existsb (keyed k) a) eqn:E.
    + rewrite position_app_r by assumption. reflexivity.
    + rewrite position_app_l by assumption. cbn. apply position_none. exact E.
Qed.

Lemma set_val_app l1 k v0 l2 v :
  set_val (l1 ++ (k, v0) :: l2) (length l1) v = l1 ++ (k, v) :: l2.
Proof. induction l1 as [|[? ?] t IH]; cbn; [reflexivity|]. rewrite IH. reflexivity. Qed.

Lemma map_keyed_id k v a : existsb (keyed k) a = false ->
  map (fun e => if keyed k e then (fst e, v) else e) a = a.
Proof.
  induction a as [|e t IH]; cbn [existsb map]; intros H; [reflexivity|].
  apply orb_false_elim in H as [H1 H2]. rewrite H1, IH by assumption. reflexivity.
Qed.

Lemma filter_keyed_id k a : existsb (keyed k) a = false ->
  filter (fun e => negb (keyed k e)) a = a.
Proof.
  induction a as [|e t IH]; cbn [existsb filter]; intros H; [reflexivity|].
  apply orb_false_elim in H as [H1 H2]. rewrite H1, IH by assumption. reflexivity.
Qed.

Lemma skeys_cons_some k v a : skeys ((Some k, v) :: a) = k :: skeys a.
Proof. reflexivity. Qed.

(** The split of a related list at a key, with the facts every operation needs. *)
Lemma R_split m a k i : R m a -> position k a = Some i ->
  exists l v r, a = l ++ (Some k, v) :: r /\ zlen l = i /\
    existsb (keyed k) l = false /\ existsb (keyed k) r = false.
Proof.
  intros (He & Hd & Hn & Hi) Hp.
  destruct (position_some _ _ _ Hp) as (l & [k' v] & r & -> & Hf & Hl & Hx).
  cbn [fst] in Hf. subst k'. exists l, v, r. repeat split; auto.
  destruct (existsb (keyed k) r) eqn:E; [|reflexivity]. exfalso.
  apply existsb_skeys in E. rewrite skeys_app, skeys_cons_some in Hn.
  apply NoDup_remove_2 in Hn. apply Hn. apply in_or_app. right; exact E.
Qed.

Lemma position_mid_other k k' l v v' r : k <> k' ->
  position k' (l ++ (Some k, v) :: r) = position k' (l ++ (Some k, v') :: r).
Proof.
  intros Hne. destruct (existsb (keyed k') l) eqn:E.
  - rewrite !position_app_r by assumption. reflexivity.
  - rewrite !position_app_l by assumption. reflexivity.
Qed.

Lemma R_set m l k v0 r v i : R m (l ++ (Some k, v0) :: r) -> zlen l = i ->
  existsb (keyed k) l = false ->
  R (OM (set_val (entries m) (Z.to_nat i) v) (index m)) (l ++ (Some k, v) :: r).
Proof.
  intros (He & Hd & Hn & Hi) Hl Hx. repeat split; cbn [entries index].
  - rewrite He, !map_app. cbn [map]. unfold show at 2. cbn [fst snd].
    replace (Z.to_nat i) with (length (map show l)) by (rewrite map_length; unfold zlen in Hl; lia).
    rewrite set_val_app. reflexivity.
  - rewrite skeys_app in *. exact Hd.
  - rewrite skeys_app in *. exact Hn.
  - intros k' Hk'. rewrite Hi by assumption. destruct (keqb_spec k k') as [->|Hne].
    + rewrite !position_app_l by assumption. cbn [position keyed fst]. reflexivity.
    + apply position_mid_other. exact Hne.
Qed.

Lemma reindex_spec b : forall (i : Z) ix k,
  k <> dk -> ~ In dk (skeys b) -> NoDup (skeys b) ->
  reindex (map show b) i ix k =
  match position k b with Some j => Some (i + j) | None => ix k end.
Proof.
  induction b as [|[[k0|] v] t IH]; intros i ix k Hk Hd Hn; cbn [map reindex position].
  - reflexivity.
  - rewrite skeys_cons_some in *. unfold show; cbn [fst snd]. fold show.
    destruct (keqb_spec k0 dk) as [->|Hk0]; [exfalso; apply Hd; left; reflexivity|].
    inversion Hn as [|? ? Hnin Hn']; subst.
    rewrite IH; auto; [|intro Hc; apply Hd; right; exact Hc].
    unfold keyed; cbn [fst]. unfold iput.
    destruct (keqb_spec k0 k) as [->|Hne].
    + rewrite keqb_refl. destruct (position k t) eqn:E; [|f_equal; lia].
      exfalso. apply Hnin. apply existsb_skeys. rewrite position_existsb, E. reflexivity.
    + destruct (position k t) as [j|]; cbn [option_map]; [f_equal; lia|].
      destruct (keqb_spec k k0); [congruence|reflexivity].
  - unfold show; cbn [fst snd]. fold show. rewrite keqb_refl. rewrite IH; auto.
    unfold keyed; cbn [fst]. destruct (position k t) as [j|]; cbn [option_map]; [f_equal; lia|reflexivity].
Qed.

Lemma R_remove m a k : R m a -> k <> dk ->
  R (om_remove m k) (filter (fun e => negb (keyed k e)) a).
Proof.
  intros HR Hk. pose proof HR as (He & Hd & Hn & Hi). unfold om_remove.
  rewrite Hi by assumption. destruct (position k a) as [i|] eqn:Hp.
  2:{ rewrite filter_keyed_id by (apply position_none; exact Hp). exact HR. }
  destruct (R_split _ _ _ _ HR Hp) as (l & v & r & -> & Hl & Hxl & Hxr).
  rewrite filter_app. cbn [filter]. replace (keyed k (Some k, v)) with true
    by (symmetry; apply keyed_spec; reflexivity). cbn [negb].
  rewrite !filter_keyed_id by assumption.
  assert (HL : Z.to_nat i = length (map show l)) by (rewrite map_length; unfold zlen in Hl; lia).
  assert (Hes : firstn (Z.to_nat i) (entries m) ++ skipn (S (Z.to_nat i)) (entries m)
                = map show l ++ map show r).
  { rewrite He, map_app. cbn [map]. rewrite HL. rewrite firstn_app, Nat.sub_diag, firstn_all.
    cbn [firstn]. rewrite app_nil_r. f_equal.
    rewrite skipn_app. rewrite skipn_all2 by lia.
    replace (S (length (map show l)) - length (map show l))%nat with 1%nat by lia. reflexivity. }
  rewrite Hes.
  assert (Hd' : ~ In dk (skeys (l ++ r))).
  { rewrite skeys_app in *. rewrite skeys_cons_some in Hd. intro Hc. apply Hd.
    apply in_app_or in Hc. apply in_or_app. destruct Hc; [left|right; right]; assumption. }
  assert (Hn' : NoDup (skeys (l ++ r))).
  { rewrite skeys_app in *. rewrite skeys_cons_some in Hn. apply NoDup_remove_1 in Hn. exact Hn. }
  repeat split; cbn [entries index]; auto.
  - rewrite map_app. reflexivity.
  - intros k' Hk'. rewrite HL, skipn_app, skipn_all, Nat.sub_diag. cbn [skipn app].
    rewrite reindex_spec; auto.
    + unfold idel. destruct (keqb_spec k' k) as [->|Hne].
      * rewrite position_app_l by assumption.
        rewrite (proj2 (position_none k r) Hxr). reflexivity.
      * rewrite Hi by assumption. destruct (existsb (keyed k') l) eqn:E.
        -- rewrite !position_app_r by assumption.
           destruct (position k' r) as [j|] eqn:E2; [|reflexivity]. exfalso.
           rewrite skeys_app in Hn'.
           apply existsb_skeys in E.
           assert (E3 : In k' (skeys r)) by (apply existsb_skeys; rewrite position_existsb, E2; reflexivity).
           clear - Hn' E E3. induction (skeys l) as [|x xs IH]; [destruct E|].
           cbn in Hn'. inversion Hn' as [|? ? Hx Hr]; subst. destruct E as [->|E].
           ++ apply Hx. apply in_or_app. right; exact E3.
           ++ apply IH; assumption.
        -- rewrite !position_app_l by assumption. cbn [position]. unfold keyed at 1; cbn [fst].
           destruct (keqb_spec k k'); [congruence|].
           destruct (position k' r); cbn [option_map]; [f_equal; lia|].
           reflexivity.
    + intro Hc. apply Hd'. rewrite skeys_app. apply in_or_app. right; exact Hc.
    + rewrite skeys_app in Hn'. clear - Hn'. induction (skeys l); [exact Hn'|].
      inversion Hn'; auto.
Qed.

Lemma ent_at_show a i : rent (ent_at (map show a) i) = nthz a i.
Proof.
  unfold ent_at, nthz. destruct (i <? 0); [reflexivity|].
  rewrite nth_error_map. destruct (nth_error a (Z.to_nat i)) as [e|]; cbn [option_map]; [|reflexivity].
  unfold rent. destruct (show e); reflexivity.
Qed.

Lemma sub_build a : forall m b, R m b -> ~ In dk (skeys (b ++ a)) -> NoDup (skeys (b ++ a)) ->
  R (fold_left (fun c kv => if keqb (fst kv) dk then om_putanon c (snd kv)
                            else fst (om_put c (fst kv) (snd kv))) (map show a) m) (b ++ a).
Proof.
  induction a as [|[[k|] v] t IH]; intros m b HR Hd Hn; cbn [map fold_left].
  - rewrite app_nil_r. exact HR.
  - unfold show at 2 3 4; cbn [fst snd].
    rewrite skeys_app, skeys_cons_some in Hd, Hn.
    assert (Hk : k <> dk). { intros ->. apply Hd. apply in_or_app. right; left; reflexivity. }
    destruct (keqb_spec k dk); [congruence|].
    assert (Hp : position k b = None).
    { apply position_none. destruct (existsb (keyed k) b) eqn:E; [|reflexivity]. exfalso.
      apply existsb_skeys in E. apply NoDup_remove_2 in Hn. apply Hn. apply in_or_app; left; exact E. }
    replace (b ++ (Some k, v) :: t) with ((b ++ [(Some k, v)]) ++ t)
      by (rewrite <- app_assoc; reflexivity).
    apply IH.
    + unfold om_put. pose proof HR as (_ & _ & _ & Hi). rewrite Hi, Hp by assumption. cbn [fst].
      apply R_append; assumption.
    + rewrite <- app_assoc, skeys_app. exact Hd.
    + rewrite <- app_assoc, skeys_app. exact Hn.
  - unfold show at 2 3 4; cbn [fst snd]. rewrite keqb_refl.
    replace (b ++ (None, v) :: t) with ((b ++ [(None, v)]) ++ t)
      by (rewrite <- app_assoc; reflexivity).
    apply IH.
    + apply R_anon. exact HR.
    + rewrite <- app_assoc. exact Hd.
    + rewrite <- app_assoc. exact Hn.
Qed.

Lemma skeys_seg a n p :
  (~ In dk (skeys a) -> ~ In dk (skeys (firstn n (skipn p a)))) /\
  (NoDup (skeys a) -> NoDup (skeys (firstn n (skipn p a)))).
Proof.
  rewrite <- (firstn_skipn p a) at 1 3.
  rewrite <- (firstn_skipn n (skipn p a)) at 1 3.
  rewrite !skeys_app. split.
  - intros H Hc. apply H. apply in_or_app; right. apply in_or_app; left; exact Hc.
  - intros H. induction (skeys (firstn p a)); cbn in H; [|inversion H; auto].
    induction (skeys (firstn n (skipn p a))); [constructor|]. cbn in H.
    inversion H as [|? ? H1 H2]; subst. constructor; auto.
    intro Hc; apply H1; apply in_or_app; left; exact Hc.
Qed.

Lemma step_refines m a o : R m a -> op_ok o ->
  snd (step m o) = snd (astep a o) /\ R (fst (step m o)) (fst (astep a o)).
Proof.
  intros HR Hok. pose proof HR as (He & Hd & Hn & Hi).
  destruct o; cbn [step astep op_ok] in *.
  - unfold om_put. rewrite Hi by assumption. rewrite position_existsb.
    destruct (position k a) eqn:Hp; cbn [fst snd]; split; auto.
    apply R_append; assumption.
  - unfold om_mustput. rewrite Hi by assumption. rewrite position_existsb.
    destruct (position k a) as [i|] eqn:Hp; cbn [fst snd]; split; auto.
    + destruct (R_split _ _ _ _ HR Hp) as (l & v0 & r & -> & Hl & Hxl & Hxr).
      rewrite map_app. cbn [map]. replace (keyed k (Some k, v0)) with true
        by (symmetry; apply keyed_spec; reflexivity).
      rewrite !map_keyed_id by assumption. cbn [fst]. eapply R_set; eassumption.
    + apply R_append; assumption.
  - split; [|exact HR]. cbn [snd]. unfold om_get. rewrite Hi by assumption.
    destruct (position k a) as [i|] eqn:Hp.
    + destruct (R_split _ _ _ _ HR Hp) as (l & v0 & r & -> & Hl & Hxl & Hxr).
      rewrite He. unfold ent_at. replace (i <? 0) with false by (unfold zlen in Hl; lia).
      rewrite nth_error_map, nth_error_app2 by (unfold zlen in Hl; lia).
      replace (Z.to_nat i - length l)%nat with 0%nat by (unfold zlen in Hl; lia).
      cbn [nth_error option_map bind show snd fst].
      assert (Hf : find (keyed k) (l ++ (Some k, v0) :: r) = Some (Some k, v0)).
      { clear - Hxl keqb_spec. induction l as [|e t IH]; cbn [app find existsb] in *.
        - replace (keyed k (Some k, v0)) with true by (symmetry; apply keyed_spec; reflexivity).
          reflexivity.
        - apply orb_false_elim in Hxl as [-> H2]. apply IH; exact H2. }
      rewrite Hf. reflexivity.
    + replace (find (keyed k) a) with (@None (option K * V)); [reflexivity|].
      symmetry. apply position_none in Hp. clear - Hp.
      induction a as [|e t IH]; [reflexivity|]. cbn [existsb find] in *.
      apply orb_false_elim in Hp as [-> H2]. auto.
  - split; [|exact HR]. cbn [snd]. unfold om_has. rewrite Hi, position_existsb by assumption.
    reflexivity.
  - split; [|exact HR]. cbn [snd]. unfold om_rank. rewrite Hi by assumption. reflexivity.
  - split; [reflexivity|]. apply R_new.
  - split; [reflexivity|]. cbn [fst]. apply R_remove; assumption.
  - split; [|exact HR]. cbn [snd]. rewrite He, zlen_map. reflexivity.
  - split; [|exact HR]. cbn [snd]. rewrite He, map_map. reflexivity.
  - split; [|exact HR]. cbn [snd]. rewrite He, map_map. reflexivity.
  - split; [|exact HR]. cbn [snd]. rewrite He. apply ent_at_show.
  - split; [|exact HR]. cbn [snd]. rewrite He. apply ent_at_show.
  - split; [|exact HR]. cbn [snd]. rewrite He, ent_at_show, zlen_map. reflexivity.
  - split; [reflexivity|]. cbn [fst]. apply R_anon; exact HR.
  - split; [|exact HR]. cbn [snd]. unfold om_sub. rewrite He, !zlen_map.
    set (s' := if s <? 0 then _ else _). set (e' := if e <? 0 then _ else _).
    destruct (e' <? s'); [reflexivity|].
    destruct ((s' <? 0) || (zlen a <? e')); [reflexivity|].
    rewrite skipn_map, firstn_map.
    pose proof (sub_build (firstn (Z.to_nat (e' - s')) (skipn (Z.to_nat s') a)) om_new [] R_new)
      as HS.
    cbn [app] in HS. destruct (skeys_seg a (Z.to_nat (e' - s')) (Z.to_nat s')) as [S1 S2].
    destruct (HS (S1 Hd) (S2 Hn)) as (HSe & _). rewrite HSe. reflexivity.
Qed.

Lemma run_refines ops : forall m a, R m a -> Forall op_ok ops ->
  snd (run m ops) = snd (arun a ops) /\ R (fst (run m ops)) (fst (arun a ops)).
Proof.
  induction ops as [|o t IH]; intros m a HR Hok; cbn [run arun]; [split; auto|].
  inversion Hok as [|? ? Ho Ht]; subst.
  destruct (step_refines m a o HR Ho) as [H1 H2].
  destruct (step m o) as [m1 r1]. destruct (astep a o) as [a1 r1']. cbn [fst snd] in *. subst r1'.
  destruct (IH _ _ H2 Ht) as [H3 H4].
  destruct (run m1 t). destruct (arun a1 t). cbn [fst snd] in *. subst. split; auto.
Qed.

(** C30.  On every history of calls that do not name the zero key, the outputs of the map are
    those of the association list, and its entries are the list's, in insertion order. *)
Theorem C30_ordered_map_refines : forall ops,
  Forall op_ok ops ->
  snd (run om_new ops) = snd (arun [] ops) /\
  entries (fst (run om_new ops)) = map show (fst (arun [] ops)).
Proof.
  intros ops Hok. destruct (run_refines ops om_new [] R_new Hok) as [H (He & _)].
  split; assumption.
Qed.

(** C30, laws that follow: no panic other than from Index/First/Last/Sub, keys stay unique. *)
Theorem C30_ordered_map_keys_unique : forall ops,
  Forall op_ok ops ->
  NoDup (filter (fun k => negb (keqb k dk)) (map fst (entries (fst (run om_new ops))))).
Proof.
  intros ops Hok. destruct (run_refines ops om_new [] R_new Hok) as [_ (He & Hd & Hn & _)].
  rewrite He. set (a := fst (arun [] ops)) in *. clearbody a. clear He Hok ops.
  replace (filter _ _) with (skeys a); [exact Hn|].
  induction a as [|[[k|] v] t IH]; cbn [map filter show fst]; [reflexivity| |].
  - rewrite skeys_cons_some in *. destruct (keqb_spec k dk) as [->|].
    + exfalso; apply Hd; left; reflexivity.
    + cbn [negb]. rewrite <- IH; [reflexivity | | inversion Hn; assumption].
      intro; apply Hd; right; assumption.
  - rewrite keqb_refl. cbn [negb]. apply IH; assumption.
Qed.

End OrderedMap.

(** ** Instance: string-like keys, here integers with zero key 0. *)
Example C30_instance :
  let ops := [OPut Z Z 5 50; OPutAnon Z Z 1; OPut Z Z 7 70; OPut Z Z 5 51; OMustPut Z Z 7 71;
              ORemove Z Z 5; ORank Z Z 7; OGet Z Z 7; OHas Z Z 5; OKeys Z Z; OSub Z Z 0 (-1);
              OIndex Z Z 9] in
  Forall (op_ok Z Z 0) ops /\
  snd (run Z Z Z.eqb 0 0 (om_new Z Z) ops) =
  [RBool Z Z true; RUnit Z Z; RBool Z Z true; RBool Z Z false; RUnit Z Z; RUnit Z Z;
   RInt Z Z 1; RVal Z Z 71 true; RBool Z Z false; RKeys Z Z [0; 7]; RMap Z Z [(0, 1)];
   RPanic Z Z].
Proof.
  split; [|vm_compute; reflexivity].
  repeat constructor; cbn; lia.
Qed.

(** The hypothesis is needed: with the zero key stored by Put, Remove of an earlier entry leaves
    that key's index stale; Get then panics although Has says it is there. *)
Theorem C30_zero_key_refuted :
  exists ops, snd (run Z Z Z.eqb 0 0 (om_new Z Z) ops) <>
              snd (arun Z Z Z.eqb 0 0 [] ops) /\
              In (RPanic Z Z) (snd (run Z Z Z.eqb 0 0 (om_new Z Z) ops)) /\
              ~ In (RPanic Z Z) (snd (arun Z Z Z.eqb 0 0 [] ops)).
Proof.
  exists [OPut Z Z 5 50; OPut Z Z 0 1; ORemove Z Z 5; OHas Z Z 0; OGet Z Z 0].
  split; [|split].
  - vm_compute. discriminate.
  - vm_compute. tauto.
  - vm_compute. intros H. repeat (destruct H as [H|H]; [discriminate|]). destruct H.
Qed.

Print Assumptions C30_ordered_map_refines.
Print Assumptions C30_ordered_map_keys_unique.
Print Assumptions C30_zero_key_refuted.
