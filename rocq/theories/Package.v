(** Model of definition/package.go and of the output path computed by generator/gen/gen_ctx.go;
    properties C31 (relative paths resolve) and C41 (distinct packages, distinct files). *)
From Coq Require Import Ascii String ZArith List Lia Bool.
Import ListNotations.
Open Scope string_scope.
Open Scope list_scope.

(** package.go:7-13.  Positions are omitted. *)
Record package := Pkg { full : list string; ppath : list string; pname : string }.

(** package.go:15-32 *)
Definition new_package (fullPaths : list string) : package :=
  match fullPaths with
  | [] => Pkg [] [] ""
  | _ => Pkg fullPaths (removelast fullPaths) (last fullPaths "")
  end.

(** package.go:59-64: the number of equal leading components *)
Fixpoint common (a b : list string) : nat :=
  match a, b with
  | x :: a', y :: b' => if String.eqb x y then S (common a' b') else O
  | _, _ => O
  end.

(** package.go:58-77 *)
Definition difference (p other : package) : list string :=
  let i := common (ppath p) (ppath other) in
  map (fun _ => "..") (skipn i (ppath p)) ++ skipn i (ppath other) ++ [pname other].

Notation "a +++ b" := (String.append a b) (at level 60, right associativity).

(** strings.Join *)
Definition join (sep : string) (l : list string) : string := String.concat sep l.

(** package.go:84-86, 91-93 *)
Definition to_path (p : package) (sep ext : string) : string := join sep (full p) +++ ext.
Definition to_file_path (p : package) (ext : string) : string := join "/" (full p) +++ ext.

(** package.go:109-112 *)
Definition to_relative_path (p other : package) (ext : string) : string :=
  join "/" (difference p other) +++ ext.

(** package.go:99-105 *)
Definition to_relative_path_strict (p other : package) (ext : string) : string :=
  let path := to_relative_path p other ext in
  if String.prefix ".." path then path else "./" +++ path.

Fixpoint count_up (l : list string) : nat :=
  match l with
  | d :: t => if String.eqb d ".." then S (count_up t) else O
  | [] => O
  end.
Fixpoint dots (n : nat) : string := match n with O => "" | S k => "." +++ dots k end.

(** package.go:118-130 *)
Definition to_py_relative_path (p other : package) (ext : string) : string :=
  let diff := difference p other in
  let n := count_up diff in
  "." +++ dots n +++ join "." (skipn n diff) +++ ext.

(** ** Specification *)

(** A component as the grammar allows it: an identifier, so not empty, without "/" or ".". *)
Fixpoint has_char (c : ascii) (s : string) : bool :=
  match s with EmptyString => false | String d t => Ascii.eqb d c || has_char c t end.
Definition ident (s : string) : Prop :=
  s <> "" /\ has_char "/" s = false /\ has_char "." s = false.

(** Splitting a path at a separator character (strings.Split with a one-character separator). *)
Fixpoint split (c : ascii) (s : string) : list string :=
  match s with
  | EmptyString => [""]
  | String d t =>
      if Ascii.eqb d c then "" :: split c t
      else match split c t with h :: r => String d h :: r | [] => [String d ""] end
  end.

(** How a file system resolves a relative path against a directory: "." stays, ".." goes up
    (there is nothing above the output root), anything else goes down. *)
Fixpoint resolve (dir : list string) (rel : list string) : option (list string) :=
  match rel with
  | [] => Some dir
  | c :: t =>
      if String.eqb c "." then resolve dir t
      else if String.eqb c ".." then
        match rev dir with [] => None | _ :: up => resolve (rev up) t end
      else resolve (dir ++ [c]) t
  end.

(** The directory a file lies in. *)
Definition dirname (path : string) : list string := removelast (split "/" path).

(** How Python resolves "from ..x.y import": one leading dot is the importing module's own
    package, each further dot its parent, the rest goes down. *)
Fixpoint strip_dots (s : string) : nat * string :=
  match s with
  | String d t => if Ascii.eqb d "." then let '(n, r) := strip_dots t in (S n, r) else (O, s)
  | EmptyString => (O, "")
  end.
Definition py_resolve (package_of_module : list string) (s : string) : option (list string) :=
  let '(n, rest) := strip_dots s in
  match n with
  | O => None
  | S k => if Nat.ltb (length package_of_module) k then None
           else Some (firstn (length package_of_module - k) package_of_module ++ split "." rest)
  end.

(** ** Proofs *)

Lemma resolve_down l : forall dir rel, Forall (fun c => c <> "." /\ c <> "..") l ->
  resolve dir (l ++ rel) = resolve (dir ++ l) rel.
Proof.
  induction l as [|c t IH]; intros dir rel H; cbn [app resolve].
  - rewrite app_nil_r. reflexivity.
  - inversion H as [|? ? [H1 H2] H3]; subst.
    destruct (String.eqb_spec c "."); [contradiction|].
    destruct (String.eqb_spec c ".."); [contradiction|].
    rewrite IH by assumption. rewrite <- app_assoc. reflexivity.
Qed.

Lemma resolve_up l : forall dir rel,
  resolve (dir ++ l) (map (fun _ => "..") l ++ rel) = resolve dir rel.
Proof.
  intros dir. induction l as [|c l IH] using rev_ind; intros rel; cbn [map app].
  - rewrite app_nil_r. reflexivity.
  - rewrite map_app. cbn [map].
    rewrite <- app_assoc. rewrite <- (IH rel).
    assert (Hm : forall q, map (fun _ : string => "..") l ++ [".."] ++ q = ".." :: map (fun _ => "..") l ++ q).
    { intro q. clear. induction l as [|x t IH]; [reflexivity|]. cbn [map app] in *. rewrite IH. reflexivity. }
    rewrite Hm. cbn [resolve]. change (String.eqb ".." ".") with false.
    change (String.eqb ".." "..") with true. cbv iota.
    rewrite app_assoc, rev_app_distr. cbn [rev app]. rewrite rev_involutive. reflexivity.
Qed.

Lemma common_spec a b : exists c, firstn (common a b) a = c /\ firstn (common a b) b = c /\
  a = c ++ skipn (common a b) a /\ b = c ++ skipn (common a b) b.
Proof.
  revert b. induction a as [|x a IH]; intros [|y b]; cbn [common].
  - exists []. cbn. auto.
  - exists []. cbn. auto.
  - exists []. cbn. auto.
  - destruct (String.eqb_spec x y) as [->|].
    + destruct (IH b) as (c & H1 & H2 & H3 & H4). exists (y :: c). cbn. rewrite H1, H2.
      split; [reflexivity|]. split; [reflexivity|]. split; congruence.
    + exists []. cbn. auto.
Qed.

Lemma ident_not_dots s : ident s -> s <> "." /\ s <> "..".
Proof.
  intros (_ & _ & H). split; intros ->; cbn in H; discriminate.
Qed.

Lemma new_package_parts fp : fp <> [] ->
  full (new_package fp) = fp /\ fp = ppath (new_package fp) ++ [pname (new_package fp)].
Proof.
  intros H. destruct fp as [|x t]; [contradiction|]. split; [reflexivity|].
  unfold new_package. cbn [ppath pname]. apply app_removelast_last. discriminate.
Qed.

(** Component form: resolving against p's directory gives q. *)
Lemma difference_resolves p q (tl : string) dir :
  Forall (fun c => c <> "." /\ c <> "..") (ppath q ++ [tl]) ->
  resolve (dir ++ ppath p)
    (map (fun _ => "..") (skipn (common (ppath p) (ppath q)) (ppath p)) ++
     skipn (common (ppath p) (ppath q)) (ppath q) ++ [tl]) = Some (dir ++ ppath q ++ [tl]).
Proof.
  intros H. destruct (common_spec (ppath p) (ppath q)) as (c & _ & _ & Hp & Hq).
  set (i := common (ppath p) (ppath q)) in *.
  rewrite Hp at 1. rewrite app_assoc, resolve_up.
  rewrite <- (app_nil_r (skipn i (ppath q) ++ [tl])).
  rewrite resolve_down.
  - cbn [resolve]. rewrite Hq at 2. rewrite <- !app_assoc. reflexivity.
  - rewrite Hq in H. rewrite <- app_assoc in H. apply Forall_app in H as [_ H]. exact H.
Qed.

Lemma str_app_assoc a b c : (a +++ b) +++ c = a +++ b +++ c.
Proof. induction a as [|x a IH]; cbn; [reflexivity|]. rewrite IH. reflexivity. Qed.

Lemma has_char_app c a b : has_char c (a +++ b) = has_char c a || has_char c b.
Proof. induction a as [|x a IH]; cbn; [reflexivity|]. rewrite IH, orb_assoc. reflexivity. Qed.

Lemma split_nochar c s : has_char c s = false -> split c s = [s].
Proof.
  induction s as [|d t IH]; cbn [has_char split]; [reflexivity|]. intros H.
  apply orb_false_elim in H as [H1 H2]. rewrite H1, IH by assumption. reflexivity.
Qed.

Lemma split_app c a s : has_char c a = false -> split c (a +++ String c s) = a :: split c s.
Proof.
  induction a as [|d t IH]; cbn [has_char split String.append]; intros H.
  - rewrite Ascii.eqb_refl. reflexivity.
  - apply orb_false_elim in H as [H1 H2]. rewrite H1, IH by assumption. reflexivity.
Qed.

Lemma join_snoc sep l x : l <> [] -> join sep (l ++ [x]) = join sep l +++ sep +++ x.
Proof.
  intros H. unfold join. induction l as [|a t IH]; [contradiction|].
  destruct t as [|b t]; [reflexivity|].
  change ((a :: b :: t) ++ [x]) with (a :: (b :: t) ++ [x]).
  assert (E : String.concat sep (a :: (b :: t) ++ [x]) =
              a +++ sep +++ String.concat sep ((b :: t) ++ [x])) by reflexivity.
  rewrite E, IH by discriminate.
  change (String.concat sep (a :: b :: t)) with (a +++ sep +++ String.concat sep (b :: t)).
  rewrite !str_app_assoc. reflexivity.
Qed.

(** Joining with a separator and splitting again, with an extension glued to the last one. *)
Lemma split_join c l x ext :
  Forall (fun s => has_char c s = false) (l ++ [x]) -> has_char c ext = false ->
  split c (join (String c "") (l ++ [x]) +++ ext) = l ++ [x +++ ext].
Proof.
  intros H He. induction l as [|a t IH]; cbn [app] in *.
  - inversion H; subst. apply split_nochar. unfold join. cbn [String.concat].
    rewrite has_char_app, He, orb_false_r. assumption.
  - inversion H as [|? ? H1 H2]; subst. rewrite <- IH by assumption.
    unfold join. destruct (t ++ [x]) as [|b r] eqn:E; [destruct t; discriminate|].
    change (String.concat (String c "") (a :: b :: r))
      with (a +++ String c (String.concat (String c "") (b :: r))).
    rewrite str_app_assoc. cbn [String.append]. apply split_app. exact H1.
Qed.

Lemma split_file_path p fp ext : fp <> [] -> p = new_package fp ->
  Forall (fun s => has_char "/" s = false) fp -> has_char "/" ext = false ->
  split "/" (to_file_path p ext) = ppath p ++ [pname p +++ ext].
Proof.
  intros Hne -> H He. destruct (new_package_parts fp Hne) as [H1 H2].
  unfold to_file_path. rewrite H1. rewrite H2 at 1. apply split_join; [|exact He].
  rewrite <- H2. exact H.
Qed.

Lemma ident_forall_slash l : Forall ident l -> Forall (fun s => has_char "/" s = false) l.
Proof. apply Forall_impl. intros s (_ & H & _). exact H. Qed.
Lemma ident_forall_dot l : Forall ident l -> Forall (fun s => has_char "." s = false) l.
Proof. apply Forall_impl. intros s (_ & _ & H). exact H. Qed.

Lemma ident_ext_not_dots s ext : ident s -> s +++ ext <> "." /\ s +++ ext <> "..".
Proof.
  intros (Hn & _ & Hd). destruct s as [|c s]; [contradiction|]. cbn in Hd.
  apply orb_false_elim in Hd as [Hc _].
  split; intros E; cbn in E; injection E as -> _; discriminate.
Qed.

Lemma split_relative p q fp fq ext :
  fp <> [] -> fq <> [] -> p = new_package fp -> q = new_package fq ->
  Forall ident fp -> Forall ident fq -> has_char "/" ext = false ->
  split "/" (to_relative_path p q ext) =
    map (fun _ => "..") (skipn (common (ppath p) (ppath q)) (ppath p)) ++
    skipn (common (ppath p) (ppath q)) (ppath q) ++ [pname q +++ ext].
Proof.
  intros Hp Hq Ep Eq Ip Iq He. unfold to_relative_path, difference.
  rewrite app_assoc. rewrite split_join; [rewrite <- app_assoc; reflexivity | | exact He].
  destruct (new_package_parts fq Hq) as [_ H2]. rewrite <- Eq in H2.
  rewrite H2 in Iq. apply Forall_app in Iq as [Iq1 Iq2].
  rewrite <- app_assoc. apply Forall_app; split.
  - clear. induction (skipn _ _); constructor; auto.
  - apply Forall_app; split; [|apply ident_forall_slash; exact Iq2].
    apply ident_forall_slash. rewrite <- (firstn_skipn (common (ppath p) (ppath q)) (ppath q)) in Iq1.
    apply Forall_app in Iq1 as [_ Iq1]. exact Iq1.
Qed.

Lemma relative_not_dots q fq ext : fq <> [] -> q = new_package fq -> Forall ident fq ->
  Forall (fun c => c <> "." /\ c <> "..") (ppath q ++ [pname q +++ ext]).
Proof.
  intros Hq Eq Iq. destruct (new_package_parts fq Hq) as [_ H2]. rewrite <- Eq in H2.
  rewrite H2 in Iq. apply Forall_app in Iq as [Iq1 Iq2]. apply Forall_app; split.
  - revert Iq1. apply Forall_impl. intros s. apply ident_not_dots.
  - inversion Iq2; subst. constructor; [|constructor]. apply ident_ext_not_dots. assumption.
Qed.

(** C31.  The path written into p's file, resolved by the file system from the directory that
    file lies in, is the path q's file is written to.  (C, C++, JavaScript: the importing file is
    to_file_path p ext'.) *)
Theorem C31_relative_path : forall fp fq ext ext',
  fp <> [] -> fq <> [] -> Forall ident fp -> Forall ident fq ->
  has_char "/" ext = false -> has_char "/" ext' = false ->
  resolve (dirname (to_file_path (new_package fp) ext'))
          (split "/" (to_relative_path (new_package fp) (new_package fq) ext))
  = Some (split "/" (to_file_path (new_package fq) ext)).
Proof.
  intros fp fq ext ext' Hp Hq Ip Iq He He'.
  unfold dirname.
  rewrite (split_file_path _ fp ext' Hp eq_refl (ident_forall_slash _ Ip) He').
  rewrite removelast_last.
  rewrite (split_relative _ _ fp fq ext Hp Hq eq_refl eq_refl Ip Iq He).
  rewrite (split_file_path _ fq ext Hq eq_refl (ident_forall_slash _ Iq) He).
  change (ppath (new_package fp)) with ([] ++ ppath (new_package fp)) at 1.
  rewrite difference_resolves; [reflexivity|].
  eapply relative_not_dots; eauto.
Qed.

(** C31 for the strict form: it resolves to the same file and visibly is a relative path. *)
Theorem C31_relative_path_strict : forall fp fq ext ext',
  fp <> [] -> fq <> [] -> Forall ident fp -> Forall ident fq ->
  has_char "/" ext = false -> has_char "/" ext' = false ->
  let path := to_relative_path_strict (new_package fp) (new_package fq) ext in
  resolve (dirname (to_file_path (new_package fp) ext')) (split "/" path)
    = Some (split "/" (to_file_path (new_package fq) ext)) /\
  (String.prefix "./" path = true \/ String.prefix "../" path = true).
Proof.
  intros fp fq ext ext' Hp Hq Ip Iq He He'. cbv zeta.
  pose proof (C31_relative_path fp fq ext ext' Hp Hq Ip Iq He He') as HR.
  unfold to_relative_path_strict.
  destruct (String.prefix ".." (to_relative_path (new_package fp) (new_package fq) ext)) eqn:E.
  - split; [exact HR|]. right.
    unfold to_relative_path, difference in *.
    set (i := common _ _) in *. destruct (skipn i (ppath (new_package fp))) as [|a r] eqn:Ea.
    + exfalso. cbn [map app] in E.
      pose proof (relative_not_dots (new_package fq) fq ext Hq eq_refl Iq) as _.
      destruct (new_package_parts fq Hq) as [_ H2].
      assert (Hh : exists h t, skipn i (ppath (new_package fq)) ++ [pname (new_package fq)] = h :: t /\ ident h).
      { rewrite H2 in Iq. apply Forall_app in Iq as [Iq1 Iq2].
        rewrite <- (firstn_skipn i (ppath (new_package fq))) in Iq1.
        apply Forall_app in Iq1 as [_ Iq1]. destruct (skipn i (ppath (new_package fq))) as [|h t].
        - exists (pname (new_package fq)), []. split; [reflexivity|]. inversion Iq2; assumption.
        - exists h, (t ++ [pname (new_package fq)]). split; [reflexivity|]. inversion Iq1; assumption. }
      destruct Hh as (h & t & Et & (Hn & _ & Hd)). rewrite Et in E.
      destruct h as [|c h]; [contradiction|]. cbn [has_char] in Hd.
      apply orb_false_elim in Hd as [Hc _].
      assert (E2 : exists s, join "/" (String c h :: t) +++ ext = String c s).
      { unfold join. cbn [String.concat]. destruct t; cbn; eauto. }
      destruct E2 as [s Es]. rewrite Es in E. cbn [String.prefix] in E.
      destruct (ascii_dec "." c) as [<-|]; [discriminate|discriminate].
    + cbn [map app]. unfold join. clear.
      destruct (map (fun _ : string => "..") r ++ skipn i (ppath (new_package fq)) ++ [pname (new_package fq)]) as [|b t] eqn:E.
      * exfalso. destruct (map (fun _ : string => "..") r); [|discriminate].
        destruct (skipn i (ppath (new_package fq))); discriminate.
      * cbn. match goal with |- prefix "" ?s = true => destruct s; reflexivity end.
  - split; [|left; cbn; match goal with |- prefix "" ?s = true => destruct s; reflexivity end].
    change ("./" +++ to_relative_path (new_package fp) (new_package fq) ext)
      with ("." +++ String "/" (to_relative_path (new_package fp) (new_package fq) ext)).
    rewrite split_app by reflexivity. cbn [resolve]. exact HR.
Qed.

(** C31 for Python: the relative import written into p's module names q's module. *)
Lemma strip_dots_app n s : (forall t, s <> String "." t) -> strip_dots (dots n +++ s) = (n, s).
Proof.
  intros H. induction n as [|n IH].
  - cbn [dots String.append]. destruct s as [|d t]; [reflexivity|]. cbn [strip_dots].
    destruct (Ascii.eqb_spec d "."); [subst; exfalso; apply (H t); reflexivity|reflexivity].
  - cbn [dots]. rewrite str_app_assoc. cbn [String.append strip_dots].
    change (Ascii.eqb "." ".") with true. cbv iota. rewrite IH. reflexivity.
Qed.

Lemma count_up_map (l r : list string) : (forall h t, r = h :: t -> h <> "..") ->
  count_up (map (fun _ => "..") l ++ r) = length l.
Proof.
  intros H. induction l as [|x l IH]; cbn [map app length].
  - destruct r as [|h t]; [reflexivity|]. cbn [count_up].
    destruct (String.eqb_spec h ".."); [exfalso; eapply H; eauto|reflexivity].
  - cbn [count_up]. change (String.eqb ".." "..") with true. cbv iota. rewrite IH. reflexivity.
Qed.

Theorem C31_python_import : forall fp fq ext,
  fp <> [] -> fq <> [] -> Forall ident fp -> Forall ident fq -> has_char "." ext = false ->
  py_resolve (removelast fp) (to_py_relative_path (new_package fp) (new_package fq) ext)
  = Some (split "." (to_path (new_package fq) "." ext)).
Proof.
  intros fp fq ext Hp Hq Ip Iq He.
  destruct (new_package_parts fq Hq) as [H1 H2]. destruct (new_package_parts fp Hp) as [H3 H4].
  set (p := new_package fp) in *. set (q := new_package fq) in *.
  pose proof Iq as Iq'. rewrite H2 in Iq'. apply Forall_app in Iq' as [Iq1 Iq2].
  set (i := common (ppath p) (ppath q)).
  pose proof Iq1 as Iq3. rewrite <- (firstn_skipn i (ppath q)) in Iq3.
  apply Forall_app in Iq3 as [_ Iq3].
  assert (Hne : forall h t, skipn i (ppath q) ++ [pname q] = h :: t -> ident h).
  { intros h t E. destruct (skipn i (ppath q)) as [|a r]; cbn in E; injection E as <- <-.
    - inversion Iq2; assumption.
    - inversion Iq3; assumption. }
  unfold to_py_relative_path, difference. fold i.
  rewrite count_up_map. 2:{ intros h t E. apply (proj2 (ident_not_dots h (Hne h t E))). }
  rewrite skipn_app, map_length, Nat.sub_diag.
  rewrite (skipn_all2 (map (fun _ : string => "..") (skipn i (ppath p))))
    by (rewrite map_length; lia). cbn [app skipn].
  set (n := length (skipn i (ppath p))).
  assert (Hs : forall t, join "." (skipn i (ppath q) ++ [pname q]) +++ ext <> String "." t).
  { intros t E. destruct (skipn i (ppath q) ++ [pname q]) as [|h r] eqn:Eh.
    { destruct (skipn i (ppath q)); discriminate. }
    destruct (Hne h r eq_refl) as (Hn & _ & Hd). destruct h as [|c h]; [contradiction|].
    cbn in Hd. apply orb_false_elim in Hd as [Hc _].
    assert (E2 : exists s, join "." (String c h :: r) +++ ext = String c s).
    { unfold join. cbn [String.concat]. destruct r; cbn; eauto. }
    destruct E2 as [s Es]. rewrite Es in E. injection E as -> _. discriminate. }
  change ("." +++ dots n +++ join "." (skipn i (ppath q) ++ [pname q]) +++ ext)
    with (dots (S n) +++ (join "." (skipn i (ppath q) ++ [pname q]) +++ ext)).
  unfold py_resolve. rewrite strip_dots_app by exact Hs.
  replace (removelast fp) with (ppath p) by (rewrite H4; symmetry; apply removelast_last).
  replace (Nat.ltb (length (ppath p)) n) with false.
  2:{ symmetry. apply Nat.ltb_ge. unfold n. rewrite skipn_length. lia. }
  f_equal. unfold to_path. rewrite H1. rewrite H2.
  assert (D1 : Forall (fun s => has_char "." s = false) (ppath q ++ [pname q])).
  { apply ident_forall_dot. rewrite <- H2. exact Iq. }
  rewrite (split_join "." (ppath q)) by assumption.
  rewrite (split_join "." (skipn i (ppath q))); [|apply Forall_app; split|exact He].
  - rewrite app_assoc. f_equal.
    destruct (common_spec (ppath p) (ppath q)) as (c & C1 & C2 & C3 & C4). fold i in C1, C2, C3, C4.
    replace (length (ppath p) - n) with (length c).
    + rewrite C3 at 1. rewrite firstn_app, Nat.sub_diag, firstn_all. cbn [firstn].
      rewrite app_nil_r. symmetry. exact C4.
    + unfold n. rewrite C3 at 1. rewrite app_length. lia.
  - apply ident_forall_dot. exact Iq3.
  - apply ident_forall_dot. exact Iq2.
Qed.

Example C31_instance :
  let p := new_package ["com"; "example"; "app"; "pkg"] in
  let q := new_package ["com"; "tool"; "util"] in
  to_relative_path_strict p q ".bb.h" = "../../tool/util.bb.h" /\
  to_py_relative_path p q "_bb" = "...tool.util_bb" /\
  resolve (dirname (to_file_path p ".bb.c")) (split "/" (to_relative_path p q ".bb.h"))
    = Some ["com"; "tool"; "util.bb.h"] /\
  Forall ident ["com"; "example"; "app"; "pkg"; "tool"; "util"].
Proof.
  repeat split; try (vm_compute; reflexivity).
  repeat constructor; vm_compute; try discriminate; reflexivity.
Qed.

(** The Go target writes package a.b.c to a/b/c/c.bb.go (golang.go:475), one directory deeper than
    the path its relative import (golang.go:339) is computed from: the import never resolves to
    the directory the imported package is written to. *)
Definition go_file (p : package) : string :=
  to_file_path p ("/" +++ pname p +++ ".bb.go").

Theorem C31_go_import_refuted : forall fp fq,
  fp <> [] -> fq <> [] -> Forall ident fp -> Forall ident fq ->
  resolve (dirname (go_file (new_package fp)))
          (split "/" (to_relative_path_strict (new_package fp) (new_package fq) ""))
  <> Some (dirname (go_file (new_package fq))).
Proof.
  intros fp fq Hp Hq Ip Iq.
  destruct (new_package_parts fq Hq) as [H1 H2]. destruct (new_package_parts fp Hp) as [H3 H4].
  assert (Hg : forall f, f <> [] -> Forall ident f -> dirname (go_file (new_package f)) = f).
  { intros f Hf If. destruct (new_package_parts f Hf) as [F1 F2]. unfold dirname, go_file, to_file_path.
    rewrite F1. pose proof If as If'. rewrite F2 in If'. apply Forall_app in If' as [_ If2].
    inversion If2 as [|? ? (_ & I2 & _) _]; subst.
    assert (E : join "/" f +++ "/" +++ pname (new_package f) +++ ".bb.go" =
                join "/" (f ++ [pname (new_package f)]) +++ ".bb.go").
    { rewrite join_snoc by exact Hf. rewrite !str_app_assoc. reflexivity. }
    rewrite E, split_join; [apply removelast_last| |reflexivity].
    apply Forall_app; split; [apply ident_forall_slash; exact If|constructor; auto]. }
  rewrite !Hg by assumption.
  assert (HS : resolve fp (split "/" (to_relative_path_strict (new_package fp) (new_package fq) ""))
             = resolve fp (split "/" (to_relative_path (new_package fp) (new_package fq) ""))).
  { unfold to_relative_path_strict. destruct (String.prefix _ _); [reflexivity|].
    change ("./" +++ to_relative_path (new_package fp) (new_package fq) "")
      with ("." +++ String "/" (to_relative_path (new_package fp) (new_package fq) "")).
    rewrite split_app by reflexivity. reflexivity. }
  rewrite HS.
  rewrite (split_relative _ _ fp fq "" Hp Hq eq_refl eq_refl Ip Iq eq_refl).
  set (p := new_package fp) in *. set (q := new_package fq) in *.
  set (i := common (ppath p) (ppath q)) in *.
  assert (Hempty : pname q +++ "" = pname q).
  { clear. induction (pname q); cbn; congruence. }
  rewrite Hempty.
  (* resolving from one level deeper *)
  assert (Hn : Forall (fun c => c <> "." /\ c <> "..") (ppath q ++ [pname q])).
  { rewrite <- Hempty. eapply relative_not_dots; eauto. }
  destruct (common_spec (ppath p) (ppath q)) as (c & C1 & C2 & C3 & C4). fold i in C1, C2, C3, C4.
  assert (Hn' : Forall (fun c => c <> "." /\ c <> "..") (skipn i (ppath q) ++ [pname q])).
  { rewrite C4, <- app_assoc in Hn. apply Forall_app in Hn as [_ Hn]. exact Hn. }
  (* going up length(skipn i (ppath p)) levels from fp leaves a prefix one longer than c *)
  assert (Hlen : forall k dir rel, k <= length dir ->
     resolve dir (map (fun _ : nat => "..") (seq 0 k) ++ rel) =
     resolve (firstn (length dir - k) dir) rel).
  { intros k. induction k as [|k IH]; intros dir rel Hk.
    - cbn [seq map app]. rewrite Nat.sub_0_r, firstn_all. reflexivity.
    - cbn [seq map app resolve]. change (String.eqb ".." ".") with false.
      change (String.eqb ".." "..") with true. cbv iota.
      destruct (rev dir) as [|x up] eqn:Er.
      { assert (length (rev dir) = 0) by (rewrite Er; reflexivity). rewrite rev_length in H. lia. }
      assert (Ed : dir = rev up ++ [x]).
      { rewrite <- (rev_involutive dir), Er. reflexivity. }
      rewrite <- seq_shift, map_map. rewrite IH.
      + rewrite Ed. rewrite app_length. cbn [length].
        replace (length (rev up) + 1 - S k) with (length (rev up) - k) by lia.
        rewrite firstn_app. replace (length (rev up) - k - length (rev up)) with 0 by lia.
        cbn [firstn]. rewrite app_nil_r. reflexivity.
      + rewrite Ed, app_length in Hk. cbn in Hk. lia. }
  assert (Hmap : map (fun _ : string => "..") (skipn i (ppath p)) =
                 map (fun _ : nat => "..") (seq 0 (length (skipn i (ppath p))))).
  { clear. generalize 0. induction (skipn i (ppath p)) as [|x t IH]; intro n; cbn; [reflexivity|].
    rewrite (IH (S n)). reflexivity. }
  rewrite Hmap, Hlen.
  2:{ rewrite H4, app_length, skipn_length. lia. }
  rewrite <- (app_nil_r (skipn i (ppath q) ++ [pname q])), resolve_down by exact Hn'.
  cbn [resolve]. intros E. injection E as E.
  apply (f_equal (@length string)) in E. rewrite !app_length, firstn_length in E.
  apply (f_equal (@length string)) in C3. apply (f_equal (@length string)) in C4.
  apply (f_equal (@length string)) in H2. apply (f_equal (@length string)) in H4.
  rewrite !app_length in *. cbn [length] in *. lia.
Qed.

(** ** C41: where packages are written *)

(** gen_ctx.go:56-64: the first -rmpath entry that is a string prefix is cut off, then leading
    slashes.  filepath.Join with the output directory (69) is injective on such paths and left out. *)
Fixpoint drop (n : nat) (s : string) : string :=
  match n, s with O, _ => s | S k, String _ t => drop k t | S _, EmptyString => "" end.
Fixpoint strip_slashes (s : string) : string :=
  match s with String "/" t => strip_slashes t | _ => s end.
Fixpoint out_file (rm : list string) (file : string) : string :=
  match rm with
  | [] => file
  | r :: t => if String.prefix r file then strip_slashes (drop (String.length r) file)
              else out_file t file
  end.

(** C41.  Without -rmpath different packages are written to different files. *)
Lemma str_app_inj_r a b e : a +++ e = b +++ e -> a = b.
Proof.
  assert (L : forall s t, String.length (s +++ t) = String.length s + String.length t).
  { intros s t. induction s; cbn; congruence. }
  revert b. induction a as [|x a IH]; intros [|y b] H; cbn [String.append] in H; auto.
  - exfalso. apply (f_equal String.length) in H. cbn in H. rewrite L in H. lia.
  - exfalso. apply (f_equal String.length) in H. cbn in H. rewrite L in H. lia.
  - injection H as -> H. f_equal. apply IH. exact H.
Qed.

Theorem C41_distinct_files : forall fp fq ext,
  fp <> [] -> fq <> [] -> Forall ident fp -> Forall ident fq ->
  out_file [] (to_file_path (new_package fp) ext) = out_file [] (to_file_path (new_package fq) ext) ->
  fp = fq.
Proof.
  intros fp fq ext Hp Hq Ip Iq E. cbn [out_file] in E. unfold to_file_path in E.
  apply str_app_inj_r in E.
  destruct (new_package_parts fp Hp) as [H1 _]. destruct (new_package_parts fq Hq) as [H2 _].
  rewrite H1, H2 in E.
  assert (S : forall l, l <> [] -> Forall ident l -> split "/" (join "/" l) = l).
  { intros l Hl Il. rewrite (app_removelast_last "" Hl) in *.
    assert (Z : forall s, s +++ "" = s) by (intro s; induction s; cbn; congruence).
    rewrite <- (Z (join "/" _)). rewrite split_join; [rewrite Z; reflexivity| |reflexivity].
    apply ident_forall_slash. exact Il. }
  rewrite <- (S fp), <- (S fq) by assumption. rewrite E. reflexivity.
Qed.

(** With -rmpath the prefix is matched as a string, not by path component: packages a.bc and
    a.b.c both end up in c.bb.h, one silently overwriting the other. *)
Theorem C41_rmpath_refuted :
  exists rm fp fq ext, fp <> fq /\ Forall ident fp /\ Forall ident fq /\
    out_file rm (to_file_path (new_package fp) ext) = out_file rm (to_file_path (new_package fq) ext).
Proof.
  exists ["a/b"], ["a"; "bc"], ["a"; "b"; "c"], ".bb.h".
  split; [discriminate|]. split; [|split].
  - repeat constructor; try discriminate.
  - repeat constructor; try discriminate.
  - vm_compute. reflexivity.
Qed.

(** C41.  What -rmpath does to a file name: nothing if no entry is a prefix of it; otherwise the
    first entry that is one is removed, and the slashes after it, and nothing else. *)
Fixpoint slashes (n : nat) : string := match n with O => "" | S k => String "/" (slashes k) end.
Definition is_prefix (r file : string) : Prop := exists t, file = r +++ t.

Lemma prefix_is r : forall file, String.prefix r file = true <-> is_prefix r file.
Proof.
  induction r as [|x r IH]; intros file; cbn [String.prefix].
  - split; [intros _; exists file; reflexivity|]. destruct file; reflexivity.
  - destruct file as [|y file].
    + split; [discriminate|]. intros [t H]. discriminate.
    + cbn [String.prefix]. destruct (ascii_dec x y) as [->|N].
      * rewrite IH. split; intros [t H]; exists t; [cbn; congruence|]. cbn in H. congruence.
      * split; [discriminate|]. intros [t H]. cbn in H. congruence.
Qed.
Lemma drop_app r t : drop (String.length r) (r +++ t) = t.
Proof. induction r; cbn; auto. Qed.
Lemma strip_slashes_spec s : exists n, s = slashes n +++ strip_slashes s /\
  forall t, strip_slashes s <> String "/" t.
Proof.
  induction s as [|c s (n & IH & NS)].
  - exists O. split; [reflexivity|discriminate].
  - destruct (ascii_dec c "/") as [->|N].
    + exists (S n). cbn [slashes String.append]. change (strip_slashes (String "/" s)) with (strip_slashes s).
      split; [congruence|exact NS].
    + assert (E : strip_slashes (String c s) = String c s).
      { cbn [strip_slashes]. destruct c as [[] [] [] [] [] [] [] []]; try reflexivity. contradiction N. reflexivity. }
      exists O. rewrite E. split; [reflexivity|]. congruence.
Qed.

Theorem C41_rmpath : forall rm file,
  ((forall r, In r rm -> ~ is_prefix r file) -> out_file rm file = file) /\
  (forall before r after, rm = before ++ r :: after ->
     (forall x, In x before -> ~ is_prefix x file) -> is_prefix r file ->
     exists n, file = r +++ slashes n +++ out_file rm file /\ forall t, out_file rm file <> String "/" t).
Proof.
  intros rm file. split.
  - induction rm as [|r rm IH]; intros H; cbn [out_file]; [reflexivity|].
    destruct (String.prefix r file) eqn:E.
    + exfalso. apply (H r (or_introl eq_refl)). apply prefix_is. exact E.
    + apply IH. intros x Hx. apply H. right. exact Hx.
  - intros before r after -> Hb Hr. induction before as [|x before IH]; cbn [app out_file].
    + rewrite (proj2 (prefix_is r file) Hr). destruct Hr as [t ->]. rewrite drop_app.
      destruct (strip_slashes_spec t) as (n & E & NS). exists n. split; [congruence|exact NS].
    + destruct (String.prefix x file) eqn:E.
      * exfalso. apply (Hb x (or_introl eq_refl)). apply prefix_is. exact E.
      * apply IH. intros y Hy. apply Hb. right. exact Hy.
Qed.

Example C41_rmpath_instance :
  out_file ["x"; "a/b"; "a"] "a/b//c.bb.h" = "c.bb.h" /\ is_prefix "a/b" "a/b//c.bb.h" /\
  ~ is_prefix "x" "a/b//c.bb.h".
Proof.
  split; [reflexivity|]. split; [exists "//c.bb.h"; reflexivity|]. intros [t H]. discriminate.
Qed.

Print Assumptions C31_relative_path.
Print Assumptions C31_relative_path_strict.
Print Assumptions C31_python_import.
Print Assumptions C31_go_import_refuted.
Print Assumptions C41_distinct_files.
Print Assumptions C41_rmpath_refuted.
Print Assumptions C41_rmpath.
