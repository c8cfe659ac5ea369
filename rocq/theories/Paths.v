(** The path of an imported file: /repo/fileio/path.go:43-53 GetAbsolutelyPathWithBasePath, with Go's
    path/filepath (Clean, Dir, Join, IsAbs, Abs) on Unix.  Paths are texts; links and Windows volumes are left out. *)
From Coq Require Import String Ascii List Bool Arith Lia.
From Verif Require Import Literals.
Import ListNotations.
Open Scope string_scope.
Open Scope nat_scope.
Open Scope list_scope.

(** ** Specification: places *)

Definition slash : ascii := "/".
(** The parts of a path between its slashes. *)
Fixpoint parts (p : chars) : list chars :=
  match p with
  | [] => [[]]
  | c :: r => if Ascii.eqb c slash then [] :: parts r
              else match parts r with x :: l => (c :: x) :: l | [] => [[c]] end
  end.
(** A place in the tree of files: the names from the root.  Walking along the parts of a path: ".." goes up (at
    the root it stays), "." and an empty part stay, any other part goes down. *)
Definition place : Type := list chars.
Definition step (at_ : place) (part : chars) : place :=
  match part with
  | [] => at_
  | _ => if list_eq_dec ascii_dec part (cs ".") then at_
         else if list_eq_dec ascii_dec part (cs "..") then removelast at_
         else at_ ++ [part]
  end.
Definition walk (at_ : place) (l : list chars) : place := fold_left step l at_.
(** The place of an absolute path; of the directory that holds the file with that path. *)
Definition place_of (p : chars) : place := walk [] (parts p).
Definition dir_of (p : chars) : place := walk [] (removelast (parts p)).
(** The path of a place. *)
Definition path_of (at_ : place) : chars :=
  match at_ with [] => [slash] | _ => flat_map (fun n => slash :: n) at_ end.
Definition absolute (p : chars) : Prop := exists r, p = slash :: r.

(** ** Model *)

(** filepath.IsAbs. *)
Definition is_abs (p : chars) : bool := match p with c :: _ => Ascii.eqb c slash | [] => false end.
(** strings.Join(_, "/"). *)
Fixpoint join_parts (l : list chars) : chars :=
  match l with [] => [] | [x] => x | x :: r => x ++ slash :: join_parts r end.
(** filepath.Clean (path/filepath/path.go): the parts kept so far, the last one first.  "." and empty parts are
    dropped, ".." takes the part before it away, unless that is ".." itself; at the beginning of a path that
    starts with a slash it is dropped. *)
Fixpoint clean_parts (rooted : bool) (l : list chars) (out : list chars) : list chars :=
  match l with
  | [] => rev out
  | x :: r =>
      match x with
      | [] => clean_parts rooted r out
      | _ =>
          if list_eq_dec ascii_dec x (cs ".") then clean_parts rooted r out
          else if list_eq_dec ascii_dec x (cs "..") then
            match out with
            | [] => clean_parts rooted r (if rooted then [] else [x])
            | y :: o => if list_eq_dec ascii_dec y (cs "..") then clean_parts rooted r (x :: out)
                        else clean_parts rooted r o
            end
          else clean_parts rooted r (x :: out)
      end
  end.
Definition clean (p : chars) : chars :=
  let rooted := is_abs p in
  let body := join_parts (clean_parts rooted (parts p) []) in
  if rooted then slash :: body
  else match body with [] => cs "." | _ => body end.
(** filepath.Dir: the text up to the last slash, cleaned. *)
Fixpoint drop_name (l : chars) : chars :=
  match l with [] => [] | c :: r => if Ascii.eqb c slash then l else drop_name r end.
Definition dir (p : chars) : chars := clean (rev (drop_name (rev p))).
(** filepath.Join of two elements. *)
Definition join2 (a b : chars) : chars :=
  match a, b with
  | [], [] => []
  | [], _ => clean b
  | _, _ => clean (a ++ slash :: b)
  end.
(** filepath.Abs in the working directory [cwd]. *)
Definition abs (cwd p : chars) : chars := if is_abs p then clean p else join2 cwd p.
(** path.go:43-53. *)
Definition resolve (cwd file relative : chars) : chars :=
  if is_abs file then file else abs cwd (join2 (dir relative) file).

(** ** Proofs *)

Definition good (n : chars) : Prop := n <> [] /\ n <> cs "." /\ n <> cs ".." /\ ~ In slash n.

Lemma parts_nonempty p : parts p <> [].
Proof. destruct p as [|c r]; cbn; [discriminate|]. destruct (Ascii.eqb c slash); [discriminate|]. destruct (parts r); discriminate. Qed.
Lemma parts_slash a b : parts (a ++ slash :: b) = parts a ++ parts b.
Proof.
  induction a as [|c a IH]; [reflexivity|]. cbn [app parts]. destruct (Ascii.eqb c slash); [now rewrite IH|].
  rewrite IH. destruct (parts a) as [|x l] eqn:E; [now destruct (parts_nonempty a)|]. reflexivity.
Qed.
Lemma parts_no_slash p : Forall (fun x => ~ In slash x) (parts p).
Proof.
  induction p as [|c p IH]; cbn; [repeat constructor; auto|].
  destruct (Ascii.eqb_spec c slash) as [->|N]; [constructor; auto|].
  destruct (parts p) as [|x l]; [repeat constructor; cbn; intuition|].
  inversion IH; subst. constructor; auto. cbn. intuition.
Qed.
Lemma parts_plain n : ~ In slash n -> parts n = [n].
Proof.
  induction n as [|c n IH]; intros H; [reflexivity|]. cbn. destruct (Ascii.eqb_spec c slash) as [->|]; [exfalso; apply H; now left|].
  rewrite IH; auto. intros I. apply H. now right.
Qed.
Lemma parts_join l : l <> [] -> Forall (fun x => ~ In slash x) l -> parts (join_parts l) = l.
Proof.
  induction l as [|x l IH]; intros N F; [easy|]. inversion F; subst. destruct l as [|y l]; [now apply parts_plain|].
  change (join_parts (x :: y :: l)) with (x ++ slash :: join_parts (y :: l)).
  rewrite parts_slash, parts_plain, IH; auto. discriminate.
Qed.
Lemma flat_join x l : x ++ flat_map (fun n => slash :: n) l = join_parts (x :: l).
Proof.
  revert x. induction l as [|y l IH]; intros x; [cbn; now rewrite app_nil_r|].
  change (join_parts (x :: y :: l)) with (x ++ slash :: join_parts (y :: l)). rewrite <- IH. reflexivity.
Qed.
Lemma path_of_join l : path_of l = slash :: join_parts l.
Proof. destruct l as [|x l]; [reflexivity|]. rewrite <- flat_join. reflexivity. Qed.

Lemma step_good l x : Forall good l -> ~ In slash x -> Forall good (step l x).
Proof.
  intros F N. unfold step. destruct x as [|c x]; auto. destruct (list_eq_dec _ _ _); auto.
  destruct (list_eq_dec _ _ _).
  - clear -F. induction F as [|y l Hy F IH]; [constructor|]. cbn. destruct l; [constructor|constructor; auto].
  - apply Forall_app. split; auto. repeat constructor; auto. discriminate.
Qed.
Lemma walk_good l : forall at_, Forall good at_ -> Forall (fun x => ~ In slash x) l -> Forall good (walk at_ l).
Proof.
  induction l as [|x l IH]; intros at_ G F; auto. inversion F; subst. cbn. apply IH; auto. now apply step_good.
Qed.
Lemma removelast_rev {A} (x : A) l : removelast (rev (x :: l)) = rev l.
Proof. cbn. apply removelast_last. Qed.
Lemma clean_walk l : forall out, Forall good out -> Forall (fun x => ~ In slash x) l ->
  clean_parts true l out = walk (rev out) l.
Proof.
  induction l as [|x l IH]; intros out G F; [reflexivity|]. inversion F as [|x' l' Hx Hl]; subst.
  cbn [clean_parts walk fold_left]. unfold step at 2. destruct x as [|c x]; [now apply IH|].
  destruct (list_eq_dec ascii_dec (c :: x) (cs ".")); [now apply IH|].
  destruct (list_eq_dec ascii_dec (c :: x) (cs "..")).
  - destruct out as [|y o].
    + now apply (IH []).
    + inversion G as [|y' o' Gy Go]; subst. destruct (list_eq_dec ascii_dec y (cs "..")) as [E|_]; [now destruct Gy as (_ & _ & [] & _)|].
      rewrite removelast_rev. now apply IH.
  - change (rev out ++ [c :: x]) with (rev ((c :: x) :: out)). apply IH; auto. constructor; auto.
    repeat split; auto. discriminate.
Qed.
Lemma clean_abs p : is_abs p = true -> clean p = path_of (place_of p).
Proof.
  intros E. unfold clean. rewrite E, clean_walk; [|constructor|apply parts_no_slash]. cbn [rev]. now rewrite path_of_join.
Qed.

Lemma place_good p : Forall good (place_of p).
Proof. apply walk_good; [constructor|apply parts_no_slash]. Qed.
Lemma walk_cons at_ x l : walk at_ (x :: l) = walk (step at_ x) l.
Proof. reflexivity. Qed.
Lemma walk_self l : forall at_, Forall good l -> walk at_ l = at_ ++ l.
Proof.
  induction l as [|x l IH]; intros at_ F; [cbn; now rewrite app_nil_r|]. inversion F as [|? ? (N & D & DD & _)]; subst.
  rewrite walk_cons, IH; auto. unfold step. destruct x as [|c x]; [easy|].
  destruct (list_eq_dec _ _ _); [easy|]. destruct (list_eq_dec _ _ _); [easy|]. now rewrite <- app_assoc.
Qed.
Lemma parts_path l : Forall good l -> l <> [] -> parts (path_of l) = [] :: l.
Proof.
  intros G N. rewrite path_of_join. cbn [parts]. rewrite Ascii.eqb_refl. f_equal. apply parts_join; auto.
  eapply Forall_impl; [|exact G]. now intros a (_ & _ & _ & H).
Qed.
Lemma place_path l : Forall good l -> place_of (path_of l) = l.
Proof.
  intros G. destruct l as [|x l]; [reflexivity|]. unfold place_of. rewrite parts_path; auto; [|discriminate].
  change (walk [] ([] :: x :: l)) with (walk [] (x :: l)). now rewrite walk_self.
Qed.
Lemma is_abs_path l : is_abs (path_of l) = true.
Proof. now rewrite path_of_join. Qed.
Lemma walk_app at_ l m : walk at_ (l ++ m) = walk (walk at_ l) m.
Proof. apply fold_left_app. Qed.

Lemma join_abs a b : is_abs a = true -> join2 a b = path_of (walk (place_of a) (parts b)).
Proof.
  intros E. destruct a as [|c a]; [discriminate|].
  cbn [join2]. rewrite clean_abs; auto. unfold place_of at 1. now rewrite parts_slash, walk_app.
Qed.

Lemma drop_name_parts p : parts (rev (drop_name (rev p))) = removelast (parts p) ++ [[]].
Proof.
  assert (C : (~ In slash p /\ drop_name (rev p) = []) \/
              exists a b, p = a ++ slash :: b /\ ~ In slash b /\ drop_name (rev p) = slash :: rev a).
  { induction p as [|c p IH] using rev_ind; [left; split; auto|]. rewrite rev_app_distr. cbn [rev app drop_name].
    destruct (Ascii.eqb_spec c slash) as [->|N].
    - right. exists p, []. repeat split; auto.
    - destruct IH as [[I E]|(a & b & -> & I & E)].
      + left. split; auto. intros J. apply in_app_or in J as [J|[J|[]]]; auto.
      + right. exists a, (b ++ [c]). rewrite <- app_assoc. repeat split; auto.
        intros J. apply in_app_or in J as [J|[J|[]]]; auto. }
  destruct C as [[I ->]|(a & b & -> & I & ->)].
  - now rewrite (parts_plain p).
  - cbn [rev]. rewrite rev_involutive, !parts_slash, (parts_plain b); auto. cbn [parts]. now rewrite removelast_last.
Qed.
Lemma drop_name_abs p : is_abs p = true -> is_abs (rev (drop_name (rev p))) = true.
Proof.
  destruct p as [|c p]; [discriminate|]. cbn [is_abs]. intros E. apply Ascii.eqb_eq in E. subst c.
  cbn [rev]. induction (rev p) as [|d l IH]; [reflexivity|]. cbn [app drop_name].
  destruct (Ascii.eqb_spec d slash) as [->|N]; auto. cbn [rev]. rewrite rev_app_distr. reflexivity.
Qed.
Lemma dir_abs p : is_abs p = true -> dir p = path_of (dir_of p).
Proof.
  intros E. unfold dir. rewrite clean_abs by now apply drop_name_abs. unfold place_of, dir_of.
  now rewrite drop_name_parts, walk_app.
Qed.
Lemma dir_good p : Forall good (dir_of p).
Proof.
  apply walk_good; [constructor|]. pose proof (parts_no_slash p) as F. 
  destruct (exists_last (parts_nonempty p)) as (l & x & E). rewrite E in *. rewrite removelast_last.
  now apply Forall_app in F.
Qed.

Lemma resolve_import cwd file base : is_abs base = true -> is_abs file = false ->
  resolve cwd file base = path_of (walk (dir_of base) (parts file)).
Proof.
  intros B F. unfold resolve. rewrite F, dir_abs, join_abs, place_path; auto using is_abs_path, dir_good.
  unfold abs. rewrite is_abs_path, clean_abs, place_path; auto using is_abs_path.
  apply walk_good; auto using dir_good, parts_no_slash.
Qed.

(** The first file, whose name is given on the command line: GetAbsolutelyPath (path.go:38-40). *)

(** Cleaning a relative path does not change where it leads. *)
Definition rel_ok (l : list chars) : Prop := Forall (fun x => x <> [] /\ ~ In slash x) l.
Lemma step_down at_ y : good y -> step at_ y = at_ ++ [y].
Proof.
  intros (N & D & DD & _). unfold step. destruct y; [easy|]. destruct (list_eq_dec _ _ _); [easy|].
  destruct (list_eq_dec _ _ _); easy.
Qed.
Lemma step_up at_ : step at_ (cs "..") = removelast at_.
Proof. reflexivity. Qed.
Definition ups_then (l : list chars) : Prop := exists n m, l = repeat (cs "..") n ++ m /\ Forall good m.
Lemma ups_snoc l x : ups_then (l ++ [x]) ->
  (x = cs ".." /\ ups_then (l ++ [x; x])) \/ (good x /\ ups_then l).
Proof.
  intros (n & m & E & G). destruct (list_eq_dec (list_eq_dec ascii_dec) m []) as [->|Nm].
  - left. rewrite app_nil_r in E. destruct n as [|n]; [destruct l; discriminate|].
    replace (S n) with (n + 1) in E by lia. rewrite repeat_app in E. cbn [repeat] in E.
    apply app_inj_tail in E as [-> ->]. split; auto. exists (n + 2), []. rewrite repeat_app, app_nil_r. split; auto.
  - right. destruct (exists_last Nm) as (m' & z & ->). rewrite app_assoc in E. apply app_inj_tail in E as [-> ->].
    apply Forall_app in G as [G1 G2]. inversion G2; subst. split; auto. exists n, m'. auto.
Qed.
Lemma ups_ok l : ups_then l -> rel_ok l.
Proof.
  intros (n & m & -> & G). apply Forall_app. split.
  - clear. induction n; cbn; constructor; auto. split; [discriminate|]. cbn. intuition discriminate.
  - eapply Forall_impl; [|exact G]. intros a (H1 & H2 & _ & H4). auto.
Qed.
Lemma clean_rel l : forall out at_, Forall (fun x => ~ In slash x) l -> ups_then (rev out) ->
  walk at_ (clean_parts false l out) = walk at_ (rev out ++ l) /\ rel_ok (clean_parts false l out).
Proof.
  induction l as [|x l IH]; intros out at_ F U.
  { cbn [clean_parts]. rewrite app_nil_r. split; auto. now apply ups_ok. }
  inversion F as [|x' l' Hx Hl]; subst. cbn [clean_parts]. destruct x as [|c x].
  { destruct (IH out at_ Hl U) as [H1 H2]. rewrite H1. split; auto. rewrite !walk_app. reflexivity. }
  destruct (list_eq_dec ascii_dec (c :: x) (cs ".")) as [Ed|Nd].
  { destruct (IH out at_ Hl U) as [H1 H2]. rewrite H1. split; auto. rewrite !walk_app, Ed. reflexivity. }
  destruct (list_eq_dec ascii_dec (c :: x) (cs "..")) as [Edd|Ndd].
  - rewrite Edd. destruct out as [|y o].
    + destruct (IH [cs ".."] at_ Hl) as [H1 H2]; [|now rewrite H1].
      exists 1, []. split; [reflexivity|constructor].
    + cbn [rev] in U. apply ups_snoc in U as [[-> U]|[Gy U]].
      * destruct (list_eq_dec ascii_dec (cs "..") (cs "..")) as [_|[]]; auto.
        destruct (IH (cs ".." :: cs ".." :: o) at_ Hl) as [H1 H2]; [cbn [rev]; now rewrite <- app_assoc|].
        rewrite H1. split; auto. cbn [rev]. now rewrite <- !app_assoc.
      * destruct (list_eq_dec ascii_dec y (cs "..")) as [Ey|_]; [now destruct Gy as (_ & _ & [] & _)|].
        destruct (IH o at_ Hl U) as [H1 H2]. rewrite H1. split; auto. cbn [rev]. rewrite <- app_assoc, !walk_app.
        cbn [walk fold_left app]. now rewrite step_up, step_down, removelast_last.
  - destruct (IH ((c :: x) :: out) at_ Hl) as [H1 H2].
    { destruct U as (n & m & E & G). exists n, (m ++ [c :: x]). cbn [rev]. rewrite E, app_assoc. split; auto.
      apply Forall_app. split; auto. repeat constructor; auto. discriminate. }
    rewrite H1. split; auto. cbn [rev]. now rewrite <- app_assoc.
Qed.
Lemma join_nil l : rel_ok l -> join_parts l = [] -> l = [].
Proof. destruct l as [|x [|y l]]; auto; intros R; inversion R as [|? ? [N _]]; subst; cbn; [easy|]. destruct x; [easy|discriminate]. Qed.
Lemma is_abs_parts p : is_abs p = false -> p <> [] -> exists x l, parts p = x :: l /\ x <> [].
Proof.
  destruct p as [|c p]; intros E N; [easy|]. cbn in E. cbn. rewrite E. destruct (parts p); eexists _, _; split; eauto; discriminate.
Qed.
Lemma clean_rel_leads p at_ : is_abs p = false -> walk at_ (parts (clean p)) = walk at_ (parts p) /\ is_abs (clean p) = false.
Proof.
  intros E. unfold clean. rewrite E.
  destruct (clean_rel (parts p) [] at_ (parts_no_slash p)) as [H1 H2]; [exists 0, []; split; [reflexivity|constructor]|].
  cbn [rev app] in H1. rewrite <- H1. set (l := clean_parts false (parts p) []) in *.
  destruct (join_parts l) as [|c b] eqn:J.
  - rewrite (join_nil _ H2 J). split; reflexivity.
  - assert (Nl : l <> []) by (intros Hl; rewrite Hl in J; discriminate).
    rewrite <- J. split.
    + f_equal. apply parts_join; auto. eapply Forall_impl; [|exact H2]. now intros a [_ H].
    + destruct l as [|x l']; [easy|]. inversion H2 as [|? ? [N S] _]; subst. destruct x as [|d x]; [easy|].
      destruct l'; cbn; destruct (Ascii.eqb_spec d slash) as [->|]; auto; exfalso; apply S; now left.
Qed.
Lemma resolve_first cwd file : is_abs cwd = true -> is_abs file = false ->
  resolve cwd file [] = path_of (walk (place_of cwd) (parts file)).
Proof.
  intros C F. unfold resolve. rewrite F. change (dir []) with (cs ".").
  assert (J : (forall at_, walk at_ (parts (join2 (cs ".") file)) = walk at_ (parts file)) /\ is_abs (join2 (cs ".") file) = false).
  { change (join2 (cs ".") file) with (clean (cs "." ++ slash :: file)). split.
    - intros at_. destruct (clean_rel_leads (cs "." ++ slash :: file) at_ eq_refl) as [-> _]. now rewrite parts_slash.
    - now destruct (clean_rel_leads (cs "." ++ slash :: file) [] eq_refl). }
  destruct J as [J1 J2]. unfold abs. rewrite J2, join_abs; auto. now rewrite J1.
Qed.

(** ** C60: import paths *)

(** A relative import leads to the place found by walking from the directory of the importing file, and its path
    is that place's only path: however the import is spelt, the same place gives the same path. *)
Theorem C60_import : forall cwd base file, absolute base -> ~ absolute file ->
  resolve cwd file base = path_of (walk (dir_of base) (parts file)).
Proof.
  intros cwd base file [b ->] N. apply resolve_import; auto. destruct file as [|c r]; auto. cbn.
  destruct (Ascii.eqb_spec c slash) as [->|]; auto. destruct N. now exists r.
Qed.
(** The first file is looked up from the working directory. *)
Theorem C60_first : forall cwd file, absolute cwd -> ~ absolute file ->
  resolve cwd file [] = path_of (walk (place_of cwd) (parts file)).
Proof.
  intros cwd file [b ->] N. apply resolve_first; auto. destruct file as [|c r]; auto. cbn.
  destruct (Ascii.eqb_spec c slash) as [->|]; auto. destruct N. now exists r.
Qed.
(** Paths of places are different for different places, and resolved paths are absolute. *)
Definition is_place (l : place) : Prop :=
  Forall (fun n => n <> [] /\ n <> cs "." /\ n <> cs ".." /\ ~ In "/"%char n) l.
Theorem C60_path_place : forall l, is_place l -> absolute (path_of l) /\ place_of (path_of l) = l.
Proof.
  intros l G. split; [rewrite path_of_join; eexists; reflexivity|]. now apply place_path.
Qed.
Theorem C60_places : forall base file, is_place (walk (dir_of base) (parts file)) /\ is_place (place_of base).
Proof. intros. split; [apply walk_good; auto using dir_good, parts_no_slash|apply place_good]. Qed.
(** Imports relative to two files meet exactly if they lead to the same place. *)
Theorem C60_same_file : forall cwd base1 file1 base2 file2,
  absolute base1 -> ~ absolute file1 -> absolute base2 -> ~ absolute file2 ->
  (resolve cwd file1 base1 = resolve cwd file2 base2 <->
   walk (dir_of base1) (parts file1) = walk (dir_of base2) (parts file2)).
Proof.
  intros cwd b1 f1 b2 f2 A1 N1 A2 N2. rewrite !C60_import; auto. split; [|now intros ->].
  intros E. apply (f_equal place_of) in E.
  now rewrite !place_path in E by (apply walk_good; auto using dir_good, parts_no_slash).
Qed.
(** The full claim fails for absolute imports, whose text is taken as it is: one place, two paths. *)
Theorem C60_absolute_refuted : exists cwd base file1 file2, absolute base /\ absolute file1 /\
  place_of file1 = walk (dir_of base) (parts file2) /\ resolve cwd file1 base <> resolve cwd file2 base.
Proof.
  exists (cs "/w"), (cs "/w/a.bb"), (cs "/w/./b.bb"), (cs "b.bb").
  split; [eexists; reflexivity|]. split; [eexists; reflexivity|]. split; [reflexivity|]. discriminate.
Qed.
Example C60_import_instance : resolve (cs "/w") (cs "../x/./y//b.bb") (cs "/w/z/a.bb") = cs "/w/x/y/b.bb" /\
  resolve (cs "/w") (cs "a/../b.bb") [] = cs "/w/b.bb".
Proof. split; reflexivity. Qed.
