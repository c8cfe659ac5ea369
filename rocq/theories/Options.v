(** Model of the option setters, generator/gen/gen_option.go; property C38. *)
From Coq Require Import Ascii String ZArith List Lia Bool.
From Verif Require Import Package GoModel.
Import ListNotations.
Open Scope string_scope.
Open Scope Z_scope.
Open Scope list_scope.

(** gen_option.go:30-41, the fields an option setter below touches *)
Record opts := { o_rmpath : list string; o_sx : signext; o_unroll : Z }.
(** gen_option.go:47-60 *)
Definition default_opts : opts := {| o_rmpath := []; o_sx := SxDefault; o_unroll := 4 |}.

(** strings.ToLower on ASCII *)
Definition lower_ascii (c : ascii) : ascii :=
  let n := nat_of_ascii c in
  if (Nat.leb 65 n && Nat.leb n 90)%bool then ascii_of_nat (n + 32) else c.
Fixpoint lower (s : string) : string :=
  match s with EmptyString => "" | String c t => String (lower_ascii c) (lower t) end.

(** gen_option.go:121-126, SignExtMethodMap *)
Definition signext_map (s : string) : option signext :=
  if String.eqb s "" then Some SxDefault
  else if String.eqb s "default" then Some SxDefault
  else if String.eqb s "shift" then Some SxShift
  else if String.eqb s "arith" then Some SxArith
  else None.

(** gen_option.go:128-143; [None] is the error *)
Definition set_signext (s : string) (o : opts) : option opts :=
  match signext_map (lower s) with
  | Some m => Some {| o_rmpath := o_rmpath o; o_sx := m; o_unroll := o_unroll o |}
  | None => None
  end.

(** gen_option.go:145-158 *)
Definition set_unroll (n : Z) (o : opts) : option opts :=
  if n <? -1 then None
  else Some {| o_rmpath := o_rmpath o; o_sx := o_sx o; o_unroll := n |}.

(** "for strings.HasSuffix(p, "/") { p = p[:len(p)-1] }", gen_option.go:69-71: the longest prefix
    that does not end in a slash, by recursion from the left. *)
Fixpoint strip_trailing (s : string) : string :=
  match s with
  | EmptyString => ""
  | String c t => match strip_trailing t with
                  | EmptyString => if Ascii.eqb c "/" then "" else String c ""
                  | r => String c r
                  end
  end.

(** gen_option.go:66-77 *)
Definition set_rmpath (s : string) (o : opts) : opts :=
  {| o_rmpath := map strip_trailing (split "," s); o_sx := o_sx o; o_unroll := o_unroll o |}.

Fixpoint all_slash (s : string) : Prop :=
  match s with EmptyString => True | String c t => c = "/"%char /\ all_slash t end.
Definition ends_slash (s : string) : Prop := exists p, s = p +++ "/".

(** The same letters, whatever their case; independent of [lower]. *)
Definition capitals : list (ascii * ascii) :=
  combine (list_ascii_of_string "ABCDEFGHIJKLMNOPQRSTUVWXYZ") (list_ascii_of_string "abcdefghijklmnopqrstuvwxyz").
Definition same_letter (c d : ascii) : Prop := c = d \/ In (c, d) capitals.
Fixpoint spelled (s word : string) : Prop :=
  match s, word with
  | EmptyString, EmptyString => True
  | String c s, String d word => same_letter c d /\ spelled s word
  | _, _ => False
  end.
Lemma lower_same c : same_letter c (lower_ascii c).
Proof.
  assert (A : Ascii.eqb c (lower_ascii c) || existsb (fun p => Ascii.eqb c (fst p) && Ascii.eqb (lower_ascii c) (snd p)) capitals = true).
  { destruct c as [[] [] [] [] [] [] [] []]; vm_compute; reflexivity. }
  apply orb_true_iff in A as [A|A]; [left; now apply Ascii.eqb_eq|right].
  apply existsb_exists in A as ((a & b) & I & H). apply andb_true_iff in H as [H1 H2]. cbn [fst snd] in *.
  apply Ascii.eqb_eq in H1, H2. now rewrite H1, H2 at 1.
Qed.
Lemma same_lower c d : lower_ascii d = d -> same_letter c d -> lower_ascii c = d.
Proof.
  intros L [->|H]; [exact L|]. clear L. cbn [capitals combine list_ascii_of_string In] in H.
  repeat (destruct H as [H|H]; [injection H as <- <-; reflexivity|]). destruct H.
Qed.
Lemma lower_spelled w : lower w = w -> forall s, lower s = w <-> spelled s w.
Proof.
  induction w as [|d w IH]; intros L [|c s]; cbn [lower spelled]; try (split; intros H; [discriminate H|destruct H]); [split; auto|].
  cbn [lower] in L. injection L as L1 L2. specialize (IH L2 s). split.
  - intros H. injection H as H1 H2. split; [rewrite <- H1; apply lower_same|now apply IH].
  - intros [H1 H2]. f_equal; [now apply same_lower|now apply IH].
Qed.
Lemma lower_empty s : lower s = "" <-> s = "".
Proof. destruct s; cbn; split; auto; discriminate. Qed.

(** C38.  -signext accepts exactly "", default, shift and arith, in any letter case. *)
Theorem C38_signext : forall s o,
  (exists o', set_signext s o = Some o') <->
  (s = "" \/ spelled s "default" \/ spelled s "shift" \/ spelled s "arith").
Proof.
  intros s o. rewrite <- lower_empty, <- !lower_spelled by reflexivity. unfold set_signext, signext_map.
  destruct (String.eqb_spec (lower s) ""); [split; eauto|].
  destruct (String.eqb_spec (lower s) "default"); [split; eauto|].
  destruct (String.eqb_spec (lower s) "shift"); [split; eauto|].
  destruct (String.eqb_spec (lower s) "arith"); [split; eauto|].
  split; [intros [? H]; discriminate|]. intros [H|[H|[H|H]]]; contradiction.
Qed.

(** ... and selects the method it names, and changes nothing else. *)
Theorem C38_signext_value : forall s o o', set_signext s o = Some o' ->
  (o_sx o' = SxShift <-> spelled s "shift") /\ (o_sx o' = SxArith <-> spelled s "arith") /\
  o_rmpath o' = o_rmpath o /\ o_unroll o' = o_unroll o.
Proof.
  intros s o o'. rewrite <- !lower_spelled by reflexivity. unfold set_signext, signext_map.
  destruct (String.eqb_spec (lower s) "") as [E|]; [intros H; injection H as <-; cbn; rewrite E; repeat split; discriminate|].
  destruct (String.eqb_spec (lower s) "default") as [E|]; [intros H; injection H as <-; cbn; rewrite E; repeat split; discriminate|].
  destruct (String.eqb_spec (lower s) "shift") as [E|]; [intros H; injection H as <-; cbn; rewrite E; repeat split; intro Q; discriminate || reflexivity|].
  destruct (String.eqb_spec (lower s) "arith") as [E|]; [intros H; injection H as <-; cbn; rewrite E; repeat split; intro Q; discriminate || reflexivity|].
  discriminate.
Qed.
Example C38_signext_instance : spelled "ShIfT" "shift" /\ (exists o', set_signext "ShIfT" default_opts = Some o' /\ o_sx o' = SxShift).
Proof. split; [cbn; repeat split; (left; reflexivity) || (right; cbn; tauto)|]. eexists. split; reflexivity. Qed.

(** C38.  -unroll accepts exactly the integers from -1 up and stores them unchanged. *)
Theorem C38_unroll : forall n o,
  (-1 <= n -> exists o', set_unroll n o = Some o' /\ o_unroll o' = n /\ o_sx o' = o_sx o /\ o_rmpath o' = o_rmpath o) /\
  (n < -1 -> set_unroll n o = None).
Proof.
  intros n o. unfold set_unroll. split; intros H.
  - replace (n <? -1) with false by lia. eexists. repeat split.
  - replace (n <? -1) with true by lia. reflexivity.
Qed.

Lemma strip_trailing_spec s : exists t, s = strip_trailing s +++ t /\ all_slash t.
Proof.
  induction s as [|c s (t & Ht & Hs)]; [exists ""; split; [reflexivity|exact I]|].
  cbn [strip_trailing]. destruct (strip_trailing s) as [|d r] eqn:E.
  - cbn in Ht. subst t. destruct (Ascii.eqb_spec c "/") as [->|].
    + exists (String "/" s). split; [reflexivity|]. split; [reflexivity|exact Hs].
    + exists s. split; [reflexivity|exact Hs].
  - exists t. split; [|exact Hs]. rewrite Ht at 1. reflexivity.
Qed.

Lemma app_slash_inv p c t : (p +++ "/")%string = String c t ->
  (p = "" /\ c = "/"%char /\ t = "") \/ exists p', p = String c p' /\ t = p' +++ "/".
Proof.
  destruct p as [|d p]; cbn; intros H; injection H as -> <-; [left; auto|right; eauto].
Qed.

Lemma strip_trailing_end s : ~ ends_slash (strip_trailing s).
Proof.
  induction s as [|c s IH]; intros (p & E).
  - destruct p; discriminate.
  - cbn [strip_trailing] in E. destruct (strip_trailing s) as [|d r] eqn:Q.
    + destruct (Ascii.eqb_spec c "/") as [|Hc]; [destruct p; discriminate|].
      symmetry in E. apply app_slash_inv in E as [(_ & E & _)|(p' & _ & E)]; [contradiction|].
      destruct p'; discriminate.
    + symmetry in E. apply app_slash_inv in E as [(_ & _ & E)|(p' & _ & E)]; [discriminate|].
      apply IH. exists p'. exact E.
Qed.

(** C38.  -rmpath splits at commas and cuts every trailing slash off each entry, nothing else. *)
Theorem C38_rmpath : forall s o,
  exists cut, List.length cut = List.length (split "," s) /\
    Forall all_slash cut /\
    map (fun pc => fst pc +++ snd pc) (combine (o_rmpath (set_rmpath s o)) cut) = split "," s /\
    Forall (fun p => ~ ends_slash p) (o_rmpath (set_rmpath s o)).
Proof.
  intros s o. cbn [o_rmpath set_rmpath]. induction (split "," s) as [|x l (cut & H1 & H2 & H3 & H4)].
  - exists []. repeat split; constructor.
  - destruct (strip_trailing_spec x) as (t & Ht & Hs). exists (t :: cut). cbn. repeat split.
    + rewrite H1. reflexivity.
    + constructor; assumption.
    + rewrite H3, <- Ht. reflexivity.
    + constructor; [apply strip_trailing_end|exact H4].
Qed.

Example C38_instance :
  set_signext "Shift" default_opts <> None /\ set_signext "rot" default_opts = None /\
  o_rmpath (set_rmpath "example.com/a///,example.com/b/" default_opts) = ["example.com/a"; "example.com/b"] /\
  set_unroll (-2) default_opts = None.
Proof. repeat split; vm_compute; try reflexivity. discriminate. Qed.

Print Assumptions C38_signext.
Print Assumptions C38_signext_value.
Print Assumptions C38_unroll.
Print Assumptions C38_rmpath.

(** main.go:104, 167-168: the setter is called even if -rmpath is not given, with "", which makes the
    list hold one empty prefix that every file name matches.  Nothing is removed all the same, so
    C41_distinct_files speaks of a run without -rmpath. *)
Theorem C41_no_rmpath : forall fp ext, fp <> [] -> Forall ident fp ->
  out_file (o_rmpath (set_rmpath "" default_opts)) (to_file_path (new_package fp) ext) =
  to_file_path (new_package fp) ext.
Proof.
  intros fp ext Hn Hi. change (o_rmpath (set_rmpath "" default_opts)) with [""].
  set (f := to_file_path (new_package fp) ext).
  destruct (proj2 (C41_rmpath [""] f) [] "" [] eq_refl (fun _ H => match H with end)) as (n & E & _).
  { exists f. reflexivity. }
  destruct n as [|n]; [symmetry; exact E|]. exfalso.
  assert (H : exists t, f = String "/" t) by (eexists; exact E). clear E. destruct H as [t H].
  unfold f, to_file_path in H. destruct (new_package_parts fp Hn) as [P _]. rewrite P in H.
  destruct fp as [|a fp]; [contradiction|]. inversion Hi as [|? ? Ha _]; subst.
  assert (H' : exists u, a = String "/" u).
  { destruct Ha as (N & _). destruct a as [|c a]; [contradiction|]. destruct fp; cbn in H; injection H as -> _; eauto. }
  destruct H' as [u ->]. destruct Ha as (_ & Hs & _). cbn in Hs. discriminate.
Qed.
Example C41_no_rmpath_instance :
  out_file (o_rmpath (set_rmpath "" default_opts)) (to_file_path (new_package ["a"; "b"]) ".bb.h") = "a/b.bb.h".
Proof. vm_compute. reflexivity. Qed.
Print Assumptions C41_no_rmpath.
