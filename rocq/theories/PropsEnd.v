(** C66: from the texts of schemas to messages between programs in any two languages. *)
From Coq Require Import ZArith Lia Bool String Ascii List.
Import ListNotations.
From Verif Require Import Base Schema SpecWire GoModel GoPrefix FrontModel FrontSpec FrontProofs PropsFront CompileModel CompileSpec PropsCompile TgtModel TgtPrefix PyTarget KtTarget Interop PropsGo PropsTargets.
From Verif Require Import Literals LexModel LexSpec LexLayout Text PropsText FloatLit.
Open Scope string_scope.
Open Scope Z_scope.
Open Scope list_scope.

(** In what the compiler makes of the files [T] from the file [p] on, [sch] is the layout of the struct that the file [q] knows as [n]. *)
Definition layout_of (cwd : chars) (T : texts) (p q n : string) (sch : fields) : Prop :=
  exists us u s, compile_texts parse_float cwd T p = Ok us /\ In (q, u) us /\ get n (u_types u) = Some (CTStruct s) /\ sch = erase (cs_fields s).

Lemma on_values_in {V W} (f : V -> W) m k w : In (k, w) (on_values f m) -> exists v, In (k, v) m /\ f v = w.
Proof. unfold on_values. intros I. apply in_map_iff in I as ([k' v] & E & I). cbn [fst snd] in E. exists v. assert (k' = k) by congruence. subst k'. split; [exact I|congruence]. Qed.
Lemma in_on_values {V W} (f : V -> W) m k v : In (k, v) m -> In (k, f v) (on_values f m).
Proof. intros I. unfold on_values. apply in_map_iff. exists (k, v). auto. Qed.
Lemma get_on_values {V W} (f : V -> W) m k : get k (on_values f m) = option_map f (get k m).
Proof. induction m as [|[a v] m IH]; [reflexivity|]. cbn [on_values map get fst snd]. destruct (String.eqb k a); [reflexivity|exact IH]. Qed.

(** Formatting and comments do not reach the layout. *)
Theorem C66_layout cwd T1 T2 p q n sch : NoDup (map fst T1) -> same_tokens T1 T2 -> layout_of cwd T1 p q n sch -> layout_of cwd T2 p q n sch.
Proof.
  intros N Sm (us & u & s & C & I & G & ->). pose proof (C61_layout parse_float cwd T1 T2 p N Sm) as F. rewrite C in F.
  destruct (compile_texts parse_float cwd T2 p) as [us'| |] eqn:C'; try discriminate. cbn [forget] in F.
  assert (E : on_values forget_unit us = on_values forget_unit us') by congruence. clear F.
  apply (in_on_values forget_unit) in I. rewrite E in I. apply on_values_in in I as (u' & I & Eu).
  assert (Et : on_values forget_type (u_types u') = on_values forget_type (u_types u)) by exact (f_equal u_types Eu).
  pose proof (f_equal (get n) Et) as Eg. rewrite !get_on_values, G in Eg. cbn [option_map] in Eg.
  destruct (get n (u_types u')) as [[s'|e]|] eqn:G'; [|discriminate|discriminate]. cbn [option_map forget_type] in Eg.
  exists us', u', s'. repeat split; auto. f_equal. congruence.
Qed.

Section Ends.
Variable cwd : chars.
(** [program_fits] of C23: no size overflows an int64. *)
Definition sizes_fit (T : texts) (p : string) : Prop := program_fits (load parse_float cwd T) p.

Lemma layout_wf T p q n sch : sizes_fit T p -> layout_of cwd T p q n sch -> limits sch -> wf_struct sch.
Proof.
  intros Fi (us & u & s & C & I & G & ->) L. pose proof (C23_program _ _ _ C Fi _ _ I) as Henv.
  assert (Ht : accepted_type (CTStruct s)).
  { clear - Henv G. revert G. induction (u_types u) as [|[n' c'] r IH]; cbn; [discriminate|].
    inversion Henv; subst. destruct (String.eqb n n'); [intros [= ->]; assumption|auto]. }
  inversion Ht; subst. eapply C23_accepted_wf; eauto.
Qed.

Lemma in_nodup {V} (m : list (string * V)) k v w : NoDup (map fst m) -> In (k, v) m -> In (k, w) m -> v = w.
Proof. intros N I J. apply get_in in I, J; auto. congruence. Qed.
Lemma layout_same T1 T2 p q n s1 s2 : NoDup (map fst T1) -> same_tokens T1 T2 ->
  layout_of cwd T1 p q n s1 -> layout_of cwd T2 p q n s2 -> s2 = s1.
Proof.
  intros N Sm L1 L2. apply (C66_layout _ _ _ _ _ _ _ N Sm) in L1. destruct L1 as (us & u & s & C & I & G & ->), L2 as (us' & u' & s' & C' & I' & G' & ->).
  assert (us' = us) by congruence. subst us'.
  assert (u' = u) by (pose proof (proj1 (C28_order _ _ _ C)) as Nd'; eapply in_nodup; eauto). subst u'. congruence.
Qed.

(** Two programs, in languages [A] and [B], are generated from two copies of the same schemas, formatted differently.
    What one encodes the other decodes, whatever follows the message. *)
Theorem C66_any_to_any A B T1 T2 p q n s1 s2 vs extra :
  NoDup (map fst T1) -> same_tokens T1 T2 -> sizes_fit T1 p ->
  layout_of cwd T1 p q n s1 -> layout_of cwd T2 p q n s2 ->
  limits s1 -> nd_fields s1 -> fits_fields s1 vs ->
  can_encode A s1 -> can_decode B s1 -> can_hold B s1 vs -> bytes_ok extra ->
  zlen (image_fields s1 vs) < 8 * lang_limit A ->
  zlen (image_fields s1 vs) + 8 * zlen extra < 8 * lang_limit B ->
  exists msg, lang_encode A s1 vs = Ok msg /\ lang_decode B s2 (msg ++ extra) = Ok (vs, zlen msg).
Proof.
  intros N Sm Fi L1 L2 Li Nd F CA CB V Hx LA LB.
  assert (E : s2 = s1) by (eapply layout_same; eauto).
  rewrite E. apply C47_any_to_any; auto. eapply layout_wf; eauto.
Qed.

(** And all languages write the same bytes, those of the wire format. *)
Theorem C66_same_bytes A B T1 T2 p q n s1 s2 vs :
  NoDup (map fst T1) -> same_tokens T1 T2 -> sizes_fit T1 p ->
  layout_of cwd T1 p q n s1 -> layout_of cwd T2 p q n s2 ->
  limits s1 -> nd_fields s1 -> storable_fields s1 vs -> can_encode A s1 -> can_encode B s1 ->
  zlen (image_fields s1 vs) < 8 * lang_limit A -> zlen (image_fields s1 vs) < 8 * lang_limit B ->
  exists msg, lang_encode A s1 vs = Ok msg /\ lang_encode B s2 vs = Ok msg /\ bytes_ok msg /\
    8 * zlen msg = zlen (image_fields s1 vs) /\
    forall k, 0 <= k < 8 * zlen msg -> bitat msg k = match onth (image_fields s1 vs) k with Some (Some b) => b | _ => false end.
Proof.
  intros N Sm Fi L1 L2 Li Nd F CA CB LA LB.
  assert (E : s2 = s1) by (eapply layout_same; eauto).
  rewrite E. apply C47_same_bytes; auto. eapply layout_wf; eauto.
Qed.
End Ends.

(** ** Instance: two copies of two files, and the message of C47_plain_instance *)
Definition line (l : list string) : chars := cs (String.concat nl l).
Definition a1 : chars := line
  ["package a;"; "import ""./b.bb"";"; "struct Doc {"; "  uint8 a;"; "  int32 b [order = ""big""];"; "  Kind e; // sixteen bits";
   "  bool f[1];"; "  uint16 magic = 0x1234 [order = ""big""];"; "  void [1];"; "  float64 d; string s; bytes t;"; "  Item<2> items;";
   "  uint16<5> arr [order = ""big""];"; "}"].
Definition a2 : chars := line
  ["package a;import""./b.bb"";struct Doc{uint8 a;int32 b[order=""big""];Kind e;bool f[1];/* magic"; "number */ uint16 magic=0x1234[order=""big""];void[1];";
   "float64 d;string s;bytes t;Item<2>items;uint16<5>arr[order=""big""];}"].
Definition b1 : chars := line ["package b;"; "struct Item { string name; float32 w; }"; "enum Kind[2] { NONE, SOME = 513, }"].
Definition b2 : chars := line ["package b; struct Item {"; "string name; float32 w; // weight"; "} enum Kind[2]{NONE,SOME=513,}"].
Definition copy1 : texts := [("/w/a.bb", a1); ("/w/b.bb", b1)].
Definition copy2 : texts := [("/w/a.bb", a2); ("/w/b.bb", b2)].
Definition units1 : list (string * comp_unit) :=
  Eval vm_compute in match compile_texts parse_float (cs "/w") copy1 "/w/a.bb" with Ok us => us | _ => [] end.
Lemma compiled1 : compile_texts parse_float (cs "/w") copy1 "/w/a.bb" = Ok units1.
Proof. vm_compute. reflexivity. Qed.
Lemma layout1 : layout_of (cs "/w") copy1 "/w/a.bb" "/w/a.bb" "Doc" ex_plain.
Proof.
  exists units1. destruct (get "/w/a.bb" units1) as [u|] eqn:G; [|discriminate]. 
  destruct (get "Doc" (u_types u)) as [[s|e]|] eqn:G'; [|vm_compute in G; injection G as <-; discriminate..].
  exists u, s. split; [exact compiled1|]. split; [now apply get_In|]. split; [exact G'|].
  vm_compute in G. injection G as <-. vm_compute in G'. injection G' as <-. reflexivity.
Qed.
Lemma distinct1 : NoDup (map fst copy1).
Proof. repeat constructor; cbn; intuition discriminate. Qed.
Lemma same1 : same_tokens copy1 copy2.
Proof. apply Forall2_cons; [split; vm_compute; reflexivity|]. apply Forall2_cons; [split; vm_compute; reflexivity|]. apply Forall2_nil. Qed.
Definition fs1 : filesystem := load parse_float (cs "/w") copy1.
Definition sources1 : list (option (option source)) := Eval vm_compute in [get "/w/a.bb" fs1; get "/w/b.bb" fs1].
Lemma source_a : get "/w/a.bb" fs1 = nth 0 sources1 None.
Proof. vm_compute. reflexivity. Qed.
Lemma source_b : get "/w/b.bb" fs1 = nth 1 sources1 None.
Proof. vm_compute. reflexivity. Qed.
Lemma compiled_fs1 : compile_file fs1 "/w/a.bb" = Ok units1.
Proof. vm_compute. reflexivity. Qed.
Lemma fit_abs fs : compile_file fs "/w/a.bb" = Ok units1 ->
  (forall s, contains fs "/w/a.bb" s -> nth 0 sources1 None = Some (Some s)) -> (forall s, contains fs "/w/b.bb" s -> nth 1 sources1 None = Some (Some s)) ->
  program_fits fs "/w/a.bb".
Proof.
  intros C Sa Sb q s pkg os u Hr Hc Hos Hall.
  destruct (C28_order _ _ _ C) as (_ & Hk & _). apply Hk in Hr. clear Hk.
  assert (K : forall l os, all_mean fs l os -> (forall p, In p l -> p = "/w/b.bb") ->
      os = map (fun p => match get p units1 with Some v => v | None => new_unit "" "" end) l).
  { induction 1 as [|p v l vs Hm _ IH]; intros Hl; [reflexivity|]. cbn [map]. f_equal.
    - assert (Hp : p = "/w/b.bb") by (apply Hl; left; reflexivity).
      destruct (get p units1) as [v'|] eqn:E.
      + eapply C28_deterministic; [exact Hm|]. eapply C28_units; [exact C|]. apply get_In. exact E.
      + subst p. discriminate.
    - apply IH. intros. apply Hl. right. assumption. }
  change (map fst units1) with ["/w/b.bb"; "/w/a.bb"] in Hr. destruct Hr as [<-|[<-|[]]].
  - apply Sb in Hc. injection Hc as <-. apply K in Hos; [|easy]. subst os. vm_compute in Hall. injection Hall as <-.
    apply fits_fileb_ok; vm_compute; reflexivity.
  - apply Sa in Hc. injection Hc as <-. apply K in Hos; [|cbn; intuition congruence]. subst os. vm_compute in Hall. injection Hall as <-.
    apply fits_fileb_ok; vm_compute; reflexivity.
Qed.
Lemma fit1 : sizes_fit (cs "/w") copy1 "/w/a.bb".
Proof.
  change (program_fits fs1 "/w/a.bb"). apply fit_abs; [exact compiled_fs1| |]; intros s H; [rewrite <- source_a|rewrite <- source_b]; exact H.
Qed.
(** The bytes, from the texts: generated Go code from the first copy, Python from the second. *)
Definition doc_of (T : texts) : fields :=
  match compile_texts parse_float (cs "/w") T "/w/a.bb" with
  | Ok us => match get "/w/a.bb" us with
             | Some u => match get "Doc" (u_types u) with Some (CTStruct s) => erase (cs_fields s) | _ => FNil end
             | None => FNil
             end
  | _ => FNil
  end.
Example C66_instance : NoDup (map fst copy1) /\ same_tokens copy1 copy2 /\ a1 <> a2 /\ sizes_fit (cs "/w") copy1 "/w/a.bb" /\
  layout_of (cs "/w") copy1 "/w/a.bb" "/w/a.bb" "Doc" ex_plain /\ limits ex_plain /\ nd_fields ex_plain /\ fits_fields ex_plain ex_plain_vs /\
  let G := LGo PropsGo.ex_c1 in let P := LPy 4 (fun _ _ => true) in
  can_encode G ex_plain /\ can_decode P ex_plain /\ can_hold P ex_plain ex_plain_vs.
Proof.
  destruct C47_plain_instance as (W & Nd & Pl & F & _ & _).
  split; [exact distinct1|]. split; [exact same1|]. split; [discriminate|]. split; [exact fit1|]. split; [exact layout1|].
  split; [cbn; sch|]. split; [exact Nd|]. split; [exact F|]. split; [apply plain_can_encode; auto; exact I|].
  split; [apply plain_can_decode; auto; exact I|].
  cbn [can_hold nums_fields nums_elem ex_plain ex_plain_vs ex_item map lang_num lang_str py_vp]. sch2; repeat (apply Forall_cons || apply Forall_nil); sch2.
Qed.
Example C66_bytes : exists msg, lang_encode (LGo PropsGo.ex_c1) (doc_of copy1) ex_plain_vs = Ok msg /\ zlen msg = 46 /\
  firstn 13 msg = [200; 255; 255; 255; 249; 1; 2; 1; 18; 52; 0; 0; 0] /\
  lang_decode (LPy 4 (fun _ _ => true)) (doc_of copy2) (msg ++ [7]) = Ok (ex_plain_vs, 46).
Proof. eexists. split; [vm_compute; reflexivity|]. repeat split; vm_compute; reflexivity. Qed.
