(** The parser finds the derivations of the grammar: declarations and files. *)
From Coq Require Import String Ascii List Bool Arith Lia ZArith.
From Verif Require Import Literals LexModel FrontModel ExprModel Syntax Parser ParserProofs.
Import ListNotations.
Open Scope string_scope.
Open Scope nat_scope.
Open Scope list_scope.

Lemma many_inv' {A} st (p : parser A) y (Q : A -> Prop) : (forall ts a k, p ts = Some (a, k) -> ts = y a ++ k /\ Q a) ->
  forall n ts l k, many n st p ts = Some (l, k) -> ts = flat_map y l ++ k /\ Forall Q l.
Proof.
  intros S. induction n as [|n IH]; intros ts l k; [discriminate|]. cbn [many]. destruct (st ts); intros H.
  - apply bind_inv in H as (a & k1 & E & H). apply bind_inv in H as (l' & k2 & E2 & H). apply ret_inv in H as [<- <-].
    apply S in E as [-> Qa]. apply IH in E2 as [-> Ql]. split; [|now constructor]. cbn [flat_map]. now rewrite app_assoc.
  - injection H as <- <-. split; [reflexivity|constructor].
Qed.
Lemma repeated_inv' {A} st (p : parser A) y (Q : A -> Prop) ts l k : (forall ts a k, p ts = Some (a, k) -> ts = y a ++ k /\ Q a) ->
  repeated st p ts = Some (l, k) -> ts = flat_map y l ++ k /\ Forall Q l.
Proof. intros S. now apply many_inv'. Qed.
Lemma optional_inv' {A} st (p : parser A) y (Q : A -> Prop) ts o k :
  (forall ts a k, p ts = Some (a, k) -> ts = y a ++ k /\ Q a) ->
  optional st p ts = Some (o, k) -> ts = y_opt y o ++ k /\ match o with Some a => Q a | None => True end.
Proof.
  intros S. unfold optional. destruct (st ts); [|intros H; now injection H as <- <-].
  intros H. apply bind_inv in H as (a & k1 & E & H). apply ret_inv in H as [<- <-]. cbn. now apply S.
Qed.
Lemma y_name_inv ts a k : p_name ts = Some (a, k) -> ts = y_name a ++ k.
Proof. apply p_name_inv. Qed.
Ltac opts := match goal with
  | H : optional _ p_size _ = Some _ |- _ => apply (optional_inv _ _ _ _ _ _ p_size_inv) in H; subst
  | H : optional _ p_opts _ = Some _ |- _ => apply (optional_inv _ _ _ _ _ _ p_opts_inv) in H; subst
  | H : optional _ p_name _ = Some _ |- _ => apply (optional_inv _ _ _ _ _ _ y_name_inv) in H; subst
  | H : p_size _ = Some _ |- _ => apply p_size_inv in H; subst
  | H : p_rhs _ = Some _ |- _ => apply p_rhs_inv in H; subst
  | H : p_opts _ = Some _ |- _ => apply p_opts_inv in H; subst
  | H : p_pair _ = Some _ |- _ => apply p_pair_inv in H; subst
  end.

(** One step of a parser on tokens that are as they should be. *)
Lemma o_size s k : (s = None -> at_size k = false) -> optional at_size p_size (y_opt y_size s ++ k) = Some (s, k).
Proof. intros F. apply optional_ok; [intros; apply p_size_ok|intros; apply at_size_ok|exact F]. Qed.
Lemma o_opts o k : (o = None -> at_opts k = false) -> optional at_opts p_opts (y_opt y_opts o ++ k) = Some (o, k).
Proof. intros F. apply optional_ok; [intros; apply p_opts_ok|reflexivity|exact F]. Qed.
Lemma o_name o k : (o = None -> next (of_kind KIdent) k = false) ->
  optional (next (of_kind KIdent)) p_name (y_opt y_name o ++ k) = Some (o, k).
Proof. intros F. apply optional_ok; [intros; reflexivity|intros; reflexivity|exact F]. Qed.
Ltac step H := rewrite (bind_ok _ _ _ _ _ H); cbv beta.

(** ** Methods *)
Lemma p_method_inv ts m k : p_method ts = Some (m, k) -> ts = y_method m ++ k /\ meant_method m.
Proof.
  unfold p_method. intros H. apply bind_inv in H as (g & k1 & E & H).
  repeat (opened || opts).
  match goal with H : parse_expr _ = Some _ |- _ => apply parse_expr_inv in H as (-> & M & _) end.
  split; [|exact M]. unfold y_method. cbn [pm_get pm_name pm_type pm_expr]. flat.
  destruct (next (is_fx "get") ts); repeat opened; reflexivity.
Qed.
Lemma p_method_ok m k : meant_method m -> p_method (y_method m ++ k) = Some (m, k).
Proof.
  intros M. destruct m as [g n b e]. unfold p_method, y_method. cbn [pm_get pm_name pm_type pm_expr]. flat.
  rewrite (bind_ok _ _ _ g (y_opt y_name n ++ fx "(" :: y_basic b ++ fx ")" :: fx ":" :: y_expr e ++ fx ";" :: k)).
  2:{ destruct g; reflexivity. }
  cbv beta. step (o_name n (fx "(" :: y_basic b ++ fx ")" :: fx ":" :: y_expr e ++ fx ";" :: k) (fun _ => eq_refl)).
  step (p_fx_ok "(" (y_basic b ++ fx ")" :: fx ":" :: y_expr e ++ fx ";" :: k)).
  step (p_basic_ok b (fx ")" :: fx ":" :: y_expr e ++ fx ";" :: k)).
  step (p_fx_ok ")" (fx ":" :: y_expr e ++ fx ";" :: k)). step (p_fx_ok ":" (y_expr e ++ fx ";" :: k)).
  assert (N : expr_end (fx ";" :: k)) by (intros i; now apply nofollow_cons).
  step (parse_expr_ok e (fx ";" :: k) M N). step (p_fx_ok ";" k). reflexivity.
Qed.
Lemma p_methods_inv ts l k : p_methods ts = Some (l, k) -> ts = y_methods l ++ k /\ Forall meant_method l.
Proof.
  unfold p_methods. intros H. repeat opened.
  match goal with H : repeated _ _ _ = Some _ |- _ => apply (repeated_inv' _ _ _ _ _ _ _ p_method_inv) in H as [-> M] end.
  split; auto. unfold y_methods, y_list. flat. reflexivity.
Qed.
Lemma p_methods_ok l k : Forall meant_method l -> p_methods (y_methods l ++ k) = Some (l, k).
Proof.
  intros M. unfold p_methods, y_methods, y_list. flat. step (p_fx_ok "{" (flat_map y_method l ++ fx "}" :: k)).
  rewrite (bind_ok _ _ _ l (fx "}" :: k)).
  - cbv beta. step (p_fx_ok "}" k). reflexivity.
  - rewrite Forall_forall in M. apply repeated_ok; auto.
    + intros m k' I. apply p_method_ok. auto.
    + intros m k' I. unfold y_method. destruct (pm_get m); reflexivity.
    + discriminate.
Qed.

(** ** Types and fields *)
Lemma p_arr_inv ts a k : p_arr ts = Some (a, k) -> ts = y_arr a ++ k.
Proof. unfold p_arr. intros H. repeat opened. reflexivity. Qed.
Lemma p_arr_ok a k : p_arr (y_arr a ++ k) = Some (a, k).
Proof. reflexivity. Qed.
Lemma o_arr a k : (a = None -> next (is_fx "<") k = false) -> optional (next (is_fx "<")) p_arr (y_opt y_arr a ++ k) = Some (a, k).
Proof. intros F. apply optional_ok; [intros; reflexivity|intros; reflexivity|exact F]. Qed.
Lemma o_methods m k : (m = None -> next (is_fx "{") k = false) -> match m with Some l => Forall meant_method l | None => True end ->
  optional (next (is_fx "{")) p_methods (y_opt y_methods m ++ k) = Some (m, k).
Proof. intros F M. apply optional_ok; [intros l ->; now apply p_methods_ok|reflexivity|exact F]. Qed.

Lemma p_tail_inv t a ts e k : p_tail t a ts = Some (e, k) -> meant_type t ->
  y_type t ++ y_opt y_arr a ++ ts = y_element e ++ k /\ meant_element e.
Proof.
  unfold p_tail. intros H M. destruct (next _ ts).
  - repeat (opened || opts).
    match goal with H : optional _ p_methods _ = Some _ |- _ => apply (optional_inv' _ _ _ _ _ _ _ p_methods_inv) in H as [-> Mm] end.
    split; [|split; auto]. cbn [y_element]. flat. reflexivity.
  - repeat (opened || opts). split; [|exact M]. cbn [y_element]. flat. reflexivity.
Qed.
Section Sound.
  Variable pt : parser ptype.
  Hypothesis pt_inv : forall ts t k, pt ts = Some (t, k) -> ts = y_type t ++ k /\ meant_type t.
  Lemma p_element_inv ts e k : p_element pt ts = Some (e, k) -> ts = y_element e ++ k /\ meant_element e.
  Proof.
    unfold p_element. intros H.
    destruct (next (is_fx ";") ts); [repeat opened; split; [reflexivity|exact I]|].
    destruct (next (is_fx "void") ts).
    { repeat (opened || opts). split; [|exact I]. cbn [y_element]. flat. reflexivity. }
    destruct (at_const ts).
    { repeat (opened || opts). split; [|exact I]. cbn [y_element]. flat. reflexivity. }
    repeat opened.
    match goal with H : pt _ = Some _ |- _ => apply pt_inv in H as [-> M] end.
    match goal with H : optional _ p_arr _ = Some _ |- _ => apply (optional_inv _ _ _ _ _ _ p_arr_inv) in H; subst end.
    match goal with H : p_tail _ _ _ = Some _ |- _ => apply (fun H => p_tail_inv _ _ _ _ _ H M) in H; exact H end.
  Qed.
  Lemma p_struct_inv ts d k : p_struct pt ts = Some (d, k) -> ts = y_struct d ++ k /\ meant_struct d.
  Proof.
    unfold p_struct. intros H. repeat (opened || opts).
    match goal with H : repeated _ _ _ = Some _ |- _ => apply (repeated_inv' _ _ _ _ _ _ _ p_element_inv) in H as [-> M] end.
    split.
    - cbn [y_struct]. flat. reflexivity.
    - cbn [meant_struct]. induction M; cbn; auto.
  Qed.
End Sound.
Lemma p_type_inv n : forall ts t k, p_type n ts = Some (t, k) -> ts = y_type t ++ k /\ meant_type t.
Proof.
  induction n as [|n IH]; intros ts t k H; [discriminate|]. cbn [p_type] in H.
  destruct (next is_basic ts); [repeat opened; split; [reflexivity|exact I]|].
  destruct (next (is_fx "string") ts); [repeat opened; split; [reflexivity|exact I]|].
  destruct (next (is_fx "bytes") ts); [repeat opened; split; [reflexivity|exact I]|].
  destruct (next (is_fx "enum") ts); [repeat opened; split; [reflexivity|exact I]|].
  destruct (next (is_fx "struct") ts).
  - match type of H with (if ?c then _ else _) = _ => destruct c end.
    + repeat opened. match goal with H : p_struct _ _ = _ |- _ => apply (p_struct_inv _ IH) in H; exact H end.
    + repeat opened; split; [reflexivity|exact I].
  - repeat opened; split; [reflexivity|exact I].
Qed.

(** What may follow a type without being taken as a part of it. *)
Definition type_end (k : list token) : Prop := at_size k = false /\ next (is_fx "{") k = false.

(** The first token of a type. *)
Definition type_tok (t : token) : bool :=
  is_basic t || is_fx "string" t || is_fx "bytes" t || is_fx "enum" t || is_fx "struct" t || of_kind KIdent t.
Lemma y_type_first t : exists x r, y_type t = x :: r /\ type_tok x = true.
Proof.
  destruct t as [b| | |n|[n s body]|n|n]; cbn; try (eexists; eexists; split; [reflexivity|reflexivity]).
  eexists; eexists; split; [reflexivity|]. unfold type_tok, is_basic. now rewrite basic_tok_ok.
Qed.
Lemma type_tok_not x s : type_tok x = true -> type_tok (fx s) = false -> is_fx s x = false.
Proof. intros T F. destruct (is_fx s x) eqn:E; auto. apply is_fx_inv in E. congruence. Qed.
Lemma y_element_first e k : open_body (y_element e ++ k) = true /\ y_element e <> [].
Proof.
  destruct e as [|s o|b n s r o|t a o|t a n s o m]; cbn [y_element].
  - split; [reflexivity|discriminate].
  - split; [reflexivity|discriminate].
  - split; [destruct b; reflexivity|discriminate].
  - destruct (y_type_first t) as (x & r & -> & T). split; [|discriminate].
    unfold open_body. cbn [app next]. now rewrite (type_tok_not x "}" T).
  - destruct (y_type_first t) as (x & r & -> & T). split; [|discriminate].
    unfold open_body. cbn [app next]. now rewrite (type_tok_not x "}" T).
Qed.

Lemma at_const_yes b n s k : at_const (y_basic b ++ y_opt y_name n ++ y_opt y_size s ++ fx "=" :: k) = true.
Proof.
  unfold at_const. step (p_basic_ok b (y_opt y_name n ++ y_opt y_size s ++ fx "=" :: k)).
  rewrite (bind_ok _ _ _ _ _ (o_name n (y_opt y_size s ++ fx "=" :: k) (fun _ => ltac:(destruct s as [[]|]; reflexivity)))).
  step (o_size s (fx "=" :: k) (fun _ => eq_refl)). rewrite p_fx_ok. reflexivity.
Qed.
Lemma no_const ts k : (forall b, ts = y_basic b -> match (let* _ := optional (next (of_kind KIdent)) p_name in
         let* _ := optional at_size p_size in p_fx "=") k with Some _ => false | None => true end = true) ->
  (forall b r, ts = y_basic b ++ r -> r = []) -> ts <> [] -> at_const (ts ++ k) = false.
Proof.
  intros F U N. unfold at_const. destruct (p_basic (ts ++ k)) as [[b r]|] eqn:E; unfold bind at 1; rewrite E; [|reflexivity].
  apply p_basic_inv in E. destruct ts as [|x ts]; [easy|]. cbn in E. injection E as -> <-.
  assert (ts = []) as -> by (apply (U b); reflexivity). cbn [app].
  specialize (F b eq_refl).
  match goal with |- match ?m with _ => _ end = _ => destruct m; [discriminate|reflexivity] end.
Qed.
Lemma basic_first b x r : y_basic b = x :: r -> is_basic x = true.
Proof. intros E. injection E as <- _. unfold is_basic. now rewrite basic_tok_ok. Qed.

Section Complete.
  Variable pt : parser ptype.
  Definition type_of_element (e : pelement) : option ptype :=
    match e with LEmbed t _ _ => Some t | LNormal t _ _ _ _ _ => Some t | _ => None end.
  Lemma type_start t k : next (is_fx ";") (y_type t ++ k) = false /\ next (is_fx "void") (y_type t ++ k) = false.
  Proof.
    destruct (y_type_first t) as (x & r & -> & T). cbn [app next].
    now rewrite (type_tok_not x ";" T), (type_tok_not x "void" T).
  Qed.
  Lemma type_basic_only t b r : y_type t = y_basic b ++ r -> r = [].
  Proof. destruct t as [b'| | |n|[n s body]|n|n]; cbn; intros E; injection E; try (destruct b; discriminate). congruence. Qed.
  Lemma p_element_ok e k :
    (forall t k, type_of_element e = Some t -> type_end k -> pt (y_type t ++ k) = Some (t, k)) ->
    meant_element e -> p_element pt (y_element e ++ k) = Some (e, k).
  Proof.
    intros C M. destruct e as [|s o|b n s r o|t a o|t a n s o m].
    - reflexivity.
    - unfold p_element. cbn [y_element]. flat.
      change (next (is_fx ";") (fx "void" :: y_size s ++ y_opt y_opts o ++ fx ";" :: k)) with false.
      change (next (is_fx "void") (fx "void" :: y_size s ++ y_opt y_opts o ++ fx ";" :: k)) with true.
      step (p_fx_ok "void" (y_size s ++ y_opt y_opts o ++ fx ";" :: k)).
      step (p_size_ok s (y_opt y_opts o ++ fx ";" :: k)).
      step (o_opts o (fx ";" :: k) (fun _ => eq_refl)). step (p_fx_ok ";" k). reflexivity.
    - unfold p_element. cbn [y_element]. flat.
      set (k1 := y_rhs r ++ y_opt y_opts o ++ fx ";" :: k).
      replace (next (is_fx ";") (y_basic b ++ y_opt y_name n ++ y_opt y_size s ++ fx "=" :: k1)) with false by (destruct b; reflexivity).
      replace (next (is_fx "void") (y_basic b ++ y_opt y_name n ++ y_opt y_size s ++ fx "=" :: k1)) with false by (destruct b; reflexivity).
      rewrite at_const_yes.
      step (p_basic_ok b (y_opt y_name n ++ y_opt y_size s ++ fx "=" :: k1)).
      rewrite (bind_ok _ _ _ n (y_opt y_size s ++ fx "=" :: k1)); [|apply o_name; intros _; destruct s as [[]|]; reflexivity].
      cbv beta. step (o_size s (fx "=" :: k1) (fun _ => eq_refl)). step (p_fx_ok "=" k1). unfold k1.
      step (p_rhs_ok r (y_opt y_opts o ++ fx ";" :: k)).
      step (o_opts o (fx ";" :: k) (fun _ => eq_refl)). step (p_fx_ok ";" k). reflexivity.
    - unfold p_element. cbn [y_element]. flat. set (k1 := y_opt y_opts o ++ fx ";" :: k).
      destruct (type_start t (y_opt y_arr a ++ k1)) as [-> ->].
      rewrite no_const.
      + rewrite (bind_ok _ _ _ t (y_opt y_arr a ++ k1)).
        2:{ apply C; [reflexivity|]. destruct a as [a|]; [split; reflexivity|]. destruct o as [[[? ?] ?]|]; split; reflexivity. }
        cbv beta. rewrite (bind_ok _ _ _ a k1); [|apply o_arr; intros _; destruct o; reflexivity].
        unfold p_tail. replace (next (of_kind KIdent) k1) with false by (unfold k1; destruct o; reflexivity).
        unfold k1. step (o_opts o (fx ";" :: k) (fun _ => eq_refl)). step (p_fx_ok ";" k). reflexivity.
      + intros b _. destruct a as [a|]; [reflexivity|]. unfold k1. destruct o as [[[? ?] ?]|]; reflexivity.
      + intros b r. apply type_basic_only.
      + destruct (y_type_first t) as (x & r & -> & _). discriminate.
    - destruct M as [M Mm]. unfold p_element. cbn [y_element]. flat.
      set (k3 := y_opt y_methods m ++ fx ";" :: k). set (k2 := y_opt y_opts o ++ k3). set (k1 := name n :: y_opt y_size s ++ k2).
      assert (K3 : at_opts k3 = false) by (unfold k3; destruct m; reflexivity).
      assert (K2 : at_size k2 = false).
      { unfold k2. destruct o as [[[? ?] ?]|]; [reflexivity|]. unfold k3. destruct m; reflexivity. }
      destruct (type_start t (y_opt y_arr a ++ k1)) as [-> ->].
      rewrite no_const.
      + rewrite (bind_ok _ _ _ t (y_opt y_arr a ++ k1)).
        2:{ apply C; [reflexivity|]. destruct a as [a|]; split; reflexivity. }
        cbv beta. rewrite (bind_ok _ _ _ a k1); [|apply o_arr; reflexivity].
        unfold p_tail. replace (next (of_kind KIdent) k1) with true by reflexivity.
        unfold k1. step (p_name_ok n (y_opt y_size s ++ k2)). step (o_size s k2 (fun _ => K2)).
        unfold k2. step (o_opts o k3 (fun _ => K3)). unfold k3.
        step (o_methods m (fx ";" :: k) (fun _ => eq_refl) Mm). step (p_fx_ok ";" k). reflexivity.
      + intros b _. destruct a as [a|]; [reflexivity|]. cbn [y_opt app]. unfold k1.
        rewrite (bind_ok _ _ _ (Some n) (y_opt y_size s ++ k2)); [|reflexivity].
        step (o_size s k2 (fun _ => K2)). unfold k2. destruct o as [[[? ?] ?]|]; [reflexivity|].
        unfold k3. destruct m; reflexivity.
      + intros b r. apply type_basic_only.
      + destruct (y_type_first t) as (x & r & -> & _). discriminate.
  Qed.
  Lemma p_struct_ok n s body k :
    (forall e t k, In e body -> type_of_element e = Some t -> type_end k -> pt (y_type t ++ k) = Some (t, k)) ->
    meant_struct (PStruct n s body) -> p_struct pt (y_struct (PStruct n s body) ++ k) = Some (PStruct n s body, k).
  Proof.
    intros C M. cbn [meant_struct] in M. cbn [y_struct]. flat. unfold p_struct.
    set (k1 := fx "{" :: flat_map y_element body ++ fx "}" :: k).
    step (p_fx_ok "struct" (name n :: y_opt y_size s ++ k1)). step (p_name_ok n (y_opt y_size s ++ k1)).
    step (o_size s k1 (fun _ => eq_refl)). unfold k1. step (p_fx_ok "{" (flat_map y_element body ++ fx "}" :: k)).
    rewrite (bind_ok _ _ _ body (fx "}" :: k)).
    - cbv beta. step (p_fx_ok "}" k). reflexivity.
    - apply repeated_ok; auto.
      + intros e k' I. apply p_element_ok.
        * intros t k0 Et. now apply (C e).
        * clear C k1. induction body as [|e' body IH]; [easy|]. destruct M as [Me M]. destruct I as [->|I]; auto.
      + intros e k' _. apply y_element_first.
      + intros e _. now apply (y_element_first e []).
  Qed.
End Complete.

Lemma in_flat_length {A} (y : A -> list token) a l : In a l -> length (y a) <= length (flat_map y l).
Proof. induction l as [|b l IH]; [easy|]. intros [->|I]; cbn; rewrite app_length; [lia|]. apply IH in I. lia. Qed.
Lemma type_in_struct n s body e t : In e body -> type_of_element e = Some t ->
  length (y_type t) + 3 <= length (y_struct (PStruct n s body)).
Proof.
  intros I E. apply (in_flat_length y_element) in I. cbn [y_struct]. cbn [length]. rewrite app_length. cbn [length].
  rewrite app_length. cbn [length].
  assert (length (y_type t) <= length (y_element e)).
  { destruct e; try discriminate; injection E as ->; cbn [y_element]; rewrite app_length; lia. }
  lia.
Qed.
Lemma p_type_ok n : forall t k, length (y_type t) <= n -> meant_type t -> type_end k -> p_type n (y_type t ++ k) = Some (t, k).
Proof.
  induction n as [|n IH]; intros t k L M [S B].
  - destruct (y_type_first t) as (x & r & E & _). rewrite E in L. cbn in L. lia.
  - destruct t as [b| | |nm|[nm s body]|nm|nm]; cbn [p_type].
    + cbn [y_type]. replace (next is_basic (y_basic b ++ k)) with true by (destruct b; reflexivity).
      step (p_basic_ok b k). reflexivity.
    + reflexivity.
    + reflexivity.
    + cbn [y_type app].
      change (next is_basic (fx "struct" :: name nm :: k)) with false.
      change (next (is_fx "string") (fx "struct" :: name nm :: k)) with false.
      change (next (is_fx "bytes") (fx "struct" :: name nm :: k)) with false.
      change (next (is_fx "enum") (fx "struct" :: name nm :: k)) with false.
      change (next (is_fx "struct") (fx "struct" :: name nm :: k)) with true.
      cbv iota. rewrite S, B. reflexivity.
    + cbn [y_type meant_type] in *. cbv beta.
      assert (T : exists k', y_struct (PStruct nm s body) ++ k = fx "struct" :: name nm :: k' /\ (at_size k' || next (is_fx "{") k' = true)).
      { cbn [y_struct]. flat. eexists. split; [reflexivity|]. destruct s as [s|]; cbn [y_opt app]; [|reflexivity].
        now rewrite at_size_ok. }
      destruct T as (k' & E & T).
      rewrite (bind_ok (p_struct (p_type n)) _ _ (PStruct nm s body) k).
      2:{ apply p_struct_ok; auto. intros e t k0 I Et Te. apply IH; auto.
          - pose proof (type_in_struct nm s body e t I Et). lia.
          - cbn [meant_struct] in M. clear - M I Et. induction body as [|e' body IH]; [easy|].
            destruct M as [Me M]. destruct I as [->|I]; auto.
            destruct e; try discriminate; injection Et as ->; cbn in Me; tauto. }
      rewrite E.
      change (next is_basic (fx "struct" :: name nm :: k')) with false.
      change (next (is_fx "string") (fx "struct" :: name nm :: k')) with false.
      change (next (is_fx "bytes") (fx "struct" :: name nm :: k')) with false.
      change (next (is_fx "enum") (fx "struct" :: name nm :: k')) with false.
      change (next (is_fx "struct") (fx "struct" :: name nm :: k')) with true.
      cbv iota. rewrite T. reflexivity.
    + reflexivity.
    + reflexivity.
Qed.
Lemma p_struct_type_ok m d k : length (y_struct d) <= m -> meant_struct d -> p_struct (p_type m) (y_struct d ++ k) = Some (d, k).
Proof.
  intros L M. destruct d as [n s body]. apply p_struct_ok; auto. intros e t k0 I Et Te. apply p_type_ok; auto.
  - pose proof (type_in_struct n s body e t I Et). lia.
  - cbn [meant_struct] in M. clear - M I Et. induction body as [|e' body IH]; [easy|].
    destruct M as [Me M]. destruct I as [->|I]; auto.
    destruct e; try discriminate; injection Et as ->; cbn in Me; tauto.
Qed.

(** ** Enums *)
Lemma p_value_inv ts v k : p_value ts = Some (v, k) -> ts = y_value v ++ k.
Proof.
  unfold p_value. intros H. repeat opened.
  match goal with H : optional _ (bind _ _) _ = Some _ |- _ =>
    apply (optional_inv _ _ (fun r => fx "=" :: y_rhs r)) in H end.
  2:{ intros ts a k' H'. repeat (opened || opts). reflexivity. }
  subst. repeat opts. unfold y_value. cbn [pv_name pv_rhs pv_opts pv_comma]. flat.
  match goal with H : (if ?c then _ else _) = _ |- _ => destruct c end; repeat opened; reflexivity.
Qed.
Lemma p_value_ok v k : p_value (y_value v ++ k) = Some (v, k).
Proof.
  destruct v as [n r o c]. unfold p_value, y_value. cbn [pv_name pv_rhs pv_opts pv_comma]. flat.
  set (k1 := fx (if c then "," else ";") :: k).
  step (p_name_ok n (y_opt (fun r => fx "=" :: y_rhs r) r ++ y_opt y_opts o ++ k1)).
  rewrite (bind_ok _ _ _ r (y_opt y_opts o ++ k1)).
  2:{ apply optional_ok; [| |].
      - intros r' ->. cbn [app]. step (p_fx_ok "=" (y_rhs r' ++ y_opt y_opts o ++ k1)). apply p_rhs_ok.
      - reflexivity.
      - intros _. destruct o; [reflexivity|]. destruct c; reflexivity. }
  cbv beta. rewrite (bind_ok _ _ _ o k1); [|apply o_opts; intros _; destruct c; reflexivity].
  destruct c; reflexivity.
Qed.
Lemma p_member_inv ts v k : p_member ts = Some (v, k) -> ts = y_member v ++ k.
Proof.
  unfold p_member. intros H. destruct (next _ ts); repeat opened; [reflexivity|].
  match goal with H : p_value _ = _ |- _ => apply p_value_inv in H; exact H end.
Qed.
Lemma p_member_ok v k : p_member (y_member v ++ k) = Some (v, k).
Proof. destruct v as [v|]; [|reflexivity]. unfold p_member. cbn [y_member]. rewrite (bind_ok _ _ _ _ _ (p_value_ok v k)). reflexivity. Qed.
Lemma p_enum_inv ts e k : p_enum ts = Some (e, k) -> ts = y_enum e ++ k.
Proof.
  unfold p_enum. intros H. repeat (opened || opts).
  match goal with H : repeated _ _ _ = Some _ |- _ => apply (repeated_inv _ _ _ _ _ _ p_member_inv) in H as -> end.
  unfold y_enum, y_list. cbn [pe_name pe_size pe_members]. flat. reflexivity.
Qed.
Lemma p_enum_ok e k : p_enum (y_enum e ++ k) = Some (e, k).
Proof.
  destruct e as [n s l]. unfold p_enum, y_enum, y_list. cbn [pe_name pe_size pe_members]. flat.
  set (k1 := fx "{" :: flat_map y_member l ++ fx "}" :: k).
  step (p_fx_ok "enum" (name n :: y_size s ++ k1)). step (p_name_ok n (y_size s ++ k1)). step (p_size_ok s k1).
  unfold k1. step (p_fx_ok "{" (flat_map y_member l ++ fx "}" :: k)).
  rewrite (bind_ok _ _ _ l (fx "}" :: k)).
  - cbv beta. step (p_fx_ok "}" k). reflexivity.
  - apply repeated_ok; auto.
    + intros v k' _. apply p_member_ok.
    + intros [v|] k' _; reflexivity.
    + intros [v|] _; discriminate.
Qed.

(** ** Files *)
Lemma p_statement_inv n ts s k : p_statement n ts = Some (s, k) -> ts = y_statement s ++ k /\ meant_statement s.
Proof.
  unfold p_statement. intros H.
  destruct (next (is_fx ";") ts); [repeat opened; split; [reflexivity|exact I]|].
  destruct (next (is_fx "import") ts); [repeat opened; split; [reflexivity|exact I]|].
  destruct (next (is_fx "package") ts).
  { repeat opened. match goal with H : p_sep _ _ _ = Some _ |- _ => apply (p_sep_inv _ _ _ _ _ _ y_name_inv) in H; subst end.
    split; [|exact I]. cbn [y_statement]. flat. reflexivity. }
  destruct (next (is_fx "option") ts).
  { repeat (opened || opts). split; [|exact I]. cbn [y_statement]. flat. reflexivity. }
  destruct (next (is_fx "enum") ts).
  { repeat opened. match goal with H : p_enum _ = Some _ |- _ => apply p_enum_inv in H; subst end.
    split; [reflexivity|exact I]. }
  repeat opened. match goal with H : p_struct _ _ = _ |- _ => apply (p_struct_inv _ (p_type_inv n)) in H; exact H end.
Qed.
Lemma p_statement_ok n s k : length (y_statement s) <= n -> meant_statement s -> p_statement n (y_statement s ++ k) = Some (s, k).
Proof.
  intros L M. unfold p_statement. destruct s as [t|p|o|e|d|].
  - reflexivity.
  - cbn [y_statement]. flat. set (k1 := fx ";" :: k).
    change (next (is_fx ";") (fx "package" :: y_sep y_name "." p ++ k1)) with false.
    change (next (is_fx "import") (fx "package" :: y_sep y_name "." p ++ k1)) with false.
    change (next (is_fx "package") (fx "package" :: y_sep y_name "." p ++ k1)) with true.
    cbv iota. step (p_fx_ok "package" (y_sep y_name "." p ++ k1)).
    rewrite (bind_ok _ _ _ p k1); [reflexivity|]. apply p_sep_ok; reflexivity.
  - cbn [y_statement]. flat. set (k1 := fx ";" :: k).
    change (next (is_fx ";") (fx "option" :: y_pair o ++ k1)) with false.
    change (next (is_fx "import") (fx "option" :: y_pair o ++ k1)) with false.
    change (next (is_fx "package") (fx "option" :: y_pair o ++ k1)) with false.
    change (next (is_fx "option") (fx "option" :: y_pair o ++ k1)) with true.
    cbv iota. step (p_fx_ok "option" (y_pair o ++ k1)). step (p_pair_ok o k1). reflexivity.
  - cbn [y_statement]. unfold y_enum at 1 2 3 4 5. cbn [app].
    change (next (is_fx ";") (fx "enum" :: ?x)) with false.
    rewrite (bind_ok _ _ _ _ _ (p_enum_ok e k)). reflexivity.
  - cbn [y_statement] in *. rewrite (bind_ok _ _ _ _ _ (p_struct_type_ok n d k L M)).
    destruct d as [nm s body]. reflexivity.
  - reflexivity.
Qed.

Theorem parse_sound ts f : parse ts = Some f -> yield f = ts /\ meant_file f.
Proof.
  unfold parse. destruct (repeated _ _ ts) as [[f' [|]]|] eqn:E; try discriminate. intros H. injection H as ->.
  apply (repeated_inv' _ _ y_statement meant_statement) in E as [-> M]; [|apply p_statement_inv].
  now rewrite app_nil_r.
Qed.
Theorem parse_complete f : meant_file f -> parse (yield f) = Some f.
Proof.
  intros M. unfold parse. unfold yield, y_list. set (n := length (flat_map y_statement f)).
  replace (flat_map y_statement f) with (flat_map y_statement f ++ []) by apply app_nil_r.
  unfold meant_file in M. rewrite Forall_forall in M.
  rewrite repeated_ok; auto.
  - intros s k I. apply p_statement_ok; auto. now apply in_flat_length.
  - intros s k _. destruct s as [| | | |[]|]; reflexivity.
  - intros s _. destruct s as [| | | |[]|]; discriminate.
Qed.
