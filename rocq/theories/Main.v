(** The command line: main.go, generator/generator.go and Go's flag package; property C73. *)
From Coq Require Import String Ascii ZArith List Bool Lia.
From Verif Require Import Base FrontModel FrontProofs PropsFront CompileModel CompileSpec PropsCompile Literals
  GenOut GenOutSpec GenOutProofs PropsOut.
From Verif Require Package Paths Options.
Import ListNotations.
Open Scope nat_scope.
Open Scope string_scope.
Open Scope list_scope.

(** ** Model *)

(** main.go:97-109: the flags' variables. *)
Record settings : Type :=
  { f_t : string; f_o : string; f_rmpath : string; f_signext : string; f_unroll : Z;
    f_relpath : bool; f_inner : bool; f_single : bool; f_minimal : bool; f_decnum : bool; f_memcpy : bool;
    f_compat : bool; f_v : bool }.
Definition default_settings : settings :=
  {| f_t := ""; f_o := ""; f_rmpath := ""; f_signext := ""; f_unroll := 4%Z; f_relpath := false; f_inner := false;
     f_single := false; f_minimal := false; f_decnum := false; f_memcpy := false; f_compat := false; f_v := false |}.
Definition set_t v s := {| f_t := v; f_o := f_o s; f_rmpath := f_rmpath s; f_signext := f_signext s; f_unroll := f_unroll s;
  f_relpath := f_relpath s; f_inner := f_inner s; f_single := f_single s; f_minimal := f_minimal s;
  f_decnum := f_decnum s; f_memcpy := f_memcpy s; f_compat := f_compat s; f_v := f_v s |}.
Definition set_o v s := {| f_t := f_t s; f_o := v; f_rmpath := f_rmpath s; f_signext := f_signext s; f_unroll := f_unroll s;
  f_relpath := f_relpath s; f_inner := f_inner s; f_single := f_single s; f_minimal := f_minimal s;
  f_decnum := f_decnum s; f_memcpy := f_memcpy s; f_compat := f_compat s; f_v := f_v s |}.
Definition set_rmpath v s := {| f_t := f_t s; f_o := f_o s; f_rmpath := v; f_signext := f_signext s; f_unroll := f_unroll s;
  f_relpath := f_relpath s; f_inner := f_inner s; f_single := f_single s; f_minimal := f_minimal s;
  f_decnum := f_decnum s; f_memcpy := f_memcpy s; f_compat := f_compat s; f_v := f_v s |}.
Definition set_signext v s := {| f_t := f_t s; f_o := f_o s; f_rmpath := f_rmpath s; f_signext := v; f_unroll := f_unroll s;
  f_relpath := f_relpath s; f_inner := f_inner s; f_single := f_single s; f_minimal := f_minimal s;
  f_decnum := f_decnum s; f_memcpy := f_memcpy s; f_compat := f_compat s; f_v := f_v s |}.
Definition set_unroll v s := {| f_t := f_t s; f_o := f_o s; f_rmpath := f_rmpath s; f_signext := f_signext s; f_unroll := v;
  f_relpath := f_relpath s; f_inner := f_inner s; f_single := f_single s; f_minimal := f_minimal s;
  f_decnum := f_decnum s; f_memcpy := f_memcpy s; f_compat := f_compat s; f_v := f_v s |}.
(** The boolean options by number: -relpath, -inner, -single, -minimal, -decnum, -memcpy, -compat, -v. *)
Definition set_b (k : nat) v s := {| f_t := f_t s; f_o := f_o s; f_rmpath := f_rmpath s; f_signext := f_signext s;
  f_unroll := f_unroll s;
  f_relpath := if Nat.eqb k 0 then v else f_relpath s; f_inner := if Nat.eqb k 1 then v else f_inner s;
  f_single := if Nat.eqb k 2 then v else f_single s; f_minimal := if Nat.eqb k 3 then v else f_minimal s;
  f_decnum := if Nat.eqb k 4 then v else f_decnum s; f_memcpy := if Nat.eqb k 5 then v else f_memcpy s;
  f_compat := if Nat.eqb k 6 then v else f_compat s; f_v := if Nat.eqb k 7 then v else f_v s |}.

(** main.go:110-122. *)
Inductive kind : Type :=
| KBool (set : bool -> settings -> settings)
| KString (set : string -> settings -> settings)
| KInt (set : Z -> settings -> settings).
Definition flags : list (string * kind) :=
  [("t", KString set_t); ("o", KString set_o); ("rmpath", KString set_rmpath); ("relpath", KBool (set_b 0));
   ("inner", KBool (set_b 1)); ("single", KBool (set_b 2)); ("minimal", KBool (set_b 3)); ("decnum", KBool (set_b 4));
   ("memcpy", KBool (set_b 5)); ("compat", KBool (set_b 6)); ("v", KBool (set_b 7)); ("signext", KString set_signext);
   ("unroll", KInt set_unroll)].

(** strconv.ParseBool. *)
Definition parse_bool (s : string) : option bool :=
  if existsb (String.eqb s) ["1"; "t"; "T"; "TRUE"; "true"; "True"] then Some true
  else if existsb (String.eqb s) ["0"; "f"; "F"; "FALSE"; "false"; "False"] then Some false
  else None.
(** strconv.ParseInt(s, 0, 64) with a sign; -2^63 and digits separated by underscores are left out. *)
Definition parse_signed (s : string) : option Z :=
  match s with
  | String c r => if Ascii.eqb c "-" then option_map Z.opp (parse_int (list_ascii_of_string r))
                  else if Ascii.eqb c "+" then parse_int (list_ascii_of_string r)
                  else parse_int (list_ascii_of_string s)
  | EmptyString => None
  end.
(** The name and, after the first "=" that is not the first character, the value of a flag: flag.go, parseOne. *)
Fixpoint cut_eq (s : string) : string * option string :=
  match s with
  | EmptyString => ("", None)
  | String c r => if Ascii.eqb c "=" then ("", Some r) else let (n, v) := cut_eq r in (String c n, v)
  end.
Definition name_value (s : string) : string * option string :=
  match s with EmptyString => ("", None) | String c r => let (n, v) := cut_eq r in (String c n, v) end.

(** FlagSet.Parse with ExitOnError: an error exits with 2, -h and -help with 0. *)
Inductive parsed : Type := PErr | PHelp | POk (s : settings) (rest : list string).
(** The text after the dashes of a flag; [None]: the argument is not a flag; "--" alone ends the flags. *)
Inductive arg : Type := NotFlag | Terminator | Flag (body : string).
Definition classify (a : string) : arg :=
  match a with
  | String d (String e r) =>
      if Ascii.eqb d "-" then
        if Ascii.eqb e "-" then match r with EmptyString => Terminator | _ => Flag r end
        else Flag (String e r)
      else NotFlag
  | _ => NotFlag
  end.
Definition bad_syntax (body : string) : bool :=
  match body with EmptyString => true | String c _ => Ascii.eqb c "-" || Ascii.eqb c "=" end.
Fixpoint parse_flags (args : list string) (s : settings) : parsed :=
  match args with
  | [] => POk s []
  | a :: r =>
      match classify a with
      | NotFlag => POk s args
      | Terminator => POk s r
      | Flag body =>
          if bad_syntax body then PErr
          else
            let (n, v) := name_value body in
            match get n flags with
            | None => if String.eqb n "help" || String.eqb n "h" then PHelp else PErr
            | Some (KBool set) =>
                match v with
                | None => parse_flags r (set true s)
                | Some t => match parse_bool t with Some b => parse_flags r (set b s) | None => PErr end
                end
            | Some k =>
                let put t r' := match k with
                                | KString set => parse_flags r' (set t s)
                                | KInt set => match parse_signed t with Some z => parse_flags r' (set z s) | None => PErr end
                                | KBool _ => PErr
                                end in
                match v with
                | Some t => put t r
                | None => match r with [] => PErr | t :: r' => put t r' end
                end
            end
      end
  end.

(** generator.go:28-60 TargetMap. *)
Definition target_map : list (string * target) :=
  [("c", TC); ("cpp", TCpp); ("csharp", TCSharp); ("cs", TCSharp); ("commonjs", TCommonJS); ("cjs", TCommonJS);
   ("esmodule", TESM); ("javascript", TESM); ("js", TESM); ("mjs", TESM); ("esm", TESM); ("go", TGo); ("java", TJava);
   ("kotlin", TKotlin); ("kt", TKotlin); ("python", TPython); ("py", TPython)].
(** GetGenerator, 85-101: [None] is one of the two errors. *)
Definition get_generator (n : string) : option target := if String.eqb n "" then None else get n target_map.
(** ListGenerators, 62-83: [last] is the generator before, [al] its aliases so far, [ret] the lines, the last one first. *)
Definition target_eqb (a b : target) : bool :=
  match a, b with
  | TC, TC | TCpp, TCpp | TCSharp, TCSharp | TCommonJS, TCommonJS | TESM, TESM | TGo, TGo | TJava, TJava | TKotlin, TKotlin
  | TPython, TPython => true
  | _, _ => false
  end.
Definition close (ret al : list string) : list string :=
  match al, ret with
  | [], _ => ret
  | _, l :: r => (l ++ " [" ++ String.concat ", " al ++ "]")%string :: r
  | _, [] => []
  end.
Fixpoint list_loop (es : list (string * target)) (last : option target) (al ret : list string) : list string :=
  match es with
  | [] => rev (close ret al)
  | (k, g) :: r =>
      if match last with Some h => target_eqb g h | None => false end then list_loop r (Some g) (al ++ [k]) ret
      else list_loop r (Some g) [] (k :: close ret al)
  end.
Definition list_generators : list string := list_loop target_map None [] [].

(** gen_ctx.go:54-71: where a file goes; "" is the standard output. *)
Definition dest (output : string) (rm : list string) (file : string) : string :=
  if String.eqb output "" then ""
  else string_of_list_ascii (Paths.join2 (list_ascii_of_string output) (list_ascii_of_string (Package.out_file rm file))).

(** main, main.go:92-216: the exit status and what is written where.  [fs] are the schema files as the parser reads them
    (CompileModel.v), [cwd] the working directory.  A panic makes Go exit with 2. *)
Definition run (fs : filesystem) (cwd : string) (args : list string) : nat * list (string * list string) :=
  match args with
  | [] => (0, [])
  | _ =>
      match parse_flags args default_settings with
      | PErr => (2, [])
      | PHelp => (0, [])
      | POk s [file] =>
          match get_generator (f_t s) with
          | None => (1, [])
          | Some t =>
              match Options.set_signext (f_signext s) Options.default_opts, Options.set_unroll (f_unroll s) Options.default_opts with
              | Some _, Some _ =>
                  match compile_file fs (string_of_list_ascii (Paths.abs (list_ascii_of_string cwd) (list_ascii_of_string file))) with
                  | Panic => (2, [])
                  | Fail => (1, [])
                  | Ok us =>
                      let rm := Options.o_rmpath (Options.set_rmpath (f_rmpath s) Options.default_opts) in
                      let (ok, ws) := generate t (f_single s) (program fs us []) in
                      (if ok then 0 else 1, map (fun w => (dest (f_o s) rm (w_file w), w_decls w)) ws)
                  end
              | _, _ => (1, [])
              end
          end
      | POk _ _ => (1, [])
      end
  end.

(** ** Specification *)

(** The options of the usage text (main.go:40-53), by what they do to the settings. *)
Definition string_options : list (string * (string -> settings -> settings)) :=
  [("t", set_t); ("o", set_o); ("rmpath", set_rmpath); ("signext", set_signext)].
Definition bool_options : list (string * (bool -> settings -> settings)) :=
  [("relpath", set_b 0); ("inner", set_b 1); ("single", set_b 2); ("minimal", set_b 3); ("decnum", set_b 4);
   ("memcpy", set_b 5); ("compat", set_b 6); ("v", set_b 7)].
(** What may be given to a boolean option (the documentation of Go's flag package). *)
Definition truths : list string := ["1"; "t"; "T"; "true"; "TRUE"; "True"].
Definition falsities : list string := ["0"; "f"; "F"; "false"; "FALSE"; "False"].
(** The ways to write one option: the arguments it takes and its effect. *)
Inductive written : list string -> (settings -> settings) -> Prop :=
| w_value d n v set : In d ["-"; "--"] -> In (n, set) string_options -> written [(d ++ n)%string; v] (set v)
| w_value_eq d n v set : In d ["-"; "--"] -> In (n, set) string_options -> written [(d ++ n ++ "=" ++ v)%string] (set v)
| w_number d v z : In d ["-"; "--"] -> parse_signed v = Some z -> written [(d ++ "unroll")%string; v] (set_unroll z)
| w_number_eq d v z : In d ["-"; "--"] -> parse_signed v = Some z -> written [(d ++ "unroll=" ++ v)%string] (set_unroll z)
| w_bool d n set : In d ["-"; "--"] -> In (n, set) bool_options -> written [(d ++ n)%string] (set true)
| w_bool_eq d n v b set : In d ["-"; "--"] -> In (n, set) bool_options -> In v (if b : bool then truths else falsities) ->
    written [(d ++ n ++ "=" ++ v)%string] (set b).
(** Not an option: it does not begin with a dash, or is a dash. *)
Definition plain_arg (a : string) : Prop := a = "" \/ a = "-" \/ exists c r, a = String c r /\ c <> "-"%char.
Definition settle (opts : list (list string * (settings -> settings))) : settings :=
  fold_left (fun s f => f s) (map snd opts) default_settings.

(** ** Proofs *)

Lemma classify_plain a : plain_arg a -> classify a = NotFlag.
Proof.
  intros [->|[->|(c & r & -> & N)]]; try reflexivity. destruct r; [reflexivity|]. cbn.
  destruct (Ascii.eqb_spec c "-"); [congruence|reflexivity].
Qed.
Lemma flag_step d n k v r s : In d ["-"; "--"] -> In (n, k) flags ->
  parse_flags ((d ++ n ++ "=" ++ v)%string :: r) s =
  match k with
  | KBool set => match parse_bool v with Some b => parse_flags r (set b s) | None => PErr end
  | KString set => parse_flags r (set v s)
  | KInt set => match parse_signed v with Some z => parse_flags r (set z s) | None => PErr end
  end.
Proof.
  intros D I. cbn [flags In] in I.
  repeat (destruct I as [I|I]; [injection I as <- <-; cbn in D; destruct D as [<-|[<-|[]]]; reflexivity|]). destruct I.
Qed.
Lemma flag_bare d n k r s : In d ["-"; "--"] -> In (n, k) flags ->
  parse_flags ((d ++ n)%string :: r) s =
  match k with
  | KBool set => parse_flags r (set true s)
  | KString set => match r with [] => PErr | v :: r' => parse_flags r' (set v s) end
  | KInt set => match r with [] => PErr
                | v :: r' => match parse_signed v with Some z => parse_flags r' (set z s) | None => PErr end end
  end.
Proof.
  intros D I. cbn [flags In] in I.
  repeat (destruct I as [I|I]; [injection I as <- <-; cbn in D; destruct D as [<-|[<-|[]]]; reflexivity|]). destruct I.
Qed.
Lemma string_flag n set : In (n, set) string_options -> In (n, KString set) flags.
Proof. intros I. cbn in I. repeat (destruct I as [I|I]; [injection I as <- <-; cbn; auto 20|]). destruct I. Qed.
Lemma bool_flag n set : In (n, set) bool_options -> In (n, KBool set) flags.
Proof. intros I. cbn in I. repeat (destruct I as [I|I]; [injection I as <- <-; cbn; auto 20|]). destruct I. Qed.
Lemma unroll_flag : In ("unroll", KInt set_unroll) flags.
Proof. cbn. auto 20. Qed.

Lemma parse_bool_iff v b : parse_bool v = Some b <-> In v (if b : bool then truths else falsities).
Proof.
  unfold parse_bool. split.
  - destruct (existsb (String.eqb v) ["1"; "t"; "T"; "TRUE"; "true"; "True"]) eqn:E.
    + intros H. injection H as <-. apply existsb_exists in E as (x & I & E). apply String.eqb_eq in E as ->.
      cbn in *. tauto.
    + destruct (existsb (String.eqb v) ["0"; "f"; "F"; "FALSE"; "false"; "False"]) eqn:E'; [|discriminate].
      intros H. injection H as <-. apply existsb_exists in E' as (x & I & E'). apply String.eqb_eq in E' as ->.
      cbn in *. tauto.
  - intros I. destruct b; cbn in I; repeat (destruct I as [<-|I]; [reflexivity|]); destruct I.
Qed.
Lemma written_step a f r s : written a f -> parse_flags (a ++ r) s = parse_flags r (f s).
Proof.
  intros W. destruct W; cbn [app].
  - rewrite (flag_bare _ _ _ _ _ H (string_flag _ _ H0)). reflexivity.
  - rewrite (flag_step _ _ _ _ _ _ H (string_flag _ _ H0)). reflexivity.
  - rewrite (flag_bare _ _ _ _ _ H unroll_flag). now rewrite H0.
  - change ("unroll=" ++ v)%string with ("unroll" ++ "=" ++ v)%string.
    rewrite (flag_step _ _ _ _ _ _ H unroll_flag). now rewrite H0.
  - rewrite (flag_bare _ _ _ _ _ H (bool_flag _ _ H0)). reflexivity.
  - rewrite (flag_step _ _ _ _ _ _ H (bool_flag _ _ H0)). apply parse_bool_iff in H1. now rewrite H1.
Qed.
Lemma options_step opts r s : Forall (fun x => written (fst x) (snd x)) opts ->
  parse_flags (concat (map fst opts) ++ r) s = parse_flags r (fold_left (fun s f => f s) (map snd opts) s).
Proof.
  intros F. revert s. induction F as [|[a f] l W F IH]; intros s; [reflexivity|].
  cbn [map concat fold_left fst snd]. rewrite <- app_assoc, (written_step _ _ _ _ W). apply IH.
Qed.
(** Options may come in any number and order; each is carried out, a later one overrides an earlier one; the first
    argument that is not an option ends them. *)
Theorem C73_options : forall opts rest, Forall (fun x => written (fst x) (snd x)) opts ->
  rest = [] \/ (exists a r, rest = a :: r /\ plain_arg a) ->
  parse_flags (concat (map fst opts) ++ rest) default_settings = POk (settle opts) rest.
Proof.
  intros opts rest F R. rewrite options_step by exact F. unfold settle.
  destruct R as [->|(a & r & -> & P)]; [reflexivity|]. cbn [parse_flags]. now rewrite (classify_plain a P).
Qed.

(** Without options: no target, the standard output, loops unrolled up to 4 times, everything else off (main.go:40-53). *)
Theorem C73_defaults : forall file, plain_arg file -> parse_flags [file] default_settings =
  POk {| f_t := ""; f_o := ""; f_rmpath := ""; f_signext := ""; f_unroll := 4%Z; f_relpath := false; f_inner := false;
         f_single := false; f_minimal := false; f_decnum := false; f_memcpy := false; f_compat := false; f_v := false |} [file].
Proof. intros file P. cbn [parse_flags]. now rewrite (classify_plain _ P). Qed.
(** Nothing else is accepted. *)
Lemma classify_flag a body : classify a = Flag body -> exists d, In d ["-"; "--"] /\ a = (d ++ body)%string.
Proof.
  destruct a as [|d [|e r]]; try discriminate. cbn. destruct (Ascii.eqb_spec d "-") as [->|]; [|discriminate].
  destruct (Ascii.eqb_spec e "-") as [->|].
  - destruct r; [discriminate|]. intros H. injection H as <-. exists "--". cbn. auto.
  - intros H. injection H as <-. exists "-". cbn. auto.
Qed.
Lemma cut_eq_inv s n v : cut_eq s = (n, v) -> s = match v with Some t => (n ++ "=" ++ t)%string | None => n end.
Proof.
  revert n v. induction s as [|c s IH]; intros n v H; cbn in H; [injection H as <- <-; reflexivity|].
  destruct (Ascii.eqb_spec c "=") as [->|]; [injection H as <- <-; reflexivity|].
  destruct (cut_eq s) as [m w] eqn:E. injection H as <- <-. rewrite (IH _ _ eq_refl). destruct w; reflexivity.
Qed.
Lemma name_value_inv s n v : name_value s = (n, v) -> s = match v with Some t => (n ++ "=" ++ t)%string | None => n end.
Proof.
  destruct s as [|c s]; cbn; [intros H; injection H as <- <-; reflexivity|].
  destruct (cut_eq s) as [m w] eqn:E. intros H. injection H as <- <-. rewrite (cut_eq_inv _ _ _ E). destruct w; reflexivity.
Qed.
Lemma get_in {V} n (l : list (string * V)) k : get n l = Some k -> In (n, k) l.
Proof.
  induction l as [|[m j] l IH]; cbn; [discriminate|]. destruct (String.eqb_spec n m) as [->|].
  - intros H. injection H as ->. now left.
  - intros H. right. auto.
Qed.
Lemma flags_kinds n k : In (n, k) flags -> match k with
  | KBool set => In (n, set) bool_options | KString set => In (n, set) string_options
  | KInt set => n = "unroll" /\ set = set_unroll end.
Proof.
  intros I. cbn [flags In] in I. repeat (destruct I as [I|I]; [injection I as <- <-; cbn; auto 20|]). destruct I.
Qed.
Theorem C73_only : forall args s rest, parse_flags args default_settings = POk s rest -> exists opts,
  Forall (fun x => written (fst x) (snd x)) opts /\ s = settle opts /\
  ((args = concat (map fst opts) ++ rest /\ (rest = [] \/ exists a r, rest = a :: r /\ plain_arg a)) \/
   args = concat (map fst opts) ++ "--" :: rest).
Proof.
  intros args s rest. unfold settle. generalize default_settings as s0.
  assert (G : forall k args s0, length args <= k -> parse_flags args s0 = POk s rest -> exists opts,
    Forall (fun x => written (fst x) (snd x)) opts /\ s = fold_left (fun s f => f s) (map snd opts) s0 /\
    ((args = concat (map fst opts) ++ rest /\ (rest = [] \/ exists a r, rest = a :: r /\ plain_arg a)) \/
     args = concat (map fst opts) ++ "--" :: rest)).
  2:{ intros s0. apply (G (length args)). lia. }
  clear args. induction k as [|k IH]; intros args s0 L H.
  { destruct args; [|cbn in L; lia]. injection H as <- <-. exists []. repeat split; auto. }
  destruct args as [|a r]; [injection H as <- <-; exists []; repeat split; auto|].
  cbn [length] in L.
  assert (NEXT : forall used f r', written used f -> a :: r = used ++ r' -> length r' <= k ->
    parse_flags r' (f s0) = POk s rest -> exists opts,
    Forall (fun x => written (fst x) (snd x)) opts /\ s = fold_left (fun s f => f s) (map snd opts) s0 /\
    ((a :: r = concat (map fst opts) ++ rest /\ (rest = [] \/ exists a r, rest = a :: r /\ plain_arg a)) \/
     a :: r = concat (map fst opts) ++ "--" :: rest)).
  { intros used f r' W E Lr P. destruct (IH r' (f s0) Lr P) as (opts & F & -> & X).
    exists ((used, f) :: opts). split; [constructor; auto|]. split; [reflexivity|]. rewrite E.
    cbn [map concat fst]. destruct X as [[-> X]| ->]; [left|right]; [split; [now rewrite app_assoc|exact X]|now rewrite <- app_assoc]. }
  cbn [parse_flags] in H. destruct (classify a) as [| |body] eqn:C.
  - injection H as <- <-. exists []. repeat split; auto. left. split; [reflexivity|]. right. exists a, r. split; auto.
    destruct a as [|d [|e q]]; [now left| |].
    + destruct (Ascii.eqb_spec d "-") as [->|N]; [right; now left|]. right. right. exists d, "". auto.
    + right. right. exists d, (String e q). split; auto. cbn in C. destruct (Ascii.eqb_spec d "-"); [|assumption].
      destruct (Ascii.eqb e "-"); [destruct q|]; discriminate.
  - injection H as <- <-. exists []. repeat split; auto. right. cbn.
    destruct a as [|d [|e q]]; try discriminate. cbn in C. destruct (Ascii.eqb_spec d "-") as [->|]; [|discriminate].
    destruct (Ascii.eqb_spec e "-") as [->|]; [|discriminate]. destruct q; [reflexivity|discriminate].
  - apply classify_flag in C as (d & D & ->). destruct (bad_syntax body); [discriminate|].
    destruct (name_value body) as [n v] eqn:NV. apply name_value_inv in NV.
    destruct (get n flags) as [kd|] eqn:G; [|destruct (_ || _); discriminate].
    apply get_in, flags_kinds in G. destruct kd as [set|set|set].
    + destruct v as [t|].
      * destruct (parse_bool t) as [b|] eqn:B; [|discriminate]. subst body. apply parse_bool_iff in B.
        eapply NEXT; [eapply w_bool_eq; eauto|reflexivity|lia|exact H].
      * subst body. eapply NEXT; [eapply w_bool; eauto|reflexivity|lia|exact H].
    + destruct v as [t|].
      * subst body. eapply NEXT; [eapply w_value_eq; eauto|reflexivity|lia|exact H].
      * destruct r as [|t r']; [discriminate|]. subst body. cbn [length] in L.
        eapply NEXT; [eapply w_value; eauto|reflexivity|lia|exact H].
    + destruct G as [-> ->]. destruct v as [t|].
      * destruct (parse_signed t) as [z|] eqn:Z; [|discriminate]. subst body.
        eapply NEXT; [eapply w_number_eq; eauto|reflexivity|lia|exact H].
      * destruct r as [|t r']; [discriminate|]. destruct (parse_signed t) as [z|] eqn:Z; [|discriminate].
        subst body. cbn [length] in L. eapply NEXT; [eapply w_number; eauto|reflexivity|lia|exact H].
Qed.

(** ** The targets *)

(** The names of README.md, "Target Languages". *)
Definition names (t : target) : list string :=
  match t with
  | TC => ["c"] | TCpp => ["cpp"] | TCSharp => ["csharp"; "cs"] | TCommonJS => ["commonjs"; "cjs"]
  | TESM => ["esmodule"; "javascript"; "js"; "mjs"; "esm"] | TGo => ["go"] | TJava => ["java"]
  | TKotlin => ["kotlin"; "kt"] | TPython => ["python"; "py"]
  end.
Theorem C73_targets : forall n t, get_generator n = Some t <-> In n (names t).
Proof.
  intros n t. unfold get_generator. split.
  - destruct (String.eqb n ""); [discriminate|]. intros H. apply get_in in H. cbn in H.
    repeat (destruct H as [H|H]; [injection H as <- <-; cbn; auto 10|]). destruct H.
  - intros I. destruct t; cbn in I; repeat (destruct I as [<-|I]; [reflexivity|]); destruct I.
Qed.
Theorem C73_listing : list_generators =
  ["c"; "cpp"; "csharp [cs]"; "commonjs [cjs]"; "esmodule [javascript, js, mjs, esm]"; "go"; "java"; "kotlin [kt]"; "python [py]"].
Proof. reflexivity. Qed.

(** ** The run *)

Definition the_file (cwd file : string) : string :=
  string_of_list_ascii (Paths.abs (list_ascii_of_string cwd) (list_ascii_of_string file)).
(** What -rmpath cuts off (C38, C41) and where files go below the directory given with -o. *)
Definition target_path (s : settings) (file : string) : string :=
  dest (f_o s) (map Options.strip_trailing (Package.split "," (f_rmpath s))) file.
Definition signext_ok (s : settings) : Prop :=
  let m := f_signext s in m = "" \/ Options.spelled m "default" \/ Options.spelled m "shift" \/ Options.spelled m "arith".

Lemma unit_false t single all x u x' : generate_unit t single all x u = (false, x') -> t = TGo \/ t = TJava.
Proof.
  unfold generate_unit. destruct (omitted u); [discriminate|].
  destruct t; try (destruct single; discriminate); auto;
    repeat match goal with |- context [if ?b then _ else _] => destruct b end; try discriminate; auto.
Qed.
Lemma accept_false t single all us : forall x x', accept t single all us x = (false, x') -> t = TGo \/ t = TJava.
Proof.
  induction us as [|u r IH]; intros x x' H; cbn [accept] in H; [discriminate|].
  destruct (generate_unit t single all x u) as [[] y] eqn:E; [eapply IH; eauto|].
  eapply unit_false; eauto.
Qed.
Lemma generate_false t single us : fst (generate t single us) = false -> t = TGo \/ t = TJava.
Proof.
  unfold generate. destruct (accept _ _ _ _ _) as [[] x] eqn:E; [discriminate|]. intros _. eapply accept_false; eauto.
Qed.
Lemma run_eq fs cwd args : args <> [] -> run fs cwd args =
  match parse_flags args default_settings with
  | PErr => (2, [])
  | PHelp => (0, [])
  | POk s [file] =>
      match get_generator (f_t s) with
      | None => (1, [])
      | Some t =>
          match Options.set_signext (f_signext s) Options.default_opts, Options.set_unroll (f_unroll s) Options.default_opts with
          | Some _, Some _ =>
              match compile_file fs (the_file cwd file) with
              | Panic => (2, [])
              | Fail => (1, [])
              | Ok us => let (ok, ws) := generate t (f_single s) (program fs us []) in
                  (if ok then 0 else 1, map (fun w => (target_path s (w_file w), w_decls w)) ws)
              end
          | _, _ => (1, [])
          end
      end
  | POk _ _ => (1, [])
  end.
Proof. destruct args; [congruence|]. reflexivity. Qed.
Lemma signext_iff s o : (exists o', Options.set_signext (f_signext s) o = Some o') <-> signext_ok s.
Proof. exact (Options.C38_signext (f_signext s) o). Qed.
Lemma unroll_iff z o : (exists o', Options.set_unroll z o = Some o') <-> (-1 <= z)%Z.
Proof.
  unfold Options.set_unroll. destruct (Z.ltb_spec z (-1)); split; try lia; intros; [destruct H0; discriminate|eauto].
Qed.

(** The exit status is zero exactly if there is nothing to do or everything was done. *)
Theorem C73_zero : forall fs cwd args ws, run fs cwd args = (0, ws) <->
  (ws = [] /\ (args = [] \/ parse_flags args default_settings = PHelp)) \/
  (exists s file t us, parse_flags args default_settings = POk s [file] /\ args <> [] /\ In (f_t s) (names t) /\
     signext_ok s /\ (-1 <= f_unroll s)%Z /\ compile_file fs (the_file cwd file) = Ok us /\
     fst (generate t (f_single s) (program fs us [])) = true /\
     ws = map (fun w => (target_path s (w_file w), w_decls w)) (snd (generate t (f_single s) (program fs us [])))).
Proof.
  intros fs cwd args ws. destruct args as [|a r] eqn:EA.
  { split; [intros H; injection H as <-; left; auto|]. intros [[-> _]|(s & f & t & us & P & N & _)]; [reflexivity|congruence]. }
  rewrite <- EA. assert (NE : args <> []) by (rewrite EA; discriminate). rewrite EA. rewrite <- EA.
  rewrite run_eq by exact NE. split.
  - destruct (parse_flags args default_settings) as [| |s rest] eqn:P; [discriminate|intros H; injection H as <-; auto|].
    destruct rest as [|file [|]]; try discriminate.
    destruct (get_generator (f_t s)) as [t|] eqn:G; [|discriminate]. apply C73_targets in G.
    destruct (Options.set_signext _ _) as [o1|] eqn:S; [|discriminate].
    destruct (Options.set_unroll _ _) as [o2|] eqn:U; [|discriminate].
    destruct (compile_file fs (the_file cwd file)) as [us| |] eqn:C; try discriminate.
    destruct (generate t (f_single s) (program fs us [])) as [[] ws'] eqn:E; [|discriminate].
    intros H. injection H as <-. right. exists s, file, t, us. rewrite E. repeat split; auto.
    + apply (proj1 (signext_iff s Options.default_opts)). eauto.
    + apply (proj1 (unroll_iff (f_unroll s) Options.default_opts)). eauto.
  - intros [[-> [X|X]]|(s & file & t & us & P & _ & I & S & U & C & E & ->)]; [congruence|now rewrite X|].
    rewrite P. apply C73_targets in I. rewrite I.
    apply (proj2 (signext_iff s Options.default_opts)) in S as (o1 & ->).
    apply (proj2 (unroll_iff (f_unroll s) Options.default_opts)) in U as (o2 & ->).
    rewrite C. destruct (generate t (f_single s) (program fs us [])) as [ok ws']. cbn [fst] in E. subst ok. reflexivity.
Qed.
(** With another status nothing is written, unless the Go or Java generator found two files with one package. *)
Theorem C73_nothing : forall fs cwd args c ws, run fs cwd args = (c, ws) -> c <> 0 -> ws <> [] ->
  exists s file us t, parse_flags args default_settings = POk s [file] /\ In (f_t s) (names t) /\ (t = TGo \/ t = TJava) /\
    compile_file fs (the_file cwd file) = Ok us /\ fst (generate t (f_single s) (program fs us [])) = false /\ c = 1.
Proof.
  intros fs cwd args c ws H N W. destruct args as [|a r] eqn:EA; [injection H as <- <-; congruence|].
  rewrite <- EA in *. assert (NE : args <> []) by (rewrite EA; discriminate). rewrite run_eq in H by exact NE.
  destruct (parse_flags args default_settings) as [| |s rest] eqn:P; try (injection H as <- <-; congruence).
  destruct rest as [|file [|]]; try (injection H as <- <-; congruence).
  destruct (get_generator (f_t s)) as [t|] eqn:G; [|injection H as <- <-; congruence]. apply C73_targets in G.
  destruct (Options.set_signext _ _) as [o1|] eqn:S; [|injection H as <- <-; congruence].
  destruct (Options.set_unroll _ _) as [o2|] eqn:U; [|injection H as <- <-; congruence].
  destruct (compile_file fs (the_file cwd file)) as [us| |] eqn:C; try (injection H as <- <-; congruence).
  destruct (generate t (f_single s) (program fs us [])) as [[] ws'] eqn:E; injection H as <- <-; [congruence|].
  exists s, file, us, t. rewrite E. repeat split; auto. apply (generate_false t (f_single s) (program fs us [])). now rewrite E.
Qed.
(** Options after the file are not options: the run stops with an error. *)
Theorem C73_after_file : forall fs cwd opts file rest, Forall (fun x => written (fst x) (snd x)) opts ->
  plain_arg file -> rest <> [] -> run fs cwd (concat (map fst opts) ++ file :: rest) = (1, []).
Proof.
  intros fs cwd opts file rest F P R. rewrite run_eq by (destruct (concat (map fst opts)); discriminate).
  rewrite C73_options; [|exact F|right; eauto]. destruct rest; [congruence|reflexivity].
Qed.
(** A good command line writes the files of C69, below the directory given. *)
Theorem C73_success : forall fs cwd opts file t us, Forall (fun x => written (fst x) (snd x)) opts -> plain_arg file ->
  let s := settle opts in
  In (f_t s) (names t) -> t <> TESM -> t <> TKotlin -> f_single s = false -> signext_ok s -> (-1 <= f_unroll s)%Z ->
  compile_file fs (the_file cwd file) = Ok us -> well_located fs -> packages_differ t fs us ->
  run fs cwd (concat (map fst opts) ++ [file]) =
    (0, map (fun x => (target_path s (fst x), snd x)) (flat_map (fun x => source_files t (source_of fs x)) us)).
Proof.
  intros fs cwd opts file t us F P s I N1 N2 Sg S U C W D.
  destruct (C69_files fs (the_file cwd file) us t C W N1 N2 D) as [G1 G2].
  apply C73_zero. right. exists s, file, t, us. rewrite Sg. repeat split; auto.
  - apply C73_options; [exact F|right; eauto].
  - destruct (concat (map fst opts)); discriminate.
  - rewrite <- G2, map_map. reflexivity.
Qed.
(** -rmpath with an empty entry first: no other entry is ever used. *)
Theorem C73_rmpath_empty_refuted : forall rm file, Package.out_file ("" :: rm) file = Package.strip_slashes file.
Proof. intros rm file. cbn. destruct file; reflexivity. Qed.

(** Not vacuous. *)
Definition ex_opts : list (list string * (settings -> settings)) :=
  [(["-t"; "c"], set_t "c"); (["--o=gen"], set_o "gen"); (["-decnum"], set_b 4 true); (["-unroll"; "-1"], set_unroll (-1)%Z);
   (["-single=F"], set_b 2 false); (["-t=go"], set_t "go")].
Example C73_options_instance : Forall (fun x => written (fst x) (snd x)) ex_opts /\
  settle ex_opts = {| f_t := "go"; f_o := "gen"; f_rmpath := ""; f_signext := ""; f_unroll := (-1)%Z; f_relpath := false;
    f_inner := false; f_single := false; f_minimal := false; f_decnum := true; f_memcpy := false; f_compat := false; f_v := false |}.
Proof.
  split; [|reflexivity]. repeat constructor; cbn [fst snd].
  - apply (w_value "-" "t" "c" set_t); cbn; auto.
  - apply (w_value_eq "--" "o" "gen" set_o); cbn; auto.
  - apply (w_bool "-" "decnum" (set_b 4)); cbn; auto 10.
  - apply (w_number "-" "-1" (-1)%Z); cbn; auto.
  - apply (w_bool_eq "-" "single" "F" false (set_b 2)); cbn; auto 10.
  - apply (w_value_eq "-" "t" "go" set_t); cbn; auto.
Qed.
Example C73_success_instance :
  run out_fs "/" ["-t"; "c"; "-o"; "gen"; "m.bb"] =
    (0, [("gen/a/t.bb.h", ["T"]); ("gen/a/t.bb.c", ["T"]); ("gen/m.bb.h", ["N"; "P"; "M"]); ("gen/m.bb.c", ["N"; "P"; "M"])]) /\
  run out_fs "/" ["-t"; "go"; "-o"; "/gen/"; "-rmpath"; "x/,b"; "/m.bb"] =
    (0, [("/gen/a/t/t.bb.go", ["T"]); ("/gen/m/m.bb.go", ["N"; "P"; "M"])]) /\
  run out_fs "/" ["-t"; "c"; "m.bb"; "-o"; "gen"] = (1, []) /\
  run out_fs "/" ["-t"; "pascal"; "m.bb"] = (1, []) /\
  run out_fs "/" ["-x"; "m.bb"] = (2, []) /\
  run out_fs "/" ["-t"; "c"; "-signext"; "none"; "m.bb"] = (1, []) /\
  run out_fs "/" ["-t"; "c"; "-unroll=-2"; "m.bb"] = (1, []) /\
  run out_fs "/" ["-t"; "c"; "other.bb"] = (1, []).
Proof. vm_compute. auto 10. Qed.
Example C73_nothing_instance :
  run (two_fs "x/y" "x/y") "/" ["-t"; "go"; "-o"; "gen"; "b.bb"] = (1, [("gen/x/y/y.bb.go", ["A"])]).
Proof. vm_compute. reflexivity. Qed.
