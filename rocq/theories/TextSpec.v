(** What the tokens of a schema file say: a grammar (bubbler.g4:1-184) that gives each phrase its meaning.

    Specification only: nothing here is computed, and nothing of Text.v is used.  The shapes of the phrases are
    bubbler.g4's; the meanings are those of the README: numbers are their values, names their texts, strings the
    characters they stand for (C57), imports the files at the places they lead to (C60). *)
From Coq Require Import String Ascii List Bool ZArith.
From Verif Require Import Base Literals LexModel StrLit FrontModel CompileModel ExprModel Syntax Paths.
Import ListNotations.
Open Scope string_scope.
Open Scope nat_scope.
Open Scope list_scope.

Section Says.
Variable float_value : chars -> option N.      (* the bits of the 64-bit float that a numeral stands for *)
Variable path : chars.                         (* the path of the file *)

Definition text_of (t : chars) : string := string_of_list_ascii t.

(** ** Literals *)
Definition num_says (t : chars) (n : N) : Prop := int_token t (Z.of_N n) /\ (Z.of_N n < 2 ^ 63)%Z.
Definition quoted (q : ascii) (t v : chars) : Prop :=
  exists us ns, t = q :: concat us ++ [q] /\ pieces q us ns /\
    (forall u n, In (u, n) (combine us ns) -> ~ bad_piece q u n) /\ v = map ascii_of_nat ns.
Definition str_says (t v : chars) : Prop := quoted "'" t v \/ quoted """" t v.
Inductive sign_says : list token -> bool -> Prop :=
| sg_none : sign_says [] false
| sg_plus : sign_says [fx "+"] false
| sg_minus : sign_says [fx "-"] true.
Inductive lit_says : list token -> a_lit -> Prop :=
| ls_int ss neg t n : sign_says ss neg -> num_says t n -> lit_says (ss ++ [(KInt, t)]) (LInt neg n)
| ls_float ss neg t b : sign_says ss neg -> float_value t = Some b ->
    lit_says (ss ++ [(KFloat, t)]) (LFloat (if neg then N.lxor b (2 ^ 63) else b))     (* the sign bit *)
| ls_true : lit_says [(KBool, cs "true")] (LBool true)
| ls_false : lit_says [(KBool, cs "false")] (LBool false)
| ls_str t v : str_says t v -> lit_says [(KStr, t)] (LStr (text_of v)).
Inductive value_says : list token -> a_const -> Prop :=
| vs_lit ts l : lit_says ts l -> value_says ts (ACLit l)
| vs_name n : value_says [name n] (ACIdent (text_of n)).

(** ** Parts of fields *)
Definition maybe {A} (says : list token -> A -> Prop) (ts : list token) (o : option A) : Prop :=
  match o with None => ts = [] | Some a => says ts a end.
Inductive many_say {A} (says : list token -> A -> Prop) : list token -> list A -> Prop :=
| ms_nil : many_say says [] []
| ms_cons ts a us l : says ts a -> many_say says us l -> many_say says (ts ++ us) (a :: l).
Definition name_says (ts : list token) (s : string) : Prop := exists n, ts = [name n] /\ s = text_of n.
(** Bytes and bits; a part that is not written counts as zero. *)
Inductive size_says : list token -> a_size -> Prop :=
| zs_bytes b n : num_says b n -> size_says [fx "["; num b; fx "]"] (n, 0%N)
| zs_both b n c m : num_says b n -> num_says c m -> size_says [fx "["; num b; fx "#"; num c; fx "]"] (n, m)
| zs_bits c m : num_says c m -> size_says [fx "["; fx "#"; num c; fx "]"] (0%N, m).
Inductive pair_says : list token -> string * a_lit -> Prop :=
| ps_pair n ts l : lit_says ts l -> pair_says (name n :: fx "=" :: ts) (text_of n, l).
Inductive pairs_say : list token -> a_opts -> Prop :=
| pr_one ts x : pair_says ts x -> pairs_say ts [x]
| pr_more ts x us o : pair_says ts x -> pairs_say us o -> pairs_say (ts ++ fx "," :: us) (x :: o).
Inductive opts_say : list token -> a_opts -> Prop :=
| os_none : opts_say [] []
| os_some ts o : pairs_say ts o -> opts_say (fx "[" :: ts ++ [fx "]"]) o.
Definition arr_says (ts : list token) (n : N) : Prop := exists t, ts = [fx "<"; num t; fx ">"] /\ num_says t n.
(** The expression of a method is not part of what is compared here: it must be one of the grammar's, with
    literals that stand for something. *)
Definition word_ok (t : token) : Prop :=
  match fst t with
  | KInt => exists n, num_says (snd t) n
  | KFloat => exists b, float_value (snd t) = Some b
  | KStr => exists v, str_says (snd t) v
  | _ => True
  end.
Definition expr_ok (ts : list token) : Prop := (exists e, y_expr e = ts) /\ Forall word_ok ts.
Inductive method_says : list token -> a_method -> Prop :=
| md_method (g : bool) ns n b es : maybe name_says ns n -> expr_ok es ->
    method_says (fx (if g then "get" else "set") :: ns ++
                 fx "(" :: fx (basic_text b) :: fx ")" :: fx ":" :: es ++ [fx ";"])
                {| m_get := g; m_name := n; m_type := b |}.
(** No braces, or braces around methods; empty braces only after a basic type. *)
Inductive methods_say (basic : Prop) : list token -> list a_method -> Prop :=
| mt_none : methods_say basic [] []
| mt_some ts l : many_say method_says ts l -> (l = [] -> basic) -> methods_say basic (fx "{" :: ts ++ [fx "}"]) l.

(** ** Types, structs and fields.  Positions are left open. *)
Inductive elem_says : list token -> a_elem -> Prop :=
| es_basic b : elem_says [fx (basic_text b)] (AeBasic b)
| es_string : elem_says [fx "string"] AeString
| es_bytes : elem_says [fx "bytes"] AeBytes
| es_ref n : elem_says [fx "struct"; name n] (AeStructRef (text_of n))
| es_enum n : elem_says [fx "enum"; name n] (AeEnumRef (text_of n))
| es_name n : elem_says [name n] (AeIdent (text_of n))
| es_def ts d : struct_says ts d -> elem_says ts (AeStructDef d)
with struct_says : list token -> a_struct -> Prop :=
| ss_struct x n zs z ts b : maybe size_says zs z -> body_says ts b ->
    struct_says (fx "struct" :: name n :: zs ++ fx "{" :: ts ++ [fx "}"]) (AStruct x (text_of n) z b)
with body_says : list token -> a_body -> Prop :=
| bs_nil : body_says [] ABNil
| bs_empty ts b : body_says ts b -> body_says (fx ";" :: ts) (ABEmpty b)
| bs_void zs z os o ts b : size_says zs z -> opts_say os o -> body_says ts b ->
    body_says ((fx "void" :: zs ++ os ++ [fx ";"]) ++ ts) (ABVoid z o b)
| bs_const t ns n zs z vs v os o ts b : maybe name_says ns n -> maybe size_says zs z -> value_says vs v -> opts_say os o ->
    body_says ts b ->
    body_says ((fx (basic_text t) :: ns ++ zs ++ fx "=" :: vs ++ os ++ [fx ";"]) ++ ts) (ABConst t n z v o b)
| bs_embed es e as_ a os o ts b : elem_says es e -> maybe arr_says as_ a -> opts_say os o -> body_says ts b ->
    body_says ((es ++ as_ ++ os ++ [fx ";"]) ++ ts) (ABEmb e a o b)
| bs_field es e as_ a n zs z os o ms m ts b : elem_says es e -> maybe arr_says as_ a -> maybe size_says zs z ->
    opts_say os o -> methods_say ((exists t, e = AeBasic t) /\ a = None) ms m -> body_says ts b ->
    body_says ((es ++ as_ ++ name n :: zs ++ os ++ ms ++ [fx ";"]) ++ ts) (ABNormal e a (text_of n) z o m b).

(** ** Enums.  The options of a member must be of the right shape, and mean nothing. *)
Definition set_says (ts : list token) (v : a_const) : Prop := exists us, ts = fx "=" :: us /\ value_says us v.
Inductive members_say : list token -> list a_enumval -> Prop :=
| me_nil : members_say [] []
| me_empty ts l : members_say ts l -> members_say (fx ";" :: ts) l
| me_member x n vs v o sep ts l : maybe set_says vs v -> sep = "," \/ sep = ";" -> members_say ts l ->
    members_say ((name n :: vs ++ y_opt y_opts o ++ [fx sep]) ++ ts)
                ({| ev_pos := x; ev_name := text_of n; ev_val := v |} :: l).
Inductive enum_says : list token -> a_enum -> Prop :=
| en_enum x n zs z ts l : size_says zs z -> members_say ts l ->
    enum_says (fx "enum" :: name n :: zs ++ fx "{" :: ts ++ [fx "}"])
              {| en_pos := x; en_name := text_of n; en_size := z; en_vals := l |}.

(** ** Files *)
(** An import is a text between quotation marks, or one character between apostrophes; an absolute path stands
    for itself, any other for the path of the place it leads to from the directory of this file. *)
Definition import_says (t : chars) (p : string) : Prop :=
  exists v, (quoted """" t v \/ exists c, t = ["'"; c; "'"]%char /\ c <> "\"%char /\ v = [c]) /\
    ((absolute v /\ p = text_of v) \/ (~ absolute v /\ p = text_of (path_of (walk (dir_of path) (parts v))))).
Definition dotted (n : chars) (l : list chars) : list token := name n :: flat_map (fun x => [fx "."; name x]) l.
Inductive file_says : list token -> source -> Prop :=
| fs_end : file_says [] {| s_imports := []; s_packages := []; s_options := []; s_tops := [] |}
| fs_empty ts s : file_says ts s -> file_says (fx ";" :: ts) s
| fs_import t p ts s : import_says t p -> file_says ts s ->
    file_says ([fx "import"; (KStr, t); fx ";"] ++ ts)
      {| s_imports := p :: s_imports s; s_packages := s_packages s; s_options := s_options s; s_tops := s_tops s |}
| fs_package n l ts s : file_says ts s ->
    file_says ((fx "package" :: dotted n l ++ [fx ";"]) ++ ts)
      {| s_imports := s_imports s; s_packages := map text_of (n :: l) :: s_packages s; s_options := s_options s; s_tops := s_tops s |}
| fs_option us x ts s : pair_says us x -> file_says ts s ->
    file_says ((fx "option" :: us ++ [fx ";"]) ++ ts)
      {| s_imports := s_imports s; s_packages := s_packages s; s_options := x :: s_options s; s_tops := s_tops s |}
| fs_enum us e ts s : enum_says us e -> file_says ts s ->
    file_says (us ++ ts)
      {| s_imports := s_imports s; s_packages := s_packages s; s_options := s_options s; s_tops := ATEnum e :: s_tops s |}
| fs_struct us d ts s : struct_says us d -> file_says ts s ->
    file_says (us ++ ts)
      {| s_imports := s_imports s; s_packages := s_packages s; s_options := s_options s; s_tops := ATStruct d :: s_tops s |}.
End Says.
Scheme elem_says_mind := Induction for elem_says Sort Prop
  with struct_says_mind := Induction for struct_says Sort Prop
  with body_says_mind := Induction for body_says Sort Prop.
Combined Scheme says_ind from elem_says_mind, struct_says_mind, body_says_mind.
