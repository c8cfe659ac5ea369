(** From the text of a schema file to what the compiler's visitors see of it.

    Puts together the lexer (LexModel.v), the parser (Parser.v), the literals (Literals.v, StrLit.v) and the path
    of imports (Paths.v): compiler/compilation_runtime.go:72-98 and 212-227, compiler/literal_visitor.go,
    compiler/import_visitor.go, and the places where compiler/proto_visitor.go and info_visitor.go read names,
    literals and positions off the tree.

    Simplification: a literal that cannot be read (too large, a bad escape) rejects its file ([None]) at once; in
    the code the visitor reports it when it comes to it.  The options of enum members are never visited
    (proto_visitor.go:2423).  strconv.ParseFloat is a parameter. *)
From Coq Require Import String Ascii List Bool Arith ZArith.
From Verif Require Import Base Literals LexModel StrLit FrontModel CompileModel ExprModel Syntax Parser Paths.
Import ListNotations.
Open Scope string_scope.
Open Scope nat_scope.
Open Scope list_scope.

(** ** Lines and columns: antlr's LexerATNSimulator.Consume.  Columns count characters, that is bytes that do not
    continue a UTF-8 sequence. *)
Definition continues (c : ascii) : bool := let n := N_of_ascii c in (128 <=? n)%N && (n <? 192)%N.
Definition advance (lc : Z * Z) (c : ascii) : Z * Z :=
  if Ascii.eqb c newline then (fst lc + 1, 0)%Z
  else if continues c then lc else (fst lc, snd lc + 1)%Z.
Definition after (lc : Z * Z) (t : chars) : Z * Z := fold_left advance t lc.
(** Where the visible tokens start. *)
Fixpoint places (lc : Z * Z) (ts : list token) : list (Z * Z) :=
  match ts with
  | [] => []
  | (k, t) :: r => if hidden k then places (after lc t) r else lc :: places (after lc t) r
  end.
(** The place of the visible token number [i]; lines start with 1, so a number that is not there gives a place of
    its own (it is never asked for). *)
Definition token_at (l : list (Z * Z)) (i : nat) : Z * Z := nth i l (- Z.of_nat i, 0)%Z.

Notation "'do?' x <- p ; q" := (match p with Some x => q | None => None end)
  (at level 200, x pattern, p at level 100, q at level 200).

Definition str (t : chars) : string := string_of_list_ascii t.

Section Reading.
Variable parse_float : chars -> option N.      (* strconv.ParseFloat(_, 64), as a bit pattern *)
Variable cwd : chars.                          (* the working directory *)

(** VisitIntLit, literal_visitor.go:128-146. *)
Definition number (t : chars) : option N := option_map Z.to_N (parse_int t).
(** VisitConstant, literal_visitor.go:25-119. *)
Definition is_minus (s : option sign) : bool := match s with Some Minus => true | _ => false end.
Definition literal_of (c : constant) : option a_lit :=
  match c with
  | CInt s t => do? n <- number t; Some (LInt (is_minus s) n)
  | CFloat s t => do? b <- parse_float t; Some (LFloat (if is_minus s then N.lxor b (2 ^ 63) else b)%N)
  | CBool t => Some (LBool (if list_eq_dec ascii_dec t (cs "true") then true else false))
  | CStr t => do? v <- visit_str t; Some (LStr (str v))
  end.
Definition rhs_of (r : rhs) : option a_const :=
  match r with RConst c => do? l <- literal_of c; Some (ACLit l) | RIdent n => Some (ACIdent (str n)) end.
(** VisitSize_, proto_visitor.go:867-907. *)
Definition size_of (s : size) : option a_size :=
  match s with
  | SBytes b => do? n <- number b; Some (n, 0%N)
  | SBoth b c => do? n <- number b; do? m <- number c; Some (n, m)
  | SBits c => do? m <- number c; Some (0%N, m)
  end.
Definition opt_of {A B} (f : A -> option B) (o : option A) : option (option B) :=
  match o with None => Some None | Some a => do? b <- f a; Some (Some b) end.
Fixpoint all_of {A B} (f : A -> option B) (l : list A) : option (list B) :=
  match l with [] => Some [] | a :: r => do? b <- f a; do? m <- all_of f r; Some (b :: m) end.
(** VisitFieldOptions, proto_visitor.go:951-994. *)
Definition option_of (o : opt) : option (string * a_lit) :=
  do? l <- literal_of (snd o); Some (str (fst o), l).
Definition options_of (o : option opts) : option a_opts :=
  match o with None => Some [] | Some (a, r) => all_of option_of (a :: r) end.
(** ExprVisitor, proto_visitor.go:1275-1945: an expression is rejected only for a constant in it. *)
Fixpoint readable (e : pexpr) : bool :=
  match e with
  | PValue => true
  | PConst c => match literal_of c with Some _ => true | None => false end
  | PParens e => readable e
  | PUn _ e => readable e
  | PCast _ e => readable e
  | PBin _ l r => readable l && readable r
  | PTern c a b => readable c && readable a && readable b
  end.
Definition method_of (m : pmethod) : option a_method :=
  if readable (pm_expr m)
  then Some {| m_get := pm_get m; m_name := option_map str (pm_name m); m_type := pm_type m |} else None.
(** An empty list of methods is still only allowed for a basic type (proto_visitor.go:558-569). *)
Definition methods_of (t : ptype) (a : option chars) (m : option (list pmethod)) : option (list a_method) :=
  match m with
  | None => Some []
  | Some [] => match t, a with XBasic _, None => Some [] | _, _ => None end
  | Some l => all_of method_of l
  end.

Section Places.
Variable path : string.
Variable at_ : nat -> Z * Z.
Definition pos_at (i : nat) : pos := {| p_file := path; p_line := fst (at_ i); p_col := snd (at_ i) |}.

(** [i] is the number of the tree's first token.  A struct's position is its first token
    (proto_visitor.go:194-238), as are those of an enum (2235-2282) and of an enum member (2428-2432). *)
Fixpoint elem_of (i : nat) (t : ptype) : option a_elem :=
  match t with
  | XBasic b => Some (AeBasic b)
  | XString => Some AeString
  | XBytes => Some AeBytes
  | XStruct n => Some (AeStructRef (str n))
  | XDef d => do? s <- struct_of i d; Some (AeStructDef s)
  | XEnum n => Some (AeEnumRef (str n))
  | XIdent n => Some (AeIdent (str n))
  end
with struct_of (i : nat) (d : pstruct) : option a_struct :=
  match d with
  | PStruct n s body =>
      do? sz <- opt_of size_of s;
      do? b <- (fix body_of i l :=
                  match l with
                  | [] => Some ABNil
                  | e :: r => do? b <- body_of (i + length (y_element e)) r; element_of i e b
                  end) (i + 3 + length (y_opt y_size s)) body;
      Some (AStruct (pos_at i) (str n) sz b)
  end
with element_of (i : nat) (e : pelement) (rest : a_body) : option a_body :=
  match e with
  | LEmpty => Some (ABEmpty rest)
  | LVoid s o => do? s <- size_of s; do? o <- options_of o; Some (ABVoid s o rest)
  | LConst b n s r o =>
      do? s <- opt_of size_of s; do? c <- rhs_of r; do? o <- options_of o;
      Some (ABConst b (option_map str n) s c o rest)
  | LEmbed t a o =>
      do? e <- elem_of i t; do? a <- opt_of number a; do? o <- options_of o; Some (ABEmb e a o rest)
  | LNormal t a n s o m =>
      do? m <- methods_of t a m; do? e <- elem_of i t; do? a <- opt_of number a; do? s <- opt_of size_of s;
      do? o <- options_of o; Some (ABNormal e a (str n) s o m rest)
  end.
Fixpoint body_of (i : nat) (l : list pelement) : option a_body :=
  match l with
  | [] => Some ABNil
  | e :: r => do? b <- body_of (i + length (y_element e)) r; element_of i e b
  end.

Fixpoint members_of (i : nat) (l : list (option pvalue)) : option (list a_enumval) :=
  match l with
  | [] => Some []
  | None :: r => members_of (i + 1) r
  | Some v :: r =>
      do? x <- opt_of rhs_of (pv_rhs v); do? m <- members_of (i + length (y_value v)) r;
      Some ({| ev_pos := pos_at i; ev_name := str (pv_name v); ev_val := x |} :: m)
  end.
Definition enum_of (i : nat) (e : penum) : option a_enum :=
  do? s <- size_of (pe_size e);
  do? m <- members_of (i + 3 + length (y_size (pe_size e))) (pe_members e);
  Some {| en_pos := pos_at i; en_name := str (pe_name e); en_size := s; en_vals := m |}.

(** VisitProto of the visitors: imports, package statements, options and definitions, each in order. *)
Fixpoint tops_of (i : nat) (f : file) : option (list a_top) :=
  match f with
  | [] => Some []
  | s :: r =>
      do? l <- tops_of (i + length (y_statement s)) r;
      match s with
      | SEnum e => do? e <- enum_of i e; Some (ATEnum e :: l)
      | SStruct d => do? d <- struct_of i d; Some (ATStruct d :: l)
      | _ => Some l
      end
  end.
(** VisitImportStatement, import_visitor.go:37-75: strconv.Unquote takes a text between apostrophes only if it is
    one character (escapes there, and no character, are counted as errors here). *)
Definition import_name (t : chars) : option chars :=
  match t with
  | c :: r => if Ascii.eqb c squote then
                match r with [x; _] => if Ascii.eqb x backslash then None else Some [x] | _ => None end
              else unquote t
  | [] => None
  end.
Definition import_of (t : chars) : option string :=
  do? n <- import_name t; Some (str (resolve cwd n (cs path))).
Fixpoint imports_of (f : file) : option (list string) :=
  match f with
  | [] => Some []
  | SImport t :: r => do? p <- import_of t; do? l <- imports_of r; Some (p :: l)
  | _ :: r => imports_of r
  end.
(** VisitFullIdent, info_visitor.go:183-190. *)
Fixpoint packages_of (f : file) : list (list string) :=
  match f with
  | [] => []
  | SPackage (n, l) :: r => map str (n :: l) :: packages_of r
  | _ :: r => packages_of r
  end.
Fixpoint file_options_of (f : file) : option a_opts :=
  match f with
  | [] => Some []
  | SOption o :: r => do? x <- option_of o; do? l <- file_options_of r; Some (x :: l)
  | _ :: r => file_options_of r
  end.
Definition source_of (f : file) : option source :=
  do? is_ <- imports_of f; do? os <- file_options_of f; do? ts <- tops_of 0 f;
  Some {| s_imports := is_; s_packages := packages_of f; s_options := os; s_tops := ts |}.
End Places.

(** compile, compilation_runtime.go:72-98: reading a file. *)
Definition read_text (path : string) (text : chars) : option source :=
  do? ts <- tokens text; do? f <- parse (visible ts);
  source_of path (token_at (places (1, 0)%Z ts)) f.
(** Files: paths and texts. *)
Definition texts : Type := list (string * chars).
Definition load (T : texts) : filesystem := map (fun x => (fst x, read_text (fst x) (snd x))) T.
(** The whole front end: compiler/compiler.go:7-11 Compile for the file with the (absolute) path [p]. *)
Definition compile_texts (T : texts) (p : string) : res (list (string * comp_unit)) := compile_file (load T) p.
End Reading.
