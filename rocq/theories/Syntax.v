(** The grammar of schema files: /repo/bubbler.g4:1-184.

    A derivation of the grammar is a tree; [yield] is the list of its tokens.  Each type below stands for a rule
    of the grammar and each constructor for one of its alternatives; optional parts are [option], repeated parts
    lists.  The trees hold the text of names and literals as written. *)
From Coq Require Import String Ascii List Bool Arith Lia ZArith.
From Verif Require Import Literals LexModel FrontModel ExprModel.
Import ListNotations.
Open Scope string_scope.
Open Scope nat_scope.
Open Scope list_scope.

Definition fx (s : string) : token := (KFixed, cs s).
Definition name (n : chars) : token := (KIdent, n).
Definition num (n : chars) : token := (KInt, n).

Section Lists.
  Context {A : Type} (y : A -> list token).
  Definition y_opt (o : option A) : list token := match o with Some a => y a | None => [] end.
  Definition y_list (l : list A) : list token := flat_map y l.
  (** first ( SEP other )* *)
  Definition y_sep (sep : string) (l : A * list A) : list token :=
    y (fst l) ++ flat_map (fun a => fx sep :: y a) (snd l).
End Lists.

(** 92-104 *)
Definition basic_text (b : a_basic) : string :=
  match b with
  | Bool_ => "bool" | Int8 => "int8" | Int16 => "int16" | Int32 => "int32" | Int64 => "int64"
  | Uint8 => "uint8" | Uint16 => "uint16" | Uint32 => "uint32" | Uint64 => "uint64"
  | Float32 => "float32" | Float64 => "float64"
  end.
Definition y_basic (b : a_basic) : list token := [fx (basic_text b)].

(** 160-167: constant *)
Inductive sign : Type := Plus | Minus.
Definition y_sign (s : sign) : list token := [fx (match s with Plus => "+" | Minus => "-" end)].
Inductive constant : Type :=
| CInt (s : option sign) (t : chars)
| CFloat (s : option sign) (t : chars)
| CStr (t : chars)
| CBool (t : chars).
Definition y_constant (c : constant) : list token :=
  match c with
  | CInt s t => y_opt y_sign s ++ [(KInt, t)]
  | CFloat s t => y_opt y_sign s ++ [(KFloat, t)]
  | CStr t => [(KStr, t)]
  | CBool t => [(KBool, t)]
  end.
(** ( constant | ident ) *)
Inductive rhs : Type := RConst (c : constant) | RIdent (n : chars).
Definition y_rhs (r : rhs) : list token := match r with RConst c => y_constant c | RIdent n => [name n] end.

(** 22-30: size_ *)
Inductive size : Type := SBytes (b : chars) | SBoth (b c : chars) | SBits (c : chars).
Definition y_size (s : size) : list token :=
  match s with
  | SBytes b => [fx "["; num b; fx "]"]
  | SBoth b c => [fx "["; num b; fx "#"; num c; fx "]"]
  | SBits c => [fx "["; fx "#"; num c; fx "]"]
  end.

(** 70-72, 118-121: fieldOptions, enumValueOptions *)
Definition opt : Type := (chars * constant)%type.
Definition y_pair (o : opt) : list token := name (fst o) :: fx "=" :: y_constant (snd o).
Definition opts : Type := (opt * list opt)%type.
Definition y_opts (o : opts) : list token := fx "[" :: y_sep y_pair "," o ++ [fx "]"].

(** 133-151: expr.  Operators are those of ExprModel. *)
Inductive pexpr : Type :=
| PValue
| PConst (c : constant)
| PParens (e : pexpr)
| PUn (o : unop) (e : pexpr)
| PCast (b : a_basic) (e : pexpr)
| PBin (o : binop) (l r : pexpr)
| PTern (c a b : pexpr).
Definition un_tok (o : unop) : string := match o with UAdd => "+" | USub => "-" | UBnot => "~" | UNot => "!" end.
Definition bin_tok (o : binop) : string :=
  match o with
  | OAdd => "+" | OSub => "-" | OMul => "*" | ODiv => "/" | OMod => "%" | OPow => "**" | OShl => "<<" | OShr => ">>"
  | OLt => "<" | OLe => "<=" | OGt => ">" | OGe => ">=" | OEq => "==" | ONe => "!=" | OBand => "&" | OBxor => "^"
  | OBor => "|" | OAnd => "&&" | OOr => "||"
  end.
Fixpoint y_expr (e : pexpr) : list token :=
  match e with
  | PValue => [fx "value"]
  | PConst c => y_constant c
  | PParens e => fx "(" :: y_expr e ++ [fx ")"]
  | PUn o e => fx (un_tok o) :: y_expr e
  | PCast b e => fx "(" :: y_basic b ++ fx ")" :: y_expr e
  | PBin o l r => y_expr l ++ fx (bin_tok o) :: y_expr r
  | PTern c a b => y_expr c ++ fx "?" :: y_expr a ++ fx ":" :: y_expr b
  end.

(** 74-76: fieldMethods *)
Record pmethod : Type := { pm_get : bool; pm_name : option chars; pm_type : a_basic; pm_expr : pexpr }.
Definition y_method (m : pmethod) : list token :=
  fx (if pm_get m then "get" else "set") :: y_opt (fun n => [name n]) (pm_name m) ++
  fx "(" :: y_basic (pm_type m) ++ fx ")" :: fx ":" :: y_expr (pm_expr m) ++ [fx ";"].
Definition y_methods (l : list pmethod) : list token := fx "{" :: y_list y_method l ++ [fx "}"].

(** 52-68, 80-90, 108-110, 125-129, 180-182: types, fields and structs.  A type is an element type and, for an
    array, its length; an element of a struct body is a field or an empty statement. *)
Inductive ptype : Type :=
| XBasic (b : a_basic)
| XString
| XBytes
| XStruct (n : chars)
| XDef (d : pstruct)
| XEnum (n : chars)
| XIdent (n : chars)
with pstruct : Type :=
| PStruct (n : chars) (s : option size) (body : list pelement)
with pelement : Type :=
| LEmpty
| LVoid (s : size) (o : option opts)
| LConst (b : a_basic) (n : option chars) (s : option size) (r : rhs) (o : option opts)
| LEmbed (t : ptype) (arr : option chars) (o : option opts)
| LNormal (t : ptype) (arr : option chars) (n : chars) (s : option size) (o : option opts) (m : option (list pmethod)).

Definition y_name (n : chars) : list token := [name n].
Definition y_arr (a : chars) : list token := [fx "<"; num a; fx ">"].
Fixpoint y_type (t : ptype) : list token :=
  match t with
  | XBasic b => y_basic b
  | XString => [fx "string"]
  | XBytes => [fx "bytes"]
  | XStruct n => [fx "struct"; name n]
  | XDef d => y_struct d
  | XEnum n => [fx "enum"; name n]
  | XIdent n => [name n]
  end
with y_struct (d : pstruct) : list token :=
  match d with
  | PStruct n s body => fx "struct" :: name n :: y_opt y_size s ++ fx "{" :: flat_map y_element body ++ [fx "}"]
  end
with y_element (e : pelement) : list token :=
  match e with
  | LEmpty => [fx ";"]
  | LVoid s o => fx "void" :: y_size s ++ y_opt y_opts o ++ [fx ";"]
  | LConst b n s r o =>
      y_basic b ++ y_opt y_name n ++ y_opt y_size s ++ fx "=" :: y_rhs r ++ y_opt y_opts o ++ [fx ";"]
  | LEmbed t a o => y_type t ++ y_opt y_arr a ++ y_opt y_opts o ++ [fx ";"]
  | LNormal t a n s o m =>
      y_type t ++ y_opt y_arr a ++ name n :: y_opt y_size s ++ y_opt y_opts o ++ y_opt y_methods m ++ [fx ";"]
  end.

(** 106-121: enums; [pv_comma] says that the member ends in a comma and not in a semicolon. *)
Record pvalue : Type := { pv_name : chars; pv_rhs : option rhs; pv_opts : option opts; pv_comma : bool }.
Definition y_value (v : pvalue) : list token :=
  name (pv_name v) :: y_opt (fun r => fx "=" :: y_rhs r) (pv_rhs v) ++ y_opt y_opts (pv_opts v) ++
  [fx (if pv_comma v then "," else ";")].
(** [None] is the empty statement. *)
Definition y_member (m : option pvalue) : list token := match m with Some v => y_value v | None => [fx ";"] end.
Record penum : Type := { pe_name : chars; pe_size : size; pe_members : list (option pvalue) }.
Definition y_enum (e : penum) : list token :=
  fx "enum" :: name (pe_name e) :: y_size (pe_size e) ++ fx "{" :: y_list y_member (pe_members e) ++ [fx "}"].

(** 3-20, 32-42: files *)
Inductive statement : Type :=
| SImport (t : chars)
| SPackage (p : chars * list chars)
| SOption (o : opt)
| SEnum (e : penum)
| SStruct (d : pstruct)
| SEmpty.
Definition y_statement (s : statement) : list token :=
  match s with
  | SImport t => [fx "import"; (KStr, t); fx ";"]
  | SPackage p => fx "package" :: y_sep y_name "." p ++ [fx ";"]
  | SOption o => fx "option" :: y_pair o ++ [fx ";"]
  | SEnum e => y_enum e
  | SStruct d => y_struct d
  | SEmpty => [fx ";"]
  end.
Definition file : Type := list statement.
Definition yield (f : file) : list token := y_list y_statement f.

(** ** Which of several expression trees is meant

    ANTLR's rules for a left-recursive rule (antlr4/doc/left-recursion.md): the earlier alternative binds
    stronger, operators of the same alternative group to the left, and the earlier alternative is chosen where
    several fit. *)

(** The number of the alternative in bubbler.g4:133-151. *)
Definition alternative (o : binop) : nat :=
  match o with
  | OPow => 4
  | OMul | ODiv | OMod => 7
  | OAdd | OSub => 8
  | OShl | OShr => 9
  | OLt | OLe | OGt | OGe => 10
  | OEq | ONe => 11
  | OBand => 12 | OBxor => 13 | OBor => 14 | OAnd => 15 | OOr => 16
  end.
Definition alt_un := 5.
Definition alt_cast := 6.
Definition alt_tern := 17.

(** The operator that joins the expression, if it is not an operand by itself or a prefix operation, comes in
    alternative [n] or before. *)
Definition within (n : nat) (e : pexpr) : Prop :=
  match e with PBin o _ _ => alternative o <= n | PTern _ _ _ => alt_tern <= n | _ => True end.
(** A prefix operation at the end of [e] would take in an operator of alternative [n] that follows. *)
Fixpoint takes_in (n : nat) (e : pexpr) : Prop :=
  match e with
  | PUn _ a => n < alt_un \/ takes_in n a
  | PCast _ a => n < alt_cast \/ takes_in n a
  | PBin _ _ b => takes_in n b
  | PTern _ _ b => takes_in n b
  | _ => False
  end.
Definition unsigned_number (l : list token) : Prop := exists k t r, l = (k, t) :: r /\ (k = KInt \/ k = KFloat).
Fixpoint meant (e : pexpr) : Prop :=
  match e with
  | PValue | PConst _ => True
  | PParens a => meant a
  | PUn o a => meant a /\ within (alt_un - 1) a /\
      ((o = UAdd \/ o = USub) -> ~ unsigned_number (y_expr a))      (* that is a constant, alternative 2 *)
  | PCast _ a => meant a /\ within (alt_cast - 1) a
  | PBin o l r => meant l /\ meant r /\ within (alternative o) l /\ ~ takes_in (alternative o) l /\
      within (alternative o - 1) r
  | PTern c a b => meant c /\ meant a /\ meant b /\ ~ takes_in alt_tern c /\ within (alt_tern - 1) b
  end.

(** All expressions of a file. *)
Definition meant_method (m : pmethod) : Prop := meant (pm_expr m).
Fixpoint meant_type (t : ptype) : Prop := match t with XDef d => meant_struct d | _ => True end
with meant_struct (d : pstruct) : Prop :=
  match d with PStruct _ _ body => fold_right (fun e P => meant_element e /\ P) True body end
with meant_element (e : pelement) : Prop :=
  match e with
  | LEmbed t _ _ => meant_type t
  | LNormal t _ _ _ _ m => meant_type t /\ match m with Some l => Forall meant_method l | None => True end
  | _ => True
  end.
Definition meant_statement (s : statement) : Prop := match s with SStruct d => meant_struct d | _ => True end.
Definition meant_file (f : file) : Prop := Forall meant_statement f.
