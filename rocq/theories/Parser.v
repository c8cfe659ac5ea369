(** The parser of schema files: /repo/parser/bubbler_parser.go (generated by ANTLR from /repo/bubbler.g4), run by
    compiler/compilation_runtime.go:212-227 over the visible tokens of a file.

    A function for a rule takes tokens and gives a tree and the tokens left; [None] is a syntax error, which
    rejects the file.  ANTLR looks ahead as far as it must to choose an alternative; here each choice is made by the
    tokens that decide it.  (That these are the right choices is C58: the parser finds exactly the derivations of
    the grammar.)  Error recovery, which only matters for the number of messages, is left out. *)
From Coq Require Import String Ascii List Bool Arith Lia ZArith.
From Verif Require Import Literals LexModel FrontModel ExprModel Syntax.
Import ListNotations.
Open Scope string_scope.
Open Scope nat_scope.
Open Scope list_scope.

Definition parser (A : Type) : Type := list token -> option (A * list token).
Definition ret {A} (a : A) : parser A := fun ts => Some (a, ts).
Definition fail {A} : parser A := fun _ => None.
Definition bind {A B} (p : parser A) (f : A -> parser B) : parser B :=
  fun ts => match p ts with Some (a, k) => f a k | None => None end.
Notation "'let*' x ':=' p 'in' q" := (bind p (fun x => q)) (at level 200, x pattern, p at level 100, q at level 200).

Definition is_fx (s : string) (t : token) : bool :=
  match t with (KFixed, u) => if list_eq_dec ascii_dec u (cs s) then true else false | _ => false end.
Definition next (f : token -> bool) (ts : list token) : bool := match ts with t :: _ => f t | [] => false end.
Definition next2 (f : token -> bool) (ts : list token) : bool := match ts with _ :: t :: _ => f t | _ => false end.
Definition of_kind (k : kind) (t : token) : bool :=
  match k, fst t with
  | KInt, KInt | KFloat, KFloat | KStr, KStr | KBool, KBool | KIdent, KIdent => true
  | _, _ => false
  end.

(** Match *)
Definition p_fx (s : string) : parser unit :=
  fun ts => match ts with t :: k => if is_fx s t then Some (tt, k) else None | [] => None end.
Definition p_kind (k : kind) : parser chars :=
  fun ts => match ts with t :: r => if of_kind k t then Some (snd t, r) else None | [] => None end.
Definition p_name : parser chars := p_kind KIdent.
Definition p_num : parser chars := p_kind KInt.

(** ( ... )? and ( ... )* *)
Definition optional {A} (starts : list token -> bool) (p : parser A) : parser (option A) :=
  fun ts => if starts ts then bind p (fun a => ret (Some a)) ts else Some (None, ts).
Fixpoint many {A} (n : nat) (starts : list token -> bool) (p : parser A) : parser (list A) :=
  match n with
  | O => fail
  | S n => fun ts =>
      if starts ts then (let* a := p in let* l := many n starts p in ret (a :: l)) ts else Some ([], ts)
  end.
Definition repeated {A} (starts : list token -> bool) (p : parser A) : parser (list A) :=
  fun ts => many (S (length ts)) starts p ts.

(** BasicType, bubbler_parser.go *)
Definition basics : list a_basic :=
  [Bool_; Int8; Int16; Int32; Int64; Uint8; Uint16; Uint32; Uint64; Float32; Float64].
Definition basic_tok (t : token) : option a_basic := find (fun b => is_fx (basic_text b) t) basics.
Definition is_basic (t : token) : bool := match basic_tok t with Some _ => true | None => false end.
Definition p_basic : parser a_basic :=
  fun ts => match ts with t :: k => match basic_tok t with Some b => Some (b, k) | None => None end | [] => None end.

(** Constant *)
Definition sign_tok (t : token) : option sign :=
  if is_fx "+" t then Some Plus else if is_fx "-" t then Some Minus else None.
Definition p_constant : parser constant :=
  fun ts =>
    match ts with
    | (KInt, t) :: k => Some (CInt None t, k)
    | (KFloat, t) :: k => Some (CFloat None t, k)
    | (KStr, t) :: k => Some (CStr t, k)
    | (KBool, t) :: k => Some (CBool t, k)
    | s :: (KInt, t) :: k => match sign_tok s with Some s => Some (CInt (Some s) t, k) | None => None end
    | s :: (KFloat, t) :: k => match sign_tok s with Some s => Some (CFloat (Some s) t, k) | None => None end
    | _ => None
    end.
Definition p_rhs : parser rhs :=
  fun ts => if next (of_kind KIdent) ts then (let* n := p_name in ret (RIdent n)) ts
            else (let* c := p_constant in ret (RConst c)) ts.

(** Size_ *)
Definition p_size : parser size :=
  let* _ := p_fx "[" in
  fun ts =>
    if next (is_fx "#") ts then
      (let* _ := p_fx "#" in let* c := p_num in let* _ := p_fx "]" in ret (SBits c)) ts
    else
      (let* b := p_num in
       fun ts => if next (is_fx "#") ts
                 then (let* _ := p_fx "#" in let* c := p_num in let* _ := p_fx "]" in ret (SBoth b c)) ts
                 else (let* _ := p_fx "]" in ret (SBytes b)) ts) ts.
(** A bracket opens a size if a number or "#" follows, otherwise options. *)
Definition at_size (ts : list token) : bool :=
  next (is_fx "[") ts && next2 (fun t => of_kind KInt t || is_fx "#" t) ts.
Definition at_opts (ts : list token) : bool := next (is_fx "[") ts.

(** FieldOptions, EnumValueOptions *)
Definition p_pair : parser opt :=
  let* n := p_name in let* _ := p_fx "=" in let* c := p_constant in ret (n, c).
Definition p_sep {A} (sep : string) (p : parser A) : parser (A * list A) :=
  let* a := p in let* l := repeated (next (is_fx sep)) (let* _ := p_fx sep in p) in ret (a, l).
Definition p_opts : parser opts :=
  let* _ := p_fx "[" in let* o := p_sep "," p_pair in let* _ := p_fx "]" in ret o.

(** expr, bubbler_parser.go:7111-7620, with its precedence numbers: the level at which the operator may be taken
    and the level of its right operand. *)
Definition binops : list binop :=
  [OAdd; OSub; OMul; ODiv; OMod; OPow; OShl; OShr; OLt; OLe; OGt; OGe; OEq; ONe; OBand; OBxor; OBor; OAnd; OOr].
Definition bin_of (t : token) : option binop := find (fun o => is_fx (bin_tok o) t) binops.
Definition unops : list unop := [UAdd; USub; UBnot; UNot].
Definition un_of (t : token) : option unop := find (fun o => is_fx (un_tok o) t) unops.
Definition prec (o : binop) : nat :=
  match o with
  | OPow => 14                                  (* 7266 *)
  | OMul | ODiv | OMod => 11                    (* 7288 *)
  | OAdd | OSub => 10                           (* 7320 *)
  | OShl | OShr => 9                            (* 7352 *)
  | OLt | OLe | OGt | OGe => 8                  (* 7384 *)
  | OEq | ONe => 7                              (* 7416 *)
  | OBand => 6 | OBxor => 5 | OBor => 4         (* 7448, 7470, 7492 *)
  | OAnd => 3 | OOr => 2                        (* 7514, 7536 *)
  end.
Definition prec_right (o : binop) : nat :=
  match o with
  | OPow => 15                                  (* 7280 *)
  | OMul | ODiv | OMod => 12                    (* 7312 *)
  | OAdd | OSub => 11                           (* 7344 *)
  | OShl | OShr => 10                           (* 7376 *)
  | OLt | OLe | OGt | OGe => 9                  (* 7408 *)
  | OEq | ONe => 8                              (* 7440 *)
  | OBand => 7 | OBxor => 6 | OBor => 5         (* 7462, 7484, 7506 *)
  | OAnd => 4 | OOr => 3                        (* 7528, 7550 *)
  end.

(** [p_expr n p] is expr(p), [p_loop n p e] its loop with the expression [e] read so far; [n] bounds the calls. *)
Fixpoint p_expr (n p : nat) : parser pexpr :=
  match n with
  | O => fail
  | S n => fun ts =>
      bind
        (fun ts =>
           if next (is_fx "value") ts then (let* _ := p_fx "value" in ret PValue) ts         (* case 1 *)
           else match p_constant ts with
           | Some (c, k) => Some (PConst c, k)                                               (* case 2 *)
           | None =>
               if next (is_fx "(") ts then
                 if next2 is_basic ts then                                                   (* case 5, 7232 *)
                   (let* _ := p_fx "(" in let* b := p_basic in let* _ := p_fx ")" in
                    let* e := p_expr n 12 in ret (PCast b e)) ts
                 else                                                                        (* case 3, 7168 *)
                   (let* _ := p_fx "(" in let* e := p_expr n 0 in let* _ := p_fx ")" in ret (PParens e)) ts
               else
                 match ts with
                 | t :: k =>
                     match un_of t with
                     | Some o => (let* e := p_expr n 13 in ret (PUn o e)) k                  (* case 4, 7203 *)
                     | None => None
                     end
                 | [] => None
                 end
           end)
        (fun e => p_loop n p e) ts
  end
with p_loop (n p : nat) (e : pexpr) : parser pexpr :=
  match n with
  | O => fail
  | S n => fun ts =>
      match ts with
      | t :: k =>
          match bin_of t with
          | Some o =>
              if p <=? prec o then (let* r := p_expr n (prec_right o) in p_loop n p (PBin o e r)) k
              else Some (e, ts)
          | None =>
              if is_fx "?" t && (p <=? 1) then                                               (* 7558-7584 *)
                (let* a := p_expr n 0 in let* _ := p_fx ":" in let* b := p_expr n 2 in
                 p_loop n p (PTern e a b)) k
              else Some (e, ts)
          end
      | [] => Some (e, ts)
      end
  end.
Definition parse_expr : parser pexpr := fun ts => p_expr (2 * length ts + 2) 0 ts.

(** FieldMethods *)
Definition p_method : parser pmethod :=
  fun ts =>
    (let* g := (fun ts => if next (is_fx "get") ts then (let* _ := p_fx "get" in ret true) ts
                          else (let* _ := p_fx "set" in ret false) ts) in
     let* n := optional (next (of_kind KIdent)) p_name in
     let* _ := p_fx "(" in let* b := p_basic in let* _ := p_fx ")" in let* _ := p_fx ":" in
     let* e := parse_expr in let* _ := p_fx ";" in
     ret {| pm_get := g; pm_name := n; pm_type := b; pm_expr := e |}) ts.
Definition open_body (ts : list token) : bool := negb (next (is_fx "}") ts).
Definition p_methods : parser (list pmethod) :=
  let* _ := p_fx "{" in let* l := repeated open_body p_method in let* _ := p_fx "}" in ret l.

(** Type_, StructDef, Field *)
Definition p_arr : parser chars :=
  let* _ := p_fx "<" in let* a := p_num in let* _ := p_fx ">" in ret a.
Definition p_tail (t : ptype) (a : option chars) : parser pelement :=
  fun ts =>
    if next (of_kind KIdent) ts then
      (let* n := p_name in let* s := optional at_size p_size in let* o := optional at_opts p_opts in
       let* m := optional (next (is_fx "{")) p_methods in let* _ := p_fx ";" in ret (LNormal t a n s o m)) ts
    else
      (let* o := optional at_opts p_opts in let* _ := p_fx ";" in ret (LEmbed t a o)) ts.
(** Is the field a constant?  "=" after a basic type and its optional name and size. *)
Definition at_const (ts : list token) : bool :=
  match (let* _ := p_basic in let* _ := optional (next (of_kind KIdent)) p_name in
         let* _ := optional at_size p_size in p_fx "=") ts with Some _ => true | None => false end.
Section Fields.
  Variable p_type : parser ptype.
  Definition p_element : parser pelement :=
    fun ts =>
      if next (is_fx ";") ts then (let* _ := p_fx ";" in ret LEmpty) ts
      else if next (is_fx "void") ts then
        (let* _ := p_fx "void" in let* s := p_size in let* o := optional at_opts p_opts in let* _ := p_fx ";" in
         ret (LVoid s o)) ts
      else if at_const ts then
        (let* b := p_basic in let* n := optional (next (of_kind KIdent)) p_name in
         let* s := optional at_size p_size in let* _ := p_fx "=" in let* r := p_rhs in
         let* o := optional at_opts p_opts in let* _ := p_fx ";" in ret (LConst b n s r o)) ts
      else
        (let* t := p_type in let* a := optional (next (is_fx "<")) p_arr in p_tail t a) ts.
  Definition p_struct : parser pstruct :=
    let* _ := p_fx "struct" in let* n := p_name in let* s := optional at_size p_size in let* _ := p_fx "{" in
    let* l := repeated open_body p_element in let* _ := p_fx "}" in ret (PStruct n s l).
End Fields.
Fixpoint p_type (n : nat) : parser ptype :=
  match n with
  | O => fail
  | S n => fun ts =>
      if next is_basic ts then (let* b := p_basic in ret (XBasic b)) ts
      else if next (is_fx "string") ts then (let* _ := p_fx "string" in ret XString) ts
      else if next (is_fx "bytes") ts then (let* _ := p_fx "bytes" in ret XBytes) ts
      else if next (is_fx "enum") ts then (let* _ := p_fx "enum" in let* n := p_name in ret (XEnum n)) ts
      else if next (is_fx "struct") ts then
        (* a definition if a size or a body follows the name *)
        if (match ts with _ :: _ :: k => at_size k || next (is_fx "{") k | _ => false end)
        then (let* d := p_struct (p_type n) in ret (XDef d)) ts
        else (let* _ := p_fx "struct" in let* n := p_name in ret (XStruct n)) ts
      else (let* n := p_name in ret (XIdent n)) ts
  end.

(** EnumDef *)
Definition p_value : parser pvalue :=
  let* n := p_name in
  let* r := optional (next (is_fx "=")) (let* _ := p_fx "=" in p_rhs) in
  let* o := optional at_opts p_opts in
  let* c := (fun ts => if next (is_fx ",") ts then (let* _ := p_fx "," in ret true) ts
                       else (let* _ := p_fx ";" in ret false) ts) in
  ret {| pv_name := n; pv_rhs := r; pv_opts := o; pv_comma := c |}.
Definition p_member : parser (option pvalue) :=
  fun ts => if next (is_fx ";") ts then (let* _ := p_fx ";" in ret None) ts
            else (let* v := p_value in ret (Some v)) ts.
Definition p_enum : parser penum :=
  let* _ := p_fx "enum" in let* n := p_name in let* s := p_size in let* _ := p_fx "{" in
  let* l := repeated open_body p_member in let* _ := p_fx "}" in
  ret {| pe_name := n; pe_size := s; pe_members := l |}.

(** Proto *)
Definition p_statement (n : nat) : parser statement :=
  fun ts =>
    if next (is_fx ";") ts then (let* _ := p_fx ";" in ret SEmpty) ts
    else if next (is_fx "import") ts then
      (let* _ := p_fx "import" in let* t := p_kind KStr in let* _ := p_fx ";" in ret (SImport t)) ts
    else if next (is_fx "package") ts then
      (let* _ := p_fx "package" in let* p := p_sep "." p_name in let* _ := p_fx ";" in ret (SPackage p)) ts
    else if next (is_fx "option") ts then
      (let* _ := p_fx "option" in let* o := p_pair in let* _ := p_fx ";" in ret (SOption o)) ts
    else if next (is_fx "enum") ts then (let* e := p_enum in ret (SEnum e)) ts
    else (let* d := p_struct (p_type n) in ret (SStruct d)) ts.
Definition parse (ts : list token) : option file :=
  match repeated (fun ts => match ts with [] => false | _ => true end) (p_statement (length ts)) ts with
  | Some (f, []) => Some f
  | _ => None
  end.

(** getProtoAST: compilation_runtime.go:212-227. *)
Definition parse_text (s : chars) : option file :=
  match lex s with Some ts => parse ts | None => None end.
