(** Reading a program text: the lexical rules and the operator precedence of the target languages, written
    independently of the generators. *)
From Coq Require Import ZArith Lia Bool String Ascii List.
Import ListNotations.
From Verif Require Import Base Literals ExprModel.
Open Scope string_scope.
Open Scope Z_scope.
Open Scope list_scope.

(** ** Lexical structure *)

Inductive token : Type :=
| TNum (s : chars)          (* a number, with prefix and suffix *)
| TId (s : chars)           (* an identifier or keyword *)
| TSym (s : chars).         (* an operator or punctuator *)

Definition code (c : ascii) : nat := nat_of_ascii c.
Definition is_num (c : ascii) : bool := Nat.leb 48 (code c) && Nat.leb (code c) 57.
Definition is_alpha (c : ascii) : bool :=
  (Nat.leb 65 (code c) && Nat.leb (code c) 90) || (Nat.leb 97 (code c) && Nat.leb (code c) 122) || Nat.eqb (code c) 95.
Definition is_word (c : ascii) : bool := is_num c || is_alpha c.
(** A number goes on as long as there are letters, digits and periods; a sign belongs to it after an e
    (this is C's rule for preprocessing numbers). *)
Fixpoint num_run (prev : ascii) (l : chars) : chars * chars :=
  match l with
  | c :: r =>
      if is_word c || Ascii.eqb c "." ||
         ((Ascii.eqb c "+" || Ascii.eqb c "-") && (Ascii.eqb prev "e" || Ascii.eqb prev "E"))
      then let (a, b) := num_run c r in (c :: a, b) else ([], l)
  | [] => ([], [])
  end.
Fixpoint word_run (l : chars) : chars * chars :=
  match l with
  | c :: r => if is_word c then let (a, b) := word_run r in (c :: a, b) else ([], l)
  | [] => ([], [])
  end.

(** Operators and punctuators, without those that begin comments (// and /* are listed so that they are not
    taken for two divisions). *)
Definition common_syms : list string :=
  ["("; ")"; "["; "]"; "{"; "}"; ","; ";"; ":"; "."; "+"; "-"; "*"; "/"; "%"; "&"; "|"; "^"; "~"; "<"; ">"; "=";
   "<<"; ">>"; "<="; ">="; "=="; "!="; "+="; "-="; "*="; "/="; "%="; "&="; "|="; "^="; "<<="; ">>="; "->"; "//"].
Definition c_syms : list string := ["!"; "?"; "++"; "--"; "&&"; "||"; "/*"].
Definition syms (g : olang) : list chars :=
  map cs (common_syms ++
    match g with
    | OGo => ["!"; "++"; "--"; "&&"; "||"; "/*"; "<-"; "&^"; "&^="; ":="; "..."]
    | OC => c_syms ++ ["..."]
    | OCpp => c_syms ++ ["..."; "::"; "<=>"; "->*"; ".*"]
    | OCs => c_syms ++ ["::"; "??"; "?."; "=>"; "??="; ".."]
    | OJava => c_syms ++ ["::"; ">>>"; ">>>="; "..."; "@"]
    | OCjs | OEsm => c_syms ++ ["**"; "**="; "==="; "!=="; ">>>"; ">>>="; "=>"; "??"; "?."; "..."; "&&="; "||="; "??="]
    | OKt => c_syms ++ ["!!"; "?."; "?:"; "::"; ".."; "..<"; "==="; "!=="; "@"]
    | OPy => ["**"; "**="; "//="; ":="; "@"; "@="; "..."]
    end).

Fixpoint prefixb (s l : chars) : bool :=
  match s, l with
  | [], _ => true
  | a :: s', b :: l' => Ascii.eqb a b && prefixb s' l'
  | _ :: _, [] => false
  end.
(** The longest symbol the text begins with. *)
Definition longest (tbl : list chars) (l : chars) : chars :=
  fold_left (fun acc t => if prefixb t l && Nat.ltb (List.length acc) (List.length t) then t else acc) tbl [].

(** [lexes g text tokens]: the text is split from left to right, always taking the longest token. *)
Inductive lexes (g : olang) : chars -> list token -> Prop :=
| lex_end : lexes g [] []
| lex_blank l ts : lexes g l ts -> lexes g (" "%char :: l) ts
| lex_num c l a b ts : is_num c = true -> num_run c l = (a, b) -> lexes g b ts -> lexes g (c :: l) (TNum (c :: a) :: ts)
| lex_word c l a b ts : is_alpha c = true -> word_run l = (a, b) -> lexes g b ts -> lexes g (c :: l) (TId (c :: a) :: ts)
| lex_sym c l s b ts : c <> " "%char -> is_word c = false -> longest (syms g) (c :: l) = s -> s <> [] ->
    c :: l = s ++ b -> lexes g b ts -> lexes g (c :: l) (TSym s :: ts).

(** ** Grammar: an operator-precedence parser *)

Inductive node : Type :=
| NId (s : chars)
| NNum (s : chars)
| NUn (s : chars) (a : node)
| NBin (s : chars) (a b : node)
| NCast (t : chars) (a : node)
| NMem (a : node) (s : chars) (name : chars)        (* a.name, a->name *)
| NCall (f : node) (args : list node)
| NIdx (a i : node)                                 (* a[i] *)
| NIf (t : option chars) (c a b : node).            (* conditional; Go: with the type of its result *)

Definition tok_text (t : token) : chars := match t with TNum s | TId s | TSym s => s end.
Definition find_op {A} (tbl : list (string * A)) (t : token) : option A :=
  match t with
  | TNum _ => None
  | TId s | TSym s =>
      match find (fun p => if list_eq_dec ascii_dec (cs (fst p)) s then true else false) tbl with
      | Some p => Some (snd p) | None => None end
  end.

(** Binary operators: level and, for the right operand, the least level of an operator that is not enclosed in
    parentheses; [true]: the operator does not associate. *)
Definition lv (l : Z) (ops : list string) : list (string * (Z * Z * bool)) := map (fun o => (o, (l, l + 1, false))) ops.
Definition c_levels : list (string * (Z * Z * bool)) :=
  lv 11 ["*"; "/"; "%"] ++ lv 10 ["+"; "-"] ++ lv 9 ["<<"; ">>"] ++ lv 8 ["<"; "<="; ">"; ">="] ++ lv 7 ["=="; "!="] ++
  lv 6 ["&"] ++ lv 5 ["^"] ++ lv 4 ["|"] ++ lv 3 ["&&"] ++ lv 2 ["||"].
Definition infix (g : olang) : list (string * (Z * Z * bool)) :=
  match g with
  | OC | OCpp | OCs => c_levels
  | OJava => c_levels ++ lv 9 [">>>"]
  | OCjs | OEsm => c_levels ++ lv 9 [">>>"] ++ lv 7 ["==="; "!=="] ++ [("**", (12, 12, false))]
  | OGo => lv 5 ["*"; "/"; "%"; "<<"; ">>"; "&"; "&^"] ++ lv 4 ["+"; "-"; "|"; "^"] ++
           lv 3 ["=="; "!="; "<"; "<="; ">"; ">="] ++ lv 2 ["&&"] ++ lv 1 ["||"]
  | OPy => lv 2 ["or"] ++ lv 3 ["and"] ++
           map (fun o => (o, (5, 6, true))) ["<"; "<="; ">"; ">="; "=="; "!="; "in"; "is"] ++
           lv 6 ["|"] ++ lv 7 ["^"] ++ lv 8 ["&"] ++ lv 9 ["<<"; ">>"] ++ lv 10 ["+"; "-"] ++ lv 11 ["*"; "/"; "//"; "%"] ++
           [("**", (13, 12, false))]
  | OKt => lv 1 ["||"] ++ lv 2 ["&&"] ++ lv 3 ["=="; "!="; "==="; "!=="] ++
           map (fun o => (o, (4, 5, true))) ["<"; "<="; ">"; ">="] ++
           lv 6 ["and"; "or"; "xor"; "shl"; "shr"; "ushr"] ++ lv 7 [".."] ++ lv 8 ["+"; "-"] ++ lv 9 ["*"; "/"; "%"]
  end.
(** Prefix operators: the level of the operand. *)
Definition prefix (g : olang) : list (string * Z) :=
  match g with
  | OGo => map (fun o => (o, 6)) ["+"; "-"; "!"; "^"; "*"; "&"]
  | OPy => [("+", 12); ("-", 12); ("~", 12); ("not", 4)]
  | OKt => map (fun o => (o, 12)) ["+"; "-"; "!"; "++"; "--"]
  | OC | OCpp => map (fun o => (o, 13)) ["+"; "-"; "!"; "~"; "++"; "--"; "*"; "&"]
  | _ => map (fun o => (o, 13)) ["+"; "-"; "!"; "~"; "++"; "--"]
  end.
Definition keywords (g : olang) : list string :=
  match g with
  | OGo => ["func"; "if"; "else"; "return"]
  | OPy => ["not"; "and"; "or"; "if"; "else"; "in"; "is"; "lambda"; "return"]
  | _ => ["if"; "else"; "return"]
  end.
Definition is_keyword (g : olang) (s : chars) : bool :=
  existsb (fun k => if list_eq_dec ascii_dec (cs k) s then true else false) (keywords g).
(** The type names that make "(name) operand" a cast. *)
Definition cast_types (g : olang) : list string :=
  match g with
  | OC | OCpp => ["bool"; "uint8_t"; "uint16_t"; "uint32_t"; "uint64_t"; "int8_t"; "int16_t"; "int32_t"; "int64_t"; "float"; "double"]
  | OCs => ["bool"; "byte"; "ushort"; "uint"; "ulong"; "sbyte"; "short"; "int"; "long"; "float"; "double"]
  | OJava => ["boolean"; "byte"; "short"; "int"; "long"; "float"; "double"]
  | _ => []
  end.
Definition is_cast (g : olang) (s : chars) : bool :=
  existsb (fun k => if list_eq_dec ascii_dec (cs k) s then true else false) (cast_types g).

(** Words that begin the type of a cast. *)
Definition c_like (g : olang) : bool := match g with OC | OCpp => true | _ => false end.
Definition type_start (g : olang) (s : chars) : bool :=
  is_cast g s || c_like g && existsb (fun k => if list_eq_dec ascii_dec (cs k) s then true else false) ["const"; "enum"].

Definition tok_eq (t u : token) : bool :=
  match t, u with
  | TNum a, TNum b | TId a, TId b | TSym a, TSym b => if list_eq_dec ascii_dec a b then true else false
  | _, _ => false
  end.
Definition expect (u : token) (l : list token) : option (list token) :=
  match l with t :: r => if tok_eq t u then Some r else None | [] => None end.
Definition sy (s : string) : token := TSym (cs s).
Definition kw (s : string) : token := TId (cs s).
(** The rest of the type name after the word [ty], and the parenthesis; in C and C++ also "T*", "const T*" and "enum E". *)
Definition cast_end (g : olang) (ty : chars) (l : list token) : option (chars * list token) :=
  match l with
  | TSym c :: r =>
      if is_cast g ty && tok_eq (TSym c) (sy ")") then Some (ty, r)
      else if c_like g && is_cast g ty && tok_eq (TSym c) (sy "*") then
        match expect (sy ")") r with Some r' => Some (ty ++ cs "*", r') | None => None end
      else None
  | TId t2 :: TSym c :: r =>
      if c_like g && tok_eq (TId ty) (kw "enum") && tok_eq (TSym c) (sy ")") then Some (cs "enum " ++ t2, r)
      else if c_like g && tok_eq (TId ty) (kw "const") && is_cast g t2 && tok_eq (TSym c) (sy "*") then
        match expect (sy ")") r with Some r' => Some (cs "const " ++ t2 ++ cs "*", r') | None => None end
      else None
  | _ => None
  end.
Definition js_like (g : olang) : bool := match g with OCjs | OEsm => true | _ => false end.

(** [pexpr n min l]: an expression whose unparenthesised binary operators have level [min] or more, from the
    front of [l]; [n] bounds the recursion depth. *)
Fixpoint pexpr (g : olang) (n : nat) (min : Z) (l : list token) {struct n} : option (node * list token) :=
  match n with
  | O => None
  | S n =>
      match pprefix g n min l with
      | Some (a, r) => ploop g n min a r
      | None => None
      end
  end
(** Prefix operators, casts and operands. *)
with pprefix (g : olang) (n : nat) (min : Z) (l : list token) {struct n} : option (node * list token) :=
  match n with
  | O => None
  | S n =>
      match l with
      | [] => None
      | t :: r =>
          match find_op (prefix g) t with
          | Some q =>
              if q <? min then (if (11 <? q) then punary g n t q r else None)   (* "a + not b" is not Python *)
              else punary g n t q r
          | None =>
              match t with
              | TNum s => ppost g n (NNum s) r
              | TId s =>
                  if is_keyword g s then pkeyword g n s r else ppost g n (NId s) r
              | TSym s =>
                  if tok_eq t (sy "(") then
                    match r with
                    | TId ty :: r0 =>
                        match cast_end g ty r0 with
                        | Some (t, r') => match pexpr g n 13 r' with Some (a, r2) => Some (NCast t a, r2) | None => None end
                        | None => pparen g n r
                        end
                    | _ => pparen g n r
                    end
                  else None
              end
          end
      end
  end
with punary (g : olang) (n : nat) (t : token) (q : Z) (l : list token) {struct n} : option (node * list token) :=
  match n with
  | O => None
  | S n =>
      match pexpr g n q l with
      | Some (a, r) =>
          match r with
          | u :: _ => if js_like g && tok_eq u (sy "**") then None      (* "-a ** b" is not JavaScript *)
                      else Some (NUn (tok_text t) a, r)
          | [] => Some (NUn (tok_text t) a, r)
          end
      | None => None
      end
  end
with pparen (g : olang) (n : nat) (l : list token) {struct n} : option (node * list token) :=
  match n with
  | O => None
  | S n =>
      match pexpr g n 0 l with
      | Some (a, r) => match expect (sy ")") r with Some r' => ppost g n a r' | None => None end
      | None => None
      end
  end
(** Kotlin's "if (c) a else b" and Go's "func() T { if c { return a } else { return b } }()". *)
with pkeyword (g : olang) (n : nat) (s : chars) (l : list token) {struct n} : option (node * list token) :=
  match n with
  | O => None
  | S n =>
      match g with
      | OKt =>
          if tok_eq (TId s) (kw "if") then
            match expect (sy "(") l with
            | Some l1 =>
                match pexpr g n 0 l1 with
                | Some (c, l2) =>
                    match expect (sy ")") l2 with
                    | Some l3 =>
                        match pexpr g n 0 l3 with
                        | Some (a, l4) =>
                            match expect (kw "else") l4 with
                            | Some l5 => match pexpr g n 0 l5 with Some (b, l6) => Some (NIf None c a b, l6) | None => None end
                            | None => None
                            end
                        | None => None
                        end
                    | None => None
                    end
                | None => None
                end
            | None => None
            end
          else None
      | OGo =>
          if tok_eq (TId s) (kw "func") then
            match l with
            | t1 :: t2 :: TId ty :: t3 :: t4 :: l1 =>
                if tok_eq t1 (sy "(") && tok_eq t2 (sy ")") && tok_eq t3 (sy "{") && tok_eq t4 (kw "if") then
                  match pexpr g n 0 l1 with
                  | Some (c, t5 :: t6 :: l2) =>
                      if tok_eq t5 (sy "{") && tok_eq t6 (kw "return") then
                        match pexpr g n 0 l2 with
                        | Some (a, t7 :: t8 :: t9 :: t10 :: l3) =>
                            if tok_eq t7 (sy "}") && tok_eq t8 (kw "else") && tok_eq t9 (sy "{") && tok_eq t10 (kw "return") then
                              match pexpr g n 0 l3 with
                              | Some (b, t11 :: t12 :: t13 :: t14 :: l4) =>
                                  if tok_eq t11 (sy "}") && tok_eq t12 (sy "}") && tok_eq t13 (sy "(") && tok_eq t14 (sy ")")
                                  then ppost g n (NIf (Some ty) c a b) l4 else None
                              | _ => None
                              end
                            else None
                        | _ => None
                        end
                      else None
                  | _ => None
                  end
                else None
            | _ => None
            end
          else None
      | _ => None
      end
  end
(** Member access, calls and indexing. *)
with ppost (g : olang) (n : nat) (a : node) (l : list token) {struct n} : option (node * list token) :=
  match n with
  | O => None
  | S n =>
      match l with
      | t :: r =>
          if tok_eq t (sy ".") || (tok_eq t (sy "->") && match g with OC | OCpp => true | _ => false end) then
            match r with TId x :: r' => ppost g n (NMem a (tok_text t) x) r' | _ => None end
          else if tok_eq t (sy "(") then
            match r with
            | u :: r' =>
                if tok_eq u (sy ")") then ppost g n (NCall a []) r'
                else match pargs g n r with Some (args, r2) => ppost g n (NCall a args) r2 | None => None end
            | [] => None
            end
          else if tok_eq t (sy "[") then
            match pexpr g n 0 r with
            | Some (i, r1) => match expect (sy "]") r1 with Some r2 => ppost g n (NIdx a i) r2 | None => None end
            | None => None
            end
          else Some (a, l)
      | [] => Some (a, l)
      end
  end
with pargs (g : olang) (n : nat) (l : list token) {struct n} : option (list node * list token) :=
  match n with
  | O => None
  | S n =>
      match pexpr g n 0 l with
      | Some (a, t :: r) =>
          if tok_eq t (sy ")") then Some ([a], r)
          else if tok_eq t (sy ",") then
            match pargs g n r with Some (args, r') => Some (a :: args, r') | None => None end
          else None
      | _ => None
      end
  end
(** Binary operators and the conditional operator. *)
with ploop (g : olang) (n : nat) (min : Z) (a : node) (l : list token) {struct n} : option (node * list token) :=
  match n with
  | O => None
  | S n =>
      match l with
      | [] => Some (a, l)
      | t :: r =>
          match find_op (infix g) t with
          | Some (lvl, rgt, nonassoc) =>
              if lvl <? min then Some (a, l)
              else
                match pexpr g n rgt r with
                | Some (b, r') =>
                    let next := match r' with u :: _ => find_op (infix g) u | [] => None end in
                    match next with
                    | Some (lvl', _, _) => if nonassoc && (lvl' =? lvl) then None else ploop g n min (NBin (tok_text t) a b) r'
                    | None => ploop g n min (NBin (tok_text t) a b) r'
                    end
                | None => None
                end
          | None =>
              match g with
              | OC | OCpp | OCs | OJava | OCjs | OEsm =>
                  if tok_eq t (sy "?") then
                    if 0 <? min then Some (a, l)
                    else
                      match pexpr g n 0 r with
                      | Some (y, r1) =>
                          match expect (sy ":") r1 with
                          | Some r2 => match pexpr g n 0 r2 with Some (z, r3) => Some (NIf None a y z, r3) | None => None end
                          | None => None
                          end
                      | None => None
                      end
                  else Some (a, l)
              | OPy =>
                  if tok_eq t (kw "if") then
                    if 0 <? min then Some (a, l)
                    else
                      match pexpr g n 1 r with
                      | Some (c, r1) =>
                          match expect (kw "else") r1 with
                          | Some r2 => match pexpr g n 0 r2 with Some (z, r3) => Some (NIf None c a z, r3) | None => None end
                          | None => None
                          end
                      | None => None
                      end
                  else Some (a, l)
              | _ => Some (a, l)
              end
          end
      end
  end.

(** [reads_as g text t]: a compiler of language [g] reads the text as the tree [t]. *)
Definition reads_as (g : olang) (text : chars) (t : node) : Prop :=
  exists ts, lexes g text ts /\ exists n0, forall n, (n0 <= n)%nat -> pexpr g n 0 ts = Some (t, []).

(** ** What the text of an expression should mean *)

(** A signed numeral. *)
Definition num_node (l : chars) : node :=
  match l with
  | c :: r => if Ascii.eqb c "-" then NUn (cs "-") (NNum r) else NNum l
  | [] => NNum l
  end.
Definition call_method (a : node) (m : string) (args : list node) : node := NCall (NMem a (cs ".") (cs m)) args.

Definition value_node (g : olang) (field : option chars) : node :=
  match field with
  | None => NId (cs "value")
  | Some f =>
      match g with
      | OPy => NMem (NId (cs "self")) (cs ".") ("_"%char :: f)
      | OC => NMem (NId (cs "ptr")) (cs "->") f
      | OCpp => NMem (NId (cs "this")) (cs "->") f
      | _ => NMem (NId (cs "this")) (cs ".") f
      end
  end.

(** Names of the operators in the target languages. *)
Definition un_sym (g : olang) (o : unop) : string :=
  match o, g with
  | UAdd, _ => "+" | USub, _ => "-"
  | UBnot, OGo => "^" | UBnot, _ => "~"
  | UNot, OPy => "not" | UNot, _ => "!"
  end.
Definition bin_sym (g : olang) (o : binop) : string :=
  match o with
  | OAdd => "+" | OSub => "-" | OMul => "*" | ODiv => "/" | OMod => "%" | OPow => "**"
  | OLt => "<" | OLe => "<=" | OGt => ">" | OGe => ">=" | OEq => "==" | ONe => "!="
  | OShl => match g with OKt => "shl" | _ => "<<" end
  | OShr => match g with OKt => "shr" | _ => ">>" end
  | OBand => match g with OKt => "and" | _ => "&" end
  | OBxor => match g with OKt => "xor" | _ => "^" end
  | OBor => match g with OKt => "or" | _ => "|" end
  | OAnd => match g with OPy => "and" | _ => "&&" end
  | OOr => match g with OPy => "or" | _ => "||" end
  end.

(** Names of the basic types in Go, C, C++, C#, Java, Kotlin, Python and the two JavaScript targets; Java has
    only signed types. *)
Definition names_of (t : bty) : list string :=
  match t with
  | TyBool => ["bool"; "bool"; "bool"; "bool"; "boolean"; "Boolean"; "bool"; "Boolean"; "Boolean"]
  | TyU8 => ["uint8"; "uint8_t"; "uint8_t"; "byte"; "byte"; "UByte"; "int"; "Number"; "Number"]
  | TyI8 => ["int8"; "int8_t"; "int8_t"; "sbyte"; "byte"; "Byte"; "int"; "Number"; "Number"]
  | TyU16 => ["uint16"; "uint16_t"; "uint16_t"; "ushort"; "short"; "UShort"; "int"; "Number"; "Number"]
  | TyI16 => ["int16"; "int16_t"; "int16_t"; "short"; "short"; "Short"; "int"; "Number"; "Number"]
  | TyU32 => ["uint32"; "uint32_t"; "uint32_t"; "uint"; "int"; "UInt"; "int"; "Number"; "Number"]
  | TyI32 => ["int32"; "int32_t"; "int32_t"; "int"; "int"; "Int"; "int"; "Number"; "Number"]
  | TyU64 => ["uint64"; "uint64_t"; "uint64_t"; "ulong"; "long"; "ULong"; "int"; "BigInt"; "BigInt"]
  | TyI64 => ["int64"; "int64_t"; "int64_t"; "long"; "long"; "Long"; "int"; "BigInt"; "BigInt"]
  | TyF32 => ["float32"; "float"; "float"; "float"; "float"; "Float"; "float"; "Number"; "Number"]
  | TyF64 => ["float64"; "double"; "double"; "double"; "double"; "Double"; "float"; "Number"; "Number"]
  end.
Definition lang_no (g : olang) : nat :=
  match g with OGo => 0 | OC => 1 | OCpp => 2 | OCs => 3 | OJava => 4 | OKt => 5 | OPy => 6 | OCjs => 7 | OEsm => 8 end%nat.
Definition name_of (g : olang) (t : bty) : chars := cs (nth (lang_no g) (names_of t) "").

(** The power function, called by name. *)
Definition power (g : olang) (a b : node) : node :=
  match g with
  | OGo => NCall (NMem (NId (cs "math")) (cs ".") (cs "Pow")) [a; b]
  | OC | OCpp => NCall (NId (cs "pow")) [a; b]
  | OCs => NCall (NMem (NId (cs "Math")) (cs ".") (cs "Pow")) [a; b]
  | OJava => NCall (NMem (NId (cs "Math")) (cs ".") (cs "pow")) [a; b]
  | OKt => call_method (call_method a "toDouble" []) "pow" [call_method b "toDouble" []]
  | _ => NBin (cs "**") a b
  end.
(** Conversion to a basic type. *)
Definition convert (g : olang) (t : bty) (a : node) : node :=
  match g with
  | OC | OCpp | OCs | OJava => NCast (name_of g t) a
  | OKt =>
      match t with
      | TyBool => NBin (cs "!=") a (NNum (cs "0"))
      | TyU8 => call_method (call_method a "toUInt" []) "toUByte" []
      | TyU16 => call_method (call_method a "toUInt" []) "toUShort" []
      | TyU32 => call_method a "toUInt" []
      | TyU64 => call_method a "toULong" []
      | TyI8 => call_method (call_method a "toInt" []) "toByte" []
      | TyI16 => call_method (call_method a "toInt" []) "toShort" []
      | TyI32 => call_method a "toInt" []
      | TyI64 => call_method a "toLong" []
      | TyF32 => call_method a "toFloat" []
      | TyF64 => call_method a "toDouble" []
      end
  | _ => NCall (NId (name_of g t)) [a]
  end.

(** The type of an expression, where the schema settles it: a conditional has the common type of its branches. *)
Inductive typed (vt : bty) : expr -> bty -> Prop :=
| typed_value : typed vt EValue vt
| typed_bool b : typed vt (EBool b) TyBool
| typed_cast t e : typed vt (ECast t e) t
| typed_if c a b t : typed vt a t -> typed vt b t -> typed vt (ETern c a b) t.
(** Every conditional in the expression has one. *)
Fixpoint ifs_typed (vt : bty) (e : expr) : Prop :=
  match e with
  | EUn _ a | ECast _ a => ifs_typed vt a
  | EBin _ a b => ifs_typed vt a /\ ifs_typed vt b
  | ETern c a b => ifs_typed vt c /\ ifs_typed vt a /\ ifs_typed vt b /\ exists t, typed vt (ETern c a b) t
  | _ => True
  end.

(** [says g vt field e t]: the tree [t] of language [g] says what the schema's expression [e] says, where the
    value is the field (or parameter) [field] of type [vt]. *)
Inductive says (g : olang) (vt : bty) (field : option chars) : expr -> node -> Prop :=
| says_value : says g vt field EValue (value_node g field)
| says_int l s : reads g s = Some (i_val l) -> says g vt field (EInt l) (num_node s)
| says_float (neg : bool) ds : says g vt field (EFloat neg ds) (if neg then NUn (cs "-") (NNum ds) else NNum ds)
| says_bool b : says g vt field (EBool b) (NId (cs match g with OPy => if b then "True" else "False" | _ => if b then "true" else "false" end))
| says_un o e a : (g = OKt -> o <> UBnot) -> says g vt field e a -> says g vt field (EUn o e) (NUn (cs (un_sym g o)) a)
| says_inv e a : g = OKt -> says g vt field e a -> says g vt field (EUn UBnot e) (call_method a "inv" [])
| says_bin o e1 e2 a b : o <> OPow -> (g = OKt -> o <> OShl /\ o <> OShr) -> says g vt field e1 a -> says g vt field e2 b ->
    says g vt field (EBin o e1 e2) (NBin (cs (bin_sym g o)) a b)
| says_shift o e1 e2 a b : g = OKt -> o = OShl \/ o = OShr -> says g vt field e1 a -> says g vt field e2 b ->
    says g vt field (EBin o e1 e2) (NBin (cs (bin_sym g o)) a (call_method b "toInt" []))
| says_pow e1 e2 a b : says g vt field e1 a -> says g vt field e2 b -> says g vt field (EBin OPow e1 e2) (power g a b)
| says_cast t e a : says g vt field e a -> says g vt field (ECast t e) (convert g t a)
| says_if e1 e2 e3 c a b : g <> OGo -> says g vt field e1 c -> says g vt field e2 a -> says g vt field e3 b ->
    says g vt field (ETern e1 e2 e3) (NIf None c a b)
| says_goif e1 e2 e3 c a b t : g = OGo -> typed vt (ETern e1 e2 e3) t ->
    says g vt field e1 c -> says g vt field e2 a -> says g vt field e3 b ->
    says g vt field (ETern e1 e2 e3) (NIf (Some (name_of g t)) c a b).

(** ** The expressions the generators handle *)

(** A negative constant. *)
Definition negative (e : expr) : bool :=
  match e with EInt l => i_val l <? 0 | EFloat neg _ => neg | _ => false end.
(** An operand the generators enclose in parentheses. *)
Definition enclosed (e : expr) : bool :=
  match e with EUn _ _ | EBin _ _ _ | ETern _ _ _ => true | _ => false end.

(** Names of fields: identifiers. *)
Definition name_ok (f : chars) : Prop :=
  match f with c :: r => is_alpha c = true /\ forallb is_word r = true | [] => False end.
(** The text of a floating-point magnitude: it begins with a digit and the number rule takes all of it. *)
Definition digits_ok (ds : chars) : Prop :=
  match ds with c :: r => is_num c = true /\ num_run c r = (r, []) | [] => False end.

Fixpoint good (g : olang) (dn : bool) (e : expr) : Prop :=
  match e with
  | EValue | EBool _ => True
  | EInt l => i_uns l = false /\ - 2 ^ 63 < i_val l < 2 ^ 63 /\ (i_val l < 0 -> dn = true \/ i_base l = BDec \/ i_base l = BAuto)
  | EFloat _ ds => digits_ok ds
  | EUn o a =>
      good g dn a /\
      (o = USub -> negative a = true -> g = OPy) /\          (* "--5" *)
      (o = UNot -> g = OPy -> enclosed a = true)              (* "notself._x" *)
  | EBin o a b =>
      good g dn a /\ good g dn b /\
      (o = OPow -> (g = OPy \/ js_like g = true) -> negative a = false)   (* "-5 ** 2" *)
  | ECast _ a => good g dn a
  | ETern c a b => good g dn c /\ good g dn a /\ good g dn b
  end.
