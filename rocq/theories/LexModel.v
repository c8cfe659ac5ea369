(** The lexer of the schema language: /repo/bubbler.g4:186-337 (from which /repo/parser/bubbler_lexer.go is
    generated), run by compiler/compilation_runtime.go:212-227 over the text of a file.

    ANTLR's lexer tries all rules at the current position: the rule with the longest match wins, the first
    one in the grammar if several match as long; a rule with a non-greedy loop ("*?") stops at the first place
    where it can.  If no rule matches, the error listener is told and the file is rejected.
    Simplifications: a text is a list of bytes (the rules that accept characters beyond ASCII accept any number
    of them, so bytes and code points cut the text in the same places; texts that are not UTF-8 are left out). *)
From Coq Require Import String Ascii ZArith List Bool Lia.
From Verif Require Import Literals.
Import ListNotations.
Open Scope string_scope.
Open Scope nat_scope.
Open Scope list_scope.

(** ** Regular expressions *)
Inductive re : Type :=
| RNone
| REps
| RSet (p : ascii -> bool)
| RSeq (a b : re)
| RAlt (a b : re)
| RStar (a : re).

(** The words of an expression. *)
Inductive lang : re -> chars -> Prop :=
| l_eps : lang REps []
| l_set p c : p c = true -> lang (RSet p) [c]
| l_seq a b u v : lang a u -> lang b v -> lang (RSeq a b) (u ++ v)
| l_left a b u : lang a u -> lang (RAlt a b) u
| l_right a b u : lang b u -> lang (RAlt a b) u
| l_nil a : lang (RStar a) []
| l_more a u v : lang a u -> lang (RStar a) v -> lang (RStar a) (u ++ v).

Definition is_char (x c : ascii) : bool := Ascii.eqb x c.
Definition between (a b c : ascii) : bool :=
  N.leb (N_of_ascii a) (N_of_ascii c) && N.leb (N_of_ascii c) (N_of_ascii b).
Definition RChar (x : ascii) : re := RSet (is_char x).
Fixpoint RText (t : chars) : re :=
  match t with [] => REps | [c] => RChar c | c :: r => RSeq (RChar c) (RText r) end.
Definition ROpt (a : re) : re := RAlt REps a.
Definition RPlus (a : re) : re := RSeq a (RStar a).

(** ** The rules: bubbler.g4:190-337 *)

Definition letter (c : ascii) : bool := between "A" "Z" c || between "a" "z" c || is_char "_" c.
Definition decimal_digit (c : ascii) : bool := between "0" "9" c.
Definition octal_digit (c : ascii) : bool := between "0" "7" c.
Definition hex_digit (c : ascii) : bool := between "0" "9" c || between "A" "F" c || between "a" "f" c.
Definition one_of (l : chars) (c : ascii) : bool := existsb (Ascii.eqb c) l.
Definition newline : ascii := "010".
Definition return_ : ascii := "013".
Definition squote : ascii := "'".
Definition dquote : ascii := """".
Definition backslash : ascii := "\".

(** 262-281 *)
Definition hex_escape : re :=
  RSeq (RChar backslash) (RSeq (RSet (one_of (cs "xX"))) (RSeq (RSet hex_digit) (RSet hex_digit))).
Definition oct_escape : re :=
  RSeq (RChar backslash) (RSeq (RSet octal_digit) (RSeq (RSet octal_digit) (RSet octal_digit))).
Definition char_escape : re := RSeq (RChar backslash) (RSet (one_of (cs "abfnrtv\'""" ))).
Definition plain_char (c : ascii) : bool := negb (one_of ["000"%char; newline; backslash] c).
Definition char_value : re := RAlt hex_escape (RAlt oct_escape (RAlt char_escape (RSet plain_char))).
(** 261 *)
Definition str_lit : re :=
  RAlt (RSeq (RChar squote) (RSeq (RStar char_value) (RChar squote)))
       (RSeq (RChar dquote) (RSeq (RStar char_value) (RChar dquote))).
(** 283 *)
Definition bool_lit : re := RAlt (RText (cs "true")) (RText (cs "false")).
(** 285-293 *)
Definition decimals : re := RPlus (RSet decimal_digit).
Definition exponent : re := RSeq (RSet (one_of (cs "eE"))) (RSeq (ROpt (RSet (one_of (cs "+-")))) decimals).
Definition float_lit : re :=
  RAlt (RAlt (RSeq decimals (RSeq (RChar ".") (RSeq (ROpt decimals) (ROpt exponent))))
             (RAlt (RSeq decimals exponent)
                   (RSeq (RChar ".") (RSeq decimals (ROpt exponent)))))
       (RAlt (RText (cs "inf")) (RText (cs "nan"))).
(** 295-298 *)
Definition int_lit : re :=
  RAlt (RSeq (RSet (between "1" "9")) (RStar (RSet decimal_digit)))
       (RAlt (RSeq (RChar "0") (RStar (RSet octal_digit)))
             (RSeq (RChar "0") (RSeq (RSet (one_of (cs "xX"))) (RPlus (RSet hex_digit))))).
(** 300 *)
Definition identifier : re := RSeq (RSet letter) (RStar (RSet (fun c => letter c || decimal_digit c))).
(** 308-310 *)
Definition blank (c : ascii) : bool := one_of [" "%char; "009"%char; return_; newline; "012"%char] c.
Definition ws : re := RPlus (RSet blank).
Definition line_comment : re :=
  RSeq (RText (cs "//")) (RStar (RSet (fun c => negb (one_of [return_; newline] c)))).
Definition comment : re := RSeq (RText (cs "/*")) (RSeq (RStar (RSet (fun _ => true))) (RText (cs "*/"))).

(** 190-218 and 226-259, in this order. *)
Definition keywords : list chars :=
  map cs ["syntax"; "import"; "get"; "set"; "value"; "package"; "option"; "void"; "int8"; "int16"; "int32";
          "int64"; "uint8"; "uint16"; "uint32"; "uint64"; "float32"; "float64"; "bool"; "string"; "bytes";
          "enum"; "struct"].
Definition symbols : list chars :=
  map cs ["#"; ";"; "="; "?"; "("; ")"; "["; "]"; "{"; "}"; "<"; "<="; ">"; ">="; "=="; "!="; "."; ","; ":";
          "+"; "-"; "*"; "/"; "%"; "**"; "<<"; ">>"; "&"; "|"; "^"; "~"; "&&"; "||"; "!"].
(** 312-337: never wins, its words belong to earlier rules. *)
Definition keywords_rule : re :=
  fold_right (fun t r => RAlt (RText t) r) bool_lit keywords.

(** What a token is: its rule (keywords and symbols are told apart by their text). *)
Inductive kind : Type := KFixed | KStr | KBool | KFloat | KInt | KIdent | KWs | KLine | KComment | KKeywords.
Definition token : Type := (kind * chars)%type.
Record rule : Type := { r_kind : kind; r_greedy : bool; r_re : re }.
Definition greedy (k : kind) (r : re) : rule := {| r_kind := k; r_greedy := true; r_re := r |}.
Definition shortest_first (k : kind) (r : re) : rule := {| r_kind := k; r_greedy := false; r_re := r |}.
Definition rules : list rule :=
  map (fun t => greedy KFixed (RText t)) (keywords ++ symbols) ++
  [shortest_first KStr str_lit; greedy KBool bool_lit; greedy KFloat float_lit; greedy KInt int_lit;
   greedy KIdent identifier; greedy KWs ws; greedy KLine line_comment; shortest_first KComment comment;
   greedy KKeywords keywords_rule].

(** ** Matching: what ANTLR's automaton simulation computes *)
Fixpoint nullable (r : re) : bool :=
  match r with
  | RNone | RSet _ => false
  | REps | RStar _ => true
  | RSeq a b => nullable a && nullable b
  | RAlt a b => nullable a || nullable b
  end.
Definition seq' (a b : re) : re :=
  match a with
  | RNone => RNone
  | REps => b
  | _ => match b with RNone => RNone | _ => RSeq a b end
  end.
Definition alt' (a b : re) : re :=
  match a with RNone => b | _ => match b with RNone => a | _ => RAlt a b end end.
(** What remains to be matched after a character. *)
Fixpoint deriv (c : ascii) (r : re) : re :=
  match r with
  | RNone | REps => RNone
  | RSet p => if p c then REps else RNone
  | RSeq a b => if nullable a then alt' (seq' (deriv c a) b) (deriv c b) else seq' (deriv c a) b
  | RAlt a b => alt' (deriv c a) (deriv c b)
  | RStar a => seq' (deriv c a) (RStar a)
  end.
Definition is_none (r : re) : bool := match r with RNone => true | _ => false end.

Fixpoint longest (r : re) (s : chars) : option nat :=
  if is_none r then None else
  match s with
  | [] => if nullable r then Some 0 else None
  | c :: s' =>
      match longest (deriv c r) s' with
      | Some n => Some (S n)
      | None => if nullable r then Some 0 else None
      end
  end.
Fixpoint shortest (r : re) (s : chars) : option nat :=
  if nullable r then Some 0
  else if is_none r then None else
  match s with
  | [] => None
  | c :: s' => match shortest (deriv c r) s' with Some n => Some (S n) | None => None end
  end.
Definition scan (r : rule) (s : chars) : option nat :=
  if r_greedy r then longest (r_re r) s else shortest (r_re r) s.

(** The longest match, the earliest rule among equals. *)
Fixpoint best (l : list rule) (s : chars) : option (kind * nat) :=
  match l with
  | [] => None
  | r :: rest =>
      match scan r s, best rest s with
      | Some n, Some (k, m) => if Nat.leb m n then Some (r_kind r, n) else Some (k, m)
      | Some n, None => Some (r_kind r, n)
      | None, b => b
      end
  end.

(** All tokens of a text, hidden ones too; [None] is a token recognition error. *)
Fixpoint lex_all (fuel : nat) (s : chars) : option (list token) :=
  match fuel with
  | O => None
  | S fuel =>
      match s with
      | [] => Some []
      | _ =>
          match best rules s with
          | Some (k, S n) =>
              match lex_all fuel (skipn (S n) s) with
              | Some ts => Some ((k, firstn (S n) s) :: ts)
              | None => None
              end
          | _ => None
          end
      end
  end.
Definition tokens (s : chars) : option (list token) := lex_all (S (length s)) s.
(** 308-310: "-> skip" and "-> channel(HIDDEN)". *)
Definition hidden (k : kind) : bool := match k with KWs | KLine | KComment => true | _ => false end.
Definition visible (ts : list token) : list token := filter (fun t => negb (hidden (fst t))) ts.
Definition lex (s : chars) : option (list token) := option_map visible (tokens s).
