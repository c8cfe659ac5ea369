(** What the lexer should do, said without automata.  Independent of the matching functions of LexModel. *)
From Coq Require Import String Ascii List Bool.
From Verif Require Import Literals LexModel.
Import ListNotations.
Open Scope string_scope.
Open Scope nat_scope.
Open Scope list_scope.

Definition prefix (w s : chars) : Prop := exists rest, s = w ++ rest.

(** The piece a single rule would take from the front of a text: the longest one, or for a rule with a
    non-greedy loop the shortest one. *)
Definition takes (r : rule) (s w : chars) : Prop :=
  prefix w s /\ lang (r_re r) w /\
  forall w', prefix w' s -> lang (r_re r) w' ->
    if r_greedy r then length w' <= length w else length w <= length w'.

(** The next token: no rule takes more, and no earlier rule takes as much. *)
Definition next_token (s : chars) (k : kind) (w : chars) : Prop :=
  exists i r, nth_error rules i = Some r /\ r_kind r = k /\ takes r s w /\ w <> [] /\
    forall j r' w', nth_error rules j = Some r' -> takes r' s w' ->
      length w' < length w \/ (length w' = length w /\ i <= j).

(** A text cut into tokens. *)
Inductive cut : chars -> list token -> Prop :=
| cut_nil : cut [] []
| cut_cons k w rest ts : next_token (w ++ rest) k w -> cut rest ts -> cut (w ++ rest) ((k, w) :: ts).

(** ** Layout *)

(** What may stand between tokens: blanks, comments to the end of the line, and bracketed comments (which end
    at the first star followed by a slash). *)
Definition no_break (c : ascii) : Prop := c <> "010"%char /\ c <> "013"%char.
Inductive gap : chars -> Prop :=
| gap_nil : gap []
| gap_blank c g : In c [" "%char; "009"%char; "010"%char; "012"%char; "013"%char] -> gap g -> gap (c :: g)
| gap_line body e g : Forall no_break body -> (e = "010"%char \/ e = "013"%char) -> gap g ->
    gap (cs "//" ++ body ++ e :: g)
| gap_comment body g : (forall u v, body ++ cs "*/" = u ++ cs "*/" ++ v -> v = []) -> gap g ->
    gap (cs "/*" ++ body ++ cs "*/" ++ g).

(** At the end of a file a line comment needs no line end. *)
Definition last_gap (g : chars) : Prop :=
  gap g \/ exists g' body, g = g' ++ cs "//" ++ body /\ gap g' /\ Forall no_break body.

Definition word_char (c : ascii) : bool := letter c || decimal_digit c.
Definition last_char (t : chars) : ascii := List.last t " "%char.

(** May the character [c] stand right after the token [t]?  A word or number must not run on, an operator must
    not grow into a longer one or into a comment. *)
Definition may_touch (t : chars) (c : ascii) : bool :=
  match t with
  | [] => false
  | x :: r =>
      if Ascii.eqb x "'" || Ascii.eqb x """" then true
      else if letter x then negb (word_char c)
      else if decimal_digit x || (Ascii.eqb x "." && negb (match r with [] => true | _ => false end)) then
        negb (word_char c) && negb (Ascii.eqb c ".") &&
        negb (one_of (cs "+-") c && one_of (cs "eE") (last_char t))
      else
        negb (existsb (fun p : string * string =>
                let (a, b) := p in
                if list_eq_dec ascii_dec t (cs a) then one_of (cs b) c else false)
                [("<", "<="); (">", ">="); ("=", "="); ("!", "="); ("*", "*"); ("&", "&"); ("|", "|");
                 ("/", "/*"); (".", "0123456789")])
  end.

(** A text that is one visible token of kind [k] by itself. *)
Definition is_token (k : kind) (t : chars) : Prop := next_token t k t /\ hidden k = false.

(** The ways to write a list of tokens: something between the tokens where they must not touch. *)
Inductive written : list token -> chars -> Prop :=
| wr_end g : last_gap g -> written [] g
| wr_tok g k t ts s : gap g -> is_token k t -> written ts s ->
    (forall c s', s = c :: s' -> may_touch t c = true) -> written ((k, t) :: ts) (g ++ t ++ s).
