(** What a Go compiler makes of simple statements: reading a line, integer arithmetic, conversions, variables,
    the fields of a struct and a byte slice.  Written from the Go specification, independently of the generator;
    names in comments are sections of that specification. *)
From Coq Require Import ZArith Lia Bool String Ascii List.
Import ListNotations.
From Verif Require Import Base Literals ExprSpec.
Open Scope string_scope.
Open Scope Z_scope.
Open Scope list_scope.

(** ** Types and values *)

(** Numeric types, bool, and named types whose underlying type is an unsigned integer type. *)
Inductive gty : Type := GU (w : Z) | GI (w : Z) | GF (w : Z) | GB | GN (name : chars) (w : Z).
Definition gty_eq (a b : gty) : {a = b} + {a <> b}.
Proof. repeat decide equality. Defined.
Definition is_int (t : gty) : bool := match t with GU _ | GI _ | GN _ _ => true | _ => false end.
Definition width (t : gty) : Z := match t with GU w | GI w | GF w | GN _ w => w | GB => 8 end.
(** Representability. *)
Definition fits_ty (t : gty) (z : Z) : bool :=
  match t with
  | GU w | GN _ w => (0 <=? z) && (z <? 2 ^ w)
  | GI w => (- 2 ^ (w - 1) <=? z) && (z <? 2 ^ (w - 1))
  | _ => false
  end.
(** Integer overflow: unsigned modulo 2^w, signed two's complement. *)
Definition wrap (t : gty) (z : Z) : Z :=
  match t with GU w | GN _ w => z mod 2 ^ w | GI w => sext w z | _ => z end.

(** Constants (untyped or typed) and other values. *)
Inductive gval : Type := GC (t : option gty) (z : Z) | GV (t : gty) (z : Z).
Definition zof (v : gval) : Z := match v with GC _ z | GV _ z => z end.

(** The common type of two operands: [None] if they do not go together; constants are converted. *)
Definition join (a b : gval) : option (option gty) :=
  let typed t u := if gty_eq t u then Some (Some t) else None in
  let conv t z := if is_int t && fits_ty t z then Some (Some t) else None in
  match a, b with
  | GC None _, GC None _ => Some None
  | GC None x, (GC (Some t) _ | GV t _) => conv t x
  | (GC (Some t) _ | GV t _), GC None y => conv t y
  | (GC (Some t) _ | GV t _), (GC (Some u) _ | GV u _) => typed t u
  end.
(** A result: constant expressions are exact and must be representable, others wrap. *)
Definition constant (v : gval) : bool := match v with GC _ _ => true | _ => false end.
Definition result (const : bool) (t : option gty) (z : Z) : option gval :=
  match t with
  | None => Some (GC None z)
  | Some t =>
      if is_int t then
        if const then if fits_ty t z then Some (GC (Some t) z) else None
        else Some (GV t (wrap t z))
      else None
  end.
Definition arith (f : Z -> Z -> Z) (a b : gval) : option gval :=
  match join a b with Some t => result (constant a && constant b) t (f (zof a) (zof b)) | None => None end.
(** Shifts; the count is a constant here. *)
Definition shift (f : Z -> Z -> Z) (a b : gval) : option gval :=
  match b with
  | GC _ n => if n <? 0 then None else
      match a with GC t z => result true t (f z n) | GV t z => result false (Some t) (f z n) end
  | GV _ _ => None
  end.
(** ^x *)
Definition compl (a : gval) : option gval :=
  match a with
  | GC None z => Some (GC None (Z.lnot z))
  | GC (Some t) z => if is_int t then Some (GC (Some t) (wrap t (Z.lnot z))) else None
  | GV t z => if is_int t then Some (GV t (wrap t (Z.lnot z))) else None
  end.
(** T(x) for an integer type T. *)
Definition conversion (t : gty) (a : gval) : option gval :=
  if is_int t then
    match a with
    | GC None z => if fits_ty t z then Some (GC (Some t) z) else None
    | GC (Some u) z => if is_int u && fits_ty t z then Some (GC (Some t) z) else None
    | GV u z => if is_int u then Some (GV t (wrap t z)) else None
    end
  else None.

(** ** State *)

(** A field holds one value or an array. *)
Inductive cell : Type := One (t : gty) (z : Z) | Many (t : gty) (zs : list Z).
Record gst : Type := {
  g_data : list Z;                       (* the slice data *)
  g_off : Z;                             (* the variable offset, an int *)
  g_fld : chars -> option cell;          (* the fields of the receiver "this" *)
  g_loc : chars -> option (gty * Z)      (* local variables *)
}.
Definition eqs (a : chars) (b : string) : bool := if list_eq_dec ascii_dec a (cs b) then true else false.
(** Type names: the predeclared ones, and the named types of the package. *)
Definition predeclared : list (string * gty) :=
  [("uint8", GU 8); ("byte", GU 8); ("uint16", GU 16); ("uint32", GU 32); ("uint64", GU 64);
   ("int8", GI 8); ("int16", GI 16); ("int32", GI 32); ("int64", GI 64); ("int", GI 64)].
Definition type_of (named : chars -> option Z) (s : chars) : option gty :=
  match find (fun p => eqs s (fst p)) predeclared with
  | Some p => Some (snd p)
  | None => match named s with Some w => Some (GN s w) | None => None end
  end.

(** Variables that are not elements of data. *)
Inductive place : Type := PF (f : chars) | PE (f : chars) (i : Z) | PL (x : chars).
Fixpoint place_of (n : node) : option place :=
  match n with
  | NId x => if eqs x "data" || eqs x "offset" || eqs x "this" then None else Some (PL x)
  | NMem (NId r) _ f => if eqs r "this" then Some (PF f) else None
  | NIdx a (NNum s) =>
      match place_of a, reads OGo s with Some (PF f), Some i => Some (PE f i) | _, _ => None end
  | _ => None
  end.
Definition get (st : gst) (p : place) : option (gty * Z) :=
  match p with
  | PF f => match g_fld st f with Some (One t z) => Some (t, z) | _ => None end
  | PE f i =>
      match g_fld st f with
      | Some (Many t zs) =>
          if (0 <=? i) && (i <? Z.of_nat (List.length zs)) then option_map (pair t) (nth_error zs (Z.to_nat i)) else None
      | _ => None
      end
  | PL x => g_loc st x
  end.
Definition upd {A} (m : chars -> A) (k : chars) (v : A) : chars -> A := fun x => if list_eq_dec ascii_dec x k then v else m x.
Definition set_nth (l : list Z) (i : nat) (v : Z) : list Z := firstn i l ++ v :: skipn (S i) l.
Definition put (st : gst) (p : place) (z : Z) : option gst :=
  match p with
  | PF f =>
      match g_fld st f with
      | Some (One t _) => Some {| g_data := g_data st; g_off := g_off st; g_fld := upd (g_fld st) f (Some (One t z)); g_loc := g_loc st |}
      | _ => None
      end
  | PE f i =>
      match g_fld st f with
      | Some (Many t zs) =>
          if (0 <=? i) && (i <? Z.of_nat (List.length zs)) then
            Some {| g_data := g_data st; g_off := g_off st;
                    g_fld := upd (g_fld st) f (Some (Many t (set_nth zs (Z.to_nat i) z))); g_loc := g_loc st |}
          else None
      | _ => None
      end
  | PL x =>
      match g_loc st x with
      | Some (t, _) => Some {| g_data := g_data st; g_off := g_off st; g_fld := g_fld st; g_loc := upd (g_loc st) x (Some (t, z)) |}
      | None => None
      end
  end.

(** The bits of a value, and the value with given bits (bool and floats are kept as their bits). *)
Definition bits_of (t : gty) (z : Z) : Z := z mod 2 ^ width t.
Definition of_bits (t : gty) (p : Z) : Z := match t with GI w => sext w p | _ => p end.

(** *( *T)(unsafe.Pointer(&x)): the variable x seen as a T. *)
Definition reint (n : node) : option (chars * node) :=
  match n with
  | NUn s1 (NCall (NUn s2 (NId t)) [NCall (NMem (NId u) s3 p) [NUn s4 q]]) =>
      if eqs s1 "*" && eqs s2 "*" && eqs s3 "." && eqs u "unsafe" && eqs p "Pointer" && eqs s4 "&" then Some (t, q) else None
  | _ => None
  end.

(** ** Expressions *)

(** [None]: not a program of this part of Go; [Some Panic]: index out of range. *)
Definition look {A} (o : option (res A)) (f : A -> option (res A)) : option (res A) :=
  match o with Some (Ok a) => f a | x => x end.
Definition ret (v : option gval) : option (res gval) := option_map Ok v.

Section Eval.
Variable named : chars -> option Z.
Variable st : gst.

Definition view (t : chars) (q : node) : option (res gval) :=
  match type_of named t, place_of q with
  | Some (GU w), Some p =>
      match get st p with
      | Some (u, z) => if width u =? w then Some (Ok (GV (GU w) (bits_of u z))) else None
      | None => None
      end
  | _, _ => None
  end.
Definition read_var (n : node) : option (res gval) :=
  match place_of n with
  | Some p => match get st p with Some (t, z) => Some (Ok (GV t z)) | None => None end
  | None => None
  end.

Fixpoint eval (n : node) : option (res gval) :=
  match n with
  | NNum s => ret (match reads OGo s with Some z => Some (GC None z) | None => None end)
  | NId x => if eqs x "offset" then Some (Ok (GV (GI 64) (g_off st))) else read_var n
  | NMem _ _ _ => read_var n
  | NIdx a i =>
      match a with
      | NId x =>
          if eqs x "data" then
            look (eval i) (fun v =>
              match v with
              | GC None z | GV (GI 64) z =>
                  match rd (g_data st) z with Ok b => Some (Ok (GV (GU 8) b)) | _ => Some Panic end
              | _ => None
              end)
          else read_var n
      | _ => read_var n
      end
  | NCall (NId t) [a] =>
      match type_of named t with Some t => look (eval a) (fun v => ret (conversion t v)) | None => None end
  | NUn s a =>
      match reint n with
      | Some (t, q) => view t q
      | None => if eqs s "^" then look (eval a) (fun v => ret (compl v)) else None
      end
  | NBin s a b =>
      look (eval a) (fun x => look (eval b) (fun y =>
        ret (if eqs s "&" then arith Z.land x y
             else if eqs s "|" then arith Z.lor x y
             else if eqs s "^" then arith Z.lxor x y
             else if eqs s "+" then arith Z.add x y
             else if eqs s "-" then arith Z.sub x y
             else if eqs s "<<" then shift Z.shiftl x y
             else if eqs s ">>" then shift Z.shiftr x y
             else None)))
  | _ => None
  end.
End Eval.

(** ** Statements *)

Inductive gstmt : Type :=
| SSet (op : chars) (l r : node)        (* l = r, l |= r *)
| SDecl (x : chars) (r : node)          (* x := r *)
| SVar (x t : chars).                   (* var x t *)

Definition parses (ts : list token) (x : node) (rest : list token) : Prop :=
  exists n0, forall n, (n0 <= n)%nat -> pexpr OGo n 0 ts = Some (x, rest).
Inductive reads_stmt (text : chars) : gstmt -> Prop :=
| rs_set ts op l r rest : lexes OGo text ts -> op = cs "=" \/ op = cs "|=" ->
    parses ts l (TSym op :: rest) -> parses rest r [] -> reads_stmt text (SSet op l r)
| rs_decl x r rest : lexes OGo text (TId x :: sy ":=" :: rest) -> parses rest r [] -> reads_stmt text (SDecl x r)
| rs_var x t : lexes OGo text [kw "var"; TId x; TId t] -> reads_stmt text (SVar x t).

(** Assignability to a variable of type t. *)
Definition assignable (t : gty) (v : gval) : option Z :=
  match v with
  | GC None z => if fits_ty t z then Some z else None
  | GC (Some u) z | GV u z => if gty_eq t u then Some z else None
  end.
Definition set_data (st : gst) (d : list Z) : gst :=
  {| g_data := d; g_off := g_off st; g_fld := g_fld st; g_loc := g_loc st |}.
Definition set_loc (st : gst) (x : chars) (t : gty) (z : Z) : gst :=
  {| g_data := g_data st; g_off := g_off st; g_fld := g_fld st; g_loc := upd (g_loc st) x (Some (t, z)) |}.

(** Storing a value in the variable (or element) that an expression denotes. *)
Definition store (named : chars -> option Z) (st : gst) (l : node) (v : gval) : option (res gst) :=
  match l with
  | NIdx (NId x) i =>
      if eqs x "data" then
        match eval named st i, assignable (GU 8) v with
        | Some (Ok (GC None p | GV (GI 64) p)), Some z => Some (do d <- wr (g_data st) p z; Ok (set_data st d))
        | _, _ => None
        end
      else
        match place_of l with
        | Some p =>
            match get st p with
            | Some (t, _) => match assignable t v with Some z => option_map Ok (put st p z) | None => None end
            | None => None
            end
        | None => None
        end
  | _ =>
      match reint l with
      | Some (t, q) =>
          match type_of named t, place_of q with
          | Some (GU w), Some p =>
              match get st p, assignable (GU w) v with
              | Some (u, _), Some z => if width u =? w then option_map Ok (put st p (of_bits u z)) else None
              | _, _ => None
              end
          | _, _ => None
          end
      | None =>
          match place_of l with
          | Some p =>
              match get st p with
              | Some (t, _) => match assignable t v with Some z => option_map Ok (put st p z) | None => None end
              | None => None
              end
          | None => None
          end
      end
  end.

Definition exec (named : chars -> option Z) (st : gst) (s : gstmt) : option (res gst) :=
  match s with
  | SSet op l r =>
      let v := if eqs op "=" then eval named st r
               else look (eval named st l) (fun x => look (eval named st r) (fun y => ret (arith Z.lor x y))) in
      match v with
      | Some (Ok v) => store named st l v
      | Some Panic => Some Panic
      | _ => None
      end
  | SDecl x r =>
      match g_loc st x, eval named st r with
      | None, Some (Ok (GC (Some t) z | GV t z)) => Some (Ok (set_loc st x t z))
      | None, Some Panic => Some Panic
      | _, _ => None
      end
  | SVar x t =>
      match g_loc st x, type_of named t with
      | None, Some t => Some (Ok (set_loc st x t 0))
      | _, _ => None
      end
  end.

(** if x != c { return -1 } on three lines. *)
Inductive reads_check (l1 l2 l3 : chars) : node -> node -> Prop :=
| rc ts x y rest : lexes OGo l1 (kw "if" :: ts) -> parses ts (NBin (cs "!=") x y) (sy "{" :: rest) -> rest = [] ->
    lexes OGo l2 [kw "return"; sy "-"; TNum (cs "1")] -> lexes OGo l3 [sy "}"] -> reads_check l1 l2 l3 x y.
(** x == y for integers. *)
Definition equal (named : chars -> option Z) (st : gst) (x y : node) : option bool :=
  match eval named st x, eval named st y with
  | Some (Ok a), Some (Ok b) =>
      match join a b with Some (Some t) => if is_int t then Some (zof a =? zof b) else None | _ => None end
  | _, _ => None
  end.

(** The lines run one after the other; [Fail] is "return -1". *)
Inductive runs (named : chars -> option Z) : gst -> list chars -> res gst -> Prop :=
| runs_nil st : runs named st [] (Ok st)
| runs_cons st l s st' ls r : reads_stmt l s -> exec named st s = Some (Ok st') -> runs named st' ls r ->
    runs named st (l :: ls) r
| runs_panic st l s ls : reads_stmt l s -> exec named st s = Some Panic -> runs named st (l :: ls) Panic
| runs_check st l1 l2 l3 x y ls r : reads_check l1 l2 l3 x y -> equal named st x y = Some true -> runs named st ls r ->
    runs named st (l1 :: l2 :: l3 :: ls) r
| runs_return st l1 l2 l3 x y ls : reads_check l1 l2 l3 x y -> equal named st x y = Some false ->
    runs named st (l1 :: l2 :: l3 :: ls) Fail.
