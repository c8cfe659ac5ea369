(** What C makes of simple statements: reading a line, integer types, promotions and conversions, the members of *ptr,
    arrays, views of an object through a pointer to an unsigned integer, local variables and a buffer of bytes.  Written
    from the C standard, independently of the generator.  Undefined behaviour is [Panic]; what the standard leaves to the
    implementation is what gcc, clang and MSVC do: two's complement, conversions to signed types by taking the low bits,
    ">>" of a negative number by copying the sign; a left shift of a non-negative signed number keeps the low bits. *)
From Coq Require Import ZArith Lia Bool String Ascii List.
Import ListNotations.
From Verif Require Import Base Literals ExprSpec.
Open Scope string_scope.
Open Scope Z_scope.
Open Scope list_scope.

(** ** Types, objects and state *)

(** bool, or an integer type: signed, bits.  An enum object has the integer type the compiler gives it. *)
Inductive ctype : Type := CB | CI (signed : bool) (bits : Z).
Definition ctype_eqb (a b : ctype) : bool :=
  match a, b with CB, CB => true | CI s n, CI t m => Bool.eqb s t && (n =? m) | _, _ => false end.
Definition int_ty : ctype := CI true 32.
(** A member of *ptr: an object or an array of objects.  A bool is kept as the number in its byte. *)
Inductive ccell : Type := One (t : ctype) (z : Z) | Many (t : ctype) (zs : list Z).
Record cst : Type := {
  c_data : list Z;                                   (* the bytes data points to *)
  c_mem : chars -> option ccell;                     (* the members of *ptr *)
  c_loc : chars -> option (ctype * option Z)         (* local variables; [None]: not initialized *)
}.
Definition eqs (a : chars) (b : string) : bool := if list_eq_dec ascii_dec a (cs b) then true else false.
Definition type_named (s : chars) : option ctype :=
  match find (fun p => eqs s (fst p))
    [("bool", CB); ("uint8_t", CI false 8); ("uint16_t", CI false 16); ("uint32_t", CI false 32); ("uint64_t", CI false 64);
     ("int8_t", CI true 8); ("int16_t", CI true 16); ("int32_t", CI true 32); ("int64_t", CI true 64)] with
  | Some p => Some (snd p) | None => None end.
(** "uintN_t*". *)
Definition view_named (s : chars) : option Z :=
  match find (fun p => eqs s (fst p)) [("uint8_t*", 8); ("uint16_t*", 16); ("uint32_t*", 32); ("uint64_t*", 64)] with
  | Some p => Some (snd p) | None => None end.
Definition size_of (t : ctype) : Z := match t with CB => 8 | CI _ n => n end.

(** Conversion of a number (C11 6.3.1.2, 6.3.1.3), integer promotion (6.3.1.1), usual arithmetic conversions (6.3.1.8). *)
Definition convert (t : ctype) (z : Z) : Z :=
  match t with CB => if z =? 0 then 0 else 1 | CI false n => z mod 2 ^ n | CI true n => sext n z end.
Definition promote (t : ctype) : ctype :=
  match t with CB => int_ty | CI s n => if n <? 32 then int_ty else CI s n end.
Definition common (a b : ctype) : ctype :=
  match promote a, promote b with
  | CI s n, CI t m =>
      if n =? m then CI (s && t) n else if n <? m then CI t m else CI s n
  | t, _ => t
  end.
Definition in_range (t : ctype) (z : Z) : bool :=
  match t with
  | CB => (0 <=? z) && (z <=? 1)
  | CI false n => (0 <=? z) && (z <? 2 ^ n)
  | CI true n => (- 2 ^ (n - 1) <=? z) && (z <? 2 ^ (n - 1))
  end.

(** ** Lvalues other than the bytes of data *)
Inductive place : Type := PF (f : chars) | PE (f : chars) (i : Z) | PL (x : chars) | PV (bits : Z) (p : place).
Fixpoint place_of (n : node) : option place :=
  match n with
  | NId x => if eqs x "data" || eqs x "ptr" || eqs x "true" || eqs x "false" then None else Some (PL x)
  | NMem (NId r) s f => if eqs r "ptr" && eqs s "->" then Some (PF f) else None
  | NIdx a (NNum s) =>
      match place_of a, reads OC s with Some (PF f), Some i => Some (PE f i) | _, _ => None end
  | NUn s (NCast t (NUn s2 a)) =>                    (* ( *(uintN_t* )(&a) ) *)
      if eqs s "*" && eqs s2 "&" then
        match view_named t, place_of a with Some n, Some p => Some (PV n p) | _, _ => None end
      else None
  | _ => None
  end.
(** Type and number of an object; [None] in the second component: not initialized. *)
Fixpoint object (st : cst) (p : place) : option (res (ctype * option Z)) :=
  match p with
  | PF f => match c_mem st f with Some (One t z) => Some (Ok (t, Some z)) | _ => None end
  | PE f i =>
      match c_mem st f with
      | Some (Many t zs) => Some (if i <? 0 then Panic else match nth_error zs (Z.to_nat i) with Some z => Ok (t, Some z) | None => Panic end)
      | _ => None
      end
  | PL x => match c_loc st x with Some (t, v) => Some (Ok (t, v)) | None => None end
  | PV n p =>                                        (* the same bytes, as an unsigned integer; larger than the object: undefined *)
      match object st p with
      | Some (Ok (t, v)) =>
          if n =? size_of t then Some (Ok (CI false n, option_map (fun z => z mod 2 ^ n) v))
          else if size_of t <? n then Some Panic else None
      | x => x
      end
  end.
Definition get (st : cst) (p : place) : option (res (ctype * Z)) :=
  match object st p with
  | Some (Ok (t, Some z)) =>
      match t with CB => if (z =? 0) || (z =? 1) then Some (Ok (t, z)) else Some Panic | _ => Some (Ok (t, z)) end
  | Some (Ok (_, None)) => Some Panic
  | Some _ => Some Panic
  | None => None
  end.
Definition upd {A} (m : chars -> A) (k : chars) (v : A) : chars -> A := fun x => if list_eq_dec ascii_dec x k then v else m x.
Definition set_nth {A} (l : list A) (i : nat) (v : A) : list A := firstn i l ++ v :: skipn (S i) l.
Definition set_data (st : cst) (d : list Z) : cst := {| c_data := d; c_mem := c_mem st; c_loc := c_loc st |}.
Definition set_mem (st : cst) (f : chars) (c : ccell) : cst := {| c_data := c_data st; c_mem := upd (c_mem st) f (Some c); c_loc := c_loc st |}.
Definition set_loc (st : cst) (x : chars) (v : ctype * option Z) : cst := {| c_data := c_data st; c_mem := c_mem st; c_loc := upd (c_loc st) x (Some v) |}.
(** Storing a number of the lvalue's type. *)
Fixpoint put (st : cst) (p : place) (z : Z) : option (res cst) :=
  match p with
  | PF f => match c_mem st f with Some (One t _) => Some (Ok (set_mem st f (One t z))) | _ => None end
  | PE f i =>
      match c_mem st f with
      | Some (Many t zs) =>
          Some (if (i <? 0) || (Z.of_nat (List.length zs) <=? i) then Panic else Ok (set_mem st f (Many t (set_nth zs (Z.to_nat i) z))))
      | _ => None
      end
  | PL x => match c_loc st x with Some (t, _) => Some (Ok (set_loc st x (t, Some z))) | None => None end
  | PV n p =>
      match object st p with
      | Some (Ok (t, _)) =>
          if n =? size_of t then put st p (match t with CB => z | _ => convert t z end)
          else if size_of t <? n then Some Panic else None
      | Some _ => Some Panic
      | None => None
      end
  end.

(** ** Expressions *)
Definition cval : Type := ctype * Z.
Definition look {A B} (o : option (res A)) (f : A -> option (res B)) : option (res B) :=
  match o with Some (Ok a) => f a | Some Panic => Some Panic | Some Fail => Some Fail | None => None end.
(** A constant has the first of the types that can hold it (6.4.4.1). *)
Definition literal (s : chars) : option (res cval) :=
  match reads OC s with
  | Some z =>
      let dec := match read_body s with Some (b, _) => b =? 10 | None => true end in
      if z <? 2 ^ 31 then Some (Ok (int_ty, z))
      else if negb dec && (z <? 2 ^ 32) then Some (Ok (CI false 32, z))
      else if z <? 2 ^ 63 then Some (Ok (CI true 64, z))
      else if z <? 2 ^ 64 then Some (Ok (CI false 64, z)) else None
  | None => None
  end.
(** Bitwise operators; "+" and "-", which must not overflow a signed type. *)
Definition bitwise (f : Z -> Z -> Z) (a b : cval) : option (res cval) :=
  let t := common (fst a) (fst b) in Some (Ok (t, f (convert t (snd a)) (convert t (snd b)))).
Definition additive (f : Z -> Z -> Z) (a b : cval) : option (res cval) :=
  let t := common (fst a) (fst b) in
  let r := f (convert t (snd a)) (convert t (snd b)) in
  Some (match t with CI false n => Ok (t, r mod 2 ^ n) | _ => if in_range t r then Ok (t, r) else Panic end).
(** Shifts: the type is that of the promoted left operand; the count must be less than its width. *)
Definition shift_right (a b : cval) : option (res cval) :=
  let t := promote (fst a) in
  Some (if (snd b <? 0) || (size_of t <=? snd b) then Panic else Ok (t, Z.shiftr (snd a) (snd b))).
Definition shift_left (a b : cval) : option (res cval) :=
  let t := promote (fst a) in
  Some (if (snd b <? 0) || (size_of t <=? snd b) then Panic
        else match t with
             | CI true _ => if snd a <? 0 then Panic else Ok (t, convert t (Z.shiftl (snd a) (snd b)))
             | _ => Ok (t, convert t (Z.shiftl (snd a) (snd b)))
             end).
Definition differs (a b : cval) : option (res cval) :=
  let t := common (fst a) (fst b) in Some (Ok (int_ty, if convert t (snd a) =? convert t (snd b) then 0 else 1)).
Definition operators : list (string * (cval -> cval -> option (res cval))) :=
  [("&", bitwise Z.land); ("|", bitwise Z.lor); ("^", bitwise Z.lxor); ("+", additive Z.add); ("-", additive Z.sub);
   ("<<", shift_left); (">>", shift_right); ("!=", differs)].
Definition operator (s : chars) : option (cval -> cval -> option (res cval)) :=
  match find (fun p => eqs s (fst p)) operators with Some p => Some (snd p) | None => None end.

(** The bytes: data[i] with data cast to a pointer to uint8_t or const uint8_t. *)
Definition bytes_ptr (write : bool) (n : node) : bool :=
  match n with NCast t (NId x) => (eqs t "uint8_t*" || (negb write && eqs t "const uint8_t*")) && eqs x "data" | _ => false end.

Section Eval.
Variable st : cst.
Definition read_var (n : node) : option (res cval) := match place_of n with Some p => get st p | None => None end.
Fixpoint eval (n : node) : option (res cval) :=
  match n with
  | NNum s => literal s
  | NId x => if eqs x "true" then Some (Ok (int_ty, 1)) else if eqs x "false" then Some (Ok (int_ty, 0)) else read_var n   (* stdbool.h *)
  | NMem _ _ _ => read_var n
  | NIdx a i =>
      if bytes_ptr false a then
        look (eval i) (fun v =>
          match rd (c_data st) (snd v) with Ok b => Some (Ok (CI false 8, b)) | _ => Some Panic end)
      else read_var n
  | NUn s a =>
      if eqs s "*" then read_var n
      else if eqs s "~" then look (eval a) (fun v => let t := promote (fst v) in Some (Ok (t, convert t (Z.lnot (snd v)))))
      else if eqs s "-" then look (eval a) (additive Z.sub (int_ty, 0))
      else None
  | NCast t a => match type_named t with Some ty => look (eval a) (fun v => Some (Ok (ty, convert ty (snd v)))) | None => None end
  | NBin s a b =>
      match operator s with
      | Some f => look (eval a) (fun x => look (eval b) (fun y => f x y))
      | None => None
      end
  | _ => None
  end.
End Eval.

(** ** Statements: l = r;  l |= r;  T x = e;  T x;  if (c) return -1; *)
Inductive cstmt : Type := SSet (op : chars) (l r : node) | SDecl (t x : chars) (e : node) | SVar (t x : chars) | SRet (c : node).

Definition parses (ts : list token) (x : node) (rest : list token) : Prop :=
  exists n0, forall n, (n0 <= n)%nat -> pexpr OC n 0 ts = Some (x, rest).
Inductive reads_stmt (text : chars) : cstmt -> Prop :=
| rs_set ts op l r rest : lexes OC text ts -> op = cs "=" \/ op = cs "|=" ->
    parses ts l (TSym op :: rest) -> parses rest r [sy ";"] -> reads_stmt text (SSet op l r)
| rs_decl t x e rest : lexes OC text (TId t :: TId x :: sy "=" :: rest) -> parses rest e [sy ";"] -> reads_stmt text (SDecl t x e)
| rs_var t x : lexes OC text [TId t; TId x; sy ";"] -> reads_stmt text (SVar t x)
| rs_ret c rest : lexes OC text (kw "if" :: sy "(" :: rest) ->
    parses rest c [sy ")"; kw "return"; sy "-"; TNum (cs "1"); sy ";"] -> reads_stmt text (SRet c).

(** The value is converted to the type of the lvalue. *)
Definition store (st : cst) (l : node) (v : cval) : option (res cst) :=
  match l with
  | NIdx a i =>
      if bytes_ptr true a then
        look (eval st i) (fun p =>
          match wr (c_data st) (snd p) (convert (CI false 8) (snd v)) with Ok d => Some (Ok (set_data st d)) | _ => Some Panic end)
      else match place_of l with
           | Some p => look (object st p) (fun o => put st p (convert (fst o) (snd v)))
           | None => None
           end
  | _ => match place_of l with
         | Some p => look (object st p) (fun o => put st p (convert (fst o) (snd v)))
         | None => None
         end
  end.
(** "(enum E)x" on the right of "=" before a member of that enum: the conversion is that to the member's type. *)
Definition enum_cast (l r : node) : option node :=
  match place_of l, r with
  | Some (PF _), NCast t a | Some (PE _ _), NCast t a => if prefixb (cs "enum ") t then Some a else None
  | _, _ => None
  end.
Definition rhs (st : cst) (l r : node) : option (res cval) :=
  match enum_cast l r with Some a => eval st a | None => eval st r end.
Definition exec (st : cst) (s : cstmt) : option (res cst) :=
  match s with
  | SSet op l r =>
      look (if eqs op "=" then rhs st l r else look (eval st l) (fun x => look (eval st r) (fun y => bitwise Z.lor x y))) (store st l)
  | SDecl t x e =>
      match type_named t, c_loc st x with
      | Some ty, None => look (eval st e) (fun v => Some (Ok (set_loc st x (ty, Some (convert ty (snd v))))))
      | _, _ => None                                  (* declared twice *)
      end
  | SVar t x =>
      match type_named t, c_loc st x with Some ty, None => Some (Ok (set_loc st x (ty, None))) | _, _ => None end
  | SRet c => look (eval st c) (fun v => if snd v =? 0 then Some (Ok st) else Some Fail)
  end.

(** The lines run one after the other; [Panic]: undefined behaviour; [Fail]: a negative number was returned. *)
Inductive runs : cst -> list chars -> res cst -> Prop :=
| runs_nil st : runs st [] (Ok st)
| runs_cons st l s st' ls r : reads_stmt l s -> exec st s = Some (Ok st') -> runs st' ls r -> runs st (l :: ls) r
| runs_undef st l s ls : reads_stmt l s -> exec st s = Some Panic -> runs st (l :: ls) Panic
| runs_ret st l s ls : reads_stmt l s -> exec st s = Some Fail -> runs st (l :: ls) Fail.
