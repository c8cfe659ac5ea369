(** What Python makes of simple statements: reading a line, integers, attributes of self, lists, members of an Enum
    class and a buffer of bytes.  Written from the Python language reference, independently of the generator. *)
From Coq Require Import ZArith Lia Bool String Ascii List.
Import ListNotations.
From Verif Require Import Base Literals ExprSpec.
Open Scope string_scope.
Open Scope Z_scope.
Open Scope list_scope.

(** ** Values and state *)

(** An int (a bool is the int 0 or 1), or the member of an Enum class with a given value. *)
Inductive pval : Type := VI (z : Z) | VE (cls : chars) (z : Z).
(** An attribute holds a value or a list of values. *)
Inductive pcell : Type := One (v : pval) | Many (vs : list pval).
Record pst : Type := {
  p_data : list Z;                        (* the writable memoryview data *)
  p_att : chars -> option pcell;          (* the attributes of self *)
  p_loc : chars -> option pval            (* local variables *)
}.
Definition eqs (a : chars) (b : string) : bool := if list_eq_dec ascii_dec a (cs b) then true else false.

(** Variables that are not elements of data. *)
Inductive place : Type := PF (f : chars) | PE (f : chars) (i : Z) | PL (x : chars).
Definition place_of (n : node) : option place :=
  match n with
  | NId x => if eqs x "data" || eqs x "self" then None else Some (PL x)
  | NMem (NId r) _ f => if eqs r "self" then Some (PF f) else None
  | NIdx (NMem (NId r) _ f) (NNum s) =>
      if eqs r "self" then match reads OPy s with Some i => Some (PE f i) | None => None end else None
  | _ => None
  end.
(** [None]: outside this part of Python; [Panic]: an exception (IndexError). *)
Definition get (st : pst) (p : place) : option (res pval) :=
  match p with
  | PF f => match p_att st f with Some (One v) => Some (Ok v) | _ => None end
  | PE f i =>
      match p_att st f with
      | Some (Many vs) => if i <? 0 then None else Some (match nth_error vs (Z.to_nat i) with Some v => Ok v | None => Panic end)
      | _ => None
      end
  | PL x => match p_loc st x with Some v => Some (Ok v) | None => None end
  end.
Definition upd {A} (m : chars -> A) (k : chars) (v : A) : chars -> A := fun x => if list_eq_dec ascii_dec x k then v else m x.
Definition set_nth {A} (l : list A) (i : nat) (v : A) : list A := firstn i l ++ v :: skipn (S i) l.
Definition set_data (st : pst) (d : list Z) : pst := {| p_data := d; p_att := p_att st; p_loc := p_loc st |}.
(** Assignment binds an attribute or a local variable, or replaces an element. *)
Definition put (st : pst) (p : place) (v : pval) : option (res pst) :=
  match p with
  | PF f => Some (Ok {| p_data := p_data st; p_att := upd (p_att st) f (Some (One v)); p_loc := p_loc st |})
  | PE f i =>
      match p_att st f with
      | Some (Many vs) =>
          if i <? 0 then None
          else if i <? Z.of_nat (List.length vs) then
            Some (Ok {| p_data := p_data st; p_att := upd (p_att st) f (Some (Many (set_nth vs (Z.to_nat i) v))); p_loc := p_loc st |})
          else Some Panic
      | _ => None
      end
  | PL x => Some (Ok {| p_data := p_data st; p_att := p_att st; p_loc := upd (p_loc st) x (Some v) |})
  end.

(** ** Expressions *)
Definition look {A} (o : option (res A)) (f : A -> option (res A)) : option (res A) :=
  match o with Some (Ok a) => f a | x => x end.
Definition arith (f : Z -> Z -> Z) (a b : pval) : option (res pval) :=
  match a, b with VI x, VI y => Some (Ok (VI (f x y))) | _, _ => None end.
(** ValueError: negative shift count. *)
Definition shift (f : Z -> Z -> Z) (a b : pval) : option (res pval) :=
  match a, b with VI x, VI y => Some (if y <? 0 then Panic else Ok (VI (f x y))) | _, _ => None end.

(** [enums c]: the values of the members of the Enum class [c]. *)
Section Eval.
Variable enums : chars -> option (Z -> bool).
Variable st : pst.

Definition read_var (n : node) : option (res pval) := match place_of n with Some p => get st p | None => None end.
Fixpoint eval (n : node) : option (res pval) :=
  match n with
  | NNum s => match reads OPy s with Some z => Some (Ok (VI z)) | None => None end
  | NId _ => read_var n
  | NMem a _ f =>
      match place_of n with
      | Some p => get st p
      | None =>
          if eqs f "value" then look (eval a) (fun v => match v with VE _ z => Some (Ok (VI z)) | VI _ => None end) else None
      end
  | NIdx a i =>
      match a with
      | NId x =>
          if eqs x "data" then
            look (eval i) (fun v =>
              match v with
              | VI z => if z <? 0 then None else match rd (p_data st) z with Ok b => Some (Ok (VI b)) | _ => Some Panic end
              | _ => None
              end)
          else None
      | _ => read_var n
      end
  | NCall (NId c) [a] =>
      match enums c with
      | Some member => look (eval a) (fun v => match v with VI z => Some (if member z then Ok (VE c z) else Panic) | _ => None end)
      | None => None
      end
  | NUn s a =>
      look (eval a) (fun v =>
        match v with
        | VI z => if eqs s "~" then Some (Ok (VI (Z.lnot z))) else if eqs s "-" then Some (Ok (VI (- z))) else None
        | _ => None
        end)
  | NBin s a b =>
      look (eval a) (fun x => look (eval b) (fun y =>
        if eqs s "&" then arith Z.land x y
        else if eqs s "|" then arith Z.lor x y
        else if eqs s "^" then arith Z.lxor x y
        else if eqs s "+" then arith Z.add x y
        else if eqs s "-" then arith Z.sub x y
        else if eqs s "<<" then shift Z.shiftl x y
        else if eqs s ">>" then shift Z.shiftr x y
        else None))
  | _ => None
  end.
End Eval.

(** ** Statements: l = r, l |= r *)
Inductive pstmt : Type := SSet (op : chars) (l r : node).

Definition parses (ts : list token) (x : node) (rest : list token) : Prop :=
  exists n0, forall n, (n0 <= n)%nat -> pexpr OPy n 0 ts = Some (x, rest).
Inductive reads_stmt (text : chars) : pstmt -> Prop :=
| rs_set ts op l r rest : lexes OPy text ts -> op = cs "=" \/ op = cs "|=" ->
    parses ts l (TSym op :: rest) -> parses rest r [] -> reads_stmt text (SSet op l r).

(** data[i] = v raises unless 0 <= v < 256. *)
Definition store (enums : chars -> option (Z -> bool)) (st : pst) (l : node) (v : pval) : option (res pst) :=
  match l with
  | NIdx (NId x) i =>
      if eqs x "data" then
        match eval enums st i, v with
        | Some (Ok (VI p)), VI z =>
            if p <? 0 then None
            else if (z <? 0) || (255 <? z) then Some Panic
            else Some (do d <- wr (p_data st) p z; Ok (set_data st d))
        | _, _ => None
        end
      else None
  | _ => match place_of l with Some p => put st p v | None => None end
  end.
Definition exec (enums : chars -> option (Z -> bool)) (st : pst) (s : pstmt) : option (res pst) :=
  match s with
  | SSet op l r =>
      let v := if eqs op "=" then eval enums st r
               else look (eval enums st l) (fun x => look (eval enums st r) (fun y => arith Z.lor x y)) in
      match v with
      | Some (Ok v) => store enums st l v
      | Some Panic => Some Panic
      | _ => None
      end
  end.

(** if x != y: return False, 0   on two lines. *)
Inductive reads_check (l1 l2 : chars) : node -> node -> Prop :=
| rc ts x y : lexes OPy l1 (kw "if" :: ts) -> parses ts (NBin (cs "!=") x y) [sy ":"] ->
    lexes OPy l2 [kw "return"; kw "False"; sy ","; TNum (cs "0")] -> reads_check l1 l2 x y.
(** x == y for ints. *)
Definition equal (enums : chars -> option (Z -> bool)) (st : pst) (x y : node) : option bool :=
  match eval enums st x, eval enums st y with
  | Some (Ok (VI a)), Some (Ok (VI b)) => Some (a =? b)
  | _, _ => None
  end.

(** The lines run one after the other; [Panic] is an exception, [Fail] is "return False, 0". *)
Inductive runs (enums : chars -> option (Z -> bool)) : pst -> list chars -> res pst -> Prop :=
| runs_nil st : runs enums st [] (Ok st)
| runs_cons st l s st' ls r : reads_stmt l s -> exec enums st s = Some (Ok st') -> runs enums st' ls r ->
    runs enums st (l :: ls) r
| runs_raise st l s ls : reads_stmt l s -> exec enums st s = Some Panic -> runs enums st (l :: ls) Panic
| runs_check st l1 l2 x y ls r : reads_check l1 l2 x y -> equal enums st x y = Some true -> runs enums st ls r ->
    runs enums st (l1 :: l2 :: ls) r
| runs_return st l1 l2 x y ls : reads_check l1 l2 x y -> equal enums st x y = Some false -> runs enums st (l1 :: l2 :: ls) Fail.

