(** Vocabulary for the front-end properties: what a user is promised about an accepted file.
    Nothing here is compiler code. *)
From Coq Require Import String ZArith List Bool.
From Verif Require Import Base Schema FrontModel.
Import ListNotations.
Open Scope Z_scope.
Open Scope list_scope.

(** Unbounded integers in place of int64. *)
Definition ideal (z : Z) : Z := z.

(** Total width of the fixed-size part of a list of fields (variable-size fields have width -1). *)
Definition fixed_width (l : list nfield) : Z :=
  fold_right (fun f a => Z.max 0 (nbits f) + a) 0 l.

(** Is a field a string, a byte string, a struct, or an array of these? *)
Definition needs_byte_boundary (f : nfield) : Prop :=
  match f with
  | NNormal _ _ {| t_elem := EString |} _ _ _
  | NNormal _ _ {| t_elem := EBytes |} _ _ _
  | NNormal _ _ {| t_elem := EStruct _ |} _ _ _ => True
  | _ => False
  end.

(** Does a field have variable size? *)
Definition variable_size (f : nfield) : Prop :=
  match f with NNormal _ _ t _ _ _ => elem_dyn (t_elem t) = true | _ => False end.

(** Width of a field against its type. *)
Definition width_ok (f : nfield) : Prop :=
  match f with
  | NNormal _ _ t None n _ =>
      match t_elem t with
      | EBasic b => 1 <= n <= basic_bits b
      | EEnum w => 1 <= n <= w
      | EString | EBytes => n = -1
      | EStruct fs => n = fixed_bits fs
      end
  | NNormal _ _ t (Some len) n _ =>
      1 <= len /\
      if elem_dyn (t_elem t) then n = -1
      else 1 <= n <= len * elem_bits (t_elem t) /\ exists k, n = len * k
  | NVoid n => 1 <= n
  | NConst _ b n _ _ => 1 <= n <= basic_bits b
  | NEmb _ => True
  end.

(** ** What acceptance guarantees, as a predicate on the schema the generators see.  Like
    [wf_fields] of Schema.v without the two restrictions of [limits] below. *)
Fixpoint some_field (fs : fields) : bool :=
  match fs with FNil => false | FEmb r => some_field r | _ => true end.

Fixpoint acc_elem (e : elem) : Prop :=
  match e with
  | EBasic b => wf_basic b
  | EEnum n => 1 <= n
  | EString => True
  | EBytes => True
  | EStruct fs => some_field fs = true /\ acc_fields fs 0 /\ fixed_bits fs mod 8 = 0
  end
with acc_fields (fs : fields) (from : Z) : Prop :=
  match fs with
  | FNil => True
  | FOne e n _ r =>
      acc_elem e /\
      (if is_fixed_scalar e then 1 <= n <= elem_bits e
       else from mod 8 = 0 /\ n = elem_bits e) /\
      acc_fields r (next_from from n)
  | FArr e len n _ r =>
      acc_elem e /\ (0 < len)%nat /\
      (if is_fixed_scalar e then exists eb, 1 <= eb <= elem_bits e /\ n = Z.of_nat len * eb
       else from mod 8 = 0 /\
            if elem_dyn e then n = -1
            else exists eb, 1 <= eb <= elem_bits e /\ n = Z.of_nat len * eb) /\
      acc_fields r (next_from from n)
  | FVoid n r => 1 <= n /\ acc_fields r (from + n)
  | FConst b n _ _ r => wf_basic b /\ 1 <= n <= basic_bits b /\ acc_fields r (from + n)
  | FEmb r => acc_fields r from
  end.

(** Two things the compiler does not check: enums have at most 64 bits, and an array of structs is
    as wide as its elements need. *)
Fixpoint limits_elem (e : elem) : Prop :=
  match e with
  | EEnum n => n <= 64
  | EStruct fs => limits fs
  | _ => True
  end
with limits (fs : fields) : Prop :=
  match fs with
  | FNil => True
  | FOne e _ _ r => limits_elem e /\ limits r
  | FArr e len n _ r =>
      limits_elem e /\
      (match e with
       | EStruct s => fields_dyn s = false -> n = Z.of_nat len * fixed_bits s
       | _ => True
       end) /\ limits r
  | FVoid _ r | FConst _ _ _ _ r | FEmb r => limits r
  end.

(** What one element of a struct body stands for. *)
Inductive item : Type := IOwn (f : nfield) | IEmb (s : cstruct).
Definition expand (i : item) : list nfield :=
  match i with IOwn f => [f] | IEmb s => NEmb (cs_name s) :: cs_fields s end.

(** The elements of a body, empty statements left out, in order. *)
Inductive a_item : Type :=
| AIVoid (size : a_size)
| AIConst (b : a_basic) (name : option string) (size : option a_size) (c : a_const) (opts : a_opts)
| AIEmb (e : a_elem)
| AINormal (e : a_elem) (arr : option N) (name : string) (size : option a_size) (opts : a_opts)
           (ms : list a_method).
Fixpoint items_of (b : a_body) : list a_item :=
  match b with
  | ABNil => []
  | ABEmpty r => items_of r
  | ABVoid s _ r => AIVoid s :: items_of r
  | ABConst b n s c o r => AIConst b n s c o :: items_of r
  | ABEmb e _ _ r => AIEmb e :: items_of r
  | ABNormal e a n s o ms r => AINormal e a n s o ms :: items_of r
  end.

(** The width in bits a size [<bytes>.<bits>] stands for, and that of a type or array. *)
Definition size_bits (s : a_size) : Z := 8 * Z.of_N (fst s) + Z.of_N (snd s).
Definition natural_bits (t : fty) (arr : option N) : Z :=
  match arr with
  | None => t_bits t
  | Some len => if t_dyn t then -1 else t_bits t * Z.of_N len
  end.
(** The options of a field: no option given twice, the order is "big" or "little", and it is big
    exactly if the option says so. *)
Definition options_ok (opts : a_opts) (big : bool) : Prop :=
  NoDup (map fst opts) /\
  (forall v, In ("order"%string, v) opts -> v = LStr "big" \/ v = LStr "little") /\
  (big = true <-> In ("order"%string, LStr "big") opts).
(** The custom getters and setters of a field: all named; of one name there is at most one getter
    and at most one setter, and these have the same type; [l] are the names. *)
Definition methods_ok (ms : list a_method) (l : list string) : Prop :=
  NoDup l /\
  (forall m, In m ms -> exists n, m_name m = Some n /\ is_uncapitalized n = true /\ In n l) /\
  (forall n, In n l -> exists m, In m ms /\ m_name m = Some n) /\
  (forall i j m m', nth_error ms i = Some m -> nth_error ms j = Some m' -> m_name m = m_name m' ->
     m_type m = m_type m' /\ (m_get m = m_get m' -> i = j)).
(** The number a constant stands for: a literal, or the value of an enum member of that name. *)
Definition const_value (ns : names_t) (c : a_const) : option Z :=
  match c with
  | ACLit (LInt neg n) => Some (if neg then - Z.of_N n else Z.of_N n)
  | ACLit (LFloat z) => Some (Z.of_N z)
  | ACLit (LBool b) => Some (if b then 1 else 0)
  | ACLit (LStr _) => None
  | ACIdent n => match get n ns with Some (NEnumVal _ z) => Some z | _ => None end
  end.
(** A constant suits its type: the same kind, and not negative if unsigned. *)
Definition const_suits (b : basic) (c : a_const) (z : Z) : Prop :=
  match b, c with
  | BBool, ACLit (LBool _) => True
  | BUint _, (ACLit (LInt _ _) | ACIdent _) => 0 <= z
  | BInt _, (ACLit (LInt _ _) | ACIdent _) => True
  | BFloat _, ACLit (LFloat _) => True
  | _, _ => False
  end.

(** [elaborates w ts ns a i]: the body element [a] stands for the item [i], where types are looked
    up in [ts], constants in [ns]; [w] is the size arithmetic with which types are visited. *)
Definition elaborates (w : Z -> Z) (ts : types_t) (ns : names_t) (a : a_item) (i : item) : Prop :=
  match a, i with
  | AIEmb e, IEmb s => exists ns1 ns2, visit_elem w ts ns1 e = Ok (VTStruct s, ns2)
  | AIVoid sz, IOwn (NVoid n) => n = size_bits sz
  | AIConst b n sz c o, IOwn (NConst n' b' n'' big z) =>
      b' = basic_of b /\ n' = match n with Some x => x | None => ""%string end /\
      n'' = match sz with Some x => size_bits x | None => basic_bits b' end /\
      options_ok o big /\ const_value ns c = Some z /\ const_suits b' c z
  | AINormal e a n sz o ms, IOwn (NNormal n' l t a' n'' big) =>
      n' = n /\ a' = option_map Z.of_N a /\
      n'' = match sz with Some x => size_bits x | None => natural_bits t a end /\
      options_ok o big /\ methods_ok ms l /\
      exists v ns1 ns2, visit_elem w ts ns1 e = Ok (v, ns2) /\ t = fty_of v
  | _, _ => False
  end.

(** Types a file sees: those of structs and enums already checked. *)
Definition struct_ok (s : cstruct) : Prop :=
  acc_elem (EStruct (erase (cs_fields s))) /\
  cs_bits s = fixed_bits (erase (cs_fields s)) /\
  cs_dyn s = fields_dyn (erase (cs_fields s)) /\
  Forall width_ok (cs_fields s) /\
  NoDup (flat_map names_of (cs_fields s)).
Definition ctype_ok (c : ctype) : Prop :=
  match c with CTStruct s => struct_ok s | CTEnum e => 1 <= ce_bits e end.
Definition env_ok (ts : types_t) : Prop := Forall (fun x => ctype_ok (snd x)) ts.

(** ** Source sizes.  An upper bound, in bits, on every size the compiler computes for a definition:
    the sum of the sizes of its fields and of the sizes written in it. *)
Definition weight_ref (ts : types_t) (n : string) : Z :=
  match get n ts with Some c => Z.max 0 (t_bits (fty_of (vtype_of c))) | None => 0 end.
Definition weight_size (s : option a_size) : Z :=
  match s with Some x => size_bits x | None => 0 end.
Definition weight_arr (a : option N) : Z := match a with Some n => Z.max 1 (Z.of_N n) | None => 1 end.
Fixpoint weight_elem (ts : types_t) (e : a_elem) : Z :=
  match e with
  | AeBasic _ => 64
  | AeString | AeBytes => 0
  | AeStructRef n | AeEnumRef n | AeIdent n => weight_ref ts n
  | AeStructDef d => weight_struct ts d
  end
with weight_struct (ts : types_t) (d : a_struct) : Z :=
  match d with AStruct _ _ size body => weight_size size + weight_body ts body end
with weight_body (ts : types_t) (b : a_body) : Z :=
  match b with
  | ABNil => 0
  | ABEmpty r => weight_body ts r
  | ABVoid size _ r => size_bits size + weight_body ts r
  | ABConst _ _ size _ _ r => 64 + weight_size size + weight_body ts r
  | ABEmb e _ _ r => weight_elem ts e + weight_body ts r
  | ABNormal e arr _ size _ _ r =>
      weight_elem ts e * weight_arr arr + weight_size size + weight_body ts r
  end.
(** The definition is of a size that an int64 can hold. *)
Definition fits_int64 (ts : types_t) (d : a_struct) : Prop := weight_struct ts d < 2 ^ 63.
