(** Buffers, bits and machine integers shared by every model.

    A byte buffer ([]byte in the generated Go, uint8_t* in C, bytearray in Python ...) is a
    [list Z] whose elements lie in [0,256).  Nothing in this file is generator code. *)
From Coq Require Import ZArith List Lia Bool.
Import ListNotations.
Open Scope Z_scope.

Ltac Zify.zify_post_hook ::= Z.div_mod_to_equations.

(** Outcome of running a piece of generated code: normal, "return -1" (decode failure), or a
    run-time panic (index/slice out of range).  [Panic] is also used for ill-typed model inputs,
    which a typed target program cannot have. *)
Inductive res (A : Type) : Type :=
| Ok (a : A)
| Fail
| Panic.
Arguments Ok {A} a.
Arguments Fail {A}.
Arguments Panic {A}.

Definition bind {A B} (m : res A) (f : A -> res B) : res B :=
  match m with Ok a => f a | Fail => Fail | Panic => Panic end.
Notation "'do' x <- m ; k" := (bind m (fun x => k))
  (at level 200, x pattern, m at level 100, k at level 200, right associativity).

Definition zlen {A} (l : list A) : Z := Z.of_nat (length l).

(** Byte [i] of a buffer; out of range is a panic. *)
Definition rd (buf : list Z) (i : Z) : res Z :=
  if i <? 0 then Panic
  else match nth_error buf (Z.to_nat i) with Some b => Ok b | None => Panic end.

Fixpoint upd_nat (buf : list Z) (i : nat) (b : Z) : list Z :=
  match buf, i with
  | [], _ => []
  | _ :: t, O => b :: t
  | h :: t, S i' => h :: upd_nat t i' b
  end.

(** buf[i] = b; out of range is a panic. *)
Definition wr (buf : list Z) (i : Z) (b : Z) : res (list Z) :=
  if (i <? 0) || (zlen buf <=? i) then Panic
  else Ok (upd_nat buf (Z.to_nat i) b).

Definition bytes_ok (l : list Z) : Prop := Forall (fun b => 0 <= b < 256) l.

(** Bit [k] of a buffer: bit k%8 (least significant first) of byte k/8. *)
Definition bitat (buf : list Z) (k : Z) : bool :=
  Z.testbit (nth (Z.to_nat (k / 8)) buf 0) (k mod 8).

(** Two's complement reading of the low [n] bits of [z]. *)
Definition sext (n z : Z) : Z :=
  let m := z mod 2 ^ n in if m <? 2 ^ (n - 1) then m else m - 2 ^ n.

(** The n-bit non-negative integer whose bit j is [f j]. *)
Fixpoint of_bits (n : nat) (f : Z -> bool) : Z :=
  match n with
  | O => 0
  | S n' => of_bits n' f + (if f (Z.of_nat n') then 2 ^ Z.of_nat n' else 0)
  end.

(** The eight bits of a byte, least significant first. *)
Definition bits_of_byte (b : Z) : list bool :=
  map (fun k => Z.testbit b (Z.of_nat k)) (seq 0 8).
Definition bits_of_bytes (l : list Z) : list bool := flat_map bits_of_byte l.

(** [onth l i]: element [i] of [l], if any. *)
Definition onth {A} (l : list A) (i : Z) : option A :=
  if i <? 0 then None else nth_error l (Z.to_nat i).

(** [overlay buf pos img buf']: [buf'] is [buf] with the bits of [img] laid over it from bit
    position [pos] on; [None] entries of [img], and every bit outside its range, keep the old
    content. *)
Definition overlay (buf : list Z) (pos : Z) (img : list (option bool)) (buf' : list Z) : Prop :=
  length buf' = length buf /\ bytes_ok buf' /\
  forall k, 0 <= k < 8 * zlen buf ->
    bitat buf' k =
      match onth img (k - pos) with Some (Some b) => b | _ => bitat buf k end.

(** [matches buf pos img]: [buf] is long enough to hold [img] at bit [pos] and carries its bits. *)
Definition matches (buf : list Z) (pos : Z) (img : list (option bool)) : Prop :=
  pos + zlen img <= 8 * zlen buf /\
  forall k b, onth img k = Some (Some b) -> bitat buf (pos + k) = b.
