(** Custom getters and setters: the schema's expressions and the text the generators print for them.

    Models definition/expr.go:144-338 and the expression generators of all targets:
    golang.go:2833-3001, c.go:3234-3376, cpp.go:3502-3644, csharp.go:3414-3553, java.go:3129-3268,
    python.go:2417-2543, commonjs.go:3665-3790, esm_decode.go:838-962, kotlin.go:484-567.
    Simplifications: string constants are left out (they are not values of a basic type); a floating-point
    constant is given by the text fmt writes for its magnitude. *)
From Coq Require Import ZArith Lia Bool String Ascii List.
Import ListNotations.
From Verif Require Import Base Literals.
Open Scope string_scope.
Open Scope Z_scope.
Open Scope list_scope.

(** ** Expressions: definition/expr.go *)

Inductive bty : Type := TyBool | TyU8 | TyU16 | TyU32 | TyU64 | TyI8 | TyI16 | TyI32 | TyI64 | TyF32 | TyF64.
Inductive unop : Type := UAdd | USub | UBnot | UNot.
Inductive binop : Type :=
| OAdd | OSub | OMul | ODiv | OMod | OPow | OShl | OShr | OLt | OLe | OGt | OGe | OEq | ONe
| OBand | OBxor | OBor | OAnd | OOr.

Inductive expr : Type :=
| EValue
| EInt (l : ilit)
| EFloat (neg : bool) (digits : chars)
| EBool (b : bool)
| EUn (o : unop) (e : expr)
| EBin (o : binop) (a b : expr)
| ECast (t : bty) (e : expr)
| ETern (c a b : expr).

(** GetExprType, expr.go:197-330, with the types the visitor sets (proto_visitor.go:1289-1950): only casts,
    the value (of type [vt]), Boolean constants and conditionals of such have one. *)
Fixpoint expr_type (vt : bty) (e : expr) : option bty :=
  match e with
  | EValue => Some vt
  | EBool _ => Some TyBool
  | ECast t _ => Some t
  | ETern _ a _ => expr_type vt a
  | _ => None
  end.

(** ** The text *)

(** GenerateType of a basic type: the typeMap of each target. *)
Definition type_name (g : olang) (t : bty) : chars :=
  cs match g with
     | OGo => match t with TyBool => "bool" | TyU8 => "uint8" | TyU16 => "uint16" | TyU32 => "uint32" | TyU64 => "uint64"
              | TyI8 => "int8" | TyI16 => "int16" | TyI32 => "int32" | TyI64 => "int64" | TyF32 => "float32" | TyF64 => "float64" end
     | OC | OCpp => match t with TyBool => "bool" | TyU8 => "uint8_t" | TyU16 => "uint16_t" | TyU32 => "uint32_t" | TyU64 => "uint64_t"
              | TyI8 => "int8_t" | TyI16 => "int16_t" | TyI32 => "int32_t" | TyI64 => "int64_t" | TyF32 => "float" | TyF64 => "double" end
     | OCs => match t with TyBool => "bool" | TyU8 => "byte" | TyU16 => "ushort" | TyU32 => "uint" | TyU64 => "ulong"
              | TyI8 => "sbyte" | TyI16 => "short" | TyI32 => "int" | TyI64 => "long" | TyF32 => "float" | TyF64 => "double" end
     | OJava => match t with TyBool => "boolean" | TyU8 | TyI8 => "byte" | TyU16 | TyI16 => "short" | TyU32 | TyI32 => "int"
              | TyU64 | TyI64 => "long" | TyF32 => "float" | TyF64 => "double" end
     | OKt => match t with TyBool => "Boolean" | TyU8 => "UByte" | TyU16 => "UShort" | TyU32 => "UInt" | TyU64 => "ULong"
              | TyI8 => "Byte" | TyI16 => "Short" | TyI32 => "Int" | TyI64 => "Long" | TyF32 => "Float" | TyF64 => "Double" end
     | OPy => match t with TyBool => "bool" | TyF32 | TyF64 => "float" | _ => "int" end
     | OCjs | OEsm => match t with TyBool => "Boolean" | TyU64 | TyI64 => "BigInt" | _ => "Number" end
     end.

(** exprOpToString of each target (kotlin.go uses definition/expr.go:118-148). *)
Definition un_text (g : olang) (o : unop) : chars :=
  cs match o with
     | UAdd => "+"
     | USub => "-"
     | UBnot => match g with OGo => "^" | _ => "~" end
     | UNot => match g with OPy => "not" | _ => "!" end
     end.
Definition bin_text (g : olang) (o : binop) : chars :=
  cs match o with
     | OAdd => "+" | OSub => "-" | OMul => "*" | ODiv => "/" | OMod => "%" | OPow => "**"
     | OShl => match g with OKt => "shl" | _ => "<<" end
     | OShr => match g with OKt => "shr" | _ => ">>" end
     | OLt => "<" | OLe => "<=" | OGt => ">" | OGe => ">=" | OEq => "==" | ONe => "!="
     | OBand => match g with OKt => "and" | _ => "&" end
     | OBxor => match g with OKt => "xor" | _ => "^" end
     | OBor => match g with OKt => "or" | _ => "|" end
     | OAnd => match g with OPy => "and" | _ => "&&" end
     | OOr => match g with OPy => "or" | _ => "||" end
     end.

(** The text standing for "value": in a getter the field of the message, in a setter the parameter
    (golang.go:971, c.go:1183, cpp.go:1261, csharp.go:985, java.go:931, python.go:717, commonjs.go:1564,
    esm.go:1362, kotlin.go:425; "value" in all setters). *)
Definition value_text (g : olang) (field : option chars) : chars :=
  match field with
  | None => cs "value"
  | Some f =>
      match g with
      | OPy => cs "self._" ++ f
      | OC => cs "ptr->" ++ f
      | OCpp => cs "this->" ++ f
      | _ => cs "this." ++ f
      end
  end.

Definition bool_text (g : olang) (b : bool) : chars :=
  cs match g with OPy => if b then "True" else "False" | _ => if b then "true" else "false" end.

Notation "a +++ b" := (a ++ b) (at level 60, right associativity, only parsing).

(** The name of the power function, where there is one (golang.go:2916, c.go:3316, cpp.go:3584,
    csharp.go:3493, java.go:3208). *)
Definition pow_fun (g : olang) : option string :=
  match g with
  | OGo => Some "math.Pow("
  | OC | OCpp => Some "pow("
  | OCs => Some "Math.Pow("
  | OJava => Some "Math.pow("
  | _ => None
  end.

(** GenerateExpr: [None] is a compile error. *)
Fixpoint print (g : olang) (dn : bool) (vt : bty) (field : option chars) (e : expr) : option chars :=
  let pr := print g dn vt field in
  match e with
  | EValue => Some (value_text g field)
  | EInt l => Some (emit_int g dn l)
  | EFloat neg ds => Some ((if neg then cs "-" else []) ++ ds)
  | EBool b => Some (bool_text g b)
  | EUn o a =>
      match pr a with
      | None => None
      | Some x =>
          Some match g, o with
               | OKt, UBnot => cs "(" ++ x ++ cs ").inv()"                      (* kotlin.go:513 *)
               | _, _ => cs "(" ++ un_text g o ++ x ++ cs ")"                   (* golang.go:2899 ... *)
               end
      end
  | EBin o a b =>
      match pr a, pr b with
      | Some x, Some y =>
          Some match o, g with
               | OPow, OKt => cs "(" ++ x ++ cs ").toDouble().pow((" ++ y ++ cs ").toDouble())"   (* kotlin.go:526-532: the type is nil *)
               | (OShl | OShr), OKt => cs "(" ++ x ++ cs " " ++ bin_text g o ++ cs " (" ++ y ++ cs ").toInt())"   (* 540-543 *)
               | OPow, _ =>
                   match pow_fun g with
                   | Some f => cs f ++ x ++ cs ", " ++ y ++ cs ")"
                   | None => cs "(" ++ x ++ cs " " ++ bin_text g o ++ cs " " ++ y ++ cs ")"
                   end
               | _, _ => cs "(" ++ x ++ cs " " ++ bin_text g o ++ cs " " ++ y ++ cs ")"
               end
      | _, _ => None
      end
  | ECast t a =>
      match pr a with
      | None => None
      | Some x =>
          Some match g with
               | OC | OCpp | OCs | OJava => cs "(" ++ type_name g t ++ cs ")" ++ x     (* c.go:3343 ... *)
               | OKt =>                                                                 (* kotlin.go:491-507 *)
                   match t with
                   | TyBool => cs "(" ++ x ++ cs " != 0)"
                   | TyU8 | TyU16 => cs "(" ++ x ++ cs ").toUInt().to" ++ type_name g t ++ cs "()"
                   | TyI8 | TyI16 => cs "(" ++ x ++ cs ").toInt().to" ++ type_name g t ++ cs "()"
                   | _ => cs "(" ++ x ++ cs ").to" ++ type_name g t ++ cs "()"
                   end
               | _ => type_name g t ++ cs "(" ++ x ++ cs ")"                            (* golang.go:2941 ... *)
               end
      end
  | ETern c a b =>
      match pr c, pr a, pr b with
      | Some x, Some y, Some z =>
          match g with
          | OGo =>                                                                      (* golang.go:2952-2993 *)
              match expr_type vt a, expr_type vt b with
              | Some t1, Some t2 =>
                  if list_eq_dec ascii_dec (type_name g t1) (type_name g t2)
                  then Some (cs "func() " ++ type_name g t1 ++ cs " { if " ++ x ++ cs " { return " ++ y ++
                             cs " } else { return " ++ z ++ cs " } }()")
                  else None
              | _, _ => None
              end
          | OPy => Some (cs "(" ++ y ++ cs " if " ++ x ++ cs " else " ++ z ++ cs ")")
          | OKt => Some (cs "(if (" ++ x ++ cs ") " ++ y ++ cs " else " ++ z ++ cs ")")
          | _ => Some (cs "(" ++ x ++ cs " ? " ++ y ++ cs " : " ++ z ++ cs ")")
          end
      | _, _, _ => None
      end
  end.
