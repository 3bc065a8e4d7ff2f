(** The numeric view of any value ([Value::getUInt], [getInt], [getNumber]):
    /repo/src/imtjson/abstractValue.h, basicValues.h, stringValue.cpp. *)
From Verif Require Import Base ModelValue ModelText ModelEq ModelJwt.
Local Open Scope Z_scope.

(** The number a value is converted from.  abstractValue.h 14-18: nothing is 0;
    basicValues.h 24-28: a boolean is 0 or 1; stringValue.cpp 37-71, 88-94: a
    string is parsed and the result is converted, a text that does not parse is
    0.  The first argument bounds the nesting of strings in strings. *)
Fixpoint num_view (fuel : nat) (L : libm) (F : pflags) (v : value) : res num :=
  match v with
  | VNum n => Ok n
  | VBool b => Ok (NUInt (if b then 1 else 0))
  | VStr _ s =>
    match fuel with
    | O => Fuel
    | S f =>
      match from_string L F s with
      | Ok w => num_view f L F w
      | Err => Ok (NUInt 0)
      | Fuel => Fuel
      end
    end
  | _ => Ok (NUInt 0)
  end.
(** With a bound that is always enough (theorem in PropNumView). stringValue.cpp 37-95. *)
Definition view_num (L : libm) (F : pflags) (v : value) : num :=
  match num_view (S (length (get_string v))) L F v with Ok n => n | _ => NUInt 0 end.

(** [getInt] of a number: basicValues.h 99, 101, stringValue.cpp 190-206.
    [None] is undefined behaviour, a double out of range. *)
Definition f_to_s64 (f : spec_float) : option Z :=
  match f_trunc_Z f with
  | Some z => if (- 2 ^ 63 <=? z) && (z <? 2 ^ 63) then Some z else None
  | None => None
  end.
Definition num_s64 (L : libm) (n : num) : option Z :=
  match n with
  | NUInt n | NPrec _ (PkUInt n) => Some (s64 n)
  | NInt n | NPrec _ (PkInt n) => Some n
  | NDbl f => f_to_s64 f
  | NPrec t PkDbl => f_to_s64 (lm_strtod L t)
  end.

(** value.h, [Value::getUInt], [getInt], [getNumber]. value.h 267, 275, 303. *)
Definition value_u64 (L : libm) (F : pflags) (v : value) : option Z := num_u64 L (view_num L F v).
Definition value_s64 (L : libm) (F : pflags) (v : value) : option Z := num_s64 L (view_num L F v).
Definition value_dbl (L : libm) (F : pflags) (v : value) : spec_float := get_number L (view_num L F v).
