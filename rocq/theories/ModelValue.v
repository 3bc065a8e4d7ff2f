(** JSON values and doubles.
    Values follow /repo/src/imtjson/basicValues.h, stringValue.h, arrayValue.h,
    objectValue.h and key.h. *)
From Coq Require Export SpecFloat.
From Verif Require Import Base ModelKeyed.
Local Open Scope Z_scope.

(** stringValue.cpp 275-279: the three instances of [PreciseNumberValue] the
    parser creates.  The integer ones cache their value; the double one is
    evaluated by [strtod] on demand. *)
Inductive pkind := PkDbl | PkUInt (n : Z) | PkInt (n : Z).

(** basicValues.h: [UnsignedIntegerValue], [IntegerValue], [NumberValue], and
    stringValue.h 60-95: [PreciseNumberValue].  On LP64 the "long" variants
    have the same range as the plain ones and are identified with them. *)
Inductive num :=
| NUInt (n : Z)
| NInt (n : Z)
| NDbl (f : spec_float)
| NPrec (text : bytes) (k : pkind).

(** binary.h: the binary encodings of the library (base64, base64url,
    urlEncoding, utf8encoding/directEncoding). *)
Inductive enc := EncBase64 | EncBase64Url | EncUrl | EncUtf8.

(** Values.  A [PValue] handle is a pair (key, value): the key is that of the
    proxy wrapping the value (key.h, [IValue::getMemberName]); no proxy and a
    proxy with an empty key are identified (both report an empty key).  Array
    items keep their keys.  [VObj] carries the [isDiff] flag (objectValue.h 33). *)
Inductive value :=
| VUndef
| VNull
| VBool (b : bool)
| VNum (n : num)
| VStr (e : option enc) (s : bytes)
| VArr (l : list (bytes * value))
| VObj (diff : bool) (l : list (bytes * value)).

(** value.h, [Value::defined] negated. value.h 611. *)
Definition is_undef (v : value) : bool :=
  match v with VUndef => true | _ => false end.

(** *** Doubles *)
(** IEEE binary64 arithmetic, round to nearest even (SpecFloat). *)
Definition fprec : Z := 53.
Definition femax : Z := 1024.
Definition f_of_Z (z : Z) : spec_float := binary_normalize fprec femax z 0 false.
Definition f_add := SFadd fprec femax.
Definition f_mul := SFmul fprec femax.
Definition f_div := SFdiv fprec femax.
Definition f_opp := SFopp.
Definition f_abs := SFabs.
Definition f_lt (a b : spec_float) : bool := SFltb a b.
Definition f_isinf (f : spec_float) : bool :=
  match f with S754_infinity _ => true | _ => false end.
Definition f_isfinite (f : spec_float) : bool :=
  match f with S754_finite _ _ _ | S754_zero _ => true | _ => false end.

(** The literals 10.0 and 0.1. *)
Definition f_ten : spec_float := f_of_Z 10.
Definition f_tenth : spec_float := S754_finite false 7205759403792794 (-56).
Definition f_half : spec_float := S754_finite false 4503599627370496 (-53).

(** Rounds a finite double toward minus infinity, as an integer. *)
Definition f_floor_Z (f : spec_float) : option Z :=
  match f with
  | S754_zero _ => Some 0
  | S754_finite s m e =>
    let z := if s then Z.neg m else Z.pos m in
    Some (if 0 <=? e then z * 2 ^ e else z / 2 ^ (- e))
  | _ => None
  end.

(** C [floor]. Called at parser.h 641, 672, serializer.h 287, 317. *)
Definition f_floor (f : spec_float) : spec_float :=
  match f with
  | S754_finite s m e =>
    match f_floor_Z f with
    | Some z => binary_normalize fprec femax z 0 s
    | None => f
    end
  | _ => f
  end.

(** Rounds a finite double toward zero, as an integer. *)
Definition f_trunc_Z (f : spec_float) : option Z :=
  match f with
  | S754_zero _ => Some 0
  | S754_finite s m e =>
    let q := if 0 <=? e then Z.pos m * 2 ^ e else Z.pos m / 2 ^ (- e) in
    Some (if s then - q else q)
  | _ => None
  end.

(** C [modf] of a non-negative finite double: (fraction, integral part).
    Called at serializer.h 313. *)
Definition f_modf (f : spec_float) : spec_float * spec_float :=
  match f_trunc_Z f with
  | Some z =>
    let ip := binary_normalize fprec femax z 0 false in
    (SFsub fprec femax f ip, ip)
  | None => match f with S754_infinity s => (S754_zero s, f) | _ => (f, f) end
  end.

(** The cast [(UInt)f]; [None] is undefined behaviour (value not representable).
    As at stringValue.cpp 199. *)
Definition f_to_u64 (f : spec_float) : option Z :=
  match f_trunc_Z f with
  | Some z => if (0 <=? z) && (z <? 2 ^ 64) then Some z else None
  | None => None
  end.

(** value.cpp 142-156, 278-290: [Value(Int)], [Value(double)]: zero of any kind is the shared
    one (basicValues.cpp 20-28), an unsigned integer. *)
Definition value_of_int (z : Z) : value := VNum (if z =? 0 then NUInt 0 else NInt z).
Definition value_of_double (f : spec_float) : value :=
  VNum (match f with S754_zero _ => NUInt 0 | _ => NDbl f end).

(** libm functions whose results the C++ standard does not fix; every theorem
    holds for all of them. Model only. *)
Record libm := mkLibm {
  lm_pow : spec_float -> spec_float -> spec_float;
  lm_log10 : spec_float -> spec_float;
  lm_strtod : bytes -> spec_float
}.
