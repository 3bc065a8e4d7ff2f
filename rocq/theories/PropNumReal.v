(** C63: integers got from numbers. *)
From Coq Require Import ZArith Reals Lra Floats.SpecFloat.
From Verif Require Import Base ModelValue ModelText SpecDouble ModelJwt ModelNumView SpecNumReal ProofNumReal.
Local Open Scope Z_scope.

(** A floating point number gives its integral part if that fits the type, and
    otherwise the conversion is undefined. *)
Theorem C63_double : forall L F d z, finite d ->
  (value_s64 L F (VNum (NDbl d)) = Some z <-> truncates z (real_of d) /\ - 2 ^ 63 <= z < 2 ^ 63) /\
  (value_u64 L F (VNum (NDbl d)) = Some z <-> truncates z (real_of d) /\ 0 <= z < 2 ^ 64).
Proof. exact double_int. Qed.
Print Assumptions C63_double.

Theorem C63_not_finite : forall L F d, f_isfinite d = false ->
  value_s64 L F (VNum (NDbl d)) = None /\ value_u64 L F (VNum (NDbl d)) = None.
Proof. exact double_none. Qed.
Print Assumptions C63_not_finite.

(** Integers are converted modulo 2^64. *)
Theorem C63_integers : forall L F u i, 0 <= u < 2 ^ 64 -> - 2 ^ 63 <= i < 2 ^ 63 ->
  value_u64 L F (VNum (NUInt u)) = Some u /\
  value_s64 L F (VNum (NUInt u)) = Some (if u <? 2 ^ 63 then u else u - 2 ^ 64) /\
  value_s64 L F (VNum (NInt i)) = Some i /\
  value_u64 L F (VNum (NInt i)) = Some (if i <? 0 then i + 2 ^ 64 else i).
Proof. exact int_views. Qed.
Print Assumptions C63_integers.

(** -2.5 *)
Example C63_double_case : finite (S754_finite true 5629499534213120 (-51)) /\ real_of (S754_finite true 5629499534213120 (-51)) = (-5/2)%R /\
  forall L F, value_s64 L F (VNum (NDbl (S754_finite true 5629499534213120 (-51)))) = Some (-2) /\
    value_u64 L F (VNum (NDbl (S754_finite true 5629499534213120 (-51)))) = None.
Proof.
  split; [split; reflexivity|]. split.
  { unfold real_of. change (powerRZ 2 (-51)) with (/ (2 ^ 51))%R. replace (2 ^ 51)%R with 2251799813685248%R by lra. lra. }
  intros L F. split; reflexivity.
Qed.
