(** The real number a number text stands for, and how close to it the number
    read must be. *)
From Coq Require Import ZArith Reals.
From Verif Require Import Base ModelValue SpecText SpecBin SpecAccept SpecDouble.
Local Open Scope Z_scope.

(** [ds / 10 ^ length ds], the text being a point and the digits [ds]. *)
Definition fraction (fp : list Z) : R := (IZR (dec_value (tl fp)) / 10 ^ length (tl fp))%R.
Definition exponent_of (ex : list Z) : Z :=
  match tl ex with
  | 45 :: ds => - dec_value ds
  | 43 :: ds => dec_value ds
  | ds => dec_value ds
  end.
Definition written_value (sg ip fp ex : list Z) : R :=
  ((if match sg with [45] => true | _ => false end then -1 else 1) *
   (IZR (dec_value ip) + fraction fp) * powerRZ 10 (exponent_of ex))%R.

(** Number texts well within the range of doubles: at most 300 digits before
    the point, leading zeros not counted, and after it, an exponent between
    -300 and 300, and a value that is zero or between 1e-300 and 1e300. *)
Definition fair_number (t : list Z) (x : R) : Prop :=
  exists sg ip fp ex, t = sg ++ ip ++ fp ++ ex /\ plain_number sg ip fp ex /\
    dec_value ip < 10 ^ 300 /\ (length (tl fp) <= 300)%nat /\ -300 <= exponent_of ex <= 300 /\
    x = written_value sg ip fp ex /\
    (x = 0 \/ powerRZ 10 (-300) <= Rabs x <= powerRZ 10 300)%R.

Definition finite_num (n : num) : Prop :=
  match n with
  | NUInt _ | NInt _ => True
  | NDbl d => finite d
  | NPrec _ _ => False
  end.
(** The number read: of the right kind, finite, and equal to what is written up
    to one part in 10^11. *)
Definition close_value (n : num) (t : list Z) : Prop :=
  plain_value n t /\ finite_num n /\
  exists x, fair_number t x /\ (Rabs (num_real n - x) <= / 10 ^ 11 * Rabs x)%R.
