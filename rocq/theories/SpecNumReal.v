(** Integers got from reals. *)
From Coq Require Import ZArith Reals.
Local Open Scope R_scope.

(** [z] is [x] without its fraction. *)
Definition truncates (z : Z) (x : R) : Prop :=
  (0 <= x -> IZR z <= x < IZR z + 1) /\ (x <= 0 -> IZR z - 1 < x <= IZR z).
