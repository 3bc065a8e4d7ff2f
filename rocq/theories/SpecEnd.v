(** Specification for sources that go on after their end. *)
From Verif Require Import Base.

(** The text breaks off within the four characters after [\u]. *)
Local Open Scope Z_scope.
Definition inside_escape (s : list Z) : Prop := exists pre h, s = pre ++ 92 :: 117 :: h /\ (length h < 4)%nat.
