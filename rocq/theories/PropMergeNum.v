(** C55: merging and subtracting numbers. *)
From Coq Require Import ZArith Floats.SpecFloat.
From Verif Require Import Base ModelKeyed ModelValue ModelObject ModelEq ModelDiff ModelMerge ProofMergeNum PropEq.
Local Open Scope Z_scope.

(** Whole numbers of any form up to [2 ^ 53]: merging adds, and [diff] takes the second
    number off again. *)
Theorem C55_numbers : forall L eq fuel a b n m, Z.abs a <= 2 ^ 53 -> Z.abs b <= 2 ^ 53 -> Z.abs (a + b) <= 2 ^ 53 ->
  get_number L n = f_of_Z a -> get_number L m = f_of_Z b ->
  exists s r, vmerge L eq (VNum n) (VNum m) = Ok (VNum s) /\ get_number L s = f_of_Z (a + b) /\
    vdiff L eq fuel (VNum s) (VNum m) = Ok (VNum r) /\ get_number L r = f_of_Z a.
Proof. exact numbers_back. Qed.
Print Assumptions C55_numbers.

Example C55_numbers_case : get_number eqL (NUInt 7) = f_of_Z 7 /\ get_number eqL (NInt (-9)) = f_of_Z (-9) /\
  vmerge eqL (veq eqL) (VNum (NUInt 7)) (VNum (NInt (-9))) = Ok (VNum (NDbl (f_of_Z (-2)))) /\
  vdiff eqL (veq eqL) 0 (VNum (NDbl (f_of_Z (-2)))) (VNum (NInt (-9))) = Ok (VNum (NDbl (f_of_Z 7))) /\
  vmerge eqL (veq eqL) (VNum (NUInt 9)) (VNum (NInt (-9))) = Ok (VNum (NUInt 0)).
Proof. vm_compute. repeat split. Qed.
