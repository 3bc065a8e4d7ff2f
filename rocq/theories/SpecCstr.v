(** Strings cut out of other strings. *)
From Verif Require Import Base ModelValue ModelEnc ModelMem SpecMem ModelCstr.
Local Open Scope list_scope.
Local Open Scope Z_scope.

(** [cut L h t from n]: after any number of cuts, [h] is the part of [n] characters starting at
    [from] of a string holding [t]. *)
Inductive cut (L : layout) : shandle -> bytes -> nat -> nat -> Prop :=
| cut_own : forall s t, holds L s t -> cut L (HOwn s) t 0 (length t)
| cut_sub : forall h t from n pos len, cut L h t from n -> cut L (HSub h (Z.of_nat pos) (Z.of_nat len)) t (from + Nat.min pos n) (Nat.min len (n - pos)).

(** The characters before the first zero. *)
Fixpoint before_zero (t : bytes) : bytes :=
  match t with
  | [] => []
  | c :: t' => if c =? 0 then [] else c :: before_zero t'
  end.
