(** What the hash of a value depends on. *)
From Verif Require Import Base ModelValue ModelObject ModelBin ModelHash SpecBin.
Local Open Scope Z_scope.

(** Numbers: an integer counts by its value however it is stored, except that a
    precise one below 2^32 in magnitude is kept apart; everything else counts as
    a double. *)
Inductive hashed_number := HInt (z : Z) | HWide (z : Z) | HDbl (f : spec_float).
Definition number_form (L : libm) (n : num) : hashed_number :=
  match n with
  | NUInt z | NInt z => HInt z
  | NDbl f => HDbl f
  | NPrec t PkDbl => HDbl (lm_strtod L t)
  | NPrec _ (PkUInt z) | NPrec _ (PkInt z) => if Z.abs z <? 2 ^ 32 then HWide z else HInt z
  end.

(** Values the hash cannot tell apart. *)
Inductive same_form (L : libm) : value -> value -> Prop :=
| SF_undef : same_form L VUndef VUndef
| SF_null : same_form L VNull VNull
| SF_bool : forall b, same_form L (VBool b) (VBool b)
| SF_num : forall a b, bin_num L a -> bin_num L b -> number_form L a = number_form L b -> same_form L (VNum a) (VNum b)
| SF_text : forall s, same_form L (VStr None s) (VStr None s)
| SF_binary : forall e f s, same_form L (VStr (Some e) s) (VStr (Some f) s)
| SF_arr : forall l m, same_items L l m -> same_form L (VArr l) (VArr m)
| SF_obj : forall d c l m, same_items L l m -> same_form L (VObj d l) (VObj c m)
with same_items (L : libm) : list member -> list member -> Prop :=
| SI_nil : same_items L [] []
| SI_cons : forall k v w l m, same_form L v w -> same_items L l m -> same_items L ((k, v) :: l) ((k, w) :: m).
