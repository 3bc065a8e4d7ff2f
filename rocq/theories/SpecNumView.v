(** Which number a value stands for. *)
From Verif Require Import Base ModelValue ModelText ModelJwt.
Local Open Scope Z_scope.

(** A text stands for what the JSON value it starts with stands for; a text that
    starts with none, a container, null and nothing stand for 0. *)
Inductive stands_for (L : libm) (F : pflags) : value -> num -> Prop :=
| SF_num : forall n, stands_for L F (VNum n) n
| SF_bool : forall b : bool, stands_for L F (VBool b) (NUInt (if b then 1 else 0))
| SF_null : stands_for L F VNull (NUInt 0)
| SF_undef : stands_for L F VUndef (NUInt 0)
| SF_arr : forall l, stands_for L F (VArr l) (NUInt 0)
| SF_obj : forall d l, stands_for L F (VObj d l) (NUInt 0)
| SF_text : forall e s w n, from_string L F s = Ok w -> stands_for L F w n -> stands_for L F (VStr e s) n
| SF_other : forall e s, from_string L F s = Err -> stands_for L F (VStr e s) (NUInt 0).
