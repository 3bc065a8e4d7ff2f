(** Values all of whose strings and numbers meet a condition. *)
From Coq Require Import Floats.SpecFloat.
From Verif Require Import Base ModelValue.

Inductive made_of (Q : bytes -> Prop) (P : num -> Prop) : value -> Prop :=
| mo_undef : made_of Q P VUndef
| mo_null : made_of Q P VNull
| mo_bool : forall b, made_of Q P (VBool b)
| mo_num : forall n, P n -> made_of Q P (VNum n)
| mo_str : forall e s, Q s -> made_of Q P (VStr e s)
| mo_arr : forall l, Forall (fun m => made_of Q P (snd m)) l -> made_of Q P (VArr l)
| mo_obj : forall d l, Forall (fun m => Q (fst m) /\ made_of Q P (snd m)) l -> made_of Q P (VObj d l).

Definition any_num (n : num) : Prop := True.
(** Integers, precise numbers and infinities. *)
Definition no_double (n : num) : Prop :=
  match n with NDbl f => exists s, f = S754_infinity s | _ => True end.
(** No zero but the unsigned integer one. *)
Definition one_zero (n : num) : Prop := n <> NInt 0 /\ forall s, n <> NDbl (S754_zero s).
