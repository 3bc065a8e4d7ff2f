(** When the count of an object builder is exact. *)
From Verif Require Import Base ModelKeyed SpecKeyed ModelValue ModelObject SpecObject.

(** The changes made add keys the base does not have, each once, none undefined. *)
Definition only_new (s : ospec) : Prop :=
  NoDup (map fst (s_changes s)) /\
  forall k v, In (k, v) (s_changes s) -> is_undef v = false /\ ~ In k (map fst (obj_members (s_base s))).
