(** What the diff laws speak about. *)
From Verif Require Import Base ModelKeyed SpecKeyed ModelValue ModelObject ModelEq.

(** Members of an object as users have them: sorted, none undefined. *)
Definition plain_object (l : list member) : Prop :=
  keys_increasing l /\ forall k v, In (k, v) l -> is_undef v = false.

(** [ne] returns only what [operator!=] can return, however objects are shared. *)
Definition ne_ok (L : libm) (ne : value -> value -> bool) : Prop :=
  forall v w, op_eq L v w (negb (ne v w)).
