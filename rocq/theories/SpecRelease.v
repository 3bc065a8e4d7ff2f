(** What can be reached from the variables and builders of a program. *)
From Verif Require Import Base ModelKeyed ModelValue ModelObject ModelHeap.

(** A variable or a builder refers to the container at [a] itself. *)
Definition refers (s : hstate) (a : nat) : Prop :=
  In (HR a) (hs_vals s) \/
  exists o, In o (hs_objs s) /\
    (h_base o = Some (HR a) \/ h_snap o = HR a \/ h_ord o = Some a \/ h_unord o = Some a).

(** ... or through other containers. *)
Inductive reached (s : hstate) : nat -> Prop :=
| reached_here : forall a, refers s a -> reached s a
| reached_in : forall a c k b, reached s a -> nth_error (hs_heap s) a = Some c -> In (k, HR b) (c_items c) -> reached s b.

(** The container at [a] holds a pointer to the one at [b]; pointers followed
    once or more. *)
Definition leads (h : heap) (a b : nat) : Prop :=
  exists c k, nth_error h a = Some c /\ In (k, HR b) (c_items c).
Inductive leads_far (h : heap) : nat -> nat -> Prop :=
| leads_once : forall a b, leads h a b -> leads_far h a b
| leads_on : forall a b c, leads h a b -> leads_far h b c -> leads_far h a c.
