(** Places in a value and their order. *)
From Coq Require Import Sorted.
From Verif Require Import Base ModelKeyed ModelValue ModelObject.

(** What is at a place: a list of positions, from the value inwards. *)
Fixpoint node_at (m : member) (p : list nat) : option member :=
  match p with
  | [] => Some m
  | i :: p' => match nth_error (members_of (snd m)) i with Some m' => node_at m' p' | None => None end
  end.

(** A container before what is inside it, items in their order with all that is
    inside them. *)
Inductive before : list nat -> list nat -> Prop :=
| Before_inside : forall i p, before [] (i :: p)
| Before_later : forall i j p q, i < j -> before (i :: p) (j :: q)
| Before_same : forall i p q, before p q -> before (i :: p) (i :: q).
