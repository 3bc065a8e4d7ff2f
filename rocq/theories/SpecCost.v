(** What the property of the cost of a search speaks about. *)
From Verif Require Import Base.

(** The answer of [f] on the list is settled by at most [k] of its items: whatever the other
    items are, the answer is the same. *)
Definition decided_by {A B} (f : list A -> B) (l : list A) (k : nat) : Prop :=
  exists ps, (length ps <= k)%nat /\
    forall l', length l' = length l -> (forall i, In i ps -> nth_error l' i = nth_error l i) -> f l' = f l.
