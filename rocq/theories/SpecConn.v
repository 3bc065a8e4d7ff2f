(** Data kept with a connection, as a table. *)
From Verif Require Import Base ModelValue ModelConn.

(** A table of all keys, at first undefined. *)
Definition table := bytes -> value.
Definition put (t : table) (k : bytes) (v : value) : table := fun k' => if beqb k k' then v else t k'.

(** What the retrievals must give. *)
Fixpoint expected (t : table) (ops : list conn_op) : list value :=
  match ops with
  | [] => []
  | DStore k v :: ops' => expected (put t k v) ops'
  | DRetrieve k :: ops' => t k :: expected t ops'
  end.

Definition stores (ops : list conn_op) : nat :=
  length (filter (fun op => match op with DStore _ _ => true | DRetrieve _ => false end) ops).
