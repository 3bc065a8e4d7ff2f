(** When const functions may run side by side. *)
From Verif Require Import Base ModelKeyed SpecKeyed ModelValue ModelObject SpecObject ModelConst.

(** A data race: two calls at the same time, one writing what the other reads or writes. *)
Definition race (o : obj) (c d : cfun) : Prop :=
  exists f, (In f (writes o c) /\ (In f (writes o d) \/ In f (reads o d))) \/ (In f (writes o d) /\ In f (reads o c)).

(** No change is waiting to be sorted; to be iterated an object must have its snapshot. *)
Definition settled (o : obj) : Prop := match o_unordered o with Some (_, u) => u = [] | None => True end.
Definition calm (o : obj) (c : cfun) : Prop := c = KIterate -> is_undef (o_snap o) = false.

(** What a field holds. *)
Definition same_field (o1 o2 : obj) (f : field) : Prop :=
  match f with
  | FOrdered => o_ordered o1 = o_ordered o2
  | FUnordered => o_unordered o1 = o_unordered o2
  | FSnap => o_snap o1 = o_snap o2
  end.
