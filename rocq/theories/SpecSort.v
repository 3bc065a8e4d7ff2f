(** Runs of equal items. *)
From Verif Require Import Base ModelValue ModelObject.
Local Open Scope Z_scope.

(** [rs] are runs: none is empty, the items of each are equal to its first, and the first of
    the next run is not. *)
Fixpoint runs (cmp : member -> member -> Z) (rs : list (list member)) : Prop :=
  match rs with
  | [] => True
  | [] :: _ => False
  | (x :: t) :: rs' =>
    Forall (fun y => cmp x y = 0) t /\ match rs' with (y :: _) :: _ => cmp x y <> 0 | _ => True end /\ runs cmp rs'
  end.
