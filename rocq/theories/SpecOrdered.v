(** Orders, ordered containers and classes of equal items. *)
From Coq Require Import Sorted.
From Verif Require Import Base ModelValue ModelObject.
Local Open Scope Z_scope.

(** A comparison function returns a negative number, zero or a positive number;
    it must be consistent. *)
Record total_preorder (cmp : member -> member -> Z) : Prop := {
  tp_sym : forall a b, Z.sgn (cmp b a) = - Z.sgn (cmp a b);
  tp_trans : forall a b c, cmp a b <= 0 -> cmp b c <= 0 -> cmp a c <= 0 }.

(** Each item is not above any later one. *)
Definition ordered (cmp : member -> member -> Z) (l : list member) : Prop :=
  StronglySorted (fun a b => cmp a b <= 0) l.
(** Each item is below any later one. *)
Definition strictly_ordered (cmp : member -> member -> Z) (l : list member) : Prop :=
  StronglySorted (fun a b => cmp a b < 0) l.

(** The items of [l] equal to [x], in their order. *)
Definition class (cmp : member -> member -> Z) (x : member) (l : list member) : list member :=
  filter (fun y => cmp x y =? 0) l.
(** How many items are below [x]. *)
Definition below (cmp : member -> member -> Z) (x : member) (l : list member) : nat :=
  length (filter (fun y => cmp y x <? 0) l).
