(** Sets of characters, as in "[a-z0-9_]". *)
From Verif Require Import Base.
Local Open Scope Z_scope.

Inductive set_item := One (c : Z) | Range (a b : Z).
Definition item_text (i : set_item) : list Z := match i with One c => [c] | Range a b => [a; 45; b] end.
Definition set_text (items : list set_item) : list Z := flat_map item_text items.
Definition in_item (x : Z) (i : set_item) : Prop := match i with One c => x = c | Range a b => a <= x <= b end.

(** The items are what the text is read as: no single character is followed by a
    dash, except by a single dash at the very end; ranges are not empty. *)
Fixpoint readable (items : list set_item) : Prop :=
  match items with
  | [] => True
  | One _ :: rest => (rest = [One 45] \/ hd 0 (set_text rest) <> 45) /\ readable rest
  | Range a b :: rest => a <= b /\ readable rest
  end.
(** The characters in the set.  After a range at the very end the dash belongs to
    the set. *)
Definition in_set (items : list set_item) (x : Z) : Prop :=
  Exists (in_item x) items \/ (x = 45 /\ exists pre a b, items = pre ++ [Range a b]).
