(** [Object::size]: /repo/src/imtjson/object.cpp 391-393. *)
From Verif Require Import Base ModelKeyed ModelValue ModelObject ModelArray.

(** The layers are counted one by one; a sum of numbers of members in memory does not wrap. *)
Definition obj_size (o : obj) : nat :=
  vsize (o_base o) +
  (match o_ordered o with None => 0 | Some (_, l) => length l end) +
  (match o_unordered o with None => 0 | Some (_, l) => length l end).
