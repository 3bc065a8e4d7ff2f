(** C09, C10: key lookup and object construction. *)
From Coq Require Import Sorted.
From Verif Require Import Base ModelKeyed SpecKeyed ProofKeyed.
Local Open Scope Z_scope.

(** The key order of the library, in words: common prefix, then end of string
    or the smaller (signed) character first. *)
Theorem C09_key_order : forall a b, is_bytes a -> is_bytes b ->
  (klt a b <-> key_before a b).
Proof. exact klt_key_before. Qed.
Print Assumptions C09_key_order.

(** In an ordered object a lookup returns the member with that key if there is
    one, and nothing otherwise. *)
Theorem C09_lookup_exact : forall A (items : list (bytes * A)) name,
  keys_increasing items ->
  (forall v, find_member items name = Some (name, v) <-> In (name, v) items) /\
  (find_member items name = None <-> forall v, ~ In (name, v) items) /\
  (forall m, find_member items name = Some m -> fst m = name).
Proof. exact @lookup_exact. Qed.
Print Assumptions C09_lookup_exact.

(** The search never leaves the container and always finishes. *)
Theorem C09_lookup_safe : forall A (items : list (bytes * A)) name,
  keys_increasing items -> exists r, findSorted items name = Ok r.
Proof. exact @lookup_safe. Qed.
Print Assumptions C09_lookup_safe.

Definition k_a : bytes := [97].
Definition k_ab : bytes := [97; 98].
Definition k_high : bytes := [195; 161].

Example C09_case :
  keys_increasing [(k_high, 1); (k_a, 2); (k_ab, 3)] /\
  find_member [(k_high, 1); (k_a, 2); (k_ab, 3)] k_ab = Some (k_ab, 3) /\
  find_member [(k_high, 1); (k_a, 2); (k_ab, 3)] [98] = None.
Proof. split; [|split; reflexivity]. repeat constructor. Qed.

(** Sorting keyed members: strictly increasing keys, each key bound to the last
    value given for it, and nothing else. *)
Theorem C10_sort_last_wins : forall A (l : list (bytes * A)),
  keys_increasing (obj_sort l) /\
  (forall k v, In (k, v) (obj_sort l) <-> last_binding k l = Some v).
Proof. exact @sort_last_wins. Qed.
Print Assumptions C10_sort_last_wins.

(** Building an object from a sequence of values, skipping the undefined ones. *)
Theorem C10_object_from_members : forall A (skip : A -> bool) (l : list (bytes * A)),
  keys_increasing (build_object skip l) /\
  (forall k v, In (k, v) (build_object skip l) <->
     last_binding k (filter (fun m => negb (skip (snd m))) l) = Some v).
Proof. exact @build_last_wins. Qed.
Print Assumptions C10_object_from_members.

(** [last_binding] says what it should: the value of the last occurrence. *)
Theorem C10_last_binding_meaning : forall A k (l : list (bytes * A)) v,
  last_binding k l = Some v <->
  exists l1 l2, l = l1 ++ (k, v) :: l2 /\ ~ In k (map fst l2).
Proof. exact @last_binding_meaning. Qed.
Print Assumptions C10_last_binding_meaning.

Example C10_case :
  obj_sort [(k_ab, 1); (k_a, 2); (k_ab, 3); (k_high, 4); (k_a, 5)] =
    [(k_high, 4); (k_a, 5); (k_ab, 3)] /\
  build_object (fun v => v =? 0) [(k_a, 2); (k_ab, 3); (k_a, 5); (k_ab, 0)] = [(k_a, 5); (k_ab, 3)].
Proof. split; reflexivity. Qed.
