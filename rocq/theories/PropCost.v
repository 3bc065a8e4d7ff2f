(** C118: searches look at logarithmically many items. *)
From Coq Require Import String.
From Verif Require Import Base ModelKeyed ModelValue ModelObject ModelArray ModelStd ModelOrdered ModelEnum ModelJwt ModelRpc SpecCost ProofCost.
Local Open Scope Z_scope.
Local Open Scope list_scope.
Notation length := List.length.

(** A member of an object: of the [n] members at most [log2 n + 1] are looked at, and the
    loop makes no more turns than that (and the test that ends it). *)
Theorem C118_object : forall d name l, decided_by (fun l => value_member (VObj d l) name) l (Nat.log2 (length l) + 1).
Proof. exact object_cost. Qed.
Print Assumptions C118_object.
Theorem C118_turns : forall A (l : list (bytes * A)) name,
  findSorted l name = ModelKeyed.find_loop (Nat.log2 (length l) + 2) l name 0 (length l).
Proof. exact keyed_turns. Qed.
Print Assumptions C118_turns.

(** An item of an ordered container, a name and a value of an enumeration, a key of a
    container of keys. *)
Theorem C118_ordered : forall cmp needle l, decided_by (fun l => ord_find_value cmp l needle) l (Nat.log2 (length l) + 1).
Proof. exact ordered_cost. Qed.
Print Assumptions C118_ordered.
Theorem C118_enum : forall name v l other,
  decided_by (fun l => ne_find (mkNE other l) name) l (Nat.log2 (length l) + 1) /\
  decided_by (fun l => ne_name (mkNE l other) v) l (Nat.log2 (length l) + 1).
Proof. intros name v l other. split; [exact (enum_find_cost other name l)|exact (enum_name_cost other v l)]. Qed.
Print Assumptions C118_enum.
Theorem C118_keys : forall kid l, decided_by (fun l => container_find l kid) l (Nat.log2 (length l) + 1).
Proof. exact container_cost. Qed.
Print Assumptions C118_keys.

(** The first of the equal items of an ordered container may take looking at half of it. *)
Theorem C118_lower_refuted : exists cmp needle, forall n, exists l, length l = n /\
  forall k, decided_by (fun l => ord_lower cmp l needle) l k -> (n / 2 <= k)%nat.
Proof. exists rank_cmp, ([], VNull). intros n. exists (nulls n). split; [apply repeat_length|exact (lower_linear n)]. Qed.
Print Assumptions C118_lower_refuted.

(** Seven members: three comparisons settle any search, one of them finds the middle. *)
Definition seven : list (bytes * Z) := [(txt "a", 1); (txt "b", 2); (txt "c", 3); (txt "d", 4); (txt "e", 5); (txt "f", 6); (txt "g", 7)].
Example C118_case : findSorted seven (txt "d") = Ok (Some (txt "d", 4)) /\ findSorted seven (txt "f") = Ok (Some (txt "f", 6)) /\
  ModelKeyed.find_loop 2 seven (txt "d") 0 7 = Ok (Some (txt "d", 4)) /\ ModelKeyed.find_loop 2 seven (txt "g") 0 7 = Fuel /\
  ModelKeyed.find_loop 3 seven (txt "g") 0 7 = Ok (Some (txt "g", 7)) /\ ModelKeyed.find_loop 3 seven (txt "h") 0 7 = Fuel /\
  ModelKeyed.find_loop 4 seven (txt "h") 0 7 = Ok None /\ (Nat.log2 7 + 2)%nat = 4%nat.
Proof. vm_compute. repeat split. Qed.
