(** Properties C17 and C18. *)
From Verif Require Import Base ModelKeyed SpecKeyed ModelValue ModelObject ModelArray ModelPath SpecPath ProofPath.
Local Open Scope Z_scope.

(** C17.  Replacing in a document succeeds, gives a document, and the new value
    is read back at the path. *)
Theorem C17_put_get : forall v p new, doc v -> path_ok p -> fits v (rev p) -> doc new ->
  exists v', replace_path v p ([], new) = Some ([], v') /\ doc v' /\ get_path v' p = new.
Proof. exact put_get. Qed.
Print Assumptions C17_put_get.

(** C17.  Replacing a value by what is there already changes nothing. *)
Theorem C17_get_put : forall v p, doc v -> path_ok p -> fits v (rev p) -> get_path v p <> VUndef ->
  replace_path v p ([], get_path v p) = Some ([], v).
Proof. exact get_put. Qed.
Print Assumptions C17_get_put.

(** C17.  A path that parts ways with the replaced one reads the same value as
    before. *)
Theorem C17_elsewhere : forall v p q new k v', doc v -> path_ok p -> path_ok q -> fits v (rev p) -> doc new ->
  diverge (rev p) (rev q) -> replace_path v p ([], new) = Some (k, v') -> get_path v' q = get_path v q.
Proof. exact elsewhere. Qed.
Print Assumptions C17_elsewhere.

(** C17.  Replacing by undefined at a key removes the member and nothing else. *)
Theorem C17_delete : forall v k p, doc v -> path_ok p -> fits v (rev p) ->
  exists v', replace_path v (pkey k :: p) ([], VUndef) = Some ([], v') /\ doc v' /\
    get_path v' (pkey k :: p) = VUndef /\
    forall q, path_ok q -> diverge (rev (pkey k :: p)) (rev q) -> get_path v' q = get_path v q.
Proof. exact delete_law. Qed.
Print Assumptions C17_delete.

(** An index past the end appends: the value does not appear at the path. *)
Theorem C17_index_past_end_refuted : exists v p new v', doc v /\ path_ok p /\ doc new /\
  replace_path v p ([], new) = Some ([], v') /\ get_path v' p <> new.
Proof. exact past_end. Qed.
Print Assumptions C17_index_past_end_refuted.

(** An index that reads a member of an object replaces the whole object. *)
Theorem C17_index_into_object_refuted : exists v p q new v', doc v /\ path_ok p /\ path_ok q /\ doc new /\
  diverge (rev p) (rev q) /\ get_path v p <> VUndef /\
  replace_path v p ([], new) = Some ([], v') /\ get_path v' q <> get_path v q.
Proof. exact into_object. Qed.
Print Assumptions C17_index_into_object_refuted.

(** A three-level replacement in a mixed document. *)
Definition doc1 : value :=
  VObj false [([97], VArr [([], VNum (NUInt 1)); ([], VObj false [([98], VNull); ([99], VBool true)])]); ([100], VStr None [120])].
Definition path1 : path := [pkey [98]; pindex 1; pkey [97]].
Example C17_case :
  doc doc1 /\ path_ok path1 /\ fits doc1 (rev path1) /\ get_path doc1 path1 = VNull /\
  diverge (rev path1) (rev [pkey [99]; pindex 1; pkey [97]]) /\
  replace_path doc1 path1 ([], VNum (NUInt 7)) =
    Some ([], VObj false [([97], VArr [([], VNum (NUInt 1)); ([], VObj false [([98], VNum (NUInt 7)); ([99], VBool true)])]); ([100], VStr None [120])]) /\
  replace_path doc1 path1 ([], VUndef) =
    Some ([], VObj false [([97], VArr [([], VNum (NUInt 1)); ([], VObj false [([99], VBool true)])]); ([100], VStr None [120])]).
Proof.
  split; [unfold doc1; repeat (constructor; cbn [fst snd]); vm_compute; auto|].
  split; [unfold path1, path_ok; repeat (constructor; [unfold elem_ok; first [left; reflexivity|right; split; [reflexivity|split; reflexivity || discriminate]]|]); constructor|].
  split; [vm_compute; repeat split; discriminate|]. split; [vm_compute; reflexivity|].
  split; [exists [pkey [97]; pindex 1], (pkey [98]), (pkey [99]), [], []; repeat split; discriminate|].
  split; vm_compute; reflexivity.
Qed.

(** C18.  The order of paths. *)
Theorem C18_antisymmetric : forall p q, path_compare q p = CompOpp (path_compare p q).
Proof. exact path_compare_sym. Qed.
Print Assumptions C18_antisymmetric.
Theorem C18_equal : forall p q, path_ok p -> path_ok q -> (path_compare p q = Eq <-> p = q).
Proof. exact path_compare_eq. Qed.
Print Assumptions C18_equal.
Theorem C18_transitive : forall p q r, path_ok p -> path_ok q -> path_ok r ->
  path_compare p q = Lt -> path_compare q r = Lt -> path_compare p r = Lt.
Proof. exact path_compare_trans. Qed.
Print Assumptions C18_transitive.

(** C18.  Leaves are compared first; indexes come before keys. *)
Theorem C18_leaf_first : forall x y p q, path_ok [x] -> path_ok [y] -> path_compare [x] [y] <> Eq ->
  path_compare (x :: p) (y :: q) = path_compare [x] [y].
Proof. exact leaf_first. Qed.
Print Assumptions C18_leaf_first.
Theorem C18_components : forall i j k l, 0 <= i < 2 ^ 64 - 1 -> 0 <= j < 2 ^ 64 - 1 ->
  path_compare [pindex i] [pkey k] = Lt /\ path_compare [pindex i] [pindex j] = (i ?= j) /\
  path_compare [pkey k] [pkey l] = kcmp k l.
Proof. exact components. Qed.
Print Assumptions C18_components.

(** C18.  Conversion to a value and back; [uint_of] is any reading of numbers
    that is exact on unsigned integers. *)
Theorem C18_round_trip : forall uint_of p, path_ok p -> (forall n, 0 <= n < 2 ^ 64 -> uint_of (NUInt n) = n) ->
  path_from_value uint_of (path_to_value p) = Some p.
Proof. exact path_round_trip. Qed.
Print Assumptions C18_round_trip.

Example C18_case :
  path_to_value path1 = VArr [([], VStr None [97]); ([], VNum (NUInt 1)); ([], VStr None [98])] /\
  path_from_value (fun n => match n with NUInt z => z | _ => 0 end) (path_to_value path1) = Some path1 /\
  path_compare path1 [pkey [98]; pkey [97]] = Lt /\ path_compare [pkey [98]; pkey [97]] [pkey [99]] = Lt.
Proof. repeat split; vm_compute; reflexivity. Qed.
