(** C30: the hash of values. *)
From Verif Require Import Base ModelKeyed ModelValue ModelObject ModelEq ModelEnc ModelBin ModelHash
  SpecEq SpecBin SpecHash ProofEq ProofHash.
Local Open Scope Z_scope.

(** Values of the same form have the same hash. *)
Theorem C30_same_form : forall L v w, same_form L v w -> value_hash L v = value_hash L w.
Proof. exact same_form_hash. Qed.
Print Assumptions C30_same_form.

(** Values of the same form compare equal. *)
Theorem C30_same_form_equal : forall L v w, same_form L v w -> proper L v -> veq L v w = true.
Proof. exact same_form_equal. Qed.
Print Assumptions C30_same_form_equal.

(** The bytes hashed are the same only for values of the same form. *)
Theorem C30_hash_input : forall L v w, bin_ok L hash_flags v -> bin_ok L hash_flags w ->
  (serialize_binary L hash_flags ([], v) = serialize_binary L hash_flags ([], w) <-> same_form L v w).
Proof. exact hash_input. Qed.
Print Assumptions C30_hash_input.

(** Texts of the same length that differ in one byte never collide. *)
Theorem C30_one_byte : forall L a c d b, bin_text hash_flags (a ++ c :: b) -> bin_text hash_flags (a ++ d :: b) ->
  value_hash L (VStr None (a ++ c :: b)) = value_hash L (VStr None (a ++ d :: b)) -> c = d.
Proof. exact hash_one_byte. Qed.
Print Assumptions C30_one_byte.

(** Equal values with different hashes: the integer 7 and the double 7.0. *)
Theorem C30_number_refuted : exists v w, forall L, proper L v /\ proper L w /\ veq L v w = true /\ value_hash L v <> value_hash L w.
Proof.
  exists (VNum (NUInt 7)), (VNum (NDbl (f_of_Z 7))). intros L.
  split; [constructor; vm_compute; discriminate|]. split; [constructor; vm_compute; discriminate|]. split; [vm_compute; reflexivity|].
  vm_compute. discriminate.
Qed.
Print Assumptions C30_number_refuted.

(** The integer 7 and the precise number 7. *)
Theorem C30_precise_refuted : exists v w, forall L, proper L v /\ proper L w /\ veq L v w = true /\ value_hash L v <> value_hash L w.
Proof.
  exists (VNum (NUInt 7)), (VNum (NPrec [55] (PkUInt 7))). intros L.
  split; [constructor; vm_compute; discriminate|]. split; [constructor; vm_compute; discriminate|]. split; [vm_compute; reflexivity|].
  vm_compute. discriminate.
Qed.
Print Assumptions C30_precise_refuted.

(** Arrays with the same items under different keys. *)
Theorem C30_array_keys_refuted : exists v w, forall L, proper L v /\ proper L w /\ veq L v w = true /\ value_hash L v <> value_hash L w.
Proof.
  exists (VArr [([], VNull)]), (VArr [([97], VNull)]). intros L.
  split; [repeat constructor|]. split; [repeat constructor|]. split; [vm_compute; reflexivity|].
  vm_compute. discriminate.
Qed.
Print Assumptions C30_array_keys_refuted.

(** The same bytes as text and as binary string. *)
Theorem C30_binary_refuted : exists v w, forall L, proper L v /\ proper L w /\ veq L v w = true /\ value_hash L v <> value_hash L w.
Proof.
  exists (VStr None [97]), (VStr (Some EncBase64) [97]). intros L.
  split; [constructor|]. split; [constructor|]. split; [vm_compute; reflexivity|].
  vm_compute. discriminate.
Qed.
Print Assumptions C30_binary_refuted.

Definition hash_a : value := VObj true [([97], VNum (NInt 5)); ([98], VArr [([], VStr (Some EncUrl) [1; 2])]); ([99], VNum (NPrec [53; 101; 57] (PkUInt 5000000000)))].
Definition hash_b : value := VObj false [([97], VNum (NUInt 5)); ([98], VArr [([], VStr (Some EncBase64) [1; 2])]); ([99], VNum (NInt 5000000000))].
Example C30_case : forall L, same_form L hash_a hash_b /\ proper L hash_a /\ bin_ok L hash_flags hash_a /\ bin_ok L hash_flags hash_b
  /\ value_hash L hash_a = value_hash L hash_b.
Proof.
  intros L. split; [|split; [|split; [|split]]].
  - repeat (constructor; try (cbn; lia)).
  - repeat (constructor; try (vm_compute; discriminate)).
  - cbn. unfold bin_text, is_bytes. repeat split; try (repeat constructor; unfold is_byte; lia); try (cbn; lia).
  - cbn. unfold bin_text, is_bytes. repeat split; try (repeat constructor; unfold is_byte; lia); try (cbn; lia).
  - vm_compute. reflexivity.
Qed.

(** Published FNV-1a values, for no bytes, "a" and "foobar". *)
Example C30_vectors : fnv [] = 0xcbf29ce484222325%Z /\ fnv [97] = 0xaf63dc4c8601ec8c%Z /\
  fnv [102; 111; 111; 98; 97; 114] = 0x85944171f73967e8%Z.
Proof. vm_compute. repeat split. Qed.
