(** C28, C29: equality and ordering of values. *)
From Verif Require Import Base ModelKeyed ModelValue ModelObject ModelEq SpecEq ProofEq.
Local Open Scope Z_scope.

(** [operator==] gives one answer, whichever objects happen to be shared, on
    values without undefined and NaN. *)
Theorem C28_sharing_irrelevant : forall L v w, proper L v -> proper L w ->
  op_eq L v w (veq L v w) /\ forall b, op_eq L v w b -> b = veq L v w.
Proof. exact op_eq_veq. Qed.
Print Assumptions C28_sharing_irrelevant.

Theorem C28_reflexive : forall L v, proper L v -> veq L v v = true.
Proof. exact veq_refl. Qed.
Print Assumptions C28_reflexive.

Theorem C28_symmetric : forall L v w, veq L v w = veq L w v.
Proof. exact veq_sym. Qed.
Print Assumptions C28_symmetric.

(** Transitive when every integer is below 2^53 in absolute value. *)
Theorem C28_transitive : forall L v w x, exact L v -> exact L w -> exact L x -> proper L v -> proper L w ->
  veq L v w = true -> veq L w x = true -> veq L v x = true.
Proof. exact veq_trans. Qed.
Print Assumptions C28_transitive.

(** Beyond that it is not: 2^53+1, the double 2^53 and 2^53. *)
Theorem C28_transitive_large_refuted : exists v w x, forall L,
  proper L v /\ proper L w /\ proper L x /\
  veq L v w = true /\ veq L w x = true /\ veq L v x = false.
Proof.
  exists (VNum (NUInt (2 ^ 53 + 1))), (VNum (NDbl (f_of_Z (2 ^ 53)))), (VNum (NUInt (2 ^ 53))).
  intros L. repeat split; try reflexivity; constructor; vm_compute; discriminate.
Qed.
Print Assumptions C28_transitive_large_refuted.

(** Undefined is not equal to itself, unless both sides share the object. *)
Theorem C28_undefined_refuted : forall L, op_eq L VUndef VUndef true /\ op_eq L VUndef VUndef false.
Proof. intros L. split; [left; auto|right; constructor]. Qed.
Print Assumptions C28_undefined_refuted.

Definition eqL : libm := mkLibm (fun a _ => a) (fun a => a) (fun _ => f_of_Z 7).
Definition ex_v : value := VObj false [([97], VArr [([], VNum (NUInt 7)); ([98], VStr None [99])]); ([98], VNull)].
Definition ex_w : value := VObj true [([97], VArr [([], VNum (NDbl (f_of_Z 7))); ([], VStr (Some EncBase64) [99])]); ([98], VNull)].
Definition ex_x : value := VObj false [([97], VArr [([], VNum (NPrec [55; 46; 48] PkDbl)); ([], VStr None [99])]); ([98], VNull)].

Ltac prove_proper := repeat match goal with
  | |- exact _ _ => constructor
  | |- proper _ _ => constructor
  | |- Forall _ _ => constructor
  | |- not_nan _ => vm_compute; discriminate
  | |- small_num _ => cbn; lia || exact I
  end.

Example C28_case :
  exact eqL ex_v /\ exact eqL ex_w /\ exact eqL ex_x /\ proper eqL ex_v /\ proper eqL ex_w /\ proper eqL ex_x /\
  veq eqL ex_v ex_w = true /\ veq eqL ex_w ex_x = true /\ veq eqL ex_v ex_x = true /\ veq eqL ex_v VNull = false.
Proof. repeat match goal with |- _ /\ _ => split end; try reflexivity; unfold ex_v, ex_w, ex_x; prove_proper. Qed.

(** Swapping the operands reverses the result, for all values. *)
Theorem C29_antisymmetric : forall L v w, vcmp L w v = CompOpp (vcmp L v w).
Proof. exact vcmp_sym. Qed.
Print Assumptions C29_antisymmetric.

(** Transitive in every respect: equal operands are interchangeable and chains
    of the same direction compose. *)
Theorem C29_transitive : forall L v w x, exact L v -> exact L w -> exact L x ->
  (vcmp L v w = Eq -> vcmp L v x = vcmp L w x) /\
  (vcmp L w x = Eq -> vcmp L v x = vcmp L v w) /\
  (vcmp L v w = vcmp L w x -> vcmp L v x = vcmp L v w).
Proof. exact vcmp_tr. Qed.
Print Assumptions C29_transitive.

(** The result 0 means equal. *)
Theorem C29_zero_iff_equal : forall L v w, exact L v -> exact L w -> proper L v ->
  (vcmp L v w = Eq <-> veq L v w = true).
Proof. exact vcmp_veq. Qed.
Print Assumptions C29_zero_iff_equal.

(** The order itself. *)
Theorem C29_order : forall L v w, exact L v -> exact L w -> proper L v -> proper L w -> (vcmp L v w = Lt <-> before L v w).
Proof. exact vcmp_order. Qed.
Print Assumptions C29_order.

(** Large unsigned numbers break the order: -1 < 0 < 2^63 < -1. *)
Theorem C29_transitive_large_refuted : exists v w x, forall L,
  proper L v /\ proper L w /\ proper L x /\
  vcmp L v w = Lt /\ vcmp L w x = Lt /\ vcmp L x v = Lt.
Proof.
  exists (VNum (NInt (-1))), (VNum (NUInt 0)), (VNum (NUInt (2 ^ 63))).
  intros L. repeat split; try reflexivity; constructor; vm_compute; discriminate.
Qed.
Print Assumptions C29_transitive_large_refuted.

(** And unequal numbers may compare as 0: NaN and anything. *)
Theorem C29_zero_nan_refuted : exists v w, forall L, vcmp L v w = Eq /\ veq L v w = false.
Proof. exists (VNum (NDbl S754_nan)), (VNum (NUInt 5)). intros L. split; reflexivity. Qed.
Print Assumptions C29_zero_nan_refuted.

Example C29_case :
  exact eqL (VArr [([], ex_v)]) /\ exact eqL (VArr [([], ex_x); ([], VUndef)]) /\
  vcmp eqL (VArr [([], ex_v)]) (VArr [([], ex_x); ([], VUndef)]) = Lt /\
  vcmp eqL (VNum (NInt (-3))) (VNum (NDbl f_half)) = Lt /\
  vcmp eqL (VStr None [97]) (VStr None [97; 0]) = Lt /\ vcmp eqL ex_v ex_w = Eq.
Proof. repeat match goal with |- _ /\ _ => split end; try reflexivity; unfold ex_v, ex_w, ex_x; prove_proper. Qed.
