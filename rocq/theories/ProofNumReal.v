(** Integers got from floating point numbers. *)
From Coq Require Import ZArith Reals Lra Lia ZifyBool Floats.SpecFloat.
From Flocq Require Import Core.Raux.
From Verif Require Import Base ModelValue ModelText SpecDouble ModelJwt ModelNumView SpecNumReal ProofReal ProofDouble2.
Local Open Scope Z_scope.

Lemma truncates_Ztrunc : forall z x, truncates z x <-> Ztrunc x = z.
Proof.
  intros z x. unfold truncates. split.
  - intros (H1 & H2). destruct (Rle_or_lt 0 x) as [H|H].
    + rewrite Ztrunc_floor by exact H. apply Zfloor_imp. rewrite plus_IZR. apply H1. exact H.
    + rewrite Ztrunc_ceil by lra. apply Zceil_imp. rewrite minus_IZR. apply H2. lra.
  - intros <-. split; intros H.
    + rewrite Ztrunc_floor by exact H. split; [apply Zfloor_lb|]. apply Zfloor_ub.
    + rewrite Ztrunc_ceil by exact H. split; [|apply Zceil_ub]. pose proof (Zceil_lb x) as Q. lra.
Qed.

Lemma double_int : forall L F d z, finite d ->
  (value_s64 L F (VNum (NDbl d)) = Some z <-> truncates z (real_of d) /\ - 2 ^ 63 <= z < 2 ^ 63) /\
  (value_u64 L F (VNum (NDbl d)) = Some z <-> truncates z (real_of d) /\ 0 <= z < 2 ^ 64).
Proof.
  intros L F d z H. apply finite_dbl in H. apply trunc_R in H. rewrite !truncates_Ztrunc.
  unfold value_s64, value_u64, view_num. cbn [get_string length num_view num_s64 num_u64].
  unfold f_to_s64, f_to_u64. rewrite H. split.
  - destruct ((- 2 ^ 63 <=? Ztrunc (real_of d)) && (Ztrunc (real_of d) <? 2 ^ 63)) eqn:E.
    + split; [intros [= <-]; split; [reflexivity|lia]|intros (-> & _); reflexivity].
    + split; [discriminate|]. intros (Q & R). lia.
  - destruct ((0 <=? Ztrunc (real_of d)) && (Ztrunc (real_of d) <? 2 ^ 64)) eqn:E.
    + split; [intros [= <-]; split; [reflexivity|lia]|intros (-> & _); reflexivity].
    + split; [discriminate|]. intros (Q & R). lia.
Qed.

(** Every other number: 64 bits, converted modulo 2^64. *)
Lemma int_views : forall L F u i, 0 <= u < 2 ^ 64 -> - 2 ^ 63 <= i < 2 ^ 63 ->
  value_u64 L F (VNum (NUInt u)) = Some u /\
  value_s64 L F (VNum (NUInt u)) = Some (if u <? 2 ^ 63 then u else u - 2 ^ 64) /\
  value_s64 L F (VNum (NInt i)) = Some i /\
  value_u64 L F (VNum (NInt i)) = Some (if i <? 0 then i + 2 ^ 64 else i).
Proof.
  intros L F u i Hu Hi. split; [reflexivity|]. split; [|split; [reflexivity|]].
  - cbn. f_equal. unfold s64, u64. rewrite Z.mod_small by lia. reflexivity.
  - cbn. f_equal. unfold u64. destruct (i <? 0) eqn:E.
    + symmetry. apply Z.mod_unique with (-1); lia.
    + apply Z.mod_small. lia.
Qed.

(** Infinities and values that are not numbers: undefined. *)
Lemma double_none : forall L F d, f_isfinite d = false ->
  value_s64 L F (VNum (NDbl d)) = None /\ value_u64 L F (VNum (NDbl d)) = None.
Proof. intros L F [s|s| |s m e] H; cbn in H; try discriminate; split; reflexivity. Qed.
