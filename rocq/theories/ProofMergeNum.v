(** Proofs about merging numbers. *)
From Coq Require Import ZArith Reals Lia Lra.
From Coq Require Import Floats.SpecFloat.
From Flocq Require Import Core.Core IEEE754.BinarySingleNaN.
From Verif Require Import Base ModelKeyed ModelValue ModelObject ModelEq ModelDiff ModelMerge ProofReal.
Local Open Scope Z_scope.

Lemma dbl_unique : forall x y v, dbl x v -> dbl y v -> v <> 0%R -> x = y.
Proof.
  intros x y v X Y N. destruct (dbl_lift _ _ X) as (a & <- & Fa & Ea). destruct (dbl_lift _ _ Y) as (b & <- & Fb & Eb). f_equal.
  assert (S : forall c : bf, is_finite c = true -> B2R c = v -> is_finite_strict c = true).
  { intros [s|s| |s m e H] F E; cbn in *; try discriminate; [congruence|reflexivity]. }
  apply B2R_inj; [apply S; assumption|apply S; assumption|congruence].
Qed.
Lemma dbl_zero : forall x, dbl x 0 -> exists s, x = S754_zero s.
Proof.
  intros x (D & F & E). destruct x as [s|s| |s m e]; try discriminate; [exists s; reflexivity|].
  exfalso. cbn [SF2R] in E. apply (f_equal (fun r => (r * bpow radix2 (- e))%R)) in E. unfold F2R in E. cbn [Fnum Fexp] in E.
  rewrite Rmult_assoc, <- bpow_plus, Z.add_opp_diag_r, Rmult_0_l in E. cbn [bpow] in E. rewrite Rmult_1_r in E.
  destruct s; cbn [cond_Zopp Z.opp] in E; apply eq_IZR in E; discriminate.
Qed.
Definition small (z : Z) : Prop := Z.abs z <= 2 ^ 53.
Lemma of_dbl : forall L x z, small z -> dbl x (IZR z) -> exists n, value_of_double x = VNum n /\ get_number L n = f_of_Z z.
Proof.
  intros L x z S D. destruct (Z.eq_dec z 0) as [->|N].
  - destruct (dbl_zero x D) as [s ->]. exists (NUInt 0). split; reflexivity.
  - exists (NDbl x). rewrite (dbl_unique x (f_of_Z z) (IZR z) D (of_Z_R z S false)) by (intros E; apply eq_IZR in E; contradiction).
    split; [|reflexivity]. pose proof (of_Z_R z S false) as (_ & _ & R). fold (f_of_Z z) in R. unfold value_of_double. destruct (f_of_Z z); try reflexivity.
    cbn in R. apply eq_IZR in R. congruence.
Qed.
Lemma small_big : forall z, small z -> (Rabs (IZR z) < bpow radix2 1024)%R.
Proof. intros z S. rewrite <- abs_IZR. eapply Rle_lt_trans; [apply IZR_le; exact S|]. rewrite <- (bpow_Z 53) by lia. apply bpow_lt. reflexivity. Qed.

Lemma merge_numbers : forall L eq a b, small a -> small b -> small (a + b) -> forall n m, get_number L n = f_of_Z a -> get_number L m = f_of_Z b ->
  exists s, vmerge L eq (VNum n) (VNum m) = Ok (VNum s) /\ get_number L s = f_of_Z (a + b).
Proof.
  intros L eq a b A B C n m N M. cbn [vmerge]. rewrite N, M.
  assert (D : dbl (f_add (f_of_Z a) (f_of_Z b)) (IZR (a + b))).
  { assert (R : RN (IZR a + IZR b) = IZR (a + b)) by (rewrite <- plus_IZR; apply RN_id, format_int; exact C). rewrite <- R.
    apply add_R; [apply of_Z_R; exact A|apply of_Z_R; exact B|]. rewrite R. apply small_big, C. }
  destruct (of_dbl L _ _ C D) as (s & E & G). exists s. rewrite E. split; [reflexivity|exact G].
Qed.
Lemma diff_numbers : forall L eq fuel a b, small a -> small b -> small (a - b) -> forall n m, get_number L n = f_of_Z a -> get_number L m = f_of_Z b ->
  exists s, vdiff L eq fuel (VNum n) (VNum m) = Ok (VNum s) /\ get_number L s = f_of_Z (a - b).
Proof.
  intros L eq fuel a b A B C n m N M. cbn [vdiff]. rewrite N, M.
  assert (D : dbl (SFsub fprec femax (f_of_Z a) (f_of_Z b)) (IZR (a - b))).
  { assert (R : RN (IZR a - IZR b) = IZR (a - b)) by (rewrite <- minus_IZR; apply RN_id, format_int; exact C). rewrite <- R.
    apply sub_R; [apply of_Z_R; exact A|apply of_Z_R; exact B|]. rewrite R. apply small_big, C. }
  destruct (of_dbl L _ _ C D) as (s & E & G). exists s. rewrite E. split; [reflexivity|exact G].
Qed.
Lemma numbers_back : forall L eq fuel a b n m, small a -> small b -> small (a + b) -> get_number L n = f_of_Z a -> get_number L m = f_of_Z b ->
  exists s r, vmerge L eq (VNum n) (VNum m) = Ok (VNum s) /\ get_number L s = f_of_Z (a + b) /\
    vdiff L eq fuel (VNum s) (VNum m) = Ok (VNum r) /\ get_number L r = f_of_Z a.
Proof.
  intros L eq fuel a b n m A B C N M. destruct (merge_numbers L eq a b A B C n m N M) as (s & E & G).
  destruct (diff_numbers L eq fuel (a + b) b C B ltac:(unfold small in *; lia) s m G M) as (r & E2 & G2).
  exists s, r. replace (a + b - b) with a in G2 by lia. auto.
Qed.
