(** Shared vocabulary: bytes and machine integers are [Z], strings are lists of
    bytes, container positions are [nat].  Nothing here depends on /repo except
    where a comment cites it. *)
From Coq Require Export List ZArith Lia Bool.
From Coq Require Import ZifyBool.
Export ListNotations.
Local Open Scope Z_scope.

(** A [std::string]/[StrViewA]: a sequence of bytes. *)
Notation bytes := (list Z).

(** Every element of the list is a byte value. *)
Definition is_byte (b : Z) : Prop := 0 <= b < 256.
Definition is_bytes (s : bytes) : Prop := Forall is_byte s.

(** The C++ conversion [(char)x] seen as an unsigned byte. *)
Definition to_byte (x : Z) : Z := x mod 256.

(** Value of a [char] (signed on the platforms the library targets) holding
    byte [b]. *)
Definition schar (b : Z) : Z := if b <? 128 then b else b - 256.

(** Conversions of machine integers, two's complement. *)
Definition u32 (x : Z) : Z := x mod 2 ^ 32.
Definition u64 (x : Z) : Z := x mod 2 ^ 64.
Definition s32 (x : Z) : Z :=
  let m := x mod 2 ^ 32 in if m <? 2 ^ 31 then m else m - 2 ^ 32.
Definition s64 (x : Z) : Z :=
  let m := x mod 2 ^ 64 in if m <? 2 ^ 63 then m else m - 2 ^ 64.

(** Outcome of an operation that can throw.  [Fuel] is the distinct outcome of
    a bounded loop running out of its bound; it is excluded by theorems. *)
Inductive res (A : Type) : Type :=
| Ok (a : A)
| Err
| Fuel.
Arguments Ok {A} a.
Arguments Err {A}.
Arguments Fuel {A}.

Definition bind {A B} (r : res A) (f : A -> res B) : res B :=
  match r with Ok a => f a | Err => Err | Fuel => Fuel end.
Notation "'do' x <- m ; k" := (bind m (fun x => k))
  (at level 200, x pattern, m at level 100, k at level 200).

(** Decidable equality of byte strings. *)
Fixpoint beqb (a b : bytes) : bool :=
  match a, b with
  | [], [] => true
  | x :: a', y :: b' => (x =? y) && beqb a' b'
  | _, _ => false
  end.

Lemma beqb_eq : forall a b, beqb a b = true <-> a = b.
Proof.
  induction a as [|x a IH]; destruct b as [|y b]; simpl; split; intros H; try congruence.
  - apply andb_true_iff in H as [H1 H2]. apply Z.eqb_eq in H1.
    apply IH in H2. congruence.
  - inversion H; subst. rewrite Z.eqb_refl. simpl. apply IH. reflexivity.
Qed.

Lemma beqb_refl : forall a, beqb a a = true.
Proof. intros; apply beqb_eq; reflexivity. Qed.

Lemma beqb_neq : forall a b, beqb a b = false <-> a <> b.
Proof.
  intros a b. destruct (beqb a b) eqn:E.
  - apply beqb_eq in E. split; congruence.
  - split; auto. intros _ H. subst. rewrite beqb_refl in E. discriminate.
Qed.

Lemma bytes_eq_dec : forall a b : bytes, {a = b} + {a <> b}.
Proof. intros. apply list_eq_dec, Z.eq_dec. Defined.

(** Finite sweeps: a decidable predicate checked on every element of an integer
    range holds throughout the range. *)
Definition zrange (lo : Z) (n : nat) : list Z :=
  map (fun i => lo + Z.of_nat i) (seq 0 n).

Lemma zrange_in : forall lo n z,
  lo <= z < lo + Z.of_nat n -> In z (zrange lo n).
Proof.
  intros lo n z H. unfold zrange. apply in_map_iff.
  exists (Z.to_nat (z - lo)). split; [lia|]. apply in_seq. lia.
Qed.

Lemma sweep : forall (P : Z -> bool) lo n,
  forallb P (zrange lo n) = true ->
  forall z, lo <= z < lo + Z.of_nat n -> P z = true.
Proof.
  intros P lo n H z Hz. rewrite forallb_forall in H. apply H, zrange_in, Hz.
Qed.

(** Bit operations on Z in arithmetic form. *)
Lemma lor_shift_add : forall a b n,
  0 <= n -> 0 <= b < 2 ^ n -> Z.lor (Z.shiftl a n) b = a * 2 ^ n + b.
Proof.
  intros a b n Hn Hb.
  assert (Z.land (Z.shiftl a n) b = 0) as H0.
  { apply Z.bits_inj'. intros i Hi. rewrite Z.land_spec, Z.bits_0.
    destruct (Z_lt_le_dec i n) as [Hl|Hl].
    - rewrite Z.shiftl_spec_low by lia. reflexivity.
    - replace (Z.testbit b i) with false. { apply andb_false_r. }
      symmetry. destruct (Z.eq_dec b 0) as [->|Hb0]. { apply Z.bits_0. }
      apply Z.bits_above_log2; [lia|].
      apply Z.lt_le_trans with n; [|lia]. apply Z.log2_lt_pow2; lia. }
  rewrite <- Z.lxor_lor by exact H0.
  rewrite <- Z.add_nocarry_lxor by exact H0.
  rewrite Z.shiftl_mul_pow2 by lia. reflexivity.
Qed.

Lemma schar_range : forall b, is_byte b -> -128 <= schar b < 128.
Proof. unfold is_byte, schar. intros b H. destruct (b <? 128) eqn:E; lia. Qed.

Lemma schar_to_byte : forall b, is_byte b -> to_byte (schar b) = b.
Proof.
  unfold is_byte, schar, to_byte. intros b H. destruct (b <? 128) eqn:E.
  - apply Z.mod_small; lia.
  - replace (b - 256) with (b + (-1) * 256) by lia.
    rewrite Z.mod_add by lia. apply Z.mod_small; lia.
Qed.

Lemma schar_inj : forall a b, is_byte a -> is_byte b -> schar a = schar b -> a = b.
Proof.
  intros a b Ha Hb H. rewrite <- (schar_to_byte a Ha), <- (schar_to_byte b Hb).
  congruence.
Qed.
