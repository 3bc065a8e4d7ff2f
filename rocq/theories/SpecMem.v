(** What it means for a block to be large enough and to hold a text. *)
From Coq Require Import ZArith List Bool.
From Verif Require Import Base ModelUtf8 ModelValue ModelEnc ModelBin ModelMem.
Import ListNotations.
Local Open Scope list_scope.
Local Open Scope Z_scope.

Definition sane (L : layout) : Prop := 0 <= l_hdr L /\ 0 <= l_tail L.

(** The true size of an object with [n] characters and the zero behind them, and not less
    than the mark [StringValue::operator new] leaves. *)
Definition string_size (L : layout) (n : Z) : Z := l_hdr L + l_tail L + Z.max (n + 1) 7.
Definition plain_size (L : layout) (n : Z) : Z := l_hdr L + l_tail L + (n + 1).

(** The text, a zero behind it, all in the block. *)
Definition text_in (b : block) (i : Z) (t : bytes) : Prop :=
  (forall k, (k < length t)%nat -> b_at b (i + Z.of_nat k) = Some (nth k t 0)) /\
  b_at b (i + Z.of_nat (length t)) = Some 0 /\ 0 <= i /\ i + Z.of_nat (length t) < b_size b.
Definition holds (L : layout) (s : strobj) (t : bytes) : Prop :=
  so_sz s = Z.of_nat (length t) /\ text_in (so_blk s) (l_hdr L) t.

(** Either there is no memory of the true size or the object holds the text. *)
Definition built (limit size : Z) (L : layout) (r : mres strobj) (e : option enc) (t : bytes) : Prop :=
  if size <=? limit then exists s, r = MOk s /\ so_enc s = e /\ holds L s t else r = MNoMem.

(** A fill function which keeps to the [n] characters it is given and leaves [t]: whatever
    the block contains. *)
Definition fills (n : Z) (fn : Z -> block -> mres (block * Z)) (t : bytes) : Prop :=
  forall base b, 0 <= base -> base + n < b_size b -> exists b',
    fn base b = MOk (b', Z.of_nat (length t)) /\ Z.of_nat (length t) <= n /\
    b_size b' = b_size b /\ b_at b' (base + n) = b_at b (base + n) /\
    forall k, (k < length t)%nat -> b_at b' (base + Z.of_nat k) = Some (nth k t 0).
