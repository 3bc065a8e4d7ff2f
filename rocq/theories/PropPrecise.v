(** C77: numbers made from text. *)
From Verif Require Import Base ModelValue ModelText SpecText SpecAccept ModelPrecise ProofPrecise.
Local Open Scope Z_scope.

(** A text followed in memory by a character that cannot continue a number, the
    terminating zero of a string for example: accepted exactly when all of it is
    a number, and the result keeps the text. *)
Theorem C77_terminated : forall L s b, num_end [b] ->
  ((exists v, precise_number_of L s b = Ok v) <-> precise_text s) /\
  (forall v, precise_number_of L s b = Ok v -> exists k, v = VNum (NPrec s k)).
Proof. exact precise_number_iff. Qed.
Print Assumptions C77_terminated.

(** Integers that fit 64 bits are held exactly. *)
Theorem C77_integer : forall L k s b, kind_literal k s -> num_end [b] ->
  precise_number_of L s b = Ok (VNum (NPrec s k)).
Proof. exact precise_number_integer. Qed.
Print Assumptions C77_integer.

(** Whatever follows, the result is the text or the text and one character of
    what follows. *)
Theorem C77_sound : forall L s b v, precise_number_of L s b = Ok v ->
  exists n, v = VNum n /\ (precise_value n s \/ precise_value n (s ++ [b])).
Proof. exact precise_number_sound. Qed.
Print Assumptions C77_sound.

(** "The result depends on the text only": the view 12 of the text 123 gives
    the number 123, the empty view of the text 7 gives 7, and the view 1 of 1e5
    is rejected. *)
Theorem C77_view_refuted : exists s b, forall L,
  precise_number_of L s b = Ok (VNum (NPrec (s ++ [b]) (PkUInt 123))) /\ precise_text s /\
  precise_number_of L [] 55 = Ok (VNum (NPrec [55] (PkUInt 7))) /\
  precise_number_of L [49] 101 = Err.
Proof.
  exists [49; 50], 51. intros L. repeat split; try (vm_compute; reflexivity).
  exists [], [49; 50], [], []. split; [reflexivity|]. unfold precise_number, sign, digits, exponent, digit_char.
  repeat split; auto; [discriminate|repeat constructor; lia].
Qed.
Print Assumptions C77_view_refuted.

Example C77_case : num_end [0] /\ precise_text [45; 49; 46; 53; 101; 43; 51] /\ kind_literal (PkInt (-7)) [45; 48; 55] /\
  forall L, precise_number_of L [45; 49; 46; 53; 101; 43; 51] 0 = Ok (VNum (NPrec [45; 49; 46; 53; 101; 43; 51] PkDbl)) /\
    precise_number_of L [49; 32] 0 = Err /\ precise_number_of L [45] 0 = Err.
Proof.
  split; [|split; [|split]].
  - cbn. unfold digit_char. lia.
  - exists [45], [49], [46; 53], [101; 43; 51]. split; [reflexivity|]. unfold precise_number, sign, digits, exponent, digit_char.
    repeat split; auto; [discriminate|repeat constructor; lia| |].
    + right. exists [53]. split; auto. repeat constructor; lia.
    + right. exists 101, [43], [51]. repeat split; auto; try discriminate; repeat constructor; lia.
  - apply (kl_int [48; 55]); [discriminate|repeat constructor; unfold digit_char; lia|vm_compute; reflexivity].
  - intros L. repeat split; vm_compute; reflexivity.
Qed.
