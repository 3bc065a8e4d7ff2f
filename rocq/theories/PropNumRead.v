(** C111: numbers of any length are read accurately. *)
From Coq Require Import ZArith Reals Lra Lia Floats.SpecFloat.
From Verif Require Import Base ModelValue SpecText SpecBin ModelText SpecAccept SpecDouble SpecNumRead ProofDouble2 ProofDoubleEx ProofNumRead3.
Local Open Scope Z_scope.

(** ** C111 *)
(** A document whose numbers are well within the range of doubles is accepted,
    and every number in it is read as an integer exactly or as a finite double
    within one part in 10^11 of what is written. *)
Theorem C111_accurate : forall L F sg v0 t, good_libm L -> precise F = false ->
  gval (denotes sg) (fun _ t => exists x, fair_number t x) v0 t ->
  exists v1, gval (denotes sg) close_value v1 t /\ forall w rest, spaces w -> num_end rest ->
    ((allow_dup F = true \/ ~ has_dup v1) ->
      exists v' r', parse_source L F (w ++ t ++ rest) = Ok (v', r') /\ sorted_form v1 v' /\ at_pos r' rest) /\
    (allow_dup F = false -> has_dup v1 -> parse_source L F (w ++ t ++ rest) = Err).
Proof. exact accurate. Qed.
Print Assumptions C111_accurate.

(** A fraction too long: 0.333… with 400 digits is read as not a number. *)
Theorem C111_long_refuted : exists L ds, good_libm L /\ digits ds /\ forall F, precise F = false ->
  exists r, parse_source L F (48 :: 46 :: ds) = Ok (VNum (NDbl S754_nan), r).
Proof. exact long_refuted. Qed.
Print Assumptions C111_long_refuted.

(** An exponent too large: [0e309] is read as not a number, [1e309] as
    infinity. *)
Theorem C111_power_refuted : exists L, good_libm L /\ forall F, precise F = false ->
  (exists r, parse_source L F [48; 101; 51; 48; 57] = Ok (VNum (NDbl S754_nan), r)) /\
  (exists r, parse_source L F [49; 101; 51; 48; 57] = Ok (VNum (NDbl (S754_infinity false)), r)).
Proof. exact power_refuted. Qed.
Print Assumptions C111_power_refuted.

(** [-100000000000000000000001.5e-3], the digits before the point more than 64
    bits hold. *)
Example C111_fair_case : fair_number [45; 49;48;48;48;48;48;48;48;48;48;48;48;48;48;48;48;48;48;48;48;48;48;48;49; 46;53; 101;45;51]
  (-(1000000000000000000000015 / 10000))%R.
Proof.
  exists [45], [49;48;48;48;48;48;48;48;48;48;48;48;48;48;48;48;48;48;48;48;48;48;48;49], [46; 53], [101; 45; 51].
  split; [reflexivity|]. split.
  { split; [right; right; reflexivity|]. split; [repeat constructor; unfold digit_char; lia|]. split; [right; exists [53]; repeat split; [discriminate|repeat constructor; unfold digit_char; lia]|].
    split; [right; exists 101, [45], [51]; repeat split; [right; reflexivity|right; right; reflexivity|discriminate|repeat constructor; unfold digit_char; lia]|discriminate]. }
  split; [vm_compute; reflexivity|]. split; [cbn; lia|]. split; [vm_compute; split; discriminate|]. split.
  { unfold written_value, fraction. change (exponent_of [101; 45; 51]) with (-3). change (powerRZ 10 (-3)) with (/ (10 * (10 * (10 * 1))))%R. cbn [tl length].
    change (dec_value [53]) with 5. change (dec_value _) with 100000000000000000000001. cbn [pow]. lra. }
  right. rewrite Rabs_Ropp, Rabs_pos_eq by lra. split.
  - apply Rle_trans with (powerRZ 10 0); [apply p10_mono; lia|]. cbn [powerRZ]. lra.
  - apply Rle_trans with (powerRZ 10 30); [|apply p10_mono; lia]. rewrite p10_IZR by lia. change (10 ^ 30) with 1000000000000000000000000000000. lra.
Qed.
(** The double next to it, read from a document with a C library as asked for. *)
Example C111_read_case : good_libm ref_libm /\ parse_source ref_libm (mkPF false false)
  [91; 45; 49;48;48;48;48;48;48;48;48;48;48;48;48;48;48;48;48;48;48;48;48;48;48;49; 46;53; 101;45;51; 93] =
  Ok (VArr [([], VNum (NDbl (S754_finite true 6103515625000000 14)))], mkR [] None) /\
  (6103515625000000 * 2 ^ 14 = 100000000000000000000)%Z.
Proof. split; [exact ref_good|]. split; vm_compute; reflexivity. Qed.
