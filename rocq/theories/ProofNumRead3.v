(** Documents with numbers of any length; texts read as something else. *)
From Coq Require Import ZArith Reals Floats.SpecFloat.
From Verif Require Import Base ModelValue SpecText SpecBin ModelText SpecAccept SpecDouble SpecNumRead ProofAccept ProofAccept2 ProofAccept3 ProofDoubleEx ProofNumRead2.
Local Open Scope Z_scope.

Lemma accurate : forall L F sg v0 t, good_libm L -> precise F = false ->
  gval (denotes sg) (fun _ t => exists x, fair_number t x) v0 t ->
  exists v1, gval (denotes sg) close_value v1 t /\ forall w rest, spaces w -> num_end rest ->
    ((allow_dup F = true \/ ~ has_dup v1) ->
      exists v' r', parse_source L F (w ++ t ++ rest) = Ok (v', r') /\ sorted_form v1 v' /\ at_pos r' rest) /\
    (allow_dup F = false -> has_dup v1 -> parse_source L F (w ++ t ++ rest) = Err).
Proof.
  intros L F sg v0 t GL HF Hg. eapply grammar_outcome; [| |exact Hg].
  - intros s b H. split; [eapply denotes_body; exact H|]. intros x. apply denotes_read with (sg := sg). exact H.
  - intros n x (y & H). apply (fair_read L GL F x y HF H).
Qed.

Definition threes : list Z := repeat 51 400.
Lemma long_refuted : exists L ds, good_libm L /\ digits ds /\ forall F, precise F = false ->
  exists r, parse_source L F (48 :: 46 :: ds) = Ok (VNum (NDbl S754_nan), r).
Proof.
  exists ref_libm, threes. split; [exact ref_good|]. split.
  - apply Forall_forall. intros c H. apply repeat_spec in H. subst c. unfold digit_char. split; discriminate.
  - intros [a p] H. cbn [precise] in H. subst p. eexists. destruct a; vm_compute; reflexivity.
Qed.
Lemma power_refuted : exists L, good_libm L /\ forall F, precise F = false ->
  (exists r, parse_source L F [48; 101; 51; 48; 57] = Ok (VNum (NDbl S754_nan), r)) /\
  (exists r, parse_source L F [49; 101; 51; 48; 57] = Ok (VNum (NDbl (S754_infinity false)), r)).
Proof.
  exists ref_libm. split; [exact ref_good|]. intros [a p] H. cbn [precise] in H. subst p.
  split; eexists; destruct a; vm_compute; reflexivity.
Qed.
