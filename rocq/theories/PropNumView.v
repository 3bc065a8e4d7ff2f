(** C63: the number a value stands for. *)
From Coq Require Import String Lia.
From Verif Require Import Base ModelValue ModelText ModelEq ModelJwt ModelRpc ModelNumView ModelValidator SpecText SpecNumView SpecValidator ProofNumView PropEq PropValidator.
Local Open Scope Z_scope.
Local Open Scope list_scope.

(** The conversion terminates for every string, also for strings that hold the
    text of a string, and its result is the number the value stands for. *)
Theorem C63_stands_for : forall L F v n, is_bytes (get_string v) -> (stands_for L F v n <-> view_num L F v = n).
Proof. exact view_num_stands. Qed.
Print Assumptions C63_stands_for.

(** The bound on the nesting of texts is never reached. *)
Theorem C63_terminates : forall L F fuel v, is_bytes (get_string v) -> (List.length (get_string v) < fuel)%nat ->
  exists n, num_view fuel L F v = Ok n.
Proof. exact num_view_fuel. Qed.
Print Assumptions C63_terminates.

(** Texts of integers give exactly the integer, whatever follows the digits. *)
Theorem C63_digits : forall L F e w ds rest, precise F = false -> ws w -> ds <> [] -> Forall digit_char ds -> num_end rest -> is_bytes rest ->
  (dec_value ds < 2 ^ 64 -> value_u64 L F (VStr e (w ++ ds ++ rest)) = Some (dec_value ds)) /\
  (dec_value ds < 2 ^ 63 -> value_s64 L F (VStr e (w ++ ds ++ rest)) = Some (dec_value ds)) /\
  (dec_value ds < 2 ^ 63 -> value_s64 L F (VStr e (w ++ 45 :: ds ++ rest)) = Some (- dec_value ds)).
Proof. exact text_numbers. Qed.
Print Assumptions C63_digits.

Example C63_case : forall L,
  value_u64 L valF (VStr None (qtxt " 18446744073709551615 tons")) = Some (2 ^ 64 - 1) /\
  value_s64 L valF (VStr None (qtxt "-7")) = Some (-7) /\
  value_s64 L valF (VStr None (qtxt "`\`-7\``")) = Some (-7) /\
  value_s64 L valF (VStr None (qtxt "true")) = Some 1 /\ value_s64 L valF (VStr None (qtxt "[1")) = Some 0 /\
  num_end (qtxt " tons") /\ is_bytes (qtxt " tons").
Proof.
  intros L. split; [vm_compute; reflexivity|]. split; [vm_compute; reflexivity|]. split; [vm_compute; reflexivity|]. split; [vm_compute; reflexivity|].
  split; [vm_compute; reflexivity|]. split; [cbn; unfold digit_char; lia|]. repeat constructor; unfold is_byte; cbn; lia.
Qed.

(** A number kept as its text is read as the integer it was read as, or as the double
    [strtod] makes of the text. *)
Theorem C63_precise : forall L F t,
  value_s64 L F (VNum (NPrec t PkDbl)) = value_s64 L F (VNum (NDbl (lm_strtod L t))) /\
  value_u64 L F (VNum (NPrec t PkDbl)) = value_u64 L F (VNum (NDbl (lm_strtod L t))) /\
  value_dbl L F (VNum (NPrec t PkDbl)) = lm_strtod L t /\
  (forall n, 0 <= n < 2 ^ 64 -> value_u64 L F (VNum (NPrec t (PkUInt n))) = Some n) /\
  (forall n, 0 <= n < 2 ^ 63 -> value_s64 L F (VNum (NPrec t (PkUInt n))) = Some n) /\
  (forall n, - 2 ^ 63 <= n < 2 ^ 63 -> value_s64 L F (VNum (NPrec t (PkInt n))) = Some n).
Proof. exact precise_views. Qed.
Print Assumptions C63_precise.

Example C63_precise_case : forall L F,
  value_s64 L F (VNum (NPrec (qtxt "-07") (PkInt (-7)))) = Some (-7) /\
  (lm_strtod L (qtxt "25e-1") = f_of_Z 2 -> value_s64 L F (VNum (NPrec (qtxt "25e-1") PkDbl)) = Some 2).
Proof. intros L F. split; [reflexivity|]. intros H. rewrite (proj1 (C63_precise L F _)), H. vm_compute. reflexivity. Qed.

(** Hence ["tonumber", rule] does not reject what cannot be converted, as
    documented: the rule sees 0. *)
Theorem C63_tonumber_refuted : exists V s, from_string (v_L V) (v_F V) s = Err /\
  accepts V [] ([], VStr None s) (VArr [([], VStr None (txt "tonumber")); ([], VNum (NUInt 0))]).
Proof.
  exists (valV VUndef), (txt "xyz"). split; [vm_compute; reflexivity|].
  exists 5%nat, [], v_init. eexists. split; [reflexivity|vm_compute; reflexivity].
Qed.
Print Assumptions C63_tonumber_refuted.
