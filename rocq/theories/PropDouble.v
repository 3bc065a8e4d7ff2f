(** Texts of floating point numbers and reading them back. *)
From Coq Require Import ZArith Reals Lra Lia Floats.SpecFloat.
From Verif Require Import Base SpecUtf8 SpecKeyed ModelValue SpecText SpecBin ModelText SpecDouble.
From Verif Require Import ProofDouble6 ProofDouble7 ProofDoubleLem ProofDoubleEx.
Local Open Scope Z_scope.

(** ** C69: the text of a floating point number *)

(** It is a JSON number within about half a unit of the last place: with no
    exponent, that of the last digit after the point; with one, that of the
    first digit times ten to the number of digits. *)
Theorem C69_text : forall L utf8 digits d, good_libm L -> finite d ->
  (powerRZ 10 (-307) <= Rabs (real_of d))%R ->
  exists t x, write_double L utf8 digits d = Some t /\ json_number t x /\
    (let u := (/ 10 ^ Nat.min digits 9)%R in
     (Rabs (x - real_of d) <= 51 / 100 * u)%R /\ ~ In 69 t /\ ~ In 101 t /\
       (99 / 10000 < Rabs (real_of d) < 101 * 10 ^ 6)%R \/
     (Rabs (x - real_of d) <= 52 / 100 * u * Rabs (real_of d))%R /\
       (Rabs (real_of d) < 101 / 10000 \/ 99 * 10 ^ 6 < Rabs (real_of d))%R).
Proof. exact text_accurate. Qed.
Print Assumptions C69_text.

(** A decimal fraction with no more digits than asked for is written as it is:
    the binary error of the double does not show. *)
Theorem C69_decimal : forall L utf8 digits d z, good_libm L -> finite d ->
  (101 / 10000 <= Rabs (real_of d) <= 99999999)%R ->
  (let u := (/ 10 ^ Nat.min digits 9)%R in
   (Rabs (real_of d - IZR z * u) <= 48 / 100 * u)%R ->
   exists t, write_double L utf8 digits d = Some t /\ json_number t (IZR z * u)%R /\
     ~ In 69 t /\ ~ In 101 t).
Proof. exact decimal_kept. Qed.
Print Assumptions C69_decimal.

(** Zero; the sign of minus zero is lost. *)
Theorem C69_zero : forall L utf8 digits s, good_libm L ->
  write_double L utf8 digits (S754_zero s) = Some [48].
Proof. exact zero_kept. Qed.
Print Assumptions C69_zero.

(** Infinities are strings; a value that is not a number is written as
    infinity. *)
Theorem C69_infinite : forall L utf8 digits,
  write_double L utf8 digits (S754_infinity false) = Some (write_string utf8 word_inf) /\
  write_double L utf8 digits (S754_infinity true) = Some (write_string utf8 word_neg_inf) /\
  write_double L utf8 digits S754_nan = Some (write_string utf8 word_inf).
Proof. exact infinite_text. Qed.
Print Assumptions C69_infinite.

(** Smaller numbers: the scale overflows and the conversion of infinity to an
    integer is undefined. *)
Theorem C69_small_refuted : exists L d, good_libm L /\ finite d /\ real_of d <> 0%R /\
  forall utf8 digits, write_double L utf8 digits d = None.
Proof. exact small_refuted. Qed.
Print Assumptions C69_small_refuted.

(** ** C70: numbers and documents read back *)

(** Every document comes back with the same structure, integers unchanged and
    other numbers within about half a unit of the last digit written. *)
Theorem C70_document : forall L F sg utf8 digits E v w rest,
  good_libm L -> precise F = false -> doubles_by L digits E -> (3 <= digits)%nat ->
  doc_of utf8 (doc_number (fun x => x = 0%R \/ plain_range (Rabs x) \/ exp_range (Rabs x))) v ->
  ws w -> num_end rest ->
  exists v' r', parse_source L F (w ++ map (as_source sg) (ser E utf8 v) ++ rest) = Ok (v', r') /\
    like_json (reads_back digits) v v' /\ at_pos r' rest.
Proof. exact doc_back_all. Qed.
Print Assumptions C70_document.

(** What comes back is written as the same text: nothing is lost by storing a
    document again and again. *)
Theorem C70_same_text : forall L F sg utf8 digits E v w rest,
  good_libm L -> precise F = false -> doubles_by L digits E -> (3 <= digits)%nat ->
  doc_of utf8 (doc_number (fun x => x = 0%R \/ plain_range (Rabs x))) v ->
  ws w -> num_end rest ->
  exists v' r', parse_source L F (w ++ map (as_source sg) (ser E utf8 v) ++ rest) = Ok (v', r') /\
    like_json (reads_back digits) v v' /\ at_pos r' rest /\
    ser E utf8 v' = ser E utf8 v.
Proof. exact doc_same_all. Qed.
Print Assumptions C70_same_text.

(** Numbers with an exponent: the text written next denotes the same value. *)
Theorem C70_exponent : forall L F sg utf8 digits d w rest,
  good_libm L -> precise F = false -> (3 <= digits)%nat -> finite d ->
  exp_range (Rabs (real_of d)) -> ws w -> num_end rest ->
  exists t x d' t' r', write_double L utf8 digits d = Some t /\ json_number t x /\
    parse_source L F (w ++ map (as_source sg) t ++ rest) = Ok (VNum (NDbl d'), r') /\ at_pos r' rest /\
    finite d' /\ write_double L utf8 digits d' = Some t' /\ json_number t' x.
Proof. exact exponent_again. Qed.
Print Assumptions C70_exponent.

(** With nine digits, numbers from 2^23 to 10^8 come back exactly. *)
Theorem C70_exact : forall L F sg utf8 digits d w rest,
  good_libm L -> precise F = false -> (9 <= digits)%nat -> finite d ->
  (2 ^ 23 <= Rabs (real_of d) <= 99999999)%R -> ws w -> num_end rest ->
  exists t n r', write_double L utf8 digits d = Some t /\
    parse_source L F (w ++ map (as_source sg) t ++ rest) = Ok (VNum n, r') /\ at_pos r' rest /\
    num_real n = real_of d.
Proof. exact large_exact. Qed.
Print Assumptions C70_exact.

(** Smaller numbers need not: a third. *)
Theorem C70_exact_refuted : exists L d t n r, good_libm L /\ finite d /\
  plain_range (Rabs (real_of d)) /\ write_double L true 9 d = Some t /\
  parse_source L (mkPF false false) t = Ok (VNum n, r) /\ num_real n <> real_of d.
Proof. exact third_refuted. Qed.
Print Assumptions C70_exact_refuted.

(** The largest finite number comes back as infinity. *)
Theorem C70_largest_refuted : exists L d t r, good_libm L /\ finite d /\
  write_double L true 9 d = Some t /\
  parse_source L (mkPF false false) t = Ok (VNum (NDbl (S754_infinity false)), r).
Proof. exact largest_refuted. Qed.
Print Assumptions C70_largest_refuted.

(** Sample: a library as asked for exists; 12.375, 0.3 (its double is less),
    -0.01 and 6.02214076e23; a document. *)
Example C69_case : good_libm ref_libm /\
  write_double ref_libm true 9 (S754_finite false 6966505673588736 (-49)) = Some [49;50;46;51;55;53] /\
  write_double ref_libm true 9 (S754_finite false 5404319552844595 (-54)) = Some [48;46;51] /\
  write_double ref_libm true 3 (S754_finite false 6004799503160661 (-54)) = Some [48;46;51;51;51] /\
  write_double ref_libm true 9 (S754_finite true 5764607523034235 (-59)) = Some [45;48;46;48;49] /\
  write_double ref_libm true 9 (S754_finite false 8973689019680023 26) = Some [54;46;48;50;50;49;52;48;55;54;101;43;50;51].
Proof. split; [exact ref_good|]. vm_compute. repeat split. Qed.
Example C70_case : doubles_by ref_libm 9 ref_ser /\
  doc_of true (doc_number (fun x => x = 0%R \/ plain_range (Rabs x))) doc_sample /\
  ser ref_ser true doc_sample = text_sample /\
  parse_source ref_libm (mkPF false false) text_sample = Ok (back_sample, mkR [] None) /\
  ser ref_ser true back_sample = text_sample.
Proof. exact sample_doc. Qed.
Example C70_exponent_case : exp_range (Rabs (real_of (S754_finite false 8973689019680023 26))).
Proof. exact avogadro_range. Qed.
