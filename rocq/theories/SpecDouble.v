(** Texts of floating point numbers: their value, and what is asked of the C
    library. *)
From Coq Require Import ZArith Reals Floats.SpecFloat.
From Verif Require Import Base ModelValue SpecKeyed SpecText SpecBin ModelText.
Local Open Scope Z_scope.

(** The real number of a finite double. *)
Definition real_of (f : spec_float) : R :=
  match f with
  | S754_finite s m e => (IZR (if s then Z.neg m else Z.pos m) * powerRZ 2 e)%R
  | _ => 0%R
  end.
Definition finite (f : spec_float) : Prop := is_double f /\ f_isfinite f = true.

(** *** JSON numbers (RFC 8259, section 6) and their values *)
(** One zero, or digits that do not begin with zero. *)
Definition int_text (t : bytes) (n : Z) : Prop :=
  Forall digit_char t /\ n = dec_value t /\ (t = [48] \/ exists c t', t = c :: t' /\ c <> 48).
(** Nothing, or a point and digits; the value is [n / 10 ^ k]. *)
Definition frac_text (t : bytes) (n : Z) (k : nat) : Prop :=
  t = [] /\ n = 0 /\ k = O \/
  exists ds, t = 46 :: ds /\ ds <> [] /\ Forall digit_char ds /\ n = dec_value ds /\ k = length ds.
(** Nothing, or the letter e, a sign and digits. *)
Definition exp_text (t : bytes) (x : Z) : Prop :=
  t = [] /\ x = 0 \/
  exists e s ds, t = e :: s ++ ds /\ (e = 69 \/ e = 101) /\ ds <> [] /\ Forall digit_char ds /\
    ((s = [] \/ s = [43]) /\ x = dec_value ds \/ s = [45] /\ x = - dec_value ds).
Definition json_number (t : bytes) (v : R) : Prop :=
  exists sg ip fp ep n m k x, t = sg ++ ip ++ fp ++ ep /\ (sg = [] \/ sg = [45]) /\
    int_text ip n /\ frac_text fp m k /\ exp_text ep x /\
    v = ((if match sg with [] => true | _ => false end then 1 else -1) * (IZR n + IZR m / 10 ^ k) * powerRZ 10 x)%R.

(** The value of a number as a real. *)
Definition num_real (n : num) : R :=
  match n with
  | NUInt z | NInt z => IZR z
  | NDbl d => real_of d
  | NPrec _ _ => 0%R
  end.
(** The texts of doubles are those of [write_double], with that many digits
    after the point at most. *)
Definition doubles_by (L : libm) (digits : nat) (E : serenv) : Prop :=
  forall utf8 d t, write_double L utf8 digits d = Some t -> se_double E utf8 d = t.

(** *** The C library *)
(** [floor(log10(v))] is right, except within one part in 10^12 of a power of
    ten, where it may be that of the other side. *)
Definition log10_near (L : libm) (d : spec_float) (k : Z) : Prop :=
  finite (lm_log10 L (f_abs d)) /\
  (IZR k <= real_of (lm_log10 L (f_abs d)) < IZR k + 1)%R /\
  ((1 - / 10 ^ 12) * powerRZ 10 k <= Rabs (real_of d) < (1 + / 10 ^ 12) * powerRZ 10 (k + 1))%R.
(** [f] is ten to the power [k], to thirteen digits. *)
Definition near_power (f : spec_float) (k : Z) : Prop :=
  finite f /\ (Rabs (real_of f - powerRZ 10 k) <= / 10 ^ 13 * powerRZ 10 k)%R.
(** The doubles nearest to 1/10 and 10. *)
Definition dbl_tenth : spec_float := S754_finite false 7205759403792794 (-56).
Definition dbl_ten : spec_float := S754_finite false 5629499534213120 (-49).
Record good_libm (L : libm) : Prop := {
  gl_zero : lm_log10 L (S754_zero false) = S754_infinity true;
  gl_log : forall d, finite d -> real_of d <> 0%R -> exists k, log10_near L d k;
  gl_tenth : forall k, -308 <= k <= 308 -> near_power (lm_pow L dbl_tenth (f_of_Z k)) (- k);
  gl_ten : forall n, 0 <= n <= 308 -> near_power (lm_pow L dbl_ten (f_of_Z n)) n;
  gl_exact : forall n, 0 <= n <= 22 -> real_of (lm_pow L dbl_ten (f_of_Z n)) = IZR (10 ^ n)
}.

(** *** Documents with floating point numbers *)
(** Absolute values always written without exponent, and always with one. *)
Definition plain_range (v : R) : Prop := (/ 90 <= v <= 99999999)%R.
Definition exp_range (v : R) : Prop :=
  (powerRZ 10 (-307) <= v <= 99 / 10000 \/ 101 * 10 ^ 6 <= v <= powerRZ 10 307)%R.

(** As [doc_ok] of SpecText, the finite numbers being those of [P]. *)
Inductive doc_of (utf8 : bool) (P : num -> Prop) : value -> Prop :=
| do_null : doc_of utf8 P VNull
| do_bool : forall b, doc_of utf8 P (VBool b)
| do_num : forall n, P n -> doc_of utf8 P (VNum n)
| do_inf : forall s, doc_of utf8 P (VNum (NDbl (S754_infinity s)))
| do_str : forall s, text_ok utf8 s -> s <> word_inf -> s <> word_neg_inf ->
    doc_of utf8 P (VStr None s)
| do_arr : forall l, Forall (fun m => doc_of utf8 P (snd m)) l -> doc_of utf8 P (VArr l)
| do_obj : forall d l, keys_increasing l ->
    Forall (fun m => text_ok utf8 (fst m) /\ doc_of utf8 P (snd m)) l ->
    doc_of utf8 P (VObj d l).
(** As [same_json] of SpecText, finite numbers being related by [R]. *)
Inductive like_json (R : num -> num -> Prop) : value -> value -> Prop :=
| lj_null : like_json R VNull VNull
| lj_bool : forall b, like_json R (VBool b) (VBool b)
| lj_num : forall n m, R n m -> like_json R (VNum n) (VNum m)
| lj_inf : forall s, like_json R (VNum (NDbl (S754_infinity s))) (VNum (NDbl (S754_infinity s)))
| lj_str : forall s, like_json R (VStr None s) (VStr None s)
| lj_arr : forall l l', Forall2 (fun a b => like_json R (snd a) (snd b)) l l' ->
    like_json R (VArr l) (VArr l')
| lj_obj : forall d d' l l',
    Forall2 (fun a b => fst a = fst b /\ like_json R (snd a) (snd b)) l l' ->
    like_json R (VObj d l) (VObj d' l').

(** Numbers of a document: any integer that fits, doubles of the range [D]. *)
Definition doc_number (D : R -> Prop) (n : num) : Prop :=
  match n with
  | NUInt z => 0 <= z < 2 ^ 64
  | NInt z => - 2 ^ 63 < z < 2 ^ 63
  | NDbl d => finite d /\ D (real_of d)
  | NPrec _ _ => False
  end.
(** What reading back gives: integers exactly, doubles to about half a unit of
    the last digit written. *)
Definition reads_back (digits : nat) (n m : num) : Prop :=
  let u := (/ 10 ^ Nat.min digits 9)%R in
  match n with
  | NUInt z | NInt z => int_of m = Some z
  | NDbl d =>
    let x := real_of d in
    (x = 0%R -> int_of m = Some 0) /\
    (plain_range (Rabs x) -> (Rabs (num_real m - x) <= 51 / 100 * u + / 10 ^ 8)%R) /\
    (exp_range (Rabs x) -> (Rabs (num_real m - x) <= 53 / 100 * u * Rabs x)%R)
  | NPrec _ _ => False
  end.
