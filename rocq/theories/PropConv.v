(** C91, C92: values as C++ types. *)
From Verif Require Import Base ModelKeyed ModelValue ModelText ModelEnc ModelArray ModelConv SpecText SpecConv SpecBin ProofConv ProofTextEx.
Local Open Scope Z_scope.

(** *** C91: [Value::from] and [Value::as] *)
(** What is made from a C++ value of any type gives the same C++ value back. *)
Theorem C91_round_trip : forall L F B t x, fits t x -> conv_as L F B t (conv_from t x) = Some x.
Proof. exact round_trip. Qed.
Print Assumptions C91_round_trip.

(** So it does after it is written as text and read. *)
Theorem C91_text : forall L E F B utf8 t x, precise F = false -> fits_text utf8 t x ->
  exists v, from_string L F (ser E utf8 (snd (conv_from t x))) = Ok v /\ conv_as L F B t ([], v) = Some x.
Proof. exact text_trip. Qed.
Print Assumptions C91_text.

(** A vector has the items of the value, each as the type. *)
Theorem C91_vector : forall L F B t m l, conv_as L F B (CVec t) m = Some l <->
  length l = vsize (snd m) /\ forall i x, nth_error l i = Some x -> conv_as L F B t (vitem (snd m) i) = Some x.
Proof. exact as_vec. Qed.
Print Assumptions C91_vector.

(** Nothing else than a container has items. *)
Theorem C91_scalar : forall L F B t k v, match v with VArr _ | VObj _ _ => False | _ => True end ->
  conv_as L F B (CVec t) (k, v) = Some [].
Proof. exact scalar_vec. Qed.
Print Assumptions C91_scalar.

(** The sign of zero is lost. *)
Theorem C91_zero_refuted : exists x, forall L F B, conv_as L F B CDouble (conv_from CDouble x) <> Some x.
Proof. exact zero_sign. Qed.
Print Assumptions C91_zero_refuted.

(** *** C92: [getValueOrDefault] *)
(** The default is given for what is not a number. *)
Theorem C92_default : forall L F v du ds d, (forall n, v <> VNum n) ->
  or_double L F v d = d /\ or_u32 L F v du = Some du /\ or_u64 L F v du = Some du /\
  or_s32 L F v ds = Some ds /\ or_s64 L F v ds = Some ds.
Proof. exact or_default. Qed.
Print Assumptions C92_default.

(** An integer is given when it fits. *)
Theorem C92_number : forall L F n z, int_of n = Some z ->
  match n with NUInt _ => 0 <= z < 2 ^ 64 | _ => - 2 ^ 63 <= z < 2 ^ 63 end ->
  forall d,
  (0 <= z < 2 ^ 32 -> or_u32 L F (VNum n) d = Some z) /\
  (0 <= z < 2 ^ 64 -> or_u64 L F (VNum n) d = Some z) /\
  (- 2 ^ 31 <= z < 2 ^ 31 -> or_s32 L F (VNum n) d = Some z) /\
  (- 2 ^ 63 <= z < 2 ^ 63 -> or_s64 L F (VNum n) d = Some z).
Proof. exact or_number. Qed.
Print Assumptions C92_number.

(** One which does not fit is cut to 32 bits. *)
Theorem C92_narrow : forall L F n z, int_of n = Some z ->
  match n with NUInt _ => 0 <= z < 2 ^ 64 | _ => - 2 ^ 63 <= z < 2 ^ 63 end ->
  forall d, exists u s, or_u32 L F (VNum n) d = Some u /\ or_s32 L F (VNum n) d = Some s /\
    0 <= u < 2 ^ 32 /\ - 2 ^ 31 <= s < 2 ^ 31 /\ (exists k, u = z + k * 2 ^ 32) /\ (exists k, s = z + k * 2 ^ 32).
Proof. exact or_narrow. Qed.
Print Assumptions C92_narrow.

(** As a double: a double itself, an integer as the nearest double, which is the integer
    up to 2^53. *)
Theorem C92_double : forall L F n d,
  (forall f, n = NDbl f -> or_double L F (VNum n) d = f) /\
  (forall t, n = NPrec t PkDbl -> or_double L F (VNum n) d = lm_strtod L t) /\
  (int_of n = Some 0 -> or_double L F (VNum n) d = S754_zero false) /\
  (forall z, int_of n = Some z -> z <> 0 -> - 2 ^ 63 <= z < 2 ^ 64 ->
     exists m e, or_double L F (VNum n) d = S754_finite (z <? 0) m e /\ nearest_double (Z.abs z) m e).
Proof. exact or_dbl. Qed.
Print Assumptions C92_double.

(** Neither the number nor the default is given then. *)
Theorem C92_narrow_refuted : exists v d z, int_of v = Some z /\
  forall L F, or_s32 L F (VNum v) d = Some 1 /\ or_u32 L F (VNum v) d = Some 1 /\ z <> 1 /\ d <> 1.
Proof. exact narrow_refuted. Qed.
Print Assumptions C92_narrow_refuted.

(** Strings and booleans. *)
Theorem C92_string : forall E utf8 v d,
  (forall s, v = VStr None s -> or_text E utf8 v d = Some s /\ or_view v d = s) /\
  ((forall e s, v <> VStr e s) -> or_text E utf8 v d = Some d /\ or_view v d = d).
Proof. exact or_strings. Qed.
Print Assumptions C92_string.
Theorem C92_bool : forall v d, (forall b, v = VBool b -> or_bool v d = b) /\ ((forall b, v <> VBool b) -> or_bool v d = d).
Proof. exact or_bools. Qed.
Print Assumptions C92_bool.

(** A default value: the result is of its type. *)
Theorem C92_value : forall m d, same_kind (snd (or_value m d)) (snd d) /\
  (same_kind (snd m) (snd d) -> or_value m d = m) /\ (~ same_kind (snd m) (snd d) -> or_value m d = d).
Proof. exact or_values. Qed.
Print Assumptions C92_value.

(** A binary value is its encoded text as [String] and its bytes as [std::string]. *)
Theorem C92_binary_refuted : exists v, forall E utf8 d, or_text E utf8 v d = Some [81; 81; 61; 61] /\ or_view v d = [65].
Proof. exact binary_text_refuted. Qed.
Print Assumptions C92_binary_refuted.

(** *** Examples *)
Example ex_fits : fits (CVec (CVec CInt)) [[-5; 0]; []; [2 ^ 63 - 1; - 2 ^ 63]] /\
  conv_from (CVec (CVec CInt)) [[-5; 0]; []] =
    ([], VArr [([], VArr [([], VNum (NInt (-5))); ([], VNum (NUInt 0))]); ([], VArr [])]).
Proof. split; [repeat constructor; vm_compute; discriminate|reflexivity]. Qed.
Example ex_fits_text : fits_text true (CVec CStr) [[104; 105]; []] /\
  ser ser0 true (snd (conv_from (CVec CStr) [[104; 105]; []])) = [91; 34; 104; 105; 34; 44; 34; 34; 93].
Proof.
  split; [|reflexivity]. repeat constructor; try discriminate;
    [exists [104; 105]|exists []]; (split; [repeat constructor; discriminate|reflexivity]).
Qed.
Example ex_vector : forall L F B,
  conv_as L F B (CVec CUInt) ([], VObj false [([97], VNum (NUInt 7)); ([98], VBool true)]) = Some [7; 1] /\
  conv_as L F B (CVec CUInt) ([], VNum (NUInt 7)) = Some [].
Proof. intros. split; reflexivity. Qed.
Example ex_default : forall L F, or_u32 L F (VBool true) 7 = Some 7 /\ or_u32 L F (VNum (NInt (-1))) 7 = Some (2 ^ 32 - 1) /\
  or_s32 L F (VNum (NUInt 12)) 7 = Some 12.
Proof. intros. split; [|split]; reflexivity. Qed.
Example ex_or_double : forall L F d, or_double L F (VNum (NInt (-3))) d = S754_finite true 6755399441055744 (-51) /\
  nearest_double 3 6755399441055744 (-51) /\ or_double L F VNull d = d.
Proof. intros. split; [reflexivity|]. split; [|reflexivity]. vm_compute. repeat split; discriminate || reflexivity. Qed.
