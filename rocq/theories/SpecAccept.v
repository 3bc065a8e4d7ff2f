(** Specification of the language the parser reads, independent of the parser.
    Texts are sequences of source characters: the values 0..255 or, from a
    source delivering [char]s, -128..127. *)
From Verif Require Import Base SpecUtf8 ModelValue SpecText.
Local Open Scope Z_scope.

Definition source_char (c : Z) : Prop := -128 <= c <= 255.

(** White space of the C library: JSON's, and vertical tab and form feed. *)
Definition space (c : Z) : Prop := c = 32 \/ 9 <= c <= 13.
Definition spaces (s : list Z) : Prop := Forall space s.

(** *** String literals *)
(** The character after \u stands for a digit: a hexadecimal digit for itself,
    any other character for 0. *)
Definition soft_hex (c v : Z) : Prop :=
  hex_char c v \/ ((forall x, ~ hex_char c x) /\ v = 0).

(** Bodies of string literals: any characters except quote, backslash and the
    end of the source, the eight short escapes, \u and any four characters. *)
Inductive body : list Z -> Prop :=
| b_nil : body []
| b_raw : forall c b, c <> -1 -> c <> 34 -> c <> 92 -> body b -> body (c :: b)
| b_esc : forall e x b, In (e, x) escape_pairs -> body b -> body (92 :: e :: b)
| b_hex : forall h1 h2 h3 h4 b, body b -> body (92 :: 117 :: h1 :: h2 :: h3 :: h4 :: b).

(** [denotes sg s b]: the body [b], whose unescaped characters are UTF-8 in the
    source form [sg], denotes the bytes [s]. *)
Inductive denotes (sg : bool) : bytes -> list Z -> Prop :=
| dn_nil : denotes sg [] []
| dn_char : forall c s b, is_cp c -> c <> 34 -> c <> 92 -> denotes sg s b ->
    denotes sg (utf8_bytes c ++ s) (map (as_source sg) (utf8_bytes c) ++ b)
| dn_esc : forall e x s b, In (e, x) escape_pairs -> denotes sg s b ->
    denotes sg (x :: s) (92 :: e :: b)
| dn_hex : forall h1 h2 h3 h4 v1 v2 v3 v4 s b,
    soft_hex h1 v1 -> soft_hex h2 v2 -> soft_hex h3 v3 -> soft_hex h4 v4 -> denotes sg s b ->
    denotes sg (utf8_bytes (v1 * 4096 + v2 * 256 + v3 * 16 + v4) ++ s)
      (92 :: 117 :: h1 :: h2 :: h3 :: h4 :: b).

(** *** Numbers *)
Definition digits (ds : list Z) : Prop := Forall digit_char ds.
Definition sign (s : list Z) : Prop := s = [] \/ s = [43] \/ s = [45].
Definition exponent (t : list Z) : Prop :=
  t = [] \/ exists e s ds, t = e :: s ++ ds /\ (e = 69 \/ e = 101) /\ sign s /\ ds <> [] /\ digits ds.

(** Ordinary mode: a plus sign may be written and the digits before the point
    may be missing. *)
Definition plain_number (sg ip fp ex : list Z) : Prop :=
  sign sg /\ digits ip /\
  (fp = [] \/ exists ds, fp = 46 :: ds /\ ds <> [] /\ digits ds) /\
  exponent ex /\ (ip = [] -> fp <> []).

(** Precise mode: a plus sign may be written and the digits after the point may
    be missing. *)
Definition precise_number (sg ip fp ex : list Z) : Prop :=
  sign sg /\ ip <> [] /\ digits ip /\
  (fp = [] \/ exists ds, fp = 46 :: ds /\ digits ds) /\ exponent ex.

Definition plain_text (t : list Z) : Prop :=
  exists sg ip fp ex, t = sg ++ ip ++ fp ++ ex /\ plain_number sg ip fp ex.
Definition precise_text (t : list Z) : Prop :=
  exists sg ip fp ex, t = sg ++ ip ++ fp ++ ex /\ precise_number sg ip fp ex.

(** The number an ordinary text stands for: without point and exponent and
    within the range of the integers it is that integer, otherwise some double
    (see C69, C70 for its value). *)
Definition plain_value (n : num) (t : list Z) : Prop :=
  exists sg ip fp ex, t = sg ++ ip ++ fp ++ ex /\ plain_number sg ip fp ex /\
    ((fp = [] /\ ex = [] /\ sg <> [45] /\ dec_value ip < 2 ^ 64 /\ n = NUInt (dec_value ip)) \/
     (fp = [] /\ ex = [] /\ sg = [45] /\ dec_value ip < 2 ^ 63 /\ n = int_num (- dec_value ip)) \/
     ((fp <> [] \/ ex <> [] \/ 2 ^ 64 <= dec_value ip \/ (sg = [45] /\ 2 ^ 63 <= dec_value ip)) /\
      exists f, n = dbl_num f)).

(** In precise mode the text itself is kept. *)
Definition precise_value (n : num) (t : list Z) : Prop :=
  precise_text t /\ exists k, n = NPrec t k.

(** Ordinary texts that cannot be too large for the parser: the digits before
    the point and those of the exponent are below 2^64. *)
Definition moderate (t : list Z) : Prop :=
  exists sg ip fp ex, t = sg ++ ip ++ fp ++ ex /\ plain_number sg ip fp ex /\ dec_value ip < 2 ^ 64 /\
    (forall e s ds, ex = e :: s ++ ds -> sign s -> digits ds -> dec_value ds < 2 ^ 64).

(** *** Documents *)
(** [gval S N v t]: [t] is a text (no surrounding white space) denoting [v],
    where [S s b] says that the literal body [b] denotes [s] and [N n t] that
    the number text [t] denotes [n].  Objects of [v] list their members in the
    order of the text. *)
Section Grammar.
Variable S : bytes -> list Z -> Prop.
Variable N : num -> list Z -> Prop.

Inductive gval : value -> list Z -> Prop :=
| gv_null : gval VNull [110;117;108;108]
| gv_true : gval (VBool true) [116;114;117;101]
| gv_false : gval (VBool false) [102;97;108;115;101]
| gv_num : forall n t, N n t -> gval (VNum n) t
| gv_str : forall s b, S s b -> s <> word_inf -> s <> word_neg_inf ->
    gval (VStr None s) (34 :: b ++ [34])
| gv_inf : forall b, S word_inf b -> gval (VNum (NDbl (S754_infinity false))) (34 :: b ++ [34])
| gv_neg_inf : forall b, S word_neg_inf b -> gval (VNum (NDbl (S754_infinity true))) (34 :: b ++ [34])
| gv_arr0 : forall w, spaces w -> gval (VArr []) (91 :: w ++ [93])
| gv_arr : forall l t, gelems l t -> gval (VArr l) (91 :: t ++ [93])
| gv_obj0 : forall w, spaces w -> gval (VObj false []) (123 :: w ++ [125])
| gv_obj : forall l t, gmembers l t -> gval (VObj false l) (123 :: t ++ [125])
with gelems : list (bytes * value) -> list Z -> Prop :=
| ge_one : forall v w1 t w2, spaces w1 -> gval v t -> spaces w2 ->
    gelems [([], v)] (w1 ++ t ++ w2)
| ge_cons : forall v w1 t w2 l ts, spaces w1 -> gval v t -> spaces w2 -> gelems l ts ->
    gelems (([], v) :: l) (w1 ++ t ++ w2 ++ 44 :: ts)
with gmembers : list (bytes * value) -> list Z -> Prop :=
| gm_one : forall k b v w1 w2 w3 t w4,
    S k b -> spaces w1 -> spaces w2 -> spaces w3 -> gval v t -> spaces w4 ->
    gmembers [(k, v)] (w1 ++ 34 :: b ++ 34 :: w2 ++ 58 :: w3 ++ t ++ w4)
| gm_cons : forall k b v w1 w2 w3 t w4 l ts,
    S k b -> spaces w1 -> spaces w2 -> spaces w3 -> gval v t -> spaces w4 -> gmembers l ts ->
    gmembers ((k, v) :: l) (w1 ++ 34 :: b ++ 34 :: w2 ++ 58 :: w3 ++ t ++ w4 ++ 44 :: ts).
End Grammar.

(** The bare language: what the text denotes is left open. *)
Definition text_of (num_text : list Z -> Prop) (t : list Z) : Prop :=
  exists v, gval (fun _ b => body b) (fun _ t => num_text t) v t.

(** A body read as [s]: of the right form, and denoting [s] if its characters
    are UTF-8. *)
Definition reads_as (s : bytes) (b : list Z) : Prop :=
  body b /\ forall sg s', denotes sg s' b -> s' = s.
