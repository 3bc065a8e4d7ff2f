(** Specification of JSON text, independent of the parser and serializer. *)
From Coq Require Import Sorted.
From Verif Require Import Base SpecUtf8 ModelKeyed SpecKeyed ModelValue ModelText.
Local Open Scope Z_scope.

(** *** Lexical elements *)
Definition ws_char (c : Z) : Prop := c = 32 \/ c = 9 \/ c = 10 \/ c = 13.
Definition ws (s : bytes) : Prop := Forall ws_char s.

Definition digit_char (c : Z) : Prop := 48 <= c <= 57.

(** Value of a digit string, most significant digit first. *)
Definition dec_value (ds : bytes) : Z := fold_left (fun a c => a * 10 + (c - 48)) ds 0.

(** A hexadecimal digit and its value. *)
Definition hex_char (c v : Z) : Prop :=
  (48 <= c <= 57 /\ v = c - 48) \/
  (65 <= c <= 70 /\ v = c - 55) \/
  (97 <= c <= 102 /\ v = c - 87).

(** Two-character escapes and the byte they denote. *)
Definition escape_pairs : list (Z * Z) :=
  [(34, 34); (92, 92); (47, 47); (98, 8); (102, 12); (110, 10); (114, 13); (116, 9)].

(** [jstr s b]: [b] is the body of a string literal denoting the bytes [s].
    A \u escape denotes the UTF-8 encoding of its 16-bit code. *)
Inductive jstr : bytes -> bytes -> Prop :=
| js_nil : jstr [] []
| js_char : forall c s b,
    is_cp c -> 32 <= c -> c <> 34 -> c <> 92 -> jstr s b ->
    jstr (utf8_bytes c ++ s) (utf8_bytes c ++ b)
| js_esc : forall e x s b,
    In (e, x) escape_pairs -> jstr s b -> jstr (x :: s) (92 :: e :: b)
| js_hex : forall a b c d va vb vc vd s t,
    hex_char a va -> hex_char b vb -> hex_char c vc -> hex_char d vd -> jstr s t ->
    jstr (utf8_bytes (va * 4096 + vb * 256 + vc * 16 + vd) ++ s)
         (92 :: 117 :: a :: b :: c :: d :: t).

(** UTF-8 bytes of the words this library uses for infinity. *)
Definition word_inf : bytes := [0xE2; 0x88; 0x9E].
Definition word_neg_inf : bytes := [0x2D; 0xE2; 0x88; 0x9E].

(** *** Number literals *)
(** Numbers made from a signed integer and from a double: zero is the one unsigned zero. *)
Definition int_num (z : Z) : num := if z =? 0 then NUInt 0 else NInt z.
Definition dbl_num (f : spec_float) : num := match f with S754_zero _ => NUInt 0 | _ => NDbl f end.
(** Integer literals and the 64-bit number they denote. *)
Inductive int_literal : num -> bytes -> Prop :=
| il_uint : forall ds, ds <> [] -> Forall digit_char ds -> dec_value ds < 2 ^ 64 ->
    int_literal (NUInt (dec_value ds)) ds
| il_int : forall ds, ds <> [] -> Forall digit_char ds -> dec_value ds < 2 ^ 63 ->
    int_literal (int_num (- dec_value ds)) (45 :: ds).
(** The same with the sign kept when the digits are zeros. *)
Inductive kind_literal : pkind -> bytes -> Prop :=
| kl_uint : forall ds, ds <> [] -> Forall digit_char ds -> dec_value ds < 2 ^ 64 ->
    kind_literal (PkUInt (dec_value ds)) ds
| kl_int : forall ds, ds <> [] -> Forall digit_char ds -> dec_value ds < 2 ^ 63 ->
    kind_literal (PkInt (- dec_value ds)) (45 :: ds).

(** Texts of the JSON number grammar: sign, digits, fraction, exponent.  Leading
    zeros are allowed. *)
Definition number_text (t : bytes) : Prop :=
  exists sg ip fp ex,
    t = sg ++ ip ++ fp ++ ex /\
    (sg = [] \/ sg = [45]) /\
    (ip <> [] /\ Forall digit_char ip) /\
    (fp = [] \/ exists ds, fp = 46 :: ds /\ ds <> [] /\ Forall digit_char ds) /\
    (ex = [] \/ exists e s ds, ex = e :: s ++ ds /\ (e = 69 \/ e = 101) /\
       (s = [] \/ s = [43] \/ s = [45]) /\ ds <> [] /\ Forall digit_char ds).

(** Any number literal, its value left open. *)
Definition any_number (n : num) (t : bytes) : Prop := number_text t.

(** [jval N v t]: [t] is a JSON text (no surrounding white space) denoting [v],
    number literals denoting numbers according to [N].  Objects of [v] list
    their members in the order of the text, so they may be unsorted and contain
    a key twice. *)
Section Grammar.
Variable N : num -> bytes -> Prop.

Inductive jval : value -> bytes -> Prop :=
| jv_null : jval VNull [110;117;108;108]
| jv_true : jval (VBool true) [116;114;117;101]
| jv_false : jval (VBool false) [102;97;108;115;101]
| jv_num : forall n t, N n t -> jval (VNum n) t
| jv_str : forall s b,
    jstr s b -> s <> word_inf -> s <> word_neg_inf ->
    jval (VStr None s) (34 :: b ++ [34])
| jv_inf : forall b, jstr word_inf b ->
    jval (VNum (NDbl (S754_infinity false))) (34 :: b ++ [34])
| jv_neg_inf : forall b, jstr word_neg_inf b ->
    jval (VNum (NDbl (S754_infinity true))) (34 :: b ++ [34])
| jv_arr0 : forall w, ws w -> jval (VArr []) (91 :: w ++ [93])
| jv_arr : forall l t, jelems l t -> jval (VArr l) (91 :: t ++ [93])
| jv_obj0 : forall w, ws w -> jval (VObj false []) (123 :: w ++ [125])
| jv_obj : forall l t, jmembers l t -> jval (VObj false l) (123 :: t ++ [125])
with jelems : list (bytes * value) -> bytes -> Prop :=
| je_one : forall v w1 t w2, ws w1 -> jval v t -> ws w2 ->
    jelems [([], v)] (w1 ++ t ++ w2)
| je_cons : forall v w1 t w2 l ts, ws w1 -> jval v t -> ws w2 -> jelems l ts ->
    jelems (([], v) :: l) (w1 ++ t ++ w2 ++ 44 :: ts)
with jmembers : list (bytes * value) -> bytes -> Prop :=
| jm_one : forall k b v w1 w2 w3 t w4,
    jstr k b -> ws w1 -> ws w2 -> ws w3 -> jval v t -> ws w4 ->
    jmembers [(k, v)] (w1 ++ 34 :: b ++ 34 :: w2 ++ 58 :: w3 ++ t ++ w4)
| jm_cons : forall k b v w1 w2 w3 t w4 l ts,
    jstr k b -> ws w1 -> ws w2 -> ws w3 -> jval v t -> ws w4 -> jmembers l ts ->
    jmembers ((k, v) :: l) (w1 ++ 34 :: b ++ 34 :: w2 ++ 58 :: w3 ++ t ++ w4 ++ 44 :: ts).
End Grammar.

(** Some object inside the value contains a key twice. *)
Inductive has_dup : value -> Prop :=
| hd_here : forall d l, ~ NoDup (map fst l) -> has_dup (VObj d l)
| hd_obj : forall d l k v, In (k, v) l -> has_dup v -> has_dup (VObj d l)
| hd_arr : forall l k v, In (k, v) l -> has_dup v -> has_dup (VArr l).

(** [sorted_form v v']: [v'] is [v] with the members of every object put in
    increasing key order, a key occurring several times keeping its last value. *)
Inductive sorted_form : value -> value -> Prop :=
| sf_leaf : forall v,
    match v with VArr _ | VObj _ _ => False | _ => True end -> sorted_form v v
| sf_arr : forall l l',
    Forall2 (fun a b => fst a = fst b /\ sorted_form (snd a) (snd b)) l l' ->
    sorted_form (VArr l) (VArr l')
| sf_obj : forall d l lm l',
    Forall2 (fun a b => fst a = fst b /\ sorted_form (snd a) (snd b)) l lm ->
    keys_increasing l' -> (forall k, binding k l' = last_binding k lm) ->
    sorted_form (VObj d l) (VObj d l').

(** Every object inside the value has its members in increasing key order. *)
Inductive all_sorted : value -> Prop :=
| as_leaf : forall v,
    match v with VArr _ | VObj _ _ => False | _ => True end -> all_sorted v
| as_arr : forall l, Forall (fun m => all_sorted (snd m)) l -> all_sorted (VArr l)
| as_obj : forall d l, keys_increasing l -> Forall (fun m => all_sorted (snd m)) l ->
    all_sorted (VObj d l).

(** A following character that does not extend a number. *)
Definition num_end (rest : list Z) : Prop :=
  match rest with
  | [] => True
  | c :: _ => ~ digit_char c /\ c <> 46 /\ c <> 69 /\ c <> 101
  end.

(** *** Documents for the round trip *)
(** Code points that survive: all of them in UTF-8 output, the BMP when escaped. *)
Definition cp_ok (utf8 : bool) (c : Z) : Prop :=
  if utf8 then is_cp c else 0 <= c <= 0xFFFF.
Definition text_ok (utf8 : bool) (s : bytes) : Prop :=
  exists cs, Forall (cp_ok utf8) cs /\ s = utf8_encode cs.

Inductive doc_ok (utf8 : bool) : value -> Prop :=
| d_null : doc_ok utf8 VNull
| d_bool : forall b, doc_ok utf8 (VBool b)
| d_uint : forall n, 0 <= n < 2 ^ 64 -> doc_ok utf8 (VNum (NUInt n))
| d_int : forall n, - 2 ^ 63 < n < 2 ^ 63 -> doc_ok utf8 (VNum (NInt n))
| d_inf : forall s, doc_ok utf8 (VNum (NDbl (S754_infinity s)))
| d_str : forall s, text_ok utf8 s -> s <> word_inf -> s <> word_neg_inf ->
    doc_ok utf8 (VStr None s)
| d_arr : forall l, Forall (fun m => doc_ok utf8 (snd m)) l -> doc_ok utf8 (VArr l)
| d_obj : forall d l, keys_increasing l ->
    Forall (fun m => text_ok utf8 (fst m) /\ doc_ok utf8 (snd m)) l ->
    doc_ok utf8 (VObj d l).

(** The same JSON content: numbers by value, strings byte for byte, arrays
    element by element, objects member by member in the same order.  Member
    keys attached to array items and the diff flag are not JSON content. *)
Definition int_of (n : num) : option Z :=
  match n with NUInt z => Some z | NInt z => Some z | _ => None end.

Inductive same_json : value -> value -> Prop :=
| sj_null : same_json VNull VNull
| sj_bool : forall b, same_json (VBool b) (VBool b)
| sj_int : forall n m z, int_of n = Some z -> int_of m = Some z ->
    same_json (VNum n) (VNum m)
| sj_dbl : forall f, same_json (VNum (NDbl f)) (VNum (NDbl f))
| sj_str : forall s, same_json (VStr None s) (VStr None s)
| sj_arr : forall l l', Forall2 (fun a b => same_json (snd a) (snd b)) l l' ->
    same_json (VArr l) (VArr l')
| sj_obj : forall d d' l l',
    Forall2 (fun a b => fst a = fst b /\ same_json (snd a) (snd b)) l l' ->
    same_json (VObj d l) (VObj d' l').

(** *** Reader position *)
(** The characters the parser's reader has still to deliver are [s] (then -1
    for ever): the loaded lookahead character, if any, and then the source. *)
Definition at_pos (r : reader) (s : list Z) : Prop :=
  match cur r with
  | None => src r = s
  | Some c => s = c :: src r \/ (s = [] /\ c = -1 /\ src r = [])
  end.
