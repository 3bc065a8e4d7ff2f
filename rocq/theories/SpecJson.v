(** JSON texts by the grammar of RFC 8259, independent of the library: no values, only texts. *)
From Verif Require Import Base SpecUtf8 ModelValue.
Local Open Scope Z_scope.

(** Section 2: white space. *)
Definition json_ws (w : bytes) : Prop := Forall (fun c => c = 32 \/ c = 9 \/ c = 10 \/ c = 13) w.

(** Section 6: numbers. *)
Definition is_digit (c : Z) : Prop := 48 <= c <= 57.
Definition some_digits (t : bytes) : Prop := t <> [] /\ Forall is_digit t.
Definition json_int (t : bytes) : Prop := t = [48] \/ exists c t', t = c :: t' /\ 49 <= c <= 57 /\ Forall is_digit t'.
Definition json_frac (t : bytes) : Prop := t = [] \/ exists ds, t = 46 :: ds /\ some_digits ds.
Definition json_exp (t : bytes) : Prop :=
  t = [] \/ exists e s ds, t = e :: s ++ ds /\ (e = 69 \/ e = 101) /\ (s = [] \/ s = [43] \/ s = [45]) /\ some_digits ds.
Definition json_num (t : bytes) : Prop :=
  exists sg ip fp ep, t = sg ++ ip ++ fp ++ ep /\ (sg = [] \/ sg = [45]) /\ json_int ip /\ json_frac fp /\ json_exp ep.

(** Section 7: strings; [uni] are the characters which may stand for themselves. *)
Definition is_hex (c : Z) : Prop := 48 <= c <= 57 \/ 65 <= c <= 70 \/ 97 <= c <= 102.
Inductive json_char (uni : Z -> Prop) : bytes -> Prop :=
| jc_self : forall c, uni c -> 32 <= c -> c <> 34 -> c <> 92 -> json_char uni (utf8_bytes c)
| jc_esc : forall e, In e [34; 92; 47; 98; 102; 110; 114; 116] -> json_char uni [92; e]
| jc_hex : forall a b c d, is_hex a -> is_hex b -> is_hex c -> is_hex d -> json_char uni [92; 117; a; b; c; d].
Definition json_string (uni : Z -> Prop) (t : bytes) : Prop :=
  exists l, Forall (json_char uni) l /\ t = 34 :: concat l ++ [34].

(** Sections 2-5; [num] are the numbers allowed, [ws] the white space between tokens. *)
Section Texts.
Variables (ws : bytes -> Prop) (uni : Z -> Prop) (num : bytes -> Prop).
Inductive json_value : bytes -> Prop :=
| j_null : json_value [110; 117; 108; 108]
| j_true : json_value [116; 114; 117; 101]
| j_false : json_value [102; 97; 108; 115; 101]
| j_num : forall t, num t -> json_value t
| j_str : forall t, json_string uni t -> json_value t
| j_arr0 : forall w, ws w -> json_value (91 :: w ++ [93])
| j_arr : forall t, json_elems t -> json_value (91 :: t ++ [93])
| j_obj0 : forall w, ws w -> json_value (123 :: w ++ [125])
| j_obj : forall t, json_members t -> json_value (123 :: t ++ [125])
with json_elems : bytes -> Prop :=
| j_one : forall w t w', ws w -> json_value t -> ws w' -> json_elems (w ++ t ++ w')
| j_more : forall w t w' r, ws w -> json_value t -> ws w' -> json_elems r -> json_elems (w ++ t ++ w' ++ 44 :: r)
with json_members : bytes -> Prop :=
| j_mone : forall w1 k w2 w3 t w4, ws w1 -> json_string uni k -> ws w2 -> ws w3 -> json_value t -> ws w4 ->
    json_members (w1 ++ k ++ w2 ++ 58 :: w3 ++ t ++ w4)
| j_mmore : forall w1 k w2 w3 t w4 r, ws w1 -> json_string uni k -> ws w2 -> ws w3 -> json_value t -> ws w4 ->
    json_members r -> json_members (w1 ++ k ++ w2 ++ 58 :: w3 ++ t ++ w4 ++ 44 :: r).
Definition json_text (t : bytes) : Prop := exists w v w', t = w ++ v ++ w' /\ ws w /\ json_value v /\ ws w'.
End Texts.

(** Characters: all of ASCII, all of Unicode, all but surrogates. *)
Definition ascii (c : Z) : Prop := 0 <= c < 128.
Definition scalar (c : Z) : Prop := 0 <= c < 0xD800 \/ 0xE000 <= c <= 0x10FFFF.

(** No white space. *)
Definition no_ws (w : bytes) : Prop := w = [].

(** Strings: of bytes, shorter than 4 GB; UTF-8 without surrogates. *)
Definition short (s : bytes) : Prop := is_bytes s /\ Z.of_nat (length s) < 2 ^ 32.
Definition proper (s : bytes) : Prop := exists cs, Forall scalar cs /\ s = utf8_encode cs.

(** *** Values, any values, as far as they have a text at all.  [D]: the finite
    doubles which have one; [S]: the strings and keys; [B]: the binary strings. *)
Inductive writable (D : spec_float -> Prop) (S : bytes -> Prop) (B : enc -> bytes -> Prop) : value -> Prop :=
| wr_undef : writable D S B VUndef
| wr_null : writable D S B VNull
| wr_bool : forall b, writable D S B (VBool b)
| wr_uint : forall n, 0 <= n < 2 ^ 64 -> writable D S B (VNum (NUInt n))
| wr_int : forall n, - 2 ^ 63 < n < 2 ^ 63 -> writable D S B (VNum (NInt n))
| wr_dbl : forall f, (f_isfinite f = true -> D f) -> writable D S B (VNum (NDbl f))
| wr_prec : forall t k, json_num t -> writable D S B (VNum (NPrec t k))
| wr_str : forall s, S s -> writable D S B (VStr None s)
| wr_bin : forall e s, B e s -> writable D S B (VStr (Some e) s)
| wr_arr : forall l, Forall (fun m => writable D S B (snd m)) l -> writable D S B (VArr l)
| wr_obj : forall d l, Forall (fun m => S (fst m) /\ writable D S B (snd m)) l -> writable D S B (VObj d l).
