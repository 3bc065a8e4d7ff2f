(** Specification for C110: what a value becomes when it is written as JSON text
    and read again. *)
From Verif Require Import Base SpecUtf8 ModelValue ModelEnc SpecText SpecAccept SpecBinText.
Local Open Scope Z_scope.

(** Strings: as characters in UTF-8 they all arrive; escaped each of them is
    four hexadecimal digits. *)
Definition string_through (utf8 : bool) (s s' : bytes) : Prop :=
  exists cs, Forall is_cp cs /\ s = utf8_encode cs /\
    s' = utf8_encode (map (fun c => if utf8 then c else c mod 0x10000) cs).

(** What a string literal is read as: two words are numbers. *)
Inductive literal : bytes -> value -> Prop :=
| lit_text : forall s, s <> word_inf -> s <> word_neg_inf -> literal s (VStr None s)
| lit_inf : literal word_inf (VNum (NDbl (S754_infinity false)))
| lit_neg_inf : literal word_neg_inf (VNum (NDbl (S754_infinity true))).

(** The shortest decimal text of an integer. *)
Definition decimal (z : Z) (t : bytes) : Prop :=
  exists ds, t = (if z <? 0 then [45] else []) ++ ds /\ ds <> [] /\ Forall digit_char ds /\
    dec_value ds = Z.abs z /\ (ds = [48] \/ hd 0 ds <> 48).

Definition in_range (n : num) : Prop :=
  match n with NUInt z => 0 <= z < 2 ^ 64 | NInt z => - 2 ^ 63 < z < 2 ^ 63 | _ => True end.
Definition finite_dbl (f : spec_float) : Prop :=
  match f with S754_zero _ | S754_finite _ _ _ => True | _ => False end.

(** Numbers, [text] being the text written for a finite double; what a text
    stands for in ordinary and in precise mode is said in SpecAccept.v. *)
Inductive number_through (prec : bool) (text : spec_float -> bytes) : num -> num -> Prop :=
| nt_int : forall n z, prec = false -> int_of n = Some z ->
    number_through prec text n (if z <? 0 then NInt z else NUInt z)
| nt_int_precise : forall n z t, prec = true -> int_of n = Some z -> decimal z t ->
    number_through prec text n (NPrec t (if z <? 0 then PkInt z else PkUInt z))
| nt_dbl : forall f n, finite_dbl f -> (if prec then precise_value else plain_value) n (text f) ->
    number_through prec text (NDbl f) n
| nt_text : forall t k n, (if prec then precise_value else plain_value) n t ->
    number_through prec text (NPrec t k) n
| nt_inf : forall s, number_through prec text (NDbl (S754_infinity s)) (NDbl (S754_infinity s))
| nt_nan : number_through prec text (NDbl S754_nan) (NDbl (S754_infinity false)).

(** Values. *)
Inductive through (utf8 prec : bool) (text : spec_float -> bytes) : value -> value -> Prop :=
| th_undef : through utf8 prec text VUndef (VStr None [117; 110; 100; 101; 102; 105; 110; 101; 100])
| th_null : through utf8 prec text VNull VNull
| th_bool : forall b, through utf8 prec text (VBool b) (VBool b)
| th_num : forall n n', number_through prec text n n' -> through utf8 prec text (VNum n) (VNum n')
| th_str : forall s s' v, string_through utf8 s s' -> literal s' v -> through utf8 prec text (VStr None s) v
| th_bin : forall e s, through utf8 prec text (VStr (Some e) s) (VStr None (concat (encode_chunks e (carried e s))))
| th_arr : forall l l', Forall2 (fun a b => fst b = [] /\ through utf8 prec text (snd a) (snd b)) l l' ->
    through utf8 prec text (VArr l) (VArr l')
| th_obj : forall d l l',
    Forall2 (fun a b => string_through utf8 (fst a) (fst b) /\ through utf8 prec text (snd a) (snd b)) l l' ->
    through utf8 prec text (VObj d l) (VObj false l').

(** The values meant: strings and keys UTF-8, binary strings of bytes, integers
    of 64 bits, the texts of other numbers acceptable. *)
Definition unicode (s : bytes) : Prop := exists cs, Forall is_cp cs /\ s = utf8_encode cs.
Definition number_sent (prec : bool) (text : spec_float -> bytes) (n : num) : Prop :=
  let ok := if prec then precise_text else moderate in
  in_range n /\ (forall f, n = NDbl f -> finite_dbl f -> ok (text f)) /\ (forall t k, n = NPrec t k -> ok t).
Inductive sent (N : num -> Prop) : value -> Prop :=
| sn_undef : sent N VUndef
| sn_null : sent N VNull
| sn_bool : forall b, sent N (VBool b)
| sn_num : forall n, N n -> sent N (VNum n)
| sn_str : forall s, unicode s -> sent N (VStr None s)
| sn_bin : forall e s, is_bytes s -> sent N (VStr (Some e) s)
| sn_arr : forall l, Forall (fun m => sent N (snd m)) l -> sent N (VArr l)
| sn_obj : forall d l, Forall (fun m => unicode (fst m) /\ sent N (snd m)) l -> sent N (VObj d l).
