(** C110: any value through JSON text. *)
From Verif Require Import Base SpecUtf8 SpecKeyed ModelValue ModelText ModelEnc SpecText SpecAccept SpecThrough ProofThrough.
Local Open Scope Z_scope.

(** ** C110 *)
(** Whatever the value contains, its text is read as the value [through] it,
    objects in key order, the parser standing right behind the text; or it is
    rejected when two keys have become the same and that is not allowed. *)
Theorem C110_through : forall L F E sg utf8 v,
  (forall e s, se_binary E e s = encode_chunks e s) -> sent (number_sent (precise F) (se_double E utf8)) v ->
  exists v1, through utf8 (precise F) (se_double E utf8) v v1 /\ forall w rest, spaces w -> num_end rest ->
    ((allow_dup F = true \/ ~ has_dup v1) ->
      exists v' r', parse_source L F (w ++ map (as_source sg) (ser E utf8 v) ++ rest) = Ok (v', r') /\ sorted_form v1 v' /\ at_pos r' rest) /\
    (allow_dup F = false -> has_dup v1 -> parse_source L F (w ++ map (as_source sg) (ser E utf8 v) ++ rest) = Err).
Proof. exact sent_through. Qed.
Print Assumptions C110_through.

(** Keys do become the same: an object, its keys in order, whose escaped text is
    rejected. *)
Theorem C110_keys_refuted : exists v, sent (fun _ => True) v /\ all_sorted v /\
  forall L E F, allow_dup F = false -> parse_source L F (ser E false v) = Err.
Proof.
  exists (VObj false [(utf8_encode [0xF600], VNull); (utf8_encode [0x1F600], VNull)]). split; [|split].
  - apply sn_obj. constructor; [|constructor; [|constructor]]; (split; [|apply sn_null]).
    + exists [0xF600]. split; [constructor; [unfold is_cp; lia|constructor]|reflexivity].
    + exists [0x1F600]. split; [constructor; [unfold is_cp; lia|constructor]|reflexivity].
  - apply as_obj; [repeat constructor|]. repeat constructor.
  - intros L E [dup prec] H. cbn in H. subst dup. destruct prec; vm_compute; reflexivity.
Qed.
Print Assumptions C110_keys_refuted.

(** Undefined, a number which is not one, the word of infinity, an integer, a
    precise number, a binary string, a half. *)
Definition c110_env : serenv := mkSer (fun _ _ => [48; 46; 53]) encode_chunks.
Definition c110_value : value :=
  VObj true [([97], VUndef); ([98], VNum (NDbl S754_nan)); ([99], VStr None word_inf);
    ([100], VArr [([120], VNum (NInt (-7))); ([], VNum (NPrec [49; 46; 53; 48] PkDbl)); ([], VStr (Some EncBase64) [0; 34; 255]);
                  ([], VNum (NDbl (S754_finite false 1 (-1))))])].
Example C110_case_sent : forall prec utf8, sent (number_sent prec (se_double c110_env utf8)) c110_value.
Proof.
  intros prec utf8.
  assert (U : forall c, 0 <= c < 128 -> unicode [c]).
  { intros c Hc. exists [c]. split; [constructor; [unfold is_cp; lia|constructor]|]. unfold utf8_encode. cbn [flat_map]. unfold utf8_bytes. replace (c <? 128) with true by lia. reflexivity. }
  assert (D : forall fp ds, fp = 46 :: ds -> ds <> [] -> digits ds -> forall c, digit_char c -> (if prec then precise_text else moderate) ([c] ++ fp)).
  { intros fp ds Ef Ne Hd c Hc. destruct prec; exists [], [c], fp, []; (split; [rewrite app_nil_r; reflexivity|]).
    - unfold precise_number, sign, exponent, digits. split; [auto|]. split; [discriminate|]. split; [constructor; auto|]. split; [right; exists ds; auto|auto].
    - split; [unfold plain_number, sign, exponent, digits; split; [auto|]; split; [constructor; auto|]; split; [right; exists ds; auto|]; split; [auto|discriminate]|].
      split; [unfold digit_char in Hc; cbn; lia|]. intros e s x Hx. discriminate. }
  assert (N0 : forall n, in_range n -> (forall f, n = NDbl f -> finite_dbl f -> (if prec then precise_text else moderate) (se_double c110_env utf8 f)) ->
    (forall t k, n = NPrec t k -> (if prec then precise_text else moderate) t) -> sent (number_sent prec (se_double c110_env utf8)) (VNum n)).
  { intros n A B C. apply sn_num. split; [exact A|]. split; assumption. }
  assert (D5 : digits [53; 48] /\ digits [53] /\ digit_char 48 /\ digit_char 49) by (unfold digits, digit_char; repeat constructor; lia).
  destruct D5 as (D1 & D2 & D3 & D4).
  apply sn_obj. repeat (apply Forall_cons; [cbn [fst snd]; split; [apply U; lia|]|]); [| | | |constructor].
  - apply sn_undef.
  - apply N0; [exact I| |discriminate]. intros f Ef H. injection Ef as <-. contradiction.
  - apply sn_str. exists [0x221E]. split; [constructor; [unfold is_cp; lia|constructor]|reflexivity].
  - apply sn_arr. repeat (apply Forall_cons; [cbn [snd]|]); [| | | |constructor].
    + apply N0; [cbn; lia|discriminate|discriminate].
    + apply N0; [exact I|discriminate|]. intros t k Et. injection Et as <- <-. exact (D [46; 53; 48] _ eq_refl ltac:(discriminate) D1 49 D4).
    + apply sn_bin. unfold is_bytes, is_byte. repeat constructor; lia.
    + apply N0; [exact I| |discriminate]. intros f _ _. exact (D [46; 53] _ eq_refl ltac:(discriminate) D2 48 D3).
Qed.
Example C110_case_precise : forall L, exists r, parse_source L (mkPF false true) (ser c110_env false c110_value) =
  Ok (VObj false [([97], VStr None [117; 110; 100; 101; 102; 105; 110; 101; 100]); ([98], VNum (NDbl (S754_infinity false)));
    ([99], VNum (NDbl (S754_infinity false)));
    ([100], VArr [([], VNum (NPrec [45; 55] (PkInt (-7)))); ([], VNum (NPrec [49; 46; 53; 48] PkDbl)); ([], VStr None [65; 67; 76; 47]);
                  ([], VNum (NPrec [48; 46; 53] PkDbl))])], r).
Proof. intros L. eexists. vm_compute. reflexivity. Qed.
