(** Base64 as in RFC 4648 and percent encoding as in RFC 3986, with arithmetic
    only. *)
From Verif Require Import Base.
Local Open Scope Z_scope.

(** The alphabets of tables 1 and 2 of RFC 4648. *)
Definition b64_digit (url : bool) (d : Z) : Z :=
  if d <? 26 then 65 + d
  else if d <? 52 then 97 + (d - 26)
  else if d <? 62 then 48 + (d - 52)
  else if d =? 62 then (if url then 45 else 43)
  else (if url then 95 else 47).
Definition padding (pad : bool) (n : nat) : bytes := if pad then repeat 61 n else [].

(** Each group of three bytes is a 24-bit number written with four digits. *)
Fixpoint b64_text (url pad : bool) (s : bytes) : bytes :=
  let d := b64_digit url in
  match s with
  | [] => []
  | [a] => let n := a * 16 in [d (n / 64); d (n mod 64)] ++ padding pad 2
  | [a; b] => let n := (a * 256 + b) * 4 in [d (n / 4096); d (n / 64 mod 64); d (n mod 64)] ++ padding pad 1
  | a :: b :: c :: s' =>
    let n := (a * 256 + b) * 256 + c in
    [d (n / 262144); d (n / 4096 mod 64); d (n / 64 mod 64); d (n mod 64)] ++ b64_text url pad s'
  end.

(** Characters of the alphabets. *)
Definition letter_or_digit (c : Z) : Prop := 48 <= c <= 57 \/ 65 <= c <= 90 \/ 97 <= c <= 122.
Definition b64_letter (c : Z) : Prop := letter_or_digit c \/ c = 43 \/ c = 47.
Definition b64url_letter (c : Z) : Prop := letter_or_digit c \/ c = 45 \/ c = 95.

(** RFC 2396 unreserved characters: letters, digits and "-_.!~*'()". *)
Definition unreserved (c : Z) : Prop := letter_or_digit c \/ In c [45; 95; 46; 33; 126; 42; 39; 40; 41].
Definition hex_digit (d : Z) : Z := if d <? 10 then 48 + d else 65 + (d - 10).

(** [t] is a percent encoding of [s]: each byte stands for itself, if unreserved,
    or is written as % and two hexadecimal digits. *)
Inductive percent : bytes -> bytes -> Prop :=
| P_nil : percent [] []
| P_plain : forall c s t, unreserved c -> percent s t -> percent (c :: s) (c :: t)
| P_escaped : forall c s t, ~ unreserved c -> percent s t ->
    percent (c :: s) (37 :: hex_digit (c / 16) :: hex_digit (c mod 16) :: t).

(** What the decoder makes of a text: + is a space, % takes two hexadecimal
    digits of either case, anything else stands for itself. *)
Inductive hex_value : Z -> Z -> Prop :=
| Hex_digit : forall d, 0 <= d < 10 -> hex_value (48 + d) d
| Hex_upper : forall d, 10 <= d < 16 -> hex_value (65 + (d - 10)) d
| Hex_lower : forall d, 10 <= d < 16 -> hex_value (97 + (d - 10)) d.
Inductive form_text : bytes -> bytes -> Prop :=
| F_nil : form_text [] []
| F_plain : forall c t s, c <> 37 -> c <> 43 -> form_text t s -> form_text (c :: t) (c :: s)
| F_plus : forall t s, form_text t s -> form_text (43 :: t) (32 :: s)
| F_hex : forall h1 h2 a b t s, hex_value h1 a -> hex_value h2 b -> form_text t s ->
    form_text (37 :: h1 :: h2 :: t) (16 * a + b :: s).
