(** Dates and times in a format, and calendar dates. *)
From Coq Require Import String Ascii.
From Verif Require Import Base ModelRpc.
Local Open Scope Z_scope.
Local Open Scope list_scope.

(** The letters of a format that stand for a digit: DMYhmscOo. *)
Definition field_letters : bytes := txt "DMYhmscOo".
Definition digit (d : Z) : Prop := 48 <= d <= 57.
(** One character of the text against one of the format. *)
Definition char_fits (c d : Z) : Prop :=
  (In c field_letters -> digit d) /\
  (c = 43 -> d = 43 \/ d = 45) /\
  (~ In c field_letters -> c <> 43 -> d = c).
Definition fits (format text : bytes) : Prop := Forall2 char_fits format text.

(** The number written by the digits that stand where the format has the letter. *)
Fixpoint digits_at (letter : Z) (format text : bytes) : bytes :=
  match format, text with
  | c :: format', d :: text' => if c =? letter then d :: digits_at letter format' text' else digits_at letter format' text'
  | _, _ => []
  end.
Definition decimal (ds : bytes) : Z := fold_left (fun n d => n * 10 + (d - 48)) ds 0.
Definition field (letter : Z) (format text : bytes) : Z := decimal (digits_at letter format text).

(** The Gregorian calendar. *)
Definition leap_year (y : Z) : Prop := ((4 | y) /\ ~ (100 | y)) \/ (400 | y).
Inductive last_day (y : Z) : Z -> Z -> Prop :=
| LD_31 : forall m, In m [1; 3; 5; 7; 8; 10; 12] -> last_day y m 31
| LD_30 : forall m, In m [4; 6; 9; 11] -> last_day y m 30
| LD_29 : leap_year y -> last_day y 2 29
| LD_28 : ~ leap_year y -> last_day y 2 28.
Definition calendar_date (y m d : Z) : Prop := exists n, last_day y m n /\ 1 <= d <= n.
Definition time_of_day (h m s : Z) : Prop := 0 <= h <= 23 /\ 0 <= m <= 59 /\ 0 <= s <= 59.

(** A number in [n] decimal digits. *)
Fixpoint padded (n : nat) (z : Z) : bytes :=
  match n with
  | O => []
  | S n' => padded n' (z / 10) ++ [48 + z mod 10]
  end.
Definition date_text (y m d : Z) : bytes := padded 4 y ++ txt "-" ++ padded 2 m ++ txt "-" ++ padded 2 d.
Definition time_text (h m s : Z) : bytes := padded 2 h ++ txt ":" ++ padded 2 m ++ txt ":" ++ padded 2 s.

(** What a format without 'o' asks of a text that fits it: a field is looked at
    only when the format has it; without a year the leap day is allowed. *)
Definition denotes_time (format text : bytes) : Prop :=
  let at_ l := field l format text in
  fits format text /\
  (In 89 format -> 1000 <= at_ 89) /\
  (In 77 format -> 1 <= at_ 77 <= 12) /\
  (In 77 format -> In 68 format -> calendar_date (at_ 89) (at_ 77) (at_ 68)) /\
  at_ 104 <= 23 /\ at_ 109 <= 59 /\ at_ 115 <= 59 /\ at_ 79 <= 23.
Definition short_fields (format : bytes) : Prop := forall l, (count_occ Z.eq_dec format l <= 9)%nat.
