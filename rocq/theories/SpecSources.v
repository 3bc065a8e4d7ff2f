(** What C78 speaks about. *)
From Verif Require Import Base.

(** Bytes that occur in UTF-8, and those that occur only in broken UTF-8 but
    start or continue a sequence of up to four bytes. *)
Definition low_byte (c : Z) : Prop := (0 <= c < 248)%Z.
Definition low_text (s : bytes) : Prop := Forall low_byte s.
