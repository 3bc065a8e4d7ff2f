(** Values whose text is not touched by the binary form. *)
From Verif Require Import Base ModelValue.

(** No number kept as text, no floating zero, binary strings not empty and of the encoding [pe]. *)
Fixpoint text_kept (pe : enc) (v : value) : Prop :=
  match v with
  | VNum (NPrec _ _) => False
  | VNum (NDbl f) => forall s, f <> S754_zero s
  | VStr (Some e) s => e = pe /\ s <> []
  | VArr l | VObj _ l =>
    (fix all (l : list (bytes * value)) : Prop :=
       match l with
       | [] => True
       | x :: l' => text_kept pe (snd x) /\ all l'
       end) l
  | _ => True
  end.
