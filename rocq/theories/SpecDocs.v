(** Several documents in one source. *)
From Verif Require Import Base ModelValue ModelText SpecText SpecAccept.
Local Open Scope list_scope.
Local Open Scope Z_scope.

(** The characters a number may begin with. *)
Definition number_start (c : Z) : Prop := digit_char c \/ c = 43 \/ c = 45 \/ c = 46.

(** The source [s] is cut into one piece for each value, and an unread [rest].  A piece is
    read to its end by a single call; only the last one may be cut off by the end of the
    source. *)
Inductive pieces (L : libm) (F : pflags) : list value -> list Z -> list Z -> Prop :=
| ps_none : forall s, pieces L F [] s s
| ps_one : forall t v c vs s rest,
    parse_source L F t = Ok (v, mkR [] c) -> (c = Some (-1) -> s = []) ->
    pieces L F vs s rest -> pieces L F (v :: vs) (t ++ s) rest.

(** Values written one after another, each followed by white space. *)
Fixpoint written (text : value -> list Z) (docs : list (value * list Z)) : list Z :=
  match docs with
  | [] => []
  | (v, w) :: d => text v ++ w ++ written text d
  end.

(** Written as digits. *)
Definition numeric (v : value) : Prop :=
  match v with VNum (NUInt _) | VNum (NInt _) => True | _ => False end.

(** After a number comes something which does not extend it. *)
Fixpoint separate (text : value -> list Z) (docs : list (value * list Z)) : Prop :=
  match docs with
  | [] => True
  | (v, w) :: d => (numeric v -> num_end (w ++ written text d)) /\ separate text d
  end.
