(** Paths given as values. *)
From Verif Require Import Base ModelKeyed SpecKeyed ModelValue ModelObject ModelJwt.
Local Open Scope Z_scope.

(** [getUInt] of a number as a total function; what it gives for a double outside
    of the range (undefined behaviour) does not matter below. *)
Definition uint_value (L : libm) (n : num) : Z := match num_u64 L n with Some z => z | None => 0 end.

(** What can stand in such a value: names and numbers. *)
Definition step_item (m : member) : Prop := match snd m with VStr _ _ | VNum _ => True | _ => False end.
(** Every number has a [getUInt]: it is no double outside of the range. *)
Definition readable (L : libm) (m : member) : Prop :=
  match snd m with VNum n => exists z, num_u64 L n = Some z /\ 0 <= z < 2 ^ 64 | _ => True end.

Section Leads.
Variable L : libm.
(** One step: a name leads to the member of that name, a number to the item or
    member at that position; where there is none, to undefined.  The number
    2^64 - 1 (also -1 and what else reads as it) stands for the empty name. *)
Inductive leads1 : value -> value -> value -> Prop :=
| Lead_name : forall d l e k, leads1 (VObj d l) (VStr e k) (match binding k l with Some v => v | None => VUndef end)
| Lead_name_other : forall v e k, (forall d l, v <> VObj d l) -> leads1 v (VStr e k) VUndef
| Lead_item : forall v n i l, num_u64 L n = Some (Z.of_nat i) -> Z.of_nat i <> 2 ^ 64 - 1 ->
    (v = VArr l \/ exists d, v = VObj d l) ->
    leads1 v (VNum n) (match nth_error l i with Some m => snd m | None => VUndef end)
| Lead_item_other : forall v n i, num_u64 L n = Some i -> i <> 2 ^ 64 - 1 ->
    (forall l, v <> VArr l) -> (forall d l, v <> VObj d l) -> leads1 v (VNum n) VUndef
| Lead_last : forall v n e w, num_u64 L n = Some (2 ^ 64 - 1) -> leads1 v (VStr e []) w -> leads1 v (VNum n) w.

(** Several steps. *)
Inductive leads : value -> list member -> value -> Prop :=
| Leads_here : forall v, leads v [] v
| Leads_on : forall v m w l x, leads1 v (snd m) w -> leads w l x -> leads v (m :: l) x.
End Leads.

(** The items as [toValue] writes them. *)
Definition written_item (L : libm) (m : member) : member :=
  ([], match snd m with
       | VStr _ k => VStr None k
       | VNum n => if uint_value L n =? 2 ^ 64 - 1 then VStr None [] else VNum (NUInt (uint_value L n))
       | v => v
       end).
