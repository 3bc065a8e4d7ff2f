(** Induction over values. *)
From Verif Require Import Base ModelKeyed ModelValue.

Section Ind.
Variable P : value -> Prop.
Hypothesis HU : P VUndef.
Hypothesis HN : P VNull.
Hypothesis HB : forall b, P (VBool b).
Hypothesis Hnum : forall n, P (VNum n).
Hypothesis HS : forall e s, P (VStr e s).
Hypothesis HA : forall l, Forall (fun m => P (snd m)) l -> P (VArr l).
Hypothesis HO : forall d l, Forall (fun m => P (snd m)) l -> P (VObj d l).

Fixpoint value_ind' (v : value) : P v :=
  match v with
  | VUndef => HU
  | VNull => HN
  | VBool b => HB b
  | VNum n => Hnum n
  | VStr e s => HS e s
  | VArr l => HA l ((fix go (l : list (bytes * value)) : Forall (fun m => P (snd m)) l :=
      match l with
      | [] => Forall_nil _
      | m :: l' => Forall_cons m (value_ind' (snd m)) (go l')
      end) l)
  | VObj d l => HO d l ((fix go (l : list (bytes * value)) : Forall (fun m => P (snd m)) l :=
      match l with
      | [] => Forall_nil _
      | m :: l' => Forall_cons m (value_ind' (snd m)) (go l')
      end) l)
  end.
End Ind.
