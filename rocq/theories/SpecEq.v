(** Classes of values the equality and ordering laws speak about. *)
From Verif Require Import Base ModelKeyed ModelValue ModelObject ModelEq.
Local Open Scope Z_scope.

Definition not_nan (f : spec_float) : Prop := f <> S754_nan.

(** No undefined value and no NaN anywhere. *)
Inductive proper (L : libm) : value -> Prop :=
| Pr_null : proper L VNull
| Pr_bool : forall b, proper L (VBool b)
| Pr_num : forall n, not_nan (get_number L n) -> proper L (VNum n)
| Pr_str : forall e s, proper L (VStr e s)
| Pr_arr : forall l, Forall (fun m => proper L (snd m)) l -> proper L (VArr l)
| Pr_obj : forall d l, Forall (fun m => proper L (snd m)) l -> proper L (VObj d l).

(** Integers, however stored, are below 2^53 in absolute value. *)
Definition small_num (n : num) : Prop :=
  match n with
  | NUInt n | NPrec _ (PkUInt n) => 0 <= n < 2 ^ 53
  | NInt n | NPrec _ (PkInt n) => - 2 ^ 53 < n < 2 ^ 53
  | NDbl _ | NPrec _ PkDbl => True
  end.

(** Every number is small in that sense, and nothing is NaN. *)
Inductive exact (L : libm) : value -> Prop :=
| Ex_undef : exact L VUndef
| Ex_null : exact L VNull
| Ex_bool : forall b, exact L (VBool b)
| Ex_num : forall n, not_nan (get_number L n) -> small_num n -> exact L (VNum n)
| Ex_str : forall e s, exact L (VStr e s)
| Ex_arr : forall l, Forall (fun m => exact L (snd m)) l -> exact L (VArr l)
| Ex_obj : forall d l, Forall (fun m => exact L (snd m)) l -> exact L (VObj d l).

(** The order written out: null, booleans, numbers, strings, arrays, objects;
    false before true, numbers by value, strings by their bytes, containers by
    the first item that differs (an object's key counts first), a prefix first. *)
Definition kind (v : value) : Z :=
  match v with
  | VNull => 0 | VBool _ => 1 | VNum _ => 2 | VStr _ _ => 3 | VArr _ => 4 | VObj _ _ => 5 | VUndef => 6
  end.
Inductive before (L : libm) : value -> value -> Prop :=
| B_kind : forall v w, kind v < kind w -> before L v w
| B_bool : before L (VBool false) (VBool true)
| B_num : forall a b, SFltb (get_number L a) (get_number L b) = true -> before L (VNum a) (VNum b)
| B_str : forall e s e' t, kcmp s t = Lt -> before L (VStr e s) (VStr e' t)
| B_arr : forall l m, items_before L false l m -> before L (VArr l) (VArr m)
| B_obj : forall d l d' m, items_before L true l m -> before L (VObj d l) (VObj d' m)
with items_before (L : libm) : bool -> list member -> list member -> Prop :=
| IB_prefix : forall k y m, items_before L k [] (y :: m)
| IB_key : forall x y l m, kcmp (fst x) (fst y) = Lt -> items_before L true (x :: l) (y :: m)
| IB_item : forall k x y l m, (k = true -> fst x = fst y) -> before L (snd x) (snd y) -> items_before L k (x :: l) (y :: m)
| IB_next : forall k x y l m, (k = true -> fst x = fst y) -> veq L (snd x) (snd y) = true ->
    items_before L k l m -> items_before L k (x :: l) (y :: m).
