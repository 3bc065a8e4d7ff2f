(** Equality and ordering of values: /repo/src/imtjson/basicValues.h/.cpp,
    abstractValue.cpp, key.h, value.cpp. *)
From Verif Require Import Base ModelKeyed ModelValue ModelObject.
Local Open Scope Z_scope.

(** basicValues.h 98 and stringValue.cpp 185-188, [getNumber]: integers are
    converted to double, a precise number that is not an integer is read by
    [strtod]. *)
Definition get_number (L : libm) (n : num) : spec_float :=
  match n with
  | NUInt n | NInt n => f_of_Z n
  | NDbl f => f
  | NPrec t PkDbl => lm_strtod L t
  | NPrec _ (PkUInt n) | NPrec _ (PkInt n) => f_of_Z n
  end.

(** basicValues.h 104-112, [NumberValueT::equal]: same class compares the
    numbers, anything else compares as double (basicValues.cpp 118-120).  The
    shared zero (basicValues.cpp 20-28) always compares as double, which gives
    the same result because only zero converts to 0.0. *)
Definition num_equal (L : libm) (a b : num) : bool :=
  match a, b with
  | NUInt n, NUInt m => n =? m
  | NInt n, NInt m => n =? m
  | _, _ => SFeqb (get_number L a) (get_number L b)
  end.

(** [v->equal(w)] when no two distinct handles share an object:
    basicValues.cpp 109-150, abstractValue.h 31, key.h 38.  The encoding of
    binary strings and the diff flag are not compared. *)
Fixpoint veq (L : libm) (v w : value) {struct v} : bool :=
  match v, w with
  | VNull, VNull => true
  | VBool b, VBool c => Bool.eqb b c
  | VNum a, VNum b => num_equal L a b
  | VStr _ s, VStr _ t => beqb s t
  | VArr l, VArr m =>
    (fix items (l m : list member) {struct l} : bool :=
       match l, m with
       | [], [] => true
       | x :: l', y :: m' => veq L (snd x) (snd y) && items l' m'
       | _, _ => false
       end) l m
  | VObj _ l, VObj _ m =>
    (fix items (l m : list member) {struct l} : bool :=
       match l, m with
       | [], [] => true
       | x :: l', y :: m' => beqb (fst x) (fst y) && veq L (snd x) (snd y) && items l' m'
       | _, _ => false
       end) l m
  | _, _ => false
  end.

(** The same with shared handles.  [a != b] (basicValues.cpp 132, 144) compares
    pointers; two handles of the same object denote the same key and value, so
    an item may be taken as equal to itself without looking. *)
Inductive equal_run (L : libm) : value -> value -> bool -> Prop :=
| ER_undef : forall w, equal_run L VUndef w false
| ER_null : forall w, equal_run L VNull w (match w with VNull => true | _ => false end)
| ER_bool : forall b w, equal_run L (VBool b) w (match w with VBool c => Bool.eqb b c | _ => false end)
| ER_num : forall n w, equal_run L (VNum n) w (match w with VNum m => num_equal L n m | _ => false end)
| ER_str : forall e s w, equal_run L (VStr e s) w (match w with VStr _ t => beqb s t | _ => false end)
| ER_arr_type : forall l w, (forall m, w <> VArr m) -> equal_run L (VArr l) w false
| ER_arr_size : forall l m, length l <> length m -> equal_run L (VArr l) (VArr m) false
| ER_arr : forall l m b, length l = length m -> items_run L false l m b -> equal_run L (VArr l) (VArr m) b
| ER_obj_type : forall d l w, (forall d' m, w <> VObj d' m) -> equal_run L (VObj d l) w false
| ER_obj_size : forall d l d' m, length l <> length m -> equal_run L (VObj d l) (VObj d' m) false
| ER_obj : forall d l d' m b, length l = length m -> items_run L true l m b ->
    equal_run L (VObj d l) (VObj d' m) b
with items_run (L : libm) : bool -> list member -> list member -> bool -> Prop :=
| IR_nil : forall k, items_run L k [] [] true
| IR_same : forall k x l m b, items_run L k l m b -> items_run L k (x :: l) (x :: m) b
| IR_key : forall x y l m, fst x <> fst y -> items_run L true (x :: l) (y :: m) false
| IR_true : forall k x y l m b, (k = true -> fst x = fst y) -> equal_run L (snd x) (snd y) true ->
    items_run L k l m b -> items_run L k (x :: l) (y :: m) b
| IR_false : forall k x y l m, (k = true -> fst x = fst y) -> equal_run L (snd x) (snd y) false ->
    items_run L k (x :: l) (y :: m) false.

(** value.cpp 323-326, [Value::operator==]. *)
Definition op_eq (L : libm) (v w : value) (b : bool) : Prop :=
  (v = w /\ b = true) \/ equal_run L w v b.

(** ivalue.h 15-33: the type numbers. *)
Definition type_rank (v : value) : Z :=
  match v with
  | VNull => 0 | VBool _ => 1 | VNum _ => 2 | VStr _ _ => 3
  | VArr _ => 4 | VObj _ _ => 5 | VUndef => 6
  end.

(** [l<r?-1:l>r?1:0] on doubles: anything not ordered gives 0. *)
Definition f_compare (a b : spec_float) : comparison :=
  if SFltb a b then Lt else if SFltb b a then Gt else Eq.

(** Unsigned integer content (flag numberUnsignedInteger), and any integer
    content as [getInt] returns it. *)
Definition num_uint (n : num) : option Z :=
  match n with NUInt n | NPrec _ (PkUInt n) => Some n | _ => None end.
Definition num_int (n : num) : option Z :=
  match n with
  | NUInt n | NPrec _ (PkUInt n) => Some (s64 n)
  | NInt n | NPrec _ (PkInt n) => Some n
  | _ => None
  end.

(** abstractValue.cpp 29-45. *)
Definition num_compare (L : libm) (a b : num) : comparison :=
  match num_uint a, num_uint b with
  | Some l, Some r => Z.compare l r
  | _, _ =>
    match num_int a, num_int b with
    | Some l, Some r => Z.compare l r
    | _, _ => f_compare (get_number L a) (get_number L b)
    end
  end.

(** abstractValue.cpp 18-76, [AbstractValue::compare]; only the sign of the
    result is kept. *)
Fixpoint vcmp (L : libm) (v w : value) {struct v} : comparison :=
  match v, w with
  | VBool b, VBool c => if Bool.eqb b c then Eq else if b then Gt else Lt
  | VNum a, VNum b => num_compare L a b
  | VStr _ s, VStr _ t => kcmp s t
  | VArr l, VArr m =>
    (fix items (l m : list member) {struct l} : comparison :=
       match l, m with
       | [], [] => Eq
       | [], _ :: _ => Lt
       | _ :: _, [] => Gt
       | x :: l', y :: m' =>
         match vcmp L (snd x) (snd y) with Eq => items l' m' | c => c end
       end) l m
  | VObj _ l, VObj _ m =>
    (fix items (l m : list member) {struct l} : comparison :=
       match l, m with
       | [], [] => Eq
       | [], _ :: _ => Lt
       | _ :: _, [] => Gt
       | x :: l', y :: m' =>
         match kcmp (fst x) (fst y) with
         | Eq => match vcmp L (snd x) (snd y) with Eq => items l' m' | c => c end
         | c => c
         end
       end) l m
  | _, _ => Z.compare (type_rank v) (type_rank w)
  end.
