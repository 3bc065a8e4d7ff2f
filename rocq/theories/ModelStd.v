(** Standard algorithms used by namedEnum.h and jwt.cpp. *)
From Coq Require Import Sorted Permutation.
From Verif Require Import Base.

(** [std::lower_bound] as implemented by libstdc++ (bits/stl_algobase.h,
    [__lower_bound]): [below x] is the comparison of the element [x] with the
    searched one, [first] and [len] are the loop's variables.  The first argument
    bounds the loop. Called at jwt.cpp 126-142, namedEnum.h 96-127. *)
Fixpoint lower_bound_loop {A} (fuel : nat) (below : A -> bool) (l : list A) (first len : nat) : res nat :=
  match fuel with
  | O => Fuel
  | S f =>
    match len with
    | O => Ok first
    | S _ =>
      let half := Nat.div2 len in
      match nth_error l (first + half) with
      | None => Err
      | Some x =>
        if below x then lower_bound_loop f below l (first + half + 1) (len - half - 1)
        else lower_bound_loop f below l first half
      end
    end
  end.
Definition lower_bound {A} (below : A -> bool) (l : list A) : res nat :=
  lower_bound_loop (S (length l)) below l 0 (length l).

(** [std::sort] is not stable, so its result is not unique: [l'] is a possible
    result of sorting [l] if it has the same elements and none is less than an
    earlier one (the contract of the standard).
    Called at jwt.cpp 162, namedEnum.h 35-36, operations.h 448, value.cpp 885. *)
Definition sort_result {A} (less : A -> A -> bool) (l l' : list A) : Prop :=
  Permutation l l' /\ StronglySorted (fun a b => less b a = false) l'.
