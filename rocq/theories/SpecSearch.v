(** What searching, filtering and mapping mean, in terms of the calls made to
    the user's function. *)
From Coq Require Import Sorted.
From Verif Require Import Base ModelKeyed ModelValue ModelObject.
Local Open Scope Z_scope.

(** Calling [fn] with each of the arguments in turn leads from one state of the
    function to another and gives these answers. *)
Inductive calls {T C A} (fn : T -> C -> T * A) : T -> list C -> T -> list A -> Prop :=
| Calls_nil : forall st, calls fn st [] st []
| Calls_cons : forall st c cs st' a st'' l,
    fn st c = (st', a) -> calls fn st' cs st'' l -> calls fn st (c :: cs) st'' (a :: l).

(** A function of an item and its index, as a function of the pair. *)
Definition with_index {T A} (fn : T -> member -> nat -> T * A) (st : T) (c : member * nat) : T * A :=
  fn st (fst c) (snd c).
(** The items with their indices. *)
Definition numbered (l : list member) : list (member * nat) := combine l (seq 0 (length l)).

(** The items answered by [true]. *)
Definition chosen (l : list member) (bs : list bool) : list member :=
  map fst (filter snd (combine l bs)).

(** Names of mapped members: the handle's own key, or the key of the source. *)
Definition named (l : list member) (hs : list (option bytes * value)) : list member :=
  map (fun p => (match fst (snd p) with Some k => k | None => fst (fst p) end, snd (snd p))) (combine l hs).

(** A predicate without state. *)
Definition pure (p : member -> nat -> bool) (st : unit) (m : member) (i : nat) : unit * bool := (st, p m i).

(** *** The walk through two sequences *)
(** Records the calls with their answers. *)
Definition recording {T A B} (fn : T -> option A -> option B -> T * Z)
  (st : T * list (option A * option B * Z)) (a : option A) (b : option B) :=
  let '(st', z) := fn (fst st) a b in ((st', snd st ++ [(a, b, z)]), z).

(** What a call settles: the left item when its answer is not positive or there
    is no right item, and the other way round. *)
Definition settles_left {A B} (c : option A * option B * Z) : list A :=
  match c with
  | (Some x, None, _) => [x]
  | (Some x, Some _, z) => if z <=? 0 then [x] else []
  | (None, _, _) => []
  end.
Definition settles_right {A B} (c : option A * option B * Z) : list B :=
  match c with
  | (None, Some y, _) => [y]
  | (Some _, Some y, z) => if 0 <=? z then [y] else []
  | (_, None, _) => []
  end.

(** Strictly increasing by a key. *)
Definition by_key {A} (f : A -> Z) (l : list A) : Prop := StronglySorted (fun x y => f x < f y) l.
(** The answers compare the keys whenever both items are there. *)
Definition compares {T A B} (fn : T -> option A -> option B -> T * Z) (f : A -> Z) (g : B -> Z) : Prop :=
  forall st x y, Z.sgn (snd (fn st (Some x) (Some y))) = Z.sgn (f x - g y).
