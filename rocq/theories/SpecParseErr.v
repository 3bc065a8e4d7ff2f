(** Where the reading of a text stops. *)
From Verif Require Import Base ModelValue SpecText SpecAccept ModelText ModelParseErr.
Local Open Scope Z_scope.

(** The way to a place in a text, outermost first: inside the value of member [k] of an
    object, inside a key of an object, inside or behind an item of an array; [n] is the
    number of members or items before it. *)
Inductive level := LMember (n : nat) (k : bytes) | LName (n : nat) | LItem (n : nat).

(** The character [c] is next; -1 at the end. *)
Definition next_is (c : Z) (s : list Z) : Prop := hd (-1) s = c.
Definition no_space (s : list Z) : Prop := ~ space (hd (-1) s).
(** The first character which is no white space is [c]. *)
Definition first_is (c : Z) (s : list Z) : Prop := exists w s', spaces w /\ s = w ++ c :: s'.

(** What may stand at the beginning of a text: a literal, a word, a number.  For a number
    [N] says which texts count, and it may be asked that it ends there. *)
Definition literal_here (b : list Z) : Prop := exists t b', body t /\ b = 34 :: t ++ 34 :: b'.
Definition word_here (b : list Z) : Prop :=
  exists t b', In t [[116;114;117;101]; [102;97;108;115;101]; [110;117;108;108]] /\ b = t ++ b'.
Definition number_begins (N : list Z -> Prop) (b : list Z) : Prop := exists t b', N t /\ b = t ++ b'.
Definition number_here (N : list Z -> Prop) (b : list Z) : Prop := exists t b', N t /\ b = t ++ b' /\ num_end b'.
(** Where a number ends: no longer number stands there; or, simpler, what follows cannot
    belong to a number. *)
Definition longest (N : list Z -> Prop) (t x : list Z) : Prop :=
  forall t' x', N t' -> t ++ x = t' ++ x' -> num_end x' -> (length t' <= length t)%nat.
Definition apart (t x : list Z) : Prop := num_end x.
(** No value here: no container begins, and there is none of these. *)
Definition no_value (num_at : list Z -> Prop) (b : list Z) : Prop :=
  no_space b /\ ~ next_is 123 b /\ ~ next_is 91 b /\ ~ literal_here b /\ ~ word_here b /\ ~ num_at b.

(** Values as the grammar has them; a key twice only if that is allowed. *)
Definition value_text (dup : bool) (S : bytes -> list Z -> Prop) (N : num -> list Z -> Prop) (v : value) (t : list Z) : Prop :=
  gval S N v t /\ (dup = true \/ ~ has_dup v).

Section Text.
Variable dup : bool.
Variable V : value -> list Z -> Prop.
Variable S : bytes -> list Z -> Prop.
Variable no_val : list Z -> Prop.
Variable ends : list Z -> list Z -> Prop.

(** An item or a member with the white space around; [E t w]: the text of the value and
    the white space behind it. *)
Definition item_text (E : list Z -> list Z -> Prop) (u : list Z) : Prop :=
  exists w1 t w2 v, u = w1 ++ t ++ w2 /\ spaces w1 /\ V v t /\ spaces w2 /\ E t w2.
Definition member_text (E : list Z -> list Z -> Prop) (k : bytes) (u : list Z) : Prop :=
  exists w1 b w2 w3 t w4 v, u = w1 ++ 34 :: b ++ 34 :: w2 ++ 58 :: w3 ++ t ++ w4 /\
    spaces w1 /\ S k b /\ spaces w2 /\ spaces w3 /\ V v t /\ spaces w4 /\ E t w4.
Definition any (t w : list Z) : Prop := True.
Definition before_text (b : list Z) (t w : list Z) : Prop := ends t (w ++ b).
(** Some of them, a comma behind each. *)
Inductive items : nat -> list Z -> Prop :=
| it_none : items 0 []
| it_more : forall n t u, items n t -> item_text any u -> items (1 + n) (t ++ u ++ [44]).
Inductive members : list bytes -> list Z -> Prop :=
| mb_none : members [] []
| mb_more : forall ks t k u, members ks t -> member_text any k u -> members (ks ++ [k]) (t ++ u ++ [44]).

(** [stops p m a b]: reading stops between [a] and [b], at the place [p], where [m] is the
    number of members before it in the object in which it stops, if not in a member. *)
Inductive stops : list level -> nat -> list Z -> list Z -> Prop :=
(* where a value should be, and is none *)
| st_value : forall w b, spaces w -> no_val b ->
    stops [] 0 w b
(* where a key should be *)
| st_key : forall w ks t w1 b, spaces w -> members ks t -> spaces w1 -> no_space b -> ~ next_is 34 b -> (ks = [] -> ~ next_is 125 b) ->
    stops [] (length ks) (w ++ 123 :: t ++ w1) b
(* behind a member *)
| st_behind : forall w ks t k u b, spaces w -> members ks t -> member_text (before_text b) k u -> no_space b -> ~ next_is 44 b -> ~ next_is 125 b ->
    stops [] (1 + length ks) (w ++ 123 :: t ++ u) b
(* at the end of an object with a key which is there twice *)
| st_twice : forall w ks t k u b, spaces w -> members ks t -> member_text any k u -> dup = false -> ~ NoDup (ks ++ [k]) ->
    stops [] (1 + length ks) (w ++ 123 :: t ++ u ++ [125]) b
(* in a key *)
| st_name : forall w ks t w1 b, spaces w -> members ks t -> spaces w1 -> ~ literal_here (34 :: b) ->
    stops [LName (length ks)] 0 (w ++ 123 :: t ++ w1 ++ [34]) b
(* where a colon should be *)
| st_colon : forall w ks t w1 k x w2 b, spaces w -> members ks t -> spaces w1 -> S k x -> spaces w2 -> no_space b -> ~ next_is 58 b ->
    stops [LMember (length ks) k] 0 (w ++ 123 :: t ++ w1 ++ 34 :: x ++ 34 :: w2) b
(* in the value of a member *)
| st_member : forall w ks t w1 k x w2 p m a b, spaces w -> members ks t -> spaces w1 -> S k x -> spaces w2 -> stops p m a b ->
    stops (LMember (length ks) k :: p) m (w ++ 123 :: t ++ w1 ++ 34 :: x ++ 34 :: w2 ++ 58 :: a) b
(* in an item; not in the bracket that ends an empty array *)
| st_item : forall w n t p m a b, spaces w -> items n t -> (n = 0%nat -> ~ first_is 93 (a ++ b)) -> stops p m a b ->
    stops (LItem n :: p) m (w ++ 91 :: t ++ a) b
(* behind an item *)
| st_after : forall w n t u b, spaces w -> items n t -> item_text (before_text b) u -> no_space b -> ~ next_is 44 b -> ~ next_is 93 b ->
    stops [LItem (1 + n)] 0 (w ++ 91 :: t ++ u) b.
End Text.

(** The place as it should be reported, outermost first. *)
Definition place (l : level) : context :=
  match l with LMember _ k => CKey k | LName _ => CKey [] | LItem n => CIdx n end.
Definition before (l : level) : nat := match l with LMember n _ | LName n | LItem n => n end.
(** The values complete in the containers on the way. *)
Fixpoint complete (p : list level) (m : nat) : nat :=
  match p with [] => m | l :: p => before l + complete p m end.
(** The place as it is reported: the number of an item counts the values which are
    complete further inside, too. *)
Fixpoint reported (p : list level) (m : nat) : list context :=
  match p with
  | [] => []
  | LItem n :: p => CIdx (n + complete p m) :: reported p m
  | l :: p => place l :: reported p m
  end.
