(** C98: going through values, and values made from sequences. *)
From Coq Require Import Sorted String.
Local Open Scope string_scope.
From Verif Require Import Base ModelKeyed SpecKeyed ModelValue ModelText ModelObject ModelArray SpecEnc ModelString SpecString
  ModelRpc SpecSearch ModelWalk SpecWalk ProofWalk ProofTextEx.
Local Open Scope list_scope.
Local Open Scope Z_scope.

(** The loop over a value goes through its items in order. *)
Theorem C98_loop : forall T (fn : T -> member -> T) v st, Z.of_nat (vsize v) < 2 ^ 64 ->
  range_for fn st v = Some (fold_left fn (members_of v) st).
Proof. exact (fun T => @range_for_spec T). Qed.
Print Assumptions C98_loop.

(** Iterators of one value are its positions; the end is one of them. *)
Theorem C98_iterator : forall v i j p, Z.of_nat (vsize v) < 2 ^ 63 -> 0 <= i <= Z.of_nat (vsize v) -> 0 <= j <= Z.of_nat (vsize v) ->
  it_deref (mkIt v i) = match nth_error (members_of v) (Z.to_nat i) with Some m => m | None => ([], VUndef) end /\
  (it_eq true (mkIt v i) (mkIt v j) = true <-> i = j) /\
  it_diff (mkIt v i) (mkIt v j) = i - j /\
  (0 <= i + p <= Z.of_nat (vsize v) -> it_add (mkIt v i) p = mkIt v (i + p)) /\
  (0 <= i - p <= Z.of_nat (vsize v) -> it_sub (mkIt v i) p = mkIt v (i - p)) /\
  (i < Z.of_nat (vsize v) -> it_next (mkIt v i) = mkIt v (i + 1) /\ it_next_post (mkIt v i) = (mkIt v (i + 1), mkIt v i)) /\
  (0 < i -> it_prev (mkIt v i) = mkIt v (i - 1) /\ it_prev_post (mkIt v i) = (mkIt v (i - 1), mkIt v i)) /\
  (it_at_end (mkIt v i) = true <-> i = Z.of_nat (vsize v)) /\
  (it_at_begin (mkIt v i) = true <-> i = 0).
Proof. exact iter_laws. Qed.
Print Assumptions C98_iterator.

(** Past the end there is nothing, and all such iterators are equal, of whatever
    values. *)
Theorem C98_past : forall copy v w i j, Z.of_nat (vsize v) <= i -> Z.of_nat (vsize w) <= j ->
  it_deref (mkIt v i) = ([], VUndef) /\ it_at_end (mkIt v i) = true /\ it_eq copy (mkIt v i) (mkIt w j) = true.
Proof. exact iter_past. Qed.
Print Assumptions C98_past.

(** Before the end, iterators of different values are never equal. *)
Theorem C98_other : forall v w i j, it_eq false (mkIt v i) (mkIt w j) = true <->
  Z.of_nat (vsize v) <= i /\ Z.of_nat (vsize w) <= j.
Proof. exact iter_other. Qed.
Print Assumptions C98_other.

(** So the iterator before the first item is equal to the end. *)
Theorem C98_before_refuted : exists v, it_eq true (it_prev (it_begin v)) (it_end v) = true /\
  it_eq true (it_begin v) (it_end v) = false.
Proof. exists (VArr [([], VNull)]). apply before_begin; [discriminate|reflexivity]. Qed.
Print Assumptions C98_before_refuted.

(** [forEach] calls the function on the items in order up to the first answered by
    false, and tells whether there was none. *)
Theorem C98_for_each : forall T (fn : T -> member -> T * bool) v st st' r, for_each fn st v = (st', r) ->
  (r = true /\ calls fn st (members_of v) st' (repeat true (vsize v))) \/
  (r = false /\ exists i, (i < vsize v)%nat /\ calls fn st (firstn (S i) (members_of v)) st' (repeat true i ++ [false])).
Proof. exact (fun T fn v => enum_spec fn (members_of v)). Qed.
Print Assumptions C98_for_each.

(** [walk] visits places of the value, each once, containers before what is inside
    them and items in order; a place is visited exactly if all containers it is in
    were answered by true. *)
Theorem C98_walk : forall T (fn : T -> member -> T * bool) st m, exists places nodes answers,
  Forall2 (fun p n => node_at m p = Some n) places nodes /\ calls fn st nodes (walk fn st m) answers /\
  StronglySorted before places /\
  forall p, In p places <->
    (exists n, node_at m p = Some n) /\ forall q i r, p = q ++ i :: r -> In (q, true) (combine places answers).
Proof. exact walk_spec. Qed.
Print Assumptions C98_walk.
Theorem C98_walk_everything : forall T (fn : T -> member -> T * bool) st m, (forall st n, snd (fn st n) = true) ->
  exists places nodes answers,
  Forall2 (fun p n => node_at m p = Some n) places nodes /\ calls fn st nodes (walk fn st m) answers /\
  StronglySorted before places /\ forall p, In p places <-> exists n, node_at m p = Some n.
Proof. exact walk_everything. Qed.
Print Assumptions C98_walk_everything.

(** A value made from a sequence: the function is called on its items in order. *)
Theorem C98_sequence : forall T A E utf8 ty (fn : T -> A -> T * member) st l skip st' r,
  of_sequence E utf8 ty fn st l skip = (st', r) ->
  exists items, calls fn st l st' items /\ r = of_items E utf8 ty items skip.
Proof. exact sequence_spec. Qed.
Print Assumptions C98_sequence.

(** An array has all of them, or the defined ones; an object the last one of each key;
    a string the texts of all, one after another, also of undefined ones. *)
Theorem C98_array : forall E utf8 items,
  of_items E utf8 TyArray items false = Ok (VArr items) /\
  of_items E utf8 TyArray items true = Ok (VArr (filter (fun m => negb (is_undef (snd m))) items)).
Proof. exact items_array. Qed.
Print Assumptions C98_array.
Theorem C98_object : forall E utf8 items skip, exists l, of_items E utf8 TyObject items skip = Ok (VObj false l) /\
  keys_increasing l /\
  forall k v, In (k, v) l <->
    last_binding k (filter (fun m => negb (skip && is_undef (snd m))) items) = Some v.
Proof. exact items_object. Qed.
Print Assumptions C98_object.
Theorem C98_string : forall E utf8 items skip, (forall k e s, In (k, VStr (Some e) s) items -> is_bytes s) ->
  exists texts, Forall2 (fun m t => string_form E utf8 (snd m) t) items texts /\
    of_items E utf8 TyString items skip = Ok (VStr None (List.concat texts)).
Proof. exact items_string. Qed.
Print Assumptions C98_string.

(** *** Examples *)
Definition ex_doc : value :=
  VObj false [(txt "a", VArr [([], VNull); ([], VArr [([], VBool true)])]); (txt "b", VNum (NUInt 7))].
(** The names of all nodes which are members, and how many nodes there are. *)
Definition ex_count (st : nat * list bytes) (m : member) : (nat * list bytes) * bool := ((S (fst st), snd st ++ [fst m]), true).
Example ex_walk : walk ex_count (O, []) ([], ex_doc) = (6%nat, [[]; txt "a"; []; []; []; txt "b"]).
Proof. reflexivity. Qed.
(** Arrays are not entered. *)
Definition ex_shallow (st : nat) (m : member) : nat * bool := (S st, match snd m with VArr _ => false | _ => true end).
Example ex_walk_shallow : walk ex_shallow O ([], ex_doc) = 3%nat.
Proof. reflexivity. Qed.
Example ex_places : node_at ([], ex_doc) [0; 1; 0]%nat = Some ([], VBool true) /\ before [0; 1; 0]%nat [1]%nat /\
  node_at ([], ex_doc) [1; 0]%nat = None.
Proof. split; [reflexivity|]. split; [apply Before_later; repeat constructor|reflexivity]. Qed.
Example ex_loop : range_for (fun st m => st ++ [fst m]) [] ex_doc = Some [txt "a"; txt "b"].
Proof. reflexivity. Qed.
Example ex_each : for_each (fun st m => (S st, match snd m with VArr _ => true | _ => false end)) O ex_doc = (2%nat, false).
Proof. reflexivity. Qed.
Example ex_string : of_items ser0 true TyString [([], VStr None (txt "x=")); ([], VNum (NUInt 12)); ([], VUndef)] true =
  Ok (VStr None (txt "x=12<undefined>")).
Proof. reflexivity. Qed.
Example ex_object : of_sequence ser0 true TyObject (fun (st : nat) (c : Z) => (S st, ([c], VNum (NUInt c)))) O [98; 97; 98] true =
  (3%nat, Ok (VObj false [(txt "a", VNum (NUInt 97)); (txt "b", VNum (NUInt 98))])).
Proof. reflexivity. Qed.
