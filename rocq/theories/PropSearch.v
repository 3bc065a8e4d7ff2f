(** C72, C73, C74: searching and filtering, mapping and reducing, the walk
    through two sequences. *)
From Verif Require Import Base ModelKeyed SpecKeyed ModelValue ModelObject ModelArray SpecArray ModelEq SpecEq
  ModelSearch SpecSearch ProofSearch ProofEq.
Local Open Scope Z_scope.

(** [indexOf]: the first equal item at or after the start. *)
Theorem C72_index_of : forall L eqv v x start, (forall a b, proper L a -> proper L b -> op_eq L a b (eqv a b)) ->
  proper L v -> proper L x ->
  (exists j, index_of eqv v x start = Z.of_nat j /\ (start <= j < vsize v)%nat /\
     veq L (snd (vitem v j)) x = true /\ forall j', (start <= j' < j)%nat -> veq L (snd (vitem v j')) x = false) \/
  (index_of eqv v x start = 2 ^ 64 - 1 /\ forall j, (start <= j < vsize v)%nat -> veq L (snd (vitem v j)) x = false).
Proof. exact index_of_spec. Qed.
Print Assumptions C72_index_of.

(** [lastIndexOf]: the last equal item before the start, which is not included. *)
Theorem C72_last_index_of : forall L eqv v x start, (forall a b, proper L a -> proper L b -> op_eq L a b (eqv a b)) ->
  proper L v -> proper L x ->
  (exists j, last_index_of eqv v x start = Z.of_nat j /\ (j < start)%nat /\ (j < vsize v)%nat /\
     veq L (snd (vitem v j)) x = true /\
     forall j', (j < j' < start)%nat -> (j' < vsize v)%nat -> veq L (snd (vitem v j')) x = false) \/
  (last_index_of eqv v x start = 2 ^ 64 - 1 /\
     forall j, (j < start)%nat -> (j < vsize v)%nat -> veq L (snd (vitem v j)) x = false).
Proof. exact last_index_of_spec. Qed.
Print Assumptions C72_last_index_of.

(** [findIndex] calls the function on the items in order, each once, up to the
    first answered by true, and returns its index. *)
Theorem C72_find_index : forall T (fn : T -> member -> nat -> T * bool) st v st' r, find_index fn st v = (st', r) ->
  (r = -1 /\ calls (with_index fn) st (numbered (members_of v)) st' (repeat false (vsize v))) \/
  (exists i, (i < vsize v)%nat /\ r = Z.of_nat i /\
     calls (with_index fn) st (firstn (S i) (numbered (members_of v))) st' (repeat false i ++ [true])).
Proof. exact find_index_calls. Qed.
Print Assumptions C72_find_index.

(** [rfindIndex]: the same from the last item down. *)
Theorem C72_rfind_index : forall T (fn : T -> member -> nat -> T * bool) st v st' r, rfind_index fn st v = (st', r) ->
  (r = -1 /\ calls (with_index fn) st (rev (numbered (members_of v))) st' (repeat false (vsize v))) \/
  (exists j, (j < vsize v)%nat /\ r = Z.of_nat (vsize v - 1 - j) /\
     calls (with_index fn) st (firstn (S j) (rev (numbered (members_of v)))) st' (repeat false j ++ [true])).
Proof. exact rfind_index_calls. Qed.
Print Assumptions C72_rfind_index.

(** [find] and [rfind] return the item itself, undefined when there is none. *)
Theorem C72_find : forall T (fn : T -> member -> nat -> T * bool) st v st' m, vfind fn st v = (st', m) ->
  (m = ([], VUndef) /\ calls (with_index fn) st (numbered (members_of v)) st' (repeat false (vsize v))) \/
  (exists i, nth_error (members_of v) i = Some m /\
     calls (with_index fn) st (firstn (S i) (numbered (members_of v))) st' (repeat false i ++ [true])).
Proof. exact find_value. Qed.
Print Assumptions C72_find.

Theorem C72_rfind : forall T (fn : T -> member -> nat -> T * bool) st v st' m, vrfind fn st v = (st', m) ->
  (m = ([], VUndef) /\ calls (with_index fn) st (rev (numbered (members_of v))) st' (repeat false (vsize v))) \/
  (exists j, nth_error (rev (members_of v)) j = Some m /\
     calls (with_index fn) st (firstn (S j) (rev (numbered (members_of v)))) st' (repeat false j ++ [true])).
Proof. exact rfind_value. Qed.
Print Assumptions C72_rfind.

(** For a predicate without state: the least and the greatest index. *)
Theorem C72_find_pure : forall p v,
  (exists i, snd (find_index (pure p) tt v) = Z.of_nat i /\ (i < vsize v)%nat /\ p (vitem v i) i = true /\
     forall j, (j < i)%nat -> p (vitem v j) j = false) \/
  (snd (find_index (pure p) tt v) = -1 /\ forall j, (j < vsize v)%nat -> p (vitem v j) j = false).
Proof. exact find_pure. Qed.
Print Assumptions C72_find_pure.

Theorem C72_rfind_pure : forall p v,
  (exists i, snd (rfind_index (pure p) tt v) = Z.of_nat i /\ (i < vsize v)%nat /\ p (vitem v i) i = true /\
     forall j, (i < j < vsize v)%nat -> p (vitem v j) j = false) \/
  (snd (rfind_index (pure p) tt v) = -1 /\ forall j, (j < vsize v)%nat -> p (vitem v j) j = false).
Proof. exact rfind_pure. Qed.
Print Assumptions C72_rfind_pure.

(** [filter] asks about every item once, in order, and keeps the accepted ones;
    an object stays an object.  Undefined items are dropped. *)
Theorem C72_filter : forall T (fn : T -> member -> nat -> T * bool) st v st' out,
  (forall d l, v = VObj d l -> keys_increasing l) -> vfilter fn st v = (st', out) ->
  exists bs, calls (with_index fn) st (numbered (members_of v)) st' bs /\
    out = match v with
          | VObj _ l => VObj false (defined_only (chosen l bs))
          | _ => VArr (defined_only (chosen (members_of v) bs))
          end.
Proof. exact filter_calls. Qed.
Print Assumptions C72_filter.

(** A counter that accepts every second call, on an object and an array. *)
Definition s_num (n : Z) : value := VNum (NUInt n).
Definition s_obj : value := VObj false [([97], s_num 1); ([98], s_num 2); ([99], s_num 3)].
Definition s_arr : value := VArr [([], s_num 5); ([97], s_num 7); ([], s_num 5); ([], VNull)].
Definition alternate (st : bool) (m : member) (i : nat) : bool * bool := (negb st, st).
Definition sL : libm := mkLibm (fun a _ => a) (fun a => a) (fun _ => f_of_Z 7).
Example C72_case :
  vfilter alternate true s_obj = (false, VObj false [([97], s_num 1); ([99], s_num 3)]) /\
  vfilter alternate false s_arr = (false, VArr [([97], s_num 7); ([], VNull)]) /\
  find_index alternate false s_arr = (false, 1) /\ rfind_index alternate false s_arr = (false, 2) /\
  vfind alternate false s_arr = (false, ([97], s_num 7)) /\ vrfind alternate false VNull = (false, ([], VUndef)) /\
  index_of (veq sL) s_arr (s_num 5) 0 = 0 /\ index_of (veq sL) s_arr (s_num 5) 1 = 2 /\
  index_of (veq sL) s_arr (s_num 7) 2 = npos /\
  last_index_of (veq sL) s_arr (s_num 5) 9 = 2 /\ last_index_of (veq sL) s_arr (s_num 5) 2 = 0 /\
  last_index_of (veq sL) s_arr (s_num 5) 0 = npos /\
  (forall a b, proper sL a -> proper sL b -> op_eq sL a b (veq sL a b)) /\ proper sL s_arr /\ proper sL (s_num 5) /\
  (forall d l, s_obj = VObj d l -> keys_increasing l).
Proof.
  repeat match goal with |- _ /\ _ => split end; try reflexivity.
  - intros a b Ha Hb. apply op_eq_veq; auto.
  - unfold s_arr, s_num. repeat (constructor; cbn); vm_compute; discriminate.
  - constructor. vm_compute. discriminate.
  - intros d l E. injection E as <- <-. unfold keys_increasing. cbn.
    repeat (constructor; try (repeat constructor)).
Qed.

(** [map] to an array, of an array or of anything by the target type: the
    function is called on every item once, in order; the defined results are the
    items. *)
Theorem C73_map_array : forall T (fn : T -> member -> T * handle) st v,
  exists st' hs, calls fn st (members_of v) st' hs /\
    let out := Some (st', VArr (defined_only (map (fun h => (handle_key h, snd h)) hs))) in
    vmap_to fn st v ToArray = out /\ (forall l, v = VArr l -> vmap fn st v = out).
Proof. exact map_array_both. Qed.
Print Assumptions C73_map_array.

(** [map] to an object: a result is stored under its own key or, when it has
    none, under that of its source; the last one stored under a key counts, and
    an undefined one removes the key. *)
Theorem C73_map_object : forall T (fn : T -> member -> T * handle) st v,
  exists st' hs out, calls fn st (members_of v) st' hs /\
    vmap_to fn st v ToObject = Some (st', VObj false out) /\
    (forall d l, v = VObj d l -> vmap fn st v = Some (st', VObj false out)) /\
    keys_increasing out /\
    forall k x, In (k, x) out <-> last_binding k (named (members_of v) hs) = Some x /\ is_undef x = false.
Proof. exact map_object_both. Qed.
Print Assumptions C73_map_object.

(** When no member is renamed, the members keep their places. *)
Theorem C73_map_same_keys : forall T (fn : T -> member -> T * handle) st v st' hs, keys_increasing (members_of v) ->
  calls fn st (members_of v) st' hs ->
  (forall h m, In (m, h) (combine (members_of v) hs) -> fst h = None \/ fst h = Some (fst m)) ->
  vmap_to fn st v ToObject = Some (st', VObj false (defined_only (named (members_of v) hs))).
Proof. exact map_object_same_keys. Qed.
Print Assumptions C73_map_same_keys.

(** [reduce] folds the items from the left. *)
Theorem C73_reduce : forall T (fn : T -> member -> T) v init, vreduce fn v init = Some (fold_left fn (members_of v) init).
Proof. exact reduce_fold. Qed.
Print Assumptions C73_reduce.

(** Numbers the results; "b" is removed, "c" is stored as "a". *)
Definition renumber (n : Z) (m : member) : Z * handle :=
  (n + 1, if beqb (fst m) [98] then (None, VUndef)
          else if beqb (fst m) [99] then (Some [97], s_num n) else (None, s_num n)).
Example C73_case :
  vmap renumber 10 s_obj = Some (13, VObj false [([97], s_num 12)]) /\
  vmap_to renumber 10 s_obj ToArray = Some (13, VArr [([], s_num 10); ([97], s_num 12)]) /\
  vmap renumber 10 s_arr = Some (14, VArr [([], s_num 10); ([], s_num 11); ([], s_num 12); ([], s_num 13)]) /\
  vmap_to renumber 10 s_arr ToObject = Some (14, VObj false [([], s_num 13); ([97], s_num 11)]) /\
  vmap renumber 10 (s_num 1) = Some (10, VUndef) /\
  vreduce (fun acc m => match snd m with VNum (NUInt n) => 10 * acc + n | _ => acc end) s_arr 3 = Some 3575.
Proof. repeat split. Qed.

(** The free function [merge] settles every item of both sequences exactly
    once, in order, with at most as many calls as there are items. *)
Theorem C74_walk : forall T A B (fn : T -> option A -> option B -> T * Z) l r st, exists lg,
  merge_walk (recording fn) l r (st, []) = (merge_walk fn l r st, lg) /\
  flat_map settles_left lg = l /\ flat_map settles_right lg = r /\ (length lg <= length l + length r)%nat.
Proof. exact walk_calls. Qed.
Print Assumptions C74_walk.

(** On sequences sorted by a key and with answers that compare keys, the calls
    answered by zero are exactly the pairs of items with the same key. *)
Theorem C74_join : forall T A B (fn : T -> option A -> option B -> T * Z) f g l r st, compares fn f g ->
  by_key f l -> by_key g r -> exists st' lg, merge_walk (recording fn) l r (st, []) = (st', lg) /\
  forall x y, In x l -> In y r -> (f x = g y <-> In (Some x, Some y, 0) lg).
Proof. exact walk_join. Qed.
Print Assumptions C74_join.

Definition cmp_fn (st : unit) (a b : option Z) : unit * Z :=
  (st, match a, b with Some x, Some y => 3 * (x - y) | _, _ => 0 end).
Example C74_case :
  merge_walk (recording cmp_fn) [1; 3; 4] [2; 3] (tt, []) =
    (tt, [(Some 1, Some 2, -3); (Some 3, Some 2, 3); (Some 3, Some 3, 0); (Some 4, None, 0)]) /\
  compares cmp_fn (fun x => x) (fun y => y) /\ by_key (fun x => x) [1; 3; 4] /\ by_key (fun x => x) [2; 3].
Proof.
  split; [reflexivity|]. split; [intros st x y; unfold cmp_fn; cbn [snd]; lia|]. split; unfold by_key; repeat constructor; lia.
Qed.
