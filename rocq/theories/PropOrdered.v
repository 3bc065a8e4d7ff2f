(** C33, C34, C53: ordered containers. *)
From Coq Require Import Sorted Permutation.
From Verif Require Import Base ModelValue ModelObject ModelOrdered SpecOrdered ProofOrdered.
Local Open Scope Z_scope.

(** Sorting: ordered, the same items, equal items in their old order. *)
Theorem C33_sort : forall cmp l, total_preorder cmp -> ordered cmp (ord_sort cmp l) /\ Permutation l (ord_sort cmp l) /\
  forall x, class cmp x (ord_sort cmp l) = class cmp x l.
Proof. exact ord_sort_spec. Qed.
Print Assumptions C33_sort.

(** Merge: of the items equal to [x] all those of the second container and, if
    the first has more, its surplus ones. *)
Theorem C33_merge : forall cmp, total_preorder cmp -> forall l1 l2, ordered cmp l1 -> ordered cmp l2 ->
  ordered cmp (ord_merge cmp l1 l2) /\
  forall x, class cmp x (ord_merge cmp l1 l2) = class cmp x l2 ++ skipn (length (class cmp x l2)) (class cmp x l1).
Proof. exact merge_spec. Qed.
Print Assumptions C33_merge.

(** With a conflict function that stays in the class: pairs are joined. *)
Theorem C33_merge_with : forall cmp, total_preorder cmp -> forall fn l1 l2,
  (forall a b, cmp a b = 0 -> cmp (fn a b) b = 0) -> ordered cmp l1 -> ordered cmp l2 ->
  ordered cmp (ord_merge_with cmp fn l1 l2) /\
  forall x, class cmp x (ord_merge_with cmp fn l1 l2) =
    map (fun p => fn (fst p) (snd p)) (combine (class cmp x l1) (class cmp x l2)) ++
    skipn (length (class cmp x l2)) (class cmp x l1) ++ skipn (length (class cmp x l1)) (class cmp x l2).
Proof. exact merge_with_spec. Qed.
Print Assumptions C33_merge_with.

Theorem C33_intersection : forall cmp, total_preorder cmp -> forall l1 l2, ordered cmp l1 -> ordered cmp l2 ->
  ordered cmp (ord_intersection cmp l1 l2) /\
  forall x, class cmp x (ord_intersection cmp l1 l2) = firstn (length (class cmp x l1)) (class cmp x l2).
Proof. exact intersection_spec. Qed.
Print Assumptions C33_intersection.

Theorem C33_intersection_with : forall cmp, total_preorder cmp -> forall fn l1 l2,
  (forall a b, cmp a b = 0 -> cmp (fn a b) b = 0) -> ordered cmp l1 -> ordered cmp l2 ->
  ordered cmp (ord_intersection_with cmp fn l1 l2) /\
  forall x, class cmp x (ord_intersection_with cmp fn l1 l2) =
    map (fun p => fn (fst p) (snd p)) (combine (class cmp x l1) (class cmp x l2)).
Proof. exact intersection_with_spec. Qed.
Print Assumptions C33_intersection_with.

Theorem C33_complement : forall cmp, total_preorder cmp -> forall l1 l2, ordered cmp l1 -> ordered cmp l2 ->
  ordered cmp (ord_complement cmp l1 l2) /\
  forall x, class cmp x (ord_complement cmp l1 l2) = skipn (length (class cmp x l2)) (class cmp x l1).
Proof. exact complement_spec. Qed.
Print Assumptions C33_complement.

Theorem C33_symdiff : forall cmp, total_preorder cmp -> forall l1 l2, ordered cmp l1 -> ordered cmp l2 ->
  ordered cmp (ord_symdiff cmp l1 l2) /\
  forall x, class cmp x (ord_symdiff cmp l1 l2) =
    skipn (length (class cmp x l2)) (class cmp x l1) ++ skipn (length (class cmp x l1)) (class cmp x l2).
Proof. exact symdiff_spec. Qed.
Print Assumptions C33_symdiff.

(** Find: an equal item, or undefined when there is none. *)
Theorem C34_find : forall cmp l n, total_preorder cmp -> ordered cmp l -> exists m, ord_find_value cmp l n = Ok m /\
  (m = ([], VUndef) /\ Forall (fun x => cmp n x <> 0) l \/ In m l /\ cmp n m = 0).
Proof. exact find_value_spec. Qed.
Print Assumptions C34_find.

(** The bounds delimit the run of equal items, which starts after all items
    below the needle; with no equal item all of them are the end. *)
Theorem C34_bounds : forall cmp, total_preorder cmp -> forall l n, ordered cmp l ->
  let lo := below cmp n l in let k := length (class cmp n l) in
  firstn k (skipn lo l) = class cmp n l /\
  (ord_lower cmp l n = Ok (if (k =? 0)%nat then length l else lo)) /\
  (ord_upper cmp l n = Ok (if (k =? 0)%nat then length l else lo + k)%nat) /\
  (ord_range cmp l n = Ok (if (k =? 0)%nat then (length l, length l) else (lo, lo + k)%nat)).
Proof. exact bounds_spec. Qed.
Print Assumptions C34_bounds.

(** The first item of each run. *)
Theorem C34_uniq : forall cmp, total_preorder cmp -> forall l, ordered cmp l -> strictly_ordered cmp (ord_uniq cmp l) /\
  forall x, class cmp x (ord_uniq cmp l) = firstn 1 (class cmp x l).
Proof. exact uniq_spec. Qed.
Print Assumptions C34_uniq.

(** The ranges given to the reduce function are the classes, in order. *)
Theorem C34_group : forall cmp l, total_preorder cmp -> ordered cmp l -> concat (ord_runs cmp l) = l /\
  Forall (fun r => exists x, In x r /\ r = class cmp x l) (ord_runs cmp l) /\
  StronglySorted (fun r s => forall a b, In a r -> In b s -> cmp a b < 0) (ord_runs cmp l).
Proof. exact group_spec. Qed.
Print Assumptions C34_group.

(** Splitting loses and reorders nothing; without undefined items the parts are
    the runs. *)
Theorem C53_split : forall cmp l, concat (arr_split cmp l) = l /\
  (l <> [] -> Forall (fun x => snd x <> VUndef) l -> arr_split cmp l = ord_runs cmp l).
Proof. exact arr_split_spec. Qed.
Print Assumptions C53_split.

(** An empty array is split into one empty part. *)
Theorem C53_empty_refuted : exists l, forall cmp, arr_split cmp l <> ord_runs cmp l.
Proof. exists []. intros cmp. discriminate. Qed.
Print Assumptions C53_empty_refuted.

(** Numbers by value, by hundreds. *)
Definition hundred (m : member) : Z := match snd m with VNum (NUInt n) => n / 100 | _ => -1 end.
Definition by_hundred (a b : member) : Z := hundred a - hundred b.
Definition nm (n : Z) : member := ([], VNum (NUInt n)).
Example C33_case : total_preorder by_hundred /\
  let l1 := map nm [101; 102; 150; 250; 300] in let l2 := map nm [120; 201; 202; 310; 500] in
  ordered by_hundred l1 /\ ordered by_hundred l2 /\
  ord_merge by_hundred l1 l2 = map nm [120; 102; 150; 201; 202; 310; 500] /\
  ord_intersection by_hundred l1 l2 = map nm [120; 201; 310] /\
  ord_complement by_hundred l1 l2 = map nm [102; 150] /\
  ord_symdiff by_hundred l1 l2 = map nm [102; 150; 202; 500] /\
  ord_lower by_hundred l1 (nm 111) = Ok 0%nat /\ ord_upper by_hundred l1 (nm 111) = Ok 3%nat /\
  ord_range by_hundred l1 (nm 299) = Ok (3, 4)%nat /\ ord_range by_hundred l1 (nm 1) = Ok (5, 5)%nat /\
  ord_uniq by_hundred l1 = map nm [101; 250; 300] /\
  arr_split by_hundred l1 = [map nm [101; 102; 150]; [nm 250]; [nm 300]] /\
  ord_sort by_hundred (map nm [300; 102; 250; 101]) = map nm [102; 101; 250; 300].
Proof.
  split; [split; unfold by_hundred; intros; lia|]. cbv zeta.
  split; [repeat constructor; discriminate|]. split; [repeat constructor; discriminate|].
  vm_compute. repeat split; reflexivity.
Qed.
