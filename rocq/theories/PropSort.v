(** C127: sorting and grouping of builders, putting items before an array. *)
From Coq Require Import Lia Sorted Permutation.
From Verif Require Import Base ModelStd ModelKeyed SpecKeyed ModelValue ModelObject SpecObject ModelArray SpecArray ModelOrdered SpecOrdered
  ModelSort SpecSort ProofSort PropObject.

(** [Array::sort] on a builder made and changed in any way: it always succeeds, and every
    result it may give holds the items of the builder in order. *)
Theorem C127_sort_array : forall cmp c ops a, total_preorder cmp ->
  (match c with CBase l => forall m, In m l -> is_undef (snd m) = false | _ => True end) ->
  aops_ok (aspec_create c) ops -> arr_run (arr_create c) ops = Some a ->
  (exists r, arr_sorts cmp a r) /\
  forall o, arr_sorts cmp a o -> exists r l, o = Some r /\
    Permutation (as_cur (aspec_run (aspec_create c) ops)) l /\ ordered cmp l /\
    arr_size r = length l /\ (forall i, arr_get r i = nth_error l i) /\ arr_commit r = VArr (defined_only l).
Proof. exact array_sort. Qed.
Print Assumptions C127_sort_array.

(** [Object::sort] gives an array of the members of the object, in order, with their keys; the
    object keeps its content. *)
Theorem C127_sort_object : forall cmp b1 b2 ops, total_preorder cmp -> base_ok b1 -> base_ok b2 -> Forall op_ok ops ->
  Forall (fun op => ~ keeps_snapshot op) ops ->
  exists x y v, obj_run (obj_new b1, obj_new b2) ops = Some (x, y) /\
    committed (fst (spec_run (mkSpec b1 [], mkSpec b2 []) ops)) v /\
    (exists x' r, obj_sorts cmp x x' r) /\
    forall x' r, obj_sorts cmp x x' r -> exists l,
      Permutation (members_of v) l /\ ordered cmp l /\ arr_size r = length l /\ (forall i, arr_get r i = nth_error l i) /\
      arr_commit r = VArr (defined_only l) /\
      snd (obj_commit x') = v /\
      forall k, exists x'', obj_read x' k = Some (x'', spec_read (fst (spec_run (mkSpec b1 [], mkSpec b2 []) ops)) k).
Proof. exact object_sort. Qed.
Print Assumptions C127_sort_object.

(** When the comparison tells all items apart, there is one result, that of [Value::sort]. *)
Theorem C127_sort_unique : forall cmp c ops a r, total_preorder cmp ->
  (match c with CBase l => forall m, In m l -> is_undef (snd m) = false | _ => True end) ->
  aops_ok (aspec_create c) ops -> arr_run (arr_create c) ops = Some a ->
  let cur := as_cur (aspec_run (aspec_create c) ops) in
  (forall x y, In x cur -> In y cur -> cmp x y = 0%Z -> x = y) ->
  arr_sorts cmp a (Some r) -> arr_commit r = VArr (defined_only (ord_sort cmp cur)).
Proof. exact sort_unique. Qed.
Print Assumptions C127_sort_unique.

(** [Array::group]: one item for each run of equal items, made by folding the run from the
    initial value. *)
Theorem C127_group : forall T (fn : T -> member -> T) mk init cmp c ops a,
  (match c with CBase l => forall m, In m l -> is_undef (snd m) = false | _ => True end) ->
  aops_ok (aspec_create c) ops -> arr_run (arr_create c) ops = Some a ->
  let cur := as_cur (aspec_run (aspec_create c) ops) in
  Forall (fun m => is_undef (snd m) = false) cur -> cur <> [] ->
  exists r rs, arr_group cmp fn mk init a = Some r /\ runs cmp rs /\ concat rs = cur /\
    arr_size r = length rs /\ (forall i, arr_get r i = option_map (fun run => mk (fold_left fn run init)) (nth_error rs i)) /\
    arr_commit r = VArr (defined_only (map (fun run => mk (fold_left fn run init)) rs)).
Proof. exact array_group. Qed.
Print Assumptions C127_group.

(** [Value::group] likewise; what is called the runs of a list determines them. *)
Theorem C127_value_group : forall T (fn : T -> member -> T) mk init cmp l rs, l <> [] -> Forall (fun m => is_undef (snd m) = false) l ->
  runs cmp rs -> concat rs = l ->
  vgroup cmp fn mk init (VArr l) = Some (VArr (defined_only (map (fun run => mk (fold_left fn run init)) rs))).
Proof. exact value_group. Qed.
Print Assumptions C127_value_group.

(** [Value::unshift] of a sequence: the items in the order given, then those there were,
    without the undefined ones; the size is that of the new array. *)
Theorem C127_unshift : forall v items, vunshift_all v items =
  (VArr (defined_only (items ++ members_of v)), length (defined_only (items ++ members_of v))).
Proof. exact unshift_all. Qed.
Print Assumptions C127_unshift.

Definition key1 (m : member) : Z := match snd m with VNum (NUInt n) => n / 10 | _ => -1 end%Z.
Definition by_ten (a b : member) : Z := (key1 a - key1 b)%Z.
Definition num1 (n : Z) : member := ([], VNum (NUInt n)).
Lemma by_ten_order : total_preorder by_ten.
Proof. unfold by_ten. split; intros; lia. Qed.

(** Unlike [Value::sort], [Array::sort] may change the order of equal items. *)
Theorem C127_stable_refuted : exists cmp l r x, total_preorder cmp /\ arr_sorts cmp (arr_of (VArr l)) (Some r) /\
  class cmp x (members_of (arr_commit r)) <> class cmp x l.
Proof.
  exists by_ten, [num1 11; num1 12], (mkArr (VArr []) 0 [num1 12; num1 11]), (num1 10). split; [apply by_ten_order|]. split.
  - exists (mkArr (VArr []) 0 [num1 12; num1 11]). split; [|reflexivity]. exists [num1 12; num1 11]. split; [|reflexivity]. split; [apply perm_swap|].
    repeat constructor.
  - vm_compute. discriminate.
Qed.
Print Assumptions C127_stable_refuted.

(** After iteration and [clear], [Object::sort] still gives the members there were. *)
Theorem C127_cleared_refuted : exists b x y, base_ok b /\ obj_run (obj_new b, obj_new b) [OIterate; OClear] = Some (x, y) /\
  snd (obj_commit x) = empty_object /\ forall cmp x' r, obj_sorts cmp x x' r -> arr_commit r = VArr [(ka, VNull)].
Proof.
  exists (VObj false [(ka, VNull)]).
  let r := eval vm_compute in (obj_run (obj_new (VObj false [(ka, VNull)]), obj_new (VObj false [(ka, VNull)])) [OIterate; OClear]) in
  match r with Some (?x, ?y) => exists x, y end.
  split; [split; [repeat constructor|intros _ k v [[= <- <-]|[]]; reflexivity]|]. split; [vm_compute; reflexivity|]. split; [vm_compute; reflexivity|].
  intros cmp x' r H. cbn in H. destruct H as (_ & l & [P _] & ->). cbn in P. apply Permutation_length_1_inv in P. subst l. vm_compute. reflexivity.
Qed.
Print Assumptions C127_cleared_refuted.

(** Grouping an empty array gives one group. *)
Theorem C127_group_empty_refuted : exists l, forall T (fn : T -> member -> T) mk init cmp rs,
  is_undef (snd (mk init)) = false -> runs cmp rs -> concat rs = l ->
  vgroup cmp fn mk init (VArr l) <> Some (VArr (defined_only (map (fun run => mk (fold_left fn run init)) rs))).
Proof. exact group_nothing. Qed.
Print Assumptions C127_group_empty_refuted.

Example C127_case : total_preorder by_ten /\
  exists a, arr_run (arr_create (CBase [num1 31; num1 12])) [APush (num1 14); AInsert 1 (num1 33)] = Some a /\
    aops_ok (aspec_create (CBase [num1 31; num1 12])) [APush (num1 14); AInsert 1 (num1 33)] /\
    (exists r, arr_sorts by_ten a (Some r) /\ arr_commit r = VArr [num1 14; num1 12; num1 31; num1 33]) /\
    option_map arr_commit (arr_group by_ten (fun n m => n + 1)%Z num1 0%Z a) = Some (VArr [num1 2; num1 2]) /\
    runs by_ten [[num1 31; num1 33]; [num1 12; num1 14]].
Proof.
  split; [apply by_ten_order|]. eexists. split; [vm_compute; reflexivity|]. split; [cbn; lia|].
  split; [|split; [vm_compute; reflexivity|cbn; repeat constructor; discriminate]].
  exists (mkArr (VArr []) 0 [num1 14; num1 12; num1 31; num1 33]). split; [|vm_compute; reflexivity].
  eexists. split; [|reflexivity]. exists [num1 14; num1 12; num1 31; num1 33]. split; [|reflexivity]. split; [|repeat constructor].
  cbn. change (Permutation ([num1 31; num1 33] ++ [num1 12; num1 14]) ([num1 14; num1 12] ++ [num1 31; num1 33])).
  rewrite Permutation_app_comm. apply Permutation_app_tail. apply perm_swap.
Qed.

Example C127_object_case : base_ok (VObj false [(ka, VNum (NUInt 31)); (kb, VNum (NUInt 12))]) /\
  exists x y, obj_run (obj_new (VObj false [(ka, VNum (NUInt 31)); (kb, VNum (NUInt 12))]), obj_new empty_object) [OSet kc (VNum (NUInt 20)); OIterate] = Some (x, y) /\
    exists x' r, obj_sorts by_ten x x' r /\ arr_commit r = VArr [(kb, VNum (NUInt 12)); (kc, VNum (NUInt 20)); (ka, VNum (NUInt 31))].
Proof.
  split; [split; [repeat constructor|intros _ k v [[= <- <-]|[[= <- <-]|[]]]; reflexivity]|].
  do 2 eexists. split; [vm_compute; reflexivity|]. eexists. exists (mkArr (VArr []) 0 [(kb, VNum (NUInt 12)); (kc, VNum (NUInt 20)); (ka, VNum (NUInt 31))]).
  split; [|vm_compute; reflexivity]. split; [reflexivity|]. exists [(kb, VNum (NUInt 12)); (kc, VNum (NUInt 20)); (ka, VNum (NUInt 31))]. split; [|reflexivity].
  split; [|repeat constructor]. cbn. apply (Permutation_app_comm [(ka, VNum (NUInt 31))] [(kb, VNum (NUInt 12)); (kc, VNum (NUInt 20))]).
Qed.
