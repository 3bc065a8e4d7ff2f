(** C48, C49, C50, C55: merge, diff and setItems. *)
From Coq Require Import Sorted Permutation.
From Verif Require Import Base ModelKeyed SpecKeyed ProofKeyed ModelValue ModelObject ModelEq SpecEq ProofEq ModelDiff ModelMerge SpecMerge ProofMerge PropEq.
Local Open Scope Z_scope.

(** *** C48 *)
(** Merging objects: the union of the keys; a key of one side keeps its member,
    a key of both sides has the merged objects or else the member of the second;
    undefined members are left out.  The result is sorted. *)
Theorem C48_objects : forall L eq d l d' m, keys_increasing l -> keys_increasing m ->
  exists r, vmerge L eq (VObj d l) (VObj d' m) = Ok (VObj false r) /\ keys_increasing r /\
  forall k,
    (forall v, binding k l = Some v -> binding k m = None -> binding k r = kept (Some v)) /\
    (forall w, binding k l = None -> binding k m = Some w -> binding k r = kept (Some w)) /\
    (binding k l = None -> binding k m = None -> binding k r = None) /\
    (forall v w, binding k l = Some v -> binding k m = Some w ->
      match v, w with
      | VObj _ _, VObj _ _ => exists z, vmerge L eq v w = Ok z /\ binding k r = Some z
      | _, _ => binding k r = kept (Some w)
      end).
Proof. exact merge_members. Qed.
Print Assumptions C48_objects.

Theorem C48_deep_sorted : forall L eq d l d' m, deep_sorted (VObj d l) -> deep_sorted (VObj d' m) ->
  exists r, vmerge L eq (VObj d l) (VObj d' m) = Ok r /\ deep_sorted r.
Proof. exact vmerge_sorted. Qed.
Print Assumptions C48_deep_sorted.

(** Arrays without undefined items are concatenated. *)
Theorem C48_arrays : forall eq L l m, all_defined l -> all_defined m -> vmerge L eq (VArr l) (VArr m) = Ok (VArr (l ++ m)).
Proof. exact merge_arrays. Qed.
Print Assumptions C48_arrays.

(** What follows an undefined item is an edit script. *)
Theorem C48_script : forall eq L l a z s r, all_defined l -> all_defined a -> is_undef (snd z) = true ->
  vmerge L eq (VArr l) (VArr (a ++ z :: s)) = Ok (VArr r) <-> script eq (l ++ a) 0 s r.
Proof. exact merge_script_iff. Qed.
Print Assumptions C48_script.

(** Strings are concatenated, and [diff] takes the second part off again. *)
Theorem C48_strings : forall L eq e s e' t, vmerge L eq (VStr e s) (VStr e' t) = Ok (VStr None (s ++ t)) /\
  forall fuel, vdiff L eq fuel (VStr None (s ++ t)) (VStr e' t) = Ok (VStr None s).
Proof. exact merge_strings. Qed.
Print Assumptions C48_strings.

Definition meq (v w : value) : bool := veq eqL w v.
Definition it (n : Z) : member := ([], VNum (NUInt n)).
Definition un : member := ([], VUndef).

(** An edit script can run into an exception: after an insertion the search
    starts behind the inserted item, and removing items can leave that place past
    the end. *)
Theorem C48_script_refuted : exists l s, all_defined l /\ vmerge eqL meq (VArr l) (VArr (un :: s)) = Err.
Proof.
  exists [it 1], [it 1; it 2; it 1; un; it 2; un; it 3; it 4]. split; [repeat constructor|]. vm_compute. reflexivity.
Qed.
Print Assumptions C48_script_refuted.

Definition ma : list member := [([97], VNum (NUInt 1)); ([98], VObj false [([120], VNull); ([121], VBool true)]); ([99], VNull)].
Definition mb : list member := [([97], VUndef); ([98], VObj true [([120], VBool false); ([122], VStr None [1])]); ([100], VNull)].
Example C48_case : keys_increasing ma /\ keys_increasing mb /\ deep_sorted (VObj false ma) /\ deep_sorted (VObj false mb) /\
  vmerge eqL meq (VObj false ma) (VObj false mb) =
    Ok (VObj false [([98], VObj false [([120], VBool false); ([121], VBool true); ([122], VStr None [1])]); ([99], VNull); ([100], VNull)]) /\
  vmerge eqL meq (VArr [it 1; it 2]) (VArr [it 3; un; it 2; it 7; it 1; un; it 9; it 8]) = Ok (VArr [it 7; it 2; it 3; it 8]).
Proof.
  assert (keys_increasing ma) by (unfold ma, keys_increasing; repeat constructor).
  assert (keys_increasing mb) by (unfold mb, keys_increasing; repeat constructor).
  repeat match goal with |- _ /\ _ => split end; auto; try (vm_compute; reflexivity);
    cbn [ma mb deep_sorted fold_right snd]; repeat split; auto; unfold keys_increasing; repeat constructor.
Qed.

(** *** C49 *)
(** [diff] returns the same value however long one waits; it always returns
    unless both values are arrays. *)
Theorem C49_not_arrays : forall eq L v w, (match v, w with VArr _, VArr _ => False | _, _ => True end) ->
  exists d, forall fuel, vdiff L eq fuel v w = Ok d.
Proof. exact diff_other. Qed.
Print Assumptions C49_not_arrays.
Theorem C49_one_result : forall eq L v w f g d e, vdiff L eq f v w = Ok d -> vdiff L eq g v w = Ok e -> d = e.
Proof. exact diff_same_fuel. Qed.
Print Assumptions C49_one_result.

(** For two arrays it returns exactly if they are used up at the same time. *)
Theorem C49_arrays : forall eq L l m, (exists fuel d, vdiff L eq fuel (VArr l) (VArr m) = Ok d) <-> aligned eq l m.
Proof. exact diff_returns. Qed.
Print Assumptions C49_arrays.
Theorem C49_never : forall eq L l m, ~ aligned eq l m -> forall fuel, vdiff L eq fuel (VArr l) (VArr m) = Fuel.
Proof. exact array_never. Qed.
Print Assumptions C49_never.

(** It never returns for an array and the same array with more items at the end. *)
Theorem C49_extended : forall eq L l r fuel, (forall x, In x l -> eq (snd x) (snd x) = true) -> r <> [] ->
  vdiff L eq fuel (VArr l) (VArr (l ++ r)) = Fuel /\ vdiff L eq fuel (VArr (l ++ r)) (VArr l) = Fuel.
Proof. exact diff_prefix_never. Qed.
Print Assumptions C49_extended.
Theorem C49_refuted : exists l m, forall fuel, vdiff eqL meq fuel (VArr l) (VArr m) = Fuel.
Proof.
  exists [it 1], [it 1; it 2]. intros fuel. apply (diff_prefix_never meq eqL [it 1] [it 2]); [|discriminate].
  intros x [<-|[]]. reflexivity.
Qed.
Print Assumptions C49_refuted.

Theorem C49_self : forall eq L l fuel, fuel <> 0%nat -> (forall x, In x l -> eq (snd x) (snd x) = true) ->
  vdiff L eq fuel (VArr l) (VArr l) = Ok (VArr []).
Proof. exact diff_self. Qed.
Print Assumptions C49_self.

Example C49_case : vdiff eqL meq 1 (VArr [it 1; it 2; it 3; it 4]) (VArr [it 2; it 7; it 3; it 5]) =
  Ok (VArr [un; it 1; un; it 3; it 7; it 4; it 5; it 4; un]) /\
  aligned meq [it 1; it 2; it 3; it 4] [it 2; it 7; it 3; it 5].
Proof.
  split; [vm_compute; reflexivity|]. apply Al_removed; [reflexivity|reflexivity|]. apply Al_same; [reflexivity|].
  apply Al_added; [reflexivity|intros x' l' E; inversion E; reflexivity|reflexivity|]. apply Al_same; [reflexivity|].
  apply Al_changed; [reflexivity|discriminate|reflexivity|]. apply Al_nil.
Qed.

(** *** C50 *)
Theorem C50_returns : forall v fields, exists r, set_items v fields r.
Proof. exact set_items_exists. Qed.
Print Assumptions C50_returns.

(** Exactly the defined given members and the old members whose key is not given,
    in the order of the keys. *)
Theorem C50_content : forall d l fields r, keys_increasing l -> set_items (VObj d l) fields r ->
  exists q, r = VObj false q /\ keys_sorted q /\
  Permutation q (filter (fun m => negb (is_undef (snd m))) fields ++ filter (not_given fields) l).
Proof. exact set_items_perm. Qed.
Print Assumptions C50_content.

(** When no key is given twice this is the update of a map. *)
Theorem C50_update : forall d l fields r, keys_increasing l -> NoDup (map fst fields) -> set_items (VObj d l) fields r ->
  exists q, r = VObj false q /\ keys_increasing q /\ forall k, binding k q =
  match binding k fields with Some x => kept (Some x) | None => binding k l end.
Proof. exact set_items_map. Qed.
Print Assumptions C50_update.

(** A key given twice is in the result twice. *)
Theorem C50_duplicate_refuted : exists l fields q, keys_increasing l /\ set_items (VObj false l) fields (VObj false q) /\ ~ keys_increasing q.
Proof.
  exists [], [([97], VNull); ([97], VBool true)], [([97], VNull); ([97], VBool true)].
  split; [constructor|]. split.
  - exists [([97], VNull); ([97], VBool true)]. split; [|reflexivity]. split; [apply Permutation_refl|]. repeat constructor.
  - intros H. apply keys_increasing_nodup in H. inversion H as [|? ? N _]. apply N. left. reflexivity.
Qed.
Print Assumptions C50_duplicate_refuted.

Definition si_l : list member := [([97], VNull); ([98], VNull); ([99], VNull)].
Definition si_f : list member := [([120], VBool true); ([98], VUndef); ([97], VBool false)].
Example C50_case : keys_increasing si_l /\ NoDup (map fst si_f) /\
  set_items (VObj true si_l) si_f (VObj false [([97], VBool false); ([99], VNull); ([120], VBool true)]).
Proof.
  split; [unfold si_l, keys_increasing; repeat constructor|]. split.
  - cbn [si_f map fst]. repeat constructor; cbn [In]; intuition discriminate.
  - exists [([97], VBool false); ([98], VUndef); ([120], VBool true)]. split; [|vm_compute; reflexivity]. split.
    + apply (Permutation_rev si_f).
    + repeat constructor.
Qed.

(** *** C55 *)
(** Merging the diff of two objects gives back the second. *)
Theorem C55_objects : forall L eq fuel d l d' m, eq_ok L eq -> deep_plain (VObj d l) -> deep_plain (VObj d' m) ->
  proper L (VObj d l) -> proper L (VObj d' m) ->
  exists c r, vdiff L eq fuel (VObj d l) (VObj d' m) = Ok c /\ vmerge L eq (VObj d l) c = Ok r /\
    veq L r (VObj d' m) = true.
Proof. exact patch_objects'. Qed.
Print Assumptions C55_objects.

(** The same for arrays, when no item of the first is equal to a later one and
    [diff] returns. *)
Theorem C55_arrays : forall eq L l m fuel d, all_defined l -> all_defined m ->
  (forall x, In x l -> eq (snd x) (snd x) = true) -> ForallOrdPairs (fun x y => eq (snd x) (snd y) = false) l ->
  vdiff L eq fuel (VArr l) (VArr m) = Ok d ->
  exists r, vmerge L eq (VArr l) d = Ok (VArr r) /\ Forall2 (same_item eq) r m.
Proof. exact patch_arrays. Qed.
Print Assumptions C55_arrays.

(** Not for arrays with equal items. *)
Theorem C55_arrays_refuted : exists l m d r, all_defined l /\ all_defined m /\ vdiff eqL meq 1 (VArr l) (VArr m) = Ok d /\
  vmerge eqL meq (VArr l) d = Ok (VArr r) /\ ~ Forall2 (same_item meq) r m.
Proof.
  exists [it 1; it 2; it 1; it 3], [it 1; it 2; it 3], (VArr [un; it 1; un]), [it 2; it 1; it 3].
  split; [repeat constructor|]. split; [repeat constructor|]. split; [vm_compute; reflexivity|]. split; [vm_compute; reflexivity|].
  intros H. inversion H as [|? ? ? ? [E|E] _]; [discriminate E|]. vm_compute in E. discriminate E.
Qed.
Print Assumptions C55_arrays_refuted.

(** Booleans: the second value is taken off again. *)
Theorem C55_bools : forall L eq a b, exists c, vmerge L eq (VBool a) (VBool b) = Ok (VBool c) /\
  forall fuel, vdiff L eq fuel (VBool c) (VBool b) = Ok (VBool a).
Proof. exact merge_bools. Qed.
Print Assumptions C55_bools.
(** A string that does not end with the second one stays as it is. *)
Theorem C55_strings : forall L eq fuel e s e' t, (forall a, s <> a ++ t) -> vdiff L eq fuel (VStr e s) (VStr e' t) = Ok (VStr e s).
Proof. exact diff_strings. Qed.
Print Assumptions C55_strings.

Definition pa : value := VObj false [([97], VNum (NUInt 1)); ([98], VObj false [([120], VNull); ([121], VBool true)])].
Definition pb : value := VObj false [([97], VArr [it 1; it 2]); ([98], VObj false [([120], VNull); ([122], VNull)]); ([99], VNull)].
Example C55_case : eq_ok eqL meq /\ deep_plain pa /\ deep_plain pb /\ proper eqL pa /\ proper eqL pb /\
  vdiff eqL meq 1 pa pb = Ok (VObj true [([97], VArr [it 1; it 2]); ([98], VObj true [([121], VUndef); ([122], VNull)]); ([99], VNull)]) /\
  vmerge eqL meq pa (VObj true [([97], VArr [it 1; it 2]); ([98], VObj true [([121], VUndef); ([122], VNull)]); ([99], VNull)]) = Ok pb /\
  vmerge eqL meq (VArr [it 1; it 2; it 3; it 4]) (VArr [un; it 1; un; it 3; it 7; it 4; it 5; it 4; un]) = Ok (VArr [it 2; it 7; it 3; it 5]) /\
  ForallOrdPairs (fun x y => meq (snd x) (snd y) = false) [it 1; it 2; it 3; it 4].
Proof.
  split; [intros v w; right; unfold meq; apply run_total|].
  split; [cbn [pa deep_plain fold_right snd is_undef]; repeat split; auto; unfold keys_increasing; repeat constructor|].
  split; [cbn [pb deep_plain fold_right snd is_undef]; repeat split; auto; unfold keys_increasing; repeat constructor|].
  split; [unfold pa; prove_proper|]. split; [unfold pb, it; prove_proper|].
  split; [vm_compute; reflexivity|]. split; [vm_compute; reflexivity|]. split; [vm_compute; reflexivity|].
  repeat constructor.
Qed.
