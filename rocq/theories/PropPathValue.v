(** C130: paths given as values. *)
From Verif Require Import Base ModelKeyed SpecKeyed ModelValue ModelObject ModelArray ModelEq ModelJwt ModelPath SpecPath SpecText SpecPathValue ProofPath ProofPathValue PropEq PropPath.
Local Open Scope Z_scope.

(** [PPath::fromValue] accepts exactly the values which hold nothing but strings
    and numbers (a value that is no container holds nothing: the root). *)
Theorem C130_when : forall L pv, (exists p, path_from_value (uint_value L) pv = Some p) <-> Forall step_item (members_of pv).
Proof. exact value_path_when. Qed.
Print Assumptions C130_when.

(** Reading at the path follows the items one by one. *)
Theorem C130_reads : forall L v pv p, all_sorted v -> Forall (readable L) (members_of pv) ->
  path_from_value (uint_value L) pv = Some p -> leads L v (members_of pv) (get_path v p).
Proof. exact value_path_reads. Qed.
Print Assumptions C130_reads.
Theorem C130_one : forall L v l w, leads L v l w -> forall w', leads L v l w' -> w = w'.
Proof. exact leads_fun. Qed.
Print Assumptions C130_one.

(** The path has the form the laws of C17 and C18 ask for, *)
Theorem C130_path : forall L v p, Forall (readable L) (members_of v) -> path_from_value (uint_value L) v = Some p -> path_ok p.
Proof. exact from_value_ok. Qed.
Print Assumptions C130_path.
(** and is written back as the same names and positions. *)
Theorem C130_back : forall L pv p, path_from_value (uint_value L) pv = Some p ->
  path_to_value p = VArr (map (written_item L) (members_of pv)).
Proof. exact value_path_back. Qed.
Print Assumptions C130_back.

(** Cases: a path of three items, refused and empty ones. *)
Definition pv1 : value := VArr [([], VStr None [97]); ([], VNum (NUInt 1)); ([], VNum (NInt 1))].
Example C130_case : Forall step_item (members_of pv1) /\ Forall (readable eqL) (members_of pv1) /\ all_sorted doc1 /\
  path_from_value (uint_value eqL) pv1 = Some [pindex 1; pindex 1; pkey [97]] /\
  get_path doc1 [pindex 1; pindex 1; pkey [97]] = VBool true /\ leads eqL doc1 (members_of pv1) (VBool true) /\
  path_from_value (uint_value eqL) (VArr [([], VNull)]) = None /\
  path_from_value (uint_value eqL) (VNum (NUInt 7)) = Some [].
Proof.
  assert (R : Forall (readable eqL) (members_of pv1)).
  { repeat constructor; cbn; eexists; (split; [reflexivity|]); vm_compute; split; congruence. }
  assert (S : all_sorted doc1).
  { unfold doc1. repeat first [apply as_obj|apply as_arr|apply Forall_cons|apply Forall_nil|(apply as_leaf; exact I)|(vm_compute; repeat constructor)]. }
  assert (E : path_from_value (uint_value eqL) pv1 = Some [pindex 1; pindex 1; pkey [97]]) by (vm_compute; reflexivity).
  split; [repeat constructor|]. split; [exact R|]. split; [exact S|]. split; [exact E|]. split; [vm_compute; reflexivity|].
  split; [|split; vm_compute; reflexivity]. pose proof (C130_reads eqL doc1 pv1 _ S R E) as H. vm_compute in H. exact H.
Qed.

(** A number is not always a position: -1 leads to the member with the empty name,
    and is written back as a string. *)
Theorem C130_position_refuted : exists v pv p n, pv = VArr [([], VNum n)] /\
  path_from_value (uint_value eqL) pv = Some p /\ get_path v p = VBool true /\
  value_member v [] = VBool true /\ path_to_value p = VArr [([], VStr None [])].
Proof.
  exists (VObj false [([], VBool true)]), (VArr [([], VNum (NInt (-1)))]), [pindex no_index], (NInt (-1)).
  repeat split; vm_compute; reflexivity.
Qed.
Print Assumptions C130_position_refuted.
