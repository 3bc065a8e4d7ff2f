(** C109: the memory of containers is released exactly when nothing refers to
    it, and its release never shows. *)
From Verif Require Import Base ModelKeyed ModelValue ModelObject ModelHeap SpecHeap ModelRelease SpecRelease ProofRelease4.

(** Releasing containers and overwriting their memory with anything changes
    no program: it ends or fails alike, holds the same handles, and every
    variable shows the same value. *)
Theorem C109_same : forall junk ops,
  match d_run hs_init ops, r_run junk r_init ops with
  | Some s, Some r =>
    hs_vals (r_st r) = hs_vals s /\ hs_objs (r_st r) = hs_objs s /\
    (forall x v, In x (hs_vals s) -> (shows (hs_heap (r_st r)) x v <-> shows (hs_heap s) x v))
  | None, None => True
  | _, _ => False
  end.
Proof. exact release_runs. Qed.
Print Assumptions C109_same.

(** After every operation the released containers are exactly those which
    no variable and no builder reaches: none too early, none forgotten. *)
Theorem C109_exact : forall junk ops r, r_run junk r_init ops = Some r ->
  forall a, a < length (hs_heap (r_st r)) -> (r_gone r a = true <-> ~ reached (r_st r) a).
Proof. exact release_exact. Qed.
Print Assumptions C109_exact.

(** When the last variable and the last builder are gone, so are all containers. *)
Theorem C109_end : forall junk ops r, r_run junk r_init ops = Some r -> (forall a, ~ refers (r_st r) a) ->
  forall a, a < length (hs_heap (r_st r)) -> r_gone r a = true.
Proof. exact release_end. Qed.
Print Assumptions C109_end.

(** Containers never hold each other in a circle. *)
Theorem C109_no_cycle : forall ops s a, d_run hs_init ops = Some s -> ~ leads_far (hs_heap s) a a.
Proof. exact no_cycle. Qed.
Print Assumptions C109_no_cycle.

Definition kx : bytes := [120%Z].
Definition ky : bytes := [121%Z].
Definition bad_cell : cell := mkCell (Some true) 3 [(kx, HR 0); (ky, HR 77)].

(** A builder takes its own diff as a member, is copied and dropped; the diff
    lives as long as the variable that holds it and the copy. *)
Definition ex_ops : list rop :=
  [ROp (HLit (VObj false [])); ROp (HNew 0); ROp (HLit VNull); ROp (HSet 0 kx 1); ROp (HCommitDiff 0);
   ROp (HSet 0 ky 2); ROp (HCommit 0); ROp (HCopy 0)].
Definition ex_drops : list rop :=
  [RDropObj 0; RDropVal 2; RDropVal 3; RDropVal 0; RDropVal 1].

Definition gone_list (r : option rstate) : option (list bool) :=
  option_map (fun r => map (r_gone r) (seq 0 (length (hs_heap (r_st r))))) r.

Example C109_case :
  gone_list (r_run (fun _ _ => bad_cell) r_init ex_ops) = Some [false; false; false; false; false] /\
  gone_list (r_run (fun _ _ => bad_cell) r_init (ex_ops ++ ex_drops)) = Some [true; false; false; true; false] /\
  gone_list (r_run (fun _ _ => bad_cell) r_init (ex_ops ++ ex_drops ++ [RDropObj 1])) = Some [true; true; true; true; true].
Proof. vm_compute. auto. Qed.

Example C109_end_case : exists r, r_run (fun _ _ => bad_cell) r_init (ex_ops ++ ex_drops ++ [RDropObj 1]) = Some r /\
  (forall a, ~ refers (r_st r) a).
Proof.
  eexists. split; [vm_compute; reflexivity|]. intros a [H|(o & H & R)]; cbn in H; repeat destruct H as [H|H]; try discriminate; auto.
  all: subst o; cbn in R; intuition discriminate.
Qed.
