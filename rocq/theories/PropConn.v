(** C128: the data kept with a connection. *)
From Verif Require Import Base ModelKeyed ModelValue ModelObject ModelConst SpecConst ModelConn SpecConn ProofConn.

(** Any calls of [store] and [retrieve], one after the other: nothing is undefined, and each
    retrieval gives what was stored last under its key, undefined if nothing was. *)
Theorem C128_table : forall ops, exists d, conn_run conn_new ops = Some (d, expected (fun _ => VUndef) ops).
Proof. exact conn_table. Qed.
Print Assumptions C128_table.

(** Up to forty stores, retrievals from several threads at once do not race, and change nothing. *)
Theorem C128_few : forall ops d r k k', stores ops <= 40 -> conn_run conn_new ops = Some (d, r) -> ~ race d (KRead k) (KRead k') /\
  exists v, obj_read d k = Some (d, v).
Proof. exact few_quiet. Qed.
Print Assumptions C128_few.

(** Keys of two digits. *)
Definition nth_key (i : nat) : bytes := [48 + Z.of_nat (Nat.div i 10); 48 + Z.of_nat (Nat.modulo i 10)]%Z.
Definition many (n : nat) : list conn_op := map (fun i => DStore (nth_key i) (VNum (NUInt (Z.of_nat i)))) (seq 0 n).

(** After forty-one stores they may: [retrieve] is const, yet sorts the data. *)
Theorem C128_many_refuted : exists ops d r, stores ops = 41 /\ conn_run conn_new ops = Some (d, r) /\ forall k k', race d (KRead k) (KRead k').
Proof.
  exists (many 41). do 2 eexists. split; [vm_compute; reflexivity|]. split; [vm_compute; reflexivity|].
  intros k k'. exists FUnordered. left. split; [|left]; vm_compute; auto.
Qed.
Print Assumptions C128_many_refuted.

Example C128_case : stores (many 40) = 40 /\
  exists d, conn_run conn_new (many 40 ++ [DRetrieve (nth_key 7); DStore (nth_key 7) VNull; DRetrieve (nth_key 7); DStore (nth_key 3) VUndef;
      DRetrieve (nth_key 3); DRetrieve (nth_key 39); DRetrieve []]) =
    Some (d, [VNum (NUInt 7); VNull; VUndef; VNum (NUInt 39); VUndef]).
Proof. split; [vm_compute; reflexivity|]. eexists. vm_compute. reflexivity. Qed.
