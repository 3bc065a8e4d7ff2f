(** A precise number read by several threads (C90). *)
From Verif Require Import Base ModelValue ModelLazy SpecLazy ProofLazy.
Local Open Scope Z_scope.

(** Whatever the threads do, a number answered is the number of the text, if memory accesses happen one after
    another. *)
Theorem C90_numbers : forall v junk calls sched i k, let s := run v (unread junk calls) sched in
  nth_error (match nth_error calls i with Some c => c | None => [] end) k = Some CNum ->
  nth_error (answers s i) k = Some (ANum v) \/ (length (answers s i) <= k)%nat.
Proof. exact numbers. Qed.
Print Assumptions C90_numbers.
Example C90_numbers_case : answers (run (f_of_Z 2) (unread S754_nan [[CNum; CBool; CNum]; [CBool; CNum]]) [0; 1; 1; 0; 0; 1; 1; 0; 0; 0; 1; 0]%nat) 0 =
  [ANum (f_of_Z 2); ABool true; ANum (f_of_Z 2)].
Proof. vm_compute. reflexivity. Qed.
(** Read once before it is shared, the number is never written again and every answer is right. *)
Theorem C90_read_first : forall v calls sched, let s := run v (read_before v calls) sched in
  ~ race s /\ (finished s -> forall i c, nth_error calls i = Some c -> answers s i = map (right_answer v) c).
Proof. exact read_first. Qed.
Print Assumptions C90_read_first.
Example C90_read_first_case : finished (run (f_of_Z 2) (read_before (f_of_Z 2) [[CNum; CBool]; [CBool]]) [0; 1; 0; 0]%nat).
Proof. vm_compute. repeat constructor. Qed.
(** One thread alone gets right answers once it has asked for the number. *)
Theorem C90_alone : forall v junk cs sched, ~ race (run v (unread junk [cs]) sched).
Proof. exact alone. Qed.
Print Assumptions C90_alone.
Theorem C90_alone_answers : forall v junk cs sched, finished (run v (unread junk [CNum :: cs]) sched) ->
  answers (run v (unread junk [CNum :: cs]) sched) 0 = map (right_answer v) (CNum :: cs).
Proof. exact alone_bool. Qed.
Print Assumptions C90_alone_answers.
Example C90_alone_case : finished (run (f_of_Z 2) (unread S754_nan [[CNum; CBool]]) [0; 0; 0; 0; 0]%nat).
Proof. vm_compute. repeat constructor. Qed.
(** What [race] goes by is what the steps do: a thread about to use a field neither changes nor looks at the other
    one, and changes the field only if it is about to write it. *)
Theorem C90_access : forall v junk calls sched t, In t (s_threads (run v (unread junk calls) sched)) -> forall n c,
  match next_access t with
  | None => th_step v n c t = None
  | Some (FN, w) => exists n' t', (forall c', th_step v n c' t = Some (n', c', t')) /\ (w = false -> n' = n)
  | Some (FCached, w) => exists c' t', (forall n', th_step v n' c t = Some (n', c', t')) /\ (w = false -> c' = c)
  end.
Proof. exact accesses. Qed.
Print Assumptions C90_access.
(** Two threads that only read an unread number write it both at the same time. *)
Theorem C90_race_refuted : exists v junk calls sched, race (run v (unread junk calls) sched) /\ calls = [[CNum]; [CNum]].
Proof. exact raced. Qed.
Print Assumptions C90_race_refuted.
(** And the truth of an unread number depends on the schedule. *)
Theorem C90_bool_refuted : exists v junk calls sched sched',
  finished (run v (unread junk calls) sched) /\ finished (run v (unread junk calls) sched') /\
  answers (run v (unread junk calls) sched) 1 = [ABool false] /\ answers (run v (unread junk calls) sched') 1 = [ABool true].
Proof. exact bool_schedule. Qed.
Print Assumptions C90_bool_refuted.
