(** C124: prepared calls and copies of clients. *)
From Coq Require Import String.
From Verif Require Import Base ModelKeyed SpecKeyed ModelValue ModelObject ModelEq SpecEq ModelHash ModelRpc SpecRpc PropEq PropRpc2 ModelPrepared SpecPrepared ProofPrepared.
Local Open Scope list_scope.
Local Open Scope nat_scope.

(** A prepared call that has been executed is never sent again, whatever is done with it. *)
Theorem C124_once : forall same p l w w', executed w p -> wrun same l w = WOk w' ->
  executed w' p /\ sent_for p (w_log w') = sent_for p (w_log w).
Proof. exact executed_keeps. Qed.
Print Assumptions C124_once.

(** A waiting call that returns has been sent exactly once, whatever was done while it was
    sent; asked for again, it returns the empty result at once and touches no client. *)
Theorem C124_wait : forall same p send w w', wstep same (DWait p send) w = WOk w' ->
  executed w' p /\
  exists q, nth_error (w_preps w) p = Some q /\
    sent_for p (w_log w') = sent_for p (w_log w) ++ (if pr_executed q then [] else [ESent p (pr_owner q) (pr_id q) (pr_msg q)]) /\
    exists r, last (w_log w') (EId p VUndef) = ERes p r /\ (pr_executed q = true -> r = mkRR VUndef true VUndef /\ w_clients w' = w_clients w).
Proof. exact wait_once. Qed.
Print Assumptions C124_wait.

(** An asynchronous call that returns is executed and gives the identifier of its request;
    asked for again, it does nothing else. *)
Theorem C124_async : forall same p send throws w w', wstep same (DAsync p send throws) w = WOk w' ->
  exists q, nth_error (w_preps w) p = Some q /\
    (pr_executed q = true -> w_log w' = w_log w ++ [EId p (pr_id q)] /\ w_clients w' = w_clients w) /\
    (throws = false -> executed w' p /\ last (w_log w') (ERes p (mkRR VUndef true VUndef)) = EId p (pr_id q)).
Proof. exact async_sent. Qed.
Print Assumptions C124_async.

(** What a client is given to send is a message of a call made on it, in its version. *)
Theorem C124_sent : forall same ops w p i id msg, wrun same ops start = WOk w -> In (ESent p i id msg) (w_log w) ->
  exists ver c n name args ctx, nth_error (w_clients w) i = Some (Some ver, c) /\ id = VNum (NUInt n) /\ (0 <= n < 2 ^ 32)%Z /\
    msg = call_message ver id name args ctx /\ (In (DCall i name args ctx) (all_ops ops) \/ In (DCallDefault i name args) (all_ops ops)).
Proof. exact sent_made. Qed.
Print Assumptions C124_sent.

(** Without copies of prepared calls, requests sent by one client for different prepared
    calls have different identifiers, up to 2^32 identifiers asked for. *)
Theorem C124_identifiers : forall same ops w p p' i id msg msg', wrun same ops start = WOk w -> Forall plain (all_ops ops) ->
  (forall m, ~ In (DCopyCall m) (all_ops ops)) -> (Z.of_nat (asked ops) < 2 ^ 32)%Z ->
  In (ESent p i id msg) (w_log w) -> In (ESent p' i id msg') (w_log w) -> p = p' /\ msg = msg'.
Proof. exact ids_differ. Qed.
Print Assumptions C124_identifiers.

(** The call is registered before its request is sent: an answer that comes while it is being
    sent reaches it. *)
Theorem C124_early_answer : forall same ops w p q v c resp r, wrun same ops start = WOk w ->
  nth_error (w_preps w) p = Some q -> pr_executed q = false -> nth_error (w_clients w) (pr_owner q) = Some (v, c) ->
  take_call same (cl_calls c) (pr_id q) = None -> same (pr_id q) (pr_id q) = true ->
  value_member resp k_id = pr_id q -> response_result resp = Some r ->
  (exists w', wstep same (DWait p [DClient (pr_owner q) (CResponse resp)]) w = WOk w' /\
     w_log w' = w_log w ++ [ESent p (pr_owner q) (pr_id q) (pr_msg q); ERes p r]) /\
  (exists w' c', wstep same (DAsync p [DClient (pr_owner q) (CResponse resp)] false) w = WOk w' /\
     w_log w' = w_log w ++ [ESent p (pr_owner q) (pr_id q) (pr_msg q); EId p (pr_id q)] /\
     nth_error (w_clients w') (pr_owner q) = Some (v, c') /\
     cl_calls c' = cl_calls c /\ cl_done c' = cl_done c ++ [(cl_next c, r)]).
Proof. exact answered_while_sending. Qed.
Print Assumptions C124_early_answer.

(** Each client, copied or not, has a history of its own, to which C41 applies; the calls
    registered there are the requests it was given to send. *)
Theorem C124_history : forall same ops w i v c, wrun same ops start = WOk w -> Forall plain (all_ops ops) ->
  nth_error (w_clients w) i = Some (v, c) ->
  exists h, crun same client_new h = Some c /\ sent_ids h = sent_by i (w_log w) /\
    forall o, In o h -> o = CPrepare \/ o = CPrepareDefault \/ (exists n, (0 <= n < 2 ^ 32)%Z /\ o = CSend (VNum (NUInt n))) \/ In (DClient i o) (all_ops ops).
Proof. exact client_history. Qed.
Print Assumptions C124_history.

(** A copy of a client has no context, no pending call, counts from the beginning, and leaves
    the other clients alone; *)
Theorem C124_copy : forall same w i w', wstep same (DCopyClient i) w = WOk w' ->
  nth_error (w_clients w') (length (w_clients w)) = Some (None, client_new) /\
  (forall j, j < length (w_clients w) -> nth_error (w_clients w') j = nth_error (w_clients w) j) /\
  w_preps w' = w_preps w /\ w_log w' = w_log w.
Proof. exact copy_client. Qed.
Print Assumptions C124_copy.
(** and every call on it, then or later, reads a version nobody has set. *)
Theorem C124_copy_calls : forall same w i w1 l w2 name args ctx, wstep same (DCopyClient i) w = WOk w1 -> wrun same l w1 = WOk w2 ->
  wstep same (DCall (length (w_clients w)) name args ctx) w2 = WBad /\ wstep same (DCallDefault (length (w_clients w)) name args) w2 = WBad.
Proof. exact copy_calls. Qed.
Print Assumptions C124_copy_calls.

Definition same1 := same_value eqL.
(** So a copy of a client cannot be used as the client could. *)
Theorem C124_copy_refuted : exists ops w, wrun same1 ops start = WOk w /\
  (exists w1, wstep same1 (DCall 0 (txt "f") VUndef VUndef) w = WOk w1) /\
  exists w1, wstep same1 (DCopyClient 0) w = WOk w1 /\ wstep same1 (DCall 1 (txt "f") VUndef VUndef) w1 = WBad.
Proof.
  exists [DNew Ver2]. eexists. split; [vm_compute; reflexivity|].
  split; [eexists; vm_compute; reflexivity|]. eexists. split; [vm_compute; reflexivity|]. vm_compute. reflexivity.
Qed.
Print Assumptions C124_copy_refuted.

(** Copies of a prepared call are executed each: one identifier is sent twice, and while the
    first is pending the second ends at once with the empty result. *)
Theorem C124_copied_call_refuted : exists ops w c, wrun same1 ops start = WOk w /\ Forall plain (all_ops ops) /\
  sent_by 0 (w_log w) = [num 1; num 1] /\ nth_error (w_clients w) 0 = Some (Some Ver1, c) /\
  cl_calls c = [(num 1, Some 0)] /\ cl_done c = [(1, empty_result)].
Proof.
  exists [DNew Ver1; DCall 0 (txt "f") VUndef VUndef; DCopyCall 0; DAsync 0 [] false; DAsync 1 [] false]. do 2 eexists.
  split; [vm_compute; reflexivity|]. split; [repeat constructor|]. split; [vm_compute; reflexivity|]. split; [vm_compute; reflexivity|].
  split; [vm_compute; reflexivity|]. vm_compute. reflexivity.
Qed.
Print Assumptions C124_copied_call_refuted.

(** An asynchronous call whose sending threw cannot be tried again: the request is sent once
    more under the same identifier and the new function gets the empty result, while the
    first one waits. *)
Theorem C124_retry_refuted : exists ops w c, wrun same1 ops start = WOk w /\ Forall plain (all_ops ops) /\
  (forall m, ~ In (DCopyCall m) (all_ops ops)) /\ length (sent_for 0 (w_log w)) = 2 /\ sent_by 0 (w_log w) = [num 1; num 1] /\
  nth_error (w_clients w) 0 = Some (Some Ver2, c) /\ cl_calls c = [(num 1, Some 0)] /\ cl_done c = [(1, empty_result)].
Proof.
  exists [DNew Ver2; DCall 0 (txt "f") VUndef VUndef; DAsync 0 [] true; DAsync 0 [] false]. do 2 eexists.
  split; [vm_compute; reflexivity|]. split; [repeat constructor|]. split; [intros m; apply no_copy; vm_compute; reflexivity|].
  split; [vm_compute; reflexivity|]. split; [vm_compute; reflexivity|]. split; [vm_compute; reflexivity|].
  split; [vm_compute; reflexivity|]. vm_compute. reflexivity.
Qed.
Print Assumptions C124_retry_refuted.

(** Two clients; calls within the sending of a call; an answer that comes early. *)
Definition ex_ops : list pop :=
  [DNew Ver2; DNew Ver1; DCall 0 (txt "f") (VArr []) VUndef; DCallDefault 1 (txt "g") VUndef; DCopyClient 0;
   DAsync 0 [DWait 1 [DClient 1 (CResponse (reply 2 (VBool true)))]; DCall 0 (txt "h") VUndef VUndef] false;
   DWait 1 []; DAsync 2 [] true; DClient 2 (CResponse (reply 1 VNull)); DAsync 0 [] false].
Example C124_case : exists w c0 c1, wrun same1 ex_ops start = WOk w /\ Forall plain (all_ops ex_ops) /\
  (forall m, ~ In (DCopyCall m) (all_ops ex_ops)) /\ (Z.of_nat (asked ex_ops) < 2 ^ 32)%Z /\
  w_log w = [ESent 0 0 (num 1) (call_message Ver2 (num 1) (txt "f") (VArr []) VUndef);
             ESent 1 1 (num 2) (call_message Ver1 (num 2) (txt "g") VUndef VUndef);
             ERes 1 (mkRR (VBool true) false VUndef); EId 0 (num 1); ERes 1 empty_result;
             ESent 2 0 (num 2) (call_message Ver2 (num 2) (txt "h") VUndef VUndef); EId 0 (num 1)] /\
  w_clients w = [(Some Ver2, c0); (Some Ver1, c1); (None, client_new)] /\ cl_calls c0 = [(num 1, Some 0); (num 2, Some 1)] /\
  cl_done c1 = [(0, mkRR (VBool true) false VUndef)].
Proof.
  do 3 eexists. split; [vm_compute; reflexivity|]. split; [repeat constructor|].
  split; [intros m; apply no_copy; vm_compute; reflexivity|]. split; [vm_compute; reflexivity|].
  split; [vm_compute; reflexivity|]. split; [vm_compute; reflexivity|]. split; [vm_compute; reflexivity|]. vm_compute. reflexivity.
Qed.
