(** C41, C42, C57: JSON-RPC clients. *)
From Coq Require Import String Permutation.
From Verif Require Import Base ModelKeyed SpecKeyed ModelValue ModelObject SpecObject ModelEq SpecEq ModelHash ModelRpc SpecRpc ProofRpc2 PropEq PropRpc.
Local Open Scope list_scope.
Local Open Scope nat_scope.

(** *** C41 *)
(** Over any history, no null pointer is met, every call registered is either
    pending or ended, once, and a call that ended did so for a reason of its
    own: a response with its identifier and what that response carries, its
    cancellation, or a call of that identifier already there. *)
Theorem C41_once : forall same good, same_ok same good -> forall ops, ids_ok good ops ->
  exists c, crun same client_new ops = Some c /\
    Permutation (given_out (cl_calls c) ++ map fst (cl_done c)) (seq 0 (length (sent_ids ops))) /\
    (forall h r, In (h, r) (cl_done c) -> ended_by same ops h r).
Proof. exact client_once. Qed.
Print Assumptions C41_once.

(** What a message does. *)
Theorem C41_response : forall same good, same_ok same good -> forall ops c v, ids_ok good ops -> crun same client_new ops = Some c ->
  (is_response v = true -> good (value_member v k_id)) ->
  if is_response v then
    match response_result v with
    | None => process_response same c v = Some (c, Request)
    | Some r =>
      (exists c' h id, process_response same c v = Some (c', Success) /\ In h (given_out (cl_calls c)) /\
         nth_error (sent_ids ops) h = Some id /\ same id (value_member v k_id) = true /\
         cl_done c' = cl_done c ++ [(h, r)] /\ Permutation (given_out (cl_calls c)) (h :: given_out (cl_calls c'))) \/
      (exists c', process_response same c v = Some (c', Unexpected) /\ cl_calls c' = cl_calls c /\ cl_done c' = cl_done c /\
         forall h id, In h (given_out (cl_calls c)) -> nth_error (sent_ids ops) h = Some id -> same id (value_member v k_id) = false)
    end
  else process_response same c v = Some (c, Notification).
Proof. exact response_status. Qed.
Print Assumptions C41_response.

(** Cancelling all calls ends all of them. *)
Theorem C41_cancel_all : forall same good, same_ok same good -> forall ops c r, ids_ok good ops -> crun same client_new ops = Some c ->
  exists c', cancel_all same c r = Some c' /\ cl_calls c' = [] /\
    cl_done c' = cl_done c ++ map (fun h => (h, r)) (given_out (cl_calls c)).
Proof. exact cancel_all_ends. Qed.
Print Assumptions C41_cancel_all.

(** Cancelling one call; keeping the calls named. *)
Theorem C41_cancel : forall same good, same_ok same good -> forall ops c id r, ids_ok good ops -> crun same client_new ops = Some c -> good id ->
  exists c' b, cancel_pending same c id r = Some (c', b) /\
  if b : bool then exists h id0, nth_error (sent_ids ops) h = Some id0 /\ same id0 id = true /\
      Permutation (given_out (cl_calls c)) (h :: given_out (cl_calls c')) /\ cl_done c' = cl_done c ++ [(h, r)]
  else c' = c /\ forall h id0, In h (given_out (cl_calls c)) -> nth_error (sent_ids ops) h = Some id0 -> same id0 id = false.
Proof. exact cancel_ends. Qed.
Print Assumptions C41_cancel.
Theorem C41_filter : forall same good, same_ok same good -> forall ops c ids, ids_ok good ops -> crun same client_new ops = Some c -> Forall good ids ->
  let '(c', out) := filter_pending same c ids in
  Permutation (given_out (cl_calls c') ++ out) (given_out (cl_calls c)) /\ cl_done c' = cl_done c /\
  forall h id, In h (given_out (cl_calls c)) -> nth_error (sent_ids ops) h = Some id ->
    (In h out <-> forall x, In x ids -> same id x = false).
Proof. exact filter_ends. Qed.
Print Assumptions C41_filter.

(** The identifiers of the code: values without undefined, NaN and integers of
    2^53 or more. *)
Theorem C41_identifiers : forall L, same_ok (same_value L) (fun v => exact L v /\ proper L v).
Proof. exact same_value_ok. Qed.
Print Assumptions C41_identifiers.

(** Generated identifiers repeat after 2^32 of them and not before. *)
Theorem C41_fresh : forall same ops1 ops2 c1 c2, crun same client_new ops1 = Some c1 -> crun same client_new (ops1 ++ ops2) = Some c2 ->
  (snd (gen_id c1) = snd (gen_id c2) <-> (Z.of_nat (generated ops2) mod 2 ^ 32 = 0)%Z).
Proof. exact fresh_ids. Qed.
Print Assumptions C41_fresh.

Definition num (n : Z) : value := VNum (NUInt n).
Definition reply (n : Z) (v : value) : value := VObj false [(k_id, num n); (k_result, v)].
Definition lost : rpc_result := mkRR (VStr None (txt "lost")) true VUndef.
Definition ex_history : list cop :=
  [CSend (num 1); CSend (num 2); CSend (VStr None (txt "x")); CSend (num 2); CResponse (reply 2 (VBool true)); CResponse (reply 2 VNull);
   CResponse (ex_note "n"); CSend (num 4); CCancel (num 4) lost; CSend (num 5); CFilter [num 5; num 5; num 9; VStr None (txt "x")] lost].
Example C41_case :
  ids_ok (fun v => exact eqL v /\ proper eqL v) ex_history /\
  option_map (fun c => (cl_calls c, cl_done c)) (crun (same_value eqL) client_new ex_history) =
    Some ([(num 5, Some 5); (VStr None (txt "x"), Some 2)],
      [(3, empty_result); (1, mkRR (VBool true) false VUndef); (4, lost); (0, lost)]).
Proof.
  assert (Hn : forall n, (0 <= n < 10)%Z -> exact eqL (num n) /\ proper eqL (num n)).
  { intros n H. assert (C : In n [0; 1; 2; 3; 4; 5; 6; 7; 8; 9]%Z) by (cbn; lia). clear H.
    split; constructor; repeat (destruct C as [<-|C]; [vm_compute; try discriminate; repeat split; congruence|]); destruct C. }
  assert (Hs : forall s, exact eqL (VStr None s) /\ proper eqL (VStr None s)) by (intros s; split; constructor).
  split.
  - apply Forall_map.
    change (map op_ids ex_history) with [[num 1]; [num 2]; [VStr None (txt "x")]; [num 2]; [num 2]; [num 2]; []; [num 4]; [num 4]; [num 5];
      [num 5; num 5; num 9; VStr None (txt "x")]].
    repeat (apply Forall_cons || apply Forall_nil); try apply Hs; apply Hn; lia.
  - vm_compute. reflexivity.
Qed.

(** *** C42 *)
(** A member of the update that is null or undefined is removed, another one set;
    the others stay. *)
Theorem C42_update : forall ctx v, base_ok ctx -> is_diff ctx = false -> members_of v <> [] ->
  exists l, update_context ctx v = VObj false l /\ keys_increasing l /\
  forall k, binding k l =
    match last_binding k (members_of v) with
    | Some VNull | Some VUndef => None
    | Some x => Some x
    | None => binding k (obj_members ctx)
    end.
Proof. exact context_update. Qed.
Print Assumptions C42_update.
Theorem C42_nothing : forall ctx v, members_of v = [] -> update_context ctx v = ctx.
Proof. exact context_same. Qed.
Print Assumptions C42_nothing.
(** So it is for every context a client ever holds. *)
Theorem C42_always : forall same ops c, (forall v, In (CSetContext v) ops -> plain_context v) ->
  crun same client_new ops = Some c -> plain_context (cl_context c).
Proof. exact contexts. Qed.
Print Assumptions C42_always.

Example C42_case :
  update_context (VObj false [(txt "a", num 1); (txt "b", num 2)]) (VObj false [(txt "a", VNull); (txt "c", num 3); (txt "d", VNull)]) =
    VObj false [(txt "b", num 2); (txt "c", num 3)] /\
  update_context VUndef (VObj false [(txt "a", num 1)]) = VObj false [(txt "a", num 1)] /\
  update_context (VObj false [(txt "a", num 1)]) (VObj false [(txt "a", VNull)]) = VObj false [].
Proof. vm_compute. repeat split. Qed.

(** *** C57 *)
(** The request the server sees is the one the client sent. *)
Theorem C57_request : forall ver id name args ctx,
  parse_request (call_message ver id name args ctx) = call_request ver id name args ctx.
Proof. exact parse_call. Qed.
Print Assumptions C57_request.

(** Preparing a call: the message carries the identifier returned, the arguments
    and a context - the stored one if it has members and none is given; the
    operation on the client is the one of the histories above, so identifiers
    do not repeat ([C41_fresh]). *)
Theorem C57_prepared : forall same c ver name args ctx,
  (let '(c', id, msg) := prepare c ver name args ctx in
   parse_request msg = call_request ver id name args ctx /\ id = snd (gen_id c) /\ cstep same c CPrepare = Some c') /\
  (let '(c', id, msg) := prepare_default c ver name args in
   parse_request msg = call_request ver id name args (match members_of (cl_context c) with [] => VUndef | _ => cl_context c end) /\
   id = snd (gen_id (fst (gen_id c))) /\ cstep same c CPrepareDefault = Some c').
Proof. exact prepared_call. Qed.
Print Assumptions C57_prepared.

(** Whatever the methods of the server do with the request, the messages that
    come back complete the call they belong to and no other one, with what the
    one response carries; if that is neither result nor error, nothing happens. *)
Theorem C57_completed : forall same sv p ph pi ver id name args ctx flags later inner a s c h rest,
  has_id (call_request ver id name args ctx) = true -> no_result_formats (sv_format sv) ->
  server_ok calm sv -> forallb calm (fst p) = true -> forallb calm (fst ph) = true -> forallb calm (fst pi) = true ->
  server_ok no_init sv -> forallb no_init (fst p) = true -> forallb no_init (fst ph) = true -> forallb no_init (fst pi) = true ->
  forallb calm later = true -> forallb no_init later = true -> forallb calm inner = true ->
  exec sv p ph pi (create ByFunction (parse_request (call_message ver id name args ctx)) flags) = Some s ->
  take_call same (cl_calls c) id = Some (Some h, rest) ->
  exists v c', In v (messages (rs_log (rdrop (rrun s later) inner a))) /\ is_response v = true /\
    crun same c (map CResponse (messages (rs_log (rdrop (rrun s later) inner a)))) = Some c' /\
    match response_result v with
    | Some r => cl_calls c' = rest /\ cl_done c' = cl_done c ++ [(h, r)] /\
                cl_context c' = update_context (cl_context c) (value_member v k_context)
    | None => c' = c
    end.
Proof. exact call_completes. Qed.
Print Assumptions C57_completed.

(** What a result and an error become. *)
Theorem C57_result : forall ver id res ctx, response_result (result_message ver id res ctx) =
  if is_undef res then match ver with Ver1 => Some (mkRR VNull true (sent_context ctx)) | Ver2 => None end
  else Some (mkRR res false (sent_context ctx)).
Proof. exact result_reply. Qed.
Print Assumptions C57_result.
Theorem C57_error : forall ver id e, is_undef e = false -> is_null e = false ->
  response_result (error_message ver id e) = Some (mkRR e true VUndef).
Proof. exact error_reply. Qed.
Print Assumptions C57_error.
(** A null error is a success in version 1, an undefined result never ends the
    call in version 2. *)
Theorem C57_null_error_refuted : exists id e, response_result (error_message Ver1 id e) = Some (mkRR VNull false VUndef).
Proof. exists (num 1), VNull. vm_compute. reflexivity. Qed.
Print Assumptions C57_null_error_refuted.
Theorem C57_undefined_result_refuted : exists c id ops, take_call (same_value eqL) (cl_calls c) id = Some (Some 0, []) /\
  responses (rs_log (rrun (create ByFunction (parse_request (call_message Ver2 id (txt "f") VUndef VUndef)) 0) ops)) = 1 /\
  crun (same_value eqL) c (map CResponse (messages (rs_log (rrun (create ByFunction (parse_request (call_message Ver2 id (txt "f") VUndef VUndef)) 0) ops)))) = Some c.
Proof. exists (add_pending (same_value eqL) client_new (num 1)), (num 1), [RResult VUndef VUndef [] ok]. vm_compute. repeat split. Qed.
Print Assumptions C57_undefined_result_refuted.

Definition ex_client : client := add_pending (same_value eqL) (add_pending (same_value eqL) client_new (num 1)) (num 2).
Example C57_case :
  let msg := call_message Ver2 (num 2) (txt "sum") (VArr [([], num 20); ([], num 22)]) VUndef in
  match exec ex_server nothing nothing nothing (create ByFunction (parse_request msg) f_pre) with
  | Some s => option_map (fun c => (cl_calls c, cl_done c)) (crun (same_value eqL) ex_client (map CResponse (messages (rs_log s)))) =
      Some ([(num 1, Some 0)], [(1, mkRR (num 42) false VUndef)])
  | None => False
  end /\ take_call (same_value eqL) (cl_calls ex_client) (num 2) = Some (Some 1, [(num 1, Some 0)]).
Proof. vm_compute. split; reflexivity. Qed.
