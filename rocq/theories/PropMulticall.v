(** C79, C80: many calls in one request; the list of methods. *)
From Coq Require Import String Permutation.
From Verif Require Import Base ModelKeyed ModelValue ModelObject ModelArray ModelJwt ModelRpc SpecRpc SpecArray ModelMulticall SpecMulticall ProofMulticall.
Local Open Scope list_scope.
Local Open Scope nat_scope.

(** *** C79 *)
(** If every sub-request is answered once, at once or later, the calls up to the
    first one without a method are made in order, each with the context left by
    the previous ones, and the whole is answered with their results and errors. *)
Theorem C79_multicall : forall W (call : W -> preq -> W * (list outcome * list outcome)) id version, one_answer call ->
  forall params calls ctx w, asks params calls ->
  exists w' made outs, serve call id version (with_method calls) w ctx w' made outs /\
    multicall call id version params ctx w = (w', made, inl (Answer (multi_result outs))).
Proof. exact multicall_all. Qed.
Print Assumptions C79_multicall.

(** If some are not answered, the calls up to the first such one are made and the
    whole is not answered. *)
Theorem C79_waits : forall W (call : W -> preq -> W * (list outcome * list outcome)) id version, one_at_most call ->
  forall params calls ctx w, asks params calls ->
  (exists w' made outs, serve call id version (with_method calls) w ctx w' made outs /\
    multicall call id version params ctx w = (w', made, inl (Answer (multi_result outs)))) \/
  (exists before name args after w1 made outs w2, with_method calls = before ++ (name, args) :: after /\
    serve call id version before w ctx w1 made outs /\
    let r := mkReq name (as_args args) id (fold_left next_context outs ctx) version in
    call w1 r = (w2, ([], [])) /\ multicall call id version params ctx w = (w2, made ++ [r], inl Waiting)).
Proof. exact multicall_waits. Qed.
Print Assumptions C79_waits.

(** Nothing is left open by that. *)
Theorem C79_determined : forall W (call : W -> preq -> W * (list outcome * list outcome)) id version l w ctx w1 m1 o1 w2 m2 o2,
  serve call id version l w ctx w1 m1 o1 -> serve call id version l w ctx w2 m2 o2 -> w1 = w2 /\ m1 = m2 /\ o1 = o2.
Proof. exact serve_unique. Qed.
Print Assumptions C79_determined.

(** One request and one answer for each call. *)
Theorem C79_count : forall W (call : W -> preq -> W * (list outcome * list outcome)) id version l w ctx w' made outs,
  serve call id version l w ctx w' made outs -> length made = length l /\ length outs = length l.
Proof. exact serve_length. Qed.
Print Assumptions C79_count.

(** Unless a method gives an undefined result, the results stand at the positions
    of their calls, null for those that failed. *)
Theorem C79_positions : forall outs, (forall r c, In (OResult r c) outs -> r <> VUndef) -> forall i o,
  nth_error outs i = Some o -> vitem (value_member (multi_result outs) (txt "results")) i = ([], result_item o).
Proof. exact positions. Qed.
Print Assumptions C79_positions.

(** Other parameters are refused and nothing is called. *)
Theorem C79_refused : forall W (call : W -> preq -> W * (list outcome * list outcome)) id version params ctx w,
  (forall calls, ~ asks params calls) -> exists message, multicall call id version params ctx w = (w, [], inr message).
Proof. exact multicall_refused. Qed.
Print Assumptions C79_refused.

(** A server answers every sub-request once, if its methods answer at most once
    before they return, and do not answer and throw. *)
Theorem C79_server : forall sv, plain_server sv -> one_answer (server_call sv).
Proof. exact server_once. Qed.
Print Assumptions C79_server.

Definition name (s : string) : value := VStr None (txt s).
Definition num (n : Z) : value := VNum (NUInt n).
Definition arr (l : list value) : value := VArr (map (fun v => ([], v)) l).
(** "inc" gives its parameter plus one and sets the context, "none" gives an
    undefined result, "fail" fails, "quiet" does not answer. *)
Definition ex_inc : method := fun r =>
  match rq_params r with
  | VArr [(_, VNum (NUInt n))] => ([RNotify (txt "working") VNull [] (Accepts true);
      RResult (num (n + 1)) (VObj false [(txt "last", num n)]) [] (Accepts true)], Returns tt)
  | _ => ([], Raises (Some (txt "bad")))
  end.
Definition ex_multi : server := mkSV
  [(txt "inc", ex_inc); (txt "none", fun _ => ([RResult VUndef VUndef [] (Accepts true)], Returns tt));
   (txt "fail", fun _ => ([RError (name "no") [] (Accepts true)], Returns tt)); (txt "quiet", fun _ => ([], Returns tt))]
  None None (fun c m d => Some (VNum (NInt c))).
Definition ex_multicall (l : list value) := multicall (server_call ex_multi) (num 9) VUndef (arr l) VUndef tt.

(** A call without a method ends the sequence: the calls after it are not made. *)
Theorem C79_all_made_refuted : exists l made v,
  ex_multicall l = (tt, made, inl (Answer v)) /\ In (arr [name "inc"; num 2]) l /\ length made < length l /\
  value_member v (txt "errors") = arr [].
Proof.
  exists [arr [name "inc"; num 1]; arr []; arr [name "inc"; num 2]]. eexists. eexists. split; [vm_compute; reflexivity|].
  split; [right; right; left; reflexivity|]. split; [cbn; repeat constructor|reflexivity].
Qed.
Print Assumptions C79_all_made_refuted.

(** An undefined result is left out, and the results after it move. *)
Theorem C79_positions_refuted : exists l made v,
  l = [arr [name "none"]; arr [name "inc"; num 1]] /\ ex_multicall l = (tt, made, inl (Answer v)) /\ length made = 2 /\ value_member v (txt "results") = arr [num 2].
Proof. eexists. eexists. eexists. split; [reflexivity|]. split; [vm_compute; reflexivity|]. split; reflexivity. Qed.
Print Assumptions C79_positions_refuted.

(** A method that answers twice breaks the whole. *)
Theorem C79_twice_refuted : exists sv made, multicall (server_call sv) (num 9) VUndef (arr [name "twice"; num 1; num 2]) VUndef tt = (tt, made, inl Broken).
Proof.
  exists (mkSV [(txt "twice", fun _ => ([RResult VNull VUndef [] (Accepts true); RResult VNull VUndef [] (Accepts true)], Returns tt))] None None (fun c m d => Some VNull)).
  eexists. vm_compute. reflexivity.
Qed.
Print Assumptions C79_twice_refuted.

Example C79_case : plain_server ex_multi /\
  ex_multicall [arr [name "inc"; num 1]; arr [name "inc"; num 5]; arr [name "quiet"]; arr [name "fail"; arr []]; arr [name "what"]] =
    (tt, [mkReq (name "inc") (arr [num 1]) (num 9) VUndef VUndef; mkReq (name "inc") (arr [num 5]) (num 9) (VObj false [(txt "last", num 1)]) VUndef;
          mkReq (name "quiet") (arr []) (num 9) (VObj false [(txt "last", num 5)]) VUndef;
          mkReq (name "fail") (arr []) (num 9) (VObj false [(txt "last", num 5)]) VUndef;
          mkReq (name "what") (arr []) (num 9) (VObj false [(txt "last", num 5)]) VUndef],
     inl (Answer (VObj false [(txt "errors", arr [VNum (NInt (-32099)); name "no"; VNum (NInt (-32601))]);
                              (txt "results", arr [num 2; num 6; VNull; VNull; VNull])]))) /\
  ex_multicall [name "inc"; num 3; name "x"] =
    (tt, [mkReq (name "inc") (arr [num 3]) (num 9) VUndef VUndef; mkReq (name "inc") (arr [name "x"]) (num 9) (VObj false [(txt "last", num 3)]) VUndef],
     inl (Answer (VObj false [(txt "errors", arr [VNum (NInt (-32603))]); (txt "results", arr [num 4; VNull])]))) /\
  ex_multicall [num 1] = (tt, [], inr (txt "The first argument must be either string or array")).
Proof.
  split; [|split; [vm_compute; reflexivity|split; vm_compute; reflexivity]].
  split; [|split; [reflexivity|split; [reflexivity|intros; eexists; reflexivity]]].
  assert (once ex_inc).
  { intros r. unfold ex_inc. destruct (rq_params r) as [| | | | |l|]; try (split; reflexivity). destruct l as [|[k v] l]; [split; reflexivity|].
    destruct v as [| | |[] | | |]; try (split; reflexivity). destruct l; split; try reflexivity; cbn; repeat constructor. }
  repeat apply Forall_cons; try apply Forall_nil; try assumption; intros r; (split; [reflexivity|]); vm_compute; repeat constructor.
Qed.

(** a server which answers "inc" later and "never" never *)
Definition ex_late (w : unit) (r : preq) : unit * (list outcome * list outcome) :=
  match rq_method r with
  | VStr _ s => if Nat.eqb (length s) 3 then (w, ([], [OResult VNull VUndef])) else (w, ([], []))
  | _ => (w, ([OError VNull], []))
  end.
Example C79_waits_case : one_at_most ex_late /\
  multicall ex_late (num 9) VUndef (arr [arr [name "inc"]; arr [name "never"]; arr [name "inc"]]) VUndef tt =
    (tt, [mkReq (name "inc") (arr []) (num 9) VUndef VUndef; mkReq (name "never") (arr []) (num 9) VUndef VUndef], inl Waiting).
Proof.
  split; [|vm_compute; reflexivity]. intros w r. unfold ex_late. destruct (rq_method r); try (left; eexists; left; reflexivity).
  destruct (Nat.eqb _ _); [left; eexists; right; reflexivity|right; reflexivity].
Qed.

(** *** C80 *)
(** The list of methods has the name of every registered method once, and no
    other; whatever the order of the map. *)
Theorem C80_list : forall l names, Permutation names (map fst (reg_run l)) ->
  exists items, list_methods names None = VArr items /\ NoDup items /\
    forall name, In ([], VStr None name) items <-> exists m, reg_find (reg_run l) name = Some m.
Proof. exact list_own. Qed.
Print Assumptions C80_list.

(** If the proxy took the request, its answer follows. *)
Theorem C80_proxy : forall names resp l, value_member resp k_result = VArr l ->
  list_methods names (Some resp) = VArr (name_items names ++ defined_only l).
Proof. exact list_proxied. Qed.
Print Assumptions C80_proxy.

Example C80_case :
  let m : method := fun _ => ([], Returns tt) in
  map fst (reg_run [GAdd (txt "b") m; GAdd (txt "a") m; GAdd (txt "b") m; GAdd (txt "c") m; GRemove (txt "a")]) = [txt "c"; txt "b"] /\
  list_methods [txt "b"; txt "c"] (Some (VObj false [(k_id, num 1); (k_result, arr [name "z"; name "b"])])) = arr [name "b"; name "c"; name "z"; name "b"].
Proof. split; vm_compute; reflexivity. Qed.
