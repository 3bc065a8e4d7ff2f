(** C120: how long a request lives. *)
From Coq Require Import List Bool Arith Lia.
From Verif Require Import Base ModelRpc ModelReqLife SpecReqLife ProofReqLife.
Import ListNotations.

(** Between calls the request is alive exactly with as many references as the user
    has handles, or it is gone; it goes unanswered only if no server executed it or
    it asked for no response. *)
Theorem C120_count : forall kind id l s, qrun l (q_new kind id) = QOk s ->
  (q_mem s = Live /\ q_count s = q_user s /\ 0 < q_user s) \/
  (q_mem s = Freed /\ (q_svc s = None \/ q_sent s = true \/ (kind = ByFunction /\ id = false))).
Proof. exact counted. Qed.
Print Assumptions C120_count.

(** If no handle is copied in the function called by the end of a request, no
    destroyed request is used; the request is gone when the last handle is. *)
Theorem C120_freed : forall kind id l, ~ in_code copies_at_end l ->
  match qrun l (q_new kind id) with QOk s => (q_mem s = Freed <-> q_user s = 0) | QBad e => e <> UseFreed end.
Proof. exact no_freed. Qed.
Print Assumptions C120_freed.

(** Otherwise the handle kept is one to a destroyed request. *)
Theorem C120_freed_refuted : exists kind id l, qrun l (q_new kind id) = QBad UseFreed.
Proof. exists ByFunction, true, [QExec 0; QDrop [QCopy]; QResult []]. vm_compute. reflexivity. Qed.
Print Assumptions C120_freed_refuted.

(** Only a server that ended after it was given the request is asked in vain. *)
Theorem C120_server : forall kind id l, qrun l (q_new kind id) = QBad UseServer ->
  exists k, in_code (eq (QExec k)) l /\ in_code (eq (QEnd k)) l.
Proof. exact no_server. Qed.
Print Assumptions C120_server.

(** A server must outlive the requests not answered yet. *)
Theorem C120_server_refuted : forall kind id, exists l, qrun l (q_new kind id) = QBad UseServer.
Proof. intros kind id. exists [QExec 0; QEnd 0; QDrop []]. vm_compute. reflexivity. Qed.
Print Assumptions C120_server_refuted.

(** But not the answered ones: handles to them may be dropped at any time, and no
    function is called. *)
Theorem C120_answered : forall kind id l s,
  qrun l (q_new kind id) = QOk s -> q_sent s = true -> 0 < q_user s -> q_mem s = Live ->
  exists s', (forall inner, qstep (QDrop inner) s = QOk s') /\ (q_mem s' = Freed <-> q_user s = 1).
Proof. exact answered_drop. Qed.
Print Assumptions C120_answered.

(** A request for which setResult or setError was called is answered, if it asked
    for a response. *)
Theorem C120_marks : forall kind id l s inner o s',
  qrun l (q_new kind id) = QOk s -> 0 < q_user s -> o = QResult inner \/ o = QError inner -> qstep o s = QOk s' ->
  q_sent s' = true \/ (kind = ByFunction /\ id = false).
Proof. exact marks. Qed.
Print Assumptions C120_marks.

(** If no handle is dropped while a response is being sent, or if the request has
    callbacks, the request outlives its own functions. *)
Theorem C120_self : forall kind id l, ~ in_code drops_inside l -> qrun l (q_new kind id) <> QBad UseSelf.
Proof. exact no_self. Qed.
Print Assumptions C120_self.

Theorem C120_self_callbacks : forall id l, qrun l (q_new ByCallbacks id) <> QBad UseSelf.
Proof. exact no_self_callbacks. Qed.
Print Assumptions C120_self_callbacks.

(** A request with a function does not if the function drops the last handle. *)
Theorem C120_self_refuted : exists l, qrun l (q_new ByFunction true) = QBad UseSelf.
Proof. exists [QExec 0; QResult [QDrop []]]. vm_compute. reflexivity. Qed.
Print Assumptions C120_self_refuted.

Definition ex_life : list qop := [QCopy; QExec 3; QDrop []; QResult [QCopy; QError []]; QEnd 3; QDrop []; QDrop []].
Example C120_case : forall kind, ~ in_code copies_at_end ex_life /\ ~ in_code drops_inside ex_life /\
  exists s, qrun ex_life (q_new kind true) = QOk s /\ q_mem s = Freed /\ q_sent s = true.
Proof.
  assert (N : forall P o, ~ P o -> inner_of o = [] -> ~ somewhere P o) by (intros P o A E W; destruct W as [o W|o x I _]; [exact (A W)|rewrite E in I; exact I]).
  assert (R : forall P, ~ P (QResult [QCopy; QError []]) -> ~ P QCopy -> ~ P (QError []) -> ~ somewhere P (QResult [QCopy; QError []])).
  { intros P A B C W. inversion W as [o W' E|o x I W' E]; subst; [exact (A W')|]. cbn in I. destruct I as [<-|[<-|[]]]; revert W'; apply N; auto. }
  intros kind. repeat split.
  - intros (o & I & W). cbn in I.
    repeat (destruct I as [<-|I]; [revert W; first [apply R|apply N]; try reflexivity; intros (l & E & o & J & _); inversion E; subst; contradiction|]). contradiction.
  - intros (o & I & W). cbn in I.
    repeat (destruct I as [<-|I]; [revert W; first [apply R|apply N]; try reflexivity; intros (l & [E|E] & o & J & X); inversion E; subst; try contradiction|]); try contradiction.
    revert X. cbn in J. destruct J as [<-|[<-|[]]]; apply N; try reflexivity; intros (? & ?); discriminate.
  - destruct kind; eexists; (split; [vm_compute; reflexivity|]); vm_compute; auto.
Qed.
(** A handle copied and dropped again at the end of a request does no harm. *)
Example C120_end_case : exists s, qrun [QExec 0; QDrop [QCopy; QDrop []]] (q_new ByFunction true) = QOk s /\ q_mem s = Freed /\ q_sent s = true.
Proof. eexists. split; [vm_compute; reflexivity|]. vm_compute. auto. Qed.
(** An answered request outlives its server. *)
Example C120_answered_case : exists s, qrun [QExec 0; QCopy; QResult []; QDrop []; QEnd 0] (q_new ByCallbacks true) = QOk s /\ q_sent s = true /\ q_user s = 1 /\ q_mem s = Live.
Proof. eexists. split; [vm_compute; reflexivity|]. vm_compute. auto. Qed.
