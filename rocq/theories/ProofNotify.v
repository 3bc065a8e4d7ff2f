(** Notifications. *)
From Verif Require Import Base ModelKeyed ModelValue ModelText SpecText ProofText4 ModelObject ProofObject ModelRpc SpecRpc ProofRpc ProofRpc2 SpecRpcText ProofRpcText ModelNotify SpecNotify.
Local Open Scope Z_scope.

Lemma parse_notify : forall ver name args ctx, parse_request (format_notify ver name args ctx) = notify_request ver name args ctx.
Proof. intros. unfold parse_request, format_notify. rewrite !member_sets. destruct ver; reflexivity. Qed.
Lemma notify_ok : forall utf8 ver name args ctx, doc_ok utf8 (VStr None name) -> part_ok utf8 args -> part_ok utf8 ctx -> doc_ok utf8 (format_notify ver name args ctx).
Proof.
  intros utf8 ver name args ctx Hn Ha Hc. apply sets_ok.
  assert (T : doc_ok utf8 v_two) by (constructor; [apply ascii_ok; repeat constructor; discriminate|discriminate|discriminate]).
  assert (forall k v, forallb (fun x => (0 <=? x) && (x <? 128)) k = true -> part_ok utf8 v -> Forall (fun x => 0 <= x < 128) (fst (k, v)) /\ part_ok utf8 (snd (k, v))) as X.
  { intros k v Hk Hv. split; [|exact Hv]. cbn [fst]. rewrite Forall_forall. rewrite forallb_forall in Hk. intros x Hx. apply Hk in Hx. lia. }
  destruct ver; repeat (apply Forall_cons; [apply X; [reflexivity|try assumption]|]); try apply Forall_nil; right; try assumption; constructor.
Qed.
Lemma read_notify : forall utf8 ver name args ctx, doc_ok utf8 (VStr None name) -> part_ok utf8 args -> part_ok utf8 ctx ->
  parse_request (norm (format_notify ver name args ctx)) = notify_request ver name (norm args) (norm ctx).
Proof.
  intros utf8 ver name args ctx Hn Ha Hc. pose proof (notify_ok utf8 ver name args ctx Hn Ha Hc) as D.
  unfold parse_request. rewrite !(norm_member utf8) by exact D.
  pose proof (parse_notify ver name args ctx) as P. clear D. generalize dependent (format_notify ver name args ctx). intros m P. unfold parse_request in P.
  destruct ver; cbn [notify_request] in *; injection P as P1 P2 P3 P4 P5; rewrite P1, P2, P3, P4, P5; reflexivity.
Qed.
Lemma no_id : forall ver name args ctx, has_id (notify_request ver name args ctx) = false.
Proof. intros []; reflexivity. Qed.
Lemma notify_parts : forall m ver name args ctx, parse_request m = notify_request ver name args ctx ->
  notice_of m = mkNt (VStr None name) args VUndef /\ forall same c, process_response same c m = Some (c, Notification).
Proof.
  intros m ver name args ctx P. pose proof (no_id ver name args ctx) as I. rewrite <- P in I. split.
  - unfold notice_of. assert (Q : rq_method (parse_request m) = VStr None name /\ rq_params (parse_request m) = args) by (rewrite P; destruct ver; split; reflexivity).
    cbn [parse_request rq_method rq_params] in Q. destruct Q as [-> ->]. reflexivity.
  - intros same c. unfold process_response. unfold has_id in I. cbn [parse_request rq_id] in I. rewrite I. reflexivity.
Qed.
Lemma text_notify : forall L E F utf8 ver name args ctx, precise F = false -> doc_ok utf8 (VStr None name) -> part_ok utf8 args -> part_ok utf8 ctx ->
  exists m args' ctx', sent_as L E F utf8 (client_notify_context ver name args ctx) m /\ same_part args args' /\ same_part ctx ctx' /\
    parse_request m = notify_request ver name args' ctx' /\
    notice_of m = notice_new name args' /\ forall same c, process_response same c m = Some (c, Notification).
Proof.
  intros L E F utf8 ver name args ctx HF Hn Ha Hc. exists (norm (format_notify ver name args ctx)), (norm args), (norm ctx).
  split; [apply read_exact; [exact HF|apply notify_ok; assumption]|]. split; [apply (same_norm utf8), Ha|]. split; [apply (same_norm utf8), Hc|].
  pose proof (read_notify utf8 ver name args ctx Hn Ha Hc) as P. split; [exact P|]. exact (notify_parts _ _ _ _ _ P).
Qed.

Lemma exec_notify : forall sv p ph pi r flags m l name, rq_method r = VStr None name -> (rq_context r = VUndef \/ exists d c, rq_context r = VObj d c) ->
  reg_find (sv_reg sv) name = Some m -> m (wrapped flags r) = (l, Returns tt) ->
  exec sv p ph pi (create ByFunction r flags) = Some (rrun (create ByFunction r flags) (RInit (sv_format sv) :: l)).
Proof.
  intros sv p ph pi r flags m l name Hn Hc Hm Hl. apply (exec_method sv p ph pi ByFunction r flags m l).
  - split; [exists None, name; exact Hn|exact Hc].
  - rewrite Hn. exact Hm.
  - exact Hl.
Qed.
Lemma any_ops : forall l : list rop, forallb (fun _ => true) l = true.
Proof. induction l; [reflexivity|assumption]. Qed.
Lemma any_server : forall sv, server_ok (fun _ => true) sv.
Proof.
  intros sv. split; [|split].
  - apply Forall_forall. intros m _ r. apply any_ops.
  - unfold hook_ok. destruct (sv_proxy sv); [intros r; apply any_ops|exact I].
  - unfold hook_ok. destruct (sv_handler sv); [intros r; apply any_ops|exact I].
Qed.
Lemma exec_silent : forall sv p ph pi r flags s later inner a, has_id r = false -> exec sv p ph pi (create ByFunction r flags) = Some s ->
  responses (rs_log (rdrop (rrun s later) inner a)) = 0%nat.
Proof.
  intros sv p ph pi r flags s later inner a Hi H.
  destruct (exec_history (fun _ => true) (fun c m d i b => eq_sym (any_ops i)) sv p ph pi _ _ (any_server sv) (any_ops _) (any_ops _) (any_ops _) H) as (l & _ & ->).
  rewrite <- rrun_app. apply notification_silent. exact Hi.
Qed.

(** *** Notifications taken as requests *)
Definition dumb (s : rstate) : Prop := rs_kind s = ByFunction /\ has_id (rs_req s) = false /\ rs_notify s = false.
Lemma dumb_step : forall o s, no_beat o = true -> dumb s -> dumb (fst (rstep s o)) /\ rs_log (fst (rstep s o)) = rs_log s.
Proof.
  intros o s B (K & I & N). rewrite rstep_eq.
  assert (Er : forall inner a e, send_error (delivered inner a) a s e = (s, false)) by (intros; unfold send_error; rewrite K, I; reflexivity).
  destruct o; cbn [no_beat] in B; try discriminate; cbn [fst].
  - repeat split; assumption.
  - repeat split; try assumption. 
  - unfold send_result. rewrite K, I. cbn [andb fst]. repeat split; assumption.
  - rewrite Er. repeat split; assumption.
  - unfold send_error_code. destruct (rs_svc s) as [f|]; [destruct (f code message data)|]; rewrite ?Er; repeat split; assumption.
  - unfold send_no_result. destruct (rs_svc s) as [f|]; [destruct (f _ _ _)|]; rewrite ?Er; repeat split; assumption.
  - unfold send_notify. rewrite K, N. repeat split; assumption.
Qed.
Lemma dumb_run : forall l s, forallb no_beat l = true -> dumb s -> dumb (rrun s l) /\ rs_log (rrun s l) = rs_log s.
Proof.
  induction l as [|o l IH]; intros s B D; [split; [exact D|reflexivity]|]. cbn [forallb] in B. apply andb_prop in B. destruct B as [Bo Bl].
  rewrite rrun_cons. destruct (dumb_step o s Bo D) as [D1 E1]. destruct (IH _ Bl D1) as [D2 E2]. split; [exact D2|]. rewrite E2. exact E1.
Qed.
Lemma notice_silent : forall sv p ph pi n s later inner a, server_ok no_beat sv -> forallb no_beat (fst p) = true -> forallb no_beat (fst ph) = true -> forallb no_beat (fst pi) = true ->
  forallb no_beat later = true -> exec sv p ph pi (as_request n) = Some s -> rs_log (rdrop (rrun s later) inner a) = [].
Proof.
  intros sv p ph pi n s later inner a Hs Hp Hh Hi Hl H.
  destruct (exec_history no_beat (fun c m d i b => eq_refl) sv p ph pi _ _ Hs Hp Hh Hi H) as (l & Bl & ->).
  rewrite <- rrun_app. destruct (dumb_run ((RInit (sv_format sv) :: l) ++ later) (as_request n)) as [D E].
  - rewrite forallb_app. cbn [forallb]. rewrite Bl, Hl. reflexivity.
  - repeat split; reflexivity.
  - unfold rdrop. destruct (rs_sent _); [exact E|]. clear H. set (t := rrun (as_request n) (_ ++ _)) in *. rewrite rstep_eq. cbn [fst]. destruct D as (K & I & _).
    unfold send_no_result. destruct (rs_svc t) as [f|]; [|exact E]. destruct (f _ _ _); [|exact E]. unfold send_error. rewrite K, I. exact E.
Qed.
Lemma notice_called : forall sv p ph pi name data ctx m l, (ctx = VUndef \/ exists d c, ctx = VObj d c) -> reg_find (sv_reg sv) name = Some m ->
  let r := mkReq (VStr None name) data VUndef ctx VUndef in m (wrapped 0 r) = (l, Returns tt) ->
  exec sv p ph pi (as_request (notice_context name data ctx)) = Some (rrun (create ByFunction r 0) (RInit (sv_format sv) :: l)).
Proof. intros sv p ph pi name data ctx m l C F r H. apply (exec_notify sv p ph pi r 0 m l name); [reflexivity|exact C|exact F|exact H]. Qed.
