(** Proofs about JSON-RPC requests. *)
From Coq Require Import String.
From Verif Require Import Base ModelKeyed SpecKeyed ProofKeyed ModelValue ModelObject SpecObject ProofObject ModelMerge SpecMerge ProofMerge ModelRpc SpecRpc.
Local Open Scope list_scope.

Lemma member_sets : forall c k, value_member (sets_as_object c) k =
  match last_binding k c with Some v => v | None => VUndef end.
Proof.
  intros c k. destruct (sets_as_object_spec c) as (l & E & Hl & Hb). rewrite E.
  rewrite value_member_binding.
  - cbn [obj_members]. rewrite Hb. destruct (last_binding k c) as [v|]; [|reflexivity]. destruct v; reflexivity.
  - split; [exact Hl|]. intros _ k0 v Hin. apply (in_binding _ _ _ (keys_increasing_nodup _ Hl)) in Hin.
    rewrite Hb in Hin. destruct (last_binding k0 c) as [w|]; [|discriminate]. rewrite kept_undef in Hin.
    destruct (is_undef w) eqn:E2; [discriminate|]. injection Hin as <-. exact E2.
Qed.

Lemma result_member_id : forall ver id r c, value_member (result_message ver id r c) k_id = id.
Proof. intros. unfold result_message. rewrite member_sets. destruct ver; reflexivity. Qed.
Lemma error_member_id : forall ver id e, value_member (error_message ver id e) k_id = id.
Proof. intros. unfold error_message. rewrite member_sets. destruct ver; reflexivity. Qed.
Lemma notify_not_response : forall ver n d c, is_response (format_notify ver n d c) = false.
Proof. intros. unfold is_response, format_notify. rewrite member_sets. destruct ver; reflexivity. Qed.
Lemma notify_notification : forall ver n d c, is_notification (format_notify ver n d c) = true.
Proof. intros. unfold is_notification, format_notify. rewrite member_sets. destruct ver; reflexivity. Qed.
Lemma result_not_notification : forall ver id r c, is_notification (result_message ver id r c) = false.
Proof. intros. unfold is_notification, result_message. rewrite member_sets. destruct ver; reflexivity. Qed.
Lemma error_not_notification : forall ver id e, is_notification (error_message ver id e) = false.
Proof. intros. unfold is_notification, error_message. rewrite member_sets. destruct ver; reflexivity. Qed.
Lemma result_is_response : forall r ver res c, is_response (result_message ver (rq_id r) res c) = has_id r.
Proof. intros. unfold is_response, has_id. rewrite result_member_id. reflexivity. Qed.
Lemma error_is_response : forall r ver e, is_response (error_message ver (rq_id r) e) = has_id r.
Proof. intros. unfold is_response, has_id. rewrite error_member_id. reflexivity. Qed.

(** *** Induction on operations *)
Fixpoint rop_ind' (P : rop -> Prop)
  (H1 : forall svc, P (RInit svc)) (H2 : forall v, P (RSetParams v))
  (H3 : forall r c l a, Forall P l -> P (RResult r c l a))
  (H4 : forall e l a, Forall P l -> P (RError e l a))
  (H5 : forall c m d l a, Forall P l -> P (RErrorCode c m d l a))
  (H6 : forall l a, Forall P l -> P (RNoResult l a))
  (H7 : forall n d l a, Forall P l -> P (RNotify n d l a))
  (H8 : forall l a, Forall P l -> P (RHeartbeat l a)) (o : rop) : P o :=
  let all := fix all (l : list rop) : Forall P l :=
    match l with
    | [] => Forall_nil P
    | x :: l' => Forall_cons x (rop_ind' P H1 H2 H3 H4 H5 H6 H7 H8 x) (all l')
    end in
  match o with
  | RInit svc => H1 svc
  | RSetParams v => H2 v
  | RResult r c l a => H3 r c l a (all l)
  | RError e l a => H4 e l a (all l)
  | RErrorCode c m d l a => H5 c m d l a (all l)
  | RNoResult l a => H6 l a (all l)
  | RNotify n d l a => H7 n d l a (all l)
  | RHeartbeat l a => H8 l a (all l)
  end.

Definition delivered (inner : list rop) (a : answer) (s : rstate) (e : event) : rstate :=
  add_log (rrun (add_log s (Delivered e)) inner) (Answered a).

Lemma rstep_eq : forall s o, rstep s o =
  match o with
  | RInit svc => (set_svc s (Some svc), false)
  | RSetParams v => (set_params s v, false)
  | RResult r c inner a => send_result (delivered inner a) a s r c
  | RError e inner a => send_error (delivered inner a) a s e
  | RErrorCode c m d inner a => send_error_code (delivered inner a) a s c m d
  | RNoResult inner a => send_no_result (delivered inner a) a s
  | RNotify n d inner a => send_notify (delivered inner a) a s n d
  | RHeartbeat inner a => send_heartbeat (delivered inner a) s
  end.
Proof. intros s []; reflexivity. Qed.

Lemma rrun_cons : forall s o l, rrun s (o :: l) = rrun (fst (rstep s o)) l.
Proof. reflexivity. Qed.
Lemma rrun_app : forall s l m, rrun s (l ++ m) = rrun (rrun s l) m.
Proof. intros. apply fold_left_app. Qed.

(** A relation between the state before and after, kept by every piece of an
    operation, is kept by the operation. *)
Section Relation.
Variable R : rstate -> rstate -> Prop.
Hypothesis Rrefl : forall s, R s s.
Hypothesis Rtrans : forall s t u, R s t -> R t u -> R s u.

Lemma rrun_rel : forall l, Forall (fun o => forall s, R s (fst (rstep s o))) l -> forall s, R s (rrun s l).
Proof.
  induction l as [|o l IH]; intros H s; [apply Rrefl|]. inversion_clear H.
  rewrite rrun_cons. eapply Rtrans; [apply H0|apply IH; assumption].
Qed.
End Relation.

(** What never changes. *)
Definition kept_fields (s t : rstate) : Prop :=
  rs_kind t = rs_kind s /\ rq_id (rs_req t) = rq_id (rs_req s) /\ rq_version (rs_req t) = rq_version (rs_req s) /\
  rq_method (rs_req t) = rq_method (rs_req s) /\ rs_flags t = rs_flags s /\ (rs_sent s = true -> rs_sent t = true).
Lemma kf_refl : forall s, kept_fields s s. Proof. intros. repeat split. auto. Qed.
Lemma kf_trans : forall s t u, kept_fields s t -> kept_fields t u -> kept_fields s u.
Proof. unfold kept_fields. intros s t u (A & B & C & D & E & F) (A' & B' & C' & D' & E' & F'). repeat split; try congruence. auto. Qed.

Lemma kf_delivered : forall inner a, Forall (fun o => forall s, kept_fields s (fst (rstep s o))) inner ->
  forall s e, kept_fields s (delivered inner a s e).
Proof.
  intros inner a H s e. unfold delivered.
  pose proof (rrun_rel kept_fields kf_refl kf_trans inner H (add_log s (Delivered e))) as K.
  exact K.
Qed.
Lemma kf_post : forall s t b, kept_fields s t -> kept_fields s (post_send t b).
Proof. intros s t b (A & B & C & D & E & F). repeat split; auto. Qed.
Lemma kf_set_sent : forall s t x, kept_fields (set_sent s true x) t -> kept_fields s t.
Proof. intros s t b (A & B & C & D & E & F). repeat split; auto. Qed.
Lemma kf_notify : forall s t b, kept_fields s t -> kept_fields s (set_notify t b).
Proof. intros s t b H. exact H. Qed.

Lemma step_fields : forall o s, kept_fields s (fst (rstep s o)).
Proof.
  assert (HR : forall inner a, Forall (fun o => forall s, kept_fields s (fst (rstep s o))) inner ->
    forall s r c, kept_fields s (fst (send_result (delivered inner a) a s r c))).
  { intros inner a H s r c. unfold send_result. destruct (rs_kind s).
    - destruct (has_id (rs_req s) && negb (rs_sent s)); [|apply kf_refl].
      pose proof (kf_delivered inner a H s (Message (result_message (req_version (rs_req s)) (rq_id (rs_req s)) r c))) as K. destruct a; [apply kf_post|]; exact K.
    - apply kf_post. exact (kf_delivered inner a H s _). }
  assert (HE : forall inner a, Forall (fun o => forall s, kept_fields s (fst (rstep s o))) inner ->
    forall s e, kept_fields s (fst (send_error (delivered inner a) a s e))).
  { intros inner a H s e. unfold send_error. destruct (rs_kind s).
    - destruct (has_id (rs_req s) && negb (rs_sent s)); [|apply kf_refl].
      pose proof (kf_delivered inner a H (set_sent s true true) (Message (error_message (req_version (rs_req s)) (rq_id (rs_req s)) e))) as K. apply kf_set_sent in K. destruct a; [apply kf_post|]; exact K.
    - apply kf_post. exact (kf_delivered inner a H s _). }
  induction o as [svc|v|r c l a IH|e l a IH|c m d l a IH|l a IH|n d l a IH|l a IH] using rop_ind'; intros s; rewrite rstep_eq; cbn [fst].
  - repeat split. auto.
  - repeat split. auto.
  - apply HR; exact IH.
  - apply HE; exact IH.
  - unfold send_error_code. destruct (rs_svc s) as [f|]; [destruct (f c m d)|]; try (apply HE; exact IH). apply kf_refl.
  - unfold send_no_result. destruct (rs_svc s) as [f|]; [|apply kf_refl].
    destruct (f _ _ _); [|apply kf_refl]. cbn [fst]. apply HE; exact IH.
  - unfold send_notify. destruct (rs_kind s).
    + destruct (rs_notify s); [|apply kf_refl].
      pose proof (kf_delivered l a IH s (Message (format_notify (req_version (rs_req s)) n d VUndef))) as K. destruct a; exact K.
    + exact (kf_delivered l a IH s _).
  - unfold send_heartbeat. destruct (rs_kind s); exact (kf_delivered l a IH s _).
Qed.
Lemma run_fields : forall l s, kept_fields s (rrun s l).
Proof. intros. apply (rrun_rel _ kf_refl kf_trans). apply Forall_forall. intros. apply step_fields. Qed.

(** The version of messages does not change. *)
Lemma kf_version : forall s t, kept_fields s t -> req_version (rs_req t) = req_version (rs_req s).
Proof. intros s t (_ & _ & E & _). unfold req_version. rewrite E. reflexivity. Qed.
Lemma kf_has_id : forall s t, kept_fields s t -> has_id (rs_req t) = has_id (rs_req s).
Proof. intros s t (_ & E & _). unfold has_id. rewrite E. reflexivity. Qed.

(** *** Responses *)
Lemma responses_app : forall l m, responses (l ++ m) = responses l + responses m.
Proof. intros. unfold responses. rewrite filter_app, app_length. reflexivity. Qed.

Lemma quiet_list : forall l, forallb quiet l = true -> Forall (fun o => quiet o = true) l.
Proof. intros l H. apply Forall_forall. intros. eapply forallb_forall in H; eauto. Qed.

(** Requests by function: quiet operations send no response. *)
Definition no_answer (s t : rstate) : Prop :=
  kept_fields s t /\ rs_sent t = rs_sent s /\ responses (rs_log t) = responses (rs_log s).
Lemma na_refl : forall s, no_answer s s. Proof. intros. repeat split. auto. Qed.
Lemma na_trans : forall s t u, no_answer s t -> no_answer t u -> no_answer s u.
Proof. unfold no_answer. intros s t u (A & B & C) (A' & B' & C'). split; [eapply kf_trans; eauto|]. split; congruence. Qed.

Lemma quiet_step : forall o, quiet o = true -> forall s, rs_kind s = ByFunction -> no_answer s (fst (rstep s o)).
Proof.
  assert (HD : forall l a v, is_response v = false ->
    Forall (fun o => quiet o = true -> forall s, rs_kind s = ByFunction -> no_answer s (fst (rstep s o))) l ->
    forallb quiet l = true -> forall s, rs_kind s = ByFunction -> no_answer s (delivered l a s (Message v))).
  { intros l a v Hv IH Hq s Hk. unfold delivered.
    assert (K : forall l, Forall (fun o => quiet o = true -> forall s, rs_kind s = ByFunction -> no_answer s (fst (rstep s o))) l ->
      forallb quiet l = true -> forall s, rs_kind s = ByFunction -> no_answer s (rrun s l)).
    { clear. induction l as [|o l IH]; intros HF Hq s Hk; [apply na_refl|].
      cbn [forallb] in Hq. apply andb_prop in Hq. destruct Hq as [Hq1 Hq2]. inversion_clear HF. rewrite rrun_cons.
      pose proof (H Hq1 s Hk) as N. eapply na_trans; [exact N|]. apply IH; auto.
      destruct N as ((E & _) & _). rewrite E. exact Hk. }
    destruct (K l IH Hq (add_log s (Delivered (Message v))) Hk) as (A & B & C).
    split; [exact A|]. split; [exact B|]. cbn [add_log rs_log]. rewrite responses_app, C. cbn [add_log rs_log].
    rewrite responses_app. unfold responses at 2. cbn [filter delivers]. rewrite Hv. unfold responses. cbn. lia. }
  induction o as [svc|v|r c l a IH|e l a IH|c m d l a IH|l a IH|n d l a IH|l a IH] using rop_ind'; cbn [quiet]; intros Hq s Hk; try discriminate; rewrite rstep_eq; cbn [fst].
  - repeat split. auto.
  - repeat split. auto.
  - unfold send_notify. rewrite Hk. destruct (rs_notify s); [|apply na_refl].
    pose proof (HD l a (format_notify (req_version (rs_req s)) n d VUndef) (notify_not_response _ _ _ _) IH Hq s Hk) as (A & B & C).
    destruct a; cbn [fst]; repeat split; try apply A; auto.
  - unfold send_heartbeat. rewrite Hk. cbn [fst]. apply HD; auto.
Qed.
Lemma quiet_run : forall l, forallb quiet l = true -> forall s, rs_kind s = ByFunction -> no_answer s (rrun s l).
Proof.
  induction l as [|o l IH]; intros Hq s Hk; [apply na_refl|].
  cbn [forallb] in Hq. apply andb_prop in Hq. destruct Hq as [Hq1 Hq2]. rewrite rrun_cons.
  pose proof (quiet_step o Hq1 s Hk) as N. eapply na_trans; [exact N|]. apply IH; auto.
  destruct N as ((E & _) & _). rewrite E. exact Hk.
Qed.

(** One response when the request counts as answered, none before. *)
Definition counted (s : rstate) : Prop :=
  rs_kind s = ByFunction /\ has_id (rs_req s) = true /\ responses (rs_log s) = if rs_sent s then 1 else 0.

Lemma counted_result : forall l a s r c, counted s -> forallb quiet l = true ->
  match a with Accepts _ => true | Throws => false end = true ->
  counted (fst (send_result (delivered l a) a s r c)).
Proof.
  intros l a s r c (Hk & Hi & Hc) Hq Ha. unfold send_result. rewrite Hk, Hi. cbn [andb].
  destruct (rs_sent s) eqn:Es; cbn [negb]; [cbn [fst]; unfold counted; rewrite Es; auto|].
  destruct a as [b|]; [|discriminate]. cbn [fst]. unfold delivered, post_send.
  set (v := result_message _ _ r c).
  destruct (quiet_run l Hq (add_log s (Delivered (Message v))) Hk) as (A & B & C).
  split; [cbn; rewrite (proj1 A); exact Hk|]. split; [cbn; rewrite (kf_has_id _ _ A); exact Hi|].
  cbn [set_notify set_sent add_log rs_log rs_sent]. rewrite responses_app, C. cbn [add_log rs_log].
  rewrite responses_app. unfold responses at 2. cbn [filter delivers]. unfold v. rewrite result_is_response, Hi, Hc.
  unfold responses. cbn. lia.
Qed.

Lemma counted_step : forall o, calm o = true -> forall s, counted s -> counted (fst (rstep s o)).
Proof.
  assert (HD : forall l, Forall (fun o => calm o = true -> forall s, counted s -> counted (fst (rstep s o))) l ->
      forallb calm l = true -> forall s, counted s -> counted (rrun s l)).
  { induction l as [|o l IH]; intros HF Hq s Hs; [exact Hs|].
    cbn [forallb] in Hq. apply andb_prop in Hq. destruct Hq as [Hq1 Hq2]. inversion_clear HF. rewrite rrun_cons.
    apply IH; auto. }
  assert (HA : forall s a, counted s -> counted (add_log s (Answered a))).
  { intros s a (A & B & C). split; [exact A|]. split; [exact B|]. cbn [add_log rs_log rs_sent]. rewrite responses_app, C. unfold responses. cbn. lia. }
  assert (HM : forall s v, is_response v = false -> counted s -> counted (add_log s (Delivered (Message v)))).
  { intros s v Hv (A & B & C). split; [exact A|]. split; [exact B|]. cbn [add_log rs_log rs_sent]. rewrite responses_app, C. unfold responses. cbn [filter delivers]. rewrite Hv. cbn. lia. }
  assert (HE : forall l a, Forall (fun o => calm o = true -> forall s, counted s -> counted (fst (rstep s o))) l ->
      forallb calm l = true -> forall s e, counted s -> counted (fst (send_error (delivered l a) a s e))).
  { intros l a IH Hq s e (Hk & Hi & Hc). unfold send_error. rewrite Hk, Hi. cbn [andb].
    destruct (rs_sent s) eqn:Es; cbn [negb]; [cbn [fst]; unfold counted; rewrite Es; auto|].
    unfold delivered. set (v := error_message _ _ e).
    assert (C1 : counted (add_log (set_sent s true true) (Delivered (Message v)))).
    { split; [exact Hk|]. split; [exact Hi|]. cbn [add_log set_sent rs_log rs_sent]. rewrite responses_app, Hc.
      unfold responses. cbn [filter delivers]. unfold v. rewrite error_is_response, Hi. reflexivity. }
    apply (HD l IH Hq) in C1. apply (HA _ a) in C1. destruct a as [b|]; cbn [fst]; [|exact C1].
    destruct C1 as (A & B & C). split; [exact A|]. split; [exact B|]. cbn [post_send set_notify set_sent rs_log rs_sent].
    assert (Z : rs_sent (rrun (add_log (set_sent s true true) (Delivered (Message v))) l) = true) by (apply (run_fields l _); reflexivity).
    cbn [add_log rs_sent] in C. rewrite Z in C. exact C. }
  induction o as [svc|v|r c l a IH|e l a IH|c m d l a IH|l a IH|n d l a IH|l a IH] using rop_ind'; cbn [calm]; intros Hq s Hs; rewrite rstep_eq; cbn [fst].
  - exact Hs.
  - exact Hs.
  - apply andb_prop in Hq. destruct Hq. apply counted_result; auto.
  - apply HE; auto.
  - unfold send_error_code. destruct (rs_svc s) as [f|]; [destruct (f c m d)|]; try (apply HE; assumption). exact Hs.
  - unfold send_no_result. destruct (rs_svc s) as [f|]; [|exact Hs]. destruct (f _ _ _); [|exact Hs]. cbn [fst]. apply HE; auto.
  - unfold send_notify. pose proof Hs as (Hk & _). rewrite Hk. destruct (rs_notify s); [|exact Hs].
    pose proof (HM s _ (notify_not_response (req_version (rs_req s)) n d VUndef) Hs) as C1.
    apply (HD l IH Hq) in C1. apply (HA _ a) in C1. destruct a; exact C1.
  - unfold send_heartbeat. pose proof Hs as (Hk & _). rewrite Hk. cbn [fst]. apply HA. apply HD; auto.
Qed.
Lemma counted_run : forall l s, forallb calm l = true -> counted s -> counted (rrun s l).
Proof.
  induction l as [|o l IH]; intros s Hq Hs; [exact Hs|]. cbn [forallb] in Hq. apply andb_prop in Hq. destruct Hq.
  rewrite rrun_cons. apply IH; auto. apply counted_step; auto.
Qed.
Lemma counted_create : forall r flags, has_id r = true -> counted (create ByFunction r flags).
Proof. intros r flags H. split; [reflexivity|]. split; [exact H|reflexivity]. Qed.
Lemma rdrop_counted : forall s inner a, counted s -> forallb calm inner = true -> counted (rdrop s inner a).
Proof.
  intros s inner a Hs Hq. unfold rdrop. destruct (rs_sent s) eqn:E; [exact Hs|]. apply counted_step; auto.
Qed.


(** *** Requests that get no response, or no other one *)
Definition silent (s t : rstate) : Prop := kept_fields s t /\ responses (rs_log t) = responses (rs_log s).
Lemma si_refl : forall s, silent s s. Proof. intros. split; [apply kf_refl|reflexivity]. Qed.
Lemma si_trans : forall s t u, silent s t -> silent t u -> silent s u.
Proof. unfold silent. intros s t u (A & B) (A' & B'). split; [eapply kf_trans; eauto|congruence]. Qed.

Definition mute (s : rstate) : Prop := rs_kind s = ByFunction /\ has_id (rs_req s) && negb (rs_sent s) = false.
Lemma mute_kf : forall s t, mute s -> kept_fields s t -> mute t.
Proof.
  intros s t (A & B) K. pose proof (kf_has_id _ _ K) as E. destruct K as (K & _ & _ & _ & _ & F). split; [congruence|].
  rewrite E. destruct (has_id (rs_req s)); [|reflexivity]. cbn [andb] in *. rewrite F; [reflexivity|]. destruct (rs_sent s); auto; discriminate.
Qed.

Lemma mute_step : forall o s, mute s -> silent s (fst (rstep s o)).
Proof.
  assert (HD : forall l, Forall (fun o => forall s, mute s -> silent s (fst (rstep s o))) l ->
      forall s, mute s -> silent s (rrun s l)).
  { induction l as [|o l IH]; intros HF s Hs; [apply si_refl|]. inversion_clear HF. rewrite rrun_cons.
    pose proof (H s Hs) as N. eapply si_trans; [exact N|]. apply IH; auto. eapply mute_kf; [exact Hs|apply N]. }
  assert (HM : forall l a v, is_response v = false -> Forall (fun o => forall s, mute s -> silent s (fst (rstep s o))) l ->
      forall s, mute s -> silent s (delivered l a s (Message v))).
  { intros l a v Hv IH s Hs. unfold delivered.
    assert (M : mute (add_log s (Delivered (Message v)))) by exact Hs.
    destruct (HD l IH _ M) as (A & B). split; [exact A|]. cbn [add_log rs_log]. rewrite responses_app, B. cbn [add_log rs_log].
    rewrite responses_app. unfold responses. cbn [filter delivers]. rewrite Hv. cbn. lia. }
  assert (HE : forall l a s e, mute s -> silent s (fst (send_error (delivered l a) a s e))).
  { intros l a s e (A & B). unfold send_error. rewrite A, B. apply si_refl. }
  induction o as [svc|v|r c l a IH|e l a IH|c m d l a IH|l a IH|n d l a IH|l a IH] using rop_ind'; intros s Hs; rewrite rstep_eq; cbn [fst].
  - split; [repeat split; auto|reflexivity].
  - split; [repeat split; auto|reflexivity].
  - destruct Hs as (A & B). unfold send_result. rewrite A, B. apply si_refl.
  - apply HE; auto.
  - unfold send_error_code. destruct (rs_svc s) as [f|]; [destruct (f c m d)|]; try (apply HE; assumption). apply si_refl.
  - unfold send_no_result. destruct (rs_svc s) as [f|]; [|apply si_refl]. destruct (f _ _ _); [|apply si_refl]. cbn [fst]. apply HE; auto.
  - unfold send_notify. rewrite (proj1 Hs). destruct (rs_notify s); [|apply si_refl].
    pose proof (HM l a _ (notify_not_response (req_version (rs_req s)) n d VUndef) IH s Hs) as K. destruct a; exact K.
  - unfold send_heartbeat. rewrite (proj1 Hs). cbn [fst]. apply HM; auto.
Qed.
Lemma mute_run : forall l s, mute s -> silent s (rrun s l).
Proof.
  induction l as [|o l IH]; intros s Hs; [apply si_refl|]. rewrite rrun_cons.
  pose proof (mute_step o s Hs) as N. eapply si_trans; [exact N|]. apply IH. eapply mute_kf; [exact Hs|apply N].
Qed.

Lemma notification_silent : forall r flags ops inner a, has_id r = false ->
  responses (rs_log (rdrop (rrun (create ByFunction r flags) ops) inner a)) = 0.
Proof.
  intros r flags ops inner a H.
  assert (M : mute (create ByFunction r flags)).
  { split; [reflexivity|]. change (has_id r && true = false). rewrite H. reflexivity. }
  pose proof (mute_run ops _ M) as (K & E). unfold rdrop. destruct (rs_sent _); [exact E|].
  rewrite (proj2 (mute_step (RNoResult inner a) _ (mute_kf _ _ M K))). exact E.
Qed.

Lemma at_most_one : forall r flags ops inner a, forallb calm ops = true -> forallb calm inner = true ->
  responses (rs_log (rdrop (rrun (create ByFunction r flags) ops) inner a)) <= 1.
Proof.
  intros r flags ops inner a H1 H2. destruct (has_id r) eqn:E.
  - pose proof (rdrop_counted _ inner a (counted_run ops _ H1 (counted_create r flags E)) H2) as (_ & _ & C). rewrite C.
    destruct (rs_sent _); lia.
  - rewrite notification_silent by exact E. lia.
Qed.

(** After the response, whatever happens, no other one. *)
Lemma sent_is_final : forall s ops inner a, rs_kind s = ByFunction -> rs_sent s = true ->
  responses (rs_log (rdrop (rrun s ops) inner a)) = responses (rs_log s).
Proof.
  intros s ops inner a Hk Hs.
  assert (M : mute s) by (split; [exact Hk|rewrite Hs; apply andb_false_r]).
  pose proof (mute_run ops s M) as (K & E). unfold rdrop. destruct K as (_ & _ & _ & _ & _ & F). rewrite F by exact Hs. exact E.
Qed.

(** *** The last reference of an unanswered request *)
Lemma drop_error : forall s f e inner a, rs_kind s = ByFunction -> has_id (rs_req s) = true ->
  rs_sent s = false -> rs_svc s = Some f ->
  f (-32099)%Z (txt "The method did not produce a result") VUndef = Some e ->
  exists rest, rs_log (rdrop s inner a) =
      rs_log s ++ Delivered (Message (error_message (req_version (rs_req s)) (rq_id (rs_req s)) e)) :: rest /\
    responses rest = 0 /\ rs_sent (rdrop s inner a) = true.
Proof.
  intros s f e inner a Hk Hi Hs Hf He. unfold rdrop. rewrite Hs, rstep_eq. unfold send_no_result. rewrite Hf, He. cbn [fst].
  unfold send_error. rewrite Hk, Hi, Hs. cbn [andb negb].
  set (v := error_message _ _ e). set (s1 := add_log (set_sent s true true) (Delivered (Message v))).
  assert (M : mute s1) by (split; [exact Hk|apply andb_false_r]).
  assert (L : forall l t, exists rest, rs_log (rrun t l) = rs_log t ++ rest).
  { assert (G : forall o t, exists rest, rs_log (fst (rstep t o)) = rs_log t ++ rest).
    { assert (GD : forall l a t ev, Forall (fun o => forall t, exists rest, rs_log (fst (rstep t o)) = rs_log t ++ rest) l ->
        exists rest, rs_log (delivered l a t ev) = rs_log t ++ rest).
      { intros l b t ev H. unfold delivered. cbn [add_log rs_log].
        pose proof (rrun_rel (fun x y => exists rest, rs_log y = rs_log x ++ rest)
          (fun x => ex_intro _ [] (eq_sym (app_nil_r _)))
          (fun x y z (Hxy : exists rest, rs_log y = rs_log x ++ rest) (Hyz : exists rest, rs_log z = rs_log y ++ rest) =>
             match Hxy, Hyz with ex_intro _ r1 E1, ex_intro _ r2 E2 =>
               ex_intro _ (r1 ++ r2) (eq_trans E2 (eq_trans (f_equal (fun w => w ++ r2) E1) (eq_sym (app_assoc _ _ _)))) end)
          l H (add_log t (Delivered ev))) as (rest & E).
        rewrite E. cbn [add_log rs_log]. exists ((Delivered ev :: rest) ++ [Answered b]). rewrite <- !app_assoc. reflexivity. }
      assert (GE : forall l a t e, Forall (fun o => forall t, exists rest, rs_log (fst (rstep t o)) = rs_log t ++ rest) l ->
        exists rest, rs_log (fst (send_error (delivered l a) a t e)) = rs_log t ++ rest).
      { intros l b t e0 H. unfold send_error. destruct (rs_kind t).
        - destruct (has_id (rs_req t) && negb (rs_sent t)); [|exists []; rewrite app_nil_r; reflexivity].
          destruct (GD l b (set_sent t true true) (Message (error_message (req_version (rs_req t)) (rq_id (rs_req t)) e0)) H) as (rest & E).
          exists rest. destruct b; exact E.
        - exact (GD l b t _ H). }
      induction o as [svc|w|r c l b IH|e0 l b IH|c m d l b IH|l b IH|n d l b IH|l b IH] using rop_ind'; intros t; rewrite rstep_eq; cbn [fst].
      - exists []. rewrite app_nil_r. reflexivity.
      - exists []. rewrite app_nil_r. reflexivity.
      - unfold send_result. destruct (rs_kind t); [|exact (GD l b t _ IH)].
        destruct (has_id (rs_req t) && negb (rs_sent t)); [|exists []; rewrite app_nil_r; reflexivity].
        destruct (GD l b t (Message (result_message (req_version (rs_req t)) (rq_id (rs_req t)) r c)) IH) as (rest & E).
        exists rest. destruct b; exact E.
      - apply GE; auto.
      - unfold send_error_code. destruct (rs_svc t) as [g|]; [destruct (g c m d)|]; try (apply GE; assumption).
        exists []. rewrite app_nil_r. reflexivity.
      - unfold send_no_result. destruct (rs_svc t) as [g|]; [destruct (g _ _ _)|]; cbn [fst]; try (apply GE; assumption);
          exists []; rewrite app_nil_r; reflexivity.
      - unfold send_notify. destruct (rs_kind t); [|exact (GD l b t _ IH)].
        destruct (rs_notify t); [|exists []; rewrite app_nil_r; reflexivity].
        destruct (GD l b t (Message (format_notify (req_version (rs_req t)) n d VUndef)) IH) as (rest & E).
        exists rest. destruct b; exact E.
      - unfold send_heartbeat. destruct (rs_kind t); exact (GD l b t _ IH). }
    induction l as [|o l IH]; intros t; [exists []; rewrite app_nil_r; reflexivity|]. rewrite rrun_cons.
    destruct (G o t) as (r1 & E1). destruct (IH (fst (rstep t o))) as (r2 & E2). exists (r1 ++ r2). rewrite E2, E1, app_assoc. reflexivity. }
  destruct (L inner s1) as (rest & E). destruct (mute_run inner s1 M) as (K & N).
  exists (rest ++ [Answered a]).
  assert (EL : rs_log (delivered inner a (set_sent s true true) (Message v)) = rs_log s ++ Delivered (Message v) :: rest ++ [Answered a]).
  { unfold delivered. fold s1. cbn [add_log rs_log]. rewrite E. unfold s1 at 1. cbn [add_log set_sent rs_log]. rewrite <- !app_assoc. reflexivity. }
  assert (ES : rs_sent (delivered inner a (set_sent s true true) (Message v)) = true).
  { unfold delivered. fold s1. cbn [add_log rs_sent]. apply K. reflexivity. }
  assert (R : responses (rest ++ [Answered a]) = 0).
  { rewrite E, responses_app in N. rewrite responses_app. unfold responses at 2. cbn. lia. }
  split; [|split; [exact R|]]; destruct a; cbn [fst]; auto.
Qed.

(** *** The server *)
Lemma svc_step : forall o s, no_init o = true -> rs_svc (fst (rstep s o)) = rs_svc s.
Proof.
  assert (HD : forall l a, Forall (fun o => forall s, no_init o = true -> rs_svc (fst (rstep s o)) = rs_svc s) l ->
    forallb no_init l = true -> forall s e, rs_svc (delivered l a s e) = rs_svc s).
  { intros l a H Hn s e. unfold delivered. cbn [add_log rs_svc]. change (rs_svc s) with (rs_svc (add_log s (Delivered e))).
    generalize (add_log s (Delivered e)). clear s e.
    induction l as [|o l IH]; intros s; [reflexivity|]. cbn [forallb] in Hn. apply andb_prop in Hn. destruct Hn as [N1 N2].
    inversion_clear H. rewrite rrun_cons, (IH H1 N2), H0; auto. }
  assert (HE : forall l a s e, (forall s e, rs_svc (delivered l a s e) = rs_svc s) -> rs_svc (fst (send_error (delivered l a) a s e)) = rs_svc s).
  { intros l a s e H. unfold send_error. destruct (rs_kind s); [|cbn [fst post_send set_notify set_sent rs_svc]; apply H].
    destruct (has_id (rs_req s) && negb (rs_sent s)); [|reflexivity]. destruct a; cbn [fst post_send set_notify set_sent rs_svc]; rewrite H; reflexivity. }
  induction o as [svc|w|r c l b IH|e0 l b IH|c m d l b IH|l b IH|n d l b IH|l b IH] using rop_ind'; cbn [no_init]; intros s Hn; try discriminate; rewrite rstep_eq; cbn [fst].
  - reflexivity.
  - pose proof (HD l b IH Hn) as D. unfold send_result. destruct (rs_kind s); [|cbn [fst post_send set_notify set_sent rs_svc]; apply D].
    destruct (has_id (rs_req s) && negb (rs_sent s)); [|reflexivity]. destruct b; cbn [fst post_send set_notify set_sent rs_svc]; rewrite D; reflexivity.
  - apply HE. apply HD; auto.
  - pose proof (HD l b IH Hn) as D. unfold send_error_code. destruct (rs_svc s) as [g|] eqn:E; [destruct (g c m d)|]; try (rewrite HE; assumption). exact E.
  - pose proof (HD l b IH Hn) as D. unfold send_no_result. destruct (rs_svc s) as [g|] eqn:E; [destruct (g _ _ _)|]; cbn [fst]; try (rewrite HE; assumption); exact E.
  - pose proof (HD l b IH Hn) as D. unfold send_notify. destruct (rs_kind s); [|apply D].
    destruct (rs_notify s); [|reflexivity]. destruct b; cbn [fst post_send set_notify set_sent rs_svc]; rewrite D; reflexivity.
  - pose proof (HD l b IH Hn) as D. unfold send_heartbeat. destruct (rs_kind s); apply D.
Qed.
Lemma svc_run : forall l s, forallb no_init l = true -> rs_svc (rrun s l) = rs_svc s.
Proof.
  induction l as [|o l IH]; intros s H; [reflexivity|]. cbn [forallb] in H. apply andb_prop in H. destruct H.
  rewrite rrun_cons, IH, svc_step; auto.
Qed.

Section Exec.
Variable P : rop -> bool.
Hypothesis PE : forall c m d inner a, P (RErrorCode c m d inner a) = forallb P inner.

Lemma reg_find_in : forall reg name m, reg_find reg name = Some m -> exists n, In (n, m) reg.
Proof.
  intros reg name m H. unfold reg_find in H. destruct (find _ reg) as [[n x]|] eqn:E; [|discriminate].
  injection H as <-. apply find_some in E. exists n. apply E.
Qed.

Lemma exec_try_history : forall sv p s, server_ok P sv -> forallb P (fst p) = true ->
  exists l, forallb P l = true /\ fst (exec_try sv p s) = rrun s (RInit (sv_format sv) :: l).
Proof.
  intros sv p s (Hm & Hp & _) Hq. unfold exec_try. set (s0 := fst (rstep s (RInit (sv_format sv)))).
  assert (SE : forall code message data t, exists l, forallb P l = true /\
    fst (let '(t', thrown) := rstep t (RErrorCode code message data (fst p) (snd p)) in (t', if thrown : bool then @Raises unit None else Returns tt)) = rrun t l).
  { intros. exists [RErrorCode code message data (fst p) (snd p)]. split; [cbn [forallb]; rewrite PE, Hq; reflexivity|].
    rewrite rrun_cons. destruct (rstep t _). reflexivity. }
  assert (W : forall l t, (exists l', forallb P l' = true /\ t = rrun (rrun s0 l) l') -> forallb P l = true ->
    exists l', forallb P l' = true /\ t = rrun s (RInit (sv_format sv) :: l')).
  { intros l t (l' & H1 & ->) H2. exists (l ++ l'). rewrite forallb_app, H1, H2. split; [reflexivity|].
    rewrite rrun_cons, rrun_app. reflexivity. }
  match goal with |- context [if ?c then _ else _] => destruct c end.
  - destruct (reg_find (sv_reg sv) _) as [m|] eqn:E.
    + destruct (m (rs_req s0)) as [l e] eqn:Em. cbn [fst]. apply reg_find_in in E. destruct E as (n & E).
      eapply Forall_forall in Hm; [|exact E]. specialize (Hm (rs_req s0)). cbn [snd] in Hm. rewrite Em in Hm. cbn [fst] in Hm.
      exists l. split; [exact Hm|]. rewrite rrun_cons. reflexivity.
    + destruct (sv_proxy sv) as [h|] eqn:Eh.
      * cbn [hook_ok] in Hp. specialize (Hp (rs_req s0)). destruct (h (rs_req s0)) as [l e]. cbn [fst] in Hp.
        destruct e as [[]|w].
        -- cbn [fst]. apply (W l); [exists []; split; reflexivity|exact Hp].
        -- apply (W l); [|exact Hp]. apply SE.
        -- cbn [fst]. apply (W l); [exists []; split; reflexivity|exact Hp].
      * apply (W []); [|reflexivity]. apply SE.
  - apply (W []); [|reflexivity]. apply SE.
Qed.

Lemma exec_history : forall sv p ph pi s s', server_ok P sv ->
  forallb P (fst p) = true -> forallb P (fst ph) = true -> forallb P (fst pi) = true ->
  exec sv p ph pi s = Some s' ->
  exists l, forallb P l = true /\ s' = rrun s (RInit (sv_format sv) :: l).
Proof.
  intros sv p ph pi s s' Hsv Hp Hph Hpi H. unfold exec in H.
  destruct (exec_try_history sv p s Hsv Hp) as (l & Hl & E).
  destruct (exec_try sv p s) as [s1 e]. cbn [fst] in E.
  destruct e as [u|what]; [injection H as <-; exists l; split; auto|].
  assert (A : forall t x, (let '(t', thrown) := rstep t (internal_error what (fst pi) (snd pi)) in if thrown : bool then None else Some t') = Some x ->
     exists m, forallb P m = true /\ x = rrun t m).
  { intros t x G. exists [internal_error what (fst pi) (snd pi)]. split; [cbn [forallb]; unfold internal_error; rewrite PE, Hpi; reflexivity|].
    rewrite rrun_cons. destruct (rstep t _) as [t' []]; [discriminate|]. injection G as <-. reflexivity. }
  assert (F : forall t x, (let '(t', thrown) := rstep t (internal_error what (fst ph) (snd ph)) in
       if thrown : bool then let '(t', thrown) := rstep t' (internal_error what (fst pi) (snd pi)) in if thrown : bool then None else Some t' else Some t') = Some x ->
     exists m, forallb P m = true /\ x = rrun t m).
  { intros t x G. destruct (rstep t (internal_error what (fst ph) (snd ph))) as [t' thr] eqn:Et.
    assert (E1 : t' = rrun t [internal_error what (fst ph) (snd ph)]) by (rewrite rrun_cons, Et; reflexivity).
    assert (P1 : forallb P [internal_error what (fst ph) (snd ph)] = true) by (cbn [forallb]; unfold internal_error; rewrite PE, Hph; reflexivity).
    destruct thr.
    - apply A in G. destruct G as (m & G1 & G2). exists ([internal_error what (fst ph) (snd ph)] ++ m).
      rewrite forallb_app, P1, G1. split; [reflexivity|]. rewrite rrun_app, <- E1. exact G2.
    - injection G as <-. exists [internal_error what (fst ph) (snd ph)]. split; auto. }
  assert (W : forall l' x, forallb P l' = true -> (exists m, forallb P m = true /\ x = rrun (rrun s1 l') m) ->
     exists m, forallb P m = true /\ x = rrun s (RInit (sv_format sv) :: m)).
  { intros l' x Hl' (m & Hm & ->). exists (l ++ l' ++ m). rewrite !forallb_app, Hl, Hl', Hm. split; [reflexivity|].
    rewrite E, !rrun_cons, !rrun_app. reflexivity. }
  destruct (sv_handler sv) as [h|] eqn:Eh.
  - destruct Hsv as (_ & _ & Hh). rewrite Eh in Hh. specialize (Hh (rs_req s1)). destruct (h (rs_req s1)) as [l2 e2]. cbn [fst] in Hh.
    destruct e2 as [[]|w].
    + injection H as <-. apply (W l2); auto. exists []. split; reflexivity.
    + apply (W l2); auto.
    + apply (W l2); auto.
  - apply (W []); auto.
Qed.
End Exec.

Lemma exec_one : forall sv p ph pi r flags later inner a s,
  has_id r = true -> no_result_formats (sv_format sv) ->
  server_ok calm sv -> forallb calm (fst p) = true -> forallb calm (fst ph) = true -> forallb calm (fst pi) = true ->
  server_ok no_init sv -> forallb no_init (fst p) = true -> forallb no_init (fst ph) = true -> forallb no_init (fst pi) = true ->
  forallb calm later = true -> forallb no_init later = true -> forallb calm inner = true ->
  exec sv p ph pi (create ByFunction r flags) = Some s ->
  responses (rs_log (rdrop (rrun s later) inner a)) = 1.
Proof.
  intros sv p ph pi r flags later inner a s Hid (e & He) C1 C2 C3 C4 N1 N2 N3 N4 L1 L2 Hi H.
  set (both := fun o => calm o && no_init o).
  destruct (exec_history calm (fun c m d i b => eq_refl) sv p ph pi _ _ C1 C2 C3 C4 H) as (l & Hl & El).
  destruct (exec_history no_init (fun c m d i b => eq_refl) sv p ph pi _ _ N1 N2 N3 N4 H) as (l' & Hl' & El').
  assert (Cs : counted (rrun s later)).
  { apply counted_run; auto. rewrite El. apply counted_run; [|apply counted_create; exact Hid]. cbn [forallb calm]. exact Hl. }
  assert (Sv : rs_svc (rrun s later) = Some (sv_format sv)).
  { rewrite svc_run by exact L2. rewrite El', rrun_cons, svc_run by exact Hl'. reflexivity. }
  destruct (rs_sent (rrun s later)) eqn:Es.
  - unfold rdrop. rewrite Es. destruct Cs as (_ & _ & C). rewrite Es in C. exact C.
  - pose proof (rdrop_counted _ inner a Cs Hi) as (_ & _ & C). rewrite C.
    destruct Cs as (K & I & _). destruct (drop_error _ _ _ inner a K I Es Sv He) as (rest & _ & _ & S). rewrite S. reflexivity.
Qed.

(** *** Identifiers of responses *)
Lemma response_ids_step : forall id o s, rq_id (rs_req s) = id ->
  (forall v, In (Delivered (Message v)) (rs_log s) -> is_response v = true -> value_member v k_id = id) ->
  (forall v, In (Delivered (Message v)) (rs_log (fst (rstep s o))) -> is_response v = true -> value_member v k_id = id).
Proof.
  intros id.
  pose (ok := fun s => rq_id (rs_req s) = id /\
    (forall v, In (Delivered (Message v)) (rs_log s) -> is_response v = true -> value_member v k_id = id)).
  assert (HL : forall s e, ok s -> (forall v, e = Delivered (Message v) -> is_response v = true -> value_member v k_id = id) -> ok (add_log s e)).
  { intros s e (A & B) H. split; [exact A|]. intros v Hin. cbn [add_log rs_log] in Hin. apply in_app_or in Hin.
    destruct Hin as [Hin|[Hin|[]]]; auto. }
  assert (HD : forall l a s e, Forall (fun o => forall s, ok s -> ok (fst (rstep s o))) l -> ok s ->
     (forall v, e = Message v -> is_response v = true -> value_member v k_id = id) -> ok (delivered l a s e)).
  { intros l a s e HF Hs He. unfold delivered. apply HL; [|discriminate].
    assert (K : forall l s, Forall (fun o => forall s, ok s -> ok (fst (rstep s o))) l -> ok s -> ok (rrun s l)).
    { clear. induction l as [|o l IH]; intros s HF Hs; [exact Hs|]. inversion_clear HF. rewrite rrun_cons. apply IH; auto. }
    apply K; auto. apply HL; auto. intros v E. injection E as ->. auto. }
  assert (HE : forall l a s e, Forall (fun o => forall s, ok s -> ok (fst (rstep s o))) l -> ok s -> ok (fst (send_error (delivered l a) a s e))).
  { intros l a s e HF Hs. unfold send_error. destruct (rs_kind s).
    - destruct (has_id (rs_req s) && negb (rs_sent s)); [|exact Hs].
      assert (K : ok (delivered l a (set_sent s true true) (Message (error_message (req_version (rs_req s)) (rq_id (rs_req s)) e)))).
      { apply HD; auto. intros v E _. injection E as <-. rewrite error_member_id. apply Hs. }
      destruct a; exact K.
    - apply HD; auto. discriminate. }
  assert (M : forall o s, ok s -> ok (fst (rstep s o))).
  { induction o as [svc|w|r c l b IH|e0 l b IH|c m d l b IH|l b IH|n d l b IH|l b IH] using rop_ind'; intros s Hs; rewrite rstep_eq; cbn [fst].
    - exact Hs.
    - exact Hs.
    - unfold send_result. destruct (rs_kind s); [|apply HD; auto; discriminate].
      destruct (has_id (rs_req s) && negb (rs_sent s)); [|exact Hs].
      assert (K : ok (delivered l b s (Message (result_message (req_version (rs_req s)) (rq_id (rs_req s)) r c)))).
      { apply HD; auto. intros v E _. injection E as <-. rewrite result_member_id. apply Hs. }
      destruct b; exact K.
    - apply HE; auto.
    - unfold send_error_code. destruct (rs_svc s) as [g|]; [destruct (g c m d)|]; try (apply HE; assumption). exact Hs.
    - unfold send_no_result. destruct (rs_svc s) as [g|]; [destruct (g _ _ _)|]; cbn [fst]; try (apply HE; assumption); exact Hs.
    - unfold send_notify. destruct (rs_kind s); [|apply HD; auto; discriminate].
      destruct (rs_notify s); [|exact Hs].
      assert (K : ok (delivered l b s (Message (format_notify (req_version (rs_req s)) n d VUndef)))).
      { apply HD; auto. intros v E Hr. injection E as <-. rewrite notify_not_response in Hr. discriminate. }
      destruct b; exact K.
    - unfold send_heartbeat. destruct (rs_kind s); apply HD; auto; try discriminate. intros v E. injection E as <-. discriminate. }
  intros o s E H. exact (proj2 (M o s (conj E H))).
Qed.
Lemma response_ids : forall kind r flags ops inner a v,
  In (Delivered (Message v)) (rs_log (rdrop (rrun (create kind r flags) ops) inner a)) ->
  is_response v = true -> value_member v k_id = rq_id r.
Proof.
  intros kind r flags ops inner a.
  assert (G : forall l s, rq_id (rs_req s) = rq_id r ->
    (forall v, In (Delivered (Message v)) (rs_log s) -> is_response v = true -> value_member v k_id = rq_id r) ->
    rq_id (rs_req (rrun s l)) = rq_id r /\
    forall v, In (Delivered (Message v)) (rs_log (rrun s l)) -> is_response v = true -> value_member v k_id = rq_id r).
  { induction l as [|o l IH]; intros s E H; [split; auto|]. rewrite rrun_cons. apply IH.
    - rewrite <- E. apply (step_fields o s).
    - apply response_ids_step; auto. }
  destruct (G ops (create kind r flags) eq_refl) as (E & H); [intros v []|].
  unfold rdrop. destruct (rs_sent _); [exact H|]. apply response_ids_step; auto.
Qed.

(** *** Notifications *)
Lemma exchanges_app : forall l m, exchanges (l ++ m) = exchanges l ++ exchanges m.
Proof. induction l as [|[v a] l IH]; intros m; [reflexivity|]. cbn [exchanges app]. rewrite IH. reflexivity. Qed.
Lemma flag_bit : forall flags n, (0 <= n)%Z -> has_flag flags (2 ^ n) = Z.testbit flags n.
Proof.
  intros flags n N. unfold has_flag. destruct (Z.testbit flags n) eqn:E.
  - destruct (Z.eqb_spec (Z.land flags (2 ^ n)) 0) as [H|H]; [|reflexivity].
    assert (K : Z.testbit (Z.land flags (2 ^ n)) n = true) by (rewrite Z.land_spec, E, Z.pow2_bits_true by exact N; reflexivity). rewrite H, Z.bits_0 in K. discriminate.
  - destruct (Z.eqb_spec (Z.land flags (2 ^ n)) 0) as [H|H]; [reflexivity|]. destruct H. apply Z.bits_inj'. intros i Hi. rewrite Z.land_spec, Z.bits_0.
    destruct (Z.eq_dec i n) as [->|D]; [rewrite E; reflexivity|]. rewrite Z.pow2_bits_false by congruence. apply andb_false_r.
Qed.
Lemma flag_pre : forall flags, has_flag flags f_pre = Z.testbit flags 0.
Proof. intros. apply (flag_bit flags 0). discriminate. Qed.
Lemma flag_post : forall flags, has_flag flags f_post = Z.testbit flags 1.
Proof. intros. apply (flag_bit flags 1). discriminate. Qed.
Lemma may_notify_app : forall flags l v a, may_notify flags (l ++ [(v, a)]) =
  match a with
  | Throws => may_notify flags l
  | Accepts b => if is_response v then Z.testbit flags 1 && b else if is_notification v then b else may_notify flags l
  end.
Proof. intros. unfold may_notify. rewrite fold_left_app. reflexivity. Qed.

(** The state after flat operations, by what was exchanged: every notification
    was allowed by the exchanges before it. *)
Definition allowed (flags : Z) (ps : list (value * answer)) : Prop :=
  forall ps1 v a ps2, ps = ps1 ++ (v, a) :: ps2 -> is_notification v = true -> may_notify flags ps1 = true.
Definition flat_state (s : rstate) (ps : list (value * answer)) : Prop :=
  rs_kind s = ByFunction /\ rs_log s = exchanges ps /\ rs_notify s = may_notify (rs_flags s) ps /\ allowed (rs_flags s) ps.

Lemma allowed_app : forall flags ps v a, allowed flags ps -> (is_notification v = true -> may_notify flags ps = true) -> allowed flags (ps ++ [(v, a)]).
Proof.
  intros flags ps v a H Hv ps1 w b ps2 E Hw.
  assert (rev_case : ps2 = [] \/ exists x l, ps2 = l ++ [x]).
  { destruct ps2 as [|y ps2']; [left; reflexivity|right]. destruct (exists_last (l := y :: ps2')) as (l & x & E2); [discriminate|]. eauto. }
  destruct rev_case as [->|(x & l & ->)].
  - apply app_inj_tail in E. destruct E as (-> & E). injection E as -> ->. auto.
  - replace (ps1 ++ (w, b) :: l ++ [x]) with ((ps1 ++ (w, b) :: l) ++ [x]) in E by (rewrite <- app_assoc; reflexivity).
    apply app_inj_tail in E. destruct E as (-> & _). eapply H; eauto.
Qed.

Lemma flat_step : forall o s ps, flat o = true -> flat_state s ps -> exists ps', flat_state (fst (rstep s o)) (ps ++ ps').
Proof.
  intros o s ps Hf (K & E & N & A).
  assert (HI : exists ps', flat_state s (ps ++ ps')) by (exists []; rewrite app_nil_r; repeat split; auto).
  assert (EX : forall v a, (rs_log s ++ [Delivered (Message v)]) ++ [Answered a] = exchanges (ps ++ [(v, a)])).
  { intros v a. rewrite exchanges_app, E, <- app_assoc. reflexivity. }
  assert (HE : forall a e, exists ps', flat_state (fst (send_error (delivered [] a) a s e)) (ps ++ ps')).
  { intros a e. unfold send_error. rewrite K. destruct (has_id (rs_req s)) eqn:Hi; cbn [andb]; [|exact HI].
    destruct (rs_sent s); cbn [negb]; [exact HI|]. set (v := error_message _ _ e). exists [(v, a)].
    assert (V1 : is_response v = true) by (unfold v; rewrite error_is_response; exact Hi).
    assert (V2 : is_notification v = false) by apply error_not_notification.
    assert (AL : allowed (rs_flags s) (ps ++ [(v, a)])) by (apply allowed_app; [exact A|rewrite V2; discriminate]).
    destruct a as [b|]; cbn [fst]; (split; [exact K|split; [apply EX|split; [|exact AL]]]); rewrite may_notify_app, ?V1, <- ?flag_post; auto. }
  assert (HR : forall a r c, exists ps', flat_state (fst (send_result (delivered [] a) a s r c)) (ps ++ ps')).
  { intros a r c. unfold send_result. rewrite K. destruct (has_id (rs_req s)) eqn:Hi; cbn [andb]; [|exact HI].
    destruct (rs_sent s); cbn [negb]; [exact HI|]. set (v := result_message _ _ r c). exists [(v, a)].
    assert (V1 : is_response v = true) by (unfold v; rewrite result_is_response; exact Hi).
    assert (V2 : is_notification v = false) by apply result_not_notification.
    assert (AL : allowed (rs_flags s) (ps ++ [(v, a)])) by (apply allowed_app; [exact A|rewrite V2; discriminate]).
    destruct a as [b|]; cbn [fst]; (split; [exact K|split; [apply EX|split; [|exact AL]]]); rewrite may_notify_app, ?V1, <- ?flag_post; auto. }
  destruct o as [svc|w|r c l b|e0 l b|c m d l b|l b|n d l b|l b]; rewrite rstep_eq; cbn [fst];
    try (destruct l; [|discriminate Hf]).
  - exact HI.
  - exact HI.
  - apply HR.
  - apply HE.
  - unfold send_error_code. destruct (rs_svc s) as [g|]; [destruct (g c m d)|]; try apply HE. exact HI.
  - unfold send_no_result. destruct (rs_svc s) as [g|]; [destruct (g _ _ _)|]; cbn [fst]; try apply HE; exact HI.
  - unfold send_notify. rewrite K. destruct (rs_notify s) eqn:En; [|exact HI]. set (v := format_notify _ n d VUndef). exists [(v, b)].
    assert (V1 : is_response v = false) by apply notify_not_response.
    assert (V2 : is_notification v = true) by apply notify_notification.
    assert (AL : allowed (rs_flags s) (ps ++ [(v, b)])) by (apply allowed_app; auto).
    destruct b as [b|]; cbn [fst]; (split; [exact K|split; [apply EX|split; [|exact AL]]]); rewrite may_notify_app, ?V1, ?V2; auto.
    exact (eq_trans En N).
  - unfold send_heartbeat. rewrite K. cbn [fst]. exists [(VUndef, b)].
    assert (AL : allowed (rs_flags s) (ps ++ [(VUndef, b)])) by (apply allowed_app; [exact A|discriminate]).
    split; [exact K|split; [apply EX|split; [|exact AL]]]. rewrite may_notify_app. destruct b; exact N.
Qed.
Lemma flat_run : forall l s ps, forallb flat l = true -> flat_state s ps -> exists ps', flat_state (rrun s l) (ps ++ ps').
Proof.
  induction l as [|o l IH]; intros s ps H Hs; [exists []; rewrite app_nil_r; exact Hs|].
  cbn [forallb] in H. apply andb_prop in H. destruct H as [H1 H2]. rewrite rrun_cons.
  destruct (flat_step o s ps H1 Hs) as (p1 & S1). destruct (IH _ _ H2 S1) as (p2 & S2). exists (p1 ++ p2). rewrite app_assoc. exact S2.
Qed.
Lemma flat_create : forall r flags, flat_state (create ByFunction r flags) [].
Proof. intros. split; [reflexivity|]. split; [reflexivity|]. split; [apply flag_pre|]. intros ps1 v a ps2 E. destruct ps1; discriminate. Qed.

Lemma notify_when_allowed : forall r flags ops, forallb flat ops = true ->
  exists ps, rs_log (rrun (create ByFunction r flags) ops) = exchanges ps /\
    (forall ps1 v a ps2, ps = ps1 ++ (v, a) :: ps2 -> is_notification v = true -> may_notify flags ps1 = true) /\
    forall name data a, exists v, is_notification v = true /\ value_member v k_method = VStr None name /\ value_member v k_params = data /\
      rs_log (fst (rstep (rrun (create ByFunction r flags) ops) (RNotify name data [] a))) =
      exchanges (if may_notify flags ps then ps ++ [(v, a)] else ps).
Proof.
  intros r flags ops H. destruct (flat_run ops _ _ H (flat_create r flags)) as (ps & K & E & N & A).
  pose proof (run_fields ops (create ByFunction r flags)) as (_ & _ & _ & _ & EF & _).
  cbn [app] in *. change (rs_flags (create ByFunction r flags)) with flags in EF. rewrite EF in N, A.
  exists ps. split; [exact E|]. split; [exact A|]. intros name data a.
  set (s := rrun (create ByFunction r flags) ops) in *.
  exists (format_notify (req_version (rs_req s)) name data VUndef).
  split; [apply notify_notification|].
  split; [unfold format_notify; rewrite member_sets; destruct (req_version _); reflexivity|].
  split; [unfold format_notify; rewrite member_sets; destruct (req_version _); reflexivity|].
  rewrite rstep_eq. unfold send_notify. rewrite K, N. destruct (may_notify flags ps); [|exact E].
  rewrite exchanges_app. destruct a; cbn [fst delivered set_notify add_log rrun fold_left rs_log]; rewrite E, <- app_assoc; reflexivity.
Qed.

(** Once turned off, only an accepted response turns notifications on. *)
Lemma stays_off : forall flags ps1 ps2, allowed flags (ps1 ++ ps2) -> may_notify flags ps1 = false ->
  may_notify flags (ps1 ++ ps2) = true ->
  Z.testbit flags 1 = true /\ exists v, In (v, Accepts true) ps2 /\ is_response v = true.
Proof.
  intros flags ps1 ps2. induction ps2 as [|[v a] ps2 IH] using rev_ind; intros A Hf Ht.
  - rewrite app_nil_r in Ht. congruence.
  - rewrite app_assoc in Ht, A.
    assert (A' : allowed flags (ps1 ++ ps2)).
    { intros q1 w b q2 E. apply (A q1 w b (q2 ++ [(v, a)])). rewrite E, <- app_assoc. reflexivity. }
    assert (G : may_notify flags (ps1 ++ ps2) = true -> Z.testbit flags 1 = true /\ exists v0, In (v0, Accepts true) (ps2 ++ [(v, a)]) /\ is_response v0 = true).
    { intros G. destruct (IH A' Hf G) as (F & w & Hw & Hr). split; [exact F|]. exists w. split; [apply in_or_app; auto|exact Hr]. }
    rewrite may_notify_app in Ht. destruct a as [b|]; [|auto].
    destruct (is_response v) eqn:Er.
    + apply andb_prop in Ht. destruct Ht as (F & ->). split; [exact F|]. exists v. split; [apply in_or_app; right; left; reflexivity|exact Er].
    + destruct (is_notification v) eqn:En; [|auto]. apply G. apply (A _ v (Accepts b) []); auto.
Qed.

Lemma refused_stays : forall r flags ops ps ps1 ps2 ps3 n n' a, forallb flat ops = true ->
  rs_log (rrun (create ByFunction r flags) ops) = exchanges ps ->
  ps = ps1 ++ (n, Accepts false) :: ps2 ++ (n', a) :: ps3 -> is_notification n = true -> is_response n = false -> is_notification n' = true ->
  Z.testbit flags 1 = true /\ exists v, In (v, Accepts true) ps2 /\ is_response v = true.
Proof.
  intros r flags ops ps ps1 ps2 ps3 n n' a H E Eps Hn Hnr Hn'.
  destruct (notify_when_allowed r flags ops H) as (ps' & E' & A & _).
  assert (Epp : ps' = ps).
  { rewrite E in E'. clear - E'. revert ps' E'. induction ps as [|[v a] ps IH]; intros [|[v' a'] ps'] E; try discriminate; auto.
    cbn [exchanges] in E. injection E as -> -> E. f_equal. auto. }
  subst ps'.
  assert (T : may_notify flags ((ps1 ++ [(n, Accepts false)]) ++ ps2) = true).
  { apply (A _ n' a ps3); auto. rewrite Eps, <- !app_assoc. reflexivity. }
  eapply stays_off; [|exact (eq_trans (may_notify_app flags ps1 n (Accepts false)) ltac:(rewrite Hnr, Hn; reflexivity))|exact T].
  intros q1 w b q2 Eq. apply (A q1 w b (q2 ++ (n', a) :: ps3)).
  rewrite Eps. replace (ps1 ++ (n, Accepts false) :: ps2 ++ (n', a) :: ps3) with (((ps1 ++ [(n, Accepts false)]) ++ ps2) ++ (n', a) :: ps3)
    by (rewrite <- !app_assoc; reflexivity).
  rewrite Eq, <- app_assoc. reflexivity.
Qed.

Lemma no_pre_flag : forall r flags ops ps ps1 ps2 n a, forallb flat ops = true -> Z.testbit flags 0 = false ->
  rs_log (rrun (create ByFunction r flags) ops) = exchanges ps -> ps = ps1 ++ (n, a) :: ps2 -> is_notification n = true ->
  Z.testbit flags 1 = true /\ exists v, In (v, Accepts true) ps1 /\ is_response v = true.
Proof.
  intros r flags ops ps ps1 ps2 n a H Hp E Eps Hn.
  destruct (notify_when_allowed r flags ops H) as (ps' & E' & A & _).
  assert (Epp : ps' = ps).
  { rewrite E in E'. clear - E'. revert ps' E'. induction ps as [|[v a] ps IH]; intros [|[v' a'] ps'] E; try discriminate; auto.
    cbn [exchanges] in E. injection E as -> -> E. f_equal. auto. }
  subst ps'. apply (stays_off flags [] ps1); [|exact Hp|apply (A _ _ _ _ Eps Hn)].
  intros q1 w b q2 Eq. apply (A q1 w b (q2 ++ (n, a) :: ps2)). cbn [app] in Eq. rewrite Eps, Eq, <- app_assoc. reflexivity.
Qed.

(** *** Methods *)
Lemma reg_find_add : forall reg name m n, reg_find (reg_add reg name m) n =
  match reg_find reg n with Some x => Some x | None => if beqb name n then Some m else None end.
Proof.
  intros. unfold reg_add. destruct (reg_find reg name) as [x|] eqn:E.
  - destruct (reg_find reg n) eqn:En; [reflexivity|]. destruct (beqb name n) eqn:B; [|reflexivity]. apply beqb_eq in B. subst. congruence.
  - unfold reg_find in *. cbn [find fst snd]. destruct (beqb name n) eqn:B; [|destruct (find (fun m0 => beqb (fst m0) n) reg); reflexivity].
    apply beqb_eq in B. subst. destruct (find (fun m0 => beqb (fst m0) n) reg); [discriminate|reflexivity].
Qed.
Lemma reg_find_remove : forall reg name n, reg_find (reg_remove reg name) n = if beqb name n then None else reg_find reg n.
Proof.
  intros. unfold reg_find, reg_remove. induction reg as [|[k m] reg IH]; cbn [filter find fst snd]; [destruct (beqb name n); reflexivity|].
  destruct (beqb k name) eqn:B; cbn [negb].
  - apply beqb_eq in B. subst k. rewrite IH. destruct (beqb name n); reflexivity.
  - cbn [find fst]. destruct (beqb k n) eqn:B2; [|exact IH]. apply beqb_eq in B2. subst k.
    destruct (beqb name n) eqn:B3; [|reflexivity]. apply beqb_eq in B3. subst. rewrite (proj2 (beqb_eq n n) eq_refl) in B. discriminate.
Qed.
Lemma beqb_same : forall k, beqb k k = true. Proof. intros. apply beqb_eq. reflexivity. Qed.

Lemma registry : forall l name m, reg_find (reg_run l) name = Some m <->
  exists l1 l2, l = l1 ++ GAdd name m :: l2 /\ reg_find (reg_run l1) name = None /\ Forall (fun o => ~ removes name o) l2.
Proof.
  intros l name. induction l as [|o l IH] using rev_ind; intros m.
  - split; [discriminate|]. intros (l1 & l2 & E & _). destruct l1; discriminate.
  - assert (ER : reg_run (l ++ [o]) = reg_step (reg_run l) o) by (unfold reg_run; rewrite fold_left_app; reflexivity).
    rewrite ER.
    assert (Back : forall l1 l2, l ++ [o] = l1 ++ GAdd name m :: l2 ->
      (l2 = [] /\ l = l1 /\ o = GAdd name m) \/ exists l3, l2 = l3 ++ [o] /\ l = l1 ++ GAdd name m :: l3).
    { intros l1 l2 E. destruct l2 as [|y l2']; [left|right].
      - apply app_inj_tail in E. destruct E; auto.
      - destruct (exists_last (l := y :: l2')) as (l3 & x & E2); [discriminate|]. rewrite E2 in E.
        replace (l1 ++ GAdd name m :: l3 ++ [x]) with ((l1 ++ GAdd name m :: l3) ++ [x]) in E by (rewrite <- app_assoc; reflexivity).
        apply app_inj_tail in E. destruct E as (-> & ->). exists l3. split; auto. }
    destruct o as [n x|n|]; cbn [reg_step].
    + rewrite reg_find_add. destruct (reg_find (reg_run l) name) as [y|] eqn:E.
      * split.
        -- intros H. injection H as <-. destruct (proj1 (IH y) eq_refl) as (l1 & l2 & -> & N & F).
           exists l1, (l2 ++ [GAdd n x]). split; [rewrite <- app_assoc; reflexivity|]. split; [exact N|]. apply Forall_app. split; auto.
        -- intros (l1 & l2 & E2 & N & F). destruct (Back l1 l2 E2) as [(-> & -> & _)|(l3 & -> & ->)].
           ++ congruence.
           ++ apply Forall_app in F. destruct F as (F & _). apply IH. eauto.
      * destruct (beqb n name) eqn:B.
        -- apply beqb_eq in B. subst n. split.
           ++ intros H. injection H as <-. exists l, []. split; [reflexivity|]. split; [exact E|constructor].
           ++ intros (l1 & l2 & E2 & N & F). destruct (Back l1 l2 E2) as [(-> & -> & Eo)|(l3 & -> & ->)].
              ** injection Eo as ->. reflexivity.
              ** apply Forall_app in F. destruct F as (F & _).
                 exfalso. assert (X : None = Some m) by (apply IH; exists l1, l3; auto). discriminate.
        -- split; [discriminate|]. intros (l1 & l2 & E2 & N & F). destruct (Back l1 l2 E2) as [(-> & -> & Eo)|(l3 & -> & ->)].
           ++ injection Eo as -> ->. rewrite beqb_same in B. discriminate.
           ++ apply Forall_app in F. destruct F as (F & _). assert (X : None = Some m) by (apply IH; exists l1, l3; auto). discriminate.
    + rewrite reg_find_remove. destruct (beqb n name) eqn:B.
      * apply beqb_eq in B. subst n. split; [discriminate|]. intros (l1 & l2 & E2 & N & F).
        destruct (Back l1 l2 E2) as [(_ & _ & Eo)|(l3 & -> & ->)]; [discriminate|].
        apply Forall_app in F. destruct F as (_ & F). inversion_clear F. exfalso. apply H. reflexivity.
      * rewrite IH. split.
        -- intros (l1 & l2 & -> & N & F). exists l1, (l2 ++ [GRemove n]). split; [rewrite <- app_assoc; reflexivity|]. split; [exact N|].
           apply Forall_app. split; auto. repeat constructor. cbn [removes]. intros ->. rewrite beqb_same in B. discriminate.
        -- intros (l1 & l2 & E2 & N & F). destruct (Back l1 l2 E2) as [(_ & _ & Eo)|(l3 & -> & ->)]; [discriminate|].
           apply Forall_app in F. destruct F as (F & _). eauto.
    + split; [discriminate|]. intros (l1 & l2 & E2 & N & F).
      destruct (Back l1 l2 E2) as [(_ & _ & Eo)|(l3 & -> & ->)]; [discriminate|].
      apply Forall_app in F. destruct F as (_ & F). inversion_clear F. exfalso. apply H. exact I.
Qed.
