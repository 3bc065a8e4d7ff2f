(** Proofs about the messages of JSON-RPC. *)
From Coq Require Import String.
From Verif Require Import Base ModelKeyed SpecKeyed ProofKeyed ModelValue ModelObject SpecObject ProofObject ModelMerge SpecMerge ProofMerge ModelArray ModelJwt ModelRpc SpecRpc ProofRpc ProofRpc2 SpecMessage.
Local Open Scope list_scope.
Local Open Scope Z_scope.

Definition named (l : list (string * value)) : list member := map (fun m => (txt (fst m), snd m)) l.
Lemma named_in : forall l k x, In (k, x) (named l) <-> exists s, k = txt s /\ In (s, x) l.
Proof.
  intros l k x. unfold named. rewrite in_map_iff. split.
  - intros ([s y] & E & H). cbn [fst snd] in E. injection E as <- <-. exists s. split; [reflexivity|exact H].
  - intros (s & -> & H). exists (s, x). split; [reflexivity|exact H].
Qed.
Lemma made_bindings : forall m (c : list member) l, keys_increasing m -> NoDup (map fst c) -> (forall k x, In (k, x) c <-> In (k, x) (named l)) ->
  (forall k, binding k m = kept (binding k c)) -> made_of (VObj false m) l.
Proof.
  intros m c l Hm Nd Hc Hb. exists m. split; [reflexivity|]. split; [exact Hm|]. intros k x. rewrite <- named_in, <- Hc. split.
  - intros H. apply (in_binding _ _ _ (keys_increasing_nodup _ Hm)) in H. rewrite Hb in H.
    destruct (binding k c) as [w|] eqn:E; [|discriminate]. apply binding_in in E. rewrite kept_undef in H.
    destruct (is_undef w) eqn:U; [discriminate|]. injection H as <-. split; [intros ->; discriminate U|exact E].
  - intros (N & H). apply (in_binding _ _ _ Nd) in H. apply binding_in. rewrite Hb, H, kept_undef.
    destruct (is_undef x) eqn:U; [destruct x; try discriminate U; congruence|reflexivity].
Qed.
Lemma made_sets : forall c l, NoDup (map fst c) -> (forall k x, In (k, x) c <-> In (k, x) (named l)) -> made_of (sets_as_object c) l.
Proof.
  intros c l Nd Hc. destruct (sets_as_object_spec c) as (m & -> & Hm & Hb). apply (made_bindings m c l Hm Nd Hc).
  intros k. rewrite Hb, <- binding_last by exact Nd. reflexivity.
Qed.

Ltac distinct_keys := cbn [map fst]; repeat constructor; cbn [In]; intuition discriminate.
Ltac same_keys := intros k x; cbv [named map fst snd In k_id k_method k_params k_context k_jsonrpc k_result k_error v_two two app]; tauto.

Definition shown (context : value) : value := if Nat.eqb (vsize context) 0 then VUndef else context.
Lemma shown_ok : forall c, shown c = VUndef \/ members_of (shown c) <> [].
Proof.
  intros c. unfold shown, vsize. destruct (Nat.eqb (length (members_of c)) 0) eqn:E; [left; reflexivity|]. right. intros H. rewrite H in E. discriminate.
Qed.
Lemma shown_sent : forall c, shown c = sent_context c.
Proof. intros c. unfold shown, sent_context, vsize. destruct (members_of c); reflexivity. Qed.

Lemma wire_result : forall ver id r c, result_form ver id r (sent_context c) (result_message ver id r c).
Proof.
  intros ver id r c. rewrite <- shown_sent. unfold result_form, result_message. fold (shown c). generalize (shown c). intros d.
  destruct ver; (apply made_sets; [distinct_keys|same_keys]).
Qed.
Lemma wire_error : forall ver id e, error_form ver id e (error_message ver id e).
Proof. intros ver id e. unfold error_form, error_message. destruct ver; (apply made_sets; [distinct_keys|same_keys]). Qed.
Lemma wire_notify : forall ver name d c, notify_form ver name d c (format_notify ver name d c).
Proof. intros ver name d c. unfold notify_form, format_notify. destruct ver; (apply made_sets; [distinct_keys|same_keys]). Qed.
Lemma wire_call : forall ver id name d c, call_form ver id name d c (call_message ver id name d c).
Proof. intros ver id name d c. unfold call_form, call_message. destruct ver; (apply made_sets; [distinct_keys|same_keys]). Qed.

Lemma asked_version : forall r, asked r (req_version r).
Proof. intros r. unfold asked, req_version. destruct (rq_version r); cbn [is_undef]; split; congruence. Qed.
Lemma identified_id : forall r, has_id r = true -> identified r.
Proof. intros r H. unfold has_id in H. unfold identified. destruct (rq_id r); try discriminate H; split; discriminate. Qed.

Lemma on_wire_same : forall r q v, rq_id q = rq_id r -> rq_version q = rq_version r -> on_wire q v -> on_wire r v.
Proof.
  intros r q v A B [H|ver name d H1 H2|ver res c H1 H2 H3 H4|ver e H1 H2 H3]; unfold asked, identified in *.
  - apply OW_alive. exact H.
  - apply (OW_notify r v ver name d); [unfold asked; rewrite <- B; exact H1|exact H2].
  - apply (OW_result r v ver res c); unfold asked, identified; rewrite <- ?A, <- ?B; assumption.
  - apply (OW_error r v ver e); unfold asked, identified; rewrite <- ?A, <- ?B; assumption.
Qed.

Section Log.
Variable r : preq.
Definition wired (s : rstate) : Prop := (rq_id (rs_req s) = rq_id r /\ rq_version (rs_req s) = rq_version r) /\
  forall v, In (Delivered (Message v)) (rs_log s) -> on_wire r v.
Lemma wired_log : forall s e, wired s -> (forall v, e = Delivered (Message v) -> on_wire r v) -> wired (add_log s e).
Proof.
  intros s e (A & B) H. split; [exact A|]. intros v Hin. cbn [add_log rs_log] in Hin. apply in_app_or in Hin.
  destruct Hin as [Hin|[Hin|[]]]; auto.
Qed.
Lemma wired_deliver : forall l a s e, Forall (fun o => forall s, wired s -> wired (fst (rstep s o))) l -> wired s ->
  (forall v, e = Message v -> on_wire r v) -> wired (delivered l a s e).
Proof.
  intros l a s e HF Hs He. unfold delivered. apply wired_log; [|discriminate].
  assert (K : forall l s, Forall (fun o => forall s, wired s -> wired (fst (rstep s o))) l -> wired s -> wired (rrun s l)).
  { clear. induction l as [|o l IH]; intros s HF Hs; [exact Hs|]. inversion_clear HF. rewrite rrun_cons. apply IH; auto. }
  apply K; auto. apply wired_log; auto. intros v E. injection E as ->. auto.
Qed.
Lemma wired_error : forall l a s e, Forall (fun o => forall s, wired s -> wired (fst (rstep s o))) l -> wired s -> wired (fst (send_error (delivered l a) a s e)).
Proof.
  intros l a s e HF Hs. unfold send_error. destruct (rs_kind s).
  - destruct (has_id (rs_req s)) eqn:Hi; [|exact Hs]. cbn [andb]. destruct (rs_sent s); [exact Hs|]. cbn [negb].
    assert (K : wired (delivered l a (set_sent s true true) (Message (error_message (req_version (rs_req s)) (rq_id (rs_req s)) e)))).
    { apply wired_deliver; auto. intros v E. injection E as <-. destruct Hs as ((A & B) & _). apply (on_wire_same r (rs_req s)); auto.
      apply (OW_error _ _ (req_version (rs_req s)) e); [apply identified_id; exact Hi|apply asked_version|apply wire_error]. }
    destruct a; exact K.
  - apply wired_deliver; auto. discriminate.
Qed.
Lemma wired_step : forall o s, wired s -> wired (fst (rstep s o)).
Proof.
  induction o as [svc|w|q c l b IH|e0 l b IH|c m d l b IH|l b IH|n d l b IH|l b IH] using rop_ind'; intros s Hs; rewrite rstep_eq; cbn [fst].
  - exact Hs.
  - exact Hs.
  - unfold send_result. destruct (rs_kind s); [|apply wired_deliver; auto; discriminate].
    destruct (has_id (rs_req s)) eqn:Hi; [|exact Hs]. cbn [andb]. destruct (rs_sent s); [exact Hs|]. cbn [negb].
    assert (K : wired (delivered l b s (Message (result_message (req_version (rs_req s)) (rq_id (rs_req s)) q c)))).
    { apply wired_deliver; auto. intros v E. injection E as <-. destruct Hs as ((A & B) & _). apply (on_wire_same r (rs_req s)); auto.
      apply (OW_result _ _ (req_version (rs_req s)) q (sent_context c)); [apply identified_id; exact Hi|apply asked_version|rewrite <- shown_sent; apply shown_ok|apply wire_result]. }
    destruct b; exact K.
  - apply wired_error; auto.
  - unfold send_error_code. destruct (rs_svc s) as [g|]; [destruct (g c m d)|]; try (apply wired_error; assumption). exact Hs.
  - unfold send_no_result. destruct (rs_svc s) as [g|]; [destruct (g _ _ _)|]; cbn [fst]; try (apply wired_error; assumption); exact Hs.
  - unfold send_notify. destruct (rs_kind s); [|apply wired_deliver; auto; discriminate].
    destruct (rs_notify s); [|exact Hs].
    assert (K : wired (delivered l b s (Message (format_notify (req_version (rs_req s)) n d VUndef)))).
    { apply wired_deliver; auto. intros v E. injection E as <-. destruct Hs as ((A & B) & _). apply (on_wire_same r (rs_req s)); auto.
      apply (OW_notify _ _ (req_version (rs_req s)) n d); [apply asked_version|apply wire_notify]. }
    destruct b; exact K.
  - unfold send_heartbeat. destruct (rs_kind s); apply wired_deliver; auto; try discriminate. intros v E. injection E as <-. apply OW_alive. reflexivity.
Qed.
Lemma wired_run : forall l s, wired s -> wired (rrun s l).
Proof. induction l as [|o l IH]; intros s H; [exact H|]. rewrite rrun_cons. apply IH, wired_step, H. Qed.
End Log.

Lemma wire_all : forall kind r flags ops inner a v,
  In (Delivered (Message v)) (rs_log (rdrop (rrun (create kind r flags) ops) inner a)) -> on_wire r v.
Proof.
  intros kind r flags ops inner a v.
  assert (W : wired r (rrun (create kind r flags) ops)). { apply wired_run. split; [split; reflexivity|]. intros w []. }
  unfold rdrop. destruct (rs_sent _); [apply W|]. apply (wired_step r (RNoResult inner a) _ W).
Qed.

Lemma wire_error_object : forall code message data,
  made_of (default_format_error code message data) [("code"%string, VNum (if code =? 0 then NUInt 0 else NInt code)); ("message"%string, VStr None message); ("data"%string, data)].
Proof.
  intros code message data. unfold default_format_error. set (n := VNum _).
  set (c := [(txt "code", n); (txt "message", VStr None message); (txt "data", data)]).
  destruct (build_object_spec is_undef c) as (Hm & Hb).
  apply (made_bindings _ c _ Hm); [unfold c; distinct_keys|unfold c; same_keys|].
  intros k. rewrite Hb, <- binding_last.
  - unfold c, kept. cbn [filter snd is_undef negb binding fst]. unfold n. cbn [is_undef negb].
    destruct data; cbn [is_undef negb binding fst]; destruct (beqb (txt "code") k); try reflexivity; destruct (beqb (txt "message") k); try reflexivity; destruct (beqb (txt "data") k); reflexivity.
  - unfold c. cbn [filter snd is_undef negb]. unfold n. cbn [is_undef negb]. destruct data; cbn [is_undef negb]; distinct_keys.
Qed.

(** *** The parameters *)
Lemma deliver_nil : forall a s e, rs_req (delivered [] a s e) = rs_req s.
Proof. reflexivity. Qed.
Lemma flat_params : forall o s, flat o = true -> rs_req (fst (rstep s o)) =
  match o with RSetParams q => mkReq (rq_method (rs_req s)) q (rq_id (rs_req s)) (rq_context (rs_req s)) (rq_version (rs_req s)) | _ => rs_req s end.
Proof.
  assert (HE : forall a s e, rs_req (fst (send_error (delivered [] a) a s e)) = rs_req s).
  { intros a s e. unfold send_error. destruct (rs_kind s); [|reflexivity]. destruct (has_id (rs_req s) && negb (rs_sent s)); [|reflexivity]. destruct a; reflexivity. }
  intros [svc|q|x c [|]a|e [|] a|c m d [|] a|[|] a|n d [|] a|[|] a] s F; try discriminate F; rewrite rstep_eq; try reflexivity.
  - unfold send_result. destruct (rs_kind s); [|reflexivity]. destruct (has_id (rs_req s) && negb (rs_sent s)); [|reflexivity]. destruct a; reflexivity.
  - apply HE.
  - unfold send_error_code. destruct (rs_svc s) as [f|]; [destruct (f c m d)|]; try apply HE. reflexivity.
  - unfold send_no_result. destruct (rs_svc s) as [f|]; [destruct (f _ _ _)|]; cbn [fst]; try apply HE; reflexivity.
  - unfold send_notify. destruct (rs_kind s); [|reflexivity]. destruct (rs_notify s); [|reflexivity]. destruct a; reflexivity.
  - unfold send_heartbeat. destruct (rs_kind s); reflexivity.
Qed.
Lemma run_params : forall ops s, forallb flat ops = true ->
  rs_req (rrun s ops) = mkReq (rq_method (rs_req s)) (set_last (rq_params (rs_req s)) ops) (rq_id (rs_req s)) (rq_context (rs_req s)) (rq_version (rs_req s)).
Proof.
  induction ops as [|o ops IH]; intros s F; [cbn; destruct (rs_req s); reflexivity|].
  cbn [forallb] in F. apply andb_prop in F as (F1 & F2). rewrite rrun_cons, IH by exact F2. rewrite (flat_params o s F1). unfold set_last. cbn [fold_left].
  destruct o; reflexivity.
Qed.
Lemma handler_params : forall sv p ph pi kind r flags m h l what l2, valid_request r ->
  reg_find (sv_reg sv) (get_string (rq_method r)) = Some m -> sv_handler sv = Some h ->
  m (rs_req (create kind r flags)) = (l, Raises what) -> forallb flat l = true ->
  h (mkReq (rq_method r) (set_last (rq_params (rs_req (create kind r flags))) l) (rq_id r) (rq_context r) (rq_version r)) = (l2, Returns true) ->
  exec sv p ph pi (create kind r flags) = Some (rrun (create kind r flags) (RInit (sv_format sv) :: l ++ l2)).
Proof.
  intros sv p ph pi kind r flags m h l what l2 V M H ML F HL. unfold exec. rewrite exec_try_valid by exact V. cbn zeta. rewrite M, ML, H.
  rewrite run_params by exact F.
  change (rq_method (rs_req (rrun (create kind r flags) [RInit (sv_format sv)]))) with (rq_method r).
  cbn [rrun fold_left rstep fst set_svc rs_req create rq_method rq_params rq_id rq_context rq_version] in *. rewrite HL.
  f_equal. unfold rrun. rewrite fold_left_app. reflexivity.
Qed.

(** *** Result and error *)
Lemma txt_inj : forall a b, txt a = txt b -> a = b.
Proof.
  induction a as [|c a IH]; intros [|d b] H; try discriminate H; [reflexivity|]. unfold txt in H. cbn [list_ascii_of_string map] in H.
  injection H as H1 H2. f_equal; [|apply IH; exact H2]. apply N2Z.inj in H1. rewrite <- (Ascii.ascii_N_embedding c), <- (Ascii.ascii_N_embedding d), H1. reflexivity.
Qed.
Lemma made_in : forall v l d m s x, made_of v l -> v = VObj d m -> In (txt s, x) m -> In (s, x) l.
Proof.
  intros v l d m s x (m' & E & _ & H) E2 Hin. rewrite E in E2. injection E2 as _ <-. apply H in Hin as (_ & s' & E3 & Hin). apply txt_inj in E3 as ->. exact Hin.
Qed.
Lemma wire_not_both : forall kind r flags ops inner a d m x y,
  In (Delivered (Message (VObj d m))) (rs_log (rdrop (rrun (create kind r flags) ops) inner a)) ->
  In (txt "result", x) m -> In (txt "error", y) m -> rq_version r = VUndef /\ (x = VNull \/ y = VNull).
Proof.
  intros kind r flags ops inner a d m x y H Hx Hy. apply wire_all in H.
  destruct H as [H|ver name data A H|ver q c I A C H|ver e I A H]; [discriminate H|..];
    apply (made_in _ _ d m "result" x) in H as Gx; auto; apply (made_in _ _ d m "error" y) in H as Gy; auto; clear H; unfold asked in A;
    (destruct ver; [assert (V : rq_version r = VUndef) by (apply A; reflexivity)|]); cbn [In] in Gx, Gy;
    repeat match goal with K : _ \/ _ |- _ => destruct K end; try contradiction; try discriminate;
    repeat match goal with K : (_, _) = (_, _) |- _ => injection K; clear K; intros; subst end; auto.
Qed.

(** *** The server *)
Lemma all_true : forall (l : list rop), forallb (fun _ => true) l = true.
Proof. induction l; auto. Qed.
Lemma wire_server : forall sv p ph pi kind r flags s later inner a v, exec sv p ph pi (create kind r flags) = Some s ->
  In (Delivered (Message v)) (rs_log (rdrop (rrun s later) inner a)) -> on_wire r v.
Proof.
  intros sv p ph pi kind r flags s later inner a v H Hin.
  assert (Sv : server_ok (fun _ => true) sv).
  { split; [|split].
    - apply Forall_forall. intros m _ q. apply all_true.
    - destruct (sv_proxy sv); cbn; auto. intros q. apply all_true.
    - destruct (sv_handler sv); cbn; auto. intros q. apply all_true. }
  destruct (exec_history (fun _ => true) (fun c m d i b => eq_sym (all_true i)) sv p ph pi _ _ Sv (all_true _) (all_true _) (all_true _) H) as (l & _ & E).
  subst s. rewrite <- rrun_app in Hin. apply (wire_all kind r flags _ inner a v Hin).
Qed.
