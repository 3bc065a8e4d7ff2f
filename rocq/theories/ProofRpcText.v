(** RPC over text. *)
From Coq Require Import Sorted.
From Verif Require Import Base SpecUtf8 ModelKeyed SpecKeyed ProofKeyed ModelValue ProofValue ModelText SpecText ProofText4 ModelObject SpecObject ProofObject
  ModelMerge ProofMerge ModelJwt ProofJwt2 ModelRpc SpecRpc ProofRpc ProofRpc2 ProofPath SpecRpcText.
Local Open Scope Z_scope.

Lemma read_exact : forall L E F utf8 v, precise F = false -> doc_ok utf8 v -> sent_as L E F utf8 v (norm v).
Proof.
  intros L E F utf8 v HF Hv. unfold sent_as, from_string.
  destruct (parse_source_exact L F true (norm v) (ser E utf8 v) [] [] HF (ser_jval E utf8 v Hv) (Forall_nil _) I
    (settle_norm utf8 _ v Hv)) as (r' & H1 & H2).
  cbn [app] in H1. rewrite app_nil_r in H1. change (map schar (ser E utf8 v)) with (map (as_source true) (ser E utf8 v)). rewrite H1. reflexivity.
Qed.
Lemma same_norm : forall utf8 v, part_ok utf8 v -> same_part v (norm v).
Proof. intros utf8 v [->|H]; [left; split; reflexivity|right; apply (same_json_norm utf8); exact H]. Qed.

Lemma norm_keys : forall l, map fst (map (fun m : bytes * value => (fst m, norm (snd m))) l) = map fst l.
Proof. intros l. rewrite map_map. reflexivity. Qed.
Lemma norm_binding : forall k l, binding k (map (fun m : bytes * value => (fst m, norm (snd m))) l) = option_map norm (binding k l).
Proof.
  intros k l. induction l as [|[k' v] l IH]; [reflexivity|]. cbn [map fst snd binding]. destruct (beqb k' k) eqn:E; rewrite ?IH; reflexivity.
Qed.
Lemma norm_member : forall utf8 v k, doc_ok utf8 v -> value_member (norm v) k = norm (value_member v k).
Proof.
  intros utf8 v k H. destruct H as [| | |n| | | |d l Hk Hl]; try reflexivity.
  - cbn [norm]. destruct (n <? 0); reflexivity.
  - cbn [norm]. rewrite !value_member_binding; [|exact Hk|].
    + rewrite norm_binding. destruct (binding k l); reflexivity.
    + unfold keys_increasing in *. rewrite norm_keys. exact Hk.
Qed.
Lemma member_ok : forall utf8 v k, doc_ok utf8 v -> part_ok utf8 (value_member v k).
Proof.
  intros utf8 v k H. destruct H as [| | |n| | | |d l Hk Hl]; try (left; reflexivity).
  rewrite value_member_binding by exact Hk. destruct (binding k l) eqn:E; [|left; reflexivity].
  right. apply binding_in in E. rewrite Forall_forall in Hl. apply (Hl _ E).
Qed.
Lemma norm_undef : forall v, is_undef (norm v) = is_undef v.
Proof. destruct v as [| | |n| | |]; try reflexivity. destruct n; try reflexivity. cbn. destruct (n <? 0); reflexivity. Qed.
Lemma norm_null : forall v, is_null (norm v) = is_null v.
Proof. destruct v as [| | |n| | |]; try reflexivity. destruct n; try reflexivity. cbn. destruct (n <? 0); reflexivity. Qed.
Lemma norm_id : forall utf8 id, plain_id utf8 id -> norm id = id.
Proof. intros utf8 [| | |n| | |] H; try contradiction; [destruct n; try contradiction|]; reflexivity. Qed.
Lemma id_ok : forall utf8 id, plain_id utf8 id -> doc_ok utf8 id.
Proof. intros utf8 [| | |n| | |] H; try contradiction; [destruct n; try contradiction|]; exact H. Qed.

(** *** Messages of sets *)
Lemma ascii_ok : forall utf8 s, Forall (fun c => 0 <= c < 128) s -> text_ok utf8 s.
Proof.
  intros utf8 s H. exists s. split.
  - induction H; constructor; auto. unfold cp_ok, is_cp. destruct utf8; lia.
  - induction H as [|c s Hc Hs IH]; [reflexivity|]. change (utf8_encode (c :: s)) with (utf8_bytes c ++ utf8_encode s). rewrite <- IH. unfold utf8_bytes. destruct (Z.ltb_spec c 128); [reflexivity|lia].
Qed.
Lemma sets_ok : forall utf8 c, Forall (fun m => Forall (fun x => 0 <= x < 128) (fst m) /\ part_ok utf8 (snd m)) c -> doc_ok utf8 (sets_as_object c).
Proof.
  intros utf8 c H. destruct (sets_as_object_spec c) as (l & -> & Hk & Hb). constructor; [exact Hk|]. apply Forall_forall. intros [k v] Hin.
  apply (in_binding _ _ _ (keys_increasing_nodup _ Hk)) in Hin. rewrite Hb in Hin.
  destruct (last_binding k c) as [w|] eqn:E; [|discriminate]. rewrite kept_undef in Hin. destruct (is_undef w) eqn:U; [discriminate|]. injection Hin as ->.
  assert (In (k, v) c) as Hin.
  { clear - E. induction c as [|[k' w] c IH]; [discriminate|]. cbn [last_binding] in E. destruct (last_binding k c) eqn:E1.
    - injection E as ->. right. apply IH. reflexivity.
    - destruct (beqb k' k) eqn:Q; [|discriminate]. injection E as ->. left. f_equal. apply beqb_eq. exact Q. }
  rewrite Forall_forall in H. destruct (H _ Hin) as [A [B|B]]; cbn [fst snd] in *; [subst; discriminate|].
  split; [apply ascii_ok; exact A|exact B].
Qed.
Lemma call_ok : forall utf8 ver id name args ctx, plain_id utf8 id -> doc_ok utf8 (VStr None name) -> part_ok utf8 args -> part_ok utf8 ctx ->
  doc_ok utf8 (call_message ver id name args ctx).
Proof.
  intros utf8 ver id name args ctx Hi Hn Ha Hc. apply sets_ok.
  assert (T : doc_ok utf8 v_two) by (constructor; [apply ascii_ok; repeat constructor; discriminate|discriminate|discriminate]).
  assert (forall k v, forallb (fun x => (0 <=? x) && (x <? 128)) k = true -> part_ok utf8 v -> Forall (fun x => 0 <= x < 128) (fst (k, v)) /\ part_ok utf8 (snd (k, v))) as X.
  { intros k v Hk Hv. split; [|exact Hv]. cbn [fst]. rewrite Forall_forall. rewrite forallb_forall in Hk. intros x Hx. apply Hk in Hx. lia. }
  destruct ver; repeat (apply Forall_cons; [apply X; [reflexivity|try assumption]|]); try apply Forall_nil; right; try assumption; apply id_ok; exact Hi.
Qed.

(** *** The request *)
Lemma read_request : forall utf8 ver id name args ctx, plain_id utf8 id -> doc_ok utf8 (VStr None name) -> part_ok utf8 args -> part_ok utf8 ctx ->
  parse_request (norm (call_message ver id name args ctx)) = call_request ver id name (norm args) (norm ctx).
Proof.
  intros utf8 ver id name args ctx Hi Hn Ha Hc. pose proof (call_ok utf8 ver id name args ctx Hi Hn Ha Hc) as D.
  unfold parse_request. rewrite !(norm_member utf8) by exact D.
  pose proof (parse_call ver id name args ctx) as P. unfold parse_request in P. injection P as P1 P2 P3 P4 P5. rewrite P1, P2, P3, P4, P5.
  rewrite (norm_id utf8 id Hi). destruct ver; reflexivity.
Qed.
Lemma text_request : forall L E F utf8 ver id name args ctx, precise F = false ->
  plain_id utf8 id -> doc_ok utf8 (VStr None name) -> part_ok utf8 args -> part_ok utf8 ctx ->
  exists m, sent_as L E F utf8 (call_message ver id name args ctx) m /\
    exists args' ctx', parse_request m = call_request ver id name args' ctx' /\ same_part args args' /\ same_part ctx ctx'.
Proof.
  intros L E F utf8 ver id name args ctx HF Hi Hn Ha Hc. eexists. split; [apply read_exact; [exact HF|apply call_ok; assumption]|].
  exists (norm args), (norm ctx). split; [apply (read_request utf8); assumption|]. split; apply (same_norm utf8); assumption.
Qed.

(** *** The response *)
Lemma norm_response : forall utf8 v, doc_ok utf8 v -> is_response (norm v) = is_response v.
Proof. intros utf8 v H. unfold is_response. rewrite (norm_member utf8), norm_undef, norm_null by exact H. reflexivity. Qed.
Lemma norm_result : forall utf8 v, doc_ok utf8 v ->
  match response_result v, response_result (norm v) with
  | Some r, Some r' => same_result r r'
  | None, None => True
  | _, _ => False
  end.
Proof.
  intros utf8 v H. unfold response_result. rewrite !(norm_member utf8), !norm_undef, !norm_null by exact H.
  destruct (negb (is_undef (value_member v k_result)) || negb (is_undef (value_member v k_error))); [|exact I].
  destruct (negb (is_undef (value_member v k_result)) && _); unfold same_result; cbn [rr_value rr_error rr_context];
    (split; [|split; [reflexivity|]]); apply (same_norm utf8), member_ok; exact H.
Qed.
Definition norm_entry (e : entry) : entry := match e with Delivered (Message v) => Delivered (Message (norm v)) | _ => e end.
Lemma norm_messages : forall log, messages (map norm_entry log) = map norm (messages log).
Proof. induction log as [|e log IH]; [reflexivity|]. destruct e as [[v| | | |]|a]; cbn [map norm_entry messages]; rewrite ?IH; reflexivity. Qed.
Lemma in_messages : forall v log, In v (messages log) <-> In (Delivered (Message v)) log.
Proof.
  intros v. induction log as [|e log IH]; [cbn; tauto|]. destruct e as [[w| | | |]|a]; cbn [messages In]; rewrite IH;
    try (split; [tauto|intros [H|H]; [discriminate|exact H]]).
  split; intros [H|H]; try (left; congruence); right; exact H.
Qed.

(** *** A call end to end *)
Lemma sent_unique : forall L E F utf8 l ws, precise F = false -> Forall (doc_ok utf8) l -> Forall2 (sent_as L E F utf8) l ws -> ws = map norm l.
Proof.
  intros L E F utf8 l ws HF Hl H. induction H as [|v w l ws Hv Hr IH]; [reflexivity|]. inversion Hl as [|? ? H1 H2]; subst. cbn [map].
  rewrite IH by exact H2. f_equal. pose proof (read_exact L E F utf8 v HF H1) as R. unfold sent_as in *. congruence.
Qed.
Lemma norm_responses : forall utf8 log, Forall (doc_ok utf8) (messages log) -> responses (map norm_entry log) = responses log.
Proof.
  intros utf8 log. unfold responses. induction log as [|e log IH]; intros H; [reflexivity|]. cbn [map filter].
  destruct e as [[v| | | |]|a]; cbn [norm_entry delivers messages] in *; try (apply IH; exact H).
  inversion H as [|? ? H1 H2]; subst. rewrite (norm_response utf8) by exact H1. destruct (is_response v); cbn [length]; rewrite IH by exact H2; reflexivity.
Qed.

Lemma text_completes : forall L E F utf8 same sv p ph pi ver id name args ctx m flags later inner a s c h rest ws,
  precise F = false -> plain_id utf8 id -> doc_ok utf8 (VStr None name) -> part_ok utf8 args -> part_ok utf8 ctx ->
  no_result_formats (sv_format sv) ->
  server_ok calm sv -> forallb calm (fst p) = true -> forallb calm (fst ph) = true -> forallb calm (fst pi) = true ->
  server_ok no_init sv -> forallb no_init (fst p) = true -> forallb no_init (fst ph) = true -> forallb no_init (fst pi) = true ->
  forallb calm later = true -> forallb no_init later = true -> forallb calm inner = true ->
  sent_as L E F utf8 (call_message ver id name args ctx) m ->
  exec sv p ph pi (create ByFunction (parse_request m) flags) = Some s ->
  Forall (doc_ok utf8) (messages (rs_log (rdrop (rrun s later) inner a))) ->
  Forall2 (sent_as L E F utf8) (messages (rs_log (rdrop (rrun s later) inner a))) ws ->
  take_call same (cl_calls c) id = Some (Some h, rest) ->
  exists v c', In v (messages (rs_log (rdrop (rrun s later) inner a))) /\ is_response v = true /\
    crun same c (map CResponse ws) = Some c' /\
    match response_result v with
    | Some r => cl_calls c' = rest /\ exists r', cl_done c' = cl_done c ++ [(h, r')] /\ same_result r r'
    | None => c' = c
    end.
Proof.
  intros L E F utf8 same sv p ph pi ver id name args ctx m flags later inner a s c h rest ws HF Hi Hn Ha Hc Hf C1 C2 C3 C4 N1 N2 N3 N4 L1 L2 Hin Hm H Hd Hw Ht.
  assert (Em : m = norm (call_message ver id name args ctx)).
  { pose proof (read_exact L E F utf8 _ HF (call_ok utf8 ver id name args ctx Hi Hn Ha Hc)) as R. unfold sent_as in *. congruence. }
  subst m. rewrite (read_request utf8) in H by assumption. rewrite (sent_unique _ _ _ _ _ _ HF Hd Hw).
  set (log := rs_log (rdrop (rrun s later) inner a)) in *.
  assert (Hh : has_id (call_request ver id name (norm args) (norm ctx)) = true).
  { unfold has_id. cbn [rq_id call_request]. destruct id as [| | |n| | |]; try contradiction; [destruct n; try contradiction|]; reflexivity. }
  assert (R1 : responses log = 1%nat) by exact (exec_one sv p ph pi _ flags later inner a s Hh Hf C1 C2 C3 C4 N1 N2 N3 N4 L1 L2 Hin H).
  assert (R2 : forall v, In (Delivered (Message v)) log -> is_response v = true -> value_member v k_id = id).
  { destruct (exec_history calm (fun c m d i b => eq_refl) sv p ph pi _ _ C1 C2 C3 C4 H) as (l & Hl & El).
    intros v. unfold log. rewrite El. unfold rrun. rewrite <- fold_left_app. intros Hx Hr. rewrite (response_ids _ _ _ _ _ _ _ Hx Hr). reflexivity. }
  destruct (log_completes same (map norm_entry log) id c h rest) as (v' & c' & A & B & C & D).
  - rewrite (norm_responses utf8) by exact Hd. exact R1.
  - intros v' Hv Hr. apply in_map_iff in Hv as (e & Ee & He). destruct e as [[v| | | |]|x]; cbn [norm_entry] in Ee; try discriminate.
    injection Ee as <-. assert (Dv : doc_ok utf8 v) by (rewrite Forall_forall in Hd; apply Hd, in_messages; exact He).
    rewrite (norm_response utf8) in Hr by exact Dv. rewrite (norm_member utf8), (R2 v He Hr) by exact Dv. apply (norm_id utf8). exact Hi.
  - exact Ht.
  - rewrite norm_messages in A, C. apply in_map_iff in A as (v & <- & Hv).
    assert (Dv : doc_ok utf8 v) by (rewrite Forall_forall in Hd; apply Hd; exact Hv).
    exists v, c'. split; [exact Hv|]. split; [rewrite <- (norm_response utf8) by exact Dv; exact B|]. split; [exact C|].
    pose proof (norm_result utf8 v Dv) as R. destruct (response_result v) as [r|]; destruct (response_result (norm v)) as [r'|]; try contradiction.
    + destruct D as (D1 & D2 & _). split; [exact D1|]. exists r'. split; [exact D2|exact R].
    + exact D.
Qed.

Lemma text_response : forall L E F utf8 v w, precise F = false -> doc_ok utf8 v -> sent_as L E F utf8 v w ->
  is_response w = is_response v /\ (is_notification w = is_notification v) /\
  match response_result v, response_result w with
  | Some r, Some r' => same_result r r'
  | None, None => True
  | _, _ => False
  end.
Proof.
  intros L E F utf8 v w HF Hv Hw. pose proof (read_exact L E F utf8 v HF Hv) as R. unfold sent_as in *. rewrite R in Hw. injection Hw as <-.
  split; [apply (norm_response utf8); exact Hv|]. split; [|apply (norm_result utf8); exact Hv].
  unfold is_notification. rewrite (norm_member utf8), norm_undef by exact Hv. reflexivity.
Qed.

Lemma infinite_name : exists name, text_ok true name /\ forall L, exists m,
  sent_as L (mkSer (fun _ _ => []) (fun _ _ => [])) (mkPF false false) true (call_message Ver2 (VNum (NUInt 1)) name VUndef VUndef) m /\
  rq_method (parse_request m) = VNum (NDbl (S754_infinity false)).
Proof.
  exists word_inf. split; [exists [0x221E]; split; [repeat constructor; vm_compute; discriminate|reflexivity]|].
  intros L. eexists. split; [unfold sent_as; vm_compute; reflexivity|reflexivity].
Qed.
