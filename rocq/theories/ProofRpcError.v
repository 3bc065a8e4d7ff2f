(** Proofs about errors of JSON-RPC. *)
From Coq Require Import String Lia ZifyBool.
From Verif Require Import Base ModelKeyed SpecKeyed ProofKeyed ModelValue ModelText SpecText ModelObject SpecObject ProofObject ModelMerge SpecMerge ProofMerge ModelJwt ModelNumView ModelRpc SpecRpc ProofRpc ProofRpc2 SpecRpcText ProofRpcText ModelRpcError SpecRpcError SpecMessage ProofMessage.
Local Open Scope list_scope.
Local Open Scope Z_scope.
Ltac Zify.zify_post_hook ::= Z.div_mod_to_equations.

Lemma made_member : forall v l s x, made_of v l -> (forall s1 s2 y1 y2, In (s1, y1) l -> In (s2, y2) l -> s1 = s2 -> y1 = y2) -> In (s, x) l -> value_member v (txt s) = x.
Proof.
  intros v l s x (m & -> & Hm & H) U Hin.
  rewrite value_member_binding; [|split; [exact Hm|]; intros _ k y Hy; apply H in Hy as (N & _); destruct y; try reflexivity; congruence].
  cbn [obj_members]. destruct (is_undef x) eqn:Ux.
  - destruct x; try discriminate Ux. destruct (binding (txt s) m) as [y|] eqn:E; [|reflexivity]. apply binding_in in E. apply H in E as (N & s' & E2 & Hs).
    apply txt_inj in E2 as <-. rewrite (U s s y VUndef Hs Hin eq_refl). reflexivity.
  - rewrite (in_binding _ x _ (keys_increasing_nodup _ Hm)); [destruct x; try reflexivity; discriminate Ux|]. apply H. split; [intros ->; discriminate|]. eauto.
Qed.

Definition error_parts (code : Z) (message : bytes) (data : value) : list (string * value) :=
  [("code"%string, VNum (if code =? 0 then NUInt 0 else NInt code)); ("message"%string, VStr None message); ("data"%string, data)].
Lemma error_parts_once : forall code message data s1 s2 y1 y2, In (s1, y1) (error_parts code message data) -> In (s2, y2) (error_parts code message data) -> s1 = s2 -> y1 = y2.
Proof.
  intros code message data s1 s2 y1 y2 H1 H2 <-. cbn [error_parts In] in H1, H2.
  repeat match goal with K : _ \/ _ |- _ => destruct K end; try contradiction; congruence.
Qed.
Lemma s32_int : forall z, is_int z -> s32 z = z.
Proof. intros z H. unfold is_int in H. unfold s32. destruct (z mod 2 ^ 32 <? 2 ^ 31) eqn:E; lia. Qed.
Lemma made_reads : forall L F e code message data ctx, made_of e (error_parts code message data) -> is_int code -> reads L F (mkRR e true ctx) code message data.
Proof.
  intros L F e code message data ctx M I. pose proof (error_parts_once code message data) as U.
  assert (A : value_member e (txt "code") = VNum (if code =? 0 then NUInt 0 else NInt code)) by (apply (made_member e _ _ _ M U); left; reflexivity).
  assert (B : value_member e (txt "message") = VStr None message) by (apply (made_member e _ _ _ M U); right; left; reflexivity).
  assert (C : value_member e (txt "data") = data) by (apply (made_member e _ _ _ M U); right; right; left; reflexivity).
  split; [reflexivity|]. split; [|split].
  - unfold error_code. cbn [rr_value]. rewrite A. unfold value_s64, view_num. cbn [num_view]. destruct (Z.eqb_spec code 0) as [->|N]; [reflexivity|].
    cbn [num_s64 option_map]. rewrite s32_int by exact I. reflexivity.
  - unfold error_text. cbn [rr_value]. rewrite B. reflexivity.
  - exact C.
Qed.
Lemma default_reads : forall L F code message data ctx, is_int code -> reads L F (mkRR (default_format_error code message data) true ctx) code message data.
Proof. intros. apply made_reads; [apply wire_error_object|assumption]. Qed.
Lemma make_error_made : forall code message data, made_of (rr_value (make_error code message data)) (error_parts code message data).
Proof. intros. cbn [make_error rr_value]. apply made_sets; [distinct_keys|unfold error_parts; same_keys]. Qed.
Lemma make_reads : forall L F code message data, is_int code -> reads L F (make_error code message data) code message data /\ rr_context (make_error code message data) = VUndef.
Proof. intros L F code message data I. split; [|reflexivity]. exact (made_reads L F _ code message data VUndef (make_error_made code message data) I). Qed.
Lemma plain_reads : forall L F x, (forall d l, rr_value x <> VObj d l) -> error_code L F x = Some 0 /\ error_text x = [] /\ error_data x = VUndef.
Proof. intros L F [v e c] H. cbn [rr_value] in H. unfold error_code, error_text, error_data. cbn [rr_value]. destruct v; try (repeat split; reflexivity). destruct (H diff l eq_refl). Qed.

(** *** Calls *)
Lemma default_error : forall code message data, exists m, default_format_error code message data = VObj false m.
Proof. intros. eexists. reflexivity. Qed.
Lemma responses_app : forall l m, responses (l ++ m) = (responses l + responses m)%nat.
Proof. intros. unfold responses. rewrite filter_app, app_length. reflexivity. Qed.
Lemma no_responses : forall l v, responses l = 0%nat -> In (Delivered (Message v)) l -> is_response v = false.
Proof.
  induction l as [|e l IH]; intros v H Hin; [destruct Hin|]. unfold responses in H. cbn [filter] in H. destruct (delivers is_response e) eqn:E; [discriminate|].
  destruct Hin as [->|Hin]; [exact E|]. apply IH; assumption.
Qed.
Lemma in_messages : forall l v, In v (messages l) -> In (Delivered (Message v)) l.
Proof. induction l as [|[[w| | | |]|a] l IH]; intros v H; cbn [messages] in H; try (right; auto; fail); [destruct H|]. destruct H as [->|H]; [left; reflexivity|right; auto]. Qed.

Lemma one_error : forall L F same r code message data pre rest log c h calls, has_id r = true -> is_int code ->
  log = pre ++ Delivered (Message (error_message (req_version r) (rq_id r) (default_format_error code message data))) :: rest ->
  responses pre = 0%nat -> responses rest = 0%nat -> take_call same (cl_calls c) (rq_id r) = Some (Some h, calls) ->
  exists c' x, crun same c (map CResponse (messages log)) = Some c' /\ cl_calls c' = calls /\ cl_done c' = cl_done c ++ [(h, x)] /\ reads L F x code message data.
Proof.
  intros L F same r code message data pre rest log c h calls Hi I E P R T. set (m := error_message _ _ _) in *.
  assert (Rm : is_response m = true) by (unfold m; rewrite error_is_response; exact Hi).
  assert (O : forall v, In (Delivered (Message v)) log -> is_response v = true -> v = m).
  { intros v Hin Hv. rewrite E in Hin. apply in_app_or in Hin. destruct Hin as [Hin|[Hin|Hin]].
    - rewrite (no_responses pre v P Hin) in Hv. discriminate.
    - injection Hin as <-. reflexivity.
    - rewrite (no_responses rest v R Hin) in Hv. discriminate. }
  destruct (log_completes same log (rq_id r) c h calls) as (v & c' & A & B & C & D).
  - rewrite E, responses_app. unfold responses at 2. cbn [filter delivers]. rewrite Rm. cbn [length]. fold (responses rest). rewrite P, R. reflexivity.
  - intros v Hin Hv. rewrite (O v Hin Hv). unfold m. apply error_member_id.
  - exact T.
  - apply in_messages in A. apply (O v A) in B. subst v.
    destruct (default_error code message data) as (em & Em).
    assert (X : response_result m = Some (mkRR (default_format_error code message data) true VUndef)) by (unfold m; rewrite error_reply; [reflexivity|rewrite Em; reflexivity..]).
    rewrite X in D. destruct D as (D1 & D2 & _). exists c', (mkRR (default_format_error code message data) true VUndef).
    split; [exact C|]. split; [exact D1|]. split; [exact D2|]. apply default_reads. exact I.
Qed.

Lemma call_fails : forall L F same sv pi b1 b2 ver id name args ctx flags code message data c h calls inner a,
  sv_format sv = rpc_format -> id <> VUndef -> id <> VNull ->
  let r := parse_request (call_message ver id name args ctx) in
  fails sv r flags code message data -> take_call same (cl_calls c) id = Some (Some h, calls) ->
  exists s c' x, exec sv ([], Accepts b1) ([], Accepts b2) pi (create ByFunction r flags) = Some s /\
    crun same c (map CResponse (messages (rs_log (rdrop s inner a)))) = Some c' /\
    cl_calls c' = calls /\ cl_done c' = cl_done c ++ [(h, x)] /\ reads L F x code message data.
Proof.
  intros L F same sv pi b1 b2 ver id name args ctx flags code message data c h calls inner a Fm N1 N2 r Fl T.
  assert (Er : rq_id r = id) by (unfold r; rewrite parse_call; reflexivity).
  assert (Hi : has_id r = true) by (unfold has_id; rewrite Er; destruct id; try reflexivity; congruence).
  rewrite <- Er in T. clearbody r. clear N1 N2 Er.
  assert (X : forall code message data, sv_format sv code message data = Some (default_format_error code message data)) by (intros; rewrite Fm; reflexivity).
  destruct Fl as [V|V G Pr|m l what V G Hn E (Q & Ni)|m l V G E (Q & Ni)|m l b code message data V G E (Q & Ni) I].
  - destruct (exec_invalid sv ([], Accepts b2) pi r flags _ b1 V Hi (X _ _ _)) as (s & E1 & E2 & E3).
    destruct (one_error L F same r (-32600) (txt "Invalid request") VUndef [] [Answered (Accepts b1)] (rs_log s) c h calls Hi) as (c' & x & R); auto; [unfold is_int; lia|].
    exists s, c', x. split; [exact E1|]. unfold rdrop. rewrite E2. exact R.
  - destruct (exec_unknown sv ([], Accepts b2) pi r flags _ b1 V Hi G Pr (X _ _ _)) as (s & E1 & E2 & E3).
    destruct (one_error L F same r (-32601) (txt "Method not found") (rq_method r) [] [Answered (Accepts b1)] (rs_log s) c h calls Hi) as (c' & x & R); auto; [unfold is_int; lia|].
    exists s, c', x. split; [exact E1|]. unfold rdrop. rewrite E2. exact R.
  - destruct (exec_raises sv ([], Accepts b1) pi r flags m l what _ b2 V Hi G Hn E Ni (X _ _ _)) as (s & E1 & E2).
    destruct (quiet_run l Q (set_svc (create ByFunction r flags) (Some (sv_format sv))) eq_refl) as (K & Sn & Rs).
    change (rrun (create ByFunction r flags) (RInit (sv_format sv) :: l)) with (rrun (set_svc (create ByFunction r flags) (Some (sv_format sv))) l) in E2.
    cbv zeta in E2. set (t := rrun (set_svc (create ByFunction r flags) (Some (sv_format sv))) l) in *. change (rs_sent t = false) in Sn. change (responses (rs_log t) = 0%nat) in Rs. rewrite Sn in E2. destruct E2 as (E2 & E3).
    destruct (one_error L F same r (-32603) (txt "Internal error") (match what with Some w => VStr None w | None => VUndef end) (rs_log t) [Answered (Accepts b2)] (rs_log s) c h calls Hi) as (c' & x & R); auto; [unfold is_int; lia|].
    exists s, c', x. split; [exact E1|]. unfold rdrop. rewrite E2. exact R.
  - pose proof (exec_method sv ([], Accepts b1) ([], Accepts b2) pi ByFunction r flags m l V G E) as E1.
    destruct (quiet_run l Q (set_svc (create ByFunction r flags) (Some (sv_format sv))) eq_refl) as (K & Sn & Rs).
    pose proof (svc_run l (set_svc (create ByFunction r flags) (Some (sv_format sv))) Ni) as Sv.
    change (rrun (create ByFunction r flags) (RInit (sv_format sv) :: l)) with (rrun (set_svc (create ByFunction r flags) (Some (sv_format sv))) l) in E1.
    set (t := rrun (set_svc (create ByFunction r flags) (Some (sv_format sv))) l) in *. change (rs_sent t = false) in Sn. change (responses (rs_log t) = 0%nat) in Rs. change (rs_svc t = Some (sv_format sv)) in Sv.
    pose proof (kf_version _ _ K) as Kv. pose proof (kf_has_id _ _ K) as Kh. destruct K as (Kk & Ki & _).
    destruct (drop_error t (sv_format sv) _ inner a Kk (eq_trans Kh Hi) Sn Sv (X _ _ _)) as (rest & E2 & E3 & _).
    change (req_version (rs_req (set_svc (create ByFunction r flags) (Some (sv_format sv))))) with (req_version r) in Kv. change (rq_id (rs_req t) = rq_id r) in Ki. rewrite Kv, Ki in E2.
    destruct (one_error L F same r (-32099) (txt "The method did not produce a result") VUndef (rs_log t) rest (rs_log (rdrop t inner a)) c h calls Hi) as (c' & x & R); auto; [unfold is_int; lia|].
    exists t, c', x. split; [exact E1|exact R].
  - pose proof (exec_method sv ([], Accepts b1) ([], Accepts b2) pi ByFunction r flags m _ V G E) as E1.
    destruct (quiet_run l Q (set_svc (create ByFunction r flags) (Some (sv_format sv))) eq_refl) as (K & Sn & Rs).
    pose proof (svc_run l (set_svc (create ByFunction r flags) (Some (sv_format sv))) Ni) as Sv.
    change (rrun (create ByFunction r flags) (RInit (sv_format sv) :: l ++ [RErrorCode code message data [] (Accepts b)]))
      with (rrun (set_svc (create ByFunction r flags) (Some (sv_format sv))) (l ++ [RErrorCode code message data [] (Accepts b)])) in E1. rewrite rrun_app in E1.
    set (t := rrun (set_svc (create ByFunction r flags) (Some (sv_format sv))) l) in *. change (rs_sent t = false) in Sn. change (responses (rs_log t) = 0%nat) in Rs. change (rs_svc t = Some (sv_format sv)) in Sv.
    pose proof (kf_version _ _ K) as Kv. pose proof (kf_has_id _ _ K) as Kh. destruct K as (Kk & Ki & _).
    destruct (plain_error t (sv_format sv) code message data _ b Kk (eq_trans Kh Hi) Sn Sv (X _ _ _)) as (_ & E2 & E3).
    change (req_version (rs_req (set_svc (create ByFunction r flags) (Some (sv_format sv))))) with (req_version r) in Kv. change (rq_id (rs_req t) = rq_id r) in Ki. rewrite Kv, Ki in E2.
    destruct (one_error L F same r code message data (rs_log t) [Answered (Accepts b)] (rs_log (fst (rstep t (RErrorCode code message data [] (Accepts b))))) c h calls Hi I) as (c' & x & R); auto.
    eexists. exists c', x. split; [exact E1|]. cbn [rrun fold_left]. unfold rdrop. rewrite E3. exact R.
Qed.

(** *** As text *)
Lemma same_obj_member : forall l l' k, Forall2 (fun a b => fst a = fst b /\ same_json (snd a) (snd b)) l l' ->
  match binding k l, binding k l' with Some a, Some b => same_json a b | None, None => True | _, _ => False end.
Proof.
  intros l l' k H. induction H as [|[x v] [y w] l l' (E & S) _ IH]; [exact I|]. cbn [fst snd binding] in *. subst y. destruct (beqb x k); assumption.
Qed.
Lemma same_keys_of : forall l l', Forall2 (fun a b : member => fst a = fst b /\ same_json (snd a) (snd b)) l l' -> map fst l' = map fst l.
Proof. intros l l' H. induction H as [|a b l l' (E & _) _ IH]; [reflexivity|]. cbn [map]. rewrite IH, E. reflexivity. Qed.
Lemma same_keys_increasing : forall (l l' : list member), map fst l' = map fst l -> keys_increasing l -> keys_increasing l'.
Proof. intros l l' E H. unfold keys_increasing in *. rewrite E. exact H. Qed.
Lemma same_in : forall l l', Forall2 (fun a b : member => fst a = fst b /\ same_json (snd a) (snd b)) l l' -> forall k v, In (k, v) l' -> is_undef v = false.
Proof. intros l l' H. induction H as [|a b l l' (_ & S) _ IH]; intros k v Hin; [destruct Hin|]. destruct Hin as [->|Hin]; [|exact (IH _ _ Hin)]. cbn [snd] in S. inversion S; reflexivity. Qed.
Lemma same_member : forall l w k, keys_increasing l -> (forall k v, In (k, v) l -> is_undef v = false) -> same_json (VObj false l) w -> same_part (value_member (VObj false l) k) (value_member w k).
Proof.
  intros l w k Hl Hd S. inversion S as [| | | | | |d d' l0 l' F2 E1 E2]; subst.
  rewrite !value_member_binding; [|split; [eapply same_keys_increasing; [exact (same_keys_of _ _ F2)|exact Hl]|intros _; exact (same_in _ _ F2)]|split; [exact Hl|intros _; exact Hd]].
  cbn [obj_members]. pose proof (same_obj_member l l' k F2) as B. destruct (binding k l) as [x|], (binding k l') as [y|]; try contradiction; [|left; split; reflexivity].
  right. exact B.
Qed.
Lemma text_reads : forall L F code message data ctx x, is_int code -> same_result (mkRR (default_format_error code message data) true ctx) x ->
  exists data', reads L F x code message data' /\ same_part data data'.
Proof.
  intros L F code message data ctx x I (Sv & Se & _). cbn [rr_value rr_error] in Sv, Se.
  pose proof (wire_error_object code message data) as M. pose proof (error_parts_once code message data) as U.
  assert (G : forall s y, In (s, y) (error_parts code message data) -> same_part y (value_member (rr_value x) (txt s))).
  { intros s y Hin. rewrite <- (made_member _ _ s y M U Hin). destruct M as (m & Em & Hm & Hd). rewrite Em in *.
    destruct Sv as [(C & _)|Sv]; [discriminate C|]. apply same_member; [exact Hm| |exact Sv].
    intros k v Hk. apply Hd in Hk as (N & _). destruct v; try reflexivity. congruence. }
  exists (error_data x). split; [|exact (G "data"%string data (or_intror (or_intror (or_introl eq_refl))))].
  split; [symmetry; exact Se|]. split; [|split; [|reflexivity]].
  - unfold error_code. destruct (G "code"%string _ (or_introl eq_refl)) as [(C & _)|C]; [discriminate C|].
    set (w := value_member (rr_value x) (txt "code")) in *.
    assert (V : exists n, w = VNum n /\ int_of n = Some code).
    { destruct (Z.eqb_spec code 0) as [->|N]; inversion C as [| |n n' z E1 E2| | | |]; subst; exists n'; (split; [reflexivity|]); cbn [int_of] in E1; congruence. }
    destruct V as (n & -> & V). unfold value_s64, view_num. cbn [num_view]. destruct n; try discriminate V; cbn [int_of] in V; injection V as ->; cbn [num_s64 option_map]; f_equal.
    + unfold is_int in I. unfold s64, s32. destruct (code mod 2 ^ 64 <? 2 ^ 63) eqn:A; [destruct ((code mod 2 ^ 64) mod 2 ^ 32 <? 2 ^ 31) eqn:B|destruct ((code mod 2 ^ 64 - 2 ^ 64) mod 2 ^ 32 <? 2 ^ 31) eqn:B]; lia.
    + apply s32_int. exact I.
  - unfold error_text. destruct (G "message"%string _ (or_intror (or_introl eq_refl))) as [(C & _)|C]; [discriminate C|]. inversion C. reflexivity.
Qed.

(** *** Requests from a list *)
Lemma list_call : forall name args id ctx,
  request_of_list [VStr None name; args; id; ctx] = parse_request (call_message Ver1 id name args ctx) /\
  request_of_list [VStr None name; args; id; ctx; VStr None (txt "2.0")] = parse_request (call_message Ver2 id name args ctx).
Proof. intros. rewrite !parse_call. split; reflexivity. Qed.
Lemma list_silent : forall method params flags ops inner a,
  responses (rs_log (rdrop (rrun (create ByFunction (request_of_list [method; params]) flags) ops) inner a)) = 0%nat.
Proof. intros. apply notification_silent. reflexivity. Qed.
