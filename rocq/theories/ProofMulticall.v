(** Proofs for C79, C80. *)
From Coq Require Import String Lia Permutation.
From Verif Require Import Base ModelKeyed ModelValue ModelObject ModelArray SpecArray ProofArray ModelMerge ModelJwt ModelRpc SpecRpc ProofRpc ProofSearch ModelMulticall SpecMulticall.
Local Open Scope list_scope.
Local Open Scope nat_scope.

Lemma wrap_as_args : forall v, wrap_params 3 v = as_args v.
Proof. intros []; reflexivity. Qed.
Lemma sub_request : forall name args id ctx version,
  rs_req (create ByCallbacks (mkReq name args id ctx version) 0) = mkReq name (as_args args) id ctx version.
Proof. intros. unfold create. cbn [rs_req rq_method rq_params rq_id rq_context rq_version]. rewrite wrap_as_args. reflexivity. Qed.

Notation kv := (fun v : value => ([], v) : member).
Lemma mc_value_eq : forall m, mc_value m =
  VObj false [(k_errors, VArr (defined_only (mc_errors m))); (k_results, VArr (defined_only (mc_results m)))].
Proof. intros m. unfold mc_value. rewrite !arr_new_commit. reflexivity. Qed.

Lemma apply_results : forall m o, mc_results (mc_apply m o) = mc_results m ++ [kv (result_item o)].
Proof. intros m []; reflexivity. Qed.
Lemma apply_errors : forall m o, mc_errors (mc_apply m o) = mc_errors m ++ map kv (error_items [o]).
Proof. intros m []; cbn; [rewrite app_nil_r|]; reflexivity. Qed.
Lemma apply_context : forall m o, mc_context (mc_apply m o) = next_context (mc_context m) o.
Proof. intros m [r c|e]; [destruct c|]; reflexivity. Qed.
Lemma apply_fork : forall m o, mc_fork (mc_apply m o) = (mc_fork m + 1)%Z.
Proof. intros m []; reflexivity. Qed.

Section Run.
Context {W : Type}.
Variable call : W -> preq -> W * (list outcome * list outcome).
Variables id version : value.
Notation run := (mc_run call id version).

Lemma run_call : forall name args rest w m made w1 a o,
  is_undef name = false ->
  call w (mkReq name (as_args args) id (mc_context m) version) = (w1, a) -> a = ([o], []) \/ a = ([], [o]) ->
  exists m', run ((name, args) :: rest) w m made = run rest w1 m' (made ++ [mkReq name (as_args args) id (mc_context m) version]) /\
    mc_results m' = mc_results m ++ [kv (result_item o)] /\ mc_errors m' = mc_errors m ++ map kv (error_items [o]) /\
    mc_context m' = next_context (mc_context m) o.
Proof.
  intros name args rest w m made w1 a o Hn Hc Ha. cbn [mc_run]. rewrite Hn, sub_request, Hc.
  destruct Ha as [-> | ->].
  - set (m1 := mc_apply (set_fork m 0) o). exists (set_fork m1 2). split.
    + cbn [mc_answers]. fold m1. assert (F : mc_fork m1 = 1%Z) by (subst m1; rewrite apply_fork; reflexivity). rewrite F. cbn [Z.eqb Pos.eqb].
      rewrite F. reflexivity.
    + subst m1. cbn [set_fork mc_results mc_errors mc_context]. rewrite apply_results, apply_errors, apply_context. auto.
  - set (m1 := mc_apply (set_fork (set_fork m 0) 1) o). exists m1. split.
    + cbn [mc_answers]. change (mc_fork (set_fork m 0) + 1)%Z with 1%Z. fold m1. cbn [set_fork mc_fork Z.eqb Pos.eqb].
      assert (F : mc_fork m1 = 2%Z) by (subst m1; rewrite apply_fork; reflexivity). fold m1. 
      change (mc_apply {| mc_results := mc_results m; mc_errors := mc_errors m; mc_context := mc_context m; mc_change := mc_change m; mc_fork := 1 |} o) with m1.
      rewrite F. reflexivity.
    + subst m1. rewrite apply_results, apply_errors, apply_context. auto.
Qed.

Lemma with_method_cons : forall name args l, with_method ((name, args) :: l) = if is_undef name then [] else (name, args) :: with_method l.
Proof. intros n args l. destruct n; reflexivity. Qed.

Lemma run_spec : one_answer call -> forall l w m made,
  exists w' made' outs, serve call id version (with_method l) w (mc_context m) w' made' outs /\
    run l w m made = (w', made ++ made', Answer (VObj false
      [(k_errors, VArr (defined_only (mc_errors m ++ map kv (error_items outs))));
       (k_results, VArr (defined_only (mc_results m ++ map kv (map result_item outs))))])).
Proof.
  intros H l. induction l as [|[name args] l IH]; intros w m made.
  - exists w, [], []. split; [constructor|]. cbn [mc_run map error_items flat_map]. rewrite !app_nil_r, mc_value_eq. reflexivity.
  - rewrite with_method_cons. destruct (is_undef name) eqn:Hn.
    + exists w, [], []. split; [constructor|]. cbn [mc_run map error_items flat_map]. rewrite Hn, !app_nil_r, mc_value_eq. reflexivity.
    + destruct (H w (mkReq name (as_args args) id (mc_context m) version)) as (o & Ho).
      destruct (call w (mkReq name (as_args args) id (mc_context m) version)) as [w1 a] eqn:Hc. cbn [snd] in Ho.
      destruct (run_call name args l w m made w1 a o Hn Hc Ho) as (m' & -> & R & E & C).
      destruct (IH w1 m' (made ++ [mkReq name (as_args args) id (mc_context m) version])) as (w' & made' & outs & Hs & ->).
      exists w', (mkReq name (as_args args) id (mc_context m) version :: made'), (o :: outs). split.
      * rewrite C in Hs. apply (sv_call call id version name args _ w _ w1 a o w' made' outs Hc Ho Hs).
      * rewrite R, E. replace (error_items (o :: outs)) with (error_items [o] ++ error_items outs) by (destruct o; reflexivity).
        rewrite map_app. cbn [map]. rewrite <- !app_assoc. reflexivity.
Qed.
Lemma run_waits : one_at_most call -> forall l w m made,
  (exists w' made' outs, serve call id version (with_method l) w (mc_context m) w' made' outs /\
    run l w m made = (w', made ++ made', Answer (VObj false
      [(k_errors, VArr (defined_only (mc_errors m ++ map kv (error_items outs))));
       (k_results, VArr (defined_only (mc_results m ++ map kv (map result_item outs))))]))) \/
  (exists before name args after w1 made' outs w2, with_method l = before ++ (name, args) :: after /\
    serve call id version before w (mc_context m) w1 made' outs /\
    let r := mkReq name (as_args args) id (fold_left next_context outs (mc_context m)) version in
    call w1 r = (w2, ([], [])) /\ run l w m made = (w2, made ++ made' ++ [r], Waiting)).
Proof.
  intros H l. induction l as [|[name args] l IH]; intros w m made.
  - left. exists w, [], []. split; [constructor|]. cbn [mc_run map error_items flat_map]. rewrite !app_nil_r, mc_value_eq. reflexivity.
  - rewrite with_method_cons. destruct (is_undef name) eqn:Hn.
    + left. exists w, [], []. split; [constructor|]. cbn [mc_run map error_items flat_map]. rewrite Hn, !app_nil_r, mc_value_eq. reflexivity.
    + destruct (call w (mkReq name (as_args args) id (mc_context m) version)) as [w1 a] eqn:Hc.
      destruct (H w (mkReq name (as_args args) id (mc_context m) version)) as [(o & Ho)|Ho]; rewrite Hc in Ho; cbn [snd] in Ho.
      * destruct (run_call name args l w m made w1 a o Hn Hc Ho) as (m' & -> & R & E & C).
        destruct (IH w1 m' (made ++ [mkReq name (as_args args) id (mc_context m) version])) as [(w' & made' & outs & Hs & ->)|(bf & nm & ag & af & wa & made' & outs & wb & A & B & D & ->)].
        -- left. exists w', (mkReq name (as_args args) id (mc_context m) version :: made'), (o :: outs). split.
           ++ rewrite C in Hs. apply (sv_call call id version name args _ w _ w1 a o w' made' outs Hc Ho Hs).
           ++ rewrite R, E. replace (error_items (o :: outs)) with (error_items [o] ++ error_items outs) by (destruct o; reflexivity).
              rewrite map_app. cbn [map]. rewrite <- !app_assoc. reflexivity.
        -- right. exists ((name, args) :: bf), nm, ag, af, wa, (mkReq name (as_args args) id (mc_context m) version :: made'), (o :: outs), wb.
           cbn [app fold_left]. rewrite A. split; [reflexivity|]. rewrite C in B, D |- *.
           split; [apply (sv_call call id version name args _ w _ w1 a o wa made' outs Hc Ho B)|]. cbv zeta. split; [exact D|].
           rewrite <- !app_assoc. reflexivity.
      * right. subst a. exists [], name, args, (with_method l), w, [], [], w1. split; [reflexivity|]. split; [constructor|]. cbn [fold_left]. split; [exact Hc|].
        cbn [mc_run]. rewrite Hn, sub_request, Hc. reflexivity.
Qed.
Lemma multicall_run : one_answer call -> forall l w ctx,
  exists w' made outs, serve call id version (with_method l) w ctx w' made outs /\
    run l w (mc_new ctx) [] = (w', made, Answer (multi_result outs)).
Proof. intros H l w ctx. exact (run_spec H l w (mc_new ctx) []). Qed.
End Run.

(** The specification determines everything. *)
Lemma serve_unique : forall W (call : W -> preq -> W * (list outcome * list outcome)) id version l w ctx w1 m1 o1 w2 m2 o2,
  serve call id version l w ctx w1 m1 o1 -> serve call id version l w ctx w2 m2 o2 -> w1 = w2 /\ m1 = m2 /\ o1 = o2.
Proof.
  intros W call id version l w ctx w1 m1 o1 w2 m2 o2 H. revert w2 m2 o2. induction H as [|name args l w ctx wa a o w' made outs Hc Ha _ IH]; intros w2 m2 o2 K.
  - inversion K; subst; auto.
  - inversion K as [|? ? ? ? ? wb b o' ? made' outs' Hc' Ha' K']; subst. rewrite Hc in Hc'. injection Hc' as <- <-.
    assert (o = o') as <- by (destruct Ha as [-> | ->], Ha' as [E|E]; congruence).
    destruct (IH _ _ _ K') as (<- & <- & <-). auto.
Qed.
Lemma serve_length : forall W (call : W -> preq -> W * (list outcome * list outcome)) id version l w ctx w1 m1 o1,
  serve call id version l w ctx w1 m1 o1 -> length m1 = length l /\ length o1 = length l.
Proof. induction 1 as [|name args l w ctx wa a o w' made outs Hc Ha _ IH]; cbn [length]; [auto|lia]. Qed.

Lemma defined_all : forall l, (forall v, In v l -> v <> VUndef) -> defined_only (map kv l) = map kv l.
Proof.
  induction l as [|v l IH]; intros H; [reflexivity|]. cbn [map defined_only filter snd]. unfold defined_only in IH. rewrite IH by (intros; apply H; right; assumption).
  destruct v; try reflexivity. destruct (H VUndef); [left; reflexivity|reflexivity].
Qed.
Lemma positions : forall outs, (forall r c, In (OResult r c) outs -> r <> VUndef) -> forall i o,
  nth_error outs i = Some o -> vitem (value_member (multi_result outs) (txt "results")) i = ([], result_item o).
Proof.
  intros outs H i o Hi. change (value_member (multi_result outs) (txt "results")) with (items (map result_item outs)).
  unfold items. rewrite defined_all.
  - unfold vitem. cbn [members_of]. rewrite map_map. apply nth_error_nth. rewrite nth_error_map, Hi. reflexivity.
  - intros v Hv. apply in_map_iff in Hv. destruct Hv as ([r c|e] & <- & Ho); cbn [result_item]; [eapply H; eauto|discriminate].
Qed.

(** *** The arguments *)
Lemma asks_calls : forall params calls, asks params calls -> mc_calls params = inl calls.
Proof.
  intros params calls [k e t l H|k a l H]; assert (F : forall x y, members_of params = x :: y -> vitem params 0 = x) by (intros x y Q; unfold vitem; rewrite Q; reflexivity);
    unfold mc_calls, vsize; rewrite (F _ _ H), H; reflexivity.
Qed.
Lemma multicall_all : forall W (call : W -> preq -> W * (list outcome * list outcome)) id version, one_answer call ->
  forall params calls ctx w, asks params calls ->
  exists w' made outs, serve call id version (with_method calls) w ctx w' made outs /\
    multicall call id version params ctx w = (w', made, inl (Answer (multi_result outs))).
Proof.
  intros W call id version H params calls ctx w Ha. unfold multicall. rewrite (asks_calls _ _ Ha).
  destruct (multicall_run call id version H calls w ctx) as (w' & made & outs & Hs & ->). exists w', made, outs. auto.
Qed.
Lemma multicall_waits : forall W (call : W -> preq -> W * (list outcome * list outcome)) id version, one_at_most call ->
  forall params calls ctx w, asks params calls ->
  (exists w' made outs, serve call id version (with_method calls) w ctx w' made outs /\
    multicall call id version params ctx w = (w', made, inl (Answer (multi_result outs)))) \/
  (exists before name args after w1 made outs w2, with_method calls = before ++ (name, args) :: after /\
    serve call id version before w ctx w1 made outs /\
    let r := mkReq name (as_args args) id (fold_left next_context outs ctx) version in
    call w1 r = (w2, ([], [])) /\ multicall call id version params ctx w = (w2, made ++ [r], inl Waiting)).
Proof.
  intros W call id version H params calls ctx w Ha. unfold multicall. rewrite (asks_calls _ _ Ha).
  destruct (run_waits call id version H calls w (mc_new ctx) []) as [(w' & made & outs & Hs & ->)|(bf & nm & ag & af & wa & made' & outs & wb & A & B & D & ->)].
  - left. exists w', made, outs. auto.
  - right. exists bf, nm, ag, af, wa, made', outs, wb. auto.
Qed.
Lemma multicall_refused : forall W (call : W -> preq -> W * (list outcome * list outcome)) id version params ctx w,
  (forall calls, ~ asks params calls) -> exists message, multicall call id version params ctx w = (w, [], inr message).
Proof.
  intros W call id version params ctx w H. unfold multicall, mc_calls, vsize. destruct (members_of params) as [|[k x] l] eqn:E; cbn [length Nat.eqb]; [eexists; reflexivity|].
  replace (vitem params 0) with (k, x) by (unfold vitem; rewrite E; reflexivity). cbn [snd].
  destruct x; try (eexists; reflexivity).
  - destruct (H _ (as_name _ _ _ _ _ E)).
  - destruct (H _ (as_pairs _ _ _ _ E)).
Qed.

(** *** Servers that answer before they return *)
Definition seen (s : rstate) : list outcome := flat_map event_outcome (rs_log s).
Definition cb (f : services) (s : rstate) : Prop := rs_kind s = ByCallbacks /\ rs_svc s = Some f.
Lemma seen_add : forall s e, seen (add_log s e) = seen s ++ event_outcome e.
Proof. intros. unfold seen, add_log. cbn [rs_log]. rewrite flat_map_app. cbn [flat_map]. rewrite app_nil_r. reflexivity. Qed.

Lemma step_cb : forall f s o, (forall c t d, exists e, f c t d = Some e) -> cb f s -> plain_op o = true ->
  cb f (fst (rstep s o)) /\ snd (rstep s o) = false /\
  length (seen (fst (rstep s o))) = length (seen s) + (if answering o then 1 else 0) /\
  rs_sent (fst (rstep s o)) = rs_sent s || answering o.
Proof.
  intros f s o Hf (K & S0) Hp. destruct s as [k rq sv st er nt fl lg]. cbn [rs_kind rs_svc] in K, S0. subst k sv.
  assert (B : forall X a, length (flat_map event_outcome ((lg ++ [Delivered X]) ++ [Answered a])) = length (flat_map event_outcome lg) + length (event_outcome (Delivered X))).
  { intros X a. rewrite !flat_map_app, !app_length. cbn [flat_map event_outcome length app]. rewrite ?app_nil_r. lia. }
  destruct o as [| |r c i a|e i a|c t d i a|i a|n d i a|i a]; try discriminate; destruct i; try discriminate; unfold cb, seen;
    cbn [rstep fold_left send_result send_error send_notify send_heartbeat rs_kind fst snd post_send set_notify set_sent add_log rs_svc rs_log rs_sent rs_req rs_flags rs_errsent rs_notify answering].
  - split; [auto|]. split; [auto|]. split; [rewrite B; reflexivity|]. destruct st; reflexivity.
  - split; [auto|]. split; [auto|]. split; [rewrite B; reflexivity|]. destruct st; reflexivity.
  - unfold send_error_code. cbn [rs_svc]. destruct (Hf c t d) as (e & ->).
    cbn [rstep fold_left send_error rs_kind fst snd post_send set_notify set_sent add_log rs_svc rs_log rs_sent rs_req rs_flags rs_errsent rs_notify].
    split; [auto|]. split; [auto|]. split; [rewrite B; reflexivity|]. destruct st; reflexivity.
  - split; [auto|]. split; [auto|]. split; [rewrite B; reflexivity|]. rewrite orb_false_r. reflexivity.
  - split; [auto|]. split; [auto|]. split; [rewrite B; reflexivity|]. rewrite orb_false_r. reflexivity.
Qed.
Lemma run_cb : forall f l s, (forall c t d, exists e, f c t d = Some e) -> cb f s -> forallb plain_op l = true ->
  cb f (rrun s l) /\ length (seen (rrun s l)) = length (seen s) + answers l /\ rs_sent (rrun s l) = rs_sent s || (0 <? answers l).
Proof.
  intros f l. induction l as [|o l IH]; intros s Hf Hs Hp.
  - unfold rrun, answers. cbn. rewrite orb_false_r. auto.
  - cbn [forallb] in Hp. apply andb_prop in Hp. destruct Hp as (P1 & P2). destruct (step_cb f s o Hf Hs P1) as (C & _ & L & T).
    destruct (IH (fst (rstep s o)) Hf C P2) as (C' & L' & T'). unfold rrun in *. cbn [fold_left]. split; [exact C'|].
    unfold answers in *. cbn [filter]. rewrite L', L, T', T. destruct (answering o); cbn [length]; split; try lia; destruct (rs_sent s); cbn; try reflexivity.
Qed.
Lemma drop_cb : forall f s, (forall c t d, exists e, f c t d = Some e) -> cb f s ->
  length (seen (rdrop s [] (Accepts true))) = length (seen s) + (if rs_sent s then 0 else 1).
Proof.
  intros f s Hf (K & S0). unfold rdrop. destruct (rs_sent s) eqn:E; [lia|]. destruct s as [k rq sv st er nt fl lg]. cbn [rs_kind rs_svc] in K, S0. subst k sv.
  cbn [rstep]. unfold send_no_result. cbn [rs_svc]. destruct (Hf (-32099)%Z (txt "The method did not produce a result") VUndef) as (e & ->).
  unfold seen. cbn [send_error rs_kind fst fold_left post_send set_notify set_sent add_log rs_log].
  rewrite !flat_map_app, !app_length. cbn [flat_map event_outcome app length]. lia.
Qed.

Lemma find_once : forall reg name m, Forall (fun m => once (snd m)) reg -> reg_find reg name = Some m -> once m.
Proof.
  intros reg name m H. unfold reg_find. destruct (find _ reg) as [x|] eqn:E; [|discriminate]. intros Q; injection Q as <-.
  rewrite Forall_forall in H. apply H. apply find_some in E. tauto.
Qed.
Lemma server_once : forall sv, plain_server sv -> one_answer (server_call sv).
Proof.
  intros sv (Hr & Hp & Hh & Hf) w r. set (f := sv_format sv) in *.
  assert (G : exists s, exec sv ([], Accepts true) ([], Accepts true) ([], Accepts true) (create ByCallbacks r 0) = Some s /\
    length (seen (rdrop s [] (Accepts true))) = 1).
  { unfold exec, exec_try. set (s0 := fst (rstep (create ByCallbacks r 0) (RInit (sv_format sv)))).
    assert (C0 : cb f s0) by (split; reflexivity). assert (L0 : seen s0 = []) by reflexivity. assert (T0 : rs_sent s0 = false) by reflexivity.
    assert (EC : forall c t d, cb f (fst (rstep s0 (RErrorCode c t d [] (Accepts true)))) /\ snd (rstep s0 (RErrorCode c t d [] (Accepts true))) = false /\
      length (seen (fst (rstep s0 (RErrorCode c t d [] (Accepts true))))) = 1 /\ rs_sent (fst (rstep s0 (RErrorCode c t d [] (Accepts true)))) = true).
    { intros c t d. destruct (step_cb f s0 (RErrorCode c t d [] (Accepts true)) Hf C0 eq_refl) as (C & N & L & T). rewrite L0 in L. rewrite T0 in T. auto. }
    assert (FIN : forall c t d, exists s, (let '(s1, e) := let '(t', thrown) := rstep s0 (RErrorCode c t d (fst (@nil rop, Accepts true)) (snd (@nil rop, Accepts true))) in
          (t', if thrown : bool then Raises None else Returns tt) in
        match e with Returns _ => Some s1 | Raises _ => None end) = Some s /\ length (seen (rdrop s [] (Accepts true))) = 1).
    { intros c t d. destruct (EC c t d) as (C & N & L & T). cbn [fst snd] in *. destruct (rstep s0 (RErrorCode c t d [] (Accepts true))) as [t' thrown].
      cbn [fst snd] in *. subst thrown. exists t'. split; [reflexivity|]. rewrite (drop_cb f _ Hf C), T. lia. }
    clearbody s0. cbv zeta.
    destruct (_ && _ && _).
    - destruct (reg_find (sv_reg sv) (get_string (rq_method (rs_req s0)))) as [m|] eqn:E.
      + pose proof (find_once _ _ _ Hr E (rs_req s0)) as (P & Q). destruct (m (rs_req s0)) as [l [[]|what]]; cbn [fst snd] in P, Q;
          destruct (run_cb f l s0 Hf C0 P) as (C & L & T).
        * exists (rrun s0 l). split; [reflexivity|]. rewrite (drop_cb f _ Hf C), L, T, L0, T0. cbn [length orb]. destruct (answers l) as [|[|n]]; cbn; lia.
        * rewrite Hh. rewrite Q in L, T. rewrite L0 in L. rewrite T0 in T.
          destruct (step_cb f (rrun s0 l) (internal_error what [] (Accepts true)) Hf C eq_refl) as (C' & N & L' & T'). cbn [fst snd] in *.
          destruct (rstep (rrun s0 l) (internal_error what [] (Accepts true))) as [t' thrown]. cbn [fst snd] in *. subst thrown.
          exists t'. split; [reflexivity|]. rewrite (drop_cb f _ Hf C'), L', T', L, T. cbn. lia.
      + rewrite Hp. destruct (FIN (-32601)%Z (txt "Method not found") (rq_method (rs_req s0))) as (s & Es & Ls). cbn [fst snd] in *.
        destruct (EC (-32601)%Z (txt "Method not found") (rq_method (rs_req s0))) as (_ & N & _). destruct (rstep s0 _) as [t' thrown]. cbn [snd] in N. subst thrown. exists t'. injection Es as ->. auto.
    - destruct (FIN (-32600)%Z (txt "Invalid request") VUndef) as (s & Es & Ls). cbn [fst snd] in *.
      destruct (EC (-32600)%Z (txt "Invalid request") VUndef) as (_ & N & _). destruct (rstep s0 _) as [t' thrown]. cbn [snd] in N. subst thrown. exists t'. injection Es as ->. auto. }
  destruct G as (s & Es & Ls). unfold server_call. rewrite Es. cbn [snd]. fold (seen (rdrop s [] (Accepts true))).
  destruct (seen (rdrop s [] (Accepts true))) as [|o [|? ?]]; try discriminate. exists o. auto.
Qed.

(** *** The list of methods *)
Lemma reg_find_in : forall reg name, (exists m, reg_find reg name = Some m) <-> In name (map fst reg).
Proof.
  intros reg name. unfold reg_find. induction reg as [|[n m] reg IH]; cbn [find map fst In].
  - split; [intros (m & H); discriminate|contradiction].
  - destruct (beqb n name) eqn:E.
    + apply beqb_eq in E. subst. split; [auto|intros _; eexists; reflexivity].
    + rewrite IH. split; [auto|]. intros [->|H]; [rewrite beqb_refl in E; discriminate|exact H].
Qed.
Lemma reg_nodup : forall l, NoDup (map fst (reg_run l)).
Proof.
  intros l. unfold reg_run. assert (H : forall reg, NoDup (map fst reg) -> NoDup (map fst (fold_left reg_step l reg))); [|apply H; constructor].
  induction l as [|o l IH]; intros reg H; [exact H|]. cbn [fold_left]. apply IH. destruct o as [n m|n|]; cbn [reg_step].
  - unfold reg_add. destruct (reg_find reg n) eqn:E; [exact H|]. cbn [map fst]. constructor; [|exact H]. intros K. apply reg_find_in in K. destruct K; congruence.
  - unfold reg_remove. clear IH. induction reg as [|[x y] reg IH]; [constructor|]. inversion H; subst. cbn [filter fst]. destruct (negb (beqb x n)); [|auto].
    cbn [map fst]. constructor; [|auto]. intros K. apply in_map_iff in K. destruct K as ((a & b) & Ea & Hb). apply filter_In in Hb. apply H2. apply in_map_iff. exists (a, b). tauto.
  - constructor.
Qed.
Lemma names_defined : forall names, defined_only (name_items names) = name_items names.
Proof. induction names as [|n names IH]; [reflexivity|]. unfold defined_only in *. cbn [name_items map filter snd is_undef negb]. f_equal. exact IH. Qed.
Lemma names_unique : forall names, NoDup names -> NoDup (name_items names).
Proof.
  intros names H. unfold name_items. induction H as [|n names Hn _ IH]; [constructor|]. cbn [map]. constructor; [|exact IH].
  intros K. apply in_map_iff in K. destruct K as (x & E & K). injection E as ->. contradiction.
Qed.
Lemma list_own : forall l names, Permutation names (map fst (reg_run l)) ->
  exists items, list_methods names None = VArr items /\ NoDup items /\
    forall name, In ([], VStr None name) items <-> exists m, reg_find (reg_run l) name = Some m.
Proof.
  intros l names P. exists (name_items names). unfold list_methods. rewrite arr_new_commit, names_defined. split; [reflexivity|].
  pose proof (reg_nodup l) as N. split; [apply names_unique; eapply Permutation_NoDup; [apply Permutation_sym; exact P|exact N]|].
  intros name. rewrite reg_find_in. unfold name_items. rewrite in_map_iff. split.
  - intros (x & E & H). injection E as ->. eapply Permutation_in; eauto.
  - intros H. exists name. split; [reflexivity|]. eapply Permutation_in; [apply Permutation_sym; exact P|exact H].
Qed.
Lemma list_proxied : forall names resp l, value_member resp k_result = VArr l ->
  list_methods names (Some resp) = VArr (name_items names ++ defined_only l).
Proof.
  intros names resp l H. unfold list_methods. rewrite arr_new_commit, names_defined, H. cbn [members_of].
  destruct (array_builder (CBase (name_items names)) [AAddSet (VArr l)]) as (a & Ha & _ & _ & Hc).
  - intros m Hm. unfold name_items in Hm. apply in_map_iff in Hm. destruct Hm as (x & <- & _). reflexivity.
  - cbn. auto.
  - cbn [arr_run arr_step arr_create members_of] in Ha. injection Ha as <-. rewrite Hc. f_equal.
    cbn [aspec_create aspec_run aspec_step as_cur fold_left]. unfold defined_only. rewrite filter_app. f_equal. apply names_defined.
Qed.
