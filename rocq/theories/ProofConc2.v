(** The client used by several threads: nothing undefined, the history, no race. *)
From Coq Require Import List ZArith Bool Lia.
From Verif Require Import Base ModelRpc ModelConc SpecConc ProofConc.
Import ListNotations.

Ltac callfacts k :=
  match goal with
  | N : count_ok ?s, Ht : nth_error (c_thr ?s) ?t = Some ?old |- _ =>
    let N' := fresh "N'" in
    pose proof (N k) as N'; cbv zeta in N';
    pose proof (total_ge (w_new k) (c_thr s) t old Ht);
    pose proof (total_ge (w_car k) (c_thr s) t old Ht);
    pose proof (total_ge (w_wait k) (c_thr s) t old Ht);
    pose proof (total_ge (w_get k) (c_thr s) t old Ht);
    pose proof (total_ge (w_not k) (c_thr s) t old Ht);
    pose proof (total_ge (w_sleep k) (c_thr s) t old Ht);
    pose proof (total_ge (w_ddel k) (c_thr s) t old Ht);
    pose proof (total_ge (w_syn k) (c_thr s) t old Ht);
    pose proof (total_ge (w_asy k) (c_thr s) t old Ht);
    pose proof (frame_facts (c_thr s) k);
    rewrite ?wsum_cons in *; cbn [w_new w_car w_wait w_get w_not w_sleep w_ddel w_syn w_asy] in *;
    rewrite ?Nat.eqb_refl in *; cbn [b2n] in *
  end.

Lemma no_bad : forall s t, lock_ok s -> calm_ok s -> count_ok s -> tstep s t <> Some Bad.
Proof.
  intros s t L [C _] N H. unfold tstep in H. destruct (nth_error (c_thr s) t) as [[|f rest]|] eqn:Ht; [discriminate H| |discriminate H].
  assert (R : release (c_lock s) t = None -> hold f = 0).
  { intros E. apply release_none in E. destruct L as [L1 _]. specialize (L1 _ _ Ht). rewrite wsum_cons in L1. lia. }
  pose proof (allf_top _ _ _ _ _ C Ht) as Cf.
  destruct f; cbn [fstep] in H; unfold go, go_lock, go_unlock, with_call, set_call, new_call, add_call in H;
  repeat (fdest H; try discriminate H); try (specialize (R eq_refl); discriminate R); try discriminate Cf;
  try discriminate H; callfacts k;
  repeat match goal with A : nth_error (c_calls s) ?k = _, B : context [nth_error (c_calls s) ?k] |- _ => rewrite A in B end;
  try lia;
  repeat match goal with A : pc_live ?p = _ |- _ => rewrite A in * end;
  destruct (pc_sync p); cbn [b2n] in *; try lia.
Qed.

(** *** The history *)
Lemma a_snoc : forall l a b c e, a_run a l b -> a_step b c e -> a_run a (l ++ [e]) c.
Proof.
  induction l as [|x l IH]; intros a b c e H G; inversion H; subst; cbn.
  - econstructor; [exact G|constructor].
  - econstructor; [eassumption|]. eapply IH; eassumption.
Qed.
Lemma find_none : forall m id, find_call m id = None -> forall j, ~ In (id, j) m.
Proof.
  induction m as [|[i q] m IH]; intros id H j; cbn in *; [tauto|].
  destruct (Z.eqb_spec i id); [discriminate|]. intros [E|E]; [congruence|exact (IH _ H _ E)].
Qed.
Lemma find_some : forall m id k, find_call m id = Some k -> In (id, k) m.
Proof.
  induction m as [|[i q] m IH]; intros id k H; cbn in *; [discriminate|].
  destruct (Z.eqb_spec i id); [left; congruence|right; auto].
Qed.
Lemma erase_incl : forall m id x, In x (erase_call m id) -> In x m.
Proof.
  induction m as [|[i q] m IH]; intros id x H; cbn in *; [tauto|].
  destruct (Z.eqb i id); [auto|]. destruct H as [H|H]; [auto|right; eauto].
Qed.
Lemma erase_nodup : forall m id, NoDup (map fst m) -> NoDup (map fst (erase_call m id)).
Proof.
  induction m as [|[i q] m IH]; intros id H; cbn in *; [constructor|]. inversion H as [|? ? H1 H2]; subst.
  destruct (Z.eqb i id); [assumption|]. cbn. constructor; [|auto].
  intros C. apply H1. apply in_map_iff in C. destruct C as ([j p] & E & C). cbn in E. subst.
  apply erase_incl in C. apply (in_map fst) in C. exact C.
Qed.
Lemma erase_spec : forall m id k, NoDup (map fst m) -> find_call m id = Some k ->
  forall x, In x (erase_call m id) <-> In x m /\ x <> (id, k).
Proof.
  induction m as [|[i q] m IH]; intros id k H F x; cbn in *; [discriminate|]. inversion H as [|? ? H1 H2]; subst.
  destruct (Z.eqb_spec i id) as [->|E].
  - injection F as ->. split.
    + intros G. split; [auto|]. intros ->. apply H1. apply (in_map fst) in G. exact G.
    + intros [[->|G] D]; [congruence|exact G].
  - cbn. rewrite (IH _ _ H2 F). split.
    + intros [<-|[G D]]; [split; [auto|congruence]|auto].
    + intros [[G|G] D]; auto.
Qed.

Definition fin_frame (calls : list pcall) (fin : list (nat * rpc_result)) (f : frame) : Prop :=
  match f with
  | KUnlock k r | KResp k r | SDel k r => In (k, r) fin
  | RLock k | RSet k | DRun k => exists c, nth_error calls k = Some c /\ In (k, pc_res c) fin
  | _ => True
  end.
Lemma fin_mono : forall calls calls' fin fin' thr,
  (forall k c, nth_error calls k = Some c -> exists c', nth_error calls' k = Some c' /\ pc_res c' = pc_res c) ->
  (forall x, In x fin -> In x fin') ->
  allf (fin_frame calls fin) thr -> allf (fin_frame calls' fin') thr.
Proof.
  intros calls calls' fin fin' thr H G A. eapply allf_impl; [exact A|exact A|]. intros f P _.
  destruct f; cbn in *; auto; destruct P as (c & E & I); destruct (H _ _ E) as (c' & E' & R); exists c'; rewrite R; auto.
Qed.
Lemma fin_change : forall calls calls' fin fin' thr t f rest k news,
  allf (fin_frame calls fin) thr -> nth_error thr t = Some (f :: rest) ->
  total (w_car k) (upd thr t rest) = 0 -> total (w_get k) (upd thr t rest) = 0 ->
  (forall j, j <> k -> nth_error calls' j = nth_error calls j) ->
  (forall x, fst x <> k -> In x fin -> In x fin') ->
  Forall (fin_frame calls' fin') news ->
  allf (fin_frame calls' fin') (upd thr t (news ++ rest)).
Proof.
  intros calls calls' fin fin' thr t f rest k news A Ht Z1 Z2 Hc Hf Hn.
  assert (B : allf (fin_frame calls' fin') (upd thr t rest)).
  { eapply allf_impl with (P := fin_frame calls fin) (Q := fun f => w_car k f = 0 /\ w_get k f = 0).
    - apply allf_upd; [exact A|]. exact (allf_rest _ _ _ _ _ A Ht).
    - eapply allf_impl; [apply total_zero; exact Z1|apply total_zero; exact Z2|]. auto.
    - intros g P [Q1 Q2]. destruct g; cbn in *; auto;
      match goal with j : nat |- _ => destruct (Nat.eqb_spec j k); [discriminate|] end;
      try (apply Hf; assumption); destruct P as (c & E & I); exists c; (split; [rewrite Hc; assumption|apply Hf; assumption]). }
  rewrite <- (upd_upd _ thr t rest (news ++ rest)). apply allf_upd; [exact B|].
  apply Forall_app. split; [exact Hn|]. apply (allf_nth _ _ t _ B). rewrite upd_nth, Nat.eqb_refl, Ht. reflexivity.
Qed.

Definition log_ok (s : cstate) : Prop := exists a,
  a_run a_start (c_log s) a /\ a_pend a = c_map s /\ NoDup (map fst (c_map s)) /\
  (forall k, In k (a_used a) <-> k < length (c_calls s) /\ total (w_new k) (c_thr s) = 0) /\
  allf (fin_frame (c_calls s) (a_fin a)) (c_thr s) /\
  (forall k c, nth_error (c_calls s) k = Some c -> pc_sync c = true -> pc_recv c = true -> pc_live c = true -> In (k, pc_res c) (a_fin a)) /\
  (forall k c, nth_error (c_calls s) k = Some c -> 1 <= total (w_new k) (c_thr s) -> pc_res c = empty_result).

Definition same_res (calls calls' : list pcall) : Prop :=
  forall k c, nth_error calls k = Some c -> exists c', nth_error calls' k = Some c' /\ pc_res c' = pc_res c.
Lemma same_res_app : forall calls c, same_res calls (calls ++ [c]).
Proof.
  intros calls c k d E. exists d. split; [|reflexivity]. rewrite nth_error_app1; [exact E|]. apply nth_error_Some. congruence.
Qed.
Lemma same_res_upd : forall calls k p c, nth_error calls k = Some p -> pc_res c = pc_res p -> same_res calls (upd calls k c).
Proof.
  intros calls k p c E R j d F. rewrite upd_nth. destruct (Nat.eqb_spec k j) as [->|D].
  - rewrite F. exists c. split; [reflexivity|congruence].
  - eauto.
Qed.
Lemma used_new : forall s a t f rest stk c,
  nth_error (c_thr s) t = Some (f :: rest) -> count_ok s ->
  (forall k, In k (a_used a) <-> k < length (c_calls s) /\ total (w_new k) (c_thr s) = 0) ->
  (forall k, wsum (w_new k) stk = wsum (w_new k) (f :: rest) + b2n (Nat.eqb (length (c_calls s)) k)) ->
  forall k, In k (a_used a) <-> k < length (c_calls s ++ [c]) /\ total (w_new k) (upd (c_thr s) t stk) = 0.
Proof.
  intros s a t f rest stk c Ht N U W k. rewrite app_length. cbn [length]. rewrite U.
  pose proof (total_upd (w_new k) _ _ _ stk Ht) as E. specialize (W k).
  destruct (Nat.eqb_spec (length (c_calls s)) k); cbn [b2n] in W; lia.
Qed.
Lemma used_add : forall s a t f rest stk k,
  nth_error (c_thr s) t = Some (f :: rest) -> count_ok s ->
  (forall j, In j (a_used a) <-> j < length (c_calls s) /\ total (w_new j) (c_thr s) = 0) ->
  (forall j, wsum (w_new j) stk + b2n (Nat.eqb k j) = wsum (w_new j) (f :: rest)) ->
  ~ In k (a_used a) /\
  forall j, In j (k :: a_used a) <-> j < length (c_calls s) /\ total (w_new j) (upd (c_thr s) t stk) = 0.
Proof.
  intros s a t f rest stk k Ht N U W.
  assert (G : 1 <= total (w_new k) (c_thr s)).
  { pose proof (total_ge (w_new k) _ _ _ Ht) as E. specialize (W k). rewrite Nat.eqb_refl in W. cbn [b2n] in W. lia. }
  split.
  - rewrite U. lia.
  - intros j. cbn [In]. rewrite U. pose proof (total_upd (w_new j) _ _ _ stk Ht) as E. specialize (W j).
    destruct (Nat.eqb_spec k j) as [->|D]; cbn [b2n] in W.
    + split; [intros _|auto]. pose proof (N j) as N'. cbv zeta in N'.
      destruct (nth_error (c_calls s) j) as [c|] eqn:Ec; [|lia]. split; [apply nth_error_Some; congruence|lia].
    + split; [intros [?|[? ?]]; [contradiction|]|intros [? ?]; right]; lia.
Qed.

Lemma log_step : forall s t s',
  calm_ok s -> count_ok s -> log_ok s -> tstep s t = Some (Next s') -> log_ok s'.
Proof.
  intros s t s' [CA _] N (a & A1 & A2 & A3 & A4 & A5 & A6 & A7) H.
  assert (SAME : forall u f rest stk m mp calls' log b,
    nth_error (c_thr s) u = Some (f :: rest) ->
    Forall (fin_frame calls' (a_fin b)) stk ->
    (forall k c, nth_error (c_calls s) k = Some c -> exists c', nth_error calls' k = Some c' /\ pc_res c' = pc_res c) ->
    (forall x, In x (a_fin a) -> In x (a_fin b)) ->
    length calls' = length (c_calls s) -> (forall k, wsum (w_new k) stk = wsum (w_new k) (f :: rest)) ->
    (forall k c, nth_error calls' k = Some c -> pc_sync c = true -> pc_recv c = true -> pc_live c = true -> In (k, pc_res c) (a_fin b)) ->
    a_run a_start log b -> a_pend b = mp -> NoDup (map fst mp) -> a_used b = a_used a ->
    log_ok (mkCS m mp calls' (upd (c_thr s) u stk) log)).
  { intros u f rest stk m mp calls' log b Ht Q1 Q2 Q3 Q4 Q5 Q6 Q7 Q8 Q9 Q10. exists b. cbn [c_lock c_map c_calls c_thr c_log].
    repeat split; auto.
    - rewrite Q10, A4 in H0. lia.
    - rewrite Q10, A4 in H0. pose proof (total_upd (w_new k) _ _ _ stk Ht) as E. specialize (Q5 k). lia.
    - rewrite Q10, A4, <- Q4. pose proof (total_upd (w_new k) _ _ _ stk Ht) as E. specialize (Q5 k). intros [? ?]. lia.
    - apply allf_upd; [|exact Q1]. eapply fin_mono; [exact Q2|exact Q3|exact A5].
    - intros k c E G. pose proof (total_upd (w_new k) _ _ _ stk Ht) as E'. specialize (Q5 k).
      destruct (nth_error (c_calls s) k) as [d|] eqn:Ed.
      + destruct (Q2 _ _ Ed) as (d' & F1 & F2). rewrite F1 in E. injection E as <-. rewrite F2. apply (A7 k d Ed). lia.
      + apply nth_error_None in Ed. rewrite <- Q4 in Ed. apply nth_error_None in Ed. congruence. }
  assert (REST : forall u f rest, nth_error (c_thr s) u = Some (f :: rest) -> Forall (fin_frame (c_calls s) (a_fin a)) rest)
    by (intros u f rest E; exact (allf_rest _ _ _ _ _ A5 E)).
  assert (TOP : forall u f rest, nth_error (c_thr s) u = Some (f :: rest) -> fin_frame (c_calls s) (a_fin a) f)
    by (intros u f rest E; exact (allf_top _ _ _ _ _ A5 E)).
  assert (MONO : forall calls' fin', same_res (c_calls s) calls' -> (forall x, In x (a_fin a) -> In x fin') ->
    allf (fin_frame calls' fin') (c_thr s)) by (intros; eapply fin_mono; eassumption).
  assert (NEW : forall u f rest c m g,
    nth_error (c_thr s) u = Some (f :: rest) -> (forall k, w_new k f = 0) -> (forall k, w_new k g = b2n (Nat.eqb (length (c_calls s)) k)) ->
    pc_recv c = false -> pc_res c = empty_result -> (forall calls fin, fin_frame calls fin g) ->
    log_ok (mkCS m (c_map s) (c_calls s ++ [c]) (upd (c_thr s) u (g :: rest)) (c_log s))).
  { intros u f rest c m g Ht Hf Hg Hr Hr' Hg'.
    refine (ex_intro _ a (conj A1 (conj A2 (conj A3 (conj _ (conj _ (conj _ _))))))); cbn [c_lock c_map c_calls c_thr c_log].
    - eapply used_new; try eassumption. intros k. rewrite !wsum_cons, Hf, Hg. lia.
    - specialize (MONO (c_calls s ++ [c]) (a_fin a) (same_res_app _ _) (fun x i => i)).
      apply allf_upd; [exact MONO|]. constructor; [apply Hg'|]. exact (allf_rest _ _ _ _ _ MONO Ht).
    - intros k d E. destruct (Nat.lt_ge_cases k (length (c_calls s))) as [D|D].
      + rewrite nth_error_app1 in E by assumption. exact (A6 k d E).
      + rewrite nth_error_app2 in E by assumption. destruct (k - length (c_calls s)) as [|n]; cbn in E; [|destruct n; discriminate].
        injection E as <-. congruence.
    - intros k d E G. destruct (Nat.lt_ge_cases k (length (c_calls s))) as [D|D].
      + rewrite nth_error_app1 in E by assumption. apply (A7 k d E).
        pose proof (total_upd (w_new k) _ _ _ (g :: rest) Ht) as E'. rewrite !wsum_cons, Hf, Hg in E'.
        destruct (Nat.eqb_spec (length (c_calls s)) k); [lia|]. cbn [b2n] in E'. lia.
      + rewrite nth_error_app2 in E by assumption. destruct (k - length (c_calls s)) as [|n]; cbn in E; [|destruct n; discriminate].
        injection E as <-. exact Hr'. }
  assert (ADDED : forall u f rest k id send g,
    nth_error (c_thr s) u = Some (f :: rest) -> (forall j, w_new j f = b2n (Nat.eqb k j)) -> find_call (c_map s) id = None ->
    (forall j, w_new j g = 0) -> (forall calls fin, fin_frame calls fin g) ->
    log_ok (mkCS (c_lock s) ((id, k) :: c_map s) (c_calls s) (upd (c_thr s) u (Run send :: g :: rest)) (c_log s ++ [EAdd k id]))).
  { intros u f rest k id send g Ht Hf Fn Hg Hg'.
    destruct (used_add s a u f rest (Run send :: g :: rest) k Ht N A4) as [U1 U2].
    { intros j. rewrite !wsum_cons, Hf, Hg. cbn [w_new]. lia. }
    refine (ex_intro _ (mkA ((id, k) :: a_pend a) (a_fin a) (k :: a_used a)) (conj _ (conj _ (conj _ (conj U2 (conj _ (conj A6 _)))))));
      cbn [c_lock c_map c_calls c_thr c_log a_pend a_fin a_used].
    - eapply a_snoc; [exact A1|]. cbn. split; [exact U1|]. split; [|reflexivity]. rewrite A2. exact (find_none _ _ Fn).
    - rewrite A2. reflexivity.
    - cbn. constructor; [|exact A3]. intros C. apply in_map_iff in C. destruct C as ([i j] & E & C). cbn in E. subst. exact (find_none _ _ Fn _ C).
    - apply allf_upd; [exact A5|]. constructor; [exact I|]. constructor; [apply Hg'|]. exact (REST _ _ _ Ht).
    - intros j d E G. apply (A7 j d E). pose proof (total_upd (w_new j) _ _ _ (Run send :: g :: rest) Ht) as E'. rewrite !wsum_cons, Hf, Hg in E'. cbn [w_new] in E'. lia. }
  assert (REFUSED : forall u f rest k id send g h n,
    nth_error (c_thr s) u = Some (f :: rest) -> (forall j, w_new j f = b2n (Nat.eqb k j)) -> find_call (c_map s) id = Some n ->
    (forall j, w_new j g = 0) -> (forall calls fin, fin_frame calls fin g) -> h = RLock k \/ h = DRun k ->
    log_ok (mkCS (c_lock s) (c_map s) (c_calls s) (upd (c_thr s) u (h :: Run send :: g :: rest)) (c_log s ++ [ERefuse k id]))).
  { intros u f rest k id send g h n Ht Hf Fs Hg Hg' Hh.
    destruct (used_add s a u f rest (h :: Run send :: g :: rest) k Ht N A4) as [U1 U2].
    { intros j. rewrite !wsum_cons, Hf, Hg. destruct Hh; subst; cbn [w_new]; lia. }
    assert (M : allf (fin_frame (c_calls s) ((k, empty_result) :: a_fin a)) (c_thr s)) by (apply MONO; [intros j d; eauto|intros x i; right; exact i]).
    refine (ex_intro _ (mkA (a_pend a) ((k, empty_result) :: a_fin a) (k :: a_used a)) (conj _ (conj A2 (conj A3 (conj U2 (conj _ (conj _ _)))))));
      cbn [c_lock c_map c_calls c_thr c_log a_pend a_fin a_used].
    - eapply a_snoc; [exact A1|]. cbn. split; [exact U1|]. split; [|reflexivity]. rewrite A2. exists n. exact (find_some _ _ _ Fs).
    - apply allf_upd; [exact M|]. constructor; [|constructor; [exact I|constructor; [apply Hg'|exact (allf_rest _ _ _ _ _ M Ht)]]].
      pose proof (total_ge (w_new k) _ _ _ Ht) as G. rewrite wsum_cons, Hf, Nat.eqb_refl in G. cbn [b2n] in G.
      pose proof (N k) as N'. cbv zeta in N'. destruct (nth_error (c_calls s) k) as [c|] eqn:Ec; [|lia].
      assert (Er : pc_res c = empty_result) by (apply (A7 k c Ec); lia).
      destruct Hh; subst; cbn; exists c; rewrite Er; auto.
    - intros j d E1 E2 E3 E4. right. eauto.
    - intros j d E G. apply (A7 j d E). pose proof (total_upd (w_new j) _ _ _ (h :: Run send :: g :: rest) Ht) as E'. rewrite !wsum_cons, Hf, Hg in E'.
      destruct Hh; subst; cbn [w_new] in E'; lia. }
  assert (DONE : forall u f rest news k p c' m r,
    nth_error (c_thr s) u = Some (f :: rest) -> nth_error (c_calls s) k = Some p -> In (k, r) (a_fin a) ->
    total (w_car k) (upd (c_thr s) u rest) = 0 -> total (w_get k) (upd (c_thr s) u rest) = 0 ->
    (forall calls fin, Forall (fin_frame calls fin) news) -> (forall j, wsum (w_new j) news = w_new j f) ->
    pc_res c' = pc_res p -> pc_sync c' = false \/ pc_live c' = false ->
    log_ok (mkCS m (c_map s) (upd (c_calls s) k c') (upd (c_thr s) u (news ++ rest)) (c_log s ++ [EDone k r]))).
  { intros u f rest news k p c' m r Ht Ek Hin Z1 Z2 Hn Hw Hr Hd.
    assert (FS : forall x, In x (filter (fun x => negb (Nat.eqb (fst x) k)) (a_fin a)) <-> In x (a_fin a) /\ fst x <> k).
    { intros x. rewrite filter_In, negb_true_iff, Nat.eqb_neq. reflexivity. }
    assert (W : forall j, total (w_new j) (upd (c_thr s) u (news ++ rest)) = total (w_new j) (c_thr s)).
    { intros j. pose proof (total_upd (w_new j) _ _ _ (news ++ rest) Ht) as E. rewrite wsum_app, wsum_cons, Hw in E. lia. }
    refine (ex_intro _ (mkA (a_pend a) (filter (fun x => negb (Nat.eqb (fst x) k)) (a_fin a)) (a_used a)) (conj _ (conj A2 (conj A3 (conj _ (conj _ (conj _ _)))))));
      cbn [c_lock c_map c_calls c_thr c_log a_pend a_fin a_used].
    - eapply a_snoc; [exact A1|]. cbn. repeat split; auto; apply FS; assumption.
    - intros j. rewrite upd_length, W. apply A4.
    - eapply fin_change; try eassumption; [| |apply Hn].
      + intros j D. rewrite upd_nth. destruct (Nat.eqb_spec k j); [congruence|reflexivity].
      + intros x D I. apply FS. auto.
    - intros j c E. rewrite upd_nth in E. destruct (Nat.eqb_spec k j) as [->|D].
      + rewrite Ek in E. injection E as <-. destruct Hd; congruence.
      + intros. apply FS. split; [apply A6; assumption|]. cbn. congruence.
    - intros j c E G. rewrite W in G. rewrite upd_nth in E. destruct (Nat.eqb_spec k j) as [->|D].
      + rewrite Ek in E. injection E as <-. rewrite Hr. exact (A7 _ _ Ek G).
      + exact (A7 _ _ E G). }
  assert (GIVEN : forall u f rest k p c' v h m log,
    nth_error (c_thr s) u = Some (f :: rest) -> nth_error (c_calls s) k = Some p -> In (k, v) (a_fin a) -> log = c_log s ->
    total (w_car k) (upd (c_thr s) u rest) = 0 -> total (w_get k) (upd (c_thr s) u rest) = 0 ->
    h = RLock k \/ h = DRun k -> (forall j, w_new j f = 0) -> pc_recv c' = false -> pc_res c' = v -> total (w_new k) (c_thr s) = 0 ->
    log_ok (mkCS m (c_map s) (upd (c_calls s) k c') (upd (c_thr s) u (h :: rest)) log)).
  { intros u f rest k p c' v h m log Ht Ek Hin -> Z1 Z2 Hh Hw Hr Hv Hn.
    assert (W : forall j, total (w_new j) (upd (c_thr s) u (h :: rest)) = total (w_new j) (c_thr s)).
    { intros j. pose proof (total_upd (w_new j) _ _ _ (h :: rest) Ht) as E. rewrite !wsum_cons, Hw in E. destruct Hh; subst h; cbn [w_new] in *; lia. }
    refine (ex_intro _ a (conj A1 (conj A2 (conj A3 (conj _ (conj _ (conj _ _)))))));
      cbn [c_lock c_map c_calls c_thr c_log a_pend a_fin a_used].
    - intros j. rewrite upd_length, W. apply A4.
    - eapply (fin_change _ _ _ _ _ _ _ _ _ [h]); try eassumption; [| |].
      + intros j D. rewrite upd_nth. destruct (Nat.eqb_spec k j); [congruence|reflexivity].
      + auto.
      + constructor; [|constructor].
        assert (X : nth_error (upd (c_calls s) k c') k = Some c') by (rewrite upd_nth, Nat.eqb_refl, Ek; reflexivity).
        destruct Hh; subst h; cbn [fin_frame]; eexists; (split; [exact X|rewrite Hv; exact Hin]).
    - intros j c E. rewrite upd_nth in E. destruct (Nat.eqb_spec k j) as [->|D].
      + rewrite Ek in E. injection E as <-. cbn. congruence.
      + apply A6. exact E.
    - intros j c E G. rewrite W in G. rewrite upd_nth in E. destruct (Nat.eqb_spec k j) as [->|D]; [lia|exact (A7 _ _ E G)]. }
  dstep H t s f rest; specialize (REST _ _ _ Ht); specialize (TOP _ _ _ Ht); cbn [fin_frame] in TOP;
  try (eapply SAME; [exact Ht| |eauto|eauto|reflexivity| |exact A6|exact A1|exact A2|exact A3|reflexivity];
       [repeat (constructor; [first [exact I|exact TOP]|]); exact REST|intros k'; rewrite ?wsum_cons; cbn [w_new]; lia]; fail).
  - (* a new waiting call *)
    eapply NEW; try exact Ht; try reflexivity; intros; exact I.
  - (* refused *)
    eapply REFUSED; try exact Ht; try eassumption; try reflexivity; auto; intros; exact I.
  - eapply ADDED; try exact Ht; try eassumption; try reflexivity; intros; exact I.
  - apply (allf_top _ _ _ _ _ CA) in Ht. discriminate Ht.
  - (* the result is read *)
    eapply SAME; [exact Ht| |eauto|eauto|reflexivity| |exact A6|exact A1|exact A2|exact A3|reflexivity].
    + constructor; [|exact REST]. cbn. callfacts k. rewrite Heqo, Heqb in *. destruct (pc_recv p) eqn:Er; [|cbn [b2n] in *; lia].
      destruct (pc_sync p) eqn:Es; [|lia]. apply A6; assumption.
    + intros k'. rewrite ?wsum_cons. cbn [w_new]. lia.
  - (* the end of a waiting call *)
    callfacts k. pose proof (total_upd (w_car k) _ _ _ rest Ht) as E1. pose proof (total_upd (w_get k) _ _ _ rest Ht) as E2.
    rewrite wsum_cons in E1, E2. cbn [w_car w_get] in E1, E2. rewrite Nat.eqb_refl in E2. cbn [b2n] in E2. rewrite Heqo, Heqb in *. cbn [b2n] in *.
    eapply (DONE _ _ _ [] k p); [exact Ht|exact Heqo|exact TOP| | |intros; constructor|intros; reflexivity|reflexivity|right; reflexivity];
      destruct (pc_sync p); destruct (pc_recv p); cbn [b2n] in *; lia.
  - (* received *)
    eapply SAME; [exact Ht| | |eauto| | | |rewrite app_nil_r; exact A1|exact A2|exact A3|reflexivity].
    + constructor; [exact I|]. specialize (MONO _ (a_fin a) (same_res_upd _ k p (mkPC (pc_sync p) (pc_res p) true true (pc_fn p)) Heqo eq_refl) (fun x i => i)).
      exact (allf_rest _ _ _ _ _ MONO Ht).
    + eapply same_res_upd; [eassumption|reflexivity].
    + apply upd_length.
    + intros k'. rewrite ?wsum_cons. cbn [w_new]. lia.
    + intros j c E. rewrite upd_nth in E. destruct (Nat.eqb_spec k j) as [->|D]; [|apply A6; assumption].
      rewrite Heqo in E. injection E as <-. cbn. intros _ _ _. destruct TOP as (c' & E1 & E2). congruence.
  - (* notify *)
    assert (Q : log_ok (mkCS (c_lock s) (c_map s) (c_calls s) (upd (c_thr s) t (RUnlock :: rest)) (c_log s))).
    { eapply SAME; [exact Ht| |eauto|eauto|reflexivity| |exact A6|exact A1|exact A2|exact A3|reflexivity];
      [repeat (constructor; [exact I|]); exact REST|intros k'; rewrite ?wsum_cons; cbn [w_new]; lia]. }
    destruct Q as (b & B1 & B2 & B3 & B4 & B5 & B6 & B7). cbn [c_lock c_map c_calls c_thr c_log] in *.
    refine (ex_intro _ b (conj B1 (conj B2 (conj B3 (conj _ (conj _ (conj B6 _)))))));
      cbn [c_lock c_map c_calls c_thr c_log a_pend a_fin a_used].
    + intros j. rewrite total_wake by reflexivity. apply B4.
    + apply allf_wake; [auto|exact B5].
    + intros j c. rewrite total_wake by reflexivity. apply B7.
  - eapply NEW; try exact Ht; try reflexivity; intros; exact I.
  - eapply REFUSED; try exact Ht; try eassumption; try reflexivity; auto; intros; exact I.
  - eapply ADDED; try exact Ht; try eassumption; try reflexivity; intros; exact I.
  - (* the function is called *)
    callfacts k. pose proof (total_upd (w_car k) _ _ _ rest Ht) as E1. pose proof (total_upd (w_get k) _ _ _ rest Ht) as E2.
    rewrite wsum_cons in E1, E2. cbn [w_car w_get] in E1, E2. rewrite Nat.eqb_refl in E1. cbn [b2n] in E1. rewrite Heqo, Heqb in *. cbn [b2n] in *.
    destruct TOP as (c & Ec & Hc). assert (c = p) by congruence. subst c.
    eapply (DONE _ _ _ [Run (pc_fn p); DDel k] k p); [exact Ht|exact Heqo|exact Hc| | |intros; repeat constructor|intros; reflexivity|reflexivity
      |left; cbn; destruct (pc_sync p); [lia|reflexivity]]; destruct (pc_sync p); cbn [b2n] in *; lia.
  - (* the object is destroyed *)
    eapply SAME; [exact Ht| | |eauto| | | |rewrite app_nil_r; exact A1|exact A2|exact A3|reflexivity].
    + specialize (MONO _ (a_fin a) (same_res_upd _ k p (mkPC (pc_sync p) (pc_res p) (pc_recv p) false (pc_fn p)) Heqo eq_refl) (fun x i => i)).
      exact (allf_rest _ _ _ _ _ MONO Ht).
    + eapply same_res_upd; [eassumption|reflexivity].
    + apply upd_length.
    + intros k'. rewrite ?wsum_cons. cbn [w_new]. lia.
    + intros j c E. rewrite upd_nth in E. destruct (Nat.eqb_spec k j) as [->|D]; [|apply A6; assumption].
      rewrite Heqo in E. injection E as <-. cbn. discriminate.
  - (* taken *)
    assert (W : forall j, total (w_new j) (upd (c_thr s) t (KUnlock n r :: rest)) = total (w_new j) (c_thr s)).
    { intros j. pose proof (total_upd (w_new j) _ _ _ (KUnlock n r :: rest) Ht) as E. rewrite !wsum_cons in E. cbn [w_new] in *. lia. }
    refine (ex_intro _ (mkA (erase_call (c_map s) id) ((n, r) :: a_fin a) (a_used a)) (conj _ (conj eq_refl (conj (erase_nodup _ _ A3) (conj _ (conj _ (conj _ _)))))));
      cbn [c_lock c_map c_calls c_thr c_log a_pend a_fin a_used].
    + eapply a_snoc; [exact A1|]. cbn. rewrite A2. split; [exact (find_some _ _ _ Heqo)|]. split; [|split; reflexivity]. apply erase_spec; assumption.
    + intros j. rewrite W. apply A4.
    + assert (M : allf (fin_frame (c_calls s) ((n, r) :: a_fin a)) (c_thr s)) by (apply MONO; [intros j d; eauto|intros x i; right; exact i]).
      apply allf_upd; [exact M|]. constructor; [left; reflexivity|exact (allf_rest _ _ _ _ _ M Ht)].
    + intros. right. eauto.
    + intros j c. rewrite W. apply A7.
  - (* a miss *)
    eapply SAME; [exact Ht| |eauto|eauto|reflexivity| |exact A6| |exact A2|exact A3|reflexivity];
      [repeat (constructor; [exact I|]); exact REST|intros k'; rewrite ?wsum_cons; cbn [w_new]; lia|].
    eapply a_snoc; [exact A1|]. cbn. rewrite A2. split; [exact (find_none _ _ Heqo)|reflexivity].
  - (* the result is given *)
    callfacts k. pose proof (total_upd (w_car k) _ _ _ rest Ht) as E1. pose proof (total_upd (w_get k) _ _ _ rest Ht) as E2.
    rewrite wsum_cons in E1, E2. cbn [w_car w_get] in E1, E2. rewrite Nat.eqb_refl in E1. cbn [b2n] in E1. rewrite Heqo, Heqb, Heqb0 in *. cbn [b2n] in *.
    rewrite app_nil_r. eapply GIVEN; [exact Ht|exact Heqo|exact TOP|reflexivity| | |auto|intros; reflexivity| |reflexivity|];
      cbn [pc_recv]; destruct (pc_recv p); cbn [b2n] in *; first [lia|reflexivity].
  - callfacts k. pose proof (total_upd (w_car k) _ _ _ rest Ht) as E1. pose proof (total_upd (w_get k) _ _ _ rest Ht) as E2.
    rewrite wsum_cons in E1, E2. cbn [w_car w_get] in E1, E2. rewrite Nat.eqb_refl in E1. cbn [b2n] in E1. rewrite Heqo, Heqb, Heqb0 in *. cbn [b2n] in *.
    rewrite app_nil_r. eapply GIVEN; [exact Ht|exact Heqo|exact TOP|reflexivity| | |auto|intros; reflexivity| |reflexivity|];
      cbn [pc_recv]; destruct (pc_recv p); cbn [b2n] in *; first [lia|reflexivity].
  - eapply SAME; [exact Ht| |eauto|eauto|reflexivity| |exact A6|exact A1|exact A2|exact A3|reflexivity].
    + apply Forall_app. split; [|exact REST]. clear. induction ids; constructor; cbn; auto.
    + intros k'. rewrite w_klocks by reflexivity. reflexivity.
Qed.

(** *** All states *)
Record Inv (s : cstate) : Prop := {
  v_lock : lock_ok s; v_under : under_ok (c_thr s); v_calm : calm_ok s; v_count : count_ok s; v_log : log_ok s }.

Lemma step_inv : forall s t o, Inv s -> tstep s t = Some o -> exists s', o = Next s' /\ Inv s'.
Proof.
  intros s t o [L U C N G] H. destruct o as [s'|]; [|exfalso; exact (no_bad s t L C N H)].
  exists s'. split; [reflexivity|]. constructor.
  - eapply lock_step; eassumption.
  - eapply under_step; eassumption.
  - eapply calm_step; eassumption.
  - eapply count_step; eassumption.
  - eapply log_step; eassumption.
Qed.
Lemma spurious_inv : forall s t s', Inv s -> spurious s t = Some s' -> Inv s'.
Proof.
  intros s t s' [L U C N G] H. unfold spurious in H.
  destruct (nth_error (c_thr s) t) as [[|[] rest]|] eqn:Ht; try discriminate H. injection H as <-.
  pose proof (under_nth _ _ _ U Ht) as Ur. cbn [tl] in Ur. constructor; cbn [c_thr].
  - eapply lock_same; [exact L|exact Ht| | |reflexivity].
    + intros u. rewrite !wsum_cons. cbn [hold]. destruct (Nat.eqb t u); lia.
    + intros u d E. split; [apply (proj2 L _ _ E)|right; eauto].
  - apply under_upd; assumption.
  - destruct C as [C1 C2]. split; [|exact C2]. apply allf_upd; [exact C1|]. constructor; [exact I|exact (allf_rest _ _ _ _ _ C1 Ht)].
  - intros k'. cbv zeta. cbn [c_map c_calls c_thr]. specialize (N k'). cbv zeta in N.
    eqs (c_thr s) t Ht (SWake k :: rest) k'. rewrite ?wsum_cons in *. cbn [w_new w_car w_wait w_get w_not w_sleep w_ddel w_syn w_asy] in *.
    destruct (nth_error (c_calls s) k') as [c|]; [destruct (pc_sync c)|]; lia.
  - destruct G as (a & A1 & A2 & A3 & A4 & A5 & A6 & A7).
    assert (W : forall j, total (w_new j) (upd (c_thr s) t (SWake k :: rest)) = total (w_new j) (c_thr s)).
    { intros j. pose proof (total_upd (w_new j) _ _ _ (SWake k :: rest) Ht) as E. rewrite !wsum_cons in E. cbn [w_new] in *. lia. }
    refine (ex_intro _ a (conj A1 (conj A2 (conj A3 (conj _ (conj _ (conj A6 _))))))); cbn [c_lock c_map c_calls c_thr c_log].
    + intros j. rewrite W. apply A4.
    + apply allf_upd; [exact A5|]. constructor; [exact I|exact (allf_rest _ _ _ _ _ A5 Ht)].
    + intros j c. rewrite W. apply A7.
Qed.
Lemma move_inv : forall s m, Inv s -> exists s', cmove s m = Next s' /\ Inv s'.
Proof.
  intros s [t|t] H; cbn.
  - destruct (tstep s t) as [o|] eqn:E; [|eauto]. apply (step_inv s t o H E).
  - destruct (spurious s t) as [s'|] eqn:E; [|eauto]. exists s'. split; [reflexivity|]. exact (spurious_inv s t s' H E).
Qed.
Lemma exec_inv : forall l s, Inv s -> exists s', cexec s l = Next s' /\ Inv s'.
Proof.
  induction l as [|m l IH]; intros s H; cbn; [eauto|]. destruct (move_inv s m H) as (s' & -> & H'). exact (IH s' H').
Qed.

Lemma total_start : forall w progs, (forall l, w (Run l) = 0) -> total w (map (fun p => [Run p]) progs) = 0.
Proof. intros w progs H. induction progs as [|p progs IH]; cbn; [reflexivity|]. rewrite H, IH. reflexivity. Qed.
Lemma start_inv : forall progs, calm_all progs = true -> Inv (cstart progs).
Proof.
  intros progs H. unfold cstart. constructor; cbn [c_thr].
  - split; [|discriminate]. cbn. intros t stk E. rewrite nth_error_map in E. destruct (nth_error progs t); [|discriminate].
    injection E as <-. reflexivity.
  - unfold under_ok. rewrite Forall_map. rewrite Forall_forall. intros p _. constructor.
  - split; [|constructor]. cbn. unfold allf. rewrite Forall_map, Forall_forall. intros p Hp. constructor; [|constructor].
    unfold calm_all in H. rewrite forallb_forall in H. exact (H p Hp).
  - intros k. cbv zeta. cbn. destruct k; cbn; rewrite !total_start by reflexivity; reflexivity.
  - exists a_start. cbn. repeat split; try constructor; try tauto.
    + intros [? ?]. lia.
    + unfold allf. rewrite Forall_map, Forall_forall. intros p Hp. repeat constructor.
    + intros [|k] c E; discriminate.
    + intros [|k] c E; discriminate.
Qed.

Lemma reach : forall progs sched, calm_all progs = true -> exists s, cexec (cstart progs) sched = Next s /\ Inv s.
Proof. intros progs sched H. apply exec_inv. apply start_inv. exact H. Qed.

(** *** No race *)
Lemma total_two : forall w thr t u f g r q,
  t <> u -> nth_error thr t = Some (f :: r) -> nth_error thr u = Some (g :: q) -> w f + w g <= total w thr.
Proof.
  intros w thr t u f g r q D Ht Hu. pose proof (total_upd w thr t _ [] Ht) as E. rewrite wsum_cons in E. cbn [wsum] in E.
  assert (G : nth_error (upd thr t []) u = Some (g :: q)) by (rewrite upd_nth; destruct (Nat.eqb_spec t u); [contradiction|exact Hu]).
  pose proof (total_ge w _ _ _ G) as F. rewrite wsum_cons in F. lia.
Qed.
Lemma two_locks : forall s t u f g r q,
  lock_ok s -> t <> u -> nth_error (c_thr s) t = Some (f :: r) -> nth_error (c_thr s) u = Some (g :: q) -> hold f = 1 -> hold g = 1 -> False.
Proof.
  intros s t u f g r q [L _] D Ht Hu Hf Hg. apply L in Ht. apply L in Hu. rewrite wsum_cons in Ht, Hu.
  unfold owned in *. destruct (c_lock s) as [[v d]|]; [|lia].
  destruct (Nat.eqb_spec v t); destruct (Nat.eqb_spec v u); subst; lia.
Qed.
Lemma no_race : forall s, Inv s -> ~ race s.
Proof.
  intros s [L U [C _] N G] (t & u & f & g & l & w & v & D & Hf & Hg & Af & Ag & W).
  unfold next_frame in Hf, Hg.
  destruct (nth_error (c_thr s) t) as [[|f' r]|] eqn:Ht; try discriminate. injection Hf as ->.
  destruct (nth_error (c_thr s) u) as [[|g' q]|] eqn:Hu; try discriminate. injection Hg as ->.
  assert (K : forall k, w_new k f + w_new k g <= total (w_new k) (c_thr s) /\ w_car k f + w_car k g <= total (w_car k) (c_thr s) /\
    w_wait k f + w_wait k g <= total (w_wait k) (c_thr s) /\ w_get k f + w_get k g <= total (w_get k) (c_thr s) /\
    w_not k f + w_not k g <= total (w_not k) (c_thr s) /\ w_ddel k f + w_ddel k g <= total (w_ddel k) (c_thr s) /\
    w_syn k f + w_syn k g <= total (w_syn k) (c_thr s) /\ w_asy k f + w_asy k g <= total (w_asy k) (c_thr s))
    by (intros k; repeat split; eapply total_two; eassumption).
  assert (H2 : hold f = 1 -> hold g = 1 -> False) by (intros; eapply two_locks; eassumption).
  pose proof (allf_top _ _ _ _ _ C Ht) as Cf. pose proof (allf_top _ _ _ _ _ C Hu) as Cg.
  clear Ht Hu L U C G.
  assert (Q : forall k, (l = LObj k \/ l = LRes k \/ l = LRecv k) -> False).
  { intros k Hl. specialize (K k). specialize (N k). cbv zeta in N. pose proof (frame_facts (c_thr s) k) as FF.
    destruct f; cbn [accesses] in Af; try (destruct throws; [discriminate Cf|]); cbn [In] in Af;
    repeat match type of Af with _ \/ _ => destruct Af as [Af|Af] end; try contradiction Af; injection Af as <- <-;
    (destruct Hl as [Hl|[Hl|Hl]]; try discriminate Hl; injection Hl as ->);
    destruct g; cbn [accesses] in Ag; try (destruct throws; [discriminate Cg|]); cbn [In] in Ag;
    repeat match type of Ag with _ \/ _ => destruct Ag as [Ag|Ag] end; try contradiction Ag; try discriminate Ag;
    injection Ag; intros; subst; try (destruct W; discriminate); try (apply H2; reflexivity);
    cbn [w_new w_car w_wait w_get w_not w_sleep w_ddel w_syn w_asy] in K; rewrite ?Nat.eqb_refl in K; cbn [b2n] in K;
    (destruct (nth_error (c_calls s) k) as [c|]; [destruct (pc_sync c); destruct (pc_recv c); destruct (pc_live c); cbn [b2n] in *; lia|lia]). }
  destruct l as [|k|k|k]; try (apply (Q k); auto; fail).
  apply H2.
  - destruct f; cbn [accesses In] in Af; try reflexivity; repeat match type of Af with _ \/ _ => destruct Af as [Af|Af] end; try contradiction Af; try discriminate Af;
    destruct throws; discriminate Cf || contradiction Af.
  - destruct g; cbn [accesses In] in Ag; try reflexivity; repeat match type of Ag with _ \/ _ => destruct Ag as [Ag|Ag] end; try contradiction Ag; try discriminate Ag;
    destruct throws; discriminate Cg || contradiction Ag.
Qed.
