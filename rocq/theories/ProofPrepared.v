(** Proofs about prepared calls. *)
From Verif Require Import Base ModelKeyed ModelValue ModelObject ModelRpc SpecRpc ProofRpc2 ModelPrepared SpecPrepared.

Lemma put_length : forall A (l : list A) n x, length (put l n x) = length l.
Proof. induction l; intros [|n] x; cbn; auto. Qed.
Lemma put_same : forall A (l : list A) n x y, nth_error l n = Some y -> nth_error (put l n x) n = Some x.
Proof. induction l; intros [|n] x y H; try discriminate; cbn in *; eauto. Qed.
Lemma put_other : forall A (l : list A) n m x, n <> m -> nth_error (put l n x) m = nth_error l m.
Proof. induction l; intros [|n] [|m] x H; cbn; auto; congruence. Qed.
Lemma nth_snoc : forall A (l : list A) x n y, nth_error (l ++ [x]) n = Some y ->
  nth_error l n = Some y \/ (n = length l /\ y = x).
Proof.
  intros A l x n y H. destruct (Nat.lt_ge_cases n (length l)) as [L|L].
  - rewrite nth_error_app1 in H by exact L. auto.
  - rewrite nth_error_app2 in H by exact L. right. destruct (n - length l) as [|[|k]] eqn:E; try discriminate.
    inversion H. split; auto. lia.
Qed.
Lemma nth_snoc_old : forall A (l : list A) x n y, nth_error l n = Some y -> nth_error (l ++ [x]) n = Some y.
Proof. intros A l x n y H. rewrite nth_error_app1; [exact H|]. apply nth_error_Some. congruence. Qed.

Lemma pop_nested : forall P : pop -> Prop,
  (forall v, P (DNew v)) -> (forall i, P (DCopyClient i)) -> (forall i n a c, P (DCall i n a c)) ->
  (forall i n a, P (DCallDefault i n a)) -> (forall p, P (DCopyCall p)) ->
  (forall p send t, Forall P send -> P (DAsync p send t)) -> (forall p send, Forall P send -> P (DWait p send)) ->
  (forall i o, P (DClient i o)) -> forall o, P o.
Proof.
  intros P H1 H2 H3 H4 H5 H6 H7 H8. fix IH 1. intros [v|i|i n a c|i n a|p|p send t|p send|i o]; [apply H1|apply H2|apply H3|apply H4|apply H5| | |apply H8].
  - apply H6. revert send. fix IHl 1. intros [|x l]; constructor; [apply IH|apply IHl].
  - apply H7. revert send. fix IHl 1. intros [|x l]; constructor; [apply IH|apply IHl].
Qed.

Section Same.
Variable same : value -> value -> bool.

(** What a step does, with [wrun] for what is inside. *)
Lemma step_async : forall p send throws w, wstep same (DAsync p send throws) w =
  match nth_error (w_preps w) p with
  | None => WBad
  | Some q =>
    if pr_executed q then WOk (add_ev w (EId p (pr_id q)))
    else match register same w p q with
         | None => WBad
         | Some (w1, _) =>
           match wrun same send w1 with
           | WOk w2 => WOk (if throws then w2 else add_ev (set_executed w2 p) (EId p (pr_id q)))
           | e => e
           end
         end
  end.
Proof. reflexivity. Qed.
Lemma step_wait : forall p send w, wstep same (DWait p send) w =
  match nth_error (w_preps w) p with
  | None => WBad
  | Some q =>
    if pr_executed q then WOk (add_ev w (ERes p empty_result))
    else match register same (set_executed w p) p q with
         | None => WBad
         | Some (w1, h) =>
           match wrun same send w1 with
           | WOk w2 => match outcome_of w2 (pr_owner q) h with Some r => WOk (add_ev w2 (ERes p r)) | None => WWait end
           | e => e
           end
         end
  end.
Proof. reflexivity. Qed.

Lemma all_async : forall p send t, all_of (DAsync p send t) = DAsync p send t :: all_ops send.
Proof. reflexivity. Qed.
Lemma all_wait : forall p send, all_of (DWait p send) = DWait p send :: all_ops send.
Proof. reflexivity. Qed.

(** Whatever every elementary step keeps is kept; [n] counts the identifiers asked for. *)
Section Keep.
Variable ok : pop -> Prop.
Variable I : nat -> world -> Prop.
Hypothesis up : forall n m w, (n <= m)%nat -> I n w -> I m w.
Hypothesis h_new : forall n w v, ok (DNew v) -> I n w -> I n (add_client w (Some v)).
Hypothesis h_copy : forall n w i c, ok (DCopyClient i) -> nth_error (w_clients w) i = Some c -> I n w -> I n (add_client w None).
Hypothesis h_call : forall n w i name args ctx v c, ok (DCall i name args ctx) -> nth_error (w_clients w) i = Some (Some v, c) -> I n w ->
  let '(c1, id, msg) := prepare c v name args ctx in I (n + 1) (add_prep (put_client w i (Some v) c1) (mkPrep i id msg false)).
Hypothesis h_call_default : forall n w i name args v c, ok (DCallDefault i name args) -> nth_error (w_clients w) i = Some (Some v, c) -> I n w ->
  let '(c1, id, msg) := prepare_default c v name args in I (n + 2) (add_prep (put_client w i (Some v) c1) (mkPrep i id msg false)).
Hypothesis h_copy_call : forall n w p q, ok (DCopyCall p) -> nth_error (w_preps w) p = Some q -> I n w -> I n (add_prep w q).
Hypothesis h_reg : forall n w p q w1 h, nth_error (w_preps w) p = Some q -> pr_executed q = false ->
  register same w p q = Some (w1, h) -> I n w -> I n w1.
Hypothesis h_reg_wait : forall n w p q w1 h, nth_error (w_preps w) p = Some q -> pr_executed q = false ->
  register same (set_executed w p) p q = Some (w1, h) -> I n w -> I n w1.
Hypothesis h_exec : forall n w p, I n w -> I n (set_executed w p).
Hypothesis h_ev : forall n w e, (forall p i id msg, e <> ESent p i id msg) -> I n w -> I n (add_ev w e).
Hypothesis h_client : forall n w i v c o c1, ok (DClient i o) -> nth_error (w_clients w) i = Some (v, c) -> cstep same c o = Some c1 ->
  I n w -> I n (put_client w i v c1).

Definition keeps (o : pop) : Prop := forall n w w', Forall ok (all_of o) -> I n w -> wstep same o w = WOk w' ->
  I (n + list_sum (map asks (all_of o))) w'.
Lemma keeps_run : forall l, Forall keeps l -> forall n w w', Forall ok (all_ops l) -> I n w -> wrun same l w = WOk w' -> I (n + asked l) w'.
Proof.
  unfold asked. induction 1 as [|o l K _ IH]; intros n w w' O Iw E; cbn [wrun all_ops flat_map] in *.
  - inversion E; subst. apply (up n); [lia|exact Iw].
  - apply Forall_app in O. destruct O as [O1 O2]. destruct (wstep same o w) as [w1| |] eqn:S; try discriminate.
    rewrite map_app, list_sum_app, Nat.add_assoc. eapply IH; [exact O2| |exact E]. eapply K; eauto.
Qed.
Lemma keeps_all : forall o, keeps o.
Proof.
  induction o as [v|i|i name args context|i name args|p|p send throws G|p send G|i o] using pop_nested; intros n w w' O Iw E.
  - cbn in *. inversion E; subst. inversion_clear O. apply (up n); [lia|]. apply h_new; auto.
  - cbn in *. destruct (nth_error (w_clients w) i) eqn:Ei; inversion E; subst. inversion_clear O. apply (up n); [lia|]. eapply h_copy; eauto.
  - cbn in *. unfold do_call in E. destruct (nth_error (w_clients w) i) as [[[v|] c]|] eqn:Ei; try discriminate. inversion_clear O as [|? ? O1 _].
    pose proof (h_call n w i name args context v c O1 Ei Iw) as H. destruct (prepare c v name args context) as [[c1 id] msg].
    inversion E; subst. exact H.
  - cbn in *. unfold do_call in E. destruct (nth_error (w_clients w) i) as [[[v|] c]|] eqn:Ei; try discriminate. inversion_clear O as [|? ? O1 _].
    pose proof (h_call_default n w i name args v c O1 Ei Iw) as H. destruct (prepare_default c v name args) as [[c1 id] msg].
    inversion E; subst. exact H.
  - cbn in *. destruct (nth_error (w_preps w) p) eqn:Ei; inversion E; subst. inversion_clear O. apply (up n); [lia|]. eapply h_copy_call; eauto.
  - rewrite all_async in *. rewrite step_async in E. inversion_clear O as [|? ? _ O1]. cbn [map asks list_sum fold_right Nat.add].
    destruct (nth_error (w_preps w) p) as [q|] eqn:Ep; [|discriminate]. destruct (pr_executed q) eqn:Ex.
    + inversion E; subst. apply (up n); [lia|]. apply h_ev; [discriminate|exact Iw].
    + destruct (register same w p q) as [[w1 h]|] eqn:R; [|discriminate].
      destruct (wrun same send w1) as [w2| |] eqn:W; try discriminate.
      pose proof (keeps_run send G n w1 w2 O1 (h_reg n w p q w1 h Ep Ex R Iw) W) as I2.
      inversion E; subst. destruct throws; [exact I2|]. apply h_ev; [discriminate|]. apply h_exec. exact I2.
  - rewrite all_wait in *. rewrite step_wait in E. inversion_clear O as [|? ? _ O1]. cbn [map asks list_sum fold_right Nat.add].
    destruct (nth_error (w_preps w) p) as [q|] eqn:Ep; [|discriminate]. destruct (pr_executed q) eqn:Ex.
    + inversion E; subst. apply (up n); [lia|]. apply h_ev; [discriminate|exact Iw].
    + destruct (register same (set_executed w p) p q) as [[w1 h]|] eqn:R; [|discriminate].
      destruct (wrun same send w1) as [w2| |] eqn:W; try discriminate.
      pose proof (keeps_run send G n w1 w2 O1 (h_reg_wait n w p q w1 h Ep Ex R Iw) W) as I2.
      destruct (outcome_of w2 (pr_owner q) h); inversion E; subst. apply h_ev; [discriminate|]. exact I2.
  - cbn in *. destruct (nth_error (w_clients w) i) as [[v c]|] eqn:Ei; try discriminate.
    destruct (cstep same c o) as [c1|] eqn:Ec; inversion E; subst. inversion_clear O. apply (up n); [lia|]. eapply h_client; eauto.
Qed.
Lemma keeps_ops : forall l n w w', Forall ok (all_ops l) -> I n w -> wrun same l w = WOk w' -> I (n + asked l) w'.
Proof. intros l. apply keeps_run. apply Forall_forall. intros o _. apply keeps_all. Qed.
End Keep.
End Same.

(** *** Elementary steps *)
Lemma exec_nth : forall w p m, nth_error (w_preps (set_executed w p)) m =
  if Nat.eqb m p then option_map (fun q => mkPrep (pr_owner q) (pr_id q) (pr_msg q) true) (nth_error (w_preps w) m)
  else nth_error (w_preps w) m.
Proof.
  intros w p m. unfold set_executed. destruct (nth_error (w_preps w) p) as [q|] eqn:E; cbn [w_preps].
  - destruct (Nat.eqb_spec m p) as [->|N].
    + rewrite (put_same _ _ _ _ _ E), E. reflexivity.
    + apply put_other. auto.
  - destruct (Nat.eqb_spec m p) as [->|N]; [rewrite E|]; reflexivity.
Qed.
Lemma exec_clients : forall w p, w_clients (set_executed w p) = w_clients w.
Proof. intros w p. unfold set_executed. destruct (nth_error (w_preps w) p); reflexivity. Qed.
Lemma exec_log : forall w p, w_log (set_executed w p) = w_log w.
Proof. intros w p. unfold set_executed. destruct (nth_error (w_preps w) p); reflexivity. Qed.
Lemma register_spec : forall same w p q w1 h, register same w p q = Some (w1, h) ->
  exists v c, nth_error (w_clients w) (pr_owner q) = Some (v, c) /\ h = cl_next c /\
    w1 = add_ev (put_client w (pr_owner q) v (add_pending same c (pr_id q))) (ESent p (pr_owner q) (pr_id q) (pr_msg q)).
Proof. intros same w p q w1 h H. unfold register in H. destruct (nth_error (w_clients w) (pr_owner q)) as [[v c]|]; [|discriminate]. inversion H; subst. eauto. Qed.
Lemma sent_for_snoc : forall p l e, sent_for p (l ++ [e]) = sent_for p l ++ sent_for p [e].
Proof. intros. apply filter_app. Qed.
Lemma sent_by_snoc : forall i l e, sent_by i (l ++ [e]) = sent_by i l ++ sent_by i [e].
Proof. intros i l e. induction l as [|[q j id m|q v|q r] l IH]; cbn [sent_by app]; auto. destruct (Nat.eqb j i); rewrite IH; reflexivity. Qed.

(** *** Once executed, never sent again *)
Lemma executed_keeps : forall same p l w w', executed w p -> wrun same l w = WOk w' ->
  executed w' p /\ sent_for p (w_log w') = sent_for p (w_log w).
Proof.
  intros same p l w w' X E.
  assert (EX : forall v m, executed v p -> executed (set_executed v m) p).
  { intros v m (q & A & B). unfold executed. rewrite exec_nth, A. destruct (Nat.eqb p m); cbn; eauto. }
  pose proof (keeps_ops same (fun _ => True) (fun _ v => executed v p /\ sent_for p (w_log v) = sent_for p (w_log w))) as K.
  refine (K _ _ _ _ _ _ _ _ _ _ _ l 0 w w' _ (conj X eq_refl) E); clear K; cbn beta.
  - intros n m v _ H. exact H.
  - intros n v ver _ H. exact H.
  - intros n v i c _ _ H. exact H.
  - intros n v i name args ctx ver c _ _ [(q & A & B) S]. cbn. split; [|exact S]. exists q. split; [apply nth_snoc_old; exact A|exact B].
  - intros n v i name args ver c _ _ [(q & A & B) S]. unfold prepare_default. destruct (gen_id c) as [c1 id1].
    unfold prepare. destruct (gen_id c1) as [c2 id]. cbn. split; [|exact S]. exists q. split; [apply nth_snoc_old; exact A|exact B].
  - intros n v m q0 _ _ [(q & A & B) S]. split; [|exact S]. exists q. split; [apply nth_snoc_old; exact A|exact B].
  - intros n v m q w1 h A B R [X1 S]. destruct (register_spec _ _ _ _ _ _ R) as (ver & c & _ & _ & ->).
    split; [exact X1|]. cbn [add_ev w_log put_client]. rewrite sent_for_snoc. cbn [sent_for filter].
    destruct (Nat.eqb_spec m p) as [->|N]; [|rewrite app_nil_r; exact S]. destruct X1 as (q2 & A2 & B2). congruence.
  - intros n v m q w1 h A B R [X1 S]. destruct (register_spec _ _ _ _ _ _ R) as (ver & c & _ & _ & ->).
    split; [exact (EX _ m X1)|]. cbn [add_ev w_log put_client]. rewrite exec_log, sent_for_snoc. cbn [sent_for filter].
    destruct (Nat.eqb_spec m p) as [->|N]; [|rewrite app_nil_r; exact S]. destruct X1 as (q2 & A2 & B2). congruence.
  - intros n v m [X1 S]. split; [apply EX; exact X1|]. rewrite exec_log. exact S.
  - intros n v e N [X1 S]. split; [exact X1|]. cbn [add_ev w_log]. rewrite sent_for_snoc. destruct e; cbn [sent_for filter]; rewrite ?app_nil_r; auto.
    exfalso. eapply N. reflexivity.
  - intros n v i ver c o c1 _ _ _ H. exact H.
  - apply Forall_forall. auto.
Qed.

(** A waiting call is sent exactly once; [>>] at least once. *)
Lemma wait_once : forall same p send w w', wstep same (DWait p send) w = WOk w' ->
  executed w' p /\
  exists q, nth_error (w_preps w) p = Some q /\
    sent_for p (w_log w') = sent_for p (w_log w) ++ (if pr_executed q then [] else [ESent p (pr_owner q) (pr_id q) (pr_msg q)]) /\
    exists r, last (w_log w') (EId p VUndef) = ERes p r /\ (pr_executed q = true -> r = empty_result /\ w_clients w' = w_clients w).
Proof.
  intros same p send w w' E. rewrite step_wait in E. destruct (nth_error (w_preps w) p) as [q|] eqn:Ep; [|discriminate].
  destruct (pr_executed q) eqn:Ex.
  - inversion E; subst. split; [exists q; auto|]. exists q. rewrite Ex. cbn [add_ev w_log w_clients]. rewrite sent_for_snoc, last_last. eauto 6.
  - destruct (register same (set_executed w p) p q) as [[w1 h]|] eqn:R; [|discriminate].
    destruct (register_spec _ _ _ _ _ _ R) as (ver & c & _ & _ & ->).
    destruct (wrun same send _) as [w2| |] eqn:W; try discriminate.
    apply (executed_keeps same p) in W.
    2:{ exists (mkPrep (pr_owner q) (pr_id q) (pr_msg q) true). cbn [add_ev put_client w_preps]. rewrite exec_nth, Nat.eqb_refl, Ep. auto. }
    destruct W as [X S]. destruct (outcome_of w2 (pr_owner q) h) as [r|]; inversion E; subst. split; [exact X|].
    exists q. rewrite Ex. cbn [add_ev w_log]. rewrite sent_for_snoc, app_nil_r, S, last_last.
    split; [reflexivity|]. split; [|eexists; split; [reflexivity|discriminate]]. cbn [put_client w_log add_ev].
    rewrite exec_log, sent_for_snoc. cbn [sent_for filter]. rewrite Nat.eqb_refl. reflexivity.
Qed.
Lemma async_sent : forall same p send throws w w', wstep same (DAsync p send throws) w = WOk w' ->
  exists q, nth_error (w_preps w) p = Some q /\
    (pr_executed q = true -> w_log w' = w_log w ++ [EId p (pr_id q)] /\ w_clients w' = w_clients w) /\
    (throws = false -> executed w' p /\ last (w_log w') (ERes p empty_result) = EId p (pr_id q)).
Proof.
  intros same p send throws w w' E. rewrite step_async in E. destruct (nth_error (w_preps w) p) as [q|] eqn:Ep; [|discriminate].
  exists q. split; [reflexivity|]. destruct (pr_executed q) eqn:Ex.
  - inversion E; subst. cbn [add_ev w_log w_clients]. split; [auto|]. intros _. rewrite last_last. split; [|reflexivity]. exists q. auto.
  - split; [discriminate|]. intros ->. destruct (register same w p q) as [[w1 h]|] eqn:R; [|discriminate].
    destruct (wrun same send w1) as [w2| |] eqn:W; try discriminate. inversion E; subst. cbn [add_ev w_log]. rewrite last_last.
    split; [|reflexivity]. unfold executed. cbn [add_ev w_preps]. rewrite exec_nth, Nat.eqb_refl.
    assert (X : exists q2, nth_error (w_preps w2) p = Some q2).
    { assert (L : (length (w_preps w1) <= length (w_preps w2))%nat).
      { pose proof (keeps_ops same (fun _ => True) (fun _ v => (length (w_preps w1) <= length (w_preps v))%nat)) as K.
        refine (K _ _ _ _ _ _ _ _ _ _ _ send 0 w1 w2 _ (Nat.le_refl _) W); clear K; cbn beta; try (intros; cbn [add_client put_client add_ev w_preps]; assumption).
        - intros n v i name args ctx ver c _ _ H. cbn. rewrite app_length. cbn. lia.
        - intros n v i name args ver c _ _ H. unfold prepare_default. destruct (gen_id c) as [c1 id1]. unfold prepare. destruct (gen_id c1). cbn. rewrite app_length. cbn. lia.
        - intros n v m q0 _ _ H. cbn. rewrite app_length. cbn. lia.
        - intros n v m q0 v1 h0 _ _ R1 H. destruct (register_spec _ _ _ _ _ _ R1) as (ver & c & _ & _ & ->). exact H.
        - intros n v m q0 v1 h0 _ _ R1 H. destruct (register_spec _ _ _ _ _ _ R1) as (ver & c & _ & _ & ->). cbn [add_ev put_client w_preps].
          unfold set_executed. destruct (nth_error (w_preps v) m); cbn; [rewrite put_length|]; exact H.
        - intros n v m H. unfold set_executed. destruct (nth_error (w_preps v) m); cbn; [rewrite put_length|]; exact H.
        - apply Forall_forall. auto. }
      destruct (register_spec _ _ _ _ _ _ R) as (ver & c & _ & _ & ->). cbn [add_ev put_client w_preps] in L.
      destruct (nth_error (w_preps w2) p) as [q2|] eqn:E2; [eauto|]. apply nth_error_None in E2.
      assert (p < length (w_preps w))%nat by (apply nth_error_Some; congruence). lia. }
    destruct X as (q2 & ->). cbn. eauto.
Qed.

(** *** What is sent *)
Definition made (ops : list pop) (w : world) (i : nat) (id msg : value) : Prop :=
  exists ver c n name args ctx, nth_error (w_clients w) i = Some (Some ver, c) /\ id = VNum (NUInt n) /\ (0 <= n < 2 ^ 32)%Z /\
    msg = call_message ver id name args ctx /\ (In (DCall i name args ctx) ops \/ In (DCallDefault i name args) ops).
Definition sent_inv (ops : list pop) (w : world) : Prop :=
  (forall p q, nth_error (w_preps w) p = Some q -> made ops w (pr_owner q) (pr_id q) (pr_msg q)) /\
  (forall p i id msg, In (ESent p i id msg) (w_log w) ->
     exists q, nth_error (w_preps w) p = Some q /\ pr_owner q = i /\ pr_id q = id /\ pr_msg q = msg).
(** the version of a client stays *)
Definition versions (w w' : world) : Prop :=
  forall i v c, nth_error (w_clients w) i = Some (v, c) -> exists c', nth_error (w_clients w') i = Some (v, c').
Lemma made_versions : forall ops w w' i id msg, versions w w' -> made ops w i id msg -> made ops w' i id msg.
Proof.
  intros ops w w' i id msg V (ver & c & n & name & args & ctx & A & B). destruct (V _ _ _ A) as (c' & A').
  exists ver, c', n, name, args, ctx. auto.
Qed.
Lemma versions_put : forall w i v c c1, nth_error (w_clients w) i = Some (v, c) -> versions w (put_client w i v c1).
Proof.
  intros w i v c c1 A j v2 c2 B. cbn [put_client w_clients]. destruct (Nat.eq_dec i j) as [<-|N].
  - rewrite (put_same _ _ _ _ _ A). rewrite A in B. inversion B; subst. eauto.
  - rewrite put_other by exact N. eauto.
Qed.
Lemma versions_ev : forall w w' e, versions w w' -> versions w (add_ev w' e).
Proof. intros w w' e V. exact V. Qed.
Lemma versions_add : forall w v, versions w (add_client w v).
Proof. intros w v i v2 c A. cbn. exists c. apply nth_snoc_old. exact A. Qed.
Lemma made_call : forall ops w i v c c1 n name args ctx, nth_error (w_clients w) i = Some (Some v, c) -> (0 <= n < 2 ^ 32)%Z ->
  In (DCall i name args ctx) ops \/ In (DCallDefault i name args) ops -> sent_inv ops w ->
  sent_inv ops (add_prep (put_client w i (Some v) c1) (mkPrep i (VNum (NUInt n)) (call_message v (VNum (NUInt n)) name args ctx) false)).
Proof.
  intros ops w i v c c1 n name args ctx A N O [P S]. split.
  - intros p q H. cbn [add_prep w_preps put_client] in H. apply nth_snoc in H. destruct H as [H|[_ ->]].
    + apply (made_versions ops w); [exact (versions_put w i (Some v) c c1 A)|]. eapply P; eauto.
    + exists v, c1, n, name, args, ctx. cbn [pr_owner pr_id pr_msg add_prep put_client w_clients]. rewrite (put_same _ _ _ _ _ A). auto.
  - intros p j id msg H. apply S in H. destruct H as (q & H1 & H2). exists q. split; [apply nth_snoc_old; exact H1|exact H2].
Qed.
Lemma sent_inv_move : forall ops w w', versions w w' ->
  (forall p q', nth_error (w_preps w') p = Some q' -> exists q, nth_error (w_preps w) p = Some q /\ pr_owner q = pr_owner q' /\ pr_id q = pr_id q' /\ pr_msg q = pr_msg q') ->
  (forall p q, nth_error (w_preps w) p = Some q -> exists q', nth_error (w_preps w') p = Some q' /\ pr_owner q = pr_owner q' /\ pr_id q = pr_id q' /\ pr_msg q = pr_msg q') ->
  (forall p i id msg, In (ESent p i id msg) (w_log w') -> In (ESent p i id msg) (w_log w) \/
     exists q, nth_error (w_preps w') p = Some q /\ pr_owner q = i /\ pr_id q = id /\ pr_msg q = msg) ->
  sent_inv ops w -> sent_inv ops w'.
Proof.
  intros ops w w' V B F L [P S]. split.
  - intros p q' H. destruct (B _ _ H) as (q & H1 & E1 & E2 & E3). rewrite <- E1, <- E2, <- E3. apply (made_versions ops w); [exact V|]. eauto.
  - intros p i id msg H. destruct (L _ _ _ _ H) as [H1|H1]; [|exact H1]. destruct (S _ _ _ _ H1) as (q & H2 & E1 & E2 & E3).
    destruct (F _ _ H2) as (q' & H3 & F1 & F2 & F3). exists q'. repeat split; congruence.
Qed.
Lemma exec_back : forall w m p q', nth_error (w_preps (set_executed w m)) p = Some q' -> exists q, nth_error (w_preps w) p = Some q /\ pr_owner q = pr_owner q' /\ pr_id q = pr_id q' /\ pr_msg q = pr_msg q'.
Proof.
  intros w m p q' H. rewrite exec_nth in H. destruct (Nat.eqb p m); [|eauto].
  destruct (nth_error (w_preps w) p) as [q|]; [|discriminate]. inversion H; subst. exists q. auto.
Qed.
Lemma exec_forth : forall w m p q, nth_error (w_preps w) p = Some q -> exists q', nth_error (w_preps (set_executed w m)) p = Some q' /\ pr_owner q = pr_owner q' /\ pr_id q = pr_id q' /\ pr_msg q = pr_msg q'.
Proof. intros w m p q H. rewrite exec_nth, H. destruct (Nat.eqb p m); cbn; eexists; split; try reflexivity; auto. Qed.
Lemma versions_refl : forall w w', w_clients w' = w_clients w -> versions w w'.
Proof. intros w w' E i v c H. rewrite E. eauto. Qed.

Lemma sent_made_inv : forall same ops l w w', (forall o, In o (all_ops l) -> In o ops) -> sent_inv ops w -> wrun same l w = WOk w' -> sent_inv ops w'.
Proof.
  intros same ops l w w' O S E.
  pose proof (keeps_ops same (fun o => In o ops) (fun _ v => sent_inv ops v)) as K.
  refine (K _ _ _ _ _ _ _ _ _ _ _ l 0 w w' _ S E); clear K; cbn beta.
  - intros n m v _ H. exact H.
  - intros n v ver _ H. refine (sent_inv_move ops v _ (versions_add _ _) _ _ _ H); cbn; eauto.
  - intros n v i c _ _ H. refine (sent_inv_move ops v _ (versions_add _ _) _ _ _ H); cbn; eauto.
  - intros n v i name args ctx ver c O1 A H. cbn. refine (made_call ops v i ver c _ _ name args ctx A _ (or_introl O1) H). apply Z.mod_pos_bound. lia.
  - intros n v i name args ver c O1 A H. cbn. refine (made_call ops v i ver c _ _ name args _ A _ (or_intror O1) H). apply Z.mod_pos_bound. lia.
  - intros n v m q0 _ A [P L]. split.
    + intros p q H. cbn in H. apply nth_snoc in H. destruct H as [H|[_ ->]]; eauto.
    + intros p i id msg H. cbn in H. apply L in H. destruct H as (q & H1 & H2). exists q. split; [apply nth_snoc_old; exact H1|exact H2].
  - intros n v m q w1 h A B R H. destruct (register_spec _ _ _ _ _ _ R) as (ver & c & C & _ & ->).
    refine (sent_inv_move ops v _ (versions_ev _ _ _ (versions_put _ _ _ _ _ C)) _ _ _ H); cbn; eauto.
    intros p i id msg X. apply in_app_iff in X. destruct X as [X|[X|[]]]; auto. inversion X; subst. right. eauto.
  - intros n v m q w1 h A B R H. destruct (register_spec _ _ _ _ _ _ R) as (ver & c & C & _ & ->). rewrite exec_clients in C.
    assert (H2 : sent_inv ops (set_executed v m)).
    { refine (sent_inv_move ops v _ (versions_refl _ _ (exec_clients _ _)) (exec_back v m) (exec_forth v m) _ H). rewrite exec_log. auto. }
    assert (C2 : nth_error (w_clients (set_executed v m)) (pr_owner q) = Some (ver, c)) by (rewrite exec_clients; exact C).
    refine (sent_inv_move ops _ _ (versions_ev _ _ _ (versions_put _ _ _ _ _ C2)) _ _ _ H2); cbn [add_ev put_client w_preps w_log]; eauto.
    intros p i id msg X. apply in_app_iff in X. destruct X as [X|[X|[]]]; auto. inversion X; subst. right.
    destruct (exec_forth v p p q A) as (q' & Q1 & Q2 & Q3 & Q4). exists q'. auto.
  - intros n v m H. refine (sent_inv_move ops v _ (versions_refl _ _ (exec_clients _ _)) (exec_back v m) (exec_forth v m) _ H). rewrite exec_log. auto.
  - intros n v e N H. refine (sent_inv_move ops v _ (versions_refl v (add_ev v e) eq_refl) _ _ _ H); cbn; eauto.
    intros p i id msg X. apply in_app_iff in X. destruct X as [X|[X|[]]]; auto. exfalso. eapply N; eauto.
  - intros n v i ver c o c1 _ A _ H. refine (sent_inv_move ops v _ (versions_put _ _ _ _ _ A) _ _ _ H); cbn; eauto.
  - apply Forall_forall. exact O.
Qed.
Lemma sent_made : forall same ops w p i id msg, wrun same ops start = WOk w -> In (ESent p i id msg) (w_log w) ->
  exists ver c n name args ctx, nth_error (w_clients w) i = Some (Some ver, c) /\ id = VNum (NUInt n) /\ (0 <= n < 2 ^ 32)%Z /\
    msg = call_message ver id name args ctx /\ (In (DCall i name args ctx) (all_ops ops) \/ In (DCallDefault i name args) (all_ops ops)).
Proof.
  intros same ops w p i id msg E H. destruct (sent_made_inv same (all_ops ops) ops start w (fun _ X => X)) as [P S]; [|exact E|].
  - split; [intros [|p0]; discriminate|intros ? ? ? ? []].
  - destruct (S _ _ _ _ H) as (q & A & <- & <- & <-). exact (P _ _ A).
Qed.

(** *** A client of the world is a client *)
Definition hist_op (ops : list pop) (i : nat) (o : cop) : Prop :=
  o = CPrepare \/ o = CPrepareDefault \/ (exists n, (0 <= n < 2 ^ 32)%Z /\ o = CSend (VNum (NUInt n))) \/ In (DClient i o) ops.
Definition hist_inv (same : value -> value -> bool) (ops : list pop) (w : world) : Prop :=
  sent_inv ops w /\
  (forall i, (length (w_clients w) <= i)%nat -> sent_by i (w_log w) = []) /\
  forall i v c, nth_error (w_clients w) i = Some (v, c) ->
    exists h, crun same client_new h = Some c /\ sent_ids h = sent_by i (w_log w) /\ Forall (hist_op ops i) h.
Lemma sent_ids_snoc : forall h o, sent_ids (h ++ [o]) = sent_ids h ++ sent_ids [o].
Proof. intros h o. induction h as [|x h IH]; [reflexivity|]. destruct x; cbn [sent_ids app]; rewrite ?IH; reflexivity. Qed.
(** one more operation of the client [i] *)
Lemma hist_add : forall same ops w w1 i v c o c1 e, hist_inv same ops w -> sent_inv ops w1 ->
  nth_error (w_clients w) i = Some (v, c) -> cstep same c o = Some c1 -> hist_op ops i o ->
  w_clients w1 = put (w_clients w) i (v, c1) -> w_log w1 = w_log w ++ e ->
  (forall j, sent_by j e = if Nat.eqb j i then sent_ids [o] else []) -> hist_inv same ops w1.
Proof.
  intros same ops w w1 i v c o c1 e (_ & L & H) S A C O Ec El Eb.
  assert (SA : forall j, sent_by j (w_log w1) = sent_by j (w_log w) ++ if Nat.eqb j i then sent_ids [o] else []).
  { intros j. rewrite El, <- Eb. clear. induction (w_log w) as [|[p k id m|p u|p r] l IH]; cbn [sent_by app]; auto.
    destruct (Nat.eqb k j); rewrite IH; reflexivity. }
  split; [exact S|]. split.
  - intros j Hj. rewrite Ec, put_length in Hj. rewrite SA, (L j Hj). destruct (Nat.eqb_spec j i) as [->|N]; [|reflexivity].
    apply nth_error_None in Hj. congruence.
  - intros j v2 c2 Hj. rewrite Ec in Hj. rewrite SA. destruct (Nat.eqb_spec j i) as [->|N].
    + rewrite (put_same _ _ _ _ _ A) in Hj. inversion Hj; subst. destruct (H _ _ _ A) as (h & H1 & H2 & H3).
      exists (h ++ [o]). rewrite crun_app, H1, sent_ids_snoc, H2. cbn [crun]. rewrite C.
      split; [reflexivity|]. split; [reflexivity|]. apply Forall_app. auto.
    + rewrite put_other in Hj by auto. destruct (H _ _ _ Hj) as (h & H1 & H2 & H3). exists h. rewrite app_nil_r. auto.
Qed.
(** nothing new for clients *)
Lemma hist_same : forall same ops w w1, hist_inv same ops w -> sent_inv ops w1 -> w_clients w1 = w_clients w ->
  (forall j, sent_by j (w_log w1) = sent_by j (w_log w)) -> hist_inv same ops w1.
Proof.
  intros same ops w w1 (_ & L & H) S Ec El. split; [exact S|]. split.
  - intros j Hj. rewrite El. apply L. rewrite <- Ec. exact Hj.
  - intros j v c Hj. rewrite El. apply H with (v := v). rewrite <- Ec. exact Hj.
Qed.
Lemma hist_new : forall same ops w v, hist_inv same ops w -> sent_inv ops (add_client w v) -> hist_inv same ops (add_client w v).
Proof.
  intros same ops w v (_ & L & H) S. split; [exact S|]. split.
  - intros j Hj. cbn in *. apply L. rewrite app_length in Hj. cbn in Hj. lia.
  - intros j v2 c2 Hj. cbn in *. apply nth_snoc in Hj. destruct Hj as [Hj|[-> Hj]]; [eauto|]. inversion Hj; subst.
    exists []. rewrite L by lia. auto.
Qed.

Lemma sent_inv_step : forall same ops o w w', (forall x, In x (all_of o) -> In x ops) -> sent_inv ops w -> wstep same o w = WOk w' -> sent_inv ops w'.
Proof.
  intros same ops o w w' O S E. refine (sent_made_inv same ops [o] w w' _ S _).
  - unfold all_ops. cbn. rewrite app_nil_r. exact O.
  - cbn [wrun]. rewrite E. reflexivity.
Qed.
Lemma sent_inv_register : forall same ops w p q w1 h, nth_error (w_preps w) p = Some q -> register same w p q = Some (w1, h) -> sent_inv ops w -> sent_inv ops w1.
Proof.
  intros same ops w p q w1 h A R S. destruct (register_spec _ _ _ _ _ _ R) as (ver & c & C & _ & ->).
  refine (sent_inv_move ops w _ (versions_ev _ _ _ (versions_put _ _ _ _ _ C)) _ _ _ S); cbn; eauto.
  intros m i id msg X. apply in_app_iff in X. destruct X as [X|[X|[]]]; auto. inversion X; subst. right. eauto.
Qed.
Lemma sent_inv_exec : forall ops w p, sent_inv ops w -> sent_inv ops (set_executed w p).
Proof.
  intros ops w p H. refine (sent_inv_move ops w _ (versions_refl _ _ (exec_clients _ _)) (exec_back w p) (exec_forth w p) _ H).
  rewrite exec_log. auto.
Qed.
Lemma hist_register : forall same ops w p q w1 h, nth_error (w_preps w) p = Some q -> register same w p q = Some (w1, h) ->
  hist_inv same ops w -> hist_inv same ops w1.
Proof.
  intros same ops w p q w1 h A R Hi. pose proof (sent_inv_register _ _ _ _ _ _ _ A R (proj1 Hi)) as S1.
  destruct (register_spec _ _ _ _ _ _ R) as (ver & c & C & _ & ->).
  destruct (proj1 Hi) as [P _]. destruct (P _ _ A) as (v2 & c2 & n & _ & _ & _ & _ & Eid & N & _).
  refine (hist_add same ops w _ (pr_owner q) ver c (CSend (pr_id q)) _ _ Hi S1 C eq_refl _ eq_refl eq_refl _).
  - right. right. left. exists n. rewrite Eid. auto.
  - intros j. cbn. rewrite Nat.eqb_sym. reflexivity.
Qed.

Lemma hist_keep : forall same ops l w w', (forall o, In o (all_ops l) -> In o ops) -> Forall plain ops -> hist_inv same ops w ->
  wrun same l w = WOk w' -> hist_inv same ops w'.
Proof.
  intros same ops l w w' O PL Hi E.
  pose proof (keeps_ops same (fun o => In o ops) (fun _ v => hist_inv same ops v)) as K.
  refine (K _ _ _ _ _ _ _ _ _ _ _ l 0 w w' _ Hi E); clear K; cbn beta.
  - intros n m v _ H. exact H.
  - intros n v ver O1 H. apply hist_new; [exact H|]. refine (sent_inv_step same ops (DNew ver) v _ _ (proj1 H) eq_refl). cbn. intros x [<-|[]]. exact O1.
  - intros n v i c O1 A H. apply hist_new; [exact H|]. refine (sent_inv_step same ops (DCopyClient i) v _ _ (proj1 H) _).
    + cbn. intros x [<-|[]]. exact O1.
    + cbn. rewrite A. reflexivity.
  - intros n v i name args ctx ver c O1 A H.
    cbv beta iota zeta delta [prepare prepare_default gen_id].
    refine (hist_add same ops v _ i (Some ver) c CPrepare _ [] H _ A eq_refl _ _ _ _).
    + refine (sent_inv_step same ops (DCall i name args ctx) v _ _ (proj1 H) _); [cbn; intros x [<-|[]]; exact O1|].
      cbn. unfold do_call. rewrite A. reflexivity.
    + left. reflexivity.
    + reflexivity.
    + cbn. rewrite app_nil_r. reflexivity.
    + intros j. cbn. destruct (Nat.eqb j i); reflexivity.
  - intros n v i name args ver c O1 A H.
    cbv beta iota zeta delta [prepare prepare_default gen_id].
    refine (hist_add same ops v _ i (Some ver) c CPrepareDefault _ [] H _ A eq_refl _ _ _ _).
    + refine (sent_inv_step same ops (DCallDefault i name args) v _ _ (proj1 H) _); [cbn; intros x [<-|[]]; exact O1|].
      cbn. unfold do_call. rewrite A. reflexivity.
    + right. left. reflexivity.
    + reflexivity.
    + cbn. rewrite app_nil_r. reflexivity.
    + intros j. cbn. destruct (Nat.eqb j i); reflexivity.
  - intros n v m q O1 A H. refine (hist_same same ops v (add_prep v q) H _ eq_refl (fun _ => eq_refl)).
    refine (sent_inv_step same ops (DCopyCall m) v _ _ (proj1 H) _); [cbn; intros x [<-|[]]; exact O1|]. cbn. rewrite A. reflexivity.
  - intros n v m q w1 h A _ R H. exact (hist_register _ _ _ _ _ _ _ A R H).
  - intros n v m q w1 h A _ R H.
    assert (H2 : hist_inv same ops (set_executed v m)).
    { apply (hist_same same ops v); [exact H|apply sent_inv_exec; exact (proj1 H)|apply exec_clients|]. intros j. rewrite exec_log. reflexivity. }
    assert (R2 : exists q2, nth_error (w_preps (set_executed v m)) m = Some q2 /\ pr_owner q2 = pr_owner q /\ pr_id q2 = pr_id q /\ pr_msg q2 = pr_msg q).
    { rewrite exec_nth, Nat.eqb_refl, A. cbn. eexists. split; [reflexivity|]. auto. }
    destruct R2 as (q2 & A2 & E1 & E2 & E3). refine (hist_register same ops _ m q2 w1 h A2 _ H2).
    unfold register in *. rewrite E1, E2, E3. exact R.
  - intros n v m H. apply (hist_same same ops v); [exact H|apply sent_inv_exec; exact (proj1 H)|apply exec_clients|]. intros j. rewrite exec_log. reflexivity.
  - intros n v e N H. apply (hist_same same ops v); [exact H| |reflexivity|].
    + refine (sent_inv_move ops v _ (versions_refl v (add_ev v e) eq_refl) _ _ _ (proj1 H)); cbn; eauto.
      intros p i id msg X. apply in_app_iff in X. destruct X as [X|[X|[]]]; auto. exfalso. eapply N; eauto.
    + intros j. cbn [add_ev w_log]. rewrite sent_by_snoc. destruct e; cbn; rewrite ?app_nil_r; auto. exfalso. eapply N; eauto.
  - intros n v i ver c o c1 O1 A C H.
    refine (hist_add same ops v _ i ver c o c1 [] H _ A C _ _ _ _).
    + refine (sent_inv_step same ops (DClient i o) v _ _ (proj1 H) _); [cbn; intros x [<-|[]]; exact O1|]. cbn. rewrite A, C. reflexivity.
    + right. right. right. exact O1.
    + reflexivity.
    + cbn. rewrite app_nil_r. reflexivity.
    + intros j. rewrite Forall_forall in PL. apply PL in O1. destruct o; cbn in *; try tauto; destruct (Nat.eqb j i); reflexivity.
  - apply Forall_forall. exact O.
Qed.

Lemma start_hist : forall same ops, hist_inv same ops start.
Proof.
  intros same ops. split; [split; [intros [|p0]; discriminate|intros ? ? ? ? []]|]. split; [reflexivity|]. intros [|i]; discriminate.
Qed.
Lemma client_history : forall same ops w i v c, wrun same ops start = WOk w -> Forall plain (all_ops ops) ->
  nth_error (w_clients w) i = Some (v, c) ->
  exists h, crun same client_new h = Some c /\ sent_ids h = sent_by i (w_log w) /\
    forall o, In o h -> o = CPrepare \/ o = CPrepareDefault \/ (exists n, (0 <= n < 2 ^ 32)%Z /\ o = CSend (VNum (NUInt n))) \/ In (DClient i o) (all_ops ops).
Proof.
  intros same ops w i v c E PL A. destruct (hist_keep same (all_ops ops) ops start w (fun _ X => X) PL (start_hist _ _) E) as (_ & _ & H).
  destruct (H _ _ _ A) as (h & H1 & H2 & H3). exists h. split; [exact H1|]. split; [exact H2|]. apply Forall_forall. exact H3.
Qed.

(** *** Calls are numbered *)
Definition numbered (c : client) : Prop :=
  (forall k h, In (k, Some h) (cl_calls c) -> (h < cl_next c)%nat) /\ (forall h r, In (h, r) (cl_done c) -> (h < cl_next c)%nat).
Lemma take_in : forall same l id h r, take_call same l id = Some (h, r) -> (exists k, In (k, h) l) /\ forall e, In e r -> In e l.
Proof.
  intros same l id h r H. apply take_some in H. destruct H as (l1 & k & l2 & -> & -> & _). split.
  - exists k. apply in_app_iff. right. left. reflexivity.
  - intros e X. apply in_app_iff in X. apply in_app_iff. cbn. tauto.
Qed.
Lemma numbered_cancel : forall same c id r c1 b, numbered c -> cancel_pending same c id r = Some (c1, b) -> numbered c1.
Proof.
  intros same c id r c1 b [P D] E. unfold cancel_pending in E. destruct (take_call same (cl_calls c) id) as [[[h|] l]|] eqn:T; try discriminate.
  - inversion E; subst. apply take_in in T. destruct T as [(k & T1) T2]. split; cbn.
    + intros k2 h2 X. eauto.
    + intros h2 r2 X. apply in_app_iff in X. destruct X as [X|[X|[]]]; [eauto|]. inversion X; subst. eauto.
  - inversion E; subst. split; auto.
Qed.
Lemma numbered_list : forall same ids c r c1, numbered c -> cancel_list same c ids r = Some c1 -> numbered c1.
Proof.
  induction ids as [|x ids IH]; intros c r c1 N E; cbn in E; [inversion E; subst; exact N|].
  destruct (cancel_pending same c x r) as [[c2 b]|] eqn:C; [|discriminate]. eapply IH; [|exact E]. eapply numbered_cancel; eauto.
Qed.
Lemma null_in : forall same l id k h, In (k, Some h) (null_call same l id) -> In (k, Some h) l.
Proof.
  induction l as [|e l IH]; intros id k h H; cbn in *; [exact H|]. destruct (same (fst e) id); destruct H as [H|H]; auto.
  - inversion H.
  - right. eauto.
Qed.
Lemma filter_in : forall same ids old new o2 n2 N, filter_loop same old new ids = (o2, n2) ->
  (forall k h, In (k, Some h) old -> (h < N)%nat) -> (forall k h, In (k, Some h) new -> (h < N)%nat) ->
  (forall k h, In (k, Some h) o2 -> (h < N)%nat) /\ (forall k h, In (k, Some h) n2 -> (h < N)%nat).
Proof.
  induction ids as [|x ids IH]; intros old new o2 n2 N E A B; cbn in E; [inversion E; subst; auto|].
  destruct (take_call same old x) as [[h r]|] eqn:T; [|eauto]. apply take_in in T. destruct T as [(k & T) _].
  refine (IH _ _ _ _ N E _ _).
  - intros k2 h2 X. apply null_in in X. eauto.
  - intros k2 h2 X. unfold emplace in X. destruct (take_call same new x); [eauto|]. apply in_app_iff in X.
    destruct X as [X|[X|[]]]; [eauto|]. inversion X; subst. eauto.
Qed.
Lemma given_in : forall l h, In h (given_out l) -> exists k, In (k, Some h) l.
Proof.
  induction l as [|[k [x|]] l IH]; intros h H; cbn in *; [tauto| |].
  - destruct H as [<-|H]; [eauto|]. apply IH in H. destruct H as (k2 & H). eauto.
  - apply IH in H. destruct H as (k2 & H). eauto.
Qed.
Lemma numbered_finish : forall r out c, numbered c -> (forall h, In h out -> (h < cl_next c)%nat) -> numbered (fold_left (fun d h => finish d h r) out c).
Proof.
  induction out as [|h out IH]; intros c [P D] H; cbn; [split; auto|]. apply IH; [|intros; apply H; right; assumption].
  split; [exact P|]. intros h2 r2 X. cbn in *. apply in_app_iff in X. destruct X as [X|[X|[]]]; [eauto|]. inversion X; subst. auto.
Qed.
Lemma numbered_step : forall same c o c1, numbered c -> cstep same c o = Some c1 -> numbered c1.
Proof.
  intros same c o c1 N E. destruct o; cbn [cstep] in E.
  - inversion E; subst. exact N.
  - inversion E; subst. exact N.
  - inversion E; subst. unfold add_pending, emplace. destruct N as [P D]. destruct (take_call same (cl_calls c) id); split; cbn.
    + intros k h X. apply P in X. lia.
    + intros h r X. apply in_app_iff in X. destruct X as [X|[X|[]]]; [apply D in X; lia|]. inversion X; subst. lia.
    + intros k h X. apply in_app_iff in X. destruct X as [X|[X|[]]]; [apply P in X; lia|]. inversion X; subst. lia.
    + intros h r X. apply D in X. lia.
  - destruct (cancel_pending same c id r) as [[d b]|] eqn:C; inversion E; subst. eapply numbered_cancel; eauto.
  - eapply numbered_list; eauto.
  - unfold filter_pending in E. destruct (filter_loop same (cl_calls c) [] ids) as [old new] eqn:F. inversion E; subst.
    destruct N as [P D]. apply (filter_in same ids _ _ _ _ (cl_next c)) in F; [|exact P|intros ? ? []]. destruct F as [F1 F2].
    apply numbered_finish; [split; auto|]. intros h X. apply given_in in X. destruct X as (k & X). cbn. eauto.
  - unfold process_response in E. destruct (negb _ && negb _); [|inversion E; subst; exact N].
    destruct (response_result v) as [r|]; [|inversion E; subst; exact N].
    destruct (cancel_pending same _ _ _) as [[d []]|] eqn:C; try discriminate; inversion E; subst; (eapply numbered_cancel; [|exact C]); exact N.
  - inversion E; subst. exact N.
  - inversion E; subst. exact N.
Qed.
Lemma numbered_run : forall same h c c1, numbered c -> crun same c h = Some c1 -> numbered c1.
Proof.
  induction h as [|o h IH]; intros c c1 N E; cbn in E; [inversion E; subst; exact N|].
  destruct (cstep same c o) as [c2|] eqn:C; [|discriminate]. eapply IH; [|exact E]. eapply numbered_step; eauto.
Qed.
Lemma numbered_world : forall same ops w i v c, wrun same ops start = WOk w -> nth_error (w_clients w) i = Some (v, c) -> numbered c.
Proof.
  intros same ops w i v c E A.
  assert (G : forall i v c, nth_error (w_clients w) i = Some (v, c) -> numbered c); [|eauto]. clear i v c A.
  pose proof (keeps_ops same (fun _ => True) (fun _ w => forall i v c, nth_error (w_clients w) i = Some (v, c) -> numbered c)) as K.
  assert (N0 : numbered client_new) by (split; intros ? ? []).
  assert (AD : forall w v, (forall i v c, nth_error (w_clients w) i = Some (v, c) -> numbered c) ->
    forall i v2 c, nth_error (w_clients (add_client w v)) i = Some (v2, c) -> numbered c).
  { intros u v H i v2 c X. cbn in X. apply nth_snoc in X. destruct X as [X|[_ X]]; [eauto|]. inversion X; subst. exact N0. }
  assert (PU : forall w i v c c1, (forall i v c, nth_error (w_clients w) i = Some (v, c) -> numbered c) ->
    nth_error (w_clients w) i = Some (v, c) -> (numbered c -> numbered c1) ->
    forall j v2 c2, nth_error (put (w_clients w) i (v, c1)) j = Some (v2, c2) -> numbered c2).
  { intros u i v c c1 H A N j v2 c2 X. destruct (Nat.eq_dec i j) as [<-|NE].
    - rewrite (put_same _ _ _ _ _ A) in X. inversion X; subst. eauto.
    - rewrite put_other in X by exact NE. eauto. }
  refine (K _ _ _ _ _ _ _ _ _ _ _ ops 0 start w _ _ E); clear K; cbn beta.
  - intros n m u _ H. exact H.
  - intros n u ver _ H. apply AD. exact H.
  - intros n u i c _ _ H. apply AD. exact H.
  - intros n u i name args ctx ver c _ A H. cbn. apply (PU u i _ c _ H A). intros X. exact X.
  - intros n u i name args ver c _ A H. cbn. apply (PU u i _ c _ H A). intros X. exact X.
  - intros n u m q _ _ H. exact H.
  - intros n u m q w1 h _ _ R H. destruct (register_spec _ _ _ _ _ _ R) as (ver & c & C & _ & ->). cbn.
    apply (PU u _ ver c _ H C). intros X. exact (numbered_step same c (CSend (pr_id q)) _ X eq_refl).
  - intros n u m q w1 h _ _ R H. destruct (register_spec _ _ _ _ _ _ R) as (ver & c & C & _ & ->). cbn. rewrite exec_clients in *.
    apply (PU u _ ver c _ H C). intros X. exact (numbered_step same c (CSend (pr_id q)) _ X eq_refl).
  - intros n u m H. rewrite exec_clients. exact H.
  - intros n u e _ H. exact H.
  - intros n u i v c o c1 _ A C H. cbn. apply (PU u i v c c1 H A). intros X. eapply numbered_step; eauto.
  - apply Forall_forall. auto.
  - intros [|i]; discriminate.
Qed.

(** *** An answer while the request is being sent *)
Lemma take_last : forall same l id h, take_call same l id = None -> same id id = true -> take_call same (l ++ [(id, h)]) id = Some (h, l).
Proof.
  induction l as [|[k x] l IH]; intros id h N S; cbn in *; [rewrite S; reflexivity|]. destruct (same k id); [discriminate|].
  destruct (take_call same l id) as [[? ?]|] eqn:T; [discriminate|]. rewrite (IH _ _ T S). reflexivity.
Qed.
Lemma answer_pending : forall same c id resp r, take_call same (cl_calls c) id = None -> same id id = true ->
  is_undef id = false -> is_null id = false -> value_member resp k_id = id -> response_result resp = Some r ->
  exists c1, cstep same (add_pending same c id) (CResponse resp) = Some c1 /\
    cl_calls c1 = cl_calls c /\ cl_done c1 = cl_done c ++ [(cl_next c, r)].
Proof.
  intros same c id resp r T S U N M R. unfold add_pending, emplace. rewrite T. cbn [cstep]. unfold process_response.
  rewrite M, U, N, R. cbn [negb andb]. unfold cancel_pending. cbn [set_context set_calls cl_calls]. rewrite (take_last _ _ _ _ T S).
  eexists. split; [reflexivity|]. split; reflexivity.
Qed.
Lemma answered_while_sending : forall same ops w p q v c resp r, wrun same ops start = WOk w ->
  nth_error (w_preps w) p = Some q -> pr_executed q = false -> nth_error (w_clients w) (pr_owner q) = Some (v, c) ->
  take_call same (cl_calls c) (pr_id q) = None -> same (pr_id q) (pr_id q) = true ->
  value_member resp k_id = pr_id q -> response_result resp = Some r ->
  (exists w', wstep same (DWait p [DClient (pr_owner q) (CResponse resp)]) w = WOk w' /\
     w_log w' = w_log w ++ [ESent p (pr_owner q) (pr_id q) (pr_msg q); ERes p r]) /\
  (exists w' c', wstep same (DAsync p [DClient (pr_owner q) (CResponse resp)] false) w = WOk w' /\
     w_log w' = w_log w ++ [ESent p (pr_owner q) (pr_id q) (pr_msg q); EId p (pr_id q)] /\
     nth_error (w_clients w') (pr_owner q) = Some (v, c') /\
     cl_calls c' = cl_calls c /\ cl_done c' = cl_done c ++ [(cl_next c, r)]).
Proof.
  intros same ops w p q v c resp r E Ep Ex Ec T S M R.
  assert (ID : exists n, pr_id q = VNum (NUInt n)).
  { destruct (sent_made_inv same (all_ops ops) ops start w (fun _ X => X) (proj1 (start_hist same _)) E) as [P _].
    destruct (P _ _ Ep) as (ver & c2 & n & _ & _ & _ & _ & Eid & _). eauto. }
  destruct ID as (n & ID).
  destruct (answer_pending same c (pr_id q) resp r T S) as (c1 & C1 & C2 & C3); [rewrite ID; reflexivity|rewrite ID; reflexivity|exact M|exact R|].
  destruct (numbered_world same ops w _ v c E Ec) as [_ D].
  split.
  - rewrite step_wait, Ep, Ex. unfold register. rewrite exec_clients, Ec.
    cbn [wrun wstep]. cbn [add_ev put_client w_clients]. rewrite exec_clients, (put_same _ _ _ _ _ Ec). rewrite C1.
    unfold outcome_of. cbn [add_ev put_client w_clients]. rewrite ?exec_clients.
    rewrite (put_same _ _ _ _ (v, add_pending same c (pr_id q))) by (eapply put_same; exact Ec).
    assert (F : find (fun e => Nat.eqb (fst e) (cl_next c)) (cl_done c1) = Some (cl_next c, r)).
    { rewrite C3. clear - D. induction (cl_done c) as [|[h x] l IH]; cbn; [rewrite Nat.eqb_refl; reflexivity|].
      assert (h < cl_next c)%nat by (eapply D; left; reflexivity). destruct (Nat.eqb_spec h (cl_next c)); [lia|]. apply IH.
      intros h2 r2 X. eapply D. right. exact X. }
    rewrite F. cbn [option_map snd]. eexists. split; [reflexivity|]. cbn [add_ev put_client w_log]. rewrite exec_log, <- app_assoc. reflexivity.
  - rewrite step_async, Ep, Ex. unfold register. rewrite Ec. cbn [wrun wstep]. cbn [add_ev put_client w_clients].
    rewrite (put_same _ _ _ _ _ Ec). rewrite C1. eexists. exists c1. split; [reflexivity|].
    cbn [add_ev w_log w_clients]. rewrite exec_log, exec_clients. cbn [add_ev put_client w_log w_clients]. rewrite <- app_assoc.
    split; [reflexivity|]. split; [|auto]. eapply put_same. eapply put_same. exact Ec.
Qed.

(** *** Identifiers differ *)
Definition uncopied (o : pop) : Prop := plain o /\ forall p, o <> DCopyCall p.
Definition ids_inv (n : nat) (w : world) : Prop :=
  (Z.of_nat n < 2 ^ 32)%Z ->
  (forall i v c, nth_error (w_clients w) i = Some (v, c) -> (0 <= cl_counter c <= Z.of_nat n)%Z) /\
  (forall p q, nth_error (w_preps w) p = Some q -> exists k v c, pr_id q = VNum (NUInt k) /\
     nth_error (w_clients w) (pr_owner q) = Some (v, c) /\ (1 <= k <= cl_counter c)%Z) /\
  (forall p p' q q', nth_error (w_preps w) p = Some q -> nth_error (w_preps w) p' = Some q' -> pr_owner q = pr_owner q' ->
     pr_id q = pr_id q' -> p = p').
(** the identifiers of clients and prepared calls stay *)
Lemma ids_move : forall n m w w', (n <= m)%nat ->
  (forall i v c, nth_error (w_clients w) i = Some (v, c) -> exists v' c', nth_error (w_clients w') i = Some (v', c') /\ cl_counter c' = cl_counter c) ->
  (forall i v c, nth_error (w_clients w') i = Some (v, c) -> cl_counter c = 0%Z \/ exists v' c', nth_error (w_clients w) i = Some (v', c') /\ cl_counter c = cl_counter c') ->
  (forall p q', nth_error (w_preps w') p = Some q' -> exists q, nth_error (w_preps w) p = Some q /\ pr_owner q = pr_owner q' /\ pr_id q = pr_id q' /\ pr_msg q = pr_msg q') ->
  ids_inv n w -> ids_inv m w'.
Proof.
  intros n m w w' LE F B P H M. destruct H as (H1 & H2 & H3); [lia|]. split; [|split].
  - intros i v c X. destruct (B _ _ _ X) as [->|(v' & c' & X' & ->)]; [lia|]. apply H1 in X'. lia.
  - intros p q X. destruct (P _ _ X) as (q0 & X0 & E1 & E2 & _). destruct (H2 _ _ X0) as (k & v & c & K1 & K2 & K3).
    destruct (F _ _ _ K2) as (v' & c' & K2' & K4). exists k, v', c'. rewrite <- E1, <- E2, K4. auto.
  - intros p p' q q' X X' EO EI. destruct (P _ _ X) as (a & Xa & A1 & A2 & _). destruct (P _ _ X') as (b & Xb & B1 & B2 & _).
    apply (H3 p p' a b Xa Xb); congruence.
Qed.
Lemma counter_step : forall same c o c1, plain (DClient 0 o) -> (0 <= cl_counter c < 2 ^ 32)%Z -> cstep same c o = Some c1 -> cl_counter c1 = cl_counter c.
Proof.
  intros same c o c1 P R E. assert (X : crun same c [o] = Some c1) by (cbn [crun]; rewrite E; reflexivity).
  apply counter_run in X; [|exact R]. assert (G : generated [o] = 0%nat) by (destruct o; cbn in P; try tauto; reflexivity).
  rewrite G, Z.add_0_r, Z.mod_small in X; auto.
Qed.
Lemma ids_put : forall n w i v c c1, nth_error (w_clients w) i = Some (v, c) -> ((Z.of_nat n < 2 ^ 32)%Z -> ids_inv n w -> cl_counter c1 = cl_counter c) ->
  ids_inv n w -> ids_inv n (put_client w i v c1).
Proof.
  intros n w i v c c1 A C H M. specialize (C M H). revert M. revert H. apply ids_move; [lia| | |cbn; eauto].
  - intros j v2 c2 X. cbn. destruct (Nat.eq_dec i j) as [<-|N].
    + rewrite (put_same _ _ _ _ _ A). exists v, c1. rewrite A in X. inversion X; subst. auto.
    + rewrite put_other by exact N. eauto.
  - intros j v2 c2 X. right. cbn in X. destruct (Nat.eq_dec i j) as [<-|N].
    + rewrite (put_same _ _ _ _ _ A) in X. inversion X; subst. eauto.
    + rewrite put_other in X by exact N. eauto.
Qed.
Lemma ids_call : forall n d w i v c c1 msg, nth_error (w_clients w) i = Some (Some v, c) -> (0 < d)%Z ->
  cl_counter c1 = ((cl_counter c + d) mod 2 ^ 32)%Z -> ids_inv n w ->
  ids_inv (n + Z.to_nat d) (add_prep (put_client w i (Some v) c1) (mkPrep i (VNum (NUInt (cl_counter c1))) msg false)).
Proof.
  intros n d w i v c c1 msg A D C H M. destruct H as (H1 & H2 & H3); [lia|]. pose proof (H1 _ _ _ A) as B.
  rewrite Z.mod_small in C by lia.
  assert (CL : forall j v2 c2, nth_error (w_clients w) j = Some (v2, c2) ->
     exists c3, nth_error (put (w_clients w) i (Some v, c1)) j = Some (v2, c3) /\ (cl_counter c2 <= cl_counter c3)%Z).
  { intros j v2 c2 X. destruct (Nat.eq_dec i j) as [<-|N].
    - rewrite (put_same _ _ _ _ _ A). rewrite A in X. inversion X; subst. exists c1. split; [reflexivity|lia].
    - rewrite put_other by exact N. exists c2. split; [exact X|lia]. }
  assert (OLD : forall p q, nth_error (w_preps w) p = Some q -> pr_owner q = i -> pr_id q <> VNum (NUInt (cl_counter c1))).
  { intros p q X O EI. destruct (H2 _ _ X) as (k & v2 & c2 & K1 & K2 & K3). rewrite O, A in K2. inversion K2; subst.
    rewrite K1 in EI. inversion EI. lia. }
  split; [|split].
  - intros j v2 c2 X. cbn in X. destruct (Nat.eq_dec i j) as [<-|N].
    + rewrite (put_same _ _ _ _ _ A) in X. inversion X; subst. lia.
    + rewrite put_other in X by exact N. apply H1 in X. lia.
  - intros p q X. cbn in X. apply nth_snoc in X. destruct X as [X|[_ ->]].
    + destruct (H2 _ _ X) as (k & v2 & c2 & K1 & K2 & K3). destruct (CL _ _ _ K2) as (c3 & K4 & K5). exists k, v2, c3. cbn. split; [exact K1|]. split; [exact K4|lia].
    + exists (cl_counter c1), (Some v), c1. cbn. rewrite (put_same _ _ _ _ _ A). split; [reflexivity|]. split; [reflexivity|lia].
  - intros p p' q q' X X' EO EI. cbn in X, X'. apply nth_snoc in X. apply nth_snoc in X'.
    destruct X as [X|[-> ->]], X' as [X'|[-> ->]]; auto.
    + eauto.
    + exfalso. exact (OLD _ _ X EO EI).
    + exfalso. exact (OLD _ _ X' (eq_sym EO) (eq_sym EI)).
Qed.
Lemma ids_keep : forall same l n w w', Forall uncopied (all_ops l) -> ids_inv n w -> wrun same l w = WOk w' -> ids_inv (n + asked l) w'.
Proof.
  intros same l n w w' O H E.
  pose proof (keeps_ops same uncopied ids_inv) as K. refine (K _ _ _ _ _ _ _ _ _ _ _ l n w w' O H E); clear K O H E n w w'.
  - intros n m u L H M. apply (ids_move n m u u L); eauto.
  - intros n u v _ H. apply (ids_move n n u); [lia| | |cbn; eauto|exact H].
    + intros i v2 c X. exists v2, c. split; [apply nth_snoc_old; exact X|reflexivity].
    + intros i v2 c X. cbn in X. apply nth_snoc in X. destruct X as [X|[_ X]]; [right; eauto|left]. inversion X. reflexivity.
  - intros n u i c _ _ H. apply (ids_move n n u); [lia| | |cbn; eauto|exact H].
    + intros j v2 c2 X. exists v2, c2. split; [apply nth_snoc_old; exact X|reflexivity].
    + intros j v2 c2 X. cbn in X. apply nth_snoc in X. destruct X as [X|[_ X]]; [right; eauto|left]. inversion X. reflexivity.
  - intros n u i name args ctx v c _ A H. cbv beta iota zeta delta [prepare gen_id].
    exact (ids_call n 1 u i v c (mkCl _ _ _ _ _) _ A eq_refl eq_refl H).
  - intros n u i name args v c _ A H. cbv beta iota zeta delta [prepare prepare_default gen_id]. cbn [cl_context cl_calls cl_counter cl_next cl_done].
    refine (ids_call n 2 u i v c (mkCl _ _ _ _ _) _ A eq_refl _ H). cbn [cl_counter]. rewrite Zplus_mod_idemp_l. f_equal. lia.
  - intros n u p q [_ O] _ _. exfalso. exact (O p eq_refl).
  - intros n u p q w1 h A _ R H. destruct (register_spec _ _ _ _ _ _ R) as (v & c & C & _ & ->).
    refine (ids_put n u _ v c _ C _ H). intros _ _. unfold add_pending. destruct (emplace _ _ _ _); reflexivity.
  - intros n u p q w1 h A _ R H. destruct (register_spec _ _ _ _ _ _ R) as (v & c & C & _ & ->).
    assert (H2 : ids_inv n (set_executed u p)).
    { apply (ids_move n n u); [lia| | |apply exec_back|exact H]; rewrite exec_clients; eauto. }
    refine (ids_put n (set_executed u p) _ v c _ C _ H2). intros _ _. unfold add_pending. destruct (emplace _ _ _ _); reflexivity.
  - intros n u p H. apply (ids_move n n u); [lia| | |apply exec_back|exact H]; rewrite exec_clients; eauto.
  - intros n u e _ H. exact H.
  - intros n u i v c o c1 [O _] A C H. refine (ids_put n u i v c c1 A _ H). intros M (H1 & _); [exact M|].
    apply (counter_step same c o c1 O); [apply H1 in A; lia|exact C].
Qed.
Lemma ids_differ : forall same ops w p p' i id msg msg', wrun same ops start = WOk w -> Forall plain (all_ops ops) ->
  (forall m, ~ In (DCopyCall m) (all_ops ops)) -> (Z.of_nat (asked ops) < 2 ^ 32)%Z ->
  In (ESent p i id msg) (w_log w) -> In (ESent p' i id msg') (w_log w) -> p = p' /\ msg = msg'.
Proof.
  intros same ops w p p' i id msg msg' E PL NC M X X'.
  destruct (sent_made_inv same (all_ops ops) ops start w (fun _ X => X) (proj1 (start_hist same _)) E) as [_ S].
  destruct (S _ _ _ _ X) as (q & A1 & A2 & A3 & A4). destruct (S _ _ _ _ X') as (q' & B1 & B2 & B3 & B4).
  assert (H0 : ids_inv 0 start).
  { intros _. split; [intros [|j]; discriminate|]. split; [intros [|j]; discriminate|]. intros [|j]; discriminate. }
  assert (O : Forall uncopied (all_ops ops)).
  { apply Forall_forall. intros o Ho. split; [rewrite Forall_forall in PL; auto|]. intros m ->. exact (NC m Ho). }
  destruct (ids_keep same ops 0 start w O H0 E M) as (_ & _ & H).
  assert (Q : p = p') by (apply (H p p' q q' A1 B1); congruence). split; [exact Q|]. subst p'. congruence.
Qed.

(** *** Copies of clients *)
Lemma copy_client : forall same w i w', wstep same (DCopyClient i) w = WOk w' ->
  nth_error (w_clients w') (length (w_clients w)) = Some (None, client_new) /\
  (forall j, (j < length (w_clients w))%nat -> nth_error (w_clients w') j = nth_error (w_clients w) j) /\
  w_preps w' = w_preps w /\ w_log w' = w_log w.
Proof.
  intros same w i w' E. cbn in E. destruct (nth_error (w_clients w) i); inversion E; subst. cbn. split; [|split; [|auto]].
  - rewrite nth_error_app2, Nat.sub_diag by lia. reflexivity.
  - intros j H. apply nth_error_app1. exact H.
Qed.
Lemma versions_run : forall same l w w', wrun same l w = WOk w' -> versions w w'.
Proof.
  intros same l w w' E.
  assert (TR : forall a b c, versions a b -> versions b c -> versions a c).
  { intros a b c X Y i v k A. destruct (X _ _ _ A) as (k' & A'). eauto. }
  pose proof (keeps_ops same (fun _ => True) (fun _ u => versions w u)) as K.
  refine (K _ _ _ _ _ _ _ _ _ _ _ l 0 w w' _ (versions_refl w w eq_refl) E); clear K; cbn beta.
  - auto.
  - intros n u v _ H. exact (TR _ _ _ H (versions_add _ _)).
  - intros n u i c _ _ H. exact (TR _ _ _ H (versions_add _ _)).
  - intros n u i name args ctx v c _ A H. cbv beta iota zeta delta [prepare gen_id]. exact (TR _ _ _ H (versions_put _ _ _ _ _ A)).
  - intros n u i name args v c _ A H. cbv beta iota zeta delta [prepare prepare_default gen_id]. exact (TR _ _ _ H (versions_put _ _ _ _ _ A)).
  - intros n u p q _ _ H. exact H.
  - intros n u p q w1 h _ _ R H. destruct (register_spec _ _ _ _ _ _ R) as (v & c & C & _ & ->). exact (TR _ _ _ H (versions_put _ _ _ _ _ C)).
  - intros n u p q w1 h _ _ R H. destruct (register_spec _ _ _ _ _ _ R) as (v & c & C & _ & ->).
    refine (TR _ _ _ H (TR _ _ _ (versions_refl _ _ (exec_clients u p)) (versions_put _ _ _ _ _ C))).
  - intros n u p H. exact (TR _ _ _ H (versions_refl _ _ (exec_clients _ _))).
  - intros n u e _ H. exact H.
  - intros n u i v c o c1 _ A _ H. exact (TR _ _ _ H (versions_put _ _ _ _ _ A)).
  - apply Forall_forall. auto.
Qed.
Lemma copy_calls : forall same w i w1 l w2 name args ctx, wstep same (DCopyClient i) w = WOk w1 -> wrun same l w1 = WOk w2 ->
  wstep same (DCall (length (w_clients w)) name args ctx) w2 = WBad /\ wstep same (DCallDefault (length (w_clients w)) name args) w2 = WBad.
Proof.
  intros same w i w1 l w2 name args ctx E1 E2. destruct (copy_client _ _ _ _ E1) as (A & _).
  destruct (versions_run _ _ _ _ E2 _ _ _ A) as (c & B). cbn. unfold do_call. rewrite B. auto.
Qed.

(** For examples. *)
Lemma no_copy : forall l m, forallb (fun o => match o with DCopyCall _ => false | _ => true end) l = true -> ~ In (DCopyCall m) l.
Proof. intros l m H X. rewrite forallb_forall in H. apply H in X. discriminate. Qed.
