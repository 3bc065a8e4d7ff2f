(** The client used by several threads: everything answered is delivered; two
    programs that go wrong. *)
From Coq Require Import List ZArith Bool Lia.
From Verif Require Import Base ModelValue ModelRpc ModelConc SpecConc ProofConc ProofConc2 ProofConc3.
Import ListNotations.

Definition fin1 (l : list nat) (e : cev) : list nat :=
  match e with
  | ERefuse k _ | EAnswer k _ _ => k :: l
  | EDone k _ => filter (fun j => negb (Nat.eqb j k)) l
  | _ => l
  end.
Definition fins (log : list cev) : list nat := fold_left fin1 log [].
Lemma fins_snoc : forall log e, fins (log ++ [e]) = fin1 (fins log) e.
Proof. intros. unfold fins. rewrite fold_left_app. reflexivity. Qed.
Lemma fins_run : forall log a b l, a_run a log b -> (forall k, In k (map fst (a_fin a)) -> In k l) ->
  forall k, In k (map fst (a_fin b)) -> In k (fold_left fin1 log l).
Proof.
  induction log as [|e log IH]; intros a b l R H k Hk; inversion R as [|? c ? ? ? S1 S2]; subst; cbn [fold_left]; [auto|].
  eapply IH; [exact S2| |exact Hk]. intros j Hj. destruct e; cbn in S1.
  - destruct S1 as (_ & _ & ->). cbn in *. auto.
  - destruct S1 as (_ & _ & ->). cbn in *. destruct Hj; auto.
  - destruct S1 as (_ & _ & E & _). rewrite E in Hj. cbn in *. destruct Hj; auto.
  - destruct S1 as (_ & ->). auto.
  - destruct S1 as (_ & E & _). apply in_map_iff in Hj. destruct Hj as ([j' r'] & E1 & E2). cbn in E1. subst j'. apply E in E2. destruct E2 as [E2 E3].
    cbn. apply filter_In. split; [apply H; apply in_map_iff; exists (j, r'); auto|]. apply negb_true_iff. apply Nat.eqb_neq. exact E3.
  - contradiction.
Qed.

Definition und_ok (s : cstate) : Prop := forall k, In k (fins (c_log s)) ->
  match nth_error (c_calls s) k with
  | Some c => 1 <= total (w_car k) (c_thr s) + b2n (pc_sync c && pc_recv c && pc_live c)
  | None => False
  end.
Lemma same_app : forall A (l : list A) x k c, nth_error l k = Some c -> nth_error (l ++ [x]) k = Some c.
Proof. intros A l x k c E. rewrite nth_error_app1; [exact E|]. apply nth_error_Some. congruence. Qed.
Lemma und_step : forall s t s', calm_ok s -> count_ok s -> und_ok s -> tstep s t = Some (Next s') -> und_ok s'.
Proof.
  intros s t s' [CA _] N U H. dstep H t s f rest; intros k'; cbn [c_lock c_map c_calls c_thr c_log]; specialize (U k');
  rewrite ?app_nil_r, ?fins_snoc; cbn [fin1];
  try match goal with |- context [total _ (upd (c_thr s) t ?new)] => pose proof (total_upd (w_car k') (c_thr s) t _ new Ht) end;
  try match goal with |- context [total _ (upd (c_thr s) t ?new)] => pose proof (total_ge (w_car k') (c_thr s) t _ Ht) end;
  rewrite ?wsum_cons in *; cbn [w_car] in *;
  try (intros G; specialize (U G); destruct (nth_error (c_calls s) k') as [c|]; [|contradiction]; lia).
  - intros G. specialize (U G). destruct (nth_error (c_calls s) k') as [c|] eqn:E; [|contradiction].
    rewrite (same_app _ _ _ _ _ E). lia.
  - (* refused *)
    pose proof (total_ge (w_new k) _ _ _ Ht) as W. rewrite wsum_cons in W. cbn [w_new] in W. rewrite Nat.eqb_refl in W. cbn [b2n] in W.
    intros [<-|G].
    + pose proof (N k) as N'. cbv zeta in N'. destruct (nth_error (c_calls s) k) as [c|]; [|lia]. rewrite Nat.eqb_refl in *. cbn [b2n] in *. lia.
    + specialize (U G). destruct (nth_error (c_calls s) k') as [c|]; [|contradiction]. lia.
  - apply (allf_top _ _ _ _ _ CA) in Ht. discriminate Ht.
  - (* delivered *)
    intros G. apply filter_In in G. destruct G as [G D]. apply negb_true_iff, Nat.eqb_neq in D. specialize (U G). rewrite upd_nth.
    destruct (Nat.eqb_spec k k'); [congruence|]. destruct (nth_error (c_calls s) k') as [c|]; [|contradiction]. lia.
  - (* received *)
    intros G. specialize (U G). rewrite upd_nth. destruct (Nat.eqb_spec k k') as [<-|D]; cbn [b2n] in *.
    + callfacts k. rewrite Heqo in *. cbn [pc_sync pc_recv pc_live]. destruct (pc_sync p); [cbn; lia|lia].
    + destruct (nth_error (c_calls s) k') as [c|]; [|contradiction]. lia.
  - (* notify *)
    pose proof (total_upd (w_car k') (c_thr s) t _ (RUnlock :: rest) Ht) as E. rewrite !wsum_cons in E. cbn [w_car] in E.
    rewrite total_wake by reflexivity. intros G. specialize (U G). destruct (nth_error (c_calls s) k') as [c|]; [|contradiction]. lia.
  - intros G. specialize (U G). destruct (nth_error (c_calls s) k') as [c|] eqn:E; [|contradiction].
    rewrite (same_app _ _ _ _ _ E). lia.
  - pose proof (total_ge (w_new k) _ _ _ Ht) as W. rewrite wsum_cons in W. cbn [w_new] in W. rewrite Nat.eqb_refl in W. cbn [b2n] in W.
    intros [<-|G].
    + pose proof (N k) as N'. cbv zeta in N'. destruct (nth_error (c_calls s) k) as [c|]; [|lia]. rewrite Nat.eqb_refl in *. cbn [b2n] in *. lia.
    + specialize (U G). destruct (nth_error (c_calls s) k') as [c|]; [|contradiction]. lia.
  - (* the function is called *)
    intros G. apply filter_In in G. destruct G as [G D]. apply negb_true_iff, Nat.eqb_neq in D. specialize (U G). rewrite upd_nth.
    destruct (Nat.eqb_spec k k'); [congruence|]. cbn [b2n] in *. destruct (nth_error (c_calls s) k') as [c|]; [|contradiction]. lia.
  - (* destroyed *)
    intros G. specialize (U G). rewrite upd_nth. destruct (Nat.eqb_spec k k') as [<-|D]; cbn [b2n] in *.
    + callfacts k. rewrite Heqo in *. cbn [pc_sync pc_recv pc_live]. destruct (pc_sync p); cbn in *; lia.
    + destruct (nth_error (c_calls s) k') as [c|]; [|contradiction]. lia.
  - (* taken *)
    pose proof (n_map_erase _ _ _ Heqo n) as W. rewrite Nat.eqb_refl in W. cbn [b2n] in W.
    intros [<-|G].
    + pose proof (N n) as N'. cbv zeta in N'. destruct (nth_error (c_calls s) n) as [c|]; [|lia]. rewrite Nat.eqb_refl in *. cbn [b2n] in *. lia.
    + specialize (U G). destruct (nth_error (c_calls s) k') as [c|]; [|contradiction]. lia.
  - (* the result is given *)
    intros G. specialize (U G). rewrite upd_nth. destruct (Nat.eqb_spec k k') as [<-|D]; cbn [b2n] in *.
    + rewrite Heqo in *. cbn [pc_sync pc_recv pc_live]. lia.
    + destruct (nth_error (c_calls s) k') as [c|]; [|contradiction]. lia.
  - intros G. specialize (U G). rewrite upd_nth. destruct (Nat.eqb_spec k k') as [<-|D]; cbn [b2n] in *.
    + rewrite Heqo in *. cbn [pc_sync pc_recv pc_live]. lia.
    + destruct (nth_error (c_calls s) k') as [c|]; [|contradiction]. lia.
  - rewrite w_klocks in * by reflexivity. intros G. specialize (U G). destruct (nth_error (c_calls s) k') as [c|]; [|contradiction]. lia.
Qed.
Lemma und_spurious : forall s t s', und_ok s -> spurious s t = Some s' -> und_ok s'.
Proof.
  intros s t s' U H. unfold spurious in H.
  destruct (nth_error (c_thr s) t) as [[|[] rest]|] eqn:Ht; try discriminate H. injection H as <-. intros k' G. cbn [c_log c_calls c_thr] in *.
  specialize (U k' G). pose proof (total_upd (w_car k') (c_thr s) t _ (SWake k :: rest) Ht) as E. rewrite !wsum_cons in E. cbn [w_car] in E.
  destruct (nth_error (c_calls s) k') as [c|]; [|contradiction]. lia.
Qed.
Lemma und_exec : forall l s s', Inv s -> und_ok s -> cexec s l = Next s' -> und_ok s'.
Proof.
  induction l as [|m l IH]; intros s s' V U H; cbn in H; [injection H as <-; exact U|].
  destruct m as [t|t]; cbn in H.
  - destruct (tstep s t) as [o|] eqn:E; [|exact (IH _ _ V U H)]. destruct (step_inv s t o V E) as (s1 & -> & V1).
    exact (IH _ _ V1 (und_step _ _ _ (v_calm _ V) (v_count _ V) U E) H).
  - destruct (spurious s t) as [s1|] eqn:E; [|exact (IH _ _ V U H)]. exact (IH _ _ (spurious_inv _ _ _ V E) (und_spurious _ _ _ U E) H).
Qed.

(** *** The theorems *)
Theorem never_bad : forall progs sched, calm_all progs = true -> cexec (cstart progs) sched <> Bad.
Proof. intros progs sched H. destruct (reach progs sched H) as (s & -> & _). discriminate. Qed.
Theorem history_right : forall progs sched s, calm_all progs = true -> cexec (cstart progs) sched = Next s ->
  exists a, a_run a_start (c_log s) a /\ a_pend a = c_map s.
Proof.
  intros progs sched s H E. destruct (reach progs sched H) as (s' & E' & V). rewrite E in E'. injection E' as <-.
  destruct (v_log _ V) as (a & A1 & A2 & _). eauto.
Qed.
Theorem race_free : forall progs sched s, calm_all progs = true -> cexec (cstart progs) sched = Next s -> ~ race s.
Proof.
  intros progs sched s H E. destruct (reach progs sched H) as (s' & E' & V). rewrite E in E'. injection E' as <-. exact (no_race _ V).
Qed.
Theorem stuck_states : forall progs sched s, calm_all progs = true -> cexec (cstart progs) sched = Next s -> quiet s ->
  (forall t, t < length (c_thr s) -> ended s t \/ unanswered s t) \/ (exists u, asleep_with_lock s u).
Proof.
  intros progs sched s H E Q. destruct (reach progs sched H) as (s' & E' & V). rewrite E in E'. injection E' as <-. exact (quiet_states _ V Q).
Qed.
Lemma threads_step : forall s t s', tstep s t = Some (Next s') -> length (c_thr s') = length (c_thr s).
Proof. intros s t s' H. dstep H t s f rest; rewrite ?map_length, ?upd_length; reflexivity. Qed.
Lemma threads_exec : forall l s s', cexec s l = Next s' -> length (c_thr s') = length (c_thr s).
Proof.
  induction l as [|m l IH]; intros s s' H; cbn in H; [injection H as <-; reflexivity|]. destruct m as [t|t]; cbn in H.
  - destruct (tstep s t) as [[s1|]|] eqn:E; [|discriminate|exact (IH _ _ H)]. rewrite (IH _ _ H). exact (threads_step _ _ _ E).
  - destruct (spurious s t) as [s1|] eqn:E; [|exact (IH _ _ H)]. rewrite (IH _ _ H). unfold spurious in E.
    destruct (nth_error (c_thr s) t) as [[|[] rest]|]; try discriminate E. injection E as <-. cbn. apply upd_length.
Qed.
Theorem stuck_flat : forall progs sched s, calm_all progs = true -> flat_all progs = true ->
  cexec (cstart progs) sched = Next s -> quiet s ->
  (forall t, t < length progs -> ended s t \/ unanswered s t) /\
  exists a, a_run a_start (c_log s) a /\ a_pend a = c_map s /\ a_fin a = [].
Proof.
  intros progs sched s H F E Q. destruct (reach progs sched H) as (s' & E' & V). rewrite E in E'. injection E' as <-.
  assert (FO : flat_ok s) by (eapply flat_exec; [apply flat_start; exact F|exact E]).
  destruct (quiet_states s V Q) as [A|(u & A)]; [|exfalso; exact (flat_lock _ _ (v_lock _ V) FO A)].
  assert (LEN : length (c_thr s) = length progs) by (rewrite (threads_exec _ _ _ E); apply map_length).
  split; [intros t Ht; apply A; rewrite LEN; exact Ht|].
  destruct (v_log _ V) as (a & A1 & A2 & _). exists a. split; [exact A1|]. split; [exact A2|].
  destruct (a_fin a) as [|[k r] fin] eqn:Ef; [reflexivity|exfalso].
  assert (U : und_ok s) by (eapply und_exec; [apply start_inv; exact H| |exact E]; intros j []).
  assert (I1 : In k (fins (c_log s))).
  { eapply fins_run; [exact A1|cbn; tauto|]. rewrite Ef. left. reflexivity. }
  specialize (U k I1). pose proof (v_count _ V k) as N. cbv zeta in N.
  destruct (nth_error (c_calls s) k) as [c|]; [|contradiction].
  assert (ALL : allf (fun f => match f with SSleep _ | Run _ => True | _ => False end) (c_thr s)).
  { unfold allf. apply Forall_forall. intros stk Hin. destruct (In_nth_error _ _ Hin) as [v Hv].
    assert (Lv : v < length (c_thr s)) by (apply nth_error_Some; congruence).
    pose proof (Forall_nth_error _ _ _ _ _ (proj1 FO) Hv) as O.
    destruct (A v Lv) as [B|(j & q & id & B & _)]; unfold ended in *; rewrite Hv in B; injection B as ->; [constructor|].
    apply ok2_top in O. destruct O as [(T & _)|[(l1 & _ & -> & _)|(l1 & T & _)]]; [contradiction T| |discriminate T]. repeat constructor. }
  assert (Z0 : forall w, (forall f, match f with SSleep _ | Run _ => True | _ => False end -> w f = 0) -> total w (c_thr s) = 0).
  { intros w Hw. destruct (Nat.eq_dec (total w (c_thr s)) 0) as [E0|E0]; [exact E0|exfalso].
    destruct (total_pos w (c_thr s)) as (v & stk & f & Hv & Hf & Hp); [lia|].
    pose proof (allf_nth _ _ _ _ ALL Hv) as F0. rewrite Forall_forall in F0. specialize (Hw f (F0 f Hf)). lia. }
  assert (Z2 : total (w_car k) (c_thr s) = 0) by (apply Z0; intros []; cbn; tauto).
  assert (Z3 : total (w_not k) (c_thr s) = 0) by (apply Z0; intros []; cbn; tauto).
  assert (Z4 : total (w_wait k) (c_thr s) <= total (w_sleep k) (c_thr s)).
  { clear - ALL. induction ALL as [|x thr Hx Hl IH]; cbn; [lia|]. enough (wsum (w_wait k) x <= wsum (w_sleep k) x) by lia.
    clear - Hx. induction Hx as [|f x Hf Hx IH]; cbn; [lia|]. destruct f; cbn in *; try contradiction; lia. }
  destruct (pc_sync c); destruct (pc_recv c); destruct (pc_live c); cbn [b2n andb] in *; lia.
Qed.
Theorem bounded_steps : forall progs, calm_all progs = true ->
  exists n, forall sched, steps_made (cstart progs) sched <= n + 2 * awakenings (cstart progs) sched.
Proof.
  intros progs H. exists (mu (ncalls (cstart progs)) (cstart progs)). intros sched. apply steps_bound; [apply start_inv; exact H|reflexivity].
Qed.

(** *** Two programs that go wrong *)
Theorem exception_bad : exists progs sched, cexec (cstart progs) sched = Bad.
Proof.
  exists [[OpSync 1 [] true]; [OpCancel 1 empty_result]], (map Step [0;0;0;0;0;1;1;1;1;1]). vm_compute. reflexivity.
Qed.
Definition nested_progs : list (list op) :=
  [[OpAsync 1 [OpSync 2 [] false] []]; [OpCancel 2 (mkRR (VBool true) false VUndef)]].
Definition nested_state (f : frame) (d : nat) : cstate :=
  mkCS (Some (0, d)) [(2%Z, 1); (1%Z, 0)]
    [mkPC false empty_result false true []; mkPC true empty_result false true []]
    [[f; Run []; ASent; Run []]; [KLock 2 (mkRR (VBool true) false VUndef); Run []]]
    [EAdd 0 1; EAdd 1 2].
Lemma nested_closed : forall l s s',
  (s = nested_state (SSleep 1) 1 \/ s = nested_state (SWake 1) 1 \/ s = nested_state (STest 1) 2) ->
  cexec s l = Next s' ->
  (s' = nested_state (SSleep 1) 1 \/ s' = nested_state (SWake 1) 1 \/ s' = nested_state (STest 1) 2).
Proof.
  induction l as [|m l IH]; intros s s' H E; cbn [cexec] in E; [injection E as <-; exact H|].
  destruct (cmove s m) as [s1|] eqn:Em; [|discriminate]. apply (IH s1 s'); [|exact E]. clear IH E.
  destruct m as [[|[|t]]|[|[|t]]]; destruct H as [->|[->| ->]]; cbn in Em;
  try (destruct t; cbn in Em); injection Em as <-; auto.
Qed.
Theorem nested_stuck : exists progs sched s,
  calm_all progs = true /\ cexec (cstart progs) sched = Next s /\
  forall more s', cexec s more = Next s' -> ~ ended s' 0 /\ ~ ended s' 1.
Proof.
  exists nested_progs, (map Step [0;0;0;0;0;0;0;0;0;1]), (nested_state (SSleep 1) 1).
  split; [reflexivity|]. split; [vm_compute; reflexivity|]. intros more s' E.
  apply nested_closed in E; [|auto]. unfold ended. destruct E as [->|[->| ->]]; cbn; split; discriminate.
Qed.
