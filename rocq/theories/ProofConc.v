(** Invariants of the client used by several threads. *)
From Coq Require Import List ZArith Bool Lia.
From Verif Require Import Base ModelRpc ModelConc SpecConc.
Import ListNotations.

(** *** Lists *)
Lemma upd_length : forall A (l : list A) n x, length (upd l n x) = length l.
Proof. induction l as [|y l IH]; intros [|n] x; cbn; auto. Qed.
Lemma upd_nth : forall A (l : list A) n x m,
  nth_error (upd l n x) m = if Nat.eqb n m then (match nth_error l m with Some _ => Some x | None => None end) else nth_error l m.
Proof.
  induction l as [|y l IH]; intros [|n] x [|m]; cbn; auto.
  - destruct (Nat.eqb n m); reflexivity.
Qed.
Lemma upd_upd : forall A (l : list A) n x y, upd (upd l n x) n y = upd l n y.
Proof. induction l as [|z l IH]; intros [|n] x y; cbn; auto. f_equal. apply IH. Qed.

Fixpoint wsum (w : frame -> nat) (stk : list frame) : nat := match stk with [] => 0 | f :: r => w f + wsum w r end.
Fixpoint total (w : frame -> nat) (thr : list (list frame)) : nat := match thr with [] => 0 | x :: r => wsum w x + total w r end.
Definition allf (P : frame -> Prop) (thr : list (list frame)) : Prop := Forall (Forall P) thr.

Lemma wsum_cons : forall w f r, wsum w (f :: r) = w f + wsum w r.
Proof. reflexivity. Qed.
Lemma wsum_app : forall w a b, wsum w (a ++ b) = wsum w a + wsum w b.
Proof. intros w a b. induction a; cbn; lia. Qed.
Lemma total_upd : forall w thr t stk new,
  nth_error thr t = Some stk -> total w (upd thr t new) + wsum w stk = total w thr + wsum w new.
Proof.
  induction thr as [|x thr IH]; intros [|t] stk new H; cbn in H; try discriminate.
  - injection H as ->. cbn. lia.
  - cbn. specialize (IH _ _ new H). lia.
Qed.
Lemma total_ge : forall w thr t stk, nth_error thr t = Some stk -> wsum w stk <= total w thr.
Proof. intros w thr t stk H. pose proof (total_upd w thr t stk [] H) as E. cbn in E. lia. Qed.
Lemma total_in : forall w thr f t stk, nth_error thr t = Some stk -> In f stk -> w f <= total w thr.
Proof.
  intros w thr f t stk H Hin. apply total_ge with (w := w) in H.
  enough (w f <= wsum w stk) by lia. clear H. induction stk as [|g stk IH]; [destruct Hin|].
  rewrite wsum_cons. destruct Hin as [->|Hin]; [lia|]. specialize (IH Hin). lia.
Qed.
Lemma wsum_zero : forall w stk, wsum w stk = 0 -> Forall (fun f => w f = 0) stk.
Proof.
  induction stk as [|g stk IH]; intros H; constructor; rewrite wsum_cons in H; [lia|]. apply IH. lia.
Qed.
Lemma total_zero : forall w thr, total w thr = 0 -> allf (fun f => w f = 0) thr.
Proof.
  unfold allf. induction thr as [|x thr IH]; intros H; constructor; cbn in H.
  - apply wsum_zero. lia.
  - apply IH. lia.
Qed.
Lemma total_pos : forall w thr, 1 <= total w thr -> exists t stk f, nth_error thr t = Some stk /\ In f stk /\ 1 <= w f.
Proof.
  induction thr as [|x thr IH]; intros H; cbn in H; [lia|].
  destruct (Nat.eq_dec (wsum w x) 0) as [E|E].
  - destruct IH as (t & stk & f & Ht & Hf & Hw); [lia|]. exists (S t), stk, f. auto.
  - assert (G : exists f, In f x /\ 1 <= w f).
    { clear IH H. induction x as [|g x IHx]; [cbn in E; lia|]. rewrite wsum_cons in E.
      destruct (Nat.eq_dec (w g) 0) as [E0|E0].
      - destruct IHx as (f & Hf & Hw); [lia|]. exists f. split; [right|]; assumption.
      - exists g. split; [left; reflexivity|lia]. }
    destruct G as (f & Hf & Hw). exists 0, x, f. auto.
Qed.

Lemma allf_nth : forall P thr t stk, allf P thr -> nth_error thr t = Some stk -> Forall P stk.
Proof. intros P thr t stk H E. apply nth_error_In in E. unfold allf in H. rewrite Forall_forall in H. auto. Qed.
Lemma allf_upd : forall P thr t stk, allf P thr -> Forall P stk -> allf P (upd thr t stk).
Proof.
  unfold allf. induction thr as [|x thr IH]; intros [|t] stk H G; cbn; auto; inversion H; subst; constructor; auto.
Qed.
Lemma allf_impl : forall (P Q R : frame -> Prop) thr,
  allf P thr -> allf Q thr -> (forall f, P f -> Q f -> R f) -> allf R thr.
Proof.
  unfold allf. induction thr as [|x thr IH]; intros HP HQ H; constructor; inversion HP; inversion HQ; subst.
  - rewrite Forall_forall in *. intros f Hf. apply H; auto.
  - apply IH; assumption.
Qed.
Lemma allf_rest : forall P thr t f r, allf P thr -> nth_error thr t = Some (f :: r) -> Forall P r.
Proof. intros P thr t f r H E. apply (allf_nth _ _ _ _ H) in E. inversion E; assumption. Qed.
Lemma allf_top : forall P thr t f r, allf P thr -> nth_error thr t = Some (f :: r) -> P f.
Proof. intros P thr t f r H E. apply (allf_nth _ _ _ _ H) in E. inversion E; assumption. Qed.
Lemma total_wake : forall w k thr, (forall j, w (SSleep j) = w (SWake j)) -> total w (map (wake1 k) thr) = total w thr.
Proof.
  intros w k thr H. induction thr as [|x thr IH]; [reflexivity|].
  cbn. rewrite IH. f_equal. destruct x as [|[] rest]; cbn; try reflexivity.
  destruct (Nat.eqb k0 k); [|reflexivity]. rewrite !wsum_cons, H. reflexivity.
Qed.
Lemma allf_wake : forall (P : frame -> Prop) k thr, (forall j, P (SSleep j) -> P (SWake j)) -> allf P thr -> allf P (map (wake1 k) thr).
Proof.
  unfold allf. intros P k thr H. induction thr as [|x thr IH]; intros G; constructor; inversion G; subst; auto.
  destruct x as [|[] rest]; cbn; auto. destruct (Nat.eqb k0 k); auto. inversion H2; subst. constructor; auto.
Qed.

(** *** The lock *)
Definition b2n (b : bool) : nat := if b then 1 else 0.
Definition hold (f : frame) : nat :=
  match f with
  | SAdd _ _ _ _ | SSent _ _ | STest _ | SGet _ | SDel _ _ | RSet _ | RNotify _ | RUnlock | AAdd _ _ _ | ASent
  | KFind _ _ | KMiss | KUnlock _ _ | LCopy _ | LUnlock _ _ => 1
  | _ => 0
  end.
Definition owned (m : mutex) (t : nat) : nat :=
  match m with Some (u, d) => if Nat.eqb u t then d else 0 | None => 0 end.
Definition lock_ok (s : cstate) : Prop :=
  (forall t stk, nth_error (c_thr s) t = Some stk -> wsum hold stk = owned (c_lock s) t) /\
  (forall u d, c_lock s = Some (u, d) -> 1 <= d /\ u < length (c_thr s)).

Lemma acquire_some : forall m t m', acquire m t = Some m' ->
  (forall u, owned m' u = owned m u + b2n (Nat.eqb t u)) /\ (forall u d, m' = Some (u, d) -> u = t /\ 1 <= d).
Proof.
  intros [[v d]|] t m'; cbn.
  - destruct (Nat.eqb_spec v t) as [->|E]; [|discriminate]. intros H. injection H as <-. split.
    + intros u. cbn. destruct (Nat.eqb t u); cbn; lia.
    + intros u e H. injection H as <- <-. split; [reflexivity|lia].
  - intros H. injection H as <-. split; [reflexivity|]. intros u d H. injection H as <- <-. split; [reflexivity|lia].
Qed.
Lemma release_some : forall m t m', release m t = Some m' ->
  1 <= owned m t /\ (forall u, owned m' u + b2n (Nat.eqb t u) = owned m u) /\ (forall u d, m' = Some (u, d) -> 1 <= d /\ exists e, m = Some (u, e)).
Proof.
  intros [[v [|d]]|] t m'; cbn; try discriminate.
  destruct (Nat.eqb_spec v t) as [->|E]; [|discriminate]. intros H. injection H as <-.
  split; [lia|]. split.
  - intros u. destruct d; cbn; destruct (Nat.eqb t u); cbn; lia.
  - intros u e. destruct d; [discriminate|]. intros H. injection H as <- <-. split; [lia|eauto].
Qed.
Lemma release_none : forall m t, release m t = None -> owned m t = 0.
Proof.
  intros [[v [|d]]|] t; cbn; try reflexivity.
  - intros _. destruct (Nat.eqb v t); reflexivity.
  - destruct (Nat.eqb_spec v t); [discriminate|reflexivity].
Qed.

Ltac fdest H :=
  match type of H with
  | context [match ?x with _ => _ end] => destruct x eqn:?
  end.
Ltac dstep H t s f r :=
  unfold tstep in H; destruct (nth_error (c_thr s) t) as [[|f r]|] eqn:Ht; [discriminate H| |discriminate H];
  destruct f; cbn [fstep] in H;
  unfold go, go_lock, go_unlock, with_call, set_call, new_call, add_call in H;
  repeat (fdest H; try discriminate H);
  try discriminate H; try injection H as <-;
  try match goal with o : op |- _ => destruct o; cbn [start_op] end;
  cbn [c_lock c_map c_calls c_thr c_log app] in *.

Lemma wake_nth : forall k thr t stk, nth_error (map (wake1 k) thr) t = Some stk ->
  exists old, nth_error thr t = Some old /\ stk = wake1 k old.
Proof.
  intros k thr t stk H. rewrite nth_error_map in H. destruct (nth_error thr t) as [o|]; [|discriminate].
  injection H as <-. eauto.
Qed.
Lemma wake_hold : forall k stk, wsum hold (wake1 k stk) = wsum hold stk.
Proof. intros k [|[] rest]; cbn; try reflexivity. destruct (Nat.eqb k0 k); reflexivity. Qed.
Lemma hold_klocks : forall v ids r, wsum hold (map (fun i => KLock i v) ids ++ r) = wsum hold r.
Proof. intros v ids r. rewrite wsum_app. induction ids; cbn in *; auto. Qed.

Lemma lock_same : forall s thr' t stk stk' m calls mp log,
  lock_ok s -> nth_error (c_thr s) t = Some stk ->
  (forall u, owned m u + (if Nat.eqb t u then wsum hold stk else 0) = owned (c_lock s) u + (if Nat.eqb t u then wsum hold stk' else 0)) ->
  (forall u d, m = Some (u, d) -> 1 <= d /\ (u = t \/ exists e, c_lock s = Some (u, e))) ->
  thr' = upd (c_thr s) t stk' ->
  lock_ok (mkCS m mp calls thr' log).
Proof.
  intros s thr' t stk stk' m calls mp log [H1 H2] Ht HO HM ->. split; cbn.
  - intros u st Hu. rewrite upd_nth in Hu. specialize (HO u). destruct (Nat.eqb_spec t u) as [->|E].
    + rewrite Ht in Hu. injection Hu as <-. rewrite (H1 _ _ Ht) in HO. lia.
    + rewrite (H1 _ _ Hu). lia.
  - intros u d E. rewrite upd_length. destruct (HM _ _ E) as [Hd [->|[e He]]].
    + split; [assumption|]. apply nth_error_Some. congruence.
    + apply H2 in He. split; [assumption|apply He].
Qed.

Lemma lock_step : forall s t s', lock_ok s -> tstep s t = Some (Next s') -> lock_ok s'.
Proof.
  intros s t s' L H. pose proof L as [L1 L2].
  assert (K : forall u d, c_lock s = Some (u, d) -> 1 <= d /\ (u = t \/ exists e, c_lock s = Some (u, e))).
  { intros u d E. split; [apply (L2 _ _ E)|]. right. eauto. }
  dstep H t s f rest;
  try (eapply lock_same; [exact L|exact Ht| | |reflexivity];
    [intros u; rewrite ?wsum_cons; cbn [hold]; destruct (Nat.eqb t u); lia|exact K]; fail);
  try (match goal with A : acquire _ _ = Some _ |- _ => apply acquire_some in A; destruct A as [A1 A2] end;
    eapply lock_same; [exact L|exact Ht| | |reflexivity];
    [intros u; rewrite A1, ?wsum_cons; cbn [hold]; destruct (Nat.eqb t u); cbn [b2n]; lia
    |intros u d E; destruct (A2 _ _ E) as [-> ?]; split; [assumption|left; reflexivity]]; fail);
  try (match goal with A : release _ _ = Some _ |- _ => apply release_some in A; destruct A as (A0 & A1 & A2) end;
    eapply lock_same; [exact L|exact Ht| | |reflexivity];
    [intros u; specialize (A1 u); rewrite ?hold_klocks, ?wsum_cons; cbn [hold]; destruct (Nat.eqb t u); cbn [b2n] in *; lia
    |intros u d E; destruct (A2 _ _ E) as [? [e ?]]; split; [assumption|right; eauto]]; fail).
  (* notify *)
  assert (Q : lock_ok (mkCS (c_lock s) (c_map s) (c_calls s) (upd (c_thr s) t (RUnlock :: rest)) (c_log s))).
  { eapply lock_same; [exact L|exact Ht| | |reflexivity]; [intros u; rewrite ?wsum_cons; cbn [hold]; destruct (Nat.eqb t u); lia|exact K]. }
  destruct Q as [Q1 Q2]. split; cbn in *.
  - intros u stk Hu. destruct (wake_nth _ _ _ _ Hu) as (o & Ho & ->). rewrite wake_hold. eauto.
  - intros u d E. rewrite map_length. eauto.
Qed.

(** *** The shape of stacks *)
Definition under (f : frame) : Prop :=
  match f with Run _ | SSent _ _ | ASent | DDel _ | KLock _ _ => True | _ => False end.
Definition under_ok (thr : list (list frame)) : Prop := Forall (fun stk => Forall under (tl stk)) thr.

Lemma under_nth : forall thr t stk, under_ok thr -> nth_error thr t = Some stk -> Forall under (tl stk).
Proof.
  intros thr t stk H E. apply nth_error_In in E. unfold under_ok in H. rewrite Forall_forall in H. exact (H _ E).
Qed.
Lemma under_upd : forall thr t stk, under_ok thr -> Forall under (tl stk) -> under_ok (upd thr t stk).
Proof.
  unfold under_ok. induction thr as [|x thr IH]; intros [|t] stk H G; cbn; auto; inversion H; subst; constructor; auto.
Qed.
Lemma under_tl : forall l, Forall under l -> Forall under (tl l).
Proof. intros [|x l] H; [assumption|]. inversion H; assumption. Qed.
Lemma under_step : forall s t s', under_ok (c_thr s) -> tstep s t = Some (Next s') -> under_ok (c_thr s').
Proof.
  intros s t s' U H. dstep H t s f rest;
  pose proof (under_nth _ _ _ U Ht) as R; cbn [tl] in R;
  try (apply under_upd; [exact U|]; cbn [tl]; repeat constructor; assumption);
  try (apply under_upd; [exact U|]; apply under_tl; assumption).
  - (* notify *)
    assert (Q : under_ok (upd (c_thr s) t (RUnlock :: rest))) by (apply under_upd; assumption).
    revert Q. unfold under_ok. generalize (upd (c_thr s) t (RUnlock :: rest)). intros l Q.
    induction Q as [|x l Hx Hl IH]; constructor; [|exact IH]. destruct x as [|[] x]; cbn; auto. destruct (Nat.eqb k0 k); exact Hx.
  - apply under_upd; [exact U|]. apply under_tl. apply Forall_app. split; [|assumption].
    clear. induction ids; constructor; cbn; auto.
Qed.

Definition calm_frame (f : frame) : Prop :=
  match f with
  | Run l => forallb calm l = true
  | SLock _ send throws | SAdd _ _ send throws => throws = false /\ forallb calm send = true
  | SSent _ throws => throws = false
  | ALock _ send fn => forallb calm send = true /\ forallb calm fn = true
  | AAdd _ _ send => forallb calm send = true
  | _ => True
  end.
Definition calm_ok (s : cstate) : Prop :=
  allf calm_frame (c_thr s) /\ Forall (fun c => forallb calm (pc_fn c) = true) (c_calls s).
Lemma Forall_upd : forall A (P : A -> Prop) l n x, Forall P l -> P x -> Forall P (upd l n x).
Proof. induction l as [|y l IH]; intros [|n] x H G; cbn; auto; inversion H; subst; constructor; auto. Qed.
Lemma Forall_nth_error : forall A (P : A -> Prop) l n x, Forall P l -> nth_error l n = Some x -> P x.
Proof. intros A P l n x H E. apply nth_error_In in E. rewrite Forall_forall in H. auto. Qed.

Lemma calm_step : forall s t s', calm_ok s -> tstep s t = Some (Next s') -> calm_ok s'.
Proof.
  intros s t s' [C1 C2] H. dstep H t s f rest;
  pose proof (allf_nth _ _ _ _ C1 Ht) as Q; inversion Q as [|f' l' Qf Qr]; subst; cbn [calm_frame] in Qf;
  cbn [forallb calm] in Qf; rewrite ?andb_true_iff in Qf;
  repeat match goal with A : _ /\ _ |- _ => destruct A end; try (match goal with A : negb _ = true |- _ => apply negb_true_iff in A end); subst;
  split; cbn [c_thr c_calls];
  try exact C2;
  try (apply allf_upd; [exact C1|]; repeat constructor; assumption);
  try (apply Forall_upd; [exact C2|]; cbn; try reflexivity; eapply Forall_nth_error in C2; [|eassumption]; exact C2);
  try (apply Forall_app; split; [exact C2|]; constructor; [|constructor]; first [reflexivity|assumption]);
  try discriminate.
  - (* notify *)
    apply allf_wake; [auto|]. apply allf_upd; [exact C1|]. constructor; [exact I|assumption].
  - apply allf_upd; [exact C1|]. constructor; [|repeat constructor; assumption].
    eapply Forall_nth_error in C2; [|eassumption]. exact C2.
  - apply Forall_upd; [exact C2|reflexivity].
  - apply allf_upd; [exact C1|]. apply Forall_app. split; [|assumption]. clear. induction ids; constructor; cbn; auto.
Qed.

(** *** Who has a call *)
Definition w_new (k : nat) (f : frame) : nat :=
  match f with SAdd j _ _ _ | AAdd j _ _ => b2n (Nat.eqb j k) | _ => 0 end.
Definition w_car (k : nat) (f : frame) : nat :=
  match f with KUnlock j _ | KResp j _ | RLock j | RSet j | DRun j => b2n (Nat.eqb j k) | _ => 0 end.
Definition w_wait (k : nat) (f : frame) : nat :=
  match f with SAdd j _ _ _ | SSent j _ | STest j | SSleep j | SWake j | SGet j | SDel j _ => b2n (Nat.eqb j k) | _ => 0 end.
Definition w_get (k : nat) (f : frame) : nat :=
  match f with SGet j | SDel j _ => b2n (Nat.eqb j k) | _ => 0 end.
Definition w_not (k : nat) (f : frame) : nat :=
  match f with RNotify j => b2n (Nat.eqb j k) | _ => 0 end.
Definition w_sleep (k : nat) (f : frame) : nat :=
  match f with SSleep j => b2n (Nat.eqb j k) | _ => 0 end.
Definition w_ddel (k : nat) (f : frame) : nat :=
  match f with DDel j => b2n (Nat.eqb j k) | _ => 0 end.
Definition w_syn (k : nat) (f : frame) : nat :=
  match f with RLock j | RSet j | RNotify j => b2n (Nat.eqb j k) | _ => w_wait k f end.
Definition w_asy (k : nat) (f : frame) : nat :=
  match f with AAdd j _ _ | DRun j | DDel j => b2n (Nat.eqb j k) | _ => 0 end.
Fixpoint n_map (k : nat) (m : list (Z * nat)) : nat :=
  match m with [] => 0 | (_, j) :: r => b2n (Nat.eqb j k) + n_map k r end.

Definition count_ok (s : cstate) : Prop := forall k,
  let T w := total (w k) (c_thr s) in
  match nth_error (c_calls s) k with
  | None => T w_new + T w_car + T w_wait + T w_get + T w_not + T w_sleep + T w_ddel + T w_syn + T w_asy + n_map k (c_map s) = 0
  | Some c =>
      T w_new + n_map k (c_map s) + T w_car + b2n (pc_recv c) = 1 /\
      1 <= b2n (pc_live c) + b2n (pc_recv c) /\
      T w_get <= b2n (pc_recv c) /\
      (T w_not = 0 \/ b2n (pc_recv c) = 1 /\ b2n (pc_live c) = 1) /\
      T w_sleep + b2n (pc_recv c) <= 1 + T w_not /\
      T w_ddel <= b2n (pc_recv c) /\
      (if pc_sync c then T w_wait = b2n (pc_live c) /\ T w_asy = 0
       else T w_wait = 0 /\ T w_syn = 0 /\ T w_ddel + 1 = b2n (pc_live c) + b2n (pc_recv c))
  end.

Lemma total_le : forall w v thr, (forall f, w f <= v f) -> total w thr <= total v thr.
Proof.
  intros w v thr H. induction thr as [|x thr IH]; cbn; [lia|].
  enough (wsum w x <= wsum v x) by lia. clear IH. induction x as [|f x IH]; cbn; [lia|]. specialize (H f). lia.
Qed.
Lemma frame_facts : forall thr k,
  total (w_sleep k) thr <= total (w_wait k) thr /\ total (w_get k) thr <= total (w_wait k) thr /\
  total (w_not k) thr <= total (w_syn k) thr /\ total (w_wait k) thr <= total (w_syn k) thr /\
  total (w_ddel k) thr <= total (w_asy k) thr.
Proof.
  intros thr k. repeat split; apply total_le; intros []; cbn; lia.
Qed.

Lemma excl : forall s t f rest w,
  lock_ok s -> under_ok (c_thr s) -> nth_error (c_thr s) t = Some (f :: rest) -> hold f = 1 ->
  (forall g, 1 <= w g -> hold g = 1 /\ ~ under g) ->
  total w (upd (c_thr s) t rest) = 0.
Proof.
  intros s t f rest w L U Ht Hf Hw.
  destruct (Nat.eq_dec (total w (upd (c_thr s) t rest)) 0) as [E|E]; [exact E|exfalso].
  destruct (total_pos w (upd (c_thr s) t rest)) as (u & stk & g & Hu & Hg & Hg1); [lia|].
  destruct (Hw g Hg1) as [G1 G2]. rewrite upd_nth in Hu. destruct (Nat.eqb_spec t u) as [->|N].
  - rewrite Ht in Hu. injection Hu as <-. pose proof (under_nth _ _ _ U Ht) as R. cbn in R.
    rewrite Forall_forall in R. exact (G2 (R _ Hg)).
  - destruct L as [L1 _]. pose proof (L1 _ _ Ht) as A. pose proof (L1 _ _ Hu) as B. rewrite wsum_cons, Hf in A.
    assert (C : 1 <= wsum hold stk).
    { clear - Hg G1. induction stk as [|x stk IH]; [destruct Hg|]. cbn. destruct Hg as [->|Hg]; [lia|]. specialize (IH Hg). lia. }
    unfold owned in A, B. destruct (c_lock s) as [[v d]|]; [|lia].
    destruct (Nat.eqb_spec v t); destruct (Nat.eqb_spec v u); subst; try lia.
Qed.

Lemma sleep_woken : forall k thr, under_ok thr -> total (w_sleep k) (map (wake1 k) thr) = 0.
Proof.
  intros k thr U. induction U as [|x thr Hx Hl IH]; [reflexivity|]. cbn [map total]. rewrite IH.
  assert (R : forall r, Forall under r -> wsum (w_sleep k) r = 0).
  { clear. induction r as [|f r IHr]; intros H; [reflexivity|]. inversion H; subst. cbn. rewrite IHr by assumption.
    destruct f; cbn in *; try tauto; reflexivity. }
  destruct x as [|f r]; [reflexivity|]. cbn [tl] in Hx. destruct f; cbn [wake1]; rewrite ?wsum_cons, ?(R _ Hx); try reflexivity.
  destruct (Nat.eqb_spec k0 k) as [->|N]; rewrite wsum_cons, (R _ Hx); cbn; [reflexivity|].
  destruct (Nat.eqb_spec k0 k); [contradiction|reflexivity].
Qed.
Lemma sleep_le : forall k j thr, total (w_sleep j) (map (wake1 k) thr) <= total (w_sleep j) thr.
Proof.
  intros k j thr. induction thr as [|x thr IH]; [cbn; lia|]. cbn [map total].
  enough (wsum (w_sleep j) (wake1 k x) <= wsum (w_sleep j) x) by lia. destruct x as [|[] rest]; cbn [wake1]; try lia.
  destruct (Nat.eqb k0 k); rewrite ?wsum_cons; cbn; lia.
Qed.

Lemma n_map_erase : forall m id k, find_call m id = Some k ->
  forall j, n_map j (erase_call m id) + b2n (Nat.eqb k j) = n_map j m.
Proof.
  induction m as [|[i q] m IH]; intros id k H j; cbn in *; [discriminate|].
  destruct (Z.eqb i id); [injection H as ->; lia|]. cbn. specialize (IH _ _ H j). lia.
Qed.
Lemma w_klocks : forall w v ids r, (forall i, w (KLock i v) = 0) -> wsum w (map (fun i => KLock i v) ids ++ r) = wsum w r.
Proof. intros w v ids r H. rewrite wsum_app. enough (wsum w (map (fun i => KLock i v) ids) = 0) by lia. induction ids; cbn; [reflexivity|]. rewrite H. assumption. Qed.

Ltac eqs thr t Ht new k' :=
  let old := match type of Ht with _ = Some ?x => x end in
  pose proof (total_upd (w_new k') thr t old new Ht); pose proof (total_ge (w_new k') thr t old Ht);
  pose proof (total_upd (w_car k') thr t old new Ht); pose proof (total_ge (w_car k') thr t old Ht);
  pose proof (total_upd (w_wait k') thr t old new Ht); pose proof (total_ge (w_wait k') thr t old Ht);
  pose proof (total_upd (w_get k') thr t old new Ht); pose proof (total_ge (w_get k') thr t old Ht);
  pose proof (total_upd (w_not k') thr t old new Ht); pose proof (total_ge (w_not k') thr t old Ht);
  pose proof (total_upd (w_sleep k') thr t old new Ht); pose proof (total_ge (w_sleep k') thr t old Ht);
  pose proof (total_upd (w_ddel k') thr t old new Ht); pose proof (total_ge (w_ddel k') thr t old Ht);
  pose proof (total_upd (w_syn k') thr t old new Ht); pose proof (total_ge (w_syn k') thr t old Ht);
  pose proof (total_upd (w_asy k') thr t old new Ht); pose proof (total_ge (w_asy k') thr t old Ht);
  pose proof (frame_facts thr k'); pose proof (frame_facts (upd thr t new) k').

Lemma count_step : forall s t s',
  lock_ok s -> under_ok (c_thr s) -> calm_ok s -> count_ok s -> tstep s t = Some (Next s') -> count_ok s'.
Proof.
  intros s t s' L U [C _] N H. pose proof N as N0. dstep H t s f rest; intros k'; cbv zeta; cbn [c_lock c_map c_calls c_thr c_log];
  try (apply (allf_top _ _ _ _ _ C) in Ht; cbn in Ht; discriminate Ht);
  specialize (N k'); cbv zeta in N;
  try match goal with |- context [total _ (upd (c_thr s) t ?new)] => eqs (c_thr s) t Ht new k' end;
  rewrite ?wsum_cons in *; cbn [w_new w_car w_wait w_get w_not w_sleep w_ddel w_syn w_asy] in *;
  rewrite ?upd_nth;
  cbn [n_map];
  repeat match goal with |- context [Nat.eqb ?a k'] => destruct (Nat.eqb_spec a k'); [try subst a|] | A : context [Nat.eqb ?a k'] |- _ => destruct (Nat.eqb_spec a k'); [try subst a|] end; cbn [b2n] in *;
  try match goal with A : nth_error (c_calls s) ?k = Some ?p, B : context [nth_error (c_calls s) ?k] |- _ => rewrite A in B end;
  repeat match goal with A : nth_error (c_calls s) ?k = Some ?p |- context [nth_error (c_calls s) ?k] => rewrite A end;
  cbn [pc_sync pc_res pc_recv pc_live pc_fn] in *;
  repeat match goal with A : pc_live ?p = _ |- _ => rewrite A in * | A : pc_recv ?p = _ |- _ => rewrite A in * | A : pc_sync ?p = _ |- _ => rewrite A in * end; cbn [b2n] in *;
  try (destruct (nth_error (c_calls s) k') as [c|]; [destruct (pc_sync c)|]; lia);
  try (match goal with p : pcall |- _ => destruct (pc_sync p) eqn:? end; cbn [b2n] in *; lia).
  - (* a new call *)
    rewrite nth_error_app2 by lia. replace (k' - length (c_calls s)) with 0 by lia. cbn.
    rewrite (proj2 (nth_error_None (c_calls s) k')) in N by lia. lia.
  - destruct (Nat.lt_ge_cases k' (length (c_calls s))) as [D|D].
    + rewrite nth_error_app1 by lia. destruct (nth_error (c_calls s) k') as [c|]; [destruct (pc_sync c)|]; lia.
    + rewrite (proj2 (nth_error_None (c_calls s ++ _) k')) by (rewrite app_length; cbn; lia).
      rewrite (proj2 (nth_error_None (c_calls s) k')) in N by lia. lia.
  - (* the end of a waiting call *)
    assert (Z0 : total (w_not k') (upd (c_thr s) t rest) = 0).
    { eapply excl; try eassumption; [reflexivity|]. intros []; cbn; lia. }
    destruct (pc_sync p); cbn [b2n] in *; destruct (pc_recv p); cbn [b2n] in *; lia.
  - (* notify *)
    eqs (c_thr s) t Ht (RUnlock :: rest) k'. rewrite ?wsum_cons in *. cbn [w_new w_car w_wait w_get w_not w_sleep w_ddel w_syn w_asy] in *.
    rewrite (total_wake (w_new k')), (total_wake (w_car k')), (total_wake (w_wait k')), (total_wake (w_get k')), (total_wake (w_not k')),
      (total_wake (w_ddel k')), (total_wake (w_syn k')), (total_wake (w_asy k')) by reflexivity.
    assert (U' : under_ok (upd (c_thr s) t (RUnlock :: rest))) by (apply under_upd; [exact U|exact (under_nth _ _ _ U Ht)]).
    pose proof (sleep_le k k' (upd (c_thr s) t (RUnlock :: rest))).
    destruct (Nat.eqb_spec k k') as [->|E]; cbn [b2n] in *.
    + pose proof (sleep_woken k' _ U'). rewrite Heqo in N |- *. rewrite Heqb in N |- *. destruct (pc_sync p); destruct (pc_recv p); cbn [b2n] in *; lia.
    + destruct (nth_error (c_calls s) k') as [c|]; [destruct (pc_sync c)|]; lia.
  - rewrite nth_error_app2 by lia. replace (k' - length (c_calls s)) with 0 by lia. cbn.
    rewrite (proj2 (nth_error_None (c_calls s) k')) in N by lia. lia.
  - destruct (Nat.lt_ge_cases k' (length (c_calls s))) as [D|D].
    + rewrite nth_error_app1 by lia. destruct (nth_error (c_calls s) k') as [c|]; [destruct (pc_sync c)|]; lia.
    + rewrite (proj2 (nth_error_None (c_calls s ++ _) k')) by (rewrite app_length; cbn; lia).
      rewrite (proj2 (nth_error_None (c_calls s) k')) in N by lia. lia.
  - (* a call is taken *)
    pose proof (n_map_erase _ _ _ Heqo k') as E. rewrite Nat.eqb_refl in E. cbn [b2n] in E.
    destruct (nth_error (c_calls s) k') as [c|]; [destruct (pc_sync c)|]; lia.
  - pose proof (n_map_erase _ _ _ Heqo k') as E. destruct (Nat.eqb_spec n k'); [contradiction|]. cbn [b2n] in E.
    destruct (nth_error (c_calls s) k') as [c|]; [destruct (pc_sync c)|]; lia.
  - rewrite !w_klocks in * by reflexivity.
    destruct (nth_error (c_calls s) k') as [c|]; [destruct (pc_sync c)|]; lia.
Qed.
