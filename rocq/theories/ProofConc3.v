(** The client used by several threads: no deadlock, no lost notification, an end. *)
From Coq Require Import List ZArith Bool Lia.
From Verif Require Import Base ModelRpc ModelConc SpecConc ProofConc ProofConc2.
Import ListNotations.

(** *** When nothing can move *)
Lemma quiet_states : forall s, Inv s -> quiet s ->
  (forall t, t < length (c_thr s) -> ended s t \/ unanswered s t) \/ (exists u, asleep_with_lock s u).
Proof.
  intros s [L U [C _] N G] Q.
  assert (TOPS : forall t f r, nth_error (c_thr s) t = Some (f :: r) -> (c_lock s = None \/ owned (c_lock s) t > 0) -> exists k, f = SSleep k).
  { intros t f r Ht O. specialize (Q t). unfold tstep in Q. rewrite Ht in Q.
    assert (A : exists m, acquire (c_lock s) t = Some m).
    { destruct O as [->|O]; [cbn; eauto|]. unfold owned in O. destruct (c_lock s) as [[v d]|]; [|lia].
      cbn. destruct (Nat.eqb v t); [eauto|lia]. }
    destruct A as [m A].
    destruct f; eauto; exfalso; cbn [fstep] in Q; unfold go, go_lock, go_unlock, with_call, set_call, new_call, add_call in Q; rewrite ?A in Q;
    repeat (fdest Q; try discriminate Q); try discriminate Q. }
  destruct (c_lock s) as [[u d]|] eqn:El.
  - right. exists u. destruct L as [L1 L2]. destruct (L2 _ _ El) as [Hd Hu]. apply nth_error_Some in Hu.
    destruct (nth_error (c_thr s) u) as [stk|] eqn:Eu; [|contradiction]. pose proof (L1 _ _ Eu) as E. rewrite El in E. cbn in E. rewrite Nat.eqb_refl in E.
    destruct stk as [|f r]; [cbn in E; lia|].
    destruct (TOPS u f r Eu) as [k ->]; [right; cbn; rewrite Nat.eqb_refl; lia|]. exists k, r, d. rewrite Eu, El. auto.
  - left. intros t Ht. apply nth_error_Some in Ht. destruct (nth_error (c_thr s) t) as [[|f r]|] eqn:Et; [left; exact Et| |contradiction].
    destruct (TOPS t f r Et (or_introl eq_refl)) as [k ->]. right.
    assert (ALL : allf (fun f => match f with SSleep _ => True | _ => under f end) (c_thr s)).
    { unfold allf. apply Forall_forall. intros stk Hin. destruct (In_nth_error _ _ Hin) as [v Hv]. destruct stk as [|g q]; [constructor|].
      destruct (TOPS v g q Hv (or_introl eq_refl)) as [j ->]. constructor; [exact I|].
      pose proof (under_nth _ _ _ U Hv) as R. cbn in R. rewrite Forall_forall in *. intros x Hx. specialize (R x Hx). destruct x; cbn in *; auto. }
    assert (Z0 : forall w, (forall f, match f with SSleep _ => True | _ => under f end -> w f = 0) -> total w (c_thr s) = 0).
    { intros w Hw. destruct (Nat.eq_dec (total w (c_thr s)) 0) as [E|E]; [exact E|exfalso].
      destruct (total_pos w (c_thr s)) as (v & stk & f & Hv & Hf & Hp); [lia|].
      pose proof (allf_nth _ _ _ _ ALL Hv) as F. rewrite Forall_forall in F. specialize (Hw f (F f Hf)). lia. }
    assert (Z1 : total (w_new k) (c_thr s) = 0) by (apply Z0; intros []; cbn; tauto).
    assert (Z2 : total (w_car k) (c_thr s) = 0) by (apply Z0; intros []; cbn; tauto).
    assert (Z3 : total (w_not k) (c_thr s) = 0) by (apply Z0; intros []; cbn; tauto).
    pose proof (total_ge (w_sleep k) _ _ _ Et) as S1. rewrite wsum_cons in S1. cbn [w_sleep] in S1. rewrite Nat.eqb_refl in S1. cbn [b2n] in S1.
    pose proof (frame_facts (c_thr s) k) as FF.
    pose proof (N k) as N'. cbv zeta in N'. destruct (nth_error (c_calls s) k) as [c|]; [|lia].
    assert (M : 1 <= n_map k (c_map s)) by lia.
    assert (In1 : exists id, In (id, k) (c_map s)).
    { clear - M. induction (c_map s) as [|[i j] m IH]; cbn in M; [lia|]. destruct (Nat.eqb_spec j k) as [->|D].
      - exists i. left. reflexivity.
      - cbn in M. destruct (IH M) as [id H]. exists id. right. exact H. }
    destruct In1 as [id Hid]. exists k, r, id. auto.
Qed.

(** *** Waiting calls made by threads only *)
Definition clean (f : frame) : Prop :=
  match f with
  | Run l => forallb no_wait l = true
  | SLock _ _ _ | SAdd _ _ _ _ | SSent _ _ | STest _ | SSleep _ | SWake _ | SGet _ | SDel _ _ => False
  | ALock _ send fn => forallb no_wait send = true /\ forallb no_wait fn = true
  | AAdd _ _ send => forallb no_wait send = true
  | _ => True
  end.
Definition sframe (f : frame) : Prop :=
  match f with
  | SLock _ send _ | SAdd _ _ send _ => forallb no_wait send = true
  | SSent _ _ | STest _ | SSleep _ | SWake _ | SGet _ | SDel _ _ => True
  | _ => False
  end.
Definition ok2 (stk : list frame) : Prop :=
  stk = [] \/ exists pre mid l, stk = pre ++ mid ++ [Run l] /\ Forall clean pre /\ forallb flat l = true /\ (mid = [] \/ exists g, mid = [g] /\ sframe g).
Lemma ok2_top : forall f rest, ok2 (f :: rest) ->
  (clean f /\ ok2 rest /\ rest <> []) \/
  (exists l, sframe f /\ rest = [Run l] /\ forallb flat l = true) \/
  (exists l, f = Run l /\ rest = [] /\ forallb flat l = true).
Proof.
  intros f rest [H|(pre & mid & l & E & Hp & Hl & Hm)]; [discriminate|]. destruct pre as [|g pre]; cbn in E.
  - destruct Hm as [->|(g & -> & Hg)]; cbn in E; injection E as -> ->.
    + right. right. eauto.
    + right. left. eauto.
  - injection E as -> ->. inversion Hp; subst. left. split; [assumption|]. split.
    + right. exists pre, mid, l. auto.
    + destruct pre; destruct mid; discriminate.
Qed.
Lemma ok2_push : forall news rest, ok2 rest -> rest <> [] -> Forall clean news -> ok2 (news ++ rest).
Proof.
  intros news rest [H|(pre & mid & l & E & Hp & Hl & Hm)] D Hn; [contradiction|]. right. exists (news ++ pre), mid, l. subst.
  rewrite app_assoc. split; [reflexivity|]. split; [apply Forall_app; auto|]. auto.
Qed.
Lemma ok2_sync : forall news g l, Forall clean news -> sframe g -> forallb flat l = true -> ok2 (news ++ [g; Run l]).
Proof. intros news g l H Hg Hl. right. exists news, [g], l. split; [reflexivity|]. eauto 6. Qed.
Lemma ok2_run : forall news l, Forall clean news -> forallb flat l = true -> ok2 (news ++ [Run l]).
Proof. intros news l H Hl. right. exists news, [], l. split; [reflexivity|]. eauto 6. Qed.

Definition flat_ok (s : cstate) : Prop :=
  Forall ok2 (c_thr s) /\ Forall (fun c => forallb no_wait (pc_fn c) = true) (c_calls s).
Lemma no_wait_start : forall o, no_wait o = true -> clean (start_op o).
Proof. intros [] H; cbn in *; try discriminate; auto. apply andb_true_iff in H. exact H. Qed.
Lemma flat_step : forall s t s', flat_ok s -> tstep s t = Some (Next s') -> flat_ok s'.
Proof.
  intros s t s' [F1 F2] H.
  assert (TOP : forall u stk, nth_error (c_thr s) u = Some stk -> ok2 stk) by (intros u stk E; exact (Forall_nth_error _ _ _ _ _ F1 E)).
  assert (FN : forall k p, nth_error (c_calls s) k = Some p -> forallb no_wait (pc_fn p) = true)
    by (intros k p E; exact (Forall_nth_error _ _ _ _ _ F2 E)).
  unfold tstep in H. destruct (nth_error (c_thr s) t) as [[|f rest]|] eqn:Ht; [discriminate H| |discriminate H].
  specialize (TOP _ _ Ht). apply ok2_top in TOP.
  assert (THR : forall stk, ok2 stk -> Forall ok2 (upd (c_thr s) t stk)) by (intros; apply Forall_upd; assumption).
  destruct f; cbn [fstep] in H; unfold go, go_lock, go_unlock, with_call, set_call, new_call, add_call in H;
  repeat (fdest H; try discriminate H); try discriminate H; injection H as <-;
  (destruct TOP as [(T1 & T2 & T3)|[(l1 & T1 & T2 & T3)|(l1 & T1 & T2 & T3)]]; try discriminate T1; try contradiction T1; subst);
  cbn [clean sframe] in T1; cbn [app];
  (split; cbn [c_thr c_calls];
   [try apply THR
   |try exact F2; try (apply Forall_upd; [exact F2|]; cbn [pc_fn]; first [reflexivity|eapply FN; eassumption]; fail);
    try (apply Forall_app; split; [exact F2|]; constructor; [|constructor]; first [reflexivity|apply T1])]).
  all: try (first [exact T2|apply (ok2_run [])]; assumption).
  all: try (apply (ok2_push [_]); [assumption|assumption|]; repeat constructor; try exact I; try exact T1; try apply T1; fail).
  all: try (apply (ok2_push [_; _]); [assumption|assumption|]; repeat constructor; try exact I; try exact T1; try apply T1; fail).
  all: try (apply (ok2_push [_; _; _]); [assumption|assumption|]; repeat constructor; try exact I; try exact T1; try apply T1; fail).
  all: try (apply (ok2_sync []); [constructor|exact I|assumption]; fail).
  all: try (apply (ok2_sync []); [constructor|exact T1|assumption]; fail).
  all: try (apply (ok2_sync [_; _]); [repeat constructor; exact T1|exact I|assumption]; fail).
  all: try (apply (ok2_sync [_]); [repeat constructor; exact T1|exact I|assumption]; fail).
  - left. reflexivity.
  - cbn [forallb] in T1. apply andb_true_iff in T1. destruct T1 as [B1 B2].
    apply (ok2_push [_; _]); [assumption|assumption|]. repeat constructor; [apply no_wait_start; exact B1|exact B2].
  - injection T1 as <-. cbn [forallb] in T3. apply andb_true_iff in T3. destruct T3 as [B1 B2].
    destruct o; cbn [start_op flat] in *; try apply andb_true_iff in B1.
    + apply (ok2_sync []); [constructor|exact B1|exact B2].
    + apply (ok2_run [_]); [repeat constructor; apply B1|exact B2].
    + apply (ok2_run [_]); [repeat constructor|exact B2].
    + apply (ok2_run [_]); [repeat constructor|exact B2].
  - apply (ok2_run []); [constructor|exact T3].
  - apply (ok2_run []); [constructor|exact T3].
  - assert (Q : Forall ok2 (upd (c_thr s) t (RUnlock :: rest))) by (apply THR; apply (ok2_push [_]); auto; repeat constructor).
    revert Q. generalize (upd (c_thr s) t (RUnlock :: rest)). intros q Q. rewrite Forall_map. eapply Forall_impl; [|exact Q].
    intros stk Hs. destruct stk as [|[] stk]; cbn; try exact Hs. destruct (Nat.eqb k0 k); [|exact Hs].
    apply ok2_top in Hs. destruct Hs as [(T & _)|[(l1 & _ & -> & Hl)|(l1 & T & _)]]; [contradiction T| |discriminate T].
    apply (ok2_sync []); [constructor|exact I|exact Hl].
  - apply (ok2_push [_; _]); [assumption|assumption|]. repeat constructor. cbn. eapply FN; eassumption.
  - apply ok2_push; [assumption|assumption|]. clear. induction ids; constructor; cbn; auto.
Qed.
Lemma flat_spurious : forall s t s', flat_ok s -> spurious s t = Some s' -> flat_ok s'.
Proof.
  intros s t s' [F1 F2] H. unfold spurious in H.
  destruct (nth_error (c_thr s) t) as [[|[] rest]|] eqn:Ht; try discriminate H. injection H as <-. split; [|exact F2]. cbn [c_thr].
  apply Forall_upd; [exact F1|]. pose proof (Forall_nth_error _ _ _ _ _ F1 Ht) as O. apply ok2_top in O.
  destruct O as [(T & _)|[(l1 & _ & -> & Hl)|(l1 & T & _)]]; [contradiction T| |discriminate T].
  apply (ok2_sync []); [constructor|exact I|exact Hl].
Qed.
Lemma flat_start : forall progs, flat_all progs = true -> flat_ok (cstart progs).
Proof.
  intros progs H. split; [|constructor]. cbn. rewrite Forall_map, Forall_forall. intros p Hp.
  unfold flat_all in H. rewrite forallb_forall in H. apply (ok2_run []); [constructor|exact (H p Hp)].
Qed.
Lemma flat_exec : forall l s s', flat_ok s -> cexec s l = Next s' -> flat_ok s'.
Proof.
  induction l as [|m l IH]; intros s s' F H; cbn in H; [injection H as <-; exact F|].
  destruct m as [t|t]; cbn in H.
  - destruct (tstep s t) as [[s1|]|] eqn:E; [|discriminate|exact (IH _ _ F H)]. exact (IH _ _ (flat_step _ _ _ F E) H).
  - destruct (spurious s t) as [s1|] eqn:E; [|exact (IH _ _ F H)]. exact (IH _ _ (flat_spurious _ _ _ F E) H).
Qed.
Lemma flat_lock : forall s u, lock_ok s -> flat_ok s -> ~ asleep_with_lock s u.
Proof.
  intros s u [L1 L2] [F _] (k & r & d & Hu & El). pose proof (Forall_nth_error _ _ _ _ _ F Hu) as O. apply ok2_top in O.
  destruct O as [(T & _)|[(l1 & _ & -> & Hl)|(l1 & T & _)]]; [contradiction T| |discriminate T].
  specialize (L1 _ _ Hu). destruct (L2 _ _ El) as [Hd _]. rewrite El in L1. cbn in L1. rewrite Nat.eqb_refl in L1. lia.
Qed.

(** *** Every execution ends *)
Definition lsum (l : list nat) : nat := fold_right Nat.add 0 l.
Lemma lsum_cons : forall x l, lsum (x :: l) = x + lsum l. Proof. reflexivity. Qed.
Lemma lsum_app : forall a b, lsum (a ++ b) = lsum a + lsum b.
Proof. induction a as [|x a IH]; intros b; [reflexivity|]. cbn [app]. rewrite !lsum_cons, IH. lia. Qed.
Lemma lsum_upd : forall A (f : A -> nat) l n x y, nth_error l n = Some x -> lsum (map f (upd l n y)) + f x = lsum (map f l) + f y.
Proof.
  induction l as [|z l IH]; intros [|n] x y H; cbn in H; try discriminate; cbn [upd map]; rewrite !lsum_cons.
  - injection H as ->. lia.
  - specialize (IH n x y H). lia.
Qed.

(** how many calls a program makes *)
Fixpoint opc (o : op) : nat :=
  match o with
  | OpSync _ send _ => 1 + lsum (map opc send)
  | OpAsync _ send fn => 1 + lsum (map opc send) + lsum (map opc fn)
  | _ => 0
  end.
Definition fc (f : frame) : nat :=
  match f with
  | Run l => lsum (map opc l)
  | SLock _ send _ => 1 + lsum (map opc send)
  | SAdd _ _ send _ | AAdd _ _ send => lsum (map opc send)
  | ALock _ send fn => 1 + lsum (map opc send) + lsum (map opc fn)
  | _ => 0
  end.
Definition cc (c : pcall) : nat := lsum (map opc (pc_fn c)).
Definition ncalls (s : cstate) : nat := length (c_calls s) + total fc (c_thr s) + lsum (map cc (c_calls s)).

Section Measure.
Variable n : nat.
Fixpoint opw (o : op) : nat :=
  match o with
  | OpSync _ send _ => 14 + lsum (map opw send)
  | OpAsync _ send fn => 8 + lsum (map opw send) + lsum (map opw fn)
  | OpCancel _ _ => 11
  | OpCancelAll _ => 4 + 10 * n
  end.
Definition fw (f : frame) : nat :=
  match f with
  | Run l => 1 + lsum (map opw l)
  | SLock _ send _ => 13 + lsum (map opw send)
  | SAdd _ _ send _ => 12 + lsum (map opw send)
  | SSent _ _ => 4 | STest _ => 3 | SSleep _ => 2 | SWake _ => 4 | SGet _ => 2 | SDel _ _ => 1
  | RLock _ => 6 | RSet _ => 5 | RNotify _ => 4 | RUnlock => 1
  | ALock _ send fn => 7 + lsum (map opw send) + lsum (map opw fn)
  | AAdd _ _ send => 6 + lsum (map opw send)
  | ASent => 1 | DRun _ => 3 | DDel _ => 1
  | KLock _ _ => 10 | KFind _ _ => 9 | KMiss => 1 | KUnlock _ _ => 8 | KResp _ _ => 7
  | LLock _ => 3 + 10 * n | LCopy _ => 2 + 10 * n | LUnlock ids _ => 1 + 10 * length ids
  end.
Definition cw (c : pcall) : nat := lsum (map opw (pc_fn c)).
Definition mu (s : cstate) : nat := total fw (c_thr s) + lsum (map cw (c_calls s)).
End Measure.

Lemma n_map_nodup : forall m, (forall k, n_map k m <= 1) -> NoDup (map snd m).
Proof.
  induction m as [|[i j] m IH]; intros H; cbn; constructor.
  - intros C. specialize (H j). cbn in H. rewrite Nat.eqb_refl in H. cbn in H.
    assert (E : 1 <= n_map j m).
    { clear - C. induction m as [|[i' j'] m IH]; cbn in *; [tauto|]. destruct C as [->|C]; [rewrite Nat.eqb_refl; cbn; lia|]. specialize (IH C). lia. }
    lia.
  - apply IH. intros k. specialize (H k). cbn in H. lia.
Qed.
Lemma map_length_le : forall s, count_ok s -> length (c_map s) <= length (c_calls s).
Proof.
  intros s N. rewrite <- (map_length snd), <- (seq_length (length (c_calls s)) 0). apply NoDup_incl_length.
  - apply n_map_nodup. intros k. specialize (N k). cbv zeta in N. destruct (nth_error (c_calls s) k); lia.
  - intros k Hk. apply in_seq. split; [lia|]. cbn. apply nth_error_Some. intros E. specialize (N k). cbv zeta in N. rewrite E in N.
    assert (G : 1 <= n_map k (c_map s)).
    { clear - Hk. induction (c_map s) as [|[i j] m IH]; cbn in *; [tauto|]. destruct Hk as [->|C]; [rewrite Nat.eqb_refl; cbn; lia|]. specialize (IH C). lia. }
    lia.
Qed.

Lemma ncalls_step : forall s t s', tstep s t = Some (Next s') -> ncalls s' <= ncalls s.
Proof.
  intros s t s' H. unfold ncalls. dstep H t s f rest; rewrite ?app_length, ?upd_length, ?map_app, ?lsum_app; cbn [map length]; rewrite ?lsum_cons;
  try match goal with |- context [total _ (upd (c_thr s) t ?new)] => pose proof (total_upd fc (c_thr s) t _ new Ht) end;
  try match goal with A : nth_error (c_calls s) ?k = Some ?p |- context [upd (c_calls s) ?k ?q] =>
    pose proof (lsum_upd _ cc _ _ _ q A) end;
  rewrite ?wsum_cons in *; unfold cc in *; cbn [fc opc map pc_fn] in *; rewrite ?lsum_cons in *; cbn [lsum fold_right opc] in *; fold lsum in *; try lia.
  - pose proof (total_upd fc (c_thr s) t _ (RUnlock :: rest) Ht) as E. rewrite !wsum_cons in E. cbn [fc] in E.
    rewrite total_wake by reflexivity. lia.
  - rewrite w_klocks in * by reflexivity. lia.
Qed.
Lemma wake_measure : forall n k thr, total (fw n) (map (wake1 k) thr) <= total (fw n) thr + 2 * total (w_sleep k) thr.
Proof.
  intros n k thr. induction thr as [|x thr IH]; [cbn; lia|]. cbn [map total].
  enough (wsum (fw n) (wake1 k x) <= wsum (fw n) x + 2 * wsum (w_sleep k) x) by lia.
  destruct x as [|[] r]; cbn [wake1]; try lia. destruct (Nat.eqb_spec k0 k); [|lia]. subst. rewrite !wsum_cons. cbn [fw w_sleep].
  rewrite Nat.eqb_refl. cbn [b2n]. lia.
Qed.
Lemma mu_klocks : forall n v ids, wsum (fw n) (map (fun i => KLock i v) ids) = 10 * length ids.
Proof. intros n v ids. induction ids as [|i ids IH]; [reflexivity|]. cbn [map length]. rewrite wsum_cons, IH. cbn [fw]. lia. Qed.
Lemma mu_step : forall n s t s', Inv s -> ncalls s <= n -> tstep s t = Some (Next s') -> mu n s' < mu n s.
Proof.
  intros n s t s' V B H. pose proof (map_length_le s (v_count _ V)) as ML. pose proof (v_count _ V) as N.
  pose proof (proj1 (v_calm _ V)) as CA.
  unfold mu. unfold ncalls in B. dstep H t s f rest; rewrite ?app_length, ?upd_length, ?map_app, ?lsum_app; cbn [map length]; rewrite ?lsum_cons;
  try match goal with |- context [total _ (upd (c_thr s) t ?new)] => pose proof (total_upd (fw n) (c_thr s) t _ new Ht) end;
  try match goal with A : nth_error (c_calls s) ?k = Some ?p |- context [upd (c_calls s) ?k ?c] =>
    pose proof (lsum_upd _ (cw n) _ _ _ c A) end;
  rewrite ?wsum_cons in *; unfold cw in *; cbn [fw opw map pc_fn] in *; rewrite ?lsum_cons, ?map_length in *; cbn [lsum fold_right opw] in *; fold lsum in *; try lia.
  - (* notify *)
    pose proof (wake_measure n k (upd (c_thr s) t (RUnlock :: rest))) as W.
    pose proof (total_upd (w_sleep k) (c_thr s) t _ (RUnlock :: rest) Ht) as E. rewrite ?wsum_cons in E. cbn [w_sleep] in E.
    pose proof (total_upd (fw n) (c_thr s) t _ (RUnlock :: rest) Ht) as E2. rewrite ?wsum_cons in E2. cbn [fw] in E2.
    pose proof (frame_facts (c_thr s) k) as FF. specialize (N k). cbv zeta in N. rewrite Heqo in N.
    assert (total (w_sleep k) (c_thr s) <= 1) by (destruct (pc_sync p); destruct (pc_live p); cbn [b2n] in *; lia). lia.
  - rewrite wsum_app, mu_klocks in *. lia.
Qed.
Lemma mu_spurious : forall n s t s', spurious s t = Some s' -> mu n s' = mu n s + 2 /\ ncalls s' = ncalls s.
Proof.
  intros n s t s' H. unfold spurious in H.
  destruct (nth_error (c_thr s) t) as [[|[] rest]|] eqn:Ht; try discriminate H. injection H as <-. unfold mu, ncalls. cbn [c_thr c_calls].
  pose proof (total_upd (fw n) (c_thr s) t _ (SWake k :: rest) Ht) as E1. pose proof (total_upd fc (c_thr s) t _ (SWake k :: rest) Ht) as E2.
  rewrite !wsum_cons in E1, E2. cbn [fw fc] in E1, E2. lia.
Qed.
Lemma steps_bound : forall n l s, Inv s -> ncalls s <= n -> steps_made s l <= mu n s + 2 * awakenings s l.
Proof.
  induction l as [|m l IH]; intros s V B; cbn [steps_made awakenings]; [lia|].
  destruct m as [t|t]; cbn [cmove].
  - destruct (tstep s t) as [o|] eqn:E.
    + destruct (step_inv s t o V E) as (s1 & -> & V1). pose proof (mu_step n s t s1 V B E) as M. pose proof (ncalls_step _ _ _ E) as M2.
      specialize (IH s1 V1). lia.
    + specialize (IH s V B). lia.
  - destruct (spurious s t) as [s1|] eqn:E.
    + destruct (mu_spurious n s t s1 E) as [M1 M2]. specialize (IH s1 (spurious_inv _ _ _ V E)). lia.
    + specialize (IH s V B). lia.
Qed.
