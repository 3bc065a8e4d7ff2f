(** The operations of the threads do what they say. *)
From Coq Require Import List ZArith Bool Lia.
From Verif Require Import Base ModelRpc ModelConc SpecConc ProofConc ProofConc2.
Import ListNotations.

(** *** What a step does to the stacks and to the history *)
Definition same_or_woken (stk stk' : list frame) : Prop :=
  stk' = stk \/ exists k r, stk = SSleep k :: r /\ stk' = SWake k :: r.
Lemma wake_same : forall k stk, same_or_woken stk (wake1 k stk).
Proof.
  intros k [|f r]; [left; reflexivity|]. destruct f; try (left; reflexivity). cbn. destruct (Nat.eqb_spec k0 k); [right; eauto|left; reflexivity].
Qed.
Lemma step_others : forall s u s' t stk, tstep s u = Some (Next s') -> t <> u -> nth_error (c_thr s) t = Some stk ->
  exists stk', nth_error (c_thr s') t = Some stk' /\ same_or_woken stk stk'.
Proof.
  intros s u s' t stk H D Hk.
  dstep H u s f rest; rewrite ?nth_error_map, ?upd_nth;
  replace (Nat.eqb u t) with false by (symmetry; apply Nat.eqb_neq; congruence); rewrite ?Hk;
  try (exists stk; split; [reflexivity|left; reflexivity]; fail).
  eexists. split; [reflexivity|]. apply wake_same.
Qed.
Lemma step_log : forall s u s', tstep s u = Some (Next s') -> exists ev, c_log s' = c_log s ++ ev.
Proof. intros s u s' H. dstep H u s f rest; solve [exists []; rewrite app_nil_r; reflexivity|eexists; reflexivity]. Qed.
Lemma step_calls : forall s u s', tstep s u = Some (Next s') -> length (c_calls s) <= length (c_calls s').
Proof. intros s u s' H. dstep H u s f rest; rewrite ?upd_length, ?app_length; lia. Qed.
Lemma nodup_of : forall s, Inv s -> NoDup (map fst (c_map s)).
Proof. intros s [L U C N (a & A1 & A2 & A3 & A)]. exact A3. Qed.

Lemma step_rest : forall s t s' f r g, tstep s t = Some (Next s') -> nth_error (c_thr s) t = Some (f :: r) -> In g r ->
  exists stk, nth_error (c_thr s') t = Some stk /\ In g stk.
Proof.
  intros s t s' f r g H E G. dstep H t s f0 rest; injection E as <- <-; rewrite ?nth_error_map, ?upd_nth, Nat.eqb_refl, Ht;
  (eexists; split; [reflexivity|]); cbn; rewrite ?in_app_iff; tauto.
Qed.

(** A later state. *)
Definition later (s s' : cstate) : Prop :=
  (exists ev, c_log s' = c_log s ++ ev) /\ length (c_calls s) <= length (c_calls s').

Section Duty.
Variable t : nat.
Variable duty : cstate -> frame -> Prop.
Variable done keep : cstate -> Prop.
Hypothesis duty_later : forall s s' f, later s s' -> duty s f -> duty s' f.
Hypothesis duty_woken : forall s k, duty s (SSleep k) -> duty s (SWake k).
Hypothesis done_later : forall s s', later s s' -> done s -> done s'.
Hypothesis keep_step : forall s u s', Inv s -> keep s -> tstep s u = Some (Next s') -> keep s' \/ done s'.
Hypothesis keep_spurious : forall s s', c_map s' = c_map s -> c_log s' = c_log s -> keep s -> keep s'.
Hypothesis duty_top : forall s s' f r, Inv s -> keep s -> nth_error (c_thr s) t = Some (f :: r) -> duty s f ->
  tstep s t = Some (Next s') -> done s' \/ exists stk g, nth_error (c_thr s') t = Some stk /\ In g stk /\ duty s' g.

Definition to_do (s : cstate) : Prop :=
  done s \/ keep s /\ exists stk g, nth_error (c_thr s) t = Some stk /\ In g stk /\ duty s g.
Lemma to_do_step : forall s u s', Inv s -> to_do s -> tstep s u = Some (Next s') -> to_do s'.
Proof.
  intros s u s' I [D|(K & stk & g & E & G & D)] H.
  { left. eapply done_later; [|exact D]. split; [eapply step_log|eapply step_calls]; exact H. }
  assert (L : later s s') by (split; [eapply step_log|eapply step_calls]; exact H).
  destruct (keep_step _ _ _ I K H) as [K'|D']; [|left; exact D'].
  destruct (Nat.eq_dec t u) as [<-|N].
  - destruct stk as [|f r]; [destruct G|]. destruct G as [->|G].
    + destruct (duty_top _ _ _ _ I K E D H) as [D'|X]; [left; exact D'|right; auto].
    + destruct (step_rest _ _ _ _ _ _ H E G) as (stk & E' & G'). right. split; [exact K'|]. exists stk, g. eauto.
  - destruct (step_others _ _ _ _ _ H N E) as (stk' & E' & W). right. split; [exact K'|].
    destruct W as [->|(k & r & -> & ->)]; [exists stk, g; eauto|]. exists (SWake k :: r).
    destruct G as [<-|G].
    + exists (SWake k). split; [exact E'|]. split; [left; reflexivity|]. apply duty_woken. eauto.
    + exists g. split; [exact E'|]. split; [right; exact G|]. eauto.
Qed.
Lemma to_do_spurious : forall s u s', to_do s -> spurious s u = Some s' -> to_do s'.
Proof.
  intros s u s' T H. unfold spurious in H. destruct (nth_error (c_thr s) u) as [[|[] rest]|] eqn:Hu; try discriminate H. injection H as <-.
  assert (L : forall m mp thr, later s (mkCS m mp (c_calls s) thr (c_log s))).
  { intros. split; [exists []; cbn; rewrite app_nil_r; reflexivity|cbn; lia]. }
  destruct T as [D|(K & stk & g & E & G & D)]; [left; eapply done_later; eauto|].
  right. split; [eapply keep_spurious; [| |exact K]; reflexivity|]. cbn [c_thr].
  destruct (Nat.eqb_spec u t) as [->|N].
  - rewrite E in Hu. injection Hu as ->. exists (SWake k :: rest). destruct G as [<-|G].
    + exists (SWake k). rewrite upd_nth, Nat.eqb_refl, E. split; [reflexivity|]. split; [left; reflexivity|]. exact (duty_woken _ _ (duty_later _ _ _ (L _ _ _) D)).
    + exists g. rewrite upd_nth, Nat.eqb_refl, E. split; [reflexivity|]. split; [right; exact G|]. exact (duty_later _ _ _ (L _ _ _) D).
  - exists stk, g. rewrite upd_nth. replace (Nat.eqb u t) with false by (symmetry; apply Nat.eqb_neq; exact N). split; [exact E|]. split; [exact G|]. exact (duty_later _ _ _ (L _ _ _) D).
Qed.
Lemma to_do_exec : forall l s s', Inv s -> to_do s -> cexec s l = Next s' -> to_do s'.
Proof.
  induction l as [|m l IH]; intros s s' I T H; cbn in H; [injection H as <-; exact T|].
  destruct (move_inv s m I) as (s1 & E & I1). rewrite E in H. refine (IH s1 s' I1 _ H).
  destruct m as [u|u]; cbn in E.
  - destruct (tstep s u) as [o|] eqn:F; [subst o; exact (to_do_step _ _ _ I T F)|injection E as <-; exact T].
  - destruct (spurious s u) as [o|] eqn:F; injection E as <-; [exact (to_do_spurious _ _ _ T F)|exact T].
Qed.
Lemma duty_done : forall l s s', Inv s -> to_do s -> cexec s l = Next s' -> ended s' t -> done s'.
Proof.
  intros l s s' I T H F. destruct (to_do_exec _ _ _ I T H) as [D|(K & stk & g & E & G & D)]; [exact D|].
  unfold ended in F. rewrite F in E. injection E as <-. destruct G.
Qed.
End Duty.

Lemma later_in : forall L s s' e, later s s' -> (exists ev, c_log s = L ++ ev /\ In e ev) -> exists ev, c_log s' = L ++ ev /\ In e ev.
Proof.
  intros L s s' e [[ev A] _] (ev0 & B & C). exists (ev0 ++ ev). rewrite A, B, app_assoc. split; [reflexivity|]. apply in_or_app. auto.
Qed.
Definition news (L : list cev) (s : cstate) (e : cev) : Prop := exists ev, c_log s = L ++ ev /\ In e ev.

(** *** Cancelling *)
Lemma nodup_fst : forall (m : list (Z * nat)) id j k, NoDup (map fst m) -> In (id, j) m -> In (id, k) m -> j = k.
Proof.
  induction m as [|[i q] m IH]; intros id j k H A B; [destruct A|]. cbn in H. inversion H as [|? ? H1 H2]; subst.
  destruct A as [A|A], B as [B|B].
  - congruence.
  - injection A as -> ->. apply (in_map fst) in B. tauto.
  - injection B as -> ->. apply (in_map fst) in A. tauto.
  - eauto.
Qed.
Definition pend_duty (id : Z) (f : frame) : Prop :=
  match f with
  | Run l => exists r, In (OpCancel id r) l \/ In (OpCancelAll r) l
  | KLock i _ | KFind i _ => i = id
  | LLock _ | LCopy _ => True
  | LUnlock ids _ => In id ids
  | _ => False
  end.
Definition has_log (L : list cev) (s : cstate) : Prop := exists ev, c_log s = L ++ ev.
Lemma news_snoc : forall L s e, has_log L s -> forall s', c_log s' = c_log s ++ [e] -> news L s' e.
Proof.
  intros L s e [ev A] s' B. exists (ev ++ [e]). rewrite B, A, app_assoc. split; [reflexivity|]. apply in_or_app. right. left. reflexivity.
Qed.
Lemma pend_step : forall L id k s u s', Inv s -> has_log L s /\ In (id, k) (c_map s) -> tstep s u = Some (Next s') ->
  (has_log L s' /\ In (id, k) (c_map s')) \/ exists r, news L s' (EAnswer k id r).
Proof.
  intros L id k s u s' I [HL M] H.
  assert (HL' : has_log L s').
  { destruct HL as [ev A], (step_log _ _ _ H) as [ev' B]. exists (ev ++ ev'). rewrite B, A, app_assoc. reflexivity. }
  pose proof (nodup_of _ I) as ND.
  dstep H u s f rest; try (left; split; [exact HL'|exact M]; fail); try (left; split; [exact HL'|right; exact M]; fail).
  match goal with F : find_call _ _ = Some ?j |- _ => pose proof (find_some _ _ _ F) as J; pose proof (erase_spec _ _ _ ND F) as E end.
  destruct (Z.eq_dec id0 id) as [->|D].
  - right. assert (n = k) by (eapply nodup_fst; eauto). subst. eexists. eapply news_snoc; [exact HL|reflexivity].
  - left. split; [exact HL'|]. apply E. split; [exact M|congruence].
Qed.

Ltac top_stack :=
  match goal with Ht : nth_error (c_thr ?s) ?t = Some _ |- _ =>
    eexists; rewrite ?nth_error_map, ?upd_nth, ?Nat.eqb_refl, ?Ht end.
Lemma later_news : forall L s s' e, later s s' -> news L s e -> news L s' e.
Proof. intros L s s' e H N. exact (later_in L s s' e H N). Qed.

Lemma pend_top : forall L id k t x y f r0, Inv x -> has_log L x /\ In (id, k) (c_map x) ->
  nth_error (c_thr x) t = Some (f :: r0) -> pend_duty id f -> tstep x t = Some (Next y) ->
  (exists q, news L y (EAnswer k id q)) \/ exists stk g, nth_error (c_thr y) t = Some stk /\ In g stk /\ pend_duty id g.
Proof.
  intros L id k t x y f r0 Ix [HL Mx] Ex D St. pose proof (nodup_of _ Ix) as ND.
  dstep St t x f1 rest1; injection Ex as <- <-; cbn in D; try (destruct D; fail).
  + destruct D as (q & [[]|[]]).
  + right. destruct D as (q & [[D|D]|[D|D]]); try discriminate D; top_stack;
    (eexists; split; [reflexivity|]); (split; [right; left; reflexivity|]); exists q; cbn; auto.
  + right. destruct D as (q & [[D|D]|[D|D]]); try discriminate D; top_stack;
    (eexists; split; [reflexivity|]); (split; [right; left; reflexivity|]); exists q; cbn; auto.
  + right. destruct D as (q & [[D|D]|[D|D]]); try discriminate D; top_stack;
    [injection D as -> ->; exists (KLock id q); split; [reflexivity|]; split; [left; reflexivity|reflexivity]| |];
    (eexists; split; [reflexivity|]); (split; [right; left; reflexivity|]); exists q; cbn; auto.
  + right. destruct D as (q & [[D|D]|[D|D]]); try discriminate D; top_stack.
    * (eexists; split; [reflexivity|]); (split; [right; left; reflexivity|]); exists q; cbn; auto.
    * exists (LLock r). split; [reflexivity|]. split; [left; reflexivity|exact Logic.I].
    * (eexists; split; [reflexivity|]); (split; [right; left; reflexivity|]); exists q; cbn; auto.
  + right. subst. top_stack. eexists. split; [reflexivity|]. split; [left; reflexivity|]. reflexivity.
  + subst. left. match goal with G : find_call _ _ = Some ?j |- _ => pose proof (find_some _ _ _ G) as J end.
    assert (n = k) by (eapply nodup_fst; eauto). subst. eexists. eapply news_snoc; [exact HL|reflexivity].
  + subst. exfalso. match goal with G : find_call _ _ = None |- _ => exact (find_none _ _ G k Mx) end.
  + right. top_stack. eexists. split; [reflexivity|]. split; [left; reflexivity|]. exact Logic.I.
  + right. top_stack. eexists. split; [reflexivity|]. split; [left; reflexivity|]. cbn. apply (in_map fst) in Mx. exact Mx.
  + right. top_stack. exists (KLock id r). split; [reflexivity|]. split; [|reflexivity].
    apply in_or_app. left. apply (in_map (fun i => KLock i r)) in D. exact D.
Qed.
Theorem cancels : forall progs sched s t o id k more s',
  calm_all progs = true -> cexec (cstart progs) sched = Next s ->
  starts s t o ->
  (exists r, o = OpCancel id r \/ o = OpCancelAll r) ->
  In (id, k) (c_map s) -> cexec s more = Next s' -> ended s' t ->
  exists r ev, c_log s' = c_log s ++ ev /\ In (EAnswer k id r) ev.
Proof.
  intros progs sched s t o id k more s' C H (l & rest & E) [r Ho] M H' F.
  destruct (reach progs sched C) as (s0 & H0 & I). rewrite H in H0. injection H0 as <-.
  refine (duty_done t (fun _ => pend_duty id) (fun x => exists q, news (c_log s) x (EAnswer k id q))
    (fun x => has_log (c_log s) x /\ In (id, k) (c_map x)) _ _ _ _ _ _ more s s' I _ H' F).
  - auto.
  - intros _ j [].
  - intros x y L [q Q]. exists q. eapply later_news; eauto.
  - intros x u y Ix K St. eapply pend_step; eauto.
  - intros x y -> E2. unfold has_log. rewrite E2. tauto.
  - intros x y f r0 Ix K Ex D St. eapply pend_top; eauto.
  - right. split; [split; [exists []; rewrite app_nil_r; reflexivity|exact M]|].
    eexists. eexists. split; [exact E|]. split; [left; reflexivity|]. cbn. exists r. destruct Ho as [->| ->]; auto.
Qed.

Definition own_duty (id : Z) (r : rpc_result) (f : frame) : Prop :=
  match f with
  | Run l => In (OpCancel id r) l
  | KLock i q | KFind i q => i = id /\ q = r
  | _ => False
  end.
Ltac here D := right; top_stack; eexists; split; [reflexivity|]; split; [left; reflexivity|]; cbn in *; tauto.
Lemma own_top : forall L id r t x y f r0, has_log L x ->
  nth_error (c_thr x) t = Some (f :: r0) -> own_duty id r f -> tstep x t = Some (Next y) ->
  ((exists k, news L y (EAnswer k id r)) \/ news L y (EMiss id)) \/
  exists stk g, nth_error (c_thr y) t = Some stk /\ In g stk /\ own_duty id r g.
Proof.
  intros L id r t x y f r0 HL Ex D St.
  dstep St t x f1 rest1; injection Ex as <- <-; cbn in D; try (destruct D; fail);
  try (destruct D as [D|D]; [discriminate D|right; top_stack; eexists; split; [reflexivity|]; split; [right; left; reflexivity|exact D]]).
  - right. top_stack. destruct D as [D|D].
    + injection D as -> ->. eexists. split; [reflexivity|]. split; [left; reflexivity|]. split; reflexivity.
    + eexists. split; [reflexivity|]. split; [right; left; reflexivity|exact D].
  - here D.
  - destruct D as [-> ->]. left. left. eexists. eapply news_snoc; [exact HL|reflexivity].
  - destruct D as [-> ->]. left. right. eapply news_snoc; [exact HL|reflexivity].
Qed.
Lemma log_keep : forall L s s', later s s' -> has_log L s -> has_log L s'.
Proof. intros L s s' [[ev A] _] [ev' B]. exists (ev' ++ ev). rewrite A, B, app_assoc. reflexivity. Qed.
Lemma step_later : forall s u s', tstep s u = Some (Next s') -> later s s'.
Proof. intros s u s' H. split; [eapply step_log|eapply step_calls]; exact H. Qed.
Lemma has_log_self : forall s, has_log (c_log s) s.
Proof. intros s. exists []. rewrite app_nil_r. reflexivity. Qed.

Theorem cancel_own : forall progs sched s t id r more s',
  calm_all progs = true -> cexec (cstart progs) sched = Next s ->
  starts s t (OpCancel id r) ->
  cexec s more = Next s' -> ended s' t ->
  exists ev, c_log s' = c_log s ++ ev /\ ((exists k, In (EAnswer k id r) ev) \/ In (EMiss id) ev).
Proof.
  intros progs sched s t id r more s' C H (l & rest & E) H' F.
  destruct (reach progs sched C) as (s0 & H0 & I). rewrite H in H0. injection H0 as <-.
  assert (Q : (exists k, news (c_log s) s' (EAnswer k id r)) \/ news (c_log s) s' (EMiss id)).
  { refine (duty_done t (fun _ => own_duty id r) (fun x => (exists k, news (c_log s) x (EAnswer k id r)) \/ news (c_log s) x (EMiss id))
      (has_log (c_log s)) _ _ _ _ _ _ more s s' I _ H' F).
    - auto.
    - intros _ j [].
    - intros x y L [[q Q]|Q]; [left; exists q|right]; eapply later_news; eauto.
    - intros x u y Ix K St. left. eapply log_keep; [eapply step_later|]; eauto.
    - intros x y _ E2. unfold has_log. rewrite E2. tauto.
    - intros x y f r0 Ix K Ex D St. eapply own_top; eauto.
    - right. split; [apply has_log_self|]. eexists. eexists. split; [exact E|]. split; [left; reflexivity|]. left. reflexivity. }
  destruct Q as [[k (ev & A & B)]|(ev & A & B)]; eauto.
Qed.

(** *** Calling *)
Definition made (L : list cev) (n : nat) (id : Z) (k : nat) (s : cstate) : Prop :=
  n <= k /\ (news L s (EAdd k id) \/ news L s (ERefuse k id)).
Definition sync_duty (L : list cev) (n : nat) (id : Z) (s : cstate) (f : frame) : Prop :=
  match f with
  | Run l => n <= length (c_calls s) /\ exists send, In (OpSync id send false) l
  | SLock i send th => n <= length (c_calls s) /\ i = id /\ th = false
  | SAdd k i send th => n <= k /\ i = id /\ th = false
  | SSent k th => made L n id k s /\ th = false
  | STest k | SSleep k | SWake k | SGet k | SDel k _ => made L n id k s
  | _ => False
  end.
Definition async_duty (n : nat) (id : Z) (s : cstate) (f : frame) : Prop :=
  match f with
  | Run l => n <= length (c_calls s) /\ exists send fn, In (OpAsync id send fn) l
  | ALock i _ _ => n <= length (c_calls s) /\ i = id
  | AAdd k i _ => n <= k /\ i = id
  | _ => False
  end.
Lemma made_later : forall L n id k s s', later s s' -> made L n id k s -> made L n id k s'.
Proof. intros L n id k s s' H [A [B|B]]; split; auto; [left|right]; eapply later_news; eauto. Qed.
Lemma sync_top : forall L n id t x y f r0, has_log L x ->
  nth_error (c_thr x) t = Some (f :: r0) -> sync_duty L n id x f -> tstep x t = Some (Next y) ->
  (exists k r, made L n id k y /\ news L y (EDone k r)) \/
  exists stk g, nth_error (c_thr y) t = Some stk /\ In g stk /\ sync_duty L n id y g.
Proof.
  intros L n id t x y f r0 HL Ex D St. pose proof (step_later _ _ _ St) as LT.
  dstep St t x f1 rest1; injection Ex as <- <-; cbn in D; try (destruct D; fail);
  try (destruct D as (N & send' & [D|D]); [discriminate D|]; right; top_stack; eexists; split; [reflexivity|];
    split; [right; left; reflexivity|]; split; [exact N|]; exists send'; exact D);
  try (right; top_stack; eexists; split; [reflexivity|]; split; [left; reflexivity|]; cbn;
       solve [eapply made_later; eauto|eapply made_later; [eauto|exact (proj1 D)]]).
  - destruct D as (_ & ? & []).
  - destruct D as (N & send' & [D|D]); right; top_stack.
    + injection D as -> -> ->. eexists. split; [reflexivity|]. split; [left; reflexivity|]. cbn. auto.
    + eexists. split; [reflexivity|]. split; [right; left; reflexivity|]. split; [exact N|]. exists send'. exact D.
  - destruct D as (N & -> & ->). right. top_stack. eexists. split; [reflexivity|]. split; [left; reflexivity|]. cbn. auto.
  - destruct D as (N & -> & ->). right. top_stack. eexists. split; [reflexivity|]. split; [right; right; left; reflexivity|]. cbn.
    split; [|reflexivity]. split; [exact N|]. right. eapply news_snoc; [exact HL|reflexivity].
  - destruct D as (N & -> & ->). right. top_stack. eexists. split; [reflexivity|]. split; [right; left; reflexivity|]. cbn.
    split; [|reflexivity]. split; [exact N|]. left. eapply news_snoc; [exact HL|reflexivity].
  - destruct D. discriminate.
  - left. exists k, r. split; [eapply made_later; eauto|]. eapply news_snoc; [exact HL|reflexivity].
Qed.
Lemma async_top : forall L n id t x y f r0, has_log L x ->
  nth_error (c_thr x) t = Some (f :: r0) -> async_duty n id x f -> tstep x t = Some (Next y) ->
  (exists k, made L n id k y) \/
  exists stk g, nth_error (c_thr y) t = Some stk /\ In g stk /\ async_duty n id y g.
Proof.
  intros L n id t x y f r0 HL Ex D St.
  dstep St t x f1 rest1; injection Ex as <- <-; cbn in D; try (destruct D; fail);
  try (destruct D as (N & send' & fn' & [D|D]); [discriminate D|]; right; top_stack; eexists; split; [reflexivity|];
    split; [right; left; reflexivity|]; split; [exact N|]; exists send', fn'; exact D).
  - destruct D as (_ & ? & ? & []).
  - destruct D as (N & send' & fn' & [D|D]); right; top_stack.
    + injection D as -> -> ->. eexists. split; [reflexivity|]. split; [left; reflexivity|]. cbn. auto.
    + eexists. split; [reflexivity|]. split; [right; left; reflexivity|]. split; [exact N|]. exists send', fn'. exact D.
  - destruct D as (N & ->). right. top_stack. eexists. split; [reflexivity|]. split; [left; reflexivity|]. cbn. auto.
  - destruct D as (N & ->). left. exists k. split; [exact N|]. right. eapply news_snoc; [exact HL|reflexivity].
  - destruct D as (N & ->). left. exists k. split; [exact N|]. left. eapply news_snoc; [exact HL|reflexivity].
Qed.

Lemma duty_mono : forall n s s', later s s' -> n <= length (c_calls s) -> n <= length (c_calls s').
Proof. intros n s s' [_ L] H. lia. Qed.
Lemma news_two : forall L s e f, news L s e -> news L s f -> exists ev, c_log s = L ++ ev /\ In e ev /\ In f ev.
Proof.
  intros L s e f (ev & A & B) (ev' & A' & B'). exists ev. rewrite A in A'. apply app_inv_head in A'. subst. auto.
Qed.
Theorem sync_called : forall progs sched s t send id more s',
  calm_all progs = true -> cexec (cstart progs) sched = Next s ->
  starts s t (OpSync id send false) ->
  cexec s more = Next s' -> ended s' t ->
  exists ev k r, c_log s' = c_log s ++ ev /\ length (c_calls s) <= k /\
    (In (EAdd k id) ev \/ In (ERefuse k id) ev) /\ In (EDone k r) ev.
Proof.
  intros progs sched s t send id more s' C H (l & rest & E) H' F.
  destruct (reach progs sched C) as (s0 & H0 & I). rewrite H in H0. injection H0 as <-.
  assert (Q : exists k r, made (c_log s) (length (c_calls s)) id k s' /\ news (c_log s) s' (EDone k r)).
  { refine (duty_done t (sync_duty (c_log s) (length (c_calls s)) id)
      (fun x => exists k r, made (c_log s) (length (c_calls s)) id k x /\ news (c_log s) x (EDone k r))
      (has_log (c_log s)) _ _ _ _ _ _ more s s' I _ H' F).
    - intros x y f L D. destruct f; cbn in *; try tauto; try (eapply made_later; eauto; fail);
      try (destruct D; split; [eapply duty_mono; eauto|assumption]; fail);
      destruct D; split; [eapply made_later; eauto|assumption].
    - intros x k D. exact D.
    - intros x y L (k & r & A & B). exists k, r. split; [eapply made_later|eapply later_news]; eauto.
    - intros x u y Ix K St. left. eapply log_keep; [eapply step_later|]; eauto.
    - intros x y _ E2. unfold has_log. rewrite E2. tauto.
    - intros x y f r0 Ix K Ex D St. eapply sync_top; eauto.
    - right. split; [apply has_log_self|]. eexists. eexists. split; [exact E|]. split; [left; reflexivity|]. cbn. split; [lia|]. exists send. left. reflexivity. }
  destruct Q as (k & r & [N [A|A]] & B); destruct (news_two _ _ _ _ A B) as (ev & X & Y & Z); exists ev, k, r; auto.
Qed.
Theorem async_called : forall progs sched s t send fn id more s',
  calm_all progs = true -> cexec (cstart progs) sched = Next s ->
  starts s t (OpAsync id send fn) ->
  cexec s more = Next s' -> ended s' t ->
  exists ev k, c_log s' = c_log s ++ ev /\ length (c_calls s) <= k /\ (In (EAdd k id) ev \/ In (ERefuse k id) ev).
Proof.
  intros progs sched s t send fn id more s' C H (l & rest & E) H' F.
  destruct (reach progs sched C) as (s0 & H0 & I). rewrite H in H0. injection H0 as <-.
  assert (Q : exists k, made (c_log s) (length (c_calls s)) id k s').
  { refine (duty_done t (async_duty (length (c_calls s)) id)
      (fun x => exists k, made (c_log s) (length (c_calls s)) id k x)
      (has_log (c_log s)) _ _ _ _ _ _ more s s' I _ H' F).
    - intros x y f L D. destruct f; cbn in *; try tauto; destruct D; (split; [eapply duty_mono; eauto|assumption]).
    - intros x k [].
    - intros x y L (k & A). exists k. eapply made_later; eauto.
    - intros x u y Ix K St. left. eapply log_keep; [eapply step_later|]; eauto.
    - intros x y _ E2. unfold has_log. rewrite E2. tauto.
    - intros x y f r0 Ix K Ex D St. eapply async_top; eauto.
    - right. split; [apply has_log_self|]. eexists. eexists. split; [exact E|]. split; [left; reflexivity|]. cbn. split; [lia|]. exists send, fn. left. reflexivity. }
  destruct Q as (k & N & [(ev & A & B)|(ev & A & B)]); exists ev, k; auto.
Qed.

(** *** Only the operations of the programs happen *)
Definition op_ok (progs : list (list op)) (o : op) : Prop := forall q, within q [o] -> in_programs progs q.
Definition ops_ok (progs : list (list op)) (l : list op) : Prop := forall q, within q l -> in_programs progs q.
Definition from_frame (progs : list (list op)) (f : frame) : Prop :=
  match f with
  | Run l => ops_ok progs l
  | SLock id send th => in_programs progs (OpSync id send th) /\ ops_ok progs send
  | SAdd _ id send th => (exists sd th, in_programs progs (OpSync id sd th)) /\ ops_ok progs send
  | ALock id send fn => in_programs progs (OpAsync id send fn) /\ ops_ok progs send /\ ops_ok progs fn
  | AAdd _ id send => (exists sd fn, in_programs progs (OpAsync id sd fn)) /\ ops_ok progs send
  | KLock id r | KFind id r => in_programs progs (OpCancel id r) \/ in_programs progs (OpCancelAll r)
  | LLock r | LCopy r | LUnlock _ r => in_programs progs (OpCancelAll r)
  | _ => True
  end.
Definition from_event (progs : list (list op)) (e : cev) : Prop :=
  match e with
  | EAdd _ id | ERefuse _ id =>
    (exists send th, in_programs progs (OpSync id send th)) \/ (exists send fn, in_programs progs (OpAsync id send fn))
  | EAnswer _ id r => in_programs progs (OpCancel id r) \/ in_programs progs (OpCancelAll r)
  | _ => True
  end.
Definition from_ok (progs : list (list op)) (s : cstate) : Prop :=
  allf (from_frame progs) (c_thr s) /\ Forall (fun c => ops_ok progs (pc_fn c)) (c_calls s) /\ Forall (from_event progs) (c_log s).

Lemma within_mono : forall q l l', (forall o, In o l -> In o l') -> within q l -> within q l'.
Proof. intros q l l' H [A|? ? ? A|? ? ? A|? ? ? A]; eauto using w_here, w_sync, w_send, w_fn. Qed.
Lemma ops_cons : forall progs o l, ops_ok progs (o :: l) -> from_frame progs (start_op o) /\ ops_ok progs l.
Proof.
  intros progs o l H. split; [|intros q Q; apply H; eapply within_mono; [|exact Q]; intros; right; assumption].
  assert (O : in_programs progs o) by (apply H; apply w_here; left; reflexivity).
  destruct o; cbn; try (split; [exact O|]); try (intros q Q; apply H; eapply w_sync; [left; reflexivity|exact Q]); auto.
  split; intros q Q; apply H; [eapply w_send|eapply w_fn]; try (left; reflexivity); exact Q.
Qed.
Lemma ops_nil : forall progs, ops_ok progs [].
Proof. intros progs q [[]|? ? ? []|? ? ? []|? ? ? []]. Qed.
Lemma from_step : forall progs s t s', from_ok progs s -> tstep s t = Some (Next s') -> from_ok progs s'.
Proof.
  intros progs s t s' (T & C & L) H. unfold tstep in H.
  destruct (nth_error (c_thr s) t) as [[|f rest]|] eqn:Ht; [discriminate H| |discriminate H].
  pose proof (allf_top _ _ _ _ _ T Ht) as Tf. pose proof (allf_rest _ _ _ _ _ T Ht) as Tr.
  assert (P : forall k c, nth_error (c_calls s) k = Some c -> ops_ok progs (pc_fn c)).
  { intros k c E. exact (Forall_nth_error _ _ _ _ _ C E). }
  destruct f; cbn [fstep] in H;
  unfold go, go_lock, go_unlock, with_call, set_call, new_call, add_call in H;
  repeat (fdest H; try discriminate H); try discriminate H; try injection H as <-;
  cbn [from_frame] in Tf;
  try match goal with Q : ops_ok progs (_ :: _) |- _ => apply ops_cons in Q; destruct Q as [Q1 Q2] end;
  (split; [|split]); cbn [c_thr c_calls c_log app]; rewrite ?app_nil_r;
  try exact C; try exact L;
  try (apply allf_wake; [intros j _; exact Logic.I|]);
  try (apply allf_upd; [exact T|]);
  try (apply Forall_upd; [exact C|cbn; eauto using ops_nil]);
  try (apply Forall_app; split; [assumption|]; constructor; [cbn|constructor]);
  repeat match goal with
  | |- Forall _ (_ :: _) => constructor
  | |- Forall _ (map _ _ ++ _) => apply Forall_app; split; [rewrite Forall_map, Forall_forall; intros|]
  end; try assumption; cbn; try exact Logic.I; try tauto;
  try (right; exact (proj1 Tf)); try (left; exact (proj1 Tf)); try (right; exact Tf); eauto using ops_nil;
  try (destruct (pc_sync _); exact Logic.I);
  try (right; exact (proj1 Tf)); try (right; exact Tf); intuition eauto using ops_nil.
Qed.
Lemma from_spurious : forall progs s t s', from_ok progs s -> spurious s t = Some s' -> from_ok progs s'.
Proof.
  intros progs s t s' (T & C & L) H. unfold spurious in H.
  destruct (nth_error (c_thr s) t) as [[|[] rest]|] eqn:Ht; try discriminate H. injection H as <-.
  split; [|split]; [|exact C|exact L]. apply allf_upd; [exact T|]. constructor; [exact Logic.I|exact (allf_rest _ _ _ _ _ T Ht)].
Qed.
Lemma from_exec : forall progs l s s', from_ok progs s -> cexec s l = Next s' -> from_ok progs s'.
Proof.
  intros progs. induction l as [|m l IH]; intros s s' I H; cbn in H; [injection H as <-; exact I|].
  destruct (cmove s m) as [s1|] eqn:E; [|discriminate H]. refine (IH s1 s' _ H).
  destruct m as [u|u]; cbn in E.
  - destruct (tstep s u) as [o|] eqn:F; [subst o; exact (from_step _ _ _ _ I F)|injection E as <-; exact I].
  - destruct (spurious s u) as [o|] eqn:F; injection E as <-; [exact (from_spurious _ _ _ _ I F)|exact I].
Qed.
Lemma from_programs : forall progs sched s e, cexec (cstart progs) sched = Next s -> In e (c_log s) -> from_event progs e.
Proof.
  intros progs sched s e H M. assert (F : from_ok progs s).
  { refine (from_exec _ _ _ _ _ H). split; [|split]; cbn; [|constructor|constructor].
    unfold allf. rewrite Forall_map, Forall_forall. intros p Hp. constructor; [|constructor]. cbn. intros q Q. exists p. auto. }
  destruct F as (_ & _ & F). rewrite Forall_forall in F. exact (F e M).
Qed.
Theorem answers_given : forall progs sched s k id r,
  cexec (cstart progs) sched = Next s -> In (EAnswer k id r) (c_log s) ->
  in_programs progs (OpCancel id r) \/ in_programs progs (OpCancelAll r).
Proof. intros progs sched s k id r H M. exact (from_programs _ _ _ _ H M). Qed.
Theorem calls_made : forall progs sched s k id,
  cexec (cstart progs) sched = Next s -> In (EAdd k id) (c_log s) \/ In (ERefuse k id) (c_log s) ->
  (exists send throws, in_programs progs (OpSync id send throws)) \/ (exists send fn, in_programs progs (OpAsync id send fn)).
Proof. intros progs sched s k id H [M|M]; exact (from_programs _ _ _ _ H M). Qed.
