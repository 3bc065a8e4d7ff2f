(** Proofs about a precise number read by several threads. *)
From Coq Require Import Lia.
From Verif Require Import Base ModelValue ModelLazy SpecLazy.
Local Open Scope Z_scope.

Lemma put_same : forall A (l : list A) i x, (i < length l)%nat -> nth_error (put l i x) i = Some x.
Proof. induction l as [|y l IH]; intros [|i] x H; cbn in *; try lia; auto. apply IH. lia. Qed.
Lemma put_other : forall A (l : list A) i j x, i <> j -> nth_error (put l i x) j = nth_error l j.
Proof. induction l as [|y l IH]; intros [|i] [|j] x H; cbn; auto; try congruence. Qed.
Lemma put_length : forall A (l : list A) i x, length (put l i x) = length l.
Proof. induction l as [|y l IH]; intros [|i] x; cbn; auto. Qed.
Lemma put_get : forall A (l : list A) i j x y, nth_error (put l i x) j = Some y -> (i = j /\ y = x) \/ (i <> j /\ nth_error l j = Some y).
Proof.
  intros A l i j x y H. destruct (Nat.eq_dec i j) as [->|N]; [left|right; rewrite put_other in H by assumption; auto].
  split; [reflexivity|]. assert (L : (j < length l)%nat) by (rewrite <- (put_length A l j x); apply nth_error_Some; congruence). rewrite put_same in H by exact L. congruence.
Qed.

(** *** Numbers are right under every schedule *)
Definition is_num (a : answer) : bool := match a with ANum _ => true | ABool _ => false end.
(** [got]: calls answered, in order; bools may be anything. *)
Definition agree (v : spec_float) (c : call) (a : answer) : Prop :=
  match c, a with CNum, ANum f => f = v | CBool, ABool _ => True | _, _ => False end.
Definition inv (v : spec_float) (calls : list (list call)) (s : state) : Prop :=
  (s_cached s = true -> s_n s = v) /\
  length (s_threads s) = length calls /\
  forall i t, nth_error (s_threads s) i = Some t ->
    (t_at t = AtMark \/ t_at t = AtRead -> s_n s = v) /\
    (t_at t = AtRead -> s_cached s = true) /\
    (forall r, t_calls t = CBool :: r -> t_at t = AtStart) /\
    exists c, nth_error calls i = Some (c ++ t_calls t) /\ Forall2 (agree v) c (t_done t).
Lemma inv_step : forall v calls s i, inv v calls s -> inv v calls (step v s i).
Proof.
  intros v calls s i (HC & HL & HT). unfold step. destruct (nth_error (s_threads s) i) as [t|] eqn:E; [|split; [|split]; assumption].
  destruct (HT i t E) as (H1 & H2 & H3 & c & H4 & H5).
  destruct (th_step v (s_n s) (s_cached s) t) as [[[n' c'] t']|] eqn:T; [|split; [|split]; assumption].
  assert (LT : (i < length (s_threads s))%nat) by (apply nth_error_Some; congruence).
  destruct t as [cs p ds]. unfold th_step in T. cbn [t_calls t_at t_done] in *.
  assert (P : (c' = true -> n' = v) /\ (s_n s = v -> n' = v) /\ (s_cached s = true -> c' = true) /\
    (t_at t' = AtMark \/ t_at t' = AtRead -> n' = v) /\ (t_at t' = AtRead -> c' = true) /\ (forall r, t_calls t' = CBool :: r -> t_at t' = AtStart) /\
    exists c, nth_error calls i = Some (c ++ t_calls t') /\ Forall2 (agree v) c (t_done t')).
  { destruct cs as [|[] r]; [discriminate| |].
    - destruct p; injection T as <- <- <-; cbn [t_calls t_at t_done].
      + repeat split; try tauto; try discriminate; [|destruct (s_cached s); congruence|eauto].
        destruct (s_cached s); [intros _; apply HC; reflexivity|intros [|]; discriminate].
      + repeat split; try tauto; try discriminate. eauto.
      + repeat split; try tauto; try discriminate. eauto.
      + repeat split; try tauto; try discriminate; try (intros [|]; discriminate).
        exists (c ++ [CNum]). rewrite <- app_assoc. split; [exact H4|]. apply Forall2_app; [exact H5|]. repeat constructor. cbn. apply H1. auto.
    - injection T as <- <- <-; cbn [t_calls t_at t_done]. repeat split; try tauto; try discriminate; try (intros [|]; discriminate).
      exists (c ++ [CBool]). rewrite <- app_assoc. split; [exact H4|]. apply Forall2_app; [exact H5|]. repeat constructor. }
  destruct P as (P1 & P2 & P3 & P4 & P5 & P6 & P7). split; [exact P1|]. split; [cbn; rewrite put_length; exact HL|].
  cbn [s_n s_cached s_threads]. intros j u G. apply put_get in G as [[<- ->]|[N G]]; [auto|].
  destruct (HT j u G) as (G1 & G2 & G3 & G4). repeat split; auto.
Qed.
Lemma inv_run : forall v calls sched s, inv v calls s -> inv v calls (run v s sched).
Proof. induction sched as [|i r IH]; intros s H; [exact H|]. cbn. apply IH. apply inv_step. exact H. Qed.
Lemma inv_start : forall v calls n c, (c = true -> n = v) -> inv v calls (mkSt n c (map (fun c => mkTh c AtStart []) calls)).
Proof.
  intros v calls n c H. split; [exact H|]. cbn. split; [apply map_length|]. intros i t E. rewrite nth_error_map in E.
  destruct (nth_error calls i) as [cs|] eqn:Ec; [|discriminate]. injection E as <-. cbn. repeat split; try (intros [|]; discriminate); try discriminate.
  exists []. split; [reflexivity|constructor].
Qed.
Theorem numbers : forall v junk calls sched i k, let s := run v (unread junk calls) sched in
  nth_error (match nth_error calls i with Some c => c | None => [] end) k = Some CNum ->
  nth_error (answers s i) k = Some (ANum v) \/ (length (answers s i) <= k)%nat.
Proof.
  intros v junk calls sched i k s H. destruct (nth_error calls i) as [cs|] eqn:Ec; [|destruct k; discriminate].
  destruct (inv_run v calls sched (unread junk calls)) as (_ & HL & HT); [apply inv_start; discriminate|]. fold s in HL, HT.
  destruct (nth_error (s_threads s) i) as [t|] eqn:Et; [|apply nth_error_None in Et; assert (i < length calls)%nat by (apply nth_error_Some; congruence); lia].
  destruct (HT i t Et) as (_ & _ & _ & c & H4 & H5). rewrite Ec in H4. injection H4 as ->. unfold answers. rewrite Et.
  destruct (Nat.lt_ge_cases k (length (t_done t))) as [LT|GE]; [left|right; exact GE].
  assert (LC : length c = length (t_done t)) by (clear -H5; induction H5; cbn; congruence).
  rewrite nth_error_app1 in H by lia.
  clear -H5 H. revert k H. induction H5 as [|a b l m A _ IH]; intros [|k] H; try discriminate; [|apply IH; exact H].
  cbn in H. injection H as ->. destruct b; cbn in A; [subst; reflexivity|contradiction].
Qed.

(** *** Read before the threads start *)
Definition calm (v : spec_float) (calls : list (list call)) (s : state) : Prop :=
  s_cached s = true /\ s_n s = v /\ length (s_threads s) = length calls /\
  forall i t, nth_error (s_threads s) i = Some t -> (t_at t = AtStart \/ t_at t = AtRead) /\
    exists c, nth_error calls i = Some (c ++ t_calls t) /\ t_done t = map (right_answer v) c.
Lemma calm_step : forall v calls s i, calm v calls s -> calm v calls (step v s i).
Proof.
  intros v calls s i (HC & HN & HL & HT). unfold step. destruct (nth_error (s_threads s) i) as [t|] eqn:E; [|split; [|split; [|split]]; assumption].
  destruct (HT i t E) as (H1 & c & H2 & H3).
  destruct (th_step v (s_n s) (s_cached s) t) as [[[n' c'] t']|] eqn:T; [|split; [|split; [|split]]; assumption].
  destruct t as [cs p ds]. unfold th_step in T. cbn [t_calls t_at t_done] in *. rewrite HC, HN in T.
  assert (P : c' = true /\ n' = v /\ (t_at t' = AtStart \/ t_at t' = AtRead) /\ exists c, nth_error calls i = Some (c ++ t_calls t') /\ t_done t' = map (right_answer v) c).
  { destruct cs as [|[] r]; [discriminate| |].
    - destruct p; try (destruct H1; discriminate); injection T as <- <- <-; cbn [t_calls t_at t_done]; repeat split; auto; [eauto|].
      exists (c ++ [CNum]). rewrite <- app_assoc, map_app, H3. auto.
    - injection T as <- <- <-; cbn [t_calls t_at t_done]. repeat split; auto. exists (c ++ [CBool]). rewrite <- app_assoc, map_app, H3. auto. }
  destruct P as (P1 & P2 & P3 & P4). repeat split; auto; [cbn; rewrite put_length; exact HL| |];
  cbn [s_n s_cached s_threads] in *; apply put_get in H as [[<- ->]|[N G]]; auto; apply (HT _ _ G).
Qed.
Lemma calm_run : forall v calls sched, calm v calls (run v (read_before v calls) sched).
Proof.
  intros v calls sched. assert (B : calm v calls (read_before v calls)).
  { repeat split; auto; [cbn; apply map_length| |]; cbn in H; rewrite nth_error_map in H; destruct (nth_error calls i) as [cs|] eqn:Ec; try discriminate; injection H as <-; cbn; auto.
    exists []. split; [reflexivity|reflexivity]. }
  revert B. generalize (read_before v calls). unfold run. induction sched as [|i r IH]; intros s B; [exact B|]. cbn. apply IH. apply calm_step. exact B.
Qed.
Lemma calm_no_race : forall v calls s, calm v calls s -> ~ race s.
Proof.
  intros v calls s (_ & _ & _ & HT) (i & j & t & u & f & w & w' & _ & E1 & E2 & A1 & A2 & W).
  assert (R : forall k x fl b, nth_error (s_threads s) k = Some x -> next_access x = Some (fl, b) -> b = false).
  { intros k x fl b E A. destruct (HT k x E) as [[P|P] _]; unfold next_access in A; rewrite P in A; destruct (t_calls x) as [|[] ?]; congruence. }
  destruct W as [W|W]; [rewrite (R _ _ _ _ E1 A1) in W|rewrite (R _ _ _ _ E2 A2) in W]; discriminate.
Qed.
Theorem read_first : forall v calls sched, let s := run v (read_before v calls) sched in
  ~ race s /\ (finished s -> forall i c, nth_error calls i = Some c -> answers s i = map (right_answer v) c).
Proof.
  intros v calls sched s. pose proof (calm_run v calls sched) as C. fold s in C. split; [eapply calm_no_race; exact C|].
  intros F i c Ec. destruct C as (_ & _ & HL & HT). unfold answers.
  destruct (nth_error (s_threads s) i) as [t|] eqn:Et; [|apply nth_error_None in Et; assert (i < length calls)%nat by (apply nth_error_Some; congruence); lia].
  destruct (HT i t Et) as (_ & c' & H4 & H5). unfold finished in F. rewrite Forall_forall in F. rewrite (F t) in H4 by (eapply nth_error_In; exact Et).
  rewrite app_nil_r in H4. congruence.
Qed.
(** One thread alone. *)
Theorem alone : forall v junk cs sched, ~ race (run v (unread junk [cs]) sched).
Proof.
  intros v junk cs sched (i & j & t & u & f & w & w' & N & E1 & E2 & _).
  assert (H : length (s_threads (run v (unread junk [cs]) sched)) = 1%nat).
  { destruct (inv_run v [cs] sched (unread junk [cs])) as (_ & HL & _); [apply inv_start; discriminate|exact HL]. }
  assert (i < 1)%nat by (rewrite <- H; apply nth_error_Some; congruence). assert (j < 1)%nat by (rewrite <- H; apply nth_error_Some; congruence). lia.
Qed.
(** A number asked for first. *)
Theorem alone_bool : forall v junk cs sched, finished (run v (unread junk [CNum :: cs]) sched) ->
  answers (run v (unread junk [CNum :: cs]) sched) 0 = map (right_answer v) (CNum :: cs).
Proof.
  intros v junk cs sched.
  enough (G : forall sched s, (exists t, s_threads s = [t] /\
      ((t_calls t = CNum :: cs /\ t_done t = [] /\ (s_cached s = true -> s_n s = v) /\ (t_at t = AtStart \/ t_at t = AtWrite \/ (t_at t = AtMark /\ s_n s = v) \/ (t_at t = AtRead /\ s_n s = v /\ s_cached s = true)))
       \/ calm v [CNum :: cs] s)) -> finished (run v s sched) -> answers (run v s sched) 0 = map (right_answer v) (CNum :: cs)).
  { apply G. eexists. split; [reflexivity|]. left. cbn. repeat split; auto. discriminate. }
  clear sched. induction sched as [|i sched IH]; intros s (t & Et & H) F.
  - destruct H as [(C & _)|C].
    + cbn in F. unfold finished in F. rewrite Et in F. inversion F. congruence.
    + cbn in F |- *. destruct C as (_ & _ & _ & HT). unfold answers. rewrite Et in *. cbn. destruct (HT 0%nat t eq_refl) as (_ & c' & H4 & H5). 
      assert (X : t_calls t = []) by (unfold finished in F; rewrite Et in F; inversion F; assumption). rewrite X in H4. rewrite app_nil_r in H4. cbn in H4. injection H4 as <-. exact H5.
  - cbn [run fold_left] in F |- *. apply IH; [|exact F]. clear IH F.
    destruct H as [(C & D & HC & P)|C].
    2:{ pose proof (calm_step v [CNum :: cs] s i C) as C'. pose proof C' as (_ & _ & HL & _). destruct (s_threads (step v s i)) as [|t' [|]]; try discriminate HL. eauto. }
    unfold step. rewrite Et. destruct i as [|i].
    2:{ rewrite (proj2 (nth_error_None [t] (S i))) by (cbn; lia). exists t. split; [exact Et|]. left. repeat split; auto. }
    cbn [nth_error]. destruct t as [tc ta td]. cbn [t_calls t_done t_at] in *. subst tc td. unfold th_step. cbn [t_calls t_at].
    destruct P as [->|[->|[[-> N]|(-> & N & K)]]].
    + eexists. split; [reflexivity|]. left. cbn. repeat split; auto. destruct (s_cached s) eqn:K; auto 8.
    + eexists. split; [reflexivity|]. left. cbn. repeat split; auto 8.
    + eexists. split; [reflexivity|]. left. cbn. repeat split; auto 8.
    + eexists. split; [reflexivity|]. right. rewrite N, K. repeat split; auto.
      * cbn in H. destruct i; [|destruct i; discriminate]. injection H as <-. auto.
      * cbn in H. destruct i; [|destruct i; discriminate]. injection H as <-. cbn. exists [CNum]. auto.
Qed.
Theorem raced : exists v junk calls sched, race (run v (unread junk calls) sched) /\ calls = [[CNum]; [CNum]].
Proof.
  exists (f_of_Z 1), (S754_zero false), [[CNum]; [CNum]], [0; 1]%nat. split; [|reflexivity].
  exists 0%nat, 1%nat. eexists. eexists. exists FN, true, true. repeat split; auto.
Qed.
Theorem bool_schedule : exists v junk calls sched sched',
  finished (run v (unread junk calls) sched) /\ finished (run v (unread junk calls) sched') /\
  answers (run v (unread junk calls) sched) 1 = [ABool false] /\ answers (run v (unread junk calls) sched') 1 = [ABool true].
Proof.
  exists (f_of_Z 1), (S754_zero false), [[CNum]; [CBool]], [1; 0; 0; 0; 0]%nat, [0; 0; 0; 0; 1]%nat.
  repeat split; repeat constructor.
Qed.

(** *** What a step touches *)
Lemma access : forall v n c t, (forall r, t_calls t = CBool :: r -> t_at t = AtStart) ->
  match next_access t with
  | None => th_step v n c t = None
  | Some (FN, w) => exists n' t', (forall c', th_step v n c' t = Some (n', c', t')) /\ (w = false -> n' = n)
  | Some (FCached, w) => exists c' t', (forall n', th_step v n' c t = Some (n', c', t')) /\ (w = false -> c' = c)
  end.
Proof.
  intros v n c [cs p ds] H. unfold next_access, th_step. cbn [t_calls t_at t_done] in *. destruct cs as [|[] r].
  - destruct p; reflexivity.
  - destruct p; eexists; eexists; (split; [reflexivity|]); auto; discriminate.
  - rewrite (H r eq_refl). eexists; eexists; (split; [reflexivity|]); auto.
Qed.
Lemma accesses : forall v junk calls sched t, In t (s_threads (run v (unread junk calls) sched)) -> forall n c,
  match next_access t with
  | None => th_step v n c t = None
  | Some (FN, w) => exists n' t', (forall c', th_step v n c' t = Some (n', c', t')) /\ (w = false -> n' = n)
  | Some (FCached, w) => exists c' t', (forall n', th_step v n' c t = Some (n', c', t')) /\ (w = false -> c' = c)
  end.
Proof.
  intros v junk calls sched t I n c. apply access. apply In_nth_error in I. destruct I as (i & I).
  assert (X : inv v calls (run v (unread junk calls) sched)) by (apply inv_run, inv_start; discriminate).
  destruct X as (_ & _ & X). apply (X i t I).
Qed.
