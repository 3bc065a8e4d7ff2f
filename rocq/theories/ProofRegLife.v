(** Proofs for SpecRegLife. *)
From Coq Require Import List ZArith Bool Arith Lia.
From Verif Require Import Base ModelKeyed ProofKeyed ModelRegLife SpecRegLife.
Import ListNotations.

Lemma registered_snoc : forall log e name id, registered (log ++ [e]) name id <->
  match e with
  | XAdd n i => (n = name /\ i = id) \/ registered log name id
  | XRemove n => n <> name /\ registered log name id
  | XClear => False
  | _ => registered log name id
  end.
Proof.
  intros log e name id.
  assert (D : registered (log ++ [e]) name id <-> e = XAdd name id \/ (e <> XRemove name /\ e <> XClear /\ registered log name id)).
  { split.
    - intros (a & b & E & R & C). destruct b as [|x b] using rev_ind; [apply app_inj_tail in E; left; apply E|]. clear IHb.
      rewrite app_comm_cons, app_assoc in E. apply app_inj_tail in E. destruct E as [-> ->]. right.
      split; [intros ->; apply R, in_or_app; right; left; reflexivity|].
      split; [intros ->; apply C, in_or_app; right; left; reflexivity|].
      exists a, b. split; [reflexivity|split; intros X; [apply R|apply C]; apply in_or_app; auto].
    - intros [->|(N1 & N2 & a & b & -> & R & C)].
      + exists log, []. split; [reflexivity|split; intros []].
      + exists a, (b ++ [e]). split; [rewrite <- app_assoc; reflexivity|].
        split; intros X; apply in_app_or in X; destruct X as [X|[X|[]]]; auto. }
  rewrite D. clear D. destruct e as [n i|n| n| |n i|n|i|i]; split; intros H;
    try (destruct H as [H|(H1 & H2 & H)]; [discriminate|exact H || contradiction || (split; [congruence|exact H])]);
    try (right; split; [discriminate|split; [discriminate|exact H]]).
  - destruct H as [H|(H1 & H2 & H)]; [injection H as -> ->; auto|auto].
  - destruct H as [[-> ->]|H]; [auto|right; repeat split; auto; discriminate].
  - right. split; [destruct H; congruence|split; [discriminate|apply H]].
  - contradiction.
Qed.

(** The table. *)
Lemma nth_kill : forall tab id j, nth_error (kill tab id) j =
  if Nat.eqb j id then match nth_error tab id with Some (b, _) => Some (b, false) | None => None end else nth_error tab j.
Proof.
  intros tab id. revert tab. induction id as [|id IH]; intros tab j; unfold kill in *; cbn [firstn skipn app].
  - destruct tab as [|[b a] tab]; destruct j; reflexivity.
  - destruct tab as [|x tab]; cbn [firstn skipn app]; [destruct j; cbn [nth_error Nat.eqb]; [reflexivity|destruct (Nat.eqb j id); destruct id; reflexivity]|].
    destruct j; [reflexivity|]. cbn [nth_error Nat.eqb]. apply IH.
Qed.
Lemma length_kill : forall tab id, length (kill tab id) = length tab.
Proof.
  intros tab id. unfold kill. rewrite app_length, firstn_length. pose proof (skipn_length id tab) as E.
  destruct (skipn id tab) as [|[b a] r]; cbn [length] in *; lia.
Qed.
Lemma nth_kills : forall reg tab j, nth_error (fold_left (fun t (m : bytes * nat) => kill t (snd m)) reg tab) j =
  if existsb (fun m => Nat.eqb j (snd m)) reg then match nth_error tab j with Some (b, _) => Some (b, false) | None => None end else nth_error tab j.
Proof.
  induction reg as [|m reg IH]; intros tab j; cbn [fold_left existsb]; [reflexivity|]. rewrite IH, nth_kill.
  destruct (Nat.eqb_spec j (snd m)) as [->|N]; cbn [orb]; [|reflexivity].
  destruct (nth_error tab (snd m)) as [[b a]|]; destruct (existsb _ reg); reflexivity.
Qed.
Lemma length_kills : forall reg tab, length (fold_left (fun t (m : bytes * nat) => kill t (snd m)) reg tab) = length tab.
Proof. induction reg as [|m reg IH]; intros tab; cbn [fold_left]; [reflexivity|]. rewrite IH. apply length_kill. Qed.

(** The state and what happened agree. *)
Record agree (s : mstate) : Prop := {
  ag_reg : forall name id, In (name, id) (ms_reg s) <-> registered (ms_log s) name id;
  ag_names : NoDup (map fst (ms_reg s));
  ag_ids : NoDup (map snd (ms_reg s));
  ag_added : forall id, id < length (ms_tab s) <-> exists name, In (XAdd name id) (ms_log s);
  ag_bound : forall name id, In (name, id) (ms_reg s) -> id < length (ms_tab s);
  ag_alive : forall id, is_alive s id = true <-> exists name, In (name, id) (ms_reg s)
}.

Lemma m_find_some : forall s name id, m_find s name = Some id -> In (name, id) (ms_reg s).
Proof.
  intros s name id H. unfold m_find in H. destruct (find _ _) as [[n i]|] eqn:F; [|discriminate]. injection H as <-.
  apply find_some in F. destruct F as (I & E). cbn [fst] in E. apply beqb_eq in E. subst n. exact I.
Qed.
Lemma m_find_none : forall s name, m_find s name = None -> forall id, ~ In (name, id) (ms_reg s).
Proof.
  intros s name H id I. unfold m_find in H. destruct (find _ _) as [[n i]|] eqn:F; [discriminate|].
  apply (find_none _ _ F) in I. cbn [fst] in I. rewrite beqb_refl in I. discriminate.
Qed.
Lemma find_in : forall s name id, agree s -> (m_find s name = Some id <-> In (name, id) (ms_reg s)).
Proof.
  intros s name id A. split; [apply m_find_some|]. intros I. destruct (m_find s name) as [j|] eqn:F.
  - apply m_find_some in F. f_equal. pose proof (ag_names s A) as N. clear A. induction (ms_reg s) as [|m r IH]; [contradiction|].
    cbn [map] in N. inversion_clear N as [|x y N1 N2]. destruct I as [->|I], F as [F|F]; try congruence.
    + exfalso. apply N1. apply (in_map fst) in F. exact F.
    + subst m. exfalso. apply N1. apply (in_map fst) in I. exact I.
    + auto.
  - exfalso. exact (m_find_none s name F id I).
Qed.

(** Events that change nothing. *)
Definition plain (e : mev) : Prop := match e with XAdd _ _ | XRemove _ | XClear => False | _ => True end.
Lemma note_agree : forall s e, agree s -> plain e -> agree (note s e).
Proof.
  intros s e A P. destruct A as [A1 A2 A3 A4 A5 A6]. unfold note. split; cbn [ms_reg ms_tab ms_log]; auto.
  - intros name id. rewrite A1, registered_snoc. destruct e; try contradiction; reflexivity.
  - intros id. rewrite A4. split; intros (n & H); exists n; [apply in_or_app; auto|].
    apply in_app_or in H. destruct H as [H|[->|[]]]; [exact H|contradiction].
Qed.
Lemma remove_missing : forall s name, agree s -> m_find s name = None -> agree (note s (XRemove name)).
Proof.
  intros s name A F. destruct A as [A1 A2 A3 A4 A5 A6]. unfold note. split; cbn [ms_reg ms_tab ms_log]; auto.
  - intros n id. rewrite registered_snoc, <- A1. split; [|intros [_ H]; exact H]. intros H. split; [|exact H]. intros ->. exact (m_find_none s n F id H).
  - intros id. rewrite A4. split; intros (n & H); exists n; [apply in_or_app; auto|].
    apply in_app_or in H. destruct H as [H|[H|[]]]; [exact H|discriminate].
Qed.
Lemma add_agree : forall s name body, agree s -> agree (m_add s name body).
Proof.
  intros s name body A. unfold m_add. destruct (m_find s name) as [i|] eqn:F; [apply note_agree; [exact A|exact I]|].
  destruct A as [A1 A2 A3 A4 A5 A6]. set (k := length (ms_tab s)). split; cbn [ms_reg ms_tab ms_log].
  - intros n id. rewrite registered_snoc, <- A1. cbn [In]. split; (intros [H|H]; [left|right; exact H]); [injection H; auto|destruct H; congruence].
  - cbn [map fst]. constructor; [|exact A2]. intros H. apply in_map_iff in H. destruct H as ([n i] & E & H). cbn [fst] in E. subst n. exact (m_find_none s name F i H).
  - cbn [map snd]. constructor; [|exact A3]. intros H. apply in_map_iff in H. destruct H as ([n i] & E & H). cbn [snd] in E. apply A5 in H. subst i. unfold k in H. lia.
  - intros id. rewrite app_length. cbn [length]. split.
    + intros H. destruct (Nat.eq_dec id k) as [->|N]; [exists name; apply in_or_app; right; left; reflexivity|].
      destruct (proj1 (A4 id)) as (n & I); [unfold k in N; lia|]. exists n. apply in_or_app. auto.
    + intros (n & H). apply in_app_or in H. destruct H as [H|[H|[]]]; [assert (id < length (ms_tab s)) by (apply A4; exists n; exact H); lia|].
      injection H as _ <-. unfold k. lia.
  - intros n id [H|H]; rewrite app_length; cbn [length]; [injection H as _ <-; unfold k; lia|apply A5 in H; lia].
  - intros id. unfold is_alive. cbn [ms_tab]. destruct (Nat.lt_ge_cases id k) as [L|L].
    + rewrite nth_error_app1 by exact L. fold (is_alive s id). rewrite A6. split; intros (n & H); exists n; cbn [In]; [auto|].
      destruct H as [H|H]; [injection H as _ <-; lia|exact H].
    + rewrite nth_error_app2 by exact L. fold k. destruct (Nat.eq_dec id k) as [->|N].
      * rewrite Nat.sub_diag. cbn [nth_error]. split; [intros _; exists name; left; reflexivity|reflexivity].
      * replace (id - k) with (S (id - k - 1)) by lia. cbn [nth_error]. destruct (id - k - 1); cbn [nth_error].
        all: split; [discriminate|]; intros (n1 & [H|H]); [injection H as _ <-; lia|apply A5 in H; unfold k in L; lia].
Qed.
Lemma nodup_filter_map : forall (A B : Type) (f : A -> B) p l, NoDup (map f l) -> NoDup (map f (filter p l)).
Proof.
  intros A B f p. induction l as [|x l IH]; cbn [map filter]; intros H; [constructor|]. inversion_clear H as [|y z N1 N2].
  destruct (p x); [|auto]. cbn [map]. constructor; [|auto]. intros X. apply N1. apply in_map_iff in X. destruct X as (w & E & X).
  apply filter_In in X. rewrite <- E. apply in_map, X.
Qed.
Lemma nodup_snd : forall (r : list (bytes * nat)) n m i, NoDup (map snd r) -> In (n, i) r -> In (m, i) r -> n = m.
Proof.
  induction r as [|x r IH]; intros n m i N H1 H2; [contradiction|]. cbn [map] in N. inversion_clear N as [|y z N1 N2].
  destruct H1 as [->|H1], H2 as [H2|H2]; try congruence; [..|eauto].
  - exfalso. apply N1. apply (in_map snd) in H2. exact H2.
  - subst x. exfalso. apply N1. apply (in_map snd) in H1. exact H1.
Qed.
Lemma remove_agree : forall s name, agree s -> agree (m_remove s name).
Proof.
  intros s name A. unfold m_remove. destruct (m_find s name) as [i|] eqn:F; [|apply remove_missing; assumption].
  pose proof (m_find_some _ _ _ F) as Fi. destruct A as [A1 A2 A3 A4 A5 A6].
  assert (R : forall n id, In (n, id) (filter (fun m => negb (beqb (fst m) name)) (ms_reg s)) <-> In (n, id) (ms_reg s) /\ n <> name).
  { intros n id. rewrite filter_In. cbn [fst]. split; intros [H1 H2]; (split; [exact H1|]).
    - intros ->. rewrite beqb_refl in H2. discriminate.
    - destruct (beqb n name) eqn:E; [apply beqb_eq in E; contradiction|reflexivity]. }
  split; cbn [ms_reg ms_tab ms_log].
  - intros n id. rewrite R, registered_snoc, <- A1. intuition congruence.
  - apply nodup_filter_map, A2.
  - apply nodup_filter_map, A3.
  - intros id. rewrite length_kill, A4. split; intros (n & H); exists n; [apply in_or_app; auto|].
    apply in_app_or in H. destruct H as [H|[H|[]]]; [exact H|discriminate].
  - intros n id H. rewrite length_kill. apply R in H. eapply A5, H.
  - intros id. unfold is_alive. cbn [ms_tab]. rewrite nth_kill. destruct (Nat.eqb_spec id i) as [->|N].
    + split; [destruct (nth_error (ms_tab s) i) as [[b a]|]; discriminate|]. intros (n & H). apply R in H. destruct H as [H K].
      exfalso. apply K. exact (nodup_snd _ _ _ _ A3 H Fi).
    + fold (is_alive s id). rewrite A6. split; intros (n & H); exists n; [apply R; split; [exact H|]|apply R in H; apply H].
      intros ->. apply N. apply find_in in H; [|split; assumption]. congruence.
Qed.
Lemma clear_agree : forall s, agree s -> agree (m_clear s).
Proof.
  intros s A. unfold m_clear. destruct A as [A1 A2 A3 A4 A5 A6]. split; cbn [ms_reg ms_tab ms_log].
  - intros n id. rewrite registered_snoc. reflexivity.
  - constructor.
  - constructor.
  - intros id. rewrite length_kills, A4. split; intros (n & H); exists n; [apply in_or_app; auto|].
    apply in_app_or in H. destruct H as [H|[H|[]]]; [exact H|discriminate].
  - intros n id [].
  - intros id. unfold is_alive. cbn [ms_tab]. rewrite nth_kills. split; [|intros (n & [])].
    destruct (existsb _ _) eqn:E; [destruct (nth_error (ms_tab s) id) as [[b a]|]; discriminate|]. intros H. fold (is_alive s id) in H.
    apply A6 in H. destruct H as (n & H). exfalso.
    assert (X : existsb (fun m : bytes * nat => Nat.eqb id (snd m)) (ms_reg s) = true) by (apply existsb_exists; exists (n, id); split; [exact H|apply Nat.eqb_refl]).
    congruence.
Qed.

Definition good (s : mstate) : Prop := agree s /\ forall a e b, ms_log s = a ++ e :: b -> right a e.
Lemma snoc_right : forall log e0, (forall a e b, log = a ++ e :: b -> right a e) -> right log e0 ->
  forall a e b, log ++ [e0] = a ++ e :: b -> right a e.
Proof.
  intros log e0 H R a e b E. destruct b as [|x b] using rev_ind; [apply app_inj_tail in E; destruct E as [-> ->]; exact R|]. clear IHb.
  rewrite app_comm_cons, app_assoc in E. apply app_inj_tail in E. destruct E as [E _]. eapply H, E.
Qed.
Lemma good_new : good ms_new.
Proof.
  split.
  - split; cbn; try constructor; try lia; try contradiction.
    + intros (a & b & E & _). destruct a; discriminate.
    + intros (n & []).
    + unfold is_alive. cbn. destruct id; discriminate.
    + intros (n & []).
  - intros a e b E. destruct a; discriminate.
Qed.
Lemma good_note : forall s e, good s -> plain e -> right (ms_log s) e -> good (note s e).
Proof. intros s e (A & R) P Q. split; [apply note_agree; assumption|]. unfold note. cbn [ms_log]. apply snoc_right; assumption. Qed.
Lemma unregistered : forall s name, agree s -> m_find s name = None -> forall id, ~ registered (ms_log s) name id.
Proof. intros s name A F id H. apply (ag_reg s A) in H. exact (m_find_none s name F id H). Qed.
Lemma found_registered : forall s name id, agree s -> m_find s name = Some id -> registered (ms_log s) name id.
Proof. intros s name id A F. apply (ag_reg s A), m_find_some, F. Qed.
Lemma good_add : forall s name body, good s -> good (m_add s name body).
Proof.
  intros s name body (A & R). split; [apply add_agree, A|]. unfold m_add. destruct (m_find s name) as [i|] eqn:F; cbn [note ms_log]; apply snoc_right; try assumption.
  - exists i. apply found_registered; assumption.
  - split; [apply unregistered; assumption|]. intros n H.
    assert (X : length (ms_tab s) < length (ms_tab s)) by (apply (ag_added s A); exists n; exact H). lia.
Qed.
Lemma good_remove : forall s name, good s -> good (m_remove s name).
Proof.
  intros s name (A & R). split; [apply remove_agree, A|]. unfold m_remove. destruct (m_find s name); cbn [note ms_log]; apply snoc_right; try assumption; exact I.
Qed.
Lemma good_clear : forall s, good s -> good (m_clear s).
Proof. intros s (A & R). split; [apply clear_agree, A|]. unfold m_clear. cbn [ms_log]. apply snoc_right; [assumption|exact I]. Qed.

(** The code of an object stays. *)
Definition grows (s s' : mstate) : Prop := length (ms_tab s) <= length (ms_tab s') /\ forall id, id < length (ms_tab s) -> body_of s' id = body_of s id.
Lemma grows_refl : forall s, grows s s.
Proof. intros s. split; auto. Qed.
Lemma grows_trans : forall a b c, grows a b -> grows b c -> grows a c.
Proof. intros a b c (L1 & B1) (L2 & B2). split; [lia|]. intros id H. rewrite B2 by lia. apply B1, H. Qed.
Lemma grows_note : forall s e, grows s (note s e).
Proof. intros s e. split; auto. Qed.
Lemma grows_add : forall s name body, grows s (m_add s name body).
Proof.
  intros s name body. unfold m_add. destruct (m_find s name); [apply grows_note|]. split; unfold body_of; cbn [ms_tab]; [rewrite app_length; lia|].
  intros id H. rewrite nth_error_app1 by exact H. reflexivity.
Qed.
Lemma grows_remove : forall s name, grows s (m_remove s name).
Proof.
  intros s name. unfold m_remove. destruct (m_find s name); [|apply grows_note]. split; unfold body_of; cbn [ms_tab]; [rewrite length_kill; lia|].
  intros id H. rewrite nth_kill. destruct (Nat.eqb_spec id n) as [->|]; [destruct (nth_error (ms_tab s) n) as [[b a]|]; reflexivity|reflexivity].
Qed.
Lemma grows_clear : forall s, grows s (m_clear s).
Proof.
  intros s. unfold m_clear. split; unfold body_of; cbn [ms_tab]; [rewrite length_kills; lia|].
  intros id H. rewrite nth_kills. destruct (existsb _ _); [destruct (nth_error (ms_tab s) id) as [[b a]|]; reflexivity|reflexivity].
Qed.

Definition self_ok (self : option nat) (s : mstate) : Prop := match self with Some id => id < length (ms_tab s) | None => True end.
Lemma self_grows : forall self s s', self_ok self s -> grows s s' -> self_ok self s'.
Proof. intros [id|] s s' H (G & _); cbn in *; [lia|exact H]. Qed.
Lemma alive_or_gone : forall s id, agree s -> id < length (ms_tab s) ->
  if is_alive s id then exists name, registered (ms_log s) name id else gone (ms_log s) id.
Proof.
  intros s id A L. destruct (is_alive s id) eqn:E.
  - apply (ag_alive s A) in E. destruct E as (n & E). exists n. apply (ag_reg s A), E.
  - split; [apply (ag_added s A), L|]. intros n R. apply (ag_reg s A) in R.
    assert (X : is_alive s id = true) by (apply (ag_alive s A); exists n; exact R). congruence.
Qed.

Lemma run_good : forall fuel self l s, good s -> self_ok self s ->
  match mrun fuel self l s with
  | LDone s' | LMore s' => good s' /\ grows s s'
  | LBad s' => exists s0 id, s' = note s0 (XUse id) /\ good s0 /\ gone (ms_log s0) id
  end.
Proof.
  induction fuel as [|f IH]; intros self l s G S; cbn [mrun]; [split; [exact G|apply grows_refl]|].
  assert (K : forall l' s', good s' -> grows s s' ->
    match mrun f self l' s' with
    | LDone t | LMore t => good t /\ grows s t
    | LBad t => exists s0 id, t = note s0 (XUse id) /\ good s0 /\ gone (ms_log s0) id end).
  { intros l' s' G' R. pose proof (IH self l' s' G' (self_grows _ _ _ S R)) as X. destruct (mrun f self l' s'); try exact X; (destruct X as [X Y]; split; [exact X|exact (grows_trans _ _ _ R Y)]). }
  destruct l as [|o l]; [split; [exact G|apply grows_refl]|]. destruct o as [|name body|name| |name].
  - destruct self as [id|]; [|apply K; [exact G|apply grows_refl]]. cbn in S. pose proof (alive_or_gone s id (proj1 G) S) as X. destruct (is_alive s id).
    + apply K; [apply good_note; [exact G|exact I|exact X]|apply grows_note].
    + exists s, id. auto.
  - apply K; [apply good_add, G|apply grows_add].
  - apply K; [apply good_remove, G|apply grows_remove].
  - apply K; [apply good_clear, G|apply grows_clear].
  - destruct (m_find s name) as [id|] eqn:F.
    + assert (G1 : good (note s (XEnter name id))) by (apply good_note; [exact G|exact I|apply found_registered; [apply G|exact F]]).
      assert (L : id < length (ms_tab s)) by (eapply (ag_bound s (proj1 G)), m_find_some, F).
      pose proof (IH (Some id) (body_of s id) _ G1 L) as X. destruct (mrun f (Some id) _ _) as [s1|s1|s1]; [|exact X|].
      * destruct X as (X & Y). apply K; [apply good_note; [exact X|exact I|exact I]|]. eapply grows_trans; [exact (grows_note s (XEnter name id))|]. eapply grows_trans; [exact Y|apply grows_note].
      * destruct X as (X & Y). split; [exact X|]. eapply grows_trans; [exact (grows_note s (XEnter name id))|exact Y].
    + apply K; [apply good_note; [exact G|exact I|exact (unregistered s name (proj1 G) F)]|apply grows_note].
Qed.

Lemma history : forall fuel l, match mstart fuel l with
  | LDone s | LMore s => forall a e b, ms_log s = a ++ e :: b -> right a e
  | LBad s => exists log id, ms_log s = log ++ [XUse id] /\ gone log id /\ forall a e b, log = a ++ e :: b -> right a e
  end.
Proof.
  intros fuel l. pose proof (run_good fuel None l ms_new good_new I) as H. unfold mstart. destruct (mrun fuel None l ms_new) as [s|s|s].
  - apply H.
  - destruct H as (s0 & id & -> & (_ & G) & X). exists (ms_log s0), id. auto.
  - apply H.
Qed.

(** What a finished run did. *)
Lemma run_does : forall code fuel self l s s', good s -> self_ok self s -> mrun fuel self l s = LDone s' ->
  (forall id, id < length (ms_tab s') -> code id = body_of s' id) ->
  exists tr, ms_log s' = ms_log s ++ tr /\ does code (ms_log s) self l tr.
Proof.
  intros code. induction fuel as [|f IH]; intros self l s s' G S H C; [discriminate|]. cbn [mrun] in H.
  destruct l as [|o l]; [injection H as <-; exists []; split; [symmetry; apply app_nil_r|constructor]|].
  assert (K : forall l' s1 e, good s1 -> grows s s1 -> ms_log s1 = ms_log s ++ [e] -> mrun f self l' s1 = LDone s' ->
    exists tr, ms_log s' = ms_log s ++ e :: tr /\ does code (ms_log s ++ [e]) self l' tr).
  { intros l' s1 e G1 R E H1. destruct (IH self l' s1 s' G1 (self_grows _ _ _ S R) H1 C) as (tr & E1 & D). exists tr. rewrite E in E1, D.
    split; [rewrite E1, <- app_assoc; reflexivity|exact D]. }
  destruct o as [|name body|name| |name].
  - destruct self as [id|].
    + cbn in S. pose proof (alive_or_gone s id (proj1 G) S) as X. destruct (is_alive s id); [|discriminate].
      destruct (K l (note s (XUse id)) (XUse id)) as (tr & E & D); [apply good_note; [exact G|exact I|exact X]|apply grows_note|reflexivity|exact H|].
      exists (XUse id :: tr). split; [exact E|constructor; exact D].
    + destruct (IH None l s s' G I H C) as (tr & E & D). exists tr. split; [exact E|constructor; exact D].
  - pose proof (run_good f self l _ (good_add s name body G) (self_grows _ _ _ S (grows_add s name body))) as R. rewrite H in R. destruct R as (_ & RL & RB).
    assert (E0 : exists e, ms_log (m_add s name body) = ms_log s ++ [e] /\ forall tr, does code (ms_log s ++ [e]) self l tr -> does code (ms_log s) self (MAdd name body :: l) (e :: tr)).
    { unfold m_add in *. destruct (m_find s name) as [i|] eqn:F.
      - exists (XRefuse name). split; [reflexivity|]. intros tr D. apply (do_refuse code _ _ _ i); [apply found_registered; [apply G|exact F]|exact D].
      - exists (XAdd name (length (ms_tab s))). split; [reflexivity|]. intros tr D. apply do_add; [apply unregistered; [apply G|exact F]| |exact D].
        cbn [ms_tab] in RL, RB. rewrite app_length in RL, RB. cbn [length] in RL, RB. rewrite C by lia. rewrite RB by lia.
        unfold body_of. cbn [ms_tab]. rewrite nth_error_app2, Nat.sub_diag by lia. reflexivity. }
    destruct E0 as (e & E0 & D0). destruct (K l _ e (good_add s name body G) (grows_add s name body) E0 H) as (tr & E & D). exists (e :: tr). split; [exact E|apply D0, D].
  - destruct (K l (m_remove s name) (XRemove name)) as (tr & E & D); [apply good_remove, G|apply grows_remove|unfold m_remove; destruct (m_find s name); reflexivity|exact H|].
    exists (XRemove name :: tr). split; [exact E|constructor; exact D].
  - destruct (K l (m_clear s) XClear) as (tr & E & D); [apply good_clear, G|apply grows_clear|reflexivity|exact H|].
    exists (XClear :: tr). split; [exact E|constructor; exact D].
  - destruct (m_find s name) as [id|] eqn:F.
    + assert (G1 : good (note s (XEnter name id))) by (apply good_note; [exact G|exact I|apply found_registered; [apply G|exact F]]).
      assert (L : id < length (ms_tab s)) by (eapply (ag_bound s (proj1 G)), m_find_some, F).
      destruct (mrun f (Some id) (body_of s id) (note s (XEnter name id))) as [s1|s1|s1] eqn:E1; try discriminate.
      pose proof (run_good f (Some id) (body_of s id) _ G1 L) as R1. rewrite E1 in R1. destruct R1 as (G2 & R1).
      assert (G3 : good (note s1 (XLeave id))) by (apply good_note; [exact G2|exact I|exact I]).
      assert (R3 : grows s (note s1 (XLeave id))) by (eapply grows_trans; [exact (grows_note s (XEnter name id))|eapply grows_trans; [exact R1|apply grows_note]]).
      pose proof (run_good f self l _ G3 (self_grows _ _ _ S R3)) as R4. rewrite H in R4. destruct R4 as (_ & R4).
      assert (C1 : forall i, i < length (ms_tab s1) -> code i = body_of s1 i).
      { intros i Hi. destruct R4 as (L4 & B4). cbn [note ms_tab] in L4, B4. rewrite C by lia. apply (B4 i Hi). }
      destruct (IH (Some id) (body_of s id) _ s1 G1 L E1 C1) as (t1 & Et & Dt).
      destruct (IH self l _ s' G3 (self_grows _ _ _ S R3) H C) as (t2 & Et2 & Dt2). cbn [note ms_log] in *.
      exists (XEnter name id :: t1 ++ XLeave id :: t2). split; [rewrite Et2, Et, <- !app_assoc; reflexivity|].
      assert (Cid : code id = body_of s id).
      { destruct R1 as (L1 & B1). cbn [note ms_tab] in L1, B1. rewrite C1 by lia. apply (B1 id L). }
      apply do_call; [apply found_registered; [apply G|exact F]|rewrite Cid; exact Dt|]. rewrite Et, <- !app_assoc in Dt2. exact Dt2.
    + destruct (K l (note s (XMiss name)) (XMiss name)) as (tr & E & D); [apply good_note; [exact G|exact I|exact (unregistered s name (proj1 G) F)]|apply grows_note|reflexivity|exact H|].
      exists (XMiss name :: tr). split; [exact E|]. apply do_miss; [apply unregistered; [apply G|exact F]|exact D].
Qed.
Lemma finished : forall fuel l s, mstart fuel l = LDone s -> exists code, does code [] None l (ms_log s).
Proof.
  intros fuel l s H. exists (body_of s). destruct (run_does (body_of s) fuel None l ms_new s good_new I H) as (tr & E & D); [reflexivity|].
  cbn in E, D. rewrite E. exact D.
Qed.

(** More time changes nothing once the code has ended. *)
Lemma more_fuel : forall f f' self l s, f <= f' -> (forall t, mrun f self l s <> LMore t) -> mrun f' self l s = mrun f self l s.
Proof.
  induction f as [|f IH]; intros f' self l s L H; [exfalso; eapply H; reflexivity|]. destruct f' as [|f']; [lia|]. cbn [mrun] in *.
  destruct l as [|[|name body|name| |name] l]; try reflexivity; try (apply IH; [lia|exact H]).
  - destruct self as [id|]; [destruct (is_alive s id); [|reflexivity]|]; (apply IH; [lia|exact H]).
  - destruct (m_find s name) as [id|]; [|apply IH; [lia|exact H]].
    destruct (mrun f (Some id) _ _) as [s1|s1|s1] eqn:E1.
    + rewrite (IH f'), E1 by (try lia; rewrite E1; discriminate). apply IH; [lia|exact H].
    + rewrite (IH f'), E1 by (try lia; rewrite E1; discriminate). reflexivity.
    + exfalso. eapply H. reflexivity.
Qed.

(** *** Safe habits *)
Definition made (P : list mop -> Prop) (s : mstate) : Prop := forall id, id < length (ms_tab s) -> P (body_of s id) /\ makes P (body_of s id).
Lemma made_add : forall P s name body, made P s -> P body -> makes P body -> made P (m_add s name body).
Proof.
  intros P s name body M B C. unfold m_add. destruct (m_find s name); [exact M|]. intros id H. unfold body_of. cbn [ms_tab] in *. rewrite app_length in H. cbn [length] in H.
  destruct (Nat.lt_ge_cases id (length (ms_tab s))) as [L|L]; [rewrite nth_error_app1 by exact L; apply M, L|].
  rewrite nth_error_app2 by exact L. replace (id - length (ms_tab s)) with 0 by lia. cbn [nth_error]. auto.
Qed.
Lemma made_same : forall P s s', made P s -> length (ms_tab s') = length (ms_tab s) -> grows s s' -> made P s'.
Proof. intros P s s' M E (_ & B) id H. rewrite E in H. rewrite (B id H). apply M, H. Qed.
Lemma made_remove : forall P s name, made P s -> made P (m_remove s name).
Proof. intros P s name M. apply (made_same P s); [exact M| |apply grows_remove]. unfold m_remove. destruct (m_find s name); cbn [note ms_tab]; [apply length_kill|reflexivity]. Qed.
Lemma made_clear : forall P s, made P s -> made P (m_clear s).
Proof. intros P s M. apply (made_same P s); [exact M| |apply grows_clear]. apply length_kills. Qed.
Lemma makes_cons : forall P o l, makes P (o :: l) -> makes P l /\ forall name body, o = MAdd name body -> P body /\ makes P body.
Proof. intros P o l H. inversion_clear H; split; auto; intros n b E; [injection E as <- <-; auto|exfalso; eapply H0, E]. Qed.
Lemma found_alive : forall s name id, agree s -> m_find s name = Some id -> is_alive s id = true /\ id < length (ms_tab s).
Proof. intros s name id A F. apply m_find_some in F. split; [apply (ag_alive s A); exists name; exact F|eapply (ag_bound s A), F]. Qed.

Lemma run_uses_first : forall fuel self l s, good s -> self_ok self s -> made uses_first s -> makes uses_first l ->
  match self with Some id => uses_first l /\ (In MUse l -> is_alive s id = true) | None => True end ->
  match mrun fuel self l s with LDone s' => made uses_first s' | LMore _ => True | LBad _ => False end.
Proof.
  induction fuel as [|f IH]; intros self l s G S M N U; cbn [mrun]; [exact I|].
  destruct l as [|o l]; [exact M|]. apply makes_cons in N. destruct N as (N & NB).
  assert (V : o <> MUse -> forall s', good s' -> grows s s' -> made uses_first s' ->
    match mrun f self l s' with LDone t => made uses_first t | LMore _ => True | LBad _ => False end).
  { intros O s' G' R M'. apply IH; [exact G'|exact (self_grows _ _ _ S R)|exact M'|exact N|]. destruct self as [id|]; [|exact I]. destruct U as (U & _).
    inversion U as [l0 X0 E0|l0 X E0]; [exfalso; apply O; congruence|]. assert (Y : ~ In MUse l) by (intros Z; apply X; right; exact Z). split; [apply uf_rest, Y|intros Z; contradiction]. }
  destruct o as [|name body|name| |name].
  - destruct self as [id|]; [|apply IH; auto]. destruct U as (U & A). rewrite (A (or_introl eq_refl)). pose proof (A (or_introl eq_refl)) as Al. cbn in S.
    pose proof (alive_or_gone s id (proj1 G) S) as X. rewrite Al in X.
    apply IH; [apply good_note; [exact G|exact I|exact X]|exact S|exact M|exact N|]. split; [|intros _; exact Al].
    inversion_clear U as [|l0 Y]; [assumption|]. exfalso. apply Y. left. reflexivity.
  - destruct (NB name body eq_refl) as (B1 & B2). apply V; [discriminate|apply good_add, G|apply grows_add|apply made_add; assumption].
  - apply V; [discriminate|apply good_remove, G|apply grows_remove|apply made_remove, M].
  - apply V; [discriminate|apply good_clear, G|apply grows_clear|apply made_clear, M].
  - destruct (m_find s name) as [id|] eqn:F.
    + assert (G1 : good (note s (XEnter name id))) by (apply good_note; [exact G|exact I|apply found_registered; [apply G|exact F]]).
      destruct (found_alive s name id (proj1 G) F) as (Al & L). destruct (M id L) as (B1 & B2).
      pose proof (IH (Some id) (body_of s id) (note s (XEnter name id)) G1 L M B2 (conj B1 (fun _ => Al))) as X.
      pose proof (run_good f (Some id) (body_of s id) _ G1 L) as R.
      destruct (mrun f (Some id) _ _) as [s1|s1|s1]; [|exact X|exact I]. destruct R as (R1 & R2).
      apply V; [discriminate|apply good_note; [exact R1|exact I|exact I]| |exact X].
      eapply grows_trans; [exact (grows_note s (XEnter name id))|]. eapply grows_trans; [exact R2|apply grows_note].
    + apply V; [discriminate|apply good_note; [exact G|exact I|exact (unregistered s name (proj1 G) F)]|apply grows_note|exact M].
Qed.

Lemma alive_add : forall s name body id, is_alive s id = true -> is_alive (m_add s name body) id = true.
Proof.
  intros s name body id H. unfold m_add. destruct (m_find s name); [exact H|]. unfold is_alive in *. cbn [ms_tab].
  rewrite nth_error_app1; [exact H|]. apply nth_error_Some. destruct (nth_error (ms_tab s) id); congruence.
Qed.
Lemma run_keeps : forall fuel self l s, good s -> self_ok self s -> made keeps s -> makes keeps l ->
  match self with Some id => keeps l /\ is_alive s id = true | None => True end ->
  match mrun fuel self l s with
  | LDone s' => made keeps s' /\ (self <> None -> forall id, is_alive s id = true -> is_alive s' id = true)
  | LMore _ => True
  | LBad _ => False
  end.
Proof.
  induction fuel as [|f IH]; intros self l s G S M N U; cbn [mrun]; [exact I|].
  destruct l as [|o l]; [split; auto|]. apply makes_cons in N. destruct N as (N & NB).
  assert (V : forall s', good s' -> grows s s' -> made keeps s' -> (self <> None -> forall id, is_alive s id = true -> is_alive s' id = true) ->
    match mrun f self l s' with
    | LDone t => made keeps t /\ (self <> None -> forall id, is_alive s id = true -> is_alive t id = true)
    | LMore _ => True | LBad _ => False end).
  { intros s' G' R M' A. assert (U' : match self with Some id => keeps l /\ is_alive s' id = true | None => True end).
    { destruct self as [id|]; [|exact I]. destruct U as ((K1 & K2) & Al). split; [|apply A; [discriminate|exact Al]].
      split; [intros X; apply K1; right; exact X|intros n X; apply (K2 n); right; exact X]. }
    pose proof (IH self l s' G' (self_grows _ _ _ S R) M' N U') as X. destruct (mrun f self l s'); try exact X.
    destruct X as (X & Y). split; [exact X|]. intros Sn id H. apply Y; [exact Sn|]. apply A; assumption. }
  destruct o as [|name body|name| |name].
  - destruct self as [id|]; [|apply IH; auto]. destruct U as (U & Al). rewrite Al. pose proof (alive_or_gone s id (proj1 G) S) as X. rewrite Al in X.
    apply V; [apply good_note; [exact G|exact I|exact X]|apply grows_note|exact M|auto].
  - destruct (NB name body eq_refl) as (B1 & B2). apply V; [apply good_add, G|apply grows_add|apply made_add; assumption|]. intros _ id H. apply alive_add, H.
  - apply V; [apply good_remove, G|apply grows_remove|apply made_remove, M|]. intros Sn. destruct self as [id|]; [|congruence].
    exfalso. destruct U as ((_ & K) & _). apply (K name). left. reflexivity.
  - apply V; [apply good_clear, G|apply grows_clear|apply made_clear, M|]. intros Sn. destruct self as [id|]; [|congruence].
    exfalso. destruct U as ((K & _) & _). apply K. left. reflexivity.
  - destruct (m_find s name) as [id|] eqn:F.
    + assert (G1 : good (note s (XEnter name id))) by (apply good_note; [exact G|exact I|apply found_registered; [apply G|exact F]]).
      destruct (found_alive s name id (proj1 G) F) as (Al & L). destruct (M id L) as (B1 & B2).
      pose proof (IH (Some id) (body_of s id) (note s (XEnter name id)) G1 L M B2 (conj B1 Al)) as X.
      pose proof (run_good f (Some id) (body_of s id) _ G1 L) as R.
      destruct (mrun f (Some id) _ _) as [s1|s1|s1]; [|exact X|exact I]. destruct R as (R1 & R2). destruct X as (X1 & X2).
      apply V; [apply good_note; [exact R1|exact I|exact I]| |exact X1|].
      * eapply grows_trans; [exact (grows_note s (XEnter name id))|]. eapply grows_trans; [exact R2|apply grows_note].
      * intros _ j H. apply X2; [discriminate|exact H].
    + apply V; [apply good_note; [exact G|exact I|exact (unregistered s name (proj1 G) F)]|apply grows_note|exact M|auto].
Qed.
Lemma made_new : forall P, made P ms_new.
Proof. intros P id H. cbn in H. lia. Qed.
Lemma uses_first_safe : forall fuel l s, makes uses_first l -> mstart fuel l <> LBad s.
Proof. intros fuel l s N H. pose proof (run_uses_first fuel None l ms_new good_new I (made_new _) N I) as X. unfold mstart in H. rewrite H in X. exact X. Qed.
Lemma keeps_safe : forall fuel l s, makes keeps l -> mstart fuel l <> LBad s.
Proof. intros fuel l s N H. pose proof (run_keeps fuel None l ms_new good_new I (made_new _) N I) as X. unfold mstart in H. rewrite H in X. exact X. Qed.
Lemma settled : forall f f' l, f <= f' -> (forall t, mstart f l <> LMore t) -> mstart f' l = mstart f l.
Proof. intros. apply more_fuel; assumption. Qed.
