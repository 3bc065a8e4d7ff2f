From Coq Require Import ZifyBool Sorted Permutation.
From Verif Require Import Base ModelKeyed ModelValue ModelText ModelObject ModelEq ModelEnc ModelStd ProofStd ModelEnum ProofEnum ModelJwt SpecJwt
  ProofText3 SpecUtf8 SpecText ProofText5 SpecEnc ProofEnc SpecKeyed ProofKeyed.
Local Open Scope Z_scope.

(** *** Cache *)
Definition entry_stored (ops : list cop) (e : centry) : Prop :=
  stored ops (snd (fst e)) (snd e) /\ exists j, fst (fst e) = token_hash j (snd (fst e)).
Lemma stored_snoc : forall ops t v j t' v', stored ops t v -> stored (ops ++ [CStore j t' v']) t v.
Proof.
  intros ops t v j t' v' (a & i & b & -> & H). exists a, i, (b ++ [CStore j t' v']). split; [rewrite <- app_assoc; reflexivity|].
  rewrite in_app_iff. cbn [In]. intuition discriminate.
Qed.
Lemma stored_last : forall ops j t v, stored (ops ++ [CStore j t v]) t v.
Proof. intros. exists ops, j, []. auto. Qed.
Lemma run_snoc : forall lim ops o, cache_run lim (ops ++ [o]) = cache_step (cache_run lim ops) o.
Proof. intros. unfold cache_run. rewrite fold_left_app. reflexivity. Qed.
Lemma run_limit : forall lim ops, c_limit (cache_run lim ops) = lim.
Proof.
  intros lim ops. induction ops as [|o ops IH] using rev_ind; [reflexivity|]. rewrite run_snoc. destruct o; cbn [cache_step]; [|exact IH].
  unfold cache_store. cbv zeta. destruct (_ <=? _); exact IH.
Qed.
Lemma run_entries : forall lim ops, Forall (entry_stored ops) (c_cache1 (cache_run lim ops)) /\ Forall (entry_stored ops) (c_cache2 (cache_run lim ops)).
Proof.
  intros lim ops. induction ops as [|o ops [IH1 IH2]] using rev_ind; [split; constructor|]. rewrite run_snoc. destruct o as [j t v|]; cbn [cache_step]; [|split; constructor].
  assert (M : forall l, Forall (entry_stored ops) l -> Forall (entry_stored (ops ++ [CStore j t v])) l).
  { intros l H. eapply Forall_impl; [|exact H]. intros e [H1 H2]. split; [apply stored_snoc, H1|exact H2]. }
  assert (N : Forall (entry_stored (ops ++ [CStore j t v])) (cemplace (c_cache1 (cache_run lim ops)) (token_hash j t) t v)).
  { unfold cemplace. destruct (cfind _ _ _); [auto|]. constructor; [|auto]. split; cbn [fst snd]; [apply stored_last|eauto]. }
  unfold cache_store. cbv zeta. destruct (_ <=? _); cbn [c_cache1 c_cache2]; auto.
Qed.
Lemma cfind_in : forall l h t v, cfind l h t = Some v -> In (h, t, v) l.
Proof.
  intros l h t v H. unfold cfind in H. match type of H with context [find ?f l] => destruct (find f l) as [[[h' t'] v']|] eqn:E; [|discriminate] end. apply find_some in E as [E1 E2]. cbn [fst snd] in *.
  apply andb_true_iff in E2 as [A B]. apply beqb_eq in A, B. congruence.
Qed.
Lemma cfind_none : forall l h t v, cfind l h t = None -> ~ In (h, t, v) l.
Proof.
  intros l h t v H K. unfold cfind in H. match type of H with context [find ?f l] => destruct (find f l) eqn:E; [discriminate|] end. eapply find_none in E; [|exact K]. cbn [fst snd] in E.
  rewrite !beqb_refl in E. discriminate.
Qed.
Lemma cache_sound : forall lim ops j1 j2 t v, cache_get (cache_run lim ops) j1 j2 t = v -> v = VUndef \/ stored ops t v.
Proof.
  intros lim ops j1 j2 t v H. unfold cache_get in H. destruct (run_entries lim ops) as [H1 H2].
  destruct (cfind (c_cache1 _) _ _) as [w|] eqn:E1.
  { apply cfind_in in E1. rewrite Forall_forall in H1. apply H1 in E1 as [E1 _]. subst. auto. }
  destruct (cfind (c_cache2 _) _ _) as [w|] eqn:E2; [|auto].
  apply cfind_in in E2. rewrite Forall_forall in H2. apply H2 in E2 as [E2 _]. subst. auto.
Qed.
Lemma cache_size : forall lim ops, 0 <= lim ->
  Z.of_nat (length (c_cache1 (cache_run lim ops))) < Z.max 1 lim /\ Z.of_nat (length (c_cache2 (cache_run lim ops))) <= Z.max 1 lim.
Proof.
  intros lim ops Hl. induction ops as [|o ops IH] using rev_ind; [cbn; lia|]. rewrite run_snoc. destruct o as [j t v|]; cbn [cache_step]; [|cbn; lia].
  unfold cache_store. cbv zeta. rewrite run_limit.
  assert (N : (length (cemplace (c_cache1 (cache_run lim ops)) (token_hash j t) t v) <= S (length (c_cache1 (cache_run lim ops))))%nat).
  { unfold cemplace. destruct (cfind _ _ _); cbn [length]; lia. }
  destruct (_ <=? _) eqn:E; cbn [c_cache1 c_cache2 length]; lia.
Qed.

Definition long (t : bytes) : Prop := (10 <= length t)%nat.
Lemma hash_long : forall j j' t, long t -> token_hash j t = token_hash j' t.
Proof. intros j j' t H. unfold token_hash, long in *. replace (length t <? 10)%nat with false by (symmetry; apply Nat.ltb_ge; lia). reflexivity. Qed.
(** An entry for [t]. *)
Definition has (t : bytes) (l : list centry) : Prop := exists v, In (token_hash [] t, t, v) l.
Lemma emplace_has : forall l t v, has t (cemplace l (token_hash [] t) t v).
Proof.
  intros l t v. unfold cemplace. destruct (cfind l _ t) as [w|] eqn:E; [exists w; apply cfind_in, E|exists v; left; reflexivity].
Qed.
Lemma emplace_keeps : forall l h t v t', has t' l -> has t' (cemplace l h t v).
Proof. intros l h t v t' [w H]. exists w. unfold cemplace. destruct (cfind _ _ _); [exact H|right; exact H]. Qed.

Definition clean (l : list centry) : Prop :=
  NoDup (map (fun e => snd (fst e)) l) /\ Forall (fun e : centry => fst (fst e) = token_hash [] (snd (fst e))) l.
Lemma emplace_clean : forall l t v, clean l -> clean (cemplace l (token_hash [] t) t v).
Proof.
  intros l t v [N F]. unfold cemplace. destruct (cfind l _ t) eqn:E; [split; auto|]. split; cbn [map fst snd].
  - constructor; [|exact N]. intros K. apply in_map_iff in K as ([[h t'] w] & K1 & K2). cbn [fst snd] in K1. subst t'.
    rewrite Forall_forall in F. pose proof (F _ K2) as K3. cbn [fst snd] in K3. subst h. exact (cfind_none _ _ _ _ E K2).
  - constructor; [reflexivity|exact F].
Qed.
Lemma emplace_incl : forall l h t v S, incl (map (fun e : centry => snd (fst e)) l) S -> In t S ->
  incl (map (fun e : centry => snd (fst e)) (cemplace l h t v)) S.
Proof. intros l h t v S H K. unfold cemplace. destruct (cfind _ _ _); [exact H|]. cbn [map fst snd]. intros x [<-|X]; auto. Qed.

Lemma keeps_run : forall t S later c, long t -> Forall (fun o => match o with CStore _ t' _ => long t' /\ (t' = t \/ In t' S) | CClear => False end) later ->
  (forall l, clean l -> incl (map (fun e => snd (fst e)) l) S -> Z.of_nat (length l) < Z.max 1 (c_limit c)) ->
  ~ In t S -> 0 <= c_limit c ->
  (has t (c_cache1 c) \/ (has t (c_cache2 c) /\ clean (c_cache1 c) /\ incl (map (fun e => snd (fst e)) (c_cache1 c)) S)) ->
  let c' := fold_left cache_step later c in has t (c_cache1 c') \/ has t (c_cache2 c').
Proof.
  intros t S later. induction later as [|o later IH]; intros c Ht Hf Hs Hn Hl Hi; cbn [fold_left]; [tauto|].
  inversion_clear Hf as [|? ? Ho Hf']. destruct o as [j t' v|]; [|tauto]. destruct Ho as [Lt Ho]. cbn [cache_step].
  assert (Hlim : c_limit (cache_store c j t' v) = c_limit c) by (unfold cache_store; cbv zeta; destruct (_ <=? _); reflexivity).
  apply IH; rewrite ?Hlim; auto. unfold cache_store. rewrite (hash_long j []) by exact Lt. cbv zeta.
  set (c1 := cemplace (c_cache1 c) (token_hash [] t') t' v).
  assert (E : clean [] /\ incl (map (fun e : centry => snd (fst e)) []) S) by (split; [split; constructor|intros x []]).
  assert (H1 : has t c1 -> has t (c_cache1 (if c_limit c <=? Z.of_nat (length c1) then mkCache (c_limit c) [] c1 else mkCache (c_limit c) c1 (c_cache2 c)))
    \/ has t (c_cache2 (if c_limit c <=? Z.of_nat (length c1) then mkCache (c_limit c) [] c1 else mkCache (c_limit c) c1 (c_cache2 c))) /\
    clean (c_cache1 (if c_limit c <=? Z.of_nat (length c1) then mkCache (c_limit c) [] c1 else mkCache (c_limit c) c1 (c_cache2 c))) /\
    incl (map (fun e => snd (fst e)) (c_cache1 (if c_limit c <=? Z.of_nat (length c1) then mkCache (c_limit c) [] c1 else mkCache (c_limit c) c1 (c_cache2 c)))) S).
  { intros H. destruct (c_limit c <=? Z.of_nat (length c1)); cbn [c_cache1 c_cache2]; [right; tauto|left; exact H]. }
  destruct Hi as [Hi|(Hi & Hc & Hin)]; [apply H1, emplace_keeps, Hi|].
  destruct Ho as [->|Ho]; [apply H1, emplace_has|].
  assert (C : clean c1) by (apply emplace_clean, Hc). assert (I : incl (map (fun e => snd (fst e)) c1) S) by (apply emplace_incl; auto).
  pose proof (Hs c1 C I) as Hlen.
  assert (c1 <> []). { unfold c1, cemplace. destruct (cfind (c_cache1 c) _ t') eqn:E'; [|discriminate]. apply cfind_in in E'. destruct (c_cache1 c); [destruct E'|discriminate]. }
  destruct c1 as [|e c1'] eqn:Ec1; [tauto|]. destruct (c_limit c <=? _) eqn:El; cbn [c_cache1 c_cache2]; [|right; auto].
  cbn [length] in *. lia.
Qed.
Lemma in_tokens : forall ops j t v, In (CStore j t v) ops -> In t (tokens ops).
Proof. intros ops j t v H. unfold tokens. apply in_concat. exists [t]. split; [|left; reflexivity]. apply in_map_iff. exists (CStore j t v). auto. Qed.
Lemma cache_keeps : forall lim pre j t v later j1 j2, 0 <= lim -> ~ In CClear later ->
  Forall (fun x => (10 <= length x)%nat) (t :: tokens later) -> others t (tokens later) < Z.max 1 lim ->
  stored (pre ++ CStore j t v :: later) t (cache_get (cache_run lim (pre ++ CStore j t v :: later)) j1 j2 t).
Proof.
  intros lim pre j t v later j1 j2 Hl Hc Hf Hd. inversion_clear Hf as [|? ? Ht Hf'].
  set (S := nodup bytes_eq_dec (filter (fun x => negb (beqb x t)) (tokens later))).
  set (ops := pre ++ CStore j t v :: later).
  assert (R : cache_run lim ops = fold_left cache_step later (cache_store (cache_run lim pre) j t v)).
  { unfold ops, cache_run. rewrite fold_left_app. reflexivity. }
  assert (H : has t (c_cache1 (cache_run lim ops)) \/ has t (c_cache2 (cache_run lim ops))).
  { rewrite R.
    assert (Hlim : c_limit (cache_store (cache_run lim pre) j t v) = lim) by (unfold cache_store; cbv zeta; rewrite run_limit; destruct (_ <=? _); reflexivity).
    apply (keeps_run t S); rewrite ?Hlim; auto.
    - rewrite Forall_forall in *. intros [j' t' v'|] Ho; [|exact (Hc Ho)]. apply in_tokens in Ho as Ho'. split; [apply Hf', Ho'|].
      destruct (beqb t' t) eqn:B; [left; apply beqb_eq, B|]. right. unfold S. apply nodup_In, filter_In. rewrite B. auto.
    - intros l [N _] I. unfold others in Hd. fold S in Hd. pose proof (NoDup_incl_length N I) as K. rewrite map_length in K. eapply Z.le_lt_trans; [apply Nat2Z.inj_le, K|exact Hd].
    - unfold S. intros K. apply nodup_In, filter_In in K as [_ K]. rewrite beqb_refl in K. discriminate.
    - unfold cache_store. cbv zeta. rewrite (hash_long j []) by exact Ht. pose proof (emplace_has (c_cache1 (cache_run lim pre)) t v) as K.
      destruct (_ <=? _); cbn [c_cache1 c_cache2]; [right|left; exact K]. split; [exact K|]. split; [split; constructor|intros x []]. }
  destruct (run_entries lim ops) as [H1 H2]. rewrite Forall_forall in H1, H2. unfold cache_get.
  rewrite (hash_long j1 []), (hash_long j2 []) by exact Ht.
  destruct (cfind (c_cache1 (cache_run lim ops)) (token_hash [] t) t) as [w|] eqn:E1; [apply cfind_in in E1; apply H1 in E1; apply E1|].
  destruct (cfind (c_cache2 (cache_run lim ops)) (token_hash [] t) t) as [w|] eqn:E2; [apply cfind_in in E2; apply H2 in E2; apply E2|].
  destruct H as [[w H]|[w H]]; [destruct (cfind_none _ _ _ w E1 H)|destruct (cfind_none _ _ _ w E2 H)].
Qed.

(** *** Time *)
Lemma dyadic_floor : forall f d, dyadic f = Some d -> int_le 0 d -> dyadic_lt d (2 ^ 64) ->
  exists z, f_to_u64 f = Some z /\ 0 <= z < 2 ^ 64 /\ (forall t, t <= z <-> int_le t d) /\ (forall t, z <= t <-> dyadic_lt d (t + 1)).
Proof.
  intros f d H H1 H2. unfold int_le, dyadic_lt in *. destruct f as [s|s| |s m e]; cbn [dyadic] in H; try discriminate; injection H as <-; cbn [fst snd] in *.
  - exists 0. split; [reflexivity|]. split; [lia|]. split; intros t; cbn; lia.
  - assert (Hs : s = false). { destruct s; [|reflexivity]. exfalso. assert (0 < 2 ^ Z.max 0 e) by (apply Z.pow_pos_nonneg; lia). nia. }
    subst s. unfold f_to_u64, f_trunc_Z. destruct (Z.leb_spec 0 e) as [He|He].
    + rewrite (Z.max_r 0 e), (Z.max_l 0 (- e)) in * by lia. rewrite Z.pow_0_r in *. exists (Z.pos m * 2 ^ e).
      assert (0 < 2 ^ e) by (apply Z.pow_pos_nonneg; lia).
      replace ((0 <=? Z.pos m * 2 ^ e) && (Z.pos m * 2 ^ e <? 2 ^ 64)) with true by lia.
      split; [reflexivity|]. split; [lia|]. split; intros t; lia.
    + rewrite (Z.max_l 0 e), (Z.max_r 0 (- e)) in * by lia. rewrite Z.pow_0_r in *. set (P := 2 ^ (- e)) in *.
      assert (0 < P) by (apply Z.pow_pos_nonneg; lia). exists (Z.pos m / P).
      pose proof (Z.div_mod (Z.pos m) P ltac:(lia)) as DM. pose proof (Z.mod_pos_bound (Z.pos m) P ltac:(lia)) as MB.
      set (q := Z.pos m / P) in *. set (r := Z.pos m mod P) in *.
      assert (0 <= q < 2 ^ 64) by (split; nia). replace ((0 <=? q) && (q <? 2 ^ 64)) with true by lia.
      split; [reflexivity|]. split; [lia|]. split; intros t; nia.
Qed.
Lemma num_limit : forall L n d, num_dyadic L n = Some d -> int_le 0 d -> dyadic_lt d (2 ^ 64) ->
  exists z, num_u64 L n = Some z /\ 0 <= z < 2 ^ 64 /\ (forall t, t <= z <-> int_le t d) /\ (forall t, z <= t <-> dyadic_lt d (t + 1)).
Proof.
  intros L n d H H1 H2.
  assert (I : forall z, Some (z, 0) = Some d -> exists y, Some z = Some y /\ 0 <= y < 2 ^ 64 /\ (forall t, t <= y <-> int_le t d) /\ (forall t, y <= t <-> dyadic_lt d (t + 1))).
  { intros z K. injection K as <-. unfold int_le, dyadic_lt in *. cbn [fst snd] in *. rewrite !Z.pow_0_r in *. exists z. split; [reflexivity|].
    split; [lia|]. split; intros t; rewrite ?Z.pow_0_r; lia. }
  destruct n as [z|z|f|t [|z|z]]; cbn [num_dyadic num_u64] in *.
  - apply I, H.
  - destruct (I z H) as (y & Ey & Hy & K). injection Ey as ->. exists y. split; [|auto]. unfold u64. rewrite Z.mod_small by lia. reflexivity.
  - apply dyadic_floor; auto.
  - apply dyadic_floor; auto.
  - apply I, H.
  - destruct (I z H) as (y & Ey & Hy & K). injection Ey as ->. exists y. split; [|auto]. unfold u64. rewrite Z.mod_small by lia. reflexivity.
Qed.
Lemma time_window : forall L v t r, 0 <= t < 2 ^ 63 -> 0 <= r < 1000000000 ->
  limit_ok L (value_member v key_exp) -> limit_ok L (value_member v key_nbf) ->
  (check_jwt_time L v (t * 1000000000 + r) = Some v /\ not_after L t (value_member v key_exp) /\ not_before L t (value_member v key_nbf)) \/
  (check_jwt_time L v (t * 1000000000 + r) = Some VUndef /\ ~ (not_after L t (value_member v key_exp) /\ not_before L t (value_member v key_nbf))).
Proof.
  intros L v t r Ht Hr He Hn. unfold check_jwt_time.
  replace (Z.quot (t * 1000000000 + r) 1000000000) with t.
  2:{ rewrite Z.quot_div_nonneg by lia. rewrite Z.div_add_l by lia. rewrite (Z.div_small r) by lia. lia. }
  unfold u64. rewrite Z.mod_small by lia. cbv zeta.
  assert (N : forall x, limit_ok L x -> match x with VNum n => exists z, num_u64 L n = Some z /\ (t <= z <-> not_after L t x) /\ (z <= t <-> not_before L t x) | _ => True end).
  { intros x Hx. destruct x as [| | |n| | |]; auto. destruct Hx as (d & D1 & D2 & D3). destruct (num_limit L n d D1 D2 D3) as (z & Hz & _ & K1 & K2).
    exists z. split; [exact Hz|]. cbn [not_after not_before]. split; split.
    - intros H. exists d. split; [exact D1|]. apply K1, H.
    - intros (d' & D' & H). rewrite D1 in D'. injection D' as <-. apply K1, H.
    - intros H. exists d. split; [exact D1|]. apply K2, H.
    - intros (d' & D' & H). rewrite D1 in D'. injection D' as <-. apply K2, H. }
  apply N in He, Hn. destruct (value_member v key_exp) as [| | |n| | |] eqn:Ee.
  4:{ destruct He as (z & Hz & Ha & _). rewrite Hz. destruct (z <? t) eqn:Ez; [right; split; [reflexivity|]; intros [K _]; apply Ha in K; lia|].
      destruct (value_member v key_nbf) as [| | |m| | |]; try (left; split; [reflexivity|]; split; [apply Ha; lia|exact I]).
      destruct Hn as (y & Hy & _ & Hb). rewrite Hy. destruct (t <? y) eqn:Ey.
      - right. split; [reflexivity|]. intros [_ K]. apply Hb in K. lia.
      - left. split; [reflexivity|]. split; [apply Ha; lia|apply Hb; lia]. }
  all: destruct (value_member v key_nbf) as [| | |m| | |]; try (left; split; [reflexivity|]; split; exact I).
  all: destruct Hn as (y & Hy & _ & Hb); rewrite Hy; destruct (t <? y) eqn:Ey.
  all: try (right; split; [reflexivity|]; intros [_ K]; apply Hb in K; lia).
  all: left; split; [reflexivity|]; split; [exact I|apply Hb; lia].
Qed.
