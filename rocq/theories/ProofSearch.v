(** Lemmas about searching, filtering, mapping and the walk through two
    sequences. *)
From Coq Require Import Sorted ZifyBool ZifyNat.
From Verif Require Import Base ModelKeyed SpecKeyed ProofKeyed ModelValue ModelObject SpecObject ProofObject
  ModelArray SpecArray ProofArray ModelEq SpecEq ProofEq ModelSearch SpecSearch.
Local Open Scope Z_scope.

Lemma vitem_nth : forall v i, vitem v i = nth i (members_of v) ([], VUndef).
Proof. reflexivity. Qed.

(** *** indexOf *)
Lemma index_loop : forall eqv v x k i, (i + k = vsize v)%nat ->
  (exists j, index_of_loop eqv v x i k = Z.of_nat j /\ (i <= j < vsize v)%nat /\
     eqv (snd (vitem v j)) x = true /\ forall j', (i <= j' < j)%nat -> eqv (snd (vitem v j')) x = false) \/
  (index_of_loop eqv v x i k = npos /\ forall j, (i <= j < vsize v)%nat -> eqv (snd (vitem v j)) x = false).
Proof.
  intros eqv v x. induction k as [|k IH]; intros i H; cbn [index_of_loop].
  - right. split; auto. intros; lia.
  - destruct (eqv (snd (vitem v i)) x) eqn:E.
    + left. exists i. split; [auto|]. split; [lia|]. split; auto. intros; lia.
    + destruct (IH (S i)) as [(j & E1 & H1 & H2 & H3)|(E1 & H1)]; [lia| |].
      * left. exists j. split; auto. split; [lia|]. split; auto. intros j' Hj.
        destruct (Nat.eq_dec j' i); [subst; auto|apply H3; lia].
      * right. split; auto. intros j Hj. destruct (Nat.eq_dec j i); [subst; auto|apply H1; lia].
Qed.

Lemma index_spec : forall eqv v x start,
  (exists j, index_of eqv v x start = Z.of_nat j /\ (start <= j < vsize v)%nat /\
     eqv (snd (vitem v j)) x = true /\ forall j', (start <= j' < j)%nat -> eqv (snd (vitem v j')) x = false) \/
  (index_of eqv v x start = npos /\ forall j, (start <= j < vsize v)%nat -> eqv (snd (vitem v j)) x = false).
Proof.
  intros eqv v x start. unfold index_of. destruct (Nat.le_gt_cases start (vsize v)).
  - apply index_loop. lia.
  - right. replace (vsize v - start)%nat with 0%nat by lia. split; auto. intros; lia.
Qed.

Lemma last_index_loop : forall eqv v x i,
  (exists j, last_index_of_loop eqv v x i = Z.of_nat j /\ (j < i)%nat /\
     eqv (snd (vitem v j)) x = true /\ forall j', (j < j' < i)%nat -> eqv (snd (vitem v j')) x = false) \/
  (last_index_of_loop eqv v x i = npos /\ forall j, (j < i)%nat -> eqv (snd (vitem v j)) x = false).
Proof.
  intros eqv v x. induction i as [|i IH]; cbn [last_index_of_loop].
  - right. split; auto. intros; lia.
  - destruct (eqv (snd (vitem v i)) x) eqn:E.
    + left. exists i. split; auto. split; [lia|]. split; auto. intros; lia.
    + destruct IH as [(j & E1 & H1 & H2 & H3)|(E1 & H1)].
      * left. exists j. split; auto. split; [lia|]. split; auto. intros j' Hj.
        destruct (Nat.eq_dec j' i); [subst; auto|apply H3; lia].
      * right. split; auto. intros j Hj. destruct (Nat.eq_dec j i); [subst; auto|apply H1; lia].
Qed.

Lemma proper_item : forall L v i, proper L v -> (i < vsize v)%nat -> proper L (snd (vitem v i)).
Proof.
  intros L v i H Hi. rewrite vitem_nth. unfold vsize in Hi.
  assert (F : Forall (fun m => proper L (snd m)) (members_of v)) by (inversion H; subst; cbn; auto).
  rewrite Forall_forall in F. apply F. apply nth_In. auto.
Qed.

Lemma eq_on_items : forall L eqv v x i, (forall a b, proper L a -> proper L b -> op_eq L a b (eqv a b)) ->
  proper L v -> proper L x -> (i < vsize v)%nat -> eqv (snd (vitem v i)) x = veq L (snd (vitem v i)) x.
Proof.
  intros L eqv v x i He Hv Hx Hi. pose proof (proper_item _ _ _ Hv Hi) as Hp.
  apply (proj2 (op_eq_veq L _ _ Hp Hx)). auto.
Qed.

Lemma index_of_spec : forall L eqv v x start, (forall a b, proper L a -> proper L b -> op_eq L a b (eqv a b)) ->
  proper L v -> proper L x ->
  (exists j, index_of eqv v x start = Z.of_nat j /\ (start <= j < vsize v)%nat /\
     veq L (snd (vitem v j)) x = true /\ forall j', (start <= j' < j)%nat -> veq L (snd (vitem v j')) x = false) \/
  (index_of eqv v x start = npos /\ forall j, (start <= j < vsize v)%nat -> veq L (snd (vitem v j)) x = false).
Proof.
  intros L eqv v x start He Hv Hx.
  destruct (index_spec eqv v x start) as [(j & E & H1 & H2 & H3)|(E & H1)]; [left; exists j|right].
  - split; auto. split; auto. rewrite <- (eq_on_items L eqv) by (auto; lia). split; auto.
    intros j' Hj. rewrite <- (eq_on_items L eqv) by (auto; lia). auto.
  - split; auto. intros j Hj. rewrite <- (eq_on_items L eqv) by (auto; lia). auto.
Qed.

Lemma last_index_of_spec : forall L eqv v x start, (forall a b, proper L a -> proper L b -> op_eq L a b (eqv a b)) ->
  proper L v -> proper L x ->
  (exists j, last_index_of eqv v x start = Z.of_nat j /\ (j < start)%nat /\ (j < vsize v)%nat /\
     veq L (snd (vitem v j)) x = true /\
     forall j', (j < j' < start)%nat -> (j' < vsize v)%nat -> veq L (snd (vitem v j')) x = false) \/
  (last_index_of eqv v x start = npos /\
     forall j, (j < start)%nat -> (j < vsize v)%nat -> veq L (snd (vitem v j)) x = false).
Proof.
  intros L eqv v x start He Hv Hx. unfold last_index_of.
  destruct (last_index_loop eqv v x (Nat.min start (vsize v))) as [(j & E & H1 & H2 & H3)|(E & H1)]; [left; exists j|right].
  - split; auto. split; [lia|]. split; [lia|]. rewrite <- (eq_on_items L eqv) by (auto; lia). split; auto.
    intros j' Hj Hs. rewrite <- (eq_on_items L eqv) by (auto; lia). apply H3. lia.
  - split; auto. intros j Hj Hs. rewrite <- (eq_on_items L eqv) by (auto; lia). apply H1. lia.
Qed.

(** *** Predicates *)
Lemma calls_app : forall T C A (fn : T -> C -> T * A) st c1 st1 a1 c2 st2 a2,
  calls fn st c1 st1 a1 -> calls fn st1 c2 st2 a2 -> calls fn st (c1 ++ c2) st2 (a1 ++ a2).
Proof. intros T C A fn st c1 st1 a1 c2 st2 a2 H. induction H; cbn; auto. intros. econstructor; eauto. Qed.

Lemma calls_length : forall T C A (fn : T -> C -> T * A) st cs st' l, calls fn st cs st' l -> length cs = length l.
Proof. intros T C A fn st cs st' l H. induction H; cbn; auto. Qed.

(** The numbered items from a position on. *)
Definition from (v : value) (x : nat) : list (member * nat) := skipn x (numbered (members_of v)).

Lemma numbered_from : forall (l : list member) s x, (x < length l)%nat ->
  skipn x (combine l (seq s (length l))) =
    (nth x l ([], VUndef), (s + x)%nat) :: skipn (S x) (combine l (seq s (length l))).
Proof.
  induction l as [|m l IH]; intros s x H; cbn [length] in *; [lia|].
  cbn [seq combine]. destruct x as [|x]; [cbn; rewrite Nat.add_0_r; reflexivity|].
  cbn [skipn nth]. rewrite IH by lia. replace (s + S x)%nat with (S s + x)%nat by lia. reflexivity.
Qed.

Lemma from_cons : forall v x, (x < vsize v)%nat -> from v x = (vitem v x, x) :: from v (S x).
Proof. intros v x H. unfold from, numbered. rewrite numbered_from by auto. reflexivity. Qed.

Lemma numbered_length : forall l, length (numbered l) = length l.
Proof. intros l. unfold numbered. rewrite combine_length, seq_length. lia. Qed.

Lemma from_end : forall v, from v (vsize v) = [].
Proof. intros v. unfold from. apply skipn_all2. rewrite numbered_length. auto. Qed.

Lemma find_loop_calls : forall T (fn : T -> member -> nat -> T * bool) v k x st st' r, (x + k = vsize v)%nat ->
  find_index_loop fn v st x k = (st', r) ->
  (r = -1 /\ calls (with_index fn) st (from v x) st' (repeat false k)) \/
  (exists j, (j < k)%nat /\ r = Z.of_nat (x + j) /\
     calls (with_index fn) st (firstn (S j) (from v x)) st' (repeat false j ++ [true])).
Proof.
  intros T fn v. induction k as [|k IH]; intros x st st' r H E; cbn [find_index_loop] in E.
  - injection E as <- <-. left. replace x with (vsize v) by lia. rewrite from_end. split; auto. constructor.
  - destruct (fn st (vitem v x) x) as [st1 b] eqn:Ef. rewrite from_cons by lia. destruct b.
    + injection E as <- <-. right. exists 0%nat. split; [lia|]. split; [f_equal; lia|].
      cbn. econstructor; [exact Ef|constructor].
    + destruct (IH (S x) st1 st' r) as [(-> & C)|(j & Hj & -> & C)]; [lia|auto| |].
      * left. split; auto. cbn [repeat]. econstructor; [exact Ef|auto].
      * right. exists (S j). split; [lia|]. split; [f_equal; lia|].
        change (firstn (S (S j)) ((vitem v x, x) :: from v (S x))) with ((vitem v x, x) :: firstn (S j) (from v (S x))).
        cbn [repeat app]. econstructor; [exact Ef|auto].
Qed.

Lemma find_index_calls : forall T (fn : T -> member -> nat -> T * bool) st v st' r, find_index fn st v = (st', r) ->
  (r = -1 /\ calls (with_index fn) st (numbered (members_of v)) st' (repeat false (vsize v))) \/
  (exists i, (i < vsize v)%nat /\ r = Z.of_nat i /\
     calls (with_index fn) st (firstn (S i) (numbered (members_of v))) st' (repeat false i ++ [true])).
Proof.
  intros T fn st v st' r E. apply find_loop_calls in E; [|lia]. destruct E as [E|(j & Hj & E & C)]; [left; auto|right].
  exists j. auto.
Qed.

Lemma firstn_snoc : forall X (c : X) t x l, skipn x l = c :: t -> firstn (S x) l = firstn x l ++ [c].
Proof.
  intros X c t. induction x as [|x IH]; intros [|y l] E; cbn [skipn] in E; try discriminate.
  - injection E as -> ->. reflexivity.
  - change (firstn (S (S x)) (y :: l)) with (y :: firstn (S x) l). rewrite IH by auto. reflexivity.
Qed.

(** The numbered items before a position, the last first. *)
Lemma rev_first : forall v x, (x < vsize v)%nat ->
  rev (firstn (S x) (numbered (members_of v))) = (vitem v x, x) :: rev (firstn x (numbered (members_of v))).
Proof.
  intros v x H. pose proof (from_cons v x H) as E. unfold from in E.
  rewrite (firstn_snoc _ _ _ _ _ E), rev_app_distr. reflexivity.
Qed.

Lemma rfind_loop_calls : forall T (fn : T -> member -> nat -> T * bool) v x st st' r, (x <= vsize v)%nat ->
  rfind_index_loop fn v st x = (st', r) ->
  (r = -1 /\ calls (with_index fn) st (rev (firstn x (numbered (members_of v)))) st' (repeat false x)) \/
  (exists j, (j < x)%nat /\ r = Z.of_nat (x - 1 - j) /\
     calls (with_index fn) st (firstn (S j) (rev (firstn x (numbered (members_of v))))) st' (repeat false j ++ [true])).
Proof.
  intros T fn v. induction x as [|x IH]; intros st st' r H E; cbn [rfind_index_loop] in E.
  - injection E as <- <-. left. split; auto. constructor.
  - destruct (fn st (vitem v x) x) as [st1 b] eqn:Ef. rewrite rev_first by lia. destruct b.
    + injection E as <- <-. right. exists 0%nat. split; [lia|]. split; [f_equal; lia|].
      cbn [firstn repeat app]. econstructor; [exact Ef|constructor].
    + destruct (IH st1 st' r) as [(-> & C)|(j & Hj & -> & C)]; [lia|auto| |].
      * left. split; auto. cbn [repeat]. econstructor; [exact Ef|auto].
      * right. exists (S j). split; [lia|]. split; [f_equal; lia|].
        set (t := rev (firstn x (numbered (members_of v)))) in *.
        change (firstn (S (S j)) ((vitem v x, x) :: t)) with ((vitem v x, x) :: firstn (S j) t).
        cbn [repeat app]. econstructor; [exact Ef|auto].
Qed.

Lemma rfind_index_calls : forall T (fn : T -> member -> nat -> T * bool) st v st' r, rfind_index fn st v = (st', r) ->
  (r = -1 /\ calls (with_index fn) st (rev (numbered (members_of v))) st' (repeat false (vsize v))) \/
  (exists j, (j < vsize v)%nat /\ r = Z.of_nat (vsize v - 1 - j) /\
     calls (with_index fn) st (firstn (S j) (rev (numbered (members_of v)))) st' (repeat false j ++ [true])).
Proof.
  intros T fn st v st' r E. apply rfind_loop_calls in E; [|lia].
  replace (firstn (vsize v) (numbered (members_of v))) with (numbered (members_of v)) in E; auto.
  symmetry. apply firstn_all2. rewrite numbered_length. auto.
Qed.

Lemma filter_loop_calls : forall T (fn : T -> member -> nat -> T * bool) v k x st st' buf out, (x + k = vsize v)%nat ->
  vfilter_loop fn v st buf x k = (st', out) ->
  exists bs, calls (with_index fn) st (from v x) st' bs /\ out = buf ++ chosen (skipn x (members_of v)) bs.
Proof.
  intros T fn v. induction k as [|k IH]; intros x st st' buf out H E; cbn [vfilter_loop] in E.
  - injection E as <- <-. exists []. replace x with (vsize v) by lia. rewrite from_end. split; [constructor|].
    unfold chosen. unfold vsize. rewrite skipn_all. cbn. rewrite app_nil_r. auto.
  - destruct (fn st (vitem v x) x) as [st1 b] eqn:Ef.
    destruct (IH (S x) st1 st' (if b then buf ++ [vitem v x] else buf) out) as (bs & C & ->); [lia|exact E|]. exists (b :: bs). split.
    + rewrite from_cons by lia. econstructor; [exact Ef|auto].
    + assert (skipn x (members_of v) = vitem v x :: skipn (S x) (members_of v)) as ->.
      { rewrite vitem_nth. assert (x < length (members_of v))%nat by (unfold vsize in H; lia). clear - H0. revert x H0.
        induction (members_of v) as [|m l IH]; cbn; intros x H; [lia|]. destruct x; auto. apply IH. lia. }
      unfold chosen. cbn [combine filter snd]. destruct b; cbn [map fst]; auto. rewrite <- app_assoc. reflexivity.
Qed.

Lemma chosen_in : forall l bs m, In m (chosen l bs) -> In m l.
Proof.
  induction l as [|x l IH]; intros [|b bs] m; unfold chosen; cbn; try tauto. destruct b; cbn.
  - intros [->|H]; [auto|]. right. apply (IH bs). exact H.
  - intros H. right. apply (IH bs). exact H.
Qed.

Lemma filter_increasing : forall (f : member -> bool) l, keys_increasing l -> keys_increasing (filter f l).
Proof.
  intros f. induction l as [|m l IH]; intros H; cbn [filter]; auto. apply inc_cons in H as [H2 H1].
  destruct (f m); auto. apply inc_cons. split; [auto|].
  intros k' Hk. apply H1. apply in_map_iff in Hk as (y & <- & Hy). apply filter_In in Hy as [Hy _]. apply in_map. auto.
Qed.

Lemma chosen_increasing : forall l bs, keys_increasing l -> keys_increasing (chosen l bs).
Proof.
  induction l as [|m l IH]; intros [|b bs] H; unfold chosen; cbn; try (constructor; fail).
  apply inc_cons in H as [H2 H1]. destruct b; [|apply (IH bs); auto]. cbn [map fst]. apply inc_cons. split; [apply (IH bs); auto|].
  intros k' Hk. apply H1. apply in_map_iff in Hk as (y & <- & Hy). apply in_map. apply (chosen_in l bs). exact Hy.
Qed.

Lemma build_defined : forall l, keys_increasing l -> build_object is_undef l = defined_only l.
Proof.
  intros l H. destruct (build_object_spec is_undef l) as [S1 S2].
  pose proof (filter_increasing (fun m => negb (is_undef (snd m))) l H) as H'.
  apply increasing_ext; auto. intros k. rewrite S2. symmetry. apply binding_last, keys_increasing_nodup. exact H'.
Qed.

Lemma filter_calls : forall T (fn : T -> member -> nat -> T * bool) st v st' out,
  (forall d l, v = VObj d l -> keys_increasing l) -> vfilter fn st v = (st', out) ->
  exists bs, calls (with_index fn) st (numbered (members_of v)) st' bs /\
    out = match v with
          | VObj _ l => VObj false (defined_only (chosen l bs))
          | _ => VArr (defined_only (chosen (members_of v) bs))
          end.
Proof.
  intros T fn st v st' out Hk E. unfold vfilter in E.
  destruct (vfilter_loop fn v st [] 0 (vsize v)) as [st1 buf] eqn:Ef. injection E as <- <-.
  apply filter_loop_calls in Ef; [|lia]. destruct Ef as (bs & C & ->). exists bs. split; [exact C|].
  cbn [skipn app]. destruct v; auto. cbn [members_of]. rewrite build_defined; auto. apply chosen_increasing. eapply Hk; eauto.
Qed.

(** *** Predicates without state *)
Lemma pure_calls : forall p cs st bs st', calls (with_index (pure p)) st cs st' bs ->
  bs = map (fun c => p (fst c) (snd c)) cs.
Proof. intros p cs st bs st' H. induction H; cbn; auto. unfold with_index, pure in H. injection H as _ <-. f_equal; auto. Qed.

Lemma nth_map_numbered : forall (p : member -> nat -> bool) v i, (i < vsize v)%nat ->
  nth_error (map (fun c => p (fst c) (snd c)) (numbered (members_of v))) i = Some (p (vitem v i) i).
Proof.
  intros p v i H. pose proof (from_cons v i H) as E. unfold from in E.
  rewrite <- (firstn_skipn i (numbered (members_of v))), E, map_app.
  assert (L : length (firstn i (numbered (members_of v))) = i) by (rewrite firstn_length, numbered_length; unfold vsize in H; lia).
  rewrite nth_error_app2; rewrite map_length, L; auto. rewrite Nat.sub_diag. reflexivity.
Qed.

Lemma nth_repeat_false : forall n i, (i < n)%nat -> nth_error (repeat false n) i = Some false.
Proof. induction n; intros [|i] H; cbn; auto; try lia. apply IHn. lia. Qed.

Lemma find_pure : forall p v,
  (exists i, snd (find_index (pure p) tt v) = Z.of_nat i /\ (i < vsize v)%nat /\ p (vitem v i) i = true /\
     forall j, (j < i)%nat -> p (vitem v j) j = false) \/
  (snd (find_index (pure p) tt v) = -1 /\ forall j, (j < vsize v)%nat -> p (vitem v j) j = false).
Proof.
  intros p v. destruct (find_index (pure p) tt v) as [st' r] eqn:E.
  destruct (find_index_calls _ _ _ _ _ _ E) as [(-> & C)|(i & Hi & -> & C)]; apply pure_calls in C; cbn [snd].
  - right. split; auto. intros j Hj. pose proof (nth_map_numbered p v j Hj) as Hn. rewrite <- C, nth_repeat_false in Hn by auto.
    congruence.
  - left. exists i. split; auto. split; auto.
    assert (Hn : forall j, (j <= i)%nat -> nth_error (repeat false i ++ [true]) j = Some (p (vitem v j) j)).
    { intros j Hj. rewrite <- nth_map_numbered by lia. rewrite C, <- firstn_map, nth_error_firstn'.
      destruct (Nat.ltb_spec j (S i)); [reflexivity|lia]. }
    split.
    + specialize (Hn i ltac:(lia)). rewrite nth_error_app2 in Hn; rewrite repeat_length in *; auto. rewrite Nat.sub_diag in Hn.
      cbn in Hn. congruence.
    + intros j Hj. specialize (Hn j ltac:(lia)). rewrite nth_error_app1 in Hn by (rewrite repeat_length; auto).
      rewrite nth_repeat_false in Hn by auto. congruence.
Qed.

Lemma rfind_loop_pure : forall p v x, (x <= vsize v)%nat ->
  (exists i, snd (rfind_index_loop (pure p) v tt x) = Z.of_nat i /\ (i < x)%nat /\ p (vitem v i) i = true /\
     forall j, (i < j < x)%nat -> p (vitem v j) j = false) \/
  (snd (rfind_index_loop (pure p) v tt x) = -1 /\ forall j, (j < x)%nat -> p (vitem v j) j = false).
Proof.
  intros p v. induction x as [|x IH]; intros H; cbn [rfind_index_loop].
  - right. split; auto. intros; lia.
  - unfold pure at 1 3. destruct (p (vitem v x) x) eqn:E.
    + left. exists x. split; auto. split; [lia|]. split; auto. intros; lia.
    + destruct IH as [(i & E1 & H1 & H2 & H3)|(E1 & H1)]; [lia| |].
      * left. exists i. split; auto. split; [lia|]. split; auto. intros j Hj. destruct (Nat.eq_dec j x); [subst; auto|apply H3; lia].
      * right. split; auto. intros j Hj. destruct (Nat.eq_dec j x); [subst; auto|apply H1; lia].
Qed.

Lemma rfind_pure : forall p v,
  (exists i, snd (rfind_index (pure p) tt v) = Z.of_nat i /\ (i < vsize v)%nat /\ p (vitem v i) i = true /\
     forall j, (i < j < vsize v)%nat -> p (vitem v j) j = false) \/
  (snd (rfind_index (pure p) tt v) = -1 /\ forall j, (j < vsize v)%nat -> p (vitem v j) j = false).
Proof. intros p v. apply rfind_loop_pure. lia. Qed.

Lemma find_value : forall T (fn : T -> member -> nat -> T * bool) st v st' m, vfind fn st v = (st', m) ->
  (m = ([], VUndef) /\ calls (with_index fn) st (numbered (members_of v)) st' (repeat false (vsize v))) \/
  (exists i, nth_error (members_of v) i = Some m /\
     calls (with_index fn) st (firstn (S i) (numbered (members_of v))) st' (repeat false i ++ [true])).
Proof.
  intros T fn st v st' m E. unfold vfind in E. destruct (find_index fn st v) as [st1 f] eqn:Ef. injection E as <- <-.
  apply find_index_calls in Ef. destruct Ef as [(-> & C)|(i & Hi & -> & C)]; [left; auto|right].
  exists i. split; auto. unfold item_or_undefined. destruct (Z.eqb_spec (Z.of_nat i) (-1)); [lia|]. rewrite Nat2Z.id.
  apply nth_error_nth'. exact Hi.
Qed.

Lemma rfind_value : forall T (fn : T -> member -> nat -> T * bool) st v st' m, vrfind fn st v = (st', m) ->
  (m = ([], VUndef) /\ calls (with_index fn) st (rev (numbered (members_of v))) st' (repeat false (vsize v))) \/
  (exists j, nth_error (rev (members_of v)) j = Some m /\
     calls (with_index fn) st (firstn (S j) (rev (numbered (members_of v)))) st' (repeat false j ++ [true])).
Proof.
  intros T fn st v st' m E. unfold vrfind in E. destruct (rfind_index fn st v) as [st1 f] eqn:Ef. injection E as <- <-.
  apply rfind_index_calls in Ef. destruct Ef as [(-> & C)|(j & Hj & -> & C)]; [left; auto|right].
  exists j. split; auto. unfold item_or_undefined. destruct (Z.eqb_spec (Z.of_nat (vsize v - 1 - j)) (-1)); [lia|]. rewrite Nat2Z.id.
  unfold vsize in *. rewrite (nth_error_nth' _ ([], VUndef)) by (rewrite rev_length; auto). rewrite rev_nth by auto.
  rewrite vitem_nth. do 2 f_equal. lia.
Qed.

(** *** Mapping *)
Lemma arr_of_get : forall v i, (i < vsize v)%nat -> arr_get (arr_of v) i = Some (vitem v i).
Proof. intros v i H. unfold arr_get, arr_of. cbn [a_off a_base]. apply Nat.ltb_lt in H. rewrite H. reflexivity. Qed.

Lemma skip_items : forall v x, (x < vsize v)%nat -> skipn x (members_of v) = vitem v x :: skipn (S x) (members_of v).
Proof.
  intros v x H. rewrite vitem_nth. unfold vsize in H. revert x H.
  induction (members_of v) as [|m l IH]; cbn; intros x H; [lia|]. destruct x; auto. apply IH. lia.
Qed.

Lemma arr_map_loop_calls : forall T (fn : T -> member -> T * handle) v k i st out, (i + k = vsize v)%nat ->
  exists st' hs, arr_map_loop fn (arr_of v) st out i k =
      Some (st', arr_add_set out (map (fun h => (handle_key h, snd h)) hs)) /\
    calls fn st (skipn i (members_of v)) st' hs.
Proof.
  intros T fn v. induction k as [|k IH]; intros i st out H; cbn [arr_map_loop].
  - exists st, []. split; auto. replace i with (length (members_of v)) by (unfold vsize in H; lia). rewrite skipn_all. constructor.
  - rewrite arr_of_get by lia. rewrite skip_items by lia. destruct (fn st (vitem v i)) as [st1 h] eqn:Ef.
    destruct (IH (S i) st1 (arr_push out (handle_key h, snd h))) as (st' & hs & E & C); [lia|].
    exists st', (h :: hs). split; [exact E|]. econstructor; eauto.
Qed.

Lemma arr_new_commit : forall l, arr_commit (arr_add_set arr_new l) = VArr (defined_only l).
Proof.
  intros l. rewrite add_set_spec. unfold arr_commit, arr_size, arr_dirty, arr_new, vsize. cbn [a_off a_chg a_base members_of length app].
  destruct l; reflexivity.
Qed.

Lemma map_array_calls : forall T (fn : T -> member -> T * handle) st v,
  exists st' hs, calls fn st (members_of v) st' hs /\
    map_array fn st v = Some (st', VArr (defined_only (map (fun h => (handle_key h, snd h)) hs))).
Proof.
  intros T fn st v. destruct (arr_map_loop_calls T fn v (vsize v) 0 st arr_new) as (st' & hs & E & C); [lia|].
  exists st', hs. split; [exact C|]. unfold map_array, arr_map. unfold arr_size at 1. cbn [arr_of a_off a_chg length].
  rewrite Nat.add_0_r. change (mkArr v (vsize v) []) with (arr_of v). rewrite E, arr_new_commit. reflexivity.
Qed.

Lemma obj_map_loop_calls : forall T (fn : T -> member -> T * handle) l st out,
  exists st' hs, calls fn st l st' hs /\ obj_map_loop fn l st out = (st', fold_left obj_set (named l hs) out).
Proof.
  intros T fn. induction l as [|m l IH]; intros st out; cbn [obj_map_loop].
  - exists st, []. split; [constructor|reflexivity].
  - destruct (fn st m) as [st1 h] eqn:Ef.
    destruct (IH st1 (obj_set out (match fst h with Some k => k | None => fst m end, snd h))) as (st' & hs & C & E).
    exists st', (h :: hs). split; [econstructor; eauto|]. rewrite E. reflexivity.
Qed.

Lemma iterate_new : forall v, snd (obj_iterate (obj_new v)) = members_of v.
Proof. intros v. unfold obj_iterate, obj_new. cbn. reflexivity. Qed.

Lemma set_list_commit : forall l, exists out, snd (obj_commit (fold_left obj_set l (obj_new empty_object))) = VObj false out /\
  keys_increasing out /\ forall k x, In (k, x) out <-> last_binding k l = Some x /\ is_undef x = false.
Proof.
  intros l. pose proof (set_all_inv l _ _ (new_inv _ empty_ok)) as Hi.
  pose proof (commit_content _ _ Hi) as Hc. unfold committed, spec_add in Hc. cbn [s_changes s_base app] in Hc.
  destruct l as [|m l].
  - exists []. split; [exact Hc|]. split; [constructor|]. cbn. intuition congruence.
  - destruct Hc as (out & E & K & C). exists out. split; [exact E|]. split; auto. intros k x. rewrite C.
    unfold spec_get. cbn [s_changes s_base obj_members empty_object is_diff binding].
    destruct (last_binding k (m :: l)); intuition congruence.
Qed.

Lemma map_object_calls : forall T (fn : T -> member -> T * handle) st v,
  exists st' hs out, calls fn st (members_of v) st' hs /\ map_object fn st v = Some (st', VObj false out) /\
    keys_increasing out /\
    forall k x, In (k, x) out <-> last_binding k (named (members_of v) hs) = Some x /\ is_undef x = false.
Proof.
  intros T fn st v. destruct (obj_map_loop_calls T fn (members_of v) st (obj_new empty_object)) as (st' & hs & C & E).
  destruct (set_list_commit (named (members_of v) hs)) as (out & Eo & K & I).
  exists st', hs, out. split; auto. split; auto. unfold map_object, obj_map.
  pose proof (iterate_new v) as Hn. destruct (obj_iterate (obj_new v)) as [o1 items]. cbn [snd] in Hn. subst items.
  rewrite E, Eo. reflexivity.
Qed.

(** When no member is renamed the result is the mapped list. *)
Lemma named_keys : forall l hs, length l = length hs -> (forall h m, In (m, h) (combine l hs) -> fst h = None \/ fst h = Some (fst m)) ->
  map fst (named l hs) = map fst l.
Proof.
  induction l as [|m l IH]; intros [|h hs] E H; cbn in *; try discriminate; auto.
  f_equal.
  - destruct (H h m (or_introl eq_refl)) as [-> | ->]; auto.
  - apply IH; [lia|]. intros h' m' Hin. apply H. auto.
Qed.

Lemma increasing_in_ext : forall (l1 l2 : list member), keys_increasing l1 -> keys_increasing l2 ->
  (forall k x, In (k, x) l1 <-> In (k, x) l2) -> l1 = l2.
Proof.
  intros l1 l2 H1 H2 E. apply increasing_ext; auto. intros k.
  pose proof (keys_increasing_nodup _ H1) as N1. pose proof (keys_increasing_nodup _ H2) as N2.
  destruct (binding k l1) as [x|] eqn:B1.
  - apply binding_in in B1. apply E in B1. symmetry. apply in_binding; auto.
  - destruct (binding k l2) as [x|] eqn:B2; auto. apply binding_in in B2. apply E in B2. apply (in_binding _ _ _ N1) in B2. congruence.
Qed.

Lemma map_object_same_keys : forall T (fn : T -> member -> T * handle) st v st' hs, keys_increasing (members_of v) ->
  calls fn st (members_of v) st' hs ->
  (forall h m, In (m, h) (combine (members_of v) hs) -> fst h = None \/ fst h = Some (fst m)) ->
  map_object fn st v = Some (st', VObj false (defined_only (named (members_of v) hs))).
Proof.
  intros T fn st v st' hs Hk C Hn. destruct (map_object_calls T fn st v) as (st1 & hs1 & out & C1 & E & K & I).
  assert (st1 = st' /\ hs1 = hs) as [-> ->].
  { clear - C C1. revert st1 hs1 C1. induction C; intros st1 hs1 C1; inversion C1; subst; auto.
    rewrite H in H3. injection H3 as <- <-. destruct (IHC _ _ H6) as [-> ->]. auto. }
  rewrite E. do 2 f_equal. f_equal.
  assert (Hi : keys_increasing (named (members_of v) hs)).
  { unfold keys_increasing. rewrite named_keys; auto. eapply calls_length; eauto. }
  apply increasing_in_ext; auto; [apply filter_increasing; auto|].
  intros k x. rewrite I. unfold defined_only. rewrite filter_In. cbn [snd].
  rewrite <- binding_last by (apply keys_increasing_nodup; auto).
  split; intros [H1 H2].
  - split; [apply binding_in; auto|rewrite H2; auto].
  - split; [apply in_binding; auto; apply keys_increasing_nodup; auto|apply negb_true_iff; auto].
Qed.

Lemma map_array_both : forall T (fn : T -> member -> T * handle) st v,
  exists st' hs, calls fn st (members_of v) st' hs /\
    let out := Some (st', VArr (defined_only (map (fun h => (handle_key h, snd h)) hs))) in
    vmap_to fn st v ToArray = out /\ (forall l, v = VArr l -> vmap fn st v = out).
Proof.
  intros T fn st v. destruct (map_array_calls T fn st v) as (st' & hs & C & E). exists st', hs. split; auto.
  split; [exact E|]. intros l ->. exact E.
Qed.

Lemma map_object_both : forall T (fn : T -> member -> T * handle) st v,
  exists st' hs out, calls fn st (members_of v) st' hs /\
    vmap_to fn st v ToObject = Some (st', VObj false out) /\
    (forall d l, v = VObj d l -> vmap fn st v = Some (st', VObj false out)) /\
    keys_increasing out /\
    forall k x, In (k, x) out <-> last_binding k (named (members_of v) hs) = Some x /\ is_undef x = false.
Proof.
  intros T fn st v. destruct (map_object_calls T fn st v) as (st' & hs & out & C & E & K & I). exists st', hs, out. split; auto.
  split; [exact E|]. split; auto. intros d l ->. exact E.
Qed.

(** *** Reducing *)
Lemma reduce_loop_fold : forall T (fn : T -> member -> T) v k i acc, (i + k = vsize v)%nat ->
  reduce_loop fn (arr_of v) acc i k = Some (fold_left fn (skipn i (members_of v)) acc).
Proof.
  intros T fn v. induction k as [|k IH]; intros i acc H; cbn [reduce_loop].
  - replace i with (length (members_of v)) by (unfold vsize in H; lia). rewrite skipn_all. reflexivity.
  - rewrite arr_of_get by lia. rewrite skip_items by lia. rewrite IH by lia. reflexivity.
Qed.

Lemma reduce_fold : forall T (fn : T -> member -> T) v init, vreduce fn v init = Some (fold_left fn (members_of v) init).
Proof.
  intros. unfold vreduce. unfold arr_size. cbn [arr_of a_off a_chg length]. rewrite Nat.add_0_r.
  change (mkArr v (vsize v) []) with (arr_of v). rewrite reduce_loop_fold by lia. reflexivity.
Qed.

(** *** The walk *)
Section Walk.
Context {T A B : Type}.
Variable fn : T -> option A -> option B -> T * Z.
Notation rfn := (recording fn).
Notation log := (list (option A * option B * Z)).

Lemma walk_left_log : forall (l : list A) st (lg : log), exists lg',
  walk_left rfn l (st, lg) = (walk_left fn l st, lg ++ lg') /\
  flat_map settles_left lg' = l /\ flat_map settles_right lg' = [] /\
  Forall (fun c => snd (fst c) = None /\ exists x, fst (fst c) = Some x) lg' /\ length lg' = length l.
Proof.
  induction l as [|x l IH]; intros st lg.
  - exists []. cbn. rewrite app_nil_r. repeat split; auto.
  - unfold walk_left in *. cbn [fold_left]. unfold recording at 2. cbn [fst snd]. destruct (fn st (Some x) None) as [st1 z] eqn:E.
    cbn [fst]. destruct (IH st1 (lg ++ [(Some x, None, z)])) as (lg' & E1 & H1 & H2 & H3 & H4).
    exists ((Some x, None, z) :: lg'). rewrite E1, <- app_assoc. cbn. rewrite H1, H2, H4. repeat split; auto.
    constructor; auto. cbn. eauto.
Qed.

Lemma walk_right_log : forall (l : list B) st (lg : log), exists lg',
  walk_right rfn l (st, lg) = (walk_right fn l st, lg ++ lg') /\
  flat_map settles_left lg' = [] /\ flat_map settles_right lg' = l /\
  Forall (fun c => fst (fst c) = None /\ exists y, snd (fst c) = Some y) lg' /\ length lg' = length l.
Proof.
  induction l as [|x l IH]; intros st lg.
  - exists []. cbn. rewrite app_nil_r. repeat split; auto.
  - unfold walk_right in *. cbn [fold_left]. unfold recording at 2. cbn [fst snd]. destruct (fn st None (Some x)) as [st1 z] eqn:E.
    cbn [fst]. destruct (IH st1 (lg ++ [(None, Some x, z)])) as (lg' & E1 & H1 & H2 & H3 & H4).
    exists ((None, Some x, z) :: lg'). rewrite E1, <- app_assoc. cbn. rewrite H1, H2, H4. repeat split; auto.
    constructor; auto. cbn. eauto.
Qed.

Lemma walk_log : forall (l : list A) (r : list B) st (lg : log), exists lg',
  merge_walk rfn l r (st, lg) = (merge_walk fn l r st, lg ++ lg') /\
  flat_map settles_left lg' = l /\ flat_map settles_right lg' = r /\ (length lg' <= length l + length r)%nat.
Proof.
  induction l as [|x l IHl].
  - intros r st lg. destruct (walk_right_log r st lg) as (lg' & E & H1 & H2 & _ & H4). exists lg'.
    split; [destruct r; exact E|]. repeat split; auto. rewrite H4. cbn. lia.
  - induction r as [|y r IHr]; intros st lg.
    + destruct (walk_left_log (x :: l) st lg) as (lg' & E & H1 & H2 & _ & H4). exists lg'.
      cbn [merge_walk]. rewrite E. repeat split; auto. cbn in *. lia.
    + cbn [merge_walk]. unfold recording at 1. cbn [fst snd]. destruct (fn st (Some x) (Some y)) as [st1 z] eqn:E.
      destruct (Z.ltb_spec z 0); [|destruct (Z.ltb_spec 0 z)].
      * destruct (IHl (y :: r) st1 (lg ++ [(Some x, Some y, z)])) as (lg' & E1 & H1 & H2 & H3).
        exists ((Some x, Some y, z) :: lg'). rewrite E1, <- app_assoc. cbn [flat_map settles_left settles_right app length].
        rewrite H1, H2. destruct (Z.leb_spec z 0); [|lia]. destruct (Z.leb_spec 0 z); [lia|]. repeat split; auto. cbn in *. lia.
      * destruct (IHr st1 (lg ++ [(Some x, Some y, z)])) as (lg' & E1 & H1 & H2 & H3).
        cbn [merge_walk] in E1.
        exists ((Some x, Some y, z) :: lg'). rewrite E1, <- app_assoc. cbn [flat_map settles_left settles_right app length].
        rewrite H1, H2. destruct (Z.leb_spec z 0); [lia|]. destruct (Z.leb_spec 0 z); [|lia]. repeat split; auto. cbn in *. lia.
      * destruct (IHl r st1 (lg ++ [(Some x, Some y, z)])) as (lg' & E1 & H1 & H2 & H3).
        exists ((Some x, Some y, z) :: lg'). rewrite E1, <- app_assoc. cbn [flat_map settles_left settles_right app length].
        rewrite H1, H2. destruct (Z.leb_spec z 0); [|lia]. destruct (Z.leb_spec 0 z); [|lia]. repeat split; auto. cbn in *. lia.
Qed.

(** With sorted sequences and answers that compare keys. *)
Variables (f : A -> Z) (g : B -> Z).
Hypothesis Hc : compares fn f g.

Lemma sorted_cons : forall {X} (h : X -> Z) x l, by_key h (x :: l) <-> by_key h l /\ Forall (fun y => h x < h y) l.
Proof. intros X h x l. split; intros H; [inversion H; auto|constructor; tauto]. Qed.

Lemma walk_sorted : forall (l : list A) (r : list B) st (lg : log), by_key f l -> by_key g r -> exists st' lg',
  merge_walk rfn l r (st, lg) = (st', lg ++ lg') /\
  (forall x y, In x l -> In y r -> (f x = g y <-> exists z, In (Some x, Some y, z) lg' /\ z = 0)) /\
  (forall x y z, In (Some x, Some y, z) lg' -> In x l /\ In y r /\ Z.sgn z = Z.sgn (f x - g y)).
Proof.
  induction l as [|x l IHl].
  - intros r st lg _ _. destruct (walk_right_log r st lg) as (lg' & E & _ & _ & H3 & _). exists (walk_right fn r st), lg'.
    split; [destruct r; cbn [merge_walk]; exact E|]. split; [intros x y []|].
    intros x y z H. rewrite Forall_forall in H3. apply H3 in H as [H _]. discriminate H.
  - induction r as [|y r IHr]; intros st lg Sl Sr.
    + destruct (walk_left_log (x :: l) st lg) as (lg' & E & _ & _ & H3 & _). exists (walk_left fn (x :: l) st), lg'.
      split; [cbn [merge_walk]; exact E|]. split; [intros ? y _ []|].
      intros x' y z H. rewrite Forall_forall in H3. apply H3 in H as [H _]. discriminate H.
    + pose proof (proj1 (sorted_cons f x l) Sl) as [Sl' Fl]. pose proof (proj1 (sorted_cons g y r) Sr) as [Sr' Fr].
      rewrite Forall_forall in Fl, Fr.
      cbn [merge_walk]. unfold recording at 1. cbn [fst snd]. pose proof (Hc st x y) as Hs.
      destruct (fn st (Some x) (Some y)) as [st1 z] eqn:E. cbn [snd] in Hs.
      destruct (Z.ltb_spec z 0); [|destruct (Z.ltb_spec 0 z)].
      * destruct (IHl (y :: r) st1 (lg ++ [(Some x, Some y, z)]) Sl' Sr) as (st' & lg' & E1 & H1 & H2).
        exists st', ((Some x, Some y, z) :: lg'). rewrite E1, <- app_assoc. split; auto. split.
        -- intros x' y' [->|Hx] Hy.
           ++ split; intros Hxy.
              ** exfalso. destruct Hy as [->|Hy]; [lia|]. specialize (Fr _ Hy). lia.
              ** destruct Hxy as (z' & [Hz|Hz] & ->); [injection Hz; intros; lia|]. apply H2 in Hz as (_ & _ & Hz). lia.
           ++ rewrite (H1 x' y' Hx Hy). split; intros (z' & Hz & ->); exists 0; split; auto; [right; auto|].
              destruct Hz as [Hz|Hz]; auto. injection Hz; intros; lia.
        -- intros x' y' z' [Hz|Hz].
           ++ injection Hz as <- <- <-. cbn; auto.
           ++ apply H2 in Hz. cbn in *. tauto.
      * destruct (IHr st1 (lg ++ [(Some x, Some y, z)]) Sl Sr') as (st' & lg' & E1 & H1 & H2). cbn [merge_walk] in E1.
        exists st', ((Some x, Some y, z) :: lg'). rewrite E1, <- app_assoc. split; auto. split.
        -- intros x' y' Hx [->|Hy].
           ++ split; intros Hxy.
              ** exfalso. destruct Hx as [->|Hx]; [lia|]. specialize (Fl _ Hx). lia.
              ** destruct Hxy as (z' & [Hz|Hz] & ->); [injection Hz; intros; lia|]. apply H2 in Hz as (_ & _ & Hz). lia.
           ++ rewrite (H1 x' y' Hx Hy). split; intros (z' & Hz & ->); exists 0; split; auto; [right; auto|].
              destruct Hz as [Hz|Hz]; auto. injection Hz; intros; lia.
        -- intros x' y' z' [Hz|Hz].
           ++ injection Hz as <- <- <-. cbn; auto.
           ++ apply H2 in Hz. cbn in *. tauto.
      * destruct (IHl r st1 (lg ++ [(Some x, Some y, z)]) Sl' Sr') as (st' & lg' & E1 & H1 & H2).
        exists st', ((Some x, Some y, z) :: lg'). rewrite E1, <- app_assoc. split; auto. assert (z = 0) by lia. subst z. split.
        -- intros x' y' [->|Hx] [->|Hy].
           ++ split; [intros _; exists 0; split; [left|]; auto|lia].
           ++ split; intros Hxy; [exfalso; specialize (Fr _ Hy); lia|].
              destruct Hxy as (z' & [Hz|Hz] & ->); [injection Hz; intros; subst; lia|]. apply H2 in Hz as (_ & _ & Hz). lia.
           ++ split; intros Hxy; [exfalso; specialize (Fl _ Hx); lia|].
              destruct Hxy as (z' & [Hz|Hz] & ->); [injection Hz; intros; subst; lia|]. apply H2 in Hz as (_ & _ & Hz). lia.
           ++ rewrite (H1 x' y' Hx Hy). split; intros (z' & Hz & ->); exists 0; split; auto; [right; auto|].
              destruct Hz as [Hz|Hz]; auto. injection Hz; intros; subst. specialize (Fl _ Hx). lia.
        -- intros x' y' z' [Hz|Hz].
           ++ injection Hz as <- <- <-. cbn; auto.
           ++ apply H2 in Hz. cbn in *. tauto.
Qed.
End Walk.

Lemma walk_calls : forall T A B (fn : T -> option A -> option B -> T * Z) l r st, exists lg,
  merge_walk (recording fn) l r (st, []) = (merge_walk fn l r st, lg) /\
  flat_map settles_left lg = l /\ flat_map settles_right lg = r /\ (length lg <= length l + length r)%nat.
Proof. intros. destruct (walk_log fn l r st []) as (lg & H). exists lg. exact H. Qed.

Lemma walk_join : forall T A B (fn : T -> option A -> option B -> T * Z) f g l r st, compares fn f g ->
  by_key f l -> by_key g r -> exists st' lg, merge_walk (recording fn) l r (st, []) = (st', lg) /\
  forall x y, In x l -> In y r -> (f x = g y <-> In (Some x, Some y, 0) lg).
Proof.
  intros T A B fn f g l r st Hc Hl Hr. destruct (walk_sorted fn f g Hc l r st [] Hl Hr) as (st' & lg & E & H & _).
  exists st', lg. split; auto. intros x y Hx Hy. rewrite (H x y Hx Hy). split; [intros (z & Hz & ->); auto|eauto].
Qed.
