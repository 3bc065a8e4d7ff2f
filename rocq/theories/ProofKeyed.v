(** Lemmas about keyed members: key order, sort, lookup, construction. *)
From Coq Require Import ZifyBool Sorted Permutation.
From Verif Require Import Base ModelKeyed SpecKeyed.
Local Open Scope Z_scope.

Lemma char_rank_inj : forall a b, char_rank a = char_rank b -> a = b.
Proof.
  unfold char_rank. intros a b.
  destruct ((128 <=? a) && (a <? 256)) eqn:A1, ((-128 <=? a) && (a <? 0)) eqn:A2,
           ((128 <=? b) && (b <? 256)) eqn:B1, ((-128 <=? b) && (b <? 0)) eqn:B2; lia.
Qed.

Lemma kcmp_refl : forall a, kcmp a a = Eq.
Proof. induction a; simpl; auto. rewrite Z.compare_refl. assumption. Qed.

Lemma kcmp_eq : forall a b, kcmp a b = Eq <-> a = b.
Proof.
  intros a b; split; [|intros ->; apply kcmp_refl]. revert b.
  induction a as [|x a IH]; destruct b as [|y b]; simpl; try congruence.
  destruct (char_rank x ?= char_rank y) eqn:E; try congruence.
  intros H. apply Z.compare_eq in E. apply char_rank_inj in E. apply IH in H. congruence.
Qed.

Lemma kcmp_antisym : forall a b, kcmp b a = CompOpp (kcmp a b).
Proof.
  induction a as [|x a IH]; destruct b as [|y b]; simpl; auto.
  rewrite (Z.compare_antisym (char_rank x) (char_rank y)).
  destruct (char_rank x ?= char_rank y); simpl; auto.
Qed.

Lemma kcmp_gt_lt : forall a b, kcmp a b = Gt <-> kcmp b a = Lt.
Proof. intros. rewrite (kcmp_antisym a b). destruct (kcmp a b); simpl; split; congruence. Qed.

Lemma klt_trans : forall a b c, klt a b -> klt b c -> klt a c.
Proof.
  unfold klt. induction a as [|x a IH]; intros [|y b] [|z c]; simpl; try congruence.
  destruct (char_rank x ?= char_rank y) eqn:E1;
  destruct (char_rank y ?= char_rank z) eqn:E2; try congruence; intros H1 H2.
  - apply Z.compare_eq in E1, E2. rewrite E1, E2, Z.compare_refl. eauto.
  - apply Z.compare_eq in E1. rewrite E1, E2. reflexivity.
  - apply Z.compare_eq in E2. rewrite <- E2, E1. reflexivity.
  - rewrite Z.compare_lt_iff in *. replace (char_rank x ?= char_rank z) with Lt; auto.
    symmetry. apply Z.compare_lt_iff. lia.
Qed.

Lemma klt_irrefl : forall a, ~ klt a a.
Proof. unfold klt. intros a. rewrite kcmp_refl. congruence. Qed.

Lemma klt_neq : forall a b, klt a b -> a <> b.
Proof. intros a b H E. subst. exact (klt_irrefl _ H). Qed.

Definition kle (a b : bytes) : Prop := kcmp a b <> Gt.

Lemma kle_cases : forall a b, kle a b <-> klt a b \/ a = b.
Proof.
  unfold kle, klt. intros. destruct (kcmp a b) eqn:E.
  - apply kcmp_eq in E. split; [auto|congruence].
  - split; [auto|congruence].
  - split; [congruence|]. intros [H|H]; [congruence|]. subst. rewrite kcmp_refl in E. congruence.
Qed.

Lemma kle_refl : forall a, kle a a.
Proof. intros. apply kle_cases. auto. Qed.

Lemma kle_trans : forall a b c, kle a b -> kle b c -> kle a c.
Proof.
  intros a b c H1 H2. apply kle_cases in H1, H2. apply kle_cases.
  destruct H1 as [H1|H1], H2 as [H2|H2]; subst; auto. left. eapply klt_trans; eauto.
Qed.

Lemma klt_kle_trans : forall a b c, klt a b -> kle b c -> klt a c.
Proof. intros a b c H1 H2. apply kle_cases in H2 as [H2| ->]; auto. eapply klt_trans; eauto. Qed.
Lemma kle_klt_trans : forall a b c, kle a b -> klt b c -> klt a c.
Proof. intros a b c H1 H2. apply kle_cases in H1 as [H1| ->]; auto. eapply klt_trans; eauto. Qed.

Lemma not_klt_kle : forall a b, ~ klt a b -> kle b a.
Proof.
  unfold klt, kle. intros a b H. rewrite kcmp_antisym. destruct (kcmp a b); simpl; congruence.
Qed.

Lemma kle_not_klt : forall a b, kle a b -> ~ klt b a.
Proof. unfold kle, klt. intros a b H. rewrite kcmp_antisym. destruct (kcmp a b); simpl; congruence. Qed.

Section K.
Context {A : Type}.
Notation member := (bytes * A)%type.
Implicit Types (l : list member).

Lemma keys_increasing_ordered : forall l, keys_increasing l -> keys_ordered l.
Proof.
  unfold keys_increasing, keys_ordered. intros l. induction 1; constructor; auto.
  eapply Forall_impl; [|eassumption]. unfold klt. intros; congruence.
Qed.

Lemma keys_increasing_cons : forall k (v : A) l,
  keys_increasing ((k, v) :: l) <-> keys_increasing l /\ Forall (fun m => klt k (fst m)) l.
Proof.
  unfold keys_increasing. intros k v l. simpl. split.
  - intros H. inversion H; subst. split; auto. rewrite Forall_map in H3. exact H3.
  - intros [H1 H2]. constructor; auto. rewrite Forall_map. exact H2.
Qed.

Lemma keys_ordered_cons : forall m l,
  keys_ordered (m :: l) <-> keys_ordered l /\ Forall (fun m' => kle (fst m) (fst m')) l.
Proof.
  unfold keys_ordered. intros m l. simpl. split.
  - intros H. inversion H; subst. split; auto. rewrite Forall_map in H3. exact H3.
  - intros [H1 H2]. constructor; auto. rewrite Forall_map. exact H2.
Qed.

Lemma StronglySorted_app : forall {B} (R : B -> B -> Prop) (l1 l2 : list B),
  StronglySorted R (l1 ++ l2) <->
  StronglySorted R l1 /\ StronglySorted R l2 /\ (forall x y, In x l1 -> In y l2 -> R x y).
Proof.
  intros B R l1 l2. induction l1 as [|a l1 IH]; simpl.
  - split; [intros H; repeat split; auto; [constructor|tauto] | tauto].
  - split.
    + intros H. inversion H; subst. apply IH in H2 as (H1 & H2 & H4).
      apply Forall_app in H3 as [H3 H5]. repeat split; auto.
      * constructor; auto.
      * intros x y [->|Hx] Hy; auto. rewrite Forall_forall in H5. auto.
    + intros (H1 & H2 & H3). inversion H1; subst. constructor.
      * apply IH. auto.
      * apply Forall_app. split; auto. apply Forall_forall. auto.
Qed.

(** *** Bindings *)
Lemma last_binding_app : forall k l1 l2,
  last_binding k (l1 ++ l2) =
  match last_binding k l2 with Some v => Some v | None => last_binding k l1 end.
Proof.
  intros k l1 l2. induction l1 as [|[k' v] l1 IH]; simpl.
  - destruct (last_binding k l2); auto.
  - rewrite IH. destruct (last_binding k l2); auto.
Qed.

Lemma last_binding_none : forall k l,
  last_binding k l = None <-> ~ In k (map fst l).
Proof.
  intros k l. induction l as [|[k' v] l IH]; simpl; [tauto|].
  destruct (last_binding k l) eqn:E.
  - split; [discriminate|]. intros H. exfalso. apply H. right.
    destruct (in_dec bytes_eq_dec k (map fst l)); auto. apply IH in n. discriminate.
  - destruct (beqb k' k) eqn:B.
    + apply beqb_eq in B. subst. split; [discriminate|]. intros H. exfalso. auto.
    + apply beqb_neq in B. split; auto. intros _ [H|H]; auto. apply IH; auto.
Qed.

Lemma binding_none : forall k l, binding k l = None <-> ~ In k (map fst l).
Proof.
  intros k l. induction l as [|[k' v] l IH]; simpl; [tauto|].
  destruct (beqb k' k) eqn:B.
  - apply beqb_eq in B. subst. split; [discriminate|]. intros H. exfalso. auto.
  - apply beqb_neq in B. rewrite IH. tauto.
Qed.

Lemma binding_in : forall k l v, binding k l = Some v -> In (k, v) l.
Proof.
  intros k l v. induction l as [|[k' v'] l IH]; simpl; [discriminate|].
  destruct (beqb k' k) eqn:B; intros H.
  - apply beqb_eq in B. left. congruence.
  - right; auto.
Qed.

Lemma binding_app : forall k l1 l2,
  binding k (l1 ++ l2) = match binding k l1 with Some v => Some v | None => binding k l2 end.
Proof.
  intros k l1 l2. induction l1 as [|[k' v] l1 IH]; simpl; auto. destruct (beqb k' k); auto.
Qed.

Lemma keys_increasing_nodup : forall l, keys_increasing l -> NoDup (map fst l).
Proof.
  unfold keys_increasing. intros l. induction 1; constructor; auto.
  intros Hin. rewrite Forall_forall in H0. apply H0 in Hin. exact (klt_irrefl _ Hin).
Qed.

Lemma binding_last : forall k l, NoDup (map fst l) -> binding k l = last_binding k l.
Proof.
  intros k l. induction l as [|[k' v] l IH]; simpl; intros H; auto.
  inversion H; subst. rewrite IH by assumption.
  destruct (beqb k' k) eqn:B.
  - apply beqb_eq in B. subst. apply last_binding_none in H2. rewrite H2. reflexivity.
  - destruct (last_binding k l); auto.
Qed.

Lemma in_binding : forall k v l, NoDup (map fst l) -> In (k, v) l -> binding k l = Some v.
Proof.
  intros k v l. induction l as [|[k' v'] l IH]; simpl; intros H Hin; [tauto|].
  inversion H; subst. destruct Hin as [Hin|Hin].
  - inversion Hin; subst. rewrite beqb_refl. reflexivity.
  - destruct (beqb k' k) eqn:B; auto. apply beqb_eq in B. subst. exfalso. apply H2.
    apply in_map_iff. exists (k, v). auto.
Qed.

(** Two increasing lists with the same bindings are equal. *)
Lemma increasing_ext : forall l1 l2,
  keys_increasing l1 -> keys_increasing l2 ->
  (forall k, binding k l1 = binding k l2) -> l1 = l2.
Proof.
  induction l1 as [|[k1 v1] l1 IH]; intros l2 H1 H2 HB.
  - destruct l2 as [|[k2 v2] l2]; auto. specialize (HB k2). simpl in HB. rewrite beqb_refl in HB. discriminate.
  - destruct l2 as [|[k2 v2] l2].
    { specialize (HB k1). simpl in HB. rewrite beqb_refl in HB. discriminate. }
    apply keys_increasing_cons in H1 as [H1 F1]. apply keys_increasing_cons in H2 as [H2 F2].
    assert (k1 = k2) as <-.
    { pose proof (HB k1) as B1. pose proof (HB k2) as B2. simpl in B1, B2. rewrite beqb_refl in B1, B2.
      destruct (beqb k2 k1) eqn:E; [apply beqb_eq in E; auto|].
      symmetry in B1. apply binding_in in B1. rewrite Forall_forall in F2. apply F2 in B1. simpl in B1.
      destruct (beqb k1 k2) eqn:E2; [apply beqb_eq in E2; auto|].
      apply binding_in in B2. rewrite Forall_forall in F1. apply F1 in B2. simpl in B2.
      exfalso. exact (klt_irrefl _ (klt_trans _ _ _ B1 B2)). }
    pose proof (HB k1) as B1. simpl in B1. rewrite beqb_refl in B1. inversion B1; subst.
    f_equal. apply IH; auto. intros k. specialize (HB k). simpl in HB.
    destruct (beqb k1 k) eqn:E; auto. apply beqb_eq in E. subst.
    assert (forall l, Forall (fun m => klt k (fst m)) l -> binding k l = None) as HN.
    { intros l F. apply binding_none. intros Hin. apply in_map_iff in Hin as (m & Hm & Hin).
      rewrite Forall_forall in F. apply F in Hin. subst. exact (klt_irrefl _ Hin). }
    rewrite !HN; auto.
Qed.

(** *** Stable sort *)
Lemma sort_insert_perm : forall x l, Permutation (sort_insert x l) (x :: l).
Proof.
  intros x l. induction l as [|y l IH]; simpl; auto.
  destruct (kcmp (fst y) (fst x)); auto.
  rewrite IH. apply perm_swap.
Qed.

Lemma stable_sort_perm : forall l, Permutation (stable_sort l) l.
Proof.
  induction l as [|x l IH]; simpl; auto. unfold stable_sort in *. simpl.
  rewrite sort_insert_perm, IH. reflexivity.
Qed.

Lemma sort_insert_ordered : forall x l, keys_ordered l -> keys_ordered (sort_insert x l).
Proof.
  intros x l. induction l as [|y l IH]; simpl; intros H.
  - apply keys_ordered_cons. split; auto. 
  - destruct (kcmp (fst y) (fst x)) eqn:E.
    + apply keys_ordered_cons. split; auto. apply keys_ordered_cons in H as [H F].
      apply kcmp_eq in E. constructor; [rewrite E; apply kle_refl|].
      rewrite <- E. exact F.
    + apply keys_ordered_cons in H as [H F]. apply keys_ordered_cons. split; auto.
      eapply Permutation_Forall; [apply Permutation_sym, sort_insert_perm|].
      constructor; auto. apply kle_cases. left. exact E.
    + apply keys_ordered_cons. split; auto. apply keys_ordered_cons in H as [H F].
      apply kcmp_gt_lt in E.
      constructor; [apply kle_cases; left; exact E|].
      eapply Forall_impl; [|exact F]. intros m Hm. simpl in Hm.
      apply kle_cases. left. eapply klt_kle_trans; eauto.
Qed.

Lemma stable_sort_ordered : forall l, keys_ordered (stable_sort l).
Proof.
  induction l; simpl; [constructor|]. unfold stable_sort in *. simpl. apply sort_insert_ordered. assumption.
Qed.

(** Stability: the subsequence of members with a given key is unchanged. *)
Lemma sort_insert_filter : forall k x l,
  filter (fun m => beqb (fst m) k) (sort_insert x l) =
  filter (fun m => beqb (fst m) k) (x :: l).
Proof.
  intros k x l. induction l as [|y l IH]; simpl; auto.
  destruct (kcmp (fst y) (fst x)) eqn:E; auto.
  simpl in *. rewrite IH.
  destruct (beqb (fst x) k) eqn:Ex, (beqb (fst y) k) eqn:Ey; auto.
  apply beqb_eq in Ex, Ey. rewrite Ex, Ey, kcmp_refl in E. discriminate.
Qed.

Lemma stable_sort_filter : forall k l,
  filter (fun m => beqb (fst m) k) (stable_sort l) = filter (fun m => beqb (fst m) k) l.
Proof.
  intros k l. induction l as [|x l IH]; auto. unfold stable_sort in *. simpl fold_right.
  rewrite sort_insert_filter. simpl. rewrite IH. reflexivity.
Qed.

Lemma last_binding_filter : forall k l,
  last_binding k l = last_binding k (filter (fun m => beqb (fst m) k) l).
Proof.
  intros k l. induction l as [|[k' v] l IH]; simpl; auto. rewrite IH.
  destruct (beqb k' k) eqn:E; simpl.
  - rewrite E. reflexivity.
  - destruct (last_binding k (filter (fun m => beqb (fst m) k) l)); auto.
Qed.

Lemma stable_sort_last_binding : forall k l,
  last_binding k (stable_sort l) = last_binding k l.
Proof.
  intros. rewrite last_binding_filter, stable_sort_filter, <- last_binding_filter. reflexivity.
Qed.

(** *** Dedupe: invariant "out reversed is increasing, ends with last, all <= rest" *)
Lemma dedupe_spec : forall l out last,
  keys_ordered l ->
  keys_increasing (rev out) ->
  (out = [] \/ exists v t, out = (last, v) :: t) ->
  (forall m m', In m out -> In m' l -> kle (fst m) (fst m')) ->
  keys_increasing (dedupe_loop out last l) /\
  forall k, binding k (dedupe_loop out last l) =
            match last_binding k l with Some v => Some v | None => binding k (rev out) end.
Proof.
  induction l as [|[k0 v0] l IH]; intros out last Ho Hi Hl Hle; simpl dedupe_loop.
  - split; auto.
  - apply keys_ordered_cons in Ho as [Ho F]. simpl in F.
    cbn [fst].
    set (out1 := if beqb k0 last && negb (length out =? 0)%nat then tl out else out).
    assert (Hout1 : keys_increasing (rev out1) /\
      (forall m, In m out1 -> klt (fst m) k0) /\
      (forall m, In m out1 -> In m out) /\
      (forall k, k <> k0 -> binding k (rev out1) = binding k (rev out))).
    { destruct Hl as [->|(v & t & ->)].
      - unfold out1. simpl. rewrite andb_false_r. repeat split; simpl; auto; try tauto.
      - unfold out1. simpl negb. rewrite andb_true_r.
        simpl rev in Hi. unfold keys_increasing in Hi. rewrite map_app in Hi.
        apply StronglySorted_app in Hi as (Hi1 & Hi2 & Hi3). simpl in Hi3.
        assert (Ht : forall m, In m t -> klt (fst m) last).
        { intros m Hm. apply Hi3; auto. apply in_map, in_rev. rewrite rev_involutive. exact Hm. }
        destruct (beqb k0 last) eqn:B.
        + apply beqb_eq in B. subst k0. simpl. repeat split; auto.
          intros k Hk. rewrite binding_app. simpl.
          destruct (binding k (rev t)); auto. rewrite (proj2 (beqb_neq last k)); auto.
        + apply beqb_neq in B. repeat split; auto.
          * simpl rev. unfold keys_increasing. rewrite map_app. apply StronglySorted_app. simpl. auto.
          * assert (klt last k0) as Hlk.
            { assert (kle last k0) as H by (apply (Hle (last, v) (k0, v0)); simpl; auto).
              apply kle_cases in H as [H|H]; auto. congruence. }
            intros m [<-|Hm]; auto. eapply klt_trans; eauto. }
    destruct Hout1 as (G1 & G2 & G3 & G4).
    assert (Hi' : keys_increasing (rev ((k0, v0) :: out1))).
    { simpl rev. unfold keys_increasing. rewrite map_app. apply StronglySorted_app. simpl. repeat split; auto.
      - repeat constructor.
      - intros x y Hx [<-|[]]. apply in_map_iff in Hx as (m & <- & Hm). apply G2, in_rev; auto. }
    destruct (IH ((k0, v0) :: out1) k0) as [R1 R2]; auto.
    + right; eauto.
    + intros m m' [<-|Hm] Hm'; simpl.
      * rewrite Forall_forall in F. exact (F m' Hm').
      * apply Hle; auto. right; auto.
    + split; auto. intros k. rewrite R2. simpl.
      destruct (last_binding k l) eqn:E; auto.
      rewrite binding_app. simpl.
      destruct (beqb k0 k) eqn:B.
      * apply beqb_eq in B. subst. replace (binding k (rev out1)) with (@None A); auto.
        symmetry. apply binding_none. intros Hin. apply in_map_iff in Hin as (m & Hm & Hin).
        apply in_rev in Hin. apply G2 in Hin. subst. exact (klt_irrefl _ Hin).
      * apply beqb_neq in B. rewrite G4 by auto. destruct (binding k (rev out)); auto.
Qed.

Lemma obj_sort_spec : forall l,
  keys_increasing (obj_sort l) /\ forall k, binding k (obj_sort l) = last_binding k l.
Proof.
  intros l. unfold obj_sort.
  destruct (dedupe_spec (stable_sort l) [] []) as [H1 H2]; simpl; auto.
  - apply stable_sort_ordered.
  - constructor.
  - tauto.
  - split; auto. intros k. rewrite H2, stable_sort_last_binding. destruct (last_binding k l); auto.
Qed.

Lemma last_binding_in : forall k l v, last_binding k l = Some v -> In (k, v) l.
Proof.
  intros k l v. induction l as [|[k' v'] l IH]; simpl; [discriminate|].
  destruct (last_binding k l) eqn:E; intros H.
  - inversion H; subst; auto.
  - destruct (beqb k' k) eqn:B; [|discriminate]. apply beqb_eq in B. left; congruence.
Qed.

Lemma obj_sort_in : forall l m, In m (obj_sort l) -> In m l.
Proof.
  intros l [k v] H. destruct (obj_sort_spec l) as [H1 H2].
  apply in_binding in H; [|apply keys_increasing_nodup; auto].
  rewrite H2 in H. apply last_binding_in; auto.
Qed.

(** *** Lookup *)
Lemma keys_ordered_nth : forall l i j a b,
  keys_ordered l -> (i <= j)%nat -> nth_error l i = Some a -> nth_error l j = Some b ->
  kle (fst a) (fst b).
Proof.
  induction l as [|m l IH]; intros i j a b H Hij Ha Hb.
  - destruct i; discriminate.
  - apply keys_ordered_cons in H as [H F].
    destruct i, j; simpl in *; try lia.
    + inversion Ha; inversion Hb; subst. inversion Hb; subst. apply kle_refl.
    + inversion Ha; subst. rewrite Forall_forall in F. apply F. eapply nth_error_In; eauto.
    + eapply IH; [eauto| |eauto|eauto]. lia.
Qed.

Lemma find_loop_spec : forall fuel l name lo hi,
  keys_ordered l ->
  (hi <= length l)%nat -> (hi - lo < fuel)%nat ->
  (forall i m, nth_error l i = Some m -> (i < lo)%nat -> klt (fst m) name) ->
  (forall i m, nth_error l i = Some m -> (hi <= i)%nat -> klt name (fst m)) ->
  (exists m, find_loop fuel l name lo hi = Ok (Some m) /\ In m l /\ fst m = name) \/
  (find_loop fuel l name lo hi = Ok None /\ forall m, In m l -> fst m <> name).
Proof.
  induction fuel as [|fuel IH]; intros l name lo hi Ho Hh Hf Hlo Hhi; [lia|].
  cbn [find_loop]. destruct (Nat.ltb lo hi) eqn:E.
  - apply Nat.ltb_lt in E.
    assert (Nat.div (lo + hi) 2 < hi /\ lo <= Nat.div (lo + hi) 2)%nat as [M1 M2].
    { split; [apply Nat.div_lt_upper_bound; lia | apply Nat.div_le_lower_bound; lia]. }
    set (m := Nat.div (lo + hi) 2) in *.
    destruct (nth_error l m) as [it|] eqn:N.
    2:{ apply nth_error_None in N. lia. }
    destruct (kcmp name (fst it)) eqn:C.
    + left. exists it. apply kcmp_eq in C. repeat split; auto. eapply nth_error_In; eauto.
    + apply IH; auto; try lia. intros i x Hx Hi.
      eapply klt_kle_trans; [exact C|]. eapply keys_ordered_nth; [exact Ho| |exact N|exact Hx]. lia.
    + apply IH; auto; try lia. intros i x Hx Hi.
      apply kcmp_gt_lt in C. eapply kle_klt_trans; [|exact C].
      eapply keys_ordered_nth; [exact Ho| |exact Hx|exact N]. lia.
  - apply Nat.ltb_ge in E. right. split; auto.
    intros m Hin Heq. apply In_nth_error in Hin as [i Hi].
    destruct (Nat.lt_ge_cases i lo) as [Hl|Hl].
    + specialize (Hlo i m Hi Hl). rewrite Heq in Hlo. exact (klt_irrefl _ Hlo).
    + assert (hi <= i)%nat as Hx by lia. specialize (Hhi i m Hi Hx). rewrite Heq in Hhi. exact (klt_irrefl _ Hhi).
Qed.

Lemma findSorted_spec : forall l name,
  keys_ordered l ->
  (exists m, findSorted l name = Ok (Some m) /\ In m l /\ fst m = name) \/
  (findSorted l name = Ok None /\ forall m, In m l -> fst m <> name).
Proof.
  intros l name H. unfold findSorted. apply find_loop_spec; auto; try lia.
  intros i m Hi Hl. assert (nth_error l i <> None) as Hn by congruence.
  apply nth_error_Some in Hn. lia.
Qed.

Lemma find_member_binding : forall l name,
  keys_increasing l ->
  find_member l name = option_map (fun v => (name, v)) (binding name l).
Proof.
  intros l name H. unfold find_member.
  destruct (findSorted_spec l name (keys_increasing_ordered _ H)) as [(m & -> & Hin & Heq)|[-> Hn]].
  - destruct m as [k v]. simpl in Heq. subst.
    rewrite (in_binding _ _ _ (keys_increasing_nodup _ H) Hin). reflexivity.
  - replace (binding name l) with (@None A); auto. symmetry. apply binding_none.
    intros Hin. apply in_map_iff in Hin as (m & Hm & Hin). exact (Hn m Hin Hm).
Qed.

(** *** Object construction *)
Lemma build_loop_spec : forall (skip : A -> bool) l acc last ordered items ord,
  build_loop skip acc last ordered l = (items, ord) ->
  (acc <> [] -> exists v t, acc = (last, v) :: t) ->
  (acc = [] -> last = []) ->
  (ordered = true -> keys_increasing (rev acc)) ->
  (ord = true -> ordered = true /\ keys_increasing items) /\
  forall k, last_binding k items =
    match last_binding k (filter (fun m => negb (skip (snd m))) l) with
    | Some v => Some v | None => last_binding k (rev acc) end.
Proof.
  intros skip. induction l as [|[k0 v0] l IH]; intros acc last ordered items ord H Hacc Hlast Hinc.
  - simpl in H. inversion H; subst. split; auto.
  - simpl in H. simpl filter. cbn [snd fst] in *. destruct (skip v0) eqn:Es; simpl negb; cbv iota.
    { eapply IH; eauto. }
    destruct (kcmp last k0) eqn:C.
    + apply kcmp_eq in C. subst k0.
      destruct acc as [|a t].
      * simpl tl in H. destruct (IH [(last, v0)] last ordered items ord H) as [R1 R2].
        { eauto. } { discriminate. } { intros _. repeat constructor. }
        split; auto. intros k. rewrite R2. simpl.
        destruct (last_binding k (filter (fun m => negb (skip (snd m))) l)); auto. destruct (beqb last k); auto.
      * destruct Hacc as (v & t' & E); [discriminate|]. inversion E; subst. simpl tl in H.
        destruct (IH ((last, v0) :: t') last ordered items ord H) as [R1 R2].
        { eauto. } { discriminate. }
        { intros Ho. specialize (Hinc Ho). simpl in *. unfold keys_increasing in *. rewrite map_app in *. exact Hinc. }
        split; auto. intros k. rewrite R2. simpl.
        destruct (last_binding k (filter (fun m => negb (skip (snd m))) l)); auto.
        rewrite !last_binding_app. simpl. destruct (beqb last k) eqn:B; auto.
    + destruct (IH ((k0, v0) :: acc) k0 ordered items ord H) as [R1 R2].
      { eauto. } { discriminate. }
      { intros Ho. specialize (Hinc Ho). simpl. unfold keys_increasing in *. rewrite map_app. apply StronglySorted_app.
        simpl. repeat split; auto; [repeat constructor|].
        intros x y Hx [<-|[]]. destruct acc as [|a t]; [destruct Hx|].
        destruct Hacc as (v & t' & E); [discriminate|]. inversion E; subst. simpl in Hx, Hinc.
        rewrite map_app in Hx, Hinc. apply in_app_iff in Hx as [Hx|[<-|[]]]; auto.
        apply StronglySorted_app in Hinc as (_ & _ & Hinc).
        eapply klt_trans; [|exact C]. apply Hinc; simpl; auto. }
      split; auto. intros k. rewrite R2. simpl.
      destruct (last_binding k (filter (fun m => negb (skip (snd m))) l)); auto.
      rewrite last_binding_app. simpl. destruct (beqb k0 k) eqn:B; auto.
    + destruct (IH ((k0, v0) :: acc) k0 false items ord H) as [R1 R2].
      { eauto. } { discriminate. } { discriminate. }
      split.
      { intros Ho. apply R1 in Ho as [? _]. discriminate. }
      intros k. rewrite R2. simpl.
      destruct (last_binding k (filter (fun m => negb (skip (snd m))) l)); auto.
      rewrite last_binding_app. simpl. destruct (beqb k0 k) eqn:B; auto.
Qed.

Lemma build_object_spec : forall (skip : A -> bool) l,
  keys_increasing (build_object skip l) /\
  forall k, binding k (build_object skip l) =
            last_binding k (filter (fun m => negb (skip (snd m))) l).
Proof.
  intros skip l. unfold build_object.
  destruct (build_loop skip [] [] true l) as [items ord] eqn:E.
  destruct (build_loop_spec _ _ _ _ _ _ _ E) as [R1 R2]; try congruence.
  { constructor. }
  simpl in R2. destruct ord.
  - destruct (R1 eq_refl) as [_ Hi]. split; auto. intros k.
    rewrite binding_last by (apply keys_increasing_nodup; auto). rewrite R2.
    destruct (last_binding k (filter (fun m => negb (skip (snd m))) l)); auto.
  - destruct (obj_sort_spec items) as [S1 S2]. split; auto. intros k. rewrite S2, R2.
    destruct (last_binding k (filter (fun m => negb (skip (snd m))) l)); auto.
Qed.

Lemma build_object_id : forall (skip : A -> bool) l,
  keys_increasing l -> Forall (fun m => skip (snd m) = false) l -> build_object skip l = l.
Proof.
  intros skip l H F. destruct (build_object_spec skip l) as [S1 S2].
  apply increasing_ext; auto. intros k. rewrite S2.
  replace (filter (fun m => negb (skip (snd m))) l) with l.
  - symmetry. apply binding_last, keys_increasing_nodup; auto.
  - clear - F. induction F as [|m l Hm F IH]; simpl; auto. rewrite Hm. simpl. congruence.
Qed.

End K.

(** *** Statements used by the properties *)
Lemma char_rank_schar : forall c, is_byte c -> char_rank c = schar c.
Proof.
  unfold is_byte, char_rank, schar. intros c H. destruct (c <? 128) eqn:E.
  - replace (128 <=? c) with false by lia. replace (c <? 0) with false by lia.
    rewrite andb_false_r. reflexivity.
  - replace (128 <=? c) with true by lia. replace (c <? 256) with true by lia. reflexivity.
Qed.

Lemma klt_key_before : forall a b, is_bytes a -> is_bytes b -> (klt a b <-> key_before a b).
Proof.
  unfold klt, key_before. induction a as [|x a IH]; intros [|y b] Ha Hb.
  - simpl. split; [discriminate|].
    intros (p & [(y & t & _ & E)|(x & s & y & t & E & _)]); destruct p; discriminate.
  - simpl. split; [|auto]. intros _. exists []. left. exists y, b. auto.
  - simpl. split; [discriminate|].
    intros (p & [(y & t & E1 & E2)|(x' & s & y & t & E1 & E2 & _)]); destruct p; discriminate.
  - inversion_clear Ha as [|? ? Hx Ha']. inversion_clear Hb as [|? ? Hy Hb'].
    cbn [kcmp]. rewrite !char_rank_schar by auto.
    destruct (Z.compare_spec (schar x) (schar y)) as [E|E|E].
    + apply schar_inj in E; auto. subst y. rewrite IH by auto. split.
      * intros (p & [(y & t & -> & ->)|(x' & s & y & t & -> & -> & Hl)]).
        -- exists (x :: p). left. exists y, t. auto.
        -- exists (x :: p). right. exists x', s, y, t. auto.
      * intros (p & [(y & t & E1 & E2)|(x' & s & y & t & E1 & E2 & Hl)]).
        -- destruct p as [|p0 p]; [discriminate|]. inversion E1; inversion E2; subst.
           exists p. left. eauto.
        -- destruct p as [|p0 p]; cbn [app] in *; inversion E1; inversion E2; subst; [lia|].
           exists p. right. do 4 eexists. eauto.
    + split; [|auto]. intros _. exists []. right. exists x, a, y, b. auto.
    + split; [discriminate|].
      intros (p & [(y' & t & E1 & E2)|(x' & s & y' & t & E1 & E2 & Hl)]).
      * destruct p as [|p0 p]; [discriminate|]. inversion E1; inversion E2; subst. lia.
      * destruct p as [|p0 p]; cbn [app] in *; inversion E1; inversion E2; subst; lia.
Qed.

Lemma lookup_exact : forall A (items : list (bytes * A)) name,
  keys_increasing items ->
  (forall v, find_member items name = Some (name, v) <-> In (name, v) items) /\
  (find_member items name = None <-> forall v, ~ In (name, v) items) /\
  (forall m, find_member items name = Some m -> fst m = name).
Proof.
  intros A items name H. rewrite find_member_binding by auto.
  pose proof (keys_increasing_nodup _ H) as Hn.
  assert (Hv : forall v, binding name items = Some v <-> In (name, v) items)
    by (intros v; split; [apply binding_in|apply in_binding; auto]).
  split; [|split].
  - intros v. rewrite <- Hv. destruct (binding name items); simpl; split; congruence.
  - destruct (binding name items) as [v|] eqn:E; simpl; split; try congruence.
    + intros Hf. exfalso. apply (Hf v). apply Hv. reflexivity.
    + intros _ v Hin. apply Hv in Hin. discriminate.
  - intros m. destruct (binding name items); simpl; intros E; inversion E; reflexivity.
Qed.

Lemma lookup_safe : forall A (items : list (bytes * A)) name,
  keys_increasing items -> exists r, findSorted items name = Ok r.
Proof.
  intros A items name H. apply keys_increasing_ordered in H.
  destruct (findSorted_spec items name H) as [(m & -> & _)|[-> _]]; eauto.
Qed.

Lemma sort_last_wins : forall A (l : list (bytes * A)),
  keys_increasing (obj_sort l) /\
  (forall k v, In (k, v) (obj_sort l) <-> last_binding k l = Some v).
Proof.
  intros A l. destruct (obj_sort_spec l) as [H1 H2]. split; auto. intros k v. rewrite <- H2.
  split; [apply in_binding, keys_increasing_nodup; auto|apply binding_in].
Qed.

Lemma build_last_wins : forall A (skip : A -> bool) (l : list (bytes * A)),
  keys_increasing (build_object skip l) /\
  (forall k v, In (k, v) (build_object skip l) <->
     last_binding k (filter (fun m => negb (skip (snd m))) l) = Some v).
Proof.
  intros A skip l. destruct (build_object_spec skip l) as [H1 H2]. split; auto. intros k v. rewrite <- H2.
  split; [apply in_binding, keys_increasing_nodup; auto|apply binding_in].
Qed.

Lemma last_binding_meaning : forall A k (l : list (bytes * A)) v,
  last_binding k l = Some v <->
  exists l1 l2, l = l1 ++ (k, v) :: l2 /\ ~ In k (map fst l2).
Proof.
  intros A k. assert (Hnone : forall l : list (bytes * A), last_binding k l = None <-> ~ In k (map fst l)).
  { induction l as [|[k' v'] l IH]; simpl; [tauto|].
    destruct (last_binding k l) as [x|].
    - split; [discriminate|]. intros H. exfalso. assert (~ In k (map fst l)) by tauto. apply IH in H0. discriminate.
    - destruct (beqb k' k) eqn:E.
      + apply beqb_eq in E. split; [discriminate|]. intros H. exfalso. auto.
      + apply beqb_neq in E. tauto. }
  induction l as [|[k' v'] l IH]; intros v; cbn [last_binding].
  - split; [discriminate|]. intros (l1 & l2 & E & _). destruct l1; discriminate.
  - destruct (last_binding k l) as [x|] eqn:E.
    + rewrite IH. split.
      * intros (l1 & l2 & -> & Hn). exists ((k', v') :: l1), l2. auto.
      * intros (l1 & l2 & El & Hn). destruct l1 as [|a l1]; cbn [app] in El; inversion El; subst.
        -- exfalso. apply Hnone in Hn. congruence.
        -- eauto.
    + assert (~ In k (map fst l)) as Hk by (apply Hnone; auto).
      destruct (beqb k' k) eqn:B.
      * apply beqb_eq in B. subst. split.
        -- intros Ev. inversion Ev; subst. exists [], l. auto.
        -- intros (l1 & l2 & El & Hn). destruct l1 as [|a l1]; cbn [app] in El; inversion El; subst; auto.
           exfalso. apply Hk. rewrite map_app. apply in_app_iff. right. simpl. auto.
      * apply beqb_neq in B. split; [discriminate|].
        intros (l1 & l2 & El & Hn). exfalso. destruct l1 as [|a l1]; cbn [app] in El; inversion El; subst; auto.
        apply Hk. rewrite map_app. apply in_app_iff. right. simpl. auto.
Qed.
