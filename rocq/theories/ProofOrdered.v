(** Proofs about ordered containers. *)
From Coq Require Import ZifyBool Sorted Permutation.
From Verif Require Import Base ModelValue ModelObject ModelOrdered SpecOrdered.
Ltac Zify.zify_post_hook ::= Z.div_mod_to_equations.
Local Open Scope Z_scope.

Section Order.
Context (cmp : member -> member -> Z) (TP : total_preorder cmp).

Lemma c_sym : forall a b, Z.sgn (cmp b a) = - Z.sgn (cmp a b).
Proof. apply TP. Qed.
Lemma c_refl : forall a, cmp a a = 0.
Proof. intros a. pose proof (c_sym a a). lia. Qed.
Lemma c_trans : forall a b c, cmp a b <= 0 -> cmp b c <= 0 -> cmp a c <= 0.
Proof. apply TP. Qed.
Lemma c_flip0 : forall a b, cmp a b = 0 -> cmp b a = 0.
Proof. intros a b H. pose proof (c_sym a b). lia. Qed.
Lemma c_lt_le : forall a b c, cmp a b < 0 -> cmp b c <= 0 -> cmp a c < 0.
Proof.
  intros a b c H1 H2. pose proof (c_trans a b c ltac:(lia) H2). destruct (Z.eq_dec (cmp a c) 0) as [E|]; [|lia].
  apply c_flip0 in E. pose proof (c_trans b c a H2 ltac:(lia)). pose proof (c_sym a b). lia.
Qed.
Lemma c_le_lt : forall a b c, cmp a b <= 0 -> cmp b c < 0 -> cmp a c < 0.
Proof.
  intros a b c H1 H2. pose proof (c_trans a b c H1 ltac:(lia)). destruct (Z.eq_dec (cmp a c) 0) as [E|]; [|lia].
  apply c_flip0 in E. pose proof (c_trans c a b ltac:(lia) H1). pose proof (c_sym b c). lia.
Qed.
Lemma c_eq_trans : forall a b c, cmp a b = 0 -> cmp b c = 0 -> cmp a c = 0.
Proof.
  intros a b c H1 H2. pose proof (c_trans a b c ltac:(lia) ltac:(lia)).
  pose proof (c_trans c b a ltac:(apply c_flip0 in H2; lia) ltac:(apply c_flip0 in H1; lia)). pose proof (c_sym a c). lia.
Qed.
Lemma c_eq_l : forall a b c, cmp a b = 0 -> Z.sgn (cmp a c) = Z.sgn (cmp b c).
Proof.
  intros a b c H. pose proof (c_flip0 _ _ H) as H'. destruct (Z.lt_trichotomy (cmp b c) 0) as [E|[E|E]].
  - pose proof (c_le_lt a b c ltac:(lia) E). lia.
  - rewrite (c_eq_trans a b c H E). lia.
  - pose proof (c_sym c b). pose proof (c_sym c a). assert (cmp c b < 0) by (pose proof (c_sym b c); lia).
    pose proof (c_lt_le c b a ltac:(lia) ltac:(lia)). lia.
Qed.
Lemma c_eq_r : forall a b c, cmp a b = 0 -> Z.sgn (cmp c a) = Z.sgn (cmp c b).
Proof. intros a b c H. pose proof (c_eq_l a b c H). pose proof (c_sym a c). pose proof (c_sym b c). lia. Qed.

(** *** Sorting *)
Lemma insert_perm : forall x l, Permutation (x :: l) (stable_insert cmp x l).
Proof.
  intros x. induction l as [|y l IH]; [constructor; constructor|]. cbn [stable_insert]. destruct (cmp y x <? 0); [|reflexivity].
  rewrite perm_swap. constructor. exact IH.
Qed.
Lemma sort_perm : forall l, Permutation l (ord_sort cmp l).
Proof. induction l as [|x l IH]; [constructor|]. cbn [ord_sort fold_right]. rewrite <- insert_perm. constructor. exact IH. Qed.
Lemma insert_ordered : forall x l, ordered cmp l -> ordered cmp (stable_insert cmp x l).
Proof.
  intros x. induction l as [|y l IH]; intros H; [constructor; constructor|]. cbn [stable_insert].
  inversion_clear H as [|? ? H1 H2]. destruct (cmp y x <? 0) eqn:E.
  - constructor; [apply IH, H1|]. apply (Permutation_Forall (insert_perm x l)). constructor; [lia|exact H2].
  - assert (cmp x y <= 0) by (pose proof (c_sym x y); lia). constructor; [constructor; auto|]. constructor; [auto|].
    eapply Forall_impl; [|exact H2]. intros z Hz. eapply c_trans; eauto.
Qed.
Lemma sort_ordered : forall l, ordered cmp (ord_sort cmp l).
Proof. induction l as [|x l IH]; [constructor|]. cbn [ord_sort fold_right]. apply insert_ordered, IH. Qed.
Lemma insert_class : forall z x l, class cmp z (stable_insert cmp x l) = class cmp z (x :: l).
Proof.
  intros z x. induction l as [|y l IH]; [reflexivity|]. cbn [stable_insert]. destruct (cmp y x <? 0) eqn:E; [|reflexivity].
  unfold class in *. cbn [filter] in *. rewrite IH. destruct (cmp z y =? 0) eqn:E1, (cmp z x =? 0) eqn:E2; auto. exfalso.
  pose proof (c_eq_trans y z x ltac:(apply c_flip0; lia) ltac:(lia)). lia.
Qed.
Lemma sort_class : forall z l, class cmp z (ord_sort cmp l) = class cmp z l.
Proof.
  intros z. induction l as [|x l IH]; [reflexivity|]. cbn [ord_sort fold_right]. rewrite insert_class. unfold class in *. cbn [filter].
  fold (ord_sort cmp l). rewrite IH. reflexivity.
Qed.

(** *** Search *)
Lemma ordered_nth : forall l i j, ordered cmp l -> (i < j < length l)%nat -> cmp (item_at l i) (item_at l j) <= 0.
Proof.
  unfold item_at. induction l as [|x l IH]; intros i j H Hij; cbn [length] in Hij; [lia|]. inversion_clear H as [|? ? H1 H2].
  destruct j as [|j]; [lia|]. destruct i as [|i]; cbn [nth].
  - rewrite Forall_forall in H2. apply H2, nth_In. lia.
  - apply IH; auto. lia.
Qed.
(** An ordered list is what is below, what is equal and what is above. *)
Lemma ordered_parts : forall n l, ordered cmp l -> exists a e b, l = a ++ e ++ b /\
  Forall (fun x => cmp x n < 0) a /\ Forall (fun x => cmp x n = 0) e /\ Forall (fun x => 0 < cmp x n) b.
Proof.
  intros n. induction l as [|x l IH]; intros H; [exists [], [], []; repeat split; constructor|].
  inversion_clear H as [|? ? H1 H2]. destruct (IH H1) as (a & e & b & -> & Ha & He & Hb).
  destruct (Z.lt_trichotomy (cmp x n) 0) as [E|[E|E]].
  - exists (x :: a), e, b. repeat split; auto.
  - exists [], (x :: e), b. assert (a = []) as ->; [|cbn; repeat split; auto].
    destruct a as [|y a]; [reflexivity|]. exfalso. inversion_clear Ha. inversion_clear H2.
    pose proof (c_eq_l x n y E). pose proof (c_sym n y). lia.
  - exists [], [], (x :: b). assert (a ++ e = []) as K; [|].
    + destruct (a ++ e) as [|y t] eqn:K; [reflexivity|]. exfalso. rewrite app_assoc, K in H2. inversion_clear H2.
      assert (Hy : cmp y n <= 0).
      { assert (In y (a ++ e)) as Hin by (rewrite K; left; reflexivity). apply in_app_or in Hin as [Hin|Hin].
        - rewrite Forall_forall in Ha. apply Ha in Hin. lia.
        - rewrite Forall_forall in He. apply He in Hin. lia. }
      pose proof (c_trans x y n ltac:(auto) Hy). lia.
    + apply app_eq_nil in K as [-> ->]. repeat split; auto.
Qed.

Lemma filter_none : forall (f : member -> bool) l, Forall (fun x => f x = false) l -> filter f l = [].
Proof. intros f l H. induction H as [|x l Hx _ IH]; [reflexivity|]. cbn [filter]. rewrite Hx. exact IH. Qed.
Lemma filter_all : forall (f : member -> bool) l, Forall (fun x => f x = true) l -> filter f l = l.
Proof. intros f l H. induction H as [|x l Hx _ IH]; [reflexivity|]. cbn [filter]. rewrite Hx, IH. reflexivity. Qed.

Lemma parts_counts : forall n a e b,
  Forall (fun x => cmp x n < 0) a -> Forall (fun x => cmp x n = 0) e -> Forall (fun x => 0 < cmp x n) b ->
  below cmp n (a ++ e ++ b) = length a /\ class cmp n (a ++ e ++ b) = e.
Proof.
  intros n a e b Ha He Hb. unfold below, class. rewrite !filter_app. split.
  - rewrite (filter_all _ a), (filter_none _ e), (filter_none _ b).
    + rewrite app_length. cbn [app length]. lia.
    + eapply Forall_impl; [|exact Hb]. cbn; intros; lia.
    + eapply Forall_impl; [|exact He]. cbn; intros; lia.
    + eapply Forall_impl; [|exact Ha]. cbn; intros; lia.
  - rewrite (filter_none _ a), (filter_all _ e), (filter_none _ b).
    + rewrite app_nil_r. reflexivity.
    + eapply Forall_impl; [|exact Hb]. cbn; intros x Hx. pose proof (c_sym x n). lia.
    + eapply Forall_impl; [|exact He]. cbn; intros x Hx. pose proof (c_sym x n). lia.
    + eapply Forall_impl; [|exact Ha]. cbn; intros x Hx. pose proof (c_sym x n). lia.
Qed.

Lemma find_loop_ok : forall n a e b, Forall (fun x => cmp x n < 0) a -> Forall (fun x => cmp x n = 0) e -> Forall (fun x => 0 < cmp x n) b ->
  forall fuel lo hi, (hi - lo < fuel)%nat -> (lo <= length a)%nat -> (length a + length e <= hi <= length (a ++ e ++ b))%nat -> (lo <= hi)%nat ->
  exists i, find_loop cmp fuel (a ++ e ++ b) n lo hi = Ok i /\
    (e = [] /\ i = length (a ++ e ++ b) \/ (length a <= i < length a + length e)%nat).
Proof.
  intros n a e b Ha He Hb. induction fuel as [|f IH]; intros lo hi Hf Hlo Hhi Hle; [lia|]. cbn [find_loop].
  rewrite !app_length in *. destruct (lo <? hi)%nat eqn:E.
  - set (m := ((lo + hi) / 2)%nat). assert (Hm : (lo <= m < hi)%nat).
    { unfold m. apply Nat.ltb_lt in E. split; [apply Nat.div_le_lower_bound; lia|apply Nat.div_lt_upper_bound; lia]. }
    assert (Hc : (m < length a)%nat /\ 0 < cmp n (item_at (a ++ e ++ b) m) \/ (length a <= m < length a + length e)%nat /\ cmp n (item_at (a ++ e ++ b) m) = 0
      \/ (length a + length e <= m)%nat /\ cmp n (item_at (a ++ e ++ b) m) < 0).
    { unfold item_at. destruct (lt_dec m (length a)) as [H|H].
      - left. split; [exact H|]. rewrite app_nth1 by lia. rewrite Forall_forall in Ha. specialize (Ha _ (nth_In a ([], VUndef) H)).
        pose proof (c_sym (nth m a ([], VUndef)) n). lia.
      - rewrite app_nth2 by lia. destruct (lt_dec (m - length a) (length e)) as [H'|H'].
        + right. left. split; [lia|]. rewrite app_nth1 by lia. rewrite Forall_forall in He. apply c_flip0, He, nth_In. lia.
        + right. right. split; [lia|]. rewrite app_nth2 by lia. rewrite Forall_forall in Hb.
          assert (K : (m - length a - length e < length b)%nat) by lia. specialize (Hb _ (nth_In b ([], VUndef) K)).
          pose proof (c_sym (nth (m - length a - length e) b ([], VUndef)) n). lia. }
    destruct Hc as [(H1 & H2)|[(H1 & H2)|(H1 & H2)]].
    + replace (cmp n (item_at (a ++ e ++ b) m) <? 0) with false by lia. replace (0 <? cmp n (item_at (a ++ e ++ b) m)) with true by lia.
      destruct (IH (m + 1)%nat hi) as (i & Hi & Hi'); [lia..|]. exists i. rewrite Hi. split; [reflexivity|exact Hi'].
    + rewrite H2. cbn [Z.ltb Z.compare]. exists m. split; [reflexivity|]. right. lia.
    + replace (cmp n (item_at (a ++ e ++ b) m) <? 0) with true by lia.
      destruct (IH lo m) as (i & Hi & Hi'); [lia..|]. exists i. rewrite Hi. split; [reflexivity|exact Hi'].
  - apply Nat.ltb_ge in E. eexists. split; [reflexivity|]. left. destruct e; [split; reflexivity|cbn [length] in *; lia].
Qed.
Lemma find_ok : forall n a e b, Forall (fun x => cmp x n < 0) a -> Forall (fun x => cmp x n = 0) e -> Forall (fun x => 0 < cmp x n) b ->
  exists i, ord_find cmp (a ++ e ++ b) n = Ok i /\
    (e = [] /\ i = length (a ++ e ++ b) \/ (length a <= i < length a + length e)%nat).
Proof.
  intros n a e b Ha He Hb. unfold ord_find. apply find_loop_ok; auto; rewrite ?app_length; lia.
Qed.

Lemma find_spec : forall l n, ordered cmp l ->
  exists i, ord_find cmp l n = Ok i /\
    (i = length l /\ Forall (fun x => cmp n x <> 0) l \/ (i < length l)%nat /\ cmp n (item_at l i) = 0).
Proof.
  intros l n H. destruct (ordered_parts n l H) as (a & e & b & -> & Ha & He & Hb).
  destruct (find_ok n a e b Ha He Hb) as (i & Hi & Hc). exists i. split; [exact Hi|]. destruct Hc as [[-> ->]|Hr].
  - left. split; [reflexivity|]. cbn [app]. apply Forall_app. split.
    + eapply Forall_impl; [|exact Ha]. cbn; intros x Hx. pose proof (c_sym x n). lia.
    + eapply Forall_impl; [|exact Hb]. cbn; intros x Hx. pose proof (c_sym x n). lia.
  - right. rewrite !app_length. split; [lia|]. unfold item_at. rewrite app_nth2, app_nth1 by lia.
    rewrite Forall_forall in He. apply c_flip0, He, nth_In. lia.
Qed.

Lemma lower_loop_ok : forall n a e b, Forall (fun x => cmp x n < 0) a -> Forall (fun x => cmp x n = 0) e ->
  forall i, (length a <= i <= length a + length e)%nat -> lower_loop cmp (a ++ e ++ b) n i = length a.
Proof.
  intros n a e b Ha He. induction i as [|i IH]; intros Hi; cbn [lower_loop]; [lia|].
  destruct (Nat.eq_dec (S i) (length a)) as [E|E].
  - unfold item_at. rewrite app_nth1 by lia. rewrite Forall_forall in Ha. assert (K : (i < length a)%nat) by lia.
    specialize (Ha _ (nth_In a ([], VUndef) K)). replace (_ =? 0) with false by lia. exact E.
  - unfold item_at. rewrite app_nth2, app_nth1 by lia. rewrite Forall_forall in He. assert (K : (i - length a < length e)%nat) by lia.
    rewrite (He _ (nth_In e ([], VUndef) K)). cbn [Z.eqb]. apply IH. lia.
Qed.
Lemma upper_loop_ok : forall n a e b, Forall (fun x => cmp x n = 0) e -> Forall (fun x => 0 < cmp x n) b ->
  forall k i, k = (length (a ++ e ++ b) - i)%nat -> (length a <= i < length a + length e)%nat ->
  upper_loop cmp (a ++ e ++ b) n k i = (length a + length e)%nat.
Proof.
  intros n a e b He Hb. induction k as [|k IH]; intros i Hk Hi; rewrite !app_length in Hk; cbn [upper_loop]; [lia|].
  destruct (Nat.eq_dec (S i) (length a + length e)) as [E|E].
  - destruct (_ =? 0) eqn:Ec; [|exact E]. unfold item_at in Ec. destruct b as [|y b].
    + cbn [length] in Hk. replace k with O by lia. exact E.
    + exfalso. rewrite app_nth2, app_nth2 in Ec by lia. replace (S i - length a - length e)%nat with O in Ec by lia. cbn [nth] in Ec.
      inversion_clear Hb. lia.
  - replace (_ =? 0) with true; [apply IH; rewrite ?app_length; lia|]. symmetry. unfold item_at. rewrite app_nth2, app_nth1 by lia.
    rewrite Forall_forall in He. assert (K : (S i - length a < length e)%nat) by lia. rewrite (He _ (nth_In e ([], VUndef) K)). reflexivity.
Qed.
Lemma lower_last : forall n l, Forall (fun x => cmp x n <> 0) l -> lower_loop cmp l n (length l) = length l.
Proof.
  intros n l H. destruct l as [|x l] using rev_ind; [reflexivity|]. rewrite app_length. cbn [length]. rewrite Nat.add_comm. cbn [lower_loop plus].
  unfold item_at. rewrite app_nth2 by lia. rewrite Nat.sub_diag. cbn [nth]. apply Forall_app in H as [_ H]. inversion_clear H.
  replace (_ =? 0) with false by lia. reflexivity.
Qed.

Lemma bounds_spec : forall l n, ordered cmp l -> let lo := below cmp n l in let k := length (class cmp n l) in
  firstn k (skipn lo l) = class cmp n l /\
  (ord_lower cmp l n = Ok (if (k =? 0)%nat then length l else lo)) /\
  (ord_upper cmp l n = Ok (if (k =? 0)%nat then length l else lo + k)%nat) /\
  (ord_range cmp l n = Ok (if (k =? 0)%nat then (length l, length l) else (lo, lo + k)%nat)).
Proof.
  intros l n H lo k. subst lo k. destruct (ordered_parts n l H) as (a & e & b & -> & Ha & He & Hb).
  destruct (parts_counts n a e b Ha He Hb) as [-> ->].
  split. { rewrite skipn_app, skipn_all, Nat.sub_diag. cbn [app skipn]. rewrite firstn_app, Nat.sub_diag, firstn_all, firstn_O, app_nil_r. reflexivity. }
  unfold ord_lower, ord_upper, ord_range. destruct (find_ok n a e b Ha He Hb) as (i & -> & [[-> ->]|Hr]); cbn [bind].
  - cbn [length Nat.eqb]. rewrite (proj2 (Nat.leb_le _ _)) by lia. rewrite Nat.sub_diag. cbn [upper_loop].
    split; [reflexivity|]. split; [reflexivity|].
    rewrite lower_last.
    + rewrite Nat.sub_diag. reflexivity.
    + cbn [app]. apply Forall_app. split; [eapply Forall_impl; [|exact Ha]|eapply Forall_impl; [|exact Hb]]; cbn; intros; lia.
  - replace (length e =? 0)%nat with false by (symmetry; apply Nat.eqb_neq; lia).
    replace (_ <=? i)%nat with false by (symmetry; apply Nat.leb_gt; rewrite !app_length; lia).
    split; [f_equal; apply lower_loop_ok; auto; lia|]. split; [f_equal; apply upper_loop_ok; auto|].
    rewrite lower_loop_ok by (auto; lia). do 2 f_equal. apply upper_loop_ok; auto. lia.
Qed.

(** *** Runs *)
Lemma push_room : forall cap av m, (length av < cap)%nat -> push_cap cap av m = av ++ [m].
Proof. intros cap av m H. unfold push_cap. rewrite (proj2 (Nat.ltb_lt _ _)) by lia. reflexivity. Qed.
Fixpoint uniq_list (prev : member) (l : list member) : list member :=
  match l with
  | [] => [prev]
  | v :: l' => if cmp prev v =? 0 then uniq_list prev l' else prev :: uniq_list v l'
  end.
Lemma uniq_length : forall l p, (length (uniq_list p l) <= S (length l))%nat.
Proof. induction l as [|v l IH]; intros p; cbn [uniq_list length]; [lia|]. destruct (cmp p v =? 0); [specialize (IH p)|specialize (IH v)]; cbn [length]; lia. Qed.
Lemma uniq_loop_list : forall cap l p av, (length av + S (length l) <= cap)%nat -> uniq_loop cmp cap p l av = av ++ uniq_list p l.
Proof.
  intros cap. induction l as [|v l IH]; intros p av H; cbn [uniq_loop uniq_list length] in *; [apply push_room; lia|].
  destruct (cmp p v =? 0); [apply IH; lia|]. rewrite push_room by lia. rewrite IH by (rewrite app_length; cbn [length]; lia).
  rewrite <- app_assoc. reflexivity.
Qed.
Lemma uniq_head : forall l p, exists t, uniq_list p l = p :: t.
Proof. induction l as [|v l IH]; intros p; cbn [uniq_list]; [eauto|]. destruct (cmp p v =? 0); eauto. Qed.
Lemma uniq_sorted : forall l p, ordered cmp (p :: l) -> strictly_ordered cmp (uniq_list p l).
Proof.
  induction l as [|v l IH]; intros p H; cbn [uniq_list]; [constructor; constructor|].
  inversion_clear H as [|? ? H1 H2]. inversion_clear H1 as [|? ? H3 H4]. inversion_clear H2 as [|? ? H5 H6].
  destruct (cmp p v =? 0) eqn:E; [apply IH; constructor; auto|]. constructor.
  - apply IH. constructor; auto.
  - destruct (uniq_head l v) as (t & Et). pose proof (IH v ltac:(constructor; auto)) as Hs. rewrite Et in *. inversion_clear Hs as [|? ? Hs1 Hs2].
    constructor; [lia|]. eapply Forall_impl; [|exact Hs2]. intros z Hz. cbn in Hz. apply (c_lt_le p v z); lia.
Qed.
Lemma uniq_class : forall l p x, ordered cmp (p :: l) -> class cmp x (uniq_list p l) = firstn 1 (class cmp x (p :: l)).
Proof.
  induction l as [|v l IH]; intros p x H; cbn [uniq_list].
  - unfold class. cbn [filter]. destruct (cmp x p =? 0); reflexivity.
  - inversion_clear H as [|? ? H1 H2]. inversion H1 as [|? ? H3 H4]; subst. inversion_clear H2 as [|? ? H5 H6].
    destruct (cmp p v =? 0) eqn:E.
    + rewrite IH by (constructor; auto). unfold class. cbn [filter]. pose proof (c_eq_r p v x ltac:(lia)).
      destruct (cmp x p =? 0) eqn:E1, (cmp x v =? 0) eqn:E2; try lia; reflexivity.
    + unfold class in *. cbn [filter]. specialize (IH v x ltac:(constructor; auto)). cbn [filter] in IH.
      destruct (cmp x p =? 0) eqn:E1; [|exact IH]. cbn [firstn]. f_equal.
      assert (N : Forall (fun y => (cmp x y =? 0) = false) (v :: l)).
      { apply Forall_forall. intros y Hy. assert (Hpy : cmp p y < 0).
        { destruct Hy as [<-|Hy]; [lia|]. rewrite Forall_forall in H4. apply (c_lt_le p v y); [lia|]. apply H4, Hy. }
        pose proof (c_eq_l x p y ltac:(lia)). lia. }
      pose proof (filter_none _ _ N) as N'. cbn [filter] in N'. rewrite N' in IH. exact IH.
Qed.
Lemma uniq_spec : forall l, ordered cmp l -> strictly_ordered cmp (ord_uniq cmp l) /\
  forall x, class cmp x (ord_uniq cmp l) = firstn 1 (class cmp x l).
Proof.
  intros [|p l] H; [split; [constructor|reflexivity]|]. cbn [ord_uniq]. rewrite uniq_loop_list by (cbn [length]; lia). cbn [app].
  split; [apply uniq_sorted, H|intros; apply uniq_class, H].
Qed.

Lemma group_loop_concat : forall l p run, concat (group_loop cmp p run l) = run ++ l.
Proof.
  induction l as [|v l IH]; intros p run; cbn [group_loop concat]; [reflexivity|]. destruct (cmp p v =? 0).
  - rewrite IH, <- app_assoc. reflexivity.
  - cbn [concat]. rewrite IH. reflexivity.
Qed.
Lemma runs_concat : forall l, concat (ord_runs cmp l) = l.
Proof. intros [|p l]; [reflexivity|]. cbn [ord_runs]. rewrite group_loop_concat. reflexivity. Qed.
(** On an ordered list every run is a class. *)
Lemma group_loop_runs : forall l p run, ordered cmp (run ++ l) -> run <> [] -> Forall (fun x => cmp p x = 0) run ->
  Forall (fun r => exists x, In x r /\ r = class cmp x (run ++ l)) (group_loop cmp p run l) /\
  StronglySorted (fun r s => forall a b, In a r -> In b s -> cmp a b < 0) (group_loop cmp p run l).
Proof.
  induction l as [|v l IH]; intros p run Ho Hn Hr; cbn [group_loop].
  - split; [|constructor; constructor]. constructor; [|constructor]. destruct run as [|x run]; [congruence|]. exists x. split; [left; reflexivity|].
    rewrite app_nil_r. unfold class. symmetry. apply filter_all. inversion Hr as [|? ? Hx Hr']; subst. eapply Forall_impl; [|exact Hr].
    cbn; intros y Hy. pose proof (c_eq_l p x y Hx). lia.
  - destruct (cmp p v =? 0) eqn:E.
    + replace (run ++ v :: l) with ((run ++ [v]) ++ l) in * by (rewrite <- app_assoc; reflexivity). apply IH; auto.
      * destruct run; discriminate.
      * apply Forall_app. split; [exact Hr|]. constructor; [lia|constructor].
    + assert (Hv : ordered cmp ([v] ++ l)).
      { clear -Ho. induction run as [|x run IH]; [exact Ho|]. inversion_clear Ho. apply IH; auto. }
      assert (Hlt : forall a b, In a run -> In b (v :: l) -> cmp a b < 0).
      { intros a b Ha Hb. rewrite Forall_forall in Hr. pose proof (Hr a Ha) as Hpa.
        assert (cmp a v <= 0).
        { clear -Ho Ha. induction run as [|x run IH]; [contradiction|]. inversion_clear Ho as [|? ? H1 H2]. destruct Ha as [->|Ha]; [|apply IH; auto].
          rewrite Forall_forall in H2. apply H2, in_or_app. right. left. reflexivity. }
        assert (cmp a v < 0) by (pose proof (c_eq_l p a v Hpa); lia). destruct Hb as [<-|Hb]; [auto|].
        inversion_clear Hv as [|? ? _ H2]. rewrite Forall_forall in H2. apply (c_lt_le a v b); [assumption|]. apply H2, Hb. }
      destruct (IH v [v] Hv ltac:(discriminate) ltac:(constructor; [apply c_refl|constructor])) as [H1 H2]. split.
      * constructor.
        -- destruct run as [|x run]; [congruence|]. exists x. split; [left; reflexivity|]. unfold class. rewrite filter_app.
           rewrite filter_all, (filter_none _ (v :: l)), app_nil_r; [reflexivity| |].
           ++ apply Forall_forall. intros b Hb. specialize (Hlt x b ltac:(left; reflexivity) Hb). lia.
           ++ inversion Hr as [|? ? Hx Hr']; subst. eapply Forall_impl; [|exact Hr]. cbn; intros y Hy. pose proof (c_eq_l p x y Hx). lia.
        -- eapply Forall_impl; [|apply (Forall_and H1 (proj2 (Forall_forall (fun r => incl r (v :: l)) (group_loop cmp v [v] l)) ltac:(
             intros r Hr' y Hy; pose proof (group_loop_concat l v [v]) as K; cbn [app] in K; rewrite <- K; apply in_concat; eauto)))].
           cbn beta. intros r [(x & Hx & ->) Hi]. exists x. split; [exact Hx|]. unfold class at 2. rewrite filter_app, (filter_none _ run); [reflexivity|].
           apply Forall_forall. intros a Ha. specialize (Hlt a x Ha (Hi x Hx)). pose proof (c_sym a x). lia.
      * constructor; [exact H2|]. apply Forall_forall. intros s Hs a b Ha Hb. apply Hlt; auto.
        pose proof (group_loop_concat l v [v]) as K. cbn [app] in K. rewrite <- K. apply in_concat. eauto.
Qed.
Lemma runs_spec : forall l, ordered cmp l ->
  Forall (fun r => exists x, In x r /\ r = class cmp x l) (ord_runs cmp l) /\
  StronglySorted (fun r s => forall a b, In a r -> In b s -> cmp a b < 0) (ord_runs cmp l).
Proof.
  intros [|p l] H; [split; constructor|]. cbn [ord_runs]. apply (group_loop_runs l p [p]); auto; [discriminate|].
  constructor; [apply c_refl|constructor].
Qed.

(** *** Set operations *)
Section Comm.
Context (side : Z) (fn : member -> member -> member).
Notation hasL := (has_side side diff_left).
Notation hasR := (has_side side diff_right).
Notation hasC := (has_side side side_common).
Definition comm_list : list member -> list member -> list member :=
  fix go1 (l1 : list member) : list member -> list member :=
    match l1 with
    | [] => fun l2 => if hasR then l2 else []
    | a1 :: t1 =>
      fix go2 (l2 : list member) {struct l2} : list member :=
        match l2 with
        | [] => if hasL then a1 :: t1 else []
        | a2 :: t2 =>
          let r := cmp a1 a2 in
          if r <? 0 then (if hasL then [a1] else []) ++ go1 t1 (a2 :: t2)
          else if 0 <? r then (if hasR then [a2] else []) ++ go2 t2
          else (if hasC then [fn a1 a2] else []) ++ go1 t1 t2
        end
    end.
Lemma comm_list_nil : forall l2, comm_list [] l2 = if hasR then l2 else [].
Proof. reflexivity. Qed.
Lemma comm_list_nil2 : forall a1 t1, comm_list (a1 :: t1) [] = if hasL then a1 :: t1 else [].
Proof. reflexivity. Qed.
Lemma comm_list_cons : forall a1 t1 a2 t2, comm_list (a1 :: t1) (a2 :: t2) =
  if cmp a1 a2 <? 0 then (if hasL then [a1] else []) ++ comm_list t1 (a2 :: t2)
  else if 0 <? cmp a1 a2 then (if hasR then [a2] else []) ++ comm_list (a1 :: t1) t2
  else (if hasC then [fn a1 a2] else []) ++ comm_list t1 t2.
Proof. reflexivity. Qed.
(** Induction along the loop. *)
Lemma comm_ind : forall P : list member -> list member -> Prop,
  (forall l2, P [] l2) -> (forall a1 t1, P (a1 :: t1) []) ->
  (forall a1 t1 a2 t2, cmp a1 a2 < 0 -> P t1 (a2 :: t2) -> P (a1 :: t1) (a2 :: t2)) ->
  (forall a1 t1 a2 t2, 0 < cmp a1 a2 -> P (a1 :: t1) t2 -> P (a1 :: t1) (a2 :: t2)) ->
  (forall a1 t1 a2 t2, cmp a1 a2 = 0 -> P t1 t2 -> P (a1 :: t1) (a2 :: t2)) ->
  forall l1 l2, P l1 l2.
Proof.
  intros P H1 H2 H3 H4 H5. induction l1 as [|a1 t1 IH]; [exact H1|]. induction l2 as [|a2 t2 IH2]; [apply H2|].
  destruct (Z.lt_trichotomy (cmp a1 a2) 0) as [E|[E|E]]; auto.
Qed.
Ltac comm_step E :=
  rewrite comm_list_cons;
  match type of E with
  | ?c < 0 => replace (c <? 0) with true by lia
  | 0 < ?c => replace (c <? 0) with false by lia; replace (0 <? c) with true by lia
  | ?c = 0 => replace (c <? 0) with false by lia; replace (0 <? c) with false by lia
  end.
Lemma comm_length : forall l1 l2,
  (length (comm_list l1 l2) <= length l1 + length l2)%nat /\
  (hasR = false -> length (comm_list l1 l2) <= length l1)%nat /\
  (hasL = false -> length (comm_list l1 l2) <= length l2)%nat.
Proof.
  apply comm_ind; intros.
  - rewrite comm_list_nil. destruct hasR; cbn [length]; repeat split; intros; try discriminate; lia.
  - rewrite comm_list_nil2. destruct hasL; cbn [length]; repeat split; intros; try discriminate; lia.
  - comm_step H. rewrite app_length. destruct H0 as (A & B & C). cbn [length] in *.
    destruct hasL; cbn [length]; repeat split; intros; try discriminate; try specialize (B ltac:(auto)); try specialize (C ltac:(auto)); lia.
  - comm_step H. rewrite app_length. destruct H0 as (A & B & C). cbn [length] in *.
    destruct hasR; cbn [length]; repeat split; intros; try discriminate; try specialize (B ltac:(auto)); try specialize (C ltac:(auto)); lia.
  - comm_step H. rewrite app_length. destruct H0 as (A & B & C). cbn [length] in *.
    destruct hasC; cbn [length]; repeat split; intros; try discriminate; try specialize (B ltac:(auto)); try specialize (C ltac:(auto)); lia.
Qed.
Lemma comm_loop_step : forall cap a1 t1 a2 t2 av, comm_loop cmp side fn cap (a1 :: t1) (a2 :: t2) av =
  if cmp a1 a2 <? 0 then comm_loop cmp side fn cap t1 (a2 :: t2) (if hasL then push_cap cap av a1 else av)
  else if 0 <? cmp a1 a2 then comm_loop cmp side fn cap (a1 :: t1) t2 (if hasR then push_cap cap av a2 else av)
  else comm_loop cmp side fn cap t1 t2 (if hasC then push_cap cap av (fn a1 a2) else av).
Proof. reflexivity. Qed.
Lemma push_all : forall cap l av, (length av + length l <= cap)%nat -> fold_left (push_cap cap) l av = av ++ l.
Proof.
  intros cap. induction l as [|x l IH]; intros av H; cbn [fold_left length] in *; [rewrite app_nil_r; reflexivity|].
  rewrite push_room by lia. rewrite IH by (rewrite app_length; cbn [length]; lia). rewrite <- app_assoc. reflexivity.
Qed.
Definition comm_finish (cap : nat) (x : list member * list member * list member) : list member :=
  let '(r1, r2, av) := x in
  let av1 := if hasL then fold_left (push_cap cap) r1 av else av in
  if hasR then fold_left (push_cap cap) r2 av1 else av1.
Lemma comm_loop_list : forall cap l1 l2 av, (length av + length (comm_list l1 l2) <= cap)%nat ->
  comm_finish cap (comm_loop cmp side fn cap l1 l2 av) = av ++ comm_list l1 l2.
Proof.
  intros cap. apply (comm_ind (fun l1 l2 => forall av, (length av + length (comm_list l1 l2) <= cap)%nat ->
    comm_finish cap (comm_loop cmp side fn cap l1 l2 av) = av ++ comm_list l1 l2)).
  - intros l2 av H. rewrite comm_list_nil in *. cbn [comm_loop comm_finish fold_left]. destruct hasL, hasR; cbn [length] in H; rewrite ?push_all by lia; rewrite ?app_nil_r; reflexivity.
  - intros a1 t1 av H. rewrite comm_list_nil2 in *. change (comm_loop cmp side fn cap (a1 :: t1) [] av) with (a1 :: t1, @nil member, av). unfold comm_finish. destruct hasL, hasR; cbn [length] in H; rewrite ?(push_all cap (a1 :: t1) av) by (cbn [length]; lia); cbn [fold_left]; rewrite ?app_nil_r; reflexivity.
  - intros a1 t1 a2 t2 H IH av. comm_step H. rewrite comm_loop_step. replace (cmp a1 a2 <? 0) with true by lia. rewrite app_length. intros Hc.
    destruct hasL; cbn [length app] in *; [rewrite push_room by lia|]; rewrite IH by (rewrite ?app_length; cbn [length]; lia); rewrite <- ?app_assoc; reflexivity.
  - intros a1 t1 a2 t2 H IH av. comm_step H. rewrite comm_loop_step. replace (cmp a1 a2 <? 0) with false by lia. replace (0 <? cmp a1 a2) with true by lia.
    rewrite app_length. intros Hc.
    destruct hasR; cbn [length app] in *; [rewrite push_room by lia|]; rewrite IH by (rewrite ?app_length; cbn [length]; lia); rewrite <- ?app_assoc; reflexivity.
  - intros a1 t1 a2 t2 H IH av. comm_step H. rewrite comm_loop_step. replace (cmp a1 a2 <? 0) with false by lia. replace (0 <? cmp a1 a2) with false by lia.
    rewrite app_length. intros Hc.
    destruct hasC; cbn [length app] in *; [rewrite push_room by lia|]; rewrite IH by (rewrite ?app_length; cbn [length]; lia); rewrite <- ?app_assoc; reflexivity.
Qed.
Lemma comm_is_list : forall l1 l2, ord_comm cmp side fn l1 l2 = comm_list l1 l2.
Proof.
  intros l1 l2. unfold ord_comm. fold (comm_finish (est_size side (length l1) (length l2)) (comm_loop cmp side fn (est_size side (length l1) (length l2)) l1 l2 [])).
  rewrite comm_loop_list; [reflexivity|]. cbn [length plus]. destruct (comm_length l1 l2) as (A & B & C). unfold est_size.
  destruct (_ || _) eqn:E1.
  - apply B. unfold has_side. apply orb_true_iff in E1 as [E1|E1]; apply Z.eqb_eq in E1; rewrite E1; reflexivity.
  - destruct ((side =? Z.lor diff_right side_common) || (side =? diff_right)) eqn:E2.
    + apply C. unfold has_side. apply orb_true_iff in E2 as [E2|E2]; apply Z.eqb_eq in E2; rewrite E2; reflexivity.
    + destruct (side =? side_common) eqn:E3; [|exact A]. apply Z.eqb_eq in E3.
      pose proof (B ltac:(unfold has_side; rewrite E3; reflexivity)). lia.
Qed.

Context (FN : forall a b, cmp a b = 0 -> cmp (fn a b) b = 0).
Lemma comm_lower : forall z l1 l2, Forall (fun x => cmp z x <= 0) l1 -> Forall (fun x => cmp z x <= 0) l2 -> Forall (fun x => cmp z x <= 0) (comm_list l1 l2).
Proof.
  intros z. apply (comm_ind (fun l1 l2 => Forall (fun x => cmp z x <= 0) l1 -> Forall (fun x => cmp z x <= 0) l2 -> Forall (fun x => cmp z x <= 0) (comm_list l1 l2))).
  - intros l2 H1 H2. rewrite comm_list_nil. destruct hasR; auto.
  - intros a1 t1 H1 H2. rewrite comm_list_nil2. destruct hasL; auto.
  - intros a1 t1 a2 t2 E IH H1 H2. comm_step E. inversion_clear H1. apply Forall_app. split; [destruct hasL; auto|auto].
  - intros a1 t1 a2 t2 E IH H1 H2. comm_step E. inversion_clear H2. apply Forall_app. split; [destruct hasR; auto|auto].
  - intros a1 t1 a2 t2 E IH H1 H2. comm_step E. inversion_clear H1. inversion_clear H2. apply Forall_app. split; [destruct hasC; auto|auto].
    constructor; [|constructor]. pose proof (c_eq_r _ _ z (FN a1 a2 E)). lia.
Qed.
Lemma comm_ordered : forall l1 l2, ordered cmp l1 -> ordered cmp l2 -> ordered cmp (comm_list l1 l2).
Proof.
  assert (K : forall (b : bool) x l, ordered cmp l -> Forall (fun y => cmp x y <= 0) l -> ordered cmp ((if b then [x] else []) ++ l)).
  { intros [|] x l H1 H2; cbn [app]; [constructor; auto|exact H1]. }
  assert (T : forall a b l, cmp a b <= 0 -> Forall (fun y => cmp b y <= 0) l -> Forall (fun y => cmp a y <= 0) l).
  { intros a b l H H1. eapply Forall_impl; [|exact H1]. cbn; intros y Hy. eapply c_trans; eauto. }
  apply (comm_ind (fun l1 l2 => ordered cmp l1 -> ordered cmp l2 -> ordered cmp (comm_list l1 l2))).
  - intros l2 H1 H2. rewrite comm_list_nil. destruct hasR; [auto|constructor].
  - intros a1 t1 H1 H2. rewrite comm_list_nil2. destruct hasL; [auto|constructor].
  - intros a1 t1 a2 t2 E IH H1 H2. comm_step E. inversion_clear H1 as [|? ? H3 H4]. inversion H2 as [|? ? H5 H6]; subst. apply K; [auto|].
    apply comm_lower; [exact H4|]. constructor; [lia|]. apply (T a1 a2); auto. lia.
  - intros a1 t1 a2 t2 E IH H1 H2. comm_step E. inversion H1 as [|? ? H3 H4]; subst. inversion_clear H2 as [|? ? H5 H6]. apply K; [auto|].
    assert (cmp a2 a1 <= 0) by (pose proof (c_sym a1 a2); lia).
    apply comm_lower; [|exact H6]. constructor; [lia|]. apply (T a2 a1); auto.
  - intros a1 t1 a2 t2 E IH H1 H2. comm_step E. inversion_clear H1 as [|? ? H3 H4]. inversion_clear H2 as [|? ? H5 H6]. apply K; [auto|].
    pose proof (FN a1 a2 E) as Ef. apply comm_lower.
    + apply (T (fn a1 a2) a2); [lia|]. apply (T a2 a1); [apply c_flip0 in E; lia|auto].
    + apply (T (fn a1 a2) a2); [lia|auto].
Qed.

Definition class_result (a b : list member) : list member :=
  (if hasC then map (fun p => fn (fst p) (snd p)) (combine a b) else []) ++
  (if hasL then skipn (length b) a else []) ++
  (if hasR then skipn (length a) b else []).
Lemma class_app : forall x l m, class cmp x (l ++ m) = class cmp x l ++ class cmp x m.
Proof. intros. apply filter_app. Qed.
Lemma class_cons : forall x y l, class cmp x (y :: l) = (if cmp x y =? 0 then [y] else []) ++ class cmp x l.
Proof. intros x y l. unfold class. cbn [filter]. destruct (cmp x y =? 0); reflexivity. Qed.
Lemma class_if : forall x (b : bool) y, class cmp x (if b then [y] else []) = if b then (if cmp x y =? 0 then [y] else []) else [].
Proof. intros x [|] y; [rewrite class_cons; apply app_nil_r|reflexivity]. Qed.
(** Everything not below [a2] is above [a1]. *)
Lemma class_above : forall a1 a2 t2 x, cmp a1 a2 < 0 -> ordered cmp (a2 :: t2) -> cmp x a1 = 0 -> class cmp x (a2 :: t2) = [].
Proof.
  intros a1 a2 t2 x E H Hx. apply filter_none. inversion_clear H as [|? ? _ H2].
  assert (K : forall y, cmp a1 y < 0 -> (cmp x y =? 0) = false) by (intros y Hy; pose proof (c_eq_l x a1 y Hx); lia).
  constructor; [apply K; lia|]. eapply Forall_impl; [|exact H2]. cbn; intros y Hy. apply K. eapply c_lt_le; eauto.
Qed.
Lemma class_result_nil1 : forall b, class_result [] b = if hasR then b else [].
Proof. intros b. unfold class_result. cbn [combine map length skipn]. rewrite skipn_nil. destruct hasC, hasL; reflexivity. Qed.
Lemma class_result_nil2 : forall a, class_result a [] = if hasL then a else [].
Proof.
  intros a. unfold class_result. cbn [length skipn]. rewrite skipn_nil. destruct a as [|x a]; cbn [combine map]; destruct hasC, hasL, hasR; cbn [app]; rewrite ?app_nil_r; reflexivity.
Qed.
Lemma class_result_cons : forall x y a b, class_result (x :: a) (y :: b) = (if hasC then [fn x y] else []) ++ class_result a b.
Proof. intros. unfold class_result. cbn [combine map length skipn fst snd]. destruct hasC; reflexivity. Qed.
Lemma comm_class : forall x l1 l2, ordered cmp l1 -> ordered cmp l2 ->
  class cmp x (comm_list l1 l2) = class_result (class cmp x l1) (class cmp x l2).
Proof.
  intros x. apply (comm_ind (fun l1 l2 => ordered cmp l1 -> ordered cmp l2 -> class cmp x (comm_list l1 l2) = class_result (class cmp x l1) (class cmp x l2))).
  - intros l2 H1 H2. rewrite comm_list_nil. change (class cmp x []) with (@nil member). rewrite class_result_nil1. destruct hasR; reflexivity.
  - intros a1 t1 H1 H2. rewrite comm_list_nil2. change (class cmp x []) with (@nil member). rewrite class_result_nil2. destruct hasL; reflexivity.
  - intros a1 t1 a2 t2 E IH H1 H2. comm_step E. rewrite class_app, class_if. inversion_clear H1 as [|? ? H3 H4]. rewrite (IH H3 H2).
    rewrite (class_cons x a1 t1). destruct (cmp x a1 =? 0) eqn:Ex.
    + rewrite (class_above a1 a2 t2 x E H2) by lia. rewrite !class_result_nil2. destruct hasL; reflexivity.
    + destruct hasL; reflexivity.
  - intros a1 t1 a2 t2 E IH H1 H2. comm_step E. rewrite class_app, class_if. inversion_clear H2 as [|? ? H3 H4]. rewrite (IH H1 H3).
    rewrite (class_cons x a2 t2). destruct (cmp x a2 =? 0) eqn:Ex.
    + rewrite (class_above a2 a1 t1 x ltac:(pose proof (c_sym a1 a2); lia) H1) by lia. rewrite !class_result_nil1. destruct hasR; reflexivity.
    + destruct hasR; reflexivity.
  - intros a1 t1 a2 t2 E IH H1 H2. comm_step E. rewrite class_app, class_if. inversion_clear H1 as [|? ? H3 H4]. inversion_clear H2 as [|? ? H5 H6]. rewrite (IH H3 H5).
    rewrite (class_cons x a1 t1), (class_cons x a2 t2). pose proof (c_eq_r a1 a2 x E). pose proof (c_eq_r _ _ x (FN a1 a2 E)).
    destruct (cmp x a1 =? 0) eqn:E1; [replace (cmp x a2 =? 0) with true by lia; replace (cmp x (fn a1 a2) =? 0) with true by lia
      |replace (cmp x a2 =? 0) with false by lia; replace (cmp x (fn a1 a2) =? 0) with false by lia].
    + cbn [app]; rewrite class_result_cons. reflexivity.
    + destruct hasC; reflexivity.
Qed.
End Comm.

Lemma combine_snd : forall a b : list member, map (fun p => snd p) (combine a b) = firstn (length a) b.
Proof. induction a as [|x a IH]; intros [|y b]; cbn [combine map length firstn]; [reflexivity..|]. rewrite IH. reflexivity. Qed.
Lemma default_ok : forall a b, cmp a b = 0 -> cmp (default_conflict a b) b = 0.
Proof. intros. apply c_refl. Qed.

Lemma merge_spec : forall l1 l2, ordered cmp l1 -> ordered cmp l2 -> ordered cmp (ord_merge cmp l1 l2) /\
  forall x, class cmp x (ord_merge cmp l1 l2) = class cmp x l2 ++ skipn (length (class cmp x l2)) (class cmp x l1).
Proof.
  intros l1 l2 H1 H2. unfold ord_merge, ord_merge_with. rewrite comm_is_list. split; [apply comm_ordered; auto using default_ok|].
  intros x. rewrite comm_class by auto using default_ok. unfold class_result. cbn [has_side side_common diff_left diff_right Z.land Z.lor Z.eqb negb Pos.lor Pos.land].
  set (a := class cmp x l1). set (b := class cmp x l2). cbn. unfold default_conflict.
  change (map (fun p : member * member => snd p) (combine a b) ++ skipn (length b) a ++ skipn (length a) b = b ++ skipn (length b) a).
  rewrite combine_snd. destruct (le_lt_dec (length a) (length b)).
  - rewrite (skipn_all2 a) by lia. cbn [app]. rewrite app_nil_r. apply firstn_skipn.
  - rewrite (skipn_all2 b) by lia. rewrite firstn_all2 by lia. rewrite app_nil_r. reflexivity.
Qed.
Lemma merge_with_spec : forall fn l1 l2, (forall a b, cmp a b = 0 -> cmp (fn a b) b = 0) -> ordered cmp l1 -> ordered cmp l2 ->
  ordered cmp (ord_merge_with cmp fn l1 l2) /\
  forall x, class cmp x (ord_merge_with cmp fn l1 l2) =
    map (fun p => fn (fst p) (snd p)) (combine (class cmp x l1) (class cmp x l2)) ++
    skipn (length (class cmp x l2)) (class cmp x l1) ++ skipn (length (class cmp x l1)) (class cmp x l2).
Proof.
  intros fn l1 l2 Hf H1 H2. unfold ord_merge_with. rewrite comm_is_list. split; [apply comm_ordered; auto|].
  intros x. rewrite comm_class by auto. reflexivity.
Qed.
Lemma intersection_with_spec : forall fn l1 l2, (forall a b, cmp a b = 0 -> cmp (fn a b) b = 0) -> ordered cmp l1 -> ordered cmp l2 ->
  ordered cmp (ord_intersection_with cmp fn l1 l2) /\
  forall x, class cmp x (ord_intersection_with cmp fn l1 l2) =
    map (fun p => fn (fst p) (snd p)) (combine (class cmp x l1) (class cmp x l2)).
Proof.
  intros fn l1 l2 Hf H1 H2. unfold ord_intersection_with. rewrite comm_is_list. split; [apply comm_ordered; auto|].
  intros x. rewrite comm_class by auto. unfold class_result. cbn. apply app_nil_r.
Qed.
Lemma intersection_spec : forall l1 l2, ordered cmp l1 -> ordered cmp l2 -> ordered cmp (ord_intersection cmp l1 l2) /\
  forall x, class cmp x (ord_intersection cmp l1 l2) = firstn (length (class cmp x l1)) (class cmp x l2).
Proof.
  intros l1 l2 H1 H2. destruct (intersection_with_spec default_conflict l1 l2 default_ok H1 H2) as [H3 H4]. split; [exact H3|].
  intros x. unfold ord_intersection. rewrite H4. apply combine_snd.
Qed.
Lemma complement_spec : forall l1 l2, ordered cmp l1 -> ordered cmp l2 -> ordered cmp (ord_complement cmp l1 l2) /\
  forall x, class cmp x (ord_complement cmp l1 l2) = skipn (length (class cmp x l2)) (class cmp x l1).
Proof.
  intros l1 l2 H1 H2. unfold ord_complement. rewrite comm_is_list. split; [apply comm_ordered; auto using default_ok|].
  intros x. rewrite comm_class by auto using default_ok. unfold class_result. cbn. apply app_nil_r.
Qed.
Lemma symdiff_spec : forall l1 l2, ordered cmp l1 -> ordered cmp l2 -> ordered cmp (ord_symdiff cmp l1 l2) /\
  forall x, class cmp x (ord_symdiff cmp l1 l2) =
    skipn (length (class cmp x l2)) (class cmp x l1) ++ skipn (length (class cmp x l1)) (class cmp x l2).
Proof.
  intros l1 l2 H1 H2. unfold ord_symdiff. rewrite comm_is_list. split; [apply comm_ordered; auto using default_ok|].
  intros x. rewrite comm_class by auto using default_ok. reflexivity.
Qed.
End Order.

(** *** Array::split *)
Lemma split_loop_concat : forall cmp l p cur, concat (split_loop cmp p cur l) = cur ++ l.
Proof.
  intros cmp. induction l as [|v l IH]; intros p cur; cbn [split_loop concat]; [reflexivity|].
  destruct (is_defined p); cbn [negb]; [destruct (cmp p v =? 0)|]; cbn [concat]; rewrite IH, <- ?app_assoc; reflexivity.
Qed.
Lemma split_loop_defined : forall cmp l p cur, is_defined p = true -> Forall (fun x => is_defined x = true) l ->
  split_loop cmp p cur l = group_loop cmp p cur l.
Proof.
  intros cmp. induction l as [|v l IH]; intros p cur Hp Hl; cbn [split_loop group_loop]; [reflexivity|]. inversion_clear Hl.
  rewrite Hp. cbn [negb]. destruct (cmp p v =? 0); rewrite IH; auto.
Qed.
Lemma split_runs : forall cmp l, l <> [] -> Forall (fun x => is_defined x = true) l -> arr_split cmp l = ord_runs cmp l.
Proof.
  intros cmp [|p l] Hn H; [congruence|]. inversion_clear H. unfold arr_split. cbn [split_loop is_defined snd negb ord_runs app].
  apply split_loop_defined; auto.
Qed.
Lemma split_spec : forall cmp l, concat (arr_split cmp l) = l.
Proof. intros. unfold arr_split. rewrite split_loop_concat. reflexivity. Qed.

Lemma find_value_spec : forall cmp l n, total_preorder cmp -> ordered cmp l -> exists m, ord_find_value cmp l n = Ok m /\
  (m = ([], VUndef) /\ Forall (fun x => cmp n x <> 0) l \/ In m l /\ cmp n m = 0).
Proof.
  intros cmp l n TP H. unfold ord_find_value. destruct (find_spec cmp TP l n H) as (i & -> & [[-> K]|[K1 K2]]); cbn [bind].
  - rewrite Nat.leb_refl. eauto.
  - replace (length l <=? i)%nat with false by (symmetry; apply Nat.leb_gt; exact K1). eexists. split; [reflexivity|]. right. split; [|exact K2].
    apply nth_In, K1.
Qed.
Lemma group_spec : forall cmp l, total_preorder cmp -> ordered cmp l -> concat (ord_runs cmp l) = l /\
  Forall (fun r => exists x, In x r /\ r = class cmp x l) (ord_runs cmp l) /\
  StronglySorted (fun r s => forall a b, In a r -> In b s -> cmp a b < 0) (ord_runs cmp l).
Proof. intros cmp l TP H. split; [apply runs_concat|apply runs_spec; auto]. Qed.
Lemma ord_sort_spec : forall cmp l, total_preorder cmp -> ordered cmp (ord_sort cmp l) /\ Permutation l (ord_sort cmp l) /\
  forall x, class cmp x (ord_sort cmp l) = class cmp x l.
Proof. intros cmp l TP. split; [apply sort_ordered, TP|]. split; [apply sort_perm|]. intros; apply sort_class, TP. Qed.
Lemma arr_split_spec : forall cmp l, concat (arr_split cmp l) = l /\
  (l <> [] -> Forall (fun x => snd x <> VUndef) l -> arr_split cmp l = ord_runs cmp l).
Proof.
  intros cmp l. split; [apply split_spec|]. intros Hn H. apply split_runs; [exact Hn|]. eapply Forall_impl; [|exact H].
  intros [k v] Hv. cbn [snd] in Hv. unfold is_defined. cbn [snd]. destruct v; congruence.
Qed.
