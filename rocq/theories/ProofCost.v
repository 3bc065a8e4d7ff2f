(** Proofs about the cost of a search. *)
From Coq Require Import Lia.
From Verif Require Import Base ModelKeyed ModelValue ModelObject ModelArray ModelStd ModelOrdered ModelEnum ModelJwt SpecCost.

Lemma log2_pow : forall n, (n < 2 ^ (Nat.log2 n + 1))%nat.
Proof.
  intros n. destruct n as [|n]; [cbn; lia|]. pose proof (Nat.log2_spec (S n)) as H. replace (Nat.log2 (S n) + 1)%nat with (S (Nat.log2 (S n))) by lia. lia.
Qed.
Lemma log2_le : forall n, (Nat.log2 n + 1 < S n)%nat \/ n = 0%nat.
Proof. intros [|n]; [right; reflexivity|left]. pose proof (Nat.log2_lt_lin (S n)). lia. Qed.

(** *** findSorted *)
Lemma half_between : forall lo hi k, (lo < hi)%nat -> (hi - lo < 2 * 2 ^ k)%nat ->
  (lo <= (lo + hi) / 2 < hi)%nat /\ ((lo + hi) / 2 - lo < 2 ^ k)%nat /\ (hi - S ((lo + hi) / 2) < 2 ^ k)%nat.
Proof.
  intros lo hi k L H. pose proof (Nat.div_mod (lo + hi) 2 ltac:(lia)) as D. pose proof (Nat.mod_upper_bound (lo + hi) 2 ltac:(lia)) as U.
  remember ((lo + hi) / 2)%nat as m. lia.
Qed.
Lemma keyed_loop : forall A name k lo hi (l : list (bytes * A)), (lo <= hi <= length l)%nat -> (hi - lo < 2 ^ k)%nat ->
  exists ps, (length ps <= k)%nat /\ forall f l', (k < f)%nat -> length l' = length l -> (forall i, In i ps -> nth_error l' i = nth_error l i) ->
    ModelKeyed.find_loop f l' name lo hi = ModelKeyed.find_loop (S k) l name lo hi.
Proof.
  intros A name. induction k as [|k IH]; intros lo hi l B H.
  - exists []. split; [cbn; lia|]. intros [|f] l' F _ _; [lia|]. cbn [ModelKeyed.find_loop]. cbn in H. replace (lo <? hi)%nat with false; [reflexivity|].
    symmetry. apply Nat.ltb_ge. lia.
  - cbn [Nat.pow] in H. destruct (Nat.ltb_spec lo hi) as [L|L].
    2:{ exists []. split; [cbn; lia|]. intros [|f] l' F _ _; [lia|]. cbn [ModelKeyed.find_loop]. replace (lo <? hi)%nat with false; [reflexivity|].
        symmetry. apply Nat.ltb_ge. lia. }
    destruct (half_between lo hi k L ltac:(lia)) as (M & M1 & M2). set (m := ((lo + hi) / 2)%nat) in *.
    destruct (nth_error l m) as [it|] eqn:E; [|apply nth_error_None in E; lia].
    destruct (IH lo m l ltac:(lia) M1) as (p1 & P1 & Q1). destruct (IH (S m) hi l ltac:(lia) M2) as (p2 & P2 & Q2).
    exists (m :: match kcmp name (fst it) with Gt => p2 | Lt => p1 | Eq => [] end). split; [destruct (kcmp name (fst it)); cbn [length]; lia|].
    intros [|f] l' F G H'; [lia|]. cbn [ModelKeyed.find_loop]. replace (lo <? hi)%nat with true by (symmetry; apply Nat.ltb_lt; lia). fold m.
    rewrite (H' m (or_introl eq_refl)), E. destruct (kcmp name (fst it)); [reflexivity|..].
    + apply Q1; [lia|exact G|]. intros i I. apply H'. right. exact I.
    + apply Q2; [lia|exact G|]. intros i I. apply H'. right. exact I.
Qed.
Lemma keyed_turns : forall A (l : list (bytes * A)) name, findSorted l name = ModelKeyed.find_loop (Nat.log2 (length l) + 2) l name 0 (length l).
Proof.
  intros A l name. destruct (keyed_loop A name (Nat.log2 (length l) + 1) 0 (length l) l) as (ps & _ & Q); [lia|rewrite Nat.sub_0_r; apply log2_pow|].
  unfold findSorted. replace (Nat.log2 (length l) + 2)%nat with (S (Nat.log2 (length l) + 1)) by lia.
  destruct (log2_le (length l)) as [G|G]; [apply Q; auto|]. rewrite G. reflexivity.
Qed.
Lemma keyed_cost : forall A name (l : list (bytes * A)), decided_by (fun l => findSorted l name) l (Nat.log2 (length l) + 1).
Proof.
  intros A name l. destruct (keyed_loop A name (Nat.log2 (length l) + 1) 0 (length l) l) as (ps & P & Q); [lia|rewrite Nat.sub_0_r; apply log2_pow|].
  exists ps. split; [exact P|]. intros l' L H. rewrite !keyed_turns, L. replace (Nat.log2 (length l) + 2)%nat with (S (Nat.log2 (length l) + 1)) by lia.
  apply Q; auto.
Qed.
Lemma object_cost : forall d name l, decided_by (fun l => value_member (VObj d l) name) l (Nat.log2 (length l) + 1).
Proof.
  intros d name l. destruct (keyed_cost _ name l) as (ps & P & Q). exists ps. split; [exact P|]. intros l' L H. cbn [value_member].
  unfold find_member. rewrite (Q l' L H). reflexivity.
Qed.

(** *** The search of an ordered container *)
Lemma item_at_nth : forall l l' i, nth_error l' i = nth_error l i -> item_at l' i = item_at l i.
Proof.
  assert (X : forall l i, item_at l i = match nth_error l i with Some m => m | None => ([], VUndef) end).
  { intros l i. unfold item_at. revert i. induction l as [|x l IH]; intros [|i]; cbn; auto. }
  intros l l' i H. rewrite !X, H. reflexivity.
Qed.
Lemma ordered_loop : forall cmp needle k lo hi (l : list member), (lo <= hi <= length l)%nat -> (hi - lo < 2 ^ k)%nat ->
  exists ps, (length ps <= k)%nat /\ forall f l', (k < f)%nat -> length l' = length l -> (forall i, In i ps -> nth_error l' i = nth_error l i) ->
    ModelOrdered.find_loop cmp f l' needle lo hi = ModelOrdered.find_loop cmp (S k) l needle lo hi /\
    forall i, ModelOrdered.find_loop cmp (S k) l needle lo hi = Ok i -> In i ps \/ i = length l.
Proof.
  intros cmp needle. induction k as [|k IH]; intros lo hi l B H.
  - exists []. split; [cbn; lia|]. intros [|f] l' F G _; [lia|]. cbn [ModelOrdered.find_loop]. cbn in H.
    replace (lo <? hi)%nat with false by (symmetry; apply Nat.ltb_ge; lia). rewrite G. split; [reflexivity|]. intros i [= <-]. auto.
  - cbn [Nat.pow] in H. destruct (Nat.ltb_spec lo hi) as [L|L].
    2:{ exists []. split; [cbn; lia|]. intros [|f] l' F G _; [lia|]. cbn [ModelOrdered.find_loop].
        replace (lo <? hi)%nat with false by (symmetry; apply Nat.ltb_ge; lia). rewrite G. split; [reflexivity|]. intros i [= <-]. auto. }
    destruct (half_between lo hi k L ltac:(lia)) as (M & M1 & M2). remember ((lo + hi) / 2)%nat as m eqn:Em.
    destruct (IH lo m l ltac:(lia) M1) as (p1 & P1 & Q1). destruct (IH (S m) hi l ltac:(lia) M2) as (p2 & P2 & Q2).
    exists (m :: if (cmp needle (item_at l m) <? 0)%Z then p1 else if (0 <? cmp needle (item_at l m))%Z then p2 else []).
    split; [destruct (cmp needle (item_at l m) <? 0)%Z, (0 <? cmp needle (item_at l m))%Z; cbn [length]; lia|].
    intros [|f] l' F G H'; [lia|].
    assert (E : forall f l, ModelOrdered.find_loop cmp (S f) l needle lo hi =
      if (cmp needle (item_at l m) <? 0)%Z then ModelOrdered.find_loop cmp f l needle lo m
      else if (0 <? cmp needle (item_at l m))%Z then ModelOrdered.find_loop cmp f l needle (S m) hi else Ok m).
    { intros f0 l0. cbn [ModelOrdered.find_loop]. replace (lo <? hi)%nat with true by (symmetry; apply Nat.ltb_lt; lia). rewrite <- Em, Nat.add_1_r. reflexivity. }
    rewrite !E, (item_at_nth l l' m (H' m (or_introl eq_refl))).
    destruct (cmp needle (item_at l m) <? 0)%Z; [|destruct (0 <? cmp needle (item_at l m))%Z].
    + destruct (Q1 f l' ltac:(lia) G) as [R1 R2]; [intros i I; apply H'; right; exact I|]. split; [exact R1|].
      intros i I. destruct (R2 i I); [left; right; assumption|right; assumption].
    + destruct (Q2 f l' ltac:(lia) G) as [R1 R2]; [intros i I; apply H'; right; exact I|]. split; [exact R1|].
      intros i I. destruct (R2 i I); [left; right; assumption|right; assumption].
    + split; [reflexivity|]. intros i [= <-]. left. left. reflexivity.
Qed.
Lemma ordered_turns : forall cmp needle l, ord_find cmp l needle = ModelOrdered.find_loop cmp (Nat.log2 (length l) + 2) l needle 0 (length l).
Proof.
  intros cmp needle l. destruct (ordered_loop cmp needle (Nat.log2 (length l) + 1) 0 (length l) l) as (ps & _ & Q); [lia|rewrite Nat.sub_0_r; apply log2_pow|].
  unfold ord_find. replace (Nat.log2 (length l) + 2)%nat with (S (Nat.log2 (length l) + 1)) by lia.
  destruct (log2_le (length l)) as [G|G]; [apply Q; auto|]. rewrite G. reflexivity.
Qed.
Lemma ordered_cost : forall cmp needle l, decided_by (fun l => ord_find_value cmp l needle) l (Nat.log2 (length l) + 1).
Proof.
  intros cmp needle l. destruct (ordered_loop cmp needle (Nat.log2 (length l) + 1) 0 (length l) l) as (ps & P & Q); [lia|rewrite Nat.sub_0_r; apply log2_pow|].
  exists ps. split; [exact P|]. intros l' L H. unfold ord_find_value. rewrite !ordered_turns, L.
  replace (Nat.log2 (length l) + 2)%nat with (S (Nat.log2 (length l) + 1)) by lia. destruct (Q (S (Nat.log2 (length l) + 1)) l' ltac:(lia) L H) as [E I].
  rewrite E. destruct (ModelOrdered.find_loop _ _ _ _ _ _) as [i| |] eqn:F; cbn [bind]; try reflexivity.
  destruct (I i eq_refl) as [J| ->]; [|rewrite Nat.leb_refl; reflexivity]. rewrite (item_at_nth l l' i (H i J)). reflexivity.
Qed.

(** *** lower_bound *)
Lemma lb_loop : forall A (below : A -> bool) k first len (l : list A), (first + len <= length l)%nat -> (len < 2 ^ k)%nat ->
  exists ps, (length ps <= k)%nat /\ forall f l', (k < f)%nat -> length l' = length l -> (forall i, In i ps -> nth_error l' i = nth_error l i) ->
    lower_bound_loop f below l' first len = lower_bound_loop (S k) below l first len /\
    exists i, lower_bound_loop (S k) below l first len = Ok i /\ (In i ps \/ i = first + len)%nat.
Proof.
  intros A below. induction k as [|k IH]; intros first len l B H.
  - exists []. split; [cbn; lia|]. intros [|f] l' F G _; [lia|]. cbn in H. replace len with 0%nat by lia. cbn. split; [reflexivity|].
    exists first. split; [reflexivity|]. right. lia.
  - cbn [Nat.pow] in H. destruct len as [|n].
    { exists []. split; [cbn; lia|]. intros [|f] l' F G _; [lia|]. cbn. split; [reflexivity|]. exists first. split; [reflexivity|]. right. lia. }
    assert (D : (Nat.div2 (S n) < S n /\ Nat.div2 (S n) < 2 ^ k /\ S n - Nat.div2 (S n) - 1 < 2 ^ k)%nat).
    { pose proof (Nat.div2_odd (S n)) as O. destruct (Nat.odd (S n)); cbn [Nat.b2n] in O; lia. }
    remember (Nat.div2 (S n)) as half eqn:Eh. destruct D as (D1 & D2 & D3).
    destruct (nth_error l (first + half)) as [x|] eqn:E; [|apply nth_error_None in E; lia].
    destruct (IH first half l ltac:(lia) D2) as (p1 & P1 & Q1).
    destruct (IH (first + half + 1)%nat (S n - half - 1)%nat l ltac:(lia) D3) as (p2 & P2 & Q2).
    exists ((first + half)%nat :: if below x then p2 else p1). split; [destruct (below x); cbn [length]; lia|].
    intros [|f] l' F G H'; [lia|].
    assert (T : forall f l, lower_bound_loop (S f) below l first (S n) =
      match nth_error l (first + half) with
      | None => Err
      | Some x => if below x then lower_bound_loop f below l (first + half + 1) (S n - half - 1) else lower_bound_loop f below l first half
      end) by (intros; subst half; reflexivity).
    rewrite !T, (H' _ (or_introl eq_refl)), E. destruct (below x).
    + destruct (Q2 f l' ltac:(lia) G) as (R1 & i & R2 & R3); [intros i I; apply H'; right; exact I|]. split; [exact R1|]. exists i. split; [exact R2|].
      destruct R3; [left; right; assumption|right; lia].
    + destruct (Q1 f l' ltac:(lia) G) as (R1 & i & R2 & R3); [intros i I; apply H'; right; exact I|]. split; [exact R1|]. exists i. split; [exact R2|].
      destruct R3 as [R3| ->]; [left; right; exact R3|left; left; reflexivity].
Qed.
Lemma lb_cost : forall A B (below : A -> bool) (g : option A -> B) l,
  decided_by (fun l => do i <- lower_bound below l; Ok (g (nth_error l i))) l (Nat.log2 (length l) + 1).
Proof.
  intros A B below g l. destruct (lb_loop A below (Nat.log2 (length l) + 1) 0 (length l) l) as (ps & P & Q); [lia|apply log2_pow|].
  exists ps. split; [exact P|]. intros l' L H. unfold lower_bound. rewrite L.
  destruct (log2_le (length l)) as [G|G].
  - destruct (Q (S (length l)) l' ltac:(lia) L H) as (R1 & i & R2 & R3). destruct (Q (S (length l)) l ltac:(lia) eq_refl ltac:(auto)) as (R4 & _).
    rewrite R1, R4, R2. cbn [bind]. destruct R3 as [R3| ->]; [rewrite (H _ R3); reflexivity|]. cbn [Nat.add].
    rewrite (proj2 (nth_error_None l (length l))), (proj2 (nth_error_None l' (length l))) by lia. reflexivity.
  - rewrite G in L. destruct l; [|discriminate]. destruct l'; [|discriminate]. reflexivity.
Qed.
Lemma decided_ext : forall A B (f g : list A -> B) l k, (forall l, f l = g l) -> decided_by f l k -> decided_by g l k.
Proof. intros A B f g l k E (ps & P & Q). exists ps. split; [exact P|]. intros l' L H. rewrite <- !E. apply Q; assumption. Qed.
Lemma enum_find_cost : forall byval name l, decided_by (fun l => ne_find (mkNE byval l) name) l (Nat.log2 (length l) + 1).
Proof.
  intros byval name l. eapply decided_ext; [|exact (lb_cost _ _ (fun x : edef => bytes_less (snd x) name)
    (fun o => match o with Some x => if beqb (snd x) name then Some (fst x) else None | None => None end) l)].
  intros l0. unfold ne_find. cbn [ne_byname]. destruct (lower_bound _ _) as [i| |]; cbn [bind]; try reflexivity. destruct (nth_error l0 i) as [x|]; [|reflexivity].
  destruct (beqb (snd x) name); reflexivity.
Qed.
Lemma enum_name_cost : forall byname v l, decided_by (fun l => ne_name (mkNE l byname) v) l (Nat.log2 (length l) + 1).
Proof.
  intros byname v l. eapply decided_ext; [|exact (lb_cost _ _ (fun x : edef => (fst x <? v)%Z)
    (fun o => match o with Some x => if (fst x =? v)%Z then snd x else [] | None => [] end) l)].
  intros l0. unfold ne_name. cbn [ne_byval]. destruct (lower_bound _ _) as [i| |]; cbn [bind]; try reflexivity. destruct (nth_error l0 i) as [x|]; [|reflexivity].
  destruct (fst x =? v)%Z; reflexivity.
Qed.
Lemma container_cost : forall kid l, decided_by (fun l => container_find l kid) l (Nat.log2 (length l) + 1).
Proof.
  intros kid l. eapply decided_ext; [|exact (lb_cost _ _ (fun x => item_less x (kid, None))
    (fun o => match o with Some x => if beqb (fst x) kid then Some x else None | None => None end) l)].
  intros l0. unfold container_find. destruct (lower_bound _ _) as [i| |]; cbn [bind]; try reflexivity. destruct (nth_error l0 i) as [x|]; [|reflexivity].
  destruct (beqb (fst x) kid); reflexivity.
Qed.

(** *** The bounds of equal items *)
Definition rank (m : member) : Z := match snd m with VNull => 1 | _ => 0 end.
Definition rank_cmp (a b : member) : Z := (rank a - rank b)%Z.
Definition nulls (n : nat) : list member := repeat ([], VNull) n.
Definition broken (n i : nat) : list member := repeat ([], VNull) i ++ ([], VUndef) :: repeat ([], VNull) (n - i - 1).
Lemma broken_length : forall n i, (i < n)%nat -> length (broken n i) = n.
Proof. intros n i H. unfold broken. rewrite app_length. cbn [length]. rewrite !repeat_length. lia. Qed.
Lemma nth_nulls : forall n j, (j < n)%nat -> nth_error (nulls n) j = Some ([], VNull).
Proof. intros n j H. apply nth_error_repeat, H. Qed.
Lemma nth_broken : forall n i j, (i < n)%nat -> (j < n)%nat -> nth_error (broken n i) j = Some ([], if Nat.eqb j i then VUndef else VNull).
Proof.
  intros n i j I J. unfold broken. destruct (Nat.eqb_spec j i) as [->|N].
  - rewrite nth_error_app2; rewrite repeat_length; [|lia]. rewrite Nat.sub_diag. reflexivity.
  - destruct (Nat.lt_ge_cases j i) as [L|L].
    + rewrite nth_error_app1 by (rewrite repeat_length; lia). apply nth_error_repeat, L.
    + rewrite nth_error_app2; rewrite repeat_length; [|lia]. destruct (j - i)%nat as [|k] eqn:E; [lia|]. cbn [nth_error]. apply nth_error_repeat. lia.
Qed.
Lemma item_at_some : forall l i m, nth_error l i = Some m -> item_at l i = m.
Proof. intros l i m H. unfold item_at. apply nth_error_nth, H. Qed.
Lemma find_middle : forall l n, length l = S n -> nth_error l (S n / 2) = Some ([], VNull) -> ord_find rank_cmp l ([], VNull) = Ok (S n / 2)%nat.
Proof.
  intros l n L H. unfold ord_find. rewrite L.
  change (ModelOrdered.find_loop rank_cmp (S (S n)) l ([], VNull) 0 (S n)) with
    (let m := (S n / 2)%nat in let c := rank_cmp ([], VNull) (item_at l m) in
     if (c <? 0)%Z then ModelOrdered.find_loop rank_cmp (S n) l ([], VNull) 0 m
     else if (0 <? c)%Z then ModelOrdered.find_loop rank_cmp (S n) l ([], VNull) (m + 1) (S n) else Ok m).
  cbv zeta. rewrite (item_at_some _ _ _ H). reflexivity.
Qed.
Lemma lower_nulls : forall n i, (i <= n)%nat -> lower_loop rank_cmp (nulls n) ([], VNull) i = 0%nat.
Proof.
  intros n. induction i as [|i IH]; intros H; [reflexivity|]. cbn [lower_loop]. rewrite (item_at_some _ _ _ (nth_nulls n i ltac:(lia))). cbn. apply IH. lia.
Qed.
Lemma lower_broken : forall n i j, (i < n)%nat -> (i < j <= n)%nat -> lower_loop rank_cmp (broken n i) ([], VNull) j = S i.
Proof.
  intros n i. induction j as [|j IH]; intros I J; [lia|]. cbn [lower_loop]. rewrite (item_at_some _ _ _ (nth_broken n i j I ltac:(lia))).
  destruct (Nat.eqb_spec j i) as [->|N]; [reflexivity|]. cbn. apply IH; lia.
Qed.
Lemma half_lt : forall n, (S n / 2 < S n)%nat.
Proof. intros n. apply Nat.div_lt; lia. Qed.
Lemma lower_linear : forall n k, decided_by (fun l => ord_lower rank_cmp l ([], VNull)) (nulls n) k -> (n / 2 <= k)%nat.
Proof.
  intros [|n] k (ps & P & Q); [cbn; lia|]. pose proof (half_lt n) as Hh.
  assert (I : incl (seq 0 (S n / 2)) ps).
  { intros i I. apply in_seq in I. destruct (in_dec Nat.eq_dec i ps) as [J|J]; [exact J|exfalso].
    specialize (Q (broken (S n) i)). rewrite broken_length in Q by lia. unfold nulls in Q at 1. rewrite repeat_length in Q.
    specialize (Q eq_refl).
    assert (A : forall j, In j ps -> nth_error (broken (S n) i) j = nth_error (nulls (S n)) j).
    { intros j Hj. destruct (Nat.lt_ge_cases j (S n)) as [L|L].
      - rewrite nth_broken, nth_nulls by lia. destruct (Nat.eqb_spec j i) as [->|_]; [contradiction|reflexivity].
      - rewrite !(proj2 (nth_error_None _ _)); [reflexivity|unfold nulls; rewrite repeat_length; exact L|rewrite broken_length; lia]. }
    specialize (Q A). unfold ord_lower in Q.
    rewrite (find_middle (nulls (S n)) n), (find_middle (broken (S n) i) n) in Q.
    - cbn [bind] in Q. rewrite broken_length in Q by lia. unfold nulls in Q at 1. rewrite repeat_length in Q.
      replace (S n <=? S n / 2)%nat with false in Q by (symmetry; apply Nat.leb_gt; lia).
      rewrite lower_nulls, lower_broken in Q by lia. discriminate.
    - apply broken_length. lia.
    - rewrite nth_broken by lia. destruct (Nat.eqb_spec (S n / 2) i); [lia|reflexivity].
    - apply repeat_length.
    - apply nth_nulls. lia. }
  apply NoDup_incl_length in I; [|apply seq_NoDup]. rewrite seq_length in I. lia.
Qed.
