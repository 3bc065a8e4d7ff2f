(** Proofs for C98. *)
From Coq Require Import Sorted Lia ZifyBool.
From Verif Require Import Base ModelKeyed SpecKeyed ModelValue ProofValue ModelText ModelObject ModelArray ModelEnc SpecEnc
  ModelString SpecString ProofString ProofKeyed SpecSearch ModelWalk SpecWalk.
Local Open Scope Z_scope.
Ltac Zify.zify_post_hook ::= Z.div_mod_to_equations.

(** *** Iterators *)
Lemma item_at_spec : forall v i, 0 <= i ->
  item_at v i = match nth_error (members_of v) (Z.to_nat i) with Some m => m | None => ([], VUndef) end.
Proof.
  intros v i H. unfold item_at, vitem, vsize. destruct (Z.ltb_spec i (Z.of_nat (length (members_of v)))) as [Hl|Hl].
  - rewrite (nth_error_nth' _ ([], VUndef)) by lia. reflexivity.
  - assert (length (members_of v) <= Z.to_nat i)%nat as Hn by lia. apply nth_error_None in Hn. rewrite Hn. reflexivity.
Qed.

Lemma iter_laws : forall v i j p, Z.of_nat (vsize v) < 2 ^ 63 -> 0 <= i <= Z.of_nat (vsize v) -> 0 <= j <= Z.of_nat (vsize v) ->
  it_deref (mkIt v i) = match nth_error (members_of v) (Z.to_nat i) with Some m => m | None => ([], VUndef) end /\
  (it_eq true (mkIt v i) (mkIt v j) = true <-> i = j) /\
  it_diff (mkIt v i) (mkIt v j) = i - j /\
  (0 <= i + p <= Z.of_nat (vsize v) -> it_add (mkIt v i) p = mkIt v (i + p)) /\
  (0 <= i - p <= Z.of_nat (vsize v) -> it_sub (mkIt v i) p = mkIt v (i - p)) /\
  (i < Z.of_nat (vsize v) -> it_next (mkIt v i) = mkIt v (i + 1) /\ it_next_post (mkIt v i) = (mkIt v (i + 1), mkIt v i)) /\
  (0 < i -> it_prev (mkIt v i) = mkIt v (i - 1) /\ it_prev_post (mkIt v i) = (mkIt v (i - 1), mkIt v i)) /\
  (it_at_end (mkIt v i) = true <-> i = Z.of_nat (vsize v)) /\
  (it_at_begin (mkIt v i) = true <-> i = 0).
Proof.
  intros v i j p Hs Hi Hj.
  assert (Hpow : 2 ^ 63 = 9223372036854775808) by reflexivity. assert (Hpow2 : 2 ^ 64 = 18446744073709551616) by reflexivity.
  split; [apply item_at_spec; lia|].
  unfold it_eq, it_at_end, it_diff, it_add, it_sub, it_next, it_prev, it_next_post, it_prev_post, it_next, it_prev, it_at_begin, u64, s64.
  cbn [it_v it_i]. rewrite Hpow, Hpow2 in *.
  split; [lia|]. split; [|split; [intros Hp; f_equal; lia|]].
  - destruct (Z.ltb_spec ((i - j) mod 18446744073709551616 mod 18446744073709551616) 9223372036854775808); lia.
  - split; [intros Hp; f_equal; lia|].
    split; [intros Hp; split; [f_equal; lia|]; replace ((i + 1) mod 18446744073709551616) with (i + 1) by lia; do 2 f_equal; lia|].
    split; [intros Hp; split; [f_equal; lia|]; replace ((i - 1) mod 18446744073709551616) with (i - 1) by lia; do 2 f_equal; lia|].
    split; lia.
Qed.

Lemma iter_past : forall copy v w i j, Z.of_nat (vsize v) <= i -> Z.of_nat (vsize w) <= j ->
  it_deref (mkIt v i) = ([], VUndef) /\ it_at_end (mkIt v i) = true /\ it_eq copy (mkIt v i) (mkIt w j) = true.
Proof.
  intros copy v w i j Hi Hj. unfold it_deref, item_at, it_eq, it_at_end. cbn [it_v it_i].
  replace (i <? Z.of_nat (vsize v)) with false by lia. split; [reflexivity|]. split; [lia|]. apply orb_true_iff. left. lia.
Qed.

Lemma iter_other : forall v w i j, it_eq false (mkIt v i) (mkIt w j) = true <->
  Z.of_nat (vsize v) <= i /\ Z.of_nat (vsize w) <= j.
Proof. intros v w i j. unfold it_eq, it_at_end. cbn [it_v it_i]. rewrite andb_false_r, orb_false_r. lia. Qed.

Lemma skipn_nth : forall {A} n (l : list A) m, nth_error l n = Some m -> skipn n l = m :: skipn (S n) l.
Proof. intros A n. induction n as [|n IH]; intros [|x l] m H; try discriminate; [injection H as ->; reflexivity|]. exact (IH l m H). Qed.
Lemma range_loop_spec : forall {T} (fn : T -> member -> T) v k n st, Z.of_nat (vsize v) < 2 ^ 64 -> (n + k = vsize v)%nat ->
  range_loop k fn st (mkIt v (Z.of_nat n)) (it_end v) = Some (fold_left fn (skipn n (members_of v)) st).
Proof.
  intros T fn v k. induction k as [|k IH]; intros n st Hs Hn.
  - cbn [range_loop]. replace (it_eq true (mkIt v (Z.of_nat n)) (it_end v)) with true.
    + cbn [negb]. rewrite skipn_all2 by (unfold vsize in Hn; lia). reflexivity.
    + symmetry. apply orb_true_iff. left. unfold it_at_end, it_end. cbn [it_v it_i]. lia.
  - cbn [range_loop]. replace (it_eq true (mkIt v (Z.of_nat n)) (it_end v)) with false.
    + cbn [negb]. unfold it_next, it_deref. cbn [it_v it_i]. unfold u64. rewrite Z.mod_small by lia.
      replace (Z.of_nat n + 1) with (Z.of_nat (S n)) by lia. rewrite IH by lia. f_equal.
      rewrite item_at_spec by lia. rewrite Nat2Z.id.
      destruct (nth_error (members_of v) n) as [m|] eqn:E.
      * rewrite (skipn_nth _ _ _ E). reflexivity.
      * apply nth_error_None in E. unfold vsize in Hn. lia.
    + symmetry. unfold it_eq, it_at_end, it_end. cbn [it_v it_i]. lia.
Qed.
Lemma range_for_spec : forall {T} (fn : T -> member -> T) v st, Z.of_nat (vsize v) < 2 ^ 64 ->
  range_for fn st v = Some (fold_left fn (members_of v) st).
Proof. intros T fn v st H. exact (range_loop_spec fn v (vsize v) 0 st H eq_refl). Qed.

Lemma before_begin : forall v, vsize v <> O -> Z.of_nat (vsize v) < 2 ^ 64 ->
  it_eq true (it_prev (it_begin v)) (it_end v) = true /\ it_eq true (it_begin v) (it_end v) = false.
Proof.
  intros v H Hs. unfold it_eq, it_prev, it_begin, it_end, it_at_end, u64. cbn [it_v it_i].
  change ((0 - 1) mod 2 ^ 64) with (2 ^ 64 - 1). split; lia.
Qed.

(** *** [forEach] *)
Lemma enum_spec : forall {T} (fn : T -> member -> T * bool) l st st' r, enum_items fn st l = (st', r) ->
  (r = true /\ calls fn st l st' (repeat true (length l))) \/
  (r = false /\ exists i, (i < length l)%nat /\ calls fn st (firstn (S i) l) st' (repeat true i ++ [false])).
Proof.
  intros T fn l. induction l as [|x l IH]; intros st st' r H; cbn [enum_items] in H.
  - injection H as <- <-. left. split; [reflexivity|constructor].
  - destruct (fn st x) as [s1 b] eqn:E. destruct b.
    + apply IH in H. destruct H as [[-> H]|[-> (i & Hi & H)]].
      * left. split; [reflexivity|]. cbn [length repeat]. econstructor; eauto.
      * right. split; [reflexivity|]. exists (S i). split; [cbn [length]; lia|].
        change (firstn (S (S i)) (x :: l)) with (x :: firstn (S i) l). cbn [repeat app]. econstructor; eauto.
    + injection H as <- <-. right. split; [reflexivity|]. exists O. split; [cbn [length]; lia|].
      cbn [firstn repeat app]. econstructor; [exact E|constructor].
Qed.

(** *** [walk] *)
Lemma calls_app : forall {T C A} (fn : T -> C -> T * A) l1 st st1 a1 l2 st2 a2,
  calls fn st l1 st1 a1 -> calls fn st1 l2 st2 a2 -> calls fn st (l1 ++ l2) st2 (a1 ++ a2).
Proof. intros T C A fn l1 st st1 a1 l2 st2 a2 H. induction H; intros H2; cbn [app]; [exact H2|]. econstructor; eauto. Qed.
Lemma calls_length : forall {T C A} (fn : T -> C -> T * A) l st st1 a1, calls fn st l st1 a1 -> length l = length a1.
Proof. intros T C A fn l st st1 a1 H. induction H; cbn [length]; congruence. Qed.

(** What a walk of one node does: places, nodes and answers. *)
Definition visited {T} (fn : T -> member -> T * bool) (at_place : list nat -> option member) (st st' : T)
  (ps : list (list nat)) (bs : list bool) : Prop :=
  exists nodes, Forall2 (fun p n => at_place p = Some n) ps nodes /\ calls fn st nodes st' bs /\
    StronglySorted before ps /\
    forall p, In p ps <->
      (exists n, at_place p = Some n) /\ forall q i r, p = q ++ i :: r -> at_place q <> None -> In (q, true) (combine ps bs).

(** The items of a list from position [i0] on. *)
Definition list_at (l : list member) (p : list nat) : option member :=
  match p with
  | [] => None
  | i :: q => match nth_error l i with Some m => node_at m q | None => None end
  end.

Definition each {T} (fn : T -> member -> T * bool) :=
  fix each (st : T) (l : list (bytes * value)) : T :=
    match l with [] => st | (k', x) :: l' => each (walk_value fn st k' x) l' end.
Lemma walk_unfold : forall {T} (fn : T -> member -> T * bool) st k v,
  walk_value fn st k v = (let '(st', enter) := fn st (k, v) in if enter then each fn st' (members_of v) else st').
Proof. intros T fn st k v. destruct v; cbn [walk_value members_of each]; destruct (fn st _) as [s1 []]; reflexivity. Qed.

Definition up (p : list nat) : list nat := match p with [] => [] | i :: q => S i :: q end.
Lemma list_at_up : forall m l p, p <> [] -> list_at (m :: l) (up p) = list_at l p.
Proof. intros m l [|i q] H; [congruence|reflexivity]. Qed.

Lemma sorted_app : forall {A} (R : A -> A -> Prop) a b, StronglySorted R a -> StronglySorted R b ->
  (forall x y, In x a -> In y b -> R x y) -> StronglySorted R (a ++ b).
Proof.
  intros A R a b Ha Hb H. induction Ha as [|x a Hs IH Hf]; [exact Hb|]. cbn [app]. constructor.
  - apply IH. intros; apply H; [right|]; assumption.
  - apply Forall_app. split; [exact Hf|]. rewrite Forall_forall. intros y Hy. apply H; [left; reflexivity|exact Hy].
Qed.
Lemma sorted_map : forall {A B} (R : A -> A -> Prop) (S : B -> B -> Prop) f l,
  (forall x y, In x l -> In y l -> R x y -> S (f x) (f y)) -> StronglySorted R l -> StronglySorted S (map f l).
Proof.
  intros A B R S f l H Hs. induction Hs as [|x l Hs IH Hf]; [constructor|]. cbn [map]. constructor.
  - apply IH. intros a b Ha Hb. apply H; right; assumption.
  - rewrite Forall_forall in *. intros y Hy. apply in_map_iff in Hy. destruct Hy as (z & <- & Hz).
    apply H; [left; reflexivity|right; exact Hz|apply Hf; exact Hz].
Qed.
Lemma Forall2_len : forall {A B} (R : A -> B -> Prop) l r, Forall2 R l r -> length l = length r.
Proof. intros A B R l r H. induction H; cbn [length]; congruence. Qed.
Lemma Forall2_imp : forall {A B} (R S : A -> B -> Prop) l r, (forall x y, R x y -> S x y) -> Forall2 R l r -> Forall2 S l r.
Proof. intros A B R S l r HS H. induction H; constructor; auto. Qed.
Lemma Forall2_map_l : forall {A B C} (R : C -> B -> Prop) (f : A -> C) l r, Forall2 (fun x y => R (f x) y) l r -> Forall2 R (map f l) r.
Proof. intros A B C R f l r H. induction H; cbn [map]; constructor; auto. Qed.
Lemma Forall2_in : forall {A B} (R : A -> B -> Prop) l r x, Forall2 R l r -> In x l -> exists y, In y r /\ R x y.
Proof.
  intros A B R l r x H. induction H as [|a b l r HR _ IH]; intros Hi; [destruct Hi|]. destruct Hi as [<-|Hi].
  - exists b. split; [left; reflexivity|exact HR].
  - destruct (IH Hi) as (y & Hy & H1). exists y. split; [right; exact Hy|exact H1].
Qed.
Lemma combine_app_eq : forall {A B} (a1 a2 : list A) (b1 b2 : list B), length a1 = length b1 ->
  combine (a1 ++ a2) (b1 ++ b2) = combine a1 b1 ++ combine a2 b2.
Proof. intros A B a1. induction a1 as [|x a1 IH]; intros a2 [|y b1] b2 H; try discriminate; [reflexivity|]. cbn [app combine]. rewrite IH by (cbn in H; lia). reflexivity. Qed.
Lemma combine_map_l : forall {A B C} (f : A -> C) (a : list A) (b : list B),
  combine (map f a) b = map (fun x => (f (fst x), snd x)) (combine a b).
Proof. intros A B C f a. induction a as [|x a IH]; intros [|y b]; cbn [map combine]; try reflexivity. rewrite IH. reflexivity. Qed.

Lemma node_at_prefix : forall q m r, node_at m (q ++ r) <> None -> node_at m q <> None.
Proof.
  induction q as [|i q IH]; intros m r H; cbn [app node_at] in *; [discriminate|].
  destruct (nth_error (members_of (snd m)) i); [eapply IH; eauto|exact H].
Qed.

Section Walk.
Context {T : Type} (fn : T -> member -> T * bool).

Definition walk_ok (v : value) : Prop := forall k st, exists ps bs,
  visited fn (node_at (k, v)) st (walk_value fn st k v) ps bs.

Lemma visited_app : forall k x l st st1 st2 ps bs ps' bs',
  visited fn (node_at (k, x)) st st1 ps bs -> visited fn (list_at l) st1 st2 ps' bs' ->
  visited fn (list_at ((k, x) :: l)) st st2 (map (cons O) ps ++ map up ps') (bs ++ bs').
Proof.
  intros k x l st st1 st2 ps bs ps' bs' (n1 & F1 & C1 & S1 & I1) (n2 & F2 & C2 & S2 & I2).
  assert (Hne : forall p, In p ps' -> p <> []).
  { intros p Hp E. subst p. destruct (Forall2_in _ _ _ _ F2 Hp) as (y & _ & Hy). discriminate. }
  assert (L1 : length ps = length bs) by (rewrite (Forall2_len _ _ _ F1); eapply calls_length; eauto).
  exists (n1 ++ n2). split; [|split; [|split]].
  - apply Forall2_app; apply Forall2_map_l.
    + eapply Forall2_imp; [|exact F1]. intros p n H. exact H.
    + clear - F2. induction F2 as [|p n ps n2 H _ IH]; constructor; [|exact IH].
      rewrite list_at_up; [exact H|]. intros ->. discriminate.
  - eapply calls_app; eauto.
  - apply sorted_app.
    + eapply sorted_map; [|exact S1]. intros a b _ _ H. apply Before_same. exact H.
    + eapply sorted_map; [|exact S2]. intros a b Ha Hb H. destruct H; cbn [up].
      * exfalso. eapply Hne; [exact Ha|reflexivity].
      * constructor. lia.
      * apply Before_same. assumption.
    + intros a b Ha Hb. apply in_map_iff in Ha, Hb. destruct Ha as (a' & <- & Ha), Hb as (b' & <- & Hb).
      destruct b' as [|i b']; [exfalso; eapply Hne; eauto|]. cbn [up]. constructor. lia.
  - intros p. rewrite in_app_iff, !in_map_iff, combine_app_eq by (rewrite map_length; exact L1).
    rewrite !combine_map_l.
    assert (Inc1 : forall q b, In (O :: q, b) (map (fun y => (O :: fst y, snd y)) (combine ps bs) ++ map (fun y => (up (fst y), snd y)) (combine ps' bs')) <->
                     In (q, b) (combine ps bs)).
    { intros q b. rewrite in_app_iff, !in_map_iff. split.
      - intros [([q' b'] & E & H)|([q' b'] & E & H)]; cbn [fst snd] in E.
        + injection E as -> ->. exact H.
        + destruct q' as [|i q']; cbn [up] in E; discriminate.
      - intros H. left. exists (q, b). split; [reflexivity|exact H]. }
    assert (Inc2 : forall i q b, In (S i :: q, b) (map (fun y => (O :: fst y, snd y)) (combine ps bs) ++ map (fun y => (up (fst y), snd y)) (combine ps' bs')) <->
                     In (i :: q, b) (combine ps' bs')).
    { intros i q b. rewrite in_app_iff, !in_map_iff. split.
      - intros [([q' b'] & E & H)|([q' b'] & E & H)]; cbn [fst snd] in E; [discriminate|].
        destruct q' as [|j q']; cbn [up] in E; [discriminate|]. injection E as -> -> ->. exact H.
      - intros H. right. exists (i :: q, b). split; [reflexivity|exact H]. }
    destruct p as [|[|i] p].
    + split.
      * intros [(y & E & _)|(y & E & Hy)]; [discriminate|]. destruct y; [exfalso; eapply Hne; eauto|discriminate].
      * intros [(n & E) _]. discriminate.
    + transitivity (In p ps).
      { split; [intros [(y & E & H)|(y & E & Hy)]|intros H; left; exists p; auto].
        - injection E as ->. exact H.
        - destruct y; [exfalso; eapply Hne; eauto|discriminate]. }
      rewrite I1. cbn [list_at nth_error]. split; intros [A B]; (split; [exact A|]).
      * intros q j r E Hq. destruct q as [|z q]; [cbn [list_at] in Hq; congruence|]. cbn [app] in E. injection E as <- E.
        apply Inc1. eapply B; [exact E|]. exact Hq.
      * intros q j r E Hq. apply Inc1. apply (B (O :: q) j r); [cbn [app]; rewrite E; reflexivity|exact Hq].
    + transitivity (In (i :: p) ps').
      { split; [intros [(y & E & H)|(y & E & Hy)]|intros H; right; exists (i :: p); auto].
        - discriminate.
        - destruct y; [exfalso; eapply Hne; eauto|]. cbn [up] in E. injection E as -> ->. exact Hy. }
      rewrite I2. change (list_at ((k, x) :: l) (S i :: p)) with (list_at l (i :: p)). split; intros [A B]; (split; [exact A|]).
      * intros q j r E Hq. destruct q as [|z q]; [cbn [list_at] in Hq; congruence|]. cbn [app] in E. injection E as <- E.
        apply Inc2. apply (B (i :: q) j r); [cbn [app]; rewrite E; reflexivity|]. exact Hq.
      * intros q j r E Hq. destruct q as [|z q]; [cbn [list_at] in Hq; congruence|]. cbn [app] in E. injection E as <- E.
        apply Inc2. apply (B (S i :: q) j r); [cbn [app]; rewrite E; reflexivity|exact Hq].
Qed.

Lemma each_ok : forall l, Forall (fun m => walk_ok (snd m)) l -> forall st, exists ps bs,
  visited fn (list_at l) st (each fn st l) ps bs.
Proof.
  intros l H. induction H as [|[k x] l Hx _ IH]; intros st.
  - exists [], []. exists []. split; [constructor|]. split; [constructor|]. split; [constructor|].
    intros p. split; [intros []|]. intros [(n & E) _]. destruct p as [|[|i] p]; discriminate.
  - cbn [each]. destruct (Hx k st) as (ps & bs & V1). cbn [snd] in V1. destruct (IH (walk_value fn st k x)) as (ps' & bs' & V2).
    eexists _, _. eapply visited_app; eauto.
Qed.

Lemma walk_all : forall v, walk_ok v.
Proof.
  assert (HN : forall v, Forall (fun m => walk_ok (snd m)) (members_of v) -> walk_ok v).
  { intros v H k st. rewrite walk_unfold. destruct (fn st (k, v)) as [s1 b] eqn:E. destruct b.
    - destruct (each_ok _ H s1) as (ps & bs & nodes & F1 & C1 & S1 & I1).
      assert (Hne : ~ In [] ps). { intros Hp. destruct (Forall2_in _ _ _ _ F1 Hp) as (y & _ & Hy). discriminate. }
      assert (Hat : forall i p, list_at (members_of v) (i :: p) = node_at (k, v) (i :: p)) by reflexivity.
      exists ([] :: ps), (true :: bs), ((k, v) :: nodes). split; [|split; [|split]].
      + constructor; [reflexivity|]. eapply Forall2_imp; [|exact F1]. intros p n Hp. destruct p as [|i p]; [discriminate|]. rewrite <- Hat. exact Hp.
      + econstructor; eauto.
      + constructor; [exact S1|]. rewrite Forall_forall. intros p Hp. destruct p as [|i p]; [exfalso; auto|constructor].
      + intros p. cbn [In combine]. destruct p as [|i p].
        * split; [intros _|intros _; left; reflexivity]. split; [exists (k, v); reflexivity|]. intros q i r Hq. destruct q; discriminate.
        * transitivity (In (i :: p) ps); [split; [intros [Hc|Hc]; [discriminate|exact Hc]|intros Hc; right; exact Hc]|].
          rewrite I1, Hat. split; intros [A B]; (split; [exact A|]); intros q j r Hq Hn.
          -- destruct q as [|z q]; [left; reflexivity|]. right. apply (B (z :: q) j r Hq). rewrite Hat. exact Hn.
          -- destruct q as [|z q]; [cbn [list_at] in Hn; congruence|]. destruct (B (z :: q) j r Hq) as [Hc|Hc]; [|discriminate|exact Hc].
             rewrite <- Hat. exact Hn.
    - exists [[]], [false], [(k, v)]. split; [repeat constructor|]. split; [econstructor; [exact E|constructor]|]. split; [repeat constructor|].
      intros p. cbn [In combine]. split.
      + intros [<-|[]]. split; [exists (k, v); reflexivity|]. intros q i r Hq. destruct q; discriminate.
      + intros [_ B]. destruct p as [|i p]; [left; reflexivity|]. exfalso. destruct (B [] i p eq_refl) as [Hc|[]]; discriminate. }
  induction v as [| |b|n|e s|l IH|d l IH] using value_ind'; apply HN; cbn [members_of]; try constructor; exact IH.
Qed.
End Walk.

Lemma walk_spec : forall T (fn : T -> member -> T * bool) st m, exists places nodes answers,
  Forall2 (fun p n => node_at m p = Some n) places nodes /\ calls fn st nodes (walk fn st m) answers /\
  StronglySorted before places /\
  forall p, In p places <->
    (exists n, node_at m p = Some n) /\ forall q i r, p = q ++ i :: r -> In (q, true) (combine places answers).
Proof.
  intros T fn st [k v]. destruct (walk_all fn v k st) as (ps & bs & nodes & A & B & C & D).
  exists ps, nodes, bs. split; [exact A|]. split; [exact B|]. split; [exact C|]. intros p. rewrite D.
  split; intros [H1 H2]; (split; [exact H1|]); intros q i r E.
  - eapply H2; [exact E|]. destruct H1 as (n & H1). apply node_at_prefix with (i :: r). rewrite <- E. congruence.
  - intros _. eapply H2; exact E.
Qed.

(** *** Values from sequences *)
Lemma map_items_spec : forall {T A} (fn : T -> A -> T * member) l st buffer st' items,
  map_items fn st buffer l = (st', items) -> exists ms, items = buffer ++ ms /\ calls fn st l st' ms.
Proof.
  intros T A fn l. induction l as [|x l IH]; intros st buffer st' items H; cbn [map_items] in H.
  - injection H as <- <-. exists []. rewrite app_nil_r. split; [reflexivity|constructor].
  - destruct (fn st x) as [s1 m] eqn:E. apply IH in H. destruct H as (ms & -> & H). exists (m :: ms). split.
    + rewrite <- app_assoc. reflexivity.
    + econstructor; eauto.
Qed.

Lemma sequence_spec : forall T A E utf8 ty (fn : T -> A -> T * member) st l skip st' r,
  of_sequence E utf8 ty fn st l skip = (st', r) ->
  exists items, calls fn st l st' items /\ r = of_items E utf8 ty items skip.
Proof.
  intros T A E utf8 ty fn st l skip st' r H. unfold of_sequence in H.
  destruct (map_items fn st [] l) as [s1 items] eqn:E1. injection H as <- <-.
  apply map_items_spec in E1. destruct E1 as (ms & -> & H). exists ms. split; [exact H|reflexivity].
Qed.

Lemma items_array : forall E utf8 items,
  of_items E utf8 TyArray items false = Ok (VArr items) /\
  of_items E utf8 TyArray items true = Ok (VArr (filter (fun m => negb (is_undef (snd m))) items)).
Proof.
  intros E utf8 items. cbn [of_items andb negb]. split; [|reflexivity]. do 2 f_equal. induction items as [|m l IH]; [reflexivity|]. cbn [filter]. rewrite IH. reflexivity.
Qed.

Lemma items_object : forall E utf8 items skip, exists l, of_items E utf8 TyObject items skip = Ok (VObj false l) /\
  keys_increasing l /\
  forall k v, In (k, v) l <->
    last_binding k (filter (fun m => negb (skip && is_undef (snd m))) items) = Some v.
Proof.
  intros E utf8 items skip. eexists. split; [reflexivity|]. apply (build_last_wins value (fun v => skip && is_undef v)).
Qed.

Lemma items_string : forall E utf8 items skip, (forall k e s, In (k, VStr (Some e) s) items -> is_bytes s) ->
  exists texts, Forall2 (fun m t => string_form E utf8 (snd m) t) items texts /\
    of_items E utf8 TyString items skip = Ok (VStr None (concat texts)).
Proof.
  intros E utf8 items skip H.
  assert (exists texts, Forall2 (fun m t => string_form E utf8 (snd m) t) items texts /\
     Forall2 (fun m t => to_string E utf8 (snd m) = Some t) items texts) as (texts & H1 & H2).
  { induction items as [|[k v] l IH]; [exists []; split; constructor|].
    destruct IH as (ts & H1 & H2); [intros k' e s Hi; eapply H; right; exact Hi|].
    destruct (to_string_form E utf8 v) as (t & Ht & Hf); [intros e s ->; eapply H; left; reflexivity|].
    exists (t :: ts). split; constructor; assumption. }
  exists texts. split; [exact H1|]. cbn [of_items].
  rewrite (all_some_map (fun m : member => to_string E utf8 (snd m)) _ _ H2). reflexivity.
Qed.

(** A function that always enters: everything is visited. *)
Lemma walk_everything : forall T (fn : T -> member -> T * bool) st m, (forall st n, snd (fn st n) = true) ->
  exists places nodes answers,
  Forall2 (fun p n => node_at m p = Some n) places nodes /\ calls fn st nodes (walk fn st m) answers /\
  StronglySorted before places /\ forall p, In p places <-> exists n, node_at m p = Some n.
Proof.
  intros T fn st m H. destruct (walk_spec T fn st m) as (ps & ns & bs & A & B & C & D). exists ps, ns, bs.
  split; [exact A|]. split; [exact B|]. split; [exact C|].
  assert (Hb : Forall (fun b => b = true) bs).
  { clear - B H. induction B as [|s c cs s' a s'' l E _ IH]; constructor; auto. specialize (H s c). rewrite E in H. exact H. }
  assert (Hlen : length ps = length bs) by (rewrite (Forall2_len _ _ _ A); eapply calls_length; eauto).
  assert (Hin : forall q, In q ps -> In (q, true) (combine ps bs)).
  { clear - Hb Hlen. revert bs Hb Hlen. induction ps as [|p ps IH]; intros [|b bs] Hb Hl q Hq; try discriminate; [destruct Hq|].
    inversion Hb; subst. cbn [combine In]. destruct Hq as [<-|Hq]; [left; reflexivity|right]. apply IH; auto. }
  assert (HD : forall n p, (length p <= n)%nat -> node_at m p <> None -> In p ps).
  { induction n as [|n IH]; intros p Hl Hn.
    - destruct p; [|cbn in Hl; lia]. apply D. split; [exists m; reflexivity|]. intros q i r E. destruct q; discriminate.
    - apply D. split; [destruct (node_at m p) as [x|]; [eauto|congruence]|]. intros q i r E. apply Hin. apply IH.
      + subst p. rewrite app_length in Hl. cbn [length] in Hl. lia.
      + apply node_at_prefix with (i :: r). rewrite <- E. exact Hn. }
  intros p. split; [intros Hp; apply D in Hp; tauto|]. intros (x & Hx). apply (HD (length p)); [lia|congruence].
Qed.
