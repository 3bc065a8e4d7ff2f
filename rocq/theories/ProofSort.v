(** Proofs about sorting and grouping of builders. *)
From Coq Require Import Lia Sorted Permutation ZifyBool.
From Verif Require Import Base ModelStd ModelKeyed SpecKeyed ModelValue ModelObject SpecObject ModelArray SpecArray ModelOrdered SpecOrdered
  ModelSearch ModelSort SpecSort ProofArray ProofOrdered ProofSearch ProofMerge PropObject.
Local Open Scope nat_scope.

Lemma push_all : forall l a, fold_left arr_push l a = mkArr (a_base a) (a_off a) (a_chg a ++ l).
Proof. intros. apply (add_set_spec l a). Qed.

Lemma items_loop : forall a k i, arr_wf a -> i + k <= arr_size a -> arr_items_loop a i k = Some (firstn k (skipn i (content a))).
Proof.
  intros a k. induction k as [|k IH]; intros i W H; [reflexivity|]. cbn [arr_items_loop]. rewrite arr_get_spec by exact W.
  pose proof (content_length a W) as Hl. destruct (nth_error (content a) i) as [m|] eqn:E; [|apply nth_error_None in E; lia].
  rewrite IH by (auto; lia). cbn [option_map]. apply nth_error_split in E as (p & q & E1 & E2). rewrite E1.
  rewrite !skipn_app. rewrite E2. replace (i - i) with 0 by lia. replace (S i - i) with 1 by lia.
  rewrite (skipn_all2 p) by lia. rewrite (skipn_all2 p) by lia. reflexivity.
Qed.
Lemma items_content : forall a, arr_wf a -> arr_items a = Some (content a).
Proof.
  intros a W. unfold arr_items. rewrite items_loop by (auto; lia). cbn [skipn]. rewrite <- content_length by exact W. rewrite firstn_all. reflexivity.
Qed.

Definition plain (l : list member) : arr := mkArr (VArr []) 0 l.
Lemma plain_wf : forall l, arr_wf (plain l). Proof. intros. unfold arr_wf. cbn. lia. Qed.
Lemma plain_content : forall l, content (plain l) = l. Proof. reflexivity. Qed.
Lemma plain_size : forall l, arr_size (plain l) = length l. Proof. reflexivity. Qed.
Lemma plain_get : forall l i, arr_get (plain l) i = nth_error l i.
Proof. intros. rewrite arr_get_spec by apply plain_wf. reflexivity. Qed.
Lemma plain_commit : forall l, arr_commit (plain l) = VArr (defined_only l).
Proof.
  intros l. apply (commit_spec (plain l) (mkASpec [] l)).
  - split; [apply plain_wf|]. split; reflexivity.
  - intros m [].
  - discriminate.
  - intros _. left. discriminate.
Qed.
Lemma push_new : forall l, fold_left arr_push l arr_new = plain l.
Proof. intros. rewrite push_all. reflexivity. Qed.

Lemma sorted_iff : forall cmp l, total_preorder cmp -> StronglySorted (fun a b => (cmp b a <? 0)%Z = false) l <-> ordered cmp l.
Proof.
  intros cmp l T. unfold ordered. assert (E : forall a b, (cmp b a <? 0)%Z = false <-> (cmp a b <= 0)%Z).
  { intros a b. pose proof (tp_sym cmp T a b). lia. }
  split; induction 1 as [|x l H IH F]; constructor; auto; (eapply Forall_impl; [|exact F]); intros y; apply E.
Qed.
Lemma gen_sort_iff : forall cmp l r, total_preorder cmp ->
  gen_sort cmp l r <-> exists s, r = plain s /\ Permutation l s /\ ordered cmp s.
Proof.
  intros cmp l r T. unfold gen_sort. rewrite push_new. cbn [plain a_chg a_base a_off]. unfold sort_result. split.
  - intros (s & [P S] & ->). exists s. split; [reflexivity|]. split; [exact P|]. apply sorted_iff; auto.
  - intros (s & -> & P & S). exists s. split; [|reflexivity]. split; [exact P|]. apply sorted_iff; auto.
Qed.

Definition shows (r : arr) (l : list member) : Prop :=
  arr_size r = length l /\ (forall i, arr_get r i = nth_error l i) /\ arr_commit r = VArr (defined_only l).
Lemma plain_shows : forall l, arr_size (plain l) = length l /\ (forall i, arr_get (plain l) i = nth_error l i) /\ arr_commit (plain l) = VArr (defined_only l).
Proof. intros. split; [reflexivity|]. split; [apply plain_get|apply plain_commit]. Qed.

Lemma array_sort : forall cmp c ops a, total_preorder cmp ->
  (match c with CBase l => forall m, In m l -> is_undef (snd m) = false | _ => True end) ->
  aops_ok (aspec_create c) ops -> arr_run (arr_create c) ops = Some a ->
  (exists r, arr_sorts cmp a r) /\
  forall o, arr_sorts cmp a o -> exists r l, o = Some r /\
    Permutation (as_cur (aspec_run (aspec_create c) ops)) l /\ ordered cmp l /\
    arr_size r = length l /\ (forall i, arr_get r i = nth_error l i) /\ arr_commit r = VArr (defined_only l).
Proof.
  intros cmp c ops a T Hc Hok Ha. destruct (reach_wf c ops a Hc Hok Ha) as [W C]. unfold arr_sorts. rewrite items_content by exact W.
  rewrite C. set (cur := as_cur _). split.
  - destruct (ord_sort_spec cmp cur T) as (O & P & _). eexists. exists (plain (ord_sort cmp cur)). split; [|reflexivity].
    apply gen_sort_iff; [exact T|]. eauto.
  - intros o (s & G & ->). apply gen_sort_iff in G as (l & -> & P & O); [|exact T]. exists (plain l), l.
    split; [reflexivity|]. split; [exact P|]. split; [exact O|]. apply plain_shows.
Qed.

Lemma run_app : forall ops1 ops2 p, obj_run p (ops1 ++ ops2) = match obj_run p ops1 with Some q => obj_run q ops2 | None => None end.
Proof.
  induction ops1 as [|o ops1 IH]; intros ops2 [x y]; [reflexivity|]. cbn [app obj_run]. destruct (obj_step (x, y) o); [apply IH|reflexivity].
Qed.

Lemma object_sort : forall cmp b1 b2 ops, total_preorder cmp -> base_ok b1 -> base_ok b2 -> Forall op_ok ops ->
  Forall (fun op => ~ keeps_snapshot op) ops ->
  exists x y v, obj_run (obj_new b1, obj_new b2) ops = Some (x, y) /\
    committed (fst (spec_run (mkSpec b1 [], mkSpec b2 []) ops)) v /\
    (exists x' r, obj_sorts cmp x x' r) /\
    forall x' r, obj_sorts cmp x x' r -> exists l,
      Permutation (members_of v) l /\ ordered cmp l /\ arr_size r = length l /\ (forall i, arr_get r i = nth_error l i) /\
      arr_commit r = VArr (defined_only l) /\
      snd (obj_commit x') = v /\
      forall k, exists x'', obj_read x' k = Some (x'', spec_read (fst (spec_run (mkSpec b1 [], mkSpec b2 []) ops)) k).
Proof.
  intros cmp b1 b2 ops T H1 H2 Hok Hk. set (S0 := (mkSpec b1 [], mkSpec b2 [])).
  assert (Hs : forall t, Forall (fun op => op = OOptimize \/ op = OIterate) t -> spec_run S0 (ops ++ t) = spec_run S0 ops).
  { intros t Ht. unfold spec_run. rewrite fold_left_app. destruct (fold_left spec_step ops S0) as [u w].
    induction Ht as [|op t [->| ->] Ht IH]; [reflexivity| |]; exact IH. }
  assert (Hok2 : forall t, Forall (fun op => op = OOptimize \/ op = OIterate) t -> Forall op_ok (ops ++ t)).
  { intros t Ht. apply Forall_app. split; [exact Hok|]. eapply Forall_impl; [|exact Ht]. intros op [->| ->]; exact I. }
  assert (Ho : Forall (fun op => op = OOptimize \/ op = OIterate) [OOptimize]) by (repeat constructor; auto).
  assert (Hoi : Forall (fun op => op = OOptimize \/ op = OIterate) [OOptimize; OIterate]) by (repeat constructor; auto).
  destruct (C11_commit b1 b2 ops H1 H2 Hok) as (x & y & Hr & Hc).
  destruct (C13_iteration_current b1 b2 (ops ++ [OOptimize]) H1 H2 (Hok2 _ Ho)) as (x1 & y1 & Hr1 & Hi).
  { apply Forall_app. split; [exact Hk|]. repeat constructor. intros []. }
  destruct (C11_commit b1 b2 _ H1 H2 (Hok2 _ Ho)) as (x1' & y1' & Hr1' & Hc1). fold S0 in Hc, Hc1. rewrite Hs in Hc1 by exact Ho.
  destruct (C11_commit b1 b2 _ H1 H2 (Hok2 _ Hoi)) as (x2 & y2 & Hr2 & Hc2). fold S0 in Hc2. rewrite Hs in Hc2 by exact Hoi.
  assert (x1' = x1) by congruence. subst x1'. clear Hr1' y1'.
  rewrite run_app, Hr in Hr1, Hr2. cbn [obj_run obj_step] in Hr1, Hr2. injection Hr1 as <- <-.
  destruct (obj_iterate (obj_optimize x)) as [o1 items] eqn:Ei. cbn [fst snd] in Hr2, Hi. injection Hr2 as <- <-.
  exists x, y, (snd (obj_commit x)). split; [exact Hr|]. split; [exact Hc|].
  assert (Hm : items = members_of (snd (obj_commit x))).
  { rewrite Hi. f_equal. eapply C11_commit_determined; eauto. }
  clear Hi. unfold obj_sorts. rewrite Ei. subst items. split.
  - destruct (ord_sort_spec cmp (members_of (snd (obj_commit x))) T) as (O & P & _). eexists. exists (plain (ord_sort cmp (members_of (snd (obj_commit x))))).
    split; [reflexivity|]. apply gen_sort_iff; [exact T|]. eexists. split; [reflexivity|]. split; [exact P|exact O].
  - intros x' r (-> & G). apply gen_sort_iff in G as (l & -> & P & O); [|exact T]. exists l. split; [exact P|]. split; [exact O|].
    destruct (plain_shows l) as (A & B & C). split; [exact A|]. split; [exact B|]. split; [exact C|].
    split; [eapply C11_commit_determined; eauto|].
    intros k. destruct (C11_read b1 b2 _ k H1 H2 (Hok2 _ Hoi)) as (x3 & y3 & Hr3 & Hk3). fold S0 in Hk3. rewrite Hs in Hk3 by exact Hoi.
    rewrite run_app, Hr in Hr3. cbn [obj_run obj_step] in Hr3. rewrite Ei in Hr3. cbn [fst] in Hr3. injection Hr3 as <- <-. exact Hk3.
Qed.

(** *** One result *)
Lemma ordered_unique : forall cmp l m, total_preorder cmp -> (forall x y, In x l -> In y l -> cmp x y = 0%Z -> x = y) ->
  ordered cmp l -> ordered cmp m -> Permutation l m -> l = m.
Proof.
  intros cmp l. induction l as [|x l IH]; intros m T E Ol Om P.
  - apply Permutation_nil in P. congruence.
  - destruct m as [|y m]; [apply Permutation_sym, Permutation_nil in P; discriminate|].
    assert (x = y).
    { assert (Hx : In x (y :: m)) by (eapply Permutation_in; [exact P|left; reflexivity]).
      assert (Hy : In y (x :: l)) by (eapply Permutation_in; [apply Permutation_sym, P|left; reflexivity]).
      destruct Hx as [->|Hx]; [reflexivity|]. destruct Hy as [->|Hy]; [reflexivity|].
      inversion Ol as [|? ? _ Fl]; subst. inversion Om as [|? ? _ Fm]; subst. rewrite Forall_forall in Fl, Fm.
      specialize (Fl _ Hy). specialize (Fm _ Hx). pose proof (tp_sym cmp T x y). apply E; [left; reflexivity|right; exact Hy|]. lia. }
    subst y. f_equal. apply Permutation_cons_inv in P. inversion Ol as [|? ? O1 _]; subst. inversion Om as [|? ? O2 _]; subst. apply IH; auto.
    intros p q Hp Hq. apply E; right; assumption.
Qed.

Lemma sort_unique : forall cmp c ops a r, total_preorder cmp ->
  (match c with CBase l => forall m, In m l -> is_undef (snd m) = false | _ => True end) ->
  aops_ok (aspec_create c) ops -> arr_run (arr_create c) ops = Some a ->
  let cur := as_cur (aspec_run (aspec_create c) ops) in
  (forall x y, In x cur -> In y cur -> cmp x y = 0%Z -> x = y) ->
  arr_sorts cmp a (Some r) -> arr_commit r = VArr (defined_only (ord_sort cmp cur)).
Proof.
  intros cmp c ops a r T Hc Hok Ha cur E H. destruct (array_sort cmp c ops a T Hc Hok Ha) as [_ S]. destruct (S _ H) as (r' & l & Er & P & O & _ & _ & C).
  injection Er as <-. rewrite C. do 2 f_equal. destruct (ord_sort_spec cmp cur T) as (O' & P' & _). fold cur in P.
  apply (ordered_unique cmp); auto.
  - intros x y Hx Hy. apply E; (eapply Permutation_in; [apply Permutation_sym, P|assumption]).
  - rewrite <- P. exact P'.
Qed.

(** *** Groups *)
Lemma group_loop_runs : forall cmp l prev run, (exists t, run = prev :: t /\ Forall (fun y => cmp prev y = 0%Z) t) ->
  runs cmp (group_loop cmp prev run l) /\ exists t rs, group_loop cmp prev run l = (prev :: t) :: rs.
Proof.
  intros cmp l. induction l as [|v l IH]; intros prev run (t & -> & F); cbn [group_loop].
  - split; [cbn; auto|eauto].
  - destruct (cmp prev v =? 0)%Z eqn:E.
    + apply IH. exists (t ++ [v]). split; [reflexivity|]. apply Forall_app. split; [exact F|]. constructor; [lia|constructor].
    + destruct (IH v [v]) as [H1 (t' & rs & H2)]; [exists []; auto|]. split; [|eauto]. rewrite H2 in *. cbn [runs] in *.
      split; [exact F|]. split; [lia|exact H1].
Qed.
Lemma runs_ord : forall cmp l, runs cmp (ord_runs cmp l).
Proof. intros cmp [|p l]; [exact I|]. apply (group_loop_runs cmp l p [p]). exists []. auto. Qed.

Lemma runs_unique : forall cmp rs, runs cmp rs -> ord_runs cmp (concat rs) = rs.
Proof.
  intros cmp.
  assert (L : forall rs prev t, runs cmp rs -> (match rs with (y :: _) :: _ => cmp prev y <> 0%Z | _ => True end) ->
    forall u, Forall (fun y => cmp prev y = 0%Z) u -> group_loop cmp prev (prev :: t) (u ++ concat rs) = (prev :: t ++ u) :: rs).
  { intros rs. induction rs as [|r rs IH]; intros prev t R N u F.
    - cbn [concat]. rewrite app_nil_r. revert t. induction F as [|y u Hy F IHu]; intros t; cbn [group_loop]; [rewrite app_nil_r; reflexivity|].
      rewrite Hy. cbn [Z.eqb]. change ((prev :: t) ++ [y]) with (prev :: (t ++ [y])). rewrite IHu. rewrite <- app_assoc. reflexivity.
    - destruct r as [|y v]; [destruct R|]. destruct R as (R1 & R2 & R3). revert t. induction F as [|z u Hz F IHu]; intros t; cbn [app group_loop].
      + cbn [concat app group_loop]. destruct (cmp prev y =? 0)%Z eqn:E; [lia|]. rewrite app_nil_r. f_equal. rewrite (IH y [] R3 R2 v R1). reflexivity.
      + rewrite Hz. cbn [Z.eqb]. change ((prev :: t) ++ [z]) with (prev :: (t ++ [z])). rewrite IHu. rewrite <- app_assoc. reflexivity. }
  intros [|[|x t] rs] R; [reflexivity|destruct R|]. destruct R as (R1 & R2 & R3). cbn [concat app ord_runs]. rewrite (L rs x [] R3 R2 t R1). reflexivity.
Qed.

Lemma group_all : forall T (fn : T -> member -> T) mk init l res,
  group_parts fn mk init l res = Some (fold_left arr_push (map (fun m => mk (fold_left fn (members_of (snd m)) init)) l) res).
Proof.
  intros T fn mk init l. induction l as [|m l IH]; intros res; [reflexivity|]. cbn [group_parts]. rewrite reduce_fold. rewrite IH. reflexivity.
Qed.

Lemma group_builder : forall T (fn : T -> member -> T) mk init cmp a, arr_wf a ->
  arr_group cmp fn mk init a = Some (plain (map (fun r => mk (fold_left fn (defined_only r) init)) (arr_split cmp (content a)))).
Proof.
  intros T fn mk init cmp a W. unfold arr_group, arr_parts. rewrite items_content by exact W. cbn [option_map]. rewrite push_new.
  rewrite items_content by apply plain_wf. rewrite plain_content. rewrite group_all, push_new, map_map. do 2 f_equal. apply map_ext. intros r.
  unfold arr_part. rewrite push_new, plain_commit. reflexivity.
Qed.

Lemma array_group : forall T (fn : T -> member -> T) mk init cmp c ops a,
  (match c with CBase l => forall m, In m l -> is_undef (snd m) = false | _ => True end) ->
  aops_ok (aspec_create c) ops -> arr_run (arr_create c) ops = Some a ->
  let cur := as_cur (aspec_run (aspec_create c) ops) in
  Forall (fun m => is_undef (snd m) = false) cur -> cur <> [] ->
  exists r rs, arr_group cmp fn mk init a = Some r /\ runs cmp rs /\ concat rs = cur /\
    arr_size r = length rs /\ (forall i, arr_get r i = option_map (fun run => mk (fold_left fn run init)) (nth_error rs i)) /\
    arr_commit r = VArr (defined_only (map (fun run => mk (fold_left fn run init)) rs)).
Proof.
  intros T fn mk init cmp c ops a Hc Hok Ha cur Hd Hn. destruct (reach_wf c ops a Hc Hok Ha) as [W C]. fold cur in C.
  assert (Hs : arr_split cmp cur = ord_runs cmp cur).
  { apply arr_split_spec; [exact Hn|]. eapply Forall_impl; [|exact Hd]. intros m Hm Em. cbv beta in *. rewrite Em in Hm. discriminate. }
  assert (Hcat : concat (ord_runs cmp cur) = cur) by (rewrite <- Hs; apply arr_split_spec).
  rewrite group_builder by exact W. rewrite C, Hs. exists (plain (map (fun run => mk (fold_left fn run init)) (ord_runs cmp cur))), (ord_runs cmp cur).
  split.
  - do 2 f_equal. apply map_ext_in. intros r Hr. do 2 f_equal. apply defined_filter. intros m Hm. rewrite Forall_forall in Hd. apply Hd. rewrite <- Hcat.
    apply in_concat. eauto.
  - split; [apply runs_ord|]. split; [exact Hcat|]. split; [rewrite plain_size; apply map_length|]. split; [|apply plain_commit].
    intros i. rewrite plain_get, nth_error_map. reflexivity.
Qed.

Lemma group_empty : forall T (fn : T -> member -> T) mk init cmp, vgroup cmp fn mk init (VArr []) = Some (VArr (defined_only [mk init])).
Proof. intros. unfold vgroup. rewrite group_builder by (unfold arr_wf; cbn; lia). cbn [option_map]. rewrite plain_commit. reflexivity. Qed.

Lemma value_group : forall T (fn : T -> member -> T) mk init cmp l rs, l <> [] -> Forall (fun m => is_undef (snd m) = false) l ->
  runs cmp rs -> concat rs = l ->
  vgroup cmp fn mk init (VArr l) = Some (VArr (defined_only (map (fun run => mk (fold_left fn run init)) rs))).
Proof.
  intros T fn mk init cmp l rs Hn Hd R C. unfold vgroup. rewrite group_builder by (unfold arr_wf, vsize; cbn; lia). cbn [option_map]. rewrite plain_commit.
  do 3 f_equal. unfold content, vsize. cbn [arr_of a_base a_off a_chg members_of]. unfold vsize. cbn [members_of]. rewrite firstn_all, app_nil_r.
  assert (Hs : arr_split cmp l = ord_runs cmp l).
  { apply arr_split_spec; [exact Hn|]. eapply Forall_impl; [|exact Hd]. intros m Hm Em. cbv beta in *. rewrite Em in Hm. discriminate. }
  rewrite Hs, <- C, runs_unique by exact R. apply map_ext_in. intros r Hr. do 2 f_equal. apply defined_filter. intros m Hm. rewrite Forall_forall in Hd.
  apply Hd. rewrite <- C. apply in_concat. eauto.
Qed.

Lemma unshift_all : forall v items, vunshift_all v items =
  (VArr (defined_only (items ++ members_of v)), length (defined_only (items ++ members_of v))).
Proof.
  intros v items. unfold vunshift_all. rewrite add_set_spec, push_new. cbn [plain a_base a_off a_chg].
  change (mkArr (VArr []) 0 (items ++ members_of v)) with (plain (items ++ members_of v)). rewrite plain_commit. reflexivity.
Qed.

Lemma group_nothing : exists l, forall T (fn : T -> member -> T) mk init cmp rs,
  is_undef (snd (mk init)) = false -> runs cmp rs -> concat rs = l ->
  vgroup cmp fn mk init (VArr l) <> Some (VArr (defined_only (map (fun run => mk (fold_left fn run init)) rs))).
Proof.
  exists []. intros T fn mk init cmp rs U R C. rewrite group_empty. destruct rs as [|[|x t] rs]; [|destruct R|discriminate].
  cbn. rewrite U. discriminate.
Qed.
