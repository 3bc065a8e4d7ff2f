(** Lemmas about the Array builder. *)
From Verif Require Import Base ModelKeyed SpecKeyed ProofKeyed ModelValue ModelObject ProofObject ModelArray SpecArray.

(** *** Lists *)
Lemma skipn_skipn' : forall A a b (l : list A), skipn a (skipn b l) = skipn (a + b) l.
Proof.
  intros A a b. revert a. induction b as [|b IH]; intros a l; [rewrite Nat.add_0_r; reflexivity|].
  destruct l as [|x l]; [rewrite !skipn_nil; reflexivity|]. rewrite Nat.add_succ_r. cbn [skipn]. apply IH.
Qed.

Lemma map_nth_seq : forall A (d : A) (l : list A) s n, s + n <= length l ->
  map (fun i => nth i l d) (seq s n) = firstn n (skipn s l).
Proof.
  intros A d l s n. revert s. induction n as [|n IH]; intros s H; [reflexivity|].
  cbn [seq map]. rewrite IH by lia.
  destruct (skipn s l) as [|x r] eqn:E.
  - apply (f_equal (@length A)) in E. rewrite skipn_length in E. cbn [length] in E. lia.
  - assert (nth s l d = x) as -> by (rewrite <- (firstn_skipn s l), E, app_nth2, firstn_length, Nat.min_l by (rewrite ?firstn_length; lia); rewrite Nat.sub_diag; reflexivity).
    cbn [firstn]. f_equal. f_equal. change (S s) with (1 + s). rewrite <- skipn_skipn', E. reflexivity.
Qed.

Definition arr_wf (a : arr) : Prop := a_off a <= vsize (a_base a).

Lemma content_length : forall a, arr_wf a -> length (content a) = arr_size a.
Proof. intros a H. unfold content, arr_size, arr_wf, vsize in *. rewrite app_length, firstn_length. lia. Qed.

Lemma content_items : forall a, arr_wf a -> map (vitem (a_base a)) (seq 0 (a_off a)) = firstn (a_off a) (members_of (a_base a)).
Proof. intros a H. unfold vitem. rewrite map_nth_seq by exact H. reflexivity. Qed.

Lemma arr_get_spec : forall a i, arr_wf a -> arr_get a i = nth_error (content a) i.
Proof.
  intros a i H. unfold arr_get, content. unfold arr_wf, vsize in H. destruct (Nat.ltb_spec i (a_off a)) as [E|E].
  - rewrite nth_error_app1 by (rewrite firstn_length; lia). unfold vitem.
    assert (Hn : nth_error (members_of (a_base a)) i = nth_error (firstn (a_off a) (members_of (a_base a))) i).
    { rewrite <- (firstn_skipn (a_off a) (members_of (a_base a))) at 1. apply nth_error_app1. rewrite firstn_length; lia. }
    rewrite <- Hn. symmetry. apply nth_error_nth'. lia.
  - rewrite nth_error_app2 by (rewrite firstn_length; lia). rewrite firstn_length. f_equal. lia.
Qed.

Lemma extend_spec : forall a pos, arr_wf a -> arr_wf (arr_extend a pos) /\ content (arr_extend a pos) = content a /\
  a_off (arr_extend a pos) = Nat.min pos (a_off a) /\ a_base (arr_extend a pos) = a_base a.
Proof.
  intros a pos H. unfold arr_extend. destruct (Nat.ltb_spec pos (a_off a)) as [E|E].
  - unfold arr_wf, content, vsize in *. cbn [a_base a_off a_chg]. repeat split; try lia.
    unfold vitem. rewrite map_nth_seq by lia. rewrite app_assoc. f_equal.
    rewrite <- (firstn_skipn pos (firstn (a_off a) (members_of (a_base a)))). f_equal.
    + rewrite firstn_firstn. f_equal. lia.
    + rewrite skipn_firstn_comm. reflexivity.
  - repeat split; auto. lia.
Qed.

(** A position of the content seen from the edited tail. *)
Lemma tail_firstn : forall a pos, arr_wf a -> a_off a <= pos ->
  firstn pos (content a) = firstn (a_off a) (members_of (a_base a)) ++ firstn (pos - a_off a) (a_chg a).
Proof.
  intros a pos H E. unfold content, arr_wf, vsize in *. rewrite firstn_app, firstn_length.
  replace (pos - Nat.min (a_off a) (length (members_of (a_base a)))) with (pos - a_off a) by lia.
  f_equal. apply firstn_all2. rewrite firstn_length. lia.
Qed.
Lemma tail_skipn : forall a pos, arr_wf a -> a_off a <= pos ->
  skipn pos (content a) = skipn (pos - a_off a) (a_chg a).
Proof.
  intros a pos H E. unfold content, arr_wf, vsize in *. rewrite skipn_app, firstn_length.
  replace (pos - Nat.min (a_off a) (length (members_of (a_base a)))) with (pos - a_off a) by lia.
  rewrite skipn_all2 by (rewrite firstn_length; lia). reflexivity.
Qed.

(** The state [a] represents [s]. *)
Definition arep (a : arr) (s : aspec) : Prop :=
  arr_wf a /\ content a = as_cur s /\ members_of (a_base a) = as_base s.

Ltac ext a pos := let H1 := fresh "E1" in let H2 := fresh "E2" in let H3 := fresh "E3" in let H4 := fresh "E4" in
  match goal with H : arr_wf a |- _ => destruct (extend_spec a pos H) as (H1 & H2 & H3 & H4) end;
  set (a1 := arr_extend a pos) in *.

Lemma size_content : forall a, arr_wf a -> a_off a + length (a_chg a) = length (content a).
Proof. intros. symmetry. apply content_length; auto. Qed.

Lemma add_set_spec : forall l a, arr_add_set a l = mkArr (a_base a) (a_off a) (a_chg a ++ l).
Proof.
  unfold arr_add_set. induction l as [|x l IH]; intros a; cbn [fold_left].
  - rewrite app_nil_r. destruct a; reflexivity.
  - rewrite IH. unfold arr_push. cbn [a_base a_off a_chg]. rewrite <- app_assoc. reflexivity.
Qed.

Lemma insert_gen : forall a pos x, arr_wf a -> pos <= length (content a) ->
  exists a', with_chg (arr_extend a pos) (vec_insert (a_chg (arr_extend a pos)) (pos - a_off (arr_extend a pos)) x) = Some a' /\
    arr_wf a' /\ content a' = firstn pos (content a) ++ x ++ skipn pos (content a) /\ a_base a' = a_base a.
Proof.
  intros a pos x H Hp. ext a pos. pose proof (size_content a1 E1) as Hs. rewrite E2 in Hs.
  unfold vec_insert. destruct (Nat.leb_spec (pos - a_off a1) (length (a_chg a1))) as [L|L]; [|lia].
  eexists. split; [reflexivity|]. repeat split; auto. rewrite <- E2.
  rewrite tail_firstn, tail_skipn by (auto; lia). unfold content at 1. cbn [a_base a_off a_chg].
  rewrite <- app_assoc. reflexivity.
Qed.

Lemma erase_gen : forall a pos len, arr_wf a -> pos + len <= length (content a) ->
  exists a', arr_erase_set a pos len = Some a' /\
    arr_wf a' /\ content a' = firstn pos (content a) ++ skipn (pos + len) (content a) /\ a_base a' = a_base a.
Proof.
  intros a pos len H Hp. unfold arr_erase_set. ext a pos. pose proof (size_content a1 E1) as Hs. rewrite E2 in Hs.
  unfold vec_erase. destruct (Nat.leb_spec (pos - a_off a1) (pos - a_off a1 + len)) as [L|L]; [|lia].
  destruct (Nat.leb_spec (pos - a_off a1 + len) (length (a_chg a1))) as [L2|L2]; [|lia]. cbn [andb].
  eexists. split; [reflexivity|]. repeat split; auto. rewrite <- E2.
  rewrite tail_firstn, tail_skipn by (auto; lia). unfold content at 1. cbn [a_base a_off a_chg].
  rewrite <- app_assoc. do 2 f_equal. f_equal. lia.
Qed.

Lemma trunc_gen : forall a pos, arr_wf a -> pos <= length (content a) ->
  exists a', arr_trunc a pos = Some a' /\ arr_wf a' /\ content a' = firstn pos (content a) /\ a_base a' = a_base a.
Proof.
  intros a pos H Hp. unfold arr_trunc. destruct (Nat.ltb_spec pos (a_off a)) as [E|E].
  - eexists. split; [reflexivity|]. unfold arr_wf, content, vsize in *. cbn [a_base a_off a_chg]. repeat split; auto; try lia.
    rewrite app_nil_r, firstn_app, firstn_firstn, firstn_length. rewrite Nat.min_l by lia.
    replace (pos - Nat.min (a_off a) (length (members_of (a_base a)))) with 0 by lia. rewrite app_nil_r. reflexivity.
  - pose proof (size_content a H) as Hs. unfold vec_erase.
    destruct (Nat.leb_spec (pos - a_off a) (length (a_chg a))) as [L|L]; [|lia].
    rewrite Nat.leb_refl. cbn [andb]. eexists. split; [reflexivity|]. repeat split; auto.
    rewrite tail_firstn by auto. unfold content at 1. cbn [a_base a_off a_chg]. rewrite skipn_all, app_nil_r. reflexivity.
Qed.

Lemma set_gen : forall a pos m, arr_wf a -> pos < length (content a) ->
  exists a', arr_set a pos m = Some a' /\
    arr_wf a' /\ content a' = firstn pos (content a) ++ [m] ++ skipn (pos + 1) (content a) /\ a_base a' = a_base a.
Proof.
  intros a pos m H Hp. unfold arr_set. ext a pos. pose proof (size_content a1 E1) as Hs. rewrite E2 in Hs.
  unfold vec_set. destruct (Nat.ltb_spec (pos - a_off a1) (length (a_chg a1))) as [L|L]; [|lia].
  eexists. split; [reflexivity|]. repeat split; auto. rewrite <- E2.
  rewrite tail_firstn, tail_skipn by (auto; lia). unfold content at 1. cbn [a_base a_off a_chg].
  rewrite <- app_assoc. cbn [app]. do 3 f_equal. f_equal. lia.
Qed.

(** [fill_slots] over a run of opened slots at the right place. *)
Lemma fill_slots_spec : forall x (p q : list (option member)),
  fill_slots (p ++ repeat None (length x) ++ q) (length p) x = Some (p ++ map Some x ++ q).
Proof.
  induction x as [|m x IH]; intros p q; [reflexivity|]. cbn [fill_slots length repeat app map].
  destruct (Nat.ltb_spec (length p) (length (p ++ None :: repeat None (length x) ++ q))) as [L|L];
    [|rewrite app_length in L; cbn [length] in L; lia].
  rewrite firstn_app, firstn_all, Nat.sub_diag. cbn [firstn]. rewrite app_nil_r.
  assert (skipn (S (length p)) (p ++ None :: repeat None (length x) ++ q) = repeat None (length x) ++ q) as ->.
  { rewrite skipn_app, skipn_all2 by lia. replace (S (length p) - length p) with 1 by lia. reflexivity. }
  specialize (IH (p ++ [Some m]) q). rewrite app_length in IH. cbn [length] in IH. rewrite Nat.add_1_r in IH.
  rewrite <- !app_assoc in IH. cbn [app] in IH. exact IH.
Qed.

Lemma all_slots_some : forall l, all_slots (map Some l) = Some l.
Proof. induction l as [|m l IH]; auto. cbn [map all_slots]. rewrite IH. reflexivity. Qed.

Lemma insert_set_gen : forall a pos x, arr_wf a -> pos <= length (content a) -> pos = 0 \/ members_of (a_base a) = [] ->
  exists a', arr_insert_set a pos x = Some a' /\
    arr_wf a' /\ content a' = firstn pos (content a) ++ x ++ skipn pos (content a) /\ a_base a' = a_base a.
Proof.
  intros a pos x H Hp Ho. destruct (insert_gen a pos x H Hp) as (a' & Ha & H1 & H2 & H3). exists a'. split; auto.
  rewrite <- Ha. unfold arr_insert_set. ext a pos.
  assert (Hz : a_off a1 = 0). { unfold arr_wf, vsize in H. destruct Ho as [->|Ho]; [lia|]. rewrite Ho in H. cbn [length] in H. lia. }
  unfold vec_insert. rewrite Hz, Nat.add_0_r, Nat.sub_0_r. destruct (Nat.leb_spec pos (length (a_chg a1))) as [L|L]; [|reflexivity].
  pose proof (fill_slots_spec x (map Some (firstn pos (a_chg a1))) (map Some (skipn pos (a_chg a1)))) as Hf.
  rewrite map_length, firstn_length, Nat.min_l in Hf by lia. rewrite Hf.
  rewrite <- !map_app, all_slots_some. reflexivity.
Qed.

Lemma reverse_loop_spec : forall a n out, arr_wf a -> n <= length (content a) ->
  arr_reverse_loop a n out = Some (mkArr (a_base out) (a_off out) (a_chg out ++ rev (firstn n (content a)))).
Proof.
  intros a n. induction n as [|n IH]; intros out H Hn.
  - cbn [arr_reverse_loop firstn rev]. rewrite app_nil_r. destruct out; reflexivity.
  - cbn [arr_reverse_loop]. rewrite arr_get_spec by auto.
    destruct (nth_error (content a) n) as [m|] eqn:E; [|apply nth_error_None in E; lia].
    rewrite IH by (auto; lia). unfold arr_push. cbn [a_base a_off a_chg].
    assert (firstn (S n) (content a) = firstn n (content a) ++ [m]) as ->.
    { apply nth_error_split in E. destruct E as (l1 & l2 & -> & <-).
      rewrite !firstn_app, firstn_all2, firstn_all, Nat.sub_diag by lia.
      replace (S (length l1) - length l1) with 1 by lia. cbn [firstn]. rewrite app_nil_r. reflexivity. }
    rewrite rev_app_distr. cbn [rev app]. rewrite <- app_assoc. reflexivity.
Qed.

Lemma step_spec : forall a s op, arep a s -> aop_ok s op -> exists a', arr_step a op = Some a' /\ arep a' (aspec_step s op).
Proof.
  intros a s op (Hw & Hc & Hb) Hok. destruct s as [sb sc]. cbn [as_cur as_base] in *. subst sc sb.
  unfold arep. destruct op; cbn [arr_step aspec_step aop_ok as_cur as_base] in *.
  - eexists. split; [reflexivity|]. repeat split; auto. unfold content. cbn [arr_push a_base a_off a_chg]. rewrite app_assoc. reflexivity.
  - eexists. split; [reflexivity|]. rewrite add_set_spec. repeat split; auto. unfold content. cbn [a_base a_off a_chg]. rewrite app_assoc. reflexivity.
  - destruct (insert_gen a pos [m] Hw Hok) as (a' & Ha & ? & ? & Hb'). exists a'. rewrite Hb'. auto.
  - destruct Hok as [Hok Ho]. destruct (insert_set_gen a pos l Hw Hok Ho) as (a' & -> & ? & ? & Hb'). exists a'. rewrite Hb'. auto.
  - destruct (erase_gen a pos 1 Hw) as (a' & Ha & ? & ? & Hb'); [lia|]. exists a'. rewrite Hb'. auto.
  - destruct (erase_gen a pos len Hw Hok) as (a' & -> & ? & ? & Hb'). exists a'. rewrite Hb'. auto.
  - destruct (trunc_gen a pos Hw Hok) as (a' & -> & ? & ? & Hb'). exists a'. rewrite Hb'. auto.
  - eexists. split; [reflexivity|]. unfold arr_wf, content. cbn. repeat split; auto. lia.
  - eexists. split; [reflexivity|]. unfold arr_wf, content, vsize. cbn. repeat split; auto. rewrite app_nil_r. apply firstn_all.
  - destruct (set_gen a pos m Hw Hok) as (a' & -> & ? & ? & Hb'). exists a'. rewrite Hb'. auto.
  - unfold arr_reverse. rewrite reverse_loop_spec by (auto; rewrite content_length; auto). eexists. split; [reflexivity|].
    rewrite <- (content_length a), firstn_all by auto. split; [unfold arr_wf; cbn; lia|]. split; reflexivity.
  - unfold arr_set_size. rewrite <- content_length by auto. destruct (Nat.ltb_spec len (length (content a))) as [E|E].
    + destruct (trunc_gen a len Hw) as (a' & -> & ? & Hc' & Hb'); [lia|]. exists a'. rewrite Hb'. repeat split; auto.
      rewrite Hc'. replace (len - length (content a)) with 0 by lia. cbn [repeat]. rewrite app_nil_r. reflexivity.
    + eexists. split; [reflexivity|]. rewrite add_set_spec. repeat split; auto.
      rewrite (firstn_all2 (content a)) by lia. unfold content. cbn [a_base a_off a_chg]. rewrite app_assoc. reflexivity.
  - assert (Hpos : forall n, exists a', arr_slice_pos a n = Some a' /\ arr_wf a' /\ content a' = skipn n (content a) /\ a_base a' = a_base a).
    { intros n. unfold arr_slice_pos. rewrite <- content_length by auto. destruct (Nat.leb_spec (length (content a)) n) as [E|E].
      - eexists. split; [reflexivity|]. rewrite skipn_all2 by lia. unfold arr_wf. cbn. repeat split. lia.
      - destruct (erase_gen a 0 n Hw) as (a' & -> & ? & Hc' & Hb'); [lia|]. exists a'. auto. }
    unfold arr_slice1. rewrite <- content_length by auto. destruct (start <? 0)%Z eqn:Es; [destruct (- start <? Z.of_nat (length (content a)))%Z eqn:En|].
    + destruct (Hpos (Z.to_nat (Z.of_nat (length (content a)) + start))) as (a' & -> & ? & Hc' & Hb'). exists a'. rewrite Hb'.
      repeat split; auto. rewrite Hc'. f_equal. lia.
    + exists a. repeat split; auto. replace (length (content a) - Z.to_nat (- start)) with 0 by lia. reflexivity.
    + destruct (Hpos (Z.to_nat start)) as (a' & -> & ? & Hc' & Hb'). exists a'. rewrite Hb'. auto.
Qed.

Lemma create_rep : forall c, arep (arr_create c) (aspec_create c).
Proof.
  intros [l| |l]; unfold arep, arr_wf, content, vsize; cbn; repeat split; auto; try lia.
  rewrite app_nil_r. apply firstn_all.
Qed.

Lemma commit_spec : forall a s, arep a s -> (forall m, In m (as_base s) -> is_undef (snd m) = false) ->
  (forall d l, a_base a <> VObj d l) -> (arr_size a <> 0 -> a_base a <> VUndef \/ arr_dirty a = true) ->
  arr_commit a = VArr (defined_only (as_cur s)).
Proof.
  intros a s (Hw & Hc & Hb) Hd Hno Hu. unfold arr_commit. rewrite <- Hc, <- content_length by auto.
  assert (Hf : forall n, defined_only (firstn n (members_of (a_base a))) = firstn n (members_of (a_base a))).
  { intros n. rewrite Hb. unfold defined_only. assert (Hd' : forall m, In m (firstn n (as_base s)) -> is_undef (snd m) = false).
    { intros m Hm. apply Hd. rewrite <- (firstn_skipn n). apply in_or_app. auto. }
    clear - Hd'. induction (firstn n (as_base s)) as [|x l IH]; auto. cbn [filter]. rewrite (Hd' x) by (left; auto). cbn [negb].
    f_equal. apply IH. intros; apply Hd'; right; auto. }
  destruct (Nat.eqb_spec (length (content a)) 0) as [E|E].
  - destruct (content a); [reflexivity|discriminate].
  - destruct (arr_dirty a) eqn:D; cbn [negb].
    + rewrite content_items by auto. unfold content, defined_only. rewrite filter_app.
      specialize (Hf (a_off a)). unfold defined_only in Hf. rewrite Hf. reflexivity.
    + unfold arr_dirty in D. apply orb_false_iff in D as [D1 D2]. apply negb_false_iff in D1, D2. apply Nat.eqb_eq in D1.
      destruct (a_chg a) eqn:Ec; [|discriminate]. unfold content in *. rewrite Ec, D1, app_nil_r in *. unfold vsize in *.
      rewrite firstn_all in *. specialize (Hf (length (members_of (a_base a)))). rewrite firstn_all in Hf. rewrite Hf.
      destruct (a_base a) eqn:Eb; try (exfalso; apply E; reflexivity); [reflexivity|exfalso; eapply Hno; eauto].
Qed.

(** The base of a builder never becomes an object. *)
Definition base_kind (v : value) : Prop := v = VUndef \/ exists l, v = VArr l.

Lemma step_base : forall a op a', arr_step a op = Some a' -> a_base a' = a_base a \/ a_base a' = VArr [].
Proof.
  assert (He : forall a pos, a_base (arr_extend a pos) = a_base a) by (intros; unfold arr_extend; destruct (_ <? _); reflexivity).
  assert (Hw : forall a l a', with_chg a l = Some a' -> a_base a' = a_base a) by (intros a [l|] a' H; inversion H; reflexivity).
  assert (Hes : forall a pos len a', arr_erase_set a pos len = Some a' -> a_base a' = a_base a).
  { intros a pos len a' H. apply Hw in H. rewrite H. apply He. }
  assert (Ht : forall a pos a', arr_trunc a pos = Some a' -> a_base a' = a_base a).
  { intros a pos a' H. unfold arr_trunc in H. destruct (pos <? a_off a); [inversion H; reflexivity|eauto]. }
  assert (Hsp : forall a n a', arr_slice_pos a n = Some a' -> a_base a' = a_base a).
  { intros a n a' H. unfold arr_slice_pos in H. destruct (_ <=? _); [inversion H; reflexivity|eauto]. }
  assert (Hr : forall a n out a', arr_reverse_loop a n out = Some a' -> a_base a' = a_base out).
  { intros a n. induction n as [|n IH]; intros out a' H; cbn [arr_reverse_loop] in H; [congruence|].
    destruct (arr_get a n); [|discriminate]. apply IH in H. exact H. }
  intros a op a' H. destruct op; cbn [arr_step] in H.
  - inversion H; auto.
  - inversion H; rewrite add_set_spec; auto.
  - left. unfold arr_insert in H. apply Hw in H. rewrite H. apply He.
  - left. unfold arr_insert_set in H. destruct (_ <=? _); [|discriminate]. destruct (fill_slots _ _ _); [|discriminate].
    apply Hw in H. rewrite H. apply He.
  - left. eapply Hes; eauto.
  - left. eapply Hes; eauto.
  - left. eauto.
  - inversion H; auto.
  - inversion H; auto.
  - left. unfold arr_set in H. apply Hw in H. rewrite H. apply He.
  - right. unfold arr_reverse in H. apply Hr in H. exact H.
  - left. unfold arr_set_size in H. destruct (_ <? _); [eauto|]. inversion H. rewrite add_set_spec. reflexivity.
  - left. unfold arr_slice1 in H. destruct (start <? 0)%Z; [destruct (_ <? _)%Z|]; eauto. inversion H; reflexivity.
Qed.

Lemma step_kind : forall a op a', arr_step a op = Some a' -> base_kind (a_base a) -> base_kind (a_base a').
Proof.
  intros a op a' H K. apply step_base in H. destruct H as [->| ->]; auto. right. eauto.
Qed.

Lemma step_base_in : forall s op m, In m (as_base (aspec_step s op)) -> In m (as_base s).
Proof. intros s op m H. destruct op; cbn in H; try exact H; destruct H. Qed.

Lemma run_spec : forall ops a s, arep a s -> base_kind (a_base a) ->
  (forall m, In m (as_base s) -> is_undef (snd m) = false) -> aops_ok s ops ->
  exists a', arr_run a ops = Some a' /\ arep a' (aspec_run s ops) /\ base_kind (a_base a') /\
    (forall m, In m (as_base (aspec_run s ops)) -> is_undef (snd m) = false).
Proof.
  induction ops as [|op ops IH]; intros a s Hr Hk Hd Hok.
  - exists a. auto.
  - destruct Hok as [H1 H2]. destruct (step_spec a s op Hr H1) as (a' & Ha & Hr').
    cbn [arr_run]. rewrite Ha. apply IH; auto.
    + eapply step_kind; eauto.
    + intros m Hm. apply Hd. eapply step_base_in; eauto.
Qed.

Lemma array_builder : forall c ops, (match c with CBase l => forall m, In m l -> is_undef (snd m) = false | _ => True end) ->
  aops_ok (aspec_create c) ops ->
  let cur := as_cur (aspec_run (aspec_create c) ops) in
  exists a, arr_run (arr_create c) ops = Some a /\
    arr_size a = length cur /\ (forall i, arr_get a i = nth_error cur i) /\
    arr_commit a = VArr (defined_only cur).
Proof.
  intros c ops Hc Hok cur.
  destruct (run_spec ops (arr_create c) (aspec_create c)) as (a & Ha & Hr & Hk & Hd); auto.
  - apply create_rep.
  - destruct c; [right; exists l; reflexivity|right; exists []; reflexivity|left; reflexivity].
  - destruct c; cbn; intros m Hm; try destruct Hm. auto.
  - exists a. destruct Hr as (R1 & R2 & R3). split; auto. fold cur in R2. split; [|split].
    + rewrite <- R2. symmetry. apply content_length; auto.
    + intros i. rewrite <- R2. apply arr_get_spec; auto.
    + apply commit_spec; auto. { split; auto. }
      * intros d l E. destruct Hk as [K|[l' K]]; congruence.
      * intros Hn. destruct Hk as [K|[l' K]]; [right|left; congruence].
        unfold arr_dirty, arr_size, arr_wf, vsize in *. rewrite K in *. cbn [members_of length] in *.
        destruct (a_chg a); cbn [length] in *; [lia|]. rewrite orb_true_r. reflexivity.
Qed.

(** [insertSet] away from position 0 in a fresh builder over an array. *)
Lemma fill_slots_zero : forall x l i r, fill_slots (None :: l) (S i) x = Some r -> exists r', r = None :: r'.
Proof.
  induction x as [|m x IH]; intros l i r H; cbn [fill_slots] in H.
  - inversion H; eauto.
  - destruct (_ <? _); [|discriminate]. cbn [firstn skipn app] in H. eapply IH; eauto.
Qed.

Lemma insert_set_undefined : forall l pos x, 0 < pos <= length l -> x <> [] ->
  arr_run (arr_of (VArr l)) [AInsertSet pos x] = None.
Proof.
  intros l pos x Hp Hx. cbn [arr_run arr_step]. unfold arr_insert_set.
  pose proof (proj1 (create_rep (CBase l))) as Hw. cbn [arr_create] in Hw. ext (arr_of (VArr l)) pos.
  cbn [arr_of a_off vsize members_of] in E3.
  assert (a_off a1 = pos) as Ho. { cbn [arr_of a_off] in E3. unfold vsize in E3. cbn [members_of] in E3. lia. }
  rewrite Ho, Nat.sub_diag. cbn [Nat.leb]. cbn [firstn map app].
  destruct x as [|m x]; [congruence|]. cbn [length repeat app].
  destruct (fill_slots _ _ _) eqn:Ef; [|reflexivity].
  replace (pos + pos) with (S (pos + pos - 1)) in Ef by lia. apply fill_slots_zero in Ef as [r ->]. reflexivity.
Qed.

(** *** Slices *)
(** [slice(start)] on the current list. *)
Lemma slice1_gen : forall a start, arr_wf a -> exists a', arr_slice1 a start = Some a' /\ arr_wf a' /\
  content a' = range (content a) (norm_pos (length (content a)) start) (length (content a)) /\ a_base a' = a_base a.
Proof.
  intros a start H.
  destruct (step_spec a (mkASpec (members_of (a_base a)) (content a)) (ASlice1 start)) as (a' & Ha & Hw & Hc & _).
  { split; auto. } { exact I. }
  exists a'. split; auto. split; auto. split.
  - rewrite Hc. cbn. unfold range, norm_pos. destruct (start <? 0)%Z eqn:E.
    + rewrite firstn_all2; auto. rewrite skipn_length. lia.
    + rewrite firstn_all2 by (rewrite skipn_length; lia).
      destruct (Nat.min_spec (length (content a)) (Z.to_nat start)) as [[H1 ->]|[H1 ->]]; auto.
      rewrite !skipn_all2; auto; lia.
  - cbn [arr_step] in Ha. unfold arr_slice1, arr_slice_pos in Ha.
    assert (Hes : forall pos len x, arr_erase_set a pos len = Some x -> a_base x = a_base a).
    { intros pos len x Hx. unfold arr_erase_set in Hx. unfold with_chg in Hx. destruct (vec_erase _ _ _); inversion Hx. cbn.
      unfold arr_extend. destruct (_ <? _); reflexivity. }
    destruct (start <? 0)%Z; [destruct (_ <? _)%Z|]; [|inversion Ha; reflexivity|];
      (destruct (_ <=? _); [inversion Ha; reflexivity|eauto]).
Qed.

Lemma slice_end_gen : forall a start e, arr_wf a -> exists a', arr_slice_end a start e = Some a' /\ arr_wf a' /\
  content a' = last_or_skip (firstn e (content a)) start /\ a_base a' = a_base a.
Proof.
  intros a start e H. unfold arr_slice_end. rewrite <- content_length by auto.
  destruct (Nat.ltb_spec e (length (content a))) as [E|E].
  - destruct (trunc_gen a e H) as (a1 & -> & Hw1 & Hc1 & Hb1); [lia|].
    destruct (slice1_gen a1 start Hw1) as (a2 & -> & Hw2 & Hc2 & Hb2). exists a2. rewrite Hc2, Hc1, Hb2, Hb1. auto.
  - destruct (slice1_gen a start H) as (a2 & -> & Hw2 & Hc2 & Hb2). exists a2. rewrite (firstn_all2 (content a)) by lia. auto.
Qed.

Lemma slice2_gen : forall a start e, arr_wf a -> exists a', arr_slice2 a start e = Some a' /\ arr_wf a' /\
  content a' = (let kept := last_or_skip (firstn (norm_pos (length (content a)) e) (content a)) start in
                if (e <? 0)%Z then last_or_skip kept start else kept).
Proof.
  intros a start e H. unfold arr_slice2. rewrite <- content_length by auto. unfold norm_pos at 1.
  destruct (e <? 0)%Z eqn:Ee; cbv zeta.
  - destruct (- e <? Z.of_nat (length (content a)))%Z eqn:En.
    + destruct (slice_end_gen a start (Z.to_nat (Z.of_nat (length (content a)) + e)) H) as (a1 & -> & Hw1 & Hc1 & Hb1).
      destruct (slice1_gen a1 start Hw1) as (a2 & -> & Hw2 & Hc2 & Hb2). exists a2. split; auto. split; auto.
      rewrite Hc2, Hc1. unfold last_or_skip at 1.
      replace (length (content a) - Z.to_nat (- e)) with (Z.to_nat (Z.of_nat (length (content a)) + e)) by lia. reflexivity.
    + assert (Hw1 : arr_wf (arr_clear a)) by (unfold arr_wf; cbn; lia).
      destruct (slice1_gen (arr_clear a) start Hw1) as (a2 & -> & Hw2 & Hc2 & Hb2). exists a2. split; auto. split; auto.
      rewrite Hc2. replace (length (content a) - Z.to_nat (- e)) with 0 by lia. cbn [firstn].
      unfold content, arr_clear. cbn [a_base a_off a_chg firstn app length]. unfold last_or_skip, range, norm_pos. cbn [length].
      destruct (start <? 0)%Z; [|rewrite Nat.min_0_l]; reflexivity.
  - destruct (slice_end_gen a start (Z.to_nat e) H) as (a1 & -> & Hw1 & Hc1 & Hb1). exists a1. split; auto. split; auto.
    rewrite Hc1. f_equal. unfold norm_pos. rewrite Ee.
    destruct (Nat.min_spec (length (content a)) (Z.to_nat e)) as [[H1 ->]|[H1 ->]]; auto.
    rewrite !firstn_all2; auto; lia.
Qed.

Lemma list_ext : forall A (l m : list A), (forall i, nth_error l i = nth_error m i) -> l = m.
Proof.
  intros A. induction l as [|x l IH]; intros [|y m] H; auto.
  - specialize (H 0). discriminate.
  - specialize (H 0). discriminate.
  - f_equal; [specialize (H 0); cbn in H; congruence|]. apply IH. intros i. apply (H (S i)).
Qed.
Lemma nth_error_skipn' : forall A (l : list A) n i, nth_error (skipn n l) i = nth_error l (n + i).
Proof. intros A l n. revert l. induction n as [|n IH]; intros [|x l] i; cbn [skipn Nat.add nth_error]; auto. destruct i; reflexivity. Qed.
Lemma nth_error_firstn' : forall A (l : list A) n i, nth_error (firstn n l) i = if i <? n then nth_error l i else None.
Proof.
  intros A l n. revert l. induction n as [|n IH]; intros l i.
  - destruct i; reflexivity.
  - destruct l as [|x l]; [destruct (i <? S n); destruct i; reflexivity|].
    destruct i as [|i]; [reflexivity|]. cbn [firstn nth_error]. rewrite IH. reflexivity.
Qed.
Lemma nth_error_range : forall A (l : list A) s e i, nth_error (range l s e) i = if s + i <? e then nth_error l (s + i) else None.
Proof.
  intros A l s e i. unfold range. rewrite nth_error_firstn', nth_error_skipn'.
  destruct (Nat.ltb_spec i (e - s)); destruct (Nat.ltb_spec (s + i) e); auto; lia.
Qed.

Lemma last_or_skip_range : forall l s e, (0 <= s)%Z ->
  last_or_skip (firstn e l) s = range l (norm_pos (length l) s) (Nat.min e (length l)).
Proof.
  intros l s e Hs. apply list_ext. intros i. unfold last_or_skip. rewrite !nth_error_range, nth_error_firstn', firstn_length.
  unfold norm_pos. destruct (s <? 0)%Z eqn:E; [lia|].
  assert (Hn : forall j, length l <= j -> nth_error l j = None) by (intros; apply nth_error_None; auto).
  repeat match goal with |- context [?a <? ?b] => destruct (Nat.ltb_spec a b) end; try lia; auto.
  destruct (le_lt_dec (Z.to_nat s) (Nat.min e (length l))); [f_equal; lia|lia].
Qed.

Lemma norm_pos_le : forall n p, norm_pos n p <= n.
Proof. intros n p. unfold norm_pos. destruct (p <? 0)%Z; lia. Qed.

Lemma array_slice2 : forall l s e, (0 <= s)%Z -> (0 <= e)%Z \/ s = 0%Z ->
  exists a, arr_slice2 (arr_of (VArr l)) s e = Some a /\
    content a = range l (norm_pos (length l) s) (norm_pos (length l) e).
Proof.
  intros l s e Hs He. destruct (create_rep (CBase l)) as (Hw & Hc & _). cbn [arr_create aspec_create as_cur] in *.
  destruct (slice2_gen (arr_of (VArr l)) s e Hw) as (a & Ha & _ & Hca). exists a. split; auto.
  rewrite Hca, Hc. cbv zeta. pose proof (norm_pos_le (length l) e) as Hle.
  rewrite (last_or_skip_range l s) by auto. rewrite Nat.min_l by auto.
  destruct (e <? 0)%Z eqn:E; auto. destruct He as [He| ->]; [lia|].
  set (r := range _ _ _). replace r with (firstn (length r) r) at 1 by apply firstn_all.
  rewrite last_or_skip_range by lia. unfold norm_pos. cbn [Z.ltb Z.compare Z.to_nat]. rewrite Nat.min_0_r, Nat.min_id.
  unfold range. cbn [skipn]. rewrite Nat.sub_0_r. apply firstn_all.
Qed.

(** *** Value::slice *)
Lemma defined_filter : forall l, (forall m, In m l -> is_undef (snd m) = false) -> defined_only l = l.
Proof.
  unfold defined_only. induction l as [|x l IH]; intros H; auto. cbn [filter]. rewrite (H x) by (left; auto). cbn [negb].
  f_equal. apply IH. intros; apply H; right; auto.
Qed.

Lemma in_range : forall A (l : list A) s e x, In x (range l s e) -> In x l.
Proof.
  intros A l s e x H. unfold range in H. rewrite <- (firstn_skipn s l). apply in_or_app. right.
  rewrite <- (firstn_skipn (e - s)). apply in_or_app. auto.
Qed.

Lemma range_empty : forall A (l : list A) s e, e <= s \/ length l <= s -> range l s e = [].
Proof.
  intros A l s e [H|H]; unfold range.
  - replace (e - s) with 0 by lia. reflexivity.
  - rewrite skipn_all2 by lia. apply firstn_nil.
Qed.

Lemma increasing_range : forall (l : list member) s e, keys_increasing l -> keys_increasing (range l s e).
Proof.
  intros l s e H. unfold range. assert (Hs : forall n (m : list member), keys_increasing m -> keys_increasing (skipn n m)).
  { induction n as [|n IH]; intros [|x m] Hm; cbn [skipn]; auto. apply IH. apply inc_cons in Hm. tauto. }
  apply (Hs s) in H. revert H. generalize (e - s), (skipn s l). clear. intros n.
  induction n as [|n IH]; intros [|x m] H; cbn [firstn]; try (constructor; fail). 
  apply inc_cons in H as [H1 H2]. specialize (IH m H1).
  destruct x as [kx vx]. apply keys_increasing_cons. split; auto. apply Forall_forall. intros y Hy. apply H2, in_map.
  rewrite <- (firstn_skipn n m). apply in_or_app; auto.
Qed.

Lemma slice_range_spec : forall v s e, slice_ok v -> s < e -> e <= vsize v ->
  vslice_range v s e = slice_result v (range (members_of v) s e).
Proof.
  intros v s e [Hd Hk] H1 H2. unfold vslice_range, vitem, vsize in *. rewrite map_nth_seq by lia.
  fold (range (members_of v) s e). set (r := range (members_of v) s e).
  assert (Hr : forall m, In m r -> is_undef (snd m) = false) by (intros m Hm; apply Hd; eapply in_range; eauto).
  assert (Hne : r <> []).
  { intros E. apply (f_equal (@length _)) in E. unfold r, range in E. rewrite firstn_length, skipn_length in E. cbn [length] in E. lia. }
  unfold slice_result. destruct v; try contradiction.
  - pose proof (defined_filter r Hr) as Hf. unfold defined_only in Hf. rewrite Hf. destruct r; [congruence|reflexivity].
  - destruct Hk as [-> Hk]. rewrite build_object_id; auto.
    + destruct r; [congruence|reflexivity].
    + unfold r. apply increasing_range. exact Hk.
    + apply Forall_forall. exact Hr.
Qed.

Lemma slice_result_all : forall v, slice_ok v -> vsize v <> 0 -> slice_result v (members_of v) = v.
Proof.
  intros v [_ H] Hn. unfold slice_result, vsize in *. destruct v; try contradiction; cbn [members_of length] in *; destruct l; auto; cbn in Hn; lia.
Qed.

Lemma vslice_pos_spec : forall v s e, slice_ok v -> (0 <= s)%Z ->
  vslice_pos v s e = slice_result v (range (members_of v) (Z.to_nat s) (Nat.min (vsize v) (Z.to_nat e))).
Proof.
  intros v s e Hok Hs. unfold vslice_pos.
  destruct ((e <=? s)%Z || (Z.of_nat (vsize v) <=? s)%Z) eqn:E.
  - rewrite range_empty by (unfold vsize in *; lia). reflexivity.
  - apply orb_false_iff in E as [E1 E2]. destruct (Z.of_nat (vsize v) <=? e)%Z eqn:E3.
    + rewrite slice_range_spec by (auto; lia). do 2 f_equal. lia.
    + rewrite slice_range_spec by (auto; lia). do 2 f_equal. lia.
Qed.

Lemma value_slice : forall v s e, slice_ok v ->
  vslice v s e = slice_result v (range (members_of v) (norm_pos (vsize v) s) (slice_end (vsize v) s e)).
Proof.
  intros v s e Hok. unfold vslice, slice_end, norm_pos.
  destruct (Z.of_nat (vsize v) =? 0)%Z eqn:E0.
  - rewrite range_empty by (unfold vsize in *; lia). reflexivity.
  - destruct (s <? 0)%Z eqn:Es.
    + destruct (Z.of_nat (vsize v) <=? - s)%Z eqn:E1.
      * replace (vsize v - Z.to_nat (- s)) with 0 by lia. unfold range. cbn [skipn]. rewrite Nat.sub_0_r.
        rewrite firstn_all2 by (unfold vsize; lia). symmetry. apply slice_result_all; auto. lia.
      * rewrite vslice_pos_spec by (auto; lia). do 2 f_equal; lia.
    + destruct (e <? 0)%Z eqn:Ee.
      * destruct (Z.of_nat (vsize v) <=? - e)%Z eqn:E1.
        -- rewrite range_empty by (unfold vsize in *; lia). reflexivity.
        -- rewrite vslice_pos_spec by (auto; lia). f_equal.
           replace (Nat.min (vsize v) (Z.to_nat (Z.of_nat (vsize v) + e))) with (vsize v - Z.to_nat (- e)) by lia.
           destruct (Nat.min_spec (vsize v) (Z.to_nat s)) as [[H1 ->]|[H1 ->]]; auto.
           rewrite !range_empty; auto; unfold vsize in *; lia.
      * rewrite vslice_pos_spec by (auto; lia). f_equal.
        destruct (Nat.min_spec (vsize v) (Z.to_nat s)) as [[H1 ->]|[H1 ->]]; auto.
        rewrite !range_empty; auto; unfold vsize in *; lia.
Qed.

(** *** push, pop, shift, unshift, reverse on arrays *)
Lemma all_defined_app : forall l m : list member, (forall x, In x (l ++ m) -> is_undef (snd x) = false) ->
  (forall x, In x l -> is_undef (snd x) = false) /\ (forall x, In x m -> is_undef (snd x) = false).
Proof. intros l m H. split; intros x Hx; apply H, in_or_app; auto. Qed.

Lemma value_push : forall l m, (forall x, In x (l ++ [m]) -> is_undef (snd x) = false) ->
  vpush (VArr l) m = VArr (l ++ [m]).
Proof.
  intros l m H. destruct (all_defined_app _ _ H) as [H1 H2].
  destruct (array_builder (CBase l) [APush m]) as (a & Ha & _ & _ & Hc); [exact H1|cbn; auto|].
  cbn in Ha. inversion Ha; subst a. unfold vpush. cbn [as_cur aspec_run fold_left aspec_step aspec_create as_base] in Hc.
  rewrite defined_filter in Hc by exact H. exact Hc.
Qed.

Lemma value_pop : forall l m, (forall x, In x (l ++ [m]) -> is_undef (snd x) = false) ->
  vpop (VArr (l ++ [m])) = Some (VArr l, m).
Proof.
  intros l m H. destruct (all_defined_app _ _ H) as [H1 H2].
  unfold vpop, vsize. cbn [members_of]. rewrite app_length. cbn [length].
  destruct (Nat.eqb_spec (length l + 1) 0); [lia|]. replace (length l + 1 - 1) with (length l) by lia.
  destruct (array_builder (CBase (l ++ [m])) []) as (a & Ha & _ & Hg & _); [exact H|exact I|].
  cbn in Ha. inversion Ha; subst a. cbn [as_cur aspec_run fold_left aspec_create] in Hg.
  cbn [arr_create] in *. rewrite Hg. rewrite nth_error_app2, Nat.sub_diag by lia. cbn [nth_error].
  destruct (array_builder (CBase (l ++ [m])) [AErase (length l)]) as (a & Ha' & _ & _ & Hc); [exact H|cbn; rewrite app_length; cbn; lia|].
  cbn [arr_run arr_step arr_create] in Ha'. destruct (arr_erase (arr_of (VArr (l ++ [m]))) (length l)) as [a'|]; [|discriminate].
  inversion Ha'; subst a'. rewrite Hc. cbn [as_cur aspec_run fold_left aspec_step aspec_create as_base].
  rewrite firstn_app, firstn_all, Nat.sub_diag, skipn_all2 by (rewrite app_length; cbn; lia). cbn [firstn].
  rewrite !app_nil_r, defined_filter by exact H1. reflexivity.
Qed.

Lemma value_unshift : forall l m, (forall x, In x (m :: l) -> is_undef (snd x) = false) ->
  vunshift (VArr l) m = VArr (m :: l).
Proof.
  intros l m H. destruct (array_builder CEmpty [APush m; AAddSet (VArr l)]) as (a & Ha & _ & _ & Hc); [exact I|cbn; auto|].
  cbn [arr_run arr_step arr_create] in Ha. inversion Ha; subst a. unfold vunshift. cbn [members_of] in *. rewrite Hc.
  cbn [as_cur aspec_run fold_left aspec_step aspec_create as_base members_of app]. rewrite defined_filter by exact H. reflexivity.
Qed.

Lemma value_shift : forall l m, (forall x, In x (m :: l) -> is_undef (snd x) = false) ->
  vshift (VArr (m :: l)) = (VArr l, m).
Proof.
  intros l m H. unfold vshift, vslice1. rewrite value_slice by (split; [exact H|exact I]). f_equal.
  unfold slice_end, norm_pos, vsize. cbn [members_of length]. change (1 <? 0)%Z with false. cbv iota. change (Z.to_nat 1) with 1.
  assert ((Z.of_nat (S (length l)) <? 0)%Z = false) as -> by lia. rewrite Nat2Z.id, Nat.min_id. rewrite Nat.min_r by lia.
  unfold range. cbn [skipn]. replace (S (length l) - 1) with (length l) by lia. rewrite firstn_all. destruct l; reflexivity.
Qed.

Lemma value_reverse : forall l, (forall x, In x l -> is_undef (snd x) = false) ->
  vreverse (VArr l) = VArr (rev l).
Proof.
  intros l H.
  assert (E : map (fun i => vitem (VArr l) (vsize (VArr l) - 1 - i)) (seq 0 (vsize (VArr l))) = rev l).
  { unfold vsize, vitem. cbn [members_of]. apply list_ext. intros i.
    destruct (le_lt_dec (length l) i) as [L|L].
    - rewrite !(proj2 (nth_error_None _ _)); auto; rewrite ?rev_length, ?map_length, ?seq_length; lia.
    - rewrite (nth_error_nth' (rev l) ([], VUndef)) by (rewrite rev_length; lia). rewrite rev_nth by lia.
      erewrite map_nth_error; [|rewrite (nth_error_nth' _ 0) by (rewrite seq_length; lia); reflexivity].
      rewrite seq_nth by lia. do 2 f_equal. lia. }
  unfold vreverse. rewrite E.
  destruct (array_builder CEmpty [AAddSet (VArr (rev l))]) as (a & Ha & _ & _ & Hc); [exact I|cbn; auto|].
  cbn [arr_run arr_step arr_create members_of] in Ha. inversion Ha; subst a. rewrite Hc.
  cbn [as_cur aspec_run fold_left aspec_step aspec_create as_base members_of app]. rewrite defined_filter; auto.
  intros x Hx. apply H. apply in_rev. exact Hx.
Qed.

(** *** splitAt *)
Lemma view_items_range : forall w, view_ok w -> view_items w = range (w_items w) (w_start w) (w_start w + w_len w).
Proof.
  intros w H. unfold view_items, view_item, view_ok in *. unfold range. rewrite <- map_nth_seq with (d := ([], VUndef)) by lia.
  replace (w_start w + w_len w - w_start w) with (w_len w) by lia.
  assert (Hg : forall n k, map (fun i => nth (w_start w + i) (w_items w) ([], VUndef)) (seq k n) =
    map (fun i => nth i (w_items w) ([], VUndef)) (seq (w_start w + k) n)).
  { induction n as [|n IH]; intros k; auto. cbn [seq map]. f_equal. rewrite IH. do 2 f_equal. lia. }
  rewrite Hg, Nat.add_0_r. reflexivity.
Qed.

Lemma view_items_length : forall w, length (view_items w) = w_len w.
Proof. intros. unfold view_items. rewrite map_length, seq_length. reflexivity. Qed.

Lemma split_pos_spec : forall w pos, view_ok w -> (0 <= pos)%Z ->
  let '(x, y) := split_pos w pos in
  view_ok x /\ view_ok y /\ view_items x ++ view_items y = view_items w /\
  w_len x = Nat.min (w_len w) (Z.to_nat pos).
Proof.
  intros w pos H Hp. unfold split_pos. destruct (0 <? pos)%Z eqn:E.
  - destruct (pos <? Z.of_nat (w_len w))%Z eqn:E2.
    + unfold view_ok, sub_view in *. cbn [w_items w_start w_len]. repeat split; try lia.
      unfold view_items, view_item. cbn [w_items w_start w_len]. rewrite Nat.add_0_r.
      replace (w_len w) with (Z.to_nat pos + (w_len w - Z.to_nat pos)) at 2 by lia. rewrite seq_app, map_app. f_equal.
      cbn [Nat.add]. set (m := Z.to_nat pos).
      assert (Hg : forall n k, map (fun i => nth (w_start w + m + i) (w_items w) ([], VUndef)) (seq k n) =
        map (fun i => nth (w_start w + i) (w_items w) ([], VUndef)) (seq (m + k) n)).
      { induction n as [|n IH]; intros k; auto. cbn [seq map]. rewrite Nat.add_assoc. f_equal. rewrite IH. do 2 f_equal. lia. }
      rewrite Hg, Nat.add_0_r. reflexivity.
    + split; [exact H|]. split; [cbv; lia|]. split; [apply app_nil_r|cbn; lia].
  - split; [cbv; lia|]. split; [exact H|]. split; [reflexivity|cbn; lia].
Qed.

Lemma split_at_spec : forall w pos, view_ok w -> (Z.of_nat (w_len w) < 2 ^ 31)%Z ->
  let '(x, y) := split_at w pos in
  view_ok x /\ view_ok y /\ view_items x ++ view_items y = view_items w /\
  length (view_items x) = norm_pos (length (view_items w)) pos.
Proof.
  intros w pos H Hl. unfold split_at, norm_pos. rewrite view_items_length.
  destruct (pos <? 0)%Z eqn:E.
  - assert (s32 (Z.of_nat (w_len w)) = Z.of_nat (w_len w)) as ->.
    { unfold s32. rewrite Z.mod_small by lia. cbv zeta. apply Z.ltb_lt in Hl. rewrite Hl. reflexivity. }
    destruct (0 <? Z.of_nat (w_len w) + pos)%Z eqn:E2.
    + pose proof (split_pos_spec w (Z.of_nat (w_len w) + pos) H) as Hs. destruct (split_pos _ _) as [x y].
      destruct Hs as (H1 & H2 & H3 & H4); [lia|]. repeat split; auto. rewrite view_items_length. lia.
    + split; [cbv; lia|]. split; [exact H|]. split; [reflexivity|cbn; lia].
  - pose proof (split_pos_spec w pos H) as Hs. destruct (split_pos _ _) as [x y].
    destruct Hs as (H1 & H2 & H3 & H4); [lia|]. repeat split; auto. rewrite view_items_length. lia.
Qed.

(** Reading inside a part is reading its items. *)
Lemma view_item_nth : forall w i, i < w_len w -> nth_error (view_items w) i = Some (view_item w i).
Proof.
  intros w i H. unfold view_items. erewrite map_nth_error; [reflexivity|].
  rewrite (nth_error_nth' _ 0) by (rewrite seq_length; lia). rewrite seq_nth by lia. reflexivity.
Qed.

(** Slicing any reachable builder. *)
Lemma reach_wf : forall c ops a, (match c with CBase l => forall m, In m l -> is_undef (snd m) = false | _ => True end) ->
  aops_ok (aspec_create c) ops -> arr_run (arr_create c) ops = Some a ->
  arr_wf a /\ content a = as_cur (aspec_run (aspec_create c) ops).
Proof.
  intros c ops a Hc Hok Ha.
  destruct (run_spec ops (arr_create c) (aspec_create c)) as (a' & Ha' & Hr & _); auto.
  - apply create_rep.
  - destruct c; [right; exists l; reflexivity|right; exists []; reflexivity|left; reflexivity].
  - destruct c; cbn; intros m Hm; try destruct Hm. auto.
  - assert (a' = a) by congruence. subst a'. destruct Hr as (H1 & H2 & _). auto.
Qed.

Lemma builder_slice2 : forall c ops a s e,
  (match c with CBase l => forall m, In m l -> is_undef (snd m) = false | _ => True end) ->
  aops_ok (aspec_create c) ops -> arr_run (arr_create c) ops = Some a ->
  let l := as_cur (aspec_run (aspec_create c) ops) in
  let kept := last_or_skip (firstn (norm_pos (length l) e) l) s in
  exists a', arr_slice2 a s e = Some a' /\
    forall i, arr_get a' i = nth_error (if (e <? 0)%Z then last_or_skip kept s else kept) i.
Proof.
  intros c ops a s e Hc Hok Ha l kept. destruct (reach_wf c ops a Hc Hok Ha) as [Hw Hct]. fold l in Hct.
  destruct (slice2_gen a s e Hw) as (a' & Ha' & Hw' & Hc'). exists a'. split; auto. intros i.
  rewrite arr_get_spec by auto. rewrite Hc', Hct. reflexivity.
Qed.

Lemma builder_slice2_range : forall c ops a s e,
  (match c with CBase l => forall m, In m l -> is_undef (snd m) = false | _ => True end) ->
  aops_ok (aspec_create c) ops -> arr_run (arr_create c) ops = Some a ->
  (0 <= s)%Z -> (0 <= e)%Z \/ s = 0%Z ->
  let l := as_cur (aspec_run (aspec_create c) ops) in
  exists a', arr_slice2 a s e = Some a' /\
    forall i, arr_get a' i = nth_error (range l (norm_pos (length l) s) (norm_pos (length l) e)) i.
Proof.
  intros c ops a s e Hc Hok Ha Hs He l. destruct (builder_slice2 c ops a s e Hc Hok Ha) as (a' & H1 & H2). fold l in H2.
  exists a'. split; auto. intros i. rewrite H2. f_equal.
  rewrite (last_or_skip_range l s) by auto. rewrite Nat.min_l by apply norm_pos_le.
  destruct (e <? 0)%Z eqn:E; auto. destruct He as [He| ->]; [lia|].
  set (r := range _ _ _). replace r with (firstn (length r) r) at 1 by apply firstn_all.
  rewrite last_or_skip_range by lia. unfold norm_pos. cbn [Z.ltb Z.compare Z.to_nat]. rewrite Nat.min_0_r, Nat.min_id.
  unfold range. cbn [skipn]. rewrite Nat.sub_0_r. apply firstn_all.
Qed.

Lemma builder_slice1 : forall c ops a s,
  (match c with CBase l => forall m, In m l -> is_undef (snd m) = false | _ => True end) ->
  aops_ok (aspec_create c) ops -> arr_run (arr_create c) ops = Some a ->
  let l := as_cur (aspec_run (aspec_create c) ops) in
  exists a', arr_slice1 a s = Some a' /\
    forall i, arr_get a' i = nth_error (range l (norm_pos (length l) s) (length l)) i.
Proof.
  intros c ops a s Hc Hok Ha l. destruct (reach_wf c ops a Hc Hok Ha) as [Hw Hct]. fold l in Hct.
  destruct (slice1_gen a s Hw) as (a' & Ha' & Hw' & Hc' & _). exists a'. split; auto. intros i.
  rewrite arr_get_spec by auto. rewrite Hc', Hct. reflexivity.
Qed.

Lemma set_base_spec : forall a v,
  let a' := arr_set_base a v in
  let cur := (if match a_chg a with [] => true | _ => false end then members_of v else firstn (a_off a) (members_of v) ++ a_chg a) in
  arep a' (mkASpec (members_of v) cur) /\ arr_size a' = length cur /\ forall i, arr_get a' i = nth_error cur i.
Proof.
  intros a v. cbv zeta.
  assert (R : arep (arr_set_base a v) (mkASpec (members_of v)
    (if match a_chg a with [] => true | _ => false end then members_of v else firstn (a_off a) (members_of v) ++ a_chg a))).
  { unfold arr_set_base, arep, arr_wf, content, vsize. destruct (a_chg a) as [|x l]; cbn [a_base a_off a_chg as_cur as_base].
    - split; [lia|]. split; [|reflexivity]. rewrite firstn_all, app_nil_r. reflexivity.
    - split; [lia|]. split; [|reflexivity]. f_equal. destruct (Nat.min_spec (a_off a) (length (members_of v))) as [[H ->]|[H ->]]; auto.
      rewrite firstn_all, firstn_all2 by lia. reflexivity. }
  split; [exact R|]. destruct R as (W & C & _). cbn [as_cur] in C. rewrite <- C. split; [symmetry; apply content_length; auto|].
  intros i. apply arr_get_spec. auto.
Qed.
Lemma set_base_values : forall c ops a v,
  (match c with CBase l => forall m, In m l -> is_undef (snd m) = false | _ => True end) ->
  aops_ok (aspec_create c) ops -> arr_run (arr_create c) ops = Some a ->
  exists cur, (a_chg a = [] -> cur = members_of v) /\
    (a_chg a <> [] -> exists kept own, as_cur (aspec_run (aspec_create c) ops) = kept ++ own /\ own = a_chg a /\
      cur = firstn (length kept) (members_of v) ++ own) /\
    arr_size (arr_set_base a v) = length cur /\ forall i, arr_get (arr_set_base a v) i = nth_error cur i.
Proof.
  intros c ops a v Hc Hok E. destruct (set_base_spec a v) as (_ & S & G).
  assert (R : arep a (aspec_run (aspec_create c) ops)).
  { clear S G v Hc. revert Hok E. generalize (create_rep c). generalize (arr_create c) (aspec_create c). intros a0 s0 R0.
    revert a0 s0 R0. induction ops as [|op ops IH]; intros a0 s0 R0 Hok E; cbn in *; [inversion E; subst; exact R0|].
    destruct Hok as [H1 H2]. destruct (step_spec a0 s0 op R0 H1) as (a1 & E1 & R1). rewrite E1 in E. eapply IH; eauto. }
  destruct R as (W & C & B). eexists. split; [|split; [|split; [exact S|exact G]]].
  - intros ->. reflexivity.
  - intros Hne. exists (firstn (a_off a) (members_of (a_base a))), (a_chg a). split; [rewrite <- C; reflexivity|]. split; [reflexivity|].
    destruct (a_chg a); [congruence|]. rewrite firstn_length. unfold arr_wf, vsize in W. rewrite Nat.min_l by lia. reflexivity.
Qed.
