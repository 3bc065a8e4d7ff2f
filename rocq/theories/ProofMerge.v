(** Lemmas about merge, diff and setItems. *)
From Coq Require Import Sorted Permutation.
From Verif Require Import Base ModelKeyed SpecKeyed ProofKeyed ModelValue ProofValue ModelObject SpecObject ProofObject
  ModelArray SpecArray ProofArray ModelEq SpecEq ProofEq ModelDiff SpecDiff ProofDiff ModelStd ModelEnum ProofEnum ModelMerge SpecMerge.

(** *** Builders filled by [set] *)
Lemma kept_undef : forall v, kept (Some v) = if is_undef v then None else Some v.
Proof. destruct v; reflexivity. Qed.

Lemma sets_as_object_spec : forall c, exists l, sets_as_object c = VObj false l /\ keys_increasing l /\
  forall k, binding k l = kept (last_binding k c).
Proof.
  intros c. unfold sets_as_object.
  pose proof (set_all_inv c _ _ (new_inv empty_object empty_ok)) as Hi. unfold spec_add in Hi. cbn [s_base s_changes app] in Hi.
  pose proof (commit_content _ _ Hi) as H. unfold committed in H. cbn [s_base s_changes] in H.
  destruct c as [|c0 c]; [exists []; rewrite H; repeat split; constructor|].
  destruct H as (l & -> & Hl & H). exists l. split; [reflexivity|]. split; [exact Hl|]. intros k.
  unfold spec_get in H. cbn [s_base s_changes obj_members empty_object binding is_diff] in H.
  destruct (binding k l) as [x|] eqn:E.
  - apply binding_in, H in E. destruct E as [E [Eu|Eu]]; [|discriminate].
    destruct (last_binding k (c0 :: c)); [|discriminate]. injection E as ->. rewrite kept_undef, Eu. reflexivity.
  - destruct (last_binding k (c0 :: c)) as [v|] eqn:El; [|reflexivity]. rewrite kept_undef. destruct (is_undef v) eqn:Eu; [reflexivity|].
    exfalso. assert (In (k, v) l) as Hin by (apply H; rewrite El; auto).
    apply (in_binding _ _ _ (keys_increasing_nodup _ Hl)) in Hin. congruence.
Qed.

(** *** Merging objects *)
Section Loop.
Variable item : member -> member -> member.
Hypothesis Hitem : forall x y, fst x = fst y -> fst (item x y) = fst x.

Lemma merge_loop_nil_l : forall d, merge_loop item [] d = d.
Proof. destruct d; reflexivity. Qed.
Lemma merge_loop_nil_r : forall b, merge_loop item b [] = b.
Proof. destruct b; reflexivity. Qed.
Lemma merge_loop_cons : forall x b y d, merge_loop item (x :: b) (y :: d) =
  match kcmp (fst x) (fst y) with
  | Lt => x :: merge_loop item b (y :: d)
  | Gt => y :: merge_loop item (x :: b) d
  | Eq => item x y :: merge_loop item b d
  end.
Proof. reflexivity. Qed.

Lemma merge_loop_keys : forall k b d, In k (map fst (merge_loop item b d)) -> In k (map fst b) \/ In k (map fst d).
Proof.
  intros k. apply (two_lists_ind (fun b d => In k (map fst (merge_loop item b d)) -> In k (map fst b) \/ In k (map fst d))).
  - intros d H. rewrite merge_loop_nil_l in H. auto.
  - intros x b H. rewrite merge_loop_nil_r in H. auto.
  - intros x b y d I1 I2 I3 H. rewrite merge_loop_cons in H. destruct (kcmp (fst x) (fst y)) eqn:E; destruct H as [H|H].
    + apply kcmp_eq in E. rewrite Hitem in H by auto. left. left. auto.
    + destruct (I3 H); [left|right]; right; auto.
    + left. left. auto.
    + destruct (I1 H) as [G|G]; auto. left. right. auto.
    + right. left. auto.
    + destruct (I2 H) as [G|G]; auto. right. right. auto.
Qed.

Lemma merge_loop_spec : forall b d, keys_increasing b -> keys_increasing d ->
  keys_increasing (merge_loop item b d) /\
  forall k, binding k (merge_loop item b d) =
  match binding k b, binding k d with
  | Some v, Some w => Some (snd (item (k, v) (k, w)))
  | Some v, None => Some v
  | None, r => r
  end.
Proof.
  apply (two_lists_ind (fun b d => keys_increasing b -> keys_increasing d ->
    keys_increasing (merge_loop item b d) /\
    forall k, binding k (merge_loop item b d) =
    match binding k b, binding k d with
    | Some v, Some w => Some (snd (item (k, v) (k, w)))
    | Some v, None => Some v
    | None, r => r
    end)).
  - intros d _ Hd. rewrite merge_loop_nil_l. split; auto.
  - intros x b Hb _. rewrite merge_loop_nil_r. split; [auto|]. intros k. cbn [binding]. destruct x as [kx vx].
    destruct (beqb kx k); [reflexivity|]. destruct (binding k b); reflexivity.
  - intros x b y d I1 I2 I3 Hb0 Hd0. pose proof Hb0 as Hb. pose proof Hd0 as Hd.
    apply inc_cons in Hb as [Hb Hx]. apply inc_cons in Hd as [Hd Hy]. destruct x as [kx vx], y as [ky vy].
    rewrite merge_loop_cons. cbn [fst] in *. destruct (kcmp kx ky) eqn:E.
    + apply kcmp_eq in E. subst ky. destruct (I3 Hb Hd) as [J1 J2].
      pose proof (Hitem (kx, vx) (kx, vy) eq_refl) as Hk. cbn [fst] in Hk. split.
      * apply inc_cons. split; auto. rewrite Hk. intros k' H. apply merge_loop_keys in H as [H|H]; auto.
      * intros k. destruct (item (kx, vx) (kx, vy)) as [k0 v0] eqn:Ei. cbn [fst] in Hk. subst k0. cbn [binding].
        destruct (beqb kx k) eqn:Ek; [|apply J2]. apply beqb_eq in Ek. subst kx. rewrite Ei. reflexivity.
    + destruct (I1 Hb Hd0) as [J1 J2]. split.
      * apply inc_cons. split; auto. cbn [fst]. intros k' H. apply merge_loop_keys in H as [H|[H|H]]; auto.
        -- rewrite <- H. exact E.
        -- eapply klt_trans; [exact E|auto].
      * intros k. cbn [binding]. rewrite J2. cbn [binding]. destruct (beqb kx k) eqn:Ek; [|reflexivity].
        apply beqb_eq in Ek. subst kx. rewrite (lb_not_in k d).
        -- assert (beqb ky k = false) as -> by (apply beqb_neq; intros ->; exact (klt_irrefl _ E)). reflexivity.
        -- intros k' H. eapply klt_trans; [exact E|auto].
    + apply kcmp_gt_lt in E. destruct (I2 Hb0 Hd) as [J1 J2]. split.
      * apply inc_cons. split; auto. cbn [fst]. intros k' H. apply merge_loop_keys in H as [[H|H]|H]; auto.
        -- cbn [fst] in H. rewrite <- H. exact E.
        -- eapply klt_trans; [exact E|auto].
      * intros k. cbn [binding]. rewrite J2. cbn [binding]. destruct (beqb ky k) eqn:Ek; [|reflexivity].
        apply beqb_eq in Ek. subst ky. rewrite (lb_not_in k b).
        -- assert (beqb kx k = false) as -> by (apply beqb_neq; intros ->; exact (klt_irrefl _ E)). reflexivity.
        -- intros k' H. eapply klt_trans; [exact E|auto].
Qed.
End Loop.

Definition merge_item (x y : member) : member :=
  match snd x, snd y with
  | VObj _ _, VObj _ _ => (fst x, merge_objects (snd x) (snd y))
  | _, _ => y
  end.
Lemma merge_objects_eq : forall d l d' m, merge_objects (VObj d l) (VObj d' m) = sets_as_object (merge_loop merge_item l m).
Proof. reflexivity. Qed.
Lemma merge_item_key : forall x y, fst x = fst y -> fst (merge_item x y) = fst x.
Proof. intros x y H. unfold merge_item. destruct (snd x), (snd y); auto. Qed.

(** What the merged object binds. *)
Definition both (v w : value) : value :=
  match v, w with VObj _ _, VObj _ _ => merge_objects v w | _, _ => w end.

Lemma merge_objects_spec : forall d l d' m, keys_increasing l -> keys_increasing m ->
  exists r, merge_objects (VObj d l) (VObj d' m) = VObj false r /\ keys_increasing r /\
  forall k, binding k r = kept (match binding k l, binding k m with
    | Some v, Some w => Some (both v w)
    | Some v, None => Some v
    | None, o => o
    end).
Proof.
  intros d l d' m Hl Hm. rewrite merge_objects_eq.
  destruct (merge_loop_spec merge_item merge_item_key l m Hl Hm) as [M1 M2].
  destruct (sets_as_object_spec (merge_loop merge_item l m)) as (r & -> & Hr & Hb).
  exists r. split; [reflexivity|]. split; [exact Hr|]. intros k.
  rewrite Hb, <- binding_last by (apply keys_increasing_nodup; exact M1). rewrite M2. f_equal.
  destruct (binding k l) as [v|], (binding k m) as [w|]; try reflexivity. f_equal. unfold merge_item, both. cbn [fst snd].
  destruct v, w; reflexivity.
Qed.

Lemma merge_objects_obj : forall d l d' m, exists r, merge_objects (VObj d l) (VObj d' m) = VObj false r.
Proof.
  intros. rewrite merge_objects_eq. destruct (sets_as_object_spec (merge_loop merge_item l m)) as (r & -> & _). eauto.
Qed.

(** The statement through [vmerge]. *)
Lemma merge_members : forall L eq d l d' m, keys_increasing l -> keys_increasing m ->
  exists r, vmerge L eq (VObj d l) (VObj d' m) = Ok (VObj false r) /\ keys_increasing r /\
  forall k,
    (forall v, binding k l = Some v -> binding k m = None -> binding k r = kept (Some v)) /\
    (forall w, binding k l = None -> binding k m = Some w -> binding k r = kept (Some w)) /\
    (binding k l = None -> binding k m = None -> binding k r = None) /\
    (forall v w, binding k l = Some v -> binding k m = Some w ->
      match v, w with
      | VObj _ _, VObj _ _ => exists z, vmerge L eq v w = Ok z /\ binding k r = Some z
      | _, _ => binding k r = kept (Some w)
      end).
Proof.
  intros L eq d l d' m Hl Hm. destruct (merge_objects_spec d l d' m Hl Hm) as (r & E & Hr & Hb).
  exists r. unfold vmerge at 1. rewrite E. split; [reflexivity|]. split; [exact Hr|]. intros k. specialize (Hb k).
  repeat split.
  - intros v H1 H2. rewrite Hb, H1, H2. reflexivity.
  - intros w H1 H2. rewrite Hb, H1, H2. reflexivity.
  - intros H1 H2. rewrite Hb, H1, H2. reflexivity.
  - intros v w H1 H2. rewrite H1, H2 in Hb. destruct v, w; try exact Hb. eexists. split; [reflexivity|].
    rewrite Hb. unfold both. destruct (merge_objects_obj diff l0 diff0 l1) as (z & ->). reflexivity.
Qed.

Lemma deep_in : forall (Q : member -> Prop) l,
  fold_right (fun m P => Q m /\ P) True l <-> Forall Q l.
Proof.
  intros Q l. induction l as [|m l IH]; cbn [fold_right]; [split; constructor|]. rewrite IH. split.
  - intros [H1 H2]. constructor; auto.
  - intros H. inversion H; auto.
Qed.

Lemma merge_deep_sorted : forall v w, deep_sorted v -> deep_sorted w -> deep_sorted (merge_objects v w).
Proof.
  intros v. induction v as [| |b|n|e s|l IH|d l IH] using value_ind'; intros w Hv Hw; try exact Hw.
  destruct w as [| |c|n|e s|m|d' m]; try exact Hw. cbn [deep_sorted] in Hv, Hw.
  destruct Hv as [Hl Hl2], Hw as [Hm Hm2]. apply (deep_in (fun m => deep_sorted (snd m))) in Hl2, Hm2.
  destruct (merge_objects_spec d l d' m Hl Hm) as (r & -> & Hr & Hb). cbn [deep_sorted]. split; [exact Hr|].
  apply (deep_in (fun m => deep_sorted (snd m))). apply Forall_forall. intros [k x] Hin. cbn [snd].
  apply (in_binding _ _ _ (keys_increasing_nodup _ Hr)) in Hin. rewrite Hb in Hin. rewrite Forall_forall in IH, Hl2, Hm2.
  assert (HA : forall v, binding k l = Some v -> deep_sorted v) by (intros v E; apply binding_in in E; exact (Hl2 _ E)).
  assert (HB : forall v, binding k m = Some v -> deep_sorted v) by (intros v E; apply binding_in in E; exact (Hm2 _ E)).
  destruct (binding k l) as [v|] eqn:El, (binding k m) as [w|] eqn:Em; rewrite ?kept_undef in Hin.
  - destruct (is_undef (both v w)); [discriminate|]. injection Hin as <-. unfold both.
    apply binding_in in El. pose proof (IH _ El w (HA _ eq_refl) (HB _ eq_refl)) as HI. cbn [snd] in HI.
    destruct v, w; auto; exact I.
  - destruct (is_undef v); [discriminate|]. injection Hin as <-. auto.
  - destruct (is_undef w); [discriminate|]. injection Hin as <-. auto.
  - discriminate.
Qed.

(** *** Diffs of objects *)
Section Diff.
Variable eq : value -> value -> bool.

Definition odiff_item (x y : member) : list member :=
  match snd x, snd y with
  | VObj _ _, VObj _ _ => let d := odiff eq (snd x) (snd y) in if vsize d =? 0 then [] else [(fst x, d)]
  | _, _ => if eq (snd x) (snd y) then [] else [y]
  end.
Lemma odiff_eq : forall d l d' m, odiff eq (VObj d l) (VObj d' m) = sets_as_diff (diff_loop odiff_item l m).
Proof. reflexivity. Qed.

(** What a key holds in the diff when both sides have it. *)
Definition changed (v w : value) : option value :=
  match v, w with
  | VObj _ _, VObj _ _ => let d := odiff eq v w in if vsize d =? 0 then None else Some d
  | _, _ => if eq v w then None else Some w
  end.

Lemma odiff_spec : forall d l d' m, keys_increasing l -> keys_increasing m ->
  exists dd r, odiff eq (VObj d l) (VObj d' m) = VObj dd r /\ keys_increasing r /\
  forall k, binding k r = match binding k l, binding k m with
    | Some v, Some w => changed v w
    | Some v, None => Some VUndef
    | None, o => o
    end.
Proof.
  intros d l d' m Hl Hm. rewrite odiff_eq, diff_loop_guard.
  destruct (sets_as_diff_spec (diff_loop (guard odiff_item) l m)) as (dd & r & -> & Hr & Hb).
  exists dd, r. split; [reflexivity|]. split; [exact Hr|]. intros k. rewrite Hb.
  rewrite (diff_loop_binding (guard odiff_item) k); auto.
  - destruct (binding k l) as [v|], (binding k m) as [w|]; try reflexivity.
    unfold guard, odiff_item, changed. cbn [fst snd]. rewrite beqb_refl.
    assert (HP : last_binding k (if eq v w then [] else [(k, w)]) = if eq v w then None else Some w).
    { destruct (eq v w); [reflexivity|]. cbn [last_binding]. rewrite beqb_refl. reflexivity. }
    destruct v, w; try exact HP.
    destruct (vsize (odiff eq (VObj diff l0) (VObj diff0 l1)) =? 0); [reflexivity|].
    cbn [last_binding]. rewrite beqb_refl. reflexivity.
  - intros x y k' H ->. unfold guard in H. destruct (beqb (fst x) (fst y)) eqn:E; [|destruct H]. apply beqb_eq in E.
    assert (HP : In k (map fst (if eq (snd x) (snd y) then [] else [y])) -> fst x = k /\ fst y = k).
    { destruct (eq (snd x) (snd y)); [intros []|]. intros [G|[]]. split; congruence. }
    unfold odiff_item in H. destruct (snd x), (snd y); auto. cbv zeta in H.
    match type of H with context [if ?c then _ else _] => destruct c end; [destruct H|].
    destruct H as [H|[]]. cbn [fst] in H. split; congruence.
Qed.

Variable L : libm.
Hypothesis Heq : eq_ok L eq.

Lemma merge_empty : forall d l d', keys_increasing l -> Forall (fun m => is_undef (snd m) = false) l ->
  merge_objects (VObj d l) (VObj d' []) = VObj false l.
Proof.
  intros d l d' Hl Hu. destruct (merge_objects_spec d l d' [] Hl (SSorted_nil _)) as (r & -> & Hr & Hb).
  f_equal. apply increasing_ext; auto. intros k. rewrite Hb. cbn [binding].
  destruct (binding k l) as [v|] eqn:E; [|reflexivity]. rewrite kept_undef.
  apply binding_in in E. rewrite Forall_forall in Hu. specialize (Hu _ E). cbn [snd] in Hu. rewrite Hu. reflexivity.
Qed.

Lemma veq_items_forall : forall l m, Forall2 (fun x y : member => fst x = fst y /\ veq L (snd x) (snd y) = true) l m ->
  veq_items L true l m = true.
Proof.
  intros l m H. induction H as [|x y l m [H1 H2] _ IH]; [reflexivity|]. cbn [veq_items negb orb].
  rewrite H1, beqb_refl, H2. exact IH.
Qed.

Lemma patch_objects : forall v w,
  (match v, w with VObj _ _, VObj _ _ => True | _, _ => False end) ->
  deep_plain v -> deep_plain w -> proper L v -> proper L w ->
  veq L (merge_objects v (odiff eq v w)) w = true.
Proof.
  intros v. induction v as [| |b|n|e s|l IH|d l IH] using value_ind'; intros w Ht Hv Hw Pv Pw; try (destruct Ht; fail).
  destruct w as [| |c|n|e s|m|d' m]; try (destruct Ht; fail). clear Ht. cbn [deep_plain] in Hv, Hw.
  destruct Hv as [Hl Hl2], Hw as [Hm Hm2].
  apply (deep_in (fun m => is_undef (snd m) = false /\ deep_plain (snd m))) in Hl2, Hm2.
  destruct (odiff_spec d l d' m Hl Hm) as (dd & r & -> & Hr & Hb).
  destruct (merge_objects_spec d l dd r Hl Hr) as (q & -> & Hq & Hqb). rewrite (veq_obj L false d').
  apply veq_items_forall. apply (increasing_forall2 (fun v w => veq L v w = true)); auto.
  intros k. rewrite Hqb, Hb. rewrite Forall_forall in IH, Hl2, Hm2. apply proper_obj in Pv, Pw. rewrite Forall_forall in Pv, Pw.
  assert (HA : forall x, binding k l = Some x -> is_undef x = false /\ deep_plain x /\ proper L x /\ In (k, x) l).
  { intros x E. apply binding_in in E. destruct (Hl2 _ E). specialize (Pv _ E). auto. }
  assert (HB : forall x, binding k m = Some x -> is_undef x = false /\ deep_plain x /\ proper L x).
  { intros x E. apply binding_in in E. destruct (Hm2 _ E). specialize (Pw _ E). auto. }
  destruct (binding k l) as [x|], (binding k m) as [y|].
  - destruct (HA _ eq_refl) as (U1 & D1 & P1 & I1), (HB _ eq_refl) as (U2 & D2 & P2). clear HA HB.
    assert (Hcase : (exists dx lx dy ly, x = VObj dx lx /\ y = VObj dy ly) \/
      (changed x y = (if eq x y then None else Some y) /\ both x y = y)).
    { destruct x, y; try (right; split; reflexivity). left. repeat eexists. }
    destruct Hcase as [(dx & lx & dy & ly & -> & ->)|[-> Hby]].
    + unfold changed. cbv zeta. specialize (IH _ I1 (VObj dy ly) I D1 D2 P1 P2). cbn [snd] in IH.
      destruct D1 as [Dl1 Dl2]. apply (deep_in (fun m => is_undef (snd m) = false /\ deep_plain (snd m))) in Dl2.
      destruct D2 as [Dm1 _].
      destruct (odiff_spec dx lx dy ly Dl1 Dm1) as (dn & ln & En & _ & _). rewrite En in IH |- *. unfold vsize. cbn [members_of].
      destruct (length ln =? 0) eqn:E0.
      * apply Nat.eqb_eq, length_zero_iff_nil in E0. subst ln.
        rewrite (merge_empty dx lx dn Dl1) in IH by (eapply Forall_impl; [|exact Dl2]; intros a [Ha _]; exact Ha).
        cbn [kept]. exact IH.
      * cbn [both]. destruct (merge_objects_obj dx lx dn ln) as (z & Ez). rewrite Ez in IH |- *. exact IH.
    + destruct (eq x y) eqn:E.
      * rewrite kept_undef, U1. symmetry. eapply (proj2 (op_eq_veq L x y P1 P2)). rewrite <- E. apply Heq.
      * rewrite Hby, kept_undef, U2. apply veq_refl; auto.
  - destruct x; try exact I; cbn; auto.
  - destruct (HB _ eq_refl) as (U2 & D2 & P2). rewrite kept_undef, U2. apply veq_refl; auto.
  - exact I.
Qed.
End Diff.

(** *** Merging arrays *)

Section Arrays.
Variable eq : value -> value -> bool.

Lemma find_item_spec : forall p v n i, arr_wf p ->
  match find_item eq p v i n with
  | Ok (Some j) => i <= j < i + n /\ hit eq (content p) v j /\ forall k, i <= k < j -> ~ hit eq (content p) v k
  | Ok None => (n = 0 \/ i + n <= length (content p)) /\ forall k, i <= k < i + n -> ~ hit eq (content p) v k
  | Err => n <> 0 /\ length (content p) < i + n /\ forall k, i <= k -> ~ hit eq (content p) v k
  | Fuel => False
  end.
Proof.
  intros p v n. induction n as [|n IH]; intros i Hw; cbn [find_item]; [split; [auto|lia]|].
  rewrite arr_get_spec by auto. destruct (nth_error (content p) i) as [m|] eqn:En.
  - assert (i < length (content p)) by (apply nth_error_Some; congruence).
    destruct (eq (snd m) v) eqn:Ee.
    + split; [lia|]. split; [exists m; auto|]. lia.
    + assert (Hi : ~ hit eq (content p) v i) by (intros (m' & H1 & H2); congruence).
      specialize (IH (S i) Hw). destruct (find_item eq p v (S i) n) as [[j|]| |]; [| | |destruct IH].
      * destruct IH as (A & B & C). split; [lia|]. split; [exact B|]. intros k Hk.
        destruct (Nat.eq_dec k i) as [->|]; [exact Hi|]. apply C. lia.
      * destruct IH as [A B]. split; [lia|]. intros k Hk. destruct (Nat.eq_dec k i) as [->|]; [exact Hi|]. apply B. lia.
      * destruct IH as (Z0 & A & B). split; [lia|]. split; [lia|]. intros k Hk. destruct (Nat.eq_dec k i) as [->|]; [exact Hi|]. apply B. lia.
  - apply nth_error_None in En. split; [lia|]. split; [lia|]. intros k Hk (m & H & _).
    assert (k < length (content p)) by (apply nth_error_Some; congruence). lia.
Qed.

Lemma hit_length : forall cur v j, hit eq cur v j -> j < length cur.
Proof. intros cur v j (m & H & _). apply nth_error_Some. congruence. Qed.

Lemma find_in_array_spec : forall p v start, arr_wf p ->
  match find_in_array eq p v start with
  | Ok (Some j) => first_hit eq (content p) v start j
  | Ok None => no_hit eq (content p) v /\ start <= length (content p)
  | Err => no_hit eq (content p) v /\ length (content p) < start
  | Fuel => False
  end.
Proof.
  intros p v start Hw. unfold find_in_array. rewrite <- content_length by auto.
  pose proof (find_item_spec p v (length (content p) - start) start Hw) as H1.
  destruct (find_item eq p v start (length (content p) - start)) as [[j|]| |]; cbn [bind]; [| | |destruct H1].
  - destruct H1 as (A & B & C). split; [exact B|]. left. split; [lia|]. exact C.
  - destruct H1 as [A B]. pose proof (find_item_spec p v start 0 Hw) as H2.
    assert (HB : forall k, start <= k -> ~ hit eq (content p) v k).
    { intros k Hk Hh. pose proof (hit_length _ _ _ Hh). apply (B k); [lia|exact Hh]. }
    destruct (find_item eq p v 0 start) as [[j|]| |]; [| | |destruct H2].
    + destruct H2 as (A2 & B2 & C2). split; [exact B2|]. right. split; [lia|]. intros k [Hk|Hk]; [auto|]. apply C2. lia.
    + destruct H2 as [A2 B2]. split; [|lia]. intros k. destruct (Nat.le_gt_cases start k); [auto|]. apply B2. lia.
    + destruct H2 as (Z0 & A2 & B2). split; [|lia]. intros k. apply B2. lia.
  - destruct H1 as (Z0 & A & B). lia.
Qed.

Lemma first_hit_unique : forall cur v last i j, first_hit eq cur v last i -> first_hit eq cur v last j -> i = j.
Proof.
  intros cur v last i j [H1 C1] [H2 C2].
  destruct C1 as [[A1 B1]|[A1 B1]], C2 as [[A2 B2]|[A2 B2]].
  - destruct (Nat.lt_trichotomy i j) as [H|[H|H]]; auto; exfalso; [apply (B2 i)|apply (B1 j)]; auto; lia.
  - exfalso. apply (B2 i); auto.
  - exfalso. apply (B1 j); auto.
  - destruct (Nat.lt_trichotomy i j) as [H|[H|H]]; auto; exfalso; [apply (B2 i)|apply (B1 j)]; auto.
Qed.

Lemma pair_list_ind : forall (P : list member -> Prop), P [] -> (forall x, P [x]) ->
  (forall x y l, P l -> P (x :: y :: l)) -> forall l, P l.
Proof.
  intros P H0 H1 H2. assert (H : forall l, P l /\ forall x, P (x :: l)).
  { induction l as [|y l [IH1 IH2]]; split; auto. }
  intros l. apply H.
Qed.

Definition same_base (a b : arr) : Prop := arr_wf b /\ a_base b = a_base a.

Lemma merge_script_spec : forall s p last, arr_wf p ->
  match merge_script eq p last s with
  | Ok a => same_base p a /\ script eq (content p) last s (content a)
  | Err => forall r, ~ script eq (content p) last s r
  | Fuel => False
  end.
Proof.
  intros s. pattern s. apply pair_list_ind; clear s.
  - intros p last Hw. split; [split; auto|constructor].
  - intros x p last Hw. split; [split; auto|constructor].
  - intros f i s IH p last Hw. cbn [merge_script]. pose proof (find_in_array_spec p (snd f) last Hw) as Hf.
    destruct (find_in_array eq p (snd f) last) as [[pos|]| |]; cbn [bind]; [| | |destruct Hf].
    + pose proof (hit_length _ _ _ (proj1 Hf)) as Hlt. destruct (is_undef (snd i)) eqn:Eu; cbn [negb].
      * destruct (erase_gen p pos 1 Hw) as (a & Ea & Wa & Ca & Ba); [lia|]. unfold arr_erase. rewrite Ea. cbn [or_err bind].
        specialize (IH a last Wa). rewrite Ca in IH. rewrite Nat.add_1_r in IH.
        destruct (merge_script eq a last s) as [b| |]; [| |destruct IH].
        -- destruct IH as [[IW IB] IH]. split; [split; [auto|congruence]|]. eapply Sc_remove; eauto.
        -- intros r Hr. inversion Hr; subst; try congruence.
           ++ match goal with H : first_hit _ _ _ _ ?q |- _ => pose proof (first_hit_unique _ _ _ _ _ Hf H) end. subst. eapply IH; eauto.
           ++ match goal with H : no_hit _ _ _ |- _ => exact (H _ (proj1 Hf)) end.
      * destruct (insert_gen p pos [i] Hw) as (a & Ea & Wa & Ca & Ba); [lia|]. unfold arr_insert. rewrite Ea. cbn [or_err bind].
        specialize (IH a (pos + 1) Wa). rewrite Ca in IH. cbn [app] in IH.
        destruct (merge_script eq a (pos + 1) s) as [b| |]; [| |destruct IH].
        -- destruct IH as [[IW IB] IH]. split; [split; [auto|congruence]|]. eapply Sc_insert; eauto.
        -- intros r Hr. inversion Hr; subst; try congruence.
           ++ match goal with H : first_hit _ _ _ _ ?q |- _ => pose proof (first_hit_unique _ _ _ _ _ Hf H) end. subst. eapply IH; eauto.
           ++ match goal with H : no_hit _ _ _ |- _ => exact (H _ (proj1 Hf)) end.
    + destruct Hf as [Hn Hle]. destruct (is_undef (snd i)) eqn:Eu; cbn [negb].
      * specialize (IH p last Hw). destruct (merge_script eq p last s) as [b| |]; [| |destruct IH].
        -- destruct IH as [IW IH]. split; [exact IW|]. eapply Sc_skip; eauto.
        -- intros r Hr. inversion Hr; subst; try congruence.
           ++ match goal with H : first_hit _ _ _ _ _ |- _ => exact (Hn _ (proj1 H)) end.
           ++ eapply IH; eauto.
      * assert (Wa : arr_wf (arr_push p i)) by (unfold arr_wf, arr_push in *; cbn [a_base a_off]; exact Hw).
        assert (Ca : content (arr_push p i) = content p ++ [i]) by (unfold content, arr_push; cbn [a_base a_off a_chg]; apply app_assoc).
        specialize (IH (arr_push p i) last Wa). rewrite Ca in IH.
        destruct (merge_script eq (arr_push p i) last s) as [b| |]; [| |destruct IH].
        -- destruct IH as [[IW IB] IH]. split; [split; [auto|rewrite IB; reflexivity]|]. eapply Sc_append; eauto.
        -- intros r Hr. inversion Hr; subst; try congruence.
           ++ match goal with H : first_hit _ _ _ _ _ |- _ => exact (Hn _ (proj1 H)) end.
           ++ eapply IH; eauto.
    + destruct Hf as [Hn Hle]. intros r Hr. inversion Hr; subst; try lia;
        match goal with H : first_hit _ _ _ _ _ |- _ => exact (Hn _ (proj1 H)) end.
Qed.

Lemma script_unique : forall s cur last r1 r2, script eq cur last s r1 -> script eq cur last s r2 -> r1 = r2.
Proof.
  intros s cur last r1 r2 H. revert r2. induction H; intros r2 G2; inversion G2; subst; try congruence; auto;
    try (match goal with A : first_hit _ _ _ _ ?i, B : first_hit _ _ _ _ ?j |- _ =>
           pose proof (first_hit_unique _ _ _ _ _ A B); subst end; auto; congruence);
    try (match goal with A : first_hit _ _ _ _ _, B : no_hit _ _ _ |- _ => destruct (B _ (proj1 A)) end).
Qed.

Lemma script_defined : forall s cur last r, script eq cur last s r -> all_defined cur -> all_defined r.
Proof.
  unfold all_defined. intros s cur last r H. induction H; intros Hd; auto; apply IHscript; rewrite Forall_forall in *; intros m Hm; apply in_app_or in Hm as [Hm|Hm].
  - apply Hd. rewrite <- (firstn_skipn pos cur). apply in_or_app. auto.
  - destruct Hm as [<-|Hm]; [auto|]. apply Hd. rewrite <- (firstn_skipn pos cur). apply in_or_app. auto.
  - apply Hd. rewrite <- (firstn_skipn pos cur). apply in_or_app. auto.
  - apply Hd. rewrite <- (firstn_skipn (S pos) cur). apply in_or_app. auto.
  - auto.
  - destruct Hm as [<-|[]]. auto.
Qed.

Lemma merge_items_spec : forall a b p, all_defined a -> arr_wf p ->
  merge_items eq p (a ++ b) = merge_items eq (arr_add_set p a) b.
Proof.
  induction a as [|x a IH]; intros b p Hd Hw; [reflexivity|]. apply Forall_cons_iff in Hd as [Hx Hd].
  cbn [app merge_items]. rewrite Hx. cbn [negb]. rewrite IH by auto. reflexivity.
Qed.

Lemma add_set_base : forall l a, arr_wf (arr_add_set (arr_of (VArr l)) a) /\
  content (arr_add_set (arr_of (VArr l)) a) = l ++ a /\ a_base (arr_add_set (arr_of (VArr l)) a) = VArr l.
Proof.
  intros l a. rewrite add_set_spec. unfold arr_wf, content, arr_of, vsize. cbn [a_base a_off a_chg members_of app].
  split; [auto|]. split; [|reflexivity]. rewrite firstn_all. reflexivity.
Qed.

Lemma defined_only_all : forall l, all_defined l -> defined_only l = l.
Proof.
  intros l H. induction H as [|x l Hx H IH]; [reflexivity|]. unfold defined_only in *. cbn [filter]. rewrite Hx. cbn [negb]. f_equal. exact IH.
Qed.

Lemma commit_defined : forall p l, arr_wf p -> a_base p = VArr l -> all_defined l -> all_defined (content p) ->
  arr_commit p = VArr (content p).
Proof.
  intros p l Hw Hb Hl Hc. rewrite (commit_spec p (mkASpec l (content p))).
  - cbn [as_cur]. rewrite defined_only_all by auto. reflexivity.
  - split; [auto|]. split; [reflexivity|]. rewrite Hb. reflexivity.
  - cbn [as_base]. intros m Hm. unfold all_defined in Hl. rewrite Forall_forall in Hl. auto.
  - rewrite Hb. discriminate.
  - rewrite Hb. left. discriminate.
Qed.

Variable L : libm.

Lemma merge_arrays : forall l m, all_defined l -> all_defined m -> vmerge L eq (VArr l) (VArr m) = Ok (VArr (l ++ m)).
Proof.
  intros l m Hl Hm. unfold vmerge. rewrite <- (app_nil_r m) at 1.
  destruct (add_set_base l m) as (Hw & Hc & Hb). destruct (add_set_base l []) as (Hw0 & _ & _).
  rewrite merge_items_spec by auto. cbn [merge_items bind].
  rewrite (commit_defined _ l Hw Hb Hl), Hc; [reflexivity|]. rewrite Hc. apply Forall_app. auto.
Qed.

Lemma merge_arrays_script : forall l a z s, all_defined l -> all_defined a -> is_undef (snd z) = true ->
  match vmerge L eq (VArr l) (VArr (a ++ z :: s)) with
  | Ok v => exists r, v = VArr r /\ script eq (l ++ a) 0 s r
  | Err => forall r, ~ script eq (l ++ a) 0 s r
  | Fuel => False
  end.
Proof.
  intros l a z s Hl Ha Hz. unfold vmerge. destruct (add_set_base l a) as (Hw & Hc & Hb). destruct (add_set_base l []) as (Hw0 & _ & _).
  rewrite merge_items_spec by auto. cbn [merge_items]. rewrite Hz. cbn [negb].
  pose proof (merge_script_spec s _ 0 Hw) as H. rewrite Hc in H.
  destruct (merge_script eq (arr_add_set (arr_of (VArr l)) a) 0 s) as [p| |]; cbn [bind]; auto.
  destruct H as [[Wp Bp] H]. rewrite Hb in Bp. eexists. split; [|exact H].
  apply (commit_defined p l); auto. eapply script_defined; [exact H|]. apply Forall_app. auto.
Qed.

Lemma merge_script_iff : forall l a z s r, all_defined l -> all_defined a -> is_undef (snd z) = true ->
  vmerge L eq (VArr l) (VArr (a ++ z :: s)) = Ok (VArr r) <-> script eq (l ++ a) 0 s r.
Proof.
  intros l a z s r Hl Ha Hz. pose proof (merge_arrays_script l a z s Hl Ha Hz) as H.
  destruct (vmerge L eq (VArr l) (VArr (a ++ z :: s))) as [v| |]; [| |destruct H].
  - destruct H as (r' & -> & H). split; intros G.
    + injection G as <-. exact H.
    + f_equal. f_equal. eapply script_unique; eauto.
  - split; intros G; [discriminate|]. destruct (H _ G).
Qed.

(** *** Diffs of arrays *)
Lemma adiff_loop_nil_l : forall m diff, adiff_loop eq [] m diff = ([], m, diff).
Proof. destruct m; reflexivity. Qed.
Lemma adiff_loop_nil_r : forall l diff, adiff_loop eq l [] diff = (l, [], diff).
Proof. destruct l; reflexivity. Qed.
Lemma adiff_loop_cons : forall x l y m diff, adiff_loop eq (x :: l) (y :: m) diff =
  if eq (snd x) (snd y) then adiff_loop eq l m diff
  else if match l with x' :: _ => eq (snd x') (snd y) | [] => false end
  then adiff_loop eq l (y :: m) (diff ++ [x; undef_item])
  else if eq (snd x) (snd (hd undef_item m)) then adiff_loop eq (x :: l) m (diff ++ [x; y])
  else adiff_loop eq l m (diff ++ [x; y; x; undef_item]).
Proof. reflexivity. Qed.

Lemma adiff_loop_acc : forall l m diff, adiff_loop eq l m diff =
  let '(r1, r2, s) := adiff_loop eq l m [] in (r1, r2, diff ++ s).
Proof.
  apply (two_lists_ind (fun l m => forall diff, adiff_loop eq l m diff =
    let '(r1, r2, s) := adiff_loop eq l m [] in (r1, r2, diff ++ s))).
  - intros m diff. rewrite !adiff_loop_nil_l, app_nil_r. reflexivity.
  - intros x l diff. rewrite !adiff_loop_nil_r, app_nil_r. reflexivity.
  - intros x l y m I1 I2 I3 diff. rewrite !adiff_loop_cons.
    destruct (eq (snd x) (snd y)); [apply I3|].
    destruct (match l with [] => false | x' :: _ => eq (snd x') (snd y) end).
    + rewrite I1, (I1 ([] ++ _)). destruct (adiff_loop eq l (y :: m) []) as [[r1 r2] s]. rewrite <- app_assoc. reflexivity.
    + destruct (eq (snd x) (snd (hd undef_item m))).
      * rewrite I2, (I2 ([] ++ _)). destruct (adiff_loop eq (x :: l) m []) as [[r1 r2] s]. rewrite <- app_assoc. reflexivity.
      * rewrite I3, (I3 ([] ++ _)). destruct (adiff_loop eq l m []) as [[r1 r2] s]. rewrite <- app_assoc. reflexivity.
Qed.

Lemma hd_undef : forall m : list member, snd (hd undef_item m) = hd VUndef (map snd m).
Proof. destruct m; reflexivity. Qed.

Lemma adiff_loop_aligned : forall l m diff, aligned eq l m <->
  fst (fst (adiff_loop eq l m diff)) = [] /\ snd (fst (adiff_loop eq l m diff)) = [].
Proof.
  apply (two_lists_ind (fun l m => forall diff, aligned eq l m <->
  fst (fst (adiff_loop eq l m diff)) = [] /\ snd (fst (adiff_loop eq l m diff)) = [])).
  - intros m diff. rewrite adiff_loop_nil_l. cbn [fst snd]. split.
    + intros H. inversion H. auto.
    + intros [_ ->]. constructor.
  - intros x l diff. rewrite adiff_loop_nil_r. cbn [fst snd]. split; [intros H; inversion H|intros [H _]; discriminate].
  - intros x l y m I1 I2 I3 diff. rewrite adiff_loop_cons. destruct (eq (snd x) (snd y)) eqn:E1.
    { rewrite <- I3. split; intros H; [inversion H; subst; try congruence; auto|constructor; auto]. }
    destruct (match l with [] => false | x' :: _ => eq (snd x') (snd y) end) eqn:E2.
    { rewrite <- I1. destruct l as [|x' l]; [discriminate|]. split; intros H; [|apply Al_removed; auto].
      inversion H; subst; try congruence; auto.
      all: try (match goal with A : forall a b, _ :: _ = _ -> _ |- _ => rewrite (A _ _ eq_refl) in E2; discriminate end). }
    assert (E2' : forall x' l', l = x' :: l' -> eq (snd x') (snd y) = false) by (intros x' l' ->; exact E2).
    rewrite hd_undef. destruct (eq (snd x) (hd VUndef (map snd m))) eqn:E3.
    + rewrite <- I2. destruct m as [|y' m].
      * cbn [map hd] in E3. split; intros H; [|inversion H]. inversion H; subst; try congruence;
          first [rewrite (E2' _ _ eq_refl) in *; discriminate | cbn [map hd] in *; congruence].
      * cbn [map hd] in E3. split; intros H; [|apply Al_added; auto]. inversion H; subst; try congruence; auto;
          first [rewrite (E2' _ _ eq_refl) in *; discriminate | cbn [map hd] in *; congruence].
    + rewrite <- I3. split; intros H; [|apply Al_changed; auto]. inversion H; subst; try congruence; auto;
        first [rewrite (E2' _ _ eq_refl) in *; discriminate | cbn [map hd] in *; congruence].
Qed.

Lemma tail_append_stuck : forall fuel y r a, tail_append fuel (y :: r) a = Fuel.
Proof. induction fuel as [|f IH]; intros y r a; [reflexivity|]. cbn [tail_append]. apply IH. Qed.
Lemma tail_remove_stuck : forall fuel y r a, tail_remove fuel (y :: r) a = Fuel.
Proof. induction fuel as [|f IH]; intros y r a; [reflexivity|]. cbn [tail_remove]. apply IH. Qed.

Lemma adiff_spec : forall fuel l m, fuel <> 0 ->
  (aligned eq l m /\ exists s, snd (adiff_loop eq l m []) = s /\
     adiff eq fuel l m = Ok (VArr (match s with [] => [] | _ => undef_item :: s end))) \/
  (~ aligned eq l m /\ adiff eq fuel l m = Fuel).
Proof.
  intros fuel l m Hf. unfold adiff. pose proof (adiff_loop_aligned l m []) as Ha.
  destruct (adiff_loop eq l m []) as [[r1 r2] s]. cbn [fst snd] in Ha. destruct fuel as [|f]; [congruence|].
  destruct r2 as [|y r2].
  - cbn [tail_append bind]. destruct r1 as [|x r1].
    + left. split; [apply Ha; auto|]. exists s. split; [reflexivity|]. destruct s; reflexivity.
    + right. split; [rewrite Ha; intros [? _]; discriminate|]. rewrite tail_remove_stuck. reflexivity.
  - right. split; [rewrite Ha; intros [_ ?]; discriminate|]. rewrite tail_append_stuck. reflexivity.
Qed.

Lemma adiff_never : forall l m, ~ aligned eq l m -> forall fuel, adiff eq fuel l m = Fuel.
Proof.
  intros l m H fuel. destruct (adiff_spec (S fuel) l m) as [[A _]|[_ A]]; [lia|tauto|].
  destruct fuel as [|f].
  - unfold adiff in *. destruct (adiff_loop eq l m []) as [[r1 r2] s]. reflexivity.
  - destruct (adiff_spec (S f) l m) as [[B _]|[_ B]]; [lia|tauto|exact B].
Qed.

Lemma diff_returns : forall l m, (exists fuel d, vdiff L eq fuel (VArr l) (VArr m) = Ok d) <-> aligned eq l m.
Proof.
  intros l m. unfold vdiff. split.
  - intros (fuel & d & H). destruct fuel as [|f].
    + unfold adiff in H. destruct (adiff_loop eq l m []) as [[r1 r2] s]. discriminate.
    + destruct (adiff_spec (S f) l m) as [[A _]|[_ A]]; [lia|exact A|congruence].
  - intros H. destruct (adiff_spec 1 l m) as [[_ (s & _ & A)]|[A _]]; [lia|eauto|tauto].
Qed.

Lemma diff_other : forall v w, (match v, w with VArr _, VArr _ => False | _, _ => True end) ->
  exists d, forall fuel, vdiff L eq fuel v w = Ok d.
Proof. intros v w H. destruct v, w; try (destruct H; fail); eexists; intros fuel; reflexivity. Qed.

Lemma diff_same_fuel : forall v w f g d e, vdiff L eq f v w = Ok d -> vdiff L eq g v w = Ok e -> d = e.
Proof.
  intros v w f g d e H1 H2.
  assert (Hc : (exists l m, v = VArr l /\ w = VArr m) \/ match v, w with VArr _, VArr _ => False | _, _ => True end).
  { destruct v, w; try (right; exact I). left. eauto. }
  destruct Hc as [(l & m & -> & ->)|Hc].
  - unfold vdiff in H1, H2. destruct f as [|f]; [unfold adiff in H1; destruct (adiff_loop eq l m []) as [[r1 r2] s]; discriminate|].
    destruct g as [|g]; [unfold adiff in H2; destruct (adiff_loop eq l m []) as [[r1 r2] s]; discriminate|].
    destruct (adiff_spec (S f) l m) as [[A (s & E1 & A1)]|[A A1]]; [lia| |congruence].
    destruct (adiff_spec (S g) l m) as [[B (s' & E2 & B1)]|[B B1]]; [lia| |congruence]. subst. congruence.
  - destruct (diff_other v w Hc) as (d0 & H). rewrite H in H1, H2. congruence.
Qed.

Lemma aligned_prefix : forall l r, (forall x, In x l -> eq (snd x) (snd x) = true) -> r <> [] ->
  ~ aligned eq l (l ++ r) /\ ~ aligned eq (l ++ r) l.
Proof.
  induction l as [|x l IH]; intros r Hr Hn.
  - cbn [app]. destruct r as [|y r]; [congruence|]. split; intros H; inversion H.
  - destruct (IH r) as [A B]; [intros; apply Hr; right; auto|auto|].
    assert (Hx : eq (snd x) (snd x) = true) by (apply Hr; left; auto).
    split; intros H; cbn [app] in H; inversion H; subst; try congruence; auto.
Qed.

Lemma diff_prefix_never : forall l r fuel, (forall x, In x l -> eq (snd x) (snd x) = true) -> r <> [] ->
  vdiff L eq fuel (VArr l) (VArr (l ++ r)) = Fuel /\ vdiff L eq fuel (VArr (l ++ r)) (VArr l) = Fuel.
Proof. intros l r fuel Hr Hn. destruct (aligned_prefix l r Hr Hn). split; apply adiff_never; auto. Qed.

Lemma aligned_refl : forall l, (forall x, In x l -> eq (snd x) (snd x) = true) -> aligned eq l l /\ forall d, snd (adiff_loop eq l l d) = d.
Proof.
  induction l as [|x l IH]; intros Hr; [split; [constructor|reflexivity]|].
  destruct IH as [A B]; [intros; apply Hr; right; auto|]. assert (Hx : eq (snd x) (snd x) = true) by (apply Hr; left; auto).
  split; [constructor; auto|]. intros d. rewrite adiff_loop_cons, Hx. apply B.
Qed.
Lemma diff_self : forall l fuel, fuel <> 0 -> (forall x, In x l -> eq (snd x) (snd x) = true) ->
  vdiff L eq fuel (VArr l) (VArr l) = Ok (VArr []).
Proof.
  intros l fuel Hf Hr. unfold vdiff. destruct (aligned_refl l Hr) as [A B].
  destruct (adiff_spec fuel l l Hf) as [[_ (s & E & ->)]|[N _]]; [|tauto]. rewrite B in E. subst s. reflexivity.
Qed.

(** *** The patch law for arrays *)

Lemma nth_mid : forall (a : list member) x b, nth_error (a ++ x :: b) (length a) = Some x.
Proof. intros. rewrite nth_error_app2, Nat.sub_diag by lia. reflexivity. Qed.
Lemma firstn_mid : forall (a b : list member), firstn (length a) (a ++ b) = a.
Proof. intros. rewrite firstn_app, Nat.sub_diag, firstn_all, firstn_O, app_nil_r. reflexivity. Qed.
Lemma skipn_mid : forall (a b : list member), skipn (length a) (a ++ b) = b.
Proof. intros. rewrite skipn_app, Nat.sub_diag, skipn_all. reflexivity. Qed.
Lemma skipn_mid1 : forall (a : list member) x b, skipn (S (length a)) (a ++ x :: b) = b.
Proof. intros. rewrite skipn_app, skipn_all2 by lia. replace (S (length a) - length a) with 1 by lia. reflexivity. Qed.

Lemma head_hit : forall done x l last, eq (snd x) (snd x) = true -> last <= length done ->
  (forall j d, last <= j -> nth_error done j = Some d -> eq (snd d) (snd x) = false) ->
  first_hit eq (done ++ x :: l) (snd x) last (length done).
Proof.
  intros done x l last Hx Hle H. split; [exists x; split; [apply nth_mid|exact Hx]|]. left. split; [exact Hle|].
  intros j Hj (d & H1 & H2). rewrite nth_error_app1 in H1 by lia. rewrite (H j d) in H2; [discriminate|lia|exact H1].
Qed.

Lemma patch_script : forall l m, aligned eq l m -> all_defined m ->
  (forall x, In x l -> eq (snd x) (snd x) = true) -> ForallOrdPairs (fun x y => eq (snd x) (snd y) = false) l ->
  forall done last, last <= length done ->
  (forall j d x, last <= j -> nth_error done j = Some d -> In x l -> eq (snd d) (snd x) = false) ->
  exists r, script eq (done ++ l) last (snd (adiff_loop eq l m [])) (done ++ r) /\ Forall2 (same_item eq) r m.
Proof.
  intros l m H. induction H as [|x l y m E H IH|x x' l y m E E' H IH|x l y y' m E E' E2 H IH|x l y m E E' E2 H IH];
    intros Hm Hr Hp done last Hle Hd.
  - exists []. split; constructor.
  - rewrite adiff_loop_cons, E. apply Forall_cons_iff in Hm as [Hy Hm].
    inversion Hp as [|? ? Hx Hp']; subst. rewrite Forall_forall in Hx.
    destruct (IH Hm (fun z Hz => Hr z (or_intror Hz)) Hp' (done ++ [x]) last) as (r & S1 & S2).
    + rewrite app_length. lia.
    + intros j d z Hj Hn Hz. destruct (Nat.lt_ge_cases j (length done)) as [Hlt|Hge].
      * rewrite nth_error_app1 in Hn by lia. apply (Hd j); auto. right; auto.
      * rewrite nth_error_app2 in Hn by lia. destruct (j - length done) as [|q]; [|destruct q; discriminate].
        injection Hn as <-. apply Hx. exact Hz.
    + exists (x :: r). rewrite <- !app_assoc in S1. split; [exact S1|]. constructor; [right; exact E|exact S2].
  - rewrite adiff_loop_cons, E, E'. rewrite adiff_loop_acc. cbn [app].
    inversion Hp as [|? ? Hx Hp']; subst.
    destruct (IH Hm (fun z Hz => Hr z (or_intror Hz)) Hp' done last Hle) as (r & S1 & S2).
    { intros j d z Hj Hn Hz. apply (Hd j); auto. right; auto. }
    destruct (adiff_loop eq (x' :: l) (y :: m) []) as [[r1 r2] s]. cbn [snd app] in *.
    exists r. split; [|exact S2]. eapply Sc_remove with (pos := length done).
    + apply head_hit; auto. { apply Hr; left; auto. } intros j d Hj Hn. apply (Hd j); auto. left; auto.
    + reflexivity.
    + rewrite firstn_mid, skipn_mid1. exact S1.
  - rewrite adiff_loop_cons, E. assert (E0 : match l with [] => false | x' :: _ => eq (snd x') (snd y) end = false) by (destruct l; eauto).
    rewrite E0. cbn [hd]. rewrite E2, adiff_loop_acc. cbn [app]. apply Forall_cons_iff in Hm as [Hy Hm].
    destruct (IH Hm Hr Hp (done ++ [y]) (length done + 1)) as (r & S1 & S2).
    { rewrite app_length. cbn [length]. lia. }
    { intros j d z Hj Hn Hz. assert (j < length (done ++ [y])) by (apply nth_error_Some; congruence).
      rewrite app_length in H0. cbn [length] in H0. lia. }
    destruct (adiff_loop eq (x :: l) (y' :: m) []) as [[r1 r2] s]. cbn [snd app] in *.
    exists (y :: r). split; [|constructor; [left; reflexivity|exact S2]]. eapply Sc_insert with (pos := length done).
    + apply head_hit; auto. { apply Hr; left; auto. } intros j d Hj Hn. apply (Hd j); auto. left; auto.
    + exact Hy.
    + rewrite firstn_mid, skipn_mid. rewrite <- !app_assoc in S1. exact S1.
  - rewrite adiff_loop_cons, E. assert (E0 : match l with [] => false | x' :: _ => eq (snd x') (snd y) end = false) by (destruct l; eauto).
    rewrite E0, hd_undef, E2, adiff_loop_acc. cbn [app]. apply Forall_cons_iff in Hm as [Hy Hm].
    inversion Hp as [|? ? Hx Hp']; subst.
    destruct (IH Hm (fun z Hz => Hr z (or_intror Hz)) Hp' (done ++ [y]) (length done + 1)) as (r & S1 & S2).
    { rewrite app_length. cbn [length]. lia. }
    { intros j d z Hj Hn Hz. assert (j < length (done ++ [y])) by (apply nth_error_Some; congruence).
      rewrite app_length in H0. cbn [length] in H0. lia. }
    destruct (adiff_loop eq l m []) as [[r1 r2] s]. cbn [snd app] in *.
    exists (y :: r). split; [|constructor; [left; reflexivity|exact S2]]. eapply Sc_insert with (pos := length done).
    + apply head_hit; auto. { apply Hr; left; auto. } intros j d Hj Hn. apply (Hd j); auto. left; auto.
    + exact Hy.
    + rewrite firstn_mid, skipn_mid. replace (done ++ y :: x :: l) with ((done ++ [y]) ++ x :: l) by (rewrite <- app_assoc; reflexivity).
      assert (El : length (done ++ [y]) = length done + 1) by (rewrite app_length; reflexivity).
      eapply Sc_remove with (pos := length (done ++ [y])).
      * apply head_hit; auto. { apply Hr; left; auto. } { lia. }
        intros j d Hj Hn. assert (j < length (done ++ [y])) by (apply nth_error_Some; congruence). lia.
      * reflexivity.
      * rewrite firstn_mid, skipn_mid1. replace (done ++ y :: r) with ((done ++ [y]) ++ r) by (rewrite <- app_assoc; reflexivity). exact S1.
Qed.

Lemma patch_arrays : forall l m fuel d, all_defined l -> all_defined m ->
  (forall x, In x l -> eq (snd x) (snd x) = true) -> ForallOrdPairs (fun x y => eq (snd x) (snd y) = false) l ->
  vdiff L eq fuel (VArr l) (VArr m) = Ok d ->
  exists r, vmerge L eq (VArr l) d = Ok (VArr r) /\ Forall2 (same_item eq) r m.
Proof.
  intros l m fuel d Hl Hm Hr Hp H. unfold vdiff in H.
  destruct fuel as [|f]; [unfold adiff in H; destruct (adiff_loop eq l m []) as [[r1 r2] s]; discriminate|].
  destruct (adiff_spec (S f) l m) as [[A (s & Es & E)]|[_ E]]; [lia| |congruence].
  rewrite E in H. injection H as <-. destruct (patch_script l m A Hm Hr Hp [] 0) as (r & S1 & S2); [lia| |].
  { intros j d x Hj Hn. destruct j; discriminate. }
  rewrite Es in S1. cbn [app] in S1. exists r. split; [|exact S2]. destruct s as [|x s].
  - inversion S1; subst. rewrite merge_arrays by (auto; constructor). rewrite app_nil_r. reflexivity.
  - apply (merge_script_iff l [] undef_item (x :: s) r Hl (Forall_nil _) eq_refl). rewrite app_nil_r. exact S1.
Qed.
End Arrays.

(** *** setItems *)
Section SortExists.
Context {A : Type} (less : A -> A -> bool).
Hypothesis Htotal : forall a b, less a b = false \/ less b a = false.
Hypothesis Htrans : forall a b c, less b a = false -> less c b = false -> less c a = false.
Lemma insert_exists : forall l x, StronglySorted (fun a b => less b a = false) l ->
  exists l', Permutation (x :: l) l' /\ StronglySorted (fun a b => less b a = false) l'.
Proof.
  induction l as [|y l IH]; intros x H; [exists [x]; split; [auto|repeat constructor]|].
  inversion H as [|? ? H1 H2]; subst. destruct (Htotal x y) as [E|E].
  - destruct (IH x H1) as (l' & P & S). exists (y :: l'). split; [rewrite perm_swap; auto|].
    constructor; [exact S|]. eapply Permutation_Forall; [exact P|]. constructor; auto.
  - exists (x :: y :: l). split; [auto|]. constructor; [exact H|]. constructor; [exact E|].
    eapply Forall_impl; [|exact H2]. intros z Hz. eapply Htrans; eauto.
Qed.
Lemma sort_exists : forall l, exists l', sort_result less l l'.
Proof.
  unfold sort_result. induction l as [|x l (l' & P & S)]; [exists []; split; constructor|].
  destruct (insert_exists l' x S) as (q & P' & S'). exists q. split; [|exact S']. rewrite P. exact P'.
Qed.
End SortExists.

Lemma kle_less : forall a b, bytes_less b a = false <-> kle a b.
Proof. intros a b. unfold kle. rewrite <- bytes_less_lt. destruct (bytes_less b a); split; congruence. Qed.
Lemma kle_cases : forall a b, kle a b <-> a = b \/ klt a b.
Proof.
  intros a b. rewrite <- kle_less. split.
  - intros H. apply bytes_less_false in H as [H|H]; auto.
  - intros [->|H]; destruct (bytes_less b _) eqn:E; auto; apply bytes_less_lt in E.
    + destruct (klt_irrefl _ E).
    + destruct (klt_irrefl _ (klt_trans _ _ _ E H)).
Qed.

Lemma items_sort_exists : forall fields, exists b, sort_result item_key_less fields b.
Proof.
  apply sort_exists.
  - intros a b. unfold item_key_less. rewrite !kle_less, !kle_cases. destruct (kcmp (fst a) (fst b)) eqn:E.
    + apply kcmp_eq in E. auto.
    + right. right. exact E.
    + left. right. apply kcmp_gt_lt. exact E.
  - intros a b c. unfold item_key_less. rewrite !kle_less, !kle_cases. intros [->|H] [<-|G]; auto.
    right. eapply klt_trans; eauto.
Qed.


Lemma set_loop_nil_l : forall d, set_loop [] d = flat_map keep_item d.
Proof. destruct d; reflexivity. Qed.
Lemma set_loop_nil_r : forall b, set_loop b [] = b.
Proof. destruct b; reflexivity. Qed.
Lemma set_loop_cons : forall x b y d, set_loop (x :: b) (y :: d) =
  match kcmp (fst x) (fst y) with
  | Lt => x :: set_loop b (y :: d)
  | Gt => keep_item y ++ set_loop (x :: b) d
  | Eq => keep_item y ++ set_loop b d
  end.
Proof. reflexivity. Qed.

Lemma keep_filter : forall d, flat_map keep_item d = defined_only d.
Proof.
  induction d as [|y d IH]; [reflexivity|]. unfold defined_only in *. cbn [flat_map filter]. rewrite IH. unfold keep_item.
  destruct (is_undef (snd y)); reflexivity.
Qed.
Lemma defined_only_cons : forall y d, defined_only (y :: d) = keep_item y ++ defined_only d.
Proof. intros. rewrite <- !keep_filter. reflexivity. Qed.


Lemma filter_all : forall {A} (f : A -> bool) l, (forall x, In x l -> f x = true) -> filter f l = l.
Proof.
  intros A f l H. induction l as [|x l IH]; [reflexivity|]. cbn [filter]. rewrite (H x) by (left; auto). f_equal. apply IH. intros; apply H; right; auto.
Qed.
Lemma filter_ext_in' : forall {A} (f g : A -> bool) l, (forall x, In x l -> f x = g x) -> filter f l = filter g l.
Proof.
  intros A f g l H. induction l as [|x l IH]; [reflexivity|]. cbn [filter]. rewrite (H x) by (left; auto). rewrite IH by (intros; apply H; right; auto). reflexivity.
Qed.

Lemma set_loop_perm : forall b d, keys_increasing b -> keys_sorted d ->
  Permutation (set_loop b d) (defined_only d ++ filter (not_given d) b).
Proof.
  apply (two_lists_ind (fun b d => keys_increasing b -> keys_sorted d ->
    Permutation (set_loop b d) (defined_only d ++ filter (not_given d) b))).
  - intros d _ _. rewrite set_loop_nil_l, keep_filter. cbn [filter]. rewrite app_nil_r. auto.
  - intros x b _ _. rewrite set_loop_nil_r. cbn [defined_only filter app]. unfold not_given at 1. cbn [existsb negb].
    rewrite filter_all by reflexivity. auto.
  - intros x b y d I1 I2 I3 Hb0 Hd0. pose proof Hb0 as Hb. apply inc_cons in Hb as [Hb Hx].
    pose proof Hd0 as Hd. inversion Hd as [|? ? Hd' Hy]; subst. rewrite Forall_forall in Hy.
    rewrite set_loop_cons. destruct (kcmp (fst x) (fst y)) eqn:E.
    + apply kcmp_eq in E. rewrite defined_only_cons, <- app_assoc. apply Permutation_app_head. rewrite I3 by auto.
      apply Permutation_app_head. cbn [filter]. unfold not_given at 2. cbn [existsb]. rewrite E, beqb_refl. cbn [orb negb].
      rewrite (filter_ext_in' (not_given (y :: d)) (not_given d)); [auto|]. intros z Hz. unfold not_given. cbn [existsb].
      assert (beqb (fst y) (fst z) = false) as ->; [|reflexivity]. apply beqb_neq. rewrite <- E. intros K.
      apply (klt_irrefl (fst z)). rewrite <- K at 1. apply Hx. apply in_map. exact Hz.
    + rewrite I1 by auto. assert (Hn : not_given (y :: d) x = true).
      { unfold not_given. apply negb_true_iff, not_true_is_false. intros H. apply existsb_exists in H as (z & Hz & K).
        apply beqb_eq in K. assert (klt (fst x) (fst z)); [|rewrite K in *; apply (klt_irrefl (fst x)); auto].
        destruct Hz as [<-|Hz]; [exact E|]. specialize (Hy _ Hz). apply kle_cases in Hy as [Hy|Hy]; [rewrite <- Hy; exact E|].
        eapply klt_trans; [exact E|exact Hy]. }
      cbn [filter]. rewrite Hn. rewrite <- Permutation_middle. auto.
    + apply kcmp_gt_lt in E. rewrite defined_only_cons, <- app_assoc. apply Permutation_app_head. rewrite I2 by auto.
      apply Permutation_app_head. rewrite (filter_ext_in' (not_given (y :: d)) (not_given d)); [auto|]. intros z Hz. unfold not_given. cbn [existsb].
      assert (beqb (fst y) (fst z) = false) as ->; [|reflexivity]. apply beqb_neq. intros K.
      apply (klt_irrefl (fst y)). rewrite K at 2. destruct Hz as [<-|Hz]; [exact E|]. eapply klt_trans; [exact E|].
      apply Hx. apply in_map. exact Hz.
Qed.

Lemma sorted_app_head : forall y l, keys_sorted l -> (forall m, In m l -> kle (fst y) (fst m)) -> keys_sorted (keep_item y ++ l).
Proof.
  intros y l H Hy. unfold keep_item. destruct (is_undef (snd y)); [exact H|]. constructor; [exact H|]. apply Forall_forall. exact Hy.
Qed.
Lemma set_loop_in : forall b d m, keys_increasing b -> keys_sorted d -> In m (set_loop b d) -> In m b \/ In m d.
Proof.
  intros b d m Hb Hd H. apply (Permutation_in _ (set_loop_perm b d Hb Hd)) in H. apply in_app_or in H as [H|H]; apply filter_In in H as [H _]; auto.
Qed.

Lemma inc_sorted : forall l, keys_increasing l -> keys_sorted l.
Proof.
  induction l as [|x l IH]; intros H; [constructor|]. apply inc_cons in H as [H Hx]. constructor; [apply IH; auto|].
  apply Forall_forall. intros m Hm. apply kle_cases. right. apply Hx. apply in_map. exact Hm.
Qed.

Lemma set_loop_sorted : forall b d, keys_increasing b -> keys_sorted d -> keys_sorted (set_loop b d).
Proof.
  apply (two_lists_ind (fun b d => keys_increasing b -> keys_sorted d -> keys_sorted (set_loop b d))).
  - intros d _ Hd. rewrite set_loop_nil_l. induction Hd as [|y d Hd IH Hy]; [constructor|]. cbn [flat_map].
    apply sorted_app_head; [exact IH|]. rewrite Forall_forall in Hy. intros m Hm. rewrite keep_filter in Hm. apply filter_In in Hm as [Hm _]. auto.
  - intros x b Hb _. rewrite set_loop_nil_r. apply inc_sorted. exact Hb.
  - intros x b y d I1 I2 I3 Hb0 Hd0. pose proof Hb0 as Hb. apply inc_cons in Hb as [Hb Hx].
    pose proof Hd0 as Hd. inversion Hd as [|? ? Hd' Hy]; subst. rewrite Forall_forall in Hy.
    assert (Hx' : forall m, In m b -> kle (fst x) (fst m)) by (intros m Hm; apply kle_cases; right; apply Hx, in_map, Hm).
    rewrite set_loop_cons. destruct (kcmp (fst x) (fst y)) eqn:E.
    + apply kcmp_eq in E. apply sorted_app_head; [auto|]. intros m Hm. apply set_loop_in in Hm as [Hm|Hm]; auto. rewrite <- E. auto.
    + constructor; [apply I1; assumption|]. apply Forall_forall. intros m Hm. apply set_loop_in in Hm as [Hm|[<-|Hm]]; auto.
      * apply kle_cases. right. exact E.
      * specialize (Hy _ Hm). apply kle_cases. right. apply kle_cases in Hy as [Hy|Hy]; [rewrite <- Hy; exact E|]. eapply klt_trans; [exact E|exact Hy].
    + apply kcmp_gt_lt in E. apply sorted_app_head; [auto|]. intros m Hm. apply set_loop_in in Hm as [[<-|Hm]|Hm]; auto.
      * apply kle_cases. right. exact E.
      * apply kle_cases. right. eapply klt_trans; [exact E|]. apply Hx, in_map, Hm.
Qed.

Lemma sort_keys_sorted : forall f b, sort_result item_key_less f b -> Permutation f b /\ keys_sorted b.
Proof.
  intros f b [P S]. split; [exact P|]. clear P. induction S as [|x l S IH H]; [constructor|]. constructor; [apply IH|].
  eapply Forall_impl; [|exact H]. intros y Hy. apply kle_less. exact Hy.
Qed.

Lemma not_given_perm : forall f b m, Permutation f b -> not_given f m = not_given b m.
Proof.
  intros f b m P. unfold not_given. f_equal. induction P; cbn [existsb]; try congruence.
  destruct (beqb (fst y) (fst m)), (beqb (fst x) (fst m)); reflexivity.
Qed.
Lemma filter_perm : forall {A} (g : A -> bool) f b, Permutation f b -> Permutation (filter g f) (filter g b).
Proof.
  intros A g f b P. induction P; cbn [filter]; auto.
  - destruct (g x); auto.
  - destruct (g x), (g y); auto using perm_swap.
  - eapply perm_trans; eauto.
Qed.

Lemma set_items_perm : forall d l fields r, keys_increasing l -> set_items (VObj d l) fields r ->
  exists q, r = VObj false q /\ keys_sorted q /\
  Permutation q (filter (fun m => negb (is_undef (snd m))) fields ++ filter (not_given fields) l).
Proof.
  intros d l fields r Hl (b & Hs & ->). cbn [members_of]. apply sort_keys_sorted in Hs as [P S].
  exists (set_loop l b). split; [reflexivity|]. split; [apply set_loop_sorted; auto|].
  rewrite set_loop_perm by auto. rewrite (filter_ext_in' (not_given fields) (not_given b)) by (intros; apply not_given_perm; exact P).
  apply Permutation_app_tail. unfold defined_only. apply filter_perm. symmetry. exact P.
Qed.

Lemma not_given_in : forall f m, not_given f m = true <-> ~ In (fst m) (map fst f).
Proof.
  intros f m. unfold not_given. rewrite negb_true_iff, <- not_true_iff_false, existsb_exists. split; intros H G; apply H.
  - apply in_map_iff in G as (x & E & G). exists x. split; [exact G|]. rewrite E. apply beqb_refl.
  - destruct G as (x & G & E). apply beqb_eq in E. rewrite <- E. apply in_map. exact G.
Qed.

Lemma set_items_in : forall d l fields r, keys_increasing l -> set_items (VObj d l) fields r ->
  exists q, r = VObj false q /\ keys_sorted q /\ forall k x,
  (In (k, x) q <-> (In (k, x) fields /\ is_undef x = false) \/ (In (k, x) l /\ ~ In k (map fst fields))).
Proof.
  intros d l fields r Hl H. destruct (set_items_perm d l fields r Hl H) as (q & -> & S & P). exists q. split; [auto|]. split; [auto|].
  intros k x. split.
  - intros G. apply (Permutation_in _ P) in G. apply in_app_or in G as [G|G]; apply filter_In in G as [G1 G2]; [left|right]; split; auto.
    + apply negb_true_iff in G2. exact G2.
    + apply not_given_in in G2. exact G2.
  - intros G. apply (Permutation_in _ (Permutation_sym P)). apply in_or_app. destruct G as [[G1 G2]|[G1 G2]]; [left|right]; apply filter_In; split; auto.
    + cbn [snd]. rewrite G2. reflexivity.
    + apply not_given_in. exact G2.
Qed.

Lemma sorted_nodup_inc : forall q, keys_sorted q -> NoDup (map fst q) -> keys_increasing q.
Proof.
  intros q S. induction S as [|x q S IH H]; intros N; [constructor|]. cbn [map] in N. inversion N as [|? ? N1 N2]; subst.
  apply inc_cons. split; [auto|]. intros k Hk. rewrite Forall_forall in H. apply in_map_iff in Hk as (m & <- & Hm).
  specialize (H _ Hm). apply kle_cases in H as [H|H]; [|exact H]. exfalso. apply N1. rewrite H. apply in_map. exact Hm.
Qed.

Lemma nodup_filter_keys : forall (g : member -> bool) l, NoDup (map fst l) -> NoDup (map fst (filter g l)).
Proof.
  intros g l. induction l as [|x l IH]; intros N; [constructor|]. cbn [map filter] in *. inversion_clear N as [|? ? N1 N2].
  destruct (g x); [|auto]. cbn [map]. constructor; [|auto]. intros H. apply N1. apply in_map_iff in H as (m & E & H).
  apply filter_In in H as [H _]. rewrite <- E. apply in_map. exact H.
Qed.

Lemma nodup_app : forall {A} (a b : list A), NoDup a -> NoDup b -> (forall x, In x a -> ~ In x b) -> NoDup (a ++ b).
Proof.
  intros A a b Ha Hb H. induction a as [|x a IH]; [exact Hb|]. inversion_clear Ha as [|? ? A1 A2]. cbn [app]. constructor.
  - intros G. apply in_app_or in G as [G|G]; [auto|]. apply (H x); [left; auto|exact G].
  - apply IH; auto. intros y Hy. apply H. right. exact Hy.
Qed.

Lemma set_items_map : forall d l fields r, keys_increasing l -> NoDup (map fst fields) -> set_items (VObj d l) fields r ->
  exists q, r = VObj false q /\ keys_increasing q /\ forall k, binding k q =
  match binding k fields with Some x => kept (Some x) | None => binding k l end.
Proof.
  intros d l fields r Hl Hn H. destruct (set_items_perm d l fields r Hl H) as (q & E & S & P).
  destruct (set_items_in d l fields r Hl H) as (q' & E' & _ & Hin). assert (q' = q) by congruence. subst q'. clear E'.
  assert (Hq : keys_increasing q).
  { apply sorted_nodup_inc; [exact S|]. apply (Permutation_NoDup (Permutation_sym (Permutation_map fst P))). rewrite map_app. apply nodup_app.
    - apply nodup_filter_keys. exact Hn.
    - apply nodup_filter_keys, keys_increasing_nodup, Hl.
    - intros k H1 H2. apply in_map_iff in H1 as (m1 & <- & H1), H2 as (m2 & E2 & H2).
      apply filter_In in H1 as [H1 _], H2 as [_ H2]. apply not_given_in in H2. apply H2. rewrite E2. apply in_map. exact H1. }
  exists q. split; [exact E|]. split; [exact Hq|]. intros k.
  destruct (binding k fields) as [x|] eqn:Ef.
  - apply binding_in in Ef. rewrite kept_undef. destruct (is_undef x) eqn:Eu.
    + destruct (binding k q) as [y|] eqn:Eq; [|reflexivity]. apply binding_in, Hin in Eq as [[G1 G2]|[G1 G2]].
      * apply (in_binding _ _ _ Hn) in G1, Ef. congruence.
      * destruct G2. apply in_map_iff. exists (k, x). auto.
    + apply (in_binding _ _ _ (keys_increasing_nodup _ Hq)). apply Hin. auto.
  - assert (Hk : ~ In k (map fst fields)).
    { intros G. apply in_map_iff in G as ([k' x] & G1 & G2). cbn [fst] in G1. subst k'. apply (in_binding _ _ _ Hn) in G2. congruence. }
    destruct (binding k l) as [y|] eqn:El.
    + apply (in_binding _ _ _ (keys_increasing_nodup _ Hq)). apply Hin. right. split; [apply binding_in; exact El|exact Hk].
    + destruct (binding k q) as [y|] eqn:Eq; [|reflexivity]. apply binding_in, Hin in Eq as [[G1 G2]|[G1 G2]].
      * destruct Hk. apply in_map_iff. exists (k, y). auto.
      * apply (in_binding _ _ _ (keys_increasing_nodup _ Hl)) in G1. congruence.
Qed.

Lemma set_items_exists : forall v fields, exists r, set_items v fields r.
Proof. intros v fields. destruct (items_sort_exists fields) as (b & H). exists (VObj false (set_loop (members_of v) b)). exists b. auto. Qed.

(** *** Strings and booleans *)
Lemma merge_strings : forall L eq e s e' t, vmerge L eq (VStr e s) (VStr e' t) = Ok (VStr None (s ++ t)) /\
  forall fuel, vdiff L eq fuel (VStr None (s ++ t)) (VStr e' t) = Ok (VStr None s).
Proof.
  intros L eq e s e' t. split; [reflexivity|]. intros fuel. unfold vdiff, sdiff. rewrite app_length.
  destruct (Nat.ltb_spec (length s + length t) (length t)) as [H|H]; [lia|].
  replace (length s + length t - length t) with (length s) by lia.
  rewrite skipn_app, skipn_all, Nat.sub_diag. cbn [skipn app]. rewrite beqb_refl.
  rewrite firstn_app, Nat.sub_diag, firstn_all, firstn_O, app_nil_r. reflexivity.
Qed.
Lemma diff_strings : forall L eq fuel e s e' t, (forall a, s <> a ++ t) -> vdiff L eq fuel (VStr e s) (VStr e' t) = Ok (VStr e s).
Proof.
  intros L eq fuel e s e' t H. unfold vdiff, sdiff. destruct (Nat.ltb_spec (length s) (length t)) as [E|E]; [reflexivity|].
  destruct (beqb (skipn (length s - length t) s) t) eqn:B; [|reflexivity]. apply beqb_eq in B.
  exfalso. apply (H (firstn (length s - length t) s)). rewrite <- B at 2. symmetry. apply firstn_skipn.
Qed.
Lemma merge_bools : forall L eq a b, exists c, vmerge L eq (VBool a) (VBool b) = Ok (VBool c) /\
  forall fuel, vdiff L eq fuel (VBool c) (VBool b) = Ok (VBool a).
Proof. intros L eq a b. exists (xorb a b). split; [reflexivity|]. intros fuel. destruct a, b; reflexivity. Qed.

Lemma patch_objects' : forall L eq fuel d l d' m, eq_ok L eq -> deep_plain (VObj d l) -> deep_plain (VObj d' m) ->
  proper L (VObj d l) -> proper L (VObj d' m) ->
  exists c r, vdiff L eq fuel (VObj d l) (VObj d' m) = Ok c /\ vmerge L eq (VObj d l) c = Ok r /\
    veq L r (VObj d' m) = true.
Proof.
  intros L eq fuel d l d' m He H1 H2 P1 P2. pose proof (patch_objects eq L He (VObj d l) (VObj d' m) I H1 H2 P1 P2) as H.
  destruct (odiff_spec eq d l d' m (proj1 H1) (proj1 H2)) as (dd & q & E & _ & _).
  exists (odiff eq (VObj d l) (VObj d' m)), (merge_objects (VObj d l) (odiff eq (VObj d l) (VObj d' m))).
  split; [reflexivity|]. split; [|exact H]. rewrite E. reflexivity.
Qed.

Lemma vmerge_sorted : forall L eq d l d' m, deep_sorted (VObj d l) -> deep_sorted (VObj d' m) ->
  exists r, vmerge L eq (VObj d l) (VObj d' m) = Ok r /\ deep_sorted r.
Proof. intros. eexists. split; [reflexivity|]. apply merge_deep_sorted; auto. Qed.

Lemma array_never : forall eq L l m, ~ aligned eq l m -> forall fuel, vdiff L eq fuel (VArr l) (VArr m) = Fuel.
Proof. intros eq L l m H fuel. apply adiff_never. exact H. Qed.
