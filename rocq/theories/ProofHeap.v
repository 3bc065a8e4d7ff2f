(** The list algorithms do the same on handles as on what they show. *)
From Verif Require Import Base ModelKeyed SpecKeyed ProofKeyed ModelValue ModelObject SpecObject ModelHeap SpecHeap.

Section Param.
Variables (A B : Type) (R : A -> B -> Prop).
Definition mrel (x : bytes * A) (y : bytes * B) : Prop := fst x = fst y /\ R (snd x) (snd y).
Notation lrel := (Forall2 mrel).

Lemma lrel_length : forall l m, lrel l m -> length l = length m.
Proof. induction 1; simpl; congruence. Qed.

Lemma lrel_app : forall l m l2 m2, lrel l m -> lrel l2 m2 -> lrel (l ++ l2) (m ++ m2).
Proof. intros. apply Forall2_app; auto. Qed.

Lemma lrel_rev : forall l m, lrel l m -> lrel (rev l) (rev m).
Proof. induction 1; simpl; [constructor|]. apply lrel_app; auto. Qed.

Lemma lrel_nth : forall l m, lrel l m -> forall n,
  match nth_error l n, nth_error m n with Some x, Some y => mrel x y | None, None => True | _, _ => False end.
Proof. induction 1; intros [|n]; simpl; auto. apply IHForall2. Qed.

Lemma sort_insert_param : forall x y l m, mrel x y -> lrel l m -> lrel (sort_insert x l) (sort_insert y m).
Proof.
  intros x y l m Hx. induction 1 as [|a b l m Hab H IH]; simpl; [repeat constructor; apply Hx|].
  destruct Hx as [E1 E2], Hab as [E3 E4]. rewrite <- E1, <- E3.
  destruct (kcmp (fst a) (fst x)); repeat constructor; auto.
Qed.

Lemma stable_sort_param : forall l m, lrel l m -> lrel (stable_sort l) (stable_sort m).
Proof. unfold stable_sort. induction 1; simpl; [constructor|]. apply sort_insert_param; auto. Qed.

Lemma dedupe_param : forall l m, lrel l m -> forall o p last, lrel o p ->
  lrel (dedupe_loop o last l) (dedupe_loop p last m).
Proof.
  induction 1 as [|a b l m Hab H IH]; intros o p last Ho; simpl; [apply lrel_rev; auto|].
  pose proof Hab as [E1 E2]. rewrite <- E1. rewrite <- (lrel_length _ _ Ho). apply IH. constructor; auto.
  destruct (beqb (fst a) last && negb (length o =? 0)); auto. destruct Ho; simpl; [constructor|auto].
Qed.

Lemma obj_sort_param : forall l m, lrel l m -> lrel (obj_sort l) (obj_sort m).
Proof. intros. apply dedupe_param; [apply stable_sort_param; auto|constructor]. Qed.

Lemma find_loop_param : forall name l m, lrel l m -> forall fuel a b,
  match find_loop fuel l name a b, find_loop fuel m name a b with
  | Ok (Some x), Ok (Some y) => mrel x y
  | Ok None, Ok None => True
  | Err, Err => True
  | Fuel, Fuel => True
  | _, _ => False
  end.
Proof.
  intros name l m H. induction fuel as [|fuel IH]; intros a b; simpl; auto.
  destruct (a <? b); auto.
  pose proof (lrel_nth _ _ H (Nat.div (a + b) 2)) as Hn.
  cbn [Nat.div] in *. destruct (nth_error l _) as [x|], (nth_error m _) as [y|]; try contradiction; auto.
  pose proof Hn as [E1 E2]. rewrite <- E1. destruct (kcmp name (fst x)); auto; apply IH.
Qed.

Lemma find_member_param : forall name l m, lrel l m ->
  match find_member l name, find_member m name with Some x, Some y => mrel x y | None, None => True | _, _ => False end.
Proof.
  intros name l m H. unfold find_member, findSorted. rewrite <- (lrel_length _ _ H).
  pose proof (find_loop_param name l m H (S (length l)) 0 (length l)) as P.
  destruct (find_loop _ l name _ _) as [[x|]| |], (find_loop _ m name _ _) as [[y|]| |]; auto; contradiction.
Qed.

Lemma cpush_param : forall cap l m x y, lrel l m -> mrel x y ->
  fst (cpush cap l x) = fst (cpush cap m y) /\ lrel (snd (cpush cap l x)) (snd (cpush cap m y)).
Proof.
  intros cap l m x y H Hx. unfold cpush. rewrite <- (lrel_length _ _ H).
  destruct (length l <? cap); simpl; split; auto. apply lrel_app; auto.
Qed.

Lemma fold_param : forall (f : list (bytes * A) -> bytes * A -> list (bytes * A))
    (g : list (bytes * B) -> bytes * B -> list (bytes * B)),
  (forall l m x y, lrel l m -> mrel x y -> lrel (f l x) (g m y)) ->
  forall l m, lrel l m -> forall o p, lrel o p -> lrel (fold_left f l o) (fold_left g m p).
Proof. intros f g Hf l m H. induction H; intros o p Ho; simpl; auto. Qed.

Lemma filter_param : forall (f : A -> bool) (g : B -> bool), (forall x y, R x y -> f x = g y) ->
  forall l m, lrel l m -> lrel (filter (fun x => f (snd x)) l) (filter (fun x => g (snd x)) m).
Proof.
  intros f g Hf l m H. induction H as [|a b l m [E1 E2] H IH]; simpl; [constructor|].
  rewrite (Hf _ _ E2). destruct (g (snd b)); auto. constructor; auto. split; auto.
Qed.
End Param.
Arguments mrel {A B}.

Notation hrel h := (Forall2 (mrel (shows h))).

Lemma shows_items_rel : forall h l m, shows_items h l m <-> hrel h l m.
Proof.
  intros h. split.
  - revert m. induction l as [|[k x] l IH]; intros m H; inversion H; subst; constructor; auto. split; auto.
  - induction 1 as [|[k x] [k' v] l m [E1 E2] H IH]; [constructor|]. simpl in *. subst. constructor; auto.
Qed.

Lemma shows_undef : forall h x v, shows h x v -> hv_undef x = is_undef v.
Proof. intros h x v H. inversion H; subst; reflexivity. Qed.

Lemma scan_back_param : forall h name l m, hrel h l m ->
  match h_scan_back l name, scan_back m name with Some x, Some y => mrel (shows h) x y | None, None => True | _, _ => False end.
Proof.
  intros h name l m H. induction H as [|a b l m [E1 E2] H IH]; simpl; auto.
  rewrite <- E1. destruct (beqb (fst a) name); auto. split; auto.
Qed.

Lemma hpush_param : forall h cap l m x y, hrel h l m -> mrel (shows h) x y ->
  hrel h (hpush cap l x) (apush cap m y).
Proof. intros. apply (proj2 (cpush_param _ _ _ cap l m x y H H0)). Qed.

Lemma hpush_new_param : forall h cd cap l m x y, hrel h l m -> mrel (shows h) x y ->
  hrel h (hpush_new cd cap l x) (apush_new cd cap m y).
Proof.
  intros h cd cap l m x y H Hx. unfold hpush_new, apush_new. rewrite (shows_undef _ _ _ (proj2 Hx)).
  destruct (is_undef (snd y)); simpl; [destruct cd; auto|]; apply hpush_param; auto.
Qed.

Lemma happly_cons : forall cd cap x b acc y d, happly_loop cd cap (x :: b) acc (y :: d) =
  match kcmp (fst x) (fst y) with
  | Lt => happly_loop cd cap b (hpush cap acc x) (y :: d)
  | Gt => happly_loop cd cap (x :: b) (hpush_new cd cap acc y) d
  | Eq => happly_loop cd cap b (if negb (hv_undef (snd y)) then hpush cap acc (fst x, snd y)
                    else if cd then hpush cap acc y else acc) d
  end.
Proof. reflexivity. Qed.
Lemma apply_cons : forall mf cd cap x b acc y d, apply_loop mf cd cap (x :: b) acc (y :: d) =
  match kcmp (fst x) (fst y) with
  | Lt => apply_loop mf cd cap b (apush cap acc x) (y :: d)
  | Gt => apply_loop mf cd cap (x :: b) (apush_new cd cap acc y) d
  | Eq => apply_loop mf cd cap b (if negb (is_undef (snd y)) then apush cap acc (fst x, mf (snd x) (snd y))
                    else if cd then apush cap acc y else acc) d
  end.
Proof. reflexivity. Qed.

Lemma happly_param : forall h cd cap b1 b2, hrel h b1 b2 -> forall d1 d2, hrel h d1 d2 ->
  forall a1 a2, hrel h a1 a2 ->
  hrel h (happly_loop cd cap b1 a1 d1) (apply_loop default_merge cd cap b2 a2 d2).
Proof.
  intros h cd cap b1 b2 Hb. induction Hb as [|x1 x2 b1 b2 Hx Hb IH].
  - intros d1 d2 Hd a1 a2 Ha. replace (happly_loop cd cap [] a1 d1) with (fold_left (hpush_new cd cap) d1 a1) by (destruct d1; reflexivity).
    replace (apply_loop default_merge cd cap [] a2 d2) with (fold_left (apush_new cd cap) d2 a2) by (destruct d2; reflexivity).
    apply (fold_param _ _ (shows h)); auto. intros; apply hpush_new_param; auto.
  - intros d1 d2 Hd. induction Hd as [|y1 y2 d1 d2 Hy Hd IHd]; intros a1 a2 Ha.
    + simpl. apply (fold_param _ _ (shows h)); auto.
      * intros; apply hpush_param; auto.
      * apply hpush_param; auto.
    + rewrite happly_cons, apply_cons. pose proof Hx as [E1 E2]. pose proof Hy as [E3 E4].
      rewrite <- E1, <- E3. destruct (kcmp (fst x1) (fst y1)).
      * apply IH; auto. rewrite (shows_undef _ _ _ E4).
        destruct (is_undef (snd y2)); simpl; [destruct cd; auto; apply hpush_param; auto|].
        apply hpush_param; auto. split; auto.
      * apply IH; [constructor; auto|]. apply hpush_param; auto.
      * apply IHd. apply hpush_new_param; auto.
Qed.

Lemma happly_cell_param : forall h d b1 b2 l1 l2, hrel h b1 b2 -> hrel h l1 l2 ->
  hrel h (c_items (happly_cell d b1 l1)) (apply_impl default_merge d b2 l2).
Proof.
  intros h d b1 b2 l1 l2 Hb Hl. unfold happly_cell, apply_impl. cbn [c_items].
  rewrite <- (lrel_length _ _ _ _ _ Hb), <- (lrel_length _ _ _ _ _ Hl). apply happly_param; auto.
Qed.
