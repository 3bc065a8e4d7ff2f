(** Lemmas about paths given as values. *)
From Coq Require Import Lia.
From Verif Require Import Base ModelKeyed SpecKeyed ModelValue ModelObject ModelArray ModelJwt ModelPath SpecPath ProofPath SpecText SpecPathValue.
Local Open Scope Z_scope.

Lemma from_items_some : forall u l parent, (exists p, path_from_items u parent l = Some p) <-> Forall step_item l.
Proof.
  intros u. induction l as [|[k v] l IH]; intros parent; cbn [path_from_items].
  - split; [constructor|]. eauto.
  - unfold step_item at 1. split.
    + intros [p H]. destruct v; try discriminate; (constructor; [exact I|]); eapply IH; eauto.
    + intros H. inversion H as [|? ? H1 H2]; subst. unfold step_item in H1. cbn [snd] in H1. destruct v; try contradiction; apply IH; auto.
Qed.

Definition item_elem (L : libm) (m : member) : pelem :=
  match snd m with VStr _ k => pkey k | VNum n => pindex (uint_value L n) | _ => pkey [] end.

Lemma from_items_eq : forall L l parent p, path_from_items (uint_value L) parent l = Some p ->
  p = rev (map (item_elem L) l) ++ parent.
Proof.
  intros L. induction l as [|[k v] l IH]; intros parent p H; cbn [path_from_items] in H; [inversion H; reflexivity|].
  destruct v; try discriminate; apply IH in H; subst p; cbn [map rev]; rewrite <- app_assoc; reflexivity.
Qed.

Lemma item_elem_ok : forall L m, readable L m -> elem_ok (item_elem L m).
Proof.
  intros L [k v] H. unfold readable, item_elem in *. cbn [snd] in *. destruct v; try (left; reflexivity).
  destruct H as (z & E & R). unfold uint_value, elem_ok. rewrite E. cbn [pe_key pe_index pindex].
  unfold no_index. destruct (Z.eq_dec z (2 ^ 64 - 1)) as [->|N]; [left; reflexivity|right; split; [reflexivity|lia]].
Qed.

Lemma from_value_ok : forall L v p, Forall (readable L) (members_of v) -> path_from_value (uint_value L) v = Some p -> path_ok p.
Proof.
  intros L v p R H. apply from_items_eq in H. subst p. rewrite app_nil_r. apply path_ok_rev. unfold path_ok.
  induction R; constructor; auto. apply item_elem_ok. auto.
Qed.

Definition step_to (v : value) (x : pelem) : value :=
  if is_index x then snd (vitem v (Z.to_nat (pe_index x))) else value_member v (pe_key x).

Lemma sorted_obj : forall d l, all_sorted (VObj d l) -> keys_increasing l /\ Forall (fun m => all_sorted (snd m)) l.
Proof. intros d l H. inversion H; subst; [contradiction|auto]. Qed.
Lemma sorted_arr : forall l, all_sorted (VArr l) -> Forall (fun m => all_sorted (snd m)) l.
Proof. intros l H. inversion H; subst; [contradiction|auto]. Qed.
Lemma sorted_undef : all_sorted VUndef.
Proof. apply as_leaf. exact I. Qed.

Lemma lead_name : forall L v e k, all_sorted v -> leads1 L v (VStr e k) (value_member v k) /\ all_sorted (value_member v k).
Proof.
  intros L v e k S. destruct v; try (split; [apply Lead_name_other; discriminate|exact sorted_undef]).
  apply sorted_obj in S as [S1 S2]. rewrite value_member_binding by exact S1. split; [apply Lead_name|].
  destruct (binding k l) as [x|] eqn:E; [|exact sorted_undef].
  apply ProofKeyed.binding_in in E. rewrite Forall_forall in S2. exact (S2 _ E).
Qed.

Lemma nth_item : forall (l : list member) i,
  snd (nth i l ([], VUndef)) = match nth_error l i with Some m => snd m | None => VUndef end.
Proof. induction l as [|x l IH]; intros [|i]; cbn; auto. Qed.

Lemma sorted_item : forall l i, Forall (fun m : member => all_sorted (snd m)) l ->
  all_sorted (match nth_error l i with Some m => snd m | None => VUndef end).
Proof.
  intros l i H. destruct (nth_error l i) eqn:E; [|exact sorted_undef]. apply nth_error_In in E.
  rewrite Forall_forall in H. auto.
Qed.

Lemma lead_step : forall L v m, all_sorted v -> step_item m -> readable L m ->
  leads1 L v (snd m) (step_to v (item_elem L m)) /\ all_sorted (step_to v (item_elem L m)).
Proof.
  intros L v [k x] S I R. unfold step_item, readable, item_elem, step_to in *. cbn [snd] in *. destruct x; try contradiction.
  - destruct R as (z & E & R). unfold uint_value. rewrite E. unfold is_index. cbn [pindex pe_index pe_key]. unfold no_index.
    destruct (Z.eqb_spec z (2 ^ 64 - 1)) as [->|N]; cbn [negb].
    + destruct (lead_name L v None [] S) as [A B]. split; [|exact B]. eapply Lead_last; eauto.
    + unfold vitem. rewrite nth_item. destruct v; cbn [members_of];
        try (destruct (Z.to_nat z); cbn [nth_error]; (split; [apply (Lead_item_other L _ n z); auto; intros; discriminate|exact sorted_undef])).
      * split; [|apply sorted_item, sorted_arr, S]. eapply Lead_item; eauto; rewrite Z2Nat.id by lia; auto.
      * split; [|apply sorted_item; eapply sorted_obj; eauto]. eapply Lead_item; eauto; rewrite Z2Nat.id by lia; auto.
  - unfold is_index. cbn [pkey pe_index pe_key]. rewrite Z.eqb_refl. cbn [negb]. apply lead_name, S.
Qed.

Lemma get_rev_steps : forall L l v, all_sorted v -> Forall step_item l -> Forall (readable L) l ->
  leads L v l (get_rev v (map (item_elem L) l)).
Proof.
  intros L l. induction l as [|m l IH]; intros v S I R; [apply Leads_here|].
  inversion I; subst. inversion R; subst. cbn [map get_rev]. destruct (lead_step L v m S) as [A B]; auto.
  eapply Leads_on; [exact A|]. apply IH; auto.
Qed.

Lemma value_path_reads : forall L v pv p, all_sorted v -> Forall (readable L) (members_of pv) ->
  path_from_value (uint_value L) pv = Some p -> leads L v (members_of pv) (get_path v p).
Proof.
  intros L v pv p S R H. pose proof H as H0. unfold path_from_value in H0.
  assert (I : Forall step_item (members_of pv)) by (eapply from_items_some; eauto).
  apply from_items_eq in H. rewrite app_nil_r in H. subst p. rewrite get_path_rev, rev_involutive.
  apply get_rev_steps; auto.
Qed.

Ltac no_container := exfalso; match goal with
  | H : forall d l, _ <> VObj d l |- _ => eapply H; reflexivity
  | H : forall l, _ <> VArr l |- _ => eapply H; reflexivity
  end.
Lemma leads1_fun : forall L v s w, leads1 L v s w -> forall w', leads1 L v s w' -> w = w'.
Proof.
  intros L v s w H. induction H; intros w' H'.
  - inversion H'; subst; [reflexivity|]. no_container.
  - inversion H'; subst; [exfalso; eapply H; eauto|reflexivity].
  - inversion H'; subst; try congruence.
    + assert (i0 = i) by (apply Nat2Z.inj; congruence). subst i0.
      assert (l0 = l) by (destruct H1 as [->|[d ->]]; match goal with H : _ \/ _ |- _ => destruct H as [E|[d' E]] end; congruence).
      subst. reflexivity.
    + destruct H1 as [->|[d ->]]; no_container.
  - inversion H'; subst; try congruence.
    match goal with H : _ \/ _ |- _ => destruct H as [->|[d ->]] end; no_container.
  - inversion H'; subst; try congruence. apply IHleads1.
    match goal with H : leads1 _ _ _ w' |- _ => clear - H; inversion H; subst; constructor; auto end.
Qed.
Lemma leads_fun : forall L v l w, leads L v l w -> forall w', leads L v l w' -> w = w'.
Proof.
  intros L v l w H. induction H; intros w' H'; inversion H'; subst; auto.
  match goal with A : leads1 L v (snd m) ?a, B : leads1 L v (snd m) ?b |- _ => pose proof (leads1_fun _ _ _ _ A _ B); subst end; auto.
Qed.

Lemma path_items_rev : forall p x, path_items (p ++ [x]) = path_items [x] ++ path_items p.
Proof.
  induction p as [|y p IH]; intros x; [cbn; reflexivity|].
  change ((y :: p) ++ [x]) with (y :: (p ++ [x])). cbn [path_items] in *. rewrite IH, <- app_assoc. reflexivity.
Qed.

Lemma value_path_back : forall L pv p, path_from_value (uint_value L) pv = Some p ->
  path_to_value p = VArr (map (written_item L) (members_of pv)).
Proof.
  intros L pv p H. pose proof H as H0. unfold path_from_value in H0.
  assert (I : Forall step_item (members_of pv)) by (eapply from_items_some; eauto).
  apply from_items_eq in H. rewrite app_nil_r in H. subst p. rewrite path_to_value_items. f_equal.
  clear H0. induction I as [|[k v] l I1 _ IH]; [reflexivity|]. cbn [map rev]. rewrite path_items_rev, IH.
  cbn [path_items app]. f_equal. unfold written_item, item_elem, is_index. cbn [snd]. unfold step_item in I1. cbn [snd] in I1.
  destruct v; try contradiction; cbn [pindex pkey pe_index pe_key].
  - unfold no_index. destruct (uint_value L n =? 2 ^ 64 - 1); reflexivity.
  - rewrite Z.eqb_refl. reflexivity.
Qed.

Lemma value_path_when : forall L pv, (exists p, path_from_value (uint_value L) pv = Some p) <-> Forall step_item (members_of pv).
Proof. intros L pv. apply from_items_some. Qed.
