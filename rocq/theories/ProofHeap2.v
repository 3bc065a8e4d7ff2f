(** Containers that values refer to are never changed. *)
From Verif Require Import Base ModelKeyed SpecKeyed ProofKeyed ModelValue ModelObject SpecObject ModelHeap SpecHeap ProofHeap.

Scheme shows_mind := Minimality for shows Sort Prop
  with shows_items_mind := Minimality for shows_items Sort Prop.
Combined Scheme shows_both from shows_mind, shows_items_mind.

(** [P] is a set of addresses: containers that are finished. *)
Definition okv (P : nat -> Prop) (x : hval) : Prop := match x with HV _ => True | HR a => P a end.
Definition okm (P : nat -> Prop) (m : hmember) : Prop := okv P (snd m).
Definition closed (P : nat -> Prop) (h : heap) : Prop :=
  forall a, P a -> exists c, nth_error h a = Some c /\ Forall (okm (fun b => P b /\ b < a)) (c_items c).
Record oko (P : nat -> Prop) (h : heap) (o : hobj) : Prop := mkOko {
  k_base : forall b, h_base o = Some b -> okv P b;
  k_snap : okv P (h_snap o);
  k_ord : forall a, h_ord o = Some a -> P a;
  k_unord : forall a, h_unord o = Some a -> ~ P a /\ exists c, nth_error h a = Some c /\ Forall (okm P) (c_items c)
}.

Lemma closed_in : forall P h a, closed P h -> P a -> a < length h.
Proof. intros P h a H Ha. destruct (H a Ha) as (c & Hc & _). apply nth_error_Some. congruence. Qed.

Lemma okv_mono : forall (P P' : nat -> Prop) x, (forall a, P a -> P' a) -> okv P x -> okv P' x.
Proof. intros P P' [v|a] H; simpl; auto. Qed.
Lemma okm_mono : forall (P P' : nat -> Prop) l, (forall a, P a -> P' a) -> Forall (okm P) l -> Forall (okm P') l.
Proof. intros P P' l H. apply Forall_impl. intros m. apply okv_mono; auto. Qed.

Lemma nth_write : forall h a c b, nth_error (h_write h a c) b =
  if Nat.eqb b a then (if a <? length h then Some c else None) else nth_error h b.
Proof.
  induction h as [|x h IH]; intros a c b; simpl.
  - replace (nth_error (@nil cell) b) with (@None cell) by (destruct b; reflexivity).
    destruct (b =? a); auto; destruct a; reflexivity.
  - destruct a as [|a], b as [|b]; simpl; auto. rewrite IH. reflexivity.
Qed.
Lemma length_write : forall h a c, length (h_write h a c) = length h.
Proof. induction h; intros [|a'] c; simpl; auto. Qed.

(** [h'] follows [h]: finished containers and everything but [own] are kept. *)
Record extends (P P' : nat -> Prop) (h h' : heap) (own : option nat) : Prop := mkExt {
  e_closed : closed P' h';
  e_sub : forall a, P a -> P' a;
  e_len : length h <= length h';
  e_same : forall a, a < length h -> own <> Some a -> nth_error h' a = nth_error h a;
  e_new : forall a, P' a -> P a \/ length h <= a;
  e_cells : forall a c, nth_error h' a = Some c -> nth_error h a = Some c \/ Forall (okm P') (c_items c)
}.
Definition fresh_own (h : heap) (own own' : option nat) : Prop :=
  forall a, own' = Some a -> own = Some a \/ length h <= a.

Lemma extends_refl : forall P h own, closed P h -> extends P P h h own.
Proof. intros. constructor; auto. Qed.

Lemma extends_trans : forall P P1 P2 h h1 h2 own own1,
  extends P P1 h h1 own -> extends P1 P2 h1 h2 own1 -> fresh_own h own own1 -> extends P P2 h h2 own.
Proof.
  intros P P1 P2 h h1 h2 own own1 [A1 A2 A3 A4 A5 A6] [B1 B2 B3 B4 B5 B6] F. constructor; auto; try lia.
  - intros a Ha Hn. rewrite B4; auto; [lia|]. intros E. destruct (F a E); [auto|lia].
  - intros a Ha. destruct (B5 a Ha) as [H|H]; [apply A5; auto|lia].
  - intros a c H. destruct (B6 a c H) as [H1|H1]; auto. destruct (A6 a c H1) as [H2|H2]; auto.
    right. eapply okm_mono; [|exact H2]. auto.
Qed.

Lemma extends_weak : forall P P' h h' own, extends P P' h h' None -> extends P P' h h' own.
Proof. intros P P' h h' own [A1 A2 A3 A4 A5 A6]. constructor; auto. intros a Ha _. apply A4; auto. discriminate. Qed.

Lemma nth_grown : forall (h : heap) c a x, nth_error (h ++ [c]) a = Some x -> nth_error h a = Some x \/ x = c.
Proof.
  intros h c a x H. destruct (Nat.ltb_spec a (length h)).
  - rewrite nth_error_app1 in H by auto. auto.
  - rewrite nth_error_app2 in H by auto. destruct (a - length h) as [|[|n]]; simpl in H; inversion H; auto.
Qed.

Lemma alloc_frozen : forall P h c own, closed P h -> Forall (okm P) (c_items c) ->
  extends P (fun a => P a \/ a = length h) h (h ++ [c]) own.
Proof.
  intros P h c own H Hc. constructor; auto.
  - intros a [Ha| ->].
    + destruct (H a Ha) as (c' & E & F). exists c'. split.
      * rewrite nth_error_app1; auto. apply nth_error_Some. congruence.
      * eapply okm_mono; [|exact F]. simpl. intuition.
    + exists c. rewrite nth_error_app2, Nat.sub_diag by auto. split; auto.
      eapply okm_mono; [|exact Hc]. simpl. intros b Hb. split; auto. eapply closed_in; eauto.
  - rewrite app_length. simpl. lia.
  - intros a Ha _. rewrite nth_error_app1; auto.
  - intros a [Ha| ->]; auto.
  - intros a x E. destruct (nth_grown _ _ _ _ E) as [E'| ->]; auto. right. eapply okm_mono; [|exact Hc]. simpl. auto.
Qed.

Lemma alloc_own : forall P h c own, closed P h -> c_items c = [] -> extends P P h (h ++ [c]) own.
Proof.
  intros P h c own H Hc. constructor; auto.
  - intros a Ha. destruct (H a Ha) as (c' & E & F). exists c'. split; auto.
    rewrite nth_error_app1; auto. eapply closed_in; eauto.
  - rewrite app_length. simpl. lia.
  - intros a Ha _. rewrite nth_error_app1; auto.
  - intros a x E. destruct (nth_grown _ _ _ _ E) as [E'| ->]; auto. right. rewrite Hc. constructor.
Qed.

Lemma write_own : forall P h u c, closed P h -> ~ P u -> Forall (okm P) (c_items c) -> extends P P h (h_write h u c) (Some u).
Proof.
  intros P h u c H Hu Hf. constructor; auto.
  - intros a Ha. destruct (H a Ha) as (c' & E & F). exists c'. split; auto.
    rewrite nth_write. destruct (Nat.eqb_spec a u); [subst; contradiction|auto].
  - rewrite length_write. auto.
  - intros a Ha Hn. rewrite nth_write. destruct (Nat.eqb_spec a u); [congruence|auto].
  - intros a x E. rewrite nth_write in E. destruct (Nat.eqb_spec a u); [|auto].
    destruct (u <? length h); inversion E; subst. auto.
Qed.

Lemma extends_frozen : forall P P' h h' own a, closed P h -> extends P P' h h' own -> P a ->
  (forall b, own = Some b -> ~ P b) -> nth_error h' a = nth_error h a.
Proof.
  intros P P' h h' own a Hc E Ha Ho. apply (e_same _ _ _ _ _ E); [eapply closed_in; eauto|].
  intros Hw. exact (Ho a Hw Ha).
Qed.

Lemma unord_in : forall P h o a, oko P h o -> h_unord o = Some a -> a < length h.
Proof. intros P h o a H E. destruct (k_unord _ _ _ H a E) as (_ & c & Hc & _). apply nth_error_Some. congruence. Qed.

(** Another builder is not affected. *)
Lemma oko_other : forall P P' h h' own q, oko P h q -> extends P P' h h' own ->
  (forall a, h_unord q = Some a -> own <> Some a) -> oko P' h' q.
Proof.
  intros P P' h h' own q Hq E Hn. pose proof Hq as [K1 K2 K3 K4]. constructor.
  - intros b Hb. eapply okv_mono; [apply (e_sub _ _ _ _ _ E)|auto].
  - eapply okv_mono; [apply (e_sub _ _ _ _ _ E)|auto].
  - intros a Ha. apply (e_sub _ _ _ _ _ E); auto.
  - intros a Ha. destruct (K4 a Ha) as (N & c & Hc & F). pose proof (unord_in _ _ _ _ Hq Ha) as Hlt. split.
    + intros HP. destruct (e_new _ _ _ _ _ E a HP); [contradiction|lia].
    + exists c. rewrite (e_same _ _ _ _ _ E) by auto. split; auto.
      eapply okm_mono; [apply (e_sub _ _ _ _ _ E)|auto].
Qed.

Lemma cpush_forall : forall {A} (Q : A -> Prop) cap l x, Forall Q l -> Q x -> Forall Q (snd (cpush cap l x)).
Proof.
  intros A Q cap l x H Hx. unfold cpush. destruct (length l <? cap); simpl; auto. apply Forall_app. auto.
Qed.
Lemma fold_forall : forall {A} (Q : A -> Prop) (f : list A -> A -> list A),
  (forall l x, Forall Q l -> Q x -> Forall Q (f l x)) ->
  forall l acc, Forall Q l -> Forall Q acc -> Forall Q (fold_left f l acc).
Proof. intros A Q f Hf l. induction l; intros acc H Ha; simpl; auto. inversion H; subst. auto. Qed.

Lemma happly_forall : forall P cd cap b d acc, Forall (okm P) b -> Forall (okm P) d -> Forall (okm P) acc ->
  Forall (okm P) (happly_loop cd cap b acc d).
Proof.
  intros P cd cap.
  assert (Hp : forall l x, Forall (okm P) l -> okm P x -> Forall (okm P) (hpush cap l x)) by
    (intros; apply cpush_forall; auto).
  assert (Hn : forall l x, Forall (okm P) l -> okm P x -> Forall (okm P) (hpush_new cd cap l x)).
  { intros. unfold hpush_new. destruct (negb _); [|destruct cd]; auto. }
  induction b as [|x b IH].
  - intros d acc _ Hd Ha. replace (happly_loop cd cap [] acc d) with (fold_left (hpush_new cd cap) d acc) by (destruct d; reflexivity).
    apply fold_forall; auto.
  - induction d as [|y d IHd]; intros acc Hb Hd Ha.
    + simpl. inversion Hb; subst. apply fold_forall; auto.
    + rewrite happly_cons. inversion Hb; subst. inversion Hd; subst. destruct (kcmp (fst x) (fst y)).
      * apply IH; auto. destruct (negb _); [|destruct cd]; auto.
      * apply IH; auto.
      * apply IHd; auto.
Qed.

Lemma sort_forall : forall P (l : list hmember), Forall (okm P) l -> Forall (okm P) (obj_sort l).
Proof. intros P l H. rewrite Forall_forall in *. intros m Hm. apply H. eapply obj_sort_in; eauto. Qed.

Lemma frozen_items : forall P h a c, closed P h -> P a -> nth_error h a = Some c -> Forall (okm P) (c_items c).
Proof.
  intros P h a c H Ha E. destruct (H a Ha) as (c' & E' & F). assert (c' = c) by congruence. subst.
  eapply okm_mono; [|exact F]. simpl. tauto.
Qed.

Lemma lift_ok : forall P l, Forall (okm P) (lift_items l).
Proof. intros P l. unfold lift_items. apply Forall_forall. intros m H. apply in_map_iff in H as (x & <- & _). exact I. Qed.

Lemma view_ok : forall P h x t l, closed P h -> okv P x -> h_view h x = Some (t, l) -> Forall (okm P) l.
Proof.
  intros P h [v|a] t l Hc Hx H; simpl in H.
  - destruct v; inversion H; subst; auto using lift_ok.
  - destruct (nth_error h a) as [c|] eqn:E; inversion H; subst. eapply frozen_items; eauto.
Qed.

Lemma optimize_ok : forall P h o h' o', closed P h -> oko P h o -> h_optimize h o = Some (h', o') ->
  exists P', extends P P' h h' (h_unord o) /\ oko P' h' o' /\ h_unord o' = h_unord o /\
    h_base o' = h_base o /\ h_snap o' = h_snap o.
Proof.
  intros P h o h' o' Hc Ho H. unfold h_optimize in H.
  destruct (h_unord o) as [u|] eqn:Eu; [|inversion H; subst; exists P; auto 8 using extends_refl].
  destruct (k_unord _ _ _ Ho u Eu) as (Nu & c & Ec & Fc). rewrite Ec in H.
  destruct (length (c_items c) =? 0) eqn:El; [inversion H; subst; exists P; auto 8 using extends_refl|].
  set (items := obj_sort (c_items c)) in *. set (h1 := h_write h u (mkCell (c_obj c) (c_cap c) items)) in *.
  assert (Fi : Forall (okm P) items) by (apply sort_forall; auto).
  assert (E1 : extends P P h h1 (Some u)) by (apply write_own; auto).
  set (made := match h_ord o with None => _ | Some _ => _ end) in *. destruct made as [new|] eqn:Em; [|discriminate].
  assert (Fn : Forall (okm P) (c_items new)).
  { subst made. destruct (h_ord o) as [a|] eqn:Ea.
    - pose proof (k_ord _ _ _ Ho a Ea) as Pa. destruct (nth_error h1 a) as [ca|] eqn:Eca; [|discriminate].
      destruct (c_obj ca); inversion Em; subst. apply happly_forall; auto.
      eapply frozen_items; [exact (e_closed _ _ _ _ _ E1)|exact Pa|exact Eca].
    - inversion Em; subst. cbn [c_items]. apply fold_forall; auto. intros; apply cpush_forall; auto. }
  cbn [h_alloc] in H. inversion H; subst h' o'. clear H.
  set (P' := fun a => P a \/ a = length h1).
  assert (E2 : extends P P' h1 (h1 ++ [new]) (Some u)) by (apply alloc_frozen; auto; apply E1).
  assert (Hu : u < length h) by (apply nth_error_Some; congruence).
  assert (Nu' : ~ P' u) by (intros [?|E]; [contradiction|unfold h1 in E; rewrite length_write in E; lia]).
  assert (E3 : extends P' P' (h1 ++ [new]) (h_write (h1 ++ [new]) u (mkCell (c_obj c) (c_cap c) [])) (Some u)) by
    (apply write_own; [apply E2|auto|constructor]).
  exists P'. split; [|split; [|auto]].
  - eapply extends_trans; [exact E1| |intros a Ha; left; exact Ha]. eapply extends_trans; [exact E2|exact E3|intros a Ha; left; exact Ha].
  - constructor; cbn [h_base h_snap h_ord h_unord].
    + intros b Hb. eapply okv_mono; [apply E2|]. eapply k_base; eauto.
    + eapply okv_mono; [apply E2|]. eapply k_snap; eauto.
    + intros a Ha. inversion Ha; subst. right. reflexivity.
    + intros a Ha. inversion Ha; subst. split; auto. exists (mkCell (c_obj c) (c_cap c) []).
      rewrite nth_write, Nat.eqb_refl, app_length. unfold h1. rewrite length_write.
      replace (a <? length h + length [new]) with true by (symmetry; apply Nat.ltb_lt; lia). split; auto. constructor.
Qed.

Definition good (P : nat -> Prop) (h : heap) (o : hobj) (h' : heap) (o' : hobj) (v : hval) : Prop :=
  exists P', extends P P' h h' (h_unord o) /\ oko P' h' o' /\ fresh_own h (h_unord o) (h_unord o') /\ okv P' v.

Lemma oko_fields : forall P h o b s, oko P h o -> (forall x, b = Some x -> okv P x) -> okv P s ->
  oko P h (mkHObj b s (h_ord o) (h_unord o)).
Proof. intros P h o b s [K1 K2 K3 K4] Hb Hs. constructor; auto. Qed.

Lemma set_ok : forall P h o m h' o', closed P h -> oko P h o -> okm P m -> h_set h o m = Some (h', o') ->
  good P h o h' o' (HV VUndef).
Proof.
  intros P h o m h' o' Hc Ho Hm H. unfold h_set in H.
  set (start := match h_unord o with None => _ | Some _ => _ end) in H.
  destruct start as [h0 u] eqn:Es.
  assert (exists c, extends P P h h0 (h_unord o) /\ fresh_own h (h_unord o) (Some u) /\ ~ P u /\
    nth_error h0 u = Some c /\ Forall (okm P) (c_items c)) as (c & E0 & F0 & Nu & Ec & Fc).
  { subst start. destruct (h_unord o) as [u'|] eqn:Eu; inversion Es; subst.
    - destruct (k_unord _ _ _ Ho u Eu) as (Nu & c & Ec & Fc). exists c. split; [apply extends_refl; auto|].
      split; [intros a; auto|]. auto.
    - exists (mkCell (Some false) 8 []). split; [apply alloc_own; auto|]. split; [intros a E; inversion E; auto|].
      split; [intros HP; apply (closed_in _ _ _ Hc) in HP; lia|].
      split; [rewrite nth_error_app2, Nat.sub_diag by auto; reflexivity|constructor]. }
  clear Es. clearbody start. rewrite Ec in H.
  destruct (cpush (c_cap c) (c_items c) m) as [ok items] eqn:Ep.
  assert (Hu : u < length h0) by (apply nth_error_Some; congruence).
  pose proof Ho as [K1 K2 K3 K4].
  destruct ok.
  - inversion H; subst h' o'. clear H.
    assert (Fi : Forall (okm P) items).
    { replace items with (snd (cpush (c_cap c) (c_items c) m)) by (rewrite Ep; reflexivity). apply cpush_forall; auto. }
    assert (E1 : extends P P h0 (h_write h0 u (mkCell (c_obj c) (c_cap c) items)) (Some u)) by (apply write_own; auto; apply E0).
    exists P. cbn [h_unord]. split; [eapply extends_trans; [exact E0|exact E1|exact F0]|]. split; [|split; [exact F0|exact I]].
    constructor; cbn [h_base h_snap h_ord h_unord]; auto.
    { exact I. }
    intros a Ha. inversion Ha; subst. split; auto. eexists. rewrite nth_write, Nat.eqb_refl.
    apply Nat.ltb_lt in Hu. rewrite Hu. split; [reflexivity|]. cbn [c_items].
    replace items with (snd (cpush (c_cap c) (c_items c) m)) by (rewrite Ep; reflexivity). apply cpush_forall; auto.
  - cbn [h_alloc] in H.
    set (n := length h0) in *. set (h1 := h0 ++ [mkCell (Some false) (length (c_items c) * 2) []]) in *.
    set (o1 := mkHObj (h_base o) (HV VUndef) (h_ord o) (Some u)) in *.
    assert (E1 : extends P P h0 h1 (Some u)) by (apply alloc_own; [apply E0|reflexivity]).
    assert (Ho1 : oko P h1 o1).
    { constructor; cbn [o1 h_base h_snap h_ord h_unord]; auto.
      { exact I. }
      intros a Ha. inversion Ha; subst. split; auto. exists c. split; auto.
      unfold h1. rewrite nth_error_app1; auto. }
    destruct (h_optimize h1 o1) as [[h2 o2]|] eqn:Eo; [|discriminate].
    destruct (optimize_ok _ _ _ _ _ (e_closed _ _ _ _ _ E1) Ho1 Eo) as (P2 & E2 & K & Hun & Hb & Hs).
    destruct (nth_error h2 n) as [c2|] eqn:Ec2; [|discriminate]. inversion H; subst h' o'. clear H.
    assert (Nn : ~ P2 n).
    { intros HP. destruct (e_new _ _ _ _ _ E2 n HP) as [HP'|HP'].
      - apply (closed_in _ _ _ (e_closed _ _ _ _ _ E0)) in HP'. lia.
      - unfold h1 in HP'. rewrite app_length in HP'. simpl in HP'. lia. }
    assert (Ecn : nth_error h2 n = nth_error h1 n).
    { apply (e_same _ _ _ _ _ E2).
      - unfold h1. rewrite app_length. simpl. lia.
      - cbn [o1 h_unord]. intros E. inversion E. lia. }
    assert (c2 = mkCell (Some false) (length (c_items c) * 2) []) as ->.
    { rewrite Ec2 in Ecn. unfold h1 in Ecn. rewrite nth_error_app2, Nat.sub_diag in Ecn by auto. inversion Ecn. reflexivity. }
    cbn [c_items c_cap c_obj].
    set (cn := mkCell (Some false) (length (c_items c) * 2) (snd (cpush (length (c_items c) * 2) [] m))).
    assert (E3 : extends P2 P2 h2 (h_write h2 n cn) (Some n)).
    { apply write_own; [apply E2|auto|]. cbn [cn c_items]. apply cpush_forall; [constructor|]. eapply okv_mono; [apply E2|exact Hm]. }
    assert (Ln : length h <= n) by (pose proof (e_len _ _ _ _ _ E0); unfold n; lia).
    exists P2. split; [|split; [|split; [|exact I]]].
    + eapply extends_trans; [| exact E3 |intros a Ha; inversion Ha; subst; auto].
      eapply extends_trans; [exact E0| |exact F0]. eapply extends_trans; [exact E1|exact E2|intros a Ha; left; exact Ha].
    + destruct K as [L1 L2 L3 L4]. constructor; cbn [h_base h_snap h_ord h_unord]; auto; [exact I|].
      intros a Ha. inversion Ha; subst. split; auto. exists cn. rewrite nth_write, Nat.eqb_refl.
      replace (n <? length h2) with true by (symmetry; apply Nat.ltb_lt; apply nth_error_Some; congruence).
      split; auto. cbn [cn c_items]. apply cpush_forall; [constructor|]. eapply okv_mono; [apply E2|exact Hm].
    + intros a Ha. cbn [h_unord] in Ha. inversion Ha; subst. auto.
Qed.

Lemma good_trans : forall P h o h1 o1 h2 o2 v P1,
  extends P P1 h h1 (h_unord o) -> fresh_own h (h_unord o) (h_unord o1) ->
  good P1 h1 o1 h2 o2 v -> good P h o h2 o2 v.
Proof.
  intros P h o h1 o1 h2 o2 v P1 E F (P2 & E2 & K & F2 & V). exists P2.
  split; [eapply extends_trans; eauto|]. split; auto. split; auto.
  intros a Ha. destruct (F2 a Ha) as [H|H]; [apply F; auto|]. right. pose proof (e_len _ _ _ _ _ E). lia.
Qed.

Lemma same_fresh : forall h own own', own' = own -> fresh_own h own own'.
Proof. intros h own own' -> a H. auto. Qed.

Lemma good_here : forall P h o o' v, closed P h -> oko P h o' -> h_unord o' = h_unord o -> okv P v -> good P h o h o' v.
Proof. intros. exists P. split; [apply extends_refl; auto|]. split; auto. split; auto. apply same_fresh. auto. Qed.

Lemma set_all_ok : forall l P h o h' o', closed P h -> oko P h o -> Forall (okm P) l ->
  h_set_all h o l = Some (h', o') -> good P h o h' o' (HV VUndef).
Proof.
  induction l as [|m l IH]; intros P h o h' o' Hc Ho Hl H; simpl in H.
  - inversion H; subst. apply good_here; auto. exact I.
  - inversion Hl; subst. destruct (h_set h o m) as [[h1 o1]|] eqn:E; [|discriminate].
    destruct (set_ok _ _ _ _ _ _ Hc Ho H2 E) as (P1 & E1 & K1 & F1 & _).
    eapply good_trans; eauto. apply IH; auto; [apply E1|]. eapply okm_mono; [apply E1|auto].
Qed.

Lemma find_loop_in : forall {A} (l : list (bytes * A)) k m n a b, find_loop n l k a b = Ok (Some m) -> In m l.
Proof.
  intros A l k m. induction n as [|n IH]; intros a b; cbn [find_loop]; [discriminate|].
  destruct (a <? b); [|discriminate]. destruct (nth_error l _) as [it|] eqn:E; [|discriminate].
  destruct (kcmp k (fst it)); [|apply IH|apply IH]. intros H. injection H as <-. eapply nth_error_In; eauto.
Qed.
Lemma find_in : forall {A} (l : list (bytes * A)) k m, find_member l k = Some m -> In m l.
Proof.
  intros A l k m. unfold find_member, findSorted. destruct (find_loop _ l k 0 _) as [r| |] eqn:E; intros H; inversion H; subst.
  eapply find_loop_in; eauto.
Qed.

Lemma member_ok : forall P h x k v, closed P h -> okv P x -> h_member h x k = Some v -> okv P v.
Proof.
  intros P h x k v Hc Hx H. unfold h_member in H. destruct (h_view h x) as [[t l]|] eqn:E; [|discriminate].
  pose proof (view_ok _ _ _ _ _ Hc Hx E) as F.
  destruct t as [[d|]|]; inversion H; subst; try exact I.
  destruct (find_member l k) as [m|] eqn:Ef; [|exact I].
  apply find_in in Ef.
  rewrite Forall_forall in F. apply F; auto.
Qed.

Lemma scan_in : forall l k m, h_scan_back l k = Some m -> In m l.
Proof. induction l as [|x l IH]; intros k m H; simpl in H; [discriminate|]. destruct (beqb (fst x) k); [inversion H; left; auto|right; eauto]. Qed.

Lemma base_member_ok : forall P h o k v, closed P h -> oko P h o -> h_base_member h o k = Some v -> okv P v.
Proof.
  intros P h o k v Hc Ho H. unfold h_base_member in H. destruct (h_base o) as [b|] eqn:E; [|discriminate].
  eapply member_ok; eauto. eapply k_base; eauto.
Qed.

Lemma read_ok : forall P h o k h' o' v, closed P h -> oko P h o -> h_read h o k = Some (h', o', v) ->
  good P h o h' o' v.
Proof.
  intros P h o k h' o' v Hc Ho H. unfold h_read in H.
  destruct (h_unord o) as [u|] eqn:Eu.
  2:{ destruct (h_base_member h o k) eqn:E; inversion H; subst. apply good_here; auto. eapply base_member_ok; eauto. }
  destruct (k_unord _ _ _ Ho u Eu) as (Nu & c & Ec & Fc). rewrite Ec in H.
  match type of H with match ?t with _ => _ end = _ => destruct t as [opt|]; [|discriminate] end.
  match type of H with match ?t with _ => _ end = _ => destruct t as [[h1 o1]|] eqn:Eo; [|discriminate] end.
  assert (exists P1, extends P P1 h h1 (h_unord o) /\ oko P1 h1 o1 /\ h_unord o1 = h_unord o) as (P1 & E1 & K1 & U1).
  { destruct opt.
    - destruct (optimize_ok _ _ _ _ _ Hc Ho Eo) as (P1 & A & B & C & _). exists P1. auto.
    - inversion Eo; subst. exists P. split; [apply extends_refl; auto|auto]. }
  assert (Hg : forall w, okv P1 w -> good P h o h1 o1 w).
  { intros w Hw. exists P1. split; auto. split; auto. split; auto. apply same_fresh; auto. }
  destruct (if opt then None else h_scan_back (rev (c_items c)) k) as [m|] eqn:Esc.
  - inversion H; subst. apply Hg. destruct opt; [discriminate|]. apply scan_in in Esc. apply in_rev in Esc.
    rewrite Forall_forall in Fc. eapply okv_mono; [apply E1|]. apply Fc; auto.
  - destruct (h_ord o1) as [a|] eqn:Ea.
    + destruct (nth_error h1 a) as [ca|] eqn:Eca; [|discriminate].
      destruct (find_member (c_items ca) k) as [m|] eqn:Ef.
      * inversion H; subst. apply Hg. apply find_in in Ef.
        pose proof (frozen_items _ _ _ _ (e_closed _ _ _ _ _ E1) (k_ord _ _ _ K1 a Ea) Eca) as F.
        rewrite Forall_forall in F. apply F; auto.
      * destruct (h_base_member h1 o1 k) eqn:Eb; inversion H; subst. apply Hg. eapply base_member_ok; eauto. apply E1.
    + destruct (h_base_member h1 o1 k) eqn:Eb; inversion H; subst. apply Hg. eapply base_member_ok; eauto. apply E1.
Qed.

Lemma apply_diff_ok : forall P h b d h' v own, closed P h -> okv P b -> okv P d ->
  h_apply_diff h b d = Some (h', v) -> exists P', extends P P' h h' own /\ okv P' v.
Proof.
  intros P h b d h' v own Hc Hb Hd H. unfold h_apply_diff in H.
  destruct (h_view h d) as [[td dl]|] eqn:Ed; [|discriminate]. pose proof (view_ok _ _ _ _ _ Hc Hd Ed) as Fd.
  destruct td as [[dd|]|]; try (inversion H; subst; exists P; split; [apply extends_refl; auto|auto]; fail).
  destruct (h_view h b) as [[tb bl]|] eqn:Eb; [|discriminate]. pose proof (view_ok _ _ _ _ _ Hc Hb Eb) as Fb.
  assert (Hn : forall cd l, Forall (okm P) l -> exists P', extends P P' h (h ++ [happly_cell cd l dl]) own /\ okv P' (HR (length h))).
  { intros cd l Hl. eexists. split; [apply alloc_frozen; auto|]; [|right; reflexivity].
    unfold happly_cell. cbn [c_items]. apply happly_forall; auto. }
  destruct tb as [[bd|]|]; cbn [h_alloc] in H; inversion H; subst; apply Hn; auto.
Qed.

Lemma commit_diff_ok : forall P h o h' o' v, closed P h -> oko P h o -> h_commit_diff h o = Some (h', o', v) ->
  good P h o h' o' v /\ h_unord o' = h_unord o.
Proof.
  intros P h o h' o' v Hc Ho H. unfold h_commit_diff in H.
  destruct (h_optimize h o) as [[h1 o1]|] eqn:E; [|discriminate]. inversion H; subst.
  destruct (optimize_ok _ _ _ _ _ Hc Ho E) as (P1 & A & B & C & _). split; auto.
  exists P1. split; auto. split; auto. split; [apply same_fresh; auto|].
  destruct (h_ord o') eqn:Ea; [|exact I]. exact (k_ord _ _ _ B _ Ea).
Qed.

Lemma commit_ok : forall P h o h' o' v, closed P h -> oko P h o -> h_commit h o = Some (h', o', v) ->
  good P h o h' o' v.
Proof.
  intros P h o h' o' v Hc Ho H. unfold h_commit in H.
  destruct (h_optimize h o) as [[h1 o1]|] eqn:E; [|discriminate].
  destruct (optimize_ok _ _ _ _ _ Hc Ho E) as (P1 & A & B & C & _).
  apply (good_trans P h o h1 o1 h' o' v P1 A); [apply same_fresh; auto|].
  destruct (h_ord o1) as [a|] eqn:Ea.
  - destruct (h_commit_diff h1 o1) as [[[h2 o2] d]|] eqn:Ed; [|discriminate].
    destruct (h_base o1) as [b|] eqn:Eb; [|discriminate].
    destruct (commit_diff_ok _ _ _ _ _ _ (e_closed _ _ _ _ _ A) B Ed) as ((P2 & A2 & B2 & F2 & V2) & U2).
    destruct (h_apply_diff h2 b d) as [[h3 w]|] eqn:Ep; [|discriminate]. inversion H; subst.
    destruct (apply_diff_ok P2 h2 b d h' v None (e_closed _ _ _ _ _ A2)
      (okv_mono _ _ _ (e_sub _ _ _ _ _ A2) (k_base _ _ _ B b Eb)) V2 Ep) as (P3 & A3 & V3).
    eapply good_trans; [exact A2|exact F2|]. exists P3. split; [apply extends_weak; exact A3|].
    split; [|split; [apply same_fresh; auto|auto]].
    eapply oko_other; [exact B2|exact A3|discriminate].
  - destruct (h_base o1) as [b|] eqn:Eb; [|discriminate]. inversion H; subst. apply good_here; auto; [apply A|].
    eapply k_base; eauto.
Qed.

Lemma iterate_ok : forall P h o h' o' v, closed P h -> oko P h o -> h_iterate h o = Some (h', o', v) ->
  good P h o h' o' v.
Proof.
  intros P h o h' o' v Hc Ho H. unfold h_iterate in H. destruct (hv_undef (h_snap o)).
  - destruct (h_commit h o) as [[[h1 o1] w]|] eqn:E; [|discriminate]. inversion H; subst.
    destruct (commit_ok _ _ _ _ _ _ Hc Ho E) as (P1 & A & B & F & V). exists P1. split; auto. split; auto.
    apply oko_fields; auto. exact (k_base _ _ _ B).
  - inversion H; subst. apply good_here; auto. exact (k_snap _ _ _ Ho).
Qed.

Lemma layers_ok : forall P h o h' u, closed P h -> oko P h o -> h_layers h (h_ord o) = Some (h', u) ->
  extends P P h h' None /\ (forall a, u = Some a -> length h <= a) /\
  (forall a, u = Some a -> ~ P a /\ exists c, nth_error h' a = Some c /\ Forall (okm P) (c_items c)).
Proof.
  intros P h o h' u Hc Ho H. unfold h_layers in H. destruct (h_ord o) as [a|].
  - destruct (nth_error h a) as [c|]; [|discriminate]. cbn [h_alloc] in H. inversion H; subst.
    split; [apply alloc_own; auto|]. split; [intros b E; inversion E; auto|].
    intros b E. inversion E; subst. split; [intros HP; apply (closed_in _ _ _ Hc) in HP; lia|].
    eexists. rewrite nth_error_app2, Nat.sub_diag by auto. split; [reflexivity|constructor].
  - inversion H; subst. split; [apply extends_refl; auto|]. split; discriminate.
Qed.

(** Copying, for the constructor and the assignment. *)
Lemma layered_ok : forall P h o h1 o1 h2 u snap, closed P h -> oko P h o -> okv P snap ->
  h_optimize h o = Some (h1, o1) -> h_layers h1 (h_ord o1) = Some (h2, u) ->
  exists P', extends P P' h h2 (h_unord o) /\ oko P' h2 o1 /\ h_unord o1 = h_unord o /\
    oko P' h2 (mkHObj (h_base o) snap (h_ord o1) u) /\ (forall a, u = Some a -> length h <= a).
Proof.
  intros P h o h1 o1 h2 u snap Hc Ho Hs E L.
  destruct (optimize_ok _ _ _ _ _ Hc Ho E) as (P1 & A & B & C & D & _).
  destruct (layers_ok _ _ _ _ _ (e_closed _ _ _ _ _ A) B L) as (A2 & F & G).
  exists P1. split; [|split; [|split; [auto|split]]].
  - eapply extends_trans; [exact A|exact A2|]. intros a Ha. discriminate.
  - eapply oko_other; [exact B|exact A2|discriminate].
  - constructor; cbn [h_base h_snap h_ord h_unord]; auto.
    + intros b Hb. eapply okv_mono; [apply A|]. exact (k_base _ _ _ Ho b Hb).
    + eapply okv_mono; [apply A|auto].
    + exact (k_ord _ _ _ B).
  - intros a Ha. pose proof (e_len _ _ _ _ _ A). specialize (F a Ha). lia.
Qed.

(** *** Programs *)
Record sinv (P : nat -> Prop) (s : hstate) : Prop := mkSinv {
  v_closed : closed P (hs_heap s);
  v_vals : Forall (okv P) (hs_vals s);
  v_objs : forall b o, nth_error (hs_objs s) b = Some o -> oko P (hs_heap s) o;
  v_apart : forall b c x y a, nth_error (hs_objs s) b = Some x -> nth_error (hs_objs s) c = Some y ->
    h_unord x = Some a -> h_unord y = Some a -> b = c
}.

Lemma nth_put : forall {A} (l : list A) i x j,
  nth_error (h_put l i x) j = if Nat.eqb j i then (if i <? length l then Some x else None) else nth_error l j.
Proof.
  intros A. induction l as [|y l IH]; intros i x j; simpl.
  - replace (nth_error (@nil A) j) with (@None A) by (destruct j; reflexivity).
    destruct (j =? i); auto; destruct i; reflexivity.
  - destruct i as [|i], j as [|j]; simpl; auto. rewrite IH. reflexivity.
Qed.
Lemma length_put : forall {A} (l : list A) i x, length (h_put l i x) = length l.
Proof. intros A. induction l; intros [|i] x; simpl; auto. Qed.
Lemma nth_put_inv : forall {A} (l : list A) i x j y, nth_error (h_put l i x) j = Some y ->
  (j = i /\ y = x) \/ (j <> i /\ nth_error l j = Some y).
Proof.
  intros A l i x j y H. rewrite nth_put in H. destruct (Nat.eqb_spec j i); [|auto].
  destruct (i <? length l); inversion H; auto.
Qed.

(** One builder changes. *)
Lemma one_changes : forall P s b o h' o' v, sinv P s -> nth_error (hs_objs s) b = Some o ->
  good P (hs_heap s) o h' o' v ->
  exists P', sinv P' (mkHState h' (h_put (hs_objs s) b o') (hs_vals s)) /\ okv P' v /\
  extends P P' (hs_heap s) h' (h_unord o).
Proof.
  intros P [h objs vals] b o h' o' v [V1 V2 V3 V4] Hb (P' & A & B & F & V). cbn [hs_heap hs_objs hs_vals] in *.
  exists P'. split; [|auto]. constructor; cbn [hs_heap hs_objs hs_vals].
  - apply A.
  - eapply Forall_impl; [|exact V2]. intros x. apply okv_mono. apply A.
  - intros c q Hq. apply nth_put_inv in Hq as [[-> ->]|[N Hq]]; auto.
    eapply oko_other; [eapply V3; eauto|exact A|]. intros a Ha E. apply N. eapply V4; eauto.
  - assert (Hx : forall c q a, c <> b -> nth_error objs c = Some q -> h_unord q = Some a -> h_unord o' = Some a -> False).
    { intros c q a N Hq Ha E. destruct (F a E) as [E'|E'].
      - apply N. eapply V4; eauto.
      - pose proof (unord_in _ _ _ _ (V3 _ _ Hq) Ha). lia. }
    intros c d x y a Hx1 Hy1 Ha Hb'. apply nth_put_inv in Hx1 as [[-> ->]|[N1 Hx1]];
      apply nth_put_inv in Hy1 as [[-> ->]|[N2 Hy1]]; auto.
    + exfalso. eapply Hx; eauto.
    + exfalso. eapply Hx; eauto.
    + eapply V4; eauto.
Qed.

Lemma nth_snoc_inv : forall {A} (l : list A) x j y, nth_error (l ++ [x]) j = Some y ->
  (j = length l /\ y = x) \/ (j < length l /\ nth_error l j = Some y).
Proof.
  intros A l x j y H. destruct (Nat.ltb_spec j (length l)).
  - rewrite nth_error_app1 in H by auto. auto.
  - rewrite nth_error_app2 in H by auto. destruct (j - length l) as [|n] eqn:E; simpl in H.
    + inversion H. left. split; auto. lia.
    + destruct n; discriminate.
Qed.

(** A builder is added. *)
Lemma one_more : forall P s h' n P' own, sinv P s -> extends P P' (hs_heap s) h' own ->
  (forall b o, nth_error (hs_objs s) b = Some o -> oko P' h' o) -> oko P' h' n ->
  (forall b o a, nth_error (hs_objs s) b = Some o -> h_unord o = Some a -> h_unord n = Some a -> False) ->
  sinv P' (mkHState h' (hs_objs s ++ [n]) (hs_vals s)).
Proof.
  intros P [h objs vals] h' n P' own [V1 V2 V3 V4] A Ho Hn Hd. cbn [hs_heap hs_objs hs_vals] in *.
  constructor; cbn [hs_heap hs_objs hs_vals].
  - apply A.
  - eapply Forall_impl; [|exact V2]. intros x. apply okv_mono. apply A.
  - intros c q Hq. apply nth_snoc_inv in Hq as [[-> ->]|[N Hq]]; eauto.
  - intros c d x y a Hx Hy Ha Hb. apply nth_snoc_inv in Hx as [[-> ->]|[N1 Hx]];
      apply nth_snoc_inv in Hy as [[-> ->]|[N2 Hy]]; auto.
    + exfalso. eapply Hd; eauto.
    + exfalso. eapply Hd; eauto.
    + eapply V4; eauto.
Qed.

Lemma one_value : forall P s v, sinv P s -> okv P v ->
  sinv P (mkHState (hs_heap s) (hs_objs s) (hs_vals s ++ [v])).
Proof. intros P s v [V1 V2 V3 V4] Hv. constructor; auto. cbn [hs_vals]. apply Forall_app. auto. Qed.

Lemma grown : forall P s P' h' , sinv P s -> extends P P' (hs_heap s) h' None ->
  sinv P' (mkHState h' (hs_objs s) (hs_vals s)).
Proof.
  intros P s P' h' [V1 V2 V3 V4] A. constructor; cbn [hs_heap hs_objs hs_vals]; auto.
  - apply A.
  - eapply Forall_impl; [|exact V2]. intros x. apply okv_mono. apply A.
  - intros b o Hb. eapply oko_other; [eauto|exact A|discriminate].
Qed.

Lemma pick_ok : forall {B} P vals (l : list (B * nat)) r, Forall (okv P) vals -> h_pick vals l = Some r ->
  Forall (fun m => okv P (snd m)) r.
Proof.
  intros B P vals. induction l as [|[k i] l IH]; intros r Hv H; simpl in H.
  - inversion H; subst. constructor.
  - destruct (nth_error vals i) as [v|] eqn:E; [|discriminate]. destruct (h_pick vals l); [|discriminate].
    inversion H; subst. constructor; auto. simpl. rewrite Forall_forall in Hv. apply Hv. eapply nth_error_In; eauto.
Qed.

Lemma filter_forall : forall {A} (Q : A -> Prop) f l, Forall Q l -> Forall Q (filter f l).
Proof. intros A Q f l H. rewrite Forall_forall in *. intros x Hx. apply filter_In in Hx as [Hx _]. auto. Qed.

(** What a step keeps. *)
Definition kept (P P' : nat -> Prop) (s s' : hstate) : Prop :=
  sinv P' s' /\ (forall a, P a -> P' a /\ nth_error (hs_heap s') a = nth_error (hs_heap s) a) /\
  (exists l, hs_vals s' = hs_vals s ++ l) /\
  (forall a c, nth_error (hs_heap s') a = Some c -> nth_error (hs_heap s) a = Some c \/ Forall (okm P') (c_items c)).

Lemma kept_ext : forall P P' s s' own, sinv P s -> sinv P' s' -> extends P P' (hs_heap s) (hs_heap s') own ->
  (forall a, own = Some a -> ~ P a) -> (exists l, hs_vals s' = hs_vals s ++ l) -> kept P P' s s'.
Proof.
  intros P P' s s' own V V' A N L. split; auto. split; [|split; [exact L|apply A]]. intros a Ha. split; [apply A; auto|].
  eapply extends_frozen; eauto. apply V.
Qed.
