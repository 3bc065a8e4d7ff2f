(** Proofs about JSON-RPC clients. *)
From Coq Require Import String Permutation.
From Verif Require Import Base ModelKeyed SpecKeyed ProofKeyed ModelValue ModelObject SpecObject ProofObject ModelArray ModelMerge SpecMerge ProofMerge ModelJwt ModelRpc SpecRpc ProofRpc ModelEq SpecEq ProofEq ModelHash.
Local Open Scope list_scope.

(** *** The context *)
Definition as_change (m : member) : member := if is_null (snd m) then (fst m, VUndef) else m.
Lemma update_changes : forall l o, fold_left (fun o m => if is_null (snd m) then obj_unset o (fst m) else obj_set o m) l o =
  fold_left obj_set (map as_change l) o.
Proof.
  induction l as [|m l IH]; intros o; [reflexivity|]. cbn [fold_left map]. rewrite IH. unfold as_change at 3.
  destruct (is_null (snd m)); reflexivity.
Qed.
Lemma last_binding_change : forall l k, last_binding k (map as_change l) =
  option_map (fun v => if is_null v then VUndef else v) (last_binding k l).
Proof.
  induction l as [|[k' v] l IH]; intros k; [reflexivity|]. cbn [map last_binding].
  replace (as_change (k', v)) with (k', if is_null v then VUndef else v) by (unfold as_change; cbn [fst snd]; destruct (is_null v); reflexivity).
  cbn [last_binding]. rewrite IH. destruct (last_binding k l); [reflexivity|]. cbn [option_map]. destruct (beqb k' k); reflexivity.
Qed.

Lemma context_update : forall ctx v, base_ok ctx -> is_diff ctx = false -> members_of v <> [] ->
  exists l, update_context ctx v = VObj false l /\ keys_increasing l /\
  forall k, binding k l =
    match last_binding k (members_of v) with
    | Some VNull | Some VUndef => None
    | Some x => Some x
    | None => binding k (obj_members ctx)
    end.
Proof.
  intros ctx v Hc Hd Hv. unfold update_context. rewrite update_changes.
  pose proof (set_all_inv (map as_change (members_of v)) _ _ (new_inv ctx Hc)) as Hi. unfold spec_add in Hi. cbn [s_base s_changes app] in Hi.
  pose proof (commit_content _ _ Hi) as H. unfold committed in H. cbn [s_base s_changes] in H.
  destruct (map as_change (members_of v)) as [|c0 c] eqn:Ec; [destruct (members_of v); [congruence|discriminate]|].
  destruct H as (l & -> & Hl & H). rewrite Hd in H |- *. exists l. split; [reflexivity|]. split; [exact Hl|]. intros k.
  unfold spec_get in H. cbn [s_base s_changes] in H. rewrite <- Ec in H.
  assert (HB : forall x, binding k (obj_members ctx) = Some x -> is_undef x = false).
  { intros x Hx. apply binding_in in Hx. destruct ctx; try contradiction. destruct Hc as (_ & Hc). cbn [is_diff] in Hd. eapply Hc; eauto. }
  assert (G : binding k l = match (match last_binding k (map as_change (members_of v)) with Some v0 => Some v0 | None => binding k (obj_members ctx) end) with
     | Some x => if is_undef x then None else Some x | None => None end).
  { destruct (binding k l) as [x|] eqn:E.
    - apply binding_in, H in E. destruct E as (E & [Eu|Eu]); [|discriminate]. rewrite E, Eu. reflexivity.
    - destruct (match last_binding k (map as_change (members_of v)) with Some v0 => Some v0 | None => binding k (obj_members ctx) end) as [x|] eqn:E2; [|reflexivity].
      destruct (is_undef x) eqn:Eu; [reflexivity|]. exfalso.
      assert (Hin : In (k, x) l) by (apply H; split; [exact E2|left; exact Eu]).
      apply (in_binding _ _ _ (keys_increasing_nodup _ Hl)) in Hin. congruence. }
  rewrite G, last_binding_change. destruct (last_binding k (members_of v)) as [x|]; cbn [option_map].
  - destruct x; reflexivity.
  - destruct (binding k (obj_members ctx)) as [x|] eqn:Eb; [|reflexivity]. rewrite (HB x eq_refl). reflexivity.
Qed.
Lemma context_same : forall ctx v, members_of v = [] -> update_context ctx v = ctx.
Proof. intros ctx v H. unfold update_context. rewrite H. reflexivity. Qed.

Section Client.
Variable same : value -> value -> bool.

Lemma take_some : forall l id h r, take_call same l id = Some (h, r) ->
  exists l1 k l2, l = l1 ++ (k, h) :: l2 /\ r = l1 ++ l2 /\ same k id = true /\ Forall (fun e => same (fst e) id = false) l1.
Proof.
  induction l as [|[k x] l IH]; intros id h r H; cbn [take_call fst snd] in H; [discriminate|].
  destruct (same k id) eqn:E.
  - injection H as <- <-. exists [], k, l. repeat split; auto.
  - destruct (take_call same l id) as [[h' r']|] eqn:Et; [|discriminate]. injection H as <- <-.
    destruct (IH _ _ _ Et) as (l1 & k1 & l2 & -> & -> & S & F). exists ((k, x) :: l1), k1, l2. repeat split; auto.
Qed.
Lemma take_none : forall l id, take_call same l id = None <-> Forall (fun e => same (fst e) id = false) l.
Proof.
  induction l as [|[k x] l IH]; intros id; cbn [take_call fst snd]; [split; constructor|].
  destruct (same k id) eqn:E.
  - split; [discriminate|]. intros H. inversion_clear H. cbn [fst] in H0. congruence.
  - destruct (take_call same l id) as [[h r]|] eqn:Et.
    + split; [discriminate|]. intros H. inversion_clear H. apply IH in H1. congruence.
    + split; [|reflexivity]. intros _. constructor; [exact E|]. apply IH. exact Et.
Qed.

Lemma given_app : forall l m, given_out (l ++ m) = given_out l ++ given_out m.
Proof. induction l as [|[k [h|]] l IH]; intros m; cbn [given_out app]; rewrite ?IH; reflexivity. Qed.
Lemma given_in : forall l h, In h (given_out l) <-> exists k, In (k, Some h) l.
Proof.
  induction l as [|[k [x|]] l IH]; intros h; cbn [given_out In].
  - split; [intros []|intros (k & [])].
  - rewrite IH. split.
    + intros [->|(k' & H)]; [exists k; auto|exists k'; auto].
    + intros (k' & [H|H]); [injection H as <- <-; auto|right; eauto].
  - rewrite IH. split; [intros (k' & H); eauto|intros (k' & [H|H]); [discriminate|eauto]].
Qed.

Variable good : value -> Prop.
Hypothesis OK : same_ok same good.

Lemma s_refl : forall a, good a -> same a a = true. Proof. apply OK. Qed.
Lemma s_sym : forall a b, good a -> good b -> same a b = true -> same b a = true. Proof. apply OK. Qed.
Lemma s_trans : forall a b c, good a -> good b -> good c -> same a b = true -> same b c = true -> same a c = true. Proof. apply OK. Qed.

(** Keys of a map: no two match. *)
Fixpoint apart (l : list (value * option nat)) : Prop :=
  match l with [] => True | e :: l' => good (fst e) /\ Forall (fun f => same (fst e) (fst f) = false) l' /\ apart l' end.
Lemma apart_good : forall l, apart l -> Forall (fun e => good (fst e)) l.
Proof. induction l as [|e l IH]; intros H; constructor; [apply H|]. apply IH. apply H. Qed.
Lemma apart_keys : forall l m, map fst l = map fst m -> apart l -> apart m.
Proof.
  induction l as [|e l IH]; intros [|f m] E H; try discriminate; [exact I|]. injection E as E1 E2.
  destruct H as (A & B & C). split; [rewrite <- E1; exact A|]. split; [|apply IH; auto].
  apply Forall_forall. intros g Hg. rewrite Forall_forall in B. rewrite <- E1.
  assert (Hk : In (fst g) (map fst l)) by (rewrite E2; apply in_map; exact Hg).
  apply in_map_iff in Hk. destruct Hk as (g' & Eg & Hg'). rewrite <- Eg. auto.
Qed.
Lemma apart_remove : forall l1 e l2, apart (l1 ++ e :: l2) -> apart (l1 ++ l2).
Proof.
  induction l1 as [|f l1 IH]; intros e l2 H; cbn [app apart] in *; [apply H|].
  destruct H as (A & B & C). split; [exact A|]. split; [|eapply IH; eauto].
  apply Forall_app in B. destruct B as (B1 & B2). inversion_clear B2. apply Forall_app. auto.
Qed.
Lemma apart_add : forall l id h, apart l -> good id -> Forall (fun e => same (fst e) id = false) l -> apart (l ++ [(id, h)]).
Proof.
  induction l as [|f l IH]; intros id h H G F; cbn [app apart] in *.
  - repeat split; auto.
  - destruct H as (A & B & C). inversion_clear F. split; [exact A|]. split; [|apply IH; auto].
    apply Forall_app. split; [exact B|]. constructor; [exact H|constructor].
Qed.
(** Matching keys belong to the same entry. *)
Lemma apart_unique : forall l e f, apart l -> In e l -> In f l -> same (fst e) (fst f) = true -> e = f.
Proof.
  induction l as [|g l IH]; intros e f H He Hf S; [destruct He|]. destruct H as (A & B & C).
  rewrite Forall_forall in B. pose proof (apart_good _ C) as G. rewrite Forall_forall in G.
  destruct He as [->|He], Hf as [->|Hf].
  - reflexivity.
  - rewrite (B f Hf) in S. discriminate.
  - apply s_sym in S; auto. rewrite (B e He) in S. discriminate.
  - apply IH; auto.
Qed.

(** *** The invariant *)
(** [ids] are the identifiers of the calls registered so far. *)
Definition cinv (ids : list value) (c : client) : Prop :=
  cl_next c = length ids /\ Forall good ids /\ apart (cl_calls c) /\
  Permutation (given_out (cl_calls c) ++ map fst (cl_done c)) (seq 0 (length ids)) /\
  Forall (fun e => exists h id, snd e = Some h /\ nth_error ids h = Some id /\ same id (fst e) = true) (cl_calls c).

Lemma cinv_good : forall ids c e, cinv ids c -> In e (cl_calls c) -> good (fst e).
Proof. intros ids c e (_ & _ & A & _) H. apply apart_good in A. rewrite Forall_forall in A. auto. Qed.
Lemma nth_good : forall ids h id, Forall good ids -> nth_error ids h = Some id -> good id.
Proof. intros ids h id H E. apply nth_error_In in E. rewrite Forall_forall in H. auto. Qed.

Lemma cinv_new : cinv [] client_new.
Proof. repeat split; auto; constructor. Qed.

Lemma cinv_cancel : forall ids c id r, cinv ids c -> good id ->
  (take_call same (cl_calls c) id = None /\ cancel_pending same c id r = Some (c, false)) \/
  exists k h l1 l2 id0, cl_calls c = l1 ++ (k, Some h) :: l2 /\ same k id = true /\
    nth_error ids h = Some id0 /\ same id0 id = true /\
    cancel_pending same c id r = Some (finish (set_calls c (l1 ++ l2)) h r, true) /\
    cinv ids (finish (set_calls c (l1 ++ l2)) h r).
Proof.
  intros ids c id r H G. unfold cancel_pending. destruct (take_call same (cl_calls c) id) as [[h0 rest]|] eqn:E; [right|left; auto].
  apply take_some in E. destruct E as (l1 & k & l2 & E & -> & S & F).
  destruct H as (N & GI & A & P & FF). assert (FF' := FF). rewrite Forall_forall in FF.
  destruct (FF (k, h0)) as (h & id0 & Eh & Ei & Si); [rewrite E; apply in_elt|]. cbn [fst snd] in *. subst h0.
  assert (Gk : good k) by (apply apart_good in A; rewrite E in A; rewrite Forall_forall in A; apply (A (k, Some h)); apply in_elt).
  assert (G0 : good id0) by (eapply nth_good; eauto).
  exists k, h, l1, l2, id0. split; [exact E|]. split; [exact S|]. split; [exact Ei|].
  split; [eapply s_trans with (b := k); eauto|]. split; [reflexivity|].
  split; [exact N|]. split; [exact GI|]. cbn [finish set_calls cl_calls cl_done]. rewrite E in A, P, FF'.
  split; [eapply apart_remove; eauto|]. split.
  - rewrite <- P. rewrite !given_app. cbn [given_out]. rewrite map_app. cbn [map fst].
    rewrite <- !app_assoc. apply Permutation_app_head. cbn [app].
    rewrite app_assoc. symmetry. apply Permutation_cons_append.
  - apply Forall_app in FF'. destruct FF' as (F1 & F2). inversion_clear F2. apply Forall_app. auto.
Qed.

(** Cancelling everything. *)
Lemma cancel_all_head : forall l c r, cl_calls c = l -> Forall (fun e => good (fst e)) l -> Forall (fun e => snd e <> None) l ->
  cancel_list same c (map fst l) r =
  Some (mkCl (cl_context c) [] (cl_counter c) (cl_next c) (cl_done c ++ map (fun h => (h, r)) (given_out l))).
Proof.
  induction l as [|[k h] l IH]; intros c r E G N.
  - cbn [map cancel_list given_out]. rewrite app_nil_r. destruct c; cbn in *. subst. reflexivity.
  - inversion_clear G. inversion_clear N. cbn [fst snd] in *. destruct h as [h|]; [|congruence].
    cbn [map fst cancel_list]. unfold cancel_pending. rewrite E. cbn [take_call fst snd]. rewrite (s_refl k) by assumption.
    rewrite (IH (finish (set_calls c l) h r) r); auto. cbn [finish set_calls cl_context cl_counter cl_next cl_done given_out map].
    rewrite <- app_assoc. reflexivity.
Qed.
Lemma cancel_all_spec : forall ids c r, cinv ids c ->
  cancel_all same c r = Some (mkCl (cl_context c) [] (cl_counter c) (cl_next c) (cl_done c ++ map (fun h => (h, r)) (given_out (cl_calls c)))).
Proof.
  intros ids c r (_ & _ & A & _ & F). apply cancel_all_head; [reflexivity|apply apart_good; exact A|].
  eapply Forall_impl; [|exact F]. intros e (h & id & E & _). congruence.
Qed.

(** Filtering. *)
Definition linked (old new : list (value * option nat)) : Prop :=
  (forall k, In (k, None) old -> exists e, In e new /\ same k (fst e) = true) /\
  (forall e, In e new -> exists k, In (k, None) old /\ same k (fst e) = true).

Lemma null_keys : forall l x, map fst (null_call same l x) = map fst l.
Proof. induction l as [|e l IH]; intros x; [reflexivity|]. cbn [null_call]. destruct (same (fst e) x); cbn [map fst]; [reflexivity|]. rewrite IH. reflexivity. Qed.
Lemma null_split : forall l1 k h l2 x, Forall (fun e => same (fst e) x = false) l1 -> same k x = true ->
  null_call same (l1 ++ (k, h) :: l2) x = l1 ++ (k, None) :: l2.
Proof.
  induction l1 as [|e l1 IH]; intros k h l2 x F S; cbn [app null_call fst]; [rewrite S; reflexivity|].
  inversion_clear F. rewrite H, IH; auto.
Qed.

Lemma filter_loop_spec : forall ids old new old' new',
  filter_loop same old new ids = (old', new') -> Forall good ids -> apart old -> apart new -> linked old new ->
  Forall (fun e => exists h, snd e = Some h) new ->
  map fst old' = map fst old /\ apart new' /\ linked old' new' /\
  Permutation (given_out old' ++ given_out new') (given_out old ++ given_out new) /\
  (forall e, In e old' -> snd e <> None -> In e old /\ forall x, In x ids -> same (fst e) x = false) /\
  (forall e, In e new' -> In e new \/ exists k h, In (k, Some h) old /\ snd e = Some h /\ same k (fst e) = true /\ In (fst e) ids) /\
  (forall e, In e new -> In e new').
Proof.
  induction ids as [|x ids IH]; intros old new old' new' H G A B L N; cbn [filter_loop] in H.
  - injection H as <- <-. repeat split; auto; try apply L. intros y [].
  - inversion_clear G. destruct (take_call same old x) as [[h rest]|] eqn:Et.
    + apply take_some in Et. destruct Et as (l1 & k & l2 & E & _ & S & F).
      assert (Gold := apart_good _ A). rewrite Forall_forall in Gold.
      assert (Gk : good k) by (apply (Gold (k, h)); rewrite E; apply in_elt).
      assert (Gnew := apart_good _ B). rewrite Forall_forall in Gnew.
      assert (En : null_call same old x = l1 ++ (k, None) :: l2) by (rewrite E; apply null_split; auto).
      assert (A1 : apart (null_call same old x)) by (eapply apart_keys; [symmetry; apply null_keys|exact A]).
      assert (Other : forall e, In e (null_call same old x) -> snd e <> None -> In e old /\ same (fst e) x = false).
      { intros e Hin Hne. rewrite En in Hin. assert (Hin' : In e old).
        { rewrite E. apply in_app_or in Hin. apply in_or_app. destruct Hin as [Hin|[<-|Hin]]; auto; [|right; right; exact Hin]. cbn [snd] in Hne. congruence. }
        split; [exact Hin'|]. destruct (same (fst e) x) eqn:Se; [|reflexivity]. exfalso.
        assert (Ee : e = (k, h)).
        { apply (apart_unique old); auto; [rewrite E; apply in_elt|]. cbn [fst]. eapply s_trans with (b := x); auto. apply s_sym; auto. }
        assert (NK : In (k, None) (null_call same old x)) by (rewrite En; apply in_elt).
        assert (e = (k, None)).
        { apply (apart_unique (null_call same old x)); auto; [rewrite En; exact Hin|]. rewrite Ee. cbn [fst]. apply s_refl; auto. }
        subst e. cbn [snd] in Hne. congruence. }
      destruct h as [h|].
      * (* moved *)
        assert (Tn : take_call same new x = None).
        { apply take_none. apply Forall_forall. intros e He. destruct (same (fst e) x) eqn:Se; [|reflexivity]. exfalso.
          destruct L as (_ & L2). destruct (L2 e He) as (k' & Hk' & Sk').
          assert (Gk' : good k') by (apply (Gold (k', None)); exact Hk').
          assert (Sx : same k' x = true) by (eapply s_trans with (b := fst e); auto).
          assert (Eq : (k', None) = (k, Some h)).
          { apply (apart_unique old); auto; [rewrite E; apply in_elt|]. cbn [fst]. eapply s_trans with (b := x); auto. apply s_sym; auto. }
          discriminate. }
        unfold emplace in H. rewrite Tn in H.
        assert (L1 : linked (null_call same old x) (new ++ [(x, Some h)])).
        { destruct L as (La & Lb). split.
          - intros k' Hk'. rewrite En in Hk'. apply in_app_or in Hk'. destruct Hk' as [Hk'|[Hk'|Hk']].
            + destruct (La k') as (e & He & Se); [rewrite E; apply in_or_app; auto|]. exists e. split; [apply in_or_app; auto|exact Se].
            + injection Hk' as <-. exists (x, Some h). split; [apply in_or_app; right; left; reflexivity|exact S].
            + destruct (La k') as (e & He & Se); [rewrite E; apply in_or_app; right; right; auto|]. exists e. split; [apply in_or_app; auto|exact Se].
          - intros e He. apply in_app_or in He. destruct He as [He|[<-|[]]].
            + destruct (Lb e He) as (k' & Hk' & Sk'). exists k'. split; [|exact Sk']. rewrite En. rewrite E in Hk'.
              apply in_app_or in Hk'. apply in_or_app. destruct Hk' as [Hk'|[Hk'|Hk']]; auto; [discriminate|right; right; auto].
            + exists k. split; [rewrite En; apply in_elt|exact S]. }
        assert (B1 : apart (new ++ [(x, Some h)])) by (apply apart_add; auto; apply take_none; exact Tn).
        assert (N1 : Forall (fun e => exists h, snd e = Some h) (new ++ [(x, Some h)])) by (apply Forall_app; split; [exact N|]; constructor; [exists h; reflexivity|constructor]).
        destruct (IH _ _ _ _ H H1 A1 B1 L1 N1) as (R1 & R2 & R3 & R4 & R5 & R6 & R7).
        split; [rewrite R1; apply null_keys|]. split; [exact R2|]. split; [exact R3|]. split.
        { eapply perm_trans; [exact R4|]. rewrite En, E, !given_app. cbn [given_out]. rewrite <- !app_assoc. apply Permutation_app_head.
          cbn [app]. rewrite app_assoc. symmetry. apply Permutation_cons_append. }
        split.
        { intros e He Hne. destruct (R5 e He Hne) as (Q1 & Q2). destruct (Other e Q1 Hne) as (O1 & O2). split; [exact O1|].
          intros y [<-|Hy]; auto. }
        split; [|intros e He; apply R7; apply in_or_app; auto].
        intros e He. destruct (R6 e He) as [Hn|(k' & h' & Hk' & Eh & Sk' & Hi)].
        { apply in_app_or in Hn. destruct Hn as [Hn|[<-|[]]]; [auto|]. right. exists k, h. cbn [fst snd]. split; [rewrite E; apply in_elt|]. split; [reflexivity|]. split; [exact S|left; reflexivity]. }
        { right. exists k', h'. split; [|split; [exact Eh|split; [exact Sk'|right; exact Hi]]]. apply (Other (k', Some h')); auto. discriminate. }
      * (* already moved *)
        assert (Tn : exists p, take_call same new x = Some p).
        { destruct (take_call same new x) as [p|] eqn:T; [eauto|]. exfalso. apply take_none in T. rewrite Forall_forall in T.
          destruct L as (La & _). destruct (La k) as (e & He & Se); [rewrite E; apply in_elt|].
          assert (X : same (fst e) x = true) by (eapply s_trans with (b := k); auto; apply s_sym; auto).
          rewrite (T e He) in X. discriminate. }
        destruct Tn as (p & Tn). unfold emplace in H. rewrite Tn in H.
        assert (Eo : null_call same old x = old) by (rewrite En, E; reflexivity). rewrite Eo in *.
        destruct (IH _ _ _ _ H H1 A B L N) as (R1 & R2 & R3 & R4 & R5 & R6 & R7).
        repeat (split; [assumption|]). split; [|split; [intros e He; destruct (R6 e He) as [Hn|(k' & h' & X1 & X2 & X3 & X4)]; [left; exact Hn|right; exists k', h'; cbn [In]; auto]|assumption]].
        intros e He Hne. destruct (R5 e He Hne) as (Q1 & Q2). split; [exact Q1|]. intros y [<-|Hy]; auto. apply Other; auto.
    + apply take_none in Et. rewrite Forall_forall in Et.
      destruct (IH _ _ _ _ H H1 A B L N) as (R1 & R2 & R3 & R4 & R5 & R6 & R7).
      repeat (split; [assumption|]). split; [|split; [intros e He; destruct (R6 e He) as [Hn|(k' & h' & X1 & X2 & X3 & X4)]; [left; exact Hn|right; exists k', h'; cbn [In]; auto]|assumption]].
      intros e He Hne. destruct (R5 e He Hne) as (Q1 & Q2). split; [exact Q1|]. intros y [<-|Hy]; auto.
Qed.

(** *** Histories *)
Lemma sent_app : forall l m, sent_ids (l ++ m) = sent_ids l ++ sent_ids m.
Proof. induction l as [|o l IH]; intros m; [reflexivity|]. destruct o; cbn [app sent_ids]; rewrite ?IH; reflexivity. Qed.
Lemma nth_app : forall {A} (l m : list A) n x, nth_error l n = Some x -> nth_error (l ++ m) n = Some x.
Proof. intros A l m n x H. rewrite nth_error_app1; [exact H|]. apply nth_error_Some. congruence. Qed.
Lemma ended_more : forall ops o h r, ended_by same ops h r -> ended_by same (ops ++ [o]) h r.
Proof.
  intros ops o h r (a & p & b & id & E & N & X). exists a, p, (b ++ [o]), id. split; [rewrite E, <- app_assoc; reflexivity|].
  rewrite sent_app. split; [apply nth_app; exact N|]. destruct X as [X|(X1 & X2 & X3 & h' & id' & X4 & X5 & X6)]; [auto|right].
  repeat split; auto. exists h', id'. repeat split; auto. apply nth_app; exact X5.
Qed.

Definition hist (ops : list cop) (c : client) : Prop :=
  cinv (sent_ids ops) c /\ (forall h r, In (h, r) (cl_done c) -> ended_by same ops h r).

Lemma finish_list : forall out c r, fold_left (fun d h => finish d h r) out c =
  mkCl (cl_context c) (cl_calls c) (cl_counter c) (cl_next c) (cl_done c ++ map (fun h => (h, r)) out).
Proof.
  induction out as [|h out IH]; intros c r; cbn [fold_left map]; [rewrite app_nil_r; destruct c; reflexivity|].
  rewrite IH. cbn [finish cl_context cl_calls cl_counter cl_next cl_done]. rewrite <- app_assoc. reflexivity.
Qed.

Lemma hist_cancel : forall ops o c c1 id r, hist ops c -> good id -> sent_ids [o] = [] ->
  cl_calls c1 = cl_calls c -> cl_done c1 = cl_done c -> cl_next c1 = cl_next c ->
  (forall id0, good id0 -> same id0 id = true -> ends same id0 r o) ->
  exists c' b, cancel_pending same c1 id r = Some (c', b) /\ hist (ops ++ [o]) c'.
Proof.
  intros ops o c c1 id r (I & D) G S0 E1 E2 E3 He.
  assert (I1 : cinv (sent_ids ops) c1) by (unfold cinv in *; rewrite E1, E2, E3; exact I).
  assert (Se : sent_ids (ops ++ [o]) = sent_ids ops) by (rewrite sent_app, S0, app_nil_r; reflexivity).
  destruct (cinv_cancel _ c1 id r I1 G) as [(_ & E)|(k & h & l1 & l2 & id0 & Ec & S & Ei & Si & E & I2)].
  - exists c1, false. split; [exact E|]. split; [rewrite Se; exact I1|]. rewrite E2. intros h r0 H. apply ended_more. auto.
  - exists (finish (set_calls c1 (l1 ++ l2)) h r), true. split; [exact E|]. split; [rewrite Se; exact I2|].
    cbn [finish set_calls cl_done]. rewrite E2. intros h0 r0 H. apply in_app_or in H. destruct H as [H|[H|[]]]; [apply ended_more; auto|].
    injection H as <- <-. exists ops, o, [], id0. split; [reflexivity|]. rewrite Se. split; [exact Ei|]. left. apply He; auto.
    eapply nth_good; [|exact Ei]. apply I.
Qed.

Lemma hist_step : forall ops o c, hist ops c -> Forall good (op_ids o) -> exists c', cstep same c o = Some c' /\ hist (ops ++ [o]) c'.
Proof.
  intros ops o c H G.
  assert (Plain : forall c', sent_ids [o] = [] -> cl_calls c' = cl_calls c -> cl_done c' = cl_done c -> cl_next c' = cl_next c -> hist (ops ++ [o]) c').
  { intros c' S0 E1 E2 E3. destruct H as (I & D). split.
    - rewrite sent_app, S0, app_nil_r. unfold cinv in *. rewrite E1, E2, E3. exact I.
    - rewrite E2. intros h r Hin. apply ended_more. auto. }
  destruct o as [| |id|id r|r|ids r|v|v|v]; cbn [cstep op_ids] in *.
  - eexists. split; [reflexivity|]. apply Plain; reflexivity.
  - eexists. split; [reflexivity|]. apply Plain; reflexivity.
  - inversion_clear G. eexists. split; [reflexivity|]. unfold add_pending, emplace. destruct H as (I & D).
    pose proof I as (N & GI & A & P & F).
    assert (Es : sent_ids (ops ++ [CSend id]) = sent_ids ops ++ [id]) by (rewrite sent_app; reflexivity).
    assert (GI' : Forall good (sent_ids ops ++ [id])) by (apply Forall_app; auto).
    assert (F' : Forall (fun e => exists h id0, snd e = Some h /\ nth_error (sent_ids ops ++ [id]) h = Some id0 /\ same id0 (fst e) = true) (cl_calls c)).
    { eapply Forall_impl; [|exact F]. intros e (h & id0 & X & Y & Z). exists h, id0. repeat split; auto. apply nth_app; auto. }
    assert (P' : seq 0 (length (sent_ids ops ++ [id])) = seq 0 (length (sent_ids ops)) ++ [cl_next c]).
    { rewrite app_length, Nat.add_comm. cbn [plus length]. rewrite seq_S, N. reflexivity. }
    assert (Nn : nth_error (sent_ids ops ++ [id]) (cl_next c) = Some id).
    { rewrite nth_error_app2 by lia. rewrite N, Nat.sub_diag. reflexivity. }
    destruct (take_call same (cl_calls c) id) as [[h rest]|] eqn:Et.
    + split.
      * rewrite Es. split; [cbn; rewrite app_length, N; cbn; lia|]. split; [exact GI'|]. split; [exact A|]. split; [|exact F'].
        cbn [finish cl_calls cl_done]. rewrite map_app, P', app_assoc, P. reflexivity.
      * cbn [finish cl_done]. intros h0 r0 Hin. apply in_app_or in Hin. destruct Hin as [Hin|[Hin|[]]]; [apply ended_more; auto|].
        injection Hin as <- <-. exists ops, (CSend id), [], id. split; [reflexivity|]. rewrite Es. split; [exact Nn|].
        right. split; [reflexivity|]. split; [reflexivity|]. split; [exact N|].
        apply take_some in Et. destruct Et as (l1 & k & l2 & E & _ & S & _). rewrite Forall_forall in F.
        destruct (F (k, h)) as (h' & id' & X & Y & Z); [rewrite E; apply in_elt|]. cbn [fst snd] in *. exists h', id'.
        split; [rewrite N; apply nth_error_Some; congruence|]. split; [apply nth_app; exact Y|].
        eapply s_trans with (b := k); auto; [eapply nth_good; [exact GI|exact Y]|]. apply apart_good in A. rewrite Forall_forall in A. apply (A (k, h)). rewrite E. apply in_elt.
    + split.
      * rewrite Es. split; [cbn; rewrite app_length, N; cbn; lia|]. split; [exact GI'|]. cbn [set_calls cl_calls cl_done].
        split; [apply apart_add; auto; apply take_none; exact Et|]. split.
        { rewrite given_app, P', <- P, <- !app_assoc. apply Permutation_app_head. cbn [given_out app]. apply Permutation_cons_append. }
        { apply Forall_app. split; [exact F'|]. constructor; [|constructor]. exists (cl_next c), id. cbn [fst snd]. repeat split; auto. apply s_refl; auto. }
      * cbn [set_calls cl_done]. intros h0 r0 Hin. apply ended_more. auto.
  - inversion_clear G. destruct (hist_cancel ops (CCancel id r) c c id r H H0) as (c' & b & E & X); auto.
    { intros id0 _ S. split; auto. }
    rewrite E. cbn [option_map fst]. eauto.
  - destruct H as (I & D). rewrite (cancel_all_spec _ _ r I). eexists. split; [reflexivity|]. pose proof I as (N & GI & A & P & F).
    assert (Es : sent_ids (ops ++ [CCancelAll r]) = sent_ids ops) by (rewrite sent_app, app_nil_r; reflexivity).
    split.
    + rewrite Es. split; [exact N|]. split; [exact GI|]. cbn [cl_calls cl_done given_out]. split; [exact Logic.I|]. split; [|constructor].
      rewrite map_app, map_map. cbn [fst]. rewrite map_id, <- P. cbn [app]. apply Permutation_app_comm.
    + cbn [cl_done]. intros h0 r0 Hin. apply in_app_or in Hin. destruct Hin as [Hin|Hin]; [apply ended_more; auto|].
      apply in_map_iff in Hin. destruct Hin as (h & Eh & Hin). injection Eh as <- <-.
      apply given_in in Hin. destruct Hin as (k & Hin). rewrite Forall_forall in F. destruct (F _ Hin) as (h' & id & X & Y & Z).
      cbn [snd] in X. injection X as <-. exists ops, (CCancelAll r), [], id. rewrite Es. split; [reflexivity|]. split; [exact Y|]. left. reflexivity.
  - unfold filter_pending. destruct (filter_loop same (cl_calls c) [] ids) as [old new] eqn:Ef. eexists. split; [reflexivity|].
    destruct H as (I & D). pose proof I as (N & GI & A & P & F).
    assert (Fs : forall k, ~ In (k, None) (cl_calls c)).
    { intros k Hin. rewrite Forall_forall in F. destruct (F _ Hin) as (h & id & X & _). discriminate. }
    destruct (filter_loop_spec _ _ _ _ _ Ef G A Logic.I) as (R1 & R2 & R3 & R4 & R5 & R6 & R7).
    { split; [intros k Hin; destruct (Fs k Hin)|intros e []]. }
    { constructor. }
    rewrite app_nil_r in R4. rewrite finish_list. cbn [set_calls cl_context cl_calls cl_counter cl_next cl_done].
    assert (Es : sent_ids (ops ++ [CFilter ids r]) = sent_ids ops) by (rewrite sent_app, app_nil_r; reflexivity).
    assert (Gk : Forall (fun e => good (fst e)) (cl_calls c)) by (apply apart_good; exact A). rewrite Forall_forall in Gk.
    assert (Gn : Forall (fun e => good (fst e)) new) by (apply apart_good; exact R2). rewrite Forall_forall in Gn.
    rewrite Forall_forall in F.
    split.
    + rewrite Es. split; [exact N|]. split; [exact GI|]. split; [exact R2|]. cbn [cl_done cl_calls]. split.
      * rewrite map_app, map_map. cbn [fst]. rewrite map_id, <- P, <- R4.
        rewrite Permutation_app_comm, <- app_assoc, Permutation_app_comm, (Permutation_app_comm (given_out old)). reflexivity.
      * apply Forall_forall. intros e He. destruct (R6 e He) as [[]|(k & h & Hk & Eh & Sk & _)].
        destruct (F _ Hk) as (h' & id & X & Y & Z). cbn [fst snd] in *. injection X as <-.
        exists h, id. repeat split; auto. eapply s_trans with (b := k); auto; [eapply nth_good; eauto|apply (Gk (k, Some h)); auto].
    + cbn [cl_done]. intros h0 r0 Hin. apply in_app_or in Hin. destruct Hin as [Hin|Hin]; [apply ended_more; auto|].
      apply in_map_iff in Hin. destruct Hin as (h & Eh & Hin). injection Eh as <- <-.
      apply given_in in Hin. destruct Hin as (k & Hin). destruct (R5 _ Hin) as (Q1 & Q2); [discriminate|].
      destruct (F _ Q1) as (h' & id & X & Y & Z). cbn [fst snd] in *. injection X as <-.
      exists ops, (CFilter ids r), [], id. rewrite Es. split; [reflexivity|]. split; [exact Y|]. left. split; [reflexivity|].
      intros x Hx. destruct (same id x) eqn:Sx; [|reflexivity]. exfalso.
      assert (G1 : good k) by (apply (Gk (k, Some h)); auto). assert (G2 : good id) by (eapply nth_good; eauto).
      assert (G3 : good x) by (rewrite Forall_forall in G; auto).
      assert (W : same k x = true) by (eapply s_trans with (b := id); auto; apply s_sym; auto).
      rewrite (Q2 x Hx) in W. discriminate.
  - unfold process_response. unfold is_response in G. destruct (negb (is_undef (value_member v k_id)) && negb (is_null (value_member v k_id))).
    + inversion_clear G. destruct (response_result v) as [r|] eqn:Er.
      * destruct (hist_cancel ops (CResponse v) c (set_context c (update_context (cl_context c) (value_member v k_context))) (value_member v k_id) r H H0) as (c' & b & E & X); auto.
        { intros id0 _ S. split; auto. }
        rewrite E. destruct b; cbn [option_map fst]; eauto.
      * eexists. split; [reflexivity|]. apply Plain; reflexivity.
    + eexists. split; [reflexivity|]. apply Plain; reflexivity.
  - eexists. split; [reflexivity|]. apply Plain; reflexivity.
  - eexists. split; [reflexivity|]. apply Plain; reflexivity.
Qed.

Lemma crun_app : forall l m c, crun same c (l ++ m) = match crun same c l with Some d => crun same d m | None => None end.
Proof. induction l as [|o l IH]; intros m c; [reflexivity|]. cbn [app crun]. destruct (cstep same c o); auto. Qed.

Lemma hist_run : forall ops, ids_ok good ops -> exists c, crun same client_new ops = Some c /\ hist ops c.
Proof.
  induction ops as [|o ops IH] using rev_ind; intros G.
  - exists client_new. split; [reflexivity|]. split; [exact cinv_new|]. intros h r [].
  - apply Forall_app in G. destruct G as (G1 & G2). inversion_clear G2. destruct (IH G1) as (c & E & Hc).
    destruct (hist_step ops o c Hc H) as (c' & Es & Hc'). exists c'. split; [|exact Hc'].
    rewrite crun_app, E. cbn [crun]. rewrite Es. reflexivity.
Qed.

Lemma client_once : forall ops, ids_ok good ops -> exists c, crun same client_new ops = Some c /\
  Permutation (given_out (cl_calls c) ++ map fst (cl_done c)) (seq 0 (length (sent_ids ops))) /\
  (forall h r, In (h, r) (cl_done c) -> ended_by same ops h r).
Proof.
  intros ops G. destruct (hist_run ops G) as (c & E & (I & D)). exists c. split; [exact E|]. split; [apply I|exact D].
Qed.

Lemma response_status : forall ops c v, ids_ok good ops -> crun same client_new ops = Some c ->
  (is_response v = true -> good (value_member v k_id)) ->
  if is_response v then
    match response_result v with
    | None => process_response same c v = Some (c, Request)
    | Some r =>
      (exists c' h id, process_response same c v = Some (c', Success) /\ In h (given_out (cl_calls c)) /\
         nth_error (sent_ids ops) h = Some id /\ same id (value_member v k_id) = true /\
         cl_done c' = cl_done c ++ [(h, r)] /\ Permutation (given_out (cl_calls c)) (h :: given_out (cl_calls c'))) \/
      (exists c', process_response same c v = Some (c', Unexpected) /\ cl_calls c' = cl_calls c /\ cl_done c' = cl_done c /\
         forall h id, In h (given_out (cl_calls c)) -> nth_error (sent_ids ops) h = Some id -> same id (value_member v k_id) = false)
    end
  else process_response same c v = Some (c, Notification).
Proof.
  intros ops c v G E Gi. destruct (hist_run ops G) as (c0 & E0 & (I & D)). rewrite E in E0. injection E0 as <-.
  unfold is_response, process_response in *. destruct (negb _ && negb _); [|reflexivity]. specialize (Gi eq_refl).
  destruct (response_result v) as [r|]; [|reflexivity].
  set (c1 := set_context c (update_context (cl_context c) (value_member v k_context))).
  assert (I1 : cinv (sent_ids ops) c1) by exact I.
  destruct (cinv_cancel _ c1 _ r I1 Gi) as [(T & Ec)|(k & h & l1 & l2 & id0 & El & S & Ei & Si & Ec & I2)]; rewrite Ec.
  - right. exists c1. split; [reflexivity|]. split; [reflexivity|]. split; [reflexivity|].
    intros h id Hin Hn. apply given_in in Hin. destruct Hin as (k & Hin).
    destruct (same id (value_member v k_id)) eqn:Sx; [|reflexivity]. exfalso.
    apply take_none in T. rewrite Forall_forall in T. specialize (T _ Hin). cbn [fst] in T.
    destruct I as (_ & GI & A & _ & F). rewrite Forall_forall in F. destruct (F _ Hin) as (h' & id' & X & Y & Z). cbn [fst snd] in *. injection X as <-.
    rewrite Hn in Y. injection Y as <-. apply apart_good in A. rewrite Forall_forall in A. pose proof (A _ Hin) as Gk. cbn [fst] in Gk.
    assert (G2 : good id) by (eapply nth_good; eauto).
    assert (W : same k (value_member v k_id) = true) by (eapply s_trans with (b := id); auto; apply s_sym; auto). congruence.
  - left. cbn [c1 set_context cl_calls] in El. eexists _, h, id0. split; [reflexivity|].
    split; [apply given_in; exists k; rewrite El; apply in_elt|]. split; [exact Ei|]. split; [exact Si|]. split; [reflexivity|].
    cbn [finish set_calls cl_calls]. rewrite El, !given_app. cbn [given_out]. symmetry. apply Permutation_middle.
Qed.

Lemma cancel_all_ends : forall ops c r, ids_ok good ops -> crun same client_new ops = Some c ->
  exists c', cancel_all same c r = Some c' /\ cl_calls c' = [] /\
    cl_done c' = cl_done c ++ map (fun h => (h, r)) (given_out (cl_calls c)).
Proof.
  intros ops c r G E. destruct (hist_run ops G) as (c0 & E0 & (I & D)). rewrite E in E0. injection E0 as <-.
  rewrite (cancel_all_spec _ _ r I). eexists. split; [reflexivity|]. split; reflexivity.
Qed.

Lemma filter_ends : forall ops c ids, ids_ok good ops -> crun same client_new ops = Some c -> Forall good ids ->
  let '(c', out) := filter_pending same c ids in
  Permutation (given_out (cl_calls c') ++ out) (given_out (cl_calls c)) /\ cl_done c' = cl_done c /\
  forall h id, In h (given_out (cl_calls c)) -> nth_error (sent_ids ops) h = Some id ->
    (In h out <-> forall x, In x ids -> same id x = false).
Proof.
  intros ops c ids G E Gi. destruct (hist_run ops G) as (c0 & E0 & (I & D)). rewrite E in E0. injection E0 as <-.
  unfold filter_pending. destruct (filter_loop same (cl_calls c) [] ids) as [old new] eqn:Ef.
  pose proof I as (N & GI & A & P & F). rewrite Forall_forall in F.
  destruct (filter_loop_spec _ _ _ _ _ Ef Gi A Logic.I) as (R1 & R2 & R3 & R4 & R5 & R6 & R7).
  { split; [|intros e []]. intros k Hin. destruct (F _ Hin) as (h & id & X & _). discriminate. }
  { constructor. }
  cbn [given_out] in R4. rewrite app_nil_r in R4. cbn [set_calls cl_calls cl_done].
  split; [rewrite Permutation_app_comm; exact R4|]. split; [reflexivity|].
  assert (Gk : Forall (fun e => good (fst e)) (cl_calls c)) by (apply apart_good; exact A). rewrite Forall_forall in Gk.
  rewrite Forall_forall in Gi. intros h id Hh Hn. assert (G2 : good id) by (eapply nth_good; eauto).
  split.
  - intros Ho x Hx. apply given_in in Ho. destruct Ho as (k & Ho). destruct (R5 _ Ho) as (Q1 & Q2); [discriminate|].
    destruct (F _ Q1) as (h' & id' & X & Y & Z). cbn [fst snd] in *. injection X as <-. rewrite Hn in Y. injection Y as <-.
    destruct (same id x) eqn:Sx; [|reflexivity]. exfalso.
    assert (G1 : good k) by (apply (Gk (k, Some h)); auto).
    assert (W : same k x = true) by (eapply s_trans with (b := id); auto; apply s_sym; auto). rewrite (Q2 x Hx) in W. discriminate.
  - intros Hx. apply (Permutation_in _ (Permutation_sym R4)) in Hh. apply in_app_or in Hh. destruct Hh as [Hh|Hh]; [exact Hh|exfalso].
    apply given_in in Hh. destruct Hh as (k & Hh). destruct (R6 _ Hh) as [[]|(k' & h' & Hk & Eh & Sk & Hi)]. cbn [fst snd] in *. injection Eh as <-.
    destruct (F _ Hk) as (h' & id' & X & Y & Z). cbn [fst snd] in *. injection X as <-. rewrite Hn in Y. injection Y as <-.
    assert (W : same id k = true) by (eapply s_trans with (b := k'); auto; apply (Gk (k', Some h)); auto).
    rewrite (Hx k Hi) in W. discriminate.
Qed.
Lemma cancel_ends : forall ops c id r, ids_ok good ops -> crun same client_new ops = Some c -> good id ->
  exists c' b, cancel_pending same c id r = Some (c', b) /\
  if b : bool then exists h id0, nth_error (sent_ids ops) h = Some id0 /\ same id0 id = true /\
      Permutation (given_out (cl_calls c)) (h :: given_out (cl_calls c')) /\ cl_done c' = cl_done c ++ [(h, r)]
  else c' = c /\ forall h id0, In h (given_out (cl_calls c)) -> nth_error (sent_ids ops) h = Some id0 -> same id0 id = false.
Proof.
  intros ops c id r G E Gi. destruct (hist_run ops G) as (c0 & E0 & (I & D)). rewrite E in E0. injection E0 as <-.
  destruct (cinv_cancel _ c _ r I Gi) as [(T & Ec)|(k & h & l1 & l2 & id0 & El & S & Ei & Si & Ec & I2)]; rewrite Ec.
  - exists c, false. split; [reflexivity|]. split; [reflexivity|].
    intros h id0 Hin Hn. apply given_in in Hin. destruct Hin as (k & Hin).
    destruct (same id0 id) eqn:Sx; [|reflexivity]. exfalso.
    apply take_none in T. rewrite Forall_forall in T. specialize (T _ Hin). cbn [fst] in T.
    destruct I as (_ & GI & A & _ & F). rewrite Forall_forall in F. destruct (F _ Hin) as (h' & id' & X & Y & Z). cbn [fst snd] in *. injection X as <-.
    rewrite Hn in Y. injection Y as <-. apply apart_good in A. rewrite Forall_forall in A. pose proof (A _ Hin) as Gk. cbn [fst] in Gk.
    assert (G2 : good id0) by (eapply nth_good; eauto).
    assert (W : same k id = true) by (eapply s_trans with (b := id0); auto; apply s_sym; auto). congruence.
  - eexists _, true. split; [reflexivity|]. exists h, id0. split; [exact Ei|]. split; [exact Si|]. split; [|reflexivity].
    cbn [finish set_calls cl_calls]. rewrite El, !given_app. cbn [given_out]. symmetry. apply Permutation_middle.
Qed.
End Client.

(** *** Identifiers *)
Local Open Scope Z_scope.
Lemma counter_run : forall same ops c c', crun same c ops = Some c' ->
  0 <= cl_counter c < 2 ^ 32 -> cl_counter c' = (cl_counter c + Z.of_nat (generated ops)) mod 2 ^ 32.
Proof.
  intros same. assert (KC : forall c id r d b, cancel_pending same c id r = Some (d, b) -> cl_counter d = cl_counter c).
  { intros c id r d b H. unfold cancel_pending in H. destruct (take_call same (cl_calls c) id) as [[[h|] l]|]; [|discriminate|]; injection H as <- <-; reflexivity. }
  assert (KL : forall ids c r d, cancel_list same c ids r = Some d -> cl_counter d = cl_counter c).
  { induction ids as [|x ids IH]; intros c r d H; cbn [cancel_list] in H; [injection H as <-; reflexivity|].
    destruct (cancel_pending same c x r) as [[c1 b]|] eqn:E; [|discriminate]. rewrite (IH _ _ _ H). eapply KC; eauto. }
  induction ops as [|o ops IH]; intros c c' H R; cbn [crun] in H.
  - injection H as <-. cbn [generated]. rewrite Z.add_0_r, Z.mod_small; auto.
  - destruct (cstep same c o) as [c1|] eqn:E; [|discriminate].
    assert (C1 : cl_counter c1 = (cl_counter c + Z.of_nat (generated [o])) mod 2 ^ 32).
    { assert (W : cl_counter c1 = cl_counter c -> generated [o] = 0%nat -> cl_counter c1 = (cl_counter c + Z.of_nat (generated [o])) mod 2 ^ 32).
      { intros -> ->. rewrite Z.add_0_r, Z.mod_small; auto. }
      destruct o; cbn [cstep] in E.
      - injection E as <-. reflexivity.
      - injection E as <-. cbn [gen_id fst cl_counter generated]. rewrite Zplus_mod_idemp_l. f_equal. lia.
      - injection E as <-. apply W; [|reflexivity]. unfold add_pending. destruct (emplace _ _ _ _); reflexivity.
      - destruct (cancel_pending same c id r) as [[d b]|] eqn:Ec; [|discriminate]. injection E as <-. apply W; [|reflexivity]. eapply KC; eauto.
      - apply W; [|reflexivity]. eapply KL; eauto.
      - apply W; [|reflexivity]. destruct (filter_pending same c ids) as [d out] eqn:Ef. injection E as <-. rewrite finish_list. cbn [cl_counter].
        unfold filter_pending in Ef. destruct (filter_loop _ _ _ _). injection Ef as <- <-. reflexivity.
      - apply W; [|reflexivity]. unfold process_response in E. destruct (negb _ && negb _); [|injection E as <-; reflexivity].
        destruct (response_result v); [|injection E as <-; reflexivity].
        destruct (cancel_pending same _ _ _) as [[d []]|] eqn:Ec; [| |discriminate]; injection E as <-; apply KC in Ec; exact Ec.
      - injection E as <-. apply W; reflexivity.
      - injection E as <-. apply W; reflexivity. }
    rewrite (IH _ _ H) by (rewrite C1; apply Z.mod_pos_bound; lia). rewrite C1, Zplus_mod_idemp_l. f_equal.
    assert (generated (o :: ops) = generated [o] + generated ops)%nat by (destruct o; reflexivity). lia.
Qed.
Lemma generated_id : forall same ops c, crun same client_new ops = Some c ->
  snd (gen_id c) = VNum (NUInt ((Z.of_nat (generated ops) + 1) mod 2 ^ 32)).
Proof.
  intros same ops c H. apply counter_run in H; [|cbn; lia]. unfold gen_id. cbn [snd]. rewrite H. cbn [client_new cl_counter].
  rewrite Z.add_0_l, Zplus_mod_idemp_l. reflexivity.
Qed.
Lemma fresh_ids : forall same ops1 ops2 c1 c2, crun same client_new ops1 = Some c1 -> crun same client_new (ops1 ++ ops2) = Some c2 ->
  (snd (gen_id c1) = snd (gen_id c2) <-> Z.of_nat (generated ops2) mod 2 ^ 32 = 0).
Proof.
  intros same ops1 ops2 c1 c2 H1 H2. rewrite (generated_id _ _ _ H1), (generated_id _ _ _ H2).
  assert (E : generated (ops1 ++ ops2) = (generated ops1 + generated ops2)%nat).
  { clear. induction ops1 as [|o l IH]; [reflexivity|]. destruct o; cbn [app generated plus]; rewrite ?IH; reflexivity. }
  rewrite E, Nat2Z.inj_add. set (a := Z.of_nat (generated ops1)). set (b := Z.of_nat (generated ops2)). split.
  - intros H. injection H as H. clearbody a b. Z.div_mod_to_equations. lia.
  - intros H. do 2 f_equal. replace (a + b + 1) with (a + 1 + b) by lia. rewrite <- (Zplus_mod_idemp_r b), H, Z.add_0_r. reflexivity.
Qed.

(** *** Client and server together *)
Local Close Scope Z_scope.
Local Open Scope list_scope.
Lemma parse_call : forall ver id name args ctx,
  parse_request (call_message ver id name args ctx) = call_request ver id name args ctx.
Proof. intros. unfold parse_request, call_message. rewrite !member_sets. destruct ver; reflexivity. Qed.
Lemma prepared_call : forall same c ver name args ctx,
  (let '(c', id, msg) := prepare c ver name args ctx in
   parse_request msg = call_request ver id name args ctx /\ id = snd (gen_id c) /\ cstep same c CPrepare = Some c') /\
  (let '(c', id, msg) := prepare_default c ver name args in
   parse_request msg = call_request ver id name args (match members_of (cl_context c) with [] => VUndef | _ => cl_context c end) /\
   id = snd (gen_id (fst (gen_id c))) /\ cstep same c CPrepareDefault = Some c').
Proof.
  intros same c ver name args ctx. split.
  - unfold prepare. cbn [gen_id]. split; [apply parse_call|split; reflexivity].
  - unfold prepare_default, prepare. cbn [gen_id]. split; [|split; reflexivity]. rewrite parse_call. unfold vsize. cbn [cl_context].
    destruct (members_of (cl_context c)); reflexivity.
Qed.

Lemma vsize_context : forall ctx, (if Nat.eqb (vsize ctx) 0 then VUndef else ctx) = sent_context ctx.
Proof. intros [| | | | |l|d l]; try reflexivity; destruct l; reflexivity. Qed.

Lemma result_reply : forall ver id res ctx, response_result (result_message ver id res ctx) =
  if is_undef res then match ver with Ver1 => Some (mkRR VNull true (sent_context ctx)) | Ver2 => None end
  else Some (mkRR res false (sent_context ctx)).
Proof.
  intros. unfold response_result, result_message. rewrite !member_sets, vsize_context.
  set (x := sent_context ctx). destruct ver, res; reflexivity.
Qed.
Lemma error_reply : forall ver id e, is_undef e = false -> is_null e = false ->
  response_result (error_message ver id e) = Some (mkRR e true VUndef).
Proof. intros. unfold response_result, error_message. rewrite !member_sets. destruct ver, e; try discriminate; reflexivity. Qed.
Lemma result_member_context : forall ver id r c, value_member (result_message ver id r c) k_context = sent_context c.
Proof. intros. unfold result_message. rewrite member_sets, vsize_context. set (x := sent_context c). destruct ver; reflexivity. Qed.

Lemma not_response : forall same c v, is_response v = false -> process_response same c v = Some (c, Notification).
Proof. intros same c v H. unfold is_response in H. unfold process_response. rewrite H. reflexivity. Qed.

Lemma run_silent : forall same log c, responses log = 0 -> crun same c (map CResponse (messages log)) = Some c.
Proof.
  intros same. induction log as [|e log IH]; intros c H; [reflexivity|]. unfold responses in H. cbn [filter] in H.
  destruct (delivers is_response e) eqn:E; [discriminate|]. destruct e as [[v| | | |]|a]; cbn [messages]; try (apply IH; exact H).
  cbn [map crun cstep]. cbn [delivers] in E. rewrite not_response by exact E. cbn [option_map fst]. apply IH. exact H.
Qed.

Lemma log_completes : forall same log id c h rest, responses log = 1 ->
  (forall v, In (Delivered (Message v)) log -> is_response v = true -> value_member v k_id = id) ->
  take_call same (cl_calls c) id = Some (Some h, rest) ->
  exists v c', In v (messages log) /\ is_response v = true /\ crun same c (map CResponse (messages log)) = Some c' /\
    match response_result v with
    | Some r => cl_calls c' = rest /\ cl_done c' = cl_done c ++ [(h, r)] /\
                cl_context c' = update_context (cl_context c) (value_member v k_context)
    | None => c' = c
    end.
Proof.
  intros same. induction log as [|e log IH]; intros id c h rest H Hid Ht; [discriminate|]. unfold responses in H. cbn [filter] in H.
  destruct (delivers is_response e) eqn:E.
  - destruct e as [[v| | | |]|a]; try discriminate. cbn [delivers] in E. exists v. cbn [messages map crun cstep].
    assert (Ei : value_member v k_id = id) by (apply Hid; [left; reflexivity|exact E]).
    cbn [length] in H. injection H as H.
    assert (P : process_response same c v = match response_result v with
       | Some r => Some (finish (set_calls (set_context c (update_context (cl_context c) (value_member v k_context))) rest) h r, Success)
       | None => Some (c, Request) end).
    { unfold process_response. unfold is_response in E. rewrite E. destruct (response_result v); [|reflexivity].
      unfold cancel_pending. cbn [set_context cl_calls]. rewrite Ei, Ht. reflexivity. }
    rewrite P. destruct (response_result v) as [r|]; cbn [option_map fst]; rewrite run_silent by exact H;
      eexists; (split; [left; reflexivity|]); (split; [exact E|]); (split; [reflexivity|]); auto.
  - assert (X : forall v, In (Delivered (Message v)) log -> is_response v = true -> value_member v k_id = id)
      by (intros v Hin; apply Hid; right; exact Hin).
    destruct (IH id c h rest H X Ht) as (v & c' & A & B & C & D).
    exists v, c'. destruct e as [[w| | | |]|a]; cbn [messages]; try (split; [exact A|auto]).
    split; [right; exact A|]. split; [exact B|]. split; [|exact D]. cbn [map crun cstep].
    cbn [delivers] in E. rewrite not_response by exact E. exact C.
Qed.

Lemma call_completes : forall same sv p ph pi ver id name args ctx flags later inner a s c h rest,
  has_id (call_request ver id name args ctx) = true -> no_result_formats (sv_format sv) ->
  server_ok calm sv -> forallb calm (fst p) = true -> forallb calm (fst ph) = true -> forallb calm (fst pi) = true ->
  server_ok no_init sv -> forallb no_init (fst p) = true -> forallb no_init (fst ph) = true -> forallb no_init (fst pi) = true ->
  forallb calm later = true -> forallb no_init later = true -> forallb calm inner = true ->
  exec sv p ph pi (create ByFunction (parse_request (call_message ver id name args ctx)) flags) = Some s ->
  take_call same (cl_calls c) id = Some (Some h, rest) ->
  exists v c', In v (messages (rs_log (rdrop (rrun s later) inner a))) /\ is_response v = true /\
    crun same c (map CResponse (messages (rs_log (rdrop (rrun s later) inner a)))) = Some c' /\
    match response_result v with
    | Some r => cl_calls c' = rest /\ cl_done c' = cl_done c ++ [(h, r)] /\
                cl_context c' = update_context (cl_context c) (value_member v k_context)
    | None => c' = c
    end.
Proof.
  intros same sv p ph pi ver id name args ctx flags later inner a s c h rest Hid F C1 C2 C3 C4 N1 N2 N3 N4 L1 L2 Hi H Ht.
  rewrite parse_call in H. apply log_completes with (id := id); auto.
  - exact (exec_one sv p ph pi _ flags later inner a s Hid F C1 C2 C3 C4 N1 N2 N3 N4 L1 L2 Hi H).
  - destruct (exec_history calm (fun c m d i b => eq_refl) sv p ph pi _ _ C1 C2 C3 C4 H) as (l & Hl & El).
    intros v. rewrite El. unfold rrun. rewrite <- fold_left_app. intros Hin Hr.
    rewrite (response_ids _ _ _ _ _ _ _ Hin Hr). reflexivity.
Qed.

Lemma wrap_valid : forall flags p, match wrap_params flags p with VArr _ | VObj _ _ | VUndef => true | _ => false end = true.
Proof. intros flags p. destruct p; cbn [wrap_params]; try reflexivity. destruct (has_flag flags f_named); reflexivity. Qed.
Definition seen_request (kind : rkind) (r : preq) (flags : Z) : preq := rs_req (create kind r flags).

Lemma exec_try_valid : forall sv p kind r flags, valid_request r ->
  exec_try sv p (create kind r flags) =
  let s := set_svc (create kind r flags) (Some (sv_format sv)) in
  let q := rs_req (create kind r flags) in
  match reg_find (sv_reg sv) (get_string (rq_method r)) with
  | Some m => (rrun s (fst (m q)), snd (m q))
  | None =>
    let not_found := fun t => let '(t', thrown) := rstep t (RErrorCode (-32601) (txt "Method not found") (rq_method r) (fst p) (snd p)) in
             (t', if thrown : bool then Raises None else Returns tt) in
    match sv_proxy sv with
    | None => not_found s
    | Some h =>
      match snd (h q) with
      | Returns true => (rrun s (fst (h q)), Returns tt)
      | Returns false => not_found (rrun s (fst (h q)))
      | Raises w => (rrun s (fst (h q)), Raises w)
      end
    end
  end.
Proof.
  intros sv p kind r flags ((e & n & Em) & Hc). unfold exec_try. cbn [rstep fst]. cbn [set_svc rs_req create rq_method rq_params rq_context].
  rewrite Em, wrap_valid.
  assert (Ec : match rq_context r with VUndef | VObj _ _ => true | _ => false end = true) by (destruct Hc as [->|(d & l & ->)]; reflexivity).
  rewrite Ec. cbn [andb]. destruct (reg_find _ _) as [m|].
  - destruct (m _) as [l x]. reflexivity.
  - destruct (sv_proxy sv) as [h|]; [|reflexivity]. destruct (h _) as [l x]. destruct x as [[|]|w]; reflexivity.
Qed.

Lemma exec_method : forall sv p ph pi kind r flags m l, valid_request r ->
  reg_find (sv_reg sv) (get_string (rq_method r)) = Some m ->
  m (rs_req (create kind r flags)) = (l, Returns tt) ->
  exec sv p ph pi (create kind r flags) = Some (rrun (create kind r flags) (RInit (sv_format sv) :: l)).
Proof.
  intros sv p ph pi kind r flags m l Hv Hm Hl. unfold exec. rewrite exec_try_valid by exact Hv. cbn zeta. rewrite Hm, Hl. reflexivity.
Qed.

Lemma plain_error : forall s f code message data e b, rs_kind s = ByFunction -> has_id (rs_req s) = true -> rs_sent s = false ->
  rs_svc s = Some f -> f code message data = Some e ->
  snd (rstep s (RErrorCode code message data [] (Accepts b))) = false /\
  rs_log (fst (rstep s (RErrorCode code message data [] (Accepts b)))) =
    rs_log s ++ exchanges [(error_message (req_version (rs_req s)) (rq_id (rs_req s)) e, Accepts b)] /\
  rs_sent (fst (rstep s (RErrorCode code message data [] (Accepts b)))) = true.
Proof.
  intros s f code message data e b K I S F E. rewrite rstep_eq. unfold send_error_code. rewrite F, E. unfold send_error. rewrite K, I, S.
  cbn [andb negb fst snd]. split; [reflexivity|]. split; [|reflexivity]. unfold delivered.
  cbn [post_send set_notify set_sent rs_log add_log rrun fold_left]. rewrite <- app_assoc. reflexivity.
Qed.

Lemma exec_unknown : forall sv ph pi r flags e b, valid_request r -> has_id r = true ->
  reg_find (sv_reg sv) (get_string (rq_method r)) = None -> sv_proxy sv = None ->
  sv_format sv (-32601)%Z (txt "Method not found") (rq_method r) = Some e ->
  exists s, exec sv ([], Accepts b) ph pi (create ByFunction r flags) = Some s /\ rs_sent s = true /\
    rs_log s = exchanges [(error_message (req_version r) (rq_id r) e, Accepts b)].
Proof.
  intros sv ph pi r flags e b Hv Hi Hm Hp He. unfold exec. rewrite exec_try_valid by exact Hv. cbn zeta. rewrite Hm, Hp. cbn [fst snd].
  destruct (plain_error (set_svc (create ByFunction r flags) (Some (sv_format sv))) (sv_format sv) _ _ _ e b eq_refl Hi eq_refl eq_refl He) as (A & B & C).
  destruct (rstep _ _) as [t thrown]. cbn [fst snd] in *. subst thrown. exists t. repeat split; auto.
Qed.

Lemma exec_invalid : forall sv ph pi r flags e b, ~ valid_request r -> has_id r = true ->
  sv_format sv (-32600)%Z (txt "Invalid request") VUndef = Some e ->
  exists s, exec sv ([], Accepts b) ph pi (create ByFunction r flags) = Some s /\ rs_sent s = true /\
    rs_log s = exchanges [(error_message (req_version r) (rq_id r) e, Accepts b)].
Proof.
  intros sv ph pi r flags e b Hv Hi He. unfold exec, exec_try. rewrite (rstep_eq _ (RInit _)). cbn [fst snd]. cbn [set_svc rs_req create rq_method rq_params rq_context].
  rewrite wrap_valid.
  match goal with |- context[if ?v then _ else _] => assert (Ev : v = false) end.
  { destruct (rq_method r) eqn:Em; try reflexivity. destruct (rq_context r) eqn:Ec; try reflexivity; exfalso; apply Hv; split; rewrite ?Em, ?Ec; eauto. }
  rewrite Ev. cbn [fst snd].
  destruct (plain_error (set_svc (create ByFunction r flags) (Some (sv_format sv))) (sv_format sv) _ _ _ e b eq_refl Hi eq_refl eq_refl He) as (A & B & C).
  cbn [set_svc create rs_kind rs_sent rs_errsent rs_notify rs_flags rs_log] in *.
  destruct (rstep _ _) as [t thrown]. cbn [fst snd] in *. subst thrown. exists t. repeat split; auto.
Qed.

Lemma exec_raises : forall sv p pi r flags m l what e b, valid_request r -> has_id r = true ->
  reg_find (sv_reg sv) (get_string (rq_method r)) = Some m -> sv_handler sv = None ->
  m (rs_req (create ByFunction r flags)) = (l, Raises what) -> forallb no_init l = true ->
  sv_format sv (-32603)%Z (txt "Internal error") (match what with Some w => VStr None w | None => VUndef end) = Some e ->
  let t := rrun (create ByFunction r flags) (RInit (sv_format sv) :: l) in
  exists s, exec sv p ([], Accepts b) pi (create ByFunction r flags) = Some s /\
    if rs_sent t then s = t
    else rs_sent s = true /\ rs_log s = rs_log t ++ exchanges [(error_message (req_version r) (rq_id r) e, Accepts b)].
Proof.
  intros sv p pi r flags m l what e b Hv Hi Hm Hh Hl Hn He t. unfold exec. rewrite exec_try_valid by exact Hv. cbn zeta. rewrite Hm, Hl, Hh.
  cbn [fst snd]. change (rrun (set_svc (create ByFunction r flags) (Some (sv_format sv))) l) with t.
  pose proof (run_fields (RInit (sv_format sv) :: l) (create ByFunction r flags)) as RF. fold t in RF.
  pose proof (kf_version _ _ RF) as Ev. pose proof (kf_has_id _ _ RF) as Ei. destruct RF as (Ek & Eid & _).
  cbn [create rs_kind rs_req] in Ek, Ev, Ei, Eid.
  assert (Es : rs_svc t = Some (sv_format sv)) by (unfold t; rewrite rrun_cons, svc_run by exact Hn; reflexivity).
  destruct (rs_sent t) eqn:Et.
  - exists t. split; [|reflexivity]. unfold internal_error. rewrite rstep_eq. unfold send_error_code. rewrite Es, He. unfold send_error.
    rewrite Ek, Et. rewrite Bool.andb_false_r. reflexivity.
  - unfold internal_error. cbn [fst snd].
    destruct (plain_error t (sv_format sv) _ _ _ e b Ek (eq_trans Ei Hi) Et Es He) as (A & B & C).
    destruct (rstep t _) as [u thrown]. cbn [fst snd] in *. subst thrown. exists u. split; [reflexivity|]. split; [exact C|].
    rewrite B, Ev, Eid. reflexivity.
Qed.

(** *** The identifiers of the map *)
Lemma same_value_ok : forall L, same_ok (same_value L) (fun v => exact L v /\ proper L v).
Proof.
  intros L. unfold same_value. repeat split.
  - intros a (_ & P). rewrite Z.eqb_refl. apply veq_refl. exact P.
  - intros a b _ _ H. apply andb_prop in H. destruct H as (H1 & H2). rewrite Z.eqb_sym, H1, veq_sym. exact H2.
  - intros a b c (E1 & P1) (E2 & P2) (E3 & _) H H'. apply andb_prop in H, H'. destruct H as (H1 & H2), H' as (H3 & H4).
    apply Z.eqb_eq in H1, H3. rewrite H1, H3, Z.eqb_refl. eapply veq_trans; [exact E1|exact E2|exact E3|exact P1|exact P2|exact H2|exact H4].
Qed.

(** *** Contexts over a history *)
Lemma update_plain : forall ctx v, plain_context ctx -> plain_context (update_context ctx v).
Proof.
  intros ctx v (H & D). destruct (members_of v) as [|m ms] eqn:E.
  - rewrite context_same by exact E. split; assumption.
  - destruct (context_update ctx v H D) as (l & -> & Hl & B); [congruence|]. split; [|reflexivity]. split; [exact Hl|].
    intros _ k x Hin. apply (in_binding _ _ _ (keys_increasing_nodup _ Hl)) in Hin. rewrite B in Hin.
    destruct (last_binding k (members_of v)) as [y|].
    + destruct y; try discriminate; injection Hin as <-; reflexivity.
    + apply binding_in in Hin. destruct ctx; try contradiction. destruct H as (_ & H). cbn in D. eapply H; eauto.
Qed.
Lemma contexts : forall same ops c, (forall v, In (CSetContext v) ops -> plain_context v) ->
  crun same client_new ops = Some c -> plain_context (cl_context c).
Proof.
  intros same ops c H. assert (G : plain_context (cl_context client_new)) by (split; [exact I|reflexivity]).
  revert H G. generalize client_new as c0.
  assert (KC : forall c id r d b, cancel_pending same c id r = Some (d, b) -> cl_context d = cl_context c).
  { intros c0 id r d b H. unfold cancel_pending in H. destruct (take_call same (cl_calls c0) id) as [[[h|] l]|]; [|discriminate|]; injection H as <- <-; reflexivity. }
  assert (KL : forall ids c r d, cancel_list same c ids r = Some d -> cl_context d = cl_context c).
  { induction ids as [|x ids IH]; intros c0 r d H; cbn [cancel_list] in H; [injection H as <-; reflexivity|].
    destruct (cancel_pending same c0 x r) as [[c1 b]|] eqn:E; [|discriminate]. rewrite (IH _ _ _ H). eapply KC; eauto. }
  induction ops as [|o ops IH]; intros c0 H G E; cbn [crun] in E; [injection E as <-; exact G|].
  destruct (cstep same c0 o) as [c1|] eqn:Es; [|discriminate]. apply (IH c1); auto; [intros v Hv; apply H; right; exact Hv|].
  destruct o; cbn [cstep] in Es.
  - injection Es as <-. exact G.
  - injection Es as <-. exact G.
  - injection Es as <-. unfold add_pending. destruct (emplace _ _ _ _); exact G.
  - destruct (cancel_pending same c0 id r) as [[d b]|] eqn:Ec; [|discriminate]. injection Es as <-. cbn [fst]. rewrite (KC _ _ _ _ _ Ec). exact G.
  - rewrite (KL _ _ _ _ Es). exact G.
  - destruct (filter_pending same c0 ids) as [d out] eqn:Ef. injection Es as <-. rewrite finish_list. cbn [cl_context].
    unfold filter_pending in Ef. destruct (filter_loop _ _ _ _). injection Ef as <- <-. exact G.
  - unfold process_response in Es. destruct (negb _ && negb _); [|injection Es as <-; exact G].
    destruct (response_result v); [|injection Es as <-; exact G].
    destruct (cancel_pending same _ _ _) as [[d []]|] eqn:Ec; [| |discriminate]; injection Es as <-; cbn [fst]; rewrite (KC _ _ _ _ _ Ec); apply update_plain; exact G.
  - injection Es as <-. apply H. left. reflexivity.
  - injection Es as <-. apply update_plain. exact G.
Qed.

(** *** Parameters *)
Lemma has_named : forall flags, has_flag flags f_named = Z.testbit flags 2.
Proof.
  intros flags. unfold has_flag, f_named. destruct (Z.testbit flags 2) eqn:E.
  - destruct (Z.eqb_spec (Z.land flags 4) 0) as [H|H]; [|reflexivity].
    assert (K : Z.testbit (Z.land flags 4) 2 = true) by (rewrite Z.land_spec, E; reflexivity). rewrite H in K. discriminate.
  - destruct (Z.eqb_spec (Z.land flags 4) 0) as [H|H]; [reflexivity|]. destruct H. apply Z.bits_inj'. intros n Hn. rewrite Z.land_spec, Z.bits_0.
    destruct (Z.eq_dec n 2) as [->|D]; [rewrite E; reflexivity|]. change 4%Z with (2 ^ 2)%Z. rewrite Z.pow2_bits_false by congruence. apply andb_false_r.
Qed.
Lemma params_seen : forall r flags,
  let p := rq_params r in let q := rq_params (rs_req (create ByFunction r flags)) in
  (forall l, p = VArr l -> q = VArr l) /\
  (p = VUndef -> q = VArr []) /\
  (forall d l, p = VObj d l -> q = if Z.testbit flags 2 then p else VArr [([], p)]) /\
  (p <> VUndef -> (forall l, p <> VArr l) -> (forall d l, p <> VObj d l) -> q = VArr [([], p)]).
Proof.
  intros r flags p q. assert (Q : q = wrap_params flags p) by reflexivity. clearbody q. clearbody p. subst q.
  repeat split.
  - intros l ->. reflexivity.
  - intros ->. reflexivity.
  - intros d l ->. cbn [wrap_params]. rewrite has_named. reflexivity.
  - intros H1 H2 H3. destruct p; try reflexivity; [congruence|destruct (H2 l eq_refl)|destruct (H3 diff ltac:(assumption) eq_refl)].
Qed.
