(** Proofs for SpecReqLife. *)
From Coq Require Import List Bool Arith Lia.
From Verif Require Import Base ModelRpc ModelReqLife SpecReqLife.
Import ListNotations.

Lemma qop_ind' : forall P : qop -> Prop, (forall o, Forall P (inner_of o) -> P o) -> forall o, P o.
Proof.
  intros P H. fix IH 1. intros o. apply H.
  assert (L : forall l, Forall P l) by (fix IHl 1; intros [|x l]; [constructor|constructor; [apply IH|apply IHl]]).
  destruct o; cbn [inner_of]; try constructor; apply L.
Qed.
Lemma qstep_eq : forall o s, qstep o s =
  match o with
  | QEnd k => QOk (q_end s k)
  | QCopy => if has_handle s then if is_freed s then QBad UseFreed else QOk (set_user s (S (q_user s)) (S (q_count s))) else QOk s
  | QExec k => if has_handle s && negb (ended s k) then if is_freed s then QBad UseFreed else QOk (q_init s k) else QOk s
  | QResult inner => if has_handle s then if is_freed s then QBad UseFreed else q_result (qrun inner) s else QOk s
  | QError inner => if has_handle s then if is_freed s then QBad UseFreed else q_error (qrun inner) s else QOk s
  | QDrop inner => if Nat.eqb (q_user s) 0 then QOk s else if is_freed s then QBad UseFreed else q_drop (qrun inner) s
  end.
Proof. intros [|l|k|l|l|k] s; reflexivity. Qed.

(** The count. *)
Definition fine (s : qstate) : Prop :=
  match q_mem s with
  | Live => q_count s = q_user s + q_temp s /\ 0 < q_count s
  | Dying => q_count s = S (q_user s + q_temp s)
  | Freed => q_temp s = 0 /\ (q_svc s = None \/ q_sent s = true \/ (q_kind s = ByFunction /\ q_id s = false))
  end.
(** What stays: the calls going on; during one the object stays. *)
Definition same_frame (s s' : qstate) : Prop :=
  q_temp s' = q_temp s /\ (0 < q_temp s -> q_mem s' = q_mem s) /\ q_kind s' = q_kind s /\ q_id s' = q_id s /\ (q_sent s = true -> q_sent s' = true) /\
  (q_mem s' = Dying -> q_mem s = Dying).
Definition keeps_fine (f : qstate -> qres) : Prop := forall s s', fine s -> f s = QOk s' -> fine s' /\ same_frame s s'.

Lemma frame_refl : forall s, same_frame s s.
Proof. intros s. repeat split; auto. Qed.
Lemma frame_trans : forall a b c, same_frame a b -> same_frame b c -> same_frame a c.
Proof. intros a b c (A1 & A2 & A3 & A4 & A5 & A6) (B1 & B2 & B3 & B4 & B5 & B6). repeat split; try congruence; auto. intros H. rewrite B2 by congruence. auto. Qed.

Ltac opened s := destruct s as [?qk ?qi ?qu ?qt ?qc ?qm ?qv ?qs ?qe].
Ltac fin := repeat split; intros; auto; try lia; try discriminate; try tauto; try congruence.
Ltac cases := subst; try match goal with m : mem |- _ => destruct m end.
Ltac red_q := cbv [fine same_frame set_user set_temp set_mem q_mark q_init q_end leave has_handle is_freed] in *; cbn [q_kind q_id q_user q_temp q_count q_mem q_svc q_sent q_ended] in *.

Lemma enter_fine : forall inner s s1, keeps_fine inner -> fine s -> q_mem s <> Freed -> enter inner s = QOk s1 ->
  fine s1 /\ q_temp s1 = S (q_temp s) /\ q_mem s1 = q_mem s /\ q_kind s1 = q_kind s /\ q_id s1 = q_id s /\ (q_sent s = true -> q_sent s1 = true).
Proof.
  intros inner s s1 K F N E. unfold enter in E.
  assert (F' : fine (set_temp s (S (q_temp s)) (S (q_count s)))) by (opened s; red_q; destruct qm; try lia; congruence).
  destruct (K _ _ F' E) as (F1 & A1 & A2 & A3 & A4 & A5 & A6). cbn [set_temp q_temp q_mem q_kind q_id q_sent] in *. repeat split; auto. apply A2. lia.
Qed.
Lemma result_fine : forall inner, keeps_fine inner -> forall s s', q_mem s <> Freed -> fine s -> q_result inner s = QOk s' -> fine s' /\ same_frame s s'.
Proof.
  intros inner K s s' N F H. unfold q_result in H. destruct (q_kind s) eqn:Ek.
  - destruct (q_id s && negb (q_sent s)); [|injection H as <-; split; [exact F|apply frame_refl]].
    destruct (enter inner s) as [s1|] eqn:E; [|discriminate]. destruct (enter_fine inner s s1 K F N E) as (F1 & T & M & Kd & Id & Se).
    cbn zeta in H. destruct (Nat.eqb (q_count (leave s1)) 0) eqn:Z; [discriminate|]. injection H as <-. apply Nat.eqb_neq in Z. clear E K.
    opened s. opened s1. red_q. cases; try congruence; fin.
  - destruct (enter inner s) as [s1|] eqn:E; [|discriminate]. destruct (enter_fine inner s s1 K F N E) as (F1 & T & M & Kd & Id & Se).
    cbn zeta in H. injection H as <-. clear E K.
    destruct (Nat.eqb (pred (q_count s1)) 0) eqn:Z; [apply Nat.eqb_eq in Z|apply Nat.eqb_neq in Z]; opened s; opened s1; red_q; cases; try congruence; fin.
Qed.
Lemma send_error_fine : forall inner, keeps_fine inner -> forall s s', q_mem s <> Freed -> fine s -> q_send_error inner s = QOk s' ->
  fine s' /\ same_frame s s' /\ (q_sent s' = true \/ (q_kind s = ByFunction /\ q_id s = false)).
Proof.
  intros inner K s s' N F H. unfold q_send_error in H. destruct (q_kind s) eqn:Ek.
  - destruct (q_id s && negb (q_sent s)) eqn:Eb.
    + assert (Fm : fine (q_mark s)) by (opened s; red_q; destruct qm; try congruence; auto).
      destruct (enter inner (q_mark s)) as [s1|] eqn:E; [|discriminate]. destruct (enter_fine inner _ s1 K Fm N E) as (F1 & T & M & Kd & Id & Se).
      cbn zeta in H. destruct (Nat.eqb (q_count (leave s1)) 0) eqn:Z; [discriminate|]. injection H as <-. apply Nat.eqb_neq in Z. clear E K Fm.
      opened s. opened s1. red_q. cases; try congruence; fin.
    + injection H as <-. split; [exact F|]. split; [apply frame_refl|]. destruct (q_id s), (q_sent s); auto; discriminate.
  - destruct (enter inner s) as [s1|] eqn:E; [|discriminate]. destruct (enter_fine inner s s1 K F N E) as (F1 & T & M & Kd & Id & Se).
    cbn zeta in H. injection H as <-. clear E K.
    destruct (Nat.eqb (pred (q_count s1)) 0) eqn:Z; [apply Nat.eqb_eq in Z|apply Nat.eqb_neq in Z]; opened s; opened s1; red_q; cases; try congruence; fin.
Qed.
Lemma drop_fine : forall inner, keeps_fine inner -> forall s s', q_mem s <> Freed -> 0 < q_user s -> fine s -> q_drop inner s = QOk s' -> fine s' /\ same_frame s s'.
Proof.
  intros inner K s s' N U F H. unfold q_drop in H. cbn zeta in H. destruct (Nat.eqb (q_count (set_user s (pred (q_user s)) (pred (q_count s)))) 0) eqn:Z.
  - apply Nat.eqb_eq in Z. unfold q_destroy in H. cbn zeta in H.
    assert (L : q_mem s = Live) by (opened s; red_q; destruct qm; try congruence; lia).
    assert (T : q_temp s = 0 /\ q_user s = 1) by (opened s; red_q; subst qm; lia).
    set (d := set_mem (set_user s (pred (q_user s)) (pred (q_count s))) 0 Dying) in *.
    assert (D : q_sent d = q_sent s /\ q_svc d = q_svc s /\ q_kind d = q_kind s /\ q_id d = q_id s /\ q_temp d = 0 /\ q_user d = 0)
      by (unfold d; opened s; red_q; destruct T as (-> & ->); auto 10).
    clearbody d. destruct D as (D1 & D2 & D3 & D4 & D5 & D6). destruct (q_sent d) eqn:Es.
    + injection H as <-. clear K. opened s. opened d. red_q. subst. fin.
    + destruct (q_svc d) as [k|] eqn:Ev; [|injection H as <-; clear K; opened s; opened d; red_q; subst; fin].
      destruct (ended d k); [discriminate|]. destruct (q_send_error inner (set_mem d 1 Dying)) as [s1|] eqn:E; [|discriminate]. injection H as <-.
      assert (Fd : fine (set_mem d 1 Dying)) by (opened d; red_q; subst; reflexivity).
      destruct (send_error_fine inner K (set_mem d 1 Dying) s1 ltac:(cbn; discriminate) Fd E) as (F1 & (A1 & A2 & A3 & A4 & A5 & A6) & S1). clear E K Fd. opened s. opened d. opened s1. red_q. subst.
      fin.
  - injection H as <-. apply Nat.eqb_neq in Z. clear K. opened s. red_q. cases; try congruence; fin.
Qed.

Lemma run_from : forall l, Forall (fun o => keeps_fine (qstep o)) l -> keeps_fine (qrun l).
Proof.
  induction 1 as [|o l H _ IH]; intros s s' F E; [injection E as <-; split; [exact F|apply frame_refl]|]. cbn [qrun] in E.
  destruct (qstep o s) as [s1|] eqn:E1; [|discriminate]. destruct (H s s1 F E1) as (F1 & A). destruct (IH s1 s' F1 E) as (F2 & B). split; [exact F2|exact (frame_trans _ _ _ A B)].
Qed.
Lemma freed_or : forall s, is_freed s = false -> q_mem s <> Freed.
Proof. intros s H E. unfold is_freed in H. rewrite E in H. discriminate. Qed.
Lemma step_fine : forall o, keeps_fine (qstep o).
Proof.
  induction o as [o IH] using qop_ind'. apply run_from in IH. intros s s' F H. rewrite qstep_eq in H.
  assert (Same : QOk s = QOk s' -> fine s' /\ same_frame s s') by (intros E; injection E as <-; split; [exact F|apply frame_refl]).
  destruct o as [|l|k|l|l|k]; cbn [inner_of] in IH.
  - destruct (has_handle s) eqn:Hh; [|auto]. destruct (is_freed s) eqn:Ef; [discriminate|]. injection H as <-. apply freed_or in Ef. clear IH Same.
    opened s. red_q. cases; try congruence; fin.
  - destruct (Nat.eqb (q_user s) 0) eqn:U; [auto|]. apply Nat.eqb_neq in U. destruct (is_freed s) eqn:Ef; [discriminate|]. apply freed_or in Ef.
    apply (drop_fine (qrun l) IH s s' Ef); [lia|exact F|exact H].
  - destruct (has_handle s && negb (ended s k)); [|auto]. destruct (is_freed s) eqn:Ef; [discriminate|]. injection H as <-. apply freed_or in Ef. clear IH Same.
    opened s. red_q. cases; try congruence; fin.
  - destruct (has_handle s); [|auto]. destruct (is_freed s) eqn:Ef; [discriminate|]. apply freed_or in Ef. exact (result_fine (qrun l) IH s s' Ef F H).
  - destruct (has_handle s); [|auto]. destruct (is_freed s) eqn:Ef; [discriminate|]. apply freed_or in Ef. unfold q_error in H.
    assert (X : q_send_error (qrun l) s = QOk s' -> fine s' /\ same_frame s s') by (intros E; destruct (send_error_fine (qrun l) IH s s' Ef F E) as (X & Y & _); auto).
    destruct (q_svc s) as [k|]; [destruct (ended s k); [discriminate|auto]|auto].
  - injection H as <-. clear IH Same. opened s. red_q. destruct qm; fin; apply F.
Qed.
Lemma run_fine : forall l, keeps_fine (qrun l).
Proof. intros l. apply run_from, Forall_forall. intros o _. apply step_fine. Qed.
Lemma new_fine : forall kind id, fine (q_new kind id).
Proof. intros. unfold fine. cbn. lia. Qed.

(** Outside of calls: the object lives, counted by the handles of the user, or it is gone, answered. *)
Lemma counted : forall kind id l s, qrun l (q_new kind id) = QOk s ->
  (q_mem s = Live /\ q_count s = q_user s /\ 0 < q_user s) \/
  (q_mem s = Freed /\ (q_svc s = None \/ q_sent s = true \/ (kind = ByFunction /\ id = false))).
Proof.
  intros kind id l s H. destruct (run_fine l _ _ (new_fine kind id) H) as (F & T & _ & K & I & _ & D). cbn in T, K, I, D. unfold fine in F.
  destruct (q_mem s); [left|discriminate (D eq_refl)|right].
  - rewrite T in F. repeat split; lia.
  - rewrite K, I in F. split; [reflexivity|apply F].
Qed.

(** *** How the handles of the user change *)
Definition is_drop (o : qop) : Prop := exists l, o = QDrop l.
Section Users.
Variable R : nat -> nat -> Prop.
Hypothesis R_refl : forall u, R u u.
Hypothesis R_trans : forall a b c, R a b -> R b c -> R a c.
Definition moves (f : qstate -> qres) : Prop := forall s s', f s = QOk s' -> R (q_user s) (q_user s').
Lemma moves_result : forall inner, moves inner -> moves (q_result inner).
Proof.
  intros inner H s s' E. unfold q_result, enter in E. destruct (q_kind s).
  - destruct (q_id s && negb (q_sent s)); [|injection E as <-; apply R_refl]. destruct (inner _) as [s1|] eqn:E1; [|discriminate]. apply H in E1. cbn in E1.
    cbn zeta in E. destruct (Nat.eqb _ 0); [discriminate|]. injection E as <-. exact E1.
  - destruct (inner _) as [s1|] eqn:E1; [|discriminate]. apply H in E1. cbn in E1. cbn zeta in E. injection E as <-. destruct (Nat.eqb _ 0); exact E1.
Qed.
Lemma moves_send_error : forall inner, moves inner -> moves (q_send_error inner).
Proof.
  intros inner H s s' E. unfold q_send_error, enter in E. destruct (q_kind s).
  - destruct (q_id s && negb (q_sent s)); [|injection E as <-; apply R_refl]. destruct (inner _) as [s1|] eqn:E1; [|discriminate]. apply H in E1. cbn in E1.
    cbn zeta in E. destruct (Nat.eqb _ 0); [discriminate|]. injection E as <-. exact E1.
  - destruct (inner _) as [s1|] eqn:E1; [|discriminate]. apply H in E1. cbn in E1. cbn zeta in E. injection E as <-. destruct (Nat.eqb _ 0); exact E1.
Qed.
Lemma moves_drop : forall inner, moves inner -> (forall u, R u (pred u)) -> moves (q_drop inner).
Proof.
  intros inner H D s s' E. unfold q_drop in E. cbn zeta in E. destruct (Nat.eqb _ 0); [|injection E as <-; apply D].
  apply (R_trans _ _ _ (D (q_user s))). unfold q_destroy in E. cbn zeta in E. cbn [set_mem set_user q_sent q_svc] in E.
  destruct (q_sent s); [injection E as <-; apply R_refl|]. destruct (q_svc s) as [k|]; [|injection E as <-; apply R_refl].
  destruct (ended _ k); [discriminate|]. destruct (q_send_error inner _) as [s1|] eqn:E1; [|discriminate]. injection E as <-. apply (moves_send_error inner H) in E1. exact E1.
Qed.
Lemma moves_run : forall l, Forall (fun o => moves (qstep o)) l -> moves (qrun l).
Proof.
  induction 1 as [|o l H _ IH]; intros s s' E; [injection E as <-; apply R_refl|]. cbn [qrun] in E. destruct (qstep o s) as [s1|] eqn:E1; [|discriminate].
  apply (R_trans _ (q_user s1)); [apply H, E1|apply IH, E].
Qed.
Lemma moves_step : forall o, (somewhere (eq QCopy) o -> forall u, R u (S u)) -> (somewhere is_drop o -> forall u, R u (pred u)) -> moves (qstep o).
Proof.
  induction o as [o IH] using qop_ind'. intros C D.
  assert (In_run : moves (qrun (inner_of o))).
  { apply moves_run. rewrite Forall_forall in *. intros x I. apply (IH x I); intros W; [apply C|apply D]; apply (sw_inner _ _ x I W). }
  clear IH. intros s s' E. rewrite qstep_eq in E. destruct o as [|l|k|l|l|k]; cbn [inner_of] in In_run.
  - destruct (has_handle s); [destruct (is_freed s); [discriminate|]|]; injection E as <-; [|apply R_refl]. cbn. apply C. constructor. reflexivity.
  - destruct (Nat.eqb (q_user s) 0); [injection E as <-; apply R_refl|]. destruct (is_freed s); [discriminate|].
    apply (moves_drop (qrun l)); [exact In_run|apply D; constructor; exists l; reflexivity|exact E].
  - destruct (has_handle s && negb (ended s k)); [destruct (is_freed s); [discriminate|]|]; injection E as <-; apply R_refl.
  - destruct (has_handle s); [|injection E as <-; apply R_refl]. destruct (is_freed s); [discriminate|]. exact (moves_result _ In_run s s' E).
  - destruct (has_handle s); [|injection E as <-; apply R_refl]. destruct (is_freed s); [discriminate|]. unfold q_error in E.
    destruct (q_svc s) as [k|]; [destruct (ended s k); [discriminate|]|]; exact (moves_send_error _ In_run s s' E).
  - injection E as <-. apply R_refl.
Qed.
Lemma moves_code : forall l, (in_code (eq QCopy) l -> forall u, R u (S u)) -> (in_code is_drop l -> forall u, R u (pred u)) -> moves (qrun l).
Proof. intros l C D. apply moves_run, Forall_forall. intros o I. apply moves_step; intros W; [apply C|apply D]; exists o; auto. Qed.
End Users.
Lemma no_copies : forall l, ~ in_code (eq QCopy) l -> forall s s', qrun l s = QOk s' -> q_user s' <= q_user s.
Proof. intros l N. apply (moves_code (fun a b => b <= a)); [auto|intros a b c; lia|contradiction|intros; lia]. Qed.
Lemma no_drops : forall l, ~ in_code is_drop l -> forall s s', qrun l s = QOk s' -> q_user s <= q_user s'.
Proof. intros l N. apply (moves_code (fun a b => a <= b)); [auto|intros a b c; lia|intros; lia|contradiction]. Qed.

(** *** Use of a destroyed request *)
Definition kept (s : qstate) : Prop := fine s /\ (q_mem s = Freed -> q_user s = 0).
Definition no_use (f : qstate -> qres) : Prop := forall s, kept s -> match f s with QOk s' => kept s' | QBad e => e <> UseFreed end.
Lemma no_use_run : forall l, Forall (fun o => no_use (qstep o)) l -> no_use (qrun l).
Proof.
  induction 1 as [|o l H _ IH]; intros s K; [exact K|]. cbn [qrun]. pose proof (H s K) as X. destruct (qstep o s) as [s1|]; [apply IH, X|exact X].
Qed.
Lemma enter_use : forall inner s, no_use inner -> fine s -> q_mem s <> Freed -> match enter inner s with QOk s1 => kept s1 | QBad e => e <> UseFreed end.
Proof.
  intros inner s H F N. unfold enter. apply H. split; [opened s; red_q; cases; try congruence; fin|]. intros E. contradiction.
Qed.
Lemma error_use : forall inner s, no_use inner -> keeps_fine inner -> fine s -> q_mem s <> Freed ->
  match q_send_error inner s with QOk s' => (q_mem s' = Freed -> q_user s' = 0) | QBad e => e <> UseFreed end.
Proof.
  intros inner s H K F N. unfold q_send_error. destruct (q_kind s).
  - destruct (q_id s && negb (q_sent s)); [|contradiction].
    assert (Fm : fine (q_mark s)) by (opened s; red_q; cases; try congruence; fin).
    pose proof (enter_use inner (q_mark s) H Fm N) as X. destruct (enter inner (q_mark s)) as [s1|] eqn:E; [|exact X].
    destruct (enter_fine inner _ s1 K Fm N E) as (_ & _ & M & _). cbn zeta. destruct (Nat.eqb _ 0); [discriminate|]. cbn. intros Y. cbn in M. congruence.
  - pose proof (enter_use inner s H F N) as X. destruct (enter inner s) as [s1|] eqn:E; [|exact X].
    destruct (enter_fine inner s s1 K F N E) as (F1 & T & M & _). cbn zeta. destruct (Nat.eqb _ 0) eqn:Z.
    + intros _. apply Nat.eqb_eq in Z. cbn in Z |- *. unfold fine in F1. rewrite M in F1. destruct (q_mem s); try congruence; lia.
    + cbn. intros Y. congruence.
Qed.
Lemma result_use : forall inner s, no_use inner -> keeps_fine inner -> fine s -> q_mem s <> Freed ->
  match q_result inner s with QOk s' => (q_mem s' = Freed -> q_user s' = 0) | QBad e => e <> UseFreed end.
Proof.
  intros inner s H K F N. unfold q_result. destruct (q_kind s).
  - destruct (q_id s && negb (q_sent s)); [|contradiction].
    pose proof (enter_use inner s H F N) as X. destruct (enter inner s) as [s1|] eqn:E; [|exact X].
    destruct (enter_fine inner _ s1 K F N E) as (_ & _ & M & _). cbn zeta. destruct (Nat.eqb _ 0); [discriminate|]. cbn. intros Y. congruence.
  - pose proof (enter_use inner s H F N) as X. destruct (enter inner s) as [s1|] eqn:E; [|exact X].
    destruct (enter_fine inner s s1 K F N E) as (F1 & T & M & _). cbn zeta. destruct (Nat.eqb _ 0) eqn:Z.
    + intros _. apply Nat.eqb_eq in Z. cbn in Z |- *. unfold fine in F1. rewrite M in F1. destruct (q_mem s); try congruence; lia.
    + cbn. intros Y. congruence.
Qed.
Lemma step_use : forall o, ~ somewhere copies_at_end o -> no_use (qstep o).
Proof.
  induction o as [o IH] using qop_ind'. intros N.
  assert (In_run : no_use (qrun (inner_of o))).
  { apply no_use_run. rewrite Forall_forall in *. intros x I. apply (IH x I). intros W. apply N. apply (sw_inner _ _ x I W). }
  pose proof (run_fine (inner_of o)) as In_fine. clear IH. intros s (F & K).
  assert (Fin : forall s', qstep o s = QOk s' -> fine s') by (intros s' E; apply (step_fine o s s' F E)).
  assert (Hh : has_handle s = true -> is_freed s = false).
  { intros Hh. unfold is_freed. destruct (q_mem s) eqn:M; auto. exfalso. unfold fine in F. rewrite M in F. destruct F as (F & _).
    unfold has_handle in Hh. rewrite F, (K eq_refl) in Hh. discriminate. }
  rewrite qstep_eq in *. destruct o as [|l|k|l|l|k]; cbn [inner_of] in *.
  - destruct (has_handle s); [|split; auto]. rewrite (Hh eq_refl) in *. split; [apply Fin; reflexivity|]. cbn. intros M. pose proof (Hh eq_refl) as Y. unfold is_freed in Y. rewrite M in Y. discriminate.
  - destruct (Nat.eqb (q_user s) 0) eqn:U; [split; auto|]. apply Nat.eqb_neq in U. destruct (is_freed s) eqn:Ef; [exfalso|].
    { unfold is_freed in Ef. destruct (q_mem s); try discriminate. apply U, K. reflexivity. }
    apply freed_or in Ef. pose proof (fun s' => Fin s') as Fin'. clear Fin.
    assert (X : match q_drop (qrun l) s with QOk s' => (q_mem s' = Freed -> q_user s' = 0) | QBad e => e <> UseFreed end).
    { unfold q_drop. cbn zeta. destruct (Nat.eqb _ 0) eqn:Z; [|cbn; intros Y; contradiction]. apply Nat.eqb_eq in Z. cbn in Z.
      assert (L : q_mem s = Live /\ q_user s = 1 /\ q_temp s = 0) by (unfold fine in F; destruct (q_mem s); [split; [reflexivity|lia]|lia|congruence]).
      destruct L as (L & U1 & T0). unfold q_destroy. cbn zeta.
      set (d := set_mem (set_user s (pred (q_user s)) (pred (q_count s))) 0 Dying).
      assert (D : q_user d = 0 /\ q_temp d = 0) by (unfold d; cbn; rewrite U1, T0; auto). clearbody d. destruct D as (D1 & D2).
      destruct (q_sent d); [intros _; exact D1|]. destruct (q_svc d) as [k|]; [|intros _; exact D1]. destruct (ended d k); [discriminate|].
      assert (Fd : fine (set_mem d 1 Dying)) by (unfold fine; cbn; rewrite D1, D2; reflexivity).
      pose proof (error_use (qrun l) (set_mem d 1 Dying) In_run In_fine Fd ltac:(cbn; discriminate)) as X.
      destruct (q_send_error (qrun l) (set_mem d 1 Dying)) as [s1|] eqn:E; [|exact X]. intros _. cbn.
      assert (Y : q_user s1 <= q_user (set_mem d 1 Dying)).
      { apply (moves_send_error (fun a b => b <= a)) with (inner := qrun l); [auto| |exact E].
        intros a b E'. apply (no_copies l); [|exact E']. intros W. apply N. constructor. exists l. auto. }
      cbn in Y. lia. }
    destruct (q_drop (qrun l) s) as [s'|]; [split; [apply Fin'; reflexivity|exact X]|exact X].
  - destruct (has_handle s && negb (ended s k)) eqn:Hb; [|split; auto]. apply andb_prop in Hb. rewrite (Hh (proj1 Hb)) in *. split; [apply Fin; reflexivity|]. cbn. exact K.
  - destruct (has_handle s); [|split; auto]. rewrite (Hh eq_refl) in *. pose proof (result_use (qrun l) s In_run In_fine F (freed_or _ (Hh eq_refl))) as X.
    destruct (q_result (qrun l) s) as [s'|]; [split; [apply Fin; reflexivity|exact X]|exact X].
  - destruct (has_handle s); [|split; auto]. rewrite (Hh eq_refl) in *. pose proof (error_use (qrun l) s In_run In_fine F (freed_or _ (Hh eq_refl))) as X. unfold q_error in *.
    destruct (q_svc s) as [k|]; [destruct (ended s k); [discriminate|]|]; (destruct (q_send_error (qrun l) s) as [s'|]; [split; [apply Fin; reflexivity|exact X]|exact X]).
  - split; [apply Fin; reflexivity|exact K].
Qed.
Lemma kept_new : forall kind id, kept (q_new kind id).
Proof. intros. split; [apply new_fine|discriminate]. Qed.
Lemma no_freed : forall kind id l, ~ in_code copies_at_end l ->
  match qrun l (q_new kind id) with QOk s => (q_mem s = Freed <-> q_user s = 0) | QBad e => e <> UseFreed end.
Proof.
  intros kind id l N. assert (X : no_use (qrun l)) by (apply no_use_run, Forall_forall; intros o I; apply step_use; intros W; apply N; exists o; auto).
  specialize (X _ (kept_new kind id)). destruct (qrun l (q_new kind id)) as [s|] eqn:E; [|exact X]. destruct X as (F & K). split; [exact K|]. intros U.
  destruct (counted kind id l s E) as [(_ & _ & Y)|(Y & _)]; [lia|exact Y].
Qed.

(** *** Use of a server that ended *)
Section Servers.
Variable A B : nat -> Prop.
Definition known (s : qstate) : Prop := (forall k, q_svc s = Some k -> A k) /\ (forall k, ended s k = true -> B k).
Definition serves (f : qstate -> qres) : Prop := forall s, known s -> match f s with QOk s' => known s' | QBad e => e = UseServer -> exists k, A k /\ B k end.
Lemma serves_run : forall l, Forall (fun o => serves (qstep o)) l -> serves (qrun l).
Proof.
  induction 1 as [|o l H _ IH]; intros s K; [exact K|]. cbn [qrun]. pose proof (H s K) as X. destruct (qstep o s) as [s1|]; [apply IH, X|exact X].
Qed.
Lemma serves_enter : forall inner, serves inner -> serves (enter inner).
Proof. intros inner H s K. unfold enter. apply H. exact K. Qed.
Lemma serves_result : forall inner, serves inner -> serves (q_result inner).
Proof.
  intros inner H s K. unfold q_result. destruct (q_kind s).
  - destruct (q_id s && negb (q_sent s)); [|exact K]. pose proof (serves_enter inner H s K) as X. destruct (enter inner s) as [s1|]; [|exact X].
    cbn zeta. destruct (Nat.eqb _ 0); [discriminate|]. exact X.
  - pose proof (serves_enter inner H s K) as X. destruct (enter inner s) as [s1|]; [|exact X]. cbn zeta. destruct (Nat.eqb _ 0); exact X.
Qed.
Lemma serves_send : forall inner, serves inner -> serves (q_send_error inner).
Proof.
  intros inner H s K. unfold q_send_error. destruct (q_kind s).
  - destruct (q_id s && negb (q_sent s)); [|exact K]. pose proof (serves_enter inner H (q_mark s) K) as X. destruct (enter inner (q_mark s)) as [s1|]; [|exact X].
    cbn zeta. destruct (Nat.eqb _ 0); [discriminate|]. exact X.
  - pose proof (serves_enter inner H s K) as X. destruct (enter inner s) as [s1|]; [|exact X]. cbn zeta. destruct (Nat.eqb _ 0); exact X.
Qed.
Lemma serves_drop : forall inner, serves inner -> serves (q_drop inner).
Proof.
  intros inner H s K. unfold q_drop. cbn zeta. destruct (Nat.eqb _ 0); [|exact K]. unfold q_destroy. cbn zeta. cbn [set_mem set_user q_sent q_svc].
  destruct (q_sent s); [exact K|]. destruct (q_svc s) as [k|] eqn:Ev; [|split; [cbn; congruence|apply K]].
  match goal with |- context [ended ?t k] => change (ended t k) with (ended s k) end. destruct (ended s k) eqn:Ee; [intros _; exists k; split; apply K; assumption|].
  match goal with |- context [q_send_error inner ?t] => pose proof (serves_send inner H t) as X; destruct (q_send_error inner t) as [s1|] end; (apply X; split; [cbn; intros j Ej; apply K; congruence|apply K]).
Qed.
Lemma serves_step : forall o, (forall k, somewhere (eq (QExec k)) o -> A k) -> (forall k, somewhere (eq (QEnd k)) o -> B k) -> serves (qstep o).
Proof.
  induction o as [o IH] using qop_ind'. intros HA HB.
  assert (In_run : serves (qrun (inner_of o))).
  { apply serves_run. rewrite Forall_forall in *. intros x I. apply (IH x I); intros k W; [apply HA|apply HB]; apply (sw_inner _ _ x I W). }
  clear IH. intros s K. rewrite qstep_eq. destruct o as [|l|k|l|l|k]; cbn [inner_of] in *.
  - destruct (has_handle s); [destruct (is_freed s); [discriminate|exact K]|exact K].
  - destruct (Nat.eqb (q_user s) 0); [exact K|]. destruct (is_freed s); [discriminate|]. apply serves_drop; assumption.
  - destruct (has_handle s && negb (ended s k)); [destruct (is_freed s); [discriminate|]|exact K]. split; [|apply K]. cbn. intros j E. injection E as <-. apply HA. constructor. reflexivity.
  - destruct (has_handle s); [|exact K]. destruct (is_freed s); [discriminate|]. apply serves_result; assumption.
  - destruct (has_handle s); [|exact K]. destruct (is_freed s); [discriminate|]. unfold q_error. destruct (q_svc s) as [k|] eqn:Ev; [|apply serves_send; assumption].
    destruct (ended s k) eqn:Ee; [|apply serves_send; assumption]. intros _. exists k. split; apply K; assumption.
  - split; [apply K|]. intros j E. unfold ended in E. cbn in E. apply orb_prop in E. destruct E as [E|E]; [|apply K, E].
    apply Nat.eqb_eq in E. subst j. apply HB. constructor. reflexivity.
Qed.
End Servers.
Lemma no_server : forall kind id l, qrun l (q_new kind id) = QBad UseServer -> exists k, in_code (eq (QExec k)) l /\ in_code (eq (QEnd k)) l.
Proof.
  intros kind id l H. assert (X : serves (fun k => in_code (eq (QExec k)) l) (fun k => in_code (eq (QEnd k)) l) (qrun l)).
  { apply serves_run, Forall_forall. intros o I. apply serves_step; intros k W; exists o; auto. }
  specialize (X (q_new kind id)). rewrite H in X. apply X; [|reflexivity]. split; [discriminate|intros k E; discriminate].
Qed.
(** An answered request does not ask the server at its end. *)
Lemma answered_drop : forall kind id l s, qrun l (q_new kind id) = QOk s -> q_sent s = true -> 0 < q_user s -> q_mem s = Live ->
  exists s', (forall inner, qstep (QDrop inner) s = QOk s') /\ (q_mem s' = Freed <-> q_user s = 1).
Proof.
  intros kind id l s H Se U M.
  assert (X : forall inner, qstep (QDrop inner) s = if Nat.eqb (pred (q_count s)) 0 then QOk (set_mem (set_mem (set_user s (pred (q_user s)) (pred (q_count s))) 0 Dying) 0 Freed) else QOk (set_user s (pred (q_user s)) (pred (q_count s)))).
  { intros inner. rewrite qstep_eq. destruct (Nat.eqb_spec (q_user s) 0); [lia|]. unfold is_freed. rewrite M. unfold q_drop. cbn zeta. cbn [set_user q_count].
    destruct (Nat.eqb (pred (q_count s)) 0); [|reflexivity]. unfold q_destroy. cbn zeta. cbn [set_mem set_user q_sent]. rewrite Se. reflexivity. }
  destruct (counted kind id l s H) as [(_ & C & _)|(Y & _)]; [|congruence]. destruct (Nat.eqb_spec (pred (q_count s)) 0) as [E|E].
  - eexists. split; [exact X|]. cbn. split; [lia|reflexivity].
  - eexists. split; [exact X|]. cbn. rewrite M. split; [discriminate|lia].
Qed.
(** A response sent is marked, for good. *)
Lemma sent_result : forall inner s s', q_result inner s = QOk s' -> q_sent s' = true \/ (q_kind s = ByFunction /\ q_id s = false).
Proof.
  intros inner s s'. unfold q_result. destruct (q_kind s).
  - destruct (q_id s); [|auto]. cbn [andb]. destruct (q_sent s) eqn:E; cbn [negb]; [intros H; injection H as <-; auto|].
    destruct (enter inner s) as [s1|]; [|discriminate]. cbn zeta. destruct (Nat.eqb _ 0); [discriminate|]. intros H. injection H as <-. auto.
  - destruct (enter inner s) as [s1|]; [|discriminate]. cbn zeta. intros H. injection H as <-. left. destruct (Nat.eqb _ 0); reflexivity.
Qed.
Lemma sent_error : forall inner s s', q_send_error inner s = QOk s' -> q_sent s' = true \/ (q_kind s = ByFunction /\ q_id s = false).
Proof.
  intros inner s s'. unfold q_send_error. destruct (q_kind s).
  - destruct (q_id s); [|auto]. cbn [andb]. destruct (q_sent s) eqn:E; cbn [negb]; [intros H; injection H as <-; auto|].
    destruct (enter inner (q_mark s)) as [s1|]; [|discriminate]. cbn zeta. destruct (Nat.eqb _ 0); [discriminate|]. intros H. injection H as <-. auto.
  - destruct (enter inner s) as [s1|]; [|discriminate]. cbn zeta. intros H. injection H as <-. left. destruct (Nat.eqb _ 0); reflexivity.
Qed.
Lemma marks : forall kind id l s inner o s', qrun l (q_new kind id) = QOk s -> 0 < q_user s -> o = QResult inner \/ o = QError inner ->
  qstep o s = QOk s' -> q_sent s' = true \/ (kind = ByFunction /\ id = false).
Proof.
  intros kind id l s inner o s' H U O E. destruct (run_fine l _ _ (new_fine kind id) H) as (_ & _ & _ & K & I & _). cbn in K, I. rewrite <- K, <- I.
  assert (Hh : has_handle s = true) by (unfold has_handle; destruct (Nat.eqb_spec (q_user s) 0); [lia|reflexivity]).
  rewrite qstep_eq in E. destruct O as [-> | ->]; rewrite Hh in E; (destruct (is_freed s); [discriminate|]).
  - apply (sent_result _ _ _ E).
  - unfold q_error in E. destruct (q_svc s) as [k|]; [destruct (ended s k); [discriminate|]|]; apply (sent_error _ _ _ E).
Qed.

(** *** A request destroyed inside one of its functions *)
Definition not_self (f : qstate -> qres) : Prop := forall s, fine s -> f s <> QBad UseSelf.
Lemma not_self_run : forall l, Forall (fun o => not_self (qstep o)) l -> not_self (qrun l).
Proof.
  induction 1 as [|o l H _ IH]; intros s F; [discriminate|]. cbn [qrun]. destruct (qstep o s) as [s1|] eqn:E; [apply IH; apply (step_fine o s s1 F E)|]. intros X. apply (H s F). congruence.
Qed.
Lemma enter_self : forall inner s, not_self inner -> fine s -> q_mem s <> Freed -> enter inner s <> QBad UseSelf.
Proof. intros inner s H F N. unfold enter. apply H. opened s. red_q. cases; try congruence; fin. Qed.
(** There is a handle at the end of the call. *)
Lemma leave_count : forall inner s s1, keeps_fine inner -> fine s -> q_mem s <> Freed -> enter inner s = QOk s1 ->
  q_mem s = Dying \/ (has_handle s = true /\ q_user s <= q_user s1) -> q_count (leave s1) <> 0.
Proof.
  intros inner s s1 K F N E H. destruct (enter_fine inner s s1 K F N E) as (F1 & T & M & _). cbn. unfold fine in F1. rewrite M in F1.
  unfold has_handle in H. destruct (q_mem s); [|lia|congruence]. destruct H as [H|(H & L)]; [discriminate|].
  destruct (Nat.eqb_spec (q_user s) 0), (Nat.eqb_spec (q_temp s) 0); cbn in H; try discriminate; lia.
Qed.
Lemma result_self : forall inner s, not_self inner -> keeps_fine inner -> fine s -> q_mem s <> Freed ->
  (forall s1, enter inner s = QOk s1 -> q_count (leave s1) <> 0) -> q_result inner s <> QBad UseSelf.
Proof.
  intros inner s H K F N C. pose proof (enter_self inner s H F N) as X. unfold q_result. destruct (q_kind s).
  - destruct (q_id s && negb (q_sent s)); [|discriminate]. destruct (enter inner s) as [s1|] eqn:E; [|exact X]. cbn zeta.
    destruct (Nat.eqb_spec (q_count (leave s1)) 0) as [Z|]; [exfalso; exact (C s1 eq_refl Z)|discriminate].
  - destruct (enter inner s) as [s1|]; [discriminate|exact X].
Qed.
Lemma send_self : forall inner s, not_self inner -> keeps_fine inner -> fine s -> q_mem s <> Freed ->
  (forall s1, enter inner (q_mark s) = QOk s1 -> q_count (leave s1) <> 0) -> q_send_error inner s <> QBad UseSelf.
Proof.
  intros inner s H K F N C. assert (Fm : fine (q_mark s)) by (opened s; red_q; cases; try congruence; fin).
  pose proof (enter_self inner s H F N) as X. pose proof (enter_self inner (q_mark s) H Fm N) as Y. unfold q_send_error. destruct (q_kind s).
  - destruct (q_id s && negb (q_sent s)); [|discriminate]. destruct (enter inner (q_mark s)) as [s1|] eqn:E; [|exact Y]. cbn zeta.
    destruct (Nat.eqb_spec (q_count (leave s1)) 0) as [Z|]; [exfalso; exact (C s1 eq_refl Z)|discriminate].
  - destruct (enter inner s) as [s1|]; [discriminate|exact X].
Qed.
Lemma step_self : forall o, ~ somewhere drops_inside o -> not_self (qstep o).
Proof.
  induction o as [o IH] using qop_ind'. intros N.
  assert (In_run : not_self (qrun (inner_of o))).
  { apply not_self_run. rewrite Forall_forall in *. intros x I. apply (IH x I). intros W. apply N. apply (sw_inner _ _ x I W). }
  pose proof (run_fine (inner_of o)) as In_fine. clear IH. intros s F. rewrite qstep_eq. destruct o as [|l|k|l|l|k]; cbn [inner_of] in *.
  - destruct (has_handle s); [destruct (is_freed s); discriminate|discriminate].
  - destruct (Nat.eqb_spec (q_user s) 0) as [|U]; [discriminate|]. destruct (is_freed s) eqn:Ef; [discriminate|]. apply freed_or in Ef.
    unfold q_drop. cbn zeta. destruct (Nat.eqb_spec (q_count (set_user s (pred (q_user s)) (pred (q_count s)))) 0) as [Z|]; [|discriminate]. cbn in Z.
    assert (L : q_user s = 1 /\ q_temp s = 0) by (unfold fine in F; destruct (q_mem s); [lia|lia|congruence]).
    unfold q_destroy. cbn zeta. set (d := set_mem (set_user s (pred (q_user s)) (pred (q_count s))) 0 Dying).
    assert (D : q_user d = 0 /\ q_temp d = 0) by (unfold d; cbn; destruct L as (-> & ->); auto). clearbody d. destruct D as (D1 & D2).
    destruct (q_sent d); [discriminate|]. destruct (q_svc d) as [k|]; [|discriminate]. destruct (ended d k); [discriminate|].
    assert (Fd : fine (set_mem d 1 Dying)) by (unfold fine; cbn; rewrite D1, D2; reflexivity).
    assert (X : q_send_error (qrun l) (set_mem d 1 Dying) <> QBad UseSelf).
    { apply send_self; [exact In_run|exact In_fine|exact Fd|cbn; discriminate|]. intros s1 E.
      apply (leave_count (qrun l) (q_mark (set_mem d 1 Dying)) s1 In_fine); [exact Fd|cbn; discriminate|exact E|left; reflexivity]. }
    destruct (q_send_error (qrun l) (set_mem d 1 Dying)) as [s1|]; [discriminate|exact X].
  - destruct (has_handle s && negb (ended s k)); [destruct (is_freed s); discriminate|discriminate].
  - destruct (has_handle s) eqn:Hh; [|discriminate]. destruct (is_freed s) eqn:Ef; [discriminate|]. apply freed_or in Ef.
    apply result_self; [exact In_run|exact In_fine|exact F|exact Ef|]. intros s1 E. apply (leave_count (qrun l) s s1 In_fine F Ef E). right. split; [exact Hh|].
    unfold enter in E. apply (no_drops l) in E; [exact E|]. intros W. apply N. constructor. exists l. auto.
  - destruct (has_handle s) eqn:Hh; [|discriminate]. destruct (is_freed s) eqn:Ef; [discriminate|]. apply freed_or in Ef.
    assert (X : q_send_error (qrun l) s <> QBad UseSelf).
    { apply send_self; [exact In_run|exact In_fine|exact F|exact Ef|]. intros s1 E.
      assert (Fm : fine (q_mark s)) by (clear - F Ef; opened s; red_q; cases; try congruence; fin).
      apply (leave_count (qrun l) (q_mark s) s1 In_fine Fm Ef E). right. split; [exact Hh|].
      unfold enter in E. apply (no_drops l) in E; [exact E|]. intros W. apply N. constructor. exists l. auto. }
    unfold q_error. destruct (q_svc s) as [k|]; [destruct (ended s k); [discriminate|exact X]|exact X].
  - discriminate.
Qed.
Lemma no_self : forall kind id l, ~ in_code drops_inside l -> qrun l (q_new kind id) <> QBad UseSelf.
Proof.
  intros kind id l N. apply not_self_run; [|apply new_fine]. apply Forall_forall. intros o I. apply step_self. intros W. apply N. exists o. auto.
Qed.
Lemma no_self_callbacks : forall id l, qrun l (q_new ByCallbacks id) <> QBad UseSelf.
Proof.
  intros id l. assert (G : forall o s, fine s -> q_kind s = ByCallbacks -> qstep o s <> QBad UseSelf).
  { induction o as [o IH] using qop_ind'. intros s F C.
    assert (R : forall t, fine t -> q_kind t = ByCallbacks -> qrun (inner_of o) t <> QBad UseSelf).
    { induction IH as [|x r Hx _ IHr]; intros t Ft Ct; [discriminate|]. cbn [qrun]. destruct (qstep x t) as [t1|] eqn:E; [|intros X; apply (Hx t Ft Ct); congruence].
      destruct (step_fine x t t1 Ft E) as (F1 & _ & _ & K & _). apply IHr; [exact F1|congruence]. }
    clear IH. assert (En : forall t, fine t -> q_mem t <> Freed -> q_kind t = ByCallbacks -> enter (qrun (inner_of o)) t <> QBad UseSelf).
    { intros t Ft Mt Ct. unfold enter. apply R; [|exact Ct]. clear - Ft Mt. opened t. red_q. cases; try congruence; fin. }
    assert (Se : forall t, fine t -> q_mem t <> Freed -> q_kind t = ByCallbacks -> q_send_error (qrun (inner_of o)) t <> QBad UseSelf /\ q_result (qrun (inner_of o)) t <> QBad UseSelf).
    { intros t Ft Mt Ct. specialize (En t Ft Mt Ct). unfold q_send_error, q_result. rewrite Ct. destruct (enter _ t); [split; discriminate|auto]. }
    rewrite qstep_eq. destruct o as [|i|k|i|i|k]; cbn [inner_of] in *.
    - destruct (has_handle s); [destruct (is_freed s); discriminate|discriminate].
    - destruct (Nat.eqb_spec (q_user s) 0) as [|U]; [discriminate|]. destruct (is_freed s) eqn:Ef; [discriminate|]. apply freed_or in Ef.
      unfold q_drop. cbn zeta. destruct (Nat.eqb_spec (q_count (set_user s (pred (q_user s)) (pred (q_count s)))) 0) as [Z|]; [|discriminate]. cbn in Z.
      assert (L : q_user s = 1 /\ q_temp s = 0) by (unfold fine in F; destruct (q_mem s); [lia|lia|congruence]).
      unfold q_destroy. cbn zeta. set (d := set_mem (set_user s (pred (q_user s)) (pred (q_count s))) 0 Dying).
      assert (D : q_user d = 0 /\ q_temp d = 0 /\ q_kind d = ByCallbacks) by (unfold d; cbn; destruct L as (-> & ->); auto). clearbody d. destruct D as (D1 & D2 & D3).
      destruct (q_sent d); [discriminate|]. destruct (q_svc d) as [k|]; [|discriminate]. destruct (ended d k); [discriminate|].
      assert (Fd : fine (set_mem d 1 Dying)) by (unfold fine; cbn; rewrite D1, D2; reflexivity).
      destruct (Se (set_mem d 1 Dying) Fd ltac:(cbn; discriminate) D3) as (X & _). destruct (q_send_error _ _); [discriminate|exact X].
    - destruct (has_handle s && negb (ended s k)); [destruct (is_freed s); discriminate|discriminate].
    - destruct (has_handle s); [|discriminate]. destruct (is_freed s) eqn:Ef; [discriminate|]. apply Se; [exact F|apply freed_or, Ef|exact C].
    - destruct (has_handle s); [|discriminate]. destruct (is_freed s) eqn:Ef; [discriminate|]. unfold q_error.
      assert (X : q_send_error (qrun i) s <> QBad UseSelf) by (apply Se; [exact F|apply freed_or, Ef|exact C]).
      destruct (q_svc s) as [k|]; [destruct (ended s k); [discriminate|exact X]|exact X].
    - discriminate. }
  assert (H : forall s, fine s -> q_kind s = ByCallbacks -> qrun l s <> QBad UseSelf).
  { induction l as [|x r IH]; intros t Ft Ct; [discriminate|]. cbn [qrun]. destruct (qstep x t) as [t1|] eqn:E; [|intros X; apply (G x t Ft Ct); congruence].
    destruct (step_fine x t t1 Ft E) as (F1 & _ & _ & K & _). apply IH; [exact F1|congruence]. }
  apply H; [apply new_fine|reflexivity].
Qed.
