(** Proofs about the removal of comments. *)
From Coq Require Import ZifyBool.
From Verif Require Import Base SpecUtf8 ModelValue SpecText ModelComments SpecComments.
Local Open Scope Z_scope.

Definition good (s : bytes) : Prop := Forall (fun c => c <> -1) s.

(** *** Skipping comments *)
Lemma skip_line_ok : forall s nl r, Forall (fun c => c <> 13 /\ c <> 10) s -> nl = 13 \/ nl = 10 -> skip_line (s ++ nl :: r) = r.
Proof.
  intros s nl r H Hn. induction H as [|c s Hc _ IH]; cbn [app skip_line].
  - replace ((nl =? 13) || (nl =? 10)) with true by lia. reflexivity.
  - replace ((c =? 13) || (c =? 10)) with false by lia. exact IH.
Qed.
Lemma skip_line_end : forall s, Forall (fun c => c <> 13 /\ c <> 10) s -> skip_line s = [].
Proof.
  intros s H. induction H as [|c s Hc _ IH]; cbn [skip_line]; [reflexivity|].
  replace ((c =? 13) || (c =? 10)) with false by lia. exact IH.
Qed.
Definition starts_slash (s : bytes) : bool := match s with 47 :: _ => true | _ => false end.
Lemma no_close_cons : forall c s, no_close (c :: s) <-> ~ (c = 42 /\ starts_slash s = true) /\ no_close s.
Proof.
  intros c s. cbn [no_close]. destruct (Z.eq_dec c 42) as [->|Hc].
  - destruct s as [|d s]; [cbn; intuition discriminate|]. destruct (Z.eq_dec d 47) as [->|Hd]; [cbn; intuition|].
    assert (E : starts_slash (d :: s) = false) by (unfold starts_slash; destruct d as [|p|p]; try reflexivity; repeat (destruct p as [p|p|]; try reflexivity); congruence).
    rewrite E. assert (no_close (d :: s) <-> match d :: s with 47 :: _ => False | _ => no_close (d :: s) end).
    { unfold starts_slash in E. destruct d as [|p|p]; try tauto; repeat (destruct p as [p|p|]; try tauto; try discriminate E). }
    split; [|].
    + intros K. split; [intros [_ ?]; discriminate|]. destruct d as [|p|p]; try exact K; repeat (destruct p as [p|p|]; try exact K; try contradiction).
    + intros [_ K]. destruct d as [|p|p]; try exact K; repeat (destruct p as [p|p|]; try exact K; try discriminate E).
  - split; [intros K; split; [tauto|]|intros [_ K]]; destruct c as [|p|p]; try exact K;
      repeat (destruct p as [p|p|]; try exact K; try congruence).
Qed.
Lemma starts_slash_cons : forall c s, starts_slash (c :: s) = (c =? 47).
Proof.
  intros c s. unfold starts_slash. destruct (Z.eqb_spec c 47) as [->|H]; [reflexivity|].
  destruct c as [|p|p]; try reflexivity; repeat (destruct p as [p|p|]; try reflexivity); congruence.
Qed.
Lemma skip_block_ok : forall s prev r, no_close (prev :: s ++ [42]) -> skip_block prev (s ++ 42 :: 47 :: r) = r.
Proof.
  induction s as [|c s IH]; intros prev r H; cbn [app skip_block].
  - change ((42 =? 47) && (prev =? 42)) with false. cbv iota. reflexivity.
  - cbn [app] in H. apply no_close_cons in H as [H1 H2]. rewrite starts_slash_cons in H1.
    replace ((c =? 47) && (prev =? 42)) with false by lia. apply IH, H2.
Qed.
Lemma skip_block_end : forall s prev, no_close (prev :: s) -> skip_block prev s = [].
Proof.
  induction s as [|c s IH]; intros prev H; cbn [skip_block]; [reflexivity|].
  apply no_close_cons in H as [H1 H2]. rewrite starts_slash_cons in H1. replace ((c =? 47) && (prev =? 42)) with false by lia. apply IH, H2.
Qed.
Lemma no_close_zero : forall s, no_close s -> no_close (0 :: s).
Proof. intros s H. apply no_close_cons. split; [lia|exact H]. Qed.

(** *** Reading to the end: the relation *)
Inductive emits : cstate -> bytes -> cstate -> Prop :=
| E_done : forall st, emits st [] st
| E_call : forall st n c st' s st'', cm_call n st = Ok (c, st') -> c <> -1 -> emits st' s st'' -> emits st (c :: s) st''.
Lemma emits_app : forall a x b y c, emits a x b -> emits b y c -> emits a (x ++ y) c.
Proof. intros a x b y c H. induction H; intros K; cbn [app]; [exact K|]. econstructor; eauto. Qed.
(** Reading from [a] goes on as reading from [b] (a comment was skipped). *)
Definition skips (a b : cstate) : Prop := forall n r, cm_call n b = Ok r -> cm_call (S n) a = Ok r.

Ltac call := cbn [cm_call cs_next cs_in cs_str pull]; cbv beta iota zeta.
Lemma emit_char : forall c r, c <> 34 -> c <> 47 -> c <> -1 -> emits (mkCS (c :: r) (-1) false) [c] (mkCS r (-1) false).
Proof.
  intros c r H1 H2 H3. eapply (E_call _ 1); [|exact H3|constructor]. call. change (negb (-1 =? -1)) with false. cbv iota.
  replace (c =? 34) with false by lia. replace (c =? 47) with false by lia. reflexivity.
Qed.
Lemma emit_piece : forall p r, spiece_ok p -> good (spiece_text p) -> emits (mkCS (spiece_text p ++ r) (-1) true) (spiece_text p) (mkCS r (-1) true).
Proof.
  intros [c|c] r H G; cbn [spiece_text app] in *.
  - inversion_clear G as [|? ? Gc _]. destruct H as [H1 H2]. eapply (E_call _ 1); [|exact Gc|constructor]. call.
    change (negb (-1 =? -1)) with false. cbv iota. replace (c =? 92) with false by lia. replace (c =? 34) with false by lia. reflexivity.
  - inversion_clear G as [|? ? _ G']. inversion_clear G' as [|? ? Gc _]. eapply (E_call _ 1); [reflexivity|lia|].
    eapply (E_call _ 1); [|exact Gc|constructor]. call. replace (negb (c =? -1)) with true by lia. reflexivity.
Qed.
Lemma emit_body : forall b r, Forall spiece_ok b -> good (body_text b) -> emits (mkCS (body_text b ++ r) (-1) true) (body_text b) (mkCS r (-1) true).
Proof.
  intros b r H. induction H as [|p b Hp _ IH]; intros G; [constructor|]. unfold body_text in *. cbn [map concat] in *.
  apply Forall_app in G as [G1 G2]. rewrite <- app_assoc. eapply emits_app; [apply emit_piece; auto|apply IH, G2].
Qed.
Lemma emit_string : forall b r, Forall spiece_ok b -> good (body_text b) ->
  emits (mkCS (34 :: body_text b ++ 34 :: r) (-1) false) (34 :: body_text b ++ [34]) (mkCS r (-1) false).
Proof.
  intros b r H G. eapply (E_call _ 1); [reflexivity|lia|]. eapply emits_app; [apply emit_body; auto|].
  eapply (E_call _ 1); [reflexivity|lia|constructor].
Qed.
Lemma emit_slash : forall c r, c <> 47 -> c <> 42 -> c <> -1 -> emits (mkCS (47 :: c :: r) (-1) false) [47; c] (mkCS r (-1) false).
Proof.
  intros c r H1 H2 H3. eapply (E_call _ 1); [|lia|].
  - call. change (negb (-1 =? -1)) with false. change (47 =? 34) with false. change (47 =? 47) with true. cbv iota.
    replace (c =? 47) with false by lia. replace (c =? 42) with false by lia. reflexivity.
  - eapply (E_call _ 1); [|exact H3|constructor]. call. replace (negb (c =? -1)) with true by lia. reflexivity.
Qed.
Lemma skips_line : forall s nl r, Forall (fun c => c <> 13 /\ c <> 10) s -> nl = 13 \/ nl = 10 ->
  skips (mkCS (47 :: 47 :: s ++ nl :: r) (-1) false) (mkCS r (-1) false).
Proof. intros s nl r H Hn n x E. cbn [cm_call cs_next cs_in cs_str pull]. change (negb (-1 =? -1)) with false. cbv iota zeta beta.
  change (47 =? 34) with false. change (47 =? 47) with true. cbv iota. rewrite skip_line_ok by auto. exact E. Qed.
Lemma skips_block : forall s r, no_close (s ++ [42]) ->
  skips (mkCS (47 :: 42 :: s ++ 42 :: 47 :: r) (-1) false) (mkCS r (-1) false).
Proof. intros s r H n x E. cbn [cm_call cs_next cs_in cs_str pull]. change (negb (-1 =? -1)) with false. cbv iota zeta beta.
  change (47 =? 34) with false. change (47 =? 47) with true. change (42 =? 47) with false. change (42 =? 42) with true. cbv iota.
  rewrite skip_block_ok by (apply no_close_zero, H). exact E. Qed.

(** *** Whole texts *)
(** From state [st] a reader receives [s] and then -1. *)
Inductive reads_all : cstate -> bytes -> Prop :=
| R_end : forall st n st', cm_call n st = Ok (-1, st') -> reads_all st []
| R_call : forall st n c st' s, cm_call n st = Ok (c, st') -> c <> -1 -> reads_all st' s -> reads_all st (c :: s).
Lemma emits_reads : forall a x b s, emits a x b -> reads_all b s -> reads_all a (x ++ s).
Proof. intros a x b s H. induction H; intros K; cbn [app]; [exact K|]. econstructor; eauto. Qed.
Lemma skips_reads : forall a b s, skips a b -> reads_all b s -> reads_all a s.
Proof. intros a b s H K. inversion K; subst; [eapply R_end|eapply R_call]; eauto. Qed.
Lemma reads_eof : forall str, reads_all (mkCS [] (-1) str) [].
Proof. intros [|]; eapply (R_end _ 1); reflexivity. Qed.

Lemma tail_reads : forall e, tail_ok e -> good (tail_text e) -> reads_all (cs_init (tail_text e)) (tail_kept e).
Proof.
  unfold cs_init. intros [|b esc|s|s|] H G; cbn [tail_text tail_kept] in *.
  - apply reads_eof.
  - inversion_clear G as [|? ? _ G']. apply Forall_app in G' as [G1 G2]. eapply (R_call _ 1); [reflexivity|lia|].
    eapply emits_reads; [apply emit_body; auto|]. destruct esc; [|apply reads_eof].
    eapply (R_call _ 1); [reflexivity|lia|]. apply reads_eof.
  - apply skips_reads with (b := mkCS [] (-1) false); [|apply reads_eof]. intros n x E. cbn [cm_call cs_next cs_in cs_str pull].
    change (negb (-1 =? -1)) with false. cbv iota zeta beta. change (47 =? 34) with false. change (47 =? 47) with true. cbv iota.
    rewrite skip_line_end by auto. exact E.
  - apply skips_reads with (b := mkCS [] (-1) false); [|apply reads_eof]. intros n x E. cbn [cm_call cs_next cs_in cs_str pull].
    change (negb (-1 =? -1)) with false. cbv iota zeta beta. change (47 =? 34) with false. change (47 =? 47) with true.
    change (42 =? 47) with false. change (42 =? 42) with true. cbv iota.
    rewrite skip_block_end by (apply no_close_zero, H). exact E.
  - eapply (R_call _ 1); [reflexivity|lia|]. apply reads_eof.
Qed.
Lemma tokens_reads : forall ts e, Forall token_ok ts -> tail_ok e -> good (whole_text ts e) ->
  reads_all (cs_init (whole_text ts e)) (whole_kept ts e).
Proof.
  intros ts e H He. induction H as [|t ts Ht _ IH]; intros G; [apply tail_reads; auto|].
  unfold whole_text, whole_kept in *. cbn [map concat] in *. rewrite <- !app_assoc in *. apply Forall_app in G as [G1 G2]. specialize (IH G2).
  unfold cs_init in *. set (r := concat (map token_text ts) ++ tail_text e) in *. set (k := concat (map token_kept ts) ++ tail_kept e) in *.
  destruct t as [c|b|s nl|s|c]; cbn [token_text token_kept token_ok app] in *.
  - inversion_clear G1. eapply (emits_reads _ [c]); [apply emit_char; tauto|exact IH].
  - inversion_clear G1 as [|? ? _ G']. apply Forall_app in G' as [G1 _]. rewrite <- !app_assoc. cbn [app].
    change (34 :: body_text b ++ 34 :: k) with ([34] ++ body_text b ++ [34] ++ k). rewrite (app_assoc (body_text b)), (app_assoc [34]).
    eapply emits_reads; [|exact IH]. cbn [app]. apply emit_string; auto.
  - destruct Ht. rewrite <- app_assoc. cbn [app]. eapply skips_reads; [apply skips_line; auto|exact IH].
  - rewrite <- app_assoc. cbn [app]. eapply skips_reads; [apply skips_block; auto|exact IH].
  - inversion_clear G1 as [|? ? _ G']. inversion_clear G'. eapply (emits_reads _ [47; c]); [apply emit_slash; tauto|exact IH].
Qed.

(** *** The fuel is enough *)
Definition pending (st : cstate) : nat := (2 * length (cs_in st) + (if ((cs_next st =? -1)%Z) then 0 else 1))%nat.
Lemma skip_line_length : forall s, (length (skip_line s) <= length s)%nat.
Proof. induction s as [|c s IH]; cbn [skip_line length]; [lia|]. destruct ((c =? 13) || (c =? 10)); lia. Qed.
Lemma skip_block_length : forall s p, (length (skip_block p s) <= length s)%nat.
Proof. induction s as [|c s IH]; intros p; cbn [skip_block length]; [lia|]. destruct ((c =? 47) && (p =? 42)); [lia|]. specialize (IH c). lia. Qed.
Lemma cm_call_total : forall f st, (length (cs_in st) < f)%nat ->
  exists c st', cm_call f st = Ok (c, st') /\ (c = -1 \/ (pending st' < pending st)%nat).
Proof.
  induction f as [|f IH]; intros [s n str] H; [lia|]. cbn [cm_call cs_next cs_in cs_str] in *. unfold pending at 2. cbn [cs_in cs_next].
  destruct (Z.eqb_spec n (-1)) as [->|Hn]; cbn [negb].
  2:{ eexists. eexists. split; [reflexivity|]. right. unfold pending. cbn [cs_in cs_next]. change (-1 =? -1) with true. cbv iota. lia. }
  destruct s as [|c s]; cbn [pull length] in *.
  { destruct str; eexists; eexists; (split; [reflexivity|left; reflexivity]). }
  assert (P : forall st', (length (cs_in st') <= length s)%nat -> (pending st' < 2 * S (length s) + 0)%nat).
  { intros st' Hst. unfold pending. destruct (cs_next st' =? -1); lia. }
  destruct str.
  { destruct (c =? 92); [destruct s as [|d s]; cbn [pull]|destruct (c =? 34)]; eexists; eexists; (split; [reflexivity|right; apply P; cbn [cs_in length]; lia]). }
  destruct (c =? 34). { eexists; eexists; (split; [reflexivity|right; apply P; cbn [cs_in length]; lia]). }
  destruct (c =? 47).
  2:{ eexists; eexists; (split; [reflexivity|right; apply P; cbn [cs_in length]; lia]). }
  destruct s as [|d s]; cbn [pull length] in *.
  { cbn [Z.eqb]. eexists; eexists; (split; [reflexivity|right; apply P; cbn [cs_in length]; lia]). }
  assert (Rec : forall t, (length t <= length s)%nat -> exists c0 st', cm_call f (mkCS t (-1) false) = Ok (c0, st') /\
    (c0 = -1 \/ (pending st' < 2 * S (S (length s)) + 0)%nat)).
  { intros t Ht. destruct (IH (mkCS t (-1) false)) as (c0 & st' & E & K); [cbn [cs_in]; lia|]. exists c0, st'. split; [exact E|].
    destruct K as [K|K]; [left; exact K|right]. unfold pending at 2 in K. cbn [cs_in cs_next] in K. change (-1 =? -1) with true in K. cbv iota in K. lia. }
  destruct (d =? 47); [apply Rec, skip_line_length|]. destruct (d =? 42); [apply Rec, skip_block_length|].
  eexists; eexists; (split; [reflexivity|right; apply P; cbn [cs_in length]; lia]).
Qed.
Lemma cm_call_mono : forall f st r, cm_call f st = Ok r -> forall g, (f <= g)%nat -> cm_call g st = Ok r.
Proof.
  induction f as [|f IH]; intros [s n str] r E g Hg; [discriminate|]. destruct g as [|g]; [lia|].
  cbn [cm_call cs_next cs_in cs_str] in *. destruct (negb (n =? -1)); [exact E|]. destruct (pull s) as [c s1].
  destruct str; [exact E|]. destruct (c =? 34); [exact E|]. destruct (c =? 47); [|exact E]. destruct (pull s1) as [d s2].
  destruct (d =? 47); [eapply IH; eauto; lia|]. destruct (d =? 42); [eapply IH; eauto; lia|exact E].
Qed.
Lemma cm_call_det : forall f g st r r', cm_call f st = Ok r -> cm_call g st = Ok r' -> r = r'.
Proof. intros f g st r r' H K. pose proof (cm_call_mono _ _ _ H (max f g) ltac:(lia)). pose proof (cm_call_mono _ _ _ K (max f g) ltac:(lia)). congruence. Qed.
Lemma drain_reads : forall s st, reads_all st s -> forall fuel, (pending st < fuel)%nat -> cm_drain fuel st = Ok s.
Proof.
  intros s st H. induction H as [st n st' E|st n c st' s E Hc _ IH]; intros fuel Hf; (destruct fuel as [|f]; [lia|]); cbn [cm_drain];
    destruct (cm_call_total (S (length (cs_in st))) st ltac:(lia)) as (c0 & st0 & E0 & K); rewrite E0; cbn [bind];
    pose proof (cm_call_det _ _ _ _ _ E0 E) as D; injection D as -> ->.
  - reflexivity.
  - replace (c =? -1) with false by lia. rewrite IH by lia. reflexivity.
Qed.
Lemma remove_tokens : forall ts e, Forall token_ok ts -> tail_ok e -> good (whole_text ts e) ->
  remove_comments (whole_text ts e) = Ok (whole_kept ts e).
Proof.
  intros ts e H He G. unfold remove_comments. apply drain_reads; [apply tokens_reads; auto|].
  unfold pending, cs_init. cbn [cs_in cs_next]. change (-1 =? -1) with true. cbv iota. lia.
Qed.

(** *** Every text has this structure *)
Lemma cover_body : forall n s, (length s <= n)%nat -> exists b, Forall spiece_ok b /\
  ((exists r, s = body_text b ++ 34 :: r) \/ s = body_text b \/ s = body_text b ++ [92]).
Proof.
  induction n as [|n IH]; intros s Hn.
  { destruct s; [|cbn [length] in Hn; lia]. exists []. split; [constructor|]. right. left. reflexivity. }
  destruct s as [|c s]; [exists []; split; [constructor|]; right; left; reflexivity|]. cbn [length] in Hn.
  destruct (Z.eq_dec c 34) as [->|H1]; [exists []; split; [constructor|]; left; exists s; reflexivity|].
  destruct (Z.eq_dec c 92) as [->|H2].
  - destruct s as [|d s]; [exists []; split; [constructor|]; right; right; reflexivity|].
    destruct (IH s) as (b & Hb & K); [cbn [length] in Hn; lia|]. exists (SEscape d :: b). split; [constructor; [exact I|exact Hb]|].
    unfold body_text in *. cbn [map concat spiece_text app]. destruct K as [(r & ->)|[->| ->]]; [left; exists r; reflexivity|right; left; reflexivity|right; right; reflexivity].
  - destruct (IH s) as (b & Hb & K); [lia|]. exists (SChar c :: b). split; [constructor; [split; auto|exact Hb]|].
    unfold body_text in *. cbn [map concat spiece_text app]. destruct K as [(r & ->)|[->| ->]]; [left; exists r; reflexivity|right; left; reflexivity|right; right; reflexivity].
Qed.
Lemma cover_line : forall s, (exists t nl r, s = t ++ nl :: r /\ Forall (fun c => c <> 13 /\ c <> 10) t /\ (nl = 13 \/ nl = 10)) \/
  Forall (fun c => c <> 13 /\ c <> 10) s.
Proof.
  induction s as [|c s IH]; [right; constructor|]. destruct (Z.eq_dec c 13) as [->|H1]; [left; exists [], 13, s; repeat split; auto|].
  destruct (Z.eq_dec c 10) as [->|H2]; [left; exists [], 10, s; repeat split; auto|].
  destruct IH as [(t & nl & r & -> & H & K)|H]; [left; exists (c :: t), nl, r; repeat split; auto|right; constructor; auto].
Qed.
Lemma cover_block : forall s, (exists t r, s = t ++ 42 :: 47 :: r /\ no_close (t ++ [42])) \/ no_close s.
Proof.
  induction s as [|c s IH]; [right; exact I|].
  destruct (Z.eq_dec c 42) as [->|Hc].
  - destruct s as [|d s]; [right; exact I|]. destruct (Z.eq_dec d 47) as [->|Hd]; [left; exists [], s; split; [reflexivity|exact I]|].
    destruct IH as [(t & r & E & H)|H].
    + left. exists (42 :: t), r. split; [cbn [app]; rewrite E; reflexivity|]. cbn [app]. apply no_close_cons. split; [|exact H].
      intros [_ K]. destruct t as [|x t]; cbn [app] in *; injection E as -> _; rewrite starts_slash_cons in K; lia.
    + right. apply no_close_cons. split; [|exact H]. rewrite starts_slash_cons. lia.
  - destruct IH as [(t & r & -> & H)|H]; [left; exists (c :: t), r; split; [reflexivity|]|right]; cbn [app]; apply no_close_cons; (split; [tauto|exact H]).
Qed.
Lemma cover : forall n s, (length s <= n)%nat -> exists ts e, Forall token_ok ts /\ tail_ok e /\ whole_text ts e = s.
Proof.
  induction n as [|n IH]; intros s Hn.
  { destruct s; [|cbn [length] in Hn; lia]. exists [], EndHere. repeat split. constructor. }
  assert (Step : forall t r, token_ok t -> s = token_text t ++ r -> (length r <= n)%nat -> exists ts e, Forall token_ok ts /\ tail_ok e /\ whole_text ts e = s).
  { intros t r Ht -> Hr. destruct (IH r Hr) as (ts & e & H1 & H2 & <-). exists (t :: ts), e. split; [constructor; auto|]. split; [exact H2|].
    unfold whole_text. cbn [map concat]. rewrite <- app_assoc. reflexivity. }
  assert (Last : forall e, tail_ok e -> s = tail_text e -> exists ts e, Forall token_ok ts /\ tail_ok e /\ whole_text ts e = s).
  { intros e He ->. exists [], e. split; [constructor|]. split; [exact He|reflexivity]. }
  destruct s as [|c s]; [apply (Last EndHere); [exact I|reflexivity]|]. cbn [length] in Hn.
  destruct (Z.eq_dec c 34) as [->|H1].
  { destruct (cover_body (length s) s ltac:(lia)) as (b & Hb & [(r & ->)|[->| ->]]).
    - apply (Step (TString b) r); [exact Hb|cbn [token_text app]; rewrite <- app_assoc; reflexivity|]. rewrite app_length in Hn. cbn [length] in Hn. lia.
    - apply (Last (EndString b false)); [exact Hb|cbn [tail_text]; rewrite app_nil_r; reflexivity].
    - apply (Last (EndString b true)); [exact Hb|reflexivity]. }
  destruct (Z.eq_dec c 47) as [->|H2]; [|apply (Step (TChar c) s); [split; auto|reflexivity|lia]].
  destruct s as [|d s]; [apply (Last EndSlash); [exact I|reflexivity]|]. cbn [length] in Hn.
  destruct (Z.eq_dec d 47) as [->|H3].
  { destruct (cover_line s) as [(t & nl & r & -> & Ht & K)|Ht].
    - apply (Step (TLine t nl) r); [split; auto|cbn [token_text app]; rewrite <- app_assoc; reflexivity|]. rewrite app_length in Hn. cbn [length] in Hn. lia.
    - apply (Last (EndLine s)); [exact Ht|reflexivity]. }
  destruct (Z.eq_dec d 42) as [->|H4].
  { destruct (cover_block s) as [(t & r & -> & Ht)|Ht].
    - apply (Step (TBlock t) r); [exact Ht|cbn [token_text app]; rewrite <- app_assoc; reflexivity|]. rewrite app_length in Hn. cbn [length] in Hn. lia.
    - apply (Last (EndBlock s)); [exact Ht|reflexivity]. }
  apply (Step (TSlash d) s); [split; auto|reflexivity|lia].
Qed.
Lemma cover_text : forall s, exists ts e, Forall token_ok ts /\ tail_ok e /\ whole_text ts e = s.
Proof. intros s. apply (cover (length s)). lia. Qed.

Lemma no_slash_same : forall s, good s -> ~ In 47 s -> remove_comments s = Ok s.
Proof.
  intros s G H. destruct (cover_text s) as (ts & e & H1 & H2 & E). rewrite <- E in *. rewrite remove_tokens by auto. f_equal.
  unfold whole_text, whole_kept in *. f_equal.
  - assert (K : ~ In 47 (concat (map token_text ts))) by (intros K; apply H, in_or_app; left; exact K). clear -K.
    induction ts as [|t ts IH]; [reflexivity|]. cbn [map concat] in *. rewrite IH by (intros Q; apply K, in_or_app; right; exact Q).
    destruct t; try reflexivity; exfalso; apply K, in_or_app; left; left; reflexivity.
  - assert (K : ~ In 47 (tail_text e)) by (intros K; apply H, in_or_app; right; exact K).
    destruct e; try reflexivity; exfalso; apply K; left; reflexivity.
Qed.

(** *** JSON texts have no comments *)
Definition lexes (s : bytes) : Prop :=
  exists ts, Forall (fun t => token_ok t /\ token_kept t = token_text t) ts /\ concat (map token_text ts) = s.
Lemma lexes_app : forall a b, lexes a -> lexes b -> lexes (a ++ b).
Proof.
  intros a b (ts & H & <-) (us & K & <-). exists (ts ++ us). split; [apply Forall_app; auto|]. rewrite map_app, concat_app. reflexivity.
Qed.
Lemma lexes_char : forall c s, c <> 34 -> c <> 47 -> lexes s -> lexes (c :: s).
Proof. intros c s H1 H2 H. apply (lexes_app [c]); [|exact H]. exists [TChar c]. split; [repeat constructor; auto|reflexivity]. Qed.
Lemma lexes_chars : forall s, Forall (fun c => c <> 34 /\ c <> 47) s -> lexes s.
Proof. intros s H. induction H as [|c s [H1 H2] _ IH]; [exists []; split; [constructor|reflexivity]|apply lexes_char; auto]. Qed.
Lemma lexes_ws : forall w, ws w -> lexes w.
Proof. intros w H. apply lexes_chars. eapply Forall_impl; [|exact H]. intros c K. unfold ws_char in K. lia. Qed.
Lemma lexes_number : forall n t, any_number n t -> lexes t.
Proof.
  assert (D : forall ds, Forall digit_char ds -> lexes ds).
  { intros ds H. apply lexes_chars. eapply Forall_impl; [|exact H]. intros c K. unfold digit_char in K. lia. }
  assert (N : lexes []) by (exists []; split; [constructor|reflexivity]).
  intros n t (sg & ip & fp & ex & -> & Hs & [_ Hi] & Hf & He). apply lexes_app; [|apply lexes_app; [apply D, Hi|apply lexes_app]].
  - destruct Hs as [->| ->]; [exact N|apply lexes_char; auto; lia].
  - destruct Hf as [->|(ds & -> & _ & H)]; [exact N|apply lexes_char; [lia|lia|apply D, H]].
  - destruct He as [->|(e & s & ds & -> & H1 & H2 & _ & H3)]; [exact N|]. apply lexes_char; [lia|lia|]. apply lexes_app; [|apply D, H3].
    destruct H2 as [->|[->| ->]]; [exact N|apply lexes_char; auto; lia|apply lexes_char; auto; lia].
Qed.
Lemma chars_body : forall s, Forall (fun c => c <> 34 /\ c <> 92) s -> exists b, Forall spiece_ok b /\ body_text b = s.
Proof.
  intros s H. induction H as [|c s Hc _ (b & H & E)]; [exists []; split; [constructor|reflexivity]|].
  exists (SChar c :: b). split; [constructor; auto|]. unfold body_text in *. cbn [map concat spiece_text app]. rewrite E. reflexivity.
Qed.
Lemma body_app : forall b1 b2, body_text (b1 ++ b2) = body_text b1 ++ body_text b2.
Proof. intros. unfold body_text. rewrite map_app, concat_app. reflexivity. Qed.
Lemma jstr_body : forall s b, jstr s b -> exists p, Forall spiece_ok p /\ body_text p = b.
Proof.
  intros s b H. induction H as [|c s b Hc H1 H2 H3 _ (p & Hp & E)|e x s b Hin _ (p & Hp & E)|a b c d va vb vc vd s t Ha Hb Hc Hd _ (p & Hp & E)].
  - exists []. split; [constructor|reflexivity].
  - destruct (chars_body (utf8_bytes c)) as (q & Hq & Eq).
    { unfold utf8_bytes. unfold is_cp in Hc. repeat match goal with |- context [if ?x then _ else _] => destruct x eqn:? end; repeat constructor; zify; Z.to_euclidean_division_equations; lia. }
    exists (q ++ p). split; [apply Forall_app; auto|]. rewrite body_app, Eq, E. reflexivity.
  - exists (SEscape e :: p). split; [constructor; [exact I|exact Hp]|]. unfold body_text in *. cbn [map concat spiece_text app]. rewrite E. reflexivity.
  - exists (SEscape 117 :: SChar a :: SChar b :: SChar c :: SChar d :: p). split.
    + constructor; [exact I|]. unfold hex_char in *. constructor; [cbn [spiece_ok]; lia|]. constructor; [cbn [spiece_ok]; lia|].
      constructor; [cbn [spiece_ok]; lia|]. constructor; [cbn [spiece_ok]; lia|exact Hp].
    + unfold body_text in *. cbn [map concat spiece_text app]. rewrite E. reflexivity.
Qed.
Lemma lexes_string : forall s b r, jstr s b -> lexes r -> lexes (34 :: b ++ 34 :: r).
Proof.
  intros s b r H Hr. destruct (jstr_body s b H) as (p & Hp & <-).
  replace (34 :: body_text p ++ 34 :: r) with (token_text (TString p) ++ r) by (cbn [token_text app]; rewrite <- app_assoc; reflexivity).
  apply lexes_app; [|exact Hr]. exists [TString p]. split; [constructor; [split; [exact Hp|reflexivity]|constructor]|cbn [map concat]; apply app_nil_r].
Qed.
Scheme jval_ind3 := Induction for jval Sort Prop with jelems_ind3 := Induction for jelems Sort Prop with jmembers_ind3 := Induction for jmembers Sort Prop.
Lemma lexes_jval : forall v t, jval any_number v t -> lexes t.
Proof.
  assert (N : lexes []) by (exists []; split; [constructor|reflexivity]).
  assert (W : forall s, Forall (fun c => c <> 34 /\ c <> 47) s -> lexes s) by (apply lexes_chars).
  apply (jval_ind3 any_number (fun v t _ => lexes t) (fun l t _ => lexes t) (fun l t _ => lexes t)); intros.
  - apply W. repeat constructor; lia.
  - apply W. repeat constructor; lia.
  - apply W. repeat constructor; lia.
  - eapply lexes_number; eauto.
  - eapply lexes_string; eauto.
  - eapply lexes_string; eauto.
  - eapply lexes_string; eauto.
  - apply lexes_char; [lia|lia|]. apply lexes_app; [apply lexes_ws; auto|]. apply lexes_char; auto; lia.
  - apply lexes_char; [lia|lia|]. apply lexes_app; [auto|]. apply lexes_char; auto; lia.
  - apply lexes_char; [lia|lia|]. apply lexes_app; [apply lexes_ws; auto|]. apply lexes_char; auto; lia.
  - apply lexes_char; [lia|lia|]. apply lexes_app; [auto|]. apply lexes_char; auto; lia.
  - repeat apply lexes_app; auto using lexes_ws.
  - repeat apply lexes_app; auto using lexes_ws. apply lexes_char; auto; lia.
  - apply lexes_app; [auto using lexes_ws|]. eapply lexes_string; [eauto|]. apply lexes_app; [auto using lexes_ws|]. apply lexes_char; [lia|lia|].
    repeat apply lexes_app; auto using lexes_ws.
  - apply lexes_app; [auto using lexes_ws|]. eapply lexes_string; [eauto|]. apply lexes_app; [auto using lexes_ws|]. apply lexes_char; [lia|lia|].
    repeat apply lexes_app; auto using lexes_ws. apply lexes_char; auto; lia.
Qed.
Lemma lexes_same : forall s, lexes s -> good s -> remove_comments s = Ok s.
Proof.
  intros s (ts & H & <-) G. pose proof (remove_tokens ts EndHere) as R. unfold whole_text, whole_kept in R. cbn [tail_text tail_kept] in R.
  rewrite !app_nil_r in R. rewrite R; [|eapply Forall_impl; [|exact H]; cbn; tauto|exact I|exact G]. f_equal. f_equal.
  apply map_ext_Forall. eapply Forall_impl; [|exact H]. cbn; tauto.
Qed.
Lemma json_same : forall v t w w', jval any_number v t -> ws w -> ws w' -> is_bytes t -> remove_comments (w ++ t ++ w') = Ok (w ++ t ++ w').
Proof.
  intros v t w w' H Hw Hw' Hb. assert (K : forall w, ws w -> good w).
  { intros u Hu. eapply Forall_impl; [|exact Hu]. intros c Hc. unfold ws_char in Hc. lia. }
  apply lexes_same; [repeat apply lexes_app; auto using lexes_ws; eapply lexes_jval; eauto|].
  apply Forall_app; split; [apply K, Hw|]. apply Forall_app; split; [|apply K, Hw'].
  eapply Forall_impl; [|exact Hb]. intros c Hc. unfold is_byte in Hc. lia.
Qed.
