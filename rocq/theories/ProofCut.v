(** Documents cut short. *)
From Coq Require Import Lia ZifyBool.
From Verif Require Import Base SpecUtf8 ModelUtf8 ModelKeyed ModelValue ModelText SpecText SpecAccept SpecDocs ProofText3 ProofAccept ProofAccept2 ProofText4 ProofJwt2 ProofDocs ProofDocs2.
Local Open Scope list_scope.
Local Open Scope Z_scope.

Definition closed_by (t : list Z) : Prop := exists u c, t = u ++ [c] /\ c <> -1.
Lemma closed_pre : forall a t, closed_by t -> closed_by (a ++ t).
Proof. intros a t (u & c & -> & C). exists (a ++ u), c. rewrite app_assoc. auto. Qed.
Lemma closed_digits : forall ds, digits ds -> ds <> [] -> closed_by ds.
Proof.
  intros ds D N. destruct (exists_last N) as (u & c & ->). exists u, c. split; [reflexivity|]. apply Forall_app in D as [_ D]. inversion D as [|? ? C _]. unfold digit_char in C. lia.
Qed.
Lemma closed_exponent : forall ex, exponent ex -> ex <> [] -> closed_by ex.
Proof.
  intros ex [->|(e & s & ds & -> & _ & _ & N & D)] K; [congruence|]. apply (closed_pre [e]). apply closed_pre. apply closed_digits; assumption.
Qed.
Lemma closed_number : forall F n t, flag_value F n t -> closed_by t.
Proof.
  assert (X : forall sg ip fp ex, digits ip -> (fp = [] \/ exists ds, fp = 46 :: ds /\ digits ds) -> exponent ex -> ip <> [] \/ fp <> [] -> closed_by (sg ++ ip ++ fp ++ ex)).
  { intros sg ip fp ex Di Df De N. apply closed_pre. destruct ex as [|e ex].
    - rewrite app_nil_r. destruct Df as [->|(ds & -> & Dd)].
      + rewrite app_nil_r. apply closed_digits; [exact Di|]. destruct N; congruence.
      + apply closed_pre. destruct ds as [|d ds]; [exists [], 46; split; [reflexivity|lia]|]. apply (closed_pre [46]). apply closed_digits; [exact Dd|discriminate].
    - do 2 apply closed_pre. apply closed_exponent; [exact De|discriminate]. }
  intros F n t H. unfold flag_value in H. destruct (precise F).
  - destruct H as [(sg & ip & fp & ex & -> & _ & N & D & Df & De) _]. apply X; auto.
  - destruct H as (sg & ip & fp & ex & -> & (_ & D & Df & De & N) & _). apply X; auto.
    + destruct Df as [->|(ds & -> & _ & Dd)]; [auto|right; eauto].
    + destruct ip; [right; auto|left; discriminate].
Qed.
Lemma closed_value : forall F v t, gval reads_as (flag_value F) v t -> closed_by t.
Proof.
  assert (K : forall a b c, c <> -1 -> closed_by (a :: b ++ [c])) by (intros a b c C; exists (a :: b), c; auto).
  intros F v t H. destruct H; try (apply K; discriminate).
  - exists [110;117;108], 108. split; [reflexivity|discriminate].
  - exists [116;114;117], 101. split; [reflexivity|discriminate].
  - exists [102;97;108;115], 101. split; [reflexivity|discriminate].
  - eapply closed_number; eassumption.
Qed.
Lemma open_number : forall F n x t, flag_value F n (x :: t) -> ~ space x.
Proof.
  assert (X : forall sg ip fp ex x t, sign sg -> digits ip -> (fp = [] \/ exists ds, fp = 46 :: ds) -> ip <> [] \/ fp <> [] -> x :: t = sg ++ ip ++ fp ++ ex -> ~ space x).
  { intros sg ip fp ex x t S D Df N E. unfold space. destruct S as [->|[->| ->]]; cbn [app] in E; [|injection E as -> _; lia|injection E as -> _; lia].
    destruct ip as [|d ip]; [|inversion_clear D as [|? ? Dd _]; cbn [app] in E; injection E as -> _; unfold digit_char in Dd; lia].
    destruct Df as [->|(ds & ->)]; [destruct N; congruence|]. cbn [app] in E. injection E as -> _. lia. }
  intros F n x t H. unfold flag_value in H. destruct (precise F).
  - destruct H as [(sg & ip & fp & ex & E & S & N & D & Df & De) _]. refine (X sg ip fp ex x t S D _ (or_introl N) E). destruct Df as [->|(ds & -> & _)]; eauto.
  - destruct H as (sg & ip & fp & ex & E & (S & D & Df & De & N) & _). refine (X sg ip fp ex x t S D _ _ E).
    + destruct Df as [->|(ds & -> & _ & Dd)]; [auto|right; eauto].
    + destruct ip; [right; auto|left; discriminate].
Qed.
Lemma open_value : forall F v x t, gval reads_as (flag_value F) v (x :: t) -> ~ space x.
Proof. intros F v x t H. inversion H; subst; try (unfold space; lia). eapply open_number; eassumption. Qed.

Lemma before_end : forall n a x b, a ++ repeat (-1) n = x ++ b -> closed_by x -> exists a', a = x ++ a' /\ b = a' ++ repeat (-1) n.
Proof.
  intros n a x b E (u & c & -> & C). revert a E. induction u as [|y u IH]; intros a E; cbn [app] in E.
  - destruct a as [|z a]; [destruct n; cbn in E; inversion E; congruence|]. cbn [app] in E. injection E as -> <-. exists a. auto.
  - destruct a as [|z a].
    + exfalso. assert (I : In c (repeat (-1) n)) by (cbn [app] in E; rewrite E; right; rewrite <- app_assoc; apply in_or_app; right; left; reflexivity). apply repeat_spec in I. congruence.
    + cbn [app] in E. injection E as -> E. destruct (IH a E) as (a' & -> & ->). exists a'. auto.
Qed.

Lemma first_same : forall w c r w' c' r', w ++ c :: r = w' ++ c' :: r' -> spaces w -> spaces w' -> ~ space c -> ~ space c' -> c = c'.
Proof.
  induction w as [|x w IH]; intros c r w' c' r' E Sw Sw' C C'; destruct w' as [|y w']; cbn [app] in E; injection E as E1 E2.
  - exact E1.
  - subst. inversion Sw'. contradiction.
  - subst. inversion Sw. contradiction.
  - inversion Sw. inversion Sw'. eapply IH; eauto.
Qed.

Section Run.
Variable L : libm.
Variable F : pflags.
Lemma cut_short : forall t v, Forall source_char t -> parse_source L F t = Ok (v, mkR [] None) ->
  forall t1 t2 n, t = t1 ++ t2 -> t2 <> [] -> parse_source L F (t1 ++ repeat (-1) n) = Err.
Proof.
  intros t v S P t1 t2 n -> N. destruct (parse_source L F (t1 ++ repeat (-1) n)) as [[v' r]| |] eqn:E; [exfalso|reflexivity|exfalso; exact (parse_source_fuel L F _ E)].
  assert (S1 : Forall source_char (t1 ++ repeat (-1) n)).
  { apply Forall_app in S as [S _]. apply Forall_app. split; [exact S|]. apply Forall_forall. intros x I. apply repeat_spec in I. subst. unfold source_char. lia. }
  destruct (looks_ahead L F _ _ _ S P) as (w & c & rest & Ew & Sw & C & A). cbn [cur] in A.
  destruct (looks_ahead L F _ _ _ S1 E) as (w1 & c1 & rest1 & Ew1 & Sw1 & C1 & A1).
  destruct (parse_sound L F _ _ _ S1 E) as (w2 & u & rest2 & v0 & Ew2 & Sw2 & G & _ & _ & At).
  destruct (before_end n t1 (w2 ++ u) rest2) as (a' & Ea & Eb); [rewrite Ew2, app_assoc; reflexivity|apply closed_pre; exact (closed_value F _ _ G)|].
  assert (c1 = c).
  { destruct u as [|x u]; [destruct (closed_value F _ _ G) as (q & z & Q & _); destruct q; discriminate|].
    assert (X : ~ space x) by exact (open_value F _ _ _ G).
    assert (c = x).
    { refine (first_same w c rest w2 x (u ++ a' ++ t2) _ Sw Sw2 C X). rewrite <- Ew, Ea. rewrite <- !app_assoc. reflexivity. }
    assert (c1 = x) by (refine (first_same w1 c1 rest1 w2 x (u ++ rest2) _ Sw1 Sw2 C1 X); rewrite <- Ew1, Ew2; reflexivity).
    congruence. }
  subst c1. assert (Cn : cur r = None) by (destruct (cur r) as [z|]; [exfalso; apply A; [apply A1; discriminate|reflexivity]|reflexivity]).
  destruct (reads_exactly L F _ _ _ E) as (q & Eq & Hq); [rewrite Cn; discriminate|].
  unfold at_pos in At. rewrite Cn in At. rewrite At in Eq. rewrite Ew2, app_assoc in Eq. apply app_inv_tail in Eq. subst q.
  specialize (Hq (a' ++ t2)). rewrite app_assoc, <- Ea, P in Hq. injection Hq as _ Hq _. destruct a', t2; try discriminate. congruence.
Qed.
End Run.

Lemma ser_first : forall E utf8 v, doc_ok utf8 v -> ~ numeric v -> exists c t, ser E utf8 v = c :: t /\ In c [110; 116; 102; 34; 91; 123].
Proof.
  intros E utf8 v H N. destruct H as [|b|n R|n R|s|s S I J|l Fl|d l K Fl]; try (destruct (N I)).
  - eexists _, _. split; [reflexivity|]. cbn. auto.
  - destruct b; (eexists _, _; split; [reflexivity|]; cbn; auto).
  - destruct s; (eexists _, _; split; [reflexivity|]; cbn; auto).
  - eexists _, _. split; [reflexivity|]. cbn. auto.
  - eexists _, _. split; [reflexivity|]. cbn. auto 6.
  - eexists _, _. split; [reflexivity|]. cbn. auto 7.
Qed.
Lemma written_cut : forall L E F sg utf8 v, precise F = false -> doc_ok utf8 v -> ~ numeric v ->
  forall t1 t2 n, ser E utf8 v = t1 ++ t2 -> t2 <> [] -> parse_source L F (map (as_source sg) t1 ++ repeat (-1) n) = Err.
Proof.
  intros L E F sg utf8 v HF Hv Hn t1 t2 n Et N.
  destruct (document_round_trip L E F sg utf8 v [] [] HF Hv (Forall_nil _) I) as (v' & r & P & _ & At). cbn [app] in P. rewrite app_nil_r in P.
  assert (S : Forall source_char (map (as_source sg) (ser E utf8 v))).
  { apply Forall_map. refine (Forall_impl _ _ (ser_bytes E utf8 v Hv)). intros b B. unfold is_byte in B. unfold source_char, as_source, schar. destruct sg; [destruct (_ <? _) eqn:X|]; lia. }
  destruct (looks_ahead L F _ _ _ S P) as (w & c & rest & Ew & Sw & C & A).
  destruct (ser_first E utf8 v Hv Hn) as (c0 & t0 & E0 & I0).
  assert (Cn : cur r = None).
  { destruct (cur r) as [z|]; [exfalso|reflexivity]. assert (Nc : number_start c) by (apply A; discriminate).
    assert (As : as_source sg c0 = c0 /\ ~ space c0 /\ ~ number_start c0).
    { unfold space, number_start, digit_char. cbn [In] in I0. destruct sg; unfold as_source, schar; (split; [|lia]); [destruct (_ <? _) eqn:X; lia|reflexivity]. }
    destruct As as (As & Sp & Ns). rewrite E0 in Ew. cbn [map] in Ew. rewrite As in Ew.
    pose proof (first_same [] c0 (map (as_source sg) t0) w c rest Ew (Forall_nil _) Sw Sp C) as X. subst. contradiction. }
  unfold at_pos in At. rewrite Cn in At. destruct r as [sr cr]. cbn [src cur] in *. subst.
  refine (cut_short L F _ v' S P (map (as_source sg) t1) (map (as_source sg) t2) n _ _); [rewrite Et; apply map_app|destruct t2; [congruence|discriminate]].
Qed.
