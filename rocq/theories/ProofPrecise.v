From Verif Require Import Base ModelValue ModelText SpecText SpecAccept ModelPrecise
  ProofText1 ProofText2 ProofText3 ProofText5 ProofAccept ProofAccept2 ProofAccept3.
Local Open Scope Z_scope.

(** The parser stops with a character fetched. *)
Lemma parse_precise_loaded : forall r t isf r', parse_precise r = Ok (t, isf, r') -> cur r' <> None.
Proof.
  intros r t isf r' H. unfold parse_precise in H. destruct (next_commit r) as [c0 r0].
  destruct (if _ : bool then _ else _) as [[sgn c1] s1] in H. destruct (isdigit c1); [|discriminate].
  destruct (digit_run c1 s1) as [[ip c2] s2]. destruct (if c2 =? 46 then _ else _) as [[[fp b] c3] s3].
  destruct (is_e c3).
  - destruct (pull s3) as [c4 s4]. destruct (if _ : bool then _ else _) as [[es c5] s5] in H. destruct (isdigit c5); [|discriminate].
    destruct (digit_run c5 s5) as [[ed c6] s6]. inversion H; subst; discriminate.
  - inversion H; subst; discriminate.
Qed.
Lemma parse_number_loaded : forall L v r r', parse_number L (mkPF false true) r = Ok (v, r') -> cur r' <> None.
Proof.
  intros L v r r' H. unfold parse_number in H. cbn [precise] in H. destruct (parse_precise r) as [[[t b] r1]| |] eqn:E; cbn [bind] in H; try discriminate.
  injection H as _ <-. eapply parse_precise_loaded; eauto.
Qed.

Lemma precise_number_sound : forall L s b v, precise_number_of L s b = Ok v ->
  exists n, v = VNum n /\ (precise_value n s \/ precise_value n (s ++ [b])).
Proof.
  intros L s b v H. unfold precise_number_of, parse_number in H. cbn [precise] in H.
  destruct (parse_precise _) as [[[t isf] r1]| |] eqn:E; cbn [bind] in H; try discriminate.
  pose proof (parse_precise_loaded _ _ _ _ E) as Hl. apply (parse_precise_inv _ (s ++ [b])) in E as (rest & Et & Ht & Hat); [|reflexivity].
  destruct (src r1) eqn:Es; [|discriminate]. injection H as <-. eexists. split; [reflexivity|].
  destruct (number_raw_prec t isf) as (k & ->). unfold at_pos in Hat. destruct (cur r1) as [c|]; [|tauto]. rewrite Es in Hat.
  destruct Hat as [-> |[-> _]].
  - left. apply app_inj_tail in Et as [-> _]. split; eauto.
  - right. rewrite app_nil_r in Et. subst t. split; eauto.
Qed.

Lemma loaded_end : forall r b, cur r <> None -> at_pos r [b] -> src r = [].
Proof.
  intros r b Hl H. unfold at_pos in H. destruct (cur r) as [c|]; [|tauto]. destruct H as [H|[H _]]; [|discriminate]. injection H as _ <-. reflexivity.
Qed.

Lemma precise_number_complete : forall L s b, precise_text s -> num_end [b] ->
  exists n, precise_number_of L s b = Ok (VNum n) /\ precise_value n s.
Proof.
  intros L s b Hs Hb. destruct (precise_read L (mkPF false true) s eq_refl Hs) as (n & Hr & Hv & _).
  destruct (Hr (mkR (s ++ [b]) None) [b] Hb eq_refl) as (r' & E & Hat). exists n. split; auto.
  unfold precise_number_of. rewrite E. cbn [bind]. rewrite (loaded_end r' b); auto. eapply parse_number_loaded; eauto.
Qed.

(** A number ends with a digit or a point. *)
Lemma precise_last : forall s b, precise_text (s ++ [b]) -> ~ num_end [b].
Proof.
  intros s b (sg & ip & fp & ex & E & Hsg & Hne & Hip & Hfp & Hex) (H1 & H2 & H3 & H4).
  assert (Hlast : forall (l : list Z) p, l <> [] -> digits l -> s ++ [b] = p ++ l -> False).
  { intros l p Hl Hd El. destruct (exists_last Hl) as (l' & x & ->). rewrite app_assoc in El. apply app_inj_tail in El as [_ <-].
    apply H1. apply Forall_app in Hd as [_ Hd]. inversion Hd; auto. }
  destruct Hex as [->|(e & es & ds & -> & _ & _ & Hd & Hds)].
  - rewrite app_nil_r in E. destruct Hfp as [->|(ds & -> & Hds)].
    + rewrite app_nil_r in E. eapply Hlast; eauto.
    + destruct ds as [|d ds].
      * rewrite app_assoc in E. apply app_inj_tail in E as [_ E]. congruence.
      * apply (Hlast (d :: ds) (sg ++ ip ++ [46])); auto; [discriminate|]. rewrite E, <- !app_assoc. reflexivity.
  - apply (Hlast ds (sg ++ ip ++ fp ++ e :: es)); auto. rewrite E, <- !app_assoc. reflexivity.
Qed.

Lemma precise_number_iff : forall L s b, num_end [b] ->
  ((exists v, precise_number_of L s b = Ok v) <-> precise_text s) /\
  (forall v, precise_number_of L s b = Ok v -> exists k, v = VNum (NPrec s k)).
Proof.
  intros L s b Hb. assert (Hs : forall v, precise_number_of L s b = Ok v -> exists n, v = VNum n /\ precise_value n s).
  { intros v Hv. apply precise_number_sound in Hv as (n & -> & [H|[H _]]); [eauto|]. exfalso. exact (precise_last s b H Hb). }
  split; [split|].
  - intros [v Hv]. apply Hs in Hv as (n & _ & H & _). exact H.
  - intros H. destruct (precise_number_complete L s b H Hb) as (n & E & _). eauto.
  - intros v Hv. apply Hs in Hv as (n & -> & _ & k & ->). eauto.
Qed.

Lemma precise_number_integer : forall L k s b, kind_literal k s -> num_end [b] ->
  precise_number_of L s b = Ok (VNum (NPrec s k)).
Proof.
  intros L n s b Hi Hb.
  assert (H : forall sg ip k, (sg = [] \/ sg = [45]) -> ip <> [] -> Forall digit_char ip ->
    number_from_string_raw (sg ++ ip) false = NPrec (sg ++ ip) k -> precise_number_of L (sg ++ ip) b = Ok (VNum (NPrec (sg ++ ip) k))).
  { intros sg ip k Hsg Hne Hip Hk. unfold precise_number_of, parse_number. cbn [precise].
    assert (Hat : at_pos (mkR ((sg ++ ip) ++ [b]) None) (sg ++ ip ++ [] ++ [] ++ [b])) by (cbn; rewrite <- app_assoc; reflexivity).
    destruct (parse_precise_pos _ sg ip [] [] [b] Hsg Hne Hip (or_introl eq_refl) (or_introl eq_refl) Hb Hat) as (r' & E & Hr').
    pose proof (parse_precise_loaded _ _ _ _ E) as Hl. rewrite E. cbn [bind app negb]. rewrite app_nil_r.
    rewrite Hk, (loaded_end r' b); auto. }
  destruct Hi as [ds H1 H2 H3|ds H1 H2 H3].
  - apply (H [] ds); auto. apply precise_uint; auto.
  - apply (H [45] ds); auto. apply precise_int; auto.
Qed.
