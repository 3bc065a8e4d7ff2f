(** The command line tools on documents with floating point numbers. *)
From Coq Require Import ZArith Reals Lia Lra ZifyBool Floats.SpecFloat.
From Verif Require Import Base SpecUtf8 ModelValue ModelKeyed SpecKeyed ModelText SpecText ModelEnc ModelBin SpecBin ModelStreams ModelCompress SpecCompress ModelTools.
From Verif Require Import ProofUtf8 ProofValue ProofText1 ProofText2 ProofText3 SpecDouble ProofDoubleLem ProofCompress ProofCompress2 ProofCompress3 ProofCompress4 ProofCompress5 ProofTools ProofMarks.
Local Open Scope Z_scope.
Local Open Scope list_scope.

Lemma number_printable : forall t x, json_number t x -> printable t.
Proof.
  intros t x (sg & ip & fp & ep & n & m & k & y & -> & Hs & (Hi & _) & Hf & He & _).
  apply pr_app; [destruct Hs as [->| ->]; [constructor|apply pr_one; [reflexivity|constructor]]|].
  apply pr_app; [apply pr_digits; exact Hi|].
  apply pr_app.
  - destruct Hf as [(-> & _)|(ds & -> & _ & Hd & _)]; [constructor|]. apply pr_one; [reflexivity|]. apply pr_digits; exact Hd.
  - destruct He as [(-> & _)|(e & s & ds & -> & He & _ & Hd & Hs')]; [constructor|]. apply pr_plains. constructor; [destruct He; lia|].
    apply Forall_app. split; [|eapply Forall_impl; [|exact Hd]; intros c C; unfold digit_char in C; lia].
    destruct Hs' as [([->| ->] & _)|(-> & _)]; repeat constructor; lia.
Qed.

Section Doubles.
Variables (L : libm) (E : serenv) (digits : nat).
Hypotheses (GL : good_libm L) (DB : doubles_by L digits E) (D3 : (3 <= digits)%nat).

Definition double_range (x : R) : Prop := (x = 0 \/ plain_range (Rabs x) \/ exp_range (Rabs x))%R.
Lemma tiny : forall n, (powerRZ 10 (- Z.of_nat n) <= 1)%R.
Proof.
  intros n. rewrite powerRZ_neg', <- pow_powerRZ. rewrite <- Rinv_1. apply Rinv_le_contravar; [lra|]. apply pow_R1_Rle. lra.
Qed.
Lemma range_low : forall x, double_range x -> x = 0%R \/ (powerRZ 10 (-307) <= Rabs x)%R.
Proof.
  intros x [H|[[H _]|[[H _]|[H _]]]]; [left; exact H|right|right; exact H|right].
  - refine (Rle_trans _ _ _ _ H). change (-307) with (- Z.of_nat 305 + -2). rewrite powerRZ_add by lra.
    pose proof (tiny 305). change (powerRZ 10 (-2)) with (/ (10 * (10 * 1)))%R. nra.
  - refine (Rle_trans _ _ _ _ H). pose proof (tiny 307) as P. change (- Z.of_nat 307) with (-307) in P.
    assert (1 <= 10 ^ 6)%R by (apply pow_R1_Rle; lra). lra.
Qed.
Lemma real_zero : forall d, finite d -> real_of d = 0%R -> exists s, d = S754_zero s.
Proof.
  intros [s|s| |s m e] [_ F] Z0; cbn in F; try discriminate; [eauto|]. exfalso. cbn [real_of] in Z0.
  apply Rmult_integral in Z0. destruct Z0 as [Z0|Z0]; [|revert Z0; apply powerRZ_NOR; lra].
  destruct s; apply (eq_IZR _ 0) in Z0; lia.
Qed.
Lemma double_text : forall d, finite d -> double_range (real_of d) -> printable (ser_num E true (NDbl d)).
Proof.
  intros d F H. cbn [ser_num]. rewrite (proj2 F). destruct (range_low _ H) as [Hz|Hl].
  - destruct (real_zero d F Hz) as [s ->]. rewrite (DB true _ _ (zero_kept L true digits s GL)). apply pr_one; [reflexivity|constructor].
  - destruct (text_accurate L true digits d GL F Hl) as (t & x & W & J & _). rewrite (DB true _ _ W). exact (number_printable _ _ J).
Qed.
Lemma ser_printable_doubles : forall v, doc_of true (doc_number double_range) v -> printable (ser E true v).
Proof.
  induction v as [| |b|n|e s|l IH|d l IH] using value_ind'; intros H.
  - inversion H.
  - apply pr_plains. repeat constructor; lia.
  - destruct b; apply pr_plains; repeat constructor; lia.
  - inversion H as [| |n0 Hn|sg| | |]; subst.
    + destruct n as [z|z|d|t k]; cbn [doc_number] in Hn.
      * exact (ser_printable E true (VNum (NUInt z)) ltac:(constructor; assumption)).
      * exact (ser_printable E true (VNum (NInt z)) ltac:(constructor; assumption)).
      * exact (double_text d (proj1 Hn) (proj2 Hn)).
      * contradiction.
    + exact (ser_printable E true (VNum (NDbl (S754_infinity sg))) ltac:(constructor)).
  - inversion H; subst. cbn [ser]. apply pr_string. assumption.
  - inversion H as [| | | | |l0 Hl|]; subst. cbn [ser]. apply pr_one; [reflexivity|]. apply pr_app; [|apply pr_one; [reflexivity|constructor]].
    apply pr_commas. apply Forall_map. rewrite Forall_forall in *. intros x Hx. apply IH; auto.
  - inversion H as [| | | | | |d0 l0 Hk Hl]; subst. cbn [ser]. apply pr_one; [reflexivity|]. apply pr_app; [|apply pr_one; [reflexivity|constructor]].
    apply pr_commas. apply Forall_map. rewrite Forall_forall in *. intros x Hx. apply pr_app; [apply pr_string; apply Hl; auto|]. apply pr_one; [reflexivity|].
    apply IH; auto. apply Hl; auto.
Qed.

(** What jsonunpack gives of a text which is read whatever follows. *)
Lemma unpacks_any : forall t (P : value -> Prop) o n, printable t ->
  (forall rest, num_end rest -> exists v' r, parse_source L tool_flags (map schar t ++ rest) = Ok (v', r) /\ P v' /\ at_pos r rest) ->
  compress_all tool_ext t = COk o -> (length t < n)%nat -> exists v', P v' /\ json_unpack L E n o = Writes (ser E true v').
Proof.
  intros t P o n Pt A C N. destruct (round_trip tool_ext tool_mask _ Pt) as (o' & d & C' & K).
  rewrite C in C'. injection C' as <-.
  replace n with (S (length t) + (n - S (length t)))%nat by lia.
  unfold json_unpack. rewrite (delivered_calls _ _ _ _ _ _ _ K). set (q := delivered _ d []). destruct q as [u e]. cbn [fst snd].
  rewrite <- app_assoc. cbn [app].
  assert (G : forall x, exists v' r, parse_source L tool_flags (map schar (t ++ 255 :: u) ++ x) = Ok (v', r) /\ P v' /\ at_pos r (-1 :: map schar u ++ x)).
  { intros x. rewrite map_app, <- app_assoc. exact (A (-1 :: map schar u ++ x) (end_end _)). }
  destruct e.
  - destruct (G []) as (v' & r & Q & H & _). rewrite app_nil_r in Q. rewrite Q. eauto.
  - destruct (G [-1]) as (v' & r & Q & H & B). rewrite Q. pose proof (left_over _ _ _ B). destruct (src r); [congruence|eauto].
  - destruct (G [-1]) as (v' & r & Q & H & B). rewrite Q. pose proof (left_over _ _ _ B). destruct (src r); [congruence|eauto].
  - destruct (G [-1]) as (v' & r & Q & H & B). rewrite Q. pose proof (left_over _ _ _ B). destruct (src r); [congruence|eauto].
Qed.
End Doubles.
Lemma doc_of_weaker : forall utf8 (P Q : num -> Prop) v, (forall n, P n -> Q n) -> doc_of utf8 P v -> doc_of utf8 Q v.
Proof.
  intros utf8 P Q v W. induction v as [| |b|n|e s|l IH|d l IH] using value_ind'; intros H; inversion H; subst; try (constructor; auto; fail).
  - constructor. rewrite Forall_forall in *. auto.
  - constructor; [assumption|]. rewrite Forall_forall in *. intros x Hx. match goal with K : forall x, In x l -> text_ok _ _ /\ _ |- _ => destruct (K x Hx) as [K1 K2] end. split; [exact K1|apply IH; assumption].
Qed.
Lemma pack_doubles : forall L E digits s v, good_libm L -> doubles_by L digits E -> (3 <= digits)%nat -> from_stream L (mkPF false false) s = Ok v ->
  doc_of true (doc_number (fun x => x = 0%R \/ plain_range (Rabs x) \/ exp_range (Rabs x))) v ->
  exists o, json_pack L E s = Writes o /\
    forall n, (length (ser E true v) < n)%nat -> exists v', json_unpack L E n o = Writes (ser E true v') /\ like_json (reads_back digits) v v'.
Proof.
  intros L E digits s v GL DB D3 H D. pose proof (ser_printable_doubles L E digits GL DB D3 v D) as Pr.
  destruct (round_trip tool_ext tool_mask _ Pr) as (o & d & C & K). exists o.
  split; [unfold json_pack; fold tool_flags in H; rewrite H, C; reflexivity|]. intros n N.
  destruct (unpacks_any L E digits D3 (ser E true v) (like_json (reads_back digits) v) o n Pr) as (v' & A & B); [|exact C|exact N|exists v'; auto].
  intros rest R. destruct (doc_back_all L tool_flags true true digits E v [] rest GL eq_refl DB D3 D (Forall_nil _) R) as (v' & r & Q & A & B).
  exists v', r. auto.
Qed.
Lemma pack_doubles_same : forall L E digits s v, good_libm L -> doubles_by L digits E -> (3 <= digits)%nat -> from_stream L (mkPF false false) s = Ok v ->
  doc_of true (doc_number (fun x => x = 0%R \/ plain_range (Rabs x))) v ->
  exists o, json_pack L E s = Writes o /\
    (forall n, (length (ser E true v) < n)%nat -> json_unpack L E n o = Writes (ser E true v)) /\
    json_pack L E (ser E true v) = Writes o.
Proof.
  intros L E digits s v GL DB D3 H D.
  assert (D' : doc_of true (doc_number double_range) v).
  { eapply doc_of_weaker; [|exact D]. intros [z|z|f|t k]; cbn [doc_number]; auto. unfold double_range. intros [F [R|R]]; auto. }
  pose proof (ser_printable_doubles L E digits GL DB D3 v D') as Pr.
  destruct (round_trip tool_ext tool_mask _ Pr) as (o & d & C & K). exists o.
  split; [unfold json_pack; fold tool_flags in H; rewrite H, C; reflexivity|]. split.
  - intros n N.
    destruct (unpacks_any L E digits D3 (ser E true v) (fun v' => ser E true v' = ser E true v) o n Pr) as (v' & A & B); [|exact C|exact N|rewrite B, A; reflexivity].
    intros rest R. destruct (doc_same_all L tool_flags true true digits E v [] rest GL eq_refl DB D3 D (Forall_nil _) R) as (v' & r & Q & _ & A & B).
    exists v', r. auto.
  - destruct (doc_same_all L tool_flags true true digits E v [] [] GL eq_refl DB D3 D (Forall_nil _) I) as (v' & r & Q & _ & _ & B).
    cbn [app] in Q. rewrite app_nil_r in Q. unfold json_pack, from_stream. change (map (as_source true) (ser E true v)) with (map schar (ser E true v)) in Q.
    rewrite Q. cbn [bind]. rewrite B, C. reflexivity.
Qed.
Lemma pack_refused : forall L E s, from_stream L (mkPF false false) s = Err -> json_pack L E s = Fails.
Proof. intros L E s H. unfold json_pack. fold tool_flags in H. rewrite H. reflexivity. Qed.

(** The run of jsonunpack does not depend on [n] when it is large. *)
Lemma schar_marks : forall n, map schar (repeat 255 n) = repeat (-1) n.
Proof. induction n as [|n IH]; cbn; [reflexivity|rewrite IH; reflexivity]. Qed.
Lemma unpack_settles : forall L E inp, Forall is_byte inp -> exists N o, o <> Hangs /\ forall n, (N <= n)%nat -> json_unpack L E n inp = o.
Proof.
  intros L E inp B. destruct (runs_out (length inp) 0 0 d_init inp (le_n _) (le_n _) ltac:(cbn; lia)) as (N & t & e & K).
  exists N, (json_unpack L E N inp). split; [apply unpack_ends; exact B|]. intros n Hn. replace n with (N + (n - N))%nat by lia. generalize (n - N)%nat. clear n Hn. intros n.
  pose proof (K 0%nat) as K0. rewrite <- plus_n_O in K0. unfold json_unpack. rewrite (K n), K0. destruct e; try reflexivity.
  cbn [repeat]. rewrite app_nil_r, map_app, schar_marks. pose proof (marks_same L tool_flags (map schar t) n) as X.
  destruct (parse_source L tool_flags (map schar t)) as [[v r]| |], (parse_source L tool_flags (map schar t ++ repeat (-1) n)) as [[v' r']| |]; try contradiction; try reflexivity.
  destruct X as [<- _]. reflexivity.
Qed.

(** The compressed form of a text leaves the decompressor at its end. *)
Lemma none_empty : forall f s inp s1 i1, decompress_sym tool_ext f s inp = COk (None, s1, i1) -> ds_ready s1 = [].
Proof.
  induction f as [|f IH]; intros s inp s1 i1 H; cbn [decompress_sym] in H.
  all: destruct (ds_ready s) as [|x r]; [|discriminate]; destruct (read_code tool_ext inp) as [cc i2].
  all: destruct (cc =? flush_code tool_ext); [injection H as <- <-; reflexivity|]; destruct (cc =? optimize_code tool_ext).
  1: discriminate.
  2: exact (IH _ _ _ _ H).
  all: cbv zeta in H; destruct (next_of (ds_db s) <? cc); [discriminate|].
  all: match type of H with cbind ?e _ = _ => destruct e as [[[[p db1] ndb1] ready]| | |]; cbn [cbind] in H; try discriminate end.
  all: destruct (ds_prev s =? initial_code); [discriminate|]; destruct (cc =? next_of (ds_db s)); [|discriminate].
  all: match type of H with cbind ?e _ = _ => destruct e as [[[pp db3] ndb3]| | |]; cbn [cbind] in H; discriminate end.
Qed.
Lemma round_trip_dry : forall t, printable t -> exists o d, compress_all tool_ext t = COk o /\
  decompress_calls tool_ext (S (length t)) d_init o = COk (t ++ [255], d, []) /\ ds_ready d = [] /\ ds_utf8 d = 0.
Proof.
  intros t H. destruct (printable_coded t H) as (l & C). pose proof (coded_text tool_ext t l [] c_init C eq_refl) as T. rewrite app_nil_r in T.
  destruct l as [|c l].
  - apply coded_nil in C. subst t. exists []. eexists. split; [reflexivity|]. split; [vm_compute; reflexivity|]. split; reflexivity.
  - destruct (sim_all tool_ext (mask_cap tool_ext tool_mask) (mask_big tool_ext tool_mask) (fun code rest => code_bytes tool_ext code rest tool_mask) (c :: l) (coded_range _ _ C)) as (s & o & d & i & d2 & E & G & D); [discriminate|].
    assert (Ud : ds_utf8 (with_utf8' 0 d) = 0) by reflexivity.
    pose proof (gives_utf8 tool_ext 0 _ _ _ _ _ G) as G0. change (with_utf8' 0 d_init) with d_init in G0.
    pose proof (one_utf8 tool_ext 0 d i) as D0. rewrite D in D0. cbn [cbind] in D0.
    pose proof (coded_calls tool_ext t (c :: l) C d_init _ (with_utf8' 0 d) i _ [] eq_refl Ud G0 D0) as K.
    eexists (o ++ compress_end tool_ext s), _. split; [|split; [exact K|]].
    + unfold compress_all. rewrite T, E. cbn [cbind compress_text]. rewrite app_nil_r. reflexivity.
    + split; [exact (none_empty _ _ _ _ _ D)|reflexivity].
Qed.
Lemma unpack_text : forall L E t, printable t -> exists o, compress_all 128 t = COk o /\ forall n, (length t < n)%nat ->
  json_unpack L E n o = match from_stream L (mkPF false false) t with Ok v => Writes (ser E true v) | _ => Fails end.
Proof.
  intros L E t P. destruct (round_trip_dry t P) as (o & d & C & K & R & U). exists o. split; [exact C|]. intros n N.
  replace n with (S (length t) + (n - S (length t)))%nat by lia. unfold json_unpack. rewrite (delivered_calls _ _ _ _ _ _ _ K), (dry_run _ d R U). cbn [fst snd].
  rewrite <- app_assoc. change ([255] ++ repeat 255 (n - S (length t))) with (repeat 255 (S (n - S (length t)))). rewrite map_app, schar_marks.
  pose proof (marks_same L tool_flags (map schar t) (S (n - S (length t)))) as X. pose proof (parse_source_fuel L tool_flags (map schar t)) as Y. unfold from_stream. fold tool_flags.
  destruct (parse_source L tool_flags (map schar t)) as [[v r]| |], (parse_source L tool_flags (map schar t ++ repeat (-1) (S (n - S (length t))))) as [[v' r']| |]; try contradiction; cbn [bind]; try reflexivity.
  destruct X as [<- _]. reflexivity.
Qed.
Lemma unbin_no_tag : forall J E b rest, b = 0 \/ 7 <= b < 15 -> json_unbin J E (b :: rest) = Fails.
Proof.
  intros J E b rest H. assert (R : In b [0; 7; 8; 9; 10; 11; 12; 13; 14]) by (cbn; lia). clear H. cbn [In] in R.
  repeat (destruct R as [<-|R]; [reflexivity|]). contradiction.
Qed.
