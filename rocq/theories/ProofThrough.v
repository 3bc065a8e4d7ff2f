(** Proofs for C110. *)
From Verif Require Import Base SpecUtf8 ModelValue ModelText ModelEnc SpecText SpecAccept SpecBinText SpecThrough.
From Verif Require Import ModelUtf8 ProofUtf8 ProofValue ProofText1 ProofText2 ProofText3 ProofText4 ProofText5 ProofTextEx ProofReread ProofBinText ProofAccept ProofAccept2 ProofAccept3.
Local Open Scope Z_scope.

(** *** Outcome for a document whose value is known *)
Definition read_num (L : libm) (F : pflags) (n : num) (t : list Z) : Prop := num_read L F n t /\ num_starts t.
Lemma known_outcome : forall L F sg v t, gval (denotes sg) (read_num L F) v t -> forall w rest, spaces w -> num_end rest ->
  ((allow_dup F = true \/ ~ has_dup v) ->
    exists v' r', parse_source L F (w ++ t ++ rest) = Ok (v', r') /\ sorted_form v v' /\ at_pos r' rest) /\
  (allow_dup F = false -> has_dup v -> parse_source L F (w ++ t ++ rest) = Err).
Proof.
  intros L F sg v t G w rest Hw Hn.
  assert (parse_ok L F v (mkR (w ++ t ++ rest) None) rest) as H.
  { apply (grammar_read L F (denotes sg)) with (N := read_num L F) (w := w) (t := t); auto.
    - intros s b Hb. apply (denotes_read sg s b Hb).
    - intros n x (H & _); exact H.
    - intros n x (_ & H); exact H.
    - apply at_none. }
  unfold parse_ok in H. pose proof (gval_no_undef _ _ _ _ G) as Hu. split.
  - intros Hd. destruct (settle_spec v (allow_dup F) Hu Hd) as (v' & E & Hf & _). rewrite E in H.
    destruct H as (f0 & r' & Hat & Hp). exists v', r'. split; [|auto].
    specialize (Hp f0 (le_n _)). rewrite <- Hp. apply parse_source_any. congruence.
  - intros Hd Hh. rewrite Hd, (settle_dup v Hu Hh) in H. destruct H as (f0 & Hp).
    specialize (Hp f0 (le_n _)). rewrite <- Hp. apply parse_source_any. congruence.
Qed.
Lemma read_num_parse : forall L F n t, read_num L F n t -> exists r, parse_source L F t = Ok (VNum n, r).
Proof.
  intros L F n t H. destruct (known_outcome L F false (VNum n) t (gv_num _ _ n t H) [] [] ltac:(constructor) I) as [P _].
  destruct P as (v' & r' & E & Sf & _); [right; intros D; inversion D|]. cbn [app] in E. rewrite app_nil_r in E. inversion Sf; subst. eauto.
Qed.

(** *** Numbers *)
Lemma dec_nonneg : forall ds, digits ds -> 0 <= dec_value ds.
Proof.
  intros ds H. unfold dec_value. assert (G : forall a, 0 <= a -> 0 <= fold_left (fun a c => a * 10 + (c - 48)) ds a).
  { induction H as [|c ds Hc _ IH]; intros a Ha; [exact Ha|]. cbn [fold_left]. apply IH. unfold digit_char in Hc. lia. }
  apply G. lia.
Qed.
Definition an_int (n : num) (z : Z) : Prop := (n = NUInt z /\ 0 <= z < 2 ^ 64) \/ (n = NInt z /\ - 2 ^ 63 < z < 2 ^ 63).
Section Num.
Variables (L : libm) (F : pflags) (E : serenv) (utf8 : bool).
Let ok : list Z -> Prop := if precise F then precise_text else moderate.
Let value : num -> list Z -> Prop := if precise F then precise_value else plain_value.
Lemma ok_read : forall t, ok t -> exists n, read_num L F n t /\ value n t.
Proof.
  unfold ok, value, read_num. intros t. destruct (precise F) eqn:HF; intros H.
  - destruct (precise_read L F t HF H) as (n & A & B & C). eauto.
  - destruct (moderate_read L F t HF H) as (n & A & B & C). eauto.
Qed.
Lemma ok_low : forall t, ok t -> Forall (fun c => 0 <= c < 128) t.
Proof.
  unfold ok. intros t. destruct (precise F); [apply precise_text_low|].
  intros (sg & ip & fp & ex & -> & (Hsg & Hip & Hfp & Hex & _) & _).
  assert (forall s, sign s -> Forall (fun c => 0 <= c < 128) s) as S1 by (intros s [->|[->| ->]]; repeat constructor; lia).
  assert (forall ds, digits ds -> Forall (fun c => 0 <= c < 128) ds) as S2 by (intros ds H; eapply Forall_impl; [|exact H]; unfold digit_char; intros; lia).
  repeat (apply Forall_app; split); auto.
  - destruct Hfp as [->|(ds & -> & _ & Hd)]; constructor; [lia|auto].
  - destruct Hex as [->|(e & s & ds & -> & He & Hs & _ & Hd)]; constructor; [lia|]. apply Forall_app; auto.
Qed.
Lemma int_ok : forall n z, an_int n z -> ok (ser_num E utf8 n).
Proof.
  intros n z H. destruct (integer_text E utf8 n z H) as (ds & Et & Ne & Hd & Hv & _). cbn [ser] in Et. rewrite Et. unfold ok.
  assert (Hsg : sign (if z <? 0 then [45] else [])) by (unfold sign; destruct (z <? 0); auto).
  destruct (precise F); exists (if z <? 0 then [45] else []), ds, [], []; rewrite !app_nil_r; (split; [reflexivity|]).
  - unfold precise_number, exponent. repeat (split; auto).
  - split; [unfold plain_number, exponent; repeat (split; auto); intros ->; congruence|]. split; [|intros e s x Hx; discriminate].
    rewrite Hv. unfold an_int in H. lia.
Qed.
Lemma int_through : forall n z, an_int n z -> exists n', read_num L F n' (ser_num E utf8 n) /\ number_through (precise F) (se_double E utf8) n n'.
Proof.
  intros n z H. destruct (ok_read _ (int_ok n z H)) as (n' & R & V). exists n'. split; [exact R|].
  destruct (read_num_parse _ _ _ _ R) as (r & P). assert (Hz : int_of n = Some z) by (destruct H as [[-> _]|[-> _]]; reflexivity).
  destruct (integer_text E utf8 n z H) as (ds & Et & Ne & Hd & Hv & Hs). cbn [ser] in Et.
  destruct (precise F) eqn:HF.
  - assert (K : kind_literal (if z <? 0 then PkInt z else PkUInt z) (ser_num E utf8 n)).
    { rewrite Et. destruct (z <? 0) eqn:Ez; cbn [app].
      - replace z with (- dec_value ds) by lia. apply kl_int; auto. unfold an_int in H. lia.
      - replace z with (dec_value ds) by lia. apply kl_uint; auto. unfold an_int in H. lia. }
    destruct (precise_integer_exact L F _ _ [] [] HF K ltac:(constructor) I) as (r' & P' & _). cbn [app] in P'. rewrite app_nil_r in P'.
    rewrite P' in P. injection P as Pn _. rewrite <- Pn. apply nt_int_precise; auto. exists ds. auto.
  - destruct (integer_round_trip L E F utf8 n z [] [] H HF ltac:(constructor) I) as (n2 & r' & P' & Hi & _). cbn [app ser] in P'. rewrite app_nil_r in P'.
    rewrite P' in P. injection P as -> _. replace n' with (if z <? 0 then NInt z else NUInt z); [apply nt_int; auto|].
    unfold value in V. destruct V as (sg & ip & fp & ex & _ & (_ & Hip & _) & V). pose proof (dec_nonneg ip Hip) as Hn.
    destruct V as [(_ & _ & _ & _ & ->)|[(_ & _ & _ & _ & ->)|(_ & f & ->)]].
    + injection Hi as <-. replace (dec_value ip <? 0) with false by lia. reflexivity.
    + unfold int_num in *. destruct (- dec_value ip =? 0) eqn:E0; injection Hi as <-; [reflexivity|]. replace (- dec_value ip <? 0) with true by lia. reflexivity.
    + destruct f; try discriminate Hi. injection Hi as <-. reflexivity.
Qed.
End Num.

(** *** Strings *)
Lemma string_jstr : forall utf8 s, unicode s -> exists s', string_through utf8 s s' /\ jstr s' (write_string_body utf8 s).
Proof.
  intros utf8 s (cs & Hc & ->). eexists. split; [exists cs; split; [exact Hc|]; split; reflexivity|].
  unfold write_string_body. destruct utf8; [|apply write_body_low, Hc]. rewrite map_id. apply write_body_jstr. exact Hc.
Qed.
Lemma literal_some : forall s, exists v, literal s v.
Proof.
  intros s. destruct (list_eq_dec Z.eq_dec s word_inf) as [->|N]; [eexists; apply lit_inf|].
  destruct (list_eq_dec Z.eq_dec s word_neg_inf) as [->|N']; [eexists; apply lit_neg_inf|]. eexists. apply lit_text; auto.
Qed.
Lemma literal_gval : forall L F sg s v b, literal s v -> jstr s b ->
  gval (denotes sg) (read_num L F) v (map (as_source sg) (34 :: b ++ [34])).
Proof.
  intros L F sg s v b H J. apply (jstr_denotes sg) in J. cbn [map]. rewrite map_app. cbn [map].
  rewrite (as_source_low sg 34) by lia. destruct H; [apply gv_str|apply gv_inf|apply gv_neg_inf]; auto.
Qed.

(** *** Values *)
Section Val.
Variables (L : libm) (F : pflags) (E : serenv) (utf8 sg : bool).
Hypothesis HE : forall e s, se_binary E e s = encode_chunks e s.
Let N : num -> Prop := number_sent (precise F) (se_double E utf8).
Let asrc := map (as_source sg).
Lemma src_low : forall c, 0 <= c < 128 -> as_source sg c = c.
Proof. intros c H. rewrite (as_source_low sg c) by lia. reflexivity. Qed.
Lemma inf_gval : forall s, gval (denotes sg) (read_num L F) (VNum (NDbl (S754_infinity s))) (asrc (write_string utf8 (if s then neg_inf_word else inf_word))).
Proof.
  intros s. unfold write_string. destruct s; eapply literal_gval.
  - apply lit_neg_inf. - apply jstr_neg_inf_word. - apply lit_inf. - apply jstr_inf_word.
Qed.
Lemma num_through : forall n, N n -> exists n', number_through (precise F) (se_double E utf8) n n' /\
  gval (denotes sg) (read_num L F) (VNum n') (asrc (ser_num E utf8 n)).
Proof.
  intros n (Hr & Hd & Ht).
  assert (K : forall t n', (if precise F then precise_text else moderate) t -> read_num L F n' t -> gval (denotes sg) (read_num L F) (VNum n') (asrc t)).
  { intros t n' H R. unfold asrc. rewrite (low_src sg t) by (apply (ok_low F), H). apply gv_num, R. }
  destruct n as [z|z|f|t k]; cbn [in_range] in Hr.
  - destruct (int_through L F E utf8 (NUInt z) z) as (n' & R & T); [left; auto|]. exists n'. split; [exact T|]. apply K; [|exact R]. apply (int_ok F E utf8 (NUInt z) z). left; auto.
  - destruct (int_through L F E utf8 (NInt z) z) as (n' & R & T); [right; auto|]. exists n'. split; [exact T|]. apply K; [|exact R]. apply (int_ok F E utf8 (NInt z) z). right; auto.
  - specialize (Hd f eq_refl). cbn [ser_num].
    assert (Fin : finite_dbl f -> exists n', number_through (precise F) (se_double E utf8) (NDbl f) n' /\ gval (denotes sg) (read_num L F) (VNum n') (asrc (se_double E utf8 f))).
    { intros Hf. specialize (Hd Hf). destruct (ok_read L F _ Hd) as (n' & R & V). exists n'. split; [apply nt_dbl; auto|]. apply K; auto. }
    destruct f as [s|s| |s m e]; cbn [f_isfinite].
    + apply Fin. exact I.
    + exists (NDbl (S754_infinity s)). split; [apply nt_inf|]. pose proof (inf_gval s) as G. destruct s; exact G.
    + exists (NDbl (S754_infinity false)). split; [apply nt_nan|]. exact (inf_gval false).
    + apply Fin. exact I.
  - cbn [ser_num]. specialize (Ht t k eq_refl). destruct (ok_read L F _ Ht) as (n' & R & V). exists n'. split; [apply nt_text; auto|]. apply K; auto.
Qed.

Lemma elems_gval : forall (l' : list (bytes * value)) ts, l' <> [] -> Forall2 (fun (b : bytes * value) t => fst b = [] /\ gval (denotes sg) (read_num L F) (snd b) (asrc t)) l' ts ->
  gelems (denotes sg) (read_num L F) l' (asrc (with_commas ts)).
Proof.
  intros l' ts Ne H. induction H as [|[k x] t l' ts [Hk Hx] H IH]; [contradiction|]. cbn [fst snd] in Hk, Hx. subst k.
  destruct H as [|y t' l' ts Hy H].
  - cbn [with_commas]. replace (asrc t) with ([] ++ asrc t ++ []) by (cbn [app]; apply app_nil_r). apply ge_one; auto; constructor.
  - change (with_commas (t :: t' :: ts)) with (t ++ 44 :: with_commas (t' :: ts)). unfold asrc. rewrite map_app. cbn [map]. rewrite (src_low 44) by lia.
    apply (ge_cons _ _ x [] (map (as_source sg) t) []); auto; try (constructor; fail). apply IH. discriminate.
Qed.
Lemma members_gval : forall (l' : list (bytes * value)) (ts : list (bytes * bytes)), l' <> [] ->
  Forall2 (fun (b : bytes * value) t => denotes sg (fst b) (asrc (fst t)) /\ gval (denotes sg) (read_num L F) (snd b) (asrc (snd t))) l' ts ->
  gmembers (denotes sg) (read_num L F) l' (asrc (with_commas (map (fun t => (34 :: fst t ++ [34]) ++ 58 :: snd t) ts))).
Proof.
  intros l' ts Ne H. induction H as [|[k x] [kt t] l' ts [Hk Hx] H IH]; [contradiction|]. cbn [fst snd] in Hk, Hx.
  assert (Q : forall r, asrc (((34 :: kt ++ [34]) ++ 58 :: t) ++ r) = [] ++ 34 :: asrc kt ++ 34 :: [] ++ 58 :: [] ++ asrc t ++ asrc r).
  { intros r. unfold asrc. rewrite !map_app. cbn [map]. rewrite !map_app. cbn [map app]. rewrite ?map_app. cbn [map app]. rewrite (src_low 34), (src_low 58) by lia.
    rewrite <- ?app_assoc. cbn [app]. rewrite <- ?app_assoc. reflexivity. }
  destruct H as [|y t' l' ts Hy H].
  - cbn [map with_commas fst snd]. specialize (Q []). rewrite app_nil_r in Q. rewrite Q. apply gm_one; auto; constructor.
  - change (with_commas (map (fun t => (34 :: fst t ++ [34]) ++ 58 :: snd t) ((kt, t) :: t' :: ts)))
      with (((34 :: kt ++ [34]) ++ 58 :: t) ++ 44 :: with_commas (map (fun t => (34 :: fst t ++ [34]) ++ 58 :: snd t) (t' :: ts))).
    rewrite Q. unfold asrc at 3. cbn [map]. rewrite (src_low 44) by lia.
    apply (gm_cons _ _ k (asrc kt) x [] [] [] (asrc t) []); auto; try (constructor; fail). apply IH. discriminate.
Qed.
Lemma value_through : forall v, sent N v -> exists v', through utf8 (precise F) (se_double E utf8) v v' /\
  gval (denotes sg) (read_num L F) v' (asrc (ser E utf8 v)).
Proof.
  induction v as [| |b|n|e s|l IH|d l IH] using value_ind'; intros H; inversion H; subst; cbn [ser].
  - eexists. split; [apply th_undef|]. unfold write_string. eapply literal_gval; [apply lit_text; discriminate|].
    destruct utf8; vm_compute write_string_body; exact (write_string_body_jstr true str_undefined ltac:(exists str_undefined; split; [repeat constructor; discriminate|reflexivity])).
  - exists VNull. split; [apply th_null|]. replace (asrc str_null) with [110;117;108;108] by (destruct sg; reflexivity). apply gv_null.
  - exists (VBool b). split; [apply th_bool|]. destruct b; [replace (asrc str_true) with [116;114;117;101] by (destruct sg; reflexivity); apply gv_true|].
    replace (asrc str_false) with [102;97;108;115;101] by (destruct sg; reflexivity). apply gv_false.
  - destruct (num_through n) as (n' & T & G); [assumption|]. exists (VNum n'). split; [apply th_num, T|exact G].
  - destruct (string_jstr utf8 s) as (s' & T & J); [assumption|]. destruct (literal_some s') as (v & Hv). exists v. split; [eapply th_str; eauto|].
    unfold write_string. eapply literal_gval; eauto.
  - eexists. split; [apply th_bin|]. rewrite HE, binary_text by assumption.
    set (t := concat (encode_chunks e0 (carried e0 s))). destruct (chunks_cp e0 (carried e0 s)) as (cs & Hcs & Et); [apply carried_bytes; assumption|]. fold t in Et.
    assert (Ht : text_ok utf8 t). { exists cs. split; [|exact Et]. eapply Forall_impl; [|exact Hcs]. unfold cp_ok, is_cp. cbv beta. intros c Hc. destruct utf8; lia. }
    destruct (small_not_inf cs Hcs) as [N1 N2]. rewrite <- Et in N1, N2. eapply literal_gval; [apply lit_text; auto|]. apply write_string_body_jstr, Ht.
  - assert (X : exists l' : list (bytes * value), Forall2 (fun (a b : bytes * value) => fst b = [] /\ through utf8 (precise F) (se_double E utf8) (snd a) (snd b)) l l' /\
      Forall2 (fun (b : bytes * value) t => fst b = [] /\ gval (denotes sg) (read_num L F) (snd b) (asrc t)) l' (map (fun m => ser E utf8 (snd m)) l)).
    { clear H. induction l as [|m l IHl]; [exists []; split; constructor|]. inversion_clear IH as [|? ? I1 I2]. inversion_clear H1 as [|? ? S1 S2].
      destruct (I1 S1) as (x & T & G). destruct (IHl I2 S2) as (l' & A & B). exists (([], x) :: l'). split; constructor; auto. }
    destruct X as (l' & A & B). exists (VArr l'). split; [apply th_arr, A|]. unfold asrc. cbn [map]. rewrite map_app. cbn [map]. rewrite (src_low 91), (src_low 93) by lia.
    destruct l' as [|m' l'].
    + inversion B; subst. match goal with H : _ = map _ l |- _ => destruct l; [|discriminate H] end. apply (gv_arr0 _ _ []). constructor.
    + apply gv_arr. apply elems_gval; [discriminate|exact B].
  - assert (X : exists l' : list (bytes * value), Forall2 (fun (a b : bytes * value) => string_through utf8 (fst a) (fst b) /\ through utf8 (precise F) (se_double E utf8) (snd a) (snd b)) l l' /\
      Forall2 (fun (b : bytes * value) t => denotes sg (fst b) (asrc (fst t)) /\ gval (denotes sg) (read_num L F) (snd b) (asrc (snd t))) l'
        (map (fun m => (write_string_body utf8 (fst m), ser E utf8 (snd m))) l)).
    { clear H. induction l as [|m l IHl]; [exists []; split; constructor|]. inversion_clear IH as [|? ? I1 I2]. inversion_clear H1 as [|? ? [K1 S1] S2].
      destruct (I1 S1) as (xv & T & G). destruct (IHl I2 S2) as (l' & A & B). destruct (string_jstr utf8 (fst m) K1) as (k' & TK & JK).
      exists ((k', xv) :: l'). split; constructor; auto. split; [|exact G]. apply jstr_denotes, JK. }
    destruct X as (l' & A & B). exists (VObj false l'). split; [apply th_obj, A|]. unfold asrc. cbn [map]. rewrite map_app. cbn [map]. rewrite (src_low 123), (src_low 125) by lia.
    destruct l' as [|m' l'].
    + inversion B; subst. match goal with H : _ = map _ l |- _ => destruct l; [|discriminate H] end. apply (gv_obj0 _ _ []). constructor.
    + apply gv_obj. pose proof (members_gval (m' :: l') _ ltac:(discriminate) B) as M. rewrite map_map in M. exact M.
Qed.
End Val.

Lemma sent_through : forall L F E sg utf8 v,
  (forall e s, se_binary E e s = encode_chunks e s) -> sent (number_sent (precise F) (se_double E utf8)) v ->
  exists v1, through utf8 (precise F) (se_double E utf8) v v1 /\ forall w rest, spaces w -> num_end rest ->
    ((allow_dup F = true \/ ~ has_dup v1) ->
      exists v' r', parse_source L F (w ++ map (as_source sg) (ser E utf8 v) ++ rest) = Ok (v', r') /\ sorted_form v1 v' /\ at_pos r' rest) /\
    (allow_dup F = false -> has_dup v1 -> parse_source L F (w ++ map (as_source sg) (ser E utf8 v) ++ rest) = Err).
Proof.
  intros L F E sg utf8 v HE H. destruct (value_through L F E utf8 sg HE v H) as (v1 & T & G). exists v1. split; [exact T|].
  exact (known_outcome L F sg v1 _ G).
Qed.
