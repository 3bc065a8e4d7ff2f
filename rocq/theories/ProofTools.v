(** Proofs about the command line tools. *)
From Coq Require Import ZArith Lia ZifyBool.
From Verif Require Import Base SpecUtf8 ModelValue ModelKeyed SpecKeyed ModelText SpecText ModelEnc ModelBin SpecBin ModelStreams ModelCompress SpecCompress ModelTools.
From Verif Require Import ProofUtf8 ProofValue ProofText1 ProofText2 ProofText3 SpecReread ProofReread ProofStored ProofCompress2 ProofCompress3 ProofCompress4 ProofCompress5.
Local Open Scope Z_scope.
Local Open Scope list_scope.

Lemma stream_inv : forall L F s v, from_stream L F s = Ok v -> exists r, parse_source L F (map schar s) = Ok (v, r).
Proof. intros L F s v H. unfold from_stream in H. destruct (parse_source L F (map schar s)) as [[w r]| |]; cbn [bind] in H; try discriminate. injection H as ->. eauto. Qed.
Lemma read_doc : forall L s v utf8, from_stream L tool_flags s = Ok v -> made_of (text_ok utf8) no_double v -> doc_ok utf8 v.
Proof.
  intros L s v utf8 H M. destruct (stream_inv _ _ _ _ H) as (r & P).
  exact (reread_doc utf8 v (parse_form L tool_flags plain_form (fun r n r' => plain_num_form L tool_flags r n r' eq_refl) _ v r P) M).
Qed.
Lemma again : forall L E s v rest, from_stream L tool_flags s = Ok v -> made_of (text_ok true) no_double v -> num_end rest ->
  exists r, parse_source L tool_flags (map schar (ser E true v) ++ rest) = Ok (v, r) /\ at_pos r rest.
Proof.
  intros L E s v rest H M N. destruct (stream_inv _ _ _ _ H) as (r & P).
  exact (reread_plain L E tool_flags tool_flags true true _ v r [] rest eq_refl eq_refl P M (Forall_nil _) N).
Qed.
Lemma again_stream : forall L E s v, from_stream L tool_flags s = Ok v -> made_of (text_ok true) no_double v ->
  from_stream L tool_flags (ser E true v) = Ok v.
Proof.
  intros L E s v H M. destruct (again L E s v [] H M I) as (r & P & _). rewrite app_nil_r in P.
  unfold from_stream. rewrite P. reflexivity.
Qed.

(** *** jsonbin and jsonunbin *)
Lemma bin_there : forall J L E s v rest, (forall n, is_bytes (J n)) -> from_stream L tool_flags s = Ok v ->
  bin_ok L (mkBF true false false) v -> members_in v < 2 ^ 32 - 257 ->
  exists o, json_bin L s = Writes o /\ json_unbin J E (o ++ rest) = Writes (ser E true v).
Proof.
  intros J L E s v rest HJ H B M. unfold json_bin. rewrite H. eexists. split; [reflexivity|].
  destruct (stream_inv _ _ _ _ H) as (r & P).
  assert (T : bin_text (mkBF true false false) []) by (split; [constructor|split; [reflexivity|exact I]]).
  destruct (stored_exact J L (mkBF true false false) tool_flags EncBase64 _ v r [] rest HJ eq_refl P eq_refl T B M) as (p' & Q & _).
  unfold json_unbin, parse_binary. rewrite Q. reflexivity.
Qed.
Lemma bin_again : forall J L E s v, (forall n, is_bytes (J n)) -> from_stream L tool_flags s = Ok v ->
  bin_ok L (mkBF true false false) v -> members_in v < 2 ^ 32 - 257 -> made_of (text_ok true) no_double v ->
  exists o w, json_bin L s = Writes o /\ json_unbin J E o = Writes w /\ json_bin L w = Writes o.
Proof.
  intros J L E s v HJ H B M D. destruct (bin_there J L E s v [] HJ H B M) as (o & H1 & H2). rewrite app_nil_r in H2.
  exists o, (ser E true v). split; [exact H1|]. split; [exact H2|]. unfold json_bin in *. rewrite (again_stream L E s v H D). rewrite H in H1. exact H1.
Qed.
Lemma stream_ends : forall L F s, from_stream L F s <> Fuel.
Proof. intros L F s. unfold from_stream. pose proof (parse_source_fuel L F (map schar s)) as H. destruct (parse_source L F (map schar s)) as [[v r]| |]; cbn [bind]; congruence. Qed.
Lemma bin_status : forall L s,
  (exists v, from_stream L tool_flags s = Ok v) /\ (exists o, json_bin L s = Writes o) \/
  (from_stream L tool_flags s = Err /\ json_bin L s = Fails).
Proof.
  intros L s. unfold json_bin. pose proof (stream_ends L tool_flags s) as H. destruct (from_stream L tool_flags s); [left|right|congruence]; eauto.
Qed.

(** *** jsonpack and jsonunpack *)
Lemma delivered_calls : forall n m s i l s1 i1, decompress_calls tool_ext n s i = COk (l, s1, i1) ->
  delivered (n + m) s i = (l ++ fst (delivered m s1 i1), snd (delivered m s1 i1)).
Proof.
  induction n as [|n IH]; intros m s i l s1 i1 H; cbn [decompress_calls plus delivered] in *.
  - injection H as <- <- <-. cbn [app]. destruct (delivered m s i); reflexivity.
  - destruct (decompress_char tool_ext s i) as [[[c s2] i2]| | |]; cbn [cbind] in H; try discriminate.
    destruct (decompress_calls tool_ext n s2 i2) as [[[l' s3] i3]| | |] eqn:D; cbn [cbind] in H; try discriminate. injection H as <- <- <-.
    rewrite (IH m _ _ _ _ _ D). reflexivity.
Qed.
Lemma tool_mask : mask tool_ext.
Proof. left; reflexivity. Qed.
Lemma end_end : forall rest, num_end (-1 :: rest).
Proof. intros rest. cbn. unfold digit_char. lia. Qed.
Lemma left_over : forall r a t, at_pos r (a :: t ++ [-1]) -> src r <> [].
Proof.
  intros r a t H. unfold at_pos in H. destruct (cur r) as [c|]; [|rewrite H; discriminate].
  destruct H as [H|(H & _)]; [|discriminate]. injection H as _ <-. destruct t; discriminate.
Qed.
Lemma unpacks : forall L E s v n o, from_stream L tool_flags s = Ok v -> made_of (text_ok true) no_double v ->
  json_pack L E s = Writes o -> (length (ser E true v) < n)%nat -> json_unpack L E n o = Writes (ser E true v).
Proof.
  intros L E s v n o H M P N. pose proof (read_doc L s v true H M) as D.
  destruct (round_trip tool_ext tool_mask _ (ser_printable E true v D)) as (o' & d & C & K).
  unfold json_pack in P. rewrite H, C in P. injection P as ->.
  replace n with (S (length (ser E true v)) + (n - S (length (ser E true v))))%nat by lia.
  unfold json_unpack. rewrite (delivered_calls _ _ _ _ _ _ _ K). set (q := delivered _ d []). destruct q as [t e]. cbn [fst snd].
  rewrite <- app_assoc. cbn [app].
  assert (G : forall x, exists r, parse_source L tool_flags (map schar (ser E true v ++ 255 :: t) ++ x) = Ok (v, r) /\ at_pos r (-1 :: map schar t ++ x)).
  { intros x. rewrite map_app, <- app_assoc. exact (again L E s v (-1 :: map schar t ++ x) H M (end_end _)). }
  destruct e.
  - destruct (G []) as (r & Q & _). rewrite app_nil_r in Q. rewrite Q. reflexivity.
  - destruct (G [-1]) as (r & Q & A). rewrite Q. assert (Hs : src r <> []).
    { exact (left_over _ _ _ A). }
    destruct (src r); [congruence|reflexivity].
  - destruct (G [-1]) as (r & Q & A). rewrite Q. assert (Hs : src r <> []).
    { exact (left_over _ _ _ A). }
    destruct (src r); [congruence|reflexivity].
  - destruct (G [-1]) as (r & Q & A). rewrite Q. assert (Hs : src r <> []).
    { exact (left_over _ _ _ A). }
    destruct (src r); [congruence|reflexivity].
Qed.
Lemma pack_there : forall L E s v, from_stream L tool_flags s = Ok v -> made_of (text_ok true) no_double v ->
  exists o, json_pack L E s = Writes o /\ Forall is_byte o /\
    (forall n, (length (ser E true v) < n)%nat -> json_unpack L E n o = Writes (ser E true v)) /\
    json_pack L E (ser E true v) = Writes o.
Proof.
  intros L E s v H M. pose proof (read_doc L s v true H M) as D.
  destruct (round_trip tool_ext tool_mask _ (ser_printable E true v D)) as (o & d & C & K). exists o.
  assert (P : json_pack L E s = Writes o) by (unfold json_pack; rewrite H, C; reflexivity).
  split; [exact P|]. split; [exact (all_bytes _ _ _ C)|]. split; [intros n N; exact (unpacks L E s v n o H M P N)|].
  unfold json_pack. rewrite (again_stream L E s v H M), C. reflexivity.
Qed.

(** The decompressor comes to an end of its input. *)
Definition dry (s : dstate) (inp : bytes) : Prop := inp = [] /\ ds_ready s = [] /\ ds_utf8 s = 0.
Lemma read_less : forall inp cc i1, read_code tool_ext inp = (cc, i1) -> (length i1 < length inp)%nat \/ (inp = [] /\ i1 = [] /\ cc = flush_code tool_ext).
Proof.
  intros inp cc i1 H. destruct inp as [|b r]; [right; vm_compute in H; injection H as <- <-; split; [|split]; reflexivity|left].
  unfold read_code in H. cbn [next_byte] in H. destruct (negb (Z.land b tool_ext =? tool_ext)); [injection H as _ <-; cbn; lia|].
  destruct r as [|b2 r2]; cbn [next_byte] in H; injection H as _ <-; cbn; lia.
Qed.
Lemma sym_steps : forall f s inp c s1 i1, decompress_sym tool_ext f s inp = COk (c, s1, i1) -> ds_utf8 s1 = ds_utf8 s /\
  ((length i1 < length inp)%nat \/ (i1 = inp /\ exists x, ds_ready s = x :: ds_ready s1) \/
   (inp = [] /\ i1 = [] /\ ds_ready s = [] /\ ds_ready s1 = [] /\ c = None)).
Proof.
  induction f as [|f IH]; intros s inp c s1 i1 H; cbn [decompress_sym] in H.
  all: destruct (ds_ready s) as [|x r] eqn:R; [|injection H as <- <- <-; split; [reflexivity|right; left; split; [reflexivity|exists x; reflexivity]]].
  all: destruct (read_code tool_ext inp) as [cc i2] eqn:Rc; destruct (read_less _ _ _ Rc) as [Lt|(-> & -> & ->)].
  2,4: rewrite Z.eqb_refl in H; injection H as <- <- <-; split; [reflexivity|right; right; repeat split].
  all: destruct (cc =? flush_code tool_ext); [injection H as <- <- <-; split; [reflexivity|left; exact Lt]|].
  all: destruct (cc =? optimize_code tool_ext).
  1: discriminate.
  2: apply IH in H as [U D]; cbn [ds_utf8] in U; split; [exact U|left; destruct D as [D|[(-> & _)|(_ & -> & _)]]; [lia|exact Lt|cbn [length]; lia]].
  all: cbv zeta in H; destruct (next_of (ds_db s) <? cc); [discriminate|].
  all: match type of H with cbind ?e _ = _ => destruct e as [[[[p db1] ndb1] ready]| | |]; cbn [cbind] in H; try discriminate end.
  all: destruct (ds_prev s =? initial_code); [injection H as <- <- <-; split; [reflexivity|left; exact Lt]|].
  all: destruct (cc =? next_of (ds_db s)); [|injection H as <- <- <-; split; [reflexivity|left; exact Lt]].
  all: match type of H with cbind ?e _ = _ => destruct e as [[[pp db3] ndb3]| | |]; cbn [cbind] in H; try discriminate end.
  all: injection H as <- <- <-; split; [reflexivity|left; exact Lt].
Qed.
(** A call that gives a character reads on, or takes one that was ready, or is at the end. *)
Lemma char_steps : forall s inp c s1 i1, 0 <= ds_utf8 s -> decompress_char tool_ext s inp = COk (c, s1, i1) -> 0 <= ds_utf8 s1 /\
  ((length i1 < length inp)%nat \/
   (i1 = inp /\ (length (ds_ready s1) < length (ds_ready s))%nat) \/
   (inp = [] /\ i1 = [] /\ ds_ready s = [] /\ ds_ready s1 = [] /\ (ds_utf8 s1 < ds_utf8 s \/ ds_utf8 s = 0 /\ ds_utf8 s1 = 0 /\ c = 255))).
Proof.
  intros s inp c s1 i1 U H. unfold decompress_char, decompress_one in H.
  destruct (decompress_sym tool_ext (S (length inp)) s inp) as [[[c1 s2] i2]| | |] eqn:D; cbn [cbind] in H; try discriminate.
  apply sym_steps in D as [U2 D].
  destruct (negb (ds_utf8 s2 =? 0)) eqn:Z0.
  { injection H as <- <- <-. cbn [with_utf8' ds_utf8 ds_ready]. split; [lia|].
    destruct D as [D|[(-> & x & R)|(-> & -> & R & R1 & _)]]; [left; exact D|right; left; split; [reflexivity|rewrite R; cbn; lia]|right; right; repeat split; auto; left; lia]. }
  assert (Ld : forall n mask, 0 <= n -> c1 <> None -> cbind (decompress_sym tool_ext (S (length i2)) (with_utf8' n s2) i2) (fun '(c2, s2, inp2) => COk (Z.lor (sym_byte c2) mask, s2, inp2)) = COk (c, s1, i1) ->
    0 <= ds_utf8 s1 /\ ((length i1 < length inp)%nat \/ (i1 = inp /\ (length (ds_ready s1) < length (ds_ready s))%nat))).
  { intros n mk Hn Hc K. destruct (decompress_sym tool_ext (S (length i2)) (with_utf8' n s2) i2) as [[[c3 s3] i3]| | |] eqn:D3; cbn [cbind] in K; try discriminate.
    injection K as _ <- <-. apply sym_steps in D3 as [U3 D3]. cbn [with_utf8' ds_utf8 ds_ready] in *. split; [lia|].
    destruct D as [D|[(-> & x & R)|(_ & _ & _ & _ & ->)]]; [| |congruence].
    - left. destruct D3 as [D3|[(-> & _)|(-> & -> & _)]]; [lia|exact D|exact D].
    - destruct D3 as [D3|[(-> & y & R3)|(-> & -> & R2 & R3 & _)]]; [left; lia|right|right]; split; try reflexivity.
      + rewrite R, R3. cbn. lia.
      + rewrite R, R3. cbn. lia. }
  destruct c1 as [c1|].
  - destruct (c1 =? 1); [destruct (Ld 1 192 ltac:(lia) ltac:(discriminate) H) as [A [B|B]]; auto|].
    destruct (c1 =? 2); [destruct (Ld 2 224 ltac:(lia) ltac:(discriminate) H) as [A [B|B]]; auto|].
    destruct (c1 =? 3); [destruct (Ld 3 240 ltac:(lia) ltac:(discriminate) H) as [A [B|B]]; auto|].
    destruct (c1 =? 4); [destruct (Ld 4 248 ltac:(lia) ltac:(discriminate) H) as [A [B|B]]; auto|].
    injection H as _ <- <-. split; [lia|]. destruct D as [D|[(-> & x & R)|(_ & _ & _ & _ & X)]]; [left; exact D|right; left; split; [reflexivity|rewrite R; cbn; lia]|discriminate].
  - injection H as <- <- <-. split; [lia|]. destruct D as [D|[(-> & x & R)|(-> & -> & R & R1 & _)]]; [left; exact D|right; left; split; [reflexivity|rewrite R; cbn; lia]|].
    right; right. repeat split; auto. right. lia.
Qed.
Lemma dry_call : forall s, ds_ready s = [] -> ds_utf8 s = 0 -> exists s1, decompress_char tool_ext s [] = COk (255, s1, []) /\ ds_ready s1 = [] /\ ds_utf8 s1 = 0.
Proof.
  intros s R U. unfold decompress_char, decompress_one. cbn [length decompress_sym]. rewrite R.
  change (read_code tool_ext []) with (flush_code tool_ext, @nil Z). rewrite Z.eqb_refl. cbn [cbind ds_utf8]. rewrite U. cbn [negb Z.eqb].
  eexists. split; [reflexivity|]. split; [reflexivity|reflexivity].
Qed.
Lemma dry_run : forall n s, ds_ready s = [] -> ds_utf8 s = 0 -> delivered n s [] = (repeat 255 n, More).
Proof.
  induction n as [|n IH]; intros s R U; [reflexivity|]. cbn [delivered repeat]. destruct (dry_call s R U) as (s1 & -> & R1 & U1).
  rewrite (IH s1 R1 U1). reflexivity.
Qed.
(** From some call on the characters are end marks, or a call failed. *)
Definition comes_out (N : nat) (t : bytes) (e : stop) (s : dstate) (inp : bytes) : Prop :=
  forall n, delivered (N + n) s inp = (t ++ match e with More => repeat 255 n | _ => [] end, e).
Lemma runs_out : forall a b c s inp, (length inp <= a)%nat -> (length (ds_ready s) <= b)%nat -> 0 <= ds_utf8 s <= Z.of_nat c ->
  exists N t e, comes_out N t e s inp.
Proof.
  induction a as [a IHa] using (well_founded_induction lt_wf). induction b as [b IHb] using (well_founded_induction lt_wf).
  induction c as [c IHc] using (well_founded_induction lt_wf). intros s inp La Lb Lc.
  destruct (decompress_char tool_ext s inp) as [[[x s1] i1]| | |] eqn:D.
  4: exists 1%nat, [], Loops; intros n; cbn [plus delivered]; rewrite D; reflexivity.
  3: exists 1%nat, [], Undefined; intros n; cbn [plus delivered]; rewrite D; reflexivity.
  2: exists 1%nat, [], Throws; intros n; cbn [plus delivered]; rewrite D; reflexivity.
  destruct (char_steps _ _ _ _ _ (proj1 Lc) D) as (U1 & S).
  assert (G : (exists N t e, comes_out N t e s1 i1) -> exists N t e, comes_out N t e s inp).
  { intros (N & t & e & K). exists (Datatypes.S N), (x :: t), e. intros n. cbn [plus delivered]. rewrite D, K. reflexivity. }
  destruct S as [S|[(-> & S)|(-> & -> & R & R1 & [S|(Z1 & Z2 & ->)])]].
  - apply G. apply (IHa (length i1) ltac:(lia) (length (ds_ready s1)) (Z.to_nat (ds_utf8 s1))); lia.
  - apply G. apply (IHb (length (ds_ready s1)) ltac:(lia) (Z.to_nat (ds_utf8 s1))); lia.
  - apply G. apply (IHc (Z.to_nat (ds_utf8 s1)) ltac:(lia)); [exact La|rewrite R1; cbn; lia|lia].
  - exists 0%nat, [], More. intros n. cbn [plus app]. exact (dry_run n s R Z1).
Qed.
Lemma delivered_more : forall n s inp t, delivered n s inp = (t, More) -> exists d i, decompress_calls tool_ext n s inp = COk (t, d, i).
Proof.
  induction n as [|n IH]; intros s inp t H; cbn [delivered decompress_calls] in *; [injection H as <-; eauto|].
  destruct (decompress_char tool_ext s inp) as [[[c s1] i1]| | |]; try discriminate.
  destruct (delivered n s1 i1) as [t1 e1] eqn:D. injection H as <- ->. destruct (IH _ _ _ D) as (d & i & K). cbn [cbind]. rewrite K. cbn [cbind]. eauto.
Qed.
Lemma delivered_stop : forall n s inp t e, delivered n s inp = (t, e) -> e <> More ->
  decompress_calls tool_ext n s inp = match e with Throws => CThrow | Undefined => CBad | _ => CFuel end.
Proof.
  induction n as [|n IH]; intros s inp t e H N; cbn [delivered decompress_calls] in *; [injection H as <- <-; congruence|].
  destruct (decompress_char tool_ext s inp) as [[[c s1] i1]| | |]; try (injection H as <- <-; reflexivity).
  destruct (delivered n s1 i1) as [t1 e1] eqn:D. injection H as <- ->. cbn [cbind]. rewrite (IH _ _ _ _ D N). destruct e; reflexivity.
Qed.
Lemma finite_text : forall inp, Forall is_byte inp ->
  (exists N t, forall n, exists d i, decompress_calls 128 (N + n) d_init inp = COk (t ++ repeat 255 n, d, i)) \/
  (exists N, forall n, decompress_calls 128 (N + n) d_init inp = CThrow) \/
  (exists N, forall n, decompress_calls 128 (N + n) d_init inp = CBad).
Proof.
  intros inp B. destruct (runs_out (length inp) 0 0 d_init inp (le_n _) (le_n _) ltac:(cbn; lia)) as (N & t & e & K).
  destruct e; [left|right; left|right; right|].
  - exists N, t. intros n. exact (delivered_more _ _ _ _ (K n)).
  - exists N. intros n. exact (delivered_stop _ _ _ _ _ (K n) ltac:(discriminate)).
  - exists N. intros n. exact (delivered_stop _ _ _ _ _ (K n) ltac:(discriminate)).
  - exfalso. exact (ProofCompress4.calls_end 128 tool_mask N inp B (eq_trans (f_equal (fun k => decompress_calls 128 k d_init inp) (plus_n_O N)) (delivered_stop _ _ _ _ _ (K 0%nat) ltac:(discriminate)))).
Qed.
Lemma unpack_ends : forall L E n inp, Forall is_byte inp -> json_unpack L E n inp <> Hangs.
Proof.
  intros L E n inp B. unfold json_unpack. destruct (delivered n d_init inp) as [t e] eqn:D.
  pose proof (parse_source_fuel L tool_flags (map schar t)) as P1. pose proof (parse_source_fuel L tool_flags (map schar t ++ [-1])) as P2.
  destruct e.
  - destruct (parse_source L tool_flags (map schar t)) as [[v r]| |]; congruence.
  - destruct (parse_source L tool_flags (map schar t ++ [-1])) as [[v r]| |]; try congruence. destruct (src r); discriminate.
  - destruct (parse_source L tool_flags (map schar t ++ [-1])) as [[v r]| |]; try congruence. destruct (src r); discriminate.
  - exfalso. exact (ProofCompress4.calls_end 128 tool_mask n inp B (delivered_stop _ _ _ _ _ D ltac:(discriminate))).
Qed.

(** *** Documents of plain texts *)
Lemma made_weaker : forall (Q Q' : bytes -> Prop) P v, (forall s, Q s -> Q' s) -> made_of Q P v -> made_of Q' P v.
Proof.
  intros Q Q' P v W. induction v as [| |b|n|e s|l IH|d l IH] using value_ind'; intros M; inversion M; subst; constructor; auto.
  - rewrite Forall_forall in *. intros m Hm. apply IH; [exact Hm|exact (mo_arr_inv _ _ _ M _ Hm)].
  - rewrite Forall_forall in *. intros m Hm. destruct (mo_obj_inv _ _ _ _ M _ Hm). split; [|apply IH]; auto.
Qed.
Lemma count_less : forall l : list (bytes * value), Z.of_nat (length l) <= fold_right (fun (x : bytes * value) a => 1 + members_in (snd x) + a) 0 l /\
  forall x, In x l -> members_in (snd x) <= fold_right (fun (x : bytes * value) a => 1 + members_in (snd x) + a) 0 l.
Proof.
  assert (P : forall v, 0 <= members_in v).
  { intros v. induction v as [| |b|n|e s|l IH|d l IH] using value_ind'; cbn [members_in]; try lia.
    all: induction IH as [|x l Hx _ IHl]; cbn [fold_right]; lia. }
  induction l as [|y l [I1 I2]]; [split; [cbn; lia|intros x []]|]. cbn [length fold_right]. specialize (P (snd y)) as Py.
  split; [lia|]. intros x [->|Hx]; [lia|]. specialize (I2 x Hx). lia.
Qed.
Definition short_text (s : bytes) : Prop := valid_utf8 s /\ Z.of_nat (length s) < 2 ^ 64.
Lemma short_bin : forall s, short_text s -> bin_text (mkBF true false false) s.
Proof.
  intros s [(cs & F & ->) Sh]. split; [exact (utf8_encode_range cs F)|]. split; [exact Sh|].
  destruct F as [|c cs C F]; [exact I|]. cbn [utf8_encode flat_map]. unfold is_cp in C. unfold utf8_bytes.
  destruct (c <? 128) eqn:E1; [cbn; lia|]. destruct (c <? 2048) eqn:E2; [cbn [app]; pose proof (Z.div_pos c 64 ltac:(lia) ltac:(lia)); lia|].
  destruct (c <? 65536) eqn:E3; [cbn [app]; pose proof (Z.div_pos c 4096 ltac:(lia) ltac:(lia)); lia|]. cbn [app]. pose proof (Z.div_pos c 262144 ltac:(lia) ltac:(lia)); lia.
Qed.
Lemma plain_bin : forall L v, read_form plain_form v -> made_of short_text no_double v -> members_in v < 2 ^ 32 -> bin_ok L (mkBF true false false) v.
Proof.
  intros L. induction v as [| |b|n|e s|l IH|d l IH] using value_ind'; intros H M C; try exact I.
  - cbn [bin_ok]. inversion H as [| |n0 Hn|sg| | |]; subst.
    + destruct n as [z|z|f|t k]; cbn [plain_form bin_num] in *; try lia.
      inversion M as [| | |n0 Hd| | |]; subst. destruct Hd as (sg & ->). reflexivity.
    + reflexivity.
  - inversion H; subst. inversion M; subst. apply short_bin. assumption.
  - cbn [members_in] in C. destruct (count_less l) as [C1 C2]. cbn [bin_ok]. split; [unfold size_limit; cbn [bf_32]; lia|].
    assert (A : forall x, In x l -> bin_text (mkBF true false false) (fst x) /\ bin_ok L (mkBF true false false) (snd x)).
    { intros x Hx. destruct (rf_arr_inv _ _ H x Hx) as [K1 K2]. rewrite K1. split; [split; [constructor|split; [reflexivity|exact I]]|].
      rewrite Forall_forall in IH. apply (IH x Hx K2 (mo_arr_inv _ _ _ M x Hx)). specialize (C2 x Hx). lia. }
    clear - A. induction l as [|x l IH]; [exact I|]. destruct (A x (or_introl eq_refl)). split; [assumption|]. split; [assumption|]. apply IH. intros y Hy. apply A. right; exact Hy.
  - cbn [members_in] in C. destruct (count_less l) as [C1 C2]. cbn [bin_ok]. split; [unfold size_limit; cbn [bf_32]; lia|].
    assert (A : forall x, In x l -> bin_text (mkBF true false false) (fst x) /\ bin_ok L (mkBF true false false) (snd x)).
    { intros x Hx. destruct (mo_obj_inv _ _ _ _ M x Hx) as [K1 K2]. split; [apply short_bin; exact K1|].
      rewrite Forall_forall in IH. apply (IH x Hx (rf_obj_inv _ _ _ H x Hx) K2). specialize (C2 x Hx). lia. }
    clear - A. induction l as [|x l IH]; [exact I|]. destruct (A x (or_introl eq_refl)). split; [assumption|]. split; [assumption|]. apply IH. intros y Hy. apply A. right; exact Hy.
Qed.
Lemma bin_plain : forall J L E s v, (forall n, is_bytes (J n)) -> from_stream L (mkPF false false) s = Ok v ->
  made_of (fun t => valid_utf8 t /\ Z.of_nat (length t) < 2 ^ 64) no_double v -> members_in v < 2 ^ 32 - 257 ->
  exists o, json_bin L s = Writes o /\ json_unbin J E o = Writes (ser E true v) /\ json_bin L (ser E true v) = Writes o.
Proof.
  intros J L E s v HJ H M C. destruct (stream_inv _ _ _ _ H) as (r & P).
  pose proof (parse_form L tool_flags plain_form (fun r n r' => plain_num_form L tool_flags r n r' eq_refl) _ v r P) as Fm.
  assert (D : made_of (text_ok true) no_double v) by (apply (made_weaker _ (text_ok true)) in M; [exact M|intros t [T _]; exact T]).
  destruct (bin_there J L E s v [] HJ H (plain_bin L v Fm M ltac:(lia)) C) as (o & H1 & H2). rewrite app_nil_r in H2.
  exists o. split; [exact H1|]. split; [exact H2|]. unfold json_bin in *. fold tool_flags in H. rewrite (again_stream L E s v H D). rewrite H in H1. exact H1.
Qed.
