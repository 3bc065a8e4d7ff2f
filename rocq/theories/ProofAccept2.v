(** Soundness of the grammar of SpecAccept: every accepted text is of it. *)
From Coq Require Import ZifyBool Sorted.
From Verif Require Import Base ModelUtf8 SpecUtf8 ProofUtf8 ModelKeyed SpecKeyed ProofKeyed
  ModelValue ProofValue ModelText SpecText ProofText1 ProofText2 ProofText3 ProofText4 ProofText5
  SpecAccept ProofAccept.
Local Open Scope Z_scope.

Scheme gval_mind := Induction for gval Sort Prop
with gelems_mind := Induction for gelems Sort Prop
with gmembers_mind := Induction for gmembers Sort Prop.

Lemma gval_impl : forall (S S' : bytes -> list Z -> Prop) (N N' : num -> list Z -> Prop),
  (forall s b, S s b -> S' s b) -> (forall n t, N n t -> N' n t) ->
  forall v t, gval S N v t -> gval S' N' v t.
Proof.
  intros S S' N N' HS HN.
  apply (gval_mind S N (fun v t _ => gval S' N' v t) (fun l t _ => gelems S' N' l t)
    (fun l t _ => gmembers S' N' l t)); intros; try (constructor; auto; fail).
Qed.

(** What the text denotes may be computed anew. *)
Lemma gval_redo : forall (S S' : bytes -> list Z -> Prop) (N N' : num -> list Z -> Prop),
  (forall s b, S s b -> exists s', S' s' b) -> (forall n t, N n t -> exists n', N' n' t) ->
  forall v t, gval S N v t -> exists v', gval S' N' v' t.
Proof.
  intros S S' N N' HS HN.
  assert (Hstr : forall s b, S s b -> exists v', gval S' N' v' (34 :: b ++ [34])).
  { intros s b H. destruct (HS _ _ H) as (s' & H').
    destruct (bytes_eq_dec s' word_inf) as [->|N1]; [eexists; apply gv_inf; eauto|].
    destruct (bytes_eq_dec s' word_neg_inf) as [->|N2]; [eexists; apply gv_neg_inf; eauto|].
    eexists; apply gv_str; eauto. }
  apply (gval_mind S N (fun v t _ => exists v', gval S' N' v' t) (fun l t _ => exists l', gelems S' N' l' t)
    (fun l t _ => exists l', gmembers S' N' l' t)); intros;
    repeat match goal with H : exists _, _ |- _ => destruct H end; eauto.
  - eexists; apply gv_null.
  - eexists; apply gv_true.
  - eexists; apply gv_false.
  - destruct (HN _ _ n0) as (n' & Hn'). eexists; apply gv_num; eauto.
  - eexists; apply gv_arr0; eauto.
  - eexists; apply gv_arr; eauto.
  - eexists; apply gv_obj0; eauto.
  - eexists; apply gv_obj; eauto.
  - eexists; apply ge_one; eauto.
  - eexists; apply ge_cons; eauto.
  - destruct (HS _ _ s) as (k' & Hk'). eexists; apply gm_one; eauto.
  - destruct (HS _ _ s) as (k' & Hk'). eexists; apply gm_cons; eauto.
Qed.

Lemma gval_no_undef : forall S N v t, gval S N v t -> no_undef v.
Proof.
  intros S N. apply (gval_mind S N (fun v t _ => no_undef v)
    (fun l t _ => Forall (fun m => no_undef (snd m)) l)
    (fun l t _ => Forall (fun m => no_undef (snd m)) l)); intros;
    try (apply nu_leaf; exact I); try (apply nu_arr; auto); try (apply nu_obj; auto); auto.
Qed.

Section Sound.
Variables (L : libm) (F : pflags).

(** Number texts and what the parser makes of them. *)
Definition number_value (n : num) (t : list Z) : Prop :=
  if precise F then precise_value n t else plain_value n t.

Lemma number_raw_prec : forall t b, exists k, number_from_string_raw t b = NPrec t k.
Proof.
  intros t b. unfold number_from_string_raw. destruct b; [eauto|].
  destruct (match t with [] => (false, []) | c :: t0 => if (c =? 45) || (c =? 43) then (c =? 45, t0) else (false, t) end)
    as [ng ds].
  destruct (nfs_loop 0 ds) as [a|]; [|eauto]. destruct ng; [|eauto].
  destruct (u64 (Z.shiftl a 1) <? a); eauto.
Qed.

Lemma number_inv : forall r s v r', at_pos r s -> parse_number L F r = Ok (v, r') ->
  exists t rest n, s = t ++ rest /\ v = VNum n /\ number_value n t /\ at_pos r' rest.
Proof.
  intros r s v r' Hr H. unfold number_value. destruct (precise F) eqn:HF.
  - unfold parse_number in H. rewrite HF in H.
    destruct (parse_precise r) as [[[t isf] r1]| |] eqn:E; cbn [bind] in H; try congruence.
    apply (parse_precise_inv r s) in E as (rest & -> & Ht & Hat); auto. inversion H; subst.
    exists t, rest, (number_from_string_raw t isf). repeat split; auto.
    apply number_raw_prec.
  - eapply parse_number_inv; eauto.
Qed.

Lemma string_value_gval : forall s b, read_as s b -> gval read_as number_value (string_value s) (34 :: b ++ [34]).
Proof.
  intros s b H. unfold string_value. destruct (beqb s inf_word) eqn:E1.
  - apply beqb_eq in E1. subst s. apply gv_inf. exact H.
  - destruct (beqb s neg_inf_word) eqn:E2.
    + apply beqb_eq in E2. subst s. apply gv_neg_inf. exact H.
    + apply gv_str; auto; intros ->.
      * rewrite (proj2 (beqb_eq _ _)) in E1 by reflexivity. discriminate.
      * rewrite (proj2 (beqb_eq _ _)) in E2 by reflexivity. discriminate.
Qed.

Lemma string_value_settle : forall dup s, settle dup (string_value s) = Some (string_value s).
Proof. intros dup s. unfold string_value. destruct (beqb s inf_word); auto. destruct (beqb s neg_inf_word); auto. Qed.

Lemma check_rest_inv : forall str s s', Forall (fun c => c <> -1) str -> check_rest str s = Ok s' -> s = str ++ s'.
Proof.
  induction str as [|k str IH]; intros s s' Hf H; cbn [check_rest] in H; [inversion H; reflexivity|].
  inversion_clear Hf as [|? ? Hk Hf']. destruct s as [|c s]; cbn [pull] in H.
  - destruct (-1 =? k) eqn:E; [lia|discriminate].
  - destruct (c =? k) eqn:E; [|discriminate]. replace c with k by lia. cbn [app]. f_equal. apply IH; auto.
Qed.

Lemma check_string_inv : forall k str s r', Forall (fun c => c <> -1) str ->
  check_string (k :: str) (mkR s (Some k)) = Ok r' -> exists rest, s = str ++ rest /\ r' = mkR rest None.
Proof.
  intros k str s r' Hf H. cbn [check_string next cur src] in H. rewrite Z.eqb_refl in H.
  destruct (check_rest str s) as [s'| |] eqn:E; cbn [bind] in H; try congruence. inversion H; subst.
  exists s'. split; auto. apply check_rest_inv; auto.
Qed.

Definition I_val (f : nat) : Prop := forall r s v r', at_pos r s -> source s -> parse L F f r = Ok (v, r') ->
  exists w t rest v0, s = w ++ t ++ rest /\ spaces w /\ gval read_as number_value v0 t /\
    settle (allow_dup F) v0 = Some v /\ at_pos r' rest.

(** [parse_obj] with the first character of a key loaded. *)
Definition I_obj (f : nat) : Prop := forall s c acc v r', source s -> c = char_of (hd_eof s) ->
  parse_obj L F f c (mkR (tl s) (Some (hd_eof s))) acc = Ok (v, r') ->
  exists t rest l l', s = t ++ 125 :: rest /\ (forall w, spaces w -> gmembers read_as number_value l (w ++ t)) /\
    settle_list (allow_dup F) l = Some l' /\ finish_object F (rev acc ++ l') = Ok v /\ at_pos r' rest.

Definition I_arr (f : nat) : Prop := forall r s acc v r', at_pos r s -> source s -> parse_arr L F f r acc = Ok (v, r') ->
  exists t rest l l', s = t ++ 93 :: rest /\ gelems read_as number_value l t /\
    settle_list (allow_dup F) l = Some l' /\ v = VArr (map (fun v => ([], v)) (rev acc) ++ l') /\ at_pos r' rest.

Lemma gelems_ws : forall w l t, spaces w -> gelems read_as number_value l t -> gelems read_as number_value l (w ++ t).
Proof.
  intros w l t Hw H. destruct H as [v w1 t w2 H1 H2 H3|v w1 t w2 l ts H1 H2 H3 H4]; rewrite app_assoc.
  - apply ge_one; auto. apply Forall_app; auto.
  - apply ge_cons; auto. apply Forall_app; auto.
Qed.

Lemma sound_step : forall f, I_val f -> I_obj f -> I_arr f -> I_val (S f) /\ I_obj (S f) /\ I_arr (S f).
Proof.
  intros f IHp IHo IHa. split; [|split].
  - intros r s v r' Hr Hs H. cbn [parse] in H. destruct (next_ws r) as [c r1] eqn:E1.
    destruct (Z_lt_le_dec c 0) as [Hneg|Hnn].
    { replace (c =? 123) with false in H by lia. replace (c =? 91) with false in H by lia.
      replace (c =? 34) with false in H by lia. replace (c =? 116) with false in H by lia.
      replace (c =? 102) with false in H by lia. replace (c =? 110) with false in H by lia.
      replace (isdigit c || (c =? 43) || (c =? 45) || (c =? 46)) with false in H by (unfold isdigit; lia). discriminate. }
    destruct (Z_lt_le_dec c 128) as [Hlt|Hge].
    2:{ replace (c =? 123) with false in H by lia. replace (c =? 91) with false in H by lia.
      replace (c =? 34) with false in H by lia. replace (c =? 116) with false in H by lia.
      replace (c =? 102) with false in H by lia. replace (c =? 110) with false in H by lia.
      replace (isdigit c || (c =? 43) || (c =? 45) || (c =? 46)) with false in H by (unfold isdigit; lia). discriminate. }
    destruct (next_ws_ascii _ _ _ _ Hr Hs E1 (conj Hnn Hlt)) as (w & s1 & -> & Hw & ->).
    apply source_app in Hs as [_ Hs]. pose proof Hs as Hcs. apply source_cons in Hs as [_ Hs].
    unfold commit in H. cbn [src] in H.
    destruct (c =? 123) eqn:C1.
    { replace c with 123 in * by lia. destruct (next_ws (mkR s1 None)) as [c1 r2] eqn:E2.
      destruct (next_ws_inv _ _ _ _ (at_none s1) Hs E2) as (w1 & s2 & -> & Hw1 & Ec1 & -> & _).
      apply source_app in Hs as [_ Hs]. cbn [src] in H.
      destruct (c1 =? 125) eqn:C2.
      - assert (hd_eof s2 = 125) as Hh by (apply char_of_ascii; [apply source_hd; auto|lia|lia]).
        destruct s2 as [|x s2]; [discriminate|]. cbn in Hh. subst x. inversion H; subst.
        exists w, (123 :: w1 ++ [125]), s2, (VObj false []). repeat split; auto.
        + cbn [app]. rewrite <- app_assoc. reflexivity.
        + apply gv_obj0. auto.
        + rewrite settle_obj. cbn [settle_list]. change (build_object is_undef []) with (@nil (bytes * value)).
          cbv zeta. rewrite Nat.eqb_refl. cbn [negb]. rewrite andb_false_r. reflexivity.
      - apply (IHo s2) in H as (t & rest & l & l' & -> & Hg & Hset & Hfin & Hat); auto.
        exists w, (123 :: (w1 ++ t) ++ [125]), rest, (VObj false l). repeat split; auto.
        + cbn [app]. rewrite <- !app_assoc. reflexivity.
        + apply gv_obj. auto.
        + rewrite settle_obj, Hset. cbn [rev app] in Hfin. unfold finish_object in Hfin. cbv zeta in *.
          match type of Hfin with (if ?b then _ else _) = _ => destruct b end; congruence. }
    destruct (c =? 91) eqn:C2.
    { replace c with 91 in * by lia. destruct (next_ws (mkR s1 None)) as [c1 r2] eqn:E2.
      destruct (next_ws_inv _ _ _ _ (at_none s1) Hs E2) as (w1 & s2 & -> & Hw1 & Ec1 & -> & _).
      apply source_app in Hs as [_ Hs]. cbn [src] in H.
      destruct (c1 =? 93) eqn:C3.
      - assert (hd_eof s2 = 93) as Hh by (apply char_of_ascii; [apply source_hd; auto|lia|lia]).
        destruct s2 as [|x s2]; [discriminate|]. cbn in Hh. subst x. inversion H; subst.
        exists w, (91 :: w1 ++ [93]), s2, (VArr []). repeat split; auto.
        + cbn [app]. rewrite <- app_assoc. reflexivity.
        + apply gv_arr0. auto.
      - apply (IHa _ s2) in H as (t & rest & l & l' & -> & Hg & Hset & -> & Hat); auto; [|apply at_next].
        exists w, (91 :: (w1 ++ t) ++ [93]), rest, (VArr l). repeat split; auto.
        + cbn [app]. rewrite <- !app_assoc. reflexivity.
        + apply gv_arr. apply gelems_ws; auto.
        + rewrite settle_arr, Hset. reflexivity. }
    destruct (c =? 34) eqn:C3.
    { replace c with 34 in * by lia.
      destruct (read_string_r (mkR s1 None)) as [[t r2]| |] eqn:E2; cbn [bind] in H; try congruence. inversion H; subst.
      apply read_string_r_inv in E2 as (b & rest & -> & Hb & ->).
      exists w, (34 :: b ++ [34]), rest, (string_value t). repeat split; auto.
      - cbn [app]. rewrite <- app_assoc. reflexivity.
      - apply string_value_gval. auto.
      - apply string_value_settle. }
    destruct (c =? 116) eqn:C4.
    { replace c with 116 in * by lia.
      destruct (check_string str_true (mkR s1 (Some 116))) as [r2| |] eqn:E2; cbn [bind] in H; try congruence. inversion H; subst.
      apply check_string_inv in E2 as (rest & -> & ->); [|repeat constructor; lia].
      exists w, str_true, rest, (VBool true). repeat split; auto. apply gv_true. }
    destruct (c =? 102) eqn:C5.
    { replace c with 102 in * by lia.
      destruct (check_string str_false (mkR s1 (Some 102))) as [r2| |] eqn:E2; cbn [bind] in H; try congruence. inversion H; subst.
      apply check_string_inv in E2 as (rest & -> & ->); [|repeat constructor; lia].
      exists w, str_false, rest, (VBool false). repeat split; auto. apply gv_false. }
    destruct (c =? 110) eqn:C6.
    { replace c with 110 in * by lia.
      destruct (check_string str_null (mkR s1 (Some 110))) as [r2| |] eqn:E2; cbn [bind] in H; try congruence. inversion H; subst.
      apply check_string_inv in E2 as (rest & -> & ->); [|repeat constructor; lia].
      exists w, str_null, rest, VNull. repeat split; auto. apply gv_null. }
    destruct (isdigit c || (c =? 43) || (c =? 45) || (c =? 46)); [|discriminate].
    apply (number_inv _ (c :: s1)) in H as (t & rest & n & E & -> & Hn & Hat); [|apply at_cons].
    exists w, t, rest, (VNum n). rewrite E. repeat split; auto. apply gv_num. auto.
  - intros s c acc v r' Hs Hc H. cbn [parse_obj] in H. destruct (c =? 34) eqn:C1; [|discriminate].
    assert (hd_eof s = 34) as Hh by (apply char_of_ascii; [apply source_hd; auto|lia|lia]).
    destruct s as [|x s]; [discriminate|]. cbn in Hh. subst x. clear Hc.
    apply source_cons in Hs as [_ Hs]. unfold commit in H. cbn [tl src] in H.
    destruct (read_string_r (mkR s None)) as [[k r1]| |] eqn:E1; cbn [bind] in H; try congruence.
    apply read_string_r_inv in E1 as (b & s1 & -> & Hb & ->).
    apply source_app in Hs as [_ Hs]. apply source_cons in Hs as [_ Hs].
    destruct (next_ws (mkR s1 None)) as [c1 r2] eqn:E2. destruct (c1 =? 58) eqn:C2; [|discriminate].
    destruct (next_ws_ascii _ _ _ _ (at_none _) Hs E2 ltac:(lia)) as (w2 & s2 & -> & Hw2 & ->).
    replace c1 with 58 in * by lia.
    apply source_app in Hs as [_ Hs]. apply source_cons in Hs as [_ Hs]. cbn [src] in H.
    destruct (parse L F f (mkR s2 None)) as [[v1 r3]| |] eqn:E3; cbn [bind] in H; try congruence.
    apply (IHp _ s2) in E3 as (w3 & t & s3 & v0 & -> & Hw3 & Hg & Hset & Hat3); auto; [|apply at_none].
    apply source_app in Hs as [_ Hs]. apply source_app in Hs as [_ Hs].
    cbv zeta in H. destruct (next_ws r3) as [c2 r4] eqn:E4. destruct (c2 =? 125) eqn:C3.
    { destruct (next_ws_ascii _ _ _ _ Hat3 Hs E4 ltac:(lia)) as (w4 & s4 & -> & Hw4 & ->).
      replace c2 with 125 in * by lia. cbn [src] in H.
      destruct (finish_object F (rev ((k, v1) :: acc))) as [o| |] eqn:Ef; cbn [bind] in H; try congruence.
      inversion H; subst.
      exists (34 :: b ++ 34 :: w2 ++ 58 :: w3 ++ t ++ w4), s4, [(k, v0)], [(k, v1)].
      repeat split; auto.
      - cbn [app]. f_equal. rewrite <- !app_assoc. cbn [app]. do 2 f_equal. rewrite <- !app_assoc. cbn [app].
        do 2 f_equal. rewrite <- !app_assoc. reflexivity.
      - intros w Hw. apply gm_one; auto.
      - cbn [settle_list]. rewrite Hset. reflexivity. }
    destruct (c2 =? 44) eqn:C4; [|discriminate].
    destruct (next_ws_ascii _ _ _ _ Hat3 Hs E4 ltac:(lia)) as (w4 & s4 & -> & Hw4 & ->).
    replace c2 with 44 in * by lia. cbn [src] in H.
    apply source_app in Hs as [_ Hs]. apply source_cons in Hs as [_ Hs].
    destruct (next_ws (mkR s4 None)) as [c3 r6] eqn:E5.
    destruct (next_ws_inv _ _ _ _ (at_none s4) Hs E5) as (w5 & s5 & -> & Hw5 & Ec3 & -> & _).
    apply source_app in Hs as [_ Hs].
    apply (IHo s5) in H as (t5 & rest & l & l' & -> & Hg5 & Hset5 & Hfin & Hat); auto.
    exists (34 :: b ++ 34 :: w2 ++ 58 :: w3 ++ t ++ w4 ++ 44 :: w5 ++ t5), rest, ((k, v0) :: l), ((k, v1) :: l').
    repeat split; auto.
    + cbn [app]. f_equal. rewrite <- !app_assoc. cbn [app]. do 2 f_equal. rewrite <- !app_assoc. cbn [app].
      do 2 f_equal. rewrite <- !app_assoc. cbn [app]. rewrite <- !app_assoc. reflexivity.
    + intros w Hw. apply gm_cons; auto.
    + cbn [settle_list]. rewrite Hset, Hset5. reflexivity.
    + cbn [rev] in Hfin. rewrite <- app_assoc in Hfin. exact Hfin.
  - intros r s acc v r' Hr Hs H. cbn [parse_arr] in H.
    destruct (parse L F f r) as [[v1 r3]| |] eqn:E3; cbn [bind] in H; try congruence.
    apply (IHp _ s) in E3 as (w1 & t & s3 & v0 & -> & Hw1 & Hg & Hset & Hat3); auto.
    apply source_app in Hs as [_ Hs]. apply source_app in Hs as [_ Hs].
    cbv zeta in H. destruct (next_ws r3) as [c2 r4] eqn:E4. destruct (c2 =? 93) eqn:C3.
    { destruct (next_ws_ascii _ _ _ _ Hat3 Hs E4 ltac:(lia)) as (w4 & s4 & -> & Hw4 & ->).
      replace c2 with 93 in * by lia. unfold commit in H. cbn [src] in H. inversion H; subst.
      exists (w1 ++ t ++ w4), s4, [([], v0)], [([], v1)]. repeat split; auto.
      - rewrite <- !app_assoc. reflexivity.
      - apply ge_one; auto.
      - cbn [settle_list]. rewrite Hset. reflexivity.
      - cbn [rev]. rewrite map_app. reflexivity. }
    destruct (c2 =? 44) eqn:C4; [|discriminate].
    destruct (next_ws_ascii _ _ _ _ Hat3 Hs E4 ltac:(lia)) as (w4 & s4 & -> & Hw4 & ->).
    replace c2 with 44 in * by lia. unfold commit in H. cbn [src] in H.
    apply source_app in Hs as [_ Hs]. apply source_cons in Hs as [_ Hs].
    apply (IHa _ s4) in H as (t5 & rest & l & l' & -> & Hg5 & Hset5 & -> & Hat); auto; [|apply at_none].
    exists (w1 ++ t ++ w4 ++ 44 :: t5), rest, (([], v0) :: l), (([], v1) :: l'). repeat split; auto.
    + rewrite <- !app_assoc. cbn [app]. reflexivity.
    + apply ge_cons; auto.
    + cbn [settle_list]. rewrite Hset, Hset5. reflexivity.
    + cbn [rev]. rewrite map_app, <- app_assoc. reflexivity.
Qed.

Lemma sound_all : forall f, I_val f /\ I_obj f /\ I_arr f.
Proof.
  induction f as [|f (H1 & H2 & H3)].
  - repeat split; intros ?; intros; discriminate.
  - apply sound_step; auto.
Qed.
End Sound.

(** The value of a settled document. *)
Lemma settle_some : forall dup v v', no_undef v -> settle dup v = Some v' ->
  sorted_form v v' /\ (dup = false -> ~ has_dup v).
Proof.
  intros dup v v' Hn H.
  assert (dup = false -> ~ has_dup v) as Hd.
  { intros -> Hh. rewrite (settle_dup v Hn Hh) in H. discriminate. }
  split; auto.
  destruct (settle_spec v dup Hn) as (v2 & E & Hf & _).
  { destruct dup; auto. }
  congruence.
Qed.

(** *** What a well-formed body denotes is what the parser reads *)
Lemma soft_hex_val : forall c v, soft_hex c v -> hex_val c = v /\ 0 <= v < 16.
Proof.
  intros c v [H|[H ->]]; [apply hex_char_val; auto|]. split; [|lia].
  unfold hex_val, isdigit. destruct ((48 <=? c) && (c <=? 57)) eqn:E1.
  { exfalso. apply (H (c - 48)). unfold hex_char. lia. }
  destruct ((65 <=? c) && (c <=? 70)) eqn:E2.
  { exfalso. apply (H (c - 55)). unfold hex_char. lia. }
  destruct ((97 <=? c) && (c <=? 102)) eqn:E3; [|reflexivity].
  exfalso. apply (H (c - 87)). unfold hex_char. lia.
Qed.

Lemma soft_hex_total : forall c, exists v, soft_hex c v.
Proof.
  intros c. destruct (Z_le_dec 48 c), (Z_le_dec c 57), (Z_le_dec 65 c), (Z_le_dec c 70), (Z_le_dec 97 c), (Z_le_dec c 102);
    try (exists (c - 48); left; unfold hex_char; lia);
    try (exists (c - 55); left; unfold hex_char; lia);
    try (exists (c - 87); left; unfold hex_char; lia);
    exists 0; right; (split; [|reflexivity]); unfold hex_char; intros x Hx; lia.
Qed.

Lemma read_string_soft : forall a b c d va vb vc vd st acc s,
  soft_hex a va -> soft_hex b vb -> soft_hex c vc -> soft_hex d vd ->
  read_string st acc (92 :: 117 :: a :: b :: c :: d :: s) =
  read_string st (acc ++ utf8_bytes (va * 4096 + vb * 256 + vc * 16 + vd)) s.
Proof.
  intros a b c d va vb vc vd st acc s Ha Hb Hc Hd.
  apply soft_hex_val in Ha as [Ha Ra]. apply soft_hex_val in Hb as [Hb Rb].
  apply soft_hex_val in Hc as [Hc Rc]. apply soft_hex_val in Hd as [Hd Rd].
  cbn [read_string]. simpl Z.eqb. cbv iota. change (simple_escape 117) with (@None Z). cbv iota.
  change (117 =? 117) with true. cbv iota.
  unfold unicode4. rewrite Ha, Hb, Hc, Hd.
  rewrite store_unicode_cp by (unfold is_cp; lia).
  replace (((va * 16 + vb) * 16 + vc) * 16 + vd) with (va * 4096 + vb * 256 + vc * 16 + vd) by lia.
  reflexivity.
Qed.

Lemma read_string_denotes : forall sg s b, denotes sg s b -> forall st acc rest,
  read_string st acc (b ++ 34 :: rest) = Ok (acc ++ s, rest).
Proof.
  induction 1 as [|c s b Hc H34 H92 Hs IH|e x s b He Hs IH|h1 h2 h3 h4 v1 v2 v3 v4 s b H1 H2 H3 H4 Hs IH];
    intros st acc rest.
  - simpl. rewrite app_nil_r. reflexivity.
  - rewrite <- app_assoc.
    destruct (read_string_cp sg c st acc (b ++ 34 :: rest)) as [st' ->]; auto.
    rewrite IH, app_assoc. reflexivity.
  - cbn [app]. rewrite (read_string_escape e x) by auto. rewrite IH, <- app_assoc. reflexivity.
  - cbn [app]. rewrite (read_string_soft h1 h2 h3 h4 v1 v2 v3 v4) by auto. rewrite IH, app_assoc. reflexivity.
Qed.

Lemma passes_body : forall l b, Forall passes l -> body b -> body (l ++ b).
Proof. induction 1 as [|c l (H1 & H2 & H3) _ IH]; intros Hb; simpl; auto. apply b_raw; auto. Qed.

Lemma denotes_body : forall sg s b, denotes sg s b -> body b.
Proof.
  induction 1 as [|c s b Hc H34 H92 Hs IH|e x s b He Hs IH|]; [constructor| | |apply b_hex; auto].
  - apply passes_body; auto. apply utf8_bytes_passes; auto.
  - eapply b_esc; eauto.
Qed.

Lemma read_as_reads : forall s b, read_as s b -> reads_as s b.
Proof.
  intros s b (Hb & Hr). split; auto. intros sg s' Hd.
  pose proof (read_string_denotes sg s' b Hd u_init [] []) as E. rewrite Hr in E. inversion E. reflexivity.
Qed.

Lemma denotes_read : forall sg s b, denotes sg s b -> read_as s b.
Proof.
  intros sg s b H. split; [eapply denotes_body; eauto|]. intros x. rewrite (read_string_denotes sg s b H). reflexivity.
Qed.

(** Every body is read. *)
Lemma body_read : forall b, body b -> forall st acc, exists s, forall x, read_string st acc (b ++ 34 :: x) = Ok (s, x).
Proof.
  induction 1 as [|c b H1 H2 H3 Hb IH|e x b He Hb IH|h1 h2 h3 h4 b Hb IH]; intros st acc.
  - exists acc. reflexivity.
  - destruct (utf8_step st c) as [st1 wl] eqn:E. destruct (IH st1 (acc ++ flat_map store_unicode wl)) as (s & Hs).
    exists s. intros y. cbn [app read_string]. replace (c =? -1) with false by lia. replace (c =? 34) with false by lia.
    replace (c =? 92) with false by lia. rewrite E. apply Hs.
  - destruct (IH st (acc ++ [x])) as (s & Hs). exists s. intros y. cbn [app].
    rewrite (read_string_escape e x) by auto. apply Hs.
  - destruct (IH st (acc ++ store_unicode (unicode4 h1 h2 h3 h4))) as (s & Hs). exists s. intros y. cbn [app read_string].
    apply Hs.
Qed.

Lemma body_read_as : forall b, body b -> exists s, read_as s b.
Proof. intros b H. destruct (body_read b H u_init []) as (s & Hs). exists s. split; auto. Qed.

(** *** Theorem: soundness *)
Definition flag_value (F : pflags) : num -> list Z -> Prop := if precise F then precise_value else plain_value.

Lemma parse_sound : forall L F s v r, Forall source_char s -> parse_source L F s = Ok (v, r) ->
  exists w t rest v0, s = w ++ t ++ rest /\ spaces w /\ gval reads_as (flag_value F) v0 t /\
    sorted_form v0 v /\ (allow_dup F = false -> ~ has_dup v0) /\ at_pos r rest.
Proof.
  intros L F s v r Hs H. unfold parse_source in H.
  destruct (sound_all L F (S (2 * length s))) as (HV & _).
  apply (HV (mkR s None) s) in H as (w & t & rest & v0 & -> & Hw & Hg & Hset & Hat); auto; [|apply at_none].
  destruct (settle_some _ _ _ (gval_no_undef _ _ _ _ Hg) Hset) as (Hf & Hd).
  exists w, t, rest, v0. repeat split; auto.
  eapply gval_impl; [|  |exact Hg]; [apply read_as_reads|].
  intros n x. unfold number_value, flag_value. destruct (precise F); auto.
Qed.
