(** Strings of wide characters. *)
From Coq Require Import Lia ZifyBool.
From Verif Require Import Base ModelUtf8 SpecUtf8 ProofUtf8 ModelWide.
Local Open Scope Z_scope.
Ltac Zify.zify_post_hook ::= Z.div_mod_to_equations.

Definition dec (st : ustate) (s : bytes) : list Z := snd (utf8_to_wide st s).
Lemma dec_cons : forall st c s, c <> -1 -> dec st (c :: s) = snd (utf8_step st c) ++ dec (fst (utf8_step st c)) s.
Proof.
  intros st c s H. unfold dec. cbn [utf8_to_wide]. replace (c =? -1) with false by lia. destruct (utf8_step st c) as [st1 o1]. cbn [fst snd].
  destruct (utf8_to_wide st1 s). reflexivity.
Qed.
Lemma dec_cp : forall c st s, is_cp c -> exists st', (pend st = 0 -> pend st' = 0) /\ dec st (utf8_bytes c ++ s) = c :: dec st' s.
Proof.
  intros c st s H. assert (E : utf8_bytes c = map (as_source false) (utf8_bytes c)) by (symmetry; apply map_id). rewrite E. clear E. unfold is_cp in H. unfold utf8_bytes.
  assert (B : forall b, is_byte b -> as_source false b <> -1) by (intros b Hb; unfold as_source, is_byte in *; lia).
  destruct (c <? 0x80) eqn:E1.
  { cbn [map app]. rewrite dec_cons by (apply B; unfold is_byte; lia). rewrite step_ascii by lia. cbn [fst snd app]. exists st. split; [tauto|reflexivity]. }
  destruct (c <? 0x800) eqn:E2.
  { cbn [map app]. do 2 (rewrite dec_cons by (apply B; unfold is_byte; lia); try rewrite step_lead2 by lia; try rewrite step_cont by lia; change (3 - 1) with 2; change (2 - 1) with 1; change (1 - 1) with 0; cbn [fst snd app Z.eqb Pos.eqb]).
    eexists. split; [|apply f_equal2; [lia|reflexivity]]. reflexivity. }
  destruct (c <? 0x10000) eqn:E3.
  { cbn [map app]. do 3 (rewrite dec_cons by (apply B; unfold is_byte; lia); try rewrite step_lead3 by lia; try rewrite step_cont by lia; change (3 - 1) with 2; change (2 - 1) with 1; change (1 - 1) with 0; cbn [fst snd app Z.eqb Pos.eqb]).
    eexists. split; [|apply f_equal2; [lia|reflexivity]]. reflexivity. }
  cbn [map app]. do 4 (rewrite dec_cons by (apply B; unfold is_byte; lia); try rewrite step_lead4 by lia; try rewrite step_cont by lia; change (3 - 1) with 2; change (2 - 1) with 1; change (1 - 1) with 0; cbn [fst snd app Z.eqb Pos.eqb]).
  eexists. split; [|apply f_equal2; [lia|reflexivity]]. reflexivity.
Qed.
(** One character that is no code point: nothing, or one byte. *)
Lemma wide_other : forall w, ~ is_cp w -> w < 0 /\ wide_to_utf8_1 w = [to_byte w] \/ 0x10FFFF < w /\ wide_to_utf8_1 w = [].
Proof.
  intros w H. unfold is_cp in H. unfold wide_to_utf8_1. destruct (Z.ltb_spec w 0x80); [left; split; [lia|reflexivity]|]. right. split; [lia|].
  destruct (Z.leb_spec w 0x7FF); [lia|]. rewrite andb_false_r. destruct (Z.leb_spec w 0xFFFF); [lia|]. rewrite andb_false_r. destruct (Z.leb_spec w 0x10FFFF); [lia|]. rewrite andb_false_r. reflexivity.
Qed.
Lemma cp_dec : forall w, is_cp w \/ ~ is_cp w.
Proof. intros w. unfold is_cp. lia. Qed.
Lemma step_few : forall st c, (length (snd (utf8_step st c)) <= 1)%nat.
Proof.
  intros st c. unfold utf8_step. destruct (Z.land c 192 =? 128). { cbn zeta. cbn [snd]. destruct (_ =? 0); cbn; lia. }
  destruct (Z.land c 224 =? 192); [cbn; lia|]. destruct (Z.land c 240 =? 224); [cbn; lia|]. destruct (Z.land c 248 =? 240); cbn; lia.
Qed.
Lemma few : forall ws st, (length (dec st (wide_to_utf8 ws)) <= length ws)%nat.
Proof.
  induction ws as [|w ws IH]; intros st; [cbn; lia|]. cbn [wide_to_utf8]. destruct (Z.eqb_spec w (-1)); [cbn; lia|]. destruct (cp_dec w) as [C|C].
  - rewrite wide_to_utf8_1_spec by exact C. destruct (dec_cp w st (wide_to_utf8 ws) C) as (st' & _ & ->). cbn [length]. specialize (IH st'). lia.
  - destruct (wide_other w C) as [[N ->]|[N ->]]; cbn [app].
    + rewrite dec_cons by (unfold to_byte; lia). rewrite app_length. pose proof (step_few st (to_byte w)). specialize (IH (fst (utf8_step st (to_byte w)))). cbn [length]. lia.
    + specialize (IH st). cbn [length]. lia.
Qed.
Lemma step_clean : forall st w, pend st = 0 -> w < 0 -> snd (utf8_step st (to_byte w)) = [] \/ snd (utf8_step st (to_byte w)) = [to_byte w].
Proof.
  intros st w P N. unfold utf8_step. rewrite P. destruct (Z.land (to_byte w) 192 =? 128); [left; reflexivity|].
  destruct (Z.land _ 224 =? 192); [left; reflexivity|]. destruct (Z.land _ 240 =? 224); [left; reflexivity|]. destruct (Z.land _ 248 =? 240); [left; reflexivity|right; reflexivity].
Qed.
Lemma back_only : forall ws st, pend st = 0 -> dec st (wide_to_utf8 ws) = ws -> Forall is_cp ws.
Proof.
  induction ws as [|w ws IH]; intros st P E; [constructor|]. cbn [wide_to_utf8] in E. destruct (Z.eqb_spec w (-1)); [discriminate|]. destruct (cp_dec w) as [C|C].
  - rewrite wide_to_utf8_1_spec in E by exact C. destruct (dec_cp w st (wide_to_utf8 ws) C) as (st' & P' & E'). rewrite E' in E. injection E as E. constructor; [exact C|]. apply (IH st' (P' P) E).
  - exfalso. destruct (wide_other w C) as [[N K]|[N K]]; rewrite K in E; cbn [app] in E.
    + rewrite dec_cons in E by (unfold to_byte; lia). set (st1 := fst (utf8_step st (to_byte w))) in *. destruct (step_clean st w P N) as [S|S]; rewrite S in E; cbn [app] in E.
      * pose proof (few ws st1) as F. rewrite E in F. cbn [length] in F. lia.
      * injection E as E _. unfold to_byte in E. lia.
    + pose proof (few ws st) as F. rewrite E in F. cbn [length] in F. lia.
Qed.
Lemma wide_back : forall ws, wstr (string_of_wide ws) = ws <-> Forall is_cp ws.
Proof.
  intros ws. split.
  - apply (back_only ws u_init). reflexivity.
  - intros H. unfold wstr, string_of_wide. pose proof (wide_utf8_roundtrip false ws H) as R.
    replace (map (as_source false) (wide_to_utf8 ws)) with (wide_to_utf8 ws) in R by (symmetry; apply map_id). exact R.
Qed.

(** *** From bytes *)
Definition tame (n : Z) (st : ustate) : Prop :=
  pend st = 0 \/ (1 <= pend st <= 3 /\ 0 <= uchar st /\ uchar st * 64 ^ pend st < 2 ^ 21) \/ n < pend st < 2 ^ 32.
Lemma tame_less : forall n m st, m <= n -> tame n st -> tame m st.
Proof. intros n m st L [H|[H|H]]; [left; exact H|right; left; exact H|right; right; lia]. Qed.
Lemma step_tame : forall n st c, is_byte c -> 0 <= n < 2 ^ 32 - 2 -> tame (n + 1) st -> tame n (fst (utf8_step st c)) /\ Forall (fun x => 0 <= x) (snd (utf8_step st c)).
Proof.
  intros n st c C N T. unfold is_byte in C. unfold utf8_step.
  rewrite class_cont, class_2, class_3, class_4 by lia.
  destruct ((128 <=? c mod 256) && (c mod 256 <? 192)) eqn:E1.
  { assert (Cr : 128 <= c < 192) by lia. destruct st as [u b]. destruct T as [T|[(T1 & T2 & T3)|T]]; cbn [uchar pend] in *.
    - subst b. change (u32 (0 - 1)) with (2 ^ 32 - 1). cbn [fst snd]. split; [right; right; cbn [pend]; lia|constructor].
    - assert (P : 64 ^ b = 64 * 64 ^ (b - 1)) by (replace b with (1 + (b - 1)) at 1 by lia; rewrite Z.pow_add_r by lia; reflexivity).
      assert (Q : 1 <= 64 ^ (b - 1)) by (assert (0 < 64 ^ (b - 1)) by (apply Z.pow_pos_nonneg; lia); lia).
      pose proof (step_cont false u b (c - 128) ltac:(lia) ltac:(nia) T1) as S. unfold as_source in S. replace (128 + (c - 128)) with c in S by lia.
      unfold utf8_step in S. rewrite class_cont, E1 in S by lia. cbn [uchar pend] in S. rewrite S. cbn [fst snd]. split.
      + destruct (Z.eq_dec b 1); [left; cbn; lia|]. right. left. cbn [uchar pend]. split; [lia|]. split; [lia|].
        clear - T1 T2 T3 n0 Cr. assert (B : b = 2 \/ b = 3) by lia. destruct B as [-> | ->]; [change (64 ^ 2) with 4096 in T3; change (64 ^ (2 - 1)) with 64|change (64 ^ 3) with 262144 in T3; change (64 ^ (3 - 1)) with 4096]; change (2 ^ 21) with 2097152 in *; lia.
      + destruct (b =? 1); constructor; [lia|constructor].
    - cbn [fst snd]. assert (u32 (b - 1) = b - 1) as -> by (apply Z.mod_small; lia). replace (b - 1 =? 0) with false by lia. split; [right; right; cbn [pend]; lia|constructor]. }
  destruct ((192 <=? c mod 256) && (c mod 256 <? 224)) eqn:E2. { cbn [fst snd]. split; [|constructor]. right. left. cbn [uchar pend]. rewrite land31. lia. }
  destruct ((224 <=? c mod 256) && (c mod 256 <? 240)) eqn:E3. { cbn [fst snd]. split; [|constructor]. right. left. cbn [uchar pend]. rewrite land15. lia. }
  destruct ((240 <=? c mod 256) && (c mod 256 <? 248)) eqn:E4. { cbn [fst snd]. split; [|constructor]. right. left. cbn [uchar pend]. rewrite land7. lia. }
  cbn [fst snd]. split; [apply (tame_less (n + 1)); [lia|exact T]|]. constructor; [lia|constructor].
Qed.
Lemma dec_tame : forall s st, Forall is_byte s -> Z.of_nat (length s) < 2 ^ 32 - 2 -> tame (Z.of_nat (length s)) st -> Forall (fun x => 0 <= x) (dec st s).
Proof.
  induction s as [|c s IH]; intros st B L T; [constructor|]. inversion_clear B as [|? ? Bc Bs]. rewrite dec_cons by (unfold is_byte in Bc; lia). cbn [length] in *.
  destruct (step_tame (Z.of_nat (length s)) st c Bc ltac:(lia)) as [T1 O1]; [replace (Z.of_nat (length s) + 1) with (Z.of_nat (S (length s))) by lia; exact T|].
  apply Forall_app. split; [exact O1|]. apply IH; [exact Bs|lia|exact T1].
Qed.
Lemma wide_valid : forall ws, Forall (fun x => 0 <= x) ws -> valid_utf8 (wide_to_utf8 ws).
Proof.
  induction ws as [|w ws IH]; intros H; [exists []; split; [constructor|reflexivity]|]. inversion_clear H as [|? ? Hw Hs]. destruct (IH Hs) as (cs & C & E).
  cbn [wide_to_utf8]. replace (w =? -1) with false by lia. rewrite E. destruct (cp_dec w) as [P|P].
  - exists (w :: cs). split; [constructor; assumption|]. rewrite wide_to_utf8_1_spec by exact P. reflexivity.
  - destruct (wide_other w P) as [[N _]|[_ K]]; [lia|]. rewrite K. exists cs. split; [exact C|reflexivity].
Qed.
Lemma text_back : forall s, Forall is_byte s -> Z.of_nat (length s) < 2 ^ 32 - 2 -> (string_of_wide (wstr s) = s <-> valid_utf8 s).
Proof.
  intros s B L. split.
  - intros E. rewrite <- E. apply wide_valid. apply (dec_tame s u_init B L). left. reflexivity.
  - intros (cs & C & ->). rewrite <- (wide_to_utf8_spec cs C). change (wide_to_utf8 cs) with (string_of_wide cs). f_equal. apply wide_back. exact C.
Qed.
