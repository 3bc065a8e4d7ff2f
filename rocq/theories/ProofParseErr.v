(** Lemmas about the places of parse errors. *)
From Coq Require Import ZifyBool.
From Verif Require Import Base ModelUtf8 SpecUtf8 ModelKeyed SpecKeyed ProofKeyed ModelValue ProofValue ModelText SpecText ProofText1 ProofText2 ProofText3 ProofText4 ProofText5
  SpecAccept ProofAccept ProofAccept2 ProofAccept3 ModelParseErr SpecParseErr.
Local Open Scope Z_scope.

Definition erase {A} (r : eres A) : res A := match r with POk a => Ok a | PErr _ _ => Err | PFuel => Fuel end.
Lemma erase_leaf : forall A (r : res A), erase (leaf r) = r.
Proof. destruct r; reflexivity. Qed.

Lemma erase_all : forall L F f,
  (forall r, erase (parse_e L F f r) = parse L F f r) /\
  (forall c r acc, erase (parse_obj_e L F f c r acc) = parse_obj L F f c r acc) /\
  (forall r acc, erase (parse_arr_e L F f r acc) = parse_arr L F f r acc).
Proof.
  intros L F. induction f as [|f (IHv & IHo & IHa)]; [repeat split; reflexivity|]. split; [|split].
  - intros r. cbn [parse_e parse]. destruct (next_ws r) as [c r1].
    destruct (c =? 123); [destruct (next_ws (commit r1)) as [c1 r2]; destruct (c1 =? 125); [reflexivity|apply IHo]|].
    destruct (c =? 91); [destruct (next_ws (commit r1)) as [c1 r2]; destruct (c1 =? 93); [reflexivity|apply IHa]|].
    destruct (c =? 34); [apply erase_leaf|]. destruct (c =? 116); [apply erase_leaf|]. destruct (c =? 102); [apply erase_leaf|].
    destruct (c =? 110); [apply erase_leaf|]. destruct (isdigit c || _ || _ || _); [apply erase_leaf|reflexivity].
  - intros c r acc. cbn [parse_obj_e parse_obj]. destruct (c =? 34); [|reflexivity].
    destruct (read_string_r (commit r)) as [[name r1]| |]; cbn [bind]; try reflexivity. destruct (next_ws r1) as [c1 r2].
    destruct (c1 =? 58); [|reflexivity]. rewrite <- IHv. destruct (parse_e L F f (commit r2)) as [[v r3]|n st|]; cbn [erase bind]; try reflexivity.
    cbv zeta. destruct (next_ws r3) as [c2 r4]. destruct (c2 =? 125).
    { destruct (finish_object F (rev ((name, v) :: acc))); reflexivity. }
    destruct (c2 =? 44); [|reflexivity]. destruct (next_ws (commit r4)) as [c3 r6]. apply IHo.
  - intros r acc. cbn [parse_arr_e parse_arr]. rewrite <- IHv. destruct (parse_e L F f r) as [[v r1]|n st|]; cbn [erase bind]; try reflexivity.
    cbv zeta. destruct (next_ws r1) as [c r2]. destruct (c =? 93); [reflexivity|]. destruct (c =? 44); [apply IHa|reflexivity].
Qed.
Lemma same_outcome : forall L F s, parse_source L F s = erase (parse_source_e L F s).
Proof. intros. symmetry. apply erase_all. Qed.

Section Places.
Variables (L : libm) (F : pflags).
Definition num_value : num -> list Z -> Prop := if precise F then precise_value else plain_value.
Definition sure_number : list Z -> Prop := if precise F then precise_text else moderate.
Notation V := (value_text (allow_dup F) reads_as num_value).
Notation stop := (stops (allow_dup F) V reads_as (no_value (number_here sure_number)) (longest sure_number)).

Lemma lit_fails : forall s (r : reader), read_string_r (mkR s None) = Err -> ~ literal_here (34 :: s).
Proof.
  intros s r H (x & b' & Hb & E). injection E as ->. destruct (body_read x Hb u_init []) as (t & Ht).
  unfold read_string_r in H. cbn [src] in H. rewrite (Ht b') in H. discriminate.
Qed.
Lemma next_hd : forall s k, source s -> 0 <= k < 128 -> (char_of (hd_eof s) =? k) = false -> ~ next_is k s.
Proof.
  intros s k Hs Hk H E. unfold next_is in E. assert (hd_eof s = k) as E1 by exact E. rewrite E1, char_of_low in H by lia. lia.
Qed.
Lemma hd_next : forall s k, source s -> 0 <= k < 128 -> (char_of (hd_eof s) =? k) = true -> exists s', s = k :: s'.
Proof.
  intros s k Hs Hk H. assert (hd_eof s = k) as E by (apply char_of_ascii; [apply source_hd; exact Hs|exact Hk|lia]).
  destruct s as [|x s]; cbn in E; [lia|]. subst x. eauto.
Qed.

Definition E_val (f : nat) : Prop := forall r s n st, at_pos r s -> source s -> parse_e L F f r = PErr n st ->
  exists p m a b, s = a ++ b /\ stop p m a b /\ n = complete p m /\ st = rev (reported p m).
Definition E_obj (f : nat) : Prop := forall s c acc ks t w w1 n st, source s -> c = char_of (hd_eof s) ->
  spaces w -> members V reads_as ks t -> spaces w1 -> ks = map fst (rev acc) -> Forall (fun m => is_undef (snd m) = false) acc ->
  (ks = [] -> (c =? 125) = false) -> isspace c = false ->
  parse_obj_e L F f c (mkR (tl s) (Some (hd_eof s))) acc = PErr n st ->
  exists p m a b, s = a ++ b /\ stop p m (w ++ 123 :: t ++ w1 ++ a) b /\ n = complete p m /\ st = rev (reported p m).
Definition E_arr (f : nat) : Prop := forall r s acc t w w1 n st, at_pos r s -> source s ->
  spaces w -> items V (length acc) t -> spaces w1 -> (length acc = 0%nat -> ~ first_is 93 s) ->
  parse_arr_e L F f r acc = PErr n st ->
  exists p m a b, s = a ++ b /\ stop p m (w ++ 91 :: t ++ w1 ++ a) b /\ n = complete p m /\ st = rev (reported p m).

Lemma first_ws : forall c w s, spaces w -> 33 <= c -> first_is c (w ++ s) -> first_is c s.
Proof.
  intros c w s Hw Hc. induction Hw as [|x w Hx Hw IH]; [auto|]. intros (w' & s' & Hw' & E). apply IH. destruct w' as [|y w'].
  - injection E as -> _. unfold space in Hx. lia.
  - injection E as -> E. inversion_clear Hw'. exists w', s'. auto.
Qed.
Lemma first_free : forall c s, no_space s -> ~ next_is c s -> ~ first_is c s.
Proof.
  intros c s Hf Hn (w & s' & Hw & ->). destruct w as [|y w]; [apply Hn; reflexivity|]. inversion_clear Hw. apply Hf. assumption.
Qed.
Lemma stop_ws : forall p m a b w, spaces w -> stop p m a b -> stop p m (w ++ a) b.
Proof.
  intros p m a b w Hw H. destruct H;
    [apply st_value| | | | | | | |]; try assumption; try (apply Forall_app; split; assumption); rewrite app_assoc;
    [apply st_key|apply st_behind with (k := k)|apply st_twice with (k := k)|apply st_name|apply st_colon|apply st_member|apply st_item|apply st_after];
    try assumption; apply Forall_app; split; assumption.
Qed.

Lemma free_head : forall s, source s -> isspace (char_of (hd_eof s)) = false -> no_space s.
Proof. intros s Hs H X. change (hd (-1) s) with (hd_eof s) in X. rewrite (space_is _ X) in H. discriminate. Qed.
Lemma sure_read : forall t, sure_number t -> exists n, num_read L F n t /\ num_starts t.
Proof.
  intros t Ht. unfold sure_number in Ht. destruct (precise F) eqn:EF.
  - destruct (precise_read L F t EF Ht) as (n & Hn & _ & Hs). eauto.
  - destruct (moderate_read L F t EF Ht) as (n & Hn & _ & Hs). eauto.
Qed.
Lemma scalar_reads : forall f r w s, spaces w -> at_pos r (w ++ s) ->
  literal_here s \/ word_here s \/ number_here sure_number s -> exists x, parse L F (S f) r = Ok x.
Proof.
  intros f r w s Hw Hr [(t & b' & Hb & ->)|[(t & b' & Ht & ->)|(t & b' & Ht & -> & He)]].
  - cbn [parse]. rewrite (next_spaces_low r w 34 _ Hr) by (auto; lia).
    change (34 =? 123) with false. change (34 =? 91) with false. change (34 =? 34) with true. cbv iota.
    unfold read_string_r, commit. cbn [src]. destruct (body_read t Hb u_init []) as (k & Hk). rewrite Hk. cbn [bind]. eauto.
  - simpl in Ht. destruct Ht as [<-|[<-|[<-|[]]]]; cbn [parse]; (erewrite next_spaces_low; [|exact Hr|exact Hw|lia]); eexists; reflexivity.
  - destruct (sure_read t Ht) as (n & Hn & (c & t' & -> & Hc)). pose proof (num_head c Hc) as Hr1. cbn [app] in Hr.
    destruct (Hn (mkR (t' ++ b') (Some c)) b' He) as (r' & E & _); [apply at_cons|]. cbn [parse].
    rewrite (next_spaces_low r w c _ Hr) by (auto; lia).
    replace (c =? 123) with false by lia. replace (c =? 91) with false by lia.
    replace (c =? 34) with false by lia. replace (c =? 116) with false by lia.
    replace (c =? 102) with false by lia. replace (c =? 110) with false by lia.
    rewrite Hc. eauto.
Qed.
Lemma sure_parse : forall f r w t x, spaces w -> sure_number t -> num_end x -> at_pos r (w ++ t ++ x) ->
  exists n r', parse L F (S f) r = Ok (VNum n, r') /\ at_pos r' x.
Proof.
  intros f r w t x Hw Ht He Hr. destruct (sure_read t Ht) as (n & Hn & (c & t' & -> & Hc)). pose proof (num_head c Hc) as Hr1. cbn [app] in Hr.
  destruct (Hn (mkR (t' ++ x) (Some c)) x He) as (r' & E & Hat); [apply at_cons|]. exists n, r'. split; [|exact Hat]. cbn [parse].
  rewrite (next_spaces_low r w c _ Hr) by (auto; lia).
  replace (c =? 123) with false by lia. replace (c =? 91) with false by lia.
  replace (c =? 34) with false by lia. replace (c =? 116) with false by lia.
  replace (c =? 102) with false by lia. replace (c =? 110) with false by lia.
  rewrite Hc. exact E.
Qed.
Lemma sure_chars : forall t, sure_number t -> ~ In (-1) t.
Proof.
  assert (D : forall ds, digits ds -> ~ In (-1) ds) by (intros ds Hd X; pose proof (proj1 (Forall_forall _ _) Hd _ X) as Y; unfold digit_char in Y; lia).
  assert (G : forall s, sign s -> ~ In (-1) s) by (intros s [->|[->| ->]] X; simpl in X; lia).
  assert (X1 : forall ex, exponent ex -> ~ In (-1) ex).
  { intros ex [->|(e & s & ds & -> & He & Hs & _ & Hd)] X; [exact X|]. destruct X as [X|X]; [lia|]. apply in_app_or in X as [X|X]; [apply (G s Hs X)|apply (D ds Hd X)]. }
  intros t Ht X. unfold sure_number in Ht. destruct (precise F).
  - destruct Ht as (sg & ip & fp & ex & -> & Hsg & _ & Hip & Hfp & Hex).
    apply in_app_or in X as [X|X]; [apply (G sg Hsg X)|]. apply in_app_or in X as [X|X]; [apply (D ip Hip X)|].
    apply in_app_or in X as [X|X]; [|apply (X1 ex Hex X)]. destruct Hfp as [->|(ds & -> & Hd)]; [exact X|]. destruct X as [X|X]; [lia|apply (D ds Hd X)].
  - destruct Ht as (sg & ip & fp & ex & -> & (Hsg & Hip & Hfp & Hex & _) & _).
    apply in_app_or in X as [X|X]; [apply (G sg Hsg X)|]. apply in_app_or in X as [X|X]; [apply (D ip Hip X)|].
    apply in_app_or in X as [X|X]; [|apply (X1 ex Hex X)]. destruct Hfp as [->|(ds & -> & _ & Hd)]; [exact X|]. destruct X as [X|X]; [lia|apply (D ds Hd X)].
Qed.
Lemma at_two : forall r a b, at_pos r a -> at_pos r b -> a = b \/ (a = [] /\ b = [-1]) \/ (a = [-1] /\ b = []).
Proof.
  intros [s [c|]] a b H1 H2; unfold at_pos in *; cbn [cur src] in *; [|left; congruence].
  destruct H1 as [A1|(A1 & A2 & A3)], H2 as [B1|(B1 & B2 & B3)]; subst; auto.
Qed.
Lemma val_ok : forall f r s v r', at_pos r s -> source s -> parse_e L F f r = POk (v, r') ->
  exists w t rest v0, s = w ++ t ++ rest /\ spaces w /\ V v0 t /\ at_pos r' rest /\ is_undef v = false /\ longest sure_number t rest.
Proof.
  intros f r s v r' Hr Hs H. assert (parse L F f r = Ok (v, r')) as H1 by (rewrite <- (proj1 (erase_all L F f)), H; reflexivity).
  pose proof H1 as H2. destruct (sound_all L F f) as (HV & _). apply (HV r s) in H1 as (w & t & rest & v0 & -> & Hw & Hg & Hset & Hat); auto.
  exists w, t, rest, v0. split; [reflexivity|]. split; [exact Hw|]. split.
  { split.
    - eapply gval_impl; [| |exact Hg]; [apply read_as_reads|]. intros n x. unfold number_value, num_value. destruct (precise F); auto.
    - destruct (settle_some _ _ _ (gval_no_undef _ _ _ _ Hg) Hset) as (_ & Hd). destruct (allow_dup F); auto. }
  split; [exact Hat|]. split.
  2:{ intros t' x' Hs' E Hend. destruct f as [|f]; [discriminate|].
      destruct (sure_parse f r w t' x' Hw Hs' Hend) as (n' & r2 & E2 & Hat2); [rewrite <- E; exact Hr|].
      rewrite H2 in E2. injection E2 as -> <-. pose proof (f_equal (@length Z) E) as El. rewrite !app_length in El.
      destruct (at_two _ _ _ Hat Hat2) as [->|[[-> ->]|[-> ->]]]; cbn [length] in El; try lia.
      exfalso. apply (sure_chars _ Hs'). rewrite app_nil_r in E. rewrite <- E. apply in_or_app. right. left. reflexivity. }
  destruct (settle_some _ _ _ (gval_no_undef _ _ _ _ Hg) Hset) as (Hf & _).
  pose proof (no_undef_is _ (gval_no_undef _ _ _ _ Hg)) as U. destruct Hf; [exact U|reflexivity|reflexivity].
Qed.
Lemma leaf_err : forall A (x : res A) n st, leaf x = PErr n st -> n = 0%nat /\ st = [].
Proof. intros A [| |] n st H; inversion H; auto. Qed.

Lemma place_step : forall f, E_val f -> E_obj f -> E_arr f -> E_val (S f) /\ E_obj (S f) /\ E_arr (S f).
Proof.
  intros f IHp IHo IHa. split; [|split].
  - intros r s n st Hr Hs H. pose proof H as H0. cbn [parse_e] in H. destruct (next_ws r) as [c r1] eqn:E1.
    destruct (next_ws_inv _ _ _ _ Hr Hs E1) as (w & s1 & -> & Hw & Ec & -> & Fr).
    apply source_app in Hs as [_ Hs]. unfold commit in H. cbn [src] in H. subst c.
    destruct (char_of (hd_eof s1) =? 123) eqn:C1.
    { destruct (hd_next s1 123 Hs ltac:(lia) C1) as (s2 & ->). cbn [tl] in H. apply source_cons in Hs as [_ Hs].
      destruct (next_ws (mkR s2 None)) as [c1 r2] eqn:E2.
      destruct (next_ws_inv _ _ _ _ (at_none s2) Hs E2) as (w1 & s3 & -> & Hw1 & Ec1 & -> & Fr1).
      apply source_app in Hs as [_ Hs]. destruct (c1 =? 125) eqn:C2; [discriminate|].
      destruct (IHo s3 c1 [] [] [] w w1 n st Hs Ec1 Hw (mb_none _ _) Hw1 eq_refl (Forall_nil _) (fun _ => C2) Fr1 H) as (p & m & a & b & -> & St & X).
      exists p, m, (w ++ 123 :: w1 ++ a), b. split; [rewrite <- !app_assoc; cbn [app]; rewrite <- app_assoc; reflexivity|]. split; [exact St|exact X]. }
    destruct (char_of (hd_eof s1) =? 91) eqn:C2.
    { destruct (hd_next s1 91 Hs ltac:(lia) C2) as (s2 & ->). cbn [tl] in H. apply source_cons in Hs as [_ Hs].
      destruct (next_ws (mkR s2 None)) as [c1 r2] eqn:E2.
      destruct (next_ws_inv _ _ _ _ (at_none s2) Hs E2) as (w1 & s3 & -> & Hw1 & Ec1 & -> & Fr1).
      apply source_app in Hs as [_ Hs]. destruct (c1 =? 93) eqn:C3; [discriminate|].
      destruct (IHa _ s3 [] [] w w1 n st (at_next s3) Hs Hw (it_none _) Hw1 (fun _ => first_free 93 s3 (free_head s3 Hs ltac:(rewrite <- Ec1; exact Fr1)) (next_hd s3 93 Hs ltac:(lia) ltac:(rewrite <- Ec1; exact C3))) H) as (p & m & a & b & -> & St & X).
      exists p, m, (w ++ 91 :: w1 ++ a), b. split; [rewrite <- !app_assoc; cbn [app]; rewrite <- app_assoc; reflexivity|]. split; [exact St|exact X]. }
    assert (n = 0%nat /\ st = []) as [-> ->].
    { destruct (char_of (hd_eof s1) =? 34); [apply (leaf_err _ _ _ _ H)|]. destruct (char_of (hd_eof s1) =? 116); [apply (leaf_err _ _ _ _ H)|].
      destruct (char_of (hd_eof s1) =? 102); [apply (leaf_err _ _ _ _ H)|]. destruct (char_of (hd_eof s1) =? 110); [apply (leaf_err _ _ _ _ H)|].
      destruct (isdigit (char_of (hd_eof s1)) || _ || _ || _); [apply (leaf_err _ _ _ _ H)|]. inversion H; auto. }
    exists [], 0%nat, w, s1. split; [reflexivity|]. split; [|split; reflexivity].
    apply st_value; [exact Hw|]. split; [apply free_head; auto|]. split; [apply next_hd; auto; lia|]. split; [apply next_hd; auto; lia|].
    assert (N : ~ exists x, parse L F (S f) r = Ok x).
    { intros (x & X). rewrite <- (proj1 (erase_all L F (S f))), H0 in X. discriminate. }
    split; [|split]; intros X; apply N; apply (scalar_reads f r w s1 Hw Hr); auto.
  - intros s c acc ks t w w1 n st Hs Ec Hw Hm Hw1 Ek Hu Hn Fr H. cbn [parse_obj_e] in H. subst c.
    assert (El : length acc = length ks) by (subst ks; rewrite map_length, rev_length; reflexivity).
    destruct (char_of (hd_eof s) =? 34) eqn:C1.
    2:{ injection H as <- <-. exists [], (length ks), [], s. split; [reflexivity|]. split; [|split; [exact El|reflexivity]].
        rewrite app_nil_r. apply st_key; auto.
        - apply free_head; auto.
        - apply next_hd; auto; lia.
        - intros Z0. apply next_hd; auto; lia. }
    destruct (hd_next s 34 Hs ltac:(lia) C1) as (s1 & ->). cbn [tl] in H. unfold commit in H. cbn [src] in H. apply source_cons in Hs as [_ Hs].
    destruct (read_string_r (mkR s1 None)) as [[k r1]| |] eqn:E1; try discriminate.
    2:{ injection H as <- <-. exists [LName (length ks)], 0%nat, [34], s1. split; [reflexivity|].
        split; [apply st_name; auto; apply (lit_fails s1 (mkR s1 None)); exact E1|]. split; [cbn; lia|reflexivity]. }
    apply read_string_r_inv in E1 as (x & s2 & -> & Hx & ->). apply read_as_reads in Hx.
    apply source_app in Hs as [_ Hs]. apply source_cons in Hs as [_ Hs].
    destruct (next_ws (mkR s2 None)) as [c1 r2] eqn:E2.
    destruct (next_ws_inv _ _ _ _ (at_none s2) Hs E2) as (w2 & s3 & -> & Hw2 & Ec1 & -> & Fr1).
    apply source_app in Hs as [_ Hs]. subst c1. destruct (char_of (hd_eof s3) =? 58) eqn:C2.
    2:{ injection H as <- <-. exists [LMember (length ks) k], 0%nat, (34 :: x ++ 34 :: w2), s3.
        split; [cbn [app]; rewrite <- !app_assoc; reflexivity|].
        split; [apply st_colon; auto; [apply free_head; auto|apply next_hd; auto; lia]|]. split; [cbn; lia|reflexivity]. }
    destruct (hd_next s3 58 Hs ltac:(lia) C2) as (s4 & ->). cbn [tl src] in H. apply source_cons in Hs as [_ Hs].
    destruct (parse_e L F f (mkR s4 None)) as [[v r3]|n1 st1|] eqn:E3; try discriminate.
    2:{ injection H as <- <-. destruct (IHp _ s4 _ _ (at_none s4) Hs E3) as (p & m & a & b & -> & St & -> & ->).
        exists (LMember (length ks) k :: p), m, (34 :: x ++ 34 :: w2 ++ 58 :: a), b.
        split; [cbn [app]; rewrite <- !app_assoc; cbn [app]; rewrite <- !app_assoc; reflexivity|].
        split; [apply st_member; auto|]. split; [cbn [complete before]; lia|reflexivity]. }
    destruct (val_ok _ _ s4 _ _ (at_none s4) Hs E3) as (w3 & t0 & s5 & v0 & -> & Hw3 & Hg & Hat & Hv & Hlo).
    apply source_app in Hs as [_ Hs]. apply source_app in Hs as [_ Hs]. cbv zeta in H.
    destruct (next_ws r3) as [c2 r4] eqn:E4. destruct (next_ws_inv _ _ _ _ Hat Hs E4) as (w4 & s6 & -> & Hw4 & Ec2 & -> & Fr2).
    apply source_app in Hs as [_ Hs]. subst c2. cbn [src] in H.
    assert (M : forall E : list Z -> list Z -> Prop, E t0 w4 -> member_text V reads_as E k (w1 ++ 34 :: x ++ 34 :: w2 ++ 58 :: w3 ++ t0 ++ w4))
      by (intros E HE; exists w1, x, w2, w3, t0, w4, v0; split; [reflexivity|auto 10]).
    assert (Ek' : ks ++ [k] = map fst (rev ((k, v) :: acc))) by (cbn [rev]; rewrite map_app, <- Ek; reflexivity).
    assert (Hu' : Forall (fun m => is_undef (snd m) = false) ((k, v) :: acc)) by (constructor; auto).
    destruct (char_of (hd_eof s6) =? 125) eqn:C3.
    { destruct (hd_next s6 125 Hs ltac:(lia) C3) as (s7 & ->).
      destruct (finish_object F (rev ((k, v) :: acc))) as [o| |] eqn:Ef; try discriminate. injection H as <- <-.
      exists [], (1 + length ks)%nat, (34 :: x ++ 34 :: w2 ++ 58 :: w3 ++ t0 ++ w4 ++ [125]), s7.
      split; [cbn [app]; rewrite <- !app_assoc; cbn [app]; rewrite <- !app_assoc; cbn [app]; rewrite <- !app_assoc; reflexivity|].
      split; [|split; [cbn [length complete]; lia|reflexivity]].
      replace (w1 ++ 34 :: x ++ 34 :: w2 ++ 58 :: w3 ++ t0 ++ w4 ++ [125]) with ((w1 ++ 34 :: x ++ 34 :: w2 ++ 58 :: w3 ++ t0 ++ w4) ++ [125])
        by (rewrite <- !app_assoc; cbn [app]; rewrite <- !app_assoc; cbn [app]; rewrite <- !app_assoc; cbn [app]; rewrite <- !app_assoc; reflexivity).
      unfold finish_object in Ef. cbv zeta in Ef. destruct (allow_dup F) eqn:Ed; cbn [negb andb] in Ef; [discriminate|].
      apply st_twice with (k := k); auto; [apply M; exact I|]. rewrite Ek'. intros ND.
      apply build_object_length in ND; [|apply Forall_rev; exact Hu']. rewrite ND, Nat.eqb_refl in Ef. discriminate. }
    destruct (char_of (hd_eof s6) =? 44) eqn:C4.
    2:{ injection H as <- <-. exists [], (1 + length ks)%nat, (34 :: x ++ 34 :: w2 ++ 58 :: w3 ++ t0 ++ w4), s6.
        split; [cbn [app]; rewrite <- !app_assoc; cbn [app]; rewrite <- !app_assoc; cbn [app]; rewrite <- !app_assoc; reflexivity|].
        split; [|split; [cbn [length complete]; lia|reflexivity]].
        apply st_behind with (k := k); auto; [apply free_head; auto|apply next_hd; auto; lia..]. }
    destruct (hd_next s6 44 Hs ltac:(lia) C4) as (s7 & ->). cbn [tl] in H. apply source_cons in Hs as [_ Hs].
    destruct (next_ws (mkR s7 None)) as [c3 r6] eqn:E5.
    destruct (next_ws_inv _ _ _ _ (at_none s7) Hs E5) as (w5 & s8 & -> & Hw5 & Ec3 & -> & Fr3). apply source_app in Hs as [_ Hs].
    destruct (IHo s8 c3 _ _ _ w w5 n st Hs Ec3 Hw (mb_more _ _ _ _ _ _ Hm (M any I)) Hw5 Ek' Hu' ltac:(intros Z0; destruct ks; discriminate) Fr3 H)
      as (p & m & a & b & -> & St & X).
    exists p, m, (34 :: x ++ 34 :: w2 ++ 58 :: w3 ++ t0 ++ w4 ++ 44 :: w5 ++ a), b.
    split; [cbn [app]; rewrite <- !app_assoc; cbn [app]; rewrite <- !app_assoc; cbn [app]; rewrite <- !app_assoc; cbn [app]; rewrite <- !app_assoc; reflexivity|].
    split; [|exact X].
    replace (t ++ w1 ++ 34 :: x ++ 34 :: w2 ++ 58 :: w3 ++ t0 ++ w4 ++ 44 :: w5 ++ a)
      with ((t ++ (w1 ++ 34 :: x ++ 34 :: w2 ++ 58 :: w3 ++ t0 ++ w4) ++ [44]) ++ w5 ++ a); [exact St|].
    repeat (rewrite <- !app_assoc; cbn [app]). reflexivity.
  - intros r s acc t w w1 n st Hr Hs Hw Hi Hw1 Hn H. cbn [parse_arr_e] in H.
    destruct (parse_e L F f r) as [[v r3]|n1 st1|] eqn:E3; try discriminate.
    2:{ injection H as <- <-. destruct (IHp _ s _ _ Hr Hs E3) as (p & m & a & b & -> & St & -> & ->).
        exists (LItem (length acc) :: p), m, a, b. split; [reflexivity|].
        split; [apply st_item; auto; [intros Z0 X; rewrite <- app_assoc in X; apply (Hn Z0); apply (first_ws 93 w1); auto; lia|apply stop_ws; auto]|]. split; [reflexivity|reflexivity]. }
    destruct (val_ok _ _ s _ _ Hr Hs E3) as (w3 & t0 & s5 & v0 & -> & Hw3 & Hg & Hat & Hv & Hlo).
    apply source_app in Hs as [_ Hs]. apply source_app in Hs as [_ Hs]. cbv zeta in H.
    destruct (next_ws r3) as [c2 r4] eqn:E4. destruct (next_ws_inv _ _ _ _ Hat Hs E4) as (w4 & s6 & -> & Hw4 & Ec2 & -> & Fr2).
    apply source_app in Hs as [_ Hs]. subst c2. unfold commit in H. cbn [src] in H.
    assert (M : forall E : list Z -> list Z -> Prop, E t0 w4 -> item_text V E (w1 ++ w3 ++ t0 ++ w4)).
    { intros E HE. exists (w1 ++ w3), t0, w4, v0. rewrite <- app_assoc. split; [reflexivity|]. split; [apply Forall_app; auto|auto]. }
    destruct (char_of (hd_eof s6) =? 93) eqn:C3; [discriminate|].
    destruct (char_of (hd_eof s6) =? 44) eqn:C4.
    2:{ injection H as <- <-. exists [LItem (1 + length acc)], 0%nat, (w3 ++ t0 ++ w4), s6.
        split; [rewrite <- !app_assoc; reflexivity|].
        split; [apply st_after; auto; [apply free_head; auto|apply next_hd; auto; lia..]|]. cbn [length complete before reported place rev app]. rewrite Nat.add_0_r. split; reflexivity. }
    destruct (hd_next s6 44 Hs ltac:(lia) C4) as (s7 & ->). cbn [tl] in H. apply source_cons in Hs as [_ Hs].
    destruct (IHa _ s7 (v :: acc) _ w [] n st (at_none s7) Hs Hw (it_more _ _ _ _ Hi (M any I)) (Forall_nil _) ltac:(discriminate) H) as (p & m & a & b & -> & St & X).
    exists p, m, (w3 ++ t0 ++ w4 ++ 44 :: a), b.
    split; [repeat (rewrite <- !app_assoc; cbn [app]); reflexivity|]. split; [|exact X].
    replace (t ++ w1 ++ w3 ++ t0 ++ w4 ++ 44 :: a) with ((t ++ (w1 ++ w3 ++ t0 ++ w4) ++ [44]) ++ [] ++ a); [exact St|].
    repeat (rewrite <- !app_assoc; cbn [app]). reflexivity.
Qed.
Lemma place_all : forall f, E_val f /\ E_obj f /\ E_arr f.
Proof.
  induction f as [|f (H1 & H2 & H3)]; [|apply place_step; auto].
  split; [|split]; intro; intros; discriminate.
Qed.

Lemma error_place : forall s n st, Forall source_char s -> parse_source_e L F s = PErr n st ->
  exists p m a b, s = a ++ b /\ stop p m a b /\ n = complete p m /\ st = rev (reported p m).
Proof. intros s n st Hs H. unfold parse_source_e in H. exact (proj1 (place_all _) _ s n st (at_none s) Hs H). Qed.
End Places.
