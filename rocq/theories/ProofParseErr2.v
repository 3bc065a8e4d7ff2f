(** The other direction: a text which stops somewhere is reported there. *)
From Coq Require Import ZifyBool.
From Verif Require Import Base ModelUtf8 SpecUtf8 ModelKeyed SpecKeyed ProofKeyed ModelValue ProofValue ModelText SpecText ProofText1 ProofText2 ProofText3 ProofText4 ProofText5
  SpecAccept ProofAccept ProofAccept2 ProofAccept3 ModelParseErr SpecParseErr ProofParseErr.
Local Open Scope Z_scope.

(** [gval_redo], and no key becomes a duplicate. *)
Lemma redo_dup : forall (S : bytes -> list Z -> Prop) (N N' : num -> list Z -> Prop),
  (forall n t, N n t -> exists n', N' n' t) ->
  forall v t, gval S N v t -> exists v', gval S N' v' t /\ (has_dup v' -> has_dup v).
Proof.
  intros S N N' HN.
  apply (gval_mind S N (fun v t _ => exists v', gval S N' v' t /\ (has_dup v' -> has_dup v))
    (fun l t _ => exists l', gelems S N' l' t /\ forall k v', In (k, v') l' -> has_dup v' -> exists k1 v, In (k1, v) l /\ has_dup v)
    (fun l t _ => exists l', gmembers S N' l' t /\ map fst l' = map fst l /\
      forall k v', In (k, v') l' -> has_dup v' -> exists k1 v, In (k1, v) l /\ has_dup v)); intros;
    repeat match goal with H : exists _, _ /\ _ |- _ => destruct H as (? & ? & ?) end.
  - eexists; split; [apply gv_null|auto].
  - eexists; split; [apply gv_true|auto].
  - eexists; split; [apply gv_false|auto].
  - destruct (HN _ _ n0) as (n' & Hn'). eexists; split; [apply gv_num; eauto|]. intros X; inversion X.
  - eexists; split; [apply gv_str; eauto|auto].
  - eexists; split; [apply gv_inf; eauto|auto].
  - eexists; split; [apply gv_neg_inf; eauto|auto].
  - eexists; split; [apply gv_arr0; eauto|auto].
  - eexists; split; [apply gv_arr; eauto|]. intros X; inversion X; subst.
    match goal with H : forall k v', In (k, v') _ -> _, I1 : In _ _, D : has_dup _ |- _ => destruct (H _ _ I1 D) as (k1 & v1 & I2 & D2) end.
    eapply hd_arr; eauto.
  - eexists; split; [apply gv_obj0; eauto|auto].
  - match goal with H : _ /\ _ |- _ => destruct H as [Em Hl] end.
    eexists; split; [apply gv_obj; eauto|]. intros X; inversion X; subst.
    + apply hd_here. rewrite <- Em. assumption.
    + match goal with I1 : In _ _, D : has_dup _ |- _ => destruct (Hl _ _ I1 D) as (k1 & v1 & I2 & D2) end.
      eapply hd_obj; eauto.
  - eexists; split; [apply ge_one; eauto|]. intros k v' [E|[]] D. injection E as <- <-. eexists _, v. split; [left; reflexivity|auto].
  - eexists; split; [apply ge_cons; eauto|]. intros k v' [E|I1] D.
    + injection E as <- <-. eexists _, v. split; [left; reflexivity|auto].
    + match goal with H : forall k v', In (k, v') _ -> _ |- _ => destruct (H _ _ I1 D) as (k1 & v1 & I2 & D2) end.
      exists k1, v1. split; [right; exact I2|exact D2].
  - eexists; split; [apply gm_one; eauto|]. split; [reflexivity|]. intros k0 v' [E|[]] D. injection E as <- <-. eexists _, v. split; [left; reflexivity|auto].
  - match goal with H : _ = _ /\ _ |- _ => destruct H as [Em Hl] end.
    eexists; split; [apply gm_cons; eauto|]. split; [cbn [map fst]; f_equal; exact Em|]. intros k0 v' [E|I1] D.
    + injection E as <- <-. eexists _, v. split; [left; reflexivity|auto].
    + destruct (Hl _ _ I1 D) as (k1 & v1 & I2 & D2). exists k1, v1. split; [right; exact I2|exact D2].
Qed.

Lemma gval_first : forall (S : bytes -> list Z -> Prop) (N : num -> list Z -> Prop), (forall n t, N n t -> num_starts t) ->
  forall v t, gval S N v t -> exists c t', t = c :: t' /\ 33 <= c < 128 /\ c <> 93 /\ c <> 125.
Proof.
  intros S N HN v t H. destruct H as [| | |n t Hn| | | | | | |]; try (do 2 eexists; split; [reflexivity|lia]).
  destruct (HN _ _ Hn) as (c & t' & -> & Hc). apply num_head in Hc. do 2 eexists; split; [reflexivity|lia].
Qed.

Section Back.
Variables (L : libm) (F : pflags) (sg : bool).
Definition any_number : list Z -> Prop := if precise F then precise_text else plain_text.
Notation sure := (sure_number F).
Notation V := (value_text (allow_dup F) (denotes sg) (fun _ t => sure t)).
Notation stop := (stops (allow_dup F) V (denotes sg) (no_value (number_begins any_number)) apart).

Lemma erase_ok : forall A (x : eres A) a, erase x = Ok a -> x = POk a.
Proof. intros A [a0|n st|] a H; inversion H; reflexivity. Qed.
Lemma val_parse : forall f r w v t rest, at_pos r (w ++ t ++ rest) -> source (w ++ t ++ rest) -> spaces w -> num_end rest -> V v t ->
  parse_e L F f r <> PFuel ->
  exists v' r', parse_e L F f r = POk (v', r') /\ at_pos r' rest /\ is_undef v' = false.
Proof.
  intros f r w v t rest Hr Hs Hw He [Hg Hd] Hf.
  destruct (redo_dup (denotes sg) (fun _ t => sure t) (fun n t => num_read L F n t /\ num_starts t) (fun n t H => sure_read L F t H) v t Hg)
    as (v1 & Hg1 & Hd1).
  assert (parse_ok L F v1 r rest) as H.
  { apply (grammar_read L F (denotes sg)) with (N := fun n t => num_read L F n t /\ num_starts t) (w := w) (t := t); auto.
    - intros s b Hb. apply (denotes_read sg s b Hb).
    - intros n x [H _]; exact H.
    - intros n x [_ H]; exact H. }
  unfold parse_ok in H. pose proof (gval_no_undef _ _ _ _ Hg1) as Hu.
  destruct (settle_spec v1 (allow_dup F) Hu) as (v' & E & _); [destruct Hd; auto|]. rewrite E in H.
  destruct H as (f0 & r' & Hat & Hp). exists v', r'.
  assert (Hn : parse L F f r <> Fuel) by (rewrite <- (proj1 (erase_all L F f)); destruct (parse_e L F f r); cbn; congruence).
  assert (Ep : parse L F f r = Ok (v', r')).
  { rewrite <- (parse_mono L F f (max f f0) r ltac:(lia) Hn). apply Hp. lia. }
  rewrite <- (proj1 (erase_all L F f)) in Ep. apply erase_ok in Ep. split; [exact Ep|]. split; [exact Hat|].
  destruct (val_ok L F f r _ v' r' Hr Hs Ep) as (? & ? & ? & ? & _ & _ & _ & _ & U & _). exact U.
Qed.

Lemma next_free : forall r w s, at_pos r (w ++ s) -> source (w ++ s) -> spaces w -> no_space s ->
  next_ws r = (char_of (hd_eof s), mkR (tl s) (Some (hd_eof s))).
Proof.
  intros r w s Hr Hs Hw Hf. destruct (next_ws r) as [c r1] eqn:E.
  destruct (next_ws_inv _ _ _ _ Hr Hs E) as (w' & s' & E1 & Hw' & -> & -> & Fr).
  assert (no_space s') as Hf'. { intros X. change (hd (-1) s') with (hd_eof s') in X. rewrite (space_is _ X) in Fr. discriminate. }
  assert (s = s') as ->; [|reflexivity]. clear - E1 Hw Hw' Hf Hf'. revert w' E1 Hw'. induction Hw as [|x w Hx Hw IH]; intros w' E Hw'.
  - destruct Hw' as [|y w' Hy _]; [exact E|]. cbn in E. subst s. exfalso. apply Hf. exact Hy.
  - destruct Hw' as [|y w' Hy Hw']; [cbn in E; subst s'; exfalso; apply Hf'; exact Hx|]. injection E as _ E. apply (IH w'); assumption.
Qed.
Lemma hd_not : forall s k, source s -> 0 <= k < 128 -> ~ next_is k s -> (char_of (hd_eof s) =? k) = false.
Proof.
  intros s k Hs Hk H. destruct (char_of (hd_eof s) =? k) eqn:E; [|reflexivity]. exfalso. apply H. unfold next_is. change (hd_eof s = k).
  apply char_of_ascii; [apply source_hd; exact Hs|exact Hk|apply Z.eqb_eq; exact E].
Qed.
Lemma next_char : forall r w c s, at_pos r (w ++ c :: s) -> spaces w -> 33 <= c < 128 -> next_ws r = (c, mkR s (Some c)).
Proof. intros. eapply next_spaces_low; eauto. Qed.
Lemma sep_end : forall w c s, spaces w -> c = 44 \/ c = 125 \/ c = 93 -> num_end (w ++ c :: s).
Proof. intros w c s Hw Hc. destruct Hc as [->|[->| ->]]; apply num_end_spaces; auto; unfold digit_char; lia. Qed.

(** Over the members and items which are complete. *)
Definition obj_at (f : nat) (r : reader) (acc : list (bytes * value)) : eres (value * reader) :=
  let '(c, r1) := next_ws r in parse_obj_e L F f c r1 acc.
Definition undef_free (acc : list (bytes * value)) : Prop := Forall (fun m => is_undef (snd m) = false) acc.

(** One member, up to what follows. *)
Lemma member_step : forall f r w1 x w2 k tail acc, at_pos r (w1 ++ 34 :: x ++ 34 :: w2 ++ 58 :: tail) ->
  spaces w1 -> denotes sg k x -> spaces w2 ->
  obj_at (S f) r acc =
  match parse_e L F f (mkR tail None) with
  | PFuel => PFuel
  | PErr n st => PErr (length acc + n) (st ++ [CKey k])
  | POk (v, r3) =>
    let acc' := (k, v) :: acc in
    let '(c2, r4) := next_ws r3 in
    let r5 := commit r4 in
    if c2 =? 125 then
      match finish_object F (rev acc') with
      | Fuel => PFuel
      | Err => PErr (length acc') []
      | Ok o => POk (o, r5)
      end
    else if c2 =? 44 then let '(c3, r6) := next_ws r5 in parse_obj_e L F f c3 r6 acc'
    else PErr (length acc') []
  end.
Proof.
  intros f r w1 x w2 k tail acc Hr Hw1 Hk Hw2. unfold obj_at. rewrite (next_char r w1 34 _ Hr Hw1 ltac:(lia)).
  cbn [parse_obj_e]. change (34 =? 34) with true. cbv iota. unfold read_string_r, commit. cbn [src].
  rewrite (proj2 (denotes_read sg k x Hk)). cbn [bind cur].
  rewrite (next_char (mkR (w2 ++ 58 :: tail) None) w2 58 tail (at_none _) Hw2 ltac:(lia)).
  change (58 =? 58) with true. cbv iota. cbn [src]. reflexivity.
Qed.
Lemma members_run : forall ks t, members V (denotes sg) ks t -> forall f r tail acc, at_pos r (t ++ tail) -> source (t ++ tail) -> undef_free acc ->
  obj_at f r acc <> PFuel ->
  exists f' r' acc', at_pos r' tail /\ obj_at f r acc = obj_at f' r' acc' /\ map fst (rev acc') = map fst (rev acc) ++ ks /\ undef_free acc'.
Proof.
  induction 1 as [|ks t k u Hm IH Hu]; intros f r tail acc Hr Hs Ha Hf.
  - exists f, r, acc. rewrite app_nil_r. auto.
  - rewrite <- !app_assoc in Hr, Hs. cbn [app] in Hr, Hs.
    destruct (IH f r (u ++ 44 :: tail) acc Hr Hs Ha Hf) as (f1 & r1 & acc1 & Hr1 & E1 & K1 & A1). rewrite E1 in Hf |- *.
    apply source_app in Hs as [_ Hs]. destruct f1 as [|f1]; [exfalso; apply Hf; unfold obj_at; destruct (next_ws r1); reflexivity|].
    destruct Hu as (w1 & x & w2 & w3 & t0 & w4 & v0 & -> & Hw1 & Hx & Hw2 & Hw3 & Hv & Hw4 & _).
    rewrite <- !app_assoc in Hr1. cbn [app] in Hr1. rewrite <- !app_assoc in Hr1. cbn [app] in Hr1. rewrite <- !app_assoc in Hr1. cbn [app] in Hr1. rewrite <- !app_assoc in Hr1.
    rewrite <- !app_assoc in Hs. cbn [app] in Hs. rewrite <- !app_assoc in Hs. cbn [app] in Hs. rewrite <- !app_assoc in Hs. cbn [app] in Hs. rewrite <- !app_assoc in Hs.
    apply source_app in Hs as [_ Hs]. apply source_cons in Hs as [_ Hs]. apply source_app in Hs as [_ Hs]. apply source_cons in Hs as [_ Hs].
    apply source_app in Hs as [_ Hs]. apply source_cons in Hs as [_ Hs].
    rewrite (member_step f1 r1 w1 x w2 k _ acc1 Hr1 Hw1 Hx Hw2) in Hf |- *.
    destruct (val_parse f1 (mkR (w3 ++ t0 ++ w4 ++ 44 :: tail) None) w3 v0 t0 (w4 ++ 44 :: tail) (at_none _) Hs Hw3
      (sep_end w4 44 tail Hw4 (or_introl eq_refl)) Hv) as (v' & r' & Ep & Hat & U).
    { intros X. rewrite X in Hf. apply Hf. reflexivity. }
    rewrite Ep. cbv zeta. rewrite (next_char r' w4 44 tail Hat Hw4 ltac:(lia)). change (44 =? 125) with false. change (44 =? 44) with true. cbv iota.
    unfold commit. cbn [src]. exists f1, (mkR tail None), ((k, v') :: acc1). split; [apply at_none|]. split; [reflexivity|].
    split; [cbn [rev]; rewrite map_app, K1, <- app_assoc; reflexivity|]. constructor; auto.
Qed.
Lemma items_run : forall n t, items V n t -> forall f r tail acc, at_pos r (t ++ tail) -> source (t ++ tail) ->
  parse_arr_e L F f r acc <> PFuel ->
  exists f' r' acc', at_pos r' tail /\ parse_arr_e L F f r acc = parse_arr_e L F f' r' acc' /\ length acc' = (length acc + n)%nat.
Proof.
  induction 1 as [|n t u Hi IH Hu]; intros f r tail acc Hr Hs Hf.
  - exists f, r, acc. rewrite Nat.add_0_r. auto.
  - rewrite <- !app_assoc in Hr, Hs. cbn [app] in Hr, Hs.
    destruct (IH f r (u ++ 44 :: tail) acc Hr Hs Hf) as (f1 & r1 & acc1 & Hr1 & E1 & K1). rewrite E1 in Hf |- *.
    apply source_app in Hs as [_ Hs]. destruct f1 as [|f1]; [exfalso; apply Hf; reflexivity|].
    destruct Hu as (w1 & t0 & w2 & v0 & -> & Hw1 & Hv & Hw2 & _).
    rewrite <- !app_assoc in Hr1, Hs. cbn [parse_arr_e] in Hf |- *.
    destruct (val_parse f1 r1 w1 v0 t0 (w2 ++ 44 :: tail) Hr1 Hs Hw1 (sep_end w2 44 tail Hw2 (or_introl eq_refl)) Hv) as (v' & r' & Ep & Hat & U).
    { intros X. rewrite X in Hf. apply Hf. reflexivity. }
    rewrite Ep. cbv zeta. rewrite (next_char r' w2 44 tail Hat Hw2 ltac:(lia)). change (44 =? 93) with false. change (44 =? 44) with true. cbv iota.
    unfold commit. cbn [src]. exists f1, (mkR tail None), (v' :: acc1). split; [apply at_none|]. split; [reflexivity|]. cbn [length]. lia.
Qed.

(** Entering a container. *)
Lemma obj_entry : forall f r w rest, at_pos r (w ++ 123 :: rest) -> spaces w -> source rest -> ~ first_is 125 rest ->
  parse_e L F (S f) r = obj_at f (mkR rest None) [].
Proof.
  intros f r w rest Hr Hw Hs Hn. cbn [parse_e]. rewrite (next_char r w 123 rest Hr Hw ltac:(lia)). change (123 =? 123) with true. cbv iota.
  unfold commit. cbn [src]. unfold obj_at. destruct (next_ws (mkR rest None)) as [c r2] eqn:E.
  destruct (c =? 125) eqn:C; [|reflexivity]. exfalso. apply Hn.
  destruct (next_ws_inv _ _ _ _ (at_none rest) Hs E) as (w' & s' & -> & Hw' & -> & _). apply source_app in Hs as [_ Hs].
  destruct (hd_next s' 125 Hs ltac:(lia) C) as (s2 & ->). exists w', s2. auto.
Qed.
Lemma arr_ws : forall f r r2 acc, next_ws r2 = next_ws r -> parse_arr_e L F f r2 acc = parse_arr_e L F f r acc.
Proof.
  intros [|f] r r2 acc E; [reflexivity|]. cbn [parse_arr_e]. replace (parse_e L F f r2) with (parse_e L F f r); [reflexivity|].
  destruct f; [reflexivity|]. cbn [parse_e]. rewrite E. reflexivity.
Qed.
Lemma arr_entry : forall f r w rest, at_pos r (w ++ 91 :: rest) -> spaces w -> source rest -> ~ first_is 93 rest ->
  parse_e L F (S f) r = parse_arr_e L F f (mkR rest None) [].
Proof.
  intros f r w rest Hr Hw Hs Hn. cbn [parse_e]. rewrite (next_char r w 91 rest Hr Hw ltac:(lia)). change (91 =? 123) with false. change (91 =? 91) with true. cbv iota.
  unfold commit. cbn [src]. destruct (next_ws (mkR rest None)) as [c r2] eqn:E.
  destruct (next_ws_inv _ _ _ _ (at_none rest) Hs E) as (w' & s' & -> & Hw' & -> & -> & Fr). apply source_app in Hs as [_ Hs].
  destruct (char_of (hd_eof s') =? 93) eqn:C.
  - exfalso. apply Hn. destruct (hd_next s' 93 Hs ltac:(lia) C) as (s2 & ->). exists w', s2. auto.
  - apply arr_ws. rewrite E. apply (next_free _ [] s'); [apply at_next|exact Hs|constructor|]. apply free_head; auto.
Qed.

Lemma any_starts : forall n t, number_value F n t -> num_starts t.
Proof.
  intros n t H. unfold number_value in H. destruct (precise F) eqn:EF.
  - destruct H as [H _]. destruct (precise_read L F t EF H) as (_ & _ & _ & Hs). exact Hs.
  - destruct H as (sg' & ip & fp & ex & -> & Hp & _). apply plain_starts. exact Hp.
Qed.
Lemma sure_begins : forall n t, (fun (_ : num) t => sure t) n t -> num_starts t.
Proof. intros n t H. destruct (sure_read L F t H) as (_ & _ & Hs). exact Hs. Qed.
Lemma first_other : forall c d w s, spaces w -> 33 <= d -> c <> d -> 33 <= c -> ~ first_is c (w ++ d :: s).
Proof.
  intros c d w s Hw Hd Hc Hc' X. apply first_ws in X as (w' & s' & Hw' & E); auto.
  destruct w' as [|y w']; injection E as -> E; [congruence|]. inversion_clear Hw' as [|? ? Hy _]. unfold space in Hy. lia.
Qed.
Lemma value_first : forall v t, V v t -> exists c t', t = c :: t' /\ 33 <= c < 128 /\ c <> 93 /\ c <> 125.
Proof. intros v t [H _]. apply (gval_first (denotes sg) (fun _ t => sure t) sure_begins v t H). Qed.
Lemma item_open : forall E u x, item_text V E u -> ~ first_is 93 (u ++ x).
Proof.
  intros E u x (w1 & t & w2 & v & -> & Hw1 & Hv & _). destruct (value_first v t Hv) as (c & t' & -> & Hc & Hn & _).
  rewrite <- !app_assoc. cbn [app]. apply first_other; auto; lia.
Qed.
Lemma items_open : forall n t, items V n t -> n <> 0%nat -> forall x, ~ first_is 93 (t ++ x).
Proof.
  induction 1 as [|n t u Hi IH Hu]; intros Hn x; [congruence|]. destruct Hi as [|n t u' Hi Hu'].
  - cbn [app]. rewrite <- app_assoc. apply (item_open any); auto.
  - rewrite <- app_assoc. apply IH. discriminate.
Qed.
Lemma member_open : forall E k u x, member_text V (denotes sg) E k u -> ~ first_is 125 (u ++ x).
Proof.
  intros E k u x (w1 & b & w2 & w3 & t & w4 & v & -> & Hw1 & _). rewrite <- app_assoc. cbn [app]. apply first_other; auto; lia.
Qed.
Lemma members_open : forall ks t, members V (denotes sg) ks t -> ks <> [] -> forall x, ~ first_is 125 (t ++ x).
Proof.
  induction 1 as [|ks t k u Hi IH Hu]; intros Hn x; [congruence|]. destruct Hi as [|ks t k' u' Hi Hu'].
  - cbn [app]. rewrite <- app_assoc. apply (member_open any k); auto.
  - rewrite <- app_assoc. apply IH. destruct ks; discriminate.
Qed.

Lemma scalar_err : forall f r w b, at_pos r (w ++ b) -> source (w ++ b) -> spaces w -> no_value (number_begins any_number) b ->
  parse_e L F (S f) r <> PFuel -> parse_e L F (S f) r = PErr 0 [].
Proof.
  intros f r w b Hr Hs Hw (Hsp & H123 & H91 & Hlit & Hword & Hnum) Hf.
  assert (X : forall v r', parse_e L F (S f) r <> POk (v, r')).
  { intros v r' E. assert (parse L F (S f) r = Ok (v, r')) as Ep by (rewrite <- (proj1 (erase_all L F (S f))), E; reflexivity).
    destruct (sound_all L F (S f)) as (HV & _). destruct (HV r _ v r' Hr Hs Ep) as (w' & t & rest & v0 & E1 & Hw' & Hg & _).
    destruct (gval_first read_as (number_value F) any_starts v0 t Hg) as (c & t' & Et & Hc & _).
    assert (w = w' /\ b = t ++ rest) as [-> Eb].
    { clear - E1 Hw Hw' Hsp Et Hc. subst t. revert w' E1 Hw'. induction Hw as [|x w Hx Hw IH]; intros w' E Hw'.
      - destruct Hw' as [|y w' Hy _]; [auto|]. cbn in E. subst b. exfalso. apply Hsp. exact Hy.
      - destruct Hw' as [|y w' Hy Hw']; [injection E as -> _; unfold space in Hx; lia|]. injection E as -> E.
        destruct (IH w' E Hw') as [-> ->]. auto. }
    subst b. destruct Hg.
    - apply Hword. eexists _, rest. split; [right; right; left; reflexivity|reflexivity].
    - apply Hword. eexists _, rest. split; [left; reflexivity|reflexivity].
    - apply Hword. eexists _, rest. split; [right; left; reflexivity|reflexivity].
    - apply Hnum. exists t, rest. split; [|reflexivity]. unfold any_number. unfold number_value in H. destruct (precise F); [apply H|].
      destruct H as (sg' & ip & fp & ex & -> & Hp & _). exists sg', ip, fp, ex. auto.
    - apply Hlit. exists b, rest. split; [apply (read_as_reads _ _ H)|cbn [app]; rewrite <- app_assoc; reflexivity].
    - apply Hlit. exists b, rest. split; [apply (read_as_reads _ _ H)|cbn [app]; rewrite <- app_assoc; reflexivity].
    - apply Hlit. exists b, rest. split; [apply (read_as_reads _ _ H)|cbn [app]; rewrite <- app_assoc; reflexivity].
    - apply H91. reflexivity.
    - apply H91. reflexivity.
    - apply H123. reflexivity.
    - apply H123. reflexivity. }
  destruct (parse_e L F (S f) r) as [[v r']|n st|] eqn:E; [exfalso; apply (X v r'); reflexivity| |congruence]. clear X Hf.
  cbn [parse_e] in E. rewrite (next_free r w b Hr Hs Hw Hsp) in E. apply source_app in Hs as [_ Hs].
  rewrite (hd_not b 123 Hs ltac:(lia) H123), (hd_not b 91 Hs ltac:(lia) H91) in E.
  assert (n = 0%nat /\ st = []) as [-> ->]; [|reflexivity].
  destruct (char_of (hd_eof b) =? 34); [apply (leaf_err _ _ _ _ E)|]. destruct (char_of (hd_eof b) =? 116); [apply (leaf_err _ _ _ _ E)|].
  destruct (char_of (hd_eof b) =? 102); [apply (leaf_err _ _ _ _ E)|]. destruct (char_of (hd_eof b) =? 110); [apply (leaf_err _ _ _ _ E)|].
  destruct (isdigit (char_of (hd_eof b)) || _ || _ || _); [apply (leaf_err _ _ _ _ E)|]. inversion E; auto.
Qed.

Lemma members_nil : forall t ks, members V (denotes sg) ks t -> ks = [] -> t = [].
Proof. intros t ks [|ks' t' k u _ _]; [reflexivity|]. intros E. destruct ks'; discriminate. Qed.
Lemma items_nil : forall t n, items V n t -> n = 0%nat -> t = [].
Proof. intros t n [|n' t' u _ _]; [reflexivity|]. discriminate. Qed.
Lemma obj_len : forall (acc : list (bytes * value)) ks, map fst (rev acc) = ks -> length acc = length ks.
Proof. intros acc ks <-. rewrite map_length, rev_length. reflexivity. Qed.

Lemma stop_err : forall p m a b, stop p m a b -> forall f r, at_pos r (a ++ b) -> source (a ++ b) -> parse_e L F f r <> PFuel ->
  parse_e L F f r = PErr (complete p m) (rev (reported p m)).
Proof.
  induction 1 as [w b Hw Hb|w ks t w1 b Hw Hm Hw1 Hsp H34 H125|w ks t k u b Hw Hm Hu Hsp H44 H125|w ks t k u b Hw Hm Hu Hd Hk|
    w ks t w1 b Hw Hm Hw1 Hl|w ks t w1 k x w2 b Hw Hm Hw1 Hx Hw2 Hsp H58|w ks t w1 k x w2 p m a b Hw Hm Hw1 Hx Hw2 Hst IH|
    w n t p m a b Hw Hi H93 Hst IH|w n t u b Hw Hi Hu Hsp H44 H93]; intros f r Hr Hs Hf;
    (destruct f as [|f]; [exfalso; apply Hf; reflexivity|]).
  - apply (scalar_err f r w b); auto.
  - (* key *)
    repeat (rewrite <- !app_assoc in Hr, Hs; cbn [app] in Hr, Hs). apply source_app in Hs as [_ Hs]. apply source_cons in Hs as [_ Hs].
    assert (O : ~ first_is 125 (t ++ w1 ++ b)).
    { destruct ks as [|k ks]; [|apply (members_open _ t Hm); discriminate].
      rewrite (members_nil t _ Hm eq_refl).
      cbn [app]. intros X. apply first_ws in X; auto; [|lia]. revert X. apply first_free; auto. }
    rewrite (obj_entry f r w _ Hr Hw Hs O) in Hf |- *.
    destruct (members_run ks t Hm f _ (w1 ++ b) [] (at_none _) Hs (Forall_nil _) Hf) as (f' & r' & acc & Hr' & E & K & A). rewrite E in Hf |- *.
    apply source_app in Hs as [_ Hs]. unfold obj_at in Hf |- *. rewrite (next_free r' w1 b Hr' Hs Hw1 Hsp) in Hf |- *. apply source_app in Hs as [_ Hs].
    destruct f' as [|f']; [exfalso; apply Hf; reflexivity|]. cbn [parse_obj_e] in Hf |- *. rewrite (hd_not b 34 Hs ltac:(lia) H34).
    rewrite (obj_len _ _ K). reflexivity.
  - (* behind *)
    repeat (rewrite <- !app_assoc in Hr, Hs; cbn [app] in Hr, Hs). apply source_app in Hs as [_ Hs]. apply source_cons in Hs as [_ Hs].
    assert (O : ~ first_is 125 (t ++ u ++ b)).
    { destruct ks as [|k' ks]; [|apply (members_open _ t Hm); discriminate].
      rewrite (members_nil t _ Hm eq_refl). cbn [app]; eapply member_open; exact Hu. }
    rewrite (obj_entry f r w _ Hr Hw Hs O) in Hf |- *.
    destruct (members_run ks t Hm f _ (u ++ b) [] (at_none _) Hs (Forall_nil _) Hf) as (f' & r' & acc & Hr' & E & K & A). rewrite E in Hf |- *.
    apply source_app in Hs as [_ Hs]. destruct f' as [|f']; [exfalso; apply Hf; unfold obj_at; destruct (next_ws r'); reflexivity|].
    destruct Hu as (w1 & x & w2 & w3 & t0 & w4 & v0 & -> & Hw1 & Hx & Hw2 & Hw3 & Hv & Hw4 & He).
    repeat (rewrite <- !app_assoc in Hr', Hs; cbn [app] in Hr', Hs).
    apply source_app in Hs as [_ Hs]. apply source_cons in Hs as [_ Hs]. apply source_app in Hs as [_ Hs]. apply source_cons in Hs as [_ Hs].
    apply source_app in Hs as [_ Hs]. apply source_cons in Hs as [_ Hs].
    rewrite (member_step f' r' w1 x w2 k _ acc Hr' Hw1 Hx Hw2) in Hf |- *.
    destruct (val_parse f' (mkR (w3 ++ t0 ++ w4 ++ b) None) w3 v0 t0 (w4 ++ b) (at_none _) Hs Hw3 He Hv) as (v' & r2 & Ep & Hat & U).
    { intros X. rewrite X in Hf. apply Hf. reflexivity. }
    rewrite Ep. cbv zeta. apply source_app in Hs as [_ Hs]. apply source_app in Hs as [_ Hs].
    rewrite (next_free r2 w4 b Hat Hs Hw4 Hsp). apply source_app in Hs as [_ Hs].
    rewrite (hd_not b 125 Hs ltac:(lia) H125), (hd_not b 44 Hs ltac:(lia) H44). cbn [length complete]. rewrite (obj_len _ _ K). reflexivity.
  - (* twice *)
    repeat (rewrite <- !app_assoc in Hr, Hs; cbn [app] in Hr, Hs). apply source_app in Hs as [_ Hs]. apply source_cons in Hs as [_ Hs].
    assert (O : ~ first_is 125 (t ++ u ++ 125 :: b)).
    { destruct ks as [|k' ks]; [|apply (members_open _ t Hm); discriminate].
      rewrite (members_nil t _ Hm eq_refl). cbn [app]; eapply member_open; exact Hu. }
    rewrite (obj_entry f r w _ Hr Hw Hs O) in Hf |- *.
    destruct (members_run ks t Hm f _ (u ++ 125 :: b) [] (at_none _) Hs (Forall_nil _) Hf) as (f' & r' & acc & Hr' & E & K & A). rewrite E in Hf |- *.
    apply source_app in Hs as [_ Hs]. destruct f' as [|f']; [exfalso; apply Hf; unfold obj_at; destruct (next_ws r'); reflexivity|].
    destruct Hu as (w1 & x & w2 & w3 & t0 & w4 & v0 & -> & Hw1 & Hx & Hw2 & Hw3 & Hv & Hw4 & He).
    repeat (rewrite <- !app_assoc in Hr', Hs; cbn [app] in Hr', Hs).
    apply source_app in Hs as [_ Hs]. apply source_cons in Hs as [_ Hs]. apply source_app in Hs as [_ Hs]. apply source_cons in Hs as [_ Hs].
    apply source_app in Hs as [_ Hs]. apply source_cons in Hs as [_ Hs].
    rewrite (member_step f' r' w1 x w2 k _ acc Hr' Hw1 Hx Hw2) in Hf |- *.
    destruct (val_parse f' (mkR (w3 ++ t0 ++ w4 ++ 125 :: b) None) w3 v0 t0 (w4 ++ 125 :: b) (at_none _) Hs Hw3
      (sep_end w4 125 b Hw4 (or_intror (or_introl eq_refl))) Hv) as (v' & r2 & Ep & Hat & U).
    { intros X. rewrite X in Hf. apply Hf. reflexivity. }
    rewrite Ep. cbv zeta. rewrite (next_char r2 w4 125 b Hat Hw4 ltac:(lia)). change (125 =? 125) with true. cbv iota.
    assert (Ef : finish_object F (rev ((k, v') :: acc)) = Err).
    { unfold finish_object. cbv zeta. rewrite Hd. cbn [negb andb].
      destruct (Nat.eqb (length (build_object is_undef (rev ((k, v') :: acc)))) (length (rev ((k, v') :: acc)))) eqn:En; [|reflexivity].
      exfalso. apply Hk. apply Nat.eqb_eq in En. apply build_object_length in En.
      - cbn [rev] in En. rewrite map_app, K in En. exact En.
      - apply Forall_rev. constructor; auto. }
    rewrite Ef. cbn [length complete]. rewrite (obj_len _ _ K). reflexivity.
  - (* name *)
    repeat (rewrite <- !app_assoc in Hr, Hs; cbn [app] in Hr, Hs). apply source_app in Hs as [_ Hs]. apply source_cons in Hs as [_ Hs].
    assert (O : ~ first_is 125 (t ++ w1 ++ 34 :: b)).
    { destruct ks as [|k' ks]; [|apply (members_open _ t Hm); discriminate].
      rewrite (members_nil t _ Hm eq_refl). apply first_other; auto; lia. }
    rewrite (obj_entry f r w _ Hr Hw Hs O) in Hf |- *.
    destruct (members_run ks t Hm f _ (w1 ++ 34 :: b) [] (at_none _) Hs (Forall_nil _) Hf) as (f' & r' & acc & Hr' & E & K & A). rewrite E in Hf |- *.
    unfold obj_at in Hf |- *. rewrite (next_char r' w1 34 b Hr' Hw1 ltac:(lia)) in Hf |- *.
    destruct f' as [|f']; [exfalso; apply Hf; reflexivity|]. cbn [parse_obj_e] in Hf |- *. change (34 =? 34) with true in Hf |- *. cbv iota in Hf |- *.
    unfold commit in Hf |- *. cbn [src] in Hf |- *.
    destruct (read_string_r (mkR b None)) as [[k r1]| |] eqn:Er.
    + exfalso. apply read_string_r_inv in Er as (x & s2 & -> & Hx & ->). apply Hl. exists x, s2. split; [apply (read_as_reads _ _ Hx)|reflexivity].
    + cbn [complete before reported place rev app]. rewrite (obj_len _ _ K), Nat.add_0_r. reflexivity.
    + exfalso. apply Hf. reflexivity.
  - (* colon *)
    repeat (rewrite <- !app_assoc in Hr, Hs; cbn [app] in Hr, Hs). apply source_app in Hs as [_ Hs]. apply source_cons in Hs as [_ Hs].
    assert (O : ~ first_is 125 (t ++ w1 ++ 34 :: x ++ 34 :: w2 ++ b)).
    { destruct ks as [|k' ks]; [|apply (members_open _ t Hm); discriminate].
      rewrite (members_nil t _ Hm eq_refl). apply first_other; auto; lia. }
    rewrite (obj_entry f r w _ Hr Hw Hs O) in Hf |- *.
    destruct (members_run ks t Hm f _ _ [] (at_none _) Hs (Forall_nil _) Hf) as (f' & r' & acc & Hr' & E & K & A). rewrite E in Hf |- *.
    unfold obj_at in Hf |- *. rewrite (next_char r' w1 34 _ Hr' Hw1 ltac:(lia)) in Hf |- *.
    destruct f' as [|f']; [exfalso; apply Hf; reflexivity|]. cbn [parse_obj_e] in Hf |- *. change (34 =? 34) with true in Hf |- *. cbv iota in Hf |- *.
    unfold read_string_r, commit in Hf |- *. cbn [src] in Hf |- *. rewrite (proj2 (denotes_read sg k x Hx)) in Hf |- *. cbn [bind cur] in Hf |- *.
    apply source_app in Hs as [_ Hs]. apply source_app in Hs as [_ Hs]. apply source_cons in Hs as [_ Hs]. apply source_app in Hs as [_ Hs]. apply source_cons in Hs as [_ Hs].
    rewrite (next_free (mkR (w2 ++ b) None) w2 b (at_none _) Hs Hw2 Hsp) in Hf |- *. apply source_app in Hs as [_ Hs].
    rewrite (hd_not b 58 Hs ltac:(lia) H58). cbn [complete before reported place rev app]. rewrite (obj_len _ _ K), Nat.add_0_r. reflexivity.
  - (* in a member *)
    repeat (rewrite <- !app_assoc in Hr, Hs; cbn [app] in Hr, Hs). apply source_app in Hs as [_ Hs]. apply source_cons in Hs as [_ Hs].
    assert (O : ~ first_is 125 (t ++ w1 ++ 34 :: x ++ 34 :: w2 ++ 58 :: a ++ b)).
    { destruct ks as [|k' ks]; [|apply (members_open _ t Hm); discriminate].
      rewrite (members_nil t _ Hm eq_refl). apply first_other; auto; lia. }
    rewrite (obj_entry f r w _ Hr Hw Hs O) in Hf |- *.
    destruct (members_run ks t Hm f _ _ [] (at_none _) Hs (Forall_nil _) Hf) as (f' & r' & acc & Hr' & E & K & A). rewrite E in Hf |- *.
    destruct f' as [|f']; [exfalso; apply Hf; unfold obj_at; destruct (next_ws r'); reflexivity|].
    apply source_app in Hs as [_ Hs]. apply source_app in Hs as [_ Hs]. apply source_cons in Hs as [_ Hs]. apply source_app in Hs as [_ Hs]. apply source_cons in Hs as [_ Hs].
    apply source_app in Hs as [_ Hs]. apply source_cons in Hs as [_ Hs].
    rewrite (member_step f' r' w1 x w2 k _ acc Hr' Hw1 Hx Hw2) in Hf |- *.
    rewrite (IH f' (mkR (a ++ b) None) (at_none _) Hs).
    2:{ intros X. rewrite X in Hf. apply Hf. reflexivity. }
    cbn [complete before reported place rev]. rewrite (obj_len _ _ K). reflexivity.
  - (* in an item *)
    repeat (rewrite <- !app_assoc in Hr, Hs; cbn [app] in Hr, Hs). apply source_app in Hs as [_ Hs]. apply source_cons in Hs as [_ Hs].
    assert (O : ~ first_is 93 (t ++ a ++ b)).
    { destruct n as [|n]; [|apply (items_open _ t Hi); discriminate].
      rewrite (items_nil t _ Hi eq_refl). apply H93. reflexivity. }
    rewrite (arr_entry f r w _ Hr Hw Hs O) in Hf |- *.
    destruct (items_run n t Hi f _ _ [] (at_none _) Hs Hf) as (f' & r' & acc & Hr' & E & K). rewrite E in Hf |- *.
    destruct f' as [|f']; [exfalso; apply Hf; reflexivity|]. cbn [parse_arr_e] in Hf |- *. apply source_app in Hs as [_ Hs].
    rewrite (IH f' r' Hr' Hs).
    2:{ intros X. rewrite X in Hf. apply Hf. reflexivity. }
    cbn [complete before reported place rev]. rewrite K. reflexivity.
  - (* behind an item *)
    repeat (rewrite <- !app_assoc in Hr, Hs; cbn [app] in Hr, Hs). apply source_app in Hs as [_ Hs]. apply source_cons in Hs as [_ Hs].
    assert (O : ~ first_is 93 (t ++ u ++ b)).
    { destruct n as [|n]; [|apply (items_open _ t Hi); discriminate]. rewrite (items_nil t _ Hi eq_refl). apply (item_open _ u b Hu). }
    rewrite (arr_entry f r w _ Hr Hw Hs O) in Hf |- *.
    destruct (items_run n t Hi f _ _ [] (at_none _) Hs Hf) as (f' & r' & acc & Hr' & E & K). rewrite E in Hf |- *.
    destruct f' as [|f']; [exfalso; apply Hf; reflexivity|]. cbn [parse_arr_e] in Hf |- *. apply source_app in Hs as [_ Hs].
    destruct Hu as (w1 & t0 & w2 & v0 & -> & Hw1 & Hv & Hw2 & He). rewrite <- !app_assoc in Hr', Hs.
    destruct (val_parse f' r' w1 v0 t0 (w2 ++ b) Hr' Hs Hw1 He Hv) as (v' & r2 & Ep & Hat & U).
    { intros X. rewrite X in Hf. apply Hf. reflexivity. }
    rewrite Ep. cbv zeta. apply source_app in Hs as [_ Hs]. apply source_app in Hs as [_ Hs].
    rewrite (next_free r2 w2 b Hat Hs Hw2 Hsp). apply source_app in Hs as [_ Hs].
    rewrite (hd_not b 93 Hs ltac:(lia) H93), (hd_not b 44 Hs ltac:(lia) H44).
    cbn [length complete before reported place rev app]. rewrite K, !Nat.add_0_r. reflexivity.
Qed.

Lemma place_reported : forall p m a b, Forall source_char (a ++ b) -> stop p m a b ->
  parse_source_e L F (a ++ b) = PErr (complete p m) (rev (reported p m)).
Proof.
  intros p m a b Hs Hst. apply (stop_err p m a b Hst); auto; [apply at_none|].
  intros X. apply (parse_source_fuel L F (a ++ b)). rewrite same_outcome. unfold parse_source_e. rewrite X. reflexivity.
Qed.
End Back.
