(** Proofs about the hash of values. *)
From Verif Require Import Base ModelKeyed ModelValue ModelObject ModelEq ModelEnc ModelBin ModelHash
  SpecEnc SpecEq SpecBin SpecHash ProofKeyed ProofValue ProofEq ProofFloat ProofBin ProofBin2 ProofBin3.
From Coq Require Import ZifyBool.
Ltac Zify.zify_post_hook ::= Z.div_mod_to_equations.
Local Open Scope Z_scope.

(** *** One step is a bijection of the state and of the byte *)
Lemma lxor_range : forall h c, 0 <= h < 2 ^ 64 -> 0 <= c < 256 -> 0 <= Z.lxor h c < 2 ^ 64.
Proof.
  intros h c Hh Hc. assert (0 <= Z.lxor h c) by (apply Z.lxor_nonneg; lia). split; [lia|].
  destruct (Z.eq_dec (Z.lxor h c) 0) as [E|E]; [rewrite E; lia|].
  apply Z.log2_lt_pow2; [lia|]. pose proof (Z.log2_lxor h c ltac:(lia) ltac:(lia)).
  assert (Z.log2 h < 64) by (destruct (Z.eq_dec h 0) as [->|]; [reflexivity|apply Z.log2_lt_pow2; lia]).
  assert (Z.log2 c < 64) by (destruct (Z.eq_dec c 0) as [->|]; [reflexivity|apply Z.log2_lt_pow2; lia]).
  lia.
Qed.
Lemma fnv_mul_inj : forall a b, 0 <= a < 2 ^ 64 -> 0 <= b < 2 ^ 64 ->
  a * 1099511628211 mod 2 ^ 64 = b * 1099511628211 mod 2 ^ 64 -> a = b.
Proof.
  intros a b Ha Hb E.
  assert (K : forall x, 0 <= x < 2 ^ 64 -> x = (x * 1099511628211 mod 2 ^ 64) * 14886173955864302971 mod 2 ^ 64).
  { intros x Hx. rewrite Z.mul_mod_idemp_l by lia. rewrite <- Z.mul_assoc.
    change (1099511628211 * 14886173955864302971) with (1 + 887289167904 * 2 ^ 64 + (1099511628211 * 14886173955864302971 - 1 - 887289167904 * 2 ^ 64)).
    rewrite <- Z.mul_mod_idemp_r by lia.
    match goal with |- context [x * ?m] => let m' := eval vm_compute in m in change m with m' end.
    rewrite Z.mul_1_r, Z.mod_small by lia. reflexivity. }
  rewrite (K a Ha), (K b Hb), E. reflexivity.
Qed.
Lemma fnv_step_range : forall h c, 0 <= fnv_step h c < 2 ^ 64.
Proof. intros h c. unfold fnv_step. apply Z.mod_pos_bound. lia. Qed.
Lemma fnv_step_state : forall h g c, 0 <= h < 2 ^ 64 -> 0 <= g < 2 ^ 64 -> 0 <= c < 256 -> fnv_step h c = fnv_step g c -> h = g.
Proof.
  intros h g c Hh Hg Hc E. apply fnv_mul_inj in E; try (apply lxor_range; lia).
  rewrite <- (Z.lxor_0_r h), <- (Z.lxor_0_r g), <- (Z.lxor_nilpotent c), <- !Z.lxor_assoc, E. reflexivity.
Qed.
Lemma fnv_step_byte : forall h c d, 0 <= h < 2 ^ 64 -> 0 <= c < 256 -> 0 <= d < 256 -> fnv_step h c = fnv_step h d -> c = d.
Proof.
  intros h c d Hh Hc Hd E. apply fnv_mul_inj in E; try (apply lxor_range; lia).
  rewrite <- (Z.lxor_0_l c), <- (Z.lxor_0_l d), <- (Z.lxor_nilpotent h), !Z.lxor_assoc, E. reflexivity.
Qed.
Lemma fnv_fold_state : forall s h g, is_bytes s -> 0 <= h < 2 ^ 64 -> 0 <= g < 2 ^ 64 ->
  fold_left fnv_step s h = fold_left fnv_step s g -> h = g.
Proof.
  induction s as [|c s IH]; intros h g Hs Hh Hg E; [exact E|]. inversion_clear Hs as [|? ? Hc Hs'].
  cbn [fold_left] in E. apply IH in E; auto using fnv_step_range. eapply fnv_step_state; eauto.
Qed.
Lemma fnv_one_byte : forall s c d t, is_bytes t -> is_byte c -> is_byte d ->
  fnv (s ++ c :: t) = fnv (s ++ d :: t) -> c = d.
Proof.
  intros s c d t Ht Hc Hd E. unfold fnv in E. rewrite !fold_left_app in E. cbn [fold_left] in E.
  apply fnv_fold_state in E; auto using fnv_step_range.
  assert (Hr : 0 <= fold_left fnv_step s fnv_init < 2 ^ 64).
  { destruct s as [|x s] using rev_ind; [unfold fnv_init; cbn [fold_left]; lia|]. rewrite fold_left_app. apply fnv_step_range. }
  eapply fnv_step_byte; eauto.
Qed.

(** *** The bytes that are hashed *)
Section Form.
Context (L : libm).
Notation F := hash_flags.
Definition key_bytes (k : bytes) : bytes := match k with [] => [] | _ => write_string_bin F k op_key end.
Definition value_bytes (v : value) : bytes := fst (write_value L F v ws_init).
Definition items_bytes (l : list member) : bytes := concat (map (fun x => key_bytes (fst x) ++ value_bytes (snd x)) l).
Lemma write_key_plain : forall k st, write_key F k st = (key_bytes k, st).
Proof. intros [|c k] st; reflexivity. Qed.
Lemma write_value_plain : forall v st, write_value L F v st = (value_bytes v, st).
Proof.
  assert (K : forall l, Forall (fun m => forall st, write_value L F (snd m) st = (value_bytes (snd m), st)) l ->
    forall st, write_items L F l st = (items_bytes l, st)).
  { induction 1 as [|x l Hx Hl IH]; intros st; [reflexivity|]. cbn [write_items]. fold (write_items L F).
    rewrite write_item_eq, write_key_plain, Hx, IH. unfold items_bytes. cbn [map concat]. reflexivity. }
  induction v as [| |b|n|e s|l IH|d l IH] using value_ind'; intros st; try reflexivity.
  - destruct e; reflexivity.
  - unfold value_bytes. cbn [write_value]. rewrite !K by exact IH. reflexivity.
  - unfold value_bytes. cbn [write_value]. rewrite !K by exact IH. reflexivity.
Qed.
Lemma write_items_plain : forall l st, write_items L F l st = (items_bytes l, st).
Proof.
  induction l as [|x l IH]; intros st; [reflexivity|]. cbn [write_items]. fold (write_items L F).
  rewrite write_item_eq, write_key_plain, write_value_plain, IH. unfold items_bytes. cbn [map concat]. reflexivity.
Qed.
Lemma write_item_plain : forall k v st, write_item L F k v st = (key_bytes k ++ value_bytes v, st).
Proof. intros k v st. rewrite write_item_eq, write_key_plain, write_value_plain. reflexivity. Qed.
Lemma serialize_plain : forall v, serialize_binary L F ([], v) = value_bytes v.
Proof. intros v. unfold serialize_binary. cbn [fst snd]. rewrite write_item_plain. reflexivity. Qed.
Lemma value_bytes_arr : forall l, value_bytes (VArr l) = write_integer F (Z.of_nat (length l)) op_array ++ items_bytes l.
Proof. intros l. unfold value_bytes. cbn [write_value]. rewrite write_items_plain. reflexivity. Qed.
Lemma value_bytes_obj : forall d l, value_bytes (VObj d l) = write_integer F (Z.of_nat (length l)) op_object ++ items_bytes l.
Proof. intros d l. unfold value_bytes. cbn [write_value]. rewrite write_items_plain. reflexivity. Qed.

(** *** Numbers *)
Definition form_bytes (h : hashed_number) : bytes :=
  match h with
  | HInt z => if z <? 0 then write_integer F (- z) op_negint else write_integer F z op_posint
  | HWide z => if z <? 0 then write_64bit (- z) op_negint else write_64bit z op_posint
  | HDbl f => op_double :: le_bytes 8 (dbl_bits f)
  end.
Definition form_ok (h : hashed_number) : Prop :=
  match h with HInt z => - 2 ^ 64 < z < 2 ^ 64 | HWide z => Z.abs z < 2 ^ 32 | HDbl f => is_double f end.
Lemma write_integer_wide : forall n type, 2 ^ 32 <= n -> write_integer F n type = write_64bit n type.
Proof.
  intros n type H. unfold write_integer. replace (n <? 10) with false by lia. replace (n <=? 0xFF) with false by lia.
  replace (n <=? 0xFFFF) with false by lia. replace (n <=? 0xFFFFFFFF) with false by lia. reflexivity.
Qed.
Lemma write_number_form : forall n, bin_num L n -> write_number L F n = form_bytes (number_form L n).
Proof.
  intros n Hn. destruct n as [n|n|f|t [|n|n]]; cbn [write_number number_form bin_num form_bytes get_number] in *; try reflexivity.
  - replace (n <? 0) with false by lia. reflexivity.
  - destruct (Z.abs n <? 2 ^ 32) eqn:E; cbn [form_bytes]; replace (n <? 0) with false by lia; [reflexivity|].
    rewrite write_integer_wide by lia. reflexivity.
  - destruct (Z.abs n <? 2 ^ 32) eqn:E; cbn [form_bytes]; [reflexivity|].
    destruct (n <? 0) eqn:En; rewrite write_integer_wide by lia; reflexivity.
Qed.
Lemma number_form_ok : forall n, bin_num L n -> form_ok (number_form L n).
Proof.
  intros n Hn. destruct n as [n|n|f|t [|n|n]]; cbn [number_form bin_num form_ok] in *; auto; try lia;
    destruct (Z.abs n <? 2 ^ 32) eqn:E; cbn [form_ok]; lia.
Qed.
Lemma le8_inj : forall a b, 0 <= a < 2 ^ 64 -> 0 <= b < 2 ^ 64 -> le_bytes 8 a = le_bytes 8 b -> a = b.
Proof.
  intros a b Ha Hb E. rewrite <- (le_round_trip 8 a), <- (le_round_trip 8 b), E by (change (2 ^ (8 * Z.of_nat 8)) with (2 ^ 64); lia). reflexivity.
Qed.
Lemma write_integer_inj : forall a b ta tb, In ta tag_types -> In tb tag_types -> 0 <= a < 2 ^ 64 -> 0 <= b < 2 ^ 64 ->
  write_integer F a ta = write_integer F b tb -> a = b /\ ta = tb.
Proof.
  intros a b ta tb Ta Tb Ha Hb E.
  destruct (integer_ok F a ta Ta Ha) as (tag & tl & E1 & G1 & P1).
  destruct (integer_ok F b tb Tb Hb) as (tag' & tl' & E2 & G2 & P2).
  rewrite E1, E2 in E. injection E as -> ->. split; [|congruence].
  specialize (P1 [] [] 0). specialize (P2 [] [] 0). congruence.
Qed.
Lemma write_integer_narrow : forall a b ta tb, In ta tag_types -> In tb tag_types -> 0 <= a < 2 ^ 64 -> 0 <= b < 2 ^ 32 ->
  write_integer F a ta <> write_64bit b tb.
Proof.
  intros a b ta tb Ta Tb Ha Hb E. destruct (Z_lt_le_dec a (2 ^ 32)) as [H|H].
  - assert (K : Z.land (hd 0 (write_integer F a ta)) 0xF = Z.land (Z.lor tb op_size64) 0xF) by (rewrite E; reflexivity).
    rewrite (proj2 (tag_parts tb op_size64 Tb ltac:(unfold op_size64; lia))) in K. revert K. unfold write_integer.
    destruct (a <? 10) eqn:E1; cbn [hd]; [rewrite (proj2 (tag_parts ta a Ta ltac:(lia))); unfold op_size64; lia|].
    destruct (a <=? 0xFF) eqn:E2; cbn [hd]; [rewrite (proj2 (tag_parts ta op_size8 Ta ltac:(unfold op_size8; lia))); discriminate|].
    destruct (a <=? 0xFFFF) eqn:E3; cbn [hd]; [rewrite (proj2 (tag_parts ta op_size16 Ta ltac:(unfold op_size16; lia))); discriminate|].
    destruct (a <=? 0xFFFFFFFF) eqn:E4; cbn [hd]; [rewrite (proj2 (tag_parts ta op_size32 Ta ltac:(unfold op_size32; lia))); discriminate|lia].
  - rewrite write_integer_wide in E by lia. apply (f_equal (@tl Z)) in E. cbn [write_64bit tl] in E. apply (le8_inj a b) in E; lia.
Qed.
Lemma form_head : forall z type, In type tag_types -> 0 <= z < 2 ^ 64 -> forall tl, write_integer F z type <> op_double :: tl.
Proof.
  intros z type Ht Hz tl E. destruct (integer_ok F z type Ht Hz) as (tag & tl' & E' & G & _). rewrite E' in E. injection E as -> _.
  vm_compute in G. subst type. unfold tag_types in Ht. repeat (destruct Ht as [Ht|Ht]; [discriminate|]). exact Ht.
Qed.
Lemma form_inj : forall g h, form_ok g -> form_ok h -> form_bytes g = form_bytes h -> g = h.
Proof.
  assert (Tp : In op_posint tag_types) by (unfold tag_types; cbn [In]; tauto).
  assert (Tn : In op_negint tag_types) by (unfold tag_types; cbn [In]; tauto).
  assert (IW : forall a b, form_ok (HInt a) -> form_ok (HWide b) -> form_bytes (HInt a) <> form_bytes (HWide b)).
  { intros a b Ha Hb E. cbn [form_ok form_bytes] in *. destruct (a <? 0) eqn:Ea, (b <? 0) eqn:Eb; revert E; apply write_integer_narrow; auto; lia. }
  assert (ID : forall a f, form_ok (HInt a) -> form_bytes (HInt a) <> form_bytes (HDbl f)).
  { intros a f Ha E. cbn [form_ok form_bytes] in *. destruct (a <? 0) eqn:Ea; revert E; apply form_head; auto; lia. }
  assert (WD : forall a f, form_ok (HWide a) -> form_bytes (HWide a) <> form_bytes (HDbl f)).
  { intros a f Ha E. cbn [form_ok form_bytes] in *. destruct (a <? 0) eqn:Ea; discriminate. }
  intros [a|a|a] [b|b|b] Ha Hb E; try (exfalso; congruence || (symmetry in E; eapply IW; now eauto) || (symmetry in E; eapply ID; now eauto) || (symmetry in E; eapply WD; now eauto) || (eapply IW; now eauto) || (eapply ID; now eauto) || (eapply WD; now eauto)); cbn [form_ok form_bytes] in *.
  - f_equal. destruct (a <? 0) eqn:Ea, (b <? 0) eqn:Eb; apply write_integer_inj in E as [E1 E2]; auto; try lia; discriminate E2.
  - f_equal. destruct (a <? 0) eqn:Ea, (b <? 0) eqn:Eb;
      [|exfalso; apply (f_equal (hd 0)) in E; discriminate E|exfalso; apply (f_equal (hd 0)) in E; discriminate E|];
      apply (f_equal (@tl Z)) in E; cbn [write_64bit tl] in E; apply le8_inj in E; lia.
  - f_equal. apply (f_equal (@tl Z)) in E. cbn [tl] in E. destruct (bits_round_trip a Ha) as [Ea Ra]. destruct (bits_round_trip b Hb) as [Eb Rb].
    rewrite <- Ea, <- Eb. f_equal. apply le8_inj; auto.
Qed.

(** *** Values *)
Notation ok := (bin_ok L F).
Lemma item_prefix : forall k v r k' v' r', bin_text F k -> bin_text F k' -> ok v -> ok v' ->
  (key_bytes k ++ value_bytes v) ++ r = (key_bytes k' ++ value_bytes v') ++ r' ->
  k = k' /\ decoded L F EncUtf8 v = decoded L F EncUtf8 v' /\ r = r'.
Proof.
  intros k v r k' v' r' Hk Hk' Hv Hv' E.
  assert (HJ : forall n : nat, is_bytes ((fun _ => []) n : bytes)) by (intros; constructor).
  pose proof (item_ok (fun _ => []) L F EncUtf8 HJ v k ws_init [] 0 r Hk Hv ltac:(intros H; discriminate H) ltac:(intros H; discriminate H)) as I.
  pose proof (item_ok (fun _ => []) L F EncUtf8 HJ v' k' ws_init [] 0 r' Hk' Hv' ltac:(intros H; discriminate H) ltac:(intros H; discriminate H)) as I'.
  rewrite write_item_plain in I, I'. destruct I as (_ & h & i & _ & R). destruct I' as (_ & h' & i' & _ & R').
  apply reads_fuel in R, R'. rewrite E in R. rewrite R in R'. injection R' as -> -> -> _ _. auto.
Qed.

Lemma forms_of_items : forall l m, Forall (fun x => forall w, ok (snd x) -> ok w -> decoded L F EncUtf8 (snd x) = decoded L F EncUtf8 w ->
    value_bytes (snd x) = value_bytes w -> same_form L (snd x) w) l ->
  all_ok L F l -> all_ok L F m -> length l = length m -> items_bytes l = items_bytes m -> same_items L l m.
Proof.
  induction l as [|[k v] l IH]; intros [|[k' v'] m] HP Hl Hm Hn E; try discriminate; [constructor|].
  inversion_clear HP as [|? ? Hx HP']. destruct Hl as (Hk & Hv & Hl). destruct Hm as (Hk' & Hv' & Hm). cbn [fst snd] in *.
  unfold items_bytes in E. cbn [map concat fst snd] in E. fold (items_bytes l) (items_bytes m) in E.
  destruct (item_prefix _ _ _ _ _ _ Hk Hk' Hv Hv' E) as (-> & D & E'). rewrite E' in E. apply app_inv_tail in E. apply app_inv_head in E.
  constructor; [apply Hx; auto|]. apply IH; auto.
Qed.

Lemma bytes_form : forall v w, ok v -> ok w -> decoded L F EncUtf8 v = decoded L F EncUtf8 w -> value_bytes v = value_bytes w -> same_form L v w.
Proof.
  induction v as [| |b|n|e s|l IH|d l IH] using value_ind'; intros w Hv Hw D E;
    destruct w as [| |b'|n'|e' s'|l'|d' l']; cbn [decoded] in D; try discriminate;
    try (destruct e' as [e'|], s'; discriminate); try (destruct e as [e|], s; discriminate).
  - constructor.
  - constructor.
  - injection D as ->. constructor.
  - constructor; auto. apply form_inj; auto using number_form_ok. rewrite <- !write_number_form by auto. exact E.
  - destruct e as [e|], e' as [e'|].
    + destruct s, s'; try discriminate; try constructor. injection D as -> ->. constructor.
    + exfalso. destruct s; [|discriminate]. destruct s'; [|discriminate]. discriminate E.
    + exfalso. destruct s; [|destruct s'; discriminate]. destruct s'; [|discriminate]. discriminate E.
    + injection D as ->. constructor.
  - destruct Hv as [_ Hv], Hw as [_ Hw]. fold (all_ok L F) in Hv, Hw. injection D as D. apply (f_equal (@length _)) in D. rewrite !map_length in D.
    rewrite !value_bytes_arr, D in E. apply app_inv_head in E. constructor. apply forms_of_items; auto.
  - destruct Hv as [_ Hv], Hw as [_ Hw]. fold (all_ok L F) in Hv, Hw. injection D as D. apply (f_equal (@length _)) in D. rewrite !map_length in D.
    rewrite !value_bytes_obj, D in E. apply app_inv_head in E. constructor. apply forms_of_items; auto.
Qed.

Scheme same_form_ind2 := Induction for same_form Sort Prop with same_items_ind2 := Induction for same_items Sort Prop.
Lemma form_bytes_same : forall v w, same_form L v w -> value_bytes v = value_bytes w.
Proof.
  apply (same_form_ind2 L (fun v w _ => value_bytes v = value_bytes w)
    (fun l m _ => length l = length m /\ items_bytes l = items_bytes m)); intros; try reflexivity.
  - unfold value_bytes. cbn [write_value fst]. rewrite !write_number_form, e by auto. reflexivity.
  - rewrite !value_bytes_arr. destruct H as [-> ->]. reflexivity.
  - rewrite !value_bytes_obj. destruct H as [-> ->]. reflexivity.
  - auto.
  - destruct H0 as [H1 H2]. cbn [length]. split; [lia|]. unfold items_bytes in *. cbn [map concat fst snd]. rewrite H, H2. reflexivity.
Qed.
Lemma same_form_hash : forall v w, same_form L v w -> value_hash L v = value_hash L w.
Proof. intros v w H. unfold value_hash. rewrite !serialize_plain, (form_bytes_same v w H). reflexivity. Qed.
Lemma hash_input : forall v w, ok v -> ok w ->
  (serialize_binary L F ([], v) = serialize_binary L F ([], w) <-> same_form L v w).
Proof.
  intros v w Hv Hw. rewrite !serialize_plain. split; [|apply form_bytes_same]. intros E.
  assert (Ht : bin_text F []) by (split; [constructor|split; [reflexivity|exact I]]).
  destruct (item_prefix [] v [] [] w [] Ht Ht Hv Hw) as (_ & D & _); [cbn [key_bytes app]; rewrite E; reflexivity|].
  apply bytes_form; auto.
Qed.

(** Same form means equal, NaN and undefined aside. *)
Lemma same_form_number : forall a b, not_nan (get_number L a) -> number_form L a = number_form L b -> num_equal L a b = true.
Proof.
  assert (K : forall f, not_nan f -> SFeqb f f = true) by (intros; apply SFeqb_refl; auto).
  intros a b Hn E. assert (G : get_number L a = get_number L b).
  { destruct a as [a|a|a|t [|a|a]], b as [b|b|b|u [|b|b]]; cbn [number_form get_number] in *;
      repeat match type of E with context [if ?c then _ else _] => destruct c end; congruence. }
  destruct a as [a|a|a|t [|a|a]], b as [b|b|b|u [|b|b]]; cbn [num_equal]; try (rewrite <- G; apply K; exact Hn);
    injection E as ->; apply Z.eqb_refl.
Qed.
Lemma same_form_equal : forall v w, same_form L v w -> proper L v -> veq L v w = true.
Proof.
  apply (same_form_ind2 L (fun v w _ => proper L v -> veq L v w = true)
    (fun l m _ => Forall (fun x => proper L (snd x)) l -> forall k, veq_items L k l m = true)); intros; try reflexivity.
  - inversion H.
  - destruct b; reflexivity.
  - inversion H; subst. cbn [veq]. apply same_form_number; auto.
  - apply beqb_refl.
  - apply beqb_refl.
  - inversion H0; subst. rewrite veq_arr. apply H; auto.
  - inversion H0; subst. rewrite veq_obj. apply H; auto.
  - inversion H1; subst. cbn [veq_items fst snd]. rewrite beqb_refl, H, H0 by auto. destruct k0; reflexivity.
Qed.
End Form.

(** Texts that differ in one byte. *)
Lemma mark_id : forall c, is_byte c -> ~ (128 <= c < 192) -> Z.lor c (Z.shiftr (Z.land c 0x80) 1) = c.
Proof.
  intros c Hc H.
  assert (K : forallb (fun c => ((128 <=? c) && (c <? 192)) || (Z.lor c (Z.shiftr (Z.land c 0x80) 1) =? c)) (zrange 0 256) = true) by (vm_compute; reflexivity).
  rewrite forallb_forall in K. unfold is_byte in Hc. specialize (K c (zrange_in 0 256 c ltac:(lia))). lia.
Qed.
Lemma text_bytes : forall L s, bin_text hash_flags s ->
  serialize_binary L hash_flags ([], VStr None s) = write_integer hash_flags (Z.of_nat (length s)) op_string ++ s.
Proof.
  intros L s (Hs & _ & Hc). rewrite serialize_plain. unfold value_bytes. cbn [write_value fst]. unfold write_string_bin.
  f_equal. destruct s as [|c s]; [reflexivity|]. inversion_clear Hs. cbn [bf_tokens hash_flags andb].
  change (op_string =? op_binstring) with false. cbv iota. rewrite mark_id by auto. reflexivity.
Qed.
Lemma hash_one_byte : forall L a c d b, bin_text hash_flags (a ++ c :: b) -> bin_text hash_flags (a ++ d :: b) ->
  value_hash L (VStr None (a ++ c :: b)) = value_hash L (VStr None (a ++ d :: b)) -> c = d.
Proof.
  intros L a c d b Hc Hd E. unfold value_hash in E. rewrite !text_bytes in E by auto.
  rewrite !app_length in E. cbn [length] in E. rewrite !app_assoc in E.
  destruct Hc as (Hc & _), Hd as (Hd & _). apply Forall_app in Hc as [_ Hc], Hd as [_ Hd].
  inversion_clear Hc. inversion_clear Hd. eapply fnv_one_byte; eauto.
Qed.
