(** Lemmas about JSON text: the parser accepts every text of the grammar. *)
From Coq Require Import ZifyBool Sorted Permutation.
From Verif Require Import Base ModelUtf8 SpecUtf8 ProofUtf8 ModelKeyed SpecKeyed ProofKeyed
  ModelValue ProofValue ModelText SpecText ProofText1.
Local Open Scope Z_scope.

(** *** Reader position *)
Lemma next_at : forall r s, at_pos r s -> next r = (hd_eof s, mkR (tl s) (Some (hd_eof s))).
Proof.
  intros [sr [c|]] s H; unfold at_pos, next in *; simpl in *.
  - destruct H as [->|(-> & -> & ->)]; reflexivity.
  - subst. destruct s; reflexivity.
Qed.

Lemma at_next : forall s, at_pos (mkR (tl s) (Some (hd_eof s))) s.
Proof. intros [|c s]; unfold at_pos; simpl; auto. Qed.

Lemma at_cons : forall c s, at_pos (mkR s (Some c)) (c :: s).
Proof. intros. unfold at_pos; simpl; auto. Qed.

Lemma at_none : forall s, at_pos (mkR s None) s.
Proof. intros. reflexivity. Qed.

Lemma at_commit : forall c s r, at_pos r (c :: s) -> cur r <> None -> commit r = mkR s None.
Proof.
  intros c s [sr [x|]] H Hn; unfold at_pos, commit in *; simpl in *; [|congruence].
  destruct H as [H|(H & _)]; [|discriminate]. inversion H; reflexivity.
Qed.

Lemma ws_space : forall c, ws_char c -> isspace (char_of c) = true.
Proof. unfold ws_char. intros c [->|[->|[->| ->]]]; reflexivity. Qed.

Lemma skip_ws_run : forall w c s, ws w -> isspace (char_of c) = false ->
  skip_ws (hd_eof (w ++ c :: s)) (tl (w ++ c :: s)) = (c, s).
Proof.
  induction w as [|x w IH]; intros c s Hw Hc.
  - simpl. destruct s; simpl; rewrite Hc; reflexivity.
  - inversion_clear Hw as [|? ? Hx Hw']. simpl hd_eof. simpl tl.
    specialize (IH c s Hw' Hc).
    destruct (w ++ c :: s) as [|y l] eqn:E; [destruct w; discriminate|].
    cbn [skip_ws]. rewrite (ws_space x Hx). exact IH.
Qed.

Lemma next_ws_run : forall r w c s, at_pos r (w ++ c :: s) -> ws w -> isspace (char_of c) = false ->
  next_ws r = (char_of c, mkR s (Some c)).
Proof.
  intros r w c s H Hw Hc. unfold next_ws. rewrite (next_at _ _ H). cbn [src].
  rewrite skip_ws_run by auto. reflexivity.
Qed.

Lemma char_of_low : forall c, 0 <= c < 128 -> char_of c = c.
Proof.
  intros c H. unfold char_of, to_byte, schar. rewrite Z.mod_small by lia.
  replace (c <? 128) with true by lia. reflexivity.
Qed.

Lemma isspace_high : forall c, 33 <= c < 128 -> isspace (char_of c) = false.
Proof. intros c H. rewrite char_of_low by lia. unfold isspace. lia. Qed.

Lemma next_ws_low : forall r w c s, at_pos r (w ++ c :: s) -> ws w -> 33 <= c < 128 ->
  next_ws r = (c, mkR s (Some c)).
Proof.
  intros r w c s H Hw Hc. rewrite (next_ws_run r w c s) by (auto using isspace_high).
  rewrite char_of_low by lia. reflexivity.
Qed.

Lemma ws_src : forall sg w, ws w -> map (as_source sg) w = w.
Proof.
  intros sg w. induction 1 as [|c w Hc Hw IH]; simpl; auto. rewrite IH. f_equal.
  apply as_source_low. unfold ws_char in Hc. lia.
Qed.

Lemma digits_src : forall sg ds, Forall digit_char ds -> map (as_source sg) ds = ds.
Proof.
  intros sg w. induction 1 as [|c w Hc Hw IH]; simpl; auto. rewrite IH. f_equal.
  apply as_source_low. unfold digit_char in Hc. lia.
Qed.

(** *** Building objects: length criterion *)
Lemma build_object_keys : forall (l : list (bytes * value)) k,
  Forall (fun m => is_undef (snd m) = false) l ->
  (In k (map fst (build_object is_undef l)) <-> In k (map fst l)).
Proof.
  intros l k F. destruct (build_object_spec is_undef l) as [S1 S2].
  specialize (S2 k).
  replace (filter (fun m => negb (is_undef (snd m))) l) with l in S2.
  2:{ clear - F. induction F as [|m l Hm F IH]; simpl; auto. rewrite Hm. simpl. congruence. }
  pose proof (binding_none k (build_object is_undef l)) as B1. pose proof (last_binding_none k l) as B2.
  destruct (in_dec bytes_eq_dec k (map fst (build_object is_undef l))) as [I1|I1];
  destruct (in_dec bytes_eq_dec k (map fst l)) as [I2|I2]; try tauto.
  - apply B2 in I2. rewrite I2 in S2. apply B1 in S2. tauto.
  - apply B1 in I1. rewrite I1 in S2. symmetry in S2. apply B2 in S2. tauto.
Qed.

Lemma build_object_length : forall l : list (bytes * value),
  Forall (fun m => is_undef (snd m) = false) l ->
  (length (build_object is_undef l) = length l <-> NoDup (map fst l)).
Proof.
  intros l F. destruct (build_object_spec is_undef l) as [S1 _].
  pose proof (keys_increasing_nodup _ S1) as N1. split; intros H.
  - apply NoDup_incl_NoDup with (map fst (build_object is_undef l)); auto.
    + rewrite !map_length. lia.
    + intros k Hk. apply build_object_keys; auto.
  - rewrite <- (map_length fst l), <- (map_length fst (build_object is_undef l)).
    apply Permutation_length. apply NoDup_Permutation; auto.
    intros k. apply build_object_keys; auto.
Qed.

(** *** Functional form of what the parser should return *)
Fixpoint settle (dup : bool) (v : value) {struct v} : option value :=
  let fix settle_list (l : list (bytes * value)) : option (list (bytes * value)) :=
    match l with
    | [] => Some []
    | (k, v) :: l' =>
      match settle dup v, settle_list l' with
      | Some v', Some l'' => Some ((k, v') :: l'')
      | _, _ => None
      end
    end in
  match v with
  | VArr l => match settle_list l with Some l' => Some (VArr l') | None => None end
  | VObj d l =>
    match settle_list l with
    | Some l' =>
      let o := build_object is_undef l' in
      if negb dup && negb (Nat.eqb (length o) (length l')) then None else Some (VObj d o)
    | None => None
    end
  | _ => Some v
  end.

Fixpoint settle_list (dup : bool) (l : list (bytes * value)) : option (list (bytes * value)) :=
  match l with
  | [] => Some []
  | (k, v) :: l' =>
    match settle dup v, settle_list dup l' with
    | Some v', Some l'' => Some ((k, v') :: l'')
    | _, _ => None
    end
  end.

Lemma settle_arr : forall dup l,
  settle dup (VArr l) = match settle_list dup l with Some l' => Some (VArr l') | None => None end.
Proof.
  intros dup l. simpl.
  assert (forall l, (fix f (l : list (bytes * value)) : option (list (bytes * value)) :=
      match l with
    | [] => Some []
    | (k, v) :: l' =>
      match settle dup v, f l' with
      | Some v', Some l'' => Some ((k, v') :: l'')
      | _, _ => None
      end
    end) l = settle_list dup l) as H by (induction l0 as [|[k v] l0 IH]; simpl; auto; rewrite IH; auto).
  rewrite H. reflexivity.
Qed.

Lemma settle_obj : forall dup d l,
  settle dup (VObj d l) =
  match settle_list dup l with
  | Some l' =>
    let o := build_object is_undef l' in
    if negb dup && negb (Nat.eqb (length o) (length l')) then None else Some (VObj d o)
  | None => None
  end.
Proof.
  intros dup d l. simpl.
  assert (forall l, (fix f (l : list (bytes * value)) : option (list (bytes * value)) :=
      match l with
    | [] => Some []
    | (k, v) :: l' =>
      match settle dup v, f l' with
      | Some v', Some l'' => Some ((k, v') :: l'')
      | _, _ => None
      end
    end) l = settle_list dup l) as H by (induction l0 as [|[k v] l0 IH]; simpl; auto; rewrite IH; auto).
  rewrite H. reflexivity.
Qed.

Scheme jval_mind := Induction for jval Sort Prop
with jelems_mind := Induction for jelems Sort Prop
with jmembers_mind := Induction for jmembers Sort Prop.

(** *** The parser on grammatical text *)
Section Complete.
Variables (L : libm) (F : pflags) (sg : bool).
Hypothesis Hnp : precise F = false.
Notation asrc := (map (as_source sg)).

Definition parse_ok (v : value) (r : reader) (rest : list Z) : Prop :=
  match settle (allow_dup F) v with
  | Some v' => exists f0 r', at_pos r' rest /\ forall f, (f0 <= f)%nat -> parse L F f r = Ok (v', r')
  | None => exists f0, forall f, (f0 <= f)%nat -> parse L F f r = Err
  end.

Lemma num_stop : forall rest, num_end rest ->
  isdigit (hd_eof rest) = false /\ (hd_eof rest =? 46) = false /\ is_e (hd_eof rest) = false.
Proof.
  intros [|c rest] H; simpl; [auto|]. unfold num_end, digit_char in H. unfold isdigit, is_e. lia.
Qed.

Lemma parse_unsigned_run : forall c ds rest,
  Forall digit_char (c :: ds) -> dec_value (c :: ds) < 2 ^ 64 -> num_end rest ->
  exists n, parse_unsigned (mkR (ds ++ rest) (Some c)) =
    (true, dec_value (c :: ds), n, mkR (tl rest) (Some (hd_eof rest))).
Proof.
  intros c ds rest Hd Hv Hn. destruct (num_stop rest Hn) as [N1 _].
  unfold parse_unsigned. cbn [next cur src].
  rewrite pu_loop_run by (auto; lia). eexists. reflexivity.
Qed.

Lemma parse_uint : forall ds r w rest,
  ds <> [] -> Forall digit_char ds -> dec_value ds < 2 ^ 64 -> ws w -> num_end rest ->
  at_pos r (w ++ ds ++ rest) ->
  forall f, parse L F (S f) r = Ok (VNum (NUInt (dec_value ds)), mkR (tl rest) (Some (hd_eof rest))).
Proof.
  intros [|c ds] r w rest Hne Hd Hv Hw Hn Hr f; [congruence|].
  pose proof (Forall_inv Hd) as Hc. unfold digit_char in Hc.
  cbn [app] in Hr. cbn [parse]. rewrite (next_ws_low r w c (ds ++ rest)) by (auto; lia).
  replace (c =? 123) with false by lia. replace (c =? 91) with false by lia.
  replace (c =? 34) with false by lia. replace (c =? 116) with false by lia.
  replace (c =? 102) with false by lia. replace (c =? 110) with false by lia.
  assert (isdigit c = true) as Hi by (apply isdigit_spec; exact Hc). rewrite Hi. simpl orb. cbv iota.
  unfold parse_number. rewrite Hnp. unfold read_sign. cbn [next cur].
  replace (c =? 45) with false by lia. replace (c =? 43) with false by lia.
  cbn [next cur]. rewrite Hi. simpl negb. simpl andb. cbv iota.
  destruct (parse_unsigned_run c ds rest Hd Hv Hn) as [n ->].
  cbn [next cur]. destruct (num_stop rest Hn) as (_ & -> & ->). simpl. reflexivity.
Qed.

Lemma parse_int : forall ds r w rest,
  ds <> [] -> Forall digit_char ds -> dec_value ds < 2 ^ 63 -> ws w -> num_end rest ->
  at_pos r (w ++ 45 :: ds ++ rest) ->
  forall f, parse L F (S f) r = Ok (VNum (int_num (- dec_value ds)), mkR (tl rest) (Some (hd_eof rest))).
Proof.
  intros [|c ds] r w rest Hne Hd Hv Hw Hn Hr f; [congruence|].
  pose proof (Forall_inv Hd) as Hc. unfold digit_char in Hc.
  assert (0 <= dec_value (c :: ds)) as Hp by (apply (dec_fold_ge (c :: ds) 0); auto; lia).
  cbn [parse]. rewrite (next_ws_low r w 45 ((c :: ds) ++ rest)) by (auto; lia).
  change (45 =? 123) with false. change (45 =? 91) with false. change (45 =? 34) with false.
  change (45 =? 116) with false. change (45 =? 102) with false. change (45 =? 110) with false.
  change (isdigit 45 || (45 =? 43) || (45 =? 45) || (45 =? 46)) with true. cbv iota.
  unfold parse_number. rewrite Hnp. unfold read_sign. cbn [next cur]. change (45 =? 45) with true. cbv iota.
  cbn [commit app src next cur pull].
  assert (isdigit c = true) as Hi by (apply isdigit_spec; exact Hc). rewrite Hi. simpl negb. simpl andb. cbv iota.
  destruct (parse_unsigned_run c ds rest Hd ltac:(lia) Hn) as [n ->].
  cbn [next cur]. destruct (num_stop rest Hn) as (_ & -> & ->). simpl orb. cbv iota.
  replace (Z.testbit (dec_value (c :: ds)) 63) with false; [reflexivity|].
  symmetry. destruct (Z.eq_dec (dec_value (c :: ds)) 0) as [->|Hz]; [reflexivity|].
  apply Z.bits_above_log2; [lia|]. apply Z.log2_lt_pow2; lia.
Qed.

Lemma parse_int_big : forall ds r w rest,
  ds <> [] -> Forall digit_char ds -> 2 ^ 63 <= dec_value ds < 2 ^ 64 -> ws w -> num_end rest ->
  at_pos r (w ++ 45 :: ds ++ rest) ->
  forall f, parse L F (S f) r = Ok (VNum (dbl_num (f_opp (f_of_Z (dec_value ds)))), mkR (tl rest) (Some (hd_eof rest))).
Proof.
  intros [|c ds] r w rest Hne Hd Hv Hw Hn Hr f; [congruence|].
  pose proof (Forall_inv Hd) as Hc. unfold digit_char in Hc.
  assert (0 <= dec_value (c :: ds)) as Hp by (apply (dec_fold_ge (c :: ds) 0); auto; lia).
  cbn [parse]. rewrite (next_ws_low r w 45 ((c :: ds) ++ rest)) by (auto; lia).
  change (45 =? 123) with false. change (45 =? 91) with false. change (45 =? 34) with false.
  change (45 =? 116) with false. change (45 =? 102) with false. change (45 =? 110) with false.
  change (isdigit 45 || (45 =? 43) || (45 =? 45) || (45 =? 46)) with true. cbv iota.
  unfold parse_number. rewrite Hnp. unfold read_sign. cbn [next cur]. change (45 =? 45) with true. cbv iota.
  cbn [commit app src next cur pull].
  assert (isdigit c = true) as Hi by (apply isdigit_spec; exact Hc). rewrite Hi. simpl negb. simpl andb. cbv iota.
  destruct (parse_unsigned_run c ds rest Hd ltac:(lia) Hn) as [n ->].
  cbn [next cur]. destruct (num_stop rest Hn) as (_ & -> & ->). simpl orb. cbv iota.
  replace (Z.testbit (dec_value (c :: ds)) 63) with true; [reflexivity|].
  symmetry. apply Z.testbit_true; [lia|].
  replace (dec_value (c :: ds) / 2 ^ 63) with 1; [reflexivity|].
  apply Z.div_unique with (dec_value (c :: ds) - 2 ^ 63); lia.
Qed.

Lemma parse_string_lit : forall s b r w rest,
  jstr s b -> ws w -> at_pos r (w ++ 34 :: asrc b ++ 34 :: rest) ->
  forall f, parse L F (S f) r = Ok (string_value s, mkR rest None).
Proof.
  intros s b r w rest Hb Hw Hr f. cbn [parse].
  rewrite (next_ws_low r w 34 (asrc b ++ 34 :: rest)) by (auto; lia).
  change (34 =? 123) with false. change (34 =? 91) with false. change (34 =? 34) with true. cbv iota.
  unfold read_string_r. unfold commit; cbn [src cur].
  rewrite (read_string_jstr s b Hb). reflexivity.
Qed.

Lemma parse_word : forall str v r w rest,
  In (str, v) [(str_true, VBool true); (str_false, VBool false); (str_null, VNull)] ->
  ws w -> at_pos r (w ++ str ++ rest) ->
  forall f, parse L F (S f) r = Ok (v, mkR rest None).
Proof.
  intros str v r w rest Hin Hw Hr f. simpl in Hin.
  destruct Hin as [E|[E|[E|[]]]]; inversion E; subst; cbn [parse];
    (erewrite next_ws_low; [|exact Hr|exact Hw|lia]); reflexivity.
Qed.

Lemma num_end_char : forall c s, ~ digit_char c -> c <> 46 -> c <> 69 -> c <> 101 -> num_end (c :: s).
Proof. unfold num_end. auto. Qed.

Lemma num_end_ws : forall w c s, ws w -> ~ digit_char c -> c <> 46 -> c <> 69 -> c <> 101 ->
  num_end (w ++ c :: s).
Proof.
  intros w c s Hw H1 H2 H3 H4. destruct Hw as [|x w Hx _]; simpl; auto.
  unfold ws_char, digit_char in *. lia.
Qed.

Definition P_val (v : value) (t : bytes) : Prop := forall w r rest,
  ws w -> num_end rest -> at_pos r (w ++ asrc t ++ rest) -> parse_ok v r rest.

Definition P_elems (l : list (bytes * value)) (t : bytes) : Prop := forall r rest acc,
  at_pos r (asrc t ++ 93 :: rest) ->
  match settle_list (allow_dup F) l with
  | Some l' => exists f0 r', at_pos r' rest /\ forall f, (f0 <= f)%nat ->
      parse_arr L F f r acc = Ok (VArr (map (fun v => ([], v)) (rev acc) ++ l'), r')
  | None => exists f0, forall f, (f0 <= f)%nat -> parse_arr L F f r acc = Err
  end.

Definition P_members (l : list (bytes * value)) (t : bytes) : Prop := forall r rest acc,
  at_pos r (asrc t ++ 125 :: rest) ->
  match settle_list (allow_dup F) l with
  | Some l' => exists f0 r', at_pos r' rest /\ forall f, (f0 <= f)%nat ->
      (let '(c, r1) := next_ws r in parse_obj L F f c r1 acc) =
      do o <- finish_object F (rev acc ++ l'); Ok (o, r')
  | None => exists f0, forall f, (f0 <= f)%nat ->
      (let '(c, r1) := next_ws r in parse_obj L F f c r1 acc) = Err
  end.

(** The first character of a grammatical array or member list is not the
    closing bracket. *)
Definition starts_value (t : bytes) : Prop :=
  exists w c t', t = w ++ c :: t' /\ ws w /\ 33 <= c < 128 /\ c <> 93 /\ c <> 125.

(** The rest of the section holds for any relation [N] between numbers and
    their texts whose texts start like a value and are read as the number. *)
Variable N : num -> bytes -> Prop.
Hypothesis N_starts : forall n t, N n t -> exists c t', t = c :: t' /\ 33 <= c < 128 /\ c <> 93 /\ c <> 125.
Hypothesis N_read : forall n t, N n t -> P_val (VNum n) t.

Lemma jval_starts : forall v t, jval N v t -> exists c t', t = c :: t' /\ 33 <= c < 128 /\ c <> 93 /\ c <> 125.
Proof.
  intros v t H. destruct H as [| | |n t Hn| | | | | | |]; try (do 2 eexists; split; [reflexivity|lia]).
  apply (N_starts _ _ Hn).
Qed.

Lemma jelems_starts : forall l t, jelems N l t -> starts_value t.
Proof.
  intros l t H. destruct H as [v w1 t w2 Hw Hv Hw2|v w1 t w2 l ts Hw Hv Hw2 Hl];
  destruct (jval_starts _ _ Hv) as (c & t' & -> & Hc1 & Hc2 & Hc3);
  (exists w1, c; eexists; split; [reflexivity|auto]).
Qed.

Lemma jmembers_starts : forall l t, jmembers N l t ->
  exists w t', t = w ++ 34 :: t' /\ ws w.
Proof. intros l t H. destruct H; exists w1; eexists; split; try reflexivity; assumption. Qed.

Lemma bind_Ok : forall {A B} (r : res A) (f : A -> res B) a, r = Ok a -> bind r f = f a.
Proof. intros. subst. reflexivity. Qed.


Ltac lows := cbn [map];
  rewrite ?(as_source_low sg 34), ?(as_source_low sg 44), ?(as_source_low sg 45),
    ?(as_source_low sg 58), ?(as_source_low sg 91), ?(as_source_low sg 93),
    ?(as_source_low sg 123), ?(as_source_low sg 125) by lia.
Ltac nsrc H := repeat (rewrite ?map_app in H; cbn [map] in H);
  rewrite ?(as_source_low sg 34), ?(as_source_low sg 44), ?(as_source_low sg 45),
    ?(as_source_low sg 58), ?(as_source_low sg 91), ?(as_source_low sg 93),
    ?(as_source_low sg 123), ?(as_source_low sg 125) in H by lia;
  repeat (rewrite <- ?app_assoc in H; cbn [app] in H).

Lemma C_null : P_val VNull [110;117;108;108].
Proof.
  intros w r rest Hw Hn Hr. unfold parse_ok. simpl settle. cbv iota.
  exists 1%nat, (mkR rest None). split; [reflexivity|]. intros [|f] Hf; [lia|].
  apply parse_word with (str := str_null) (w := w); simpl; auto.
  destruct sg; exact Hr.
Qed.
Lemma C_true : P_val (VBool true) [116;114;117;101].
Proof.
  intros w r rest Hw Hn Hr. unfold parse_ok. simpl settle. cbv iota.
  exists 1%nat, (mkR rest None). split; [reflexivity|]. intros [|f] Hf; [lia|].
  apply parse_word with (str := str_true) (w := w); simpl; auto.
  destruct sg; exact Hr.
Qed.
Lemma C_false : P_val (VBool false) [102;97;108;115;101].
Proof.
  intros w r rest Hw Hn Hr. unfold parse_ok. simpl settle. cbv iota.
  exists 1%nat, (mkR rest None). split; [reflexivity|]. intros [|f] Hf; [lia|].
  apply parse_word with (str := str_false) (w := w); simpl; auto.
  destruct sg; exact Hr.
Qed.
Lemma C_uint : forall ds, ds <> [] -> Forall digit_char ds -> dec_value ds < 2 ^ 64 ->
  P_val (VNum (NUInt (dec_value ds))) ds.
Proof.
  clear N N_starts N_read.
  intros ds H1 H2 H3 w r rest Hw Hn Hr. unfold parse_ok. cbn [settle]. cbv iota.
  exists 1%nat, (mkR (tl rest) (Some (hd_eof rest))). split; [apply at_next|]. intros [|f] Hf; [lia|].
  rewrite (digits_src sg ds H2) in Hr. apply parse_uint with (w := w); auto.
Qed.
Lemma C_int : forall ds, ds <> [] -> Forall digit_char ds -> dec_value ds < 2 ^ 63 ->
  P_val (VNum (int_num (- dec_value ds))) (45 :: ds).
Proof.
  clear N N_starts N_read.
  intros ds H1 H2 H3 w r rest Hw Hn Hr. unfold parse_ok. cbn [settle]. cbv iota.
  exists 1%nat, (mkR (tl rest) (Some (hd_eof rest))). split; [apply at_next|]. intros [|f] Hf; [lia|].
  nsrc Hr. rewrite (digits_src sg ds H2) in Hr. apply parse_int with (w := w); auto.
Qed.
Lemma C_lit : forall s b v, jstr s b -> string_value s = v -> settle (allow_dup F) v = Some v ->
  P_val v (34 :: b ++ [34]).
Proof.
  intros s b v Hb Hs Hv w r rest Hw Hn Hr. unfold parse_ok. rewrite Hv.
  exists 1%nat, (mkR rest None). split; [reflexivity|]. intros [|f] Hf; [lia|].
  nsrc Hr. rewrite <- Hs. apply parse_string_lit with (b := b) (w := w); auto.
Qed.

Lemma C_arr0 : forall w, ws w -> P_val (VArr []) (91 :: w ++ [93]).
Proof.
  intros w1 Hw1 w r rest Hw Hn Hr. unfold parse_ok. cbn [settle]. cbv iota.
  exists 1%nat, (mkR rest None). split; [reflexivity|]. intros [|f] Hf; [lia|].
  nsrc Hr. rewrite (ws_src sg w1 Hw1) in Hr. cbn [parse].
  rewrite (next_ws_low r w 91 _ Hr) by (auto; lia).
  change (91 =? 123) with false. change (91 =? 91) with true. cbv iota. unfold commit; cbn [src].
  rewrite (next_ws_low (mkR (w1 ++ 93 :: rest) None) w1 93 rest) by (auto using at_none; lia).
  reflexivity.
Qed.


Lemma next_ws_idem : forall r, next_ws (snd (next_ws r)) = next_ws r.
Proof.
  intros r. unfold next_ws. destruct (next r) as [c r1].
  assert (H : forall s c, let '(c', s') := skip_ws c s in skip_ws c' s' = (c', s')).
  { clear. induction s as [|x s IH]; intros c; cbn [skip_ws].
    - destruct (isspace (char_of c)) eqn:E; cbn [skip_ws]; [reflexivity|rewrite E; reflexivity].
    - destruct (isspace (char_of c)) eqn:E; [apply IH|]. cbn [skip_ws]. rewrite E. reflexivity. }
  specialize (H (src r1) c). destruct (skip_ws c (src r1)) as [c' s'].
  cbn [snd next cur src]. rewrite H. reflexivity.
Qed.

Lemma parse_ws : forall f r, parse L F f (snd (next_ws r)) = parse L F f r.
Proof. intros [|f] r; [reflexivity|]. cbn [parse]. rewrite next_ws_idem. reflexivity. Qed.

Lemma parse_arr_ws : forall f r acc, parse_arr L F f (snd (next_ws r)) acc = parse_arr L F f r acc.
Proof. intros [|f] r acc; [reflexivity|]. cbn [parse_arr]. rewrite parse_ws. reflexivity. Qed.

Lemma C_arr : forall l t, jelems N l t -> P_elems l t -> P_val (VArr l) (91 :: t ++ [93]).
Proof.
  intros l t Ht IH w r rest Hw Hn Hr. unfold parse_ok. rewrite settle_arr.
  nsrc Hr.
  destruct (jelems_starts _ _ Ht) as (w1 & c & t' & Et & Hw1 & Hc & Hc1 & Hc2).
  set (r2 := mkR (asrc t ++ 93 :: rest) None).
  assert (Hns : next_ws r2 = (c, mkR (asrc t' ++ 93 :: rest) (Some c))).
  { apply next_ws_low with (w := w1); auto. subst t. unfold r2, at_pos. simpl.
    rewrite map_app. cbn [map]. rewrite (as_source_low sg c) by lia. rewrite (ws_src sg w1 Hw1).
    rewrite <- app_assoc. reflexivity. }
  assert (Hparse : forall f, parse L F (S f) r = parse_arr L F f r2 []).
  { intros f. cbn [parse]. rewrite (next_ws_low r w 91 _ Hr) by (auto; lia).
    change (91 =? 123) with false. change (91 =? 91) with true. cbv iota. unfold commit; cbn [src].
    fold r2. rewrite <- (parse_arr_ws f r2). rewrite Hns.
    replace (c =? 93) with false by lia. reflexivity. }
  specialize (IH r2 rest [] (at_none _)).
  destruct (settle_list (allow_dup F) l) as [l'|].
  - destruct IH as (f0 & r' & Hat & Hf). exists (S f0), r'. split; auto.
    intros [|f] Hle; [lia|]. rewrite Hparse. rewrite Hf by lia. reflexivity.
  - destruct IH as (f0 & Hf). exists (S f0). intros [|f] Hle; [lia|]. rewrite Hparse. apply Hf. lia.
Qed.

Lemma asrc_ws : forall w, ws w -> asrc w = w.
Proof. intros. apply ws_src; auto. Qed.

Ltac wsr H := repeat match goal with Hw : ws ?w |- _ => rewrite (asrc_ws w Hw) in H end.

Lemma C_one : forall v w1 t w2, ws w1 -> P_val v t -> ws w2 -> P_elems [([], v)] (w1 ++ t ++ w2).
Proof.
  intros v w1 t w2 Hw1 IH Hw2 r rest acc Hr. nsrc Hr. wsr Hr.
  specialize (IH w1 r (w2 ++ 93 :: rest) Hw1). unfold parse_ok in IH. cbn [settle_list].
  assert (num_end (w2 ++ 93 :: rest)) as Hn by (apply num_end_ws; unfold digit_char; auto; lia).
  specialize (IH Hn Hr). destruct (settle (allow_dup F) v) as [v'|].
  - destruct IH as (f0 & r' & Hat & Hf).
    exists (S f0), (mkR rest None). split; [reflexivity|]. intros [|f] Hle; [lia|].
    cbn [parse_arr]. rewrite (Hf f) by lia. cbn [bind].
    rewrite (next_ws_low r' w2 93 rest Hat) by (auto; lia).
    change (93 =? 93) with true. cbv iota. unfold commit; cbn [rev src]. rewrite map_app. reflexivity.
  - destruct IH as (f0 & Hf). exists (S f0). intros [|f] Hle; [lia|].
    cbn [parse_arr]. rewrite (Hf f) by lia. reflexivity.
Qed.

Lemma C_cons : forall v w1 t w2 l ts, ws w1 -> P_val v t -> ws w2 -> P_elems l ts ->
  P_elems (([], v) :: l) (w1 ++ t ++ w2 ++ 44 :: ts).
Proof.
  intros v w1 t w2 l ts Hw1 IH Hw2 IHl r rest acc Hr. nsrc Hr. wsr Hr.
  specialize (IH w1 r (w2 ++ 44 :: asrc ts ++ 93 :: rest) Hw1). unfold parse_ok in IH. cbn [settle_list].
  assert (num_end (w2 ++ 44 :: asrc ts ++ 93 :: rest)) as Hn by (apply num_end_ws; unfold digit_char; auto; lia).
  specialize (IH Hn Hr). destruct (settle (allow_dup F) v) as [v'|].
  - destruct IH as (f0 & r' & Hat & Hf).
    specialize (IHl (mkR (asrc ts ++ 93 :: rest) None) rest (v' :: acc) (at_none _)).
    assert (Hstep : forall f, (f0 <= f)%nat ->
      parse_arr L F (S f) r acc = parse_arr L F f (mkR (asrc ts ++ 93 :: rest) None) (v' :: acc)).
    { intros f Hle. cbn [parse_arr]. rewrite (Hf f) by lia. cbn [bind].
      rewrite (next_ws_low r' w2 44 _ Hat) by (auto; lia). reflexivity. }
    destruct (settle_list (allow_dup F) l) as [l'|].
    + destruct IHl as (f1 & r'' & Hat' & Hf1).
      exists (S (max f0 f1)), r''. split; auto. intros [|f] Hle; [lia|].
      rewrite Hstep by lia. rewrite Hf1 by lia. cbn [rev]. rewrite map_app, <- app_assoc. reflexivity.
    + destruct IHl as (f1 & Hf1). exists (S (max f0 f1)). intros [|f] Hle; [lia|].
      rewrite Hstep by lia. apply Hf1. lia.
  - destruct IH as (f0 & Hf). exists (S f0). intros [|f] Hle; [lia|].
    cbn [parse_arr]. rewrite (Hf f) by lia. reflexivity.
Qed.

Lemma C_obj0 : forall w, ws w -> P_val (VObj false []) (123 :: w ++ [125]).
Proof.
  intros w1 Hw1 w r rest Hw Hn Hr. unfold parse_ok. rewrite settle_obj. cbn [settle_list].
  change (build_object is_undef []) with (@nil (bytes * value)). cbv zeta.
  rewrite Nat.eqb_refl. simpl negb. rewrite andb_false_r.
  exists 1%nat, (mkR rest None). split; [reflexivity|]. intros [|f] Hf; [lia|].
  nsrc Hr. rewrite (ws_src sg w1 Hw1) in Hr. cbn [parse].
  rewrite (next_ws_low r w 123 _ Hr) by (auto; lia).
  change (123 =? 123) with true. cbv iota. unfold commit; cbn [src].
  rewrite (next_ws_low (mkR (w1 ++ 125 :: rest) None) w1 125 rest) by (auto using at_none; lia).
  reflexivity.
Qed.

Lemma C_obj : forall l t, jmembers N l t -> P_members l t -> P_val (VObj false l) (123 :: t ++ [125]).
Proof.
  intros l t Ht IH w r rest Hw Hn Hr. unfold parse_ok. rewrite settle_obj.
  nsrc Hr.
  destruct (jmembers_starts _ _ Ht) as (w1 & t' & Et & Hw1).
  set (r2 := mkR (asrc t ++ 125 :: rest) None).
  assert (Hns : next_ws r2 = (34, mkR (asrc t' ++ 125 :: rest) (Some 34))).
  { apply next_ws_low with (w := w1); auto; [|lia]. subst t. unfold r2, at_pos. simpl.
    rewrite map_app. cbn [map]. rewrite (as_source_low sg 34) by lia. rewrite (ws_src sg w1 Hw1).
    rewrite <- app_assoc. reflexivity. }
  assert (Hparse : forall f, parse L F (S f) r = let '(c, r1) := next_ws r2 in parse_obj L F f c r1 []).
  { intros f. cbn [parse]. rewrite (next_ws_low r w 123 _ Hr) by (auto; lia).
    change (123 =? 123) with true. cbv iota. unfold commit; cbn [src].
    fold r2. rewrite Hns. reflexivity. }
  specialize (IH r2 rest [] (at_none _)). cbn [rev app] in IH. unfold finish_object in IH. cbv zeta in IH |- *.
  destruct (settle_list (allow_dup F) l) as [l'|].
  - destruct IH as (f0 & r' & Hat & Hf).
    destruct (negb (allow_dup F) && negb (length (build_object is_undef l') =? length l')%nat) eqn:E.
    + exists (S f0). intros [|f] Hle; [lia|]. rewrite Hparse. rewrite Hf by lia. reflexivity.
    + exists (S f0), r'. split; auto.
      intros [|f] Hle; [lia|]. rewrite Hparse. rewrite Hf by lia. reflexivity.
  - destruct IH as (f0 & Hf). exists (S f0). intros [|f] Hle; [lia|]. rewrite Hparse. apply Hf. lia.
Qed.

(** One member: the part common to [jm_one] and [jm_cons]. *)
Lemma member_step : forall k b v w1 w2 w3 t w4 c tail,
  jstr k b -> ws w1 -> ws w2 -> ws w3 -> P_val v t -> ws w4 -> (c = 44 \/ c = 125) ->
  forall r acc,
  at_pos r (w1 ++ 34 :: asrc b ++ 34 :: w2 ++ 58 :: w3 ++ asrc t ++ w4 ++ c :: tail) ->
  match settle (allow_dup F) v with
  | Some v' => exists f0, forall f, (f0 <= f)%nat ->
     (let '(c0, r1) := next_ws r in parse_obj L F (S f) c0 r1 acc) =
     (if c =? 125 then do o <- finish_object F (rev ((k, v') :: acc)); Ok (o, mkR tail None)
      else let '(c3, r6) := next_ws (mkR tail None) in parse_obj L F f c3 r6 ((k, v') :: acc))
  | None => exists f0, forall f, (f0 <= f)%nat ->
     (let '(c0, r1) := next_ws r in parse_obj L F f c0 r1 acc) = Err
  end.
Proof.
  intros k b v w1 w2 w3 t w4 c tail Hk Hw1 Hw2 Hw3 IH Hw4 Hc r acc Hr.
  rewrite (next_ws_low r w1 34 _ Hr) by (auto; lia).
  assert (num_end (w4 ++ c :: tail)) as Hn by (apply num_end_ws; unfold digit_char; auto; lia).
  specialize (IH w3 (mkR (w3 ++ asrc t ++ w4 ++ c :: tail) None) (w4 ++ c :: tail) Hw3 Hn (at_none _)).
  unfold parse_ok in IH.
  assert (Hstep : forall f, 
    parse_obj L F (S f) 34 (mkR (asrc b ++ 34 :: w2 ++ 58 :: w3 ++ asrc t ++ w4 ++ c :: tail) (Some 34)) acc =
    do (v0, r3) <- parse L F f (mkR (w3 ++ asrc t ++ w4 ++ c :: tail) None);
    let acc' := (k, v0) :: acc in
    let '(c2, r4) := next_ws r3 in
    let r5 := commit r4 in
    if c2 =? 125 then do o <- finish_object F (rev acc'); Ok (o, r5)
    else if c2 =? 44 then let '(c3, r6) := next_ws r5 in parse_obj L F f c3 r6 acc'
    else Err).
  { intros f. cbn [parse_obj]. change (34 =? 34) with true. cbv iota.
    unfold read_string_r. unfold commit; cbn [src cur]. rewrite (read_string_jstr k b Hk). cbn [bind app].
    rewrite (next_ws_low (mkR (w2 ++ 58 :: w3 ++ asrc t ++ w4 ++ c :: tail) None) w2 58 _ (at_none _)) by (auto; lia).
    change (58 =? 58) with true. cbv iota. unfold commit; cbn [src]. reflexivity. }
  destruct (settle (allow_dup F) v) as [v'|].
  - destruct IH as (f0 & r' & Hat & Hf). exists f0. intros f Hle.
    rewrite Hstep, (Hf f Hle). cbn [bind]. cbv zeta.
    rewrite (next_ws_low r' w4 c tail Hat) by (auto; lia). unfold commit; cbn [src].
    destruct Hc as [->| ->]; reflexivity.
  - destruct IH as (f0 & Hf). exists (S f0). intros [|f] Hle; [lia|].
    rewrite Hstep, Hf by lia. reflexivity.
Qed.

Lemma C_mone : forall k b v w1 w2 w3 t w4,
  jstr k b -> ws w1 -> ws w2 -> ws w3 -> P_val v t -> ws w4 ->
  P_members [(k, v)] (w1 ++ 34 :: b ++ 34 :: w2 ++ 58 :: w3 ++ t ++ w4).
Proof.
  intros k b v w1 w2 w3 t w4 Hk Hw1 Hw2 Hw3 IH Hw4 r rest acc Hr.
  nsrc Hr. wsr Hr.
  pose proof (member_step k b v w1 w2 w3 t w4 125 rest Hk Hw1 Hw2 Hw3 IH Hw4 (or_intror eq_refl) r acc Hr) as Hm.
  cbn [settle_list]. destruct (settle (allow_dup F) v) as [v'|]; [|exact Hm].
  destruct Hm as (f0 & Hf). exists (S f0), (mkR rest None). split; [reflexivity|].
  intros [|f] Hle; [lia|]. rewrite Hf by lia. cbn [rev]. reflexivity.
Qed.

Lemma C_mcons : forall k b v w1 w2 w3 t w4 l ts,
  jstr k b -> ws w1 -> ws w2 -> ws w3 -> P_val v t -> ws w4 -> P_members l ts ->
  P_members ((k, v) :: l) (w1 ++ 34 :: b ++ 34 :: w2 ++ 58 :: w3 ++ t ++ w4 ++ 44 :: ts).
Proof.
  intros k b v w1 w2 w3 t w4 l ts Hk Hw1 Hw2 Hw3 IH Hw4 IHl r rest acc Hr.
  nsrc Hr. wsr Hr.
  pose proof (member_step k b v w1 w2 w3 t w4 44 (asrc ts ++ 125 :: rest) Hk Hw1 Hw2 Hw3 IH Hw4 (or_introl eq_refl) r acc Hr) as Hm.
  cbn [settle_list]. destruct (settle (allow_dup F) v) as [v'|]; [|exact Hm].
  destruct Hm as (f0 & Hf). change (44 =? 125) with false in Hf. cbv iota in Hf.
  specialize (IHl (mkR (asrc ts ++ 125 :: rest) None) rest ((k, v') :: acc) (at_none _)).
  destruct (settle_list (allow_dup F) l) as [l'|].
  - destruct IHl as (f1 & r'' & Hat & Hf1). exists (S (max f0 f1)), r''. split; auto.
    intros [|f] Hle; [lia|]. rewrite Hf by lia. rewrite Hf1 by lia. cbn [rev]. rewrite <- app_assoc. reflexivity.
  - destruct IHl as (f1 & Hf1). exists (S (max f0 f1)). intros [|f] Hle; [lia|].
    rewrite Hf by lia. apply Hf1. lia.
Qed.

Lemma string_value_plain : forall s, s <> word_inf -> s <> word_neg_inf -> string_value s = VStr None s.
Proof.
  intros s H1 H2. unfold string_value.
  rewrite (proj2 (beqb_neq s inf_word)), (proj2 (beqb_neq s neg_inf_word)); auto.
Qed.

Lemma parse_complete_any : forall v t, jval N v t -> P_val v t.
Proof.
  apply (jval_mind N (fun v t _ => P_val v t) (fun l t _ => P_elems l t) (fun l t _ => P_members l t)).
  - exact C_null.
  - exact C_true.
  - exact C_false.
  - exact N_read.
  - intros s b Hb H1 H2. apply C_lit with s; auto. apply string_value_plain; auto.
  - intros b Hb. apply C_lit with word_inf; auto.
  - intros b Hb. apply C_lit with word_neg_inf; auto.
  - exact C_arr0.
  - exact C_arr.
  - exact C_obj0.
  - exact C_obj.
  - intros. apply C_one; auto.
  - intros. apply C_cons; auto.
  - intros. apply C_mone; auto.
  - intros. apply C_mcons; auto.
Qed.
End Complete.

Lemma int_literal_starts : forall n t, int_literal n t -> exists c t', t = c :: t' /\ 33 <= c < 128 /\ c <> 93 /\ c <> 125.
Proof.
  intros n t Hn.
  destruct Hn as [ds H H0 H1|ds H H0 H1]; [|do 2 eexists; split; [reflexivity|lia]].
  - destruct ds as [|c ds]; [congruence|]. pose proof (Forall_inv H0) as Hc. unfold digit_char in Hc.
    do 2 eexists; split; [reflexivity|lia].
Qed.

Lemma parse_complete : forall L F sg, precise F = false ->
  forall v t, jval int_literal v t -> P_val L F sg v t.
Proof.
  intros L F sg HF. apply parse_complete_any; [exact int_literal_starts|].
  intros n t [ds H1 H2 H3|ds H1 H2 H3]; [apply C_uint|apply C_int]; auto.
Qed.
