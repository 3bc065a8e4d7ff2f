(** Proofs for C78: a source delivering [char]s and one delivering bytes. *)
From Coq Require Import ZArith List Lia Bool ZifyBool.
From Verif Require Import Base ModelUtf8 SpecUtf8 ModelKeyed ModelValue ModelText ModelStreams SpecSources.
Import ListNotations.
Local Open Scope Z_scope.
Ltac Zify.zify_post_hook ::= Z.div_mod_to_equations.

Definition D (c : Z) : Prop := -1 <= c < 248.

Lemma schar_eqb : forall c k, D c -> -1 <= k < 128 -> (schar c =? k) = (c =? k).
Proof. unfold D, schar. intros. destruct (c <? 128) eqn:E; lia. Qed.
Lemma isdigit_s : forall c, D c -> isdigit (schar c) = isdigit c.
Proof. unfold D, schar, isdigit. intros. destruct (c <? 128) eqn:E; lia. Qed.
Lemma schar_digit : forall c, isdigit c = true -> schar c = c.
Proof. unfold schar, isdigit. intros. destruct (c <? 128) eqn:E; lia. Qed.
Lemma is_e_s : forall c, D c -> is_e (schar c) = is_e c.
Proof. intros. unfold is_e. rewrite !schar_eqb by (assumption || lia). reflexivity. Qed.
Lemma to_byte_s : forall c, to_byte (schar c) = to_byte c.
Proof.
  intros c. unfold schar, to_byte. destruct (c <? 128); [reflexivity|].
  replace (c - 256) with (c + (-1) * 256) by lia. apply Z_mod_plus_full.
Qed.
Lemma char_of_s : forall c, char_of (schar c) = char_of c.
Proof. intros. unfold char_of. rewrite to_byte_s. reflexivity. Qed.
Lemma hex_val_s : forall c, D c -> hex_val (schar c) = hex_val c.
Proof.
  intros c H. unfold hex_val. rewrite isdigit_s by assumption.
  destruct (isdigit c) eqn:E; [rewrite schar_digit by assumption; reflexivity|].
  unfold schar, D in *. destruct (c <? 128) eqn:E1; [reflexivity|].
  destruct ((65 <=? c - 256) && (c - 256 <=? 70)) eqn:E2; [lia|].
  destruct ((97 <=? c - 256) && (c - 256 <=? 102)) eqn:E3; [lia|].
  destruct ((65 <=? c) && (c <=? 70)) eqn:E4; [lia|].
  destruct ((97 <=? c) && (c <=? 102)) eqn:E5; [lia|reflexivity].
Qed.
Lemma escape_s : forall c, D c -> simple_escape (schar c) = simple_escape c.
Proof.
  intros c H. unfold simple_escape. rewrite !schar_eqb by (assumption || lia).
  destruct ((c =? 34) || (c =? 92) || (c =? 47)) eqn:E; [|reflexivity].
  unfold schar. destruct (c <? 128) eqn:E1; [reflexivity|lia].
Qed.

Definition masks : list Z := [0xC0; 0xE0; 0xF0; 0xF8; 0x3F; 0x1F; 0x0F; 0x07].
Lemma land_sweep : forallb (fun n => forallb (fun m => Z.land (Z.of_nat n - 256) m =? Z.land (Z.of_nat n) m) masks) (seq 0 256) = true.
Proof. vm_compute. reflexivity. Qed.
Lemma land_s : forall c m, 0 <= c < 256 -> In m masks -> Z.land (c - 256) m = Z.land c m.
Proof.
  intros c m H Hm. pose proof land_sweep as P. rewrite forallb_forall in P.
  specialize (P (Z.to_nat c) ltac:(apply in_seq; lia)). rewrite forallb_forall in P. specialize (P m Hm).
  rewrite Z2Nat.id in P by lia. lia.
Qed.
Lemma last_sweep : forallb (fun n => let c := Z.of_nat n in
  (Z.land c 0xC0 =? 0x80) || (Z.land c 0xE0 =? 0xC0) || (Z.land c 0xF0 =? 0xE0) || (Z.land c 0xF8 =? 0xF0)) (seq 128 120) = true.
Proof. vm_compute. reflexivity. Qed.
Lemma step_s : forall st c, D c -> utf8_step st (schar c) = utf8_step st c.
Proof.
  intros st c H. unfold schar. destruct (c <? 128) eqn:E; [reflexivity|].
  assert (R : 0 <= c < 256) by (unfold D in H; lia).
  pose proof last_sweep as P. rewrite forallb_forall in P. specialize (P (Z.to_nat c) ltac:(apply in_seq; unfold D in H; lia)).
  cbv zeta in P. rewrite Z2Nat.id in P by lia.
  unfold utf8_step. rewrite !(land_s c) by (assumption || (unfold masks; cbn [In]; tauto)).
  destruct (Z.land c 0xC0 =? 0x80); [reflexivity|]. destruct (Z.land c 0xE0 =? 0xC0); [reflexivity|].
  destruct (Z.land c 0xF0 =? 0xE0); [reflexivity|]. destruct (Z.land c 0xF8 =? 0xF0); [reflexivity|]. discriminate.
Qed.

(** *** Readers *)
Notation ms := (map schar).
Definition hr (r : reader) : reader := mkR (ms (src r)) (option_map schar (cur r)).
Definition okr (r : reader) : Prop := Forall D (src r) /\ match cur r with Some c => D c | None => True end.

Lemma D_eof : D (-1).
Proof. unfold D. lia. Qed.
Lemma pull_s : forall s c s', Forall D s -> pull s = (c, s') -> pull (ms s) = (schar c, ms s') /\ D c /\ Forall D s'.
Proof.
  intros [|x s] c s' H; cbn [pull map]; intros E; injection E as <- <-.
  - split; [reflexivity|]. split; [exact D_eof|constructor].
  - inversion H; subst. auto.
Qed.
Lemma next_s : forall r c r', okr r -> next r = (c, r') -> next (hr r) = (schar c, hr r') /\ D c /\ okr r' /\ cur r' = Some c.
Proof.
  intros [s [x|]] c r' [H1 H2]; unfold next, hr; cbn [cur src option_map] in *.
  - intros E; injection E as <- <-. unfold okr. cbn [cur src]. auto.
  - destruct (pull s) as [y t] eqn:P. destruct (pull_s _ _ _ H1 P) as (-> & Hy & Ht). intros E; injection E as <- <-.
    unfold okr. cbn [cur src option_map]. auto.
Qed.
Lemma next_commit_s : forall r c r', okr r -> next_commit r = (c, r') -> next_commit (hr r) = (schar c, hr r') /\ D c /\ okr r'.
Proof.
  intros [s [x|]] c r' [H1 H2]; unfold next_commit, hr; cbn [cur src option_map] in *.
  - intros E; injection E as <- <-. unfold okr. cbn [cur src]. auto.
  - destruct (pull s) as [y t] eqn:P. destruct (pull_s _ _ _ H1 P) as (-> & Hy & Ht). intros E; injection E as <- <-.
    unfold okr. cbn [cur src option_map]. auto.
Qed.
Lemma commit_s : forall r, okr r -> hr (commit r) = commit (hr r) /\ okr (commit r).
Proof. intros [s c] [H1 H2]. unfold okr, hr, commit. cbn [src cur option_map] in *. auto. Qed.

Lemma skip_ws_s : forall s c c' s', Forall D s -> D c -> skip_ws c s = (c', s') ->
  skip_ws (schar c) (ms s) = (schar c', ms s') /\ D c' /\ Forall D s'.
Proof.
  induction s as [|x s IH]; intros c c' s' H Hc; cbn [skip_ws map]; rewrite char_of_s; destruct (isspace (char_of c)); intros E.
  - injection E as <- <-. split; [reflexivity|]. split; [exact D_eof|constructor].
  - injection E as <- <-. auto.
  - inversion H; subst. apply IH; assumption.
  - injection E as <- <-. auto.
Qed.
Lemma next_ws_s : forall r c r', okr r -> next_ws r = (c, r') -> next_ws (hr r) = (c, hr r') /\ okr r'.
Proof.
  intros r c r' H. unfold next_ws. destruct (next r) as [x r1] eqn:E. destruct (next_s _ _ _ H E) as (-> & Hx & (H1 & _) & _).
  destruct (skip_ws x (src r1)) as [y t] eqn:K. destruct (skip_ws_s _ _ _ _ H1 Hx K) as (K' & Hy & Ht).
  intros Q; injection Q as <- <-. cbn [src hr]. rewrite K'. rewrite char_of_s. unfold okr, hr. cbn [src cur option_map]. auto.
Qed.

(** *** Results *)
Definition sim {A} (x y : res (A * reader)) : Prop :=
  match x, y with
  | Ok (a, r), Ok (b, r') => a = b /\ r' = hr r /\ okr r
  | Err, Err => True
  | Fuel, Fuel => True
  | _, _ => False
  end.
Lemma sim_bind : forall A B (x y : res (A * reader)) (f g : A * reader -> res (B * reader)),
  sim x y -> (forall a r, okr r -> sim (f (a, r)) (g (a, hr r))) -> sim (bind x f) (bind y g).
Proof.
  intros A B x y f g H K. destruct x as [[a r]| |], y as [[b r']| |]; cbn [sim bind] in *; try contradiction; try exact I.
  destruct H as (<- & -> & H). apply K; assumption.
Qed.
Lemma sim_ok : forall A (a : A) r, okr r -> sim (Ok (a, r)) (Ok (a, hr r)).
Proof. intros. cbn. auto. Qed.

Lemma read_string_s : forall n s st acc, (length s <= n)%nat -> Forall D s ->
  match read_string st acc s, read_string st acc (ms s) with
  | Ok (a, t), Ok (b, t') => a = b /\ t' = ms t /\ Forall D t
  | Err, Err => True
  | Fuel, Fuel => True
  | _, _ => False
  end.
Proof.
  induction n as [|n IH]; intros s st acc Hn H; (destruct s as [|c s]; [exact I|]); [cbn in Hn; lia|].
  inversion H as [|? ? Hc Hs]; subst. cbn [length] in Hn. cbn [read_string map].
  rewrite !schar_eqb by (assumption || lia). rewrite (step_s st c) by assumption.
  destruct (c =? -1); [exact I|]. destruct (c =? 34); [auto|]. destruct (c =? 92).
  - destruct s as [|e s]; [exact I|]. inversion Hs as [|? ? He Hs']; subst. cbn [length] in Hn. cbn [map]. rewrite escape_s by assumption.
    destruct (simple_escape e); [apply IH; [lia|assumption]|]. rewrite schar_eqb by (assumption || lia). destruct (e =? 117); [|exact I].
    destruct s as [|h1 [|h2 [|h3 [|h4 s]]]]; try exact I. cbn [map length] in *.
    repeat match goal with X : Forall D (_ :: _) |- _ => inversion X; clear X; subst end.
    unfold unicode4. rewrite !hex_val_s by assumption. apply IH; [lia|assumption].
  - destruct (utf8_step st c) as [st1 ws]. apply IH; [lia|assumption].
Qed.
Lemma read_string_r_s : forall r, okr r -> sim (read_string_r r) (read_string_r (hr r)).
Proof.
  intros r (H1 & H2). unfold read_string_r. cbn [src hr]. pose proof (read_string_s _ (src r) u_init [] (le_n _) H1) as P.
  destruct (read_string u_init [] (src r)) as [[a t]| |], (read_string u_init [] (ms (src r))) as [[b t']| |]; cbn [bind sim] in *; try contradiction; try exact I.
  destruct P as (<- & -> & P). split; [reflexivity|]. split; [reflexivity|]. split; assumption.
Qed.
Lemma check_rest_s : forall str s, Forall (fun k => 0 <= k < 128) str -> Forall D s ->
  match check_rest str s, check_rest str (ms s) with
  | Ok t, Ok t' => t' = ms t /\ Forall D t
  | Err, Err => True
  | Fuel, Fuel => True
  | _, _ => False
  end.
Proof.
  induction str as [|k str IH]; intros s Hk H; cbn [check_rest]; [auto|]. inversion Hk; subst.
  destruct (pull s) as [c t] eqn:P. destruct (pull_s _ _ _ H P) as (-> & Hc & Ht). rewrite schar_eqb by (assumption || lia).
  destruct (c =? k); [|exact I]. apply IH; assumption.
Qed.
Lemma check_string_s : forall str r v, Forall (fun k => 0 <= k < 128) str -> okr r ->
  sim (bind (check_string str r) (fun r2 => Ok (v : value, r2))) (bind (check_string str (hr r)) (fun r2 => Ok (v, r2))).
Proof.
  intros [|k str] r v Hk H; [exact I|]. inversion Hk; subst. unfold check_string. destruct (next r) as [c r1] eqn:E.
  destruct (next_s _ _ _ H E) as (-> & Hc & (H1 & _) & _). rewrite schar_eqb by (assumption || lia). destruct (c =? k); [|exact I].
  cbn [src hr]. pose proof (check_rest_s str (src r1) ltac:(assumption) H1) as P.
  destruct (check_rest str (src r1)) as [t| |], (check_rest str (ms (src r1))) as [t'| |]; cbn [bind sim] in *; try contradiction; try exact I.
  destruct P as (-> & P). unfold okr, hr. cbn [src cur option_map]. auto.
Qed.

(** *** Numbers *)
Lemma read_sign_s : forall r b r', okr r -> read_sign r = (b, r') -> read_sign (hr r) = (b, hr r') /\ okr r'.
Proof.
  intros r b r' H. unfold read_sign. destruct (next r) as [c r1] eqn:E. destruct (next_s _ _ _ H E) as (-> & Hc & H1 & _).
  rewrite !schar_eqb by (assumption || lia). destruct (commit_s _ H1) as (<- & H2).
  destruct (c =? 45); [intros Q; injection Q as <- <-; auto|]. destruct (c =? 43); intros Q; injection Q as <- <-; auto.
Qed.
Lemma pu_loop_s : forall s acc cnt c ok v n c' s', Forall D s -> D c -> pu_loop acc cnt c s = (ok, v, n, c', s') ->
  pu_loop acc cnt (schar c) (ms s) = (ok, v, n, schar c', ms s') /\ D c' /\ Forall D s'.
Proof.
  induction s as [|x s IH]; intros acc cnt c ok v n c' s' H Hc; cbn [pu_loop map]; rewrite isdigit_s by assumption;
    (destruct (isdigit c) eqn:Ed; [rewrite (schar_digit c Ed)|intros Q; injection Q as <- <- <- <- <-; auto]);
    (destruct (overflow_detection <? acc); [intros Q; injection Q as <- <- <- <- <-; rewrite (schar_digit c Ed); auto|]);
    cbv zeta; (destruct (u64 (acc * 10 + (c - 48)) <? acc); [intros Q; injection Q as <- <- <- <- <-; rewrite (schar_digit c Ed); auto|]).
  - intros Q; injection Q as <- <- <- <- <-. split; [reflexivity|]. split; [exact D_eof|constructor].
  - inversion H; subst. apply IH; assumption.
Qed.
Lemma parse_unsigned_s : forall r ok v n r', okr r -> parse_unsigned r = (ok, v, n, r') -> parse_unsigned (hr r) = (ok, v, n, hr r') /\ okr r'.
Proof.
  intros r ok v n r' H. unfold parse_unsigned. destruct (next r) as [c r1] eqn:E. destruct (next_s _ _ _ H E) as (-> & Hc & (H1 & _) & _).
  destruct (pu_loop 0 0 c (src r1)) as [[[[a b] d] c'] s'] eqn:P. destruct (pu_loop_s _ _ _ _ _ _ _ _ _ H1 Hc P) as (P' & Hc' & Hs').
  cbn [src hr]. rewrite P'. intros Q; injection Q as <- <- <- <-. unfold okr, hr. cbn [src cur option_map]. auto.
Qed.
Lemma parse_large_s : forall L fuel d r, okr r -> sim (parse_large L fuel d r) (parse_large L fuel d (hr r)).
Proof.
  intros L. induction fuel as [|f IH]; intros d r H; [exact I|]. cbn [parse_large]. destruct (next r) as [c r1] eqn:E.
  destruct (next_s _ _ _ H E) as (-> & Hc & H1 & _). rewrite isdigit_s by assumption. destruct (isdigit c); [|apply sim_ok; assumption].
  destruct (parse_unsigned r1) as [[[a part] cnt] r2] eqn:P. destruct (parse_unsigned_s _ _ _ _ _ H1 P) as (-> & H2). cbv zeta.
  destruct (f_isinf _); [exact I|]. apply IH; assumption.
Qed.
Lemma decimal_loop_s : forall s d pos c d' n c' s', Forall D s -> D c -> decimal_loop d pos c s = (d', n, c', s') ->
  decimal_loop d pos (schar c) (ms s) = (d', n, schar c', ms s') /\ D c' /\ Forall D s'.
Proof.
  induction s as [|x s IH]; intros d pos c d' n c' s' H Hc; cbn [decimal_loop map]; rewrite isdigit_s by assumption;
    (destruct (isdigit c) eqn:Ed; [rewrite (schar_digit c Ed)|intros Q; injection Q as <- <- <- <-; auto]); cbv zeta.
  - intros Q; injection Q as <- <- <- <-. split; [reflexivity|]. split; [exact D_eof|constructor].
  - inversion H; subst. apply IH; assumption.
Qed.
Lemma parse_decimal_s : forall L r d r', okr r -> parse_decimal L r = (d, r') -> parse_decimal L (hr r) = (d, hr r') /\ okr r'.
Proof.
  intros L r d r' H. unfold parse_decimal. destruct (next r) as [c r1] eqn:E. destruct (next_s _ _ _ H E) as (-> & Hc & (H1 & _) & _).
  destruct (decimal_loop (S754_zero false) 0 c (src r1)) as [[[a n] c'] s'] eqn:P. destruct (decimal_loop_s _ _ _ _ _ _ _ _ H1 Hc P) as (P' & Hc' & Hs').
  cbn [src hr]. rewrite P'. intros Q; injection Q as <- <-. unfold okr, hr. cbn [src cur option_map]. auto.
Qed.
Lemma large_fuel_s : forall r, large_fuel (hr r) = large_fuel r.
Proof. intros r. unfold large_fuel. cbn [src hr]. rewrite map_length. reflexivity. Qed.
Lemma parse_double_s : forall L i neg r, okr r -> sim (parse_double L i neg r) (parse_double L i neg (hr r)).
Proof.
  intros L i neg r H. unfold parse_double. rewrite large_fuel_s. apply sim_bind; [apply parse_large_s; assumption|]. clear r H. intros d0 r0 H.
  destruct (next r0) as [c r1] eqn:E. destruct (next_s _ _ _ H E) as (-> & Hc & H1 & _). rewrite schar_eqb by (assumption || lia).
  apply sim_bind.
  - destruct (c =? 46); [|apply sim_ok; assumption]. destruct (commit_s _ H1) as (<- & H2).
    destruct (next (commit r1)) as [c1 r1'] eqn:E1. destruct (next_s _ _ _ H2 E1) as (-> & Hc1 & H3 & _). rewrite isdigit_s by assumption.
    destruct (isdigit c1); [|exact I]. destruct (parse_decimal L r1') as [fr r1''] eqn:P. destruct (parse_decimal_s _ _ _ _ H3 P) as (-> & H4). apply sim_ok; assumption.
  - clear r0 c r1 H E Hc H1. intros d1 r2 H. destruct (next r2) as [c2 r3] eqn:E. destruct (next_s _ _ _ H E) as (-> & Hc & H1 & _).
    rewrite is_e_s by assumption. apply sim_bind.
    + destruct (is_e c2); [|apply sim_ok; assumption]. destruct (commit_s _ H1) as (<- & H2).
      destruct (read_sign (commit r3)) as [ng r5] eqn:P. destruct (read_sign_s _ _ _ H2 P) as (-> & H3).
      destruct (next r5) as [c3 r6] eqn:E1. destruct (next_s _ _ _ H3 E1) as (-> & Hc3 & H4 & _). rewrite isdigit_s by assumption.
      destruct (isdigit c3); [|exact I]. destruct (parse_unsigned r6) as [[[ok ex] n] r7] eqn:U. destruct (parse_unsigned_s _ _ _ _ _ H4 U) as (-> & H5).
      destruct ok; [apply sim_ok; assumption|exact I].
    + intros d2 r4 H4. apply sim_ok; assumption.
Qed.
Lemma digit_run_s : forall s c ds c' s', Forall D s -> D c -> digit_run c s = (ds, c', s') ->
  digit_run (schar c) (ms s) = (ds, schar c', ms s') /\ D c' /\ Forall D s'.
Proof.
  induction s as [|x s IH]; intros c ds c' s' H Hc; cbn [digit_run map]; rewrite isdigit_s by assumption;
    (destruct (isdigit c) eqn:Ed; [rewrite (schar_digit c Ed)|intros Q; injection Q as <- <- <-; auto]).
  - intros Q; injection Q as <- <- <-. split; [reflexivity|]. split; [exact D_eof|constructor].
  - inversion H; subst. destruct (digit_run x s) as [[a b] t] eqn:P. destruct (IH x a b t ltac:(assumption) ltac:(assumption) P) as (-> & Hb & Ht).
    intros Q; injection Q as <- <- <-. auto.
Qed.
Lemma parse_precise_s : forall r, okr r -> sim (parse_precise r) (parse_precise (hr r)).
Proof.
  intros r H. unfold parse_precise. destruct (next_commit r) as [c0 r0] eqn:E. destruct (next_commit_s _ _ _ H E) as (-> & Hc0 & (H1 & _)).
  rewrite !schar_eqb by (assumption || lia). rewrite to_byte_s. cbn [src hr].
  set (P := if (c0 =? 43) || (c0 =? 45) then _ else _).
  set (P' := if (c0 =? 43) || (c0 =? 45) then let '(c, s) := pull (ms (src r0)) in _ else _).
  assert (A : exists g c s, P = (g, c, s) /\ P' = (g, schar c, ms s) /\ D c /\ Forall D s).
  { subst P P'. destruct ((c0 =? 43) || (c0 =? 45)); [|exists [], c0, (src r0); auto]. destruct (pull (src r0)) as [c s] eqn:Q.
    destruct (pull_s _ _ _ H1 Q) as (-> & Hc & Hs). exists [to_byte c0], c, s. auto. }
  destruct A as (sgn & c1 & s1 & -> & -> & Hc1 & Hs1). rewrite isdigit_s by assumption. destruct (isdigit c1); [|exact I].
  destruct (digit_run c1 s1) as [[ip c2] s2] eqn:R. destruct (digit_run_s _ _ _ _ _ Hs1 Hc1 R) as (-> & Hc2 & Hs2).
  rewrite !schar_eqb by (assumption || lia).
  set (P := if c2 =? 46 then _ else _). set (P' := if c2 =? 46 then let '(c, s) := pull (ms s2) in _ else _).
  assert (A : exists g b c s, P = (g, b, c, s) /\ P' = (g, b, schar c, ms s) /\ D c /\ Forall D s).
  { subst P P'. destruct (c2 =? 46); [|exists [], false, c2, s2; auto]. destruct (pull s2) as [c s] eqn:Q.
    destruct (pull_s _ _ _ Hs2 Q) as (-> & Hc & Hs). destruct (digit_run c s) as [[ds c'] s'] eqn:R'.
    destruct (digit_run_s _ _ _ _ _ Hs Hc R') as (-> & Hc' & Hs'). exists (46 :: ds), true, c', s'. auto. }
  destruct A as (fp & isf & c3 & s3 & -> & -> & Hc3 & Hs3). rewrite is_e_s by assumption. rewrite to_byte_s.
  destruct (is_e c3); [|apply (sim_ok _ _ (mkR s3 (Some c3))); split; assumption].
  destruct (pull s3) as [c4 s4] eqn:Q. destruct (pull_s _ _ _ Hs3 Q) as (-> & Hc4 & Hs4).
  rewrite !schar_eqb by (assumption || lia). rewrite to_byte_s.
  set (P := if (c4 =? 43) || (c4 =? 45) then _ else _).
  set (P' := if (c4 =? 43) || (c4 =? 45) then let '(c, s) := pull (ms s4) in _ else _).
  assert (A : exists g c s, P = (g, c, s) /\ P' = (g, schar c, ms s) /\ D c /\ Forall D s).
  { subst P P'. destruct ((c4 =? 43) || (c4 =? 45)); [|exists [], c4, s4; auto]. destruct (pull s4) as [c s] eqn:Q'.
    destruct (pull_s _ _ _ Hs4 Q') as (-> & Hc & Hs). exists [to_byte c4], c, s. auto. }
  destruct A as (es & c5 & s5 & -> & -> & Hc5 & Hs5). rewrite isdigit_s by assumption. destruct (isdigit c5); [|exact I].
  destruct (digit_run c5 s5) as [[ed c6] s6] eqn:R'. destruct (digit_run_s _ _ _ _ _ Hs5 Hc5 R') as (-> & Hc6 & Hs6).
  apply (sim_ok _ _ (mkR s6 (Some c6))). split; assumption.
Qed.
Lemma parse_number_s : forall L F r, okr r -> sim (parse_number L F r) (parse_number L F (hr r)).
Proof.
  intros L F r H. unfold parse_number. destruct (precise F).
  - apply sim_bind; [apply parse_precise_s; assumption|]. intros [t isf] r1 H1. apply sim_ok; assumption.
  - destruct (read_sign r) as [ng r1] eqn:P. destruct (read_sign_s _ _ _ H P) as (-> & H1).
    destruct (next r1) as [c r2] eqn:E. destruct (next_s _ _ _ H1 E) as (-> & Hc & H2 & _). rewrite isdigit_s, schar_eqb by (assumption || lia).
    destruct (negb (isdigit c) && negb (c =? 46)); [exact I|].
    destruct (parse_unsigned r2) as [[[ok i] n] r3] eqn:U. destruct (parse_unsigned_s _ _ _ _ _ H2 U) as (-> & H3).
    destruct (next r3) as [c3 r4] eqn:E3. destruct (next_s _ _ _ H3 E3) as (-> & Hc3 & H4 & _). rewrite is_e_s, schar_eqb by (assumption || lia).
    destruct (negb ok || (c3 =? 46) || is_e c3); [apply parse_double_s; assumption|].
    destruct ng; [destruct (Z.testbit i 63)|]; apply sim_ok; assumption.
Qed.

(** *** Documents *)
Lemma low_true : Forall (fun k => 0 <= k < 128) str_true. Proof. repeat constructor; lia. Qed.
Lemma low_false : Forall (fun k => 0 <= k < 128) str_false. Proof. repeat constructor; lia. Qed.
Lemma low_null : Forall (fun k => 0 <= k < 128) str_null. Proof. repeat constructor; lia. Qed.

Lemma parse_s : forall L F fuel,
  (forall r, okr r -> sim (parse L F fuel r) (parse L F fuel (hr r))) /\
  (forall c r acc, okr r -> sim (parse_obj L F fuel c r acc) (parse_obj L F fuel c (hr r) acc)) /\
  (forall r acc, okr r -> sim (parse_arr L F fuel r acc) (parse_arr L F fuel (hr r) acc)).
Proof.
  intros L F. induction fuel as [|f (IH1 & IH2 & IH3)]; [repeat split; intros; exact I|]. repeat split.
  - intros r H. cbn [parse]. destruct (next_ws r) as [c r1] eqn:E. destruct (next_ws_s _ _ _ H E) as (-> & H1).
    destruct (commit_s _ H1) as (<- & H1c).
    destruct (c =? 123); [|destruct (c =? 91)].
    + destruct (next_ws (commit r1)) as [c1 r2] eqn:E1. destruct (next_ws_s _ _ _ H1c E1) as (-> & H2). destruct (commit_s _ H2) as (<- & H2c).
      destruct (c1 =? 125); [apply sim_ok; assumption|apply IH2; assumption].
    + destruct (next_ws (commit r1)) as [c1 r2] eqn:E1. destruct (next_ws_s _ _ _ H1c E1) as (-> & H2). destruct (commit_s _ H2) as (<- & H2c).
      destruct (c1 =? 93); [apply sim_ok; assumption|apply IH3; assumption].
    + destruct (c =? 34); [apply sim_bind; [apply read_string_r_s; assumption|intros; apply sim_ok; assumption]|].
      destruct (c =? 116); [apply check_string_s; [exact low_true|assumption]|].
      destruct (c =? 102); [apply check_string_s; [exact low_false|assumption]|].
      destruct (c =? 110); [apply check_string_s; [exact low_null|assumption]|].
      destruct (isdigit c || (c =? 43) || (c =? 45) || (c =? 46)); [apply parse_number_s; assumption|exact I].
  - intros c r acc H. cbn [parse_obj]. destruct (c =? 34); [|exact I]. destruct (commit_s _ H) as (<- & Hc).
    apply sim_bind; [apply read_string_r_s; assumption|]. intros name r1 H1. destruct (next_ws r1) as [c1 r2] eqn:E1.
    destruct (next_ws_s _ _ _ H1 E1) as (-> & H2). destruct (c1 =? 58); [|exact I]. destruct (commit_s _ H2) as (<- & H2c).
    apply sim_bind; [apply IH1; assumption|]. intros v r3 H3. destruct (next_ws r3) as [c2 r4] eqn:E2.
    destruct (next_ws_s _ _ _ H3 E2) as (-> & H4). cbv zeta. destruct (commit_s _ H4) as (<- & H4c). destruct (c2 =? 125).
    + destruct (finish_object F (rev ((name, v) :: acc))); cbn [bind]; [apply sim_ok; assumption|exact I|exact I].
    + destruct (c2 =? 44); [|exact I]. destruct (next_ws (commit r4)) as [c3 r6] eqn:E3. destruct (next_ws_s _ _ _ H4c E3) as (-> & H6). apply IH2; assumption.
  - intros r acc H. cbn [parse_arr]. apply sim_bind; [apply IH1; assumption|]. intros v r1 H1. destruct (next_ws r1) as [c r2] eqn:E.
    destruct (next_ws_s _ _ _ H1 E) as (-> & H2). cbv zeta. destruct (commit_s _ H2) as (<- & H2c).
    destruct (c =? 93); [apply sim_ok; assumption|]. destruct (c =? 44); [apply IH3; assumption|exact I].
Qed.

Lemma sources_agree : forall L F s, low_text s ->
  from_string L F s = parse_bytes L F s /\ from_stream L F s = parse_bytes L F s.
Proof.
  intros L F s H. assert (E : from_string L F s = parse_bytes L F s); [|split; exact E].
  unfold from_string, parse_bytes, parse_source. rewrite map_length.
  assert (K : okr (mkR s None)) by (split; [|exact I]; eapply Forall_impl; [|exact H]; unfold D, low_byte; cbn; intros; lia).
  pose proof (proj1 (parse_s L F (S (2 * length s))) _ K) as P. unfold hr in P at 1. cbn [src cur option_map] in P.
  destruct (parse L F (S (2 * length s)) (mkR s None)) as [[v r]| |],
    (parse L F (S (2 * length s)) (mkR (ms s) None)) as [[v' r']| |]; cbn [bind sim fst] in *; try contradiction; try reflexivity.
  destruct P as (-> & _). reflexivity.
Qed.

Lemma utf8_low : forall s, valid_utf8 s -> low_text s.
Proof.
  intros s (cs & H & ->). induction H as [|c cs Hc _ IH]; [constructor|]. cbn [utf8_encode flat_map]. apply Forall_app. split; [|exact IH].
  unfold is_cp in Hc. unfold utf8_bytes, low_byte.
  repeat match goal with |- context[if ?b then _ else _] => destruct b eqn:? end; repeat constructor; lia.
Qed.

Lemma differ_sweep : forallb (fun n => let c := Z.of_nat n in
  match read_string u_init [] [c; 34], read_string u_init [] (ms [c; 34]) with
  | Ok (s, []), Ok (t, []) => negb (beqb s inf_word) && negb (beqb s neg_inf_word) && negb (beqb s t) && negb (beqb t inf_word) && negb (beqb t neg_inf_word)
  | Ok (s, []), Err => negb (beqb s inf_word) && negb (beqb s neg_inf_word)
  | _, _ => false
  end) (seq 248 8) = true.
Proof. vm_compute. reflexivity. Qed.
Lemma parse_quoted : forall L F x, bind (parse_source L F [34; x; 34]) (fun p => let '(v, _) := p in Ok v) =
  bind (read_string u_init [] [x; 34]) (fun p => Ok (string_value (fst p))).
Proof.
  intros L F x. unfold parse_source. cbn -[read_string string_value]. unfold read_string_r, commit. cbn [src cur].
  destruct (read_string u_init [] [x; 34]) as [[? ?]| |]; reflexivity.
Qed.
Lemma sources_differ : forall L F c, 248 <= c < 256 ->
  exists s, parse_bytes L F [34; c; 34] = Ok (VStr None s) /\ from_string L F [34; c; 34] <> Ok (VStr None s).
Proof.
  intros L F c H. pose proof differ_sweep as P. rewrite forallb_forall in P. specialize (P (Z.to_nat c) ltac:(apply in_seq; lia)).
  cbv zeta in P. rewrite Z2Nat.id in P by lia. change (ms [c; 34]) with [schar c; 34] in P.
  assert (A : parse_bytes L F [34; c; 34] = bind (read_string u_init [] [c; 34]) (fun p => Ok (string_value (fst p)))) by apply parse_quoted.
  assert (B : from_string L F [34; c; 34] = bind (read_string u_init [] [schar c; 34]) (fun p => Ok (string_value (fst p)))) by apply parse_quoted.
  rewrite A, B. clear A B.
  destruct (read_string u_init [] [c; 34]) as [[s [|? ?]]| |]; try discriminate.
  exists s. unfold string_value. cbn [bind fst].
  destruct (read_string u_init [] [schar c; 34]) as [[t [|? ?]]| |]; try discriminate; cbn [bind fst].
  - destruct (beqb s inf_word); [discriminate|]. destruct (beqb s neg_inf_word); [discriminate|]. split; [reflexivity|].
    destruct (beqb s t) eqn:E; [discriminate|]. destruct (beqb t inf_word); [discriminate|]. destruct (beqb t neg_inf_word); [discriminate|].
    intros Q; injection Q as ->. rewrite beqb_refl in E. discriminate.
  - destruct (beqb s inf_word); [discriminate|]. destruct (beqb s neg_inf_word); [discriminate|]. split; [reflexivity|discriminate].
Qed.
