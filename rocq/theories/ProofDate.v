(** The date checks: scanning and ranges. *)
From Coq Require Import String Ascii Lia ZifyBool.
From Verif Require Import Base ModelRpc ModelDate SpecDate.
Local Open Scope Z_scope.
Local Open Scope list_scope.
Ltac Zify.zify_post_hook ::= Z.div_mod_to_equations.

Definition addd (n d : Z) : Z := u32 (n * 10 + (d - 48)).
Definition addds (n : Z) (ds : bytes) : Z := fold_left addd ds n.
Definition hasl (l : Z) (format : bytes) : bool := existsb (Z.eqb l) format.

(** The fields after a scan, ['o'] apart. *)
Definition scanned (format text : bytes) (f g : dfields) : Prop :=
  f_D g = addds (f_D f) (digits_at 68 format text) /\
  f_M g = addds (f_M f) (digits_at 77 format text) /\
  f_Y g = addds (f_Y f) (digits_at 89 format text) /\
  f_h g = addds (f_h f) (digits_at 104 format text) /\
  f_m g = addds (f_m f) (digits_at 109 format text) /\
  f_s g = addds (f_s f) (digits_at 115 format text) /\
  f_O g = addds (f_O f) (digits_at 79 format text) /\
  (hasl 111 format = false -> f_o g = f_o f) /\
  has_D g = has_D f || hasl 68 format /\
  has_M g = has_M f || hasl 77 format /\
  has_Y g = has_Y f || hasl 89 format.

Lemma letters_in : forall c, In c field_letters <->
  c = 68 \/ c = 77 \/ c = 89 \/ c = 104 \/ c = 109 \/ c = 115 \/ c = 99 \/ c = 79 \/ c = 111.
Proof. intros c. unfold field_letters. cbn. intuition congruence. Qed.
Lemma digit_is : forall d, is_digit d = true <-> digit d.
Proof. intros d. unfold is_digit, digit. lia. Qed.

Lemma date_char_some : forall c d f g, date_char c d f = Some g -> char_fits c d /\ scanned [c] [d] f g.
Proof.
  intros c d f g H. unfold char_fits. rewrite letters_in.
  assert (A : scanned [c] [d] f g /\ ((c = 68 \/ c = 77 \/ c = 89 \/ c = 104 \/ c = 109 \/ c = 115 \/ c = 99 \/ c = 79 \/ c = 111) /\ is_digit d = true \/
    c = 43 /\ (d = 43 \/ d = 45) \/ ~ (c = 68 \/ c = 77 \/ c = 89 \/ c = 104 \/ c = 109 \/ c = 115 \/ c = 99 \/ c = 79 \/ c = 111) /\ c <> 43 /\ d = c)).
  { destruct f as [D M Y h m s oh om hD hM hY]. unfold date_char in H.
    repeat match type of H with context [if ?b then _ else _] => destruct b eqn:?; try discriminate end;
    injection H as <-;
    (split; [unfold scanned, hasl, digits_at; cbn [existsb f_D f_M f_Y f_h f_m f_s f_O f_o has_D has_M has_Y]|]);
    try lia;
    try (match goal with E : (c =? ?k) = true |- _ => apply Z.eqb_eq in E; subst c end; cbn; rewrite ?orb_false_r, ?orb_true_r; repeat split; intros; solve [reflexivity|discriminate]).
    all: repeat match goal with E : (?x =? ?k) = false |- _ => rewrite ?E; rewrite Z.eqb_sym in E; rewrite ?E; clear E end.
    all: cbn [addds fold_left]; rewrite ?orb_false_r; repeat split. }
  destruct A as (S & A). split; [|exact S]. unfold is_digit, digit in *. lia.
Qed.
Lemma date_char_fits : forall c d f, char_fits c d -> exists g, date_char c d f = Some g.
Proof.
  intros c d f (A & B & C). rewrite letters_in in A, C. unfold digit in A. destruct f as [D M Y h m s oh om hD hM hY]. unfold date_char.
  destruct (is_digit d) eqn:Dg.
  - repeat match goal with |- exists g, (if ?b then _ else _) = _ => destruct b eqn:?; [try (eexists; reflexivity)|] end; exfalso; lia.
  - unfold is_digit in Dg. repeat match goal with |- exists g, (if ?b then _ else _) = _ => destruct b eqn:?; [try (eexists; reflexivity)|] end; exfalso; lia.
Qed.

Lemma scanned_cons : forall c d format text f g h, scanned [c] [d] f g -> scanned format text g h -> scanned (c :: format) (d :: text) f h.
Proof.
  intros c d format text f g h A B. unfold scanned in *. unfold hasl in *. cbn [existsb] in *.
  assert (Q : forall l n, addds n (digits_at l (c :: format) (d :: text)) = addds (addds n (digits_at l [c] [d])) (digits_at l format text)).
  { intros l n. cbn. destruct (c =? l); reflexivity. }
  rewrite !Q. destruct A as (A1 & A2 & A3 & A4 & A5 & A6 & A7 & A8 & A9 & A10 & A11).
  destruct B as (B1 & B2 & B3 & B4 & B5 & B6 & B7 & B8 & B9 & B10 & B11).
  rewrite <- A1, <- A2, <- A3, <- A4, <- A5, <- A6, <- A7. rewrite B9, B10, B11, A9, A10, A11.
  rewrite !orb_false_r, !orb_assoc. repeat split; try assumption.
  intros E. apply orb_false_iff in E as (E1 & E2). rewrite (B8 E2). apply A8. rewrite E1. reflexivity.
Qed.

Lemma date_scan_some : forall format text f g, date_scan format text f = Some g -> fits format text /\ scanned format text f g.
Proof.
  unfold fits. induction format as [|c format IH]; intros [|d text] f g H; cbn in H; try discriminate.
  - injection H as <-. split; [constructor|]. unfold scanned, hasl. cbn. rewrite !orb_false_r. repeat split.
  - destruct (date_char c d f) as [h|] eqn:E; [|discriminate]. apply date_char_some in E as (E1 & E2).
    apply IH in H as (H1 & H2). split; [constructor; assumption|]. eapply scanned_cons; eassumption.
Qed.
Lemma date_scan_fits : forall format text f, fits format text -> exists g, date_scan format text f = Some g.
Proof.
  intros format text f H. revert f. induction H as [|c d format text H F IH]; intros f; [eexists; reflexivity|].
  cbn. destruct (date_char_fits c d f H) as (g & ->). apply IH.
Qed.

(** *** Numbers without wraparound *)
Lemma digits_fit : forall l format text, fits format text -> In l field_letters -> Forall digit (digits_at l format text).
Proof.
  intros l format text H L. induction H as [|c d format text H F IH]; [constructor|]. cbn.
  destruct (c =? l) eqn:E; [|exact IH]. apply Z.eqb_eq in E. subst c. constructor; [apply H; exact L|exact IH].
Qed.
Lemma digits_count : forall l format text, fits format text -> List.length (digits_at l format text) = count_occ Z.eq_dec format l.
Proof.
  intros l format text H. induction H as [|c d format text H F IH]; [reflexivity|]. cbn.
  destruct (Z.eq_dec c l) as [E|N]; [rewrite (proj2 (Z.eqb_eq c l) E)|rewrite (proj2 (Z.eqb_neq c l) N)]; cbn; congruence.
Qed.
Lemma addds_decimal : forall ds n k, 0 <= n < 10 ^ Z.of_nat k -> (k + List.length ds <= 9)%nat -> Forall digit ds ->
  addds n ds = fold_left (fun n d => n * 10 + (d - 48)) ds n /\ 0 <= addds n ds.
Proof.
  induction ds as [|d ds IH]; intros n k N K F; [cbn; split; [reflexivity|lia]|].
  inversion_clear F as [|? ? F1 F2]. cbn [addds fold_left List.length] in *. fold (addds (addd n d) ds).
  assert (P : 10 ^ Z.of_nat (S k) = 10 * 10 ^ Z.of_nat k) by (rewrite Nat2Z.inj_succ, Z.pow_succ_r by lia; reflexivity).
  assert (Q : 10 ^ Z.of_nat (S k) <= 10 ^ 9) by (apply Z.pow_le_mono_r; lia).
  assert (R : addd n d = n * 10 + (d - 48)).
  { unfold addd, u32, digit in *. rewrite Z.mod_small; lia. }
  rewrite R. apply (IH _ (S k)); [unfold digit in F1; lia|lia|exact F2].
Qed.
Lemma addds_field : forall l format text, fits format text -> In l field_letters -> (count_occ Z.eq_dec format l <= 9)%nat ->
  addds 0 (digits_at l format text) = field l format text /\ 0 <= field l format text.
Proof.
  intros l format text H L C. unfold field, decimal.
  destruct (addds_decimal (digits_at l format text) 0 0) as (A & B); [cbn; lia|rewrite digits_count by exact H; lia|apply digits_fit; assumption|].
  rewrite A in *. split; [reflexivity|exact B].
Qed.

(** *** The calendar *)
Lemma divides_mod : forall a b, 0 < a -> (a | b) <-> b mod a = 0.
Proof. intros a b H. symmetry. apply Z.mod_divide. lia. Qed.
Lemma is_leap_spec : forall y, is_leap y = true <-> leap_year y.
Proof.
  intros y. unfold is_leap, leap_year. rewrite !divides_mod by lia. destruct (y mod 4 =? 0) eqn:A, (y mod 100 =? 0) eqn:B, (y mod 400 =? 0) eqn:C; cbn; lia.
Qed.
Lemma month_days_spec : forall y m, 1 <= m <= 12 -> last_day y m (nth (Z.to_nat (m - 1)) (month_days (is_leap y)) 0).
Proof.
  intros y m H. pose proof (is_leap_spec y) as L.
  assert (C : m = 1 \/ m = 2 \/ m = 3 \/ m = 4 \/ m = 5 \/ m = 6 \/ m = 7 \/ m = 8 \/ m = 9 \/ m = 10 \/ m = 11 \/ m = 12) by lia.
  decompose [or] C; subst m; cbn -[is_leap]; try (apply LD_31; cbn; tauto); try (apply LD_30; cbn; tauto).
  destruct (is_leap y); [apply LD_29|apply LD_28]; [tauto|]. intros Q. apply L in Q. discriminate.
Qed.
Lemma last_day_fun : forall y m n k, last_day y m n -> last_day y m k -> n = k.
Proof.
  intros y m n k A B. inversion A; inversion B; subst; try reflexivity; try contradiction; cbn in *; exfalso; lia.
Qed.
Lemma last_day_month : forall y m n, last_day y m n -> 1 <= m <= 12.
Proof. intros y m n []; cbn in *; lia. Qed.
Lemma calendar_is : forall y m d, 1 <= m <= 12 ->
  calendar_date y m d <-> 1 <= d <= nth (Z.to_nat (m - 1)) (month_days (is_leap y)) 0.
Proof.
  intros y m d H. unfold calendar_date. pose proof (month_days_spec y m H) as M. split.
  - intros (n & A & B). rewrite (last_day_fun _ _ _ _ M A). exact B.
  - intros A. eexists. split; [exact M|exact A].
Qed.

Lemma hasl_in : forall l format, hasl l format = true <-> In l format.
Proof.
  intros l format. unfold hasl. rewrite existsb_exists. split.
  - intros (x & I & E). apply Z.eqb_eq in E. subst x. exact I.
  - intros I. exists l. split; [exact I|apply Z.eqb_refl].
Qed.

Lemma check_date_spec : forall format text, short_fields format -> ~ In 111 format ->
  check_date_time format text = true <-> denotes_time format text.
Proof.
  intros format text Sh No.
  assert (Go : forall g, fits format text -> scanned format text df_init g ->
    (date_ranges g = true <-> denotes_time format text)).
  { intros g Ft S. unfold scanned in S. cbn [df_init f_D f_M f_Y f_h f_m f_s f_O f_o has_D has_M has_Y] in S.
    destruct S as (S1 & S2 & S3 & S4 & S5 & S6 & S7 & S8 & S9 & S10 & S11).
    assert (O' : f_o g = 0).
    { apply S8. destruct (hasl 111 format) eqn:E; [|reflexivity]. apply hasl_in in E. contradiction. }
    assert (Fl : forall l, In l field_letters -> addds 0 (digits_at l format text) = field l format text /\ 0 <= field l format text)
      by (intros l I; apply addds_field; [exact Ft|exact I|apply Sh]).
    destruct (Fl 68 ltac:(apply letters_in; lia)) as (E1 & P1).
    destruct (Fl 77 ltac:(apply letters_in; lia)) as (E2 & P2).
    destruct (Fl 89 ltac:(apply letters_in; lia)) as (E3 & P3).
    destruct (Fl 104 ltac:(apply letters_in; lia)) as (E4 & P4).
    destruct (Fl 109 ltac:(apply letters_in; lia)) as (E5 & P5).
    destruct (Fl 115 ltac:(apply letters_in; lia)) as (E6 & P6).
    destruct (Fl 79 ltac:(apply letters_in; lia)) as (E7 & P7).
    rewrite E1 in S1. rewrite E2 in S2. rewrite E3 in S3. rewrite E4 in S4. rewrite E5 in S5. rewrite E6 in S6. rewrite E7 in S7.
    unfold denotes_time, date_ranges. rewrite O', S1, S2, S3, S4, S5, S6, S7, S9, S10, S11. cbn [orb].
    pose proof (calendar_is (field 89 format text) (field 77 format text) (field 68 format text)) as Cal.
    assert (Ha : forall l b (P : Prop), hasl l format = b -> ((In l format -> P) <-> (b = true -> P))).
    { intros l b P <-. rewrite hasl_in. reflexivity. }
    rewrite (Ha 89 _ _ eq_refl), (Ha 77 _ (1 <= field 77 format text <= 12) eq_refl), (Ha 77 _ (In 68 format -> calendar_date (field 89 format text) (field 77 format text) (field 68 format text)) eq_refl), (Ha 68 _ _ eq_refl). clear Ha.
    set (nd := nth _ _ _) in *.
    set (CD := calendar_date _ _ _) in *.
    destruct (hasl 89 format), (hasl 77 format), (hasl 68 format); cbn [andb];
    destruct ((field 77 format text =? 0) || (12 <? field 77 format text)) eqn:Mo;
    try (assert (Cal' : CD <-> 1 <= field 68 format text <= nd) by (apply Cal; lia); clear Cal);
    repeat match goal with |- context [if ?b then _ else _] => destruct b eqn:? end;
    (split; [intros Q; try discriminate Q|intros (Q0 & Q1 & Q2 & Q3 & Q4 & Q5 & Q6 & Q7)]); try reflexivity; try lia; try tauto;
    try (specialize (Q2 eq_refl); exfalso; lia); try (specialize (Q3 eq_refl eq_refl); apply Cal' in Q3; lia);
    try (specialize (Q1 eq_refl); exfalso; lia).
    all: try (split; [exact Ft|]; repeat split; intros; try discriminate; try lia; apply Cal'; lia). }
  unfold check_date_time. split.
  - intros H. destruct (date_scan format text df_init) as [g|] eqn:E; [|discriminate]. apply date_scan_some in E as (E1 & E2).
    apply (Go g E1 E2). exact H.
  - intros H. destruct (date_scan_fits format text df_init (proj1 H)) as (g & E). rewrite E. apply date_scan_some in E as (E1 & E2).
    apply (Go g E1 E2). exact H.
Qed.

(** *** The named formats *)
Lemma fits_digit : forall c d, In c field_letters -> char_fits c d -> digit d.
Proof. intros c d L (A & _). exact (A L). Qed.
Lemma fits_lit : forall c d, ~ In c field_letters -> c <> 43 -> char_fits c d -> d = c.
Proof. intros c d L N (_ & _ & A). exact (A L N). Qed.
Lemma digit_fits : forall c d, In c field_letters -> digit d -> char_fits c d.
Proof. intros c d L D. split; [intros _; exact D|]. split; [|intros Q; contradiction]. intros ->. apply letters_in in L. lia. Qed.
Lemma lit_fits : forall c, ~ In c field_letters -> c <> 43 -> char_fits c c.
Proof. intros c L N. split; [intros Q; contradiction|]. split; [intros Q; contradiction|reflexivity]. Qed.

Lemma padded2 : forall z, padded 2 z = [48 + z / 10 mod 10; 48 + z mod 10].
Proof. reflexivity. Qed.
Lemma padded4 : forall z, padded 4 z = [48 + z / 10 / 10 / 10 mod 10; 48 + z / 10 / 10 mod 10; 48 + z / 10 mod 10; 48 + z mod 10].
Proof. reflexivity. Qed.
Ltac fit_inv := repeat match goal with
  | F : Forall2 char_fits (_ :: _) _ |- _ => inversion F; clear F; subst
  | F : Forall2 char_fits [] _ |- _ => inversion F; clear F; subst
  end.
Ltac fit_chars := repeat match goal with
  | F : char_fits ?c ?d |- _ =>
    first [apply fits_digit in F; [unfold digit in F|apply letters_in; lia]
          |apply fits_lit in F; [subst d|rewrite letters_in; lia|lia]]
  end.
Ltac fit_show := repeat first [apply Forall2_nil | apply Forall2_cons;
  [first [apply digit_fits; [apply letters_in; lia|unfold digit; lia] | apply lit_fits; [rewrite letters_in; lia|lia]]|]].
Lemma cons_inj : forall (a b : Z) l l', a = b -> l = l' -> a :: l = b :: l'.
Proof. congruence. Qed.
Ltac same_text := repeat (apply cons_inj; [lia|]); reflexivity.

Ltac letters := change (txt "hh:mm:ss") with [104; 104; 58; 109; 109; 58; 115; 115] in *;
  change (txt "hh:mm:ssZ") with [104; 104; 58; 109; 109; 58; 115; 115; 90] in *;
  change (txt "YYYY-MM-DD") with [89; 89; 89; 89; 45; 77; 77; 45; 68; 68] in *;
  change (txt "YYYY-MM-DDThh:mm:ssZ") with [89; 89; 89; 89; 45; 77; 77; 45; 68; 68; 84; 104; 104; 58; 109; 109; 58; 115; 115; 90] in *.
Ltac show_text := unfold time_text, date_text; rewrite ?padded2, ?padded4;
  change (txt ":") with [58]; change (txt "-") with [45]; change (txt "T") with [84]; change (txt "Z") with [90]; cbn [app].

Lemma time_form : forall text, denotes_time (txt "hh:mm:ss") text <->
  exists h m s, time_of_day h m s /\ text = time_text h m s.
Proof.
  intros text. split.
  - intros (F & _ & _ & _ & A & B & C & _). unfold fits in F. letters.
    fit_inv. fit_chars. unfold field, decimal in A, B, C. cbn [digits_at fold_left Z.eqb Pos.eqb] in A, B, C.
    match goal with |- exists h m s, _ /\ [?a; ?b; _; ?c; ?d; _; ?e; ?f] = _ =>
      exists ((a - 48) * 10 + (b - 48)), ((c - 48) * 10 + (d - 48)), ((e - 48) * 10 + (f - 48)) end.
    split; [unfold time_of_day; lia|]. show_text. same_text.
  - intros (h & m & s & T & ->). unfold time_of_day in T. unfold denotes_time, fits. show_text. letters.
    split; [fit_show|]. unfold field, decimal. cbn [digits_at fold_left Z.eqb Pos.eqb In]. repeat split; intros; try lia.
Qed.
Lemma timez_form : forall text, denotes_time (txt "hh:mm:ssZ") text <->
  exists h m s, time_of_day h m s /\ text = time_text h m s ++ txt "Z".
Proof.
  intros text. split.
  - intros (F & _ & _ & _ & A & B & C & _). unfold fits in F. letters.
    fit_inv. fit_chars. unfold field, decimal in A, B, C. cbn [digits_at fold_left Z.eqb Pos.eqb] in A, B, C.
    match goal with |- exists h m s, _ /\ [?a; ?b; _; ?c; ?d; _; ?e; ?f; _] = _ =>
      exists ((a - 48) * 10 + (b - 48)), ((c - 48) * 10 + (d - 48)), ((e - 48) * 10 + (f - 48)) end.
    split; [unfold time_of_day; lia|]. show_text. same_text.
  - intros (h & m & s & T & ->). unfold time_of_day in T. unfold denotes_time, fits. show_text. letters.
    split; [fit_show|]. unfold field, decimal. cbn [digits_at fold_left Z.eqb Pos.eqb In]. repeat split; intros; try lia.
Qed.
Lemma calendar_bound : forall y m d, calendar_date y m d -> 1 <= m <= 12 /\ 1 <= d <= 31.
Proof. intros y m d (n & A & B). pose proof (last_day_month _ _ _ A). split; [assumption|]. inversion A; lia. Qed.
Lemma date_form : forall text, denotes_time (txt "YYYY-MM-DD") text <->
  exists y m d, 1000 <= y <= 9999 /\ calendar_date y m d /\ text = date_text y m d.
Proof.
  intros text. split.
  - intros (F & A & _ & B & _). unfold fits in F. letters.
    fit_inv. fit_chars. specialize (A ltac:(cbn; tauto)). specialize (B ltac:(cbn; tauto) ltac:(cbn; tauto)).
    unfold field, decimal in A, B. cbn [digits_at fold_left Z.eqb Pos.eqb] in A, B.
    match type of B with calendar_date ?y ?m ?d => exists y, m, d end.
    split; [lia|]. split; [exact B|]. show_text. same_text.
  - intros (y & m & d & Y & C & ->). pose proof (calendar_bound _ _ _ C) as (Bm & Bd). unfold denotes_time, fits. show_text. letters.
    split; [fit_show|]. unfold field, decimal. cbn [digits_at fold_left Z.eqb Pos.eqb In].
    split; [lia|]. split; [lia|]. split; [|lia]. intros _ _.
    match goal with |- calendar_date ?a ?b ?c => replace a with y by lia; replace b with m by lia; replace c with d by lia end. exact C.
Qed.
Lemma datetime_form : forall text, denotes_time (txt "YYYY-MM-DDThh:mm:ssZ") text <->
  exists y mo d h mi s, 1000 <= y <= 9999 /\ calendar_date y mo d /\ time_of_day h mi s /\
    text = date_text y mo d ++ txt "T" ++ time_text h mi s ++ txt "Z".
Proof.
  intros text. split.
  - intros (F & A & _ & B & C & D & E & _). unfold fits in F. letters.
    fit_inv. fit_chars. specialize (A ltac:(cbn; tauto)). specialize (B ltac:(cbn; tauto) ltac:(cbn; tauto)).
    unfold field, decimal in A, B, C, D, E. cbn [digits_at fold_left Z.eqb Pos.eqb] in A, B, C, D, E.
    match type of B with calendar_date ?y ?m ?d =>
    match type of C with ?h <= _ => match type of D with ?mi <= _ => match type of E with ?s <= _ => exists y, m, d, h, mi, s end end end end.
    split; [lia|]. split; [exact B|]. split; [unfold time_of_day; lia|]. show_text. same_text.
  - intros (y & m & d & h & mi & s & Y & C & T & ->). pose proof (calendar_bound _ _ _ C) as (Bm & Bd). unfold time_of_day in T. unfold denotes_time, fits. show_text. letters.
    split; [fit_show|]. unfold field, decimal. cbn [digits_at fold_left Z.eqb Pos.eqb In].
    split; [lia|]. split; [lia|]. split; [|lia]. intros _ _.
    match goal with |- calendar_date ?a ?b ?c => replace a with y by lia; replace b with m by lia; replace c with d by lia end. exact C.
Qed.

(** *** Offsets: the 'o' of the code *)
Lemma scan_app : forall a t f b u, List.length a = List.length t ->
  date_scan (a ++ b) (t ++ u) f = match date_scan a t f with Some g => date_scan b u g | None => None end.
Proof.
  induction a as [|c a IH]; intros [|d t] f b u H; cbn in H; try discriminate; [reflexivity|].
  cbn. destruct (date_char c d f); [|reflexivity]. apply IH. lia.
Qed.
Lemma scan_O : forall a t f g, date_scan a t f = Some g -> ~ In 79 a -> ~ In 111 a -> f_O g = f_O f /\ f_o g = f_o f.
Proof.
  intros a t f g H N1 N2. apply date_scan_some in H as (_ & _ & _ & _ & _ & _ & _ & A & B & _). split.
  - rewrite A. replace (digits_at 79 a t) with (@nil Z); [reflexivity|]. clear - N1. revert t.
    induction a as [|c a IH]; intros [|d t]; try reflexivity. cbn. destruct (c =? 79) eqn:E.
    + apply Z.eqb_eq in E. destruct N1. left. exact E.
    + apply IH. intros I. apply N1. right. exact I.
  - apply B. destruct (hasl 111 a) eqn:E; [|reflexivity]. apply hasl_in in E. contradiction.
Qed.

Definition offset_format : bytes := txt "+OO:oo".
Lemma scan_offset : forall sg o1 o2 m1 m2 D M Y h m s hD hM hY, sg = 43 \/ sg = 45 -> digit o1 -> digit o2 -> digit m1 -> digit m2 ->
  date_scan [43; 79; 79; 58; 111; 111] [sg; o1; o2; 58; m1; m2] (mkDF D M Y h m s 0 0 hD hM hY) =
  Some (mkDF D M Y h m s ((o1 - 48) * 10 + (o2 - 48)) (((o1 - 48) * 10 + (o2 - 48)) * 10 + (m2 - 48)) hD hM hY).
Proof.
  intros sg o1 o2 m1 m2 D M Y h m s hD hM hY Sg O1 O2 M1 M2. cbn [date_scan]. unfold date_char at 1. cbn [Z.eqb Pos.eqb].
  replace ((sg =? 45) || (sg =? 43)) with true by lia.
  unfold date_char at 1. cbn [Z.eqb Pos.eqb]. rewrite (proj2 (digit_is o1) O1).
  unfold date_char at 1. cbn [Z.eqb Pos.eqb]. rewrite (proj2 (digit_is o2) O2).
  unfold date_char at 1. cbn [Z.eqb Pos.eqb].
  unfold date_char at 1. cbn [Z.eqb Pos.eqb]. rewrite (proj2 (digit_is m1) M1).
  unfold date_char at 1. cbn [Z.eqb Pos.eqb]. rewrite (proj2 (digit_is m2) M2).
  unfold u32, digit in *. f_equal. f_equal; lia.
Qed.
Lemma offset_check : forall a t u, List.length a = List.length t -> ~ In 79 a -> ~ In 111 a ->
  (check_date_time (a ++ offset_format) (t ++ u) = true <->
   check_date_time a t = true /\ exists sg o2 m1 m2, (sg = 43 \/ sg = 45) /\ 48 <= o2 <= 53 /\ digit m1 /\ digit m2 /\
     u = [sg; 48; o2; 58; m1; m2]).
Proof.
  intros a t u Le N1 N2. unfold check_date_time. rewrite scan_app by exact Le.
  destruct (date_scan a t df_init) as [g|] eqn:E; [|split; [discriminate|intros (Q & _); discriminate]].
  destruct (scan_O _ _ _ _ E N1 N2) as (Z1 & Z2). cbn in Z1, Z2. destruct g as [D M Y h m s oh om hD hM hY]. cbn in Z1, Z2. subst oh om.
  change offset_format with [43; 79; 79; 58; 111; 111]. split.
  - intros H. destruct (date_scan _ u _) as [k|] eqn:S; [|discriminate].
    pose proof (date_scan_some _ _ _ _ S) as (F & _). unfold fits in F. fit_inv.
    repeat match goal with
    | F : char_fits ?c ?d |- _ =>
      first [apply fits_digit in F; [|apply letters_in; lia] |apply fits_lit in F; [subst d|rewrite letters_in; lia|lia]
            |destruct F as (_ & F & _); specialize (F eq_refl)]
    end.
    rewrite scan_offset in S by assumption. injection S as <-. unfold date_ranges in *. cbn [f_D f_M f_Y f_h f_m f_s f_O f_o has_D has_M has_Y] in *.
    repeat match type of H with context [if ?b then _ else _] => destruct b eqn:?; try discriminate H end.
    unfold digit in *.
    match goal with |- _ /\ exists sg o2 m1 m2, _ /\ _ /\ _ /\ _ /\ [?a1; ?a2; ?a3; _; ?a4; ?a5] = _ =>
      assert (a2 = 48 /\ a3 <= 53) by lia; split; [reflexivity|]; exists a1, a3, a4, a5 end.
    split; [lia|]. split; [lia|]. split; [assumption|]. split; [assumption|]. same_text.
  - intros (R & sg & o2 & m1 & m2 & Sg & O2 & M1 & M2 & ->). rewrite scan_offset by (assumption || (unfold digit; lia)).
    unfold date_ranges in *. cbn [f_D f_M f_Y f_h f_m f_s f_O f_o has_D has_M has_Y] in *. unfold digit in *.
    repeat match type of R with context [if ?b then _ else _] => destruct b eqn:?; try discriminate R end.
    match goal with |- (if ?b then _ else _) = _ => destruct b eqn:? end; [exfalso; lia|reflexivity].
Qed.
