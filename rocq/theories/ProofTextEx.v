(** Corollaries and concrete cases used by the statements about JSON text. *)
From Coq Require Import ZifyBool Sorted.
From Verif Require Import ProofFloat.
From Verif Require Import Base ModelUtf8 SpecUtf8 ProofUtf8 ModelKeyed SpecKeyed ProofKeyed
  ModelValue ProofValue ModelText SpecText ProofText1 ProofText2 ProofText3 ProofText4 ProofText5.
Local Open Scope Z_scope.

Definition ser0 : serenv := mkSer (fun _ _ => []) (fun _ _ => []).

Lemma ser_string_ascii : forall E s, Forall (fun b => 32 <= b < 128) (ser E false (VStr None s)).
Proof.
  intros E s. cbn [ser]. unfold write_string, write_string_body. constructor; [lia|].
  apply Forall_app. split; [apply write_body_ascii|repeat constructor; lia].
Qed.

Lemma escaped_refuted : exists s, text_ok true s /\ s <> word_inf /\ s <> word_neg_inf /\
  forall L E F, parse_source L F (ser E false (VStr None s)) = Ok (VStr None (utf8_encode [0xF600]), mkR [] None) /\
  utf8_encode [0xF600] <> s.
Proof.
  exists (utf8_encode [0x1F600]).
  split; [exists [0x1F600]; split; [repeat constructor; unfold is_cp; lia|reflexivity]|].
  split; [discriminate|]. split; [discriminate|].
  intros L E F. split; [vm_compute; reflexivity|discriminate].
Qed.

Lemma integer_text : forall E utf8 n z,
  (n = NUInt z /\ 0 <= z < 2 ^ 64) \/ (n = NInt z /\ - 2 ^ 63 < z < 2 ^ 63) ->
  exists ds, ser E utf8 (VNum n) = (if z <? 0 then [45] else []) ++ ds /\
    ds <> [] /\ Forall digit_char ds /\ dec_value ds = Z.abs z /\
    (ds = [48] \/ hd 0 ds <> 48).
Proof.
  intros E utf8 n z H.
  assert (Hp : forall u, 0 <= u < 2 ^ 64 -> write_unsigned u <> [] /\ Forall digit_char (write_unsigned u) /\
    dec_value (write_unsigned u) = Z.abs u /\ (write_unsigned u = [48] \/ hd 0 (write_unsigned u) <> 48)).
  { intros u Hu. destruct (write_unsigned_spec u Hu) as (H1 & H2 & H3 & H4).
    split; auto. split; auto. split; [lia|]. destruct H4 as [H4|(c & t & -> & Hc)]; auto. }
  destruct H as [[-> Hz]|[-> Hz]]; cbn [ser ser_num].
  - replace (z <? 0) with false by lia. exists (write_unsigned z). split; [reflexivity|]. auto.
  - destruct (z <? 0) eqn:Ez.
    + destruct (write_signed_neg z ltac:(lia)) as (ds & -> & H1 & H2 & H3 & (c & t & -> & Hc)).
      exists (c :: t). split; [reflexivity|]. split; auto. split; auto. split; [lia|auto].
    + unfold write_signed. rewrite Ez. exists (write_unsigned z). split; [reflexivity|]. apply Hp. lia.
Qed.

Lemma integer_round_trip : forall L E F utf8 n z w rest,
  (n = NUInt z /\ 0 <= z < 2 ^ 64) \/ (n = NInt z /\ - 2 ^ 63 < z < 2 ^ 63) ->
  precise F = false -> ws w -> num_end rest ->
  exists n' r', parse_source L F (w ++ ser E utf8 (VNum n) ++ rest) = Ok (VNum n', r') /\
    int_of n' = Some z /\ at_pos r' rest.
Proof.
  intros L E F utf8 n z w rest H HF Hw Hn.
  destruct (integer_text E utf8 n z H) as (ds & -> & H1 & H2 & H3 & _).
  destruct (z <? 0) eqn:Ez.
  - cbn [app]. destruct (parse_source_neg_digits L F w ds rest HF Hw H1 H2) as (r' & E1 & E2); auto; [lia|].
    do 2 eexists. split; [exact E1|]. split; auto. unfold int_num. replace (- dec_value ds =? 0) with false by lia.
    cbn [int_of]. f_equal. lia.
  - cbn [app]. destruct (parse_source_digits L F w ds rest HF Hw H1 H2) as (r' & E1 & E2); auto; [lia|].
    do 2 eexists. split; [exact E1|]. split; auto. cbn [int_of]. f_equal. lia.
Qed.

(** {"a":[1,null,"\n",-7],"b":{}} *)
Definition doc1 : value :=
  VObj false [([97], VArr [([], VNum (NUInt 1)); ([], VNull); ([], VStr None [10]); ([], VNum (NInt (-7)))]);
              ([98], VObj false [])].

Lemma doc1_ok : doc_ok true doc1 /\
  ser ser0 true doc1 = [123;34;97;34;58;91;49;44;110;117;108;108;44;34;92;110;34;44;45;55;93;44;34;98;34;58;123;125;125].
Proof.
  split; [|reflexivity].
  assert (T : forall c, 0 <= c < 128 -> text_ok true [c]).
  { intros c Hc. exists [c]. split; [repeat constructor; unfold is_cp; lia|].
    unfold utf8_encode, utf8_bytes. cbn [flat_map]. replace (c <? 128) with true by lia. reflexivity. }
  apply d_obj; [repeat constructor|]. constructor; [|constructor; [|constructor]].
  - split; [apply T; lia|]. cbn [snd]. apply d_arr. repeat apply Forall_cons; cbn [snd]; try apply Forall_nil.
    + apply d_uint. lia.
    + apply d_null.
    + apply d_str; [apply T; lia|discriminate|discriminate].
    + apply d_int. lia.
  - split; [apply T; lia|]. cbn [snd]. apply d_obj; [constructor|constructor].
Qed.

Lemma reject_dup : forall L F sg v t w rest,
  allow_dup F = false ->
  jval any_number v t -> ws w -> num_end rest -> has_dup v ->
  parse_source L F (w ++ map (as_source sg) t ++ rest) = Err.
Proof. intros. eapply parse_source_dup; eauto. Qed.

(** [1.5,{"a":1,"b":2e3,"a":1}] *)
Definition dup_text : bytes :=
  [91;49;46;53;44;123;34;97;34;58;49;44;34;98;34;58;50;101;51;44;34;97;34;58;49;125;93].

Lemma nt_digits : forall ds, ds <> [] -> Forall digit_char ds -> number_text ds.
Proof. intros ds H1 H2. exists [], ds, [], []. cbn [app]. rewrite app_nil_r. auto 8. Qed.

Lemma jstr_letter : forall c, 97 <= c <= 122 -> jstr [c] [c].
Proof.
  intros c H. pose proof (js_char c [] []) as J. unfold utf8_bytes in J.
  replace (c <? 0x80) with true in J by lia. apply J; try (unfold is_cp; lia). constructor.
Qed.

Lemma dup_text_ok : exists v, jval any_number v dup_text /\ has_dup v.
Proof.
  assert (D : forall c, 48 <= c <= 57 -> digit_char c) by (unfold digit_char; auto).
  set (n := NUInt 0).
  exists (VArr [([], VNum n); ([], VObj false [([97], VNum n); ([98], VNum n); ([97], VNum n)])]).
  split.
  - change dup_text with (91 :: ([] ++ [49;46;53] ++ [] ++ 44 :: ([] ++ (123 ::
      ([] ++ 34 :: [97] ++ 34 :: [] ++ 58 :: [] ++ [49] ++ [] ++ 44 ::
       ([] ++ 34 :: [98] ++ 34 :: [] ++ 58 :: [] ++ [50;101;51] ++ [] ++ 44 ::
        ([] ++ 34 :: [97] ++ 34 :: [] ++ 58 :: [] ++ [49] ++ []))) ++ [125]) ++ [])) ++ [93]).
    apply jv_arr. apply je_cons; try constructor.
    { exists [], [49], [46; 53], []. split; [reflexivity|]. split; [auto|].
      split; [split; [discriminate|repeat constructor; lia]|].
      split; [right; exists [53]; split; [reflexivity|split; [discriminate|repeat constructor; lia]]|auto]. }
    { constructor. }
    apply jv_obj. apply jm_cons; try apply jstr_letter; try (constructor; fail); try lia.
    { apply jv_num, nt_digits; [discriminate|repeat constructor; lia]. }
    apply jm_cons; try apply jstr_letter; try (constructor; fail); try lia.
    { apply jv_num. exists [], [50], [], [101; 51]. split; [reflexivity|]. split; [auto|].
      split; [split; [discriminate|repeat constructor; lia]|].
      split; [auto|]. right. exists 101, [], [51]. split; [reflexivity|]. split; [auto|]. split; [auto|].
      split; [discriminate|repeat constructor; lia]. }
    apply jm_one; try apply jstr_letter; try (constructor; fail); try lia.
    { apply jv_num, nt_digits; [discriminate|repeat constructor; lia]. }
    all: constructor.
  - eapply hd_arr; [right; left; reflexivity|]. apply hd_here. cbn [map fst]. intros H.
    inversion_clear H as [|? ? H1 H2]. apply H1. simpl. auto.
Qed.

Lemma malformed_refuted : exists a b c d,
  (forall x, ~ hex_char a x) /\ (forall x, ~ hex_char b x) /\ a <> 34 /\ a <> 92 /\ b <> 34 /\ b <> 92 /\
  forall L F, exists s, parse_source L F [34; 92; 117; a; b; c; d; 34] = Ok (VStr None s, mkR [] None).
Proof.
  exists 90, 90, 90, 90. repeat split; try discriminate; try (intros x; unfold hex_char; lia).
  intros L F. eexists. vm_compute. reflexivity.
Qed.

Lemma escape_x : forall x, ~ In (120, x) escape_pairs.
Proof. intros x H. unfold escape_pairs in H. simpl in H. intuition congruence. Qed.

Lemma precise_text_kept : forall L E utf8 F t w rest,
  precise F = true -> number_text t -> ws w -> num_end rest ->
  exists n r', parse_source L F (w ++ t ++ rest) = Ok (VNum n, r') /\ at_pos r' rest /\
    ser E utf8 (VNum n) = t.
Proof.
  intros L E utf8 F t w rest HF Ht Hw Hn.
  destruct (precise_parse L F t w rest HF Ht Hw Hn) as (k & r' & H1 & H2). do 2 eexists. split; [exact H1|]. auto.
Qed.

Lemma parse_source_neg_big_double : forall L F w ds rest,
  precise F = false -> ws w -> ds <> [] -> Forall digit_char ds -> 2 ^ 63 <= dec_value ds < 2 ^ 64 -> num_end rest ->
  exists r', parse_source L F (w ++ 45 :: ds ++ rest) =
    Ok (VNum (NDbl (f_opp (f_of_Z (dec_value ds)))), r') /\ at_pos r' rest.
Proof.
  intros L F w ds rest HF Hw Hne Hd Hv Hn.
  destruct (parse_source_neg_big L F w ds rest HF Hw Hne Hd Hv Hn) as (r' & E & H). exists r'. split; auto. rewrite E.
  destruct (f_of_Z_double (dec_value ds) ltac:(lia)) as (_ & m & e & ->). reflexivity.
Qed.

Lemma precise_integer_exact : forall L F k t w rest,
  precise F = true -> kind_literal k t -> ws w -> num_end rest ->
  exists r', parse_source L F (w ++ t ++ rest) = Ok (VNum (NPrec t k), r') /\ at_pos r' rest.
Proof.
  exact precise_parse_int.
Qed.

Lemma precise_refuted : exists ds, ds <> [] /\ Forall digit_char ds /\ 2 ^ 64 <= dec_value ds /\
  forall L, exists z r', parse_source L (mkPF false true) ds = Ok (VNum (NPrec ds (PkUInt z)), r') /\ z <> dec_value ds.
Proof.
  exists (51 :: repeat 48 19). split; [discriminate|].
  split; [cbn [repeat]; repeat constructor; lia|]. split; [vm_compute; discriminate|].
  intros L. do 2 eexists. split; [vm_compute; reflexivity|]. vm_compute. discriminate.
Qed.

Lemma number_cases : number_text [45;49;46;53;48;69;43;51] /\ kind_literal (PkInt (-7)) [45;48;55].
Proof.
  split.
  - exists [45], [49], [46;53;48], [69;43;51]. split; [reflexivity|]. split; [auto|].
    split; [split; [discriminate|repeat constructor; lia]|].
    split; [right; exists [53;48]; split; [reflexivity|split; [discriminate|repeat constructor; lia]]|].
    right. exists 69, [43], [51]. split; [reflexivity|]. split; [auto|]. split; [auto|].
    split; [discriminate|repeat constructor; lia].
  - change (-7) with (- dec_value [48;55]). apply kl_int; [discriminate|repeat constructor; lia|vm_compute; reflexivity].
Qed.
