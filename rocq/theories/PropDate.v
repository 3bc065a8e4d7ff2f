(** C36: dates and times in the validator. *)
From Coq Require Import String Lia.
From Verif Require Import Base ModelValue ModelString ModelRpc ModelValidator SpecValidator SpecDate ProofDate ProofValidator4.
Local Open Scope Z_scope.
Local Open Scope list_scope.

(** The rules of documented format, on any subject of which [s] is the text
    (a string is its own text): exactly the existing dates and times of day. *)
Theorem C36_date : forall V vars k v e s, to_string (v_E V) (v_utf8 V) v = Some s ->
  let existing := exists y m d, 1000 <= y <= 9999 /\ calendar_date y m d /\ s = date_text y m d in
  (accepts V vars (k, v) (VStr e (txt "date")) <-> existing) /\ (rejects V vars (k, v) (VStr e (txt "date")) <-> ~ existing).
Proof. exact date_rule. Qed.
Print Assumptions C36_date.

Theorem C36_time : forall V vars k v e s, to_string (v_E V) (v_utf8 V) v = Some s ->
  let existing := exists h m c, time_of_day h m c /\ s = time_text h m c in
  (accepts V vars (k, v) (VStr e (txt "time")) <-> existing) /\ (rejects V vars (k, v) (VStr e (txt "time")) <-> ~ existing).
Proof. exact time_rule. Qed.
Print Assumptions C36_time.

Theorem C36_timez : forall V vars k v e s, to_string (v_E V) (v_utf8 V) v = Some s ->
  let existing := exists h m c, time_of_day h m c /\ s = time_text h m c ++ txt "Z" in
  (accepts V vars (k, v) (VStr e (txt "timez")) <-> existing) /\ (rejects V vars (k, v) (VStr e (txt "timez")) <-> ~ existing).
Proof. exact timez_rule. Qed.
Print Assumptions C36_timez.

Theorem C36_datetime : forall V vars k v e s, to_string (v_E V) (v_utf8 V) v = Some s ->
  forall w, In w (map txt ["datetime"; "datetimez"]%string) ->
  let existing := exists y mo d h mi c, 1000 <= y <= 9999 /\ calendar_date y mo d /\ time_of_day h mi c /\
    s = date_text y mo d ++ txt "T" ++ time_text h mi c ++ txt "Z" in
  (accepts V vars (k, v) (VStr e w) <-> existing) /\ (rejects V vars (k, v) (VStr e w) <-> ~ existing).
Proof. exact datetime_rule. Qed.
Print Assumptions C36_datetime.

(** ["datetime", format] with any format in which no letter occurs ten times and
    which has no minutes of an offset. *)
Theorem C36_format : forall V vars k v s, to_string (v_E V) (v_utf8 V) v = Some s ->
  forall k1 e1 k2 e2 f post, short_fields f -> ~ In 111 f ->
  let r := VArr ((k1, VStr e1 (txt "datetime")) :: (k2, VStr e2 f) :: post) in
  (accepts V vars (k, v) r <-> denotes_time f s) /\ (rejects V vars (k, v) r <-> ~ denotes_time f s).
Proof. exact format_rule. Qed.
Print Assumptions C36_format.

(** With an offset at the end: the hours must be 00 to 05, the minutes are any
    two digits. *)
Theorem C36_offset : forall V vars k s k1 e1 k2 e2 f post, ~ In 79 f -> ~ In 111 f ->
  let rule f := VArr ((k1, VStr e1 (txt "datetime")) :: (k2, VStr e2 f) :: post) in
  (accepts V vars (k, VStr None s) (rule (f ++ txt "+OO:oo")) <->
   exists t sg o2 m1 m2, accepts V vars (k, VStr None t) (rule f) /\ (sg = 43 \/ sg = 45) /\ 48 <= o2 <= 53 /\ digit m1 /\ digit m2 /\
     s = t ++ [sg; 48; o2; 58; m1; m2]).
Proof. exact format_offset. Qed.
Print Assumptions C36_offset.

(** So the documented meaning of 'O' and 'o' does not hold. *)
Theorem C36_offset_refuted : forall V,
  let rule := VArr [([], VStr None (txt "datetime")); ([], VStr None (txt "hh:mm+OO:oo"))] in
  (exists p s t, eval_rule V 1 p ([], VStr None (txt "12:00+06:00")) rule s = VDone false t) /\
  (exists p s t, eval_rule V 1 p ([], VStr None (txt "12:00+05:99")) rule s = VDone true t).
Proof.
  intros V rule. split; exists [], v_init; eexists; vm_compute; reflexivity.
Qed.
Print Assumptions C36_offset_refuted.

(** *** Cases *)
Example C36_case :
  calendar_date 2000 2 29 /\ ~ calendar_date 1900 2 29 /\ calendar_date 2023 12 31 /\ ~ calendar_date 2023 4 31 /\
  date_text 2000 2 29 = txt "2000-02-29" /\ time_text 23 5 9 = txt "23:05:09" /\ time_of_day 23 5 9 /\
  short_fields (txt "YYYY/MM/DD hh/mm/ss") /\ ~ In 111 (txt "YYYY/MM/DD hh/mm/ss").
Proof.
  split; [exists 29; split; [apply LD_29; right; exists 5; reflexivity|lia]|].
  split.
  { intros (n & A & B). inversion A; subst; cbn in *; try lia.
    match goal with H : leap_year _ |- _ => destruct H as [(_ & N)|(x & X)]; [apply N; exists 19; reflexivity|lia] end. }
  split; [exists 31; split; [apply LD_31; cbn; tauto|lia]|].
  split; [intros (n & A & B); inversion A; subst; cbn in *; lia|].
  split; [reflexivity|]. split; [reflexivity|]. split; [unfold time_of_day; lia|]. split; [|cbn; intuition discriminate].
  intros l. assert (A : forall g, (forall x, In x g -> count_occ Z.eq_dec g x <= 9)%nat -> (count_occ Z.eq_dec g l <= 9)%nat).
  { intros g H. destruct (in_dec Z.eq_dec l g) as [J|J]; [apply H; exact J|]. apply (count_occ_not_In Z.eq_dec) in J. rewrite J. repeat constructor. }
  apply A. intros x X. apply PeanoNat.Nat.leb_le. revert x X. apply forallb_forall. vm_compute. reflexivity.
Qed.
