(** More about the places, and examples. *)
From Coq Require Import ZifyBool.
From Coq Require Import String.
From Verif Require Import Base ModelUtf8 SpecUtf8 ModelKeyed SpecKeyed ModelValue ModelText SpecText ModelRpc
  SpecAccept ModelParseErr SpecParseErr ProofParseErr ProofParseErr2.
Local Open Scope string_scope.
Local Open Scope list_scope.
Local Open Scope Z_scope.

Lemma reported_right : forall p m,
  reported p m = map place p <-> (forall q n r, p = q ++ LItem n :: r -> complete r m = 0%nat).
Proof.
  intros p m. induction p as [|l p IH].
  - split; [|reflexivity]. intros _ q n r E. destruct q; discriminate.
  - split.
    + intros E q n r Ep. destruct q as [|l' q].
      * injection Ep as -> ->. cbn [reported map place] in E. injection E as E _. lia.
      * injection Ep as -> ->. assert (E' : reported (q ++ LItem n :: r) m = map place (q ++ LItem n :: r)) by (destruct l'; cbn [reported map place] in E; congruence).
        apply (proj1 IH E' q n r). reflexivity.
    + intros H. assert (E' : reported p m = map place p) by (apply IH; intros q n r Ep; apply (H (l :: q) n r); rewrite Ep; reflexivity).
      destruct l as [n k|n|n]; cbn [reported map place]; rewrite E'; try reflexivity.
      rewrite (H [] n p eq_refl), Nat.add_0_r. reflexivity.
Qed.

Lemma small_number : forall F d, digit_char d -> (if precise F then precise_text else moderate) [d].
Proof.
  intros F d Hd. destruct (precise F).
  - exists [], [d], [], []. split; [reflexivity|]. split; [left; reflexivity|]. split; [discriminate|]. split; [constructor; auto|]. split; left; reflexivity.
  - exists [], [d], [], []. split; [reflexivity|]. split.
    + split; [left; reflexivity|]. split; [constructor; auto|]. split; [left; reflexivity|]. split; [left; reflexivity|]. intros X; discriminate.
    + split; [unfold dec_value, digit_char in *; cbn [fold_left]; lia|]. intros e s ds E. discriminate.
Qed.
Lemma no_number : forall F c s, isdigit c || (c =? 43) || (c =? 45) || (c =? 46) = false ->
  ~ number_begins (if precise F then precise_text else plain_text) (c :: s).
Proof.
  intros F c s Hc (t & b' & Ht & E). assert (ProofAccept3.num_starts t) as (c' & t' & -> & Hc').
  { destruct (precise F) eqn:EF.
    - destruct (ProofAccept3.precise_read (mkLibm (fun _ _ => S754_nan) (fun _ => S754_nan) (fun _ => S754_nan)) F t EF Ht) as (_ & _ & _ & H). exact H.
    - destruct Ht as (sg & ip & fp & ex & -> & Hp). apply (ProofAccept3.plain_starts sg ip fp ex Hp). }
  injection E as <- _. congruence.
Qed.

Lemma wrong_index : forall L F, exists p m a b, a ++ b = txt "[1,[2,3,x]]" /\
  stops (allow_dup F)
    (value_text (allow_dup F) (denotes false) (fun _ t => (if precise F then precise_text else moderate) t)) (denotes false)
    (no_value (number_begins (if precise F then precise_text else plain_text))) apart p m a b /\
  map place p = [CIdx 1; CIdx 2] /\
  exists n st, parse_source_e L F (a ++ b) = PErr n st /\ rev st = [CIdx 3; CIdx 2] /\
    what_place st = txt "<root>/[3]/[2]".
Proof.
  intros L F. exists [LItem 1; LItem 2], 0%nat, (txt "[1,[2,3,"), (txt "x]]"). split; [reflexivity|].
  match goal with |- ?P /\ _ => assert (St : P) end.
  { set (V := value_text (allow_dup F) (denotes false) (fun _ t => (if precise F then precise_text else moderate) t)).
    assert (D : forall d, digit_char d -> item_text V any [d]).
    { intros d Hd. exists [], [d], [], (VNum (NUInt 0)). split; [reflexivity|]. split; [constructor|]. split; [|split; [constructor|exact I]].
      split; [apply gv_num; apply small_number; exact Hd|]. right. intros X. inversion X. }
    change (txt "[1,[2,3,") with ([] ++ 91 :: ([] ++ [49] ++ [44]) ++ ([] ++ 91 :: (([] ++ [50] ++ [44]) ++ [51] ++ [44]) ++ [])).
    apply st_item; [constructor|apply (it_more V 0); [constructor|apply D; unfold digit_char; lia]|discriminate|].
    apply st_item; [constructor|apply (it_more V 1); [apply (it_more V 0); [constructor|]|]; apply D; unfold digit_char; lia|discriminate|].
    apply st_value; [constructor|]. split; [unfold no_space, space; cbn; lia|]. split; [discriminate|]. split; [discriminate|].
    split; [intros (t & b' & _ & E); discriminate|]. split.
    - intros (t & b' & [<-|[<-|[<-|[]]]] & E); discriminate.
    - apply no_number. reflexivity. }
  split; [exact St|]. split; [reflexivity|]. do 2 eexists. split.
  - apply (place_reported L F false) in St; [exact St|]. unfold source_char. repeat constructor; discriminate.
  - split; reflexivity.
Qed.

Lemma same_text : exists s1 s2 n1 n2 st1 st2, st1 <> st2 /\ what_place st1 = what_place st2 /\
  forall L F, parse_source_e L F s1 = PErr n1 st1 /\ parse_source_e L F s2 = PErr n2 st2.
Proof.
  exists (txt "[?]"), (txt "{""[0]"":?}"), 0%nat, 0%nat, [CIdx 0], [CKey (txt "[0]")]. split; [discriminate|]. split; [reflexivity|].
  intros L F. split; vm_compute; reflexivity.
Qed.
