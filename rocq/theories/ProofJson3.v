(** Proofs for C104: the texts of doubles. *)
From Coq Require Import ZArith Reals Lra Lia Floats.SpecFloat.
From Verif Require Import Base SpecUtf8 SpecKeyed ModelValue SpecText SpecBin ModelText SpecDouble SpecJson.
From Verif Require Import ProofDouble6 ProofDouble7 ProofDoubleLem.
Local Open Scope Z_scope.

Lemma number_num : forall t x, json_number t x -> json_num t.
Proof.
  intros t x (sg & ip & fp & ep & n & m & k & y & -> & Hs & (Di & _ & Hi) & Hf & He & _). exists sg, ip, fp, ep.
  split; [reflexivity|]. split; [exact Hs|]. split; [|split].
  - destruct Hi as [->|(c & t' & -> & N)]; [left; reflexivity|right]. exists c, t'. inversion_clear Di as [|? ? Hc Ht].
    unfold digit_char in Hc. split; [reflexivity|]. split; [lia|exact Ht].
  - destruct Hf as [(-> & _)|(ds & -> & N & Hd & _)]; [left; reflexivity|right]. exists ds. split; [reflexivity|]. split; assumption.
  - destruct He as [(-> & _)|(e & s & ds & -> & H1 & N & Hd & H2)]; [left; reflexivity|right]. exists e, s, ds.
    split; [reflexivity|]. split; [exact H1|]. split; [tauto|]. split; assumption.
Qed.
Lemma doubles_num : forall L digits E utf8 d, good_libm L -> doubles_by L digits E -> finite d ->
  (real_of d = 0 \/ powerRZ 10 (-307) <= Rabs (real_of d))%R -> json_num (se_double E utf8 d).
Proof.
  intros L digits E utf8 d HL HE Hd [H|H].
  - destruct d as [s|s| |s m e].
    + rewrite (HE utf8 (S754_zero s) [48]) by (apply zero_kept; exact HL). exists [], [48], [], []. split; [reflexivity|]. split; [auto|].
      split; [left; reflexivity|]. split; left; reflexivity.
    + destruct Hd as [_ Hd]; discriminate.
    + destruct Hd as [_ Hd]; discriminate.
    + exfalso. cbn [real_of] in H. apply Rmult_integral in H as [H|H].
      * apply eq_IZR in H. destruct s; discriminate.
      * revert H. apply powerRZ_NOR. lra.
  - destruct (text_accurate L utf8 digits d HL Hd H) as (t & x & Et & Hn & _). rewrite (HE utf8 d t Et). eapply number_num. exact Hn.
Qed.
