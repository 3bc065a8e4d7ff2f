(** C121: sources that go on after their end. *)
From Coq Require Import String Lia.
From Verif Require Import Base SpecEnd ModelKeyed ModelValue ModelText ModelRpc SpecText SpecDocs ProofEnd ProofMarks.
Local Open Scope list_scope.
Local Open Scope Z_scope.

(** [-1] is what a source delivers at its end.  A document is read as if nothing came
    after the end; the end is read at most once, and nothing after it. *)
Theorem C121_once : forall L F s t v r, ~ In (-1) s -> parse_source L F s = Ok (v, r) ->
  exists r', parse_source L F (s ++ -1 :: t) = Ok (v, r') /\ cur r' = cur r /\
    src r' = if match cur r with Some c => c =? -1 | None => false end then t else src r ++ -1 :: t.
Proof. exact end_kept. Qed.
Print Assumptions C121_once.

(** The same for texts that are refused, unless they break off within the characters of
    an escape. *)
Theorem C121_refused : forall L F s t, ~ In (-1) s -> ~ inside_escape s ->
  match parse_source L F s, parse_source L F (s ++ -1 :: t) with
  | Ok (v, r), Ok (v', r') => v = v' /\ cur r' = cur r /\ src r' = (if match cur r with Some c => c =? -1 | None => false end then t else src r ++ -1 :: t)
  | Err, Err => True
  | _, _ => False
  end.
Proof. exact same_end. Qed.
Print Assumptions C121_refused.

(** There the end is taken for a character: what comes after it completes the string. *)
Theorem C121_escape_refuted : exists s t, ~ In (-1) s /\ forall L F,
  parse_source L F s = Err /\ exists r, parse_source L F (s ++ -1 :: t) = Ok (VStr None [65], r).
Proof.
  exists (34 :: 92 :: txt "u0"), (txt "41" ++ [34]). split; [cbn; intuition lia|]. intros L F. split; [reflexivity|]. exists (mkR [] None). vm_compute. reflexivity.
Qed.
Print Assumptions C121_escape_refuted.

(** It does not matter how often the end is given, whatever the text and what it holds. *)
Theorem C121_marks : forall L F s n,
  match parse_source L F s, parse_source L F (s ++ repeat (-1) n) with
  | Ok (v, r), Ok (v', r') => v = v' /\ cur r' = cur r /\ exists k, src r' = src r ++ repeat (-1) k
  | Err, Err => True
  | _, _ => False
  end.
Proof. exact marks_value. Qed.
Print Assumptions C121_marks.

(** A number reads the end, an array leaves it. *)
Example C121_case : ~ In (-1) (txt "[1,2.5e3]") /\ ~ inside_escape (txt "[1,2.5e3]") /\ forall L t,
  (exists r, parse_source L (mkPF false true) (txt " [1,-2]" ++ -1 :: t) = Ok (VArr [([], VNum (NPrec (txt "1") (PkUInt 1))); ([], VNum (NPrec (txt "-2") (PkInt (-2))))], r) /\ src r = -1 :: t) /\
  (exists r, parse_source L (mkPF false false) (txt "12" ++ -1 :: t) = Ok (VNum (NUInt 12), r) /\ src r = t).
Proof.
  split; [cbn; intuition lia|]. split.
  { intros (pre & h & E & _). assert (X : In 92 (txt "[1,2.5e3]")) by (rewrite E; apply in_app_iff; right; left; reflexivity). cbn in X. intuition lia. }
  intros L t. split.
  - destruct (C121_once L (mkPF false true) (txt " [1,-2]") t _ (mkR [] None) ltac:(cbn; intuition lia) ltac:(vm_compute; reflexivity)) as (r & H & _ & E). exists r. split; [exact H|exact E].
  - destruct (C121_once L (mkPF false false) (txt "12") t _ (mkR [] (Some (-1))) ltac:(cbn; intuition lia) ltac:(vm_compute; reflexivity)) as (r & H & _ & E). exists r. split; [exact H|exact E].
Qed.
