(** C61: definitions of the validator on which every validation ends. *)
From Coq Require Import String Ascii Lia.
From Verif Require Import Base ModelKeyed SpecKeyed ModelValue ModelText ModelObject ModelArray ModelEq ModelBin ModelJwt ModelString
  ModelPath ModelRpc ModelNumView ModelValidator SpecValidator SpecTerm SpecTermCheck ProofTerm ProofTermCheck PropEq PropValidator.
Local Open Scope Z_scope.
Local Open Scope list_scope.

(** For a sound definition every class gives a verdict on every subject with any
    variables: no exception, no undefined behaviour, no endless recursion. *)
Theorem C61_class_decided : forall V rank, sound_definition (v_def V) rank ->
  forall vars m w, decided V vars m (value_member (v_def V) w).
Proof. exact sound_ends. Qed.
Print Assumptions C61_class_decided.

(** The same for a sound rule, wherever it stands. *)
Theorem C61_rule_decided : forall V rank, sound_definition (v_def V) rank ->
  forall vars m c p r, sound (v_def V) rank c p r -> decided V vars m r.
Proof. exact sound_rule_ends. Qed.
Print Assumptions C61_rule_decided.

(** [validate] ends with one verdict, from some depth on whatever the bound. *)
Theorem C61_validate : forall V rank, sound_definition (v_def V) rank ->
  forall m w p s, exists f b, forall g, (f <= g)%nat -> exists t, validate V g m w p s = VDone b t.
Proof. exact sound_validates. Qed.
Print Assumptions C61_validate.

(** A check of a definition, by computation. *)
Theorem C61_check : forall def rank, check_definition def rank = true -> sound_definition def rank.
Proof. exact check_definition_sound. Qed.
Print Assumptions C61_check.

(** A linked list and a tree of arrays, recursive on something smaller, and a
    class on the parts of a text. *)
Definition term_def : value := pv
  "{`_root`:[`node`,`tree`,`list`],`list`:[`explode`,`,`,[[],`item`]],`item`:[`prefix`,`a`,`digits`],
    `node`:{`next`:[`node`,`optional`],`value`:[`all`,`>=`,0,`integer`]},`tree`:[[[],`tree`],`number`,[`tostring`,`[a-z]`]]}".
Definition term_rank (w : bytes) : nat * nat :=
  if beqb w (txt "_root") then (1, 1)%nat else if beqb w (txt "list") then (1, 0)%nat else (0, 0)%nat.
Example C61_case : sound_definition term_def term_rank.
Proof. apply C61_check. vm_compute. reflexivity. Qed.
Example C61_case_decided : forall vars m, decided (valV term_def) vars m (value_member term_def (txt "_root")).
Proof. intros vars m. exact (C61_class_decided (valV term_def) term_rank C61_case vars m (txt "_root")). Qed.
Example C61_case_not : forallb (fun r => negb (check_definition (pv "{`_root`:`_root`}") (fun _ => r)))
  [(0, 0); (1, 0); (0, 1); (5, 7)]%nat = true.
Proof. vm_compute. reflexivity. Qed.

(** A class that refers to itself on the same subject never returns. *)
Theorem C61_loop_refuted : exists V m, forall fuel p s, eval_rule V fuel p m (VStr None (txt "a")) s = VFuel.
Proof.
  exists (valV (pv "{`a`:`a`}")), ([], VNull). induction fuel as [|f IH]; intros p s; [reflexivity|].
  change (close_rule (valV (pv "{`a`:`a`}")) p (VStr None (txt "a")) (length (vs_rej s))
    (eval_rule (valV (pv "{`a`:`a`}")) f p ([], VNull) (VStr None (txt "a")) s) = VFuel).
  rewrite IH. reflexivity.
Qed.
Print Assumptions C61_loop_refuted.
(** Neither does one that refers to itself on the first part of a missing item:
    splitting what is undefined gives an empty array. *)
Theorem C61_split_loop_refuted : exists V r, value_member (v_def V) (txt "a") = r /\
  forall fuel p s, eval_rule V fuel p ([], VArr []) r s = VFuel.
Proof.
  set (r2 := VArr [([], VStr None (txt "split")); ([], VNum (NUInt 0)); ([], VStr None (txt "a")); ([], VStr None (txt "any"))]).
  set (r := VArr [([], VArr [([], VNum (NUInt 1))]); ([], r2)]).
  set (V := valV (VObj false [(txt "a", r)])).
  exists V, r. split; [reflexivity|].
  assert (H : forall fuel, (forall p s, eval_rule V fuel p ([], VArr []) r s = VFuel) /\
    (forall p s, eval_rule V fuel p ([], VUndef) r2 s = VFuel) /\ (forall p s, eval_rule V fuel p ([], VArr []) (VStr None (txt "a")) s = VFuel)).
  { induction fuel as [|f (A & B & C)]; [repeat split; reflexivity|]. repeat split; intros p s.
    - change (eval_rule V (S f) p ([], VArr []) r s) with (close_rule V p r (length (vs_rej s))
        (eval_array V (eval_rule V f) p ([], VArr []) r 1 s)).
      change (eval_array V (eval_rule V f) p ([], VArr []) r 1 s) with
        (vbind (vbind (eval_rule V f (pindex 0 :: p) ([], VUndef) r2 s) (fun b s => if b then tuple_items (eval_rule V f) p (VArr []) [] 1 1 s else VDone false s))
          (fun b s => if b then rest_items V (eval_rule V f) p [] r 1 2 s else VDone false s)).
      rewrite B. reflexivity.
    - change (eval_rule V (S f) p ([], VUndef) r2 s) with (close_rule V p r2 (length (vs_rej s))
        (vbind (eval_rule V f p ([], VArr []) (VStr None (txt "a")) s) (fun b s =>
           if b then eval_rule V f p ([], VUndef) (VStr None (txt "any")) s else VDone false s))).
      rewrite C. reflexivity.
    - change (eval_rule V (S f) p ([], VArr []) (VStr None (txt "a")) s) with (close_rule V p (VStr None (txt "a")) (length (vs_rej s))
        (eval_rule V f p ([], VArr []) r s)). rewrite A. reflexivity. }
  intros fuel. exact (proj1 (H fuel)).
Qed.
Print Assumptions C61_split_loop_refuted.
