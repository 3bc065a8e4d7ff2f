(** C119: methods which change their server. *)
From Coq Require Import String List ZArith.
From Verif Require Import Base ModelRpc ModelRegLife SpecRegLife ProofRegLife.
Import ListNotations.
Local Open Scope list_scope.
Local Open Scope nat_scope.

(** At any time of any run: a name is given away only when free, calls reach the
    object the name stands for, and what the objects use is theirs - until the
    first use, if any, by an object removed while it runs.  The behaviour is
    undefined then and only then. *)
Theorem C119_history : forall fuel l,
  match mstart fuel l with
  | LDone s | LMore s => forall a e b, ms_log s = a ++ e :: b -> right a e
  | LBad s => exists log id, ms_log s = log ++ [XUse id] /\ gone log id /\ forall a e b, log = a ++ e :: b -> right a e
  end.
Proof. exact history. Qed.
Print Assumptions C119_history.

(** A run that ends did what its code says, each call running the code registered. *)
Theorem C119_finished : forall fuel l s, mstart fuel l = LDone s -> exists code, does code [] None l (ms_log s).
Proof. exact finished. Qed.
Print Assumptions C119_finished.

(** The result does not depend on the time given. *)
Theorem C119_settled : forall f f' l, f <= f' -> (forall t, mstart f l <> LMore t) -> mstart f' l = mstart f l.
Proof. exact settled. Qed.
Print Assumptions C119_settled.

(** Methods which use what they hold before they remove or call anything may
    remove any method, themselves included. *)
Theorem C119_uses_first : forall fuel l s, makes uses_first l -> mstart fuel l <> LBad s.
Proof. exact uses_first_safe. Qed.
Print Assumptions C119_uses_first.

(** If methods remove nothing, code outside may. *)
Theorem C119_keeps : forall fuel l s, makes keeps l -> mstart fuel l <> LBad s.
Proof. exact keeps_safe. Qed.
Print Assumptions C119_keeps.

(** A method which removes itself must not touch its captures any more. *)
Theorem C119_self_refuted : exists l s, mstart 9 l = LBad s.
Proof. exists [MAdd (txt "stop") [MUse; MRemove (txt "stop"); MUse]; MCall (txt "stop")]. eexists. vm_compute. reflexivity. Qed.
Print Assumptions C119_self_refuted.

Definition ex_server : list mop :=
  [MAdd (txt "a") [MUse; MCall (txt "b"); MCall (txt "b")]; MAdd (txt "b") [MUse; MUse; MRemove (txt "a"); MRemove (txt "b")];
   MAdd (txt "a") [MClear]; MCall (txt "a"); MCall (txt "a"); MAdd (txt "a") []; MCall (txt "a")].
Example C119_case : makes uses_first ex_server /\ exists s, mstart 20 ex_server = LDone s /\ ms_log s =
  [XAdd (txt "a") 0; XAdd (txt "b") 1; XRefuse (txt "a"); XEnter (txt "a") 0; XUse 0; XEnter (txt "b") 1; XUse 1; XUse 1;
   XRemove (txt "a"); XRemove (txt "b"); XLeave 1; XMiss (txt "b"); XLeave 0; XMiss (txt "a"); XAdd (txt "a") 2; XEnter (txt "a") 2; XLeave 2].
Proof.
  split; [|eexists; split; vm_compute; reflexivity].
  assert (U : forall l, (forall o, In o l -> o <> MUse) -> uses_first l) by (intros l H; apply uf_rest; intros X; exact (H _ X eq_refl)).
  unfold ex_server.
  repeat first [apply mk_nil | apply mk_add | apply mk_other; [discriminate|]];
    repeat apply uf_use; apply U; intros o H; cbn [In] in H; repeat (destruct H as [<-|H]; [discriminate|]); contradiction.
Qed.
Example C119_keeps_case : makes keeps [MAdd (txt "a") [MUse; MCall (txt "b"); MUse]; MAdd (txt "b") [MUse]; MCall (txt "a"); MClear; MCall (txt "a")].
Proof.
  repeat first [apply mk_nil | apply mk_add | apply mk_other; [discriminate|]];
    (split; [intros H; cbn [In] in H; intuition discriminate|intros n H; cbn [In] in H; intuition discriminate]).
Qed.
