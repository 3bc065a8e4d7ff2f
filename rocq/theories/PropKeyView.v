(** C101: the keys a binary serializer remembers. *)
From Coq Require Import String.
From Verif Require Import Base ModelValue ModelObject ModelEnc ModelBin ModelRpc ModelKeyView SpecBin SpecKeyView ProofBin3 ProofKeyView.
Local Open Scope string_scope.
Local Open Scope list_scope.
Local Open Scope Z_scope.

(** If no key is released after it was sent or preloaded until the keys are
    cleared, no released memory is read and what is written is what the
    theorems C19-C22 are about. *)
Theorem C101_kept : forall text L F ops, Forall (lies text) ops -> kept [] [] ops ->
  write_views text L F [] ks_init ops = Some (fst (write_session L F (plain_ops text ops) ws_init)).
Proof. exact views_kept. Qed.
Print Assumptions C101_kept.

(** Then a parser reads back what was sent. *)
Theorem C101_read : forall J text L F pe ops rest, (forall n, is_bytes (J n)) -> Forall (lies text) ops -> kept [] [] ops ->
  Forall (fun m => bin_text F (fst m) /\ bin_ok L F (snd m)) (sent (plain_ops text ops)) -> fresh_preloads [] (plain_ops text ops) ->
  session_keys (plain_ops text ops) < 2 ^ 32 - 256 ->
  exists o p', write_views text L F [] ks_init ops = Some o /\
    read_session J (Some pe) (plain_ops text ops) (ps_init (o ++ rest)) =
      Ok (map (fun m => (fst m, decoded L F pe (snd m))) (sent (plain_ops text ops)), p') /\ ps_in p' = rest.
Proof. exact views_read. Qed.
Print Assumptions C101_read.

(** A key sent again after the value in which it was first met was released:
    released memory is read, whatever else the program does. *)
Theorem C101_again : forall text L F ops k b m bs rest, Forall (lies text) (ops ++ KFree b :: KSend m bs :: rest) ->
  bf_keys F = true -> In (k, b) (held_after text F [] ops) -> In k (fst m :: keys_in (snd m)) -> k <> [] ->
  write_views text L F [] ks_init (ops ++ KFree b :: KSend m bs :: rest) = None.
Proof. exact views_again. Qed.
Print Assumptions C101_again.

(** Exactly when: if no two keys of the program have the same hash, released memory
    is read if and only if a key is sent or preloaded whose first block is
    released. *)
Theorem C101_exact : forall text L F ops, Forall (lies text) ops ->
  (forall a b, In a (met text ops) -> In b (met text ops) -> key_hash a = key_hash b -> a = b) ->
  (write_views text L F [] ks_init ops = Some (fst (write_session L F (plain_ops text ops) ws_init)) <-> no_dangling eq text F [] [] ops) /\
  (write_views text L F [] ks_init ops = None <-> ~ no_dangling eq text F [] [] ops).
Proof. exact views_exact. Qed.
Print Assumptions C101_exact.

(** Without [compressKeys] values may be released as soon as they are sent. *)
Theorem C101_plain : forall text L F ops, Forall (lies text) ops -> bf_keys F = false -> sends_alive [] ops ->
  write_views text L F [] ks_init ops = Some (fst (write_session L F (plain_ops text ops) ws_init)).
Proof. exact views_plain. Qed.
Print Assumptions C101_plain.

(** Two values with the key "id", the first released before the second is sent. *)
Definition kv_text (b : nat) : bytes := match b with 1%nat | 3%nat => txt "id" | 2%nat => txt "name" | _ => [] end.
Definition kv_first : kop := KSend ([], VObj false [(txt "id", VNum (NUInt 1)); (txt "name", VStr None (txt "x"))]) [0; 1; 2]%nat.
Definition kv_second : kop := KSend ([], VObj false [(txt "id", VNum (NUInt 2))]) [0; 3]%nat.
Definition kv_L : libm := mkLibm (fun _ _ => S754_nan) (fun _ => S754_nan) (fun _ => S754_nan).
Definition kv_F (c : bool) : bflags := mkBF c false false.
Example C101_case_ops : Forall (lies kv_text) [kv_first; KFree 1; KFree 2; kv_second] /\ sends_alive [] [kv_first; KFree 1; KFree 2; kv_second].
Proof.
  split.
  - repeat constructor; cbn; intros; congruence.
  - cbn. intuition (subst; cbn in *; intuition lia).
Qed.
Theorem C101_released_refuted : exists text ops, Forall (lies text) ops /\ sends_alive [] ops /\
  forall L, write_views text L (mkBF true false false) [] ks_init ops = None.
Proof.
  exists kv_text, [kv_first; KFree 1; KFree 2; kv_second]. destruct C101_case_ops as [A B]. split; [exact A|]. split; [exact B|]. intros L. vm_compute. reflexivity.
Qed.
Print Assumptions C101_released_refuted.

(** Kept, or cleared in between, or with the other key released only. *)
Example C101_case :
  write_views kv_text kv_L (kv_F true) [] ks_init [kv_first; kv_second; KFree 1; KFree 2; KFree 3] =
    Some [82; 114; 105; 100; 33; 116; 110; 97; 109; 101; 65; 120; 81; 129; 34] /\
  kept [] [] [kv_first; kv_second; KClear; KFree 1; KFree 2; KFree 3] /\
  write_views kv_text kv_L (kv_F true) [] ks_init [kv_first; KClear; KFree 1; KFree 2; kv_second] =
    Some [82; 114; 105; 100; 33; 116; 110; 97; 109; 101; 65; 120; 81; 114; 105; 100; 34] /\
  write_views kv_text kv_L (kv_F true) [] ks_init [kv_first; KFree 2; kv_second] =
    Some [82; 114; 105; 100; 33; 116; 110; 97; 109; 101; 65; 120; 81; 129; 34] /\
  ~ kept [] [] [kv_first; KFree 2; kv_second] /\
  write_views kv_text kv_L (kv_F false) [] ks_init [kv_first; KFree 1; KFree 2; kv_second] =
    Some [82; 114; 105; 100; 33; 116; 110; 97; 109; 101; 65; 120; 81; 114; 105; 100; 34] /\
  held_after kv_text (kv_F true) [] [kv_first] = [(txt "name", 2%nat); (txt "id", 1%nat)] /\
  key_hash (txt "id") <> key_hash (txt "name").
Proof.
  split; [vm_compute; reflexivity|]. split; [cbn; intuition lia|]. split; [vm_compute; reflexivity|]. split; [vm_compute; reflexivity|].
  split; [cbn; intuition lia|]. split; [vm_compute; reflexivity|]. split; [vm_compute; reflexivity|]. vm_compute. discriminate.
Qed.
