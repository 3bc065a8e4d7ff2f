(** Proofs about keys as text. *)
From Coq Require Import String Lia ZArith.
From Verif Require Import Base ModelKeyed ModelValue ModelText SpecText ModelEnc SpecEnc ProofEnc ModelJwt SpecJwt ProofJwt ProofJwt2 ModelRpc ModelJwtCrypto SpecJwtCrypto ProofJwtCrypto ModelJwtKeys SpecJwtKeys.
Local Open Scope Z_scope.
Local Open Scope list_scope.

Lemma init_curve : forall size c, curve size c -> init_key size = Some c.
Proof. intros size c [[-> ->]|[[-> ->]|[-> ->]]]; reflexivity. Qed.
Lemma init_none : forall size, (forall c, ~ curve size c) -> init_key size = None.
Proof.
  intros size H. unfold init_key. destruct (Z.eqb_spec size 256); [exfalso; apply (H 415); unfold curve; lia|].
  destruct (Z.eqb_spec size 384); [exfalso; apply (H 715); unfold curve; lia|].
  destruct (Z.eqb_spec size 512); [exfalso; apply (H 716); unfold curve; lia|]. reflexivity.
Qed.
Lemma text_binary : forall b, is_bytes b -> b64url_binary (b64_text true false b) = Some b.
Proof. intros b B. rewrite binary_string, <- (b64_encode_spec true false b B), b64_string by exact B. reflexivity. Qed.

Lemma export_text : forall K (O : eckeys K) k, is_bytes (ek_write O k) -> key_text (ek_write O k) (export_public O k).
Proof. intros K O k B. unfold key_text, export_public. cbn [encode_chunks]. apply b64_encode_spec, B. Qed.
Lemma round : forall K (O : eckeys K) size c k p, curve size c -> public_part O c k p ->
  import_public O size (export_public O k) = KKey p.
Proof.
  intros K O size c k p C [B R]. unfold import_public. rewrite (export_text K O k B), (text_binary _ B), (init_curve size c C), R. reflexivity.
Qed.
Lemma public_text : forall K (O : eckeys K) size b text, is_bytes b -> key_text b text ->
  (forall c, curve size c -> import_public O size text = match ek_read O c b with Some p => KKey p | None => KNull end) /\
  ((forall c, ~ curve size c) -> import_public O size text = KNull).
Proof.
  intros K O size b text B ->. unfold import_public. rewrite (text_binary _ B). split.
  - intros c C. rewrite (init_curve _ _ C). reflexivity.
  - intros H. rewrite (init_none _ H). reflexivity.
Qed.
Lemma private_text : forall K (O : eckeys K) size c b text, curve size c -> is_bytes b -> key_text b text -> b <> [] ->
  import_private O size text = match ek_mul O c (spells b) with Some k => KKey k | None => KNull end.
Proof.
  intros K O size c b text C B -> N. unfold import_private. rewrite (text_binary _ B). destruct b as [|x b]; [congruence|].
  unfold import_private_bytes. rewrite (init_curve _ _ C), be_num_spells. reflexivity.
Qed.
Lemma spells_zeros : forall n b, spells (repeat 0 n ++ b) = spells b.
Proof. induction n as [|n IH]; intros b; [reflexivity|]. cbn [repeat app spells]. rewrite IH. lia. Qed.
Lemma private_zeros : forall K (O : eckeys K) size c n b text text', curve size c -> is_bytes b -> b <> [] ->
  key_text b text -> key_text (repeat 0 n ++ b) text' -> import_private O size text' = import_private O size text.
Proof.
  intros K O size c n b text text' C B N T T'. rewrite (private_text K O size c b text C B T N).
  assert (B' : is_bytes (repeat 0 n ++ b)).
  { apply Forall_app. split; [|exact B]. apply Forall_forall. intros x X. apply repeat_spec in X. subst x. unfold is_byte. lia. }
  assert (N' : repeat 0 n ++ b <> []) by (intros E; apply app_eq_nil in E as [_ E]; congruence).
  rewrite (private_text K O size c _ text' C B' T' N').
  rewrite spells_zeros. reflexivity.
Qed.
Lemma private_none : forall K (O : eckeys K) size, import_private O size [] = KNull.
Proof. intros. reflexivity. Qed.
Lemma private_bad : forall K (O : eckeys K) size b text, (forall c, ~ curve size c) -> is_bytes b -> key_text b text -> b <> [] ->
  import_private O size text = KBad.
Proof.
  intros K O size b text H B -> N. unfold import_private. rewrite (text_binary _ B). destruct b as [|x b]; [congruence|].
  unfold import_private_bytes. rewrite (init_none _ H). reflexivity.
Qed.
Lemma pair_round : forall K (O : eckeys K) size c b text k p, curve size c -> is_bytes b -> key_text b text -> b <> [] ->
  ek_mul O c (spells b) = Some k -> public_part O c k p ->
  exists k', import_private O size text = KKey k' /\ import_public O size (export_public O k') = KKey p.
Proof.
  intros K O size c b text k p C B T N M P. exists k. rewrite (private_text K O size c b text C B T N), M. split; [reflexivity|].
  exact (round K O size c k p C P).
Qed.
