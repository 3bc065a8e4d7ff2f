From Coq Require Import Lia ZifyBool.
From Verif Require Import Base ModelValue ModelEnc ModelMem SpecMem ProofMem ModelCstr SpecCstr.
Local Open Scope list_scope.
Local Open Scope Z_scope.

Section Cut.
Variables (L : layout) (nul : option (block * Z)).
Hypothesis Sane : sane L.

Lemma cut_view : forall h t from n, cut L h t from n -> (from + n <= length t)%nat /\
  exists s, holds L s t /\ h_view L nul h = (Some (so_blk s, l_hdr L + Z.of_nat from), Z.of_nat n).
Proof.
  intros h t from n H. induction H as [s t H|h t from n pos len H (Le & s & Hs & E)].
  - split; [lia|]. exists s. split; [exact H|]. cbn [h_view]. destruct H as [-> _]. rewrite Z.add_0_r. reflexivity.
  - split; [lia|]. exists s. split; [exact Hs|]. cbn [h_view]. rewrite E. cbn [option_map]. f_equal; [f_equal; f_equal; lia|lia].
Qed.
Lemma nth_skip : forall (A : Type) n (l : list A) k d, nth k (skipn n l) d = nth (n + k) l d.
Proof. induction n as [|n IH]; intros l k d; [reflexivity|]. destruct l; [destruct k; reflexivity|]. apply IH. Qed.
Lemma nth_first : forall (A : Type) n (l : list A) k d, (k < n)%nat -> nth k (firstn n l) d = nth k l d.
Proof. induction n as [|n IH]; intros l k d H; [lia|]. destruct l; [reflexivity|]. destruct k; [reflexivity|]. cbn. apply IH. lia. Qed.
Lemma cut_str : forall h t from n, cut L h t from n -> h_str L nul h = MOk (firstn n (skipn from t)) /\ h_length L nul h = Z.of_nat n.
Proof.
  intros h t from n H. destruct (cut_view h t from n H) as (Le & s & (_ & T & Z0 & B0 & B1) & E). unfold h_str, h_length. rewrite E. cbn [snd]. split; [|reflexivity].
  destruct Sane as [S1 S2]. rewrite Nat2Z.id. apply load_all_ok; [rewrite firstn_length, skipn_length; lia|lia|lia|].
  intros k Hk. rewrite nth_first, nth_skip by lia. rewrite <- T by lia. f_equal. lia.
Qed.
Lemma cut_at : forall h t from n pos, cut L h t from n -> 0 <= pos -> h_at L nul h pos = MOk (nth (Z.to_nat pos) (firstn n (skipn from t)) 0).
Proof.
  intros h t from n pos H P. destruct (cut_view h t from n H) as (Le & s & (_ & T & Z0 & B0 & B1) & E). unfold h_at. rewrite E.
  destruct Sane as [S1 S2]. destruct (Z.leb_spec (Z.of_nat n) pos).
  - rewrite nth_overflow; [reflexivity|]. rewrite firstn_length, skipn_length. lia.
  - rewrite nth_first, nth_skip by lia. apply load_ok; [lia|]. rewrite <- T by lia. f_equal. lia.
Qed.
Lemma c_string_text : forall t fuel b i, (length t < fuel)%nat -> text_in b i t -> c_string fuel b i = MOk (before_zero t).
Proof.
  induction t as [|c t IH]; intros fuel b i F (T & Z0 & I0 & I1); (destruct fuel as [|fuel]; [cbn in F; lia|]); cbn [c_string before_zero length] in *.
  - rewrite (load_ok b i 0); [reflexivity|lia|]. rewrite <- Z0. f_equal. lia.
  - rewrite (load_ok b i c); [|lia|specialize (T O ltac:(lia)); cbn in T; rewrite <- T; f_equal; lia]. cbn [mbind]. destruct (c =? 0); [reflexivity|].
    rewrite (IH fuel b (i + 1)); [reflexivity|lia|]. split; [|split; [rewrite <- Z0; f_equal; lia|lia]].
    intros k Hk. specialize (T (S k) ltac:(lia)). cbn [nth] in T. rewrite <- T. f_equal. lia.
Qed.
Lemma cut_cstr : forall h t from n, cut L h t from n -> h_cstr L nul h = MOk (before_zero (skipn from t)).
Proof.
  intros h t from n H. destruct (cut_view h t from n H) as (Le & s & (_ & T & Z0 & B0 & B1) & E). unfold h_cstr. rewrite E. cbn [fst].
  apply c_string_text; [rewrite skipn_length; lia|]. split; [|split; [|rewrite skipn_length; destruct Sane; lia]].
  - intros k Hk. rewrite skipn_length in Hk. rewrite nth_skip, <- T by lia. f_equal. lia.
  - rewrite skipn_length, <- Z0. f_equal. lia.
Qed.
Lemma before_all : forall t, ~ In 0 t -> before_zero t = t.
Proof. induction t as [|c t IH]; intros H; [reflexivity|]. cbn in *. destruct (Z.eqb_spec c 0); [subst; intuition|]. rewrite IH; intuition. Qed.
Lemma in_skip : forall (A : Type) (x : A) n l, In x (skipn n l) -> In x l.
Proof. induction n as [|n IH]; intros l H; [exact H|]. destruct l; [exact H|]. right. apply IH. exact H. Qed.
Lemma cut_exact : forall h t from n, cut L h t from n -> ~ In 0 t -> (h_cstr L nul h = h_str L nul h <-> (from + n)%nat = length t).
Proof.
  intros h t from n H N. destruct (cut_view h t from n H) as (Le & _). rewrite (cut_cstr h t from n H), (proj1 (cut_str h t from n H)), before_all by (intros I; apply N; eapply in_skip; exact I).
  split.
  - intros E. injection E as E. apply (f_equal (@length Z)) in E. rewrite firstn_length, skipn_length in E. lia.
  - intros E. f_equal. symmetry. apply firstn_all2. rewrite skipn_length. lia.
Qed.
Lemma plus_ok : forall limit a b x y, h_str L nul a = MOk x -> h_str L nul b = MOk y -> string_size L (Z.of_nat (length (x ++ y))) < 2 ^ 64 -> x ++ y <> [] ->
  if string_size L (Z.of_nat (length (x ++ y))) <=? limit then exists h, h_plus L nul limit a b = MOk h /\ cut L h (x ++ y) 0 (length (x ++ y))
  else h_plus L nul limit a b = MNoMem.
Proof.
  intros limit a b x y A B S N. unfold h_plus. rewrite A, B. cbn [mbind]. pose proof (string_of_view_ok limit L Sane None (x ++ y) S) as K. unfold built in K.
  destruct (x ++ y) as [|c t] eqn:E; [congruence|]. destruct (_ <=? limit).
  - destruct K as (s & -> & _ & Hs). exists (HOwn s). split; [reflexivity|]. constructor. exact Hs.
  - rewrite K. reflexivity.
Qed.
Lemma plus_empty : forall limit a b, h_str L nul a = MOk [] -> h_str L nul b = MOk [] -> h_plus L nul limit a b = MOk HEmpty.
Proof. intros limit a b A B. unfold h_plus. rewrite A, B. reflexivity. Qed.
End Cut.
