(** The compression of texts: codes as bytes, characters as symbols. *)
From Coq Require Import Lia ZifyBool.
From Verif Require Import Base ModelCompress SpecCompress ProofCompress.
Local Open Scope Z_scope.
Local Open Scope list_scope.
Ltac Zify.zify_post_hook ::= Z.div_mod_to_equations.

(** *** Codes *)
Definition masks : list Z := [128; 192; 224; 240; 248; 252; 254; 255].
Lemma mask_all : forall P : Z -> bool, forallb P masks = true -> forall ext, mask ext -> P ext = true.
Proof. intros P H ext M. rewrite forallb_forall in H. exact (H ext M). Qed.
Lemma mask_range : forall ext, mask ext -> 128 <= ext <= 255.
Proof. intros ext M. pose proof (mask_all (fun e => (128 <=? e) && (e <=? 255)) eq_refl ext M) as H. cbn beta in H. lia. Qed.
Lemma mask_cap : forall ext, mask ext -> first_code < max_code_opt ext.
Proof. intros ext M. pose proof (mask_all (fun e => first_code <? max_code_opt e) eq_refl ext M) as H. cbn beta in H. lia. Qed.
Lemma mask_big : forall ext, mask ext -> flush_code ext < 2 ^ 16.
Proof. intros ext M. pose proof (mask_all (fun e => flush_code e <? 2 ^ 16) eq_refl ext M) as H. cbn beta in H. lia. Qed.
Lemma mask_xor : forall ext, mask ext -> Z.lxor ext 255 = 255 - ext.
Proof. intros ext M. pose proof (mask_all (fun e => Z.lxor e 255 =? 255 - e) eq_refl ext M) as H. cbn beta in H. lia. Qed.
Lemma one_byte : forall ext c, mask ext -> 0 <= c < ext -> Z.land c ext <> ext.
Proof.
  intros ext c M C. pose proof (mask_all (fun e => forallb (fun c => negb (c <? e) || negb (Z.land c e =? e)) (zrange 0 256)) eq_refl ext M) as H.
  cbn beta in H. rewrite forallb_forall in H. pose proof (mask_range ext M). specialize (H c (zrange_in 0 256 c ltac:(lia))). lia.
Qed.
Lemma two_bytes : forall ext h, mask ext -> 0 <= h <= 255 - ext -> to_byte (Z.lor h ext) = Z.lor h ext /\ Z.land (Z.lor h ext) ext = ext /\ Z.land (Z.lor h ext) (255 - ext) = h.
Proof.
  intros ext h M C.
  pose proof (mask_all (fun e => forallb (fun h => negb (h <=? 255 - e) || ((to_byte (Z.lor h e) =? Z.lor h e) && (Z.land (Z.lor h e) e =? e) && (Z.land (Z.lor h e) (255 - e) =? h))) (zrange 0 128)) eq_refl ext M) as H.
  cbn beta in H. rewrite forallb_forall in H. pose proof (mask_range ext M). specialize (H h (zrange_in 0 128 h ltac:(lia))). lia.
Qed.
Lemma or_low : forall h l, 0 <= h < 128 -> 0 <= l < 256 -> Z.lor (h * 256) l = h * 256 + l.
Proof.
  intros h l Hh Hl. assert (S : forallb (fun h => forallb (fun l => Z.lor (h * 256) l =? h * 256 + l) (zrange 0 256)) (zrange 0 128) = true) by (vm_compute; reflexivity).
  rewrite forallb_forall in S. specialize (S h (zrange_in 0 128 h ltac:(lia))). rewrite forallb_forall in S. specialize (S l (zrange_in 0 256 l ltac:(lia))). lia.
Qed.
Lemma code_bytes : forall ext code rest, mask ext -> 0 <= code <= flush_code ext -> read_code ext (write_code ext code ++ rest) = (code, rest).
Proof.
  intros ext code rest M C. pose proof (mask_range ext M) as R. unfold flush_code in C. rewrite (mask_xor ext M) in C. unfold write_code.
  destruct (Z.ltb_spec code ext) as [L|L].
  - cbn [app]. assert (to_byte code = code) as -> by (unfold to_byte; lia). unfold read_code. cbn [next_byte].
    pose proof (one_byte ext code M ltac:(lia)). destruct (Z.eqb_spec (Z.land code ext) ext); [contradiction|]. reflexivity.
  - set (c := code - ext) in *. cbn [app]. assert (Z.shiftr c 8 = c / 256) as -> by (rewrite Z.shiftr_div_pow2 by lia; reflexivity).
    assert (Hh : 0 <= c / 256 <= 255 - ext) by lia. assert (to_byte (c / 256) = c / 256) as -> by (unfold to_byte; lia).
    destruct (two_bytes ext (c / 256) M Hh) as (B1 & B2 & B3). rewrite B1. unfold read_code. cbn [next_byte]. rewrite B2, Z.eqb_refl, B3. cbn [negb].
    rewrite or_low by (unfold to_byte; lia). f_equal. unfold u32, to_byte. lia.
Qed.

Section Mask.
Variable ext : Z.
Hypothesis M : mask ext.

(** *** Characters *)
Inductive coded : bytes -> list Z -> Prop :=
| co_nil : coded [] []
| co_plain : forall b t l, 32 <= b < 128 -> coded t l -> coded (b :: t) (b - 26 :: l)
| co_seq : forall a bs t l p m, lead a (length bs) -> Forall further bs -> coded t l ->
    p = Z.land a (match length bs with 1%nat => 63 | 2%nat => 31 | _ => 15 end) -> m = Z.of_nat (length bs) ->
    coded (a :: bs ++ t) (m :: p :: map (fun b => Z.land b 127) bs ++ l).
Lemma printable_coded : forall t, printable t -> exists l, coded t l.
Proof.
  intros t H. induction H as [|b t B _ (l & IH)|a bs t L F _ (l & IH)]; [exists []; constructor|exists (b - 26 :: l); constructor; assumption|].
  eexists. exact (co_seq a bs t l _ _ L F IH eq_refl eq_refl).
Qed.
Lemma low7 : forall b, further b -> 0 <= Z.land b 127 < first_code /\ Z.lor (Z.land b 127) 128 = b.
Proof.
  intros b F. assert (S : forallb (fun b => (0 <=? Z.land b 127) && (Z.land b 127 <? first_code) && (Z.lor (Z.land b 127) 128 =? b)) (zrange 128 64) = true) by (vm_compute; reflexivity).
  unfold further in F. rewrite forallb_forall in S. specialize (S b (zrange_in 128 64 b ltac:(lia))). lia.
Qed.
Definition pay (a : Z) (n : nat) : Z := Z.land a (match n with 1%nat => 63 | 2%nat => 31 | _ => 15 end).
Definition top (n : nat) : Z := match n with 1%nat => 192 | 2%nat => 224 | 3%nat => 240 | _ => 248 end.
Lemma lead_pay : forall a n, lead a n -> 0 <= pay a n < first_code /\ Z.lor (pay a n) (top n) = a.
Proof.
  intros a n L.
  assert (S : forallb (fun n => forallb (fun a => (0 <=? pay a n) && (pay a n <? first_code) && (Z.lor (pay a n) (top n) =? a))
     (match n with 1%nat => zrange 192 32 | 2%nat => zrange 224 16 | 3%nat => zrange 240 8 | _ => zrange 248 4 end)) [1%nat; 2%nat; 3%nat; 4%nat] = true) by (vm_compute; reflexivity).
  rewrite forallb_forall in S.
  destruct L as [[A ->]|[[A ->]|[[A ->]|[A ->]]]].
  - specialize (S 1%nat ltac:(cbn; auto)). rewrite forallb_forall in S. specialize (S a (zrange_in 192 32 a ltac:(lia))). lia.
  - specialize (S 2%nat ltac:(cbn; auto)). rewrite forallb_forall in S. specialize (S a (zrange_in 224 16 a ltac:(lia))). lia.
  - specialize (S 3%nat ltac:(cbn; auto)). rewrite forallb_forall in S. specialize (S a (zrange_in 240 8 a ltac:(lia))). lia.
  - specialize (S 4%nat ltac:(cbn; auto)). rewrite forallb_forall in S. specialize (S a (zrange_in 248 4 a ltac:(lia))). lia.
Qed.
Lemma coded_range : forall t l, coded t l -> Forall (fun c => 0 <= c < first_code) l.
Proof.
  intros t l H. induction H as [|b t l B _ IH|a bs t l p m L F _ IH P Mm]; [constructor|constructor; [unfold first_code; lia|exact IH]|].
  constructor; [unfold first_code; destruct L as [[_ L]|[[_ L]|[[_ L]|[_ L]]]]; lia|]. constructor.
  - subst p. exact (proj1 (lead_pay a _ L)).
  - apply Forall_app. split; [|exact IH]. apply Forall_map. refine (Forall_impl _ _ F). intros b Fb. exact (proj1 (low7 b Fb)).
Qed.
Lemma coded_nil : forall t, coded t [] -> t = [].
Proof. intros t H. inversion H. reflexivity. Qed.

(** *** Compressing characters *)
Notation csyms := (compress_syms ext).
Lemma csyms_app : forall l l' s, csyms (l ++ l') s = cbind (csyms l s) (fun '(s1, o1) => cbind (csyms l' s1) (fun '(s2, o2) => COk (s2, o1 ++ o2))).
Proof.
  induction l as [|c l IH]; intros l' s; cbn [app compress_syms].
  - cbn [cbind]; destruct (csyms l' s) as [[s1 o1]| | |]; reflexivity.
  - destruct (compress_sym ext c s) as [[s1 o1]| | |]; cbn [cbind]; try reflexivity. rewrite IH. destruct (csyms l s1) as [[s2 o2]| | |]; cbn [cbind]; try reflexivity.
    destruct (csyms l' s2) as [[s3 o3]| | |]; cbn [cbind]; try reflexivity. rewrite app_assoc. reflexivity.
Qed.
Lemma csyms_utf8 : forall k l s, csyms l (with_utf8 k s) = cbind (csyms l s) (fun '(s1, o) => COk (with_utf8 k s1, o)).
Proof.
  intros k. induction l as [|c l IH]; intros s; [reflexivity|]. cbn [compress_syms]. rewrite csym_utf8.
  destruct (compress_sym ext c s) as [[s1 o1]| | |]; cbn [cbind]; try reflexivity. rewrite IH. destruct (csyms l s1) as [[s2 o2]| | |]; reflexivity.
Qed.
Lemma c_further : forall bs t s, compress_text ext (bs ++ t) (with_utf8 (Z.of_nat (length bs)) s) =
  cbind (csyms (map (fun b => Z.land b 127) bs) s) (fun '(s1, o1) => cbind (compress_text ext t (with_utf8 0 s1)) (fun '(s2, o2) => COk (s2, o1 ++ o2))).
Proof.
  induction bs as [|b bs IH]; intros t s.
  - cbn [app length map compress_syms cbind]. destruct (compress_text ext t (with_utf8 (Z.of_nat 0) s)) as [[s1 o1]| | |] eqn:E; cbn in E; rewrite E; reflexivity.
  - cbn [app map compress_text]. unfold compress_char at 1. cbn [with_utf8 cs_utf8]. destruct (Z.eqb_spec (Z.of_nat (length (b :: bs))) 0) as [Z0|_]; [cbn [length] in Z0; lia|].
    cbn [negb]. match goal with |- context [compress_sym ext (Z.land b 127) ?x] => change x with (with_utf8 (Z.of_nat (length (b :: bs)) - 1) s) end.
    replace (Z.of_nat (length (b :: bs)) - 1) with (Z.of_nat (length bs)) by (cbn [length]; lia). rewrite csym_utf8. cbn [compress_syms].
    destruct (compress_sym ext (Z.land b 127) s) as [[s1 o1]| | |]; cbn [cbind]; try reflexivity. rewrite IH.
    destruct (csyms (map (fun b => Z.land b 127) bs) s1) as [[s2 o2]| | |]; cbn [cbind]; try reflexivity.
    destruct (compress_text ext t (with_utf8 0 s2)) as [[s3 o3]| | |]; cbn [cbind]; try reflexivity. rewrite app_assoc. reflexivity.
Qed.
Lemma c_lead : forall a n s, lead a n -> cs_utf8 s = 0 -> compress_char ext a s =
  cbind (csyms [Z.of_nat n; pay a n] s) (fun '(s1, o1) => COk (with_utf8 (Z.of_nat n) s1, o1)).
Proof.
  intros a n s L U. assert (D : compress_char ext a s = compress_two ext (Z.of_nat n) (pay a n) (Z.of_nat n) s).
  { unfold compress_char. rewrite U. cbn [Z.eqb negb].
    assert (S : forallb (fun n => forallb (fun a => negb (Z.land a 128 =? 0) && match n with
        | 1%nat => Z.land a 224 =? 192
        | 2%nat => negb (Z.land a 224 =? 192) && (Z.land a 240 =? 224)
        | 3%nat => negb (Z.land a 224 =? 192) && negb (Z.land a 240 =? 224) && (Z.land a 248 =? 240)
        | _ => negb (Z.land a 224 =? 192) && negb (Z.land a 240 =? 224) && negb (Z.land a 248 =? 240) && (Z.land a 252 =? 248) end)
      (match n with 1%nat => zrange 192 32 | 2%nat => zrange 224 16 | 3%nat => zrange 240 8 | _ => zrange 248 4 end)) [1%nat; 2%nat; 3%nat; 4%nat] = true) by (vm_compute; reflexivity).
    rewrite forallb_forall in S. destruct L as [[A ->]|[[A ->]|[[A ->]|[A ->]]]].
    - specialize (S 1%nat ltac:(cbn; auto)). rewrite forallb_forall in S. specialize (S a (zrange_in 192 32 a ltac:(lia))). cbn beta iota in S.
      apply andb_true_iff in S as [-> ->]. reflexivity.
    - specialize (S 2%nat ltac:(cbn; auto)). rewrite forallb_forall in S. specialize (S a (zrange_in 224 16 a ltac:(lia))). cbn beta iota in S.
      apply andb_true_iff in S as [-> S]. apply andb_true_iff in S as [S1 ->]. apply negb_true_iff in S1 as ->. reflexivity.
    - specialize (S 3%nat ltac:(cbn; auto)). rewrite forallb_forall in S. specialize (S a (zrange_in 240 8 a ltac:(lia))). cbn beta iota in S.
      apply andb_true_iff in S as [-> S]. apply andb_true_iff in S as [S ->]. apply andb_true_iff in S as [S1 S2]. apply negb_true_iff in S1 as ->. apply negb_true_iff in S2 as ->. reflexivity.
    - specialize (S 4%nat ltac:(cbn; auto)). rewrite forallb_forall in S. specialize (S a (zrange_in 248 4 a ltac:(lia))). cbn beta iota in S.
      apply andb_true_iff in S as [-> S]. apply andb_true_iff in S as [S ->]. apply andb_true_iff in S as [S S3]. apply andb_true_iff in S as [S1 S2].
      apply negb_true_iff in S1 as ->. apply negb_true_iff in S2 as ->. apply negb_true_iff in S3 as ->. reflexivity. }
  rewrite D. unfold compress_two. cbn [compress_syms]. destruct (compress_sym ext (Z.of_nat n) s) as [[s1 o1]| | |]; cbn [cbind]; try reflexivity.
  destruct (compress_sym ext (pay a n) s1) as [[s2 o2]| | |]; cbn [cbind]; try reflexivity. rewrite app_nil_r. reflexivity.
Qed.
Lemma c_plain : forall b s, 32 <= b < 128 -> cs_utf8 s = 0 -> compress_char ext b s = compress_sym ext (b - 26) s.
Proof.
  intros b s B U. unfold compress_char. rewrite U. cbn [Z.eqb negb].
  assert (S : forallb (fun a => Z.land a 128 =? 0) (zrange 0 128) = true) by (vm_compute; reflexivity). rewrite forallb_forall in S.
  rewrite (S b (zrange_in 0 128 b ltac:(lia))). cbn [negb]. destruct (Z.ltb_spec b 32); [lia|]. reflexivity.
Qed.
Lemma csym_kept : forall c s s1 o, compress_sym ext c s = COk (s1, o) -> cs_utf8 s1 = cs_utf8 s.
Proof.
  intros c s s1 o H. pose proof (csym_utf8 ext (cs_utf8 s) c s) as K. assert (with_utf8 (cs_utf8 s) s = s) as E by (destruct s; reflexivity).
  rewrite E, H in K. cbn [cbind] in K. injection K as K. rewrite K. reflexivity.
Qed.
Lemma coded_text : forall t l t' s, coded t l -> cs_utf8 s = 0 ->
  compress_text ext (t ++ t') s = cbind (csyms l s) (fun '(s1, o1) => cbind (compress_text ext t' (with_utf8 0 s1)) (fun '(s2, o2) => COk (s2, o1 ++ o2))).
Proof.
  intros t l t' s H. revert s. induction H as [|b t l B _ IH|a bs t l p m L F _ IH P Mm]; intros s U.
  - cbn [app compress_syms cbind]. replace (with_utf8 0 s) with s by (destruct s; cbn in *; subst; reflexivity). destruct (compress_text ext t' s) as [[? ?]| | |]; reflexivity.
  - cbn [app compress_text compress_syms]. rewrite (c_plain b s B U). destruct (compress_sym ext (b - 26) s) as [[s1 o1]| | |] eqn:E; cbn [cbind]; try reflexivity.
    rewrite IH by (rewrite (csym_kept _ _ _ _ E); exact U). destruct (csyms l s1) as [[s2 o2]| | |]; cbn [cbind]; try reflexivity.
    destruct (compress_text ext t' (with_utf8 0 s2)) as [[s3 o3]| | |]; cbn [cbind]; try reflexivity. rewrite app_assoc. reflexivity.
  - subst p m. rewrite <- app_comm_cons, <- app_assoc. cbn [compress_text]. rewrite (c_lead a _ s L U).
    change (Z.of_nat (length bs) :: Z.land a _ :: map (fun b => Z.land b 127) bs ++ l) with ([Z.of_nat (length bs); pay a (length bs)] ++ map (fun b => Z.land b 127) bs ++ l).
    rewrite csyms_app. destruct (csyms [Z.of_nat (length bs); pay a (length bs)] s) as [[s1 o1]| | |]; cbn [cbind]; try reflexivity.
    rewrite c_further, csyms_app. destruct (csyms (map (fun b => Z.land b 127) bs) s1) as [[s2 o2]| | |]; cbn [cbind]; try reflexivity.
    rewrite IH by reflexivity. rewrite csyms_utf8. destruct (csyms l s2) as [[s3 o3]| | |]; cbn [cbind]; try reflexivity.
    change (with_utf8 0 (with_utf8 0 s3)) with (with_utf8 0 s3). destruct (compress_text ext t' (with_utf8 0 s3)) as [[s4 o4]| | |]; cbn [cbind]; try reflexivity.
    rewrite !app_assoc. reflexivity.
Qed.

(** *** Decompressing characters *)
Notation calls := (decompress_calls ext).
Lemma one_kept : forall s i c s1 i1, decompress_one ext s i = COk (c, s1, i1) -> ds_utf8 s1 = ds_utf8 s.
Proof.
  intros s i c s1 i1 H. pose proof (one_utf8 ext (ds_utf8 s) s i) as K. rewrite utf8_back, H in K. cbn [cbind] in K. injection K as K. rewrite K. reflexivity.
Qed.
Lemma d_further : forall bs m l s i s2 i2, Forall further bs -> ds_utf8 s = Z.of_nat (length bs) -> gives ext s i (map (fun b => Z.land b 127) bs ++ l) s2 i2 ->
  exists s1 i1, ds_utf8 s1 = 0 /\ gives ext s1 i1 l (with_utf8' 0 s2) i2 /\
    calls (length bs + m) s i = cbind (calls m s1 i1) (fun '(o, s3, i3) => COk (bs ++ o, s3, i3)).
Proof.
  induction bs as [|b bs IH]; intros m l s i s2 i2 F U G.
  - exists s, i. split; [exact U|]. split.
    + replace s with (with_utf8' 0 s) by (rewrite <- (utf8_back s) at 2; rewrite U; reflexivity). apply gives_utf8. exact G.
    + cbn [length plus app]. destruct (calls m s i) as [[[? ?] ?]| | |]; reflexivity.
  - inversion_clear F as [|? ? Fb Fs]. cbn [map app] in G. destruct (gives_cons _ _ _ _ _ _ _ G) as (s1 & i1 & O & G1).
    pose proof (one_kept _ _ _ _ _ O) as K. rewrite U in K.
    destruct (IH m l (with_utf8' (Z.of_nat (length bs)) s1) i1 (with_utf8' (Z.of_nat (length bs)) s2) i2 Fs eq_refl (gives_utf8 ext _ _ _ _ _ _ G1)) as (s3 & i3 & U3 & G3 & C).
    exists s3, i3. split; [exact U3|]. split; [exact G3|]. cbn [length plus decompress_calls]. unfold decompress_char at 1. rewrite O. cbn [cbind].
    rewrite K. destruct (Z.eqb_spec (Z.of_nat (length (b :: bs))) 0) as [Z0|_]; [cbn [length] in Z0; lia|]. cbn [negb cbind sym_byte].
    rewrite (proj2 (low7 b Fb)). replace (Z.of_nat (length (b :: bs)) - 1) with (Z.of_nat (length bs)) by (cbn [length]; lia). rewrite C.
    destruct (calls m s3 i3) as [[[? ?] ?]| | |]; reflexivity.
Qed.
Lemma coded_calls : forall t l, coded t l -> forall s i s2 i2 d2 i3, ds_utf8 s = 0 -> ds_utf8 s2 = 0 -> gives ext s i l s2 i2 -> decompress_one ext s2 i2 = COk (None, d2, i3) ->
  calls (S (length t)) s i = COk (t ++ [255], d2, i3).
Proof.
  intros t l H. induction H as [|b t l B _ IH|a bs t l p m L F _ IH P Mm]; intros s i s2 i2 d2 i3 U U2 G E.
  - pose proof (gives_end _ _ _ _ _ _ G E) as O. cbn [length decompress_calls]. unfold decompress_char. rewrite O. cbn [cbind].
    rewrite (one_kept _ _ _ _ _ O), U. reflexivity.
  - destruct (gives_cons _ _ _ _ _ _ _ G) as (s1 & i1 & O & G1). pose proof (one_kept _ _ _ _ _ O) as K. rewrite U in K.
    pose proof (IH s1 i1 s2 i2 d2 i3 K U2 G1 E) as C. change (length (b :: t)) with (S (length t)).
    change (calls (S (S (length t))) s i) with (cbind (decompress_char ext s i) (fun '(c, s1, inp1) => cbind (calls (S (length t)) s1 inp1) (fun '(l, s2, inp2) => COk (c :: l, s2, inp2)))).
    unfold decompress_char. rewrite O. cbn [cbind]. rewrite K. cbn [Z.eqb negb].
    destruct (Z.eqb_spec (b - 26) 1); [lia|]. destruct (Z.eqb_spec (b - 26) 2); [lia|]. destruct (Z.eqb_spec (b - 26) 3); [lia|]. destruct (Z.eqb_spec (b - 26) 4); [lia|].
    cbn [cbind]. rewrite C. cbn [cbind]. replace (to_byte (b - 26 + code_shift)) with b by (unfold to_byte, code_shift; lia). reflexivity.
  - subst m. destruct (gives_cons _ _ _ _ _ _ _ G) as (s1 & i1 & O & G1). pose proof (one_kept _ _ _ _ _ O) as K. rewrite U in K.
    pose proof (gives_utf8 ext (Z.of_nat (length bs)) _ _ _ _ _ G1) as G1'.
    destruct (gives_cons _ _ _ _ _ _ _ G1') as (s3 & i4 & O2 & G2). pose proof (one_kept _ _ _ _ _ O2) as K2. cbn [with_utf8' ds_utf8] in K2.
    destruct (d_further bs (S (length t)) l s3 i4 _ _ F K2 G2) as (s5 & i5 & U5 & G5 & C5).
    change (with_utf8' 0 (with_utf8' (Z.of_nat (length bs)) s2)) with (with_utf8' 0 s2) in G5.
    replace (with_utf8' 0 s2) with s2 in G5 by (rewrite <- (utf8_back s2) at 1; rewrite U2; reflexivity).
    pose proof (IH s5 i5 s2 i2 d2 i3 U5 U2 G5 E) as C.
    assert (D : decompress_char ext s i = COk (a, s3, i4)).
    { unfold decompress_char. rewrite O. cbn [cbind]. rewrite K. cbn [Z.eqb negb]. pose proof (lead_pay a _ L) as [_ Lp].
      destruct L as [[A N]|[[A N]|[[A N]|[A N]]]]; rewrite N in *; cbn [Z.of_nat Pos.of_succ_nat Pos.succ Z.eqb Pos.eqb] in *; rewrite O2; cbn [cbind sym_byte]; subst p; unfold pay, top in Lp; rewrite Lp; reflexivity. }
    change (length (a :: bs ++ t)) with (S (length (bs ++ t))). rewrite app_length.
    change (calls (S (S (length bs + length t))) s i) with (cbind (decompress_char ext s i) (fun '(c, s1, inp1) => cbind (calls (S (length bs + length t)) s1 inp1) (fun '(l, s2, inp2) => COk (c :: l, s2, inp2)))).
    rewrite D. cbn [cbind]. replace (S (length bs + length t)) with (length bs + S (length t))%nat by lia. rewrite C5, C. cbn [cbind app]. rewrite <- app_assoc. reflexivity.
Qed.

(** *** There and back *)
Lemma round_trip : forall t, printable t -> exists o d, compress_all ext t = COk o /\ calls (S (length t)) d_init o = COk (t ++ [255], d, []).
Proof.
  intros t H. destruct (printable_coded t H) as (l & C). pose proof (coded_text t l [] c_init C eq_refl) as T. rewrite app_nil_r in T.
  destruct l as [|c l].
  - apply coded_nil in C. subst t. exists []. exists (mkDS [] [] 0 initial_code [] 0). split; [reflexivity|]. cbn [length decompress_calls]. unfold decompress_char, decompress_one. cbn [length decompress_sym d_init ds_ready].
    assert (R : read_code ext [] = (flush_code ext, [])).
    { pose proof (mask_all (fun e => (fst (read_code e []) =? flush_code e) && (match snd (read_code e []) with [] => true | _ => false end)) eq_refl ext M) as R. cbn beta in R.
      destruct (read_code ext []) as [x y]. cbn [fst snd] in R. destruct y; [f_equal; lia|]. rewrite andb_false_r in R. discriminate. }
    rewrite R, Z.eqb_refl. reflexivity.
  - destruct (sim_all ext (mask_cap ext M) (mask_big ext M) (fun code rest => code_bytes ext code rest M) (c :: l) (coded_range _ _ C)) as (s & o & d & i & d2 & E & G & D); [discriminate|].
    assert (Ud : ds_utf8 (with_utf8' 0 d) = 0) by reflexivity.
    pose proof (gives_utf8 ext 0 _ _ _ _ _ G) as G0. change (with_utf8' 0 d_init) with d_init in G0.
    pose proof (one_utf8 ext 0 d i) as D0. rewrite D in D0. cbn [cbind] in D0.
    pose proof (coded_calls t (c :: l) C d_init _ (with_utf8' 0 d) i _ [] eq_refl Ud G0 D0) as K.
    eexists (o ++ compress_end ext s), _. split; [|exact K]. unfold compress_all. rewrite T, E. cbn [cbind compress_text]. rewrite app_nil_r. reflexivity.
Qed.
(** What the compressor does not take. *)
Lemma stray_char : forall b s, stray b -> cs_utf8 s = 0 -> compress_char ext b s = CThrow.
Proof.
  intros b s B U. unfold compress_char. rewrite U. cbn [Z.eqb negb].
  assert (S : forallb (fun b => if (0 <=? b) && (b <? 32) then Z.land b 128 =? 0
     else if (128 <=? b) && (b <? 192) || (252 <=? b) then negb (Z.land b 128 =? 0) && negb (Z.land b 224 =? 192) && negb (Z.land b 240 =? 224) && negb (Z.land b 248 =? 240) && negb (Z.land b 252 =? 248) else true) (zrange 0 256) = true) by (vm_compute; reflexivity).
  rewrite forallb_forall in S. assert (R : 0 <= b < 256) by (unfold stray in B; lia). specialize (S b (zrange_in 0 256 b ltac:(lia))). cbn beta in S.
  destruct B as [B|B].
  - assert ((0 <=? b) && (b <? 32) = true) as E by lia. rewrite E in S. rewrite S. cbn [negb]. destruct (Z.ltb_spec b 32); [reflexivity|lia].
  - assert ((0 <=? b) && (b <? 32) = false) as E by lia. assert ((128 <=? b) && (b <? 192) || (252 <=? b) = true) as E2 by lia. rewrite E, E2 in S.
    apply andb_true_iff in S as [S S5]. apply andb_true_iff in S as [S S4]. apply andb_true_iff in S as [S S3]. apply andb_true_iff in S as [-> S2].
    apply negb_true_iff in S2 as ->. apply negb_true_iff in S3 as ->. apply negb_true_iff in S4 as ->. apply negb_true_iff in S5 as ->. reflexivity.
Qed.
Lemma stray_throws : forall t b t', printable t -> stray b -> compress_all ext (t ++ b :: t') = CThrow.
Proof.
  intros t b t' H B. destruct (printable_coded t H) as (l & C). unfold compress_all. rewrite (coded_text t l (b :: t') c_init C eq_refl).
  assert (E : exists s o, csyms l c_init = COk (s, o)).
  { destruct l as [|c l]; [do 2 eexists; reflexivity|].
    destruct (sim_all ext (mask_cap ext M) (mask_big ext M) (fun code rest => code_bytes ext code rest M) (c :: l) (coded_range _ _ C)) as (s & o & d & i & d2 & E & _); [discriminate|]. eauto. }
  destruct E as (s & o & ->). cbn [cbind compress_text]. rewrite (stray_char b (with_utf8 0 s) B eq_refl). reflexivity.
Qed.
End Mask.
