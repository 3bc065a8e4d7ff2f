(** Lemmas about paths. *)
From Verif Require Import Base ModelKeyed SpecKeyed ProofKeyed ModelValue ProofValue ModelObject SpecObject ProofObject
  ModelArray SpecArray ProofArray ModelEq SpecEq ProofEq ModelDiff SpecDiff ProofDiff ModelPath SpecPath.
Local Open Scope Z_scope.

(** *** Order *)
Definition ecmp (x y : pelem) : comparison :=
  match is_index x, is_index y with
  | true, true => Z.compare (pe_index x) (pe_index y)
  | true, false => Lt
  | false, false => kcmp (pe_key x) (pe_key y)
  | false, true => Gt
  end.

Lemma path_compare_cons : forall x p y q, path_compare (x :: p) (y :: q) =
  match ecmp x y with Eq => path_compare p q | c => c end.
Proof.
  intros. cbn [path_compare]. unfold ecmp. destruct (is_index x), (is_index y); cbn [negb]; auto.
  - unfold Z.ltb. rewrite (Z.compare_antisym (pe_index x) (pe_index y)). destruct (pe_index x ?= pe_index y); reflexivity.
Qed.

Lemma ecmp_sym : forall x y, ecmp y x = CompOpp (ecmp x y).
Proof.
  intros. unfold ecmp. destruct (is_index x), (is_index y); auto.
  - apply Z.compare_antisym.
  - apply kcmp_antisym.
Qed.

Lemma ecmp_eq : forall x y, elem_ok x -> elem_ok y -> ecmp x y = Eq -> x = y.
Proof.
  intros [kx ix] [ky iy] Hx Hy H. unfold ecmp, elem_ok, is_index in *. change (2 ^ 64 - 1) with no_index in *. cbn [pe_key pe_index] in *.
  destruct (Z.eqb_spec ix no_index), (Z.eqb_spec iy no_index); cbn [negb] in H; try discriminate.
  - apply kcmp_eq in H. congruence.
  - apply Z.compare_eq in H. destruct Hx as [Hx|[Hx _]], Hy as [Hy|[Hy _]]; congruence.
Qed.

Lemma ecmp_trans : forall x y z, ecmp x y = Lt -> ecmp y z = Lt -> ecmp x z = Lt.
Proof.
  intros x y z. unfold ecmp. destruct (is_index x), (is_index y), (is_index z); auto; try discriminate.
  - rewrite !Z.compare_lt_iff. lia.
  - apply klt_trans.
Qed.

Lemma path_compare_sym : forall p q, path_compare q p = CompOpp (path_compare p q).
Proof.
  induction p as [|x p IH]; intros [|y q]; try reflexivity. rewrite !path_compare_cons, (ecmp_sym x y), IH.
  destruct (ecmp x y); reflexivity.
Qed.

Lemma path_compare_refl : forall p, path_compare p p = Eq.
Proof.
  induction p as [|x p IH]; auto. rewrite path_compare_cons, IH. unfold ecmp.
  destruct (is_index x); [rewrite Z.compare_refl|rewrite kcmp_refl]; reflexivity.
Qed.

Lemma path_compare_eq : forall p q, path_ok p -> path_ok q -> (path_compare p q = Eq <-> p = q).
Proof.
  intros p q Hp Hq. split; [|intros ->; apply path_compare_refl]. revert q Hq.
  induction Hp as [|x p Hx _ IH]; intros [|y q] Hq H; try discriminate; auto.
  inversion Hq as [|? ? Hy Hq']; subst. rewrite path_compare_cons in H. destruct (ecmp x y) eqn:E; try discriminate.
  apply ecmp_eq in E; auto. subst. f_equal. auto.
Qed.

Lemma path_compare_trans : forall p q r, path_ok p -> path_ok q -> path_ok r ->
  path_compare p q = Lt -> path_compare q r = Lt -> path_compare p r = Lt.
Proof.
  induction p as [|x p IH]; intros [|y q] [|z r] Hp Hq Hr H1 H2; try discriminate; auto.
  rewrite path_compare_cons in *. inversion Hp; inversion Hq; inversion Hr; subst.
  destruct (ecmp x y) eqn:E1; try discriminate.
  - apply ecmp_eq in E1; auto. subst y. destruct (ecmp x z) eqn:E2; try discriminate; auto. exact (IH q r ltac:(auto) ltac:(auto) ltac:(auto) H1 H2).
  - destruct (ecmp y z) eqn:E2; try discriminate.
    + apply ecmp_eq in E2; auto. subst z. rewrite E1. reflexivity.
    + rewrite (ecmp_trans _ _ _ E1 E2). reflexivity.
Qed.

(** *** Conversion *)
Lemma path_items_defined : forall p m, In m (path_items p) -> is_undef (snd m) = false.
Proof.
  induction p as [|x p IH]; intros m H; [destruct H|]. cbn [path_items] in H. apply in_app_or in H.
  destruct H as [H|[<-|[]]]; auto. destruct (is_index x); reflexivity.
Qed.

Lemma path_to_value_items : forall p, path_to_value p = VArr (path_items p).
Proof.
  intros p. unfold path_to_value.
  destruct (array_builder CEmpty [AAddSet (VArr (path_items p))]) as (a & Ha & _ & _ & Hc); [exact I|cbn; auto|].
  cbn [arr_run arr_step arr_create members_of] in Ha. inversion Ha; subst a. rewrite Hc.
  cbn [as_cur aspec_run fold_left aspec_step aspec_create as_base members_of app]. rewrite defined_filter; auto.
  apply path_items_defined.
Qed.

Lemma from_items_app : forall u p parent l, path_ok p -> (forall n, 0 <= n < 2 ^ 64 -> u (NUInt n) = n) ->
  path_from_items u parent (path_items p ++ l) = path_from_items u (p ++ parent) l.
Proof.
  intros u p parent l Hp Hu. revert l. induction Hp as [|x p Hx _ IH]; intros l; [reflexivity|].
  cbn [path_items]. rewrite <- app_assoc, IH. cbn [app path_from_items]. destruct x as [k i].
  unfold elem_ok, is_index in *. change (2 ^ 64 - 1) with no_index in *. cbn [pe_key pe_index] in *. destruct (Z.eqb_spec i no_index) as [->|Hi]; cbn [negb].
  - reflexivity.
  - destruct Hx as [Hx|[-> Hx]]; [contradiction|]. rewrite Hu by (unfold no_index in *; lia). reflexivity.
Qed.

Lemma path_round_trip : forall u p, path_ok p -> (forall n, 0 <= n < 2 ^ 64 -> u (NUInt n) = n) ->
  path_from_value u (path_to_value p) = Some p.
Proof.
  intros u p Hp Hu. rewrite path_to_value_items. unfold path_from_value. cbn [members_of].
  rewrite <- (app_nil_r (path_items p)), from_items_app by auto. cbn [path_from_items]. rewrite app_nil_r. reflexivity.
Qed.

(** *** Replace *)
Lemma reverse_path_rev : forall p acc, reverse_path p acc = rev p ++ acc.
Proof. induction p as [|x p IH]; intros acc; auto. cbn [reverse_path rev]. rewrite IH, <- app_assoc. reflexivity. Qed.

(** Reading from the root. *)
Fixpoint get_rev (v : value) (p : path) : value :=
  match p with
  | [] => v
  | x :: p' => get_rev (if is_index x then snd (vitem v (Z.to_nat (pe_index x))) else value_member v (pe_key x)) p'
  end.
Lemma get_rev_app : forall p v q, get_rev v (p ++ q) = get_rev (get_rev v p) q.
Proof. induction p as [|x p IH]; intros v q; auto. cbn [app get_rev]. apply IH. Qed.
Lemma get_path_rev : forall p v, get_path v p = get_rev v (rev p).
Proof. induction p as [|x p IH]; intros v; auto. cbn [get_path rev]. rewrite get_rev_app, <- IH. reflexivity. Qed.

(** Values that may stand at a place of a document. *)
Definition place (v : value) : Prop := v = VUndef \/ doc v.

Lemma doc_defined : forall v, doc v -> is_undef v = false.
Proof. intros v H. destruct H; reflexivity. Qed.
Lemma doc_arr : forall l, doc (VArr l) -> Forall (fun m => fst m = [] /\ doc (snd m)) l.
Proof. intros l H. inversion H; auto. Qed.
Lemma doc_obj : forall d l, doc (VObj d l) -> d = false /\ keys_increasing l /\ Forall (fun m => doc (snd m)) l.
Proof. intros d l H. inversion H; auto. Qed.

Lemma value_member_binding : forall d l k, keys_increasing l ->
  value_member (VObj d l) k = match binding k l with Some v => v | None => VUndef end.
Proof.
  intros d l k H. cbn [value_member]. rewrite (find_member_binding l k H). destruct (binding k l); reflexivity.
Qed.

Lemma place_member : forall v k, place v -> place (value_member v k).
Proof.
  intros v k [->|H]; [left; reflexivity|]. destruct v; try (left; reflexivity).
  apply doc_obj in H as (-> & Hk & Hl). rewrite value_member_binding by auto.
  destruct (binding k l) as [x|] eqn:E; [|left; reflexivity]. right. apply binding_in in E.
  rewrite Forall_forall in Hl. exact (Hl _ E).
Qed.

Lemma place_item_arr : forall l i, doc (VArr l) -> place (snd (vitem (VArr l) i)).
Proof.
  intros l i H. apply doc_arr in H. unfold vitem. cbn [members_of].
  destruct (le_lt_dec (length l) i) as [L|L].
  - rewrite nth_overflow by auto. left; reflexivity.
  - right. rewrite Forall_forall in H. apply (H (nth i l ([], VUndef))). apply nth_In; auto.
Qed.

(** Setting one member. *)
Definition kept (v : value) : option value := if is_undef v then None else Some v.
Lemma obj_put_gen : forall old k v, place old ->
  exists o1, obj_read (set_key_builder old) k = Some (o1, value_member old k) /\
  exists l, snd (obj_commit (obj_set o1 (k, v))) = VObj false l /\ keys_increasing l /\
    forall k', binding k' l = if beqb k k' then kept v else binding k' (obj_members old).
Proof.
  intros old k v Hp.
  assert (Hb : exists b, set_key_builder old = obj_new b /\ base_ok b /\ is_diff b = false /\
     value_member b k = value_member old k /\ obj_members b = obj_members old).
  { destruct Hp as [->|Hp].
    - exists empty_object. repeat split; try constructor. intros _ k0 v0 [].
    - destruct old; try (exists empty_object; repeat split; try constructor; intros _ k0 v0 []; fail).
      pose proof Hp as Hp'. apply doc_obj in Hp as (-> & Hk & Hl). exists (VObj false l).
      split; [reflexivity|]. split; [|repeat split; reflexivity]. split; auto. intros _ k0 v0 Hin.
      rewrite Forall_forall in Hl. apply doc_defined. exact (Hl _ Hin). }
  destruct Hb as (b & -> & Hok & Hd & Hm & Hmem). exists (obj_new b).
  split. { unfold obj_read. cbn [o_unordered obj_new o_base]. rewrite Hm. reflexivity. }
  destruct (set_inv _ _ (k, v) (new_inv b Hok)) as [Hi _]. pose proof (commit_content _ _ Hi) as Hc.
  unfold committed, spec_add in Hc. cbn [s_changes s_base app] in Hc. destruct Hc as (l & Hl & Hk & Hin).
  rewrite Hd in *. exists l. split; [exact Hl|]. split; auto. intros k'.
  assert (Hg : forall x, binding k' l = Some x <-> (if beqb k k' then kept v else binding k' (obj_members old)) = Some x).
  { intros x. split.
    - intros H. apply binding_in in H. apply Hin in H as [H Hu]. unfold spec_get in H. cbn [s_changes last_binding s_base] in H.
      rewrite <- Hmem. destruct (beqb k k'); auto. destruct Hu as [Hu|]; [|discriminate]. injection H as <-. unfold kept. rewrite Hu. reflexivity.
    - intros H. apply in_binding; [apply keys_increasing_nodup; auto|]. apply Hin. unfold spec_get. cbn [s_changes last_binding s_base].
      rewrite <- Hmem in H. destruct (beqb k k') eqn:E.
      + unfold kept in H. destruct (is_undef v) eqn:Eu; [discriminate|]. injection H as <-. auto.
      + split; auto. left. destruct b; cbn [obj_members] in H; try discriminate. cbn [is_diff] in Hd. subst. destruct Hok as [_ Hok].
        apply binding_in in H. eapply Hok; eauto. }
  destruct (binding k' l) as [x|]; [symmetry; apply Hg; auto|].
  destruct (if beqb k k' then kept v else binding k' (obj_members old)) as [x|]; auto. apply Hg. reflexivity.
Qed.

Lemma obj_put_spec : forall old k v, place old -> is_undef v = false ->
  exists o1, obj_read (set_key_builder old) k = Some (o1, value_member old k) /\
  exists l, snd (obj_commit (obj_set o1 (k, v))) = VObj false l /\ keys_increasing l /\
    forall k', binding k' l = if beqb k k' then Some v else binding k' (obj_members old).
Proof.
  intros old k v Hp Hv. destruct (obj_put_gen old k v Hp) as (o1 & H1 & l & H2 & H3 & H4).
  exists o1. split; auto. exists l. split; auto. split; auto. intros k'. rewrite H4. unfold kept. rewrite Hv. reflexivity.
Qed.

(** Setting one array item. *)
Lemma base_arr_rep : forall l, set_index_builder (VArr l) = arr_create (CBase l).
Proof. reflexivity. Qed.

Lemma items_defined : forall l, doc (VArr l) -> forall m, In m l -> is_undef (snd m) = false.
Proof. intros l H m Hm. apply doc_arr in H. rewrite Forall_forall in H. apply doc_defined, (H m Hm). Qed.

Lemma arr_put_spec : forall l i m, doc (VArr l) -> is_undef (snd m) = false -> (i < length l)%nat ->
  exists a, arr_set (arr_create (CBase l)) i m = Some a /\ arr_commit a = VArr (firstn i l ++ m :: skipn (S i) l).
Proof.
  intros l i m Hd Hm Hi. destruct (array_builder (CBase l) [ASet i m]) as (a & Ha & _ & _ & Hc).
  { apply items_defined; auto. } { cbn. auto. }
  cbn [arr_run arr_step] in Ha. destruct (arr_set _ _ _) as [a'|]; inversion Ha; subst a'. exists a. split; auto.
  rewrite Hc. cbn [as_cur aspec_run fold_left aspec_step aspec_create as_base]. rewrite Nat.add_1_r. cbn [app].
  rewrite defined_filter; auto. intros x Hx. apply in_app_or in Hx. pose proof (items_defined l Hd) as Hdf.
  destruct Hx as [Hx|[<-|Hx]]; auto; apply Hdf; [rewrite <- (firstn_skipn i)|rewrite <- (firstn_skipn (S i))]; apply in_or_app; auto.
Qed.

Lemma arr_append_spec : forall l m, doc (VArr l) -> is_undef (snd m) = false ->
  arr_commit (arr_push (arr_create (CBase l)) m) = VArr (l ++ [m]).
Proof.
  intros l m Hd Hm. apply (value_push l m). intros x Hx. apply in_app_or in Hx. destruct Hx as [Hx|[<-|[]]]; auto.
  apply items_defined in Hx; auto.
Qed.

Lemma nth_put : forall (l : list member) i m j d, (i < length l)%nat ->
  nth j (firstn i l ++ m :: skipn (S i) l) d = if (j =? i)%nat then m else nth j l d.
Proof.
  intros l i m j d Hi. destruct (Nat.eqb_spec j i) as [->|Hn].
  - rewrite app_nth2, firstn_length, Nat.min_l, Nat.sub_diag by (rewrite ?firstn_length; lia). reflexivity.
  - destruct (le_lt_dec j i) as [L|L].
    + rewrite app_nth1 by (rewrite firstn_length; lia). rewrite <- (firstn_skipn i l) at 2.
      rewrite app_nth1 by (rewrite firstn_length; lia). reflexivity.
    + rewrite app_nth2, firstn_length, Nat.min_l by (rewrite ?firstn_length; lia).
      replace (j - i)%nat with (S (j - S i)) by lia. cbn [nth].
      rewrite <- (firstn_skipn (S i) l) at 2. rewrite app_nth2, firstn_length by (rewrite ?firstn_length; lia). f_equal. lia.
Qed.

(** One step of [set_rev], as a value-level fact. *)
Lemma elem_index : forall x, elem_ok x -> is_index x = true -> 0 <= pe_index x.
Proof.
  unfold elem_ok, is_index. change (2 ^ 64 - 1) with no_index. intros x [H|H] E; [|lia]. rewrite H, Z.eqb_refl in E. discriminate.
Qed.

Definition as_items (v : value) : list member := match v with VArr l => l | _ => [] end.

Lemma index_case : forall v x, place v -> elem_ok x -> is_index x = true ->
  match v with VObj _ _ => False | VArr l => pe_index x <= Z.of_nat (length l) | _ => pe_index x = 0 end ->
  set_index_builder v = arr_create (CBase (as_items v)) /\ doc (VArr (as_items v)) /\
  (Z.to_nat (pe_index x) <= length (as_items v))%nat /\ (forall j, vitem v j = vitem (VArr (as_items v)) j).
Proof.
  intros v x Hv Hx Ei Hr. pose proof (elem_index x Hx Ei).
  destruct v; cbn [as_items set_index_builder];
    try (split; [reflexivity|split; [repeat constructor|split; [rewrite Hr; cbn; lia|intros [|j]; reflexivity]]]; fail).
  - destruct Hv as [Hv|Hv]; [discriminate|]. split; [reflexivity|]. split; auto. split; [lia|auto].
  - destruct Hr.
Qed.

Lemma set_rev_spec : forall p v new, place v -> fits v p -> path_ok p -> doc (snd new) ->
  exists m, set_rev p v new = Some m /\ (p = [] -> m = new) /\ (p <> [] -> fst m = []) /\
    (fst new = [] -> doc (snd m)) /\ is_undef (snd m) = false /\ get_rev (snd m) p = snd new /\
    (forall q, path_ok q -> diverge p q -> get_rev (snd m) q = get_rev v q).
Proof.
  induction p as [|x p IH]; intros v new Hv Hf Hp Hn.
  - exists new. cbn [set_rev get_rev]. assert (match snd new with VObj true _ => Some ([], apply_diff v (snd new)) | _ => Some new end = Some new) as ->.
    { destruct (snd new); auto. destruct diff; auto. apply doc_obj in Hn. destruct Hn; discriminate. }
    split; auto. split; auto. split; [congruence|]. split; auto. split; [apply doc_defined; auto|]. split; auto.
    intros q _ (c & a & b & p' & q' & E & _). destruct c; discriminate.
  - inversion Hp as [|? ? Hx Hp']; subst. cbn [set_rev fits get_rev] in *. destruct (is_index x) eqn:Ei.
    + destruct Hf as [Hr Hf]. destruct (index_case v x Hv Hx Ei Hr) as (-> & Hd & Hi & Hit). clear Hr.
      pose proof (elem_index x Hx Ei) as Hpos. set (i := Z.to_nat (pe_index x)) in *. set (l := as_items v) in *. rewrite Hit in Hf.
      assert (Hsz : arr_size (arr_create (CBase l)) = length l) by (cbn; lia). rewrite Hsz.
      assert (Hnew : exists m l', set_rev p (snd (vitem (VArr l) i)) new = Some m /\ 
                (if Z.of_nat (length l) <=? pe_index x
                 then match set_rev p VUndef new with Some m => Some (@nil Z, arr_commit (arr_push (arr_create (CBase l)) m)) | None => None end
                 else match arr_get (arr_create (CBase l)) i with
                      | None => None
                      | Some cur => match set_rev p (snd cur) new with
                         | None => None
                         | Some m => match arr_set (arr_create (CBase l)) i m with Some a' => Some (@nil Z, arr_commit a') | None => None end
                         end
                      end) = Some (@nil Z, VArr l') /\
                (forall j, nth j l' ([], VUndef) = if (j =? i)%nat then m else nth j l ([], VUndef)) /\
                (fst m = [] -> doc (snd m) -> doc (VArr l'))).
      { assert (Hpl : place (snd (vitem (VArr l) i))) by (apply place_item_arr; auto).
        destruct (IH _ new Hpl Hf Hp' Hn) as (m & Em & M1 & M2 & M3 & M4 & M5 & M6). exists m.
        destruct (Z.leb_spec (Z.of_nat (length l)) (pe_index x)) as [L|L].
        - assert (i = length l) as Hil by lia. exists (l ++ [m]). split; auto.
          assert (Hu : snd (vitem (VArr l) i) = VUndef) by (unfold vitem; cbn [members_of]; rewrite nth_overflow by lia; reflexivity).
          rewrite Hu in Em. rewrite Em, arr_append_spec by auto. split; auto. split.
          + intros j. destruct (Nat.eqb_spec j i) as [->|Hj]; [rewrite Hil, app_nth2, Nat.sub_diag by lia; reflexivity|].
            destruct (le_lt_dec (length l) j); [rewrite !nth_overflow; auto; rewrite app_length; cbn [length]; lia|].
            rewrite app_nth1 by auto. reflexivity.
          + intros K1 K2. constructor. apply Forall_app. split; [apply doc_arr; auto|]. constructor; auto.
        - assert (Hlt : (i < length l)%nat) by lia. exists (firstn i l ++ m :: skipn (S i) l). split; auto.
          assert (Hg : arr_get (arr_create (CBase l)) i = Some (vitem (VArr l) i)).
          { rewrite arr_get_spec by (cbn; unfold arr_wf, vsize; cbn; lia). unfold content. cbn [arr_create arr_of a_off a_base a_chg members_of vsize].
            unfold vsize. cbn [members_of]. rewrite firstn_all, app_nil_r. unfold vitem. cbn [members_of]. apply nth_error_nth'; auto. }
          rewrite Hg, Em. destruct (arr_put_spec l i m Hd M4 Hlt) as (a & -> & ->). split; auto. split.
          + intros j. apply nth_put; auto.
          + intros K1 K2. constructor. apply doc_arr in Hd. apply Forall_app. rewrite <- (firstn_skipn i l) in Hd.
            apply Forall_app in Hd as [H1 H2]. split; auto. constructor; auto.
            rewrite Forall_forall in H2 |- *. intros y Hy. apply H2. replace (S i) with (1 + i)%nat in Hy by lia.
            rewrite <- skipn_skipn' in Hy. destruct (skipn i l); [destruct Hy|]. right. exact Hy. }
      destruct Hnew as (m & l' & Em & -> & Hnth & Hdoc). clear Hsz.
      assert (Hpl : place (snd (vitem (VArr l) i))) by (apply place_item_arr; auto).
      destruct (IH _ new Hpl Hf Hp' Hn) as (m' & Em' & M1 & M2 & M3 & M4 & M5 & M6). rewrite Em in Em'. injection Em' as <-.
      eexists. split; [reflexivity|]. cbn [fst snd]. split; [congruence|]. split; [auto|]. split; [|split; [reflexivity|split]].
      * intros Hk. apply Hdoc; auto. destruct p as [|y p]; [rewrite M1; auto|apply M2; congruence].
      * unfold vitem. cbn [members_of]. rewrite Hnth, Nat.eqb_refl. exact M5.
      * intros q Hq (c & a & b & p1 & q1 & E1 & E2 & Hdf). destruct c as [|c0 c]; cbn [app] in *.
        -- injection E1 as <- <-. subst q. destruct Hdf as [Hk Hdf]. rewrite Ei in Hk, Hdf. cbn [get_rev]. rewrite <- Hk.
           inversion Hq as [|? ? Hb _]; subst. pose proof (elem_index b Hb (eq_sym Hk)). f_equal. f_equal. rewrite Hit.
           unfold vitem. cbn [members_of]. rewrite Hnth. destruct (Nat.eqb_spec (Z.to_nat (pe_index b)) i) as [E|E]; auto. lia.
        -- injection E1 as <- E1. subst q. cbn [get_rev]. rewrite Ei. fold i. rewrite Hit. inversion Hq; subst.
           unfold vitem. cbn [members_of]. rewrite Hnth, Nat.eqb_refl. apply M6; auto. exists c, a, b, p1, q1. auto.
    + destruct (IH _ new (place_member v (pe_key x) Hv) Hf Hp' Hn) as (m & Em & M1 & M2 & M3 & M4 & M5 & M6).
      destruct (obj_put_spec v (pe_key x) (snd m) Hv M4) as (o1 & -> & l & Hl & Hk & Hb). rewrite Em, Hl.
      eexists. split; [reflexivity|]. cbn [fst snd]. split; [congruence|]. split; [auto|]. split; [|split; [reflexivity|split]].
      * intros K. constructor; auto. apply Forall_forall. intros [k y] Hin. cbn [snd].
        apply in_binding in Hin; [|apply keys_increasing_nodup; auto]. rewrite Hb in Hin. destruct (beqb (pe_key x) k).
        -- injection Hin as <-. auto.
        -- destruct v; cbn [obj_members] in Hin; try discriminate. destruct Hv as [Hv|Hv]; [discriminate|].
           apply doc_obj in Hv as (_ & _ & Hv). rewrite Forall_forall in Hv. apply binding_in in Hin. apply (Hv _ Hin).
      * rewrite value_member_binding by auto. rewrite Hb, beqb_refl. exact M5.
      * assert (Hmem : forall k, value_member (VObj false l) k = if beqb (pe_key x) k then snd m else value_member v k).
        { intros k. rewrite value_member_binding by auto. rewrite Hb. destruct (beqb (pe_key x) k); auto.
          destruct v; try reflexivity. destruct Hv as [Hv|Hv]; [discriminate|]. apply doc_obj in Hv as (_ & Hv & _).
          rewrite value_member_binding by auto. reflexivity. }
        intros q Hq (c & a & b & p1 & q1 & E1 & E2 & Hdf). destruct c as [|c0 c]; cbn [app] in *.
        -- injection E1 as <- <-. subst q. destruct Hdf as [Hk' Hdf]. rewrite Ei in Hk', Hdf. cbn [get_rev]. rewrite <- Hk', Hmem.
           destruct (beqb (pe_key x) (pe_key b)) eqn:E; auto. apply beqb_eq in E. contradiction.
        -- injection E1 as <- E1. subst q. cbn [get_rev]. rewrite Ei, Hmem, beqb_refl. inversion Hq; subst.
           apply M6; auto. exists c, a, b, p1, q1. auto.
Qed.

(** Replacing a value by itself. *)
Lemma get_rev_undef : forall p, get_rev VUndef p = VUndef.
Proof.
  induction p as [|x p IH]; auto. cbn [get_rev]. destruct (is_index x); [|exact IH]. unfold vitem. cbn [members_of].
  destruct (Z.to_nat (pe_index x)); exact IH.
Qed.

Lemma put_same : forall (l : list member) i d, (i < length l)%nat -> firstn i l ++ nth i l d :: skipn (S i) l = l.
Proof.
  induction l as [|a l IH]; intros [|i] d H; cbn [length] in *; try lia; [reflexivity|]. cbn [firstn nth skipn app].
  rewrite IH by lia. reflexivity.
Qed.

Lemma set_rev_same : forall p v, doc v -> path_ok p -> fits v p -> is_undef (get_rev v p) = false ->
  set_rev p v ([], get_rev v p) = Some ([], v).
Proof.
  induction p as [|x p IH]; intros v Hv Hp Hf Hu.
  - cbn [set_rev get_rev snd]. destruct v; auto. destruct diff; auto. apply doc_obj in Hv. destruct Hv; discriminate.
  - inversion Hp as [|? ? Hx Hp']; subst. cbn [set_rev fits get_rev] in *. destruct (is_index x) eqn:Ei.
    + destruct Hf as [Hr Hf]. destruct (index_case v x (or_intror Hv) Hx Ei Hr) as (-> & Hd & Hi & Hit).
      pose proof (elem_index x Hx Ei) as Hpos. set (i := Z.to_nat (pe_index x)) in *. set (l := as_items v) in *.
      rewrite Hit in *. assert (Hsz : arr_size (arr_create (CBase l)) = length l) by (cbn; lia). rewrite Hsz.
      destruct (le_lt_dec (length l) i) as [L|L].
      { exfalso. unfold vitem in Hu. cbn [members_of] in Hu. rewrite nth_overflow in Hu by auto. cbn [snd] in Hu.
        rewrite get_rev_undef in Hu. discriminate. }
      destruct (Z.leb_spec (Z.of_nat (length l)) (pe_index x)) as [L'|_]; [lia|].
      assert (Hg : arr_get (arr_create (CBase l)) i = Some (vitem (VArr l) i)).
      { rewrite arr_get_spec by (cbn; unfold arr_wf, vsize; cbn; lia). unfold content. cbn [arr_create arr_of a_off a_base a_chg members_of vsize].
        unfold vsize. cbn [members_of]. rewrite firstn_all, app_nil_r. unfold vitem. cbn [members_of]. apply nth_error_nth'; auto. }
      rewrite Hg. assert (Hdi : fst (vitem (VArr l) i) = [] /\ doc (snd (vitem (VArr l) i))).
      { pose proof (doc_arr _ Hd) as Ha. rewrite Forall_forall in Ha. apply Ha. unfold vitem. cbn [members_of]. apply nth_In; auto. }
      destruct Hdi as [Hk Hdi]. rewrite IH by auto.
      replace ([], snd (vitem (VArr l) i)) with (vitem (VArr l) i) by (destruct (vitem (VArr l) i); cbn [fst snd] in *; congruence).
      destruct (arr_put_spec l i (vitem (VArr l) i) Hd (doc_defined _ Hdi) L) as (a & -> & ->).
      unfold vitem. cbn [members_of]. rewrite put_same by auto. f_equal. f_equal. subst l. destruct v; cbn [as_items length] in *; try lia. reflexivity.
    + pose proof (place_member v (pe_key x) (or_intror Hv)) as Hpl.
      assert (Hdm : doc (value_member v (pe_key x))).
      { destruct Hpl as [E|]; auto. rewrite E, get_rev_undef in Hu. discriminate. }
      destruct (obj_put_spec v (pe_key x) (value_member v (pe_key x)) (or_intror Hv) (doc_defined _ Hdm)) as (o1 & -> & l & Hl & Hk & Hb).
      rewrite IH by auto. cbn [snd]. rewrite Hl. f_equal. f_equal. destruct v; cbn [value_member] in Hdm; try (inversion Hdm; fail).
      apply doc_obj in Hv as (-> & Hk0 & _). f_equal. apply increasing_ext; auto. intros k. rewrite Hb. cbn [obj_members].
      destruct (beqb (pe_key x) k) eqn:E; auto. apply beqb_eq in E. subst k. rewrite value_member_binding in * by auto.
      destruct (binding (pe_key x) l0); auto. rewrite get_rev_undef in Hu. discriminate.
Qed.

(** Removing a member. *)
Lemma base_get : forall l i, (i < length l)%nat -> arr_get (arr_create (CBase l)) i = Some (vitem (VArr l) i).
Proof.
  intros l i L. rewrite arr_get_spec by (cbn; unfold arr_wf, vsize; cbn; lia). unfold content.
  cbn [arr_create arr_of a_off a_base a_chg members_of vsize].
  unfold vsize. cbn [members_of]. rewrite firstn_all, app_nil_r. unfold vitem. cbn [members_of]. apply nth_error_nth'; auto.
Qed.

Lemma set_rev_app : forall p q v new m, place v -> path_ok p -> fits v p -> set_rev q (get_rev v p) new = Some m ->
  is_diff (snd m) = false -> set_rev (p ++ q) v new = set_rev p v m.
Proof.
  induction p as [|x p IH]; intros q v new m Hv Hp Hf Hs Hm.
  - cbn [app set_rev get_rev] in *. rewrite Hs. destruct (snd m); auto. destruct diff; auto. discriminate.
  - inversion Hp as [|? ? Hx Hp']; subst. cbn [app set_rev fits get_rev] in *. destruct (is_index x) eqn:Ei.
    + destruct Hf as [Hr Hf]. destruct (index_case v x Hv Hx Ei Hr) as (-> & Hd & Hi & Hit).
      pose proof (elem_index x Hx Ei) as Hpos. set (i := Z.to_nat (pe_index x)) in *. set (l := as_items v) in *.
      rewrite Hit in *. assert (Hsz : arr_size (arr_create (CBase l)) = length l) by (cbn; lia). rewrite Hsz.
      destruct (Z.leb_spec (Z.of_nat (length l)) (pe_index x)) as [L|L].
      * assert (Hu : snd (vitem (VArr l) i) = VUndef) by (unfold vitem; cbn [members_of]; rewrite nth_overflow by lia; reflexivity).
        rewrite Hu in *. rewrite (IH q VUndef new m); auto. left; reflexivity.
      * rewrite base_get by lia. rewrite (IH q _ new m); auto. apply place_item_arr; auto.
    + destruct (obj_put_gen v (pe_key x) VNull Hv) as (o1 & -> & _). rewrite (IH q _ new m); auto. apply place_member; auto.
Qed.

Lemma fits_app : forall p q v, fits v (p ++ q) <-> fits v p /\ fits (get_rev v p) q.
Proof.
  induction p as [|x p IH]; intros q v; cbn [app fits get_rev]; [tauto|]. destruct (is_index x); rewrite IH; tauto.
Qed.

Lemma get_rev_place : forall p v, doc v -> path_ok p -> fits v p -> place (get_rev v p).
Proof.
  assert (G : forall p v, place v -> path_ok p -> fits v p -> place (get_rev v p)).
  { induction p as [|x p IH]; intros v Hv Hp Hf; auto. inversion Hp as [|? ? Hx Hp']; subst. cbn [fits get_rev] in *.
    destruct (is_index x) eqn:Ei.
    - destruct Hf as [Hr Hf]. destruct (index_case v x Hv Hx Ei Hr) as (_ & Hd & _ & Hit). rewrite Hit in *. apply IH; auto.
      apply place_item_arr; auto.
    - apply IH; auto. apply place_member; auto. }
  intros p v H. apply G. right; auto.
Qed.

Lemma set_rev_delete : forall p k v, doc v -> path_ok p -> fits v p ->
  exists m, set_rev (p ++ [pkey k]) v ([], VUndef) = Some m /\ doc (snd m) /\ get_rev (snd m) (p ++ [pkey k]) = VUndef /\
    (forall q, path_ok q -> diverge (p ++ [pkey k]) q -> get_rev (snd m) q = get_rev v q).
Proof.
  intros p k v Hv Hp Hf. pose proof (get_rev_place p v Hv Hp Hf) as Hpl.
  destruct (obj_put_gen (get_rev v p) k VUndef Hpl) as (o1 & Ho & l & Hl & Hk & Hb).
  assert (Hkey : is_index (pkey k) = false) by reflexivity.
  assert (Hs : set_rev [pkey k] (get_rev v p) ([], VUndef) = Some ([], VObj false l)).
  { cbn [set_rev]. rewrite Hkey. cbn [pkey pe_key snd]. rewrite Ho. cbn [snd]. rewrite Hl. reflexivity. }
  assert (Hd : doc (VObj false l)).
  { constructor; auto. apply Forall_forall. intros [k0 y] Hin. cbn [snd]. apply in_binding in Hin; [|apply keys_increasing_nodup; auto].
    rewrite Hb in Hin. destruct (beqb k k0); [discriminate|]. destruct (get_rev v p); cbn [obj_members] in Hin; try discriminate.
    destruct Hpl as [Hpl|Hpl]; [discriminate|]. apply doc_obj in Hpl as (_ & _ & Hpl). rewrite Forall_forall in Hpl.
    apply binding_in in Hin. apply (Hpl _ Hin). }
  rewrite (set_rev_app p [pkey k] v _ _ (or_intror Hv) Hp Hf Hs eq_refl).
  destruct (set_rev_spec p v ([], VObj false l) (or_intror Hv) Hf Hp Hd) as (m & Em & _ & _ & M3 & _ & M5 & M6).
  exists m. split; auto. split; [auto|]. cbn [snd] in M5.
  assert (Hmem : forall k0, value_member (VObj false l) k0 = if beqb k k0 then VUndef else value_member (get_rev v p) k0).
  { intros k0. rewrite value_member_binding by auto. rewrite Hb. destruct (beqb k k0); auto.
    destruct (get_rev v p); try reflexivity. destruct Hpl as [Hpl|Hpl]; [discriminate|]. apply doc_obj in Hpl as (_ & Hpl & _).
    rewrite value_member_binding by auto. reflexivity. }
  split.
  - rewrite get_rev_app, M5. cbn [get_rev]. rewrite Hkey. cbn [pkey pe_key]. rewrite Hmem, beqb_refl. reflexivity.
  - intros q Hq (c & a & b & p1 & q1 & E1 & E2 & Hdf). destruct (exists_last (l := a :: p1)) as (p2 & a2 & E3); [discriminate|].
    rewrite E3, app_assoc in E1. apply app_inj_tail in E1 as [E1 <-]. destruct p2 as [|a' p2].
    + injection E3 as -> ->. rewrite app_nil_r in E1. subst c q. destruct Hdf as [Hk' Hdf].
      rewrite !get_rev_app, M5. cbn [get_rev]. rewrite <- Hk'. rewrite Hkey in *. cbn [pkey pe_key] in Hdf. rewrite Hmem. destruct (beqb k (pe_key b)) eqn:E; auto. apply beqb_eq in E. contradiction.
    + injection E3 as <- _. apply M6; auto. exists c, a, b, p2, q1. auto.
Qed.

(** *** The statements of PropPath *)
Lemma path_ok_rev : forall p, path_ok p -> path_ok (rev p).
Proof. intros p H. apply Forall_rev. exact H. Qed.
Lemma replace_rev : forall v p m, replace_path v p m = set_rev (rev p) v m.
Proof. intros. unfold replace_path. rewrite reverse_path_rev, app_nil_r. reflexivity. Qed.

Lemma put_get : forall v p new, doc v -> path_ok p -> fits v (rev p) -> doc new ->
  exists v', replace_path v p ([], new) = Some ([], v') /\ doc v' /\ get_path v' p = new.
Proof.
  intros v p new Hv Hp Hf Hn.
  destruct (set_rev_spec (rev p) v ([], new) (or_intror Hv) Hf (path_ok_rev _ Hp) Hn) as (m & Em & M1 & M2 & M3 & _ & M5 & _).
  exists (snd m). rewrite replace_rev, get_path_rev. split; [|split; auto]. rewrite Em. f_equal.
  assert (fst m = []) as Hk by (destruct (rev p); [rewrite M1; auto|apply M2; discriminate]). destruct m; cbn [fst snd] in *. congruence.
Qed.

Lemma get_put : forall v p, doc v -> path_ok p -> fits v (rev p) -> get_path v p <> VUndef ->
  replace_path v p ([], get_path v p) = Some ([], v).
Proof.
  intros v p Hv Hp Hf Hn. rewrite replace_rev, get_path_rev in *. apply set_rev_same; auto.
  - apply path_ok_rev; auto.
  - destruct (get_rev v (rev p)); auto. congruence.
Qed.

Lemma elsewhere : forall v p q new k v', doc v -> path_ok p -> path_ok q -> fits v (rev p) -> doc new ->
  diverge (rev p) (rev q) -> replace_path v p ([], new) = Some (k, v') -> get_path v' q = get_path v q.
Proof.
  intros v p q new k v' Hv Hp Hq Hf Hn Hd He. rewrite replace_rev in He.
  destruct (set_rev_spec (rev p) v ([], new) (or_intror Hv) Hf (path_ok_rev _ Hp) Hn) as (m & Em & _ & _ & _ & _ & _ & M6).
  rewrite Em in He. injection He as ->. rewrite !get_path_rev. apply M6; auto. apply path_ok_rev; auto.
Qed.

Lemma set_rev_key : forall p v new m, set_rev p v new = Some m -> p <> [] -> fst m = [].
Proof.
  intros [|x p] v new m H Hn; [congruence|]. cbn [set_rev] in H. destruct (is_index x).
  - destruct (_ <=? _); [destruct (set_rev p VUndef new); inversion H; reflexivity|].
    destruct (arr_get _ _); [|discriminate]. destruct (set_rev p _ new); [|discriminate].
    destruct (arr_set _ _ _); inversion H; reflexivity.
  - destruct (obj_read _ _) as [[o1 cur]|]; [|discriminate]. destruct (set_rev p cur new); inversion H; reflexivity.
Qed.

Lemma delete_law : forall v k p, doc v -> path_ok p -> fits v (rev p) ->
  exists v', replace_path v (pkey k :: p) ([], VUndef) = Some ([], v') /\ doc v' /\
    get_path v' (pkey k :: p) = VUndef /\
    forall q, path_ok q -> diverge (rev (pkey k :: p)) (rev q) -> get_path v' q = get_path v q.
Proof.
  intros v k p Hv Hp Hf. destruct (set_rev_delete (rev p) k v Hv (path_ok_rev _ Hp) Hf) as (m & Em & M1 & M2 & M3).
  exists (snd m). rewrite replace_rev. change (rev (pkey k :: p)) with (rev p ++ [pkey k]). split.
  { rewrite Em. apply set_rev_key in Em; [|destruct (rev p); discriminate]. destruct m; cbn [fst snd] in *. congruence. }
  split; auto. split; [rewrite get_path_rev; exact M2|]. intros q Hq Hd. rewrite !get_path_rev. apply M3; auto. apply path_ok_rev; auto.
Qed.

Lemma elem_ok_key : forall k, elem_ok (pkey k).
Proof. left. reflexivity. Qed.

Lemma past_end : exists v p new v', doc v /\ path_ok p /\ doc new /\
  replace_path v p ([], new) = Some ([], v') /\ get_path v' p <> new.
Proof.
  exists (VArr []), [pindex 1], VNull, (VArr [([], VNull)]). split; [repeat constructor|].
  split. { constructor; [|constructor]. right. split; [reflexivity|]. split; [discriminate|reflexivity]. }
  split; [constructor|]. split; [vm_compute; reflexivity|]. vm_compute. discriminate.
Qed.

Lemma into_object : exists v p q new v', doc v /\ path_ok p /\ path_ok q /\ doc new /\
  diverge (rev p) (rev q) /\ get_path v p <> VUndef /\
  replace_path v p ([], new) = Some ([], v') /\ get_path v' q <> get_path v q.
Proof.
  exists (VObj false [([97], VNull); ([98], VBool true)]), [pindex 0], [pindex 1], (VBool false), (VArr [([], VBool false)]).
  split. { constructor; [vm_compute; auto|repeat constructor]. repeat constructor. }
  assert (forall i, 0 <= i < 2 -> path_ok [pindex i]) as Hi.
  { intros i Hi. constructor; [|constructor]. right. split; [reflexivity|]. cbn [pindex pe_index]. unfold no_index. lia. }
  split; [apply Hi; lia|]. split; [apply Hi; lia|]. split; [constructor|].
  split. { exists [], (pindex 0), (pindex 1), [], []. repeat split. discriminate. }
  split; [vm_compute; discriminate|]. split; [vm_compute; reflexivity|]. vm_compute. discriminate.
Qed.

Lemma leaf_first : forall x y p q, path_ok [x] -> path_ok [y] -> path_compare [x] [y] <> Eq ->
  path_compare (x :: p) (y :: q) = path_compare [x] [y].
Proof. intros x y p q _ _. rewrite !path_compare_cons. destruct (ecmp x y); auto. cbn [path_compare]. congruence. Qed.

Lemma components : forall i j k l, 0 <= i < no_index -> 0 <= j < no_index ->
  path_compare [pindex i] [pkey k] = Lt /\ path_compare [pindex i] [pindex j] = (i ?= j) /\
  path_compare [pkey k] [pkey l] = kcmp k l.
Proof.
  intros i j k l Hi Hj. rewrite !path_compare_cons. unfold ecmp.
  assert (forall i, 0 <= i < no_index -> is_index (pindex i) = true) as Hx.
  { intros a Ha. unfold is_index. cbn [pindex pe_index]. destruct (Z.eqb_spec a no_index); auto. lia. }
  rewrite !Hx by auto. change (is_index (pkey k)) with false. change (is_index (pkey l)) with false. cbn [pindex pkey pe_index pe_key path_compare].
  split; [reflexivity|]. split; [destruct (i ?= j)|destruct (kcmp k l)]; reflexivity.
Qed.
