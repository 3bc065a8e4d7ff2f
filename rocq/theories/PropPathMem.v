(** C102: a copied path owns what it refers to. *)
From Coq Require Import String.
From Coq Require Import ZArith List Bool Lia.
From Verif Require Import Base ModelPath ModelRpc ModelPathMem SpecPathMem ProofPathMem.
Import ListNotations.
Local Open Scope string_scope.
Local Open Scope list_scope.
Local Open Scope Z_scope.

(** A copy takes one block of the size [copy_size], the sum of the objects, the names with a
    zero behind each and one word.  No access leaves memory, nothing outside of the block
    changes, and whatever later becomes of the rest of the memory, the copy has the components
    of the source. *)
Theorem C102_copy : forall szR szP root place m a p fuel start, 0 < szP -> szP <= szR ->
  m root <> None -> denotes szP root m a p -> Forall elem_ok p -> p <> [] -> (List.length p < fuel)%nat ->
  copy_size szR szP p < 2 ^ 64 ->
  place (copy_size szR szP p) = Some start -> unused m start (copy_size szR szP p) ->
  exists m', path_copy szR szP root place fuel m a = POk (m', start) /\
    (forall x, ~ in_block start (copy_size szR szP p) x -> m' x = m x) /\
    (exists ka kl ix pa, object_at m' start szR ka kl ix pa) /\
    (forall m'', (forall x, in_block start (copy_size szR szP p - 8) x -> m'' x = m' x) ->
       denotes szP root m'' start p /\ names_closed root m'' start).
Proof. exact (fun szR szP root place m a p fuel start HP HR Hroot => copy_ok szR szP root HP place m a p fuel start Hroot HR). Qed.
Print Assumptions C102_copy.

(** The address determines the components. *)
Theorem C102_determined : forall szP root m a p q, denotes szP root m a p -> denotes szP root m a q -> p = q.
Proof. exact (fun szP root m a p q D => denotes_det szP root m a p D q). Qed.
Print Assumptions C102_determined.

(** The root is not copied. *)
Theorem C102_root : forall szR szP root place fuel m, path_copy szR szP root place fuel m root = POk (m, root).
Proof. exact copy_root. Qed.
Print Assumptions C102_root.

(** When the allocator throws, nothing else happens. *)
Theorem C102_no_memory : forall szR szP root place m a p fuel, 0 < szP -> 0 < szR ->
  denotes szP root m a p -> p <> [] -> (List.length p < fuel)%nat -> copy_size szR szP p < 2 ^ 64 ->
  place (copy_size szR szP p) = None -> path_copy szR szP root place fuel m a = PNoMem.
Proof.
  exact (fun szR szP root place m a p fuel HP HR D Hp Hf Hb Hpl =>
    copy_nomem szR szP root HP place m a p fuel D Hp Hf HR Hb Hpl).
Qed.
Print Assumptions C102_no_memory.

(** A [Path] object which is copied by value denotes the same, unless it is the root. *)
Theorem C102_by_value : forall szP root m a b ka kl ix pa p, a <> root -> b <> root -> denotes szP root m a p ->
  object_at m a szP ka kl ix pa -> object_at m b szP ka kl ix pa -> denotes szP root m b p.
Proof. exact by_value. Qed.
Print Assumptions C102_by_value.

(** Concrete memory: objects of 32 bytes and their names. *)
Definition ex_object (a ka kl ix pa : Z) (x : Z) : option cell :=
  if x =? a then Some (CNode ka kl ix pa)
  else if (a <? x) && (x <? a + 32) then Some (CPart a) else None.
Definition ex_text (a : Z) (s : bytes) (x : Z) : option cell :=
  if a <=? x then option_map CByte (nth_error s (Z.to_nat (x - a))) else None.
Definition first_of (l : list memory) : memory :=
  fun x => fold_right (fun (m : memory) r => match m x with Some c => Some c | None => r end) None l.

(** path.cpp 16-24: the root, named "<root>"; its parent is itself.  Behind it root/"ab"/3/""
    and a copy of the root by value. *)
Definition ex_memory : memory := first_of
  [ex_object 1000 500 6 no_index 1000; ex_text 500 (txt "<root>");
   ex_object 2000 600 2 no_index 1000; ex_text 600 (txt "ab");
   ex_object 3000 0 0 3 2000; ex_object 3100 700 0 no_index 3000;
   ex_object 4000 500 6 no_index 1000].
Definition ex_path : path := [pkey []; pindex 3; pkey (txt "ab")].

Lemma ex_object_at : forall a ka kl ix pa,
  forallb (fun i => match ex_memory (a + Z.of_nat i) with Some (CPart b) => b =? a | _ => false end) (seq 1 31) = true ->
  ex_memory a = Some (CNode ka kl ix pa) -> object_at ex_memory a 32 ka kl ix pa.
Proof.
  intros a ka kl ix pa H E. split; [exact E|]. intros i Hi.
  assert (Hin : In (Z.to_nat i) (seq 1 31)) by (apply in_seq; lia).
  pose proof (proj1 (forallb_forall _ _) H _ Hin) as T. cbv beta in T.
  rewrite Z2Nat.id in T by lia. destruct (ex_memory (a + i)) as [[| | |b]|]; try discriminate T.
  apply Z.eqb_eq in T. congruence.
Qed.
Lemma ex_text_at : forall a s,
  forallb (fun i => match ex_memory (a + Z.of_nat i), nth_error s i with Some (CByte c), Some d => c =? d | _, _ => false end)
    (seq 0 (List.length s)) = true -> text_at ex_memory a s.
Proof.
  intros a s H i c Hc.
  assert (Hin : In i (seq 0 (List.length s))) by (apply in_seq; split; [lia|]; apply nth_error_Some; congruence).
  pose proof (proj1 (forallb_forall _ _) H _ Hin) as T. cbv beta in T. rewrite Hc in T.
  destruct (ex_memory (a + Z.of_nat i)) as [[|d| |]|]; try discriminate T. apply Z.eqb_eq in T. congruence.
Qed.
Lemma ex_denotes : denotes 32 1000 ex_memory 3100 ex_path.
Proof.
  apply (den_step 32 1000 ex_memory 3100 700 [] no_index 3000); [lia|apply ex_object_at; vm_compute; reflexivity|apply ex_text_at; reflexivity|].
  apply (den_step 32 1000 ex_memory 3000 0 [] 3 2000); [lia|apply ex_object_at; vm_compute; reflexivity|apply ex_text_at; reflexivity|].
  apply (den_step 32 1000 ex_memory 2000 600 (txt "ab") no_index 1000); [lia|apply ex_object_at; vm_compute; reflexivity|apply ex_text_at; vm_compute; reflexivity|].
  apply den_root.
Qed.

(** Copying the object [Path::root] by value gives the path of the key "<root>", not the root. *)
Theorem C102_root_by_value_refuted : exists szP root m b ka kl ix pa p,
  denotes szP root m root [] /\ object_at m root szP ka kl ix pa /\ object_at m b szP ka kl ix pa /\
  denotes szP root m b p /\ p <> [].
Proof.
  exists 32, 1000, ex_memory, 4000, 500, 6, no_index, 1000, [pkey (txt "<root>")].
  split; [apply den_root|]. split; [apply ex_object_at; vm_compute; reflexivity|].
  split; [apply ex_object_at; vm_compute; reflexivity|]. split; [|discriminate].
  apply (den_step 32 1000 ex_memory 4000 500 (txt "<root>") no_index 1000); [lia|apply ex_object_at; vm_compute; reflexivity|apply ex_text_at; vm_compute; reflexivity|apply den_root].
Qed.
Print Assumptions C102_root_by_value_refuted.

(** Three components: 40 + 2 * 32 bytes of objects, "ab" and "" with their zeros, one word. *)
Example C102_case :
  copy_size 40 32 ex_path = 116 /\ denotes 32 1000 ex_memory 3100 ex_path /\ Forall elem_ok ex_path /\
  (exists m', path_copy 40 32 1000 (fun size => if size =? 116 then Some 5000 else None) 4 ex_memory 3100 = POk (m', 5000) /\
     denotes 32 1000 (fun x => if (5000 <=? x) && (x <? 5108) then m' x else None) 5000 ex_path) /\
  match path_copy 40 32 1000 (fun size => if size =? 116 then Some 5000 else None) 4 ex_memory 3100 with
  | POk (m', _) => map m' [5000; 5040; 5072; 5104; 5105; 5106; 5107; 5108]
  | _ => []
  end =
    [Some (CNode 5104 0 no_index 5040); Some (CNode 0 0 3 5072); Some (CNode 5105 2 no_index 1000);
     Some (CByte 0); Some (CByte 97); Some (CByte 98); Some (CByte 0); Some CRaw].
Proof.
  assert (F : Forall elem_ok ex_path) by (repeat constructor).
  split; [vm_compute; reflexivity|]. split; [exact ex_denotes|]. split; [exact F|].
  split; [|vm_compute; reflexivity].
  destruct (C102_copy 40 32 1000 (fun size => if size =? 116 then Some 5000 else None) ex_memory 3100 ex_path 4 5000)
    as (m' & E & _ & _ & G); try lia; try exact ex_denotes; try exact F.
  - vm_compute. discriminate.
  - discriminate.
  - cbn. lia.
  - vm_compute. reflexivity.
  - vm_compute. reflexivity.
  - intros x Hx. unfold in_block in Hx. change (copy_size 40 32 ex_path) with 116 in Hx.
    unfold ex_memory, first_of, ex_object, ex_text. cbn [fold_right].
    repeat match goal with
    | |- context [x =? ?a] => destruct (Z.eqb_spec x a); [lia|]
    | |- context [x <? ?a] => replace (x <? a) with false by (symmetry; apply Z.ltb_ge; lia)
    end. rewrite !andb_false_r. cbn [fold_right].
    assert (T : forall a (s : bytes), (Z.of_nat (List.length s) + a <= 5000) ->
      (if a <=? x then option_map CByte (nth_error s (Z.to_nat (x - a))) else None) = None).
    { intros a s Hs. destruct (a <=? x); [|reflexivity].
      replace (nth_error s (Z.to_nat (x - a))) with (@None Z); [reflexivity|]. symmetry. apply nth_error_None. lia. }
    rewrite !T by (vm_compute; discriminate). reflexivity.
  - exists m'. split; [exact E|].
    apply G. intros x Hx. unfold in_block in Hx. change (copy_size 40 32 ex_path) with 116 in Hx.
    replace ((5000 <=? x) && (x <? 5108)) with true; [reflexivity|]. symmetry. apply andb_true_iff. lia.
Qed.
(** The text of a key or an element released before the copy is made: undefined. *)
Example C102_case_released :
  path_copy 40 32 1000 (fun _ => Some 5000) 4 (fun x => if (600 <=? x) && (x <? 602) then None else ex_memory x) 3100 = PBad /\
  path_copy 40 32 1000 (fun _ => Some 5000) 4 (fun x => if x =? 601 then None else ex_memory x) 3100 = PBad /\
  path_copy 40 32 1000 (fun _ => Some 5000) 4 (fun x => if (2000 <=? x) && (x <? 2032) then None else ex_memory x) 3100 = PBad.
Proof. split; [vm_compute; reflexivity|]. split; vm_compute; reflexivity. Qed.
