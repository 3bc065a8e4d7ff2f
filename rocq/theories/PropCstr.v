(** C115: strings behind a pointer. *)
From Coq Require Import Lia ZifyBool.
From Verif Require Import Base ModelValue ModelEnc ModelMem SpecMem ModelCstr SpecCstr ProofCstr.
Local Open Scope list_scope.
Local Open Scope Z_scope.

(** *** C115 *)
(** The text of a string cut out of another, any number of times. *)
Theorem C115_text : forall L nul, sane L -> forall h t from n, cut L h t from n ->
  h_str L nul h = MOk (firstn n (skipn from t)) /\ h_length L nul h = Z.of_nat n.
Proof. exact cut_str. Qed.
Print Assumptions C115_text.

(** [operator[]] gives the characters, and 0 past the last one. *)
Theorem C115_at : forall L nul, sane L -> forall h t from n pos, cut L h t from n -> 0 <= pos ->
  h_at L nul h pos = MOk (nth (Z.to_nat pos) (firstn n (skipn from t)) 0).
Proof. exact cut_at. Qed.
Print Assumptions C115_at.

(** [c_str] reads on to the end of the string the part was cut out of, or to a zero in it. *)
Theorem C115_c_str : forall L nul, sane L -> forall h t from n, cut L h t from n ->
  h_cstr L nul h = MOk (before_zero (skipn from t)).
Proof. exact cut_cstr. Qed.
Print Assumptions C115_c_str.

(** So it gives the text exactly of the parts which go to the end. *)
Theorem C115_exact : forall L nul, sane L -> forall h t from n, cut L h t from n -> ~ In 0 t ->
  (h_cstr L nul h = h_str L nul h <-> (from + n)%nat = length t).
Proof. exact cut_exact. Qed.
Print Assumptions C115_exact.

(** [operator+] and [+=] give a string of its own with both texts. *)
Theorem C115_plus : forall L nul, sane L -> forall limit a b x y, h_str L nul a = MOk x -> h_str L nul b = MOk y ->
  string_size L (Z.of_nat (length (x ++ y))) < 2 ^ 64 -> x ++ y <> [] ->
  if string_size L (Z.of_nat (length (x ++ y))) <=? limit then exists h, h_plus L nul limit a b = MOk h /\ cut L h (x ++ y) 0 (length (x ++ y))
  else h_plus L nul limit a b = MNoMem.
Proof. exact plus_ok. Qed.
Print Assumptions C115_plus.
Theorem C115_plus_empty : forall L nul limit a b, h_str L nul a = MOk [] -> h_str L nul b = MOk [] -> h_plus L nul limit a b = MOk HEmpty.
Proof. exact plus_empty. Qed.
Print Assumptions C115_plus_empty.

(** A string of two parts, "a,b", and the first part. *)
Definition lay : layout := mkL 16 4.
Definition whole : strobj := match string_of_view 1000 lay None [97; 44; 98] with MOk s => s | _ => mkStr 0 None (mkB 0 (fun _ => None)) end.
Lemma whole_holds : holds lay whole [97; 44; 98].
Proof.
  split; [vm_compute; reflexivity|]. split; [|vm_compute; intuition congruence].
  intros [|[|[|k]]] H; try (vm_compute; reflexivity). cbn in H. lia.
Qed.
(** The documentation of [c_str] (string.h 144) promises the terminating zero. *)
Theorem C115_c_str_refuted : exists L s t h, sane L /\ holds L s t /\ ~ In 0 t /\ h = HSub (HOwn s) 0 1 /\
  forall nul, h_str L nul h = MOk [97] /\ h_cstr L nul h = MOk [97; 44; 98].
Proof.
  exists lay, whole, [97; 44; 98], (HSub (HOwn whole) 0 1). split; [vm_compute; intuition congruence|]. split; [exact whole_holds|].
  split; [cbn; lia|]. split; [reflexivity|]. intros nul. split; vm_compute; reflexivity.
Qed.
Print Assumptions C115_c_str_refuted.

Example C115_case : sane lay /\ cut lay (HSub (HSub (HOwn whole) 1 2) 1 5) [97; 44; 98] 2 1 /\
  h_cstr lay None (HSub (HSub (HOwn whole) 1 2) 1 5) = MOk [98] /\
  (exists h, h_plus lay None 100 (HSub (HOwn whole) 0 1) (HOwn whole) = MOk h /\ h_cstr lay None h = MOk [97; 97; 44; 98]).
Proof.
  split; [vm_compute; intuition congruence|]. split.
  - exact (cut_sub lay _ _ 1 2 1 5 (cut_sub lay _ _ 0 3 1 2 (cut_own lay _ _ whole_holds))).
  - split; [vm_compute; reflexivity|]. eexists. split; vm_compute; reflexivity.
Qed.
