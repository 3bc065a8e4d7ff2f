(** C46: named enumerations. *)
From Coq Require Import Sorted Permutation.
From Coq Require Import String.
From Verif Require Import Base ModelKeyed ModelStd ModelEnum ModelRpc SpecString ProofEnum.
Local Open Scope string_scope.
Local Open Scope list_scope.
Local Open Scope Z_scope.

(** Whatever the table, a known name gives a value listed under it; an unknown
    one is reported with the name and all the names of the table. *)
Theorem C46_by_name : forall defs E n, ne_built defs E ->
  (exists v, ne_value E n = Ok (Found v) /\ In (v, n) defs) \/
  (exists names, ne_value E n = Ok (UnknownEnum n names) /\ ~ In n (map snd defs) /\ Permutation (map snd defs) names).
Proof. exact value_spec. Qed.
Print Assumptions C46_by_name.

Theorem C46_find : forall defs E n, ne_built defs E ->
  (exists v, ne_find E n = Ok (Some v) /\ ne_value E n = Ok (Found v)) \/
  (ne_find E n = Ok None /\ exists names, ne_value E n = Ok (UnknownEnum n names)).
Proof. exact find_spec. Qed.
Print Assumptions C46_find.

Theorem C46_by_value : forall defs E v, ne_built defs E ->
  (exists n, ne_name E v = Ok n /\ In (v, n) defs) \/ (ne_name E v = Ok [] /\ ~ In v (map fst defs)).
Proof. exact name_spec. Qed.
Print Assumptions C46_by_value.

(** With distinct names and distinct values the two lookups are inverse. *)
Theorem C46_inverse : forall defs E v n, ne_built defs E -> NoDup (map fst defs) -> NoDup (map snd defs) ->
  (In (v, n) defs <-> ne_value E n = Ok (Found v)) /\ (In (v, n) defs -> ne_name E v = Ok n) /\
  (ne_name E v = Ok n -> n <> [] -> In (v, n) defs).
Proof. exact inverse_spec. Qed.
Print Assumptions C46_inverse.

(** [allEnums] returns its separator instead of the names. *)
Theorem C46_all_enums : forall defs E sep, ne_built defs E -> all_enums E sep = match defs with [] => [] | _ => sep end.
Proof. exact all_enums_spec. Qed.
Print Assumptions C46_all_enums.

Theorem C46_all_enums_refuted : exists E, ne_built [(1, [97]); (2, [98])] E /\ all_enums E [44; 32] <> [97; 44; 32; 98].
Proof.
  exists (mkNE [(1, [97]); (2, [98])] [(1, [97]); (2, [98])]). split; [|vm_compute; discriminate].
  split; (split; [apply Permutation_refl|repeat constructor]).
Qed.
Print Assumptions C46_all_enums_refuted.

(** The text of the exception names the unknown name and lists the names. *)
Theorem C46_message : forall n names, ne_what n names =
  txt "Unknown enum name '" ++ n ++ txt "'. The value is not on following list:" ++
  match names with [] => [] | _ => txt " " ++ intercalate (txt ",") (map (fun x => txt "'" ++ x ++ txt "'") names) end.
Proof. exact what_text. Qed.
Print Assumptions C46_message.
Example C46_message_case : ne_what (txt "c") [txt "a"; txt "b"] =
  txt "Unknown enum name 'c'. The value is not on following list: 'a','b'".
Proof. vm_compute. reflexivity. Qed.

Definition enum_defs : list edef := [(7, [98]); (3, [122; 122]); (5, []); (-1, [200]); (9, [98; 97])].
Definition enum_example : nenum := mkNE [(-1, [200]); (3, [122; 122]); (5, []); (7, [98]); (9, [98; 97])]
  [(5, []); (-1, [200]); (7, [98]); (9, [98; 97]); (3, [122; 122])].
Example C46_case : ne_built enum_defs enum_example /\ NoDup (map fst enum_defs) /\ NoDup (map snd enum_defs) /\
  ne_value enum_example [98] = Ok (Found 7) /\ ne_name enum_example (-1) = Ok [200] /\
  ne_value enum_example [99] = Ok (UnknownEnum [99] [[]; [200]; [98]; [98; 97]; [122; 122]]) /\ ne_name enum_example 8 = Ok [].
Proof.
  assert (P : forall l : list edef, length l = 5%nat -> Forall (fun x => In x l) enum_defs -> NoDup enum_defs -> Permutation enum_defs l).
  { intros l Hl Hf Hn. apply NoDup_Permutation_bis; [exact Hn|rewrite Hl; reflexivity|]. intros x Hx. rewrite Forall_forall in Hf. auto. }
  assert (N : NoDup enum_defs) by (repeat constructor; cbn; intuition discriminate).
  repeat split; try (vm_compute; reflexivity); try (repeat constructor; cbn; intuition discriminate).
  - apply P; [reflexivity|repeat constructor; cbn; tauto|exact N].
  - apply P; [reflexivity|repeat constructor; cbn; tauto|exact N].
Qed.
