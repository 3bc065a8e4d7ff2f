(** C51, C56: joining, splitting and editing strings. *)
From Verif Require Import Base ModelKeyed ModelValue ModelText ModelObject ModelEnc ModelJwt ModelString SpecString ProofString.
Local Open Scope Z_scope.

(** *** C51 *)
(** The string forms of the items, with the separator between them. *)
Theorem C51_join : forall E utf8 v sep texts, Forall2 (fun m t => to_string E utf8 (snd m) = Some t) (members_of v) texts ->
  texts <> [] \/ sep = [] -> Z.of_nat (length (intercalate sep texts)) < 2 ^ 64 ->
  value_join E utf8 v sep = Ok (intercalate sep texts).
Proof. exact join_spec. Qed.
Print Assumptions C51_join.
Theorem C51_string_form : forall E utf8 v, (forall e s, v = VStr (Some e) s -> is_bytes s) ->
  exists t, to_string E utf8 v = Some t /\ string_form E utf8 v t.
Proof. exact to_string_form. Qed.
Print Assumptions C51_string_form.

(** Joining no items with a separator asks for a buffer of negative size. *)
Theorem C51_join_empty : forall E utf8 v sep, members_of v = [] -> sep <> [] -> Z.of_nat (length sep) < 2 ^ 64 ->
  value_join E utf8 v sep = Err.
Proof. exact join_empty. Qed.
Print Assumptions C51_join_empty.
Theorem C51_join_empty_refuted : exists v sep, forall E utf8, value_join E utf8 v sep = Err.
Proof. exists (VArr []), [44]. intros E utf8. apply join_empty; [reflexivity|discriminate|reflexivity]. Qed.
Print Assumptions C51_join_empty_refuted.

(** Splitting finds the leftmost separators, at most [max] of them. *)
Theorem C51_split : forall e s sep max, sep <> [] -> 0 <= max -> exists parts,
  str_split (VStr e s) sep max =
    Ok (VArr (map (fun v => ([], v)) (match parts with [_] => [VStr e s] | _ => map (VStr None) parts end))) /\
  split_parts sep max s parts.
Proof. exact split_spec. Qed.
Print Assumptions C51_split.
(** This leaves no choice of parts. *)
Theorem C51_split_unique : forall sep p q max s, split_parts sep max s p -> split_parts sep max s q -> p = q.
Proof. exact split_unique. Qed.
Print Assumptions C51_split_unique.

Theorem C51_rejoin : forall E utf8 s sep max v, sep <> [] -> 0 <= max -> Z.of_nat (length s) < 2 ^ 64 ->
  str_split (VStr None s) sep max = Ok v -> value_join E utf8 v sep = Ok s.
Proof. exact rejoin. Qed.
Print Assumptions C51_rejoin.

Definition strE : serenv := mkSer (fun _ _ => []) (fun _ _ => []).
(* "a--b---c" by "--" *)
Example C51_case : str_split (VStr None [97; 45; 45; 98; 45; 45; 45; 99]) [45; 45] max_count =
    Ok (VArr [([], VStr None [97]); ([], VStr None [98]); ([], VStr None [45; 99])]) /\
  str_split (VStr None [97; 45; 45; 98; 45; 45; 45; 99]) [45; 45] 1 =
    Ok (VArr [([], VStr None [97]); ([], VStr None [98; 45; 45; 45; 99])]) /\
  split_parts [45; 45] 1 [97; 45; 45; 98; 45; 45; 45; 99] [[97]; [98; 45; 45; 45; 99]] /\
  value_join strE true (VArr [([], VStr None [97]); ([], VBool true); ([], VNull)]) [44; 32] =
    Ok [97; 44; 32; 116; 114; 117; 101; 44; 32; 110; 117; 108; 108] /\
  value_join strE true (VArr []) [] = Ok [].
Proof.
  split; [vm_compute; reflexivity|]. split; [vm_compute; reflexivity|]. split; [|split; vm_compute; reflexivity].
  split; [discriminate|]. split; [reflexivity|]. split; [|split; [cbn; lia|left; reflexivity]].
  cbn [removelast]. constructor; [|constructor]. intros i Hi (a & b & H & L). cbn [length] in Hi. destruct i; [|lia].
  destruct a; [|discriminate]. discriminate.
Qed.

(** *** C56 *)
Theorem C56_insert : forall s pos what, 0 <= pos ->
  get_string (str_insert s pos what) = firstn (Z.to_nat pos) (get_string s) ++ what ++ skipn (Z.to_nat pos) (get_string s).
Proof. exact insert_spec. Qed.
Print Assumptions C56_insert.

(** The characters [pos] to [pos + size] are replaced, as far as there are such. *)
Theorem C56_replace : forall s pos size what, 0 <= pos -> 0 <= size -> Z.min pos (Z.of_nat (length (get_string s))) + size < 2 ^ 64 ->
  Z.of_nat (length (get_string s)) < 2 ^ 64 ->
  str_replace s pos size what =
    Some (VStr None (firstn (Z.to_nat pos) (get_string s) ++ what ++ skipn (Z.to_nat (pos + size)) (get_string s))).
Proof. exact replace_spec. Qed.
Print Assumptions C56_replace.
(** In general the end is taken modulo 2^64, so with a size as large as [npos] the sum wraps
    round and characters before [pos] come again behind the new text. *)
Theorem C56_replace_wraps : forall s pos size what, let a := get_string s in let p := Z.min pos (Z.of_nat (length a)) in
  0 <= pos -> 0 <= size < 2 ^ 64 -> Z.of_nat (length a) < 2 ^ 64 ->
  str_replace s pos size what = Some (VStr None (firstn (Z.to_nat p) a ++ what ++ skipn (Z.to_nat ((p + size) mod 2 ^ 64)) a)).
Proof. exact replace_all_spec. Qed.
Print Assumptions C56_replace_wraps.
Theorem C56_replace_refuted : exists s pos size what t, 0 <= pos < 2 ^ 64 /\ 0 <= size < 2 ^ 64 /\
  str_replace s pos size what = Some (VStr None t) /\
  t <> firstn (Z.to_nat pos) (get_string s) ++ what ++ skipn (Z.to_nat (Z.min (pos + size) (Z.of_nat (length (get_string s))))) (get_string s).
Proof. exists (VStr None [97; 98; 99]), 1, (2 ^ 64 - 1), [120], [97; 120; 97; 98; 99]. vm_compute. repeat split; discriminate. Qed.
Print Assumptions C56_replace_refuted.

(** [splitAt]: a positive position counts from the start, a negative one from
    the end, and zero takes everything to the left. *)
Theorem C56_split_at : forall s pos, 0 < pos \/ Z.of_nat (length (get_string s)) < 2 ^ 31 ->
  let a := get_string s in
  let left := if pos =? 0 then length a else if 0 <? pos then Z.to_nat pos else (length a - Z.to_nat (- pos))%nat in
  get_string (fst (str_split_at s pos)) = firstn left a /\ get_string (snd (str_split_at s pos)) = skipn left a.
Proof. exact split_at_spec. Qed.
Print Assumptions C56_split_at.

Theorem C56_left_right : forall s n, str_left s n = firstn n s /\ str_right s n = skipn (length s - n) s.
Proof. exact left_right_spec. Qed.
Print Assumptions C56_left_right.

Example C56_case : str_insert (VStr None [97; 98]) 1 [120] = VStr None [97; 120; 98] /\
  str_insert (VStr None [97; 98]) 9 [120] = VStr None [97; 98; 120] /\
  str_replace (VStr None [97; 98; 99; 100]) 1 2 [120] = Some (VStr None [97; 120; 100]) /\
  str_replace (VStr None [97; 98; 99; 100]) 3 7 [120] = Some (VStr None [97; 98; 99; 120]) /\
  str_split_at (VStr None [97; 98; 99]) 1 = (VStr None [97], VStr None [98; 99]) /\
  str_split_at (VStr None [97; 98; 99]) (-1) = (VStr None [97; 98], VStr None [99]) /\
  str_split_at (VStr None [97; 98; 99]) 0 = (VStr None [97; 98; 99], VUndef) /\
  str_right [97; 98; 99] 2 = [98; 99].
Proof. vm_compute. repeat split. Qed.
