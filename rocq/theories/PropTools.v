(** C134: the command line tools jsonbin, jsonunbin, jsonpack, jsonunpack. *)
From Coq Require Import String Lia ZifyBool.
From Verif Require Import Base SpecUtf8 ModelValue ModelKeyed SpecKeyed ModelText SpecText ModelEnc ModelBin SpecBin ModelStreams ModelCompress SpecCompress ModelRpc ModelTools.
From Verif Require Import SpecReread ProofTools ProofTools2 PropBin PropStored.
Local Open Scope Z_scope.
Local Open Scope list_scope.

(** What jsonbin wrote, with anything after it, is written by jsonunbin as the text of the
    document given to jsonbin, doubles and strings that are not UTF-8 included. *)
Theorem C134_bin : forall J L E s v rest, (forall n, is_bytes (J n)) -> from_stream L (mkPF false false) s = Ok v ->
  bin_ok L (mkBF true false false) v -> members_in v < 2 ^ 32 - 257 ->
  exists o, json_bin L s = Writes o /\ json_unbin J E (o ++ rest) = Writes (ser E true v).
Proof. exact bin_there. Qed.
Print Assumptions C134_bin.

(** For documents of UTF-8 strings and integers nothing else is asked, and the text written
    by jsonunbin gives the same file again. *)
Theorem C134_bin_plain : forall J L E s v, (forall n, is_bytes (J n)) -> from_stream L (mkPF false false) s = Ok v ->
  made_of (fun t => valid_utf8 t /\ Z.of_nat (length t) < 2 ^ 64) no_double v -> members_in v < 2 ^ 32 - 257 ->
  exists o, json_bin L s = Writes o /\ json_unbin J E o = Writes (ser E true v) /\ json_bin L (ser E true v) = Writes o.
Proof. exact bin_plain. Qed.
Print Assumptions C134_bin_plain.

(** The same of jsonpack and jsonunpack, without limits of size. *)
Theorem C134_pack : forall L E s v, from_stream L (mkPF false false) s = Ok v -> made_of valid_utf8 no_double v ->
  exists o, json_pack L E s = Writes o /\ Forall is_byte o /\
    (forall n, (length (ser E true v) < n)%nat -> json_unpack L E n o = Writes (ser E true v)) /\
    json_pack L E (ser E true v) = Writes o.
Proof. exact pack_there. Qed.
Print Assumptions C134_pack.

(** jsonbin always ends, with status 0 for the texts that are read and 1 for the others. *)
Theorem C134_status : forall L s,
  (exists v, from_stream L (mkPF false false) s = Ok v) /\ (exists o, json_bin L s = Writes o) \/
  (from_stream L (mkPF false false) s = Err /\ json_bin L s = Fails).
Proof. exact bin_status. Qed.
Print Assumptions C134_status.

(** Whatever the bytes, the decompressor of jsonunpack gives a text and from then on end
    marks only, or a call of it fails. *)
Theorem C134_finite : forall inp, Forall is_byte inp ->
  (exists N t, forall n, exists d i, decompress_calls 128 (N + n) d_init inp = COk (t ++ repeat 255 n, d, i)) \/
  (exists N, forall n, decompress_calls 128 (N + n) d_init inp = CThrow) \/
  (exists N, forall n, decompress_calls 128 (N + n) d_init inp = CBad).
Proof. exact finite_text. Qed.
Print Assumptions C134_finite.

(** So jsonunpack always ends. *)
Theorem C134_unpack_ends : forall L E n inp, Forall is_byte inp -> json_unpack L E n inp <> Hangs.
Proof. exact unpack_ends. Qed.
Print Assumptions C134_unpack_ends.

(** Not so jsonunbin: on a part of what jsonbin wrote it may run forever, or write another
    document with status 0. *)
Theorem C134_cut_refuted :
  (exists s o o1 o2, o = o1 ++ o2 /\ forall J L E, json_bin L s = Writes o /\ json_unbin J E o1 = Hangs /\
    forall fuel, parse_item J (Some EncBase64) fuel (ps_init o1) = Fuel) /\
  (exists s o o1 o2 w, o = o1 ++ o2 /\ forall J L E, json_bin L s = Writes o /\ json_unbin J E o1 = Writes w /\ json_unbin J E o <> Writes w).
Proof.
  split.
  - exists (txt "[1,2]"), [98; 33; 34], [98; 33], [34]. split; [reflexivity|]. intros J L E.
    split; [vm_compute; reflexivity|]. split; [vm_compute; reflexivity|]. apply C22_otherwise_never. vm_compute. reflexivity.
  - exists (34 :: txt "abc" ++ [34]), [67; 97; 98; 99], [67; 97], [98; 99], [34; 97; 195; 191; 195; 191; 34]. split; [reflexivity|]. intros J L E.
    split; [vm_compute; reflexivity|]. split; [vm_compute; reflexivity|]. vm_compute. discriminate.
Qed.
Print Assumptions C134_cut_refuted.

(** Every document without floating numbers is packed, strings that are not UTF-8 included, and
    the decompressor gives its text. *)
Theorem C134_pack_always : forall L E s v, from_stream L (mkPF false false) s = Ok v ->
  made_of (fun t => is_bytes t /\ Z.of_nat (length t) < 2 ^ 32) no_double v ->
  exists o d, json_pack L E s = Writes o /\
    decompress_calls 128 (S (length (ser E true v))) d_init o = COk (ser E true v ++ [255], d, []).
Proof. exact pack_any. Qed.
Print Assumptions C134_pack_always.

(** But not every one of them is unpacked: two keys may be written alike, and jsonunpack refuses
    what jsonpack wrote with status 0. *)
Theorem C134_unpack_refuses_refuted : exists s v o, forall L E,
  from_stream L (mkPF false false) s = Ok v /\ json_pack L E s = Writes o /\
  json_unpack L E 40 o = Fails /\ forall J, json_unbin J E (match json_bin L s with Writes b => b | _ => [] end) = Writes (ser E true v).
Proof.
  exists ([123; 34; 252; 34; 58; 49; 44; 34; 195; 188; 34; 58; 50; 125]),
    (VObj false [([195; 188], VNum (NUInt 2)); ([252], VNum (NUInt 1))]), [97; 8; 1; 3; 60; 8; 32; 24; 18; 103; 105; 107; 23; 99; 255; 255].
  intros L E. split; [vm_compute; reflexivity|]. split; [vm_compute; reflexivity|]. split; [vm_compute; reflexivity|].
  intros J. vm_compute. reflexivity.
Qed.
Print Assumptions C134_unpack_refuses_refuted.

Example C134_case : (forall n, is_bytes (binJ n)) /\
  from_stream binL (mkPF false false) source126 = Ok value126 /\
  made_of (fun t => valid_utf8 t /\ Z.of_nat (length t) < 2 ^ 64) no_double value126 /\ members_in value126 < 2 ^ 32 - 257 /\
  made_of valid_utf8 no_double value126.
Proof.
  assert (U : forall cs, Forall is_cp cs -> Z.of_nat (length (utf8_encode cs)) < 2 ^ 64 -> valid_utf8 (utf8_encode cs) /\ Z.of_nat (length (utf8_encode cs)) < 2 ^ 64) by (intros cs H S; split; [exists cs; auto|exact S]).
  assert (A : forall c, is_cp c -> Z.of_nat (length (utf8_encode [c])) < 2 ^ 64 -> valid_utf8 (utf8_encode [c]) /\ Z.of_nat (length (utf8_encode [c])) < 2 ^ 64) by (intros c H; apply U; constructor; [exact H|constructor]).
  split; [exact (proj1 C126_case)|]. split; [vm_compute; reflexivity|].
  assert (M : made_of (fun t => valid_utf8 t /\ Z.of_nat (length t) < 2 ^ 64) no_double value126).
  { unfold value126. apply mo_obj. constructor; [|constructor; [|constructor]]; cbn [fst snd].
    - split; [exact (A 97 ltac:(unfold is_cp; lia) ltac:(cbn; lia))|]. apply mo_obj. constructor; [|constructor]. cbn [fst snd].
      split; [exact (A 98 ltac:(unfold is_cp; lia) ltac:(cbn; lia))|constructor].
    - split; [exact (A 98 ltac:(unfold is_cp; lia) ltac:(cbn; lia))|]. apply mo_arr.
      repeat (constructor; cbn [snd]); try exact I. all: exact (A 233 ltac:(unfold is_cp; lia) ltac:(cbn; lia)) || idtac. all: destruct (A 233 ltac:(unfold is_cp; lia) ltac:(cbn; lia)); assumption. }
  split; [exact M|]. split; [cbn; lia|]. apply (made_weaker _ valid_utf8) in M; [exact M|intros t [T _]; exact T].
Qed.
(** The bytes of a small document in both forms. *)
Example C134_bytes : forall L,
  let s := txt " [ 1, {""a"":[ 1, 1 ]} ]" in
  json_bin L s = Writes [98; 33; 81; 113; 97; 98; 33; 33] /\
  (exists o, json_pack L (mkSer (fun _ _ => []) (fun _ _ => [])) s = Writes o /\ length o = 16%nat) /\
  json_bin L (txt "[1,") = Fails /\ json_unpack L (mkSer (fun _ _ => []) (fun _ _ => [])) 40 [1; 2; 3] = Fails.
Proof. intros L. split; [vm_compute; reflexivity|]. split; [eexists; split; vm_compute; reflexivity|split; vm_compute; reflexivity]. Qed.
