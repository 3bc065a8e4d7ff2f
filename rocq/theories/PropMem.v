(** C100: the blocks in which texts, keys, numbers and containers are stored. *)
From Coq Require Import String ZArith List Bool Lia.
From Verif Require Import Base ModelUtf8 ModelValue ModelEnc ModelBin ModelString ModelRpc ModelMem SpecString SpecMem ProofEnc ProofString ProofMem ProofMem2.
Import ListNotations.
Local Open Scope string_scope.
Local Open Scope list_scope.
Local Open Scope Z_scope.

(** [StringValue], the key of a member, the text of a precise number: the block is large
    enough for the text and the zero, and holds them. *)
Theorem C100_view : forall limit L e s, sane L -> string_size L (Z.of_nat (List.length s)) < 2 ^ 64 ->
  built limit (string_size L (Z.of_nat (List.length s))) L (string_of_view limit L e s) e s.
Proof. exact (fun limit L e s H => string_of_view_ok limit L H e s). Qed.
Print Assumptions C100_view.
Theorem C100_key : forall limit L s, sane L -> plain_size L (Z.of_nat (List.length s)) < 2 ^ 64 ->
  built limit (plain_size L (Z.of_nat (List.length s))) L (key_create limit L s) None s.
Proof. exact (fun limit L s H => key_create_ok limit L H s). Qed.
Print Assumptions C100_key.
Theorem C100_precise : forall limit L s, sane L -> plain_size L (Z.of_nat (List.length s)) < 2 ^ 64 -> Forall (fun c => c <> 0) s ->
  if plain_size L (Z.of_nat (List.length s)) <=? limit
  then exists b, precise_create limit L s = MOk b /\ text_in b (l_hdr L) s /\ precise_text L b = MOk s
  else precise_create limit L s = MNoMem.
Proof. exact (fun limit L s H => precise_ok limit L H s). Qed.
Print Assumptions C100_precise.
(** What is held is what is read. *)
Theorem C100_read : forall L s t, holds L s t -> string_text L s = MOk t.
Proof. exact text_back. Qed.
Print Assumptions C100_read.

(** A text made by a fill function which keeps to its characters. *)
Theorem C100_fill : forall limit L e n fn t, sane L -> 0 <= n -> string_size L n < 2 ^ 64 -> fills n fn t ->
  built limit (string_size L n) L (string_of_fn limit L e n fn) e t.
Proof. exact (fun limit L e n fn t H => string_of_fn_ok limit L H e n fn t). Qed.
Print Assumptions C100_fill.
(** One that reports more, or writes something else than zero just behind them, ends the
    program ... *)
Theorem C100_noticed : forall limit L e n fn w, sane L -> 0 <= n -> string_size L n < 2 ^ 64 -> string_size L n <= limit ->
  (forall base b, 0 <= base -> base + n < b_size b -> exists b', fn base b = MOk (b', w) /\ b_size b' = b_size b /\
     (n < w \/ exists g, b_at b' (base + n) = Some g /\ g <> 0)) ->
  string_of_fn limit L e n fn = MAbort.
Proof. exact overflow_noticed. Qed.
Print Assumptions C100_noticed.
(** ... but one that writes further behind them may go unnoticed, or write outside of the
    block. *)
Definition stray (d : Z) (base : Z) (b : block) : mres (block * Z) := mbind (store b (base + d) 120) (fun b => MOk (b, 2)).
Theorem C100_noticed_refuted : exists L, sane L /\
  (exists s, string_of_fn 1000 L None 2 (stray 3) = MOk s) /\ string_of_fn 1000 L None 2 (stray 30) = MBad.
Proof. exists (mkL 32 4). split; [split; cbn; lia|]. split; [eexists; vm_compute; reflexivity|]. vm_compute. reflexivity. Qed.
Print Assumptions C100_noticed_refuted.

(** The fill functions of the library: lists of texts, [insert], [replace], [join]. *)
Theorem C100_list : forall limit L l, sane L -> string_size L (Z.of_nat (List.length (List.concat l))) < 2 ^ 64 ->
  built limit (string_size L (Z.of_nat (List.length (List.concat l)))) L (mem_list limit L l) None (List.concat l).
Proof. exact (fun limit L l H => mem_list_ok limit L H l). Qed.
Print Assumptions C100_list.
Theorem C100_insert : forall limit L a pos what, sane L -> 0 <= pos ->
  string_size L (Z.of_nat (List.length a + List.length what)) < 2 ^ 64 ->
  built limit (string_size L (Z.of_nat (List.length a + List.length what))) L (mem_insert limit L a pos what) None
    (firstn (Z.to_nat pos) a ++ what ++ skipn (Z.to_nat pos) a).
Proof. exact (fun limit L a pos what H => mem_insert_ok limit L H a pos what). Qed.
Print Assumptions C100_insert.
Theorem C100_replace : forall limit L a pos size what, sane L -> 0 <= pos -> 0 <= size < 2 ^ 64 ->
  let p := Z.min pos (Z.of_nat (List.length a)) in
  let t := firstn (Z.to_nat p) a ++ what ++ skipn (Z.to_nat ((p + size) mod 2 ^ 64)) a in
  string_size L (Z.of_nat (List.length t)) < 2 ^ 64 -> Z.of_nat (List.length a) < 2 ^ 64 ->
  built limit (string_size L (Z.of_nat (List.length t))) L (mem_replace limit L a pos size what) None t.
Proof. exact (fun limit L a pos size what H => mem_replace_ok limit L H a pos size what). Qed.
Print Assumptions C100_replace.
Theorem C100_join : forall limit L sep tmp, sane L -> tmp <> [] \/ sep = [] ->
  let t := intercalate sep tmp in
  string_size L (Z.of_nat (List.length t)) < 2 ^ 64 ->
  built limit (string_size L (Z.of_nat (List.length t))) L (mem_join limit L sep tmp) None t.
Proof. exact mem_join_text. Qed.
Print Assumptions C100_join.
(** Joining nothing with a separator of two characters or more takes a block which is too
    small and writes outside of it. *)
Theorem C100_join_refuted : forall limit L sep, sane L -> (2 <= List.length sep)%nat ->
  Z.of_nat (List.length sep) <= l_hdr L + l_tail L < 2 ^ 63 -> l_tail L < 7 -> l_hdr L + 7 <= limit ->
  mem_join limit L sep [] = MBad.
Proof. exact mem_join_nothing. Qed.
Print Assumptions C100_join_refuted.

(** Base64, base64url, percent encoding, UTF-8. *)
Theorem C100_base64 : forall limit L str, sane L -> string_size L (Z.of_nat (List.length str)) < 2 ^ 64 ->
  string_size L (Z.of_nat (List.length str)) <= limit ->
  (mem_b64 limit L str = MOk None /\ b64_decode str = VStr None []) \/
  exists s t, mem_b64 limit L str = MOk (Some s) /\ b64_decode str = VStr (Some EncBase64) t /\ so_enc s = Some EncBase64 /\ holds L s t.
Proof. exact (fun limit L str H => mem_b64_ok limit L H str). Qed.
Print Assumptions C100_base64.
Theorem C100_base64url : forall limit L str, sane L -> string_size L (Z.of_nat (List.length str)) < 2 ^ 64 ->
  built limit (string_size L (Z.of_nat (List.length str))) L (mem_b64url limit L str) (Some EncBase64) (str_content (b64url_decode str)).
Proof. exact (fun limit L str H => mem_b64url_ok limit L H str). Qed.
Print Assumptions C100_base64url.
Theorem C100_url : forall limit L str, sane L -> is_bytes str -> string_size L (Z.of_nat (List.length str)) < 2 ^ 64 ->
  built limit (string_size L (Z.of_nat (url_count str 0))) L (mem_url limit L str) (Some EncUrl) (str_content (url_decode str)).
Proof. exact (fun limit L str H => mem_url_ok limit L H str). Qed.
Print Assumptions C100_url.
Theorem C100_utf8_encode : forall limit L data, sane L -> string_size L (Z.of_nat (List.length (wide_to_utf8 data))) < 2 ^ 64 ->
  built limit (string_size L (Z.of_nat (List.length (wide_to_utf8 data)))) L (mem_utf8_encode limit L data) None (wide_to_utf8 data).
Proof. exact (fun limit L data H => mem_utf8_encode_ok limit L H data). Qed.
Print Assumptions C100_utf8_encode.
(** Decoding UTF-8 never leaves the block; when the second pass finds one character more than
    the first, the program is ended unless its last character is zero. *)
Theorem C100_utf8_decode : forall limit L str, sane L -> is_bytes str -> Z.of_nat (List.length str) < 2 ^ 32 ->
  l_hdr L + l_tail L < 2 ^ 63 -> string_size L (Z.of_nat (List.length str)) <= limit ->
  match utf8_decode str with
  | Some v => exists s, mem_utf8_decode limit L str = MOk s /\ so_enc s = Some EncUtf8 /\ v = VStr (Some EncUtf8) (str_content v) /\ holds L s (str_content v)
  | None => exists t c, map to_byte (snd (utf8_to_wide (fst (utf8_to_wide u_init str)) str)) = t ++ [c] /\
      if c =? 0 then exists s, mem_utf8_decode limit L str = MOk s /\ holds L s t else mem_utf8_decode limit L str = MAbort
  end.
Proof. exact (fun limit L str H => mem_utf8_decode_ok limit L H str). Qed.
Print Assumptions C100_utf8_decode.
Theorem C100_utf8_decode_refuted : exists L str, sane L /\ is_bytes str /\ mem_utf8_decode 1000 L str = MAbort.
Proof.
  exists (mkL 32 4), [128; 195]. split; [split; cbn; lia|]. split; [repeat constructor; unfold is_byte; lia|]. vm_compute. reflexivity.
Qed.
Print Assumptions C100_utf8_decode_refuted.

(** The texts of a binary document hold what [parse_string_bin] (C19) says, for sizes which do
    not wrap round ... *)
Theorem C100_binary : forall limit L J e tag p, sane L -> (forall n, is_bytes (J n) /\ List.length (J n) = n) -> is_bytes (ps_in p) ->
  let n := fst (parse_integer tag p) in
  0 <= n -> string_size L n < 2 ^ 64 -> string_size L n <= limit ->
  let '(v, p') := parse_string_bin J e tag p in
  match v with
  | VStr e' t => exists o, mem_bin_string limit L J e n (snd (parse_integer tag p)) = MOk (o, p') /\
      match o with None => t = [] /\ e' = None | Some s => so_enc s = e' /\ holds L s t end
  | _ => False
  end.
Proof. exact (fun limit L J e tag p H => mem_bin_ok limit L H J e tag p). Qed.
Print Assumptions C100_binary.
(** ... but a document of nine bytes can give a size that does. *)
Theorem C100_binary_refuted : exists tag size, is_bytes (tag :: size) /\ List.length size = 8%nat /\ Z.land tag 0xF0 = 0x40 /\
  forall limit L J rest, sane L -> 9 <= l_hdr L < 2 ^ 62 -> l_tail L < 7 -> l_hdr L + 7 <= limit ->
  let '(n, p) := parse_integer tag (ps_init (size ++ rest)) in mem_bin_string limit L J None n p = MBad.
Proof.
  exists 0x4D, [246; 255; 255; 255; 255; 255; 255; 255]. split; [repeat constructor; unfold is_byte; lia|]. split; [reflexivity|].
  split; [reflexivity|]. intros limit L J rest H1 H2 H3 H4. exact (bin_string_wraps limit L J _ H1 H2 H3 H4).
Qed.
Print Assumptions C100_binary_refuted.

(** Containers keep the first [cap] items and refuse the others, all inside of the block, for
    capacities which do not wrap round ... *)
Theorem C100_container : forall limit s w cap l, 0 <= s -> 0 < w -> 0 <= cap -> s + cap * w < 2 ^ 64 ->
  if s + cap * w <=? limit
  then exists c c', cont_create limit s w cap = MOk c /\
       cont_push_all s w c l = MOk (c', map (fun i => Nat.ltb i (Z.to_nat cap)) (seq 0 (List.length l))) /\
       k_items c' = firstn (Z.to_nat cap) l
  else cont_create limit s w cap = MNoMem.
Proof. exact cont_ok. Qed.
Print Assumptions C100_container.
(** ... but a binary document can give one that does: an array of 2^61 items. *)
Theorem C100_container_refuted : exists tag size, is_bytes (tag :: size) /\ List.length size = 8%nat /\ Z.land tag 0xF0 = 0x60 /\
  forall limit s rest m, 0 <= s < 2 ^ 63 -> s <= limit ->
  let '(n, _) := parse_integer tag (ps_init (size ++ rest)) in
  exists c, cont_create limit s 8 n = MOk c /\ cont_push s 8 c m = MBad.
Proof.
  exists 0x6D, [0; 0; 0; 0; 0; 0; 0; 32]. split; [repeat constructor; unfold is_byte; lia|]. split; [reflexivity|].
  split; [reflexivity|]. intros limit s rest m H1 H2. exact (cont_wraps limit s m H1 H2).
Qed.
Print Assumptions C100_container_refuted.

(** The layout of a 64-bit machine, and texts in it. *)
Example C100_case :
  let L := mkL 32 4 in
  let text (r : mres strobj) := match r with MOk s => string_text L s | _ => MBad end in
  sane L /\ string_size L 200 < 2 ^ 64 /\
  text (string_of_view 1000 L None (txt "hello, world")) = MOk (txt "hello, world") /\
  text (mem_insert 1000 L (txt "abc") 1 (txt "--")) = MOk (txt "a--bc") /\
  text (mem_replace 1000 L (txt "abcdef") 1 3 (txt "--")) = MOk (txt "a--ef") /\
  text (mem_replace 1000 L (txt "abc") 1 (2 ^ 64 - 1) (txt "x")) = MOk (txt "axabc") /\
  text (mem_join 1000 L (txt ", ") [txt "a"; txt "b"; txt "c"]) = MOk (txt "a, b, c") /\
  mem_join 1000 L (txt ", ") [] = MBad /\
  text (mem_b64url 1000 L (txt "Zm9vYg")) = MOk (txt "foob") /\
  text (mem_url 1000 L (txt "a%20b+c%4")) = MOk (txt "a b c") /\
  (exists b, precise_create 1000 L (txt "-1.50") = MOk b /\ precise_text L b = MOk (txt "-1.50")) /\
  (exists b, precise_create 1000 L [49; 0; 50] = MOk b /\ precise_text L b = MOk [49]).
Proof.
  cbv zeta. split; [split; cbn; lia|]. split; [vm_compute; reflexivity|]. do 8 (split; [vm_compute; reflexivity|]).
  split; eexists; split; vm_compute; reflexivity.
Qed.
(** A byte nobody has written, and one outside the block, cannot be read. *)
Example C100_case_unwritten : exists b, string_alloc 1000 (mkL 32 4) 20 = MOk b /\ load b 38 = MOk 110 /\ load b 39 = MBad /\ load b 57 = MBad /\
  load b (-1) = MBad.
Proof. eexists. split; [vm_compute; reflexivity|]. split; [vm_compute; reflexivity|]. split; [vm_compute; reflexivity|]. split; vm_compute; reflexivity. Qed.
