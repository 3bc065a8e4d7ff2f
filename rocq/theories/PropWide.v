(** C108: strings of wide characters. *)
From Coq Require Import Lia.
From Verif Require Import Base SpecUtf8 ModelWide ProofWide.
Local Open Scope Z_scope.
Local Open Scope list_scope.

(** A string made of wide characters and turned back into them is the same exactly
    if every one is a code point. *)
Theorem C108_wide : forall ws, wstr (string_of_wide ws) = ws <-> Forall is_cp ws.
Proof. exact wide_back. Qed.
Print Assumptions C108_wide.

(** A text turned into wide characters and back is the same exactly if it is valid
    UTF-8. *)
Theorem C108_text : forall s, Forall is_byte s -> Z.of_nat (length s) < 2 ^ 32 - 2 -> (string_of_wide (wstr s) = s <-> valid_utf8 s).
Proof. exact text_back. Qed.
Print Assumptions C108_text.

(** The character -1 ends the string made of wide characters: what follows is lost
    although it is of code points only. *)
Theorem C108_cut_refuted : exists ws ws', Forall is_cp ws /\ Forall is_cp ws' /\ ws' <> [] /\ string_of_wide (ws ++ -1 :: ws') = string_of_wide ws.
Proof. exists [104], [105]. unfold is_cp. split; [repeat constructor; lia|]. split; [repeat constructor; lia|]. split; [discriminate|reflexivity]. Qed.
Print Assumptions C108_cut_refuted.

Example C108_case : string_of_wide [104; 0xE9; 0x20AC; 0x1F600] = [104; 195; 169; 226; 130; 172; 240; 159; 152; 128] /\
  wstr [104; 195; 169; 226; 130; 172; 240; 159; 152; 128] = [104; 0xE9; 0x20AC; 0x1F600] /\
  Forall is_cp [104; 0xE9; 0x20AC; 0x1F600] /\
  string_of_wide [0x110000; 104] = [104] /\ string_of_wide [-62; 104] = [194; 104] /\ wstr [194; 104] = [104] /\ wstr [255] = [255] /\ wstr [194; 104; 169] = [104; 169].
Proof. split; [vm_compute; reflexivity|]. split; [vm_compute; reflexivity|]. split; [unfold is_cp; repeat constructor; lia|]. vm_compute. repeat split. Qed.
