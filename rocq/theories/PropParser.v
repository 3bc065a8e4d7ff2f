(** C99: errors of the parser, and a parser used again after an error. *)
From Coq Require Import String.
From Verif Require Import Base ModelUtf8 ModelValue ModelText ModelRpc ModelParseErr ModelDocs ModelParser SpecParser
  ProofParser ProofParser2 ProofParser3 ProofParser4.
Local Open Scope string_scope.
Local Open Scope list_scope.
Local Open Scope Z_scope.

(** The parser with its buffers reads as the parser without them; after a value the
    buffers are as they were, after an error the complete values are left in [tmpArr], as
    many as C94 says, with the contexts C94 says.  The assertion never fails. *)
Theorem C99_same : forall L F s,
  match parse_source_e L F s with
  | POk (v, r) => p_source L F s = Done v (mkS r [] [])
  | PErr n st => exists m c r junk, List.length junk = n /\ p_source L F s = Throws (mkE m c st) (mkS r [] junk)
  | PFuel => False
  end.
Proof. exact source_same. Qed.
Print Assumptions C99_same.

(** The same for a parser in any state, whatever earlier errors left behind. *)
Theorem C99_reuse : forall L F s,
  match parser_call L F (s_rd s) with
  | Ok (v, r) => p_call L F s = Done v (mkS r (s_str s) (s_arr s))
  | Err => exists e r junk, p_call L F s = Throws e (mkS r (s_str s) (s_arr s ++ junk))
  | Fuel => False
  end.
Proof. exact call_reuse. Qed.
Print Assumptions C99_reuse.

(** What was left behind cannot be seen: value, error and position are those of a new
    parser which reads from the same place. *)
Theorem C99_blind : forall L F s s', s_rd s = s_rd s' -> shown (p_call L F s) = shown (p_call L F s').
Proof. exact call_blind. Qed.
Print Assumptions C99_blind.

(** An error names a character for which its message is true, the last one taken from the
    source; that character is read again by the next call, or not, as the message says. *)
Theorem C99_error : forall L F s e s', p_call L F s = Throws e s' ->
  left_of (ahead (s_rd s)) (src (s_rd s')) /\
  blames (e_msg e) (e_last e) /\
  (names_last (e_msg e) = true -> last_delivered (seen_as (e_msg e)) (ahead (s_rd s)) (src (s_rd s')) (e_last e)) /\
  (if keeps (e_msg e)
   then exists x, cur (s_rd s') = Some x /\ (names_last (e_msg e) = true -> e_last e = seen_as (e_msg e) x)
   else cur (s_rd s') = None).
Proof. exact call_error. Qed.
Print Assumptions C99_error.

(** A character which starts no value is never passed: the next call throws the same. *)
Theorem C99_stuck : forall L F s e s', p_call L F s = Throws e s' -> e_msg e = MData \/ e_msg e = MEnd ->
  p_call L F s' = Throws (mkE (e_msg e) (e_last e) []) s'.
Proof. exact call_stuck. Qed.
Print Assumptions C99_stuck.

(** The text of an error does not tell the end of the source from the character 0xFF, and
    says of the character 0x9C that none is given. *)
Theorem C99_text_refuted : forall L F,
  (exists e1 s1 e2 s2, p_source L F [255; 49] = Throws e1 s1 /\ p_source L F [] = Throws e2 s2 /\
    src (s_rd s1) = [49] /\ what e1 = what e2 /\
    what e1 = txt "Parse error: 'Unexpected end of stream' at <root>. Last input: -1(EOF).") /\
  (exists e s, p_source L F [-100] = Throws e s /\ e_last e = -100 /\
    what e = txt "Parse error: 'Unexpected data' at <root>. Last input not given.").
Proof. exact text_same. Qed.
Print Assumptions C99_text_refuted.

Section Cases.
Variables (L : libm) (F : pflags).

(** What the errors say. *)
Definition says (s : string) : bytes :=
  match p_source L (mkPF false false) (txt s) with Throws e _ => what e | _ => [] end.
Example C99_case_key : says "[1,{""a"":[2,{""b"" 3}]}]" =
  txt "Parse error: 'Expected ':'' at <root>/[2]/a/[1]/b. Last input: 51('3').".
Proof. vm_compute. reflexivity. Qed.
Example C99_case_dup : says "{""a"":1,""a"":2}" = txt "Parse error: 'Duplicated keys' at <root>. Last input: 125('}').".
Proof. vm_compute. reflexivity. Qed.
Example C99_case_word : says "[tru]" = txt "Parse error: 'Unknown keyword' at <root>/[0]. Last input: 93(']').".
Proof. vm_compute. reflexivity. Qed.
Example C99_case_string : says "{""k"":""a\x" = txt "Parse error: 'Unexpected escape sequence in the string' at <root>/k. Last input: 120('x').".
Proof. vm_compute. reflexivity. Qed.
Example C99_case_number : says "-x" = txt "Parse error: 'Expected '0'...'9', '.', '+' or '-'' at <root>. Last input: 120('x').".
Proof. vm_compute. reflexivity. Qed.
Example C99_case_fraction : says "[1.]" = txt "Parse error: 'Expected '0'...'9' after '.'' at <root>/[0]. Last input: 93(']').".
Proof. vm_compute. reflexivity. Qed.
Example C99_case_exponent : says "1e+" = txt "Parse error: 'Expected '0'...'9' after 'E'' at <root>. Last input: -1(EOF).".
Proof. vm_compute. reflexivity. Qed.

(** A parser goes on inside the text it refused: the rest of an array is read as values,
    until a character which starts none. *)
Example C99_case_again : exists e1 s1 s2 e3 s3,
  p_call L F (p_new (txt "[true,nul,false]x")) = Throws e1 s1 /\ List.length (s_arr s1) = 1%nat /\
  src (s_rd s1) = txt "false]x" /\ cur (s_rd s1) = None /\
  p_call L F s1 = Done (VBool false) s2 /\ s_arr s2 = s_arr s1 /\
  p_call L F s2 = Throws e3 s3 /\ e_msg e3 = MData /\ p_call L F s3 = Throws e3 s3.
Proof. do 5 eexists. repeat (split; [vm_compute; reflexivity|]); vm_compute; reflexivity. Qed.
End Cases.
