(** C135: the command line validator. *)
From Coq Require Import String Lia ZifyBool.
From Verif Require Import Base ModelValue ModelKeyed ModelText ModelObject ModelEq ModelString ModelStreams ModelPath ModelRpc ModelValidator.
From Verif Require Import SpecValidator SpecReuse SpecPoints SpecTerm SpecTermCheck ModelCheckTool SpecCheckTool ProofCheckTool PropEq PropValidator PropPoints PropTerm.
Local Open Scope Z_scope.
Local Open Scope list_scope.

(** With a supported version the status is 0 when the class _root of the definition accepts the
    input and 1 when it rejects it; nothing is written in the first case. *)
Theorem C135_verdict : forall V files cin name args indef inp, given files cin args indef inp ->
  forall def input, from_stream (v_L V) (mkPF false false) indef = Ok def -> from_stream (v_L V) (mkPF false false) inp = Ok input ->
  supported (tool_env V def) ->
  (accepts (tool_env V def) [] ([], input) (value_member def (txt "_root")) <->
    exists fuel, forall g, (fuel <= g)%nat -> validator_main V g files cin name args = Exit 0 []) /\
  (rejects (tool_env V def) [] ([], input) (value_member def (txt "_root")) <->
    exists fuel, forall g, (fuel <= g)%nat -> exists out, validator_main V g files cin name args = Exit 1 out).
Proof. exact verdict. Qed.
Print Assumptions C135_verdict.

(** Status 0 is never given otherwise, except without arguments. *)
Theorem C135_zero : forall V fuel files cin name args out, args <> [] -> validator_main V fuel files cin name args = Exit 0 out ->
  out = [] /\ exists indef inp def input, given files cin args indef inp /\
    from_stream (v_L V) (mkPF false false) indef = Ok def /\ from_stream (v_L V) (mkPF false false) inp = Ok input /\
    supported (tool_env V def) /\ accepts (tool_env V def) [] ([], input) (value_member def (txt "_root")).
Proof. exact zero_status. Qed.
Print Assumptions C135_zero.

(** A definition without rules that look at something else than the subject: every rejection is
    one line, showing a place of the input and the rule. *)
Theorem C135_lines : forall V files cin name args indef inp, given files cin args indef inp ->
  forall def input, from_stream (v_L V) (mkPF false false) indef = Ok def -> from_stream (v_L V) (mkPF false false) inp = Ok input ->
  supported (tool_env V def) -> direct def -> short input ->
  forall fuel out, validator_main V fuel files cin name args = Exit 1 out ->
  exists t, validate (tool_env V def) fuel ([], input) (txt "_root") [] v_init = VDone false t /\
  exists ls, out = concat ls /\
    Forall2 (fun r ln => exists q rule pt rt, snd r = VArr [([], path_to_value (rev q)); ([], rule)] /\ points input q /\ shown q pt /\
      to_string (v_E V) false rule = Some rt /\ ln = pt ++ [58; 9] ++ rt ++ [10]) (members_of (get_rejections t)) ls.
Proof. exact lines. Qed.
Print Assumptions C135_lines.

(** A line tells the place and the rule, if names have no slash and no tab and do not start with a
    bracket. *)
Theorem C135_told : forall q q' t t' r r', shown q t -> shown q' t' -> clear_path q -> clear_path q' ->
  t ++ [58; 9] ++ r ++ [10] = t' ++ [58; 9] ++ r' ++ [10] -> q = q' /\ r = r'.
Proof. exact told. Qed.
Print Assumptions C135_told.

(** Another version is rejected whatever the input, and shown. *)
Theorem C135_version : forall V files cin name args indef inp, given files cin args indef inp ->
  forall def input, from_stream (v_L V) (mkPF false false) indef = Ok def -> from_stream (v_L V) (mkPF false false) inp = Ok input ->
  ~ supported (tool_env V def) ->
  let ver := value_member def (txt "_version") in (forall l, ver <> VArr l) -> (forall d l, ver <> VObj d l) ->
  forall fuel, exists vt, to_string (v_E V) false ver = Some vt /\
    validator_main V fuel files cin name args = Exit 1 (txt "/_version:" ++ [9] ++ vt ++ [10]).
Proof. exact version. Qed.
Print Assumptions C135_version.

(** A text that is no JSON gives the status 255. *)
Theorem C135_not_json : forall V fuel files cin name args indef inp, given files cin args indef inp ->
  from_stream (v_L V) (mkPF false false) indef = Err \/ from_stream (v_L V) (mkPF false false) inp = Err ->
  validator_main V fuel files cin name args = Exit 255 [].
Proof. exact not_json. Qed.
Print Assumptions C135_not_json.

(** Status 2 tells that the definition cannot be opened, 3 that the input cannot be. *)
Theorem C135_files : forall V fuel files cin name d rest,
  (files d = None <-> exists out, validator_main V fuel files cin name (d :: rest) = Exit 2 out) /\
  ((exists indef i more, files d = Some indef /\ rest = i :: more /\ files i = None) <-> exists out, validator_main V fuel files cin name (d :: rest) = Exit 3 out).
Proof. exact unreadable. Qed.
Print Assumptions C135_files.

(** Status 255 tells that one of the texts is no JSON or that the validator throws. *)
Theorem C135_raised : forall V fuel files cin name args out, validator_main V fuel files cin name args = Exit 255 out <->
  out = [] /\ exists indef inp, given files cin args indef inp /\
    (from_stream (v_L V) (mkPF false false) indef = Err \/ from_stream (v_L V) (mkPF false false) inp = Err \/
     exists def input t, from_stream (v_L V) (mkPF false false) indef = Ok def /\ from_stream (v_L V) (mkPF false false) inp = Ok input /\
       validate (tool_env V def) fuel ([], input) (txt "_root") [] v_init = VThrow t).
Proof. exact raised. Qed.
Print Assumptions C135_raised.

(** With a sound definition (C61) the program ends with status 0 or 1 on every JSON text. *)
Theorem C135_sound : forall V files cin name args indef inp, given files cin args indef inp ->
  forall def input, from_stream (v_L V) (mkPF false false) indef = Ok def -> from_stream (v_L V) (mkPF false false) inp = Ok input ->
  forall rank, sound_definition def rank ->
  exists status fuel, (status = 0 \/ status = 1) /\ forall g, (fuel <= g)%nat -> exists out, validator_main V g files cin name args = Exit status out.
Proof. exact sound_status. Qed.
Print Assumptions C135_sound.

(** *** Cases and refuted readings *)
Definition toolV : venv := valV VUndef.
Definition tool_files (d : string) (n : bytes) : option bytes := if beqb n (txt "d") then Some (qtxt d) else None.
Definition tool_run (d s : string) : exit := validator_main toolV 50 (tool_files d) (qtxt s) (txt "validator") [txt "d"].

(** An input may be rejected without any line. *)
Theorem C135_silent_refuted : exists d s, tool_run d s = Exit 1 [].
Proof. exists "{`_root`:[[],`string`,5]}"%string, "[5,true]"%string. vm_compute. reflexivity. Qed.
Print Assumptions C135_silent_refuted.
(** Different places may give the same line. *)
Theorem C135_same_line_refuted : exists d s d' s' out q q', out <> [] /\ tool_run d s = Exit 1 out /\ tool_run d' s' = Exit 1 out /\ q <> q' /\
  map fst (match val_rej d s v_init with Some (_, l) => l | None => [] end) = [rev q] /\
  map fst (match val_rej d' s' v_init with Some (_, l) => l | None => [] end) = [rev q'].
Proof.
  exists "{`_root`:{`a`:{`b`:`string`}}}"%string, "{`a`:{`b`:1}}"%string, "{`_root`:{`a/b`:`string`}}"%string, "{`a/b`:1}"%string.
  exists (txt "/a/b:" ++ [9] ++ txt "string" ++ [10]), [pkey (txt "a"); pkey (txt "b")], [pkey (txt "a/b")].
  split; [discriminate|]. split; [vm_compute; reflexivity|]. split; [vm_compute; reflexivity|]. split; [discriminate|]. split; vm_compute; reflexivity.
Qed.
Print Assumptions C135_same_line_refuted.
(** Without arguments nothing is validated, and the status is that of an accepted input. *)
Theorem C135_usage_refuted : exists out, out <> [] /\ forall V fuel files cin name, exists rest, validator_main V fuel files cin name [] = Exit 0 (out ++ rest).
Proof. exists (txt "Usage:"). split; [discriminate|]. intros. eexists. reflexivity. Qed.
Print Assumptions C135_usage_refuted.

Example C135_case :
  let d := "{`_root`:{`a`:[[],`number`],`b`:`string`}}"%string in
  tool_run d "{`a`:[1,2],`b`:`x`}" = Exit 0 [] /\
  tool_run d "{`a`:[1,true],`b`:`x`}" = Exit 1 (txt "/a/[1]:" ++ [9] ++ txt "number" ++ [10]) /\
  tool_run d "{" = Exit 255 [] /\ tool_run "{`_version`:2}" "1" = Exit 1 (txt "/_version:" ++ [9; 50; 10]) /\
  validator_main toolV 50 (tool_files d) [] [] [txt "x"] = Exit 2 [] /\ validator_main toolV 50 (tool_files d) [] [] [txt "d"; txt "x"] = Exit 3 [].
Proof. repeat split; vm_compute; reflexivity. Qed.
Example C135_lines_case :
  let d := "{`_root`:{`a`:[[],`number`],`b`:`string`}}"%string in let s := "{`a`:[1,true],`b`:`x`}"%string in
  given (tool_files d) (qtxt s) [txt "d"] (qtxt d) (qtxt s) /\
  from_stream (v_L toolV) (mkPF false false) (qtxt d) = Ok (pv d) /\ from_stream (v_L toolV) (mkPF false false) (qtxt s) = Ok (pv s) /\
  supported (tool_env toolV (pv d)) /\ direct (pv d) /\ short (pv s) /\
  shown [pkey (txt "a"); pindex 1] (txt "/a/[1]") /\ clear_path [pkey (txt "a"); pindex 1] /\
  ~ supported (tool_env toolV (pv "{`_version`:2}")).
Proof.
  cbv zeta. split; [split; vm_compute; reflexivity|]. split; [vm_compute; reflexivity|]. split; [vm_compute; reflexivity|].
  split; [left; vm_compute; reflexivity|]. split; [prove_direct|]. split; [prove_short|].
  split; [apply (sh_name (txt "a")); apply (sh_position 1 [49] [] []); [lia| |constructor]; repeat split; try discriminate; [repeat constructor; unfold SpecText.digit_char; lia|right; exists 49, []; split; [reflexivity|lia]]|].
  split; [repeat constructor; cbn; intuition lia|]. intros [H|H]; vm_compute in H; discriminate.
Qed.
Example C135_sound_case : sound_definition (pv "{`_root`:{`a`:[[],`number`],`b`:`string`}}") (fun _ => (0, 0)%nat) /\
  tool_run "{`_root`:`foo`}" "1" = Exit 255 [].
Proof. split; [apply C61_check; vm_compute; reflexivity|vm_compute; reflexivity]. Qed.
