(** C35: removal of comments. *)
From Verif Require Import Base SpecUtf8 ModelValue SpecText ModelComments SpecComments ProofComments.
Local Open Scope Z_scope.

(** A text made of characters, string literals, comments and lone slashes, which
    may break off anywhere, is passed on without its comments, and reading it
    ends.  No character may be -1, the mark of the end. *)
Theorem C35_tokens : forall ts e, Forall token_ok ts -> tail_ok e -> Forall (fun c => c <> -1) (whole_text ts e) ->
  remove_comments (whole_text ts e) = Ok (whole_kept ts e).
Proof. exact remove_tokens. Qed.
Print Assumptions C35_tokens.

(** Every text is of this kind. *)
Theorem C35_cover : forall s, exists ts e, Forall token_ok ts /\ tail_ok e /\ whole_text ts e = s.
Proof. exact cover_text. Qed.
Print Assumptions C35_cover.

(** A text without slashes does not change. *)
Theorem C35_no_slash : forall s, Forall (fun c => c <> -1) s -> ~ In 47 s -> remove_comments s = Ok s.
Proof. exact no_slash_same. Qed.
Print Assumptions C35_no_slash.

(** JSON texts do not change, whatever their strings contain. *)
Theorem C35_json : forall v t w w', jval any_number v t -> ws w -> ws w' -> is_bytes t ->
  remove_comments (w ++ t ++ w') = Ok (w ++ t ++ w').
Proof. exact json_same. Qed.
Print Assumptions C35_json.

(** A string literal right after a lone slash is not recognised: the part of it
    that looks like a comment is removed. *)
Theorem C35_slash_quote_refuted : exists b, Forall spiece_ok b /\
  remove_comments (47 :: token_text (TString b)) <> Ok (47 :: token_text (TString b)).
Proof.
  exists [SChar 47; SChar 47]. split; [repeat constructor; discriminate|]. vm_compute. discriminate.
Qed.
Print Assumptions C35_slash_quote_refuted.

Example C35_case :
  let ts := [TChar 91; TString [SChar 47; SChar 47; SEscape 34]; TLine [32; 34] 10; TChar 44; TBlock [42; 47 - 5; 34]; TSlash 49; TChar 93] in
  Forall token_ok ts /\ tail_ok (EndBlock [42]) /\ Forall (fun c => c <> -1) (whole_text ts (EndBlock [42])) /\
  remove_comments (whole_text ts (EndBlock [42])) = Ok [91; 34; 47; 47; 92; 34; 34; 44; 47; 49; 93].
Proof.
  cbv zeta. split; [repeat constructor; cbn; lia|]. split; [exact I|]. split; [repeat constructor; discriminate|]. vm_compute. reflexivity.
Qed.
Example C35_json_case : jval any_number (VArr [([], VStr None [47; 47])]) [91; 34; 47; 47; 34; 93] /\
  is_bytes [91; 34; 47; 47; 34; 93].
Proof.
  split; [|repeat constructor; unfold is_byte; lia]. apply (jv_arr any_number _ [34; 47; 47; 34]).
  apply (je_one any_number _ [] [34; 47; 47; 34] []); [constructor| |constructor].
  apply (jv_str any_number [47; 47] [47; 47]); [|discriminate|discriminate].
  apply (js_char 47 [47] [47]); [unfold is_cp; lia|lia..|]. apply (js_char 47 [] []); [unfold is_cp; lia|lia..|]. constructor.
Qed.
