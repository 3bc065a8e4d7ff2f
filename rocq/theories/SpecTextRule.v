(** What the rules of one word ask of the text or of the value. *)
From Coq Require Import String Ascii.
From Verif Require Import Base ModelValue ModelEq ModelText SpecEnc SpecValidator.
Local Open Scope Z_scope.
Local Open Scope list_scope.

(** Words that ask for a non-empty text of certain characters. *)
Definition char_words : list (string * (Z -> Prop)) := [
  ("hex"%string, fun c => 48 <= c <= 57 \/ 65 <= c <= 70 \/ 97 <= c <= 102);
  ("uppercase"%string, fun c => 65 <= c <= 90);
  ("lowercase"%string, fun c => 97 <= c <= 122);
  ("alpha"%string, fun c => 65 <= c <= 90 \/ 97 <= c <= 122);
  ("alnum"%string, letter_or_digit);
  ("digits"%string, fun c => 48 <= c <= 57)].
(** RFC 4648: letters, at most two signs of padding, a multiple of four. *)
Definition base64_form (s : bytes) : Prop :=
  exists body n, s = body ++ repeat 61 n /\ Forall b64_letter body /\ (n <= 2)%nat /\ (List.length s mod 4 = 0)%nat.
(** Without padding: a single letter in the last group is not possible. *)
Definition base64url_form (s : bytes) : Prop := Forall b64url_letter s /\ (List.length s mod 4 <> 1)%nat.
Definition identifier_form (s : bytes) : Prop :=
  exists c t, s = c :: t /\ (c = 95 \/ 65 <= c <= 90 \/ 97 <= c <= 122) /\ Forall (fun c => c = 95 \/ letter_or_digit c) t.

(** Words that ask for a type of the value. *)
Definition type_words (L : libm) : list (string * (value -> Prop)) := [
  ("string"%string, fun v => exists e s, v = VStr e s);
  ("number"%string, fun v => exists n, v = VNum n);
  ("boolean"%string, fun v => exists b, v = VBool b);
  ("object"%string, fun v => exists d l, v = VObj d l);
  ("array"%string, fun v => exists l, v = VArr l);
  ("null"%string, fun v => v = VNull);
  ("any"%string, fun v => v <> VUndef);
  ("optional"%string, fun v => v = VUndef);
  ("undefined"%string, fun v => v = VUndef);
  ("integer"%string, fun v => exists n i, v = VNum n /\ (as_signed n = Some i \/ as_unsigned n = Some i));
  ("unsigned"%string, fun v => exists n, v = VNum n /\ SFleb (S754_zero false) (get_number L n) = true);
  ("empty"%string, fun v => has_size v 0);
  ("nonempty"%string, fun v => exists n, has_size v n /\ n <> 0)].

(** The text of a value: that of a string or of a precise number, otherwise
    empty. *)
Definition text_is (v : value) (w : bytes) : Prop :=
  match v with
  | VStr _ s | VNum (NPrec s _) => s = w
  | _ => w = []
  end.
