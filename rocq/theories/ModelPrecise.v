(** Numbers from text: /repo/src/imtjson/value.cpp 727-747. *)
From Verif Require Import Base ModelValue ModelText.
Local Open Scope Z_scope.

(** value.cpp 727-747, [Value::preciseNumber].  [beyond] is the [char] behind the
    last one of the view, which the lambda delivers too: line 730 tests
    [pos > length].  After it the lambda delivers -1.  Line 741 asks whether
    that character was fetched; [Err] is [InvalidNumericFormat].  In precise
    mode the parser uses nothing of [libm]. *)
Definition precise_number_of (L : libm) (number : list Z) (beyond : Z) : res value :=
  do (v, r) <- parse_number L (mkPF false true) (mkR (number ++ [beyond]) None);
  match src r with [] => Ok v | _ :: _ => Err end.
