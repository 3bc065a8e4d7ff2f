(** What C99 says, without the parser. *)
From Verif Require Import Base ModelValue ModelText ModelParser.
Local Open Scope list_scope.
Local Open Scope Z_scope.

(** Errors after which the character they complain about is still to be read. *)
Definition keeps (m : message) : bool :=
  match m with
  | MEnd | MData | MKey | MColon | MNumber | MFraction | MExponent | MPrecise | MTooLong | MExpLarge => true
  | MObjNext | MDup | MArrNext | MEof | MEscape | MKeyword => false
  end.

(** What may be said of the character an error names. *)
Definition starts_value (c : Z) : Prop :=
  In c [34; 91; 123; 102; 110; 116; 43; 45; 46] \/ 48 <= c <= 57.
Definition blames (m : message) (c : Z) : Prop :=
  match m with
  | MEnd | MEof => c = -1
  | MData => c <> -1 /\ ~ starts_value c /\ ~ (c = 32 \/ 9 <= c <= 13)
  | MKey => c <> 34 /\ ~ (c = 32 \/ 9 <= c <= 13)
  | MColon => c <> 58 /\ ~ (c = 32 \/ 9 <= c <= 13)
  | MObjNext => c <> 44 /\ c <> 125 /\ ~ (c = 32 \/ 9 <= c <= 13)
  | MArrNext => c <> 44 /\ c <> 93 /\ ~ (c = 32 \/ 9 <= c <= 13)
  | MDup => c = 125
  | MNumber => ~ 48 <= c <= 57 /\ c <> 46
  | MFraction | MExponent | MPrecise => ~ 48 <= c <= 57
  | MEscape => ~ In c [34; 92; 47; 98; 102; 110; 114; 116; 117]
  | MTooLong | MExpLarge => 48 <= c <= 57
  | MKeyword => True
  end.

(** Where white space may stand a character is looked at as a [char], elsewhere as it came. *)
Definition seen_as (m : message) (x : Z) : Z :=
  match m with
  | MEnd | MData | MKey | MColon | MObjNext | MDup | MArrNext => schar (x mod 256)
  | _ => x
  end.
(** [c] was the last character delivered by a source that had [before] to deliver and has
    [after] left: the end of the source, or the last of the characters delivered. *)
Definition last_delivered (as_ : Z -> Z) (before after : list Z) (c : Z) : Prop :=
  (c = -1 /\ after = []) \/ exists a x, before = a ++ x :: after /\ c = as_ x.
(** [after] is what is left of [before]. *)
Definition left_of (before after : list Z) : Prop := exists a, before = a ++ after.

(** The last character is named, except by the two messages about long digit runs, which
    name the first digit of the run. *)
Definition names_last (m : message) : bool := match m with MTooLong | MExpLarge => false | _ => true end.

(** What the parser has still to read: the loaded character, then the source. *)
Definition ahead (r : reader) : list Z := match cur r with Some c => c :: src r | None => src r end.

(** What a caller can see of a call: everything but the buffers. *)
Inductive visible := ShowsValue (v : value) (r : reader) | ShowsError (e : perror) (r : reader) | ShowsAbort | ShowsNothing.
Definition shown (o : pout value) : visible :=
  match o with
  | Done v s => ShowsValue v (s_rd s)
  | Throws e s => ShowsError e (s_rd s)
  | Aborts => ShowsAbort
  | NoFuel => ShowsNothing
  end.
