(** Strings of wide characters: /repo/src/imtjson/string.cpp 260-284. *)
From Verif Require Import Base ModelUtf8.
Local Open Scope Z_scope.

(** string.cpp 260-275, [String(const StringView<wchar_t> &)]: the text.  A wide
    character is an [int] here (32 bits, signed); one equal to [eof] (-1) ends the
    input. *)
Definition string_of_wide (ws : list Z) : bytes := wide_to_utf8 ws.
(** string.cpp 277-284, [String::wstr]; streams.h 50-53 gives unsigned bytes.  The
    codes put into the wide stream ([wchar_t], 32 bits) are those of the converter. *)
Definition wstr (s : bytes) : list Z := snd (utf8_to_wide u_init s).
