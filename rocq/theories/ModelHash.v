(** Hash of a value: /repo/src/imtjson/fnv.h, value.cpp 931-937. *)
From Verif Require Import Base ModelKeyed ModelValue ModelObject ModelEq ModelEnc ModelBin.
Local Open Scope Z_scope.

(** fnv.h 13-25, [FNV1a64]: the start and one step. *)
Definition fnv_init : Z := 14695981039346656037.
Definition fnv_step (h c : Z) : Z := Z.lxor h c * 1099511628211 mod 2 ^ 64.
Definition fnv (s : bytes) : Z := fold_left fnv_step s fnv_init.

(** value.cpp 932-937 with a 64-bit [size_t]: the key of the value is dropped
    and the binary form with no flags is hashed as it is written. *)
Definition hash_flags : bflags := mkBF false false false.
Definition value_hash (L : libm) (v : value) : Z := fnv (serialize_binary L hash_flags ([], v)).
