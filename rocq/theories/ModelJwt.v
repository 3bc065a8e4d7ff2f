(** JSON web tokens: /repo/src/imtjson/jwt.cpp, jwt.h. *)
From Verif Require Import Base ModelKeyed ModelValue ModelText ModelObject ModelEq ModelEnc ModelStd ModelEnum.
Local Open Scope Z_scope.

(** jwt.h 26-31, [SignMethod]: algorithm and key id. *)
Definition sign_method := (bytes * bytes)%type.

(** jwt.h 20-61, an implementation of [AbstractJWTCrypto].  [None] is an
    exception. *)
Record jcrypto := mkJC {
  jc_preferred : bytes -> sign_method;
  jc_sign : bytes -> sign_method -> option bytes;
  jc_verify : bytes -> sign_method -> bytes -> option bool
}.

(** [StrViewA::split(".")], one call of the splitter (shared/stringview.h, absent;
    contract in DESIGN.md): the part up to the next dot and what follows the dot;
    without a dot all the rest, after which only empty parts come. Called at jwt.cpp 23, 50. *)
Fixpoint next_part (s : bytes) : bytes * bytes :=
  match s with
  | [] => ([], [])
  | c :: s' => if c =? 46 then ([], s') else let '(p, r) := next_part s' in (c :: p, r)
  end.

(** value.h 319, [getString] (basicValues.h, stringValue.cpp 33, 225): the content
    of a string, the text of a precise number, otherwise nothing. *)
Definition get_string (v : value) : bytes :=
  match v with
  | VStr _ s => s
  | VNum (NPrec t _) => t
  | _ => []
  end.

(** [base64url->decodeBinaryValue(x).getString()]. *)
Definition b64url_string (x : bytes) : bytes := get_string (b64url_decode x).
(** [base64url->decodeBinaryValue(x).getBinary(base64url)]. *)
Definition b64url_binary (x : bytes) : option bytes := get_binary EncBase64Url (b64url_decode x).

(** jwt.cpp 38-39, 70-71: the names of the members. *)
Definition key_alg : bytes := [97; 108; 103].
Definition key_kid : bytes := [107; 105; 100].

(** jwt.cpp 19-46, [parseJWT].  An exception gives undefined. *)
Definition parse_jwt (L : libm) (F : pflags) (crypto : option jcrypto) (force : option sign_method) (token : bytes) : res value :=
  let '(sheader, r1) := next_part token in
  let '(sbody, r2) := next_part r1 in
  let '(ssign, _) := next_part r2 in
  let header_body := firstn (length token - length r1 + length sbody) token in
  match
    match crypto, force with
    | Some c, Some m =>
      match b64url_binary ssign with
      | Some sign => match jc_verify c header_body m sign with Some true => Some None | _ => None end
      | None => None
      end
    | _, _ => Some crypto
    end
  with
  | None => Ok VUndef
  | Some crypto =>
    match from_string L F (b64url_string sbody) with
    | Fuel => Fuel
    | Err => Ok VUndef
    | Ok body =>
      match crypto with
      | None => Ok body
      | Some c =>
        match b64url_binary ssign with
        | None => Ok VUndef
        | Some sign =>
          match from_string L F (b64url_string sheader) with
          | Fuel => Fuel
          | Err => Ok VUndef
          | Ok hdr =>
            match jc_verify c header_body (get_string (value_member hdr key_alg), get_string (value_member hdr key_kid)) sign with
            | Some true => Ok body
            | _ => Ok VUndef
            end
          end
        end
      end
    end
  end.

(** jwt.cpp 48-56, [parseJWTHdr]. *)
Definition parse_jwt_hdr (L : libm) (F : pflags) (token : bytes) : res value :=
  match from_string L F (b64url_string (fst (next_part token))) with
  | Err => Ok VUndef
  | r => r
  end.

(** jwt.cpp 92-108, [serializeJWT(header, payload, crypto, method)]; [utf8] is the
    default of [stringify]. *)
Definition serialize_jwt (E : serenv) (utf8 : bool) (header payload : value) (c : jcrypto) (m : sign_method) : option bytes :=
  let buffer := concat (b64_encode_core true false (ser E utf8 header)) ++ [46] ++
                concat (b64_encode_core true false (ser E utf8 payload)) in
  match jc_sign c buffer m with
  | Some sign => Some (buffer ++ [46] ++ concat (b64_encode_core true false sign))
  | None => None
  end.

(** jwt.cpp 68-73: the header made from the method. *)
Definition jwt_header (m : sign_method) : value :=
  snd (obj_commit (obj_set (obj_set (obj_new empty_object) (key_alg, VStr None (fst m)))
    (key_kid, match snd m with [] => VUndef | kid => VStr None kid end))).
Definition serialize_jwt_method (E : serenv) (utf8 : bool) (payload : value) (c : jcrypto) (m : sign_method) : option bytes :=
  serialize_jwt E utf8 (jwt_header m) payload c m.
(** jwt.cpp 58-66; no key id is the empty one. *)
Definition serialize_jwt_kid (E : serenv) (utf8 : bool) (payload : value) (c : jcrypto) (kid : bytes) : option bytes :=
  serialize_jwt_method E utf8 payload c (jc_preferred c kid).

(** *** Time *)
(** [getUIntLong] of a number: basicValues.h 102, stringValue.cpp 209-212.
    [None] is undefined behaviour, the conversion of a double out of range. *)
Definition num_u64 (L : libm) (n : num) : option Z :=
  match n with
  | NUInt n | NPrec _ (PkUInt n) => Some n
  | NInt n | NPrec _ (PkInt n) => Some (u64 n)
  | NDbl f => f_to_u64 f
  | NPrec t PkDbl => f_to_u64 (lm_strtod L t)
  end.
Definition key_exp : bytes := [101; 120; 112].
Definition key_nbf : bytes := [110; 98; 102].

(** jwt.cpp 79-90, [checkJWTTime].  [ns] are the nanoseconds since the epoch
    ([system_clock] of libstdc++), converted to seconds by truncation. *)
Definition check_jwt_time (L : libm) (v : value) (ns : Z) : option value :=
  let tse := u64 (Z.quot ns 1000000000) in
  match
    match value_member v key_exp with
    | VNum n => match num_u64 L n with Some x => Some (x <? tse) | None => None end
    | _ => Some false
    end
  with
  | None => None
  | Some true => Some VUndef
  | Some false =>
    match value_member v key_nbf with
    | VNum n => match num_u64 L n with Some x => Some (if tse <? x then VUndef else v) | None => None end
    | _ => Some v
    end
  end.

(** *** Several keys *)
(** jwt.h 75, [Item]: a name and a crypto object, which may be null and has an
    address. *)
Definition citem := (bytes * option (Z * jcrypto))%type.

(** Order of [std::string]: characters compare as unsigned. *)
Fixpoint ucmp (a b : bytes) : comparison :=
  match a, b with
  | [], [] => Eq
  | [], _ :: _ => Lt
  | _ :: _, [] => Gt
  | x :: a', y :: b' => match Z.compare x y with Eq => ucmp a' b' | c => c end
  end.

(** jwt.cpp 152-159, [isLess]. *)
Definition item_less (a b : citem) : bool :=
  match ucmp (fst a) (fst b) with
  | Lt => true
  | Gt => false
  | Eq =>
    match snd a, snd b with
    | None, None => false
    | None, Some _ => true
    | Some _, None => false
    | Some (i, c), Some (j, d) =>
      if i =? j then false else bytes_less (fst (jc_preferred c [])) (fst (jc_preferred d []))
    end
  end.
(** jwt.cpp 112-120 and 161-163, the constructor. *)
Definition container_built (map cmap : list citem) : Prop := sort_result item_less map cmap.

(** The common search of 126-127, 134-136, 142-144: the item found. *)
Definition container_find (cmap : list citem) (kid : bytes) : res (option citem) :=
  do i <- lower_bound (fun x => item_less x (kid, None)) cmap;
  match nth_error cmap i with
  | Some x => if beqb (fst x) kid then Ok (Some x) else Ok None
  | None => Ok None
  end.
(** 123-131, [getPreferredMethod].  [Err] is the use of a null pointer. *)
Definition container_preferred (cmap : list citem) (preferred : sign_method) (kid : bytes) : res sign_method :=
  match kid with
  | [] => Ok preferred
  | _ =>
    do o <- container_find cmap kid;
    match o with
    | None => Ok preferred
    | Some (_, None) => Err
    | Some (_, Some (_, c)) => Ok (fst (jc_preferred c []), kid)
    end
  end.
(** 133-139, [sign]. *)
Definition container_sign (cmap : list citem) (message : bytes) (m : sign_method) : res (option bytes) :=
  do o <- container_find cmap (snd m);
  match o with
  | None => Ok (Some [])
  | Some (_, None) => Err
  | Some (_, Some (_, c)) => Ok (jc_sign c message m)
  end.
(** 141-146, [verify]. *)
Definition container_verify (cmap : list citem) (message : bytes) (m : sign_method) (signature : bytes) : res (option bool) :=
  do o <- container_find cmap (snd m);
  match o with
  | None => Ok (Some false)
  | Some (_, None) => Err
  | Some (_, Some (_, c)) => Ok (jc_verify c message m signature)
  end.

(** *** Cache *)
(** [std::unordered_map] of libstdc++: entries with the cached hash of their key;
    an entry is found by equal hash and equal key. jwt.cpp 167-197. *)
Definition centry := (bytes * bytes * value)%type.
Record jcache := mkCache { c_limit : Z; c_cache1 : list centry; c_cache2 : list centry }.

(** jwt.cpp 197-204, [Hash]: the eight bytes decoded from the last ten characters
    of the token.  For a shorter token [substr] gets an offset past its end,
    nothing is decoded and the result is what the buffer held, [junk]. *)
Definition token_hash (junk : bytes) (token : bytes) : bytes :=
  if (length token <? 10)%nat then junk else firstn 8 (b64_decoder_core true (skipn (length token - 10) token)).

(** [find], jwt.cpp 173-175. *)
Definition cfind (l : list centry) (h token : bytes) : option value :=
  match find (fun e => beqb (fst (fst e)) h && beqb (snd (fst e)) token) l with
  | Some e => Some (snd e)
  | None => None
  end.
(** [emplace] does nothing if the key is there. jwt.cpp 185. *)
Definition cemplace (l : list centry) (h token : bytes) (v : value) : list centry :=
  match cfind l h token with Some _ => l | None => (h, token, v) :: l end.

(** jwt.cpp 172-181, [get]; line 176 compares with the end of the other map, which
    is the same null pointer in libstdc++.  Both searches hash the token anew. *)
Definition cache_get (c : jcache) (junk1 junk2 token : bytes) : value :=
  match cfind (c_cache1 c) (token_hash junk1 token) token with
  | Some v => v
  | None =>
    match cfind (c_cache2 c) (token_hash junk2 token) token with
    | Some v => v
    | None => VUndef
    end
  end.
(** jwt.cpp 183-190, [store]. *)
Definition cache_store (c : jcache) (junk token : bytes) (v : value) : jcache :=
  let c1 := cemplace (c_cache1 c) (token_hash junk token) token v in
  if c_limit c <=? Z.of_nat (length c1) then mkCache (c_limit c) [] c1
  else mkCache (c_limit c) c1 (c_cache2 c).
(** jwt.cpp 192-195 and 167-170. *)
Definition cache_clear (c : jcache) : jcache := mkCache (c_limit c) [] [].
Definition cache_new (limit : Z) : jcache := mkCache limit [] [].

(** Histories. Model only: calls of the cache. *)
Inductive cop := CStore (junk token : bytes) (v : value) | CClear.
Definition cache_step (c : jcache) (op : cop) : jcache :=
  match op with CStore j t v => cache_store c j t v | CClear => cache_clear c end.
Definition cache_run (limit : Z) (ops : list cop) : jcache := fold_left cache_step ops (cache_new limit).
