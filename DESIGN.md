# Formal model of imtjson: design

The code under study is the C++ JSON library in /repo/src/imtjson. The model is
written in Rocq/Coq 8.16.1 under `rocq/theories`. The code is read as text; it is never
built or run, so the tie between model and code is the citation on each definition.

## Layout

* `Model*.v`: definitions only. Each cites the file and lines it models and says where it simplifies.
* `Spec*.v`: small specifications, written without the model's helpers.
* `Proof*.v`: lemmas.
* `Prop*.v`: the property theorems, each closed by `exact`, followed by `Print Assumptions` and by an
  `Example` that exhibits a concrete case meeting the hypotheses.

Naming: `Cnn_...` are theorems for property Cnn; the suffix `_partial` marks a theorem weaker than the property
(its comment says what is missing); `_refuted` marks a proof that the full property is false of the code.

## Conventions of the model

* A comment with lines of the code covers its definition and the ones below it down to the next comment. The head
  of each `Model*.v` names the files; "Model only" marks what has no counterpart in the code (outcomes, histories,
  replaced fields).
* Bytes, characters and integers are `Z`; fixed-width arithmetic is written with explicit `mod 2^64` (or 2^32)
  where the property depends on it. The platform is LP64: Int, UInt, LongInt, ULongInt, size_t are 64 bits.
* Undefined behaviour, aborts and thrown exceptions are distinct outcomes.
* Loops are structural recursion or recursion on fuel; running out of fuel is a separate outcome, and
  theorems state that it does not happen (or, for non-termination findings, that it always happens).
* Doubles are `SpecFloat.spec_float` with precision 53 and emax 1024 (standard library, no axioms).
* A JSON handle is a pair (key, value). An absent key and an empty key are identified, as `getKey()` does. The objects
  behind the handles (classes, proxies, wraps) are modelled in `ModelIface.v`; C87 says when the pair is all that matters.

## External code and trusted base

* The Coq kernel, and what `Print Assumptions` prints under each theorem. Every theorem is closed under the global
  context, except those of C69, C70 and C111, `C63_double`, `C55_numbers`, `C104_doubles`, `C134_doubles` and `C134_doubles_same`, which speak about real numbers (`PropDouble.v`, `PropTools2.v`, `PropNumRead.v`, `PropNumReal.v`, `PropMergeNum.v`, Reals and Flocq). They depend on
  axioms of the standard library: `ClassicalDedekindReals.sig_forall_dec`, `ClassicalDedekindReals.sig_not_dec`,
  `FunctionalExtensionality.functional_extensionality_dep`, `Classical_Prop.classic`. `C69_infinite` is closed;
  `C69_zero` and `C63_double` need the first and the third only.
* The C library functions used for the text of doubles are asked to meet the record `good_libm` (`SpecDouble.v`):
  log10(0) is minus infinity; floor(log10(v)) is right, or off by one within 10^-12 of a power of ten; pow(0.1, k) and
  pow(10, n) are right to thirteen digits for exponents up to 308; pow(10, n) is exact up to n = 22. A library that
  meets it is given and checked (`ProofDoubleEx.v`, `ref_good`).
* `shared/stringview.h` and `shared/refcnt.h` are in a submodule that is not present. Assumed contracts:
  `StringView::compare` is lexicographic comparison of `char` (signed on x86-64), shorter prefix first; `==` is byte equality;
  `substr` clamps; `indexOf` finds the first occurrence; `split` cuts at each occurrence of the separator.
* C++ standard library: `std::sort`, `std::stable_sort`, `std::lower_bound`, `std::vector`, `std::unordered_map`
  behave as specified by the standard.
* Not modelled: the counting inside `RefCntPtr` (release of containers by its contract is in `ModelRelease.v`, their sharing in `ModelHeap.v`), release of strings and keys, threads (except the RPC client, `ModelConc.v`, and precise
  numbers, `ModelLazy.v`), iostreams, the cryptographic primitives (arguments in `ModelJwtCrypto.v`), the class wrappers that only forward calls.

## What is modelled so far

| model file | code | left out or assumed |
|---|---|---|
| `ModelUtf8` | utf8.h | nothing |
| `ModelText` | serializer.h, parser.h, stringValue.cpp (numbers) | libm (`pow`, `log10`, `strtod`) is a record argument `libm`; text of doubles and of binary strings is a record argument `serenv`; binary streams of the parser read one byte at a time |
| `ModelKeyed`, `ModelObject` | objectValue.cpp, object.cpp/.h, value.cpp construction | sharing of containers and moved-from builders are in `ModelHeap`; `std::stable_sort` by contract |
| `ModelEq` | basicValues equal, abstractValue.cpp compare, key.h | shared handles as a nondeterministic choice; key order on signed char |
| `ModelDiff` | object.cpp createDiff/applyDiff, value.cpp | the equality used by createDiff is a function argument |
| `ModelArray` | array.cpp/.h, value.cpp slices and views | sizes below 2^31 for splitAt; `insertSet` slots null |
| `ModelPath` | path.cpp/.h, Value::replace | root recognised by address (paths in memory: `ModelPathMem`); `isalnum`/`isdigit` in the C locale; 32-bit truncation of indexes |
| `ModelEnc` | base64.cpp, binary.cpp | encoder objects kept as an enumeration |
| `ModelBin` | binjson.tcc/.h | NaN payloads (every NaN is the quiet one); the negation of the smallest Int is undefined and excluded; uninitialised buffer bytes are a function argument `J`; lifetimes of the views in `keyMap` (in `ModelKeyView`); allocation failures; little-endian machine with 64-bit size_t |
| `ModelHash` | fnv.h (64-bit), value.cpp 931-937 | 64-bit size_t only |
| `ModelOrdered` | operations.h 25-333, 461-480 | the comparison and conflict functions are pure functions; std::stable_sort stands for its contract; reduce function of group (the ranges it receives are modelled) |
| `ModelComments` | comments.h (all) | the input stream is a list followed by end marks (-1) |
| `ModelStd` | std::lower_bound (libstdc++ loop), contract of std::sort | sorting: any result the contract allows |
| `ModelEnum` | namedEnum.h, namedEnum.cpp 22-38 | enumeration values are integers; an unknown name is a result, not an exception |
| `ModelJwt` | jwt.cpp (all), jwt.h classes | the crypto implementations (jwtcrypto.h, OpenSSL) are arguments (see `ModelJwtCrypto`); clock is an argument; hash of tokens shorter than ten characters is arbitrary; std::unordered_map as a list of entries with cached hash |
| `ModelJwtCrypto` | jwtcrypto.h 24-196, 206-233, 241-285 | the OpenSSL functions (SHA, HMAC, RSA_sign/verify, ECDSA_do_sign/verify for one key) are the record `ossl`, an argument; BN_bn2binpad and BN_bin2bn by their documentation; import and export of keys and PEM are not modelled |
| `ModelMerge` | value.cpp 527-724 (merge, diff), 882-927 (setItems) | operator== is an argument; the endless loops of diff run out of fuel for every fuel; std::sort as any sorted permutation |
| `ModelString` | value.cpp 61-83, 804-827 (toString, join); string.cpp 36-53, 63-94, 127-221 | StringView by its contract; a string kept as a view of its parent is the string it shows |
| `ModelRpc` | rpc.cpp 22-163, 272-333, 552-748, 819-877; rpc.h request data, server registry, client | one thread, no locks (several threads: `ModelConc`); user code (methods, peer functions, callbacks) as data: what it does and how it ends; matching of map keys is an argument; the peer throwing from a heartbeat; waiting for a call; multicall, listMethods, ping, help and argument checking are in `ModelMulticall` and `ModelArgs` |
| `ModelRpcError` | rpc.cpp 41-55, 710-712, 891-896; rpc.h 55-57 | that braces choose the constructor taking a list (overload resolution of C++) |
| `ModelTools` | jsonbin.cpp, jsonunbin.cpp, jsonpack.cpp, jsonunpack.cpp | streams are the bytes read and written; the message on the standard error and what a failing tool wrote before are left out; jsonunpack parses the characters of the first `n` calls of the decompressor, which C134_finite shows to be all but end marks for large `n`, and C134_settles that the run is then the same |
| `ModelCheckTool` | validator/main.cpp | files are a function from names to contents; messages on the standard error left out; no native rules; what an unknown standard library answers as in `ModelValidator` |
| `ModelOwnDef` | validator.json | the text of the file as a Coq string (back quotes for quotation marks); its value is computed from it by the model of the parser, and theorem C136_read checks that for every libm |
| `ModelNotify` | rpc.cpp 764-771 (client notify), 781-804, rpc.h 70-86 (`RpcNotify`) | the lock of the client is not modelled |
| `ModelRelease` | container.h 89-92, 151-156, object.cpp 62-67, on top of `ModelHeap` | `RefCntPtr` by its contract (a container is released when the last pointer to it is gone); an operation ends before anything is released; released memory holds arbitrary contents (`junk`), addresses are not reused; blocks of strings and keys are not followed |
| `ModelWide` | string.cpp 260-284 | `wchar_t` has 32 bits and is signed |
| `ModelPrecise` | value.cpp 727-747 | the character behind the view, which the code reads, is an argument (reading it may be outside the allocated memory) |
| `ModelStreams` | streams.h 24-72, value.cpp 85-108 | state of standard streams besides the bytes delivered; output streams (`toStream`), `oneCharStream` and `WriteCounter` are not modelled |
| `ModelMulticall` | rpc.cpp 335-364, 366-469 | the server is a Section variable `call`; the counter `mtfork` is a plain integer and the two orders of the increments are the two lists of answers; after a second answer to a sub-request nothing is followed (`Broken`); notifications of sub-requests pass through unmodelled |
| `ModelConc` | rpc.cpp 503-601, 703-705; rpc.h 1088-1117 | the client used by several threads, with the lock and the condition variable; sequentially consistent interleavings of small steps, each with at most one access to shared memory (memory order of the hardware is covered only by the absence of races); messages, the context, `executed` and the end of the client are left out; `processResponse` is a `cancelPendingCall`; `parseResponse` (rpc.cpp 620-655, protected) uses the map without the lock and is not modelled here; identifiers are integers |
| `ModelIface` | ivalue.h, abstractValue.h/.cpp, basicValues.h/.cpp, stringValue.h/.cpp, arrayValue.cpp, objectValue.cpp, key.h, wrap.h, binary.h/.cpp, value.cpp 141-156, 196-227, 276-290, 323-331, object.cpp 27-36: classes of objects and their virtual functions | views are given by what they show; long integers are the same as others (LP64); `getInt`, `getUInt`, `getNumber` on numbers kept as integers (the rest: `ModelNumView`); references that outlive their handle (`cast` of a temporary) are left out; catching a pointer by its base class is the argument `caught` |
| `ModelLazy` | stringValue.h 92-93; stringValue.cpp 178-217, 250-262 | one precise number, several threads; sequentially consistent interleavings of single accesses; reference counting left out |
| `ModelConv` | conv.h; value.h 1110-1142; value.cpp 54-59, 874-879 | the type `float` left out; `getBool` of a value which is no boolean is an argument (see `ModelIface`); lifetimes left out (`getValueOrDefault` with `const char *` of a binary string returns a pointer into a temporary) |
| `ModelCstr` | string.cpp 29-30, 55-67, 84-94, 112-124, 164-178, 223-226; basicValues.cpp 30-33 | pointers as block and offset of `ModelMem`; lifetimes left out; where the default `StringView` points to is an argument |
| `ModelArrays` | array.cpp 8-186, 226-275, array.h 20-24 again, for several builders | a moved-from `RefCntPtr` is null, a moved-from vector empty; iterators and `reserve` left out |
| `ModelFail` | object.cpp, array.cpp: where memory is asked for | a request is counted where the code may ask for memory; whether a vector has room is left open, as the failing request is arbitrary; `std::stable_sort` without memory works in place |
| `ModelConst` | object.cpp: the const functions of Object, which fields each reads and writes | a pointer and the container it points to are one field; reference counts (in the absent refcnt.h) and the base, only read, are left out |
| `ModelPrepared` | rpc.h 911-927, 991, 1088-1117, rpc.cpp 497-576: prepared calls, copies of them and of clients | one thread; what `sendRequest` does is an argument of the call (nested to any depth); a client with an uninitialised `ver` is a distinct state and reading it undefined behaviour; a `sendRequest` throwing in a waiting call is in C85; functions of asynchronous calls use clients only afterwards |
| `ModelJwtKeys` | jwtcrypto.h 290-374 | `o2i_ECPublicKey`, `i2o_ECPublicKey` and the multiplication of a point are functions given (a record argument); PEM forms and leaked copies left out |
| `ModelRegLife` | rpc.cpp 281-333, rpc.h 663-672, 825-855 | The map of methods and the life of the methods, with code that changes the server while it runs. Requests, the proxy and exceptions are in `ModelRpc`; destructors of captures do nothing. |
| `ModelReqLife` | rpc.cpp 112-155, 273-286, 712-734, 839-880, rpc.h 258-283, 600-648 | One request: its counter, its life, the life of its servers, and what user functions do while it calls them. Contents of messages and exceptions are in `ModelRpc`; threads are left out. |
| `ModelParseErr` | parser.h 209-253, 264-388: `ParseError`, the contexts added to it | kind of error, last character and the fixed words of the message are in `ModelParser`; proved to read as `ModelText` does (C94_same) |
| `ModelHeap` | object.cpp/.h, containers and handles of objectValue.cpp, container.h, value.h member access | containers have addresses and are shared as in the code; nothing is freed (reference counts assumed correct); a value kept in a variable carries no key; one thread |
| `ModelDocs` | parser.h 43, 70-138, 257-262, value.cpp 96-108: successive calls on one source, a `Parser` used again | a source given by reference stays where it was left; the state after an error is in `ModelParser` |
| `ModelArgs` | rpc.cpp 229-270, 471-491; validator.cpp 488-500 | the check of a request that was given to no server (no `srvsvc`); a method with a check in front is modelled as check, then `setArgError` or the rest of the method; fewer than 2^32 rules |
| `ModelRef` | valueref.cpp, valueref.h 97-113, edit.h, object.cpp 208-215, array.cpp 164-171 | one Object (and one to assign from), one Array and one variable are there to be referred to; a reference to a destroyed container, and an editor whose key view outlives the key (edit.h 27 keeps a `StringView`), are left out; array indices below 2^64-2 |
| `ModelSearch` | operations.h 337-438, 493-503, 545-581; value.cpp 509-525 | user functions are pure functions of their own state; `Value::group` and `Array::group` are left out (as written they pass lvalues to rvalue references and cannot be instantiated); sizes below 2^63 |
| `ModelWalk` | value.h 457-468, 1188-1226, 1264-1284; value.cpp 334-335, 378-437 | views made by splitAt do not check the index (in `ModelArray`); the two handles of an iterator comparison share one object or not: an argument |
| `ModelParser` | parser.h (all): `Parser` with `tmpstr`, `tmpArr` and its assertion, the errors with message, character, contexts and text | exceptions of the source itself left out; a \u escape cut by the end of the source throws at the next read, as the code does; proved to read as `ModelParseErr` and `ModelDocs` do (C99_same, C99_reuse) |
| `ModelMem` | stringValue.cpp, stringValue.h, key.cpp, string.cpp 69-162, value.cpp 804-827, the decoders of binary.cpp, binjson.tcc strings, container.h: the blocks behind them | a block is an array of bytes with bounds, outside of which every access is the outcome `MBad`; the layout (bytes before the characters, padding behind) is an argument; the allocator gives a block of the size asked for or throws, above `limit`; the fields of the headers are kept beside the bytes; writing into the padding of one's own object counts as inside; proved to hold the texts of `ModelString`, `ModelEnc`, `ModelBin` (C100) |
| `ModelKeyView` | binjson.h 80-112, binjson.tcc 75-111, 450-474, 494-510: the dictionary as views of the keys of values | a block of memory is a number with a fixed text, released or not, never reused; reading a released block is `None`; std::unordered_map of libstdc++ keeps hashes and compares texts only of equal hashes, the latest first within a bucket; when a block is released is the program's choice (reference counting is not modelled) |
| `ModelPathMem` | path.cpp 16-24, 43-122 and the objects of path.h in memory | `sizeof(Path)`, `sizeof(PathRef)` and the allocator are arguments; an object is one cell with its fields followed by cells which belong to it; addresses are unbounded integers, sizes are 64-bit; reference counts |
| `ModelObjSize` | object.cpp 391-393 | sums of numbers of members do not wrap |
| `ModelCompress` | compress.h, compress.tcc (all): Compress and Decompress with both optimizers; the mask is a parameter | std::unordered_map is an association list; the output and input functions are lists; the end of input reads as -1; an uninitialised `firstChar`/`newCode` is a default that is never used; out-of-range access to the vector is the outcome `CBad`; `reset` is included (C106) |
| `ModelNumView` | abstractValue.h, basicValues.h, stringValue.cpp: getInt, getUInt, getNumber of any value | a double out of range of an integer is undefined (`None`) |
| `ModelDate` | validator.cpp 252-307 | `isdigit` in the C locale |
| `ModelValidator` | validator.cpp (all), rule evaluation, variables, rejections, emits | fields of the record `venv`: native rules (`v_native`), the parts of `explode` (`v_explode`, StringView::split), integers converted from doubles out of range (`v_wild`), whether two handles share one value when rejections are recorded (`v_copy`, also depends on a tick); ctype functions in the C locale; fewer than 2^32 items; depth of nesting by fuel, running out is a separate outcome |

## Plan per property

| id | property | model | approach |
|---|---|---|---|
| C01 | UTF-8 conversion round trip | `ModelUtf8.v` | Decoder/encoder as state machines over Z; induction on the code point list with a per-code-point bit-arithmetic lemma; spec = the RFC 3629 byte table. |
| C02 | String literal round trip with UTF-8 output | `ModelText.v` | writeStringBody/readString as byte-list functions; induction over code points; exact consumption stated with an arbitrary rest of stream. The infinity words are excluded in the value-level theorem and refuted separately. |
| C03 | String literal round trip with escaped output | `ModelText.v` | Same, for emitEscaped; proved for the BMP (`_partial`), refuted with a non-BMP witness. |
| C04 | Integer text round trip | `ModelText.v` | writeUnsigned/writeSigned vs parseNumber with explicit mod 2^64 arithmetic; strong induction on the number. |
| C05 | Decimal overflow detection | `ModelText.v` | parseUnsigned accumulator with wrap mod 2^64 and the code's overflow test; invariant over the digit list. |
| C06 | Whole document round trip | `ModelText.v` | Nested induction on values, composition through `parse (ser v ++ rest) = Ok (v, rest)`; doubles in text form are C69 and C70. |
| C07 | Parsed objects are sorted with unique keys | `ModelText.v` | Invariant of the fuelled parser over every input stream; objects built with the modelled sort. |
| C08 | Malformed unicode escapes are rejected | `ModelText.v` | Expected to be false of the code (missing throw): refuted with a witness, plus positive theorem for well-formed escapes. |
| C09 | Key lookup is exact | `ModelObject.v` | findSorted with its l/h/m loop on nat indices; loop invariant. |
| C10 | Object construction: last binding wins | `ModelObject.v` | stable sort (insertion order preserving) + in-place dedupe loop; spec = last binding association. |
| C11 | Object builder behaves like a map | `ModelObject.v` | State {base; ordered; unordered with capacity}; abstraction to a total map key -> value; induction over operation lists. |
| C12 | Object builder never dereferences a missing layer | `ModelObject.v` | UB as a distinct outcome (null layer, lost push); invariant shows it is unreachable. |
| C13 | Object iteration shows the current content | `ModelObject.v` | Snapshot field in the state; positive theorem for histories of set/unset/read, refuted for clear/revert/assign. |
| C14 | Array builder behaves like a list | `ModelArray.v` | State {base; offset; changes}; UB outcome for out-of-range writes; abstraction to list; induction over operations. insertSet refuted when the base prefix is kept, proved otherwise. |
| C15 | Array slice semantics | `ModelArray.v` | Arithmetic on Z; positive ranges proved, failing sign combinations refuted. |
| C16 | splitAt partitions | `ModelArray.v` | SubArray offsets; concatenation law; index-past-size refuted for views. |
| C17 | Path replace: get/put laws | `ModelPath.v` | setToPathRev over values; induction on the path. |
| C18 | Path comparison is a total order | `ModelPath.v` | Compare from the leaf to the root as in the code; order laws by induction. |
| C19 | Binary codec round trip | `ModelBin.v` | Byte-level writer/reader with key history state; nested induction with exact rest-of-stream. |
| C20 | Binary codec across several documents | `ModelBin.v` | Simulation invariant between keyMap/nextKeyId and the 128-entry ring, over document sequences. |
| C21 | 32-bit compatible binary output | `ModelBin.v` | Integer-to-double branch via SpecFloat; sign loss refuted, non-negative case proved. |
| C22 | Binary parser survives truncated input | `ModelBin.v` | EOF bytes keep selecting a key reference: refuted by showing fuel never suffices; positive part for the fragment without the loop if possible. |
| C23 | Base64 round trip | `ModelEnc.v` | 3-byte group induction. |
| C24 | Base64url round trip | `ModelEnc.v` | Same, without padding; tail cases. |
| C25 | URL encoding round trip | `ModelEnc.v` | Byte-wise induction, finite sweep over 256 bytes lifted by forallb_forall. |
| C26 | Raw binary as UTF-8 round trip | `ModelEnc.v` | encode/decode through the UTF-8 machines; two-pass size equality; refuted for malformed text input to decode. |
| C27 | Compressed stream round trip | `ModelCompress.v` | Encoder/decoder step functions with dictionary state; simulation invariant (decoder lags one entry), both optimizers included. |
| C28 | Equality laws | `ModelEq.v` | equal as structural recursion with SpecFloat doubles; reflexive/symmetric proved, transitivity refuted. |
| C29 | Ordering laws | `ModelEq.v` | compare modelled incl. unsigned wrap; refuted for large unsigned vs signed; laws proved on the fragment without the wrap. |
| C30 | Hash agrees with equality within a form | `ModelHash.v` | hash = FNV-1a over the binary form; refuted with concrete collision-free witnesses; positive: identical structure gives identical hash. |
| C31 | Diff and apply | `ModelDiff.v` | Two-pointer merge loops; map-level specification. |
| C32 | Recursive diff and apply | `ModelDiff.v` | createDiff with recursive > 0 loses the key (refuted); recursiveMerge law proved for correctly keyed nested diffs. |
| C33 | Ordered containers: set operations | `ModelOrdered.v` | comm loop over an arbitrary total preorder (Section variable); multiset specification and sortedness. |
| C34 | Ordered containers: search | `ModelOrdered.v` | Binary search and linear extension loops; index characterisation. |
| C35 | Comment removal | `ModelComments.v` | Stream transducer; segment grammar (strings, comments, plain) as independent spec. |
| C36 | Validator dates | `ModelDate.v` | checkDateTimeGen with unsigned 32-bit arithmetic; spec = digit layout + calendar. |
| C37 | Validator object templates | `ModelValidator.v` | Merge loop over members with an abstract rule evaluator; expected deviations ('%' with absent members, empty key) refuted. |
| C38 | Validator combinators | `ModelValidator.v` | Fuelled evaluator for combinators; Boolean specification. |
| C39 | RPC request answered at most once | `ModelRpc.v` | Request state machine with log of deliveries; induction over operation lists. Callback-based requests are a separate machine (refuted). |
| C40 | RPC notifications stop when refused | `ModelRpc.v` | Same machine with peer answers as input. |
| C41 | RPC client: each pending call completes at most once | `ModelRpc.v` | Pending map as association list, events, log of completions. |
| C42 | RPC context update | `ModelRpc.v` | Composition with the Object builder theorem. |
| C43 | JWT payload only after verification | `ModelJwt.v` | parse/serialize over abstract crypto functions (Section variables). |
| C44 | JWT time window | `ModelJwt.v` | uint64 conversions explicit. |
| C45 | JWT token cache | `ModelJwt.v` | Two generation maps; invariant over operation lists; 'most recent' refuted because emplace keeps the old entry. |
| C46 | Named enumerations | `ModelEnum.v` | std::sort as any sorted permutation, lower_bound by its contract; table with distinct entries. |
| C47 | Precise numbers keep their text | `ModelText.v` | numberFromStringRaw with wrap; refuted for 20-digit values, proved below the bound. |
| C48 | Merging containers | `ModelMerge.v` | merge loop; map specification. |
| C49 | Value difference terminates | `ModelMerge.v` | Tail loops never advance: refuted (no fuel suffices); exact condition as an inductive alignment of the two arrays. |
| C50 | setItems updates a map | `ModelMerge.v` | Merge loop of sorted item list and members; distinct keys proved, duplicates refuted. |
| C51 | Joining and splitting strings | `ModelString.v` | split/join on byte lists; join of empty container with separator refuted (size underflow). |
| C52 | Value as a list | `ModelArray.v` | push/pop/shift and the like as list operations. |
| C53 | Array split into runs | `ModelArray.v` | Concatenation and homogeneity of the runs. |
| C54 | JWT key containers | `ModelJwt.v` | Sorted table of crypto objects, lookup by key id. |
| C55 | Merging a difference restores the second value | `ModelMerge.v` | Bindings of merge and diff by key, induction on the first value; arrays: invariant on the part already rebuilt. |
| C56 | Editing strings by position | `ModelString.v` | Positions as Z with explicit 64-bit wrap. |
| C57 | RPC call end to end | `ModelRpc.v` | Composition: the log of the server fed to the client. |
| C58 | RPC method dispatch | `ModelRpc.v` | Registry as a history of additions and removals; routing by cases. |
| C59 | Validator arrays and tuples | `ModelValidator.v` | Loops over items as conjunctions of verdicts, then without fuel. |
| C60 | Validator bookkeeping | `ModelValidator.v` | Two runs from related states give the same verdict and emits; invariant on variables and rejections. |
| C61 | Termination of validator definitions | `ModelValidator.v`, condition `SpecTerm.v`, check `SpecTermCheck.v` | Well-founded induction on (major rank, weight of the subject, minor rank), inside it induction on the rule. |
| C62 | Validator character sets | `ModelValidator.v` | Induction over the items of the description, reads beyond the buffer are a separate outcome. |
| C63 | Numbers from any value | `ModelNumView.v` | A parsed string is shorter than its text (potential argument over the UTF-8 decoder). |
| C64 | Validator words | `ModelValidator.v` | Character classes and base64 forms by case analysis, tied to the encoders. |
| C65 | Decompressor on any input | `ModelCompress.v` | Invariant: entries of the dictionary point below themselves, so the walk ends; cases on the code. |
| C66 | Several compressed streams in a row | `ModelCompress.v` | The simulation of C27 from any state whose dictionary is empty, as long as no optimisation is reached. |
| C67 | Validator rules on parts | `ModelValidator.v` | Each operator unfolded once; verdicts of the remaining rules through `one_accepts`. |
| C68 | Validator variables, emit | `ModelValidator.v` | `SpecVars.v` relations for names, steps and instances of templates; the lookup functions are proved equal to them. |
| C69 | Text of floating point numbers | `ModelText.v` (`write_double`) | `SpecDouble.v` gives JSON numbers their real value; each step of `writeDouble` is bounded in the reals through Flocq (`ProofReal.v`, `ProofDouble*.v`). |
| C70 | Floating point numbers read back | `ModelText.v` | The parser's double of a text is characterised, then shown to be written as the same digits; lifted to documents by the grammar of SpecText with an arbitrary relation for numbers. |
| C71 | Language of the parser | `ModelText.v` | `SpecAccept.v` is a grammar of everything accepted, parametrised by what bodies and number texts denote. Soundness by induction on the fuel with inversion lemmas per token (`ProofAccept*.v`), completeness by induction on the derivation; together an equivalence in precise mode. |
| C72 | Searching and filtering | `ModelSearch.v` | A user function is a state-passing function; `SpecSearch.v` says which calls were made with which answers (`calls`). Induction on the positions left. |
| C73 | Mapping and reducing | `ModelSearch.v` | Calls as in C72, then the builder theorems (C11, C14) for the result. |
| C74 | Walking two sequences together | `ModelSearch.v` | The user function is wrapped to record its calls; nested induction on both sequences. |
| C75 | References into builders | `ModelRef.v` | Simulation: a reference is a place and the value last seen there (`SpecRef.v`); uses the invariants of C11 and C14. |
| C76 | Nested editors store into their parent | `ModelRef.v` | `dirty` holds exactly when the list of changes is not empty (object) or the list differs (array); then one write in the parent. |
| C77 | Precise numbers made from text | `ModelPrecise.v` | The number grammar of C71; the parser always stops with one character fetched. |
| C78 | Ways of reading the same text | `ModelStreams.v`, `ModelText.v` | Simulation of the parser over the map from bytes to chars, function by function; the UTF-8 decoder looks at the low eight bits only, up to byte 247. |
| C79 | Many calls in one request | `ModelMulticall.v`, `ModelRpc.v` | The server is an oracle giving the answers before and after the loop counts; the loop is structural recursion over the calls. `server_once` instantiates the oracle with the server of C58. |
| C80 | The list of methods | `ModelMulticall.v` | The map order is an arbitrary permutation. |
| C81 | Checking the arguments of a request | `ModelArgs.v`, `ModelValidator.v` | Verdicts of the rules (`verdict`, C38) put together over the tuple; a traversal of the evaluator shows that rejections are only added below the path of the rule. |
| C82 | The methods ping and help | `ModelArgs.v`, `ModelRpc.v` | The server run of C58 with the one operation of the method; then the client's reading of the message (C57). |
| C83 | Elliptic curve signatures of tokens | `ModelJwtCrypto.v` | Big-endian digits by induction on the width; induction over the attempts; tokens by C43. |
| C84 | HMAC tokens and confusion of methods | `ModelJwtCrypto.v`, `ModelJwt.v` | The chain of comparisons decides the family; C43 for tokens. |
| C85 | RPC client used by several threads | `ModelConc.v` | Invariant over the stacks of frames: who owns the lock, who carries a call (map, waiting frame, answering frame) counted to exactly one; the log is a run of the client of one thread. What a thread is to do is a duty of a frame of its stack, kept by all steps until the event is in the log (`ProofConc5`). |
| C86 | Waiting RPC calls end | `ModelConc.v` | In a state where nobody can go on all tops are sleeping or wait for the lock, whose owner sleeps; a weight of the stacks decreases with every step. Refuted for nested waiting calls by a closed set of three states. |
| C87 | Handles, keys and wrapped objects | `ModelIface.v` | Induction on the tree of objects (own induction principle); reading, comparing and equality as mutually inductive relations against the JSON value. |
| C88 | Binary strings | `ModelIface.v`, `ModelEnc.v` | Cases of the class; the decoders give strings. |
| C89 | getBool | `ModelIface.v` | Induction on the object; only zero converts to 0.0. |
| C90 | Precise numbers read by several threads | `ModelLazy.v` | Invariant: cached, or a thread past the write, implies the field is right; a read number is only read. |
| C91 | Values from C++ types and back | `ModelConv.v` | Types as an inductive universe with a denotation; induction on the type; through the text by C06. |
| C92 | Values or defaults | `ModelConv.v` | Cases on the kind; arithmetic modulo 2^32. |
| C93 | RPC over text | `ModelRpc.v`, `ModelText.v` | C57 composed with C06: reading what was written is a function (`norm`) which commutes with taking members. |
| C94 | Places of parse errors | `ModelParseErr.v` | Mutual induction on the fuel along C71's soundness; the converse by induction on the derivation with C71's completeness. |
| C95 | Shared containers never show | `ModelHeap.v` | Set of finished containers that grows, closed under reference and never written; one unfinished layer per builder; simulation by `ModelObject` through parametricity of sort, search and merge. |
| C96 | Documents one after another | `ModelDocs.v` | Locality: every function of the reader commutes with replacing the unread rest, as long as the end is not met; mutual induction on the fuel. |
| C97 | Reading again | `ModelText.v` | Invariant of the parser: the form of every value it makes; the generic completeness of the parser for number texts read as their number. |
| C98 | Going through values, making them from sequences | `ModelWalk.v` | Visited places characterised by their order and by the answers of the function; induction on the value. |
| C99 | A parser after an error | `ModelParser.v` | Refinement of `ModelParseErr` with the buffers as invariant; a second induction for what an error names and where it leaves the reader. |
| C100 | Blocks are large enough | `ModelMem.v` | A contract for fill functions, proved once for the constructor and then for each filler by relating it to the list function of the other models; wraps by explicit 64-bit sizes. |
| C101 | The keys a binary serializer remembers | `ModelKeyView.v` | Simulation between the dictionary of views and that of `ModelBin`, which holds exactly while no dangling view is met; the exact condition by one induction that covers both outcomes. |
| C102 | A copied path owns what it refers to | `ModelPathMem.v` | A path in memory is a relation between an address and a list of components; induction on the path with the areas already written, the result quantified over every memory which agrees on the block. |
| C103 | The count given by an object builder | `ModelObjSize.v`, `ModelObject.v` | Invariant of C11 and a count of recorded changes over histories. |
| C104 | What is written is JSON, and JSON is read | `ModelText.v` | `SpecJson.v` is the grammar of RFC 8259 on texts alone. Writing: induction on values; strings through an invariant of the UTF-8 decoder (a pending count that is too large cannot reach zero within 2^32 bytes). Reading: RFC texts are texts of the grammar of C71. |
| C105 | Binary strings through JSON text | `ModelText.v`, `ModelEnc.v` | The writer's output over blocks is computed byte by byte with its decoder state; reading through the grammar of C71, decoding through C23 to C26. |
| C106 | Compressor after reset | `ModelCompress.v` | Two compressor states that agree in what the dictionary shows (pairs and their codes) write the same as long as the dictionary does not fill. |
| C107 | Notifications from sender to receiver | `ModelNotify.v`, `ModelRpc.v` | Members of the message through C06; the server's history is a run of operations (C39), silent without an identifier. |
| C108 | Strings of wide characters | `ModelWide.v`, `ModelUtf8.v` | Every character gives at most one code, one that is no code point none or another one; the decoder's counter does not come round on shorter texts. |
| C109 | Release of containers | `ModelRelease.v`, `ModelHeap.v` | Every operation reads only containers its variables and builders refer to (two memories that agree there give the same results) and copies only pointers it can reach; finished containers refer to older ones and are never referred from below, so what keeps a pointer is reached. |
| C110 | Any value through JSON text | `ModelText.v`, `ModelEnc.v` | By induction on the value its text is a text of the grammar of C71 denoting the value described in `SpecThrough.v`; integers are pinned down by C04 and C47, binary strings by C105. |
| C111 | Numbers of any length are read accurately | `ModelText.v` | `near e v x` (v is x up to a factor exp e) is closed under products, quotients, sums, rounding and floor with the exponents added; induction over the digits after the point and over the chunks before it, of which there are at most 16; the documents by the grammar of C71. |
| C112 | The binary form, byte by byte | `ModelBin.v` | An inductive relation between keys written so far, items and bytes (`SpecWire.v`); induction over it for the reader, with the ring of 128 keys as a window on the list of all keys; induction over the value for the writer. A float is exact in double precision, and two doubles of the same value are the same |
| C113 | What an unclosed compressor has written | `ModelCompress.v` | The simulation of C27 stopped before the end: the symbols delivered are a prefix of those of the text; induction over the coding of characters for the bytes of a prefix of the symbols. |
| C114 | A document cut short is refused | `ModelText.v` | By C71 what is read ends with a character other than the end mark, so lies within the part left; by C96 it would be read alike from the whole text and leave something over. |
| C115 | Strings read through pointers | `ModelCstr.v` | Induction over the chain of cuts gives the block, the offset and the length; induction over the text for the read up to the zero. |
| C116 | Array builders copied and moved | `ModelArrays.v` | Simulation: every live builder represents its list (the invariant of C14), every moved-from one has no changes; induction over programs. |
| C117 | Elliptic curve keys as text | `ModelJwtKeys.v` | base64url round trip (C10) and big-endian numbers (C83) around functions of OpenSSL that are arguments. |
| C118 | Searches look at few items | `ModelKeyed.v`, `ModelOrdered.v`, `ModelStd.v`, `ModelEnum.v`, `ModelJwt.v` | A search is a function of the list; `decided_by` bounds the number of items its answer depends on. Induction over the halvings; for the refutation, changing any one of the skipped items changes the answer. |
| C119 | Methods which change their server | `ModelRegLife.v` | Invariant between the map, the live objects and the history; a relational reading of the code; two syntactic habits that exclude the fault. |
| C120 | How long a request lives | `ModelReqLife.v` | Invariant between handles, counter and life, kept by code nested to any depth (induction on the tree of operations); three conditions on the code, each excluding one fault. |
| C121 | The end of a source is read once | `ModelText.v` | Two runs of the parser in step, on a text and on the same text with an end mark and anything after it. |
| C122 | Builders when memory runs out | `ModelFail.v` over `ModelObject.v`, `ModelArray.v` | The state at every request for memory satisfies the invariant of C11 (C14) for the operations done so far. Assignment and `slice(start, end)` refuted. |
| C123 | Const functions of an object builder | `ModelConst.v` over `ModelObject.v` | The fields read and written are proved to be exactly those the answer and the change depend on; refuted for builders with changes waiting. |
| C124 | Prepared calls and copies of clients | `ModelPrepared.v` over `ModelRpc.v` | One induction over nested operations for anything the elementary steps keep (`keeps_ops`); invariants: an executed call stays so, prepared calls carry messages of calls made, counters bound identifiers, each client has a history of C41. Copies of clients and calls and retries refuted. |
| C125 | Relaying foreign binary documents | `ModelBin.v`, `SpecRelay.v` | Invariant of the parser over all inputs; composed with the session round trip of C20. |
| C126 | Documents kept in the binary form | `ModelText.v`, `ModelBin.v`, `SpecStored.v` | The forms the text parser can give (C97) are fixed points of the reading of the binary form (C19). |
| C127 | Sorting and grouping builders, unshift of a sequence | `ModelSort.v`, `SpecSort.v` | Sorting is a relation: any result the contract of `std::sort` allows; composed with the builder invariants of C11, C13, C14. |
| C128 | Data kept with a connection | `ModelConn.v`, `ModelConst.v`, `SpecConn.v` | A table against the object builder (C11); invariant on the size of the unsorted layer. |
| C129 | A validator used many times | `ModelValidator.v`, `SpecReuse.v` | Induction over histories of calls; the verdict and emits depend only on the variables (C60). |
| C130 | Paths given as values | `ModelPath.v`, `SpecPathValue.v` | Induction over the items against a relation that follows them one by one. |
| C131 | Rejections point into the subject | `ModelValidator.v`, `SpecPoints.v` | Induction on the bound of the evaluation, with a predicate on definitions that leaves out rules for derived subjects. |
| C132 | JSON-RPC messages | `ModelRpc.v`, `SpecMessage.v` | Invariant of the log over operations nested to any depth; the members spelled out in the specification. |
| C133 | RPC errors as the caller reads them | `ModelRpcError.v`, `SpecRpcError.v` | From the log of the server to the client; the one response found by counting. |
| C134 | Command line tools | `ModelTools.v` | Composition of the round trips of the library. The text written of any bytes is printable by an invariant of the UTF-8 decoder; the decompressor ends by a lexicographic measure (input, characters ready, bytes of a character to come). Documents with floating numbers follow C70. |
| C135 | Command line validator | `ModelCheckTool.v`, `SpecCheckTool.v` | Composition with C129 and C131; printing of paths is injective on names without slash, tab and leading bracket by cutting at the first separator. |
| C136 | Definition of definitions | `ModelOwnDef.v`, `SpecOwnDef.v` | The verdict of each class of the file on any subject, from the theorems on rules (C37, C38, C67, C68) and the termination lemmas of C61. |
