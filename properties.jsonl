{"id": "C01", "title": "UTF-8 conversion round trip", "statement": "Encoding any sequence of Unicode code points with the library's wide-to-UTF-8 conversion and decoding the bytes with its UTF-8-to-wide conversion gives back exactly the same sequence, and the encoder emits the standard UTF-8 bytes for each code point.", "quantifier": "every finite sequence of code points 0..0x10FFFF", "why_tests_cant": "1.1 million code points in sequences of any length; the decoder carries state between bytes, so no finite sample covers the sequences.", "anchors": ["/repo/src/imtjson/utf8.h: WideToUtf8, Utf8ToWide"]}
{"id": "C02", "title": "String literal round trip with UTF-8 output", "statement": "Serialising a string value with the emitUtf8 format and parsing the text gives a string with exactly the same bytes, for every string that is valid UTF-8 (control characters, quotes, backslashes, U+2028/2029 and NUL included). The only strings that do not survive are the two the parser reserves for infinity.", "quantifier": "every byte string that is the UTF-8 encoding of some code point sequence (surrogates excepted where stated)", "why_tests_cant": "The set of strings is infinite and escape handling interacts with multi-byte decoding state.", "anchors": ["/repo/src/imtjson/serializer.h: writeString, writeStringBody, writeUnicode", "/repo/src/imtjson/parser.h: parseString, readString, parseUnicode"]}
{"id": "C03", "title": "String literal round trip with escaped output", "statement": "Serialising a string value with the default emitEscaped format produces pure ASCII without control characters, and parsing it gives back the same bytes exactly when the string contains no code point above U+FFFF (above it only the low 16 bits are written); the infinity words are excepted as in C02.", "quantifier": "every valid UTF-8 string", "why_tests_cant": "Failure is confined to the supplementary planes; success on the rest is a claim about infinitely many strings.", "anchors": ["/repo/src/imtjson/serializer.h: writeUnicode, writeStringBody", "/repo/src/imtjson/parser.h: readString, parseUnicode"]}
{"id": "C04", "title": "Integer text round trip", "statement": "Every signed or unsigned 64-bit integer value, except the smallest signed one (whose negation in the serializer overflows, undefined behaviour), is serialised as its shortest decimal form and parses back to a number with exactly the same mathematical value, with no detour through floating point.", "quantifier": "all integers from -(2^63-1) to 2^64-1", "why_tests_cant": "2^64 values; off-by-one at the 2^63/2^64 boundary and at digit-count boundaries.", "anchors": ["/repo/src/imtjson/serializer.h: writeUnsigned, writeUnsignedRec, writeSigned", "/repo/src/imtjson/parser.h: parseNumber, parseUnsigned"]}
{"id": "C05", "title": "Decimal overflow detection", "statement": "When parsing a run of decimal digits the accumulated 64-bit value is exact if the run denotes a number below 2^64 (a negative one whose magnitude needs 64 bits becomes the double of that magnitude, negated), and otherwise the parser detects the overflow and makes a double; it never continues with a silently wrapped value. A zero, -0 and a double an exponent brought to zero included, is the one unsigned zero.", "quantifier": "every digit string of any length, with any number of leading zeros", "why_tests_cant": "Wrap-around checks are wrong only for particular digit strings; exhaustive testing of 20-digit strings is impossible.", "anchors": ["/repo/src/imtjson/parser.h: parseUnsigned"]}
{"id": "C06", "title": "Whole document round trip", "statement": "For any value built from null, booleans, 64-bit integers, strings, arrays and objects, nested to any depth, stringify followed by parse yields an equal value, both by content and by operator==, the parser consumes exactly the text written, and writing the value read gives the same text again.", "quantifier": "every such value (strings valid UTF-8, not the infinity words; object keys unique)", "why_tests_cant": "Unbounded nesting and size; composition of literals, separators and look-ahead.", "anchors": ["/repo/src/imtjson/serializer.h: serialize, serializeObject, serializeArray", "/repo/src/imtjson/parser.h: parse, parseObject, parseArray"]}
{"id": "C07", "title": "Parsed objects are sorted with unique keys", "statement": "Whenever parsing succeeds, every object anywhere in the result lists its members in strictly increasing key order, and a JSON document with a duplicate key in any object is rejected unless the allowDuplicates flag is given.", "quantifier": "every input byte stream", "why_tests_cant": "Must hold for every input text, including adversarial ones.", "anchors": ["/repo/src/imtjson/parser.h: parseObject", "/repo/src/imtjson/objectValue.cpp: sort"]}
{"id": "C08", "title": "Malformed unicode escapes are rejected", "statement": "A string literal containing \\u followed by anything other than four hexadecimal digits is rejected with a parse error.", "quantifier": "every string literal", "why_tests_cant": "The missing throw only shows up on malformed input, whose space is unbounded.", "anchors": ["/repo/src/imtjson/parser.h: parseUnicode"]}
{"id": "C09", "title": "Key lookup is exact", "statement": "In an object whose members are in increasing key order, looking up a key returns the member with that key if there is one and undefined otherwise, whatever the number of members.", "quantifier": "every ordered object and every key", "why_tests_cant": "Binary search boundary errors depend on size and position.", "anchors": ["/repo/src/imtjson/objectValue.cpp: findSorted, member"]}
{"id": "C10", "title": "Object construction: last binding wins", "statement": "Sorting a list of keyed members yields the members in strictly increasing key order, with each key bound to the last value given for it, and nothing else.", "quantifier": "every finite list of keyed members, in any order and with any repetition", "why_tests_cant": "Depends on sort stability and on the in-place compaction over runs of any length.", "anchors": ["/repo/src/imtjson/objectValue.cpp: sort", "/repo/src/imtjson/object.cpp: Object(initializer_list)"]}
{"id": "C11", "title": "Object builder behaves like a map", "statement": "For every sequence of set, unset, merge, optimize, read and copy operations on an Object builder, reading a key returns the latest value set for it (undefined after unset), falling back to the base object, and committing produces exactly that map in sorted order with no undefined members.", "quantifier": "every base object, every operation sequence of any length (so every pattern of internal buffer growth and merging)", "why_tests_cant": "The builder has three layers and size-triggered reorganisation; bugs appear only for particular lengths and orders.", "anchors": ["/repo/src/imtjson/object.cpp: set, set_internal, unset, operator[], optimize, commit, applyDiffImpl, Object(const Object&)", "/repo/src/imtjson/objectValue.cpp: sort, findSorted"]}
{"id": "C12", "title": "Object builder never dereferences a missing layer", "statement": "No sequence of builder operations reaches the point where operator[] or optimize would use a layer that does not exist, or push past the capacity of a container and lose a member.", "quantifier": "every operation sequence", "why_tests_cant": "A null dereference or lost member would need one particular sequence of operations.", "anchors": ["/repo/src/imtjson/object.cpp: operator[], set_internal, optimize"]}
{"id": "C13", "title": "Object iteration shows the current content", "statement": "Iterating over an Object builder enumerates exactly the content that commit() would produce at that moment, for every history without clear, revert, setBaseObject and assignment. After one of those following an earlier iteration, it enumerates the content commit() would have produced at that earlier iteration, until a member is changed.", "quantifier": "every operation sequence followed by an iteration", "why_tests_cant": "A stale snapshot only appears after iterate-then-clear/revert/assign histories.", "anchors": ["/repo/src/imtjson/object.cpp: begin, end, clear, revert, operator=", "/repo/src/imtjson/object.h: lastIterSnapshot"]}
{"id": "C14", "title": "Array builder behaves like a list", "statement": "For every sequence of push_back, addSet, insert, erase, eraseSet, set, trunc, setSize, clear, revert, reverse and slice(start) operations with in-range positions on an Array builder, and of insertSet at position 0 or in a builder not made from an array, size() and operator[] agree with a plain list subjected to the same operations, and commit() yields that list without its undefined items. insertSet elsewhere in a builder made from an array is undefined behaviour.", "quantifier": "every base array, every operation sequence with in-range positions", "why_tests_cant": "The builder keeps a shared prefix of the base plus an edited tail; correctness depends on how the boundary moved in the whole history.", "anchors": ["/repo/src/imtjson/array.cpp: push_back, add, addSet, insert, insertSet, erase, eraseSet, trunc, clear, revert, set, operator[], commit, extendChanges, reverse, setSize"]}
{"id": "C15", "title": "Array slice semantics", "statement": "Array::slice(start) keeps exactly the elements from start on, negative positions counting from the end; Array::slice(start,end) keeps exactly start..end when neither is negative or start is 0, and otherwise first cuts at end and then applies start to what is left, twice when end is negative; Value::slice keeps start..end when start is not negative and ignores end otherwise.", "quantifier": "every array and every start/end pair, including negative and out-of-range ones", "why_tests_cant": "Four sign/range combinations times all lengths.", "anchors": ["/repo/src/imtjson/array.cpp: slice", "/repo/src/imtjson/value.cpp: slice"]}
{"id": "C16", "title": "splitAt partitions", "statement": "Value::splitAt(n) on an array or on a part made by splitAt returns two arrays whose concatenation is the original, the first having min(n,size) elements for n >= 0 and max(size+n,0) for n < 0; every index inside a part reads the element of that part (an index past the end of the first part reads the second).", "quantifier": "every array and every position", "why_tests_cant": "All sizes and positions, including views of views.", "anchors": ["/repo/src/imtjson/value.cpp: splitAt, SubArray"]}
{"id": "C17", "title": "Path replace: get/put laws", "statement": "In a JSON document, for a path whose indexes address arrays (or places that are not containers) at positions not past the end: after v.replace(path, x) with x a document, reading the result at path gives x; replacing a path with what is already there changes nothing; every value reached by a path that diverges from the replaced one (two different keys or two different indexes at the first difference) is unchanged; replacing a key with undefined removes that member only. An index past the end appends instead, and an index into an object replaces the whole object.", "quantifier": "every value, every path made of keys and in-range indexes, every replacement", "why_tests_cant": "Unbounded depth; recursion over mixed objects and arrays.", "anchors": ["/repo/src/imtjson/value.cpp: replace, setToPathRev, reversePath", "/repo/src/imtjson/path.cpp"]}
{"id": "C18", "title": "Path comparison is a total order", "statement": "Path::compare is reflexive, antisymmetric and transitive, and returns 0 exactly for paths with the same components; converting a path to a value and back preserves it.", "quantifier": "all pairs and triples of paths", "why_tests_cant": "Order laws quantify over triples of unbounded paths.", "anchors": ["/repo/src/imtjson/path.cpp: compare, toValue, fromValue", "/repo/src/imtjson/path.h"]}
{"id": "C19", "title": "Binary codec round trip", "statement": "For every value with its key (including undefined, keyed array items, binary strings and doubles bit for bit) whose texts do not start with a UTF-8 continuation byte, and every combination of the compressKeys and compressTokenStrings flags, parseBinary applied to the output of serializeBinary followed by anything gives back the value and consumes exactly the bytes written. Numbers keep their value and so the result compares equal; the diff mark, the text of precise numbers and the encoding of binary strings are not kept, and a text starting with a continuation byte is altered.", "quantifier": "every well-formed value and flag combination", "why_tests_cant": "Unbounded nesting, length-prefix width boundaries, and 128-entry key history interplay.", "anchors": ["/repo/src/imtjson/binjson.tcc: BinarySerializer, BinaryParser"]}
{"id": "C20", "title": "Binary codec across several documents", "statement": "If a writer and a reader keep the same serializer and parser objects and transmit any number of values in sequence, each value is decoded correctly: the two key histories stay in step, also after preloading fresh keys on both sides, after clearing the keys on both sides and after more than 128 distinct keys, as long as fewer than 2^32 - 256 keys are used and no value is released before the keys are cleared (C101). Preloading a key already in use puts them out of step, and after 2^32 - 255 keys a new key is taken for another.", "quantifier": "every sequence of documents and every preload list", "why_tests_cant": "Desynchronisation would need a specific long history.", "anchors": ["/repo/src/imtjson/binjson.tcc: tryCompressKey, storeKey, preload, clearKeys"]}
{"id": "C21", "title": "32-bit compatible binary output", "statement": "With maintain32BitComp set, integers of magnitude below 2^32 are read back unchanged, integers of 2^32 and more are read back as a double within half a unit in the last place (exactly up to 2^53), and integers of -2^32 and less lose their sign: they are read back as the double of their magnitude.", "quantifier": "every 64-bit integer", "why_tests_cant": "Only values outside the 32-bit range take the branch.", "anchors": ["/repo/src/imtjson/binjson.tcc: serializeInteger, serializeNumber"]}
{"id": "C22", "title": "Binary parser on truncated input", "statement": "Given any n bytes followed by the end-of-stream value for ever, parseBinary either returns or throws within 2n+3 nested calls, or never does. It never does whenever an item is wanted after the end, so for every array cut between two items; a text cut short is filled with 0xFF and accepted.", "quantifier": "every byte string", "why_tests_cant": "Non-termination on a particular truncated input cannot be excluded by sampling.", "anchors": ["/repo/src/imtjson/binjson.tcc: parseItem, parseKey"]}
{"id": "C23", "title": "Base64 round trip", "statement": "Decoding the base64 encoding of any byte string gives back the byte string; the encoding uses only the base64 alphabet with '=' padding to a multiple of four.", "quantifier": "every byte string", "why_tests_cant": "Three residue classes times all lengths and contents.", "anchors": ["/repo/src/imtjson/base64.cpp: encodeCore, decoderCore, decodeBinaryValue"]}
{"id": "C24", "title": "Base64url round trip", "statement": "Decoding the base64url encoding of any byte string gives back the byte string; the encoding uses only URL-safe characters and no padding.", "quantifier": "every byte string", "why_tests_cant": "As for base64, with lengths derived without padding.", "anchors": ["/repo/src/imtjson/base64.cpp: Base64UrlEncoding"]}
{"id": "C25", "title": "URL encoding round trip", "statement": "Percent-decoding the percent-encoding of any byte string gives back the byte string, and the encoded form contains only unreserved characters, '+' or '%' escapes.", "quantifier": "every byte string", "why_tests_cant": "All 256 byte values in all positions and combinations.", "anchors": ["/repo/src/imtjson/binary.cpp: UrlEncoding"]}
{"id": "C26", "title": "Raw binary as UTF-8 round trip", "statement": "Encoding any byte string with the 'utf8' binary encoding gives valid UTF-8 text from which decoding restores the bytes exactly.", "quantifier": "every byte string", "why_tests_cant": "All byte values; two-pass size computation must agree with the conversion for every input.", "anchors": ["/repo/src/imtjson/binary.cpp: UTF8Encoding"]}
{"id": "C27", "title": "Compressed stream round trip", "statement": "Decompressing the output of the compressor yields exactly the input text and then the end mark, for any text made of printable ASCII and valid UTF-8 (no control characters), of any length, through any number of dictionary resets and optimisations and for each of the eight documented masks; so a serialised document packed and unpacked has the same content. A control character or a byte no character starts with, where a character should start, makes the compressor throw. Refuted part: a byte sequence broken inside a character is compressed without complaint and comes back changed.", "quantifier": "every such text", "why_tests_cant": "The dictionary fills after tens of thousands of symbols; encoder and decoder must rebuild the same dictionary each time.", "anchors": ["/repo/src/imtjson/compress.h", "/repo/src/imtjson/compress.tcc"]}
{"id": "C28", "title": "Equality laws", "statement": "On values that contain no undefined and no NaN, operator== gives one answer however the values share storage, and is reflexive; structural equality is symmetric on all values; it is transitive when every integer involved is below 2^53 in absolute value (beyond that 2^53+1, the double 2^53 and 2^53 break it).", "quantifier": "all pairs and triples of values", "why_tests_cant": "Quantifies over triples of unbounded values; transitivity breaks only for particular large integers.", "anchors": ["/repo/src/imtjson/value.cpp: operator==", "/repo/src/imtjson/basicValues.h: NumberValueT::equal", "/repo/src/imtjson/basicValues.cpp", "/repo/src/imtjson/arrayValue.cpp", "/repo/src/imtjson/objectValue.cpp"]}
{"id": "C29", "title": "Ordering laws", "statement": "Value::compare is antisymmetric on all values; on values without NaN whose integers are below 2^53 in absolute value it is transitive and returns 0 exactly for equal values (unsigned numbers of 2^63 and more break transitivity, NaN breaks the second part).", "quantifier": "all pairs and triples of values", "why_tests_cant": "Order laws quantify over triples; mixed signed/unsigned comparison fails only for large values.", "anchors": ["/repo/src/imtjson/abstractValue.cpp: compare", "/repo/src/imtjson/value.cpp: compare"]}
{"id": "C30", "title": "Hash agrees with equality within a form", "statement": "The hash of a value depends only on its form: values with the same keys, texts, binary contents, equal integers (signed or unsigned, or precise of 2^32 and more), bit-identical doubles have the same std::hash, whatever their diff flags, binary encodings and own key, and such values compare equal. The bytes hashed agree for no other pair, and texts differing in one byte never collide. Equal values of different form (7 and 7.0, 7 and precise 7, arrays with different item keys, text and binary) have different hashes.", "quantifier": "all pairs of equal values", "why_tests_cant": "Needs equal values with different representation.", "anchors": ["/repo/src/imtjson/value.cpp: std::hash<json::Value>", "/repo/src/imtjson/fnv.h"]}
{"id": "C31", "title": "Diff and apply", "statement": "For any two sorted objects a and b without undefined members, applying the diff created from (a,b) with recursion limit 0 to a yields an object equal to b, with exactly the keys of b; a diff of an object with itself is empty.", "quantifier": "all pairs of objects", "why_tests_cant": "All key interleavings and value combinations.", "anchors": ["/repo/src/imtjson/object.cpp: createDiff, commitAsDiff, applyDiff, applyDiffImpl"]}
{"id": "C32", "title": "Recursive diff and apply", "statement": "With a recursion limit above zero the law of C31 holds where no key holds an object on both sides. A key that does keeps its old value whatever merge function applies the diff, because the nested diff is stored under the empty key; so between objects without the empty key the result then always has an extra member and never equals the second object, even if the nested objects are the same. recursiveMerge itself merges nested diffs member by member at every depth.", "quantifier": "all pairs of nested objects and all recursion depths", "why_tests_cant": "Depends on nesting depth versus recursion limit.", "anchors": ["/repo/src/imtjson/object.cpp: createDiff, recursiveMerge, applyDiffImpl"]}
{"id": "C33", "title": "Ordered containers: set operations", "statement": "On containers ordered by a comparison function, merge, intersection, complement and symdiff give ordered results containing exactly the expected elements with the expected multiplicities, and never drop an element for lack of room.", "quantifier": "every comparison function that is a total preorder, all pairs of ordered containers", "why_tests_cant": "All interleavings and multiplicities.", "anchors": ["/repo/src/imtjson/operations.h: Ordered::SortFn::comm, merge, complement, intersection, symdiff"]}
{"id": "C34", "title": "Ordered containers: search", "statement": "On an ordered container, find returns an element equal to the needle iff one exists, lowerBound and upperBound delimit exactly the run of equal elements, and uniq keeps one representative of each run.", "quantifier": "every total preorder, every ordered container and needle", "why_tests_cant": "Boundary positions at both ends for all lengths and run lengths.", "anchors": ["/repo/src/imtjson/operations.h: Ordered::find, lowerBound, upperBound, equalRange, uniq, group"]}
{"id": "C35", "title": "Comment removal", "statement": "removeComments reads any text as characters, string literals, // and /* */ comments and lone slashes, and passes on exactly the text without the comments: strings pass untouched, a // comment goes together with the newline that ends it, an unterminated comment is dropped to the end of the text, and a slash that starts no comment passes together with the one character after it. In particular a JSON text or a text without '/' is unchanged. A quote right after a lone slash does not open a string.", "quantifier": "every character stream, every interleaving of comments, strings and other characters", "why_tests_cant": "State machine over unbounded streams.", "anchors": ["/repo/src/imtjson/comments.h: CommentedJSON"]}
{"id": "C36", "title": "Validator dates", "statement": "The validator rules 'date', 'time', 'timez', 'datetime' and 'datetimez' accept exactly the texts in the documented format that denote an existing calendar date (years 1000-9999, Gregorian leap years) and time of day. ['datetime', format] accepts exactly the texts that fit the format position by position and whose fields are in range, for formats in which no letter occurs ten times and which do not have 'o'. A format that ends in '+OO:oo' accepts only offsets with hours 00-05 and any two digits as minutes.", "quantifier": "every string", "why_tests_cant": "Every string of every length; leap year rule; digit arithmetic on non-digit characters.", "anchors": ["/repo/src/imtjson/validator.cpp: checkDateTimeGen, evalRuleSimple"]}
{"id": "C37", "title": "Validator object templates", "statement": "An object with increasing, non-empty keys is accepted by an object rule (names in order after removing the extra percent sign) iff each member named in the rule satisfies its rule (an absent member counting as undefined), each other member satisfies the '%' rule (without one it is rejected), and, when no key of the object lies behind the names before '%', the '%' rule accepts undefined. Other values are rejected.", "quantifier": "every object and every template, for any member-rule semantics", "why_tests_cant": "Merge of two ordered key sequences with special keys; all interleavings.", "anchors": ["/repo/src/imtjson/validator.cpp: evalRuleObject, parseKey"]}
{"id": "C38", "title": "Validator combinators", "statement": "Whatever the state of the validator, a rule never both accepts and rejects the same subject; an alternatives list accepts iff the first rule that does not reject accepts; 'not' accepts iff all reject; 'all' and comparison lists accept iff every comment, comparison and rule in order holds, where comparisons need equal types and order numbers as signed integers, unsigned integers or doubles, strings by characters; minsize/maxsize bound the size of strings, arrays and objects and accept everything else.", "quantifier": "every subject and rule nest", "why_tests_cant": "Rules nest without bound.", "anchors": ["/repo/src/imtjson/validator.cpp: evalRule, evalRuleAlternatives, opRangeDef, checkMinSize, checkMaxSize, isLess"]}
{"id": "C39", "title": "RPC request answered at most once", "statement": "For a request built on a response function, however many times and in whatever order setResult, setError, notifications and the destruction of the request happen, at most one response is delivered, provided the peer neither answers the request nor throws while it is being handed a result; none is delivered for a request without id, whatever the peer does; no other one follows once a response has been recorded as sent; each response carries the id of the request; and a request executed by a server and dropped, at any later time, without answer gets exactly one error response. The condition on the peer is needed (re-entrant and throwing peers get two responses), and a request built on callbacks calls them every time.", "quantifier": "every sequence of operations on a request, every request id", "why_tests_cant": "All orders of calls, including after the response.", "anchors": ["/repo/src/imtjson/rpc.cpp: RequestData::sendResult, sendError, postSendResponse, setNoResultError", "/repo/src/imtjson/rpc.h: RpcRequest::create"]}
{"id": "C40", "title": "RPC notifications stop when refused", "statement": "For a request built on a response function and a peer that does not use the request while it is handed something, a notification is delivered exactly when notifications are enabled: initially by preResponseNotify, after each response by postResponseNotify together with the peer's acceptance, after each notification by the peer's acceptance. So after a refused notification (or response) none is sent until a response is accepted with postResponseNotify, and without preResponseNotify none is sent before an accepted response. A refusal is not final when both flags are set, and requests built on callbacks ignore refusals.", "quantifier": "every sequence of notify/result/error operations and peer answers", "why_tests_cant": "Depends on the whole history of the request.", "anchors": ["/repo/src/imtjson/rpc.cpp: RequestData::sendNotify, postSendResponse, RequestData"]}
{"id": "C41", "title": "RPC client: each pending call completes at most once", "statement": "Over any sequence of identifier generation, call registration, responses, cancellation (one, all) and filtering with identifiers on which matching is an equivalence (equal hash and equality of values without undefined, NaN and integers of 2^53 or more is one), no null pointer is met, every registered call is either pending or has ended exactly once, and one that ended did so through a response with its id and with what that response carries, through its cancellation, or because its id was already registered. A response for an unknown id is reported as unexpected without touching any call; cancelling one, cancelling all and filtering end exactly the calls they name. Generated identifiers repeat after exactly 2^32 generations.", "quantifier": "every sequence of client events", "why_tests_cant": "Unbounded histories of ids.", "anchors": ["/repo/src/imtjson/rpc.cpp: addPendingCall, cancelPendingCall, cancelAllPendingCalls, filterPendingCalls, processResponse, parseResponse"]}
{"id": "C42", "title": "RPC context update", "statement": "Updating the context of a client with a container sets every member that is neither null nor undefined, removes every null or undefined one, leaves all other members unchanged, and does nothing when the container is empty; this holds for every context a client holds over any history.", "quantifier": "every pair of objects", "why_tests_cant": "All key combinations, through the Object builder.", "anchors": ["/repo/src/imtjson/rpc.cpp: AbstractRpcClient::updateContext"]}
{"id": "C43", "title": "JWT payload only after verification", "statement": "parseJWT with a crypto object returns a defined payload only if the crypto object accepted the decoded third part of the token as signature of exactly the text of the first two parts with the dot between them, with the forced method if one is given and the header's alg and kid otherwise; the payload is then what the second part spells (parts after a third dot are ignored, missing parts are empty). Every other token gives undefined. Tokens made by serializeJWT give payload and header back.", "quantifier": "every token string, every crypto implementation", "why_tests_cant": "Security property over every token, including malformed ones.", "anchors": ["/repo/src/imtjson/jwt.cpp: parseJWT, serializeJWT"]}
{"id": "C44", "title": "JWT time window", "statement": "checkJWTTime, at a time of t whole seconds after the epoch, returns the token body if t is not after exp and t is not before the second nbf falls in, and undefined otherwise; a limit that is missing or not a number does not limit. This holds for limits from 0 below 2^64, integer or fractional. A negative exp counts as a huge one, so the token never expires.", "quantifier": "every token body and time", "why_tests_cant": "Integer conversions at boundaries; negative limits.", "anchors": ["/repo/src/imtjson/jwt.cpp: checkJWTTime"]}
{"id": "C45", "title": "JWT token cache", "statement": "The cache returns for a token only content that was stored for that token since the last clear. A token of ten characters or more is found as long as fewer than limit (at least one) other distinct tokens have been stored after it, and there are never more than limit-1 entries in the first and limit entries in the second generation. Content stored again for a token that is in the current generation is ignored; tokens shorter than ten characters may be lost.", "quantifier": "every sequence of store/get/clear and every limit", "why_tests_cant": "Depends on the generation swap points.", "anchors": ["/repo/src/imtjson/jwt.cpp: JWTTokenCache::get, store, clear"]}
{"id": "C46", "title": "Named enumerations", "statement": "In a named enumeration a known name gives a value listed with that name and a known value gives a name listed with that value; with distinct names and distinct values the two lookups are inverse. An unknown name throws with the name and all names of the table, find returns null for it, an unknown value gives the empty name. allEnums returns its separator (or nothing for an empty table) instead of the joined names.", "quantifier": "every table in any order, every name and value", "why_tests_cant": "Binary search over arbitrary tables.", "anchors": ["/repo/src/imtjson/namedEnum.h: NamedEnum"]}
{"id": "C47", "title": "Precise numbers keep their text", "statement": "A number parsed in precise mode keeps its exact source text through serialisation, and its integer value is exact whenever it lies between -(2^63-1) and 2^64-1.", "quantifier": "every decimal text", "why_tests_cant": "Overflow detection over arbitrary digit strings.", "anchors": ["/repo/src/imtjson/stringValue.cpp: PreciseNumberValue, numberFromStringRaw", "/repo/src/imtjson/parser.h: parsePreciseNumber"]}
{"id": "C48", "title": "Merging containers", "statement": "Value::merge on two objects gives an object with sorted unique keys whose keys are the union of both: a key of one side keeps its member, a key of both sides has the merged objects, or the member of the second when they are not both objects, and undefined members are left out; sortedness holds at every depth. Arrays without undefined items and strings are concatenated. What follows an undefined item in the second array is applied as an edit script of pairs (item to find, item to put before it, undefined to remove the found one), searching cyclically from behind the last insertion; a script can run into an exception only when a search that finds nothing starts past the end.", "quantifier": "all pairs of values", "why_tests_cant": "Key interleavings at every depth.", "anchors": ["/repo/src/imtjson/value.cpp: merge"]}
{"id": "C49", "title": "When Value::diff returns", "statement": "Value::diff returns, always with the same value, unless both values are arrays. For two arrays it returns exactly when comparing item by item, with one item of look-ahead on either side, uses both up at the same time; otherwise it never returns. In particular it never returns for an array and the same array with further items at its end, in either order, and gives the empty array for two equal ones.", "quantifier": "all pairs of values", "why_tests_cant": "Non-termination for particular length combinations.", "anchors": ["/repo/src/imtjson/value.cpp: diff"]}
{"id": "C50", "title": "setItems updates a map", "statement": "Value::setItems on an object leaves exactly the listed defined members and the old members whose key is not listed, in the order of the keys and not marked as a diff; when no key is listed twice the keys are unique and the result is the updated map (undefined removes). A key listed twice appears twice.", "quantifier": "every object and item list", "why_tests_cant": "All interleavings of old and new keys; duplicates in the list.", "anchors": ["/repo/src/imtjson/value.cpp: setItems"]}
{"id": "C51", "title": "Joining and splitting strings", "statement": "String::split by a non-empty separator finds the leftmost separators, at most maxCount of them, the parts are determined by that, and Value::join of them with the separator gives the original plain string. Value::join gives the string forms of all items with the separator between them when there is at least one item or the separator is empty; joining no items with a non-empty separator asks for a buffer of wrapped-round size.", "quantifier": "every string and separator; every array", "why_tests_cant": "Edge cases in the number of parts.", "anchors": ["/repo/src/imtjson/string.cpp: split", "/repo/src/imtjson/value.cpp: join"]}
{"id": "C52", "title": "Value as a list", "statement": "push, pop, unshift, shift and reverse of an array value without undefined elements append, remove and return the last, prepend, remove and return the first, and reverse its elements.", "quantifier": "every array, every element", "why_tests_cant": "All lengths; the implementations go through the Array builder and slice, whose boundary cases differ.", "anchors": ["/repo/src/imtjson/value.cpp: shift, unshift, push, pop, reverse"]}
{"id": "C53", "title": "Splitting an array into runs", "statement": "Array::split loses and reorders nothing: its parts concatenated are the array. For a non-empty array without undefined items the parts are the maximal runs of items equal to the first of the run; an empty array gives one empty part.", "quantifier": "every comparison function and array", "why_tests_cant": "depends on arbitrary comparison functions and arbitrary runs", "anchors": ["/repo/src/imtjson/operations.h: Array::split"]}
{"id": "C54", "title": "Containers of JWT keys", "statement": "JWTCryptoContainer passes signing and verification to a crypto object listed under the key id of the method, among several the one whose preferred algorithm comes first; with an unknown key id verification fails, the signature is empty and the preferred method is the one given to the constructor.", "quantifier": "every list of keys in any order, every method, message and signature", "why_tests_cant": "Depends on binary search over a table sorted by an order that mixes names, null pointers and algorithms.", "anchors": ["/repo/src/imtjson/jwt.cpp: JWTCryptoContainer"]}
{"id": "C55", "title": "Merging a difference restores the second value", "statement": "For two objects with defined members at every depth, merging the first with its Value::diff to the second gives a value equal to the second. For arrays this holds whenever diff returns and no item of the first array equals a later one, and fails in general; for strings, booleans and whole numbers up to 2^53 diff takes off what merge added.", "quantifier": "all pairs of values, any result operator== can give", "why_tests_cant": "The law ties two recursive algorithms together over all nestings.", "anchors": ["/repo/src/imtjson/value.cpp: merge", "/repo/src/imtjson/value.cpp: diff"]}
{"id": "C56", "title": "Editing strings by position", "statement": "String::insert puts the text at the position or at the end if that comes first; String::replace replaces exactly the characters from pos to pos+size that exist, as long as pos+size does not wrap round; when it does, the end is taken modulo 2^64 and characters before pos come again behind the new text (\"abc\" with one character replaced to npos gives \"axabc\"); splitAt with a positive position counts from the start, with a negative one from the end and with zero takes everything to the left, the two parts always giving the string together; left and right give the first and last characters.", "quantifier": "every string, position and size", "why_tests_cant": "All positions relative to the length, including those past the end and sizes near the largest integer.", "anchors": ["/repo/src/imtjson/string.cpp: insert, replace, splitAt, left, right"]}
{"id": "C57", "title": "RPC call end to end", "statement": "The request a server sees is what the client sent (method, parameters, id, context, version), and whatever the methods of the server do with it, feeding the messages that come back to the client completes the call they belong to, and no other one, exactly once, with the defined result as success, or the error (neither null nor undefined) as failure, and the context of the response applied. A response with an undefined result completes nothing in version 2 and is a null error in version 1; a null error in version 1 is a success.", "quantifier": "every server, every request, every behaviour of methods and every later use of the request, both protocol versions", "why_tests_cant": "Composition of client, message format and server over all behaviours of user code.", "anchors": ["/repo/src/imtjson/rpc.cpp: AbstractRpcClient::prepareCall, RpcRequest(parse), RequestData::sendResult, sendError, processResponse", "/repo/src/imtjson/rpc.h: RpcServer"]}
{"id": "C58", "title": "RPC method dispatch", "statement": "The method called for a name is the first one registered under it since the name was last removed; it is called with the request as sent, parameters wrapped into an array unless they are one (or an object with namedParams). A request with an unknown method and no proxy is answered with error -32601 carrying the name, one whose method is not a string or whose context is not an object with -32600, and one whose method throws before answering with -32603 carrying the text of the exception; a method that throws after answering changes nothing.", "quantifier": "every history of registration, every request", "why_tests_cant": "Unbounded histories of registration; all shapes of requests.", "anchors": ["/repo/src/imtjson/rpc.cpp: RpcServer::exec, remove, find", "/repo/src/imtjson/rpc.h: RpcServer::add"]}
{"id": "C59", "title": "Validator arrays and tuples", "statement": "The rule [[], r...] accepts exactly the arrays whose every item is accepted by one of the alternatives r...; the rule [[n], t1..tn, r...] accepts exactly the arrays whose first n items satisfy t1..tn (a missing item is undefined, a missing rule rejects) and whose other items each are accepted by one of r...; nothing but arrays is accepted.", "quantifier": "every subject, every n below 2^32-1, every rule list", "why_tests_cant": "Arrays and rule lists of every length, rules nested without bound.", "anchors": ["/repo/src/imtjson/validator.cpp: evalRuleArray, evalRuleWithParams"]}
{"id": "C60", "title": "Validator bookkeeping", "statement": "The verdict of a rule and what it emits do not depend on the path, on earlier rejections or on earlier emits; a finished evaluation restores the variables, only appends to the list of rejections, and leaves it as it was when it accepts; a successful validate() leaves no rejections. (Not true: that a rejected subject always leaves a rejection, that a second identical validate() reports the same, that variables are restored after an exception.)", "quantifier": "every rule, subject, state of the validator", "why_tests_cant": "State is threaded through rules nested without bound.", "anchors": ["/repo/src/imtjson/validator.cpp: evalRule, addRejection, pushVar, popVar, validate"]}
{"id": "C62", "title": "Validator character sets", "statement": "A rule '[...]' whose description has at least two characters accepts exactly the non-empty strings made of the described characters (single characters and ranges; after a range at the very end the dash belongs to the set too); '[^...]' accepts exactly the non-empty strings with none of them; '[]' accepts exactly the empty string. A description of one character accepts strings of that character and ']' and is undefined behaviour on every other non-empty string.", "quantifier": "every description, every string of code points", "why_tests_cant": "Descriptions and strings of every length; the reads beyond the buffer do not show in tests.", "anchors": ["/repo/src/imtjson/validator.cpp: opTestCharset"]}
{"id": "C63", "title": "Numbers from any value", "statement": "getUInt, getInt and getNumber of a string terminate for every string, also for the text of the text of a number, and give the number the JSON value at its start stands for, 0 if there is none; for decimal digits (with a sign, white space in front, anything behind) this is exactly the integer when it fits. A floating point number gives its integral part exactly when that fits the type (otherwise the conversion is undefined behaviour); integers are converted modulo 2^64.", "quantifier": "every value", "why_tests_cant": "Strings nested in strings without bound.", "anchors": ["/repo/src/imtjson/stringValue.cpp: AbstractStringValue::getInt, getUInt, getNumber"]}
{"id": "C64", "title": "Validator words", "statement": "The rules hex, uppercase, lowercase, alpha, alnum and digits accept exactly the non-empty texts of the named characters; base64 and base64url exactly the non-empty texts of RFC 4648 form, thus everything the library's encoders write; identifier exactly identifiers and the empty text; the type words exactly the values of the type; a quoted constant exactly its text; comments and the empty rule accept nothing. On other values the text is toString().", "quantifier": "every subject", "why_tests_cant": "Texts of every length.", "anchors": ["/repo/src/imtjson/validator.cpp: evalRuleSimple, opIsHex, opIsBase64, opIsBase64url, opIsIdentifier"]}
{"id": "C61", "title": "Termination of validator definitions", "statement": "When the classes of a definition can be ranked so that a class refers to itself (directly or through others) only from below an object member or an array item, classes named are defined, and what stands under split, explode and usevar refers only to classes of a strictly lower level, validate() returns a verdict on every subject with every variables: no exception, no undefined behaviour, no endless recursion. The condition is checked by computation on the definition.", "quantifier": "every definition that passes the check, every subject, variables and state", "why_tests_cant": "Recursive definitions and subjects of any depth; tests cannot show that a recursion always ends.", "anchors": ["/repo/src/imtjson/validator.cpp: evalRule, checkClass, evalRuleWithParams, evalRuleObject, evalRuleArray, opSplit, opExplode, opUseVar"]}
{"id": "C65", "title": "Decompressor on any input", "statement": "For any bytes whatever, each call of the decompressor ends (no endless loop in the walk through the dictionary). With no symbols waiting, a code above the next one to be given throws, a code given before yields its symbols and adds one entry if a code came before, and the next code itself yields symbols when a code came before; at the start of a stream or after a reset it is an access out of range. Refuted part: so decompression of untrusted data is not memory safe (a single byte 102).", "quantifier": "every byte sequence, every number of calls, every reachable state", "why_tests_cant": "The dictionary is rebuilt from the data itself; random inputs hardly reach the one bad code at the right moment.", "anchors": ["/repo/src/imtjson/compress.tcc: Decompress::decompress, translatePrevCode", "/repo/src/imtjson/compress.h"]}
{"id": "C66", "title": "Several compressed streams in a row", "statement": "Texts compressed one by one and stored one after the other are given back by a single decompressor, each followed by the end mark, when no text is long enough to fill the dictionary (2 n + 102 within the largest code: 16395 bytes with the mask of the library). Refuted part: in general this fails, since the decompressor keeps the codes noted for the next dictionary over the end of a stream.", "quantifier": "every number of texts of any content within that length, every mask", "why_tests_cant": "State left over from one stream acts only when a later stream reaches its first optimisation, tens of thousands of bytes on.", "anchors": ["/repo/src/imtjson/compress.tcc: Decompress::reset, decompress", "/repo/src/imtjson/compress.h: Optimizer"]}
{"id": "C67", "title": "Validator rules on parts of the subject", "statement": "The rules prefix and suffix accept exactly the texts (and arrays) that begin or end with the given text (array) and whose remaining part is accepted by one of the further rules, if there are any. split applies one rule to the items before a position (negative: from the end) and the other rule to the rest; for texts this holds at positions strictly inside. key, tostring, tonumber and explode apply their rules to the name of the subject, its text, its number and the array of its pieces, and to nothing else. Refuted readings: an empty array is not a suffix of a non-empty array; a text split at its end has no right part (undefined) rather than an empty one; tonumber does not reject texts that are no numbers.", "quantifier": "every subject, every rule list, every variable stack, every definition", "why_tests_cant": "The verdict on a part depends on an arbitrary rule on the part; tests fix a handful of pairs and miss the boundary positions.", "anchors": ["/repo/src/imtjson/validator.cpp: opPrefix, opSuffix, opSplit, opExplode, evalRuleWithParams", "/repo/src/imtjson/value.cpp: Value::splitAt"]}
{"id": "C68", "title": "Validator variables and emitted values", "statement": "An operand of a rule written as an array [name, step, ...] stands for the value reached from the newest variable of that name by member names and positions (each step may itself be given by a variable), and otherwise for itself; limits, sizes, prefixes, date formats and split positions take that value. setvar runs its rules with the subject bound to a name that begins with a dollar sign and rejects any other name; usevar applies its rules to the variable and rejects when there is none; a rule [name, step, ...] accepts exactly the values equal to what it names. emit has the verdict of its rule and appends the template with variables replaced and items and members without a value left out exactly when that rule accepts. Refuted readings: usevar with a path that names nothing applies the rules to the path itself instead of rejecting; values emitted by a part stay although the whole is rejected.", "quantifier": "every subject, definition, variable stack and path of any depth", "why_tests_cant": "Scopes nest without bound and paths refer to each other through variables; tests cover only a few nestings.", "anchors": ["/repo/src/imtjson/validator.cpp: getVar, findVar, opSetVar, opUseVar, opEmit, walkObject, evalRuleWithParams"]}
{"id": "C69", "title": "Text of floating point numbers", "statement": "The JSON text of a finite floating point number of magnitude at least 1e-307 is a JSON number. Below about 0.01 and above about 1e8 it has an exponent and a relative error of at most 0.52 units of the digit asked for (at most nine digits); otherwise it has no exponent and an absolute error of at most 0.51 units of the last digit after the point. A number that is a decimal fraction with that many digits, up to the rounding of doubles, is written as exactly this fraction. Both zeros are written as 0, infinities as the words reserved for them and a value that is not a number as infinity. Refuted reading: every finite number has a text (below about 1e-308 the scale overflows and converting it to an integer is undefined).", "quantifier": "every finite double, every number of digits, every C library that meets the stated accuracy", "why_tests_cant": "There are 2^64 doubles, and errors show only for values next to a rounding boundary or a power of ten.", "anchors": ["/repo/src/imtjson/serializer.h: writeDouble"]}
{"id": "C70", "title": "Floating point numbers read back", "statement": "A document with integers and floating point numbers, written with at least three digits and parsed, comes back with the same structure: integers unchanged, numbers without exponent within 0.51 units of the last digit plus 1e-8, numbers with exponent within 0.53 units of the relative digit. For documents whose numbers need no exponent, what was read is written again as the same text; a number with an exponent is written again as a text of the same value. With nine digits a number from 2^23 to 1e8 comes back exactly. Refuted readings: smaller numbers come back exactly; the largest finite number comes back finite (it becomes infinity).", "quantifier": "every document of any size and depth with doubles of the ranges, text before and after, every C library that meets the stated accuracy", "why_tests_cant": "Loss accumulates over repeated storing only for particular values; tests sample a handful of numbers.", "anchors": ["/repo/src/imtjson/serializer.h: writeDouble", "/repo/src/imtjson/parser.h: parseNumber, parseDouble"]}
{"id": "C71", "title": "Language of the parser", "statement": "Every accepted source is white space, one text of an explicit grammar and an unread rest, and the value returned is the one the grammar gives that text (objects in key order, duplicates resolved to the last or absent). Conversely every text of the grammar is accepted with that value, in precise mode without restriction and in ordinary mode when the integer part and the exponent of its numbers are below 2^64; it is rejected only for a duplicate key when these are not allowed. Beyond JSON the grammar allows: vertical tab and form feed as white space, control characters in strings, any four characters after \\u, a plus sign, leading zeros, a missing integer part (ordinary mode) or missing fraction digits (precise mode).", "quantifier": "every source of characters, every flag combination, every behaviour of the C library's pow", "why_tests_cant": "Accepting one wrong text or rejecting one right text is a bug, and both sets are infinite.", "anchors": ["/repo/src/imtjson/parser.h:265-388 parse, parseObject, parseArray", "/repo/src/imtjson/parser.h:450-807 numbers and strings"]}
{"id": "C72", "title": "Searching and filtering", "statement": "findIndex and find call the user's function on the items of a container in order, each once, up to the first it accepts, and give the index or the item (-1 or undefined when there is none); rfindIndex and rfind do the same from the end. filter asks about every item once, in order, and gives a container of the same kind (object for objects, array otherwise) with exactly the accepted defined items in their order. indexOf(v,start) gives the first position >= start whose item equals v; lastIndexOf(v,start) the last position < start; npos when there is none.", "quantifier": "every container or scalar, every start, every user function with a state of its own; equality laws of C28 for indexOf", "why_tests_cant": "unit tests try a few arrays and stateless lambdas; they cannot show which calls are made for every container and every stateful function", "anchors": ["src/imtjson/operations.h:545-581", "src/imtjson/value.cpp:509-525"]}
{"id": "C73", "title": "Mapping and reducing", "statement": "Value::map calls the function once per item, in order. Mapping to an array gives the defined results in order; mapping to an object stores each result under its own key or, if it has none, under the key of its source, the last stored under a key wins and an undefined one removes the key, so that a function that renames nothing keeps members in place. Value::reduce is the left fold of the items.", "quantifier": "every value, every target kind, every user function with a state of its own", "why_tests_cant": "the interplay of key proxies, repeated keys and undefined results has unboundedly many combinations", "anchors": ["src/imtjson/operations.h:337-361", "src/imtjson/operations.h:417-438", "src/imtjson/operations.h:493-503"]}
{"id": "C74", "title": "Walking two sequences together", "statement": "The free function merge ends after at most as many calls as there are items in both sequences; every item of each sequence is settled (passed over) exactly once and in order, whatever the user's function answers. If both sequences are strictly sorted by a key and the answers compare the keys, the calls answered by 0 are exactly the pairs of items with equal keys.", "quantifier": "all sequences of any item types, all user functions with state", "why_tests_cant": "tests exercise a few sorted lists only", "anchors": ["src/imtjson/operations.h:364-408"]}
{"id": "C75", "title": "References into builders", "statement": "A ValueRef made from an Object and a key, an Array and an index, or a Value variable designates that place for good: assigning a value (or another reference) through it writes that place and nothing else, keeping the object's key; its own copy is then the written value, while copies held by other references stay as they were last seen until sync(), which reads the place anew. This holds in any mix of making, copying, assigning and syncing references with direct changes of the builders and the variable, as long as an array reference is used while its item exists; assigning one reference to another transfers the copy the source holds.", "quantifier": "all histories of operations on references, an Object, an Array and a variable", "why_tests_cant": "Staleness of copies and interference of several references with direct edits depend on the order of all operations; the Object reorganises its layers while being read.", "anchors": ["src/imtjson/valueref.cpp:15-82", "src/imtjson/valueref.h:35-115"]}
{"id": "C76", "title": "Nested editors store into their parent", "statement": "Opening a member of an Object or Array builder as a nested object or array, editing it, and closing the editor puts the edited content into that slot of the parent and changes no other slot, for all edits that keep the editor's base; an editor with no changes leaves the parent alone. Exceptions of the code: an object editor that was only cleared (or an array emptied and then reversed) counts as unchanged and is not stored; commit() stores the content but takes the editor back to the value it was opened with, so edits made after commit() overwrite what it stored.", "quantifier": "all parents reachable by edits, all slots, all edit histories of the editor", "why_tests_cant": "The outcome depends on the state of two builders and on the whole edit history; the loss after commit() shows only in histories of two rounds.", "anchors": ["src/imtjson/edit.h:8-31", "src/imtjson/object.cpp:208-215", "src/imtjson/array.cpp:164-176"]}
{"id": "C77", "title": "Precise numbers made from text", "statement": "Value::preciseNumber(text) accepts a text exactly when all of it is a number (sign, digits, fraction, exponent) and keeps the text; integers that fit 64 bits are also held exactly. This holds when the character behind the text in memory cannot continue a number, as in a terminated string. The function looks at that character too: for a view into a longer text the result can be the text with one more character, or a rejection.", "quantifier": "all texts, all characters behind them", "why_tests_cant": "The number of texts is unbounded, and the dependence on the character behind the view never shows with string literals.", "anchors": ["src/imtjson/value.cpp:727-747", "src/imtjson/parser.h:450-460", "src/imtjson/parser.h:753-807"]}
{"id": "C78", "title": "Ways of reading the same text", "statement": "Reading a text with Value::fromString, Value::fromStream or Value::fromFile, whose sources deliver chars, gives the same value or the same failure as Value::parse of fromString(), fromStream() or fromBinary(), whose sources deliver bytes 0..255, for every text without the bytes 248..255, in particular for every UTF-8 text, valid JSON or not. The bound is exact: each byte from 248 on in a string is read differently by the two kinds of source, and byte 255 ends the text of a char source.", "quantifier": "all texts, valid or not, in all parser modes", "why_tests_cant": "Tests read valid ASCII or UTF-8 documents with one kind of source; agreement on every malformed document in every mode, and the first byte at which the sources differ, need an argument over all texts.", "anchors": ["src/imtjson/value.cpp:85-108", "src/imtjson/streams.h:24-72", "src/imtjson/parser.h:91-136", "src/imtjson/utf8.h:78-99"]}
{"id": "C79", "title": "Many calls in one request", "statement": "The multicall method of an RPC server, given one method name and the parameters of each call or a list of pairs of method and parameters, makes the calls up to the first one without a method in order, each with the context left by the previous ones, and answers once with an object whose results are the results in order (null for failed calls) and whose errors are the errors of the failed calls in order, as long as every sub-request is answered once, before the method returns or at any time later; a server whose methods answer at most once and do not both answer and throw does so. Unless a method gives an undefined result, the results stand at the positions of their calls. Other parameters are refused and nothing is called. Calls after one without a method are not made and not reported; an undefined result is left out so that later results move; a method that answers twice breaks the request.", "quantifier": "all lists of calls, all servers, all orders of answers before or after the method returns", "why_tests_cant": "The order in which a sub-request is answered relative to the loop that made it, and chains of contexts of any length, cannot be enumerated by tests.", "anchors": ["src/imtjson/rpc.cpp:366-469", "src/imtjson/rpc.cpp:281-318", "src/imtjson/rpc.cpp:839-877"]}
{"id": "C80", "title": "The list of methods", "statement": "The listMethods method of an RPC server answers with the names of all methods registered at that moment, each once, in the unspecified order of the map, and no other; if a proxy takes the request, the items of the proxy's result follow.", "quantifier": "all histories of registrations and removals, all orders of the map", "why_tests_cant": "Tests check one registry; the claim is about every history of adding and removing and every order of the hash map.", "anchors": ["src/imtjson/rpc.cpp:335-364"]}
{"id": "C81", "title": "Checking the arguments of a request", "statement": "RpcRequest::checkArgs accepts exactly when the arguments are an array with at most as many items as there are rules and each rule accepts the argument at its position (undefined where there is none); it refuses exactly when the arguments are not an array (named arguments always), or some first argument is rejected or has no rule. Every rejection reported has a path that begins with the position of that first argument. A method that starts by checking its arguments runs its body only if they are accepted; otherwise its only answer is error -32602 with the rejections; an exception of the validator becomes an internal error. The list of rejections can be empty although the arguments are refused.", "quantifier": "all arguments, all patterns (all rules of the validator), all requests and servers", "why_tests_cant": "Tests check a few patterns; the claim needs every rule, nested to any depth, and every way the rejections are collected and dropped.", "anchors": ["src/imtjson/rpc.cpp:229-270", "src/imtjson/rpc.cpp:477-481", "src/imtjson/validator.cpp:488-500", "src/imtjson/rpc.h:498-520"]}
{"id": "C82", "title": "The methods ping and help", "statement": "The ping method answers with the arguments it got (in an array of one item if they were not an array), help with the member of the help value named by the first argument. For a name without help the answer has neither a result nor an error in version 2.0, so that the client takes it for no response and its call stays pending; in version 1.0 the client gets an error with null.", "quantifier": "all requests with an identifier, all flags, all help values", "why_tests_cant": "Tests check a known name; what the client makes of an answer without a result follows from both sides together, for every request.", "anchors": ["src/imtjson/rpc.cpp:471-475", "src/imtjson/rpc.cpp:483-491", "src/imtjson/rpc.cpp:112-130"]}
{"id": "C83", "title": "Elliptic curve signatures of tokens", "statement": "JWTCrypto_ES stores the two numbers of an ECDSA signature as JWA prescribes (two big-endian numbers, each as wide as the key size) and reads them back; if the numbers are below 2^size, signing is defined and returns the signature of the first of at most 99 attempts that OpenSSL accepts, or throws; what it returns for its own method it also accepts, and tokens made with it are accepted. A method other than that of the key size gives an empty signature and is never accepted. For ES512 the numbers belong to a curve of 521 bits: the first number not below 2^512 makes the program write before its buffer. The signature is not unique: longer byte strings with the same numbers are accepted too.", "quantifier": "all messages, methods, key sizes, all behaviours of the OpenSSL functions (given as arguments)", "why_tests_cant": "Needs all pairs of numbers and their leading zeros; numbers of more than 512 bits come up for almost every ES512 signature but the effect is memory corruption.", "anchors": ["src/imtjson/jwtcrypto.h:105-166", "src/imtjson/jwtcrypto.h:241-289"]}
{"id": "C84", "title": "HMAC tokens and confusion of methods", "statement": "JWTCrypto_HS accepts exactly the HMAC of the message under its key by one of the methods HS256, HS384, HS512; tokens made with it are accepted, and each token it accepts carries the HMAC of its first two parts by the method its header names. JWTCrypto_RS accepts exactly what RSA accepts as signature of the hash of the message by the named method and signs that hash, so that tokens made with it are accepted; with keys of more than 8192 bits the buffer for the signature is overrun. No crypto object (HS, RS, ES) accepts a token whose header names a method of another family or none. A failed RSA signature is not noticed: the signature is then the uninitialised buffer of 1024 bytes.", "quantifier": "all messages, methods, keys, tokens and all behaviours of the OpenSSL functions (given as arguments)", "why_tests_cant": "Security property over every token and every method name.", "anchors": ["src/imtjson/jwtcrypto.h:24-100", "src/imtjson/jwtcrypto.h:170-238"]}
{"id": "C85", "title": "RPC client used by several threads", "statement": "When several threads use one AbstractRpcClient - making waiting calls, making asynchronous calls, answering and cancelling them - then in every interleaving of their steps no pending call is used after it is destroyed, no two threads use the same memory at once with one of them writing it, and what happens is a history of the client used by one thread: a result goes to the call waiting under its identifier, a call with a taken identifier gets the empty result, every call gets at most one result and its caller or its function gets exactly that one, at most once. A thread that ends has done what it was to do: its calls were made, its waiting calls returned a result, an answer it gave went with its result to the call waiting under the identifier or nobody waited, and a call that was waiting when it began to cancel it or to cancel all has an answer; nothing else is called and no other results are given. This needs that sendRequest of a waiting call does not throw: an exception leaves the object on the stack in the map of calls and a later answer writes to it.", "quantifier": "all programs of the threads (calls nested in sendRequest and in functions), all numbers of threads, all schedules with spurious awakenings", "why_tests_cant": "the number of interleavings is unbounded, races and uses after the end of a scope show only in rare schedules", "anchors": ["src/imtjson/rpc.cpp:503-601", "src/imtjson/rpc.cpp:703-705", "src/imtjson/rpc.h:1088-1117"]}
{"id": "C86", "title": "Waiting RPC calls end", "statement": "When waiting calls are not made inside sendRequest or inside functions of asynchronous calls, then every schedule of the threads comes to a state in which no thread can go on, and there every thread has ended or sleeps in a waiting call nobody has answered, and every result given to a call has been delivered: no awakening is lost and no lock is left taken. In general the other possibility is a thread which sleeps in a waiting call made inside sendRequest (or inside a function called there) and keeps the lock of the client: then nobody can answer the call.", "quantifier": "all programs of the threads, all numbers of threads, all schedules with spurious awakenings", "why_tests_cant": "lost awakenings and deadlocks show only in rare schedules; that something never happens is not a matter of tests", "anchors": ["src/imtjson/rpc.cpp:503-601", "src/imtjson/rpc.cpp:703-705", "src/imtjson/rpc.h:1088-1117"]}
{"id": "C87", "title": "What a value reads as does not depend on the classes behind its handle", "statement": "A value reads, compares and is searched as the JSON value it stands for, whatever objects stand behind the handles: shared constants, views of parts of strings and arrays, keyed handles, precise numbers, objects wrapped by makeValue (except wrapped binary strings, whose encoding is then read from an object of another class). Ordering depends on the JSON values alone; equality does too, unless a number was wrapped by makeValue: wrapped integers are compared as doubles, so 2^53 equals a wrapped 2^53+1 in one order of operands and not in the other. Giving a key to a value changes the key only. An object wrapped by makeValue is found again by cast with its type, after keys were given to it and after it was stored in an object and looked up; cast with another type finds it only through a base class; a value without wrapped objects casts to nothing.", "quantifier": "all objects made by the library, all trees of arrays and objects, all keys, types and results of the mathematical library", "why_tests_cant": "The classes combine freely (a keyed wrapped view in a keyed array ...); tests use a few combinations, and the asymmetric case needs integers over 2^53.", "anchors": ["src/imtjson/ivalue.h", "src/imtjson/abstractValue.cpp:18-76", "src/imtjson/basicValues.h:95-115", "src/imtjson/basicValues.cpp:109-150", "src/imtjson/key.h:13-80", "src/imtjson/wrap.h:19-140", "src/imtjson/object.cpp:27-36"]}
{"id": "C88", "title": "Binary strings keep bytes and encoding", "statement": "getBinary gives the bytes of a binary string whatever encoding is offered, and decodes any other string with the encoding offered. Bytes made into a value come back the same. The Binary of a non-empty binary string without key and not wrapped remembers the encoding of the string, and a Value made of it is the same object; the Binary of a decoded text remembers the encoding used (base64 instead of base64url). False in general: for a binary string with a key, getEncoding of its Binary reads an object of another class; an empty binary string comes back without its encoding.", "quantifier": "all strings, byte contents, encodings and handles", "why_tests_cant": "Whether the handle carries a key depends on where the value came from (a member of an object does), and the wrong access often returns something plausible.", "anchors": ["src/imtjson/binary.h:44-68", "src/imtjson/binary.cpp:14-31", "src/imtjson/stringValue.cpp:113-119", "src/imtjson/value.cpp:349-355"]}
{"id": "C89", "title": "getBool tells whether a value is empty or zero", "statement": "getBool of numbers made from integers and doubles is true exactly if the number is not zero (also for NaN and negative zero); of other values it is true exactly for true, non-empty strings, arrays and objects, and numbers other than zero - unless the object is of a class for any contents although it is empty, or a precise decimal number which nobody has read as a number yet. False for those: an empty array is false or true depending on how it was made, and the truth of an unread precise number is whatever the memory contained.", "quantifier": "all objects made by the library", "why_tests_cant": "Uninitialised memory usually holds something plausible, and which class stands behind an empty array depends on the operation that made it.", "anchors": ["src/imtjson/stringValue.cpp:214-217", "src/imtjson/abstractValue.h:19", "src/imtjson/basicValues.h:113", "src/imtjson/arrayValue.h:23", "src/imtjson/objectValue.h:22", "src/imtjson/value.cpp:223,279"]}
{"id": "C90", "title": "A precise number read by several threads", "statement": "Values are immutable, but a precise decimal number parses its text on the first read. If memory accesses happen one after another, every thread which asks for the number gets the number of the text, whatever the others do. A number read once before it is shared is never written again: no data race, and every answer, also getBool, is right; the same holds for one thread alone after its first question. False in general: two threads which only read the same unread number write its fields at the same time (a data race, undefined in C++), and getBool depends on the schedule.", "quantifier": "all numbers of threads, all sequences of calls, all schedules, all contents of the memory", "why_tests_cant": "The race needs two threads in a window of a few instructions.", "anchors": ["src/imtjson/stringValue.h:92-93", "src/imtjson/stringValue.cpp:178-217,250-262"]}
{"id": "C91", "title": "Values made from C++ types and read back as them", "statement": "Value::from of a C++ value of any supported type (string, integers, double, bool, Value, vectors of these to any depth) read by Value::as of the same type gives the same C++ value; so it does after the value has been written as text and read (integers other than the least 64-bit one, valid UTF-8 strings other than the words for infinity, bools, vectors of these). Value::as of a vector gives one item for each item of the value, in order, each converted to the type; something which is not a container gives the empty vector. False: the sign of zero, Value(-0.0) reads as 0.0.", "quantifier": "all types, all C++ values, all values", "why_tests_cant": "Nesting of vectors and range of numbers are unbounded.", "anchors": ["src/imtjson/conv.h:1-140", "src/imtjson/value.cpp:54-59"]}
{"id": "C92", "title": "getValueOrDefault", "statement": "getValueOrDefault of a number type gives the default exactly for what is not a number, and an integer which fits into the type otherwise; an integer which does not fit into 32 bits is cut to its low 32 bits: neither the number nor the default. As a double: a double itself, a number kept as text as strtod reads it, and an integer as the nearest double, exactly the integer up to 2^53. For strings and booleans: the content if of the type, the default otherwise. With a default Value the result always has the type of the default. False: the String and std::string versions agree; a binary string is its encoded text as String and its raw bytes as std::string.", "quantifier": "all values, all defaults", "why_tests_cant": "Range of the numbers.", "anchors": ["src/imtjson/value.h:1110-1142", "src/imtjson/value.cpp:874-879"]}
{"id": "C93", "title": "RPC over text", "statement": "Client and server exchange JSON texts. A request written as text by the client is read by the server with the same method, identifier, version, arguments and context; the messages of the server written as text and read by the client keep their kind and content. So a call made by a client, whatever the methods of the server do (within the rules of C57), ends exactly once with the content of the one response, and no other call does. False: a method whose name is the infinity sign cannot be called, its name is read as a number.", "quantifier": "all methods, arguments, contexts, servers, histories of the client; numbers are integers (the documents of C06)", "why_tests_cant": "Composition of the serializer, the parser and both sides of the protocol over all messages.", "anchors": ["src/imtjson/rpc.cpp:22-31,76-155,552-677", "src/imtjson/serializer.h: serialize", "src/imtjson/parser.h: parse"]}
{"id": "C94", "title": "Where a parse error is reported", "statement": "A parse error carries a path to the place where reading stopped. The text can be cut there: what is before is a path of objects and arrays with complete members and items, what is behind is not what should follow (no value, no key, no colon, no comma or closing bracket, a key twice). The path reported has the key of every object on the way, and for every array on the way the number of the item plus the number of values complete in the containers further inside; in an unfinished key it has an empty name. Conversely a text which stops at such a place is an error reported there. So the path is the true one exactly if nothing is complete further inside any array on the way. False: that the index is always that of the item ([1,[2,3,x]] is reported at /[3]/[2]); that different places have different texts.", "quantifier": "all texts, both number modes, duplicate keys allowed or not; the converse for texts in UTF-8", "why_tests_cant": "The reported index depends on what was parsed in all enclosing and inner containers; tests look at one or two nestings.", "anchors": ["src/imtjson/parser.h:209-253,264-388", "src/imtjson/parser.h:527-571"]}
{"id": "C95", "title": "Shared containers never show", "statement": "Builders and values share containers: a diff handed out is the builder's own layer, a copy of a builder uses the same layer, a committed object holds the members of its base. Still a program behaves as if every variable and every builder had its own content: each variable shows exactly the value it was given, for ever, whatever is done later with the builders, copies, moves and diffs it came from; work on one builder never shows in another. No such program runs into undefined behaviour unless it uses a builder that was moved from (other than clear, revert, setBaseObject, assigning to it or iterating over a snapshot it still has).", "quantifier": "all programs of construction, set, unset, merge, optimize, read, commit, commitAsDiff, iteration, clear, revert, setBaseObject, copy, assignment, move, member and item access and applyDiff over any number of builders and variables; bases, diffs and objects searched have their keys in order", "why_tests_cant": "Whether a write reaches a shared container depends on the whole history of layers, capacities, copies and diffs; tests look at a few short histories.", "anchors": ["src/imtjson/object.cpp:50-91,107-246,300-421", "src/imtjson/objectValue.cpp:60-160", "src/imtjson/object.h:200-210"]}
{"id": "C96", "title": "Several documents read from one source", "statement": "Value::parse (and fromStream, fromFile, operator>>) consumes exactly the characters of one document, whatever follows, and one character more exactly if the document begins as a number does (sign, digit or point). Hence n successive calls on one source cut it into consecutive pieces, each read completely by one call; and values serialised one after another, each number followed by at least one white space character, are read back in order by as many calls, after which only white space is left and the next call throws. A Parser object used repeatedly keeps the character read ahead, so it needs a separator only where the following text would extend a number; Value::parse loses that character (1[2] is read as 1 and 2).", "quantifier": "all sources, flags, sequences of values and separators, any number of calls", "why_tests_cant": "Depends on arbitrary concatenations of documents of any nesting and on what follows each of them; a test fixes one stream.", "anchors": ["parser.h:60-138", "parser.h:257-262", "value.cpp:96-108", "value.h:1169-1172"]}
{"id": "C97", "title": "Writing and reading again what was read", "statement": "A document read in precise mode, written and read in precise mode again, gives exactly the value first read: numbers keep their digits, signs, points and exponents. In ordinary mode the same holds for documents without finite floating point numbers. However it is written (-0, 0.0, 0e5), a zero read in ordinary mode is the unsigned integer zero.", "quantifier": "every accepted source text, every value read, any flags of the second reading with the same number mode, text before and after, signed or unsigned source characters; strings valid UTF-8 (basic plane if escaped output)", "why_tests_cant": "A store that is read and rewritten many times must not drift; tests run a few documents through one cycle.", "anchors": ["/repo/src/imtjson/parser.h: parse, parseNumber, parsePreciseNumber", "/repo/src/imtjson/serializer.h: serialize, serializeNumber", "/repo/src/imtjson/stringValue.cpp: numberFromStringRaw"]}
{"id": "C98", "title": "Going through values and making them from sequences", "statement": "A range loop and forEach go through the items of a value in order, each once; forEach stops at the first item the function answers by false and tells whether there was one. Value::walk visits places of the value, each once, a container before what is inside it and items in order, and visits a place exactly if the function answered true for all containers it is in. Iterators of one value behave as its positions 0..size under comparison, difference, addition and steps. A value made from a sequence calls the mapping function on its items in order; an array has the results in order (the defined ones, or all), an object the last one of each key, a string the texts of all. False: that an iterator before the first item differs from the end; iterators of two values that are not copies of one another are equal exactly when both are at or past the ends.", "quantifier": "all values of any depth, all user functions with a state of their own, all positions", "why_tests_cant": "Depth and size are unbounded and the function may answer anything at any node.", "anchors": ["src/imtjson/value.h:457-468", "src/imtjson/value.h:1188-1226", "src/imtjson/value.h:1264-1284", "src/imtjson/value.cpp:334-335", "src/imtjson/value.cpp:378-437"]}
{"id": "C99", "title": "A parser after an error", "statement": "A Parser object can be used again after parse() threw. Its buffers cannot be observed: in any state a call returns the value, the error and the position that a new Parser reading from the same place would give, and its internal assertion never fails; each error only leaves behind in memory the values that were complete. The error names a character its message is true of; that is the last character taken from the source (the first digit of the part for 'Too long number' and 'Exponent is too large'), and the message determines whether the next call reads that character again ('Unexpected end of stream', 'Unexpected data', 'Expected a key', 'Expected ':'' and the number errors) or goes on behind it. After 'Unexpected data' and 'Unexpected end of stream' every further call throws the same error without reading anything. The text of an error is ambiguous: the byte 0xFF is reported as EOF, and the char 0x9C as 'Last input not given'.", "quantifier": "for all sources, parser flags, libm results and all states of the parser, including states left by any number of earlier errors", "why_tests_cant": "The states a reused parser can be in depend on every previous text and on the place where it failed; tests can only try some of them.", "anchors": ["src/imtjson/parser.h:60-64", "src/imtjson/parser.h:70-138", "src/imtjson/parser.h:209-253", "src/imtjson/parser.h:264-388", "src/imtjson/parser.h:519-585", "src/imtjson/parser.h:624-808"]}
{"id": "C100", "title": "Blocks are large enough for what is stored in them", "statement": "Every text, key, precise number and container is stored inside the block allocated for it, and what is read from it afterwards is what was meant to be stored; when there is no memory of the true size the caller gets bad_alloc. This holds for strings made from views, lists of strings, insert, replace with any position and size, join of at least one item, the base64, base64url, percent and UTF-8 decoders with any input, the strings of a binary document and the items of a container, as long as the true size is below 2^64. A fill function that reports more characters than it was given, or changes the character behind them, ends the program. Refuted readings: joining an empty array with a separator of two or more characters writes outside of its block; so does a nine-byte binary document that declares a string of 2^64-10 characters, and one that declares an array of 2^61 items; a fill function that writes further behind its characters is not noticed; decoding UTF-8 from a text cut at the end that begins with a continuation byte ends the program.", "quantifier": "every text, position, size, separator, list, document, layout of the object headers and amount of memory", "why_tests_cant": "A write outside a block is undefined behaviour that a passing test does not show; sizes near 2^64 and inputs of every length cannot be enumerated.", "anchors": ["/repo/src/imtjson/stringValue.cpp: operator new, StringValue", "/repo/src/imtjson/stringValue.h: fill constructor", "/repo/src/imtjson/string.cpp: insert, replace", "/repo/src/imtjson/value.cpp: join", "/repo/src/imtjson/binary.cpp: decoders", "/repo/src/imtjson/binjson.tcc: parseString, parseArray", "/repo/src/imtjson/container.h: create, push_back"]}
{"id": "C101", "title": "The keys a binary serializer remembers", "statement": "A BinarySerializer which compresses keys remembers every key by a view of the memory in which it first met the key, until clearKeys. If no value (and no preloaded key) is released before the keys are cleared, no released memory is read and the bytes written are those that a parser reads back as the values sent. If a value is released and a key which was first met in it is sent or preloaded again before clearKeys, released memory is read, even if other values with the same key are still there; if no two keys have the same hash, it happens in no other case. Without compressKeys and preloading values may be released as soon as they are sent.", "quantifier": "all programs which send values, preload keys, clear the keys and release blocks with one serializer, all values, flags and contents of the blocks", "why_tests_cant": "tests of the serializer keep their documents in variables until the end, and reading released memory usually gives the expected bytes", "anchors": ["src/imtjson/binjson.h:80-112", "src/imtjson/binjson.tcc:75-111", "src/imtjson/binjson.tcc:450-474", "src/imtjson/binjson.tcc:494-510"]}
{"id": "C102", "title": "A copied path owns what it refers to", "statement": "A Path object only refers to its parents and to the characters of its names. Path::copy (also used by PPath::fromValue) takes one block of memory and puts there every component and every name, each name with a zero behind it: no access is made outside of the memory of the source and of that block, nothing outside of the block changes, and whatever later happens to the source and to all other memory, the copy has the same components. The root is never copied. An object copied by value denotes the same path except that a copy of Path::root denotes the key <root>.", "quantifier": "Every path of any length with any names, every place in memory of its parts (parts may be shared), every free block the allocator may give, every later state of the memory outside of the block.", "why_tests_cant": "A test reads the copy while the source is still there or its memory still holds the old bytes; an overlap of names and objects or a view left pointing to the source shows only for some lengths and some memory states.", "anchors": ["src/imtjson/path.cpp:43-112", "src/imtjson/path.h:30-75,160-190"]}
{"id": "C103", "title": "The count given by an object builder", "statement": "Object::size is never less than the number of members a commit of the builder would have and never more than the members of the base plus one for every change made since; it is exact when only keys which the base does not have were set, each once. Otherwise it depends on when the builder reorganised its layers.", "quantifier": "All operation histories over two builders (set, unset, merge, optimize, read, commit, commitAsDiff, iterate, clear, revert, setBaseObject, copy, assign, move), all bases.", "why_tests_cant": "The count depends on the internal layers of the builder, which reorganise at sizes depending on the history.", "anchors": ["src/imtjson/object.cpp:391-393,94-109,177-205", "src/imtjson/object.h:167-175"]}
{"id": "C104", "title": "What is written is JSON, and JSON is read", "statement": "Whatever bytes its strings and keys hold, a value is serialised to a text of the RFC 8259 grammar: in escaped mode of ASCII characters only, in UTF-8 mode of code points (proper UTF-8 when the strings are), with no white space and no control character, provided its numbers have JSON texts; the library's own texts of finite doubles (zero or at least 1e-307) are such. Conversely every RFC 8259 text is read to its end with the value it denotes (ordinary mode: digits below 2^64), except that a key occurring twice is refused when that is not allowed; read in precise mode and written again it is JSON again.", "quantifier": "All values (strings shorter than 2^32 bytes in UTF-8 mode when they are not UTF-8), both output modes, all RFC 8259 texts, all parser flags.", "why_tests_cant": "The grammar is infinite on both sides and strings may hold any bytes.", "anchors": ["src/imtjson/serializer.h:90-330", "src/imtjson/parser.h:150-520"]}
{"id": "C105", "title": "Binary strings through JSON text", "statement": "A binary string with an encoding, serialised inside any document in either output mode, is written as the text of its bytes in that encoding; parsed back and decoded by getBinary with the same encoding it gives all the bytes for base64, base64url and url encoding, and for the UTF-8 encoding exactly those bytes that do not stand across the end of a 256-byte block of the text (so all of them when there are at most 128).", "quantifier": "All byte strings, the four encodings, both output modes, all parser flags, any position in a source.", "why_tests_cant": "The loss happens only for bytes from 128 on at certain positions of long strings.", "anchors": ["src/imtjson/serializer.h:160-180,403-430", "src/imtjson/binary.cpp:93-153", "src/imtjson/base64.cpp:1-133"]}
{"id": "C106", "title": "A compressor used again after reset", "statement": "A compressor that was given whole texts of printable characters and then reset with reset() compresses a text not long enough to fill the dictionary to the same bytes as a newly constructed one, and the decompressor gives that text back. For a longer text this fails (the codes noted for the next dictionary survive the reset and the decompressor throws), after a text broken off within a character the next text may be refused, and the last code of the text before the reset is never written.", "quantifier": "all printable texts and all sequences of texts and resets before; all masks", "why_tests_cant": "The dictionary kept by mistake is only used once the current one is full, so a test with short texts after a reset cannot tell; a test with a fresh compressor never sees the state left over.", "anchors": ["src/imtjson/compress.tcc:22-29", "src/imtjson/compress.tcc:70-118", "src/imtjson/compress.h:95-128"]}
{"id": "C107", "title": "Notifications from sender to receiver", "statement": "A notification sent by a client (notify, with or without context, both versions) as JSON text is read by a server as a request with the same name, arguments and context and no identifier, and by a client as a notification which leaves its calls and context alone. The method registered under the name is called with the arguments and context, and whatever the server, its methods and the peer do, no response is ever sent, not even for an unknown or throwing method. A notification turned into a request by asRequest sends nothing at all but signs of life. False: that an RpcNotify made from a message keeps the context; it is dropped.", "quantifier": "all names, arguments, contexts, servers, methods, later operations; numbers are integers (the documents of C06)", "why_tests_cant": "Silence has to hold for every behaviour of methods, error paths and destruction; a test sees only the methods it calls.", "anchors": ["src/imtjson/rpc.cpp:764-771,781-804", "src/imtjson/rpc.cpp:76-87,112-163,281-317", "src/imtjson/rpc.cpp:656-677"]}
{"id": "C108", "title": "Strings of wide characters", "statement": "A String made of wide characters and turned back by wstr() is the same exactly if every character is a code point (0 to 0x10FFFF); a text turned by wstr() into wide characters and made a String again is the same exactly if it is valid UTF-8. False: that characters behind one equal to -1 are kept; it is taken for the end of the input.", "quantifier": "all wide strings (32-bit wchar_t); all texts shorter than 2^32-2 bytes", "why_tests_cant": "The converter keeps state between bytes, so every mixture of valid and stray bytes and of characters out of range matters.", "anchors": ["src/imtjson/string.cpp:260-284", "src/imtjson/utf8.h:17-100", "src/imtjson/streams.h:46-60"]}
{"id": "C109", "title": "Containers are released exactly when nothing refers to them", "statement": "After every operation on builders and values, and at the end of the life of any variable or builder, the containers released by reference counting are exactly those that no variable and no builder reaches any more: none is released too early and none is forgotten, since containers never hold each other in a circle, although builders change their layers in place and hand out their own layers as values. Whatever is done with the memory of released containers, the program goes on alike and every variable shows the same value. When the last variable and builder are gone, so are all containers.", "quantifier": "all programs over any number of builders and variables, with values and builders destroyed at any point; any contents of released memory", "why_tests_cant": "A container released too early is usually still readable, and a leak has no visible effect; sharing patterns between builders, diffs and copies are unbounded.", "anchors": ["src/imtjson/object.cpp:50-91,107-246,300-421", "src/imtjson/container.h:79-160", "src/imtjson/object.h:322-335"]}
{"id": "C110", "title": "Any value through JSON text", "statement": "Whatever a value contains - undefined, infinities, NaN, precise numbers, binary strings, keys on array items, the two words for infinity as strings, characters above U+FFFF - its text is read back completely and what is read is determined piece by piece: undefined becomes the string \"undefined\", NaN positive infinity, the two words the infinities, a binary string the text of its encoding, an integer the same integer (in precise mode its shortest decimal text with it), other numbers what their text stands for, and escaped output keeps the low 16 bits of every character. The text of an object is rejected only when two keys have thereby become the same (which happens: U+1F600 and U+F600 escaped) and duplicates are not allowed.", "quantifier": "every value with UTF-8 strings whose number texts are acceptable, both output modes, both number modes, with and without duplicates", "why_tests_cant": "Unbounded nesting, every combination of leaf kinds and modes.", "anchors": ["/repo/src/imtjson/serializer.h: serialize, writeString, writeDouble", "/repo/src/imtjson/parser.h: parse, parseString, parseNumber"]}
{"id": "C111", "title": "Numbers of any length are read accurately", "statement": "Every number in a document that is well within the range of doubles - at most 300 significant digits before the point and 300 after it, an exponent between -300 and 300, a value that is zero or between 1e-300 and 1e300, with a plus sign, leading zeros or no digits before the point if the writer likes - is accepted and read as the integer itself or as a finite double within one part in 10^11 of the number written. Beyond that range it fails: 0.333... with 400 digits and 0e309 are read as not-a-number and 1e309 as infinity, without an error.", "quantifier": "every document of the grammar with such numbers, both duplicate modes, every C library whose pow is right to 13 digits", "why_tests_cant": "Unboundedly many texts; the error accumulates through chunks of digits, rounding and pow.", "anchors": ["/repo/src/imtjson/parser.h: parseNumber, parseUnsigned, parseLargeUnsigned, parseDecimalPart, parseDouble"]}
{"id": "C112", "title": "The binary form, byte by byte", "statement": "There is a fixed format, stated without reference to the code, that says which byte strings denote which values. An item starts with a byte whose upper half is its kind and whose lower half is a number up to 9 or the width (1, 2, 4, 8 bytes, lowest first) of a number that follows; texts may be packed as base64url tokens; doubles and floats are in the IEEE interchange formats; a key is written in full or as its distance, below 128, from the key written last. Every byte string of this format, including forms the serializer never uses (wider sizes, floats, diffs, packed short texts), is read as exactly the values it denotes and no byte more is taken. Whatever a serializer writes, with any flags and over any sequence of values with fewer than 2^32-256 keys, is of this format and denotes the values given to it. If the parser's side preloads exactly the keys for which the serializer's preloadKey returned true, the two stay in step however often keys are preloaded.", "quantifier": "all byte strings of the format, all sequences of values, all flags, all sequences of sending, preloading and clearing", "why_tests_cant": "A round trip through the library's own writer and reader holds for any consistent pair of codes; only a format stated on its own fixes the bytes on the wire, and it has unboundedly many forms.", "anchors": ["src/imtjson/binjson.tcc:22-65", "src/imtjson/binjson.tcc:75-209", "src/imtjson/binjson.tcc:240-448", "src/imtjson/binjson.tcc:450-510"]}
{"id": "C113", "title": "What an unclosed compressor has written", "statement": "The bytes a compressor has written for any printable text before it is destroyed (which writes the rest) decompress to a beginning of that text, never to all of it unless the text is empty, and then to end marks for ever, even when they break off within a UTF-8 character. So the packed form of a document not written as a number is refused when read back before that. This needs the cut to fall between two codes: if compressed bytes are cut elsewhere, the decompressor can deliver characters the text never had.", "quantifier": "all texts, all eight masks, any number of calls after the end", "why_tests_cant": "The dictionary grows with the text, so what is still held back at each moment has no bound a test could exhaust.", "anchors": ["src/imtjson/compress.tcc:14-135", "src/imtjson/compress.tcc:178-295"]}
{"id": "C114", "title": "A document cut short is refused", "statement": "If a text is read as a value to its last character, and the value is not written as a number, then no shorter part of the text from its start is a document: followed by the end of the source it is refused, in all modes of the parser. In particular no proper beginning of what the serializer writes for such a value is ever read as some other value. A number cut short is read as another number.", "quantifier": "all texts of any length, all cuts, all flags", "why_tests_cant": "Every text has as many cuts as characters, and nesting is unbounded.", "anchors": ["src/imtjson/parser.h:265-410", "src/imtjson/parser.h:505-587"]}
{"id": "C115", "title": "Strings read through pointers", "statement": "A String cut out of another (the items of split, splitAt), any number of times, has the characters of that part as its text, and operator[] gives them and 0 past the last. c_str, begin and end point into the original: reading up to the zero gives the original from the start of the part to its end (or to its first zero character), so it is the text exactly if the part goes to the end of the original; the documented terminating zero is missing otherwise. operator+ and += give a string of its own holding both texts followed by a zero.", "quantifier": "all texts, all chains of cuts, all positions", "why_tests_cant": "How far a read through the pointer goes depends on memory outside of the string, which a test comparing texts never sees.", "anchors": ["src/imtjson/string.cpp:55-94", "src/imtjson/string.cpp:112-124", "src/imtjson/string.cpp:164-178", "src/imtjson/string.cpp:223-226"]}
{"id": "C116", "title": "Array builders copied and moved", "statement": "Any number of Array builders, edited, copied, assigned and moved in any order, each behave as a list of their own: a copy starts with the list of its source and shares nothing with it afterwards, a move hands the list over, and a moved-from builder is usable again after an assignment or setBaseObject. Until then a moved-from builder still counts the items of its array that it had not copied; reading one of those is undefined behaviour, and so is making a value of it whenever it is not empty, whatever was done with it in between (except reverse, which gives it a new base) - clear does not make it usable.", "quantifier": "all programs of any number of builders, all sequences of operations, all arrays without undefined items", "why_tests_cant": "Sharing between builders shows only in particular interleavings of edits and copies, and the null handle left behind by a move may go unnoticed or crash depending on the operations that follow.", "anchors": ["src/imtjson/array.cpp:8-186", "src/imtjson/array.cpp:226-275", "src/imtjson/array.h:20-24"]}
{"id": "C117", "title": "Elliptic curve keys as text", "statement": "An exported public key is the unpadded base64url text of the compressed point, and importing it with the size of the curve gives the public part back; a private key given as base64url text is the number its bytes spell most significant first, whatever zeros stand in front, and the public key it exports imports as its public part; text OpenSSL refuses and an empty private key give a null key. A size other than 256, 384 or 512 gives a null public key but is undefined behaviour for a private one.", "quantifier": "all keys, all texts of bytes, all sizes; OpenSSL's conversions are given functions", "why_tests_cant": "tests use a few fixed keys; leading zero bytes in scalars and unsupported sizes rarely occur in them", "anchors": ["src/imtjson/jwtcrypto.h:296-303", "src/imtjson/jwtcrypto.h:312-331", "src/imtjson/jwtcrypto.h:334-374"]}
{"id": "C118", "title": "Searches look at few items", "statement": "Looking up a member of an object of n members, an item of an ordered container, a name or a value of an enumeration, or a key of a key container looks at no more than log2 n + 1 items, whether it is found or not and even when the items are not sorted: the answer is settled by these whatever the others are. The lower bound of an ordered container has no such bound: it may look at half of the items.", "quantifier": "all lists of items, all searched keys, all comparison functions", "why_tests_cant": "tests observe answers, not how many items were looked at, and only on small containers", "anchors": ["src/imtjson/objectValue.cpp:32-50", "src/imtjson/operations.h:89-104", "src/imtjson/operations.h:208-223", "src/imtjson/namedEnum.h:92-130", "src/imtjson/jwt.cpp:123-149"]}
{"id": "C119", "title": "Methods which change their server", "statement": "Methods of an RpcServer may register and remove methods and execute requests while they run: at any time a name stands for the first method registered since it was last removed, calls run the code of that method, and the behaviour is undefined exactly when a method removed while it runs (remove of its name or removeAll, by itself or by what it calls) then touches its captures. It is never undefined if methods use their captures before anything else, or if they remove nothing.", "quantifier": "every tree of methods registering, removing and calling each other, any depth, any length of run", "why_tests_cant": "The faulty order of operations depends on which of nested calls removes which method; a test sees freed memory only by chance.", "anchors": ["/repo/src/imtjson/rpc.cpp: RpcServer::exec, remove, removeAll, find", "/repo/src/imtjson/rpc.h: RpcServer::add"]}
{"id": "C120", "title": "How long a request lives", "statement": "An RpcRequest is alive as long as the user has handles to it and is destroyed with the last one, answered unless no server executed it or it asked for no response. A destroyed request is never used unless a function called by the end of a request keeps a copy of its handle. The server of a request is asked after its end only if the server ended after it was given the request, and never because handles of an answered request are dropped. A request is not destroyed inside its own setResult/setError unless a function called to send the response drops a handle, and never if the request was created with callbacks. Each of the three exceptions is real.", "quantifier": "every sequence of copying and dropping handles, executing, answering and ending servers, with user functions doing the same to any depth; both kinds of requests", "why_tests_cant": "Uses of freed memory depend on the order in which handles are dropped inside nested callbacks; tests see them only by chance.", "anchors": ["/repo/src/imtjson/rpc.cpp: RequestData::sendResult, sendError, setNoResultError, RpcRequest::create", "/repo/src/imtjson/rpc.h: RpcRequest::create, RequestData"]}
{"id": "C121", "title": "The end of a source is read once", "statement": "Value::parse reads the end of its source (-1) at most once and nothing after it: whatever the source delivers after its end, the same value comes out, or the same refusal, and the source stands right after the end mark if a number was read up to it, otherwise where the value ended. The exception is a text that breaks off within the four characters after \\u: the end is taken for a character there, so what follows it may complete the string. Any number of end marks at the end, whatever the text holds, gives the same value or the same refusal as none.", "quantifier": "every text, every continuation after the end mark, all flags", "why_tests_cant": "Sources that go on after their end (pipes, decompressors, several documents behind each other) are rare in tests, and a second read at the end is invisible with strings.", "anchors": ["/repo/src/imtjson/parser.h: Reader, Parser::parse, parseUnicode", "/repo/src/imtjson/value.h: Value::parse"]}
{"id": "C122", "title": "Builders when memory runs out", "statement": "When a request for memory fails inside an operation of an Object or Array builder, the operation throws and the builder reads and commits as if it had not been called; a merge has merged the members before the one it threw at. Copy assignment and slice(start, end) are excepted: a failed Object assignment leaves a builder whose reads and committed value may disagree, a failed Array assignment a mixture of both lists, a failed slice may have cut off the end only.", "quantifier": "every history of operations on two object builders or one array builder, every choice of the failing request in each operation", "why_tests_cant": "Every allocation in every history would have to fail once; the changes made before the failing request only show in later operations.", "anchors": ["/repo/src/imtjson/object.cpp: set_internal, optimize, commit, operator=", "/repo/src/imtjson/array.cpp: extendChanges, insert, operator=, slice"]}
{"id": "C123", "title": "Const functions of an object builder may be called together only when nothing waits to be sorted", "statement": "A const function of an Object builder (reading a key, making the value or the diff, iterating, asking whether it is dirty, being copied) never changes the base; it changes the builder exactly when changes wait to be sorted and the function sorts them (every one of them except dirty, and a read only past sixteen changes that outnumber half of the sorted ones) or when iteration takes its snapshot. A builder with nothing waiting (and, for iteration, a snapshot) may be shared: no two const calls touch a field one of them writes, and calls in any order answer as each would alone. On any builder calls made one after the other never change what the others answer. Making the value, the diff or a copy brings a builder there. With changes waiting, making the value races with every other const function.", "quantifier": "all builders, all sequences and pairs of const calls", "why_tests_cant": "A race depends on interleaving and on builder state that is not visible; a test that passes shows nothing about another schedule.", "anchors": ["src/imtjson/object.cpp:140-205", "src/imtjson/object.cpp:221-246", "src/imtjson/object.h:322-335"]}
{"id": "C124", "title": "Prepared calls of an RPC client are sent once and under their own identifier", "statement": "A prepared call that was executed is never sent again. One that is waited for is sent exactly once, whatever is done while it is being sent; asked for again, it returns an empty result at once. An asynchronous call gives the identifier of its request. What a client is given to send is the message of a call made on it, in its version; without copies of prepared calls different calls have different identifiers (up to 2^32 of them). A call is registered before its request is sent, so an answer that comes during sending reaches it. Each client has a history of its own. False: that a copy of a client can make calls (its version is never set), that copies of a prepared call are different calls (the identifier is sent twice and the second call ends at once with an empty result), and that an asynchronous call whose sending threw can be tried again.", "quantifier": "all sequences of operations on any number of clients and prepared calls, nested inside sendRequest to any depth", "why_tests_cant": "Re-entrance inside sendRequest, copies and retries combine without bound; an indeterminate version often happens to hold a plausible value.", "anchors": ["src/imtjson/rpc.h:911-927", "src/imtjson/rpc.h:991", "src/imtjson/rpc.h:1088-1117", "src/imtjson/rpc.cpp:497-576"]}
{"id": "C125", "title": "Binary documents of any origin can be sent on", "statement": "Whatever bytes a BinaryParser accepts, in any number of documents and with any keys preloaded, the values it gives have texts and keys that do not start inside a UTF-8 sequence, non-empty binary strings with the encoding of the parser, integers in range and proper doubles; so a BinarySerializer without maintain32BitComp can send them on, and the next parser reads the same keys and values, equal to those received (only the diff marks are lost), consuming exactly the bytes written; sent on once more, the bytes are the same. Not true in two respects: a negative integer whose magnitude is above 2^63 is read as a positive number (2^63 itself overflows), and the members of an object stay in the order received, so a member that is there may not be found by its key.", "quantifier": "all byte strings, all sequences of documents, preloads and clearings, all serializer flags but maintain32BitComp, all encodings, all contents of uninitialised buffers", "why_tests_cant": "Tests feed the parser with what the serializer wrote. Foreign or hostile documents use forms the serializer never writes; there are infinitely many and nesting is unbounded.", "anchors": ["src/imtjson/binjson.tcc:240-303", "src/imtjson/binjson.tcc:357-448", "src/imtjson/binjson.tcc:75-209"]}
{"id": "C126", "title": "A document stored in the binary form is the same document", "statement": "A value read from a JSON text by an ordinary (not precise) parser, written by a BinarySerializer without maintain32BitComp and read by a BinaryParser, is exactly the value first read, down to the kind of every number, and the bytes are consumed exactly. For a value of any origin without numbers kept as text and without floating zeros, and with non-empty binary strings of the encoding given to the reader, the text written is the same before and after. Not true in precise mode (+7 comes back as 7) nor with a reader of another encoding.", "quantifier": "all source texts, all values, all keys, all serializer flags but maintain32BitComp, all text serializer settings, all contents of uninitialised buffers", "why_tests_cant": "Tests compare a few documents with operator==, which does not see a change of the kind of a number; the number of documents and of nestings is unbounded.", "anchors": ["src/imtjson/binjson.tcc:75-209", "src/imtjson/binjson.tcc:240-448", "src/imtjson/parser.h:450-502", "src/imtjson/serializer.h:143-162"]}
{"id": "C127", "title": "Sorting and grouping the content of a builder", "statement": "Array::sort on an array builder, however made and changed, gives a builder with exactly its items, keys included, in the order of the comparison; Object::sort gives such an array of the members of the object builder and leaves the content of the builder as it was (provided nothing but changes of members happened since it was last iterated). Where the comparison tells all items apart the result is the one of Value::sort. Array::group and Value::group give, for an array that is not empty and has no undefined items, one item for each run of items equal to the first of the run, made by folding the run from the initial value. Value::unshift of a sequence puts its items first and in the order given. Not true: equal items keep their order in Array::sort; Object::sort after iteration and clear shows an empty object; grouping nothing gives nothing (it gives one group made of the initial value).", "quantifier": "all builders made and changed in any way, all consistent comparisons, all reduce functions and initial values, all results std::sort may give", "why_tests_cant": "The order of equal items depends on the implementation of std::sort and the number of items; the state of the builder depends on its whole history.", "anchors": ["src/imtjson/operations.h:410-413", "src/imtjson/operations.h:441-528", "src/imtjson/value.cpp:860-862"]}
{"id": "C128", "title": "Data kept with an RPC connection", "statement": "RpcConnContext is a table: after any calls of store and retrieve, retrieve gives the value stored last under the key, undefined if there was none or undefined was stored, and nothing is undefined behaviour. After at most forty stores retrieve does not write, so several threads may retrieve at once. Not true after more: retrieve is const, yet from the forty-first store on it may sort the data, and two retrievals at once race.", "quantifier": "all sequences of stores and retrievals, all keys and values", "why_tests_cant": "The answer depends on the whole history through the layers of the builder, which are reorganised at sizes of 8, 16, 32 and so on; a race shows only under unlucky timing.", "anchors": ["src/imtjson/rpc.h:150-179", "src/imtjson/object.cpp:94-195"]}
{"id": "C129", "title": "A validator used many times", "statement": "Whatever was done with a Validator before, as long as no call threw, validate() gives the verdict and getEmits() the values that a new Validator with the variables set last would give. A definition with no _version, or one whose number is 1, is judged by the rule of the class named; with any other version every subject is rejected, a new validator reports the version as the reason, and the emitted values of the run before stay. After an exception this is not so: a variable of the interrupted rule stays and can change later verdicts.", "quantifier": "every definition, subject, class, path and history of calls", "why_tests_cant": "Histories of calls are unbounded and every one leaves state behind; tests use a new validator per case.", "anchors": ["/repo/src/imtjson/validator.cpp: validate, setVariables, getEmits, addRejection, pushVar"]}
{"id": "C130", "title": "Paths given as values", "statement": "PPath::fromValue accepts exactly the values which hold nothing but strings and numbers. Reading a document at the path made from such a value follows the items one by one: a string leads to the member of that name, a number to the item or member at that position, and to undefined where there is none. toValue() of the path gives the same names and positions. The number -1 (2^64-1) does not stand for a position but for the empty name.", "quantifier": "every document with ordered objects, every value used as a path whose numbers are in the range of getUInt", "why_tests_cant": "Documents and paths of any depth; the special index appears for one number of 2^64.", "anchors": ["/repo/src/imtjson/path.cpp: PPath::fromValue, Path::toValue, Value::operator[](Path)", "/repo/src/imtjson/path.h: Path, isIndex, isKey"]}
{"id": "C131", "title": "Rejections point into the subject", "statement": "For a definition that uses none of the rules key, tostring, tonumber, prefix, suffix, split, explode and usevar, every rejection reported by getRejections() carries the path given to validate() continued by a path into the subject: every step but the last names a member or item that is there, and the last one names a member of an object or a position of an array. With the other rules the path can lead nowhere or to another item than the one rejected.", "quantifier": "every such definition of a supported version, every subject whose arrays have fewer than 2^32 items, every path and state of the validator", "why_tests_cant": "Rules and classes nest without bound and rejections are collected and dropped on the way.", "anchors": ["/repo/src/imtjson/validator.cpp: evalRuleSubObj, evalRuleObject, evalRuleArray, addRejection, getRejections"]}
{"id": "C132", "title": "JSON-RPC messages", "statement": "Whatever a server, its methods, its exception handler, later users of a request and the peer (also while it is being handed something) do, every message sent on behalf of a request is undefined (the sign of life) or an object of exactly these defined members: of a notification method, params and context, with a null id in version 1 and jsonrpc \"2.0\" in version 2; of a result id, result, a non-empty context, with a null error in version 1 and jsonrpc \"2.0\" in version 2; of an error id and error, with a null result in version 1 and jsonrpc \"2.0\" in version 2. The version is that of the request (2 exactly if it has the member jsonrpc), the id that of the request, and results and errors are sent only for an id neither undefined nor null. So no message has both a result and an error, but in version 1, where one of them is null. The error object of the default format has the members code, message and, if given, data. The exception handler of a server is given the request with the parameters the method has set last.", "quantifier": "every server, every request, every sequence of operations nested to any depth, both versions", "why_tests_cant": "What can be sent depends on every interleaving of answers, notifications, exceptions and re-entrant use of a request; tests check single exchanges.", "anchors": ["src/imtjson/rpc.cpp:68-87", "src/imtjson/rpc.cpp:112-163", "src/imtjson/rpc.cpp:280-320", "src/imtjson/rpc.cpp:559-576", "src/imtjson/rpc.cpp:887-889"]}
{"id": "C133", "title": "RPC errors as the caller reads them", "statement": "A call that fails on a server ends, once, with an error result whose getErrorCode, getErrorMessage and getErrorData are exactly: -32600, \"Invalid request\" and nothing for a request with a wrong context; -32601, \"Method not found\" and the name for a method that is not known; -32603, \"Internal error\" and the text of the exception for a method that throws without having answered; -32099, \"The method did not produce a result\" and nothing for a method that drops the request unanswered; the code, message and data given for a method that calls setError with any int code. The same is read after the error was sent as text. RpcResult::makeError gives an error that is read as made; an error that is no object reads as code 0, no message, no data. A request made of a list {method, params} has no identifier and is never answered; with id and context in the list it is the request a client sends.", "quantifier": "every server with the default format of errors, every name, parameters, context, id neither undefined nor null, both versions, every notification sent meanwhile", "why_tests_cant": "The code passes through five representations on its way to the caller; tests check single codes.", "anchors": ["src/imtjson/rpc.cpp:41-55", "src/imtjson/rpc.cpp:68-74", "src/imtjson/rpc.cpp:710-712", "src/imtjson/rpc.cpp:891-896", "src/imtjson/rpc.h:55-59"]}
{"id": "C134", "title": "Command line tools keep documents", "statement": "jsonunbin reading what jsonbin wrote (and anything after it) writes, with status 0, the text of the document jsonbin had read: doubles and strings that are not UTF-8 included, for up to 2^32-258 members. For documents of UTF-8 strings, integers and infinities the same holds of jsonpack and jsonunpack without limits of size, and feeding the text back gives the same file again. With finite floating numbers, and a C library of the stated accuracy, jsonunpack writes a document of the same structure, integers and strings unchanged and the other numbers within about half a unit of the last digit; if no number needs an exponent it writes the same text, and packing that gives the same file. A text that is not read makes jsonpack end with status 1. Given the compressed form of any text of printable characters, jsonunpack does what the parser does with that text, with status 1 if it refuses; jsonunbin ends with status 1 on a file that begins with a byte which is no tag. jsonbin always ends, with status 0 exactly for texts the parser accepts. jsonpack packs every document without finite floating numbers whose strings are below 2^32 bytes, whatever their bytes, and the decompressor gives its text. The decompressor gives, for any bytes, a finite text followed by end marks, or fails; so jsonunpack always ends, in the same way however often it asks for more after the end. False: jsonunbin ends or fails on a part of a file (it can run forever or write another document with status 0); jsonunpack accepts all jsonpack wrote (two keys may be written alike).", "quantifier": "every text, every byte stream, every libm and memory content", "why_tests_cant": "A tool is tried on a few files; all documents, all prefixes and all byte streams cannot be.", "anchors": ["src/jsonbin/jsonbin.cpp:18-30", "src/jsonunbin/jsonunbin.cpp:18-29", "src/jsonpack/jsonpack.cpp:18-30", "src/jsonunpack/jsonunpack.cpp:18-29"]}
{"id": "C135", "title": "Command line validator", "statement": "Given a definition and an input that are JSON and a supported version, validator exits with status 0 and no output exactly when the class _root accepts the input and with 1 exactly when it rejects it; with at least one argument status 0 means nothing else. Every rejection is one line: the place, a colon and a tab, the rule; for definitions whose rules look at the subject itself the place is one of the input, and if names have no slash, no tab and no leading bracket the line tells the place and the rule. Another version number is rejected with the line /_version. Status 255 is given exactly when one of the texts is no JSON or the validator throws; with a definition that is sound in the sense of C61 the program ends with 0 or 1 on every JSON input; status 2 is given exactly when the definition cannot be opened and 3 exactly when it can be and the input cannot. False: a rejection always prints something; different places print different lines; status 0 means that something was validated (it is also that of the usage text).", "quantifier": "all definitions, inputs, files and arguments", "why_tests_cant": "Exit statuses and lines for all definitions and documents; whether two places can print alike.", "anchors": ["src/validator/main.cpp:8-77"]}
{"id": "C136", "title": "The definition of definitions", "statement": "With the shipped definition validator.json, which describes validator definitions, every document gets a verdict (an object with an empty key aside, which C37 covers). An object without an empty key is accepted exactly when its _version, if present, equals 1 and every other member is anything but a string, or a string beginning with ' or #, or one of 21 names (the simple rules it lists and 'native'). Other documents are rejected. It accepts itself. False: that an accepted definition can be used (nothing inside arrays and objects is looked at, so a missing class passes and makes the validator throw); that a usable definition is accepted (a class that is only the name of another class is rejected).", "quantifier": "all JSON values as definitions (object keys not empty), all C libraries, all validator states without variables", "why_tests_cant": "The repository's test only checks that the file accepts itself; that it accepts nearly everything, and which sound definitions it rejects, needs all definitions.", "anchors": ["src/imtjson/validator.json:1-119", "src/imtjson/validator.cpp:345-447", "src/imtjson/validator.cpp:896-928"]}
