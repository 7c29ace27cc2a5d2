{"id": "C01", "title": "Chunking of update() is unobservable", "statement": "For every hash algorithm of the library, feeding a byte sequence in one update() call or cutting it into any number of update() calls (including empty ones) at any positions leaves the hasher in an indistinguishable state: every later result() in any continuation returns the same values.", "quantifier": "all byte sequences, all ways of cutting them, all starting states reachable by any history, all continuations, for md5, sha1, sha2-*, ripemd, siphash, xxhash, fnv1a, hmac, murmur3, spooky2", "why_tests_cant": "the number of split points and prior histories is unbounded; tests use a few splits", "anchors": ["include/boost/hash2/md5.hpp:update", "include/boost/hash2/sha1.hpp:update", "include/boost/hash2/sha2.hpp:sha2_base::update", "include/boost/hash2/ripemd.hpp:update", "include/boost/hash2/siphash.hpp:update", "include/boost/hash2/xxhash.hpp:update", "include/boost/hash2/fnv1a.hpp:update", "include/boost/hash2/hmac.hpp:update", "include/boost/hash2/legacy/murmur3.hpp:update", "include/boost/hash2/legacy/spooky2.hpp:update"]}
{"id": "C02", "title": "md5_128 computes RFC 1321 MD5", "statement": "A default-constructed md5_128 that is fed a message by any sequence of update() calls returns from its first result() exactly the digest RFC 1321 MD5 defines for that message.", "quantifier": "all messages of every length (below the length limit of the standard), all cuttings into update() calls", "why_tests_cant": "tests check a few dozen published vectors; a wrong constant, shift, padding boundary or block boundary can stay silent on them", "anchors": ["include/boost/hash2/md5.hpp:md5_128::transform", "include/boost/hash2/md5.hpp:md5_128::update", "include/boost/hash2/md5.hpp:md5_128::result"]}
{"id": "C03", "title": "sha1_160 computes RFC 3174 / FIPS 180-4 SHA-1", "statement": "A default-constructed sha1_160 that is fed a message by any sequence of update() calls returns from its first result() exactly the digest RFC 3174 / FIPS 180-4 SHA-1 defines for that message.", "quantifier": "all messages of every length (below the length limit of the standard), all cuttings into update() calls", "why_tests_cant": "tests check a few dozen published vectors; a wrong constant, shift, padding boundary or block boundary can stay silent on them", "anchors": ["include/boost/hash2/sha1.hpp:sha1_160::transform", "include/boost/hash2/sha1.hpp:sha1_160::update", "include/boost/hash2/sha1.hpp:sha1_160::result"]}
{"id": "C04", "title": "sha2_256 and sha2_224 compute FIPS 180-4 SHA-256 and SHA-224", "statement": "A default-constructed sha2_256 or sha2_224 that is fed a message by any sequence of update() calls returns from its first result() exactly the digest FIPS 180-4 SHA-256 or SHA-224 defines for that message.", "quantifier": "all messages of every length (below the length limit of the standard), all cuttings into update() calls", "why_tests_cant": "tests check a few dozen published vectors; a wrong constant, shift, padding boundary or block boundary can stay silent on them", "anchors": ["include/boost/hash2/sha2.hpp:sha2_256_base::transform", "include/boost/hash2/sha2.hpp:sha2_256::result", "include/boost/hash2/sha2.hpp:sha2_224::result"]}
{"id": "C05", "title": "sha2_512, sha2_384, sha2_512_256 and sha2_512_224 compute the FIPS 180-4 functions", "statement": "A default-constructed sha2_512, sha2_384, sha2_512_256 or sha2_512_224 that is fed a message shorter than 2^64 bits by any sequence of update() calls returns from its first result() exactly the FIPS 180-4 digest. For messages of 2^64 bits or more (which FIPS 180-4 admits up to 2^128) the class hashes a differently padded message: only the low 64 bits of the 128-bit length are written.", "quantifier": "all messages below 2^64 bits; and, for the limitation, all messages from 2^64 to 2^128 bits; all cuttings", "why_tests_cant": "tests check a few dozen published vectors; a wrong constant, shift, padding boundary or block boundary can stay silent on them", "anchors": ["include/boost/hash2/sha2.hpp:sha2_512_base::transform", "include/boost/hash2/sha2.hpp:sha2_512::result", "include/boost/hash2/sha2.hpp:sha2_384::result", "include/boost/hash2/sha2.hpp:sha2_512_224::result", "include/boost/hash2/sha2.hpp:sha2_512_256::result"]}
{"id": "C06", "title": "ripemd_160 computes RIPEMD-160", "statement": "A default-constructed ripemd_160 that is fed a message by any sequence of update() calls returns from its first result() exactly the digest RIPEMD-160 defines for that message.", "quantifier": "all messages of every length (below the length limit of the standard), all cuttings into update() calls", "why_tests_cant": "tests check a few dozen published vectors; a wrong constant, shift, padding boundary or block boundary can stay silent on them", "anchors": ["include/boost/hash2/ripemd.hpp:ripemd_160::transform", "include/boost/hash2/ripemd.hpp:ripemd_160::update", "include/boost/hash2/ripemd.hpp:ripemd_160::result"]}
{"id": "C07", "title": "ripemd_128 computes RIPEMD-128", "statement": "A default-constructed ripemd_128 that is fed a message by any sequence of update() calls returns from its first result() exactly the digest RIPEMD-128 defines for that message.", "quantifier": "all messages of every length (below the length limit of the standard), all cuttings into update() calls", "why_tests_cant": "tests check a few dozen published vectors; a wrong constant, shift, padding boundary or block boundary can stay silent on them", "anchors": ["include/boost/hash2/ripemd.hpp:ripemd_128::transform", "include/boost/hash2/ripemd.hpp:ripemd_128::update", "include/boost/hash2/ripemd.hpp:ripemd_128::result"]}
{"id": "C08", "title": "siphash_64 and siphash_32 compute SipHash-2-4 and HalfSipHash-2-4", "statement": "A siphash_64 constructed from a 16-byte key (resp. siphash_32 from an 8-byte key) and fed a message returns from its first result() SipHash-2-4 (resp. HalfSipHash-2-4 with 32-bit output) of that message under that key.", "quantifier": "all keys, all messages, all cuttings", "why_tests_cant": "tests use one key and 64 message lengths", "anchors": ["include/boost/hash2/siphash.hpp:siphash_64", "include/boost/hash2/siphash.hpp:siphash_32"]}
{"id": "C09", "title": "xxhash_32 and xxhash_64 compute XXH32 and XXH64", "statement": "A default-constructed or integer-seeded xxhash_32 / xxhash_64 fed a message returns from its first result() the XXH32 / XXH64 value of the message under that seed (xxhash_32: seeds below 2^32).", "quantifier": "all messages, all lengths (0, <4, <16, <32, multiples, tails), all seeds, all cuttings", "why_tests_cant": "tail handling branches on length modulo 16/32, tests sample lengths", "anchors": ["include/boost/hash2/xxhash.hpp:xxhash_32", "include/boost/hash2/xxhash.hpp:xxhash_64"]}
{"id": "C10", "title": "fnv1a_32 and fnv1a_64 compute FNV-1a", "statement": "A default-constructed fnv1a_N fed a message returns from its first result() the FNV-1a hash of the message, and result() then acts on the state as update() of the single byte 0xFF.", "quantifier": "all messages, all histories", "why_tests_cant": "unbounded messages and histories", "anchors": ["include/boost/hash2/fnv1a.hpp:fnv1a::update", "include/boost/hash2/fnv1a.hpp:fnv1a::result"]}
{"id": "C11", "title": "murmur3_32 and murmur3_128 compute MurmurHash3", "statement": "A default or integer-seeded (below 2^32 for murmur3_32) murmur3_32 / murmur3_128 fed a message returns from its first result() MurmurHash3_x86_32 / MurmurHash3_x64_128 of the message with that seed (murmur3_128 with both halves seeded, as the extended constructor allows); the two-seed constructor is the byte-seed constructor on the 16 little-endian bytes of the seeds.", "quantifier": "all messages and seeds, all cuttings", "why_tests_cant": "tail switch depends on length mod 4/16; tests sample", "anchors": ["include/boost/hash2/legacy/murmur3.hpp:murmur3_32", "include/boost/hash2/legacy/murmur3.hpp:murmur3_128"]}
{"id": "C12", "title": "spooky2_128 computes SpookyHash V2", "statement": "A default, one- or two-integer-seeded spooky2_128 fed a message returns from its first result() SpookyHash V2 Hash128 of the message under the corresponding seeds, for messages below and above the 192-byte short/long switch; the two-seed constructor is the byte-seed constructor on the 16 little-endian bytes.", "quantifier": "all messages (shorter than the size_t counter range), all cuttings", "why_tests_cant": "short, long, and tail paths depend on length mod 192 and mod 32", "anchors": ["include/boost/hash2/legacy/spooky2.hpp:spooky2_128"]}
{"id": "C13", "title": "hmac<H> computes RFC 2104 HMAC", "statement": "hmac<H> constructed from a byte-sequence key and fed a message returns from its first result() H((K' xor opad) || H((K' xor ipad) || message)), where K' is the key zero-padded to the block size or, if longer than a block, the zero-padded digest of the key; for every H of the library with a block size.", "quantifier": "all keys of every length (shorter, equal and longer than a block), all messages, all cuttings, all H", "why_tests_cant": "key-length boundary and message length are unbounded", "anchors": ["include/boost/hash2/hmac.hpp:hmac"]}
{"id": "C14", "title": "A zero or empty seed is the default state", "statement": "For every algorithm, construction from integer seed 0 and construction from an empty byte sequence (n = 0, any pointer including null) give the same state as default construction, hence the same results for every continuation.", "quantifier": "every algorithm, every continuation", "why_tests_cant": "continuations are unbounded", "anchors": ["include/boost/hash2/md5.hpp:md5_128 ctors", "include/boost/hash2/siphash.hpp ctors", "include/boost/hash2/xxhash.hpp ctors", "include/boost/hash2/fnv1a.hpp ctors", "include/boost/hash2/hmac.hpp ctors"]}
{"id": "C15", "title": "Integer seeds are little-endian byte seeds", "statement": "For the algorithms documented as doing so (md5, sha1, sha2, ripemd, fnv1a non-zero seeds, hmac), constructing from a 64-bit integer seed is the same as constructing from its 8 bytes in little-endian order, on every platform endianness; siphash_64(seed) is the 16-byte key LE64(seed)||0^8 and siphash_32(seed) the 8-byte key LE64(seed).", "quantifier": "all 2^64 seeds, both platform byte orders, constant and run-time evaluation", "why_tests_cant": "2^64 seeds", "anchors": ["include/boost/hash2/md5.hpp", "include/boost/hash2/sha1.hpp", "include/boost/hash2/sha2.hpp", "include/boost/hash2/ripemd.hpp", "include/boost/hash2/fnv1a.hpp", "include/boost/hash2/hmac.hpp", "include/boost/hash2/siphash.hpp"]}
{"id": "C16", "title": "Distinct integer seeds give distinct initial states", "statement": "Documented requirement: distinct values of seed give distinct sequences of result(). Distinct 64-bit integer seeds give distinct states for siphash_64, siphash_32, xxhash_64, murmur3_128 and spooky2_128 (and, for xxhash_64, murmur3_128 and for 32-bit seeds murmur3_32 and xxhash_32, already distinct first results of the empty message); the requirement fails for xxhash_32 (all collisions of a family characterised by a congruence), fnv1a_32, fnv1a_64 and murmur3_32 (64-bit seeds), where concrete distinct seeds give indistinguishable hashers. And whatever is hashed, for the algorithms with 32-bit results (siphash_32, xxhash_32, fnv1a_32, murmur3_32) at least 2^32 of the 64-bit seeds have the same hash value.", "quantifier": "all pairs of 64-bit seeds; all continuations", "why_tests_cant": "2^128 pairs", "anchors": ["include/boost/hash2/siphash.hpp ctors", "include/boost/hash2/xxhash.hpp ctors"]}
{"id": "C17", "title": "Distinct byte-sequence seeds are not always distinguished", "statement": "Documented requirement: distinct byte-sequence seeds should yield distinct hashers. It fails as follows, for all seeds of these forms: the all-zero full-size siphash key is the default state; hmac identifies keys up to zero padding to the block, and a key longer than a block with its digest; murmur3 drops the tail of the seed beyond a multiple of its block and identifies short seeds up to zero padding, as does spooky2. Full-size siphash keys that are distinct do give distinct states. For every algorithm of the library there are two different seeds whose instances no program can tell apart; for the md5, SHA and RIPEMD classes at least 2^(8n-512) of the seeds of n >= 64 bytes make the same instance.", "quantifier": "all byte sequences of the stated forms; all continuations", "why_tests_cant": "infinitely many pairs", "anchors": ["include/boost/hash2/siphash.hpp ctors", "include/boost/hash2/hmac.hpp:init", "include/boost/hash2/legacy/murmur3.hpp ctors"]}
{"id": "C18", "title": "No assertion fires and no access is out of bounds", "statement": "For every algorithm other than spooky2_128, any history of construction, update(p,n) with n readable bytes at p, and result() (any length, any number of results, wrap-around of the counters included) never trips a BOOST_ASSERT, never reads outside the caller's n bytes or outside the internal buffer and never writes outside the internal buffer. For spooky2_128 the same holds as long as the bytes counted (pieces and padding of results) stay below the range of size_t; at that range its counter loses the block position and an assertion fires.", "quantifier": "all constructors, all histories, all lengths", "why_tests_cant": "memory safety must hold on every path; sanitizers only see executed ones", "anchors": ["include/boost/hash2/md5.hpp", "include/boost/hash2/sha1.hpp", "include/boost/hash2/sha2.hpp", "include/boost/hash2/ripemd.hpp", "include/boost/hash2/siphash.hpp", "include/boost/hash2/xxhash.hpp", "include/boost/hash2/fnv1a.hpp", "include/boost/hash2/hmac.hpp", "include/boost/hash2/legacy/murmur3.hpp", "include/boost/hash2/legacy/spooky2.hpp"]}
{"id": "C19", "title": "update(p, 0) is a no-op, with a null pointer too except for SHA-2", "statement": "update() with n = 0 and a non-null pointer changes no result of any algorithm, in any reachable state. With a null pointer (what hash_append_range of an empty contiguous range may pass) this holds for every algorithm except the SHA-2 family and its HMACs, where it reaches memcpy from a null pointer whenever bytes are pending in the buffer: undefined behaviour.", "quantifier": "all algorithms, all reachable states", "why_tests_cant": "depends on buffered position; tests call it only on fresh hashers", "anchors": ["include/boost/hash2/sha2.hpp:sha2_base::update", "include/boost/hash2/md5.hpp:update", "include/boost/hash2/hash_append.hpp:hash_append_range_"]}
{"id": "C20", "title": "result() leaves no message bytes buffered", "statement": "After result() every block algorithm of the library (md5, sha1, sha2, ripemd, siphash, hmac, xxhash, murmur3, spooky2) has an all-zero internal buffer and nothing pending, whatever was hashed before; for md5/sha1/sha2/ripemd/siphash/hmac the buffer beyond the pending bytes is zero at every point of every history.", "quantifier": "all histories of construction, update, result and hash_append", "why_tests_cant": "every history", "anchors": ["include/boost/hash2/md5.hpp:result", "include/boost/hash2/siphash.hpp:result"]}
{"id": "C21", "title": "result() can be called repeatedly and equals hashing the padded history", "statement": "The results of any history are determined by the bytes fed between results; for md5/sha1/sha2/ripemd the i-th result() is the digest of the 'virtual message' in which every earlier result() contributes its own padding bytes.", "quantifier": "all interleavings of update and result", "why_tests_cant": "unbounded histories", "anchors": ["include/boost/hash2/md5.hpp:result", "include/boost/hash2/sha1.hpp:result", "include/boost/hash2/sha2.hpp:result", "include/boost/hash2/ripemd.hpp:result"]}
{"id": "C22", "title": "Consecutive results of fnv1a are pairwise distinct over the full period", "statement": "Calling result() repeatedly on an fnv1a_32 (fnv1a_64) from any state returns 2^32 (2^64) pairwise distinct values before repeating.", "quantifier": "all states, all pairs of indices below the period", "why_tests_cant": "2^64 calls", "anchors": ["include/boost/hash2/fnv1a.hpp:result"]}
{"id": "C23", "title": "Consecutive results of murmur3 are pairwise distinct", "statement": "Calling result() repeatedly on murmur3 without update() in between returns pairwise distinct values for the first 2^30 calls (32-bit variant) resp. 2^w/16 calls (128-bit variant, w the width of size_t), when the number of bytes fed since the last result() is a multiple of the block size; for an unaligned number the second result may repeat the first (counterexamples).", "quantifier": "all states reached, all pairs of call indices", "why_tests_cant": "billions of calls", "anchors": ["include/boost/hash2/legacy/murmur3.hpp:result"]}
{"id": "C24", "title": "Constant evaluation and run-time evaluation agree", "statement": "Every function with separate constant-evaluated and run-time paths (read*, write*, memcpy, memset, memcmp, digest ==, hash_append, hash_append_range) computes the same on both, and every program of update(), result() and hash_append calls gives the same results under constant and run-time evaluation, on little- and big-endian platforms. (murmur3 and spooky2 have no constant-evaluated path.)", "quantifier": "all inputs, all programs, both byte orders", "why_tests_cant": "cannot enumerate inputs; no big-endian CI", "anchors": ["include/boost/hash2/detail/read.hpp", "include/boost/hash2/detail/write.hpp", "include/boost/hash2/detail/memcpy.hpp", "include/boost/hash2/detail/memset.hpp", "include/boost/hash2/detail/memcmp.hpp", "include/boost/hash2/hash_append.hpp:hash_append_range_", "include/boost/hash2/digest.hpp"]}
{"id": "C25", "title": "Little-endian and big-endian flavors give platform-independent messages", "statement": "With the same flavor byte order (little_endian_flavor, big_endian_flavor), every program of update(), result() and hash_append calls on any algorithm gives the same results on every platform: byte order, run-time or constant evaluation, contents of uninitialised memory, and (below 2^32 bytes) width of size_t; pointers must have the same size, and NaNs are excluded or propagated the same way.", "quantifier": "all programs, all values of all supported types (nested to any depth), all pairs of platforms", "why_tests_cant": "CI runs on little-endian hosts only", "anchors": ["include/boost/hash2/hash_append.hpp", "include/boost/hash2/flavor.hpp", "include/boost/hash2/endian.hpp"]}
{"id": "C26", "title": "Integers are encoded as their two's complement bytes in the flavor's byte order", "statement": "hash_append of an integer of size 1, 2, 4 or 8 feeds exactly sizeof(T) bytes: the two's complement representation in the flavor's byte order; bool feeds 0 or 1; an enumeration its underlying value; a pointer its address; nullptr_t the null pointer value; a float or double the bit pattern of v + 0 under IEEE 754. little_endian_flavor and big_endian_flavor have the byte order of their names on every platform, default_flavor that of the platform.", "quantifier": "all values of all integer types", "why_tests_cant": "2^64 values", "anchors": ["include/boost/hash2/hash_append.hpp:do_hash_append", "include/boost/hash2/detail/write.hpp"]}
{"id": "C27", "title": "Equal values produce equal messages", "statement": "If two values of the same type compare equal (element-wise for ranges, tuples and described classes, permutation for unordered containers, and +0.0 == -0.0 for floats) hash_append produces the same message for both. (For floats this needs the rounding mode not to be towards -inf.)", "quantifier": "all values of all supported types, all nesting", "why_tests_cant": "unbounded values", "anchors": ["include/boost/hash2/hash_append.hpp"]}
{"id": "C28", "title": "Different values of one type produce different messages", "statement": "For two different values of the same supported type (scalars, strings, vectors, lists, arrays, tuples, described classes, classes with a tag_invoke that appends their parts, discriminated unions whose tag_invoke appends the index of the alternative after the alternative; nested to any depth) the messages differ, and moreover concatenations of messages can be parsed back uniquely (given sizes below 2^32 / 2^64 as encoded by the flavor). A discriminated union that appends its index first does not have this property next to a size-suffixed range.", "quantifier": "all pairs of values of all types", "why_tests_cant": "infinitely many pairs", "anchors": ["include/boost/hash2/hash_append.hpp:hash_append_size", "include/boost/hash2/hash_append.hpp:hash_append_sized_range_"]}
{"id": "C29", "title": "Every hash_append contributes at least one byte", "statement": "hash_append of any supported value (including empty containers, empty arrays, empty tuples, empty described classes) calls update() at least once with at least one byte.", "quantifier": "all values of all supported types", "why_tests_cant": "unbounded types and values", "anchors": ["include/boost/hash2/hash_append.hpp:do_hash_append"]}
{"id": "C30", "title": "Unordered containers hash independently of iteration order", "statement": "hash_append of an unordered container gives the same state for any permutation of its iteration order, and leaves the hasher in a state determined by the multiset of elements only.", "quantifier": "all containers, all permutations, all prior hasher states, any hash algorithm", "why_tests_cant": "n! orders", "anchors": ["include/boost/hash2/hash_append.hpp:hash_append_unordered_range"]}
{"id": "C31", "title": "Same elements hash the same in every sequence container", "statement": "A range with given elements produces the same message whether its iterators are input, forward or random access and whether it is contiguous (bulk update) or not; e.g. vector, deque, list of the same integers give the same hash; std::array and C array and tuple of the same elements as well.", "quantifier": "all element sequences, all container kinds, all flavors and platforms", "why_tests_cant": "unbounded", "anchors": ["include/boost/hash2/hash_append.hpp:hash_append_range_", "include/boost/hash2/hash_append.hpp:hash_append_sized_range_"]}
{"id": "C32", "title": "Composite values are the sequence of their parts", "statement": "hash_append of a C array, constant-size array, tuple, pair or described class is the same as hash_append of each element / base / member in order; sized ranges append the size afterwards; a class with tag_invoke, or a discriminated union, is the sequence of the hash_append calls its tag_invoke makes.", "quantifier": "all values, all hasher states", "why_tests_cant": "unbounded", "anchors": ["include/boost/hash2/hash_append.hpp"]}
{"id": "C33", "title": "get_integral_result to the same or larger width is injective; to a smaller width it is perfectly balanced", "statement": "For integral result types, get_integral_result<T> is the identity (modulo signedness) for equal widths, injective for larger widths, and for smaller widths every T value has exactly the same number of preimages; except from 16-bit results to 8-bit T, where the promoted multiplication overflows int (undefined) for results above 43918, and is balanced if it wraps.", "quantifier": "all source/target widths and all values", "why_tests_cant": "2^64 values", "anchors": ["include/boost/hash2/get_integral_result.hpp"]}
{"id": "C34", "title": "get_integral_result of a digest uses its first bytes", "statement": "For digest results get_integral_result<T> is the little-endian value of the first 8 (resp. sizeof(T)) bytes, truncated to T, on every platform; it never reads beyond the digest.", "quantifier": "all digests of all sizes >= 8 and all T", "why_tests_cant": "unbounded", "anchors": ["include/boost/hash2/get_integral_result.hpp"]}
{"id": "C35", "title": "digest: construction, element access, iteration and comparison", "statement": "operator== on digest<N> is true iff all N bytes are equal, operator!= is its negation, on both evaluation paths. A digest made from an array holds its bytes, a default one N zeros. operator[] returns the i-th byte and its assertion fails exactly for i >= N; front() and back() are the first and last; iterating from begin() to end() visits the bytes in order, once; size() and max_size() are N; assigning through operator[], front() or back() changes this byte only.", "quantifier": "all N, all digests, indices and byte values, run time and constant evaluation", "why_tests_cant": "256^N pairs", "anchors": ["include/boost/hash2/digest.hpp:operator==", "include/boost/hash2/detail/memcmp.hpp"]}
{"id": "C36", "title": "to_chars / to_string are exact lowercase hex", "statement": "to_chars writes exactly 2N characters (lowercase hex, high nibble first) when the buffer has room, writes nothing and returns null otherwise, the char(&)[M] version requires M >= 2N+1 and writes a NUL at 2N, to_string and operator<< give the same text; distinct digests have distinct text and the text decodes back to the digest.", "quantifier": "all N, all digests, all buffer sizes", "why_tests_cant": "unbounded", "anchors": ["include/boost/hash2/digest.hpp:to_chars", "include/boost/hash2/digest.hpp:to_string"]}
{"id": "C37", "title": "read/write primitives are mutually inverse and byte-order correct", "statement": "readNle/readNbe of the bytes written by writeNle/writeNbe returns the value; write after read returns the bytes; values are exact positional base-256 numbers.", "quantifier": "all values, all byte strings", "why_tests_cant": "2^64 values", "anchors": ["include/boost/hash2/detail/read.hpp", "include/boost/hash2/detail/write.hpp"]}
{"id": "C38", "title": "Rotations are rotations and are never called with an out-of-range count", "statement": "rotl/rotr compute bit rotation for all counts 1..W-1 and are mutually inverse; every count in the rotation tables the algorithms use lies strictly between 0 and the width (an out-of-range count yields a poison value in the model, so the algorithm theorems rule it out at the other call sites).", "quantifier": "all words and counts; all entries of the tables", "why_tests_cant": "2^64 words", "anchors": ["include/boost/hash2/detail/rot.hpp"]}
{"id": "C39", "title": "hmac repeated results and reuse", "statement": "Any history of update()/result() on hmac<H> is determined by the concatenations between results, never trips an assertion, and has the same results as a direct composition of two H hashers.", "quantifier": "all histories, all H", "why_tests_cant": "unbounded histories", "anchors": ["include/boost/hash2/hmac.hpp:result", "include/boost/hash2/hmac.hpp:update"]}
{"id": "C40", "title": "Sizes are appended as the flavor's size_type", "statement": "hash_append_size converts any size to the flavor's size_type (uint64 in the flavors provided, any unsigned type in a user's) and appends it in the flavor's byte order; two sizes are indistinguishable only if they agree modulo 2^bits. Each flavor provided appends a size, alone or at the end of a container, in eight bytes, so that no two sizes below 2^64 feed the same bytes.", "quantifier": "all sizes, all flavors", "why_tests_cant": "2^64 sizes", "anchors": ["include/boost/hash2/hash_append.hpp:hash_append_size", "include/boost/hash2/flavor.hpp"]}
{"id": "C41", "title": "The range functions are sequences of hash_append calls", "statement": "hash_append_range has the effect of one hash_append per element, whatever the iterator kind (pointers with bulk update, or class iterators); hash_append_sized_range has the effect of hash_append of a sequence container with these elements; hash_append_unordered_range that of an unordered container; hash_append_size(v) that of hash_append of v converted to size_type.", "quantifier": "all ranges, element types, iterator kinds, flavors, algorithms, prior histories and continuations", "why_tests_cant": "unbounded ranges and histories; bulk-update paths depend on platform and evaluation mode", "anchors": ["include/boost/hash2/hash_append.hpp:hash_append_range", "include/boost/hash2/hash_append.hpp:hash_append_sized_range", "include/boost/hash2/hash_append.hpp:hash_append_unordered_range", "include/boost/hash2/hash_append.hpp:hash_append_size"]}
{"id": "C42", "title": "The overload chosen is the documented one", "statement": "For every combination of type traits a C++ type can have, a call to hash_append that compiles has the effect documented for the first applicable category, and every type with a documented effect compiles unless its categories overlap (tag_invoke together with another category, an unordered range that is contiguous or of constant size, a described range or tuple-like); those are ambiguous although documented to have an effect; types in no category do not compile.", "quantifier": "all combinations of the type traits tested by the overloads", "why_tests_cant": "user-defined types are unboundedly many; tests fix a few", "anchors": ["include/boost/hash2/hash_append.hpp:do_hash_append", "include/boost/hash2/detail/has_tag_invoke.hpp", "include/boost/hash2/has_constant_size.hpp"]}
{"id": "C43", "title": "The constant tables are the published nothing-up-my-sleeve values", "statement": "The additive constants in md5_128 are floor(2^32 |sin i|) for i = 1..64; the SHA-2 round constants are the leading bits of the fractional parts of the cube roots of the first 64 (80) primes; the initial states of SHA-256/512/224/384 are bits of the fractional parts of square roots of the first (next) eight primes; the FNV offset bases are the FNV-0 hashes of the authors' string.", "quantifier": "every entry of every table", "why_tests_cant": "a test compares with another copy of the same table; a typo shared by code and test goes unnoticed, and a single wrong entry needs a message exercising it", "anchors": ["include/boost/hash2/md5.hpp:transform", "include/boost/hash2/sha2.hpp:sha2_256_base, sha2_512_base, sha2_224, sha2_384", "include/boost/hash2/fnv1a.hpp:fnv1a_const"]}
{"id": "C44", "title": "Correct trait specialisations are only an optimisation", "statement": "Specialising is_trivially_equality_comparable and is_endian_independent for a user type, where the storage bytes of each value are what its hash_append feeds (and the same on both byte orders, for the latter), never changes the result of any program: at any nesting depth, in any container, under any flavor, byte order, constant or run-time evaluation. Merely meeting the traits' documentation (operator== equivalent to memcmp; byte-order independent layout) is not enough, and an enumeration with a coarser operator== cannot be repaired by specialising to false.", "quantifier": "all user types with specialisations, all values, all positions in a program, all algorithms", "why_tests_cant": "the set of user types, nestings and values is infinite, and one platform shows only one byte order", "anchors": ["include/boost/hash2/is_trivially_equality_comparable.hpp", "include/boost/hash2/is_endian_independent.hpp", "include/boost/hash2/is_contiguously_hashable.hpp", "include/boost/hash2/hash_append.hpp:hash_append_range_"]}
{"id": "C45", "title": "hash_append works the same with any user-defined hash algorithm", "statement": "For any type meeting the documented hash algorithm requirements (update calls only matter through the concatenation of their bytes between results; a zero seed and an empty byte seed equal default construction) and returning integers or digests of at least 8 bytes, hash_append, hash_append_range, hash_append_sized_range, hash_append_unordered_range and hash_append_size feed exactly the documented message; equal values give equal results; nothing fails. All library algorithms except spooky2_128 (bounded length) meet these requirements. The other properties of hash_append hold for such types too: the iteration order of unordered containers and the kind of a sequence container do not matter; tuples, described classes, arrays and ranges are their parts in sequence; and different values of a decodable type have the same hash only if the algorithm has the same hash for two different byte sequences.", "quantifier": "every hash algorithm meeting the requirements, every flavor, type, value and history", "why_tests_cant": "hash algorithms are an open set of user types; a test can only instantiate a few", "anchors": ["include/boost/hash2/hash_append.hpp", "doc/hash2/hashing_bytes.adoc:requirements", "doc/hash2/hashing_objects.adoc"]}
{"id": "C46", "title": "hmac over a user-defined algorithm is RFC 2104 HMAC", "statement": "hmac<H> over any H meeting the hash algorithm requirements with digests of D bytes and any block size B computes HMAC as in RFC 2104 over the function computed by H, for every key given by a constructor and every chunking of the message (for D > B the hashed key is cut to B bytes). hmac<H> itself meets the requirements, so hmac<hmac<H>> is HMAC over HMAC with the empty key.", "quantifier": "every conforming hash algorithm, block size, key, seed and sequence of updates", "why_tests_cant": "open set of user algorithms and block sizes, unbounded keys and messages", "anchors": ["include/boost/hash2/hmac.hpp:hmac, init, result"]}
{"id": "C47", "title": "Hash function objects for unordered containers", "statement": "The function objects of the examples (copying a seeded member, constructing with a seed per call, or default constructing per call) return for every key a std::size_t that is a function of the key alone, determined by the algorithm's result on the documented message; equal keys give equal values, whatever was hashed before; all forms agree. When size_t is at least as wide as the algorithm's integer result, keys collide only if the results do; for a digest, exactly if its first sizeof(size_t) bytes agree. hash_32_64 picks the algorithm with the native width and returns its result unchanged. All of this holds for any user-defined hash algorithm that meets the documented requirements and whose results are unsigned integers or byte arrays.", "quantifier": "all algorithms, seeds, key types and values, sequences of calls, and both widths of size_t", "why_tests_cant": "the container contract ranges over all keys and call histories", "anchors": ["example/hash_with_any_seed.cpp", "example/hash_with_byte_seed.cpp", "example/hash_with_uint64_seed.cpp", "example/hash_without_seed.cpp", "example/hash_32_64.cpp", "include/boost/hash2/get_integral_result.hpp"]}
{"id": "C48", "title": "Result extension: xxhash_128 from xxhash_64", "statement": "The class of the example (two consecutive result() calls of xxhash_64 stored little-endian in a 16-byte digest) meets the hash algorithm requirements and always gives 16 bytes, of which the first 8 are XXH64 of the message with the given seed and the others the second result; hash_append can be used with it and respects equality.", "quantifier": "all seeds, messages, chunkings and histories", "why_tests_cant": "unbounded messages and histories", "anchors": ["example/xxh128_from_xxh64.cpp:xxhash_128"]}
{"id": "C49", "title": "md5sum and hash2sum print the published hashes of the files", "statement": "For every list of files and every way fread splits their contents in reads of at most 4096 bytes, the standard output consists, in order, of the published hash of each file's contents in lower-case hexadecimal, ' *', the name and a newline; a file that cannot be opened or read has no line and does not affect the others; the first argument of hash2sum selects exactly the algorithm of that name; any other name prints nothing and gives exit code 1.", "quantifier": "all file contents (of fewer than 2^64 bits for the SHA-512 family), read splittings, file lists, names, and contents of the uninitialised buffer", "why_tests_cant": "unbounded files and read schedules", "anchors": ["example/md5sum.cpp", "example/hash2sum.cpp", "include/boost/hash2/digest.hpp:to_string"]}
{"id": "C50", "title": "Messages beyond the range of size_t", "statement": "murmur3_32 computes MurmurHash3_x86_32 (whose length is a 32-bit quantity) for messages of any length. xxhash_32 computes XXH32 for every message shorter than 16 bytes or whose length modulo the range of size_t is at least 16; in the remaining cases (for instance exactly 2^32 bytes on a 32-bit platform) its result depends only on a quarter of each stripe and the tail, and is not XXH32. murmur3_128 on a 32-bit platform never has the reference value for messages of 2^32 bytes or more.", "quantifier": "all messages without length bound, all splittings in updates with counts representable in size_t, both widths of size_t", "why_tests_cant": "needs messages of more than 4 GB, and for 64-bit platforms more than 2^64 bytes", "anchors": ["include/boost/hash2/xxhash.hpp:xxhash_32 (n_ is std::size_t)", "include/boost/hash2/legacy/murmur3.hpp:murmur3_32, murmur3_128"]}
{"id": "C51", "title": "Classes with any user-written tag_invoke", "statement": "hash_append of an object of a class with a tag_invoke overload has exactly the effect of the calls that overload makes (hash_append, hash_append_range, hash_append_sized_range, hash_append_unordered_range, hash_append_size, in any number and order, chosen according to the object), in any program, for every algorithm and flavor; so objects for which it makes the same calls give the same results whatever else they contain. For the documentation's class X the ignored member does not matter and the two others do; the documentation's inline string Str hashes like a std::string with the same contents, whatever the unused part of its buffer holds, and strings with different contents are fed as different bytes. A tag_invoke that calls h.update(p, n) directly has the effect of hash_append_range over these n bytes.", "quantifier": "all tag_invoke overloads made of such calls, all objects, programs, algorithms, flavors and environments", "why_tests_cant": "unbounded set of user types, objects and programs", "anchors": ["include/boost/hash2/hash_append.hpp:do_hash_append (tag_invoke), hash_append_tag", "doc/hash2/hashing_objects.adoc:369-434"]}
{"id": "C52", "title": "Recursive types", "statement": "Hashing is well defined for classes that contain containers, optionals or variants of themselves (trees, JSON values): every object, of whatever depth, is hashed by the recursion of hash_append to the same result however deep the type is considered unfolded; and if the type is uniquely decodable, objects that differ anywhere at any depth are fed as different bytes. Instances: a tree of int with vector of children, and a JSON value class.", "quantifier": "all recursive types of the universe, objects of any depth, programs, algorithms, flavors", "why_tests_cant": "unbounded depth", "anchors": ["include/boost/hash2/hash_append.hpp:do_hash_append overloads, hash_append_range, hash_append"]}
{"id": "C53", "title": "A change confined to one unit of the message always changes the hash", "statement": "For every seed, two messages of the same length that differ, but only within one unit, have different results: a byte for fnv1a_32/64, an aligned group of 4 bytes for murmur3_32 and of 16 for murmur3_128 (and anything in the last incomplete group), a byte or an aligned 4-byte word for xxhash_32 (while the byte count fits size_t), and for xxhash_64 a byte, aligned 4-byte or 8-byte word of the last, incomplete 32-byte stripe. Hence values whose message is one unit (integers of the width of the algorithm, enumerators, pointers; any fixed-size value of up to 4 bytes with murmur3_32 or 16 with murmur3_128) have equal hashes only if they are equal. For xxhash_64 this fails inside complete stripes: two explicit 32-byte messages differing in a single bit have the same hash (with any fewer than 32 bytes appended), and so do the corresponding byte vectors. The same holds for a hash object with a history (any updates, values and results, ending in a call of result(); for fnv1a any history at all): messages, or values, that differ within one unit counted from that call give different next results.", "quantifier": "all messages of any length split into pieces in any way, all positions of the change, all seeds and constructors, all environments and flavors", "why_tests_cant": "the space of pairs of messages and seeds is unbounded", "anchors": ["include/boost/hash2/fnv1a.hpp:update", "include/boost/hash2/legacy/murmur3.hpp:update_, result", "include/boost/hash2/xxhash.hpp:round, update_, result", "include/boost/hash2/hash_append.hpp:do_hash_append (integral)"]}
{"id": "C54", "title": "Collisions of murmur3 that no seed removes", "statement": "doc/hash2/hashing_bytes.adoc:93 recommends random seeds against hash flooding. For murmur3_32 and murmur3_128 they do not help: for every n there are 2^n different messages (8n and 32n bytes, given explicitly) that have the same result for every constructor, seed value and seed byte sequence, in every environment, whatever common bytes follow; the same holds of the corresponding byte-vector keys passed to hash_append. They have the same effect after any history of updates, values and results that ends on a block boundary, and no continuation tells them apart.", "quantifier": "all n, all pairs among the 2^n messages, all constructors and seeds, flavors, environments, splits into pieces and common suffixes", "why_tests_cant": "holds for every seed", "anchors": ["include/boost/hash2/legacy/murmur3.hpp:murmur3_32::update_, murmur3_128::update_", "doc/hash2/hashing_bytes.adoc:79-94"]}
{"id": "C55", "title": "Digest collisions are collisions of the compression function", "statement": "For md5_128, sha1_160, ripemd_128/160, the SHA-2 family and the HMACs over them: if two different messages (or two values, different under ==, of a uniquely decodable type passed to hash_append), with the same seed or key, give the same digest, then the computations of these two digests contain a collision of the standard's compression function: at some position counted from the end the two chaining value/block pairs differ and have the same image (for the truncated SHA-2 variants: possibly the final states differ but agree in the output bytes). So splitting, padding, seeding, hash_append and hmac add no collisions of their own, and a colliding pair yields the collision of the compression function constructively.", "quantifier": "all pairs of messages and of values of total length below 2^60 bytes, all splits, constructors, flavors and environments", "why_tests_cant": "no test can enumerate pairs of messages; the claim is a reduction", "anchors": ["include/boost/hash2/md5.hpp", "include/boost/hash2/sha1.hpp", "include/boost/hash2/sha2.hpp", "include/boost/hash2/ripemd.hpp", "include/boost/hash2/hmac.hpp", "include/boost/hash2/hash_append.hpp"]}
{"id": "C56", "title": "One hash object does not repeat a digest; seeds and keys matter", "statement": "For md5_128, sha1_160, ripemd_128/160, the SHA-2 family and the HMACs over them, any two results of one object, in any history of update() and result() calls, are different, or the messages digested exhibit a collision of the standard's compression function. Likewise the same bytes hashed with two different seeds (byte sequences or integers), or with hmac keys of the same length at most the block size or different integer keys, give different digests, or such a collision. For xxhash_32 and siphash_32 the first part is false: for an explicit seed result() returns the same value twice in a row. For xxhash_64 and xxhash_32 it is false for every integer seed: there is a message (40 or 20 bytes, depending on the seed) after which two consecutive calls of result() return the same value.", "quantifier": "all histories of update and result calls, all pairs of results in one, all seeds and keys, all flavors and environments", "why_tests_cant": "test/multiple_result.cpp compares two consecutive results for one seed; the claim is about all histories and all seeds", "anchors": ["include/boost/hash2/md5.hpp:result", "include/boost/hash2/sha1.hpp:result", "include/boost/hash2/sha2.hpp:result", "include/boost/hash2/ripemd.hpp:result", "include/boost/hash2/hmac.hpp:result, init", "include/boost/hash2/xxhash.hpp:xxhash_32::result", "include/boost/hash2/siphash.hpp:siphash_32", "test/multiple_result.cpp"]}
{"id": "C57", "title": "xxHash has flooding sets for every seed", "statement": "For xxhash_64 (xxhash_32) and every n there are 3^n fixed, pairwise different messages of 64n (32n) bytes which, whatever the seed, have at most 2^n different hash values, and for every seed 2^n of them have the same one; both still hold when common bytes follow. The same holds for std::vector<unsigned char> keys passed to hash_append. (A negative property: the seed does not protect against flooding.) After any history of updates, values and results that ends on a stripe boundary, 2^n of the 3^n messages have the same effect, and no continuation tells them apart.", "quantifier": "all n, all seeds (integers and byte sequences), all environments and flavors", "why_tests_cant": "the claim is about all seeds and all n", "anchors": ["include/boost/hash2/xxhash.hpp:xxhash_32::round, xxhash_64::round, update", "include/boost/hash2/hash_append.hpp:hash_append"]}
{"id": "C58", "title": "Several hash objects and copies are independent under any schedule", "statement": "In a program with any number of hash objects of any algorithms, in which objects are constructed, copied and called in any order, every call succeeds, and each result() returns what it returns in a program with this object only that makes the calls of its history (the calls since its construction, where a copy inherits the history of its original). So interleaving the calls on different objects does not matter, a copy continues like its original, and neither affects the other.", "quantifier": "all programs of constructions, copies and valid calls over any number of objects, all algorithms, environments and flavors", "why_tests_cant": "the number of interleavings is unbounded", "anchors": ["include/boost/hash2/md5.hpp:md5_128", "include/boost/hash2/hmac.hpp:hmac", "include/boost/hash2/hash_append.hpp:hash_append_unordered_range (copies the hash object)", "test/concept.cpp (copy construction and assignment)"]}
{"id": "C59", "title": "Length extension: results of the untruncated cryptographic hashes determine later results", "statement": "For md5_128, sha1_160, ripemd_128, ripemd_160, sha2_256 and sha2_512 with any seed: the digest of an unknown message and the number of bytes processed determine, by an explicit function, the digest of that message followed by its padding and any suffix; and the second result() of an object is determined by the first one, the number of bytes, and what is fed in between. Collisions of equal length extend likewise. (A negative property: a secret seed does not make these objects message authentication codes, use hmac.) Two objects of such a class that have processed equally many bytes and give equal digests give equal results for ever, whatever is done with them next.", "quantifier": "all seeds, messages, splittings into update calls, suffixes, environments and flavors", "why_tests_cant": "ranges over all messages, seeds and suffixes", "anchors": ["include/boost/hash2/md5.hpp:md5_128::result", "include/boost/hash2/sha1.hpp:sha1_160::result", "include/boost/hash2/sha2.hpp:sha2_256::result, sha2_512::result", "include/boost/hash2/ripemd.hpp:ripemd_160::result, ripemd_128::result"]}
{"id": "C60", "title": "One hash value reveals everything a seed contributes", "statement": "For fnv1a_32, fnv1a_64, murmur3_32 and murmur3_128: if two objects, constructed with seeds of the same form, give the same hash for one message, whatever the message, then they give the same results in every program. For xxhash_64 the hash of any message of less than 32 bytes determines an integer seed; for xxhash_32 the hash of one message of less than 16 bytes determines the hashes of all of them, and among integer seeds below 2^32 it determines the seed, among those from 2^32 on it determines all results in every program. (A negative property: the seed does not stay hidden, and it also means that distinct effective seeds never agree on any message.)", "quantifier": "all pairs of seeds, all messages and splittings, all later programs, environments and flavors", "why_tests_cant": "ranges over all pairs of seeds and all messages", "anchors": ["include/boost/hash2/fnv1a.hpp:fnv1a", "include/boost/hash2/legacy/murmur3.hpp:murmur3_32, murmur3_128", "include/boost/hash2/xxhash.hpp:xxhash_64, xxhash_32"]}
{"id": "C61", "title": "Default constructed fnv1a objects ignore zero bytes after certain prefixes", "statement": "A default constructed fnv1a_32 (fnv1a_64) hashes a fixed message of 4 (8) bytes followed by any number of zero bytes, in any pieces, to 0. (A negative property: messages of different lengths collide.)", "quantifier": "all numbers of zero bytes, all splittings, environments and flavors", "why_tests_cant": "infinitely many messages", "anchors": ["include/boost/hash2/fnv1a.hpp:fnv1a::update"]}
{"id": "C62", "title": "Integers are hashed perfectly by algorithms with results of the same width", "statement": "With xxhash_32 or murmur3_32 and integers of 32 bits, or xxhash_64 and integers of 64 bits, signed or unsigned, any flavor and any seed (shorter than the range of size_t): every value of the result type is the hash of exactly one integer. So get_integral_result to a narrower type T yields each value of T for the same number of integers, and of a table of 2^k buckets chosen by the low bits each gets the same number of integers. The same holds of the next result of a hash object with any history that ends in a call of result().", "quantifier": "all seeds, hash values, buckets, table sizes, flavors and environments", "why_tests_cant": "the claim counts all 2^32 or 2^64 integers, for every seed", "anchors": ["include/boost/hash2/xxhash.hpp:xxhash_32, xxhash_64", "include/boost/hash2/legacy/murmur3.hpp:murmur3_32", "include/boost/hash2/hash_append.hpp:do_hash_append (integral types)", "include/boost/hash2/get_integral_result.hpp:get_integral_result"]}
{"id": "C63", "title": "With fnv1a_64, unordered containers collide for every seed and every history", "statement": "Appending an unordered container of unsigned integers (of any size) to an fnv1a_64 object cannot tell {4j, 4j+3} from {4j+1, 4j+2} (multiplied by the value of the last byte appended, 1 for unsigned char): for every n <= 64 there are 2^n different sets of 2n integers that have the same effect, whatever the seed, the data hashed before, and the operations that follow; the same for any element type with four values whose messages differ only in the two low bits of the last byte. (A negative property: random seeds do not protect.)", "quantifier": "all seeds, prior histories, continuations, flavors, environments, integer sizes and choices of bits", "why_tests_cant": "ranges over all seeds and histories, and over 2^64 sets", "anchors": ["include/boost/hash2/hash_append.hpp:hash_append_unordered_range", "include/boost/hash2/fnv1a.hpp:fnv1a::update"]}
{"id": "C64", "title": "Hashing at compile time: arrays and string literals", "statement": "The constexpr functions of the compile-time examples give, for every array, secret and string, at compile time as at run time, MD5 of all bytes of the array, and HMAC-SHA-256 under the secret of exactly the characters of the string without the null terminator, whether char is signed or not.", "quantifier": "all arrays, secrets and strings, with or without constant evaluation, both byte orders, signed and unsigned char", "why_tests_cant": "ranges over all arrays and strings; the examples evaluate one each", "anchors": ["example/compile_time.cpp:md5", "example/compile_time_2.cpp:hmac_sha2_256", "include/boost/hash2/hash_append.hpp:hash_append_range"]}
{"id": "C65", "title": "Hash function objects that append contiguous keys without their size", "statement": "The hash function objects of benchmark/unordered.cpp give for a key that is a vector, string or array the std::size_t value of the result after one hash_append per element, without the size; for a string that is the algorithm's value of exactly its characters; for other keys that of hash_append. Equal keys have equal values; the values do not depend on earlier calls.", "quantifier": "all keys and key types, algorithms, seeds, sequences of calls and environments", "why_tests_cant": "ranges over all keys and sequences of calls", "anchors": ["benchmark/unordered.cpp:compute_hash_value, hash_without_seed, hash_with_uint64_seed, hash_with_byte_seed"]}
{"id": "C66", "title": "Objects with different seeds stay different; with xxHash they can merge", "statement": "Take two objects of one algorithm made with different seeds and give both the same sequence of update, result and hash_append calls (without unordered containers). With fnv1a and murmur3 (seeds of the same form: both integers or byte sequences of one length) either the two seeds are interchangeable from the start or every pair of corresponding results differs. With siphash_64 and siphash_32 (different 16 and 8 byte keys; or any seeds of the same form that are not interchangeable) and spooky2_128 (different integer or up to 16 byte seeds; or longer seeds whose first 16 bytes differ, both shorter than 208 bytes or the same after their first 16 bytes; or seeds whose construction hashes different numbers of 192-byte blocks, as when one is longer than 16 bytes and the other not) the two objects are different after every such sequence: calls never make two keys equivalent. With xxhash_64 and xxhash_32 this fails: the seeds n and n + 2^63 (n + 2^31) differ in the hash of the empty message, but after that one result() call all later results of every program are the same.", "quantifier": "all pairs of seeds, all sequences of calls of any length, flavors and environments", "why_tests_cant": "ranges over all pairs of keys and all histories; a merge of two keys would be a rare event", "anchors": ["include/boost/hash2/siphash.hpp:siphash_64, siphash_32", "include/boost/hash2/xxhash.hpp:xxhash_64::result, xxhash_32::result", "include/boost/hash2/fnv1a.hpp", "include/boost/hash2/legacy/murmur3.hpp", "include/boost/hash2/legacy/spooky2.hpp"]}
{"id": "C67", "title": "Runs of a repeated byte have different fnv1a hashes; very many repetitions of a block have no effect", "statement": "For every seed and every message around it, changing the length of a run of an odd byte changes the fnv1a_32 (fnv1a_64) hash, unless the length changes by a multiple of 2^32 (2^64). Default constructed objects tell apart messages beginning with runs of any one byte (and going on in the same way) whose lengths differ by less than 2^21 (2^52); this bound is sharp: 2^21 bytes of value 124 (2^52 of value 226) at the beginning of a message have no effect. For every seed, 2^32 (2^64) consecutive copies of any block, anywhere in a message, have no effect.", "quantifier": "all bytes, run lengths, surrounding messages, splittings into update calls, seeds, environments and flavors", "why_tests_cant": "test/quality.cpp compares runs of up to 1023 bytes hashed by default constructed objects; the claim is about all lengths, contexts and seeds", "anchors": ["include/boost/hash2/fnv1a.hpp:fnv1a::update", "test/quality.cpp:test_seq_length"]}
{"id": "C68", "title": "Construction with a seed is default construction followed by update() and result()", "statement": "Documented effects of the constructors: md5, sha1, sha2, ripemd, xxhash constructed from (p, n), n > 0, and siphash from a byte sequence that is not of the size of its key, give in every later program of update, result and hash_append calls the results of a default constructed object after update(p, n); result(). Non-zero integer seeds of md5, sha1, sha2, ripemd are the same with the 8 little-endian bytes. fnv1a: the same with update only, so that a seed is nothing but a prefix of the message. murmur3_32 with more than 4 bytes, murmur3_128 and spooky2_128 with more than 16: the first 4 (16) bytes are the seed, then update and result with the others.", "quantifier": "all algorithms named, all seeds, all later programs, environments and flavors", "why_tests_cant": "ranges over all seeds and all later programs", "anchors": ["doc/hash2/reference/md5.adoc:Constructors", "doc/hash2/reference/siphash.adoc:Constructors", "doc/hash2/reference/xxhash.adoc:Constructors", "doc/hash2/reference/fnv1a.adoc:Constructors", "include/boost/hash2/*.hpp constructors"]}
{"id": "C69", "title": "The type determines the number of bytes appended", "statement": "hash_append of a value of a type built from integers, bool, enumerations, pointers, floating point, arrays, tuples, described classes and classes whose tag_invoke appends their parts feeds a number of bytes that depends on the type (and the width of pointers and of the flavor's size_type) only, the sum for the parts (1 for empty arrays, tuples and classes); an unordered container always feeds 8 bytes and its size, whatever its contents. A sequence container of n such elements feeds n times the number of bytes of an element and its size.", "quantifier": "all types and values, flavors, platforms, evaluation modes, prior states", "why_tests_cant": "ranges over all types nested to any depth and all values", "anchors": ["include/boost/hash2/hash_append.hpp:hash_append", "include/boost/hash2/has_constant_size.hpp"]}
{"id": "C70", "title": "Unordered containers contribute at most 64 bits whatever the algorithm", "statement": "For every algorithm (also the cryptographic and keyed ones), seed, flavor, history of calls and n pairs of values: among the 2^n unordered containers holding one value of each pair, at least 2^(n-64) have the same effect, in whatever program follows. So for every integer type with at least 130 values that are not negative there are two different unordered sets of 65 integers below 130 that give the same results ever after. Both hold for any user-defined hash algorithm that meets the documented requirements.", "quantifier": "all algorithms, environments, flavors, seeds, earlier and later programs, element types, values", "why_tests_cant": "an existence claim about 2^n containers for every algorithm, seed and history; nobody can exhibit the sets for a cryptographic algorithm", "anchors": ["include/boost/hash2/hash_append.hpp:hash_append_unordered_range", "include/boost/hash2/get_integral_result.hpp"]}
{"id": "C71", "title": "murmur3 and xxHash are perfectly balanced on messages of one length", "statement": "For every seed and every length L of at least 4 bytes (murmur3_32, xxhash_32 within the range of size_t) or 16 bytes (murmur3_128), or with 8 or more bytes after the last complete 32-byte stripe (xxhash_64): every value of the result type is the hash of exactly 2^(8(L-w)) of the 2^(8L) messages of L bytes, w being the number of bytes of the result; so any n values together are the hashes of n times as many messages, and every value is a hash of some message of that length.", "quantifier": "all lengths of this form, hash values and sets of hash values, seeds, environments, flavors", "why_tests_cant": "a statement about all 256^L messages of every length L and all seeds", "anchors": ["include/boost/hash2/legacy/murmur3.hpp:murmur3_32", "include/boost/hash2/legacy/murmur3.hpp:murmur3_128", "include/boost/hash2/xxhash.hpp:xxhash_32", "include/boost/hash2/xxhash.hpp:xxhash_64"]}
{"id": "C72", "title": "A random seed makes the hash of any one key uniform", "statement": "For every message (of less than one stripe for xxhash_32 and xxhash_64, of any length for murmur3_32), fed in any pieces or given as a value to hash_append, every value of the result type is its hash for exactly one seed of the width of the result; so each value of a narrower integer type obtained with get_integral_result, and each of 2^k buckets, comes from exactly the same number of seeds. For murmur3_128, any message and any 16-byte digest there is exactly one 16-byte seed that gives this digest.", "quantifier": "all messages of this form and partitions into updates, values, hash values, buckets, environments, flavors", "why_tests_cant": "a statement about all 2^32, 2^64 or 2^128 seeds for each of all messages", "anchors": ["include/boost/hash2/legacy/murmur3.hpp:murmur3_32", "include/boost/hash2/legacy/murmur3.hpp:murmur3_128", "include/boost/hash2/xxhash.hpp:xxhash_32", "include/boost/hash2/xxhash.hpp:xxhash_64", "include/boost/hash2/get_integral_result.hpp"]}
{"id": "C73", "title": "An unordered container shows the number of its elements and the sum of their hashes", "statement": "For every algorithm, seed, flavor and history: call the hash of an element the 64-bit integral result of a copy of the hash object after appending the element. Two unordered containers with as many elements and equal sums (modulo 2^64) of the hashes of their elements have the same effect in every program; in particular elements with equal hashes can be exchanged. With xxhash_64 and murmur3_128 freshly constructed from any seed the converse holds: containers of one size with different sums have different results, so replacing one element changes the result exactly if it changes the hash of the element. With xxhash_64, replacing one integer, enumerator or pointer of 1, 4 or 8 bytes by a different one therefore always changes the hash of the container. That containers with as many elements and the same sum have the same effect holds for any user-defined hash algorithm that meets the documented requirements.", "quantifier": "all containers, element types and values (nested to any depth), algorithms, seeds, flavors, environments, earlier and later programs", "why_tests_cant": "ranges over all containers and seeds; a single missed change would contradict it", "anchors": ["include/boost/hash2/hash_append.hpp:hash_append_unordered_range", "include/boost/hash2/get_integral_result.hpp", "include/boost/hash2/xxhash.hpp:xxhash_64", "include/boost/hash2/legacy/murmur3.hpp:murmur3_128"]}
{"id": "C74", "title": "Contiguously hashable values and ranges are passed to a single update() call", "statement": "Documented: hash_append of a value whose type is contiguously hashable under the flavor's byte order (integers, bool, enumerations, pointers and types so specialised, if the byte order is the platform's or the type is endian independent, and arrays of these) issues at run time a single call update(&value, sizeof(value)), whose bytes are the documented message; hash_append_range on pointers to such a type issues a single call with all its elements, for pointers to unsigned char also in constant evaluation; so a contiguous container of such elements makes two calls, the second with the size. In both modes and for both byte orders, hash_append of any scalar and hash_append_size issue exactly one call, with all bytes of the value. This holds for every hash algorithm, user-defined ones included.", "quantifier": "all such types (arrays nested to any depth), values, lengths of ranges, flavors, platforms, algorithms and states", "why_tests_cant": "the tests see results, which do not show how the message was cut into calls; the claim is for every type, value and length", "anchors": ["include/boost/hash2/hash_append.hpp:hash_append", "include/boost/hash2/hash_append.hpp:hash_append_range", "include/boost/hash2/hash_append.hpp:hash_append_size", "include/boost/hash2/is_contiguously_hashable.hpp", "doc/hash2/reference/is_contiguously_hashable.adoc"]}
{"id": "C75", "title": "hash_append acts on the algorithm object only through update()", "statement": "Documented: the effect of hash_append(h, f, v) is to call h.update(p, n) one or more times, and the combined result of these calls forms the message. For every type with update() and result(), whether or not it obeys any law of hash algorithms: without unordered containers, hash_append, hash_append_range, hash_append_sized_range and hash_append_size perform exactly a sequence of calls of update() that depends only on the value, its type, the flavor and the platform, not on the algorithm, its state or its results; every pointer passed is valid for the number of bytes passed (null only with 0 bytes), the bytes passed form the documented message, and there is at least one call unless the argument is an empty range. With unordered containers too, the state hash_append leaves the object in comes from at least one call of update() on it with valid arguments, and from nothing else: result() is only called on copies; and the bytes form the message. hash_append fails only if update() fails.", "quantifier": "all values of all supported types (user-written tag_invoke included), all flavors, platforms, algorithms (no laws assumed) and states", "why_tests_cant": "a claim about every possible hash algorithm and every value; tests run a few algorithms on a few values and only see their results", "anchors": ["include/boost/hash2/hash_append.hpp:hash_append", "include/boost/hash2/hash_append.hpp:hash_append_range", "include/boost/hash2/hash_append.hpp:hash_append_sized_range", "include/boost/hash2/hash_append.hpp:hash_append_unordered_range", "doc/hash2/hashing_objects.adoc"]}
{"id": "C76", "title": "The range functions need one pass over iterators of any kind, and only the elements count", "statement": "hash_append_range, hash_append_sized_range and hash_append_unordered_range accept iterators of every category whose ranges can be traversed once: for a range of n elements they compare first and last n+1 times and dereference and increment the iterator n times each, in the order compare, dereference, increment, and (hash_append_sized_range on random access iterators only) evaluate last - first once; nothing else is done with the iterators. The calls terminate and have exactly the effect of hash_append of the elements (converted to the value_type by hash_append_range and, for random access iterators, hash_append_sized_range; as dereferencing gives them otherwise), then of their number. If dereferencing gives objects of the value_type, the results are those of the same calls on the elements themselves, whatever the iterators, their category and the way the elements are stored: a stream being consumed, a deque and a linked list give what a vector of these elements gives, in every program. hash_append_sized_range is equivalent to hash_append_range and hash_append of the distance, as documented, when the difference_type is as wide as the size_type of the flavor.", "quantifier": "all iterator types (any operations on any state, for which the range can be traversed once and, unless random access, counted in the difference_type), ranges of any length, element types, algorithms, seeds, flavors, environments, surrounding programs", "why_tests_cant": "the tests use a few containers; the claim is for every iterator type and every length, and a second pass or an extra read would only show with single-pass iterators", "anchors": ["include/boost/hash2/hash_append.hpp:hash_append_range", "include/boost/hash2/hash_append.hpp:hash_append_sized_range", "include/boost/hash2/hash_append.hpp:hash_append_unordered_range", "doc/hash2/reference/hash_append.adoc"]}
{"id": "C77", "title": "An exception from user code leaves the hash object usable, fed a prefix of the message; unordered ranges leave it unchanged", "statement": "When an operation of the user that hash_append or a range function calls (an operation of an iterator, begin, data or size of a container, get<I>, a copy of the hash algorithm in an unordered range, code of a tag_invoke) ends with an exception, the hash object is valid and has been fed a prefix of the message the whole call would have fed it: catching the exception and going on gives in every program, with any number of such calls, the results of feeding those prefixes with update. Calls that return have their usual effect. hash_append_unordered_range and hash_append of an unordered container give the strong guarantee: left by an exception, they leave the object as it was before the call. How many operations a call makes depends on its arguments and the flavor, not on the algorithm or what it was fed before. For elements of scalar types the prefix is exactly the elements already read: hash_append_range, hash_append_sized_range, hash_append of a non-contiguous range and of tuple-like classes, and a tag_invoke passing members, have appended exactly the elements whose reading did not throw, and no size.", "quantifier": "all calls (any types, values, ranges, tag_invoke functions), all crash points, algorithms, seeds, flavors, environments, programs before, between and after calls left by exceptions", "why_tests_cant": "the tests have no iterator or tag_invoke that throws; the crash points of all types and ranges at all nesting depths cannot be enumerated", "anchors": ["include/boost/hash2/hash_append.hpp:hash_append_range", "include/boost/hash2/hash_append.hpp:hash_append_sized_range", "include/boost/hash2/hash_append.hpp:hash_append_unordered_range", "include/boost/hash2/hash_append.hpp:hash_append", "include/boost/hash2/hash_append.hpp:detail::do_hash_append"]}
{"id": "C78", "title": "hash_append is neutral to exceptions thrown by the hash algorithm: the updates made before it stand, no others, and unordered ranges change only copies", "statement": "Let the hash algorithm be any class whose update(), copy constructor or result() may throw, having done anything to the object and to the rest of the world. Without unordered containers, hash_append and the range functions call update() with the pieces of the message, the same ones in the same order as when nothing throws, until one throws, and do nothing else. With unordered containers too, the state of the object left behind comes from calls of update() on it of which only the last may have thrown. An unordered range or container copies the object for each element, feeds the copy the element and asks it for its result, and an exception from these leaves the object unchanged; otherwise only the update for the combined value or the one for the size can have thrown. For an algorithm of the library whose operations throw before doing anything (at times that may depend on all earlier operations and their arguments), every program that catches the exceptions and goes on runs to completion, its results are those of the same program with, instead of each call, an update with a prefix of its message (exactly the pieces of the calls that did not throw, if there are no unordered containers; for unordered ranges and containers nothing or the 8 bytes of the combined value), calls that return have their usual effect, and if no operation throws no call does.", "quantifier": "all classes of hash algorithms, all behaviours of their operations, states, calls (any types, values, ranges, tag_invoke functions), algorithms of the library, seeds, flavors, environments and programs", "why_tests_cant": "the tests have no hash algorithm that throws; classes, points of failure and nestings of types cannot be enumerated", "anchors": ["include/boost/hash2/hash_append.hpp:hash_append", "include/boost/hash2/hash_append.hpp:hash_append_range", "include/boost/hash2/hash_append.hpp:hash_append_size", "include/boost/hash2/hash_append.hpp:hash_append_sized_range", "include/boost/hash2/hash_append.hpp:hash_append_unordered_range", "include/boost/hash2/hash_append.hpp:detail::do_hash_append"]}
{"id": "C79", "title": "murmur3: messages that differ only after the last whole group, whatever their lengths, never collide", "statement": "For every seed and after every history that ends in result() (or none), murmur3_32 gives different results for two different messages that begin with the same whole number of 4-byte groups and go on for less than 4 bytes each, and murmur3_128 for two that begin with the same whole number of 16-byte groups and go on for less than 16 bytes each, even if their lengths differ. In particular no two messages of less than 4 (16) bytes collide; nor do two values, of any types without unordered containers, whose messages are like that, such as two strings or vectors of bytes that, after the same whole number of 16-byte groups, are so short that the rest and the size take less than 16 bytes (murmur3_128).", "quantifier": "all seeds, histories that end in result(), messages and their divisions into calls, types, values, flavors and environments", "why_tests_cant": "there are more than 2^120 messages of less than 16 bytes for each state, and 2^128 states", "anchors": ["include/boost/hash2/legacy/murmur3.hpp:murmur3_32", "include/boost/hash2/legacy/murmur3.hpp:murmur3_128", "include/boost/hash2/hash_append.hpp:hash_append"]}
{"id": "C80", "title": "fnv1a: messages of the same length that differ only within 3 (fnv1a_32) or 6 (fnv1a_64) consecutive bytes never collide", "statement": "For every seed and after every history, two messages of the same length that differ, but only within 3 consecutive bytes anywhere, have different results under fnv1a_32, and only within 6 under fnv1a_64. So do values whose messages are like that: distinct values of one type whose messages have the same length of at most 3 (6) bytes, such as integers and enumerators of 1 or 2 (1, 2 or 4) bytes, and strings of the same length that differ only in 3 (6) consecutive characters. One byte more is too many: with the default seed there are 4-byte messages, and 32-bit integers, with the same fnv1a_32, and 7-byte messages, and 64-bit integers, with the same fnv1a_64.", "quantifier": "all seeds, histories, messages, positions, divisions into calls, types, values, flavors and environments (the counterexamples: all environments, little endian flavors for the integers)", "why_tests_cant": "there are 2^96 pairs of 6-byte strings for each of 2^64 states", "anchors": ["include/boost/hash2/fnv1a.hpp:fnv1a_32", "include/boost/hash2/fnv1a.hpp:fnv1a_64", "include/boost/hash2/hash_append.hpp:hash_append"]}
{"id": "C81", "title": "hash_append is neutral to exceptions of the hash algorithm and of other code of users in the same call", "statement": "Let the hash algorithm be any class whose operations may throw, and let the operations of iterators and containers, get<I>() and the code of tag_invoke throw too, in the same call, depending on each other and on everything that happened before. Without unordered containers, hash_append and the range functions perform a sequence of operations of users and calls of update() that depends neither on the algorithm nor on what throws, the updates being the pieces of the message in order, until one of them throws, and do nothing else to the object or to the world. For ranges and containers with iterators these are, for each element, first != last, *first, the element, ++first, and first != last at the end, then last - first if the iterators are random access iterators, and the update for the size; for tuple-like classes get<I>() before each element; for tag_invoke its code before, between and after the calls it makes. Unordered ranges and containers do, for each element, first != last, a copy of the object, *first, the element on the copy, the result of the copy and ++first, and then append the combined value and the number of elements. With unordered containers too, the state of the object left behind comes from calls of update() on it of which only the last may have thrown; an unordered range or container leaves it unchanged unless the update for the combined value or the one for the size throws. For an algorithm of the library whose operations throw before doing anything, every program that catches the exceptions and goes on runs to completion, its results are those of the same program with, instead of each call, an update with a prefix of its message (all of it if the call returned; for unordered ranges and containers that throw nothing, or the 8 bytes of the combined value, and these only if the hash algorithm is what throws), and if no operation throws no call does. If the users' operations do not throw, the calls are those of C78, and if the algorithm does not, those of C77.", "quantifier": "all classes of hash algorithms, all behaviours of their operations and of the operations of users, states, calls (any types, values, ranges, tag_invoke functions), algorithms of the library, seeds, flavors, environments and programs", "why_tests_cant": "the tests have nothing that throws; classes, combinations of points of failure and nestings of types cannot be enumerated", "anchors": ["include/boost/hash2/hash_append.hpp:hash_append", "include/boost/hash2/hash_append.hpp:hash_append_range", "include/boost/hash2/hash_append.hpp:hash_append_size", "include/boost/hash2/hash_append.hpp:hash_append_sized_range", "include/boost/hash2/hash_append.hpp:hash_append_unordered_range", "include/boost/hash2/hash_append.hpp:detail::do_hash_append"]}
{"id": "C82", "title": "fnv1a: the low bits of results depend only on the low bits of the bytes, and are perfectly balanced", "statement": "With fnv1a_32 and fnv1a_64, two programs of calls with the same seed whose updates and hash_append calls append sequences of bytes that agree in the low k bits of each byte get results that agree in their low k bits, all of them. So in a hash table with 2^k buckets, k <= 5, that takes the low bits of the hash, ASCII strings that differ only in the case of letters are always in the same bucket, for every seed and after every history; also with the function objects of the examples, if std::size_t is at least as wide as the result. Conversely, if the bytes of two messages agree in their low k bits except for one byte, then their results differ in the low k bits. For every history, every message and every one of its bytes, each value of the low 8 bits of the result is obtained for exactly one value of this byte. The lowest bit of the result after further bytes is the lowest bit of the result without them plus the sum of the bytes modulo 2, so messages that are rearrangements of the same bytes, and sequence containers with the same elements in different orders, always agree in it.", "quantifier": "all seeds, histories, messages, lengths, divisions into calls, types and values without unordered containers, k up to the width of the result, flavors and environments", "why_tests_cant": "ranges over all seeds, all pairs of messages and all table sizes", "anchors": ["include/boost/hash2/fnv1a.hpp:fnv1a_32", "include/boost/hash2/fnv1a.hpp:fnv1a_64", "include/boost/hash2/hash_append.hpp:hash_append", "example/hash_with_any_seed.cpp:hash", "include/boost/hash2/get_integral_result.hpp:get_integral_result"]}
