# Formal model of Boost.Hash2 (pdimov/hash2) in Rocq/Coq 8.16.1

## 1. Layout

| layer | files | contents |
|-------|-------|----------|
| machine | `Base.v`, `BaseFacts.v`, `Words.v`, `Bits.v` | outcomes, pointers, memory primitives, `detail/read.hpp`, `detail/write.hpp`, `detail/rot.hpp`, `detail/mem*.hpp` |
| models | `Model*.v` | one Gallina function per C++ function, each citing file and lines |
| specifications | `Spec*.v` | the published algorithms (RFC 1321, FIPS 180-4, RIPEMD, SipHash, XXH, FNV, MurmurHash3, SpookyHash V2, RFC 2104), written from the standards in their own style; `SpecAppend.v`: the documented message of `hash_append` |
| generic theory | `Gen.v`, `GenMD.v`, `GenBlk.v`, `Hasher.v`, `Loops.v` | block buffering, Merkle-Damgard classes, hashers and histories |
| class proofs | `Proof{Md5,Sha1,Ripemd,Sha2,Sip,Xxh,Fnv,Murmur,Spooky*,Hmac*}.v` | model refines specification |
| programs | `Types.v`, `Behaves.v`, `Instances.v`, `ProofRuns.v`, `ProofObj.v`, `ProofMsg*.v`, `ProofAppend.v` | type universe, programs of calls on any algorithm |
| properties | `Props*.v` (and the float bridge `ProofFloat.v`) | the theorems `Cnn_...`, with non-vacuity examples |
| audit | `Assumptions.v` | `Print Assumptions` for all property theorems |

## 2. How the code is modelled

* **Machine words and bytes** are `N` with explicit `mod 2^8/2^32/2^64` wraps; byte strings are `list N`.
  Lengths and buffer positions (`m_`, `n`) are `nat`; the running counters `n_` are `N` with the wrap
  of their C++ type. Where a counter is `size_t` its width (2^32 or 2^64) is a parameter (`e_cw`).
* **Environment** (`Instances.v`, `env`): native byte order, constant or run-time evaluation, pointer size,
  width of `size_t`, nullness of the data pointer of an empty range, rounding direction, NaN results,
  and the contents of uninitialised buffers (murmur3, spooky2) are all parameters; the theorems hold
  for every environment.
* **Undefined behaviour is an outcome**: `res A := Ok a | UB | AssertFail | OutOfFuel`.
  `memcpy`/`memset`/block reads are bounds-checked against the source object and the
  destination buffer; a pointer can be `Null` (and `memcpy` from `Null` is `UB` even
  for zero bytes at run time). `BOOST_ASSERT(e)` is `AssertFail` if `e` is false; signed overflow
  in the promoted multiplication of `get_integral_result` is `UB`. A rotation
  by an out-of-range count returns a poison value (2^w) no specification produces.
* **Loops** are structural recursions or fuelled loops returning `OutOfFuel`, which the theorems exclude
  (`runs ... = Ok _`).
* **Unrolled transforms** (md5, sha1, ripemd) are instruction lists, one entry per C++ line, run by a
  register interpreter.
* **`hash_append`** (`ModelAppend.v`) is a recursive function over a universe of types
  (`Types.v`): bool, integers of the four widths, enumerations, pointers, `nullptr_t`, float, double, C arrays,
  `std::array`-like constant-size ranges, contiguous / random access / forward ranges with size, strings, unordered
  containers, tuple-likes, described classes with bases and members, classes with a
  `tag_invoke` appending a fixed list of parts, discriminated unions whose `tag_invoke` appends the index
  of the alternative before or after it, classes whose `tag_invoke` makes an arbitrary list of calls depending on the object, and user types with specialised `is_trivially_equality_comparable` /
  `is_endian_independent` (with an arbitrary function giving their storage bytes). The branch taken by each type is tied to the C++ overload set by
  `ModelDispatch.v` (conditions of every `enable_if`, partial ordering, ambiguity) and
  `C42_model`.
* **Programs** (`Behaves.v`): lists of `update(p,n)`, `result()`, `hash_append`,
  `hash_append_range`, `hash_append_sized_range`, `hash_append_unordered_range` and `hash_append_size` calls, starting
  from any constructor. `runs e a f c xs` is the list of results of program `xs` on algorithm `a`, constructor `c`,
  flavor `f`.
* **Specification adequacy**: the specifications are separate from the models, use
  different formulations (index formulas, recursions on the whole message), and are tested on published vectors;
  the constant tables are derived from their mathematical definitions where they have one (`PropsConstants.v`).

## 3. Properties, theorems, and how they are proved

| id | theorems | method |
|----|----------|--------|
| C01 | `C01_chunking` | every class refines an abstract machine whose update appends to a list |
| C02-C07 | `C02_md5` ... `C07_ripemd128` | instruction list = table of the standard, buffered refinement, padding lemma |
| C08-C12 | `C08_*` ... `C12_*` | refinement of block loops and tails to the published functions; `C12_spooky_exact` is exact (success and failure) |
| C13, C39 | `C13_hmac`, `C39_hmac_history` | hmac over a generic hasher record, instantiated 10 times |
| C14, C15 | `C14_zero_seed`, `C15_*` | equality of start states of the abstract machines |
| C16, C17 | positive theorems; `_refuted` | injectivity of the seeding maps; witnesses and families of collisions |
| C18, C19 | `C18_no_failure`, `C19_empty_update`; `_refuted` | totality in the `res` monad over all programs |
| C20 | `C20_result_clears`, `C20_no_stale_bytes` | invariant on the concrete buffers |
| C21 | `C21_segments`, `C21_virtual_message` | refinement |
| C22 | `C22_*` | Hull-Dobell: full period of the LCG-like map of fnv1a |
| C23 | `C23_*` | injectivity of the finalisers in the counter; counterexamples |
| C24, C25 | `C24_*`, `C25_portable` | expected results do not mention the environment |
| C26-C32, C40, C41 | `C26_*` ... | message function over types, unique parsing by induction, floats through Flocq; the flavors provided: `PropsFlavors.v` |
| C33, C34 | `C33_*`, `C34_*` | modular arithmetic (odd multipliers), balance by counting preimages |
| C35, C36 | `C35_*`, `C36_*` | list lemmas |
| C37, C38 | `C37_*`, `C38_*` | base-256 arithmetic, bitwise extensionality |
| C42 | `C42_*` | case analysis over all trait combinations |
| C44 | `C44_*` (`PropsTraits.v`) | erasing specialisations leaves the message unchanged, induction on types |
| C45 | `C45_*` (`UserAlg.v`, `PropsUser.v`, `PropsUserAppend.v`) | hash_append over any record meeting the requirements, by the same induction on types |
| C46 | `C46_*` (`PropsUserHmac.v`) | hmac's history theorem in terms of the requirements alone |
| C47 | `C47_*` (`ModelExamples.v`, `ProofRange.v`, `PropsObjects.v`) | objects as programs of C01-C44; range of results; injectivity of get_integral_result The same templates over any user-defined algorithm (`UserAlg.v`): `PropsUserObjects.v`. |
| C48, C49 | `C48_*`, `C49_*` (`PropsTools.v`) | doubling of results in a history; read loop as a sequence of updates |
| C50 | `C50_*` (`PropsLong.v`) | the abstract machines have no length bound; injectivity of rounds and finalisers for the refutations |
| C51 | `C51_*` (`PropsInvoke.v`) | replacement of one call by several in a program; parsing for the documented classes |
| C52 | `C52_*` (`ProofUnfold.v`, `PropsInvoke.v`) | values of an unfolding are values of the deeper ones, and all notions agree on them; induction on depth |
| C53 | `C53_*` (`ProofLocal.v`, `PropsLocal.v`, `PropsLocal64.v`, `PropsLocalKeys.v`, `PropsFlood.v`) | every step is a bijection of the state for fixed input and of the input for fixed state (inverse multipliers, rotations); induction on blocks After any history: `PropsLocalHistory.v`. |
| C54 | `C54_*` (`PropsFlood.v`, `PropsAnywhere.v`) | flipping the top bit commutes with addition and odd multiplication; induction on the number of blocks |
| C55 | `C55_*` (`ProofReduce.v`, `PropsReduce.v`) | Merkle-Damgard reduction, backwards induction on the blocks; composed with C28 |
| C56 | `C56_*` (`PropsRepeat.v`, `PropsFix.v`) | the digested messages of a history grow strictly in length, so they are pairwise different; C55; explicit seeds for the counterexamples |
| C57 | `C57_*` (`PropsCrowd.v`, `PropsAnywhere.v`) | two of three fixed values of a stripe pair leave the same accumulators for every accumulator value; counting and pigeonhole over n pairs |
| C58 | `C58_*` (`PropsMany.v`) | simulation: each object of the store is in the state its history leads to; induction over the program |
| C59 | `C59_*` (`PropsExtend.v`) | the digest's words are the chaining value; the padding completes a block, so the fold over the blocks splits |
| C60 | `C60_*` (`PropsReveal.v`) | every step is a bijection of the state for a fixed message; a simulation carries equal states through every program |
| C61 | `C61_*` (`PropsZero.v`) | 0 is a fixed point of the step on a zero byte; induction on their number |
| C62 | `C62_*` (`PropsEven.v`) | injective by C53, onto by the pigeonhole principle; counted through a bijection After any history: `PropsEvenHistory.v`. |
| C63 | `C63_*` (`PropsFnvSets.v`) | (x ^ b) + (x ^ b ^ 3) = (x ^ b ^ 1) + (x ^ b ^ 2), multiplied by the prime; the sums agree in every state |
| C64 | `C64_*` (`ModelBench.v`, `PropsBench.v`) | the function bodies are programs; C02, C13, C41 apply |
| C65 | `C65_*` (`ModelBench.v`, `PropsBench.v`) | as C47; the range call is a sequence of hash_append calls (C41) |
| C66 | `C66_*` (`ProofMerge.v`, `PropsMerge.v`) | the block and final functions (SipRound, Mix, End, the murmur3 block) are injective in the state; induction over the calls on a relation "same count and pending bytes, different states"; for xxhash the first result() cancels half of the seed. `C66_spooky_lengths`: the byte counter is a member and calls advance both by the same amount, so seeds whose construction counts different numbers of blocks (`counted`) stay apart while the counter does not wrap |
| C67 | `C67_*` (`ProofFnvRuns.v`, `PropsFnvRuns.v`) | an octet step acts linearly above the low byte, so once an orbit doubles at bit n >= 8 it doubles at every later bit (geometric sums, as in C22); the start is a computation modulo 2^9 .. 2^14 for each byte; for blocks: a bijection that respects all low-bit congruences has orbits of length dividing 2^w |
| C68 | `C68_*` (`PropsCtors.v`) | the abstract state after the documented calls is the start state of the constructor, then any program |
| C69 | `C69_*` (`PropsCount.v`) | induction on types, on the recorded input |
| C70 | `C70_*` (`PropsUnord.v`) | pigeonhole principle on the 64-bit sums of the elements' results, then the state reached is the same User-defined algorithms: `PropsUserSets.v`. |
| C71 | `C71_*` (`PropsBalance.v`) | the hash is one-to-one in one word of the message (C53), hence onto by counting; enumeration of the byte sequences of a length |
| C16, C17, C59 (cont.) | `C16_results32_refuted` (`PropsSeeds32.v`), `C17_md_refuted`, `C17_every_algorithm_refuted`, `C59_forever` (`PropsForever.v`) | pigeonhole over the 32-bit results / over the chaining values; simulation between histories with equal chaining values |
| C72 | `C72_*` (`PropsRandom.v`) | the hash of a fixed message is one-to-one in the seed (C60), hence onto by counting |
| C73 | `C73_*` (`PropsSets.v`) | the message of an unordered container is the sum of the elements' results and the size; C53 for the converse User-defined algorithms: `PropsUserSets.v`. |
| C74 | `C74_*` (`PropsCalls.v`) | case analysis on types; the object representation is the message (C44); an algorithm that records its calls for containers |
| C75 | `C75_*` (`PropsUpdates.v`) | induction on types, for an arbitrary algorithm (no laws): the calls are one list for all algorithms; its bytes by running the recording algorithm; unordered containers by a second induction (outcomes of the object only) |
| C76 | `C76_*` (`ModelIter.v`, `PropsIter.v`) | the loops over iterators whose operations act on an arbitrary state (a stream, nodes, a log), by induction on the traversal; then C41 and C31; the operations by running the loops on the same iterators with a log |
| C77 | `C77_*` (`ModelThrow.v`, `ProofThrow.v`, `PropsThrow.v`) | the functions of `ModelAppend.v` once more with a crash point at every operation of the user, a number n of which succeed; induction on the type: what was fed is a prefix of the message (`xcall_feeds`), and the number of crash points does not depend on the algorithm (`call_points`) |
| C78 | `C78_*` (`ModelThrowAlg.v`, `ProofThrowAlg1.v`, `ProofThrowAlg2.v`, `PropsThrowAlg.v`) | the functions of `ModelAppend.v` over a record of operations that may throw and that read and change an arbitrary world; induction on the type: without unordered containers the function is "these updates until one throws" (`call_efixed`), and in general comes from updates (`call_edoes`); for the library's algorithms guarded by an arbitrary policy, what was fed is a prefix of the message (`xcall_feeds`) |
| C79 | `C79_*` (`ProofTails.v`, `PropsTails.v`) | the result determines the last group, mixed, xor the length. Mixing is multiplication, rotation, multiplication; a difference e of the outputs, smaller than the group, gives one of four differences of the inputs modulo 2^w (two carries), all computed and found larger than inputs of less than a whole word can have (`key_apart`). So the lengths agree, and C53 applies |
| C80 | `C80_*` (`ProofWindow.v`, `PropsWindow.v`) | the difference of the states of two runs is a sum of numbers of absolute value at most 510, times consecutive powers of the prime, modulo 2^w. If it is 0, combinations of it found by lattice reduction (the certificate, checked by `lia`) are equations between integers, enough to make all the numbers 0 (`three`, `six`), hence the bytes equal. The counterexamples are computed |
| C81 | `C81_*` (`ModelThrowBoth.v`, `ProofThrowBoth1.v` to `ProofThrowBoth4.v`, `PropsThrowBoth.v`) | the functions of `ModelThrowAlg.v` with the operations of users of `ModelThrow.v` put in, all over one arbitrary world; induction on the type: without unordered containers the function is a fixed sequence of operations and updates until one throws (`call_bfixed`), and in general comes from updates (`call_bdoes`); for the library's algorithms guarded by an arbitrary policy, what was fed is a prefix of the message (`bcall_feeds`). The models of C78 and C77 are equal to this one when the other side does not throw (`alg_only_call`, `user_only_call`) |
| C82 | `C82_*` (`PropsLowBits.v`) | xor and multiplication by the odd prime act on the residues modulo 2^k, and are injective there; induction over the bytes and over the calls; exactly one value by an injection of 256 values; the lowest bit is a sum because the prime is odd (`C82_parity`, `C82_anagram`); the message of a permuted sequence is a permutation of its bytes (`C82_sequences`) |
| C43 | `C43_*` | the integer-root functions are proved to be roots, `primes_below` to list the primes; sines by Taylor bounds of the standard library at 1 and the addition formulas with an error bound |

Every property is expressed in the model; `MANIFEST.json` lists the exact theorem names.

## 4. Findings (code or documentation against the expected property)

* `sha2_base::update` lacks the `if( n == 0 ) return` of the other classes: `update(nullptr, 0)` with a partially filled
  buffer, and so `hash_append` of an empty `vector`, reaches `memcpy` with a null source
  (`C19_sha2_null_refuted`, `C19_append_empty_refuted`).
* SHA-512 family: only the low 64 bits of the 128-bit length are written (`C05_long_refuted`).
* Distinct seeds giving equal hashers, contrary to the documented requirement: `C16_xxhash32_refuted`, `C16_xxhash32_collisions`,
  `C16_fnv32_refuted`, `C16_fnv64_refuted`, `C16_murmur32_refuted`, and the C17 families.
* murmur3: consecutive `result()` calls may repeat when the number of bytes is not a multiple of the block
  (`C23_*_unaligned_refuted`).
* spooky2_128 trips its own `BOOST_ASSERT` once the number of bytes reaches 2^(width of `size_t`)
  (`C18_spooky_overflow_refuted`; 192 does not divide 2^32 or 2^64).
* `xxhash_32` keeps its byte count in a `size_t`: when it wraps to less than 16 (2^32 bytes on a 32-bit platform) the result is
  not XXH32 and ignores three quarters of the message (`C50_xxh32_refuted`, `C50_xxh32_wrapped`); `murmur3_128` with 32-bit `size_t`
  never has the reference value from 2^32 bytes on (`C50_murmur128_refuted`).
* `get_integral_result<uint8>` of a 16-bit result overflows `int` above 43918 (`C33_16_to_8_refuted`).
* `v + 0` does not normalise `-0.0` when rounding towards minus infinity (`C27_downward_refuted`).
* The documentation gives `tag_invoke` priority; in the code a type with `tag_invoke` that also falls in another
  category is ambiguous (`C42_ambiguous_refuted`).
* The documentation says `is_contiguously_hashable` is correct whenever the two underlying traits are; a class whose
  `tag_invoke` visits members in another order than storage is a counterexample (`C44_order_refuted`). The documented
  enumeration example (a coarser `operator==`, trait specialised to false) still hashes equal values differently
  (`C44_enum_refuted`).
* The `tag_invoke` of the documentation's inline string example takes an `X const&` where `Str const&` is meant
  (`hashing_objects.adoc:429`).
* `xxhash_64`: two 32-byte messages that differ in one bit have the same hash with the default seed
  (`C53_xxh64_stripe_refuted`, `C53_xxh64_keys_refuted`). This is inherent in XXH64, not an error of the implementation.
* murmur3: 2^n messages colliding for every seed, although the documentation recommends seeding against hash flooding
  without restricting it to suitable algorithms (`C54_murmur32`, `C54_murmur128` and their `_keys`).
* `xxhash_32` and `siphash_32`: `result()` may return the same value twice in a row (`C56_xxhash32_refuted`,
  `C56_siphash32_refuted`), which `test/multiple_result.cpp` checks not to happen on samples; unavoidable at 32 bits.
* `xxhash_64` and `xxhash_32`: for every integer seed there is a message after which two consecutive calls of
  `result()` return the same value (`C56_xxhash64_refuted`, `C56_xxhash32_always`): the final padding and
  the length can be compensated by the state.
* `xxhash_64` and `xxhash_32`: of 3^n fixed messages, whatever the seed, many collide (`C57_xxh64`,
  `C57_xxh32`): the seed does not protect a hash table against flooding.  Use SipHash or an HMAC for this.
* Length extension (`C59_*`): with a secret seed, `md5_128`, `sha1_160`, `ripemd_*`, `sha2_256` and `sha2_512` do
  not authenticate messages, and the second `result()` of an object is computable from the first.  Use `hmac`.
* The seed of `fnv1a`, `murmur3` and `xxhash` does not stay hidden: one hash value determines what it contributes
  (`C60_*`).
* A default constructed `fnv1a` object reaches the state 0 after 4 (8) certain bytes, and then ignores zero bytes
  (`C61_*`).
* Unordered containers hashed with `fnv1a_64` collide whatever the seed: `{0, 3}` and `{1, 2}` of `unsigned char`
  (`C63_*`).
* The documentation calls RIPEMD-128 "a truncated variant of RIPEMD-160" (hashing_bytes.adoc:299); it is not
  (`C07_truncation_refuted`).
* `xxhash_64` objects with the seeds n and n + 2^63 (`xxhash_32`: n and n + 2^31) become the same object when `result()`
  is called before any data (`C66_xxhash64_refuted`, `C66_xxhash32_refuted`).
* 2^21 leading bytes of value 124 (`'|'`) do not change the hash of a default constructed `fnv1a_32`
  (`C67_fnv32_run_limit`), and 2^32 copies of any block do not change any fnv1a_32 hash (`C67_fnv32_blocks`).
* An unordered container adds only a 64-bit sum and its size to the message, so with *every* algorithm,
  hmac_sha2_512 included, and every key, there are two different sets of 65 small integers with the same
  effect in all programs, and 2^64 sets of 128 unsigned chars (`C70_collision`, `C70_integers`).
* "Different seed sequences produce differently initialized instances" (`doc/hash2/hashing_bytes.adoc:104`) fails for every
  algorithm: `C17_every_algorithm_refuted` (`PropsForever.v`) gives two seeds that no program can tell apart, for the
  Merkle-Damgard classes by counting chaining values (`C17_md_refuted`). "Instances of the hash algorithm initialized by
  different seeds produce different hash values when passed the same message" (`hashing_bytes.adoc:89-91`) fails for every
  message and every algorithm with 32-bit results (`C16_results32_refuted`, `PropsSeeds32.v`).
* `hash_append_sized_range` is documented as "Equivalent to `hash_append_range(h, f, first, last); hash_append(h, f, m);`, where `m` is
  `std::distance(first, last)`". It is not: the size is converted to `Flavor::size_type` (`C76_distance_refuted`: with a 32-bit `size_type`, or on
  platforms with a 32-bit `ptrdiff_t` and the default flavor, the results differ; `C76_distance` proves the equivalence where the widths agree), and
  for iterators below random access it hashes `*first` in its own type where `hash_append_range` converts to the `value_type`, so for iterators whose
  `reference` is another type than `value_type` the two differ, and the same elements hash differently through iterators of different categories
  (`C76_conversion_refuted`). `hash_append_unordered_range` never converts to the `value_type`. The same difference of size shows in its description.
* murmur3 never confuses messages that differ only in the last, incomplete group, whatever their lengths (C79), though it xors the length with that group, mixed:
  the constants happen to keep the two apart.
* fnv1a_32 (fnv1a_64) is injective on 3 (6) bytes from every state, and not on 4 (7): with the default seed the `unsigned` values 0xe8e866c3 and 0x35935730
  have the same fnv1a_32, and two values of `unsigned long long` the same fnv1a_64 (`C80_int32_refuted`, `C80_int64_refuted`).
* The low k bits of fnv1a results depend only on the low k bits of the bytes (C82): in a table that takes the low bits of the result, keys that differ only in the case of letters share a bucket if there are at most 32 buckets, whatever the seed (`C82_case`). The lowest bit is the same for all rearrangements of the bytes of a message (`C82_anagram`).
* Sizes are appended after the elements, so a user `tag_invoke` that appends a discriminator *before* the payload
  produces colliding messages inside larger types (`C28_index_first_refuted`); appending it last is safe.

## 5. Trusted base

* Coq 8.16.1's kernel (and `coqchk`), including its `vm_compute` machine where used.
* `Print Assumptions` (run in `Assumptions.v`): all property theorems are **closed under the global
  context**, except those of `ProofFloat.v`, `PropsFloat.v` (floating-point addition related to IEEE 754 through Flocq)
  and the sine table in `PropsConstants.v`,
  which use the axioms of the standard library's reals:
  `ClassicalDedekindReals.sig_not_dec`, `ClassicalDedekindReals.sig_forall_dec`,
  `FunctionalExtensionality.functional_extensionality_dep`, `Classical_Prop.classic`.
* `coqchk` lists, as part of the loaded standard library (`Coq.ssr.ssrunder`), the fields of the module
  `Under_rel`: `Under_rel`, `Under_rel_from_rel`, `Under_relE`, `Over_rel`, `over_rel`, `over_rel_done`,
  `under_rel_done`; and, since the float files load the reals, the fields of the sealed modules of
  `Coq.Reals.Rdefinitions` (`RbaseSymbolsImpl.{R,Rabst,Rrepr,Rquot1,Rquot2,R0,R1,Rplus,Rmult,Ropp,Rlt,R0_def,R1_def,
  Rplus_def,Rmult_def,Ropp_def,Rlt_def}`, `RinvImpl.{Rinv,Rinv_def}`): definitions hidden behind a module type,
  not assumptions. No theorem depends on the former.
* No axiom, parameter, section-less variable, functor or module type is declared here.
* The faithfulness of the models to the C++ text (read, not executed), and of the `Spec*.v` files to the standards.
* The C++ language facts built into the model: unsigned wrap-around, integral promotion, two's complement, `memcpy` semantics,
  evaluation order of the statements modelled, IEEE 754 for `float`/`double`.

## 6. Modelled and not modelled

Modelled: every function body in `include/boost/hash2/{md5,sha1,sha2,ripemd,siphash,xxhash,fnv1a,murmur3,spooky2,hmac,
digest,get_integral_result,flavor,hash_append}.hpp` (murmur3 and spooky2 are under `legacy/`) and in `detail/{read,write,rot,memcpy,memset,memcmp,is_constant_evaluated,
sha2 constants}`, the dispatch conditions of `hash_append.hpp`, and the traits `is_trivially_equality_comparable`,
`is_endian_independent`, `is_contiguously_hashable` for the built-in types and for user types that specialise them.
`Tests.v` and `Tests2.v` evaluate expectations of the library's own test suite in the model (157 of the
hash_append, xxHash and MurmurHash tests, and the vector tables of the MD5, SHA, RIPEMD, HMAC, SipHash, FNV and
SpookyHash tests): a check of model faithfulness only.  `Tests2.v` states no theorems: the build evaluates its booleans and
fails unless they are true.

Simplified or not modelled:
* `tag_invoke` is modelled as an arbitrary function from the object to the list of `hash_append*` calls it makes (a direct
  call of `update` is the same as one of these calls: `C51_update`); recursive classes are represented by their finite unfoldings, proved immaterial in C52; a direct specialisation of `is_contiguously_hashable` is not modelled;
* the mapping from C++ types to trait vectors (`traits_of`) for standard containers is stated, not derived from their headers;
* `difference_type`/`size_type` of containers are natural numbers (no container holds more than 2^63 elements); `ModelIter.v` models the counting in the
  `difference_type` of iterators of class types;
* pointers are (object, offset) pairs given as the remaining bytes; aliasing of the input with the hasher's own buffer is excluded;
* `long double`, `__int128`, and platforms without 8/16/32/64-bit types;
* of `/repo/example`: modelled are the hash function objects, `hash_32_64`, `xxhash_128`, `md5sum` and `hash2sum` (standard output and exit
  code), and the functions of `compile_time*.cpp`; Boost.Endian's `store_little_u64` is taken as a little-endian store; of `/repo/benchmark`:
  the hash function objects of `unordered.cpp` (the rest only measures time);
* exceptions thrown by constructors of hash algorithms and by destructors (the other exceptions of users' classes inside `hash_append` are in C77, C78 and C81), allocation, threads, timing (constant-time behaviour), compile errors other than those of C42;
* `hash_append_fwd.hpp` (declarations only).
