# Formal model of itzmeanjan/raccoon in Rocq (Coq 8.16.1)

## Approach

* `rocq/theories/Model*.v` : executable Gallina model of the C++ headers, one definition per
  C++ function, each with a comment citing file and lines.
* `rocq/theories/Spec.v` : small, independent mathematical specification (ring
  Z_q[X]/(X^512+1), centred representatives, rounding, LSB-first bit packing, canonical
  signature code, sampling specifications).
* `rocq/theories/*Proofs.v` : lemmas.
* `rocq/theories/Prop*.v` : only the property theorems, each `exact lemma`, `Print Assumptions`
  below, and an `Example` showing a concrete case meets the hypotheses.

### Machine model

* `uintN_t` values are `Z` in `[0, 2^N)`; every wrapping operation is written with an explicit
  `mod 2^64`. Signed values are `Z`.
* Undefined behaviour is an explicit outcome: `res A := Ok a | UB | OutOfFuel`. Shifts with a
  run-time distance, array accesses of the serialization code, `std::abs(INT64_MIN)`, signed
  arithmetic in `xgcd` are checked and give `UB`.
* Loops with a static trip count are folds; rejection loops (`sampleQ`, `sample_polynomial`,
  `chal_poly`, `sign`) recurse on fuel and return `OutOfFuel` when it is exhausted.
* `std::array` is `list`; in-place mutation returns the new list.

### External code = oracles (universally quantified)

The submodules sha3, ascon and subtle are not in /repo.
* `shake256`: any function from absorbed bytes to an infinite byte stream. Incremental
  absorb/squeeze is assumed to be concatenative.
* `prng_t` (SHAKE128 over std::random_device): any infinite byte stream ("random tape").
* Ascon permutation: any function on five words.
* `subtle::ct_eq`, `subtle::ct_ge`: modelled by their documented contract.

## Plan per property

| id | modelled | proof |
|----|----------|-------|
| C01 | sign, verify, whole stack | encode ok => decode gives same object; ntt(intt x)=x; center bijection; add_mod/sub_mod inverse |
| C02 | op sequences over (sk, pk) | invariant "same pk, same unmasked secret" by induction over the op list, then C01 |
| C03 | verify | refinement to ring-level spec: C05/C06, C22, C29, C24, C25 |
| C04 | decode_sig with UB outcome | expected refuted: concrete witness by vm_compute |
| C05, C06, C07 | encode_sig/decode_sig | bit-list abstraction of the 64-bit buffer, loop invariants |
| C08 | encode_sig | expected refuted: witness |
| C09 | encode/decode_public_key | loop invariant on bit lists |
| C10 | mask_compress/decompress | 49-bit packing loop invariant, sum of shares |
| C11 | same | expected refuted (result of static sampleQ is discarded); layout and fresh seeds as `_partial` (KeyLayout.v) |
| C12 | mrng_t constructor, get, sample_polynomial | refuted (`auto i_share` is a copy, state stays zero); partial: invariant "state i = permutation iterated as often as index i was called" over all histories |
| C13, C14 | refresh, zero_encoding | sum-of-shares invariant over the index loops |
| C15, C16, C17 | field.hpp | via u128 value lemmas; extended Euclid invariant; C17 refuted at 0 |
| C18, C19, C20 | u128.hpp both configurations | value semantics modulo 2^128 |
| C21, C22, C23 | ntt/intt loops | per-layer characterisation, closed form of layers, finite check of the zeta table |
| C24, C25 | chal_poly, sampleQ | refinement to "first accepted chunks of the stream" |
| C26..C28 | add_rep_noise, generate, sign | composition of the above in the ring |
| C29..C31 | check_bounds, center, rounding_shr | arithmetic |
| C32, C33 | chal_hash, verify | list equalities, injectivity, collision extraction |
| C34 | params.hpp | case analysis |
| C35..C38 | utils, `<<`, mask_decompress | induction, witness |
| C39 | masked ops | linearity |
| C40 | rejection loops | fuel sufficiency and monotonicity |
| C41 | serialization on fixed-size memory (ModelMem.v) | every recorded access in bounds, same results as ModelSerial.v |
| C42 | equality loops | induction |
| C43 | not expressible: the operators do not compile (they call non-existent members) | - |
| C44 | ModelLeak.v, ModelLeakSign.v: every operation on words appends an event (operation, array position, branch direction, data-dependent index) to a trace; of the steps of signing on public data and candidates the observer sees arbitrary functions of their inputs | two-run relation; values equal to the functional model; candidates are a function of the unmasked secret and the tape |
| C45 | sign | bound on the response coefficients implied by an undefined shift |
| C46 | zero_encoding, refresh | the network of pairs is connected, so the linear map from mask tuples to zero-sum sharings is onto; translations of mask tuples |
| C47, C48 | masked operator*, masked sampleQ | expected refuted: witness for every d >= 2 / every input |
| C49 | random | words modulo q, counting of preimages |
| C50 | sampleQ, expandA | causal bijections of hash streams between any two polynomials |
| C51 | chal_poly | chunk-wise bijections of hash streams between any two challenges of the same weight |
| C52 | sampleU | chunk-wise rotations of hash streams between any two sample vectors |
| C53 | decode_sig, verify | loop-by-loop equivalence between the UB outcome and a condition on the bit string (SigExact.v) |
| C54 | encode_sig | loop over tagged code words; first word that does not fit is unique; exact result of the following flush (SpecEnc.v, EncExact.v) |
| C55 | sk_sign, sign_loop | loop specification with the exact encoder outcome; attempts are a function of the inputs, so the first non-rejected attempt is unique (SignExact.v) |
| C56 | sk_generate, sk_sign | false for arbitrary hash functions: counterexample oracle ex_U (ExOver.v); partial: bound on responses of generated keys excludes all overruns except at the last coefficient when d <= 4 |
| C57 | api_step, sk_sign, verify, sk_generate | the exact outcome of signing (C55) and verifying (C03, C53) mentions only the hash function, the public key and the shared secret; induction over two histories in lock step, with maintenance calls skipped on either side (MaskIndep.v) |
| C58 | sk_generate, sk_sign, verify | inputs as a datatype (SpecHash.v), injectivity of its encoding; extensionality of the specifications of C03, C27, C55 in the hash function (HashQueries.v); verify call by call with the same waiting bound (HashExact.v) |
| C59 | sk_generate, sk_sign | positions of seeds are a mixed-radix number, hence disjoint; extensionality of C27, C55 in the random stream |
| C60 | prng_of_device, prng_of_seed, prng_reads (ModelMore.v) | induction over the seed loop and over the reads |
| C61 | verify (ModelScheme.v) | exact characterisation of verify (C03) plus ring algebra: rounding and hint errors are bounded, two openings are subtracted |
| C62 | sk_generate, sk_sign (spec relation sign_attempt of C28) | key equation t = round(A s + e) substituted into the hint; norm bounds |
| C63 | mp_zero_encoding, mp_refresh; spec values `wire_value` (SpecProbe.v) | the program passes through the spec accumulators only (loop invariant); core: any t probed partial sums lie in the span fixed by at most t outputs, by induction over the rounds of the butterfly network; translations of the mask tuple as in C46. Masks ideal (uniform, independent) |
| C64 | mp_add_rep_noise; spec states `noise_state` (SpecNoiseProbe.v) | the program passes through the spec states (induction over repetitions); composition of C63 backwards over the repetitions: the input shares needed by repetition i are output shares of repetition i-1; linearity of the states makes the compensating mask changes uniform. Observing the seed or hash output of a noise polynomial counts as observing it |
| C65 | sk_generate stages; spec `secret_row`, `product_row`, `sample_row`, probes `lwire` (SpecSchemeProbe.v) | program passes through the spec shares (C64 per row, matrix product share by share via the one-share product); linear forms of C63/C64 (ProbeLin.v) composed backwards: error rows demand product shares, a product share demands the same share of every secret row, secret rows start from a zero sharing; additivity turns the linear form into a uniform change of masks |
| C66 | sk_sign, whole rejection loop; spec `key_at`, `resp_in`, `resp_row`, probes `awire` (SpecSignProbe.v), calls of one attempt (SignSteps.v) | induction on the loop: attempt n starts from the key refreshed n times; the transform is additive, so refreshings of transformed shares are transforms of refreshings; linear form of one attempt (SignProbe.v) composed backwards over the attempts: the response demands key and nonce shares, the nonce is a C65 secret, the refreshed key of attempt n-1 demands shares of the key before it; additivity gives a uniform change of masks (SignLin.v) |
| C67 | sk_generate, signing attempts; spec `honest_response` (SpecLattice.v) | noise bound of the sampled secret (BoundProofs) times the challenge weight plus the nonce bound, compared with B_inf and B_22 for all 18 parameter sets (PropRejection.v) |
| C68 | verify, decode_sig; spec `claimed_commitment`, `public_matrix`, `bounded_by` | both strings decode to triples with the same challenge; either the challenge inputs differ (collision) or the commitments agree, so the difference of the two openings is a short relation; if the responses agree the hints are determined, so u is not zero (StrongForge.v) |
| C69 | is_power_of_2, log2, is_d_valid | bit k of v and v - 1 for k = log2 v; induction on the exponent (PropPow2.v); false for 0 |
| C70 | verify, pk_to_bytes, pk_from_bytes, sk_sign, byte lengths | the fields used by verification are equal for equal kappa (params_ok_cases), with C01 (PropInterop.v) |
| C71 | sk_sign on one tape; spec `first_accepted`, `response_difference` (SpecReuse.v) | C28's equations for both calls, uniqueness of A and s, ring laws (ReuseProofs.v, PropReuse.v) |
| C72 | sampleQ, chal_poly, expandA, verify; spec `rare` (SpecTail.v) | blocks of b candidates: an unfinished window has a block without progress; counting lists of symbols (CountProofs.v, TailProofs.v, PropTail.v) |
| C73 | sk_generate, sk_sign, sk_refresh, sk_to_bytes, sk_from_bytes; spec `attempt_hash` (SpecTailSign.v) | an unfinished run is traced to the sampler call that did not finish, then C72's windows (TailSign.v, PropTailSign.v) |
| C74 | mp_fill_with (ModelMore.v), mp_decode | induction over the shares (PropFill.v) |
| C75 | sk_from_bytes followed by sk_to_bytes, byte level | d = 1: output = input; d ≥ 2: poly_add of a zero share reduces a 49-bit coefficient once, hence modulo q (2^49 < 2q); injectivity of the 49-bit packing; PropLoad.v |
| C76 | encode_sig and the signing loop with a log of byte stores (ModelTrace.v); spec SpecTrace.v (`replay`, `in_order`, `begins_encoding`) | log dropped = original functions; encoder invariant einv plus "log = written prefix"; per-attempt equations from sign_iter; TraceProofs.v, TraceSign.v, PropCrash.v |
| C77 | calls as programs of single-word accesses to a shared key and of device words, machine with any schedule (ModelConc.v) | evaluator of store-free programs; invariant: the residual program evaluates to what the whole program evaluates to; device indices distinct; access counts bound the steps; refresh: stores of a row; race: two-phase run; ConcProofs.v, ConcRefresh.v, PropConc.v |
| C78 | pk/sk to_bytes with a log of byte stores that survives UB and waiting (ModelSaveTrace.v, log monad); spec SpecTrace.v (`replay`, `in_order`) | log dropped = original functions; log weakest-precondition `lw` with "log = written prefix"; loads of torn buffers by splitting the byte string into public key, seeds and 3136-byte rows; SaveTraceProofs.v, SaveLemmas.v, PropSave.v |
| C79 | sign and verify with message and signature as spans of one memory (ModelAlias.v: each attempt stores into the memory, the message is read from it at the program point where the code reads it) | equality with sign on a separate copy by induction on the attempts (AliasLemmas.v: `sign_loop_at_eq`), then C01; PropAlias.v |
| C80 | sk_generate and pk_to_bytes as they are; spec: `noise` of the tape (SpecVerify.v) | generate_spec (C27): the secret is the noise read from the tape, `noise_ext`; the public key code begins with the seed; a concrete hash for the last clause (SeedLemmas.v); PropSeed.v |
| C81 | field and polynomial operators as they are | from exactness (C15, C16) by laws of mod; polynomials coefficientwise by lemmas on map2, the product in the transform domain (C21, C22); LawLemmas.v, PropLaws.v |
| C82 | u64.hpp, u128.hpp, field.hpp once more as compiled with PREFER_INT128_COMPILER_EXTENSION_TYPE, on Z below 2^128 with undefined shifts as errors (ModelNative.v) | simulation: the relation "holds the same 128-bit number" is preserved by every operator and by the division loop (induction on its iterations), then the field functions operator by operator; NativeProofs.v, PropNative.v |

## Trusted base

* Coq 8.16.1: kernel (and coqchk, which vcheck runs). No plugin, no switched-off check, no axiom of our own.
* `Print Assumptions` below every theorem of the `Prop*.v` files prints "Closed under the global
  context": no theorem depends on any axiom, not even of the standard library. The seven
  `Coq.ssr.ssrunder.Under_rel.*` constants that vcheck reports as library axioms are parameters of a
  sealed module of the standard library that is loaded with it; no theorem uses them.
* The transcription from C++ to Gallina in `Model*.v`, made by hand, function by function, with file
  and lines cited. Nothing is extracted or tested against the binary (the sandbox cannot build it).
* The statements in `Prop*.v` and the specifications they use: `Spec.v` (ring, bit strings, codes,
  sampling), `SpecScheme.v` (keys, signatures, norms), `SpecSig.v`, `SpecEnc.v` (encoder overruns), `SpecHash.v` (hash inputs), `SpecLattice.v` (opening relation, hint bound), `SpecReuse.v` (returned attempt, response difference), `SpecTail.v` (rare sets of windows), `SpecTailSign.v` (challenge hash of an attempt), `SpecProbe.v` (values inside refresh), `SpecNoiseProbe.v` (values inside add_rep_noise), `SpecSchemeProbe.v`, `SpecSignProbe.v` (values inside key generation and signing), `SpecVerify.v`, `SpecApi.v`
  (histories of API calls), `SpecMask.v` (refreshing network), `SpecUniform.v` (bijections of streams), `SpecTrace.v` (effect of a sequence of stores).

### Modelled

| code | model |
|------|-------|
| math/u64.hpp, math/u128.hpp (both builds) | ModelBase.v, ModelU128.v |
| math/field.hpp and u128_t division, msb and comparisons compiled with unsigned __int128 | ModelNative.v |
| math/field.hpp | ModelField.v |
| utility/utils.hpp, rng/prng.hpp (as a tape), rng/mrng.hpp | ModelUtils.v (constructors of prng_t: ModelMore.v) |
| polynomial/poly.hpp | ModelPoly.v (transforms also with checked accesses), ModelMore.v (random) |
| polynomial/masked_poly.hpp, poly_vec.hpp, poly_mat.hpp, challenge.hpp | ModelVec.v, ModelMore.v |
| utility/serialization.hpp | ModelSerial.v; once more in ModelMem.v on fixed-size memory with every access and every write position recorded |
| serialization.hpp encode_sig and the signing loop, with every byte store to the caller's buffer logged in order | ModelTrace.v |
| serialization.hpp encode_public_key, mask_compress and public/secret key to_bytes, with every byte store to the destination logged in order | ModelSaveTrace.v |
| secret_key.hpp sign, public_key.hpp verify over message and signature spans of one memory, which may overlap (stores of one to_bytes in one step) | ModelAlias.v |
| Concurrent member function calls on one skey_t (raccoonNNN.hpp), accesses to its words one at a time | ModelConc.v (sequentially consistent words; each word needed for one purpose read once, in index order) |
| utility/params.hpp | ModelScheme.v (`params_ok` and the validation functions) |
| signature.hpp, public_key.hpp, secret_key.hpp | ModelScheme.v |
| raccoon128/192/256.hpp | ModelApi.v |
| the same routines for field, polynomials, masked polynomials, key generation, signing up to the response, key packing, as traces | ModelLeak.v, ModelLeakSign.v |

### Not modelled

* SHAKE, the Ascon permutation, `subtle`: oracles or documented contract (see above). All theorems
  hold for every choice of the oracles, also bad ones; nothing is assumed about collisions or
  pseudorandomness. Statements about security are reductions to equal hash outputs (C33) or to
  ideal masks (C46).
* The values of `std::random_device` and SHAKE128 itself: the tape is universally quantified; the seeding loop of `prng_t`
  is modelled (ModelMore.v, C60).
* C++ object lifetime, templates (instantiated by the parameters of the model), `constexpr`
  evaluation, `reinterpret_cast` in `zq_t::random` (little-endian host assumed), exceptions (none are
  thrown), concurrency (the code has no shared mutable state).
* Stack and time consumption, compiler, machine instructions, caches.
* tests, benchmarks, the Python scripts.
* `operator==` of `pkey_t` and `skey_t`: ill-formed (C43).

## What the proofs found

* C04: `verify` shifts by 64 on an explicit signature string of valid length (a hint or response code
  word cut by the 64-bit window of the decoder). C53 gives the exact set of such strings.
* C56: signing with a generated key can be undefined for some hash functions (encoder buffer overrun by a response
  coefficient of 2^43 that satisfies the norm bounds). C54 and C55 give the exact conditions.
* C08, C45: the encoder's 64-bit buffer overflows (undefined shift) on responses inside the norm
  bounds; exactly characterised by `buffer_fits`.
* C11: `mask_compress`/`mask_decompress` call the static `sampleQ` on an object and drop its result: the
  serialized key holds the unmasked secret.
* C12: the constructor of `mrng_t` fills copies (`auto i_share`): all generators start from the zero
  state, so all masks are predictable and equal between shares.
* C17: unary minus of 0 is q, which is not canonical.
* C20: in the `__int128` build rotations by 0 and 128 shift by the full width.
* C38: secret keys with coefficients in [q, 2^49) are accepted unreduced.
* C43: `operator==` of the key types cannot be instantiated.
* C47: masked `operator*` is not a masked product. C48: masked `sampleQ` does nothing.

## Testing the theorems

`seeded/LOG.jsonl` records, for each wrong program, the definition edited, the edit, the claim it
breaks, the lemmas whose proof failed, the property theorems that thereby fall, and the theorems
tightened. The edits are applied to a scratch copy; a script replaces each failing proof by Admitted
until the copy builds and then asks Print Assumptions which property theorems rest on them.
