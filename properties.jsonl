{"id": "C01", "title": "Every produced signature verifies", "statement": "If signing a message with a secret key object returns, then verifying the returned bytes for the same message under the public key held in that secret key returns true.", "quantifier": "every parameter set (3 levels x 6 masking orders), every secret key object (also ones built from arbitrary bytes), every message, every random-device output, every hash function behaviour, every number of internal retries", "why_tests_cant": "A test signs a handful of messages with one random tape each; keys, messages and random tapes are unbounded and rare tapes take different retry/encoding paths.", "anchors": ["include/raccoon/internals/secret_key.hpp: skey_t::sign", "include/raccoon/internals/public_key.hpp: pkey_t::verify", "include/raccoon/internals/signature.hpp: sig_t"]}
{"id": "C02", "title": "Any history of key operations keeps the key pair working", "statement": "Starting from a generated or deserialized key pair, after any sequence of refresh(), serialize+deserialize of the secret key and serialize+deserialize of the public key, the unmasked secret and the public key are unchanged and a signature made by the resulting secret key verifies under the resulting (and the original) public key.", "quantifier": "every finite sequence of refresh / secret key round trip / public key round trip, every random tape, every message", "why_tests_cant": "The space of operation sequences is infinite; the test runs one fixed sequence.", "anchors": ["include/raccoon/internals/secret_key.hpp: refresh, to_bytes, from_bytes, sign", "include/raccoon/internals/public_key.hpp: to_bytes, from_bytes, verify"]}
{"id": "C03", "title": "Verification accepts exactly the mathematically valid signatures", "statement": "verify(msg, sig) returns true if and only if sig is the canonical encoding of some (c, h, z) whose code words fit the decoder window, the norm bounds hold, and c equals the challenge hash of round(A*z - 2^nu_t*t*c_poly) + h modulo q>>nu_w and of the message digest bound to the public key, all products being negacyclic products in Z_q[X]/(X^512+1).", "quantifier": "every public key object, every message, every signature byte string of the fixed length, every hash behaviour", "why_tests_cant": "An if-and-only-if over all 2^(8*11524) byte strings cannot be sampled; NTT, packing and modular shortcuts must agree with ring arithmetic on every input.", "anchors": ["include/raccoon/internals/public_key.hpp: pkey_t::verify", "include/raccoon/internals/utility/serialization.hpp: decode_sig", "include/raccoon/internals/signature.hpp: check_bounds"]}
{"id": "C04", "title": "Verifying attacker-chosen bytes has no undefined behaviour", "statement": "verify() on any signature byte string of the right length executes no undefined operation (out-of-range shift, out-of-bounds access).", "quantifier": "every signature byte string", "why_tests_cant": "Only byte strings with a unary run ending exactly at the 64-bit window edge trigger it; random bit flips do not.", "anchors": ["include/raccoon/internals/utility/serialization.hpp: decode_bits_as_hint_coeff, decode_bits_as_response_coeff, decode_sig, get_bit_at"]}
{"id": "C05", "title": "Signature encodings are not malleable", "statement": "If a byte string decodes, it is exactly the canonical encoding of the decoded (c, h, z) including all padding; hence two different byte strings never decode to the same signature.", "quantifier": "every pair of byte strings of the fixed length", "why_tests_cant": "Needs injectivity of a variable-length decoder over all byte strings.", "anchors": ["include/raccoon/internals/utility/serialization.hpp: decode_sig"]}
{"id": "C06", "title": "Signature encode/decode round trip", "statement": "Whenever encoding (c, h, z) reports success, decoding the produced bytes succeeds and returns exactly (c, h, z).", "quantifier": "every challenge hash, hint vector and response vector of int64 values, every buffer content", "why_tests_cant": "The unit test only round-trips the all-zero signature.", "anchors": ["include/raccoon/internals/utility/serialization.hpp: encode_sig, decode_sig", "tests/test_serialization.cpp"]}
{"id": "C07", "title": "Signature encoding fails exactly when it does not fit, and ignores stale buffer bytes", "statement": "For hints and responses in the supported range, encoding reports failure iff the encoded bits do not fit into the fixed length, and on success every output byte is determined by (c, h, z): challenge hash, LSB-first packed code words, zero padding; previous buffer contents never leak into the output.", "quantifier": "every (c, h, z) in range, every previous content of the output buffer, every signature length", "why_tests_cant": "Boundary lengths and stale-content leakage depend on all coefficient combinations.", "anchors": ["include/raccoon/internals/utility/serialization.hpp: encode_sig", "include/raccoon/internals/secret_key.hpp: sign"]}
{"id": "C08", "title": "Every response within the norm bound can be encoded faithfully", "statement": "If all response coefficients satisfy the infinity-norm bound and the bits fit the signature length, encoding has no undefined behaviour and is lossless.", "quantifier": "every response vector within the infinity-norm bound", "why_tests_cant": "The failing coefficients (|z| >= 14*2^40, or the last one >= 7*2^40) are astronomically rare under random sampling.", "anchors": ["include/raccoon/internals/utility/serialization.hpp: encode_sig", "include/raccoon/raccoon128.hpp: Binf"]}
{"id": "C09", "title": "Public key serialization is a bijection", "statement": "Deserializing any byte string of the public key length and serializing again returns the same bytes; serializing any key whose coefficients are below 128 and deserializing returns the same key.", "quantifier": "every byte string of public key length; every seed and vector t; all three levels", "why_tests_cant": "All 2^(8*2256) byte strings.", "anchors": ["include/raccoon/internals/utility/serialization.hpp: encode_public_key, decode_public_key", "include/raccoon/internals/public_key.hpp: to_bytes, from_bytes"]}
{"id": "C10", "title": "Secret key serialization preserves the secret and the public key", "statement": "Serializing a secret key and deserializing it gives a key with the same public key and the same unmasked secret (sum of shares modulo q), whatever random bytes are drawn.", "quantifier": "every secret key object with canonical coefficients, every masking order, every random tape", "why_tests_cant": "The unit test only covers d = 1 on random vectors.", "anchors": ["include/raccoon/internals/utility/serialization.hpp: mask_compress, mask_decompress", "include/raccoon/internals/secret_key.hpp: to_bytes, from_bytes"]}
{"id": "C11", "title": "Serialized secret keys do not contain the unmasked secret", "statement": "For masking order above 0 the serialized secret key stores the unmasked secret minus pseudorandom masks expanded from the stored seeds, and deserialization re-creates non-trivial shares (algorithms 14/15 of the specification).", "quantifier": "every secret key, masking order d > 1, random tape", "why_tests_cant": "Round-trip tests pass although masks are never applied, because both directions drop them consistently.", "anchors": ["include/raccoon/internals/utility/serialization.hpp: mask_compress (r.sampleQ), mask_decompress (sampleQ)"]}
{"id": "C12", "title": "Masking randomness differs between shares and between refreshes", "statement": "The generators used for different shares are seeded differently and produce different streams, so refreshing adds share-dependent masks that an observer cannot predict.", "quantifier": "every masking order, every share index, every position in the stream", "why_tests_cant": "Functional tests only look at the sum of shares, which is right for any mask stream.", "anchors": ["include/raccoon/internals/rng/mrng.hpp: mrng_t::mrng_t, get", "include/raccoon/internals/secret_key.hpp: refresh"]}
{"id": "C13", "title": "Refreshing preserves the secret", "statement": "refresh() changes neither the public key nor the unmasked secret; with one share it leaves a canonical secret untouched.", "quantifier": "every secret key, every masking order 2^e, every behaviour of the mask generator", "why_tests_cant": "All masks and all keys.", "anchors": ["include/raccoon/internals/polynomial/masked_poly.hpp: refresh, zero_encoding", "include/raccoon/internals/secret_key.hpp: refresh"]}
{"id": "C14", "title": "A fresh masked zero decodes to zero", "statement": "The sum over shares of a freshly drawn zero encoding is the zero polynomial, every share is canonical, and no share index is out of range.", "quantifier": "every power-of-two number of shares, every mask stream", "why_tests_cant": "Number of shares and random masks unbounded.", "anchors": ["include/raccoon/internals/polynomial/masked_poly.hpp: zero_encoding"]}
{"id": "C15", "title": "Modular field arithmetic is exact", "statement": "For canonical operands, addition, subtraction and multiplication return the canonical representative of the mathematical result modulo q; exponentiation does so for every 64-bit exponent; Barrett reduction is right for every input below 2^98. The left shift always returns a canonical value and is multiplication by 2^n modulo q while the product fits 64 bits; the right shift is the integer quotient.", "quantifier": "all pairs of field elements, all 64-bit exponents, all reduction inputs below 2^98, all shift distances below 64", "why_tests_cant": "About 2^98 operand pairs.", "anchors": ["include/raccoon/internals/math/field.hpp: zq_t operators, barrett_reduce, reduce_once"]}
{"id": "C16", "title": "Inverse and division are exact and flagged correctly", "statement": "inv() reports 'invertible' iff gcd(v, q) = 1, and then returns the canonical inverse; otherwise it returns 0. Division returns the quotient under the same flag. No signed overflow happens and the loop terminates.", "quantifier": "every field element", "why_tests_cant": "q is composite: the non-invertible residues are a 2^-24 fraction that random tests never meet.", "anchors": ["include/raccoon/internals/math/field.hpp: xgcd, inv, operator/"]}
{"id": "C17", "title": "Negation is canonical", "statement": "Unary minus on a canonical element returns the canonical representative of the negation.", "quantifier": "every canonical field element", "why_tests_cant": "Fails only at a single value out of 2^49.", "anchors": ["include/raccoon/internals/math/field.hpp: operator-()"]}
{"id": "C18", "title": "Portable and __int128 builds compute the same 128-bit arithmetic", "statement": "Each portable two-word operation (+, -, negation, *, comparison, |, &, shifts by 0..128, narrowing) equals arithmetic modulo 2^128 on the represented value, which is what the compiler extension build does.", "quantifier": "all pairs of 128-bit values and all shift distances", "why_tests_cant": "2^256 operand pairs; tests draw 64-bit operands only.", "anchors": ["include/raccoon/internals/math/u128.hpp", "include/raccoon/internals/math/u64.hpp: mul_full_u64"]}
{"id": "C19", "title": "128-bit division is Euclidean division", "statement": "For a non-zero divisor / and % return floor quotient and remainder; the shift-subtract loop terminates with shift distances in range.", "quantifier": "all 128-bit dividends and non-zero divisors", "why_tests_cant": "2^256 pairs.", "anchors": ["include/raccoon/internals/math/u128.hpp: divmod, get_bit_index_of_set_msb"]}
{"id": "C20", "title": "128-bit rotations are inverse to each other and defined for all distances 0..128", "statement": "rotl(n) then rotr(n) is the identity and both are bit rotations, for 0 <= n <= 128, in both builds.", "quantifier": "all 128-bit values, all n in 0..128", "why_tests_cant": "Undefined shifts may behave as intended on the test machine.", "anchors": ["include/raccoon/internals/math/u128.hpp: rotl, rotr, operator<<, operator>>"]}
{"id": "C21", "title": "Forward and inverse transforms are mutually inverse", "statement": "Applying the number theoretic transform and then the inverse (or the other way round) returns the original polynomial, and outputs are canonical.", "quantifier": "every canonical polynomial of 512 coefficients", "why_tests_cant": "q^512 polynomials.", "anchors": ["include/raccoon/internals/polynomial/poly.hpp: ntt, intt, POWERS_OF_zeta"]}
{"id": "C22", "title": "Transform-domain products are negacyclic products", "statement": "The inverse transform of the pointwise product of two transforms is the product in Z_q[X]/(X^512+1); the transform is evaluation at the odd powers of the 1024-th root of unity in bit-reversed order.", "quantifier": "every pair of canonical polynomials", "why_tests_cant": "q^1024 pairs; there is no polynomial multiplication test at all.", "anchors": ["include/raccoon/internals/polynomial/poly.hpp: ntt, intt, operator*"]}
{"id": "C23", "title": "Transforms never index out of bounds", "statement": "Every coefficient index and every table index used by the transforms is below 512.", "quantifier": "every loop iteration", "why_tests_cant": "Silent out-of-bounds reads may go unnoticed.", "anchors": ["include/raccoon/internals/polynomial/poly.hpp: ntt, intt"]}
{"id": "C24", "title": "Challenge polynomials have exactly omega entries +-1", "statement": "The polynomial expanded from a challenge hash has exactly omega non-zero coefficients, each 1 or q-1, placed at the first omega distinct positions of the hash stream, with the sign of the first occurrence.", "quantifier": "every challenge hash, every hash stream", "why_tests_cant": "2^256 challenge hashes.", "anchors": ["include/raccoon/internals/polynomial/poly.hpp: chal_poly"]}
{"id": "C25", "title": "Uniform sampling consumes the stream exactly", "statement": "The public matrix entries are the first 512 seven-byte little-endian chunks, truncated to 49 bits, that are below q; refilling the internal buffer neither loses, repeats nor reorders stream bytes, and every coefficient is canonical.", "quantifier": "every hash stream, seed and matrix position", "why_tests_cant": "Refill points depend on rejected chunks; all streams.", "anchors": ["include/raccoon/internals/polynomial/poly.hpp: sampleQ", "include/raccoon/internals/polynomial/poly_mat.hpp: expandA"]}
{"id": "C26", "title": "Noise stays in range and is added exactly once per share and repetition", "statement": "Each sampled noise coefficient lies in [-2^(u-1), 2^(u-1)); adding noise changes the unmasked value by exactly the sum of rep*d samples modulo q, and keeps every share canonical.", "quantifier": "every random tape, hash behaviour, masking order and repetition count", "why_tests_cant": "All streams; only sums are observable.", "anchors": ["include/raccoon/internals/polynomial/masked_poly.hpp: sampleU, add_rep_noise"]}
{"id": "C27", "title": "Generated keys satisfy the LWE relation", "statement": "The public key of a generated key pair contains the seed it was given and t = round(A*s + e) >> nu_t modulo q >> nu_t, where s is the unmasked secret stored in the secret key and s, e have coefficients bounded by rep*d*2^(u_t-1).", "quantifier": "every seed, random tape, hash behaviour, parameter set and masking order", "why_tests_cant": "All seeds and tapes; the relation is hidden by masking.", "anchors": ["include/raccoon/internals/secret_key.hpp: generate"]}
{"id": "C28", "title": "Signatures satisfy the signing equations", "statement": "A returned signature encodes (c_hash, h, z) with c_hash the challenge hash of round(A*r + e'), z = c*s + r, h = w - round(A*z - 2^nu_t*t*c), for r, e' bounded by rep*d*2^(u_w-1), and it satisfies the norm bounds.", "quantifier": "every key, message, random tape, masking order", "why_tests_cant": "Functional tests only observe acceptance.", "anchors": ["include/raccoon/internals/secret_key.hpp: sign"]}
{"id": "C29", "title": "The norm check is exact", "statement": "The bounds check accepts iff every |h_i| <= B_inf >> nu_w, every |z_i| <= B_inf and 2^(2 nu_w - 64) * sum h_i^2 + sum (|z_i| >> 32)^2 <= B_2^2, with no wrap-around of the 64-bit or modulo-q accumulators changing the verdict.", "quantifier": "every hint vector and every centered response vector", "why_tests_cant": "Wrap-around needs extreme vectors.", "anchors": ["include/raccoon/internals/signature.hpp: check_bounds"]}
{"id": "C30", "title": "Centering is a bijection", "statement": "Centering maps [0, m) one-to-one onto the symmetric range around 0 with the same residue modulo m, and the reverse map is its inverse, for the hint modulus and for q.", "quantifier": "every coefficient and odd modulus below 2^62", "why_tests_cant": "2^49 values.", "anchors": ["include/raccoon/internals/polynomial/poly.hpp: center, from_centered"]}
{"id": "C31", "title": "Rounding shift is exact", "statement": "Dropping nu low bits returns floor((x + 2^(nu-1)) / 2^nu) modulo floor(q / 2^nu), in canonical form.", "quantifier": "every canonical coefficient, both shift amounts", "why_tests_cant": "2^49 values.", "anchors": ["include/raccoon/internals/polynomial/poly.hpp: rounding_shr, reduce_once_mod"]}
{"id": "C32", "title": "The challenge hash commits to the whole commitment vector and message digest", "statement": "The bytes absorbed for the challenge are exactly header, one byte per coefficient of w, message digest, independent of internal buffering; different (w, digest) pairs give different hash inputs.", "quantifier": "every commitment vector with coefficients below 256, every digest", "why_tests_cant": "Buffer boundary effects for all lengths.", "anchors": ["include/raccoon/internals/polynomial/challenge.hpp: chal_hash"]}
{"id": "C33", "title": "One signature cannot serve two messages or two keys without a hash collision", "statement": "If the same signature bytes verify for (pk, msg) and (pk', msg') with (pk, msg) different from (pk', msg'), then two explicit different inputs of SHAKE256 with the same truncated output exist.", "quantifier": "every pair of public keys, pair of messages, signature", "why_tests_cant": "Quantifies over adversarial keys and messages.", "anchors": ["include/raccoon/internals/public_key.hpp: verify", "include/raccoon/internals/polynomial/challenge.hpp: chal_hash", "include/raccoon/internals/utility/serialization.hpp: encode_public_key"]}
{"id": "C34", "title": "Only the specified parameter sets compile", "statement": "Key generation and signing arguments are accepted iff they are a row of tables 2, 3, 4 of the specification; the tables in the three API headers always select accepted arguments; the byte lengths are the documented ones.", "quantifier": "all argument tuples", "why_tests_cant": "Infinite argument space of consteval predicates.", "anchors": ["include/raccoon/internals/utility/params.hpp", "include/raccoon/raccoon128.hpp", "include/raccoon/raccoon192.hpp", "include/raccoon/raccoon256.hpp"]}
{"id": "C35", "title": "Byte-array comparison is exact", "statement": "The equality mask over two equally long byte arrays is all ones iff they are equal and zero otherwise.", "quantifier": "all pairs of byte arrays of equal length", "why_tests_cant": "Unbounded lengths.", "anchors": ["include/raccoon/internals/utility/utils.hpp: ct_eq_byte_array"]}
{"id": "C36", "title": "Little-endian word conversion is exact", "statement": "Reading up to eight bytes gives the little-endian value; writing n bytes writes the n low-order bytes (at most eight) and leaves the rest of the destination unchanged; read after write returns the value modulo 2^(8n).", "quantifier": "all words, all lengths", "why_tests_cant": "All words and lengths.", "anchors": ["include/raccoon/internals/utility/utils.hpp: from_le_bytes, to_le_bytes"]}
{"id": "C37", "title": "Left shift of the public vector is exact", "statement": "Shifting a public key coefficient left by nu_t yields 2^nu_t * t modulo q in canonical form for every coefficient a deserialized key can hold; the general operator is exact only while no bits are lost from the 64-bit word.", "quantifier": "every 7-bit coefficient; every 64-bit value and distance for the general claim", "why_tests_cant": "All values.", "anchors": ["include/raccoon/internals/math/field.hpp: operator<<"]}
{"id": "C38", "title": "Deserialized secret keys are canonical", "statement": "Deserializing any byte string of the secret key length yields coefficients below q (malformed keys are rejected or reduced).", "quantifier": "every byte string of secret key length", "why_tests_cant": "Random round trips start from canonical keys.", "anchors": ["include/raccoon/internals/utility/serialization.hpp: mask_decompress"]}
{"id": "C39", "title": "Masked computation equals unmasked computation", "statement": "Unmasking commutes with every operation used on shares: addition, multiplication by a public polynomial, matrix multiplication, forward and inverse transform.", "quantifier": "every masked vector with canonical shares, every number of shares", "why_tests_cant": "All sharings.", "anchors": ["include/raccoon/internals/polynomial/masked_poly.hpp: decode", "include/raccoon/internals/polynomial/poly_vec.hpp", "include/raccoon/internals/polynomial/poly_mat.hpp: operator*"]}
{"id": "C40", "title": "Signing and sampling terminate when the random tape allows it", "statement": "Every rejection loop stops as soon as its stream contains enough acceptable values, and the result does not depend on how long one is prepared to wait.", "quantifier": "every stream that contains the required number of accepted values", "why_tests_cant": "Termination on all streams.", "anchors": ["include/raccoon/internals/polynomial/poly.hpp: sampleQ, chal_poly, sample_polynomial", "include/raccoon/internals/secret_key.hpp: sign"]}
{"id": "C41", "title": "Serialization stays inside its buffers", "statement": "For every input, encoding and decoding of keys and signatures reads and writes only inside the supplied arrays.", "quantifier": "every input of every serialization routine, all parameter sets", "why_tests_cant": "Memory errors at specific offsets may be silent.", "anchors": ["include/raccoon/internals/utility/serialization.hpp"]}
{"id": "C42", "title": "Polynomial equality is exact", "statement": "Comparing two polynomials, masked polynomials or vectors returns true iff all coefficients are equal.", "quantifier": "all pairs", "why_tests_cant": "All pairs.", "anchors": ["include/raccoon/internals/polynomial/poly.hpp: operator==", "include/raccoon/internals/polynomial/masked_poly.hpp: operator==", "include/raccoon/internals/polynomial/poly_vec.hpp: operator=="]}
{"id": "C43", "title": "Public and secret keys can be compared", "statement": "operator== on keys returns true iff the keys are equal.", "quantifier": "all pairs of keys", "why_tests_cant": "The operator is never instantiated by the tests.", "anchors": ["include/raccoon/internals/public_key.hpp: operator== (get_t_mut does not exist)", "include/raccoon/internals/secret_key.hpp: operator== (get_pkey_mut, get_s_mut do not exist)"]}
{"id": "C44", "title": "Operations on secrets have data-independent control flow and addresses", "statement": "Comparing byte arrays and polynomials, arithmetic modulo q, the number theoretic transform, all operations on masked polynomials and vectors, key generation after the expansion of the public matrix, refreshing, packing and unpacking a secret key, and signing: the sequence of operations executed, the direction of every branch and the array positions touched do not depend on key material, masks, noise seeds or any other secret. They may depend on public data: sizes, the public key, the message, the state of the (never seeded) mask generator, whose rejection sampling branches; for packing and unpacking, the seeds stored in the packed key; and for signing, the candidate signatures, which the code unmasks before it accepts or rejects them, and which are the same for every sharing of a secret.", "quantifier": "all parameter sets, secret keys, random tapes, operands and hash functions", "why_tests_cant": "It relates every pair of executions; a test compares a few and through a noisy clock.", "anchors": ["include/raccoon/internals/utility/utils.hpp: ct_eq_byte_array", "include/raccoon/internals/math/field.hpp", "include/raccoon/internals/polynomial/poly.hpp", "include/raccoon/internals/polynomial/masked_poly.hpp", "include/raccoon/internals/polynomial/poly_vec.hpp", "include/raccoon/internals/polynomial/poly_mat.hpp", "include/raccoon/internals/rng/mrng.hpp", "include/raccoon/internals/secret_key.hpp: generate, sign", "include/raccoon/internals/utility/serialization.hpp: mask_compress, mask_decompress"]}
{"id": "C45", "title": "Signing has undefined behaviour only when a response coefficient is huge", "statement": "If signing executes an undefined operation, then some attempt has a response coefficient of absolute value at least 15*2^40 or a last response coefficient of at least 2^43; with a secret bounded by Bs every response coefficient is at most omega*Bs + rep*d*2^(u_w-1).", "quantifier": "every key object, message, random tape, hash behaviour, parameter set", "why_tests_cant": "Only extreme noise reaches the 64-bit buffer limit of the encoder.", "anchors": ["include/raccoon/internals/utility/serialization.hpp: encode_sig", "include/raccoon/internals/secret_key.hpp: sign"]}
{"id": "C46", "title": "Refreshing hides the secret from an observer of all but one shares", "statement": "After refresh() with masks drawn uniformly and independently, any d-1 of the d shares of every polynomial of the secret are uniformly distributed and independent of the secret and of the shares before; the masks added are exactly the polynomials delivered by the d-1 share generators, never the constant that the generator object returns for other indices.", "quantifier": "all masking orders, secrets, sharings, left-out positions and observed share values", "why_tests_cant": "It is a statement about the distribution over all mask tuples and all pairs of secrets.", "anchors": ["include/raccoon/internals/polynomial/masked_poly.hpp: zero_encoding, refresh", "include/raccoon/internals/polynomial/poly.hpp: sample_polynomial", "include/raccoon/internals/secret_key.hpp: refresh"]}
{"id": "C47", "title": "Multiplying two masked polynomials multiplies the shared values", "statement": "operator* of two masked polynomials in transform domain decodes to the product of the decoded operands, for every number of shares.", "quantifier": "all numbers of shares and all sharings", "why_tests_cant": "It must hold for every sharing of every pair of values.", "anchors": ["include/raccoon/internals/polynomial/masked_poly.hpp: operator*"]}
{"id": "C48", "title": "Sampling into a masked polynomial overwrites it", "statement": "sampleQ of an (un)masked polynomial object replaces its coefficients by the polynomial sampled from header and seed.", "quantifier": "all headers, seeds and previous contents", "why_tests_cant": "It must hold for every hash output and every previous content.", "anchors": ["include/raccoon/internals/polynomial/masked_poly.hpp: sampleQ", "include/raccoon/internals/polynomial/poly.hpp: sampleQ"]}
{"id": "C49", "title": "Random polynomials are canonical and all but uniform", "statement": "poly_t::random reads 8 bytes per coefficient; every coefficient is the little-endian word modulo q; each residue is the image of floor(2^64/q) or one more of the 2^64 words.", "quantifier": "all random tapes, positions and residues", "why_tests_cant": "It counts preimages over 2^64 words for each of q residues.", "anchors": ["include/raccoon/internals/polynomial/poly.hpp: random", "include/raccoon/internals/math/field.hpp: random"]}
{"id": "C50", "title": "Uniform sampling is unbiased", "statement": "If the extendable-output function is an ideal random stream, uniform sampling returns every polynomial with coefficients below q with the same probability within every number of candidates, and the expansion of a seed returns every public matrix with the same probability.", "quantifier": "all pairs of reduced polynomials (matrices), all seeds and headers, all hash functions, all bounds on the number of candidates", "why_tests_cant": "There are q^512 results: a statistical test of samples cannot detect a bias of the size a wrong comparison or a wrong mask produces.", "anchors": ["include/raccoon/internals/polynomial/poly.hpp: poly_t::sampleQ", "include/raccoon/internals/polynomial/poly_mat.hpp: expandA"]}
{"id": "C51", "title": "Challenge sampling is unbiased", "statement": "If the extendable-output function is an ideal random stream, the challenge polynomial is uniform among all polynomials with omega coefficients +1 or -1 and zeros elsewhere, within every number of candidates.", "quantifier": "all weights below 256, all pairs of ternary polynomials of this weight, all challenge hashes, all hash functions, all bounds on the number of candidates", "why_tests_cant": "The set of challenges is far too large to sample; soundness of the scheme needs exact uniformity.", "anchors": ["include/raccoon/internals/polynomial/poly.hpp: poly_t::chal_poly"]}
{"id": "C52", "title": "Noise sampling is unbiased", "statement": "If the extendable-output function is an ideal random stream, the 512 samples of one noise polynomial are independent and uniform in [-2^(u-1), 2^(u-1)).", "quantifier": "all widths 1 <= u <= 63, all pairs of sample vectors in range, all seeds and headers, all hash functions", "why_tests_cant": "The joint distribution of 512 samples of up to 48 bits cannot be observed by sampling.", "anchors": ["include/raccoon/internals/polynomial/masked_poly.hpp: sampleU"]}
{"id": "C53", "title": "Which byte strings make verification undefined", "statement": "Whether verify() executes an undefined operation depends on the signature bytes alone (not on key, message, hash outputs or waiting time), and it does so exactly when, reading the hint and response code words in order, a word whose sign bit falls outside the eight-byte decoding window (or a run of 62 or more ones) is met before a word that is rejected; in every other case it returns true or false.", "quantifier": "every signature byte string of the right length, every key, message and hash function, all parameter sets", "why_tests_cant": "The set of triggering byte strings is a thin subset of 2^92192 strings with corner cases at the end of the signature; only a proof over all strings gives both directions.", "anchors": ["include/raccoon/internals/utility/serialization.hpp: decode_sig, decode_bits_as_hint_coeff, decode_bits_as_response_coeff", "include/raccoon/internals/public_key.hpp: verify"]}
{"id": "C54", "title": "All outcomes of the signature encoder", "statement": "Encoding a challenge hash, hints and responses into a buffer returns true exactly if every code word fits the 64-bit output buffer at its position (the last one in 56 bits) and all bits fit the signature; it executes an undefined operation exactly if a word leaves 64 or more bits waiting (or the last word more than 56) while the bytes written next still fit the signature, or the word needs a shift by 64 or more; in every other case it returns false.", "quantifier": "every hash, hint vector, response vector (any integers, any lengths) and signature length", "why_tests_cant": "The boundary depends on the sum of all code lengths modulo 8 and on values near 2^43..2^46 that random tests never produce.", "anchors": ["include/raccoon/internals/utility/serialization.hpp: encode_sig"]}
{"id": "C55", "title": "All outcomes of sign()", "statement": "For every key object, message and random tape with which sign() finishes: it writes sig exactly if sig has the signature length and encodes an acceptable attempt before which every attempt was rejected cleanly; it executes an undefined operation exactly if some attempt overruns the signature encoder and every earlier attempt was rejected cleanly. It finishes if some attempt is acceptable (or overruns) and the sampled streams contain enough acceptable values.", "quantifier": "every key object, message, random tape, hash function, parameter set and number of retries", "why_tests_cant": "Ranges over all rejection histories and all hash outputs.", "anchors": ["include/raccoon/internals/secret_key.hpp: sign", "include/raccoon/internals/utility/serialization.hpp: encode_sig"]}
{"id": "C56", "title": "Signing with a generated key is always defined", "statement": "For every key returned by generate(), every message and random tape, sign() executes no undefined operation, whatever the hash function returns.", "quantifier": "every generated key, message, random tape and hash function", "why_tests_cant": "The failing noise vectors have negligible probability under SHAKE256 but nothing in the code excludes them.", "anchors": ["include/raccoon/internals/secret_key.hpp: generate, sign", "include/raccoon/internals/utility/serialization.hpp: encode_sig"]}
{"id": "C57", "title": "Masking never changes what a client sees", "statement": "Two clients whose key objects hold the same public key and share the same secret (with whatever shares), and whose libraries use the same SHAKE256 (but possibly another mask generator), make the same calls of sign (message, random device output) and verify (message, signature), with arbitrary refreshes, serializations, reloads and get_pkey calls in between and arbitrary previous contents of the destination buffers. Then they obtain byte-identical signatures and identical verdicts, and both or neither run into undefined behaviour. Generating from the same seed and random device output gives the same public key and the same secret, whatever the mask generator does.", "quantifier": "all hash functions, pairs of mask generators, pairs of sharings, parameter sets, and pairs of histories with the same visible calls", "why_tests_cant": "A test compares a few histories with the one mask generator in the library; the claim is about all histories, sharings and mask generators.", "anchors": ["include/raccoon/internals/secret_key.hpp: sign, generate, refresh, as_bytes", "include/raccoon/internals/public_key.hpp: verify", "include/raccoon/internals/polynomial/poly_vec.hpp: refresh, decode"]}
{"id": "C58", "title": "Hash inputs are domain separated and confined", "statement": "The SHAKE256 inputs used for matrix entries, noise polynomials, challenge polynomials, commitments and serialized shares differ whenever the purpose, an index or the seed/data differ. Verifying depends on SHAKE256 only through the public key bytes, their digest followed by the message, the matrix entries of the key's seed, the challenge polynomial of the signature's leading bytes and commitments; signing additionally only through noise inputs with row, repetition and share numbers inside the parameter set; key generation only through matrix and noise inputs: two libraries whose hash functions agree on these inputs return the same results.", "quantifier": "all pairs of hash functions that agree on the listed inputs; all keys, messages, signatures, parameter sets, random streams", "why_tests_cant": "A test runs one hash function; that no other input matters, and that inputs never collide across roles, is a statement about all of them.", "anchors": ["include/raccoon/internals/polynomial/poly.hpp: sampleQ, chal_poly", "include/raccoon/internals/polynomial/challenge.hpp: chal_hash", "include/raccoon/internals/polynomial/poly_mat.hpp: expandA", "include/raccoon/internals/polynomial/masked_poly.hpp: add_rep_noise", "include/raccoon/internals/public_key.hpp: verify", "include/raccoon/internals/secret_key.hpp: sign, generate"]}
{"id": "C59", "title": "Every noise polynomial gets its own random bytes", "statement": "In one call of sign or generate, the seeds of the noise polynomials of all attempts, both vectors, all rows, repetitions and shares are read from pairwise disjoint, consecutive windows of the random stream; a signature from attempt n depends only on the first (n+1)(l+k)*rep*d*kappa/8 random bytes, a generated key only on the first (l+k)*rep*d*kappa/8.", "quantifier": "all random streams, keys, messages, numbers of attempts, parameter sets", "why_tests_cant": "Reuse of random bytes between two samples does not make any signature invalid, so tests pass; the claim covers every number of rejected attempts.", "anchors": ["include/raccoon/internals/polynomial/masked_poly.hpp: add_rep_noise", "include/raccoon/internals/polynomial/poly_vec.hpp: add_rep_noise", "include/raccoon/internals/secret_key.hpp: sign, generate", "include/raccoon/internals/rng/prng.hpp: prng_t::read"]}
{"id": "C60", "title": "The generator uses all device words and never repeats or skips bytes", "statement": "The default constructor of prng_t calls the random device exactly eight times and seeds itself with these eight words in order, so different device outputs give different seeds; however reads are cut into spans, the bytes returned are the consecutive bytes of the SHAKE128 output of the seed, none skipped and none returned twice.", "quantifier": "all device outputs, all sequences of read sizes, any extendable output function", "why_tests_cant": "Device outputs are not reproducible in a test, and there are unboundedly many sequences of read sizes.", "anchors": ["include/raccoon/internals/rng/prng.hpp: prng_t, read"]}
{"id": "C61", "title": "Accepted signatures open their commitment, and two answers to one commitment give a short relation", "statement": "Whenever verify returns true, the signature encodes (c, h, z) such that for the public matrix A, the public vector t, the challenge polynomial cp of c and the commitment w recomputed from the signature there is a short error e with A z + e = 2^nu_t t cp + 2^nu_w w, coefficients of z at most B_inf, and c is the hash of w and of the message bound to the key. Two accepted signatures that claim the same commitment, possibly under different challenge answers of the hash function, give u, v with coefficients at most twice those bounds and A u + v = 2^nu_t t (cp - cp'), where cp - cp' has coefficients of absolute value at most 2 and is not zero when the challenges differ.", "quantifier": "all hash functions, valid public keys, messages and byte strings of signature length, all parameter sets", "why_tests_cant": "Forged or adversarial signatures that verify cannot be produced by a test; the relation must hold for every accepted byte string.", "anchors": ["include/raccoon/internals/public_key.hpp: verify", "include/raccoon/internals/signature.hpp: check_bounds, from_bytes"]}
{"id": "C62", "title": "Hints of honest signing attempts are small", "statement": "With a generated secret key, every attempt of sign, accepted or rejected, on every message and random tape, has hint coefficients of absolute value at most 5, 7 or 8 for Raccoon-128, 192, 256, so the unary hint code words never come near the end of the bit windows of encoder and decoder.", "quantifier": "all hash functions, seeds, key generation and signing tapes, messages, attempts, parameter sets", "why_tests_cant": "The extreme noise values that would give large hints have negligible probability in a test.", "anchors": ["include/raccoon/internals/secret_key.hpp: generate, sign", "include/raccoon/internals/signature.hpp: to_bytes"]}
{"id": "C63", "title": "Probing fewer values than shares inside refresh reveals nothing about the secret", "statement": "Refreshing a polynomial with d shares goes through the following values only: the input shares, the random masks, the partial sums of the masks in each share, the output shares. With masks drawn independently and uniformly (the ideal the design assumes; C12 shows that the masks of the code are not), an observer of t inner values and o output shares with t + o < d learns at most t of the input shares (strong non-interference), so nothing about the secret the shares add up to.", "quantifier": "all share counts 2^e, all sets of probed values with fewer than 2^e values, all sharings, masks, secrets", "why_tests_cant": "The set of probe positions is exponential in d and the claim is about distributions over all masks of 512 coefficients modulo a 49-bit number.", "anchors": ["include/raccoon/internals/polynomial/masked_poly.hpp: refresh, zero_encoding"]}
{"id": "C64", "title": "Probing fewer values than shares while noise is added reveals only as many noise terms", "statement": "Adding noise to a polynomial with d shares in rep repetitions (each adds one fresh noise polynomial to every share, then refreshes) goes through these values only: the shares before each repetition, the noise polynomials, the values inside the refreshings, the output shares. With ideal masks, an observer of t of these values and o output shares with t + o < d learns at most t of the rep*d noise polynomials and at most t input shares; what it sees does not depend on the other noise polynomials.", "quantifier": "all share counts 2^e, repetitions, sets of fewer than 2^e probed values, inputs, noise polynomials, masks; for the program values: all hash functions, tapes, rows", "why_tests_cant": "The claim ranges over all sets of probe positions and over distributions of masks; no finite set of runs shows independence.", "anchors": ["include/raccoon/internals/polynomial/masked_poly.hpp: add_rep_noise, refresh"]}
{"id": "C65", "title": "Probing fewer values than shares inside key generation reveals only the public key and as many noise terms", "statement": "Key generation (and the commitment step of signing) holds its secret in d shares throughout: a zero sharing, noise additions to every row, multiplication of the shared secret by the public matrix share by share, noise additions to the result. With ideal masks, an observer of fewer than d of the values these steps go through (one value may be one share of the whole secret vector), who also sees all shares of the final result and so the public key, learns at most as many of the noise polynomials as values probed, and besides them only the unmasked result: what it sees is the same for all secrets and errors that agree on these terms and give the same public result.", "quantifier": "all share counts 2^e, matrix sizes, matrices, repetitions, sets of fewer than 2^e probed values, noise polynomials, masks; for the program values: all parameter sets, hash functions, seeds, tapes", "why_tests_cant": "The claim ranges over all sets of probe positions, all noise values and distributions of masks; no finite set of runs shows independence.", "anchors": ["include/raccoon/internals/secret_key.hpp: skey_t::generate", "include/raccoon/internals/polynomial/poly_vec.hpp: zero_encoding, add_rep_noise", "include/raccoon/internals/polynomial/poly_mat.hpp: operator*"]}
{"id": "C66", "title": "Probing fewer values than shares inside signing reveals only the commitments, the responses and as many key shares or noise terms", "statement": "Every attempt of signing holds nonce, key and response in d shares: the nonce is a masked LWE secret, key and nonce are refreshed before use, the response challenge*key + nonce is computed share by share and refreshed before it is unmasked, and the refreshed key is the key of the next attempt. With ideal masks, an observer of fewer than d of the values in all attempts of one signing together (one value may be one share of the whole key and nonce vectors), who also sees all shares of every commitment and of every response, including rejected ones, learns at most as many shares of the key and noise polynomials as values probed, and besides them only the commitments and responses: what it sees is the same for all keys and nonces that agree on these and give the same commitments and responses.", "quantifier": "all share counts 2^e, dimensions, matrices, repetitions, numbers of attempts, challenges, sets of fewer than 2^e probed values over all attempts, key sharings, noise polynomials, masks; for the program values: all parameter sets, hash functions, keys, messages, tapes for which signing returns", "why_tests_cant": "The claim ranges over all sets of probe positions, all numbers of rejected attempts and distributions of masks; no finite set of runs shows independence.", "anchors": ["include/raccoon/internals/secret_key.hpp: skey_t::sign", "include/raccoon/internals/polynomial/poly_vec.hpp: zero_encoding, add_rep_noise, refresh, decode", "include/raccoon/internals/polynomial/poly_mat.hpp: operator*"]}
{"id": "C67", "title": "An honest signing attempt never fails the infinity-norm check", "statement": "With a generated key, every coefficient of the response of every signing attempt, accepted or rejected, is at most omega * (noise bound of the key) + (noise bound of the nonce) in absolute value, and this is at most Binf for every parameter set. So an attempt is rejected by the norm check only for a hint above Binf / 2^nu_w or for the Euclidean norm; with at most four shares the Euclidean check passes too as long as the sum of the squared hints is at most 361, 848 or 1395 for the three security levels.", "quantifier": "all hash functions, seeds, tapes, generated keys, messages, attempts, and all 18 parameter sets", "why_tests_cant": "The maximal response has negligible probability under random tapes, so tests never meet it; the claim is about all of them.", "anchors": ["include/raccoon/internals/secret_key.hpp: skey_t::sign", "include/raccoon/internals/signature.hpp: sig_t::check_bounds", "include/raccoon/internals/utility/params.hpp"]}
{"id": "C68", "title": "Two accepted signatures with the same challenge give a hash collision or a short vector", "statement": "If two different byte strings are accepted under one public key, for the same or different messages, and begin with the same challenge string, then either two different challenge inputs have the same digest, or the difference of the responses and hints gives vectors u of coefficients at most 2 Binf, u not zero, and v short with A u + v = 0. So an accepted signature cannot be changed into another one with the same challenge (re-encoding, changed hints, changed padding, changed response) without breaking the hash function or the lattice problem.", "quantifier": "all hash functions, parameter sets, public keys, messages and pairs of byte strings of signature length", "why_tests_cant": "It is a reduction over all pairs of accepted byte strings and all hash functions; mutation tests of signatures only try a few changed bytes.", "anchors": ["include/raccoon/internals/public_key.hpp: pkey_t::verify", "include/raccoon/internals/signature.hpp: sig_t", "include/raccoon/internals/utility/serialization.hpp: decode_sig"]}
{"id": "C69", "title": "The power-of-two test and logarithm are exact", "statement": "is_power_of_2(v) returns true only if v is a power of two (as documented), log2<v>() returns its exponent, and so a share count is accepted at compile time exactly if it is one of 1, 2, 4, 8, 16, 32.", "quantifier": "all 64-bit numbers", "why_tests_cant": "2^64 arguments; the one failing argument (0) is not among those that the library's own instantiations use.", "anchors": ["include/raccoon/internals/utility/utils.hpp: is_power_of_2, log2", "include/raccoon/internals/utility/params.hpp: is_d_valid"]}
{"id": "C70", "title": "The number of shares is invisible outside the signer", "statement": "Within a security level, public keys and signatures have the same byte lengths, encodings and verification results for every masking order, so a signature made with d shares verifies with the exported public key in a program compiled for d' shares. Between levels the lengths of public keys and signatures differ, and the length of an exported secret key determines level and masking order.", "quantifier": "all pairs of the 18 parameter sets, all keys, messages, byte strings, hash functions and random tapes", "why_tests_cant": "Pairs of template instantiations times all keys, messages and byte strings.", "anchors": ["include/raccoon/raccoon128.hpp", "include/raccoon/raccoon192.hpp", "include/raccoon/raccoon256.hpp", "include/raccoon/internals/public_key.hpp: verify, to_bytes, from_bytes", "include/raccoon/internals/utility/utils.hpp: get_pkey_byte_len, get_skey_byte_len"]}
{"id": "C71", "title": "Repeated randomness gives away the secret", "statement": "If the random device gives the same bytes to two calls of sign with one key and the same attempt is accepted in both, then the difference of the two responses is the secret times the difference of the two challenge polynomials, and when that difference is invertible the secret is computed from the two signatures alone. Signing has no other source of freshness (the message does not enter the nonce).", "quantifier": "all keys, pairs of messages, tapes, hash functions and attempt numbers", "why_tests_cant": "A statement about all pairs of executions with the same random device output; needs ring algebra.", "anchors": ["include/raccoon/internals/secret_key.hpp: sign", "include/raccoon/internals/rng/prng.hpp: prng_t"]}
{"id": "C72", "title": "Rejection sampling finishes after few candidates except with tiny probability", "statement": "If the bytes of the hash stream are uniform and independent, sampling a uniform polynomial needs more than 512 b candidates with probability at most 512 (1 - q/2^49)^b, sampling a challenge polynomial of weight omega needs more than omega b candidates with probability at most omega ((omega-1)/512)^b, for every b; verify waits longer only if one of its matrix entries or its challenge does. With b = 24 and b = 36 each probability is below 2^-120.", "quantifier": "all numbers b, hash functions, headers, seeds, public keys, messages and byte strings", "why_tests_cant": "Probabilities of 2^-120 cannot be sampled; a bound for every b needs a counting argument over all byte windows.", "anchors": ["include/raccoon/internals/polynomial/poly.hpp: sampleQ, chal_poly", "include/raccoon/internals/polynomial/poly_mat.hpp: expandA", "include/raccoon/internals/public_key.hpp: verify"]}
{"id": "C73", "title": "Key generation, signing and key conversion wait long only on rare streams", "statement": "For every waiting bound there is a set of byte windows, a stated tiny fraction of all windows, such that key generation waits longer than the bound only if the window of a matrix stream of its seed is in the set; writing or reading a secret key only if the window of a share-key stream is in the set; signing only if a matrix window or the window of the challenge hash of one of the first attempts is in the set, or if all of those attempts are rejected; refreshing a key never does.", "quantifier": "every hash function, parameter set, key, message, random tape, byte string and waiting bound", "why_tests_cant": "The slow streams are too rare to be met by tests and there is no bound on the waiting time.", "anchors": ["include/raccoon/internals/secret_key.hpp: generate, sign, refresh, as_bytes, from bytes", "include/raccoon/internals/polynomial/poly.hpp: sampleQ, chal_poly"]}
{"id": "C74", "title": "Filling a masked polynomial", "statement": "fill_with(v) writes v into every coefficient of each of the d shares; the polynomial they represent (and decode() returns) has every coefficient d v mod q, which is v only if (d - 1) v is a multiple of q.", "quantifier": "every number of shares, every field value, every previous contents", "why_tests_cant": "Ranges over all share counts and values; tests decode only zero-filled polynomials.", "anchors": ["include/raccoon/internals/polynomial/masked_poly.hpp: fill_with, decode"]}
{"id": "C75", "title": "Loading and saving a secret key", "statement": "A secret key that is loaded from any byte string of the right length and saved again keeps its public key bytes and gets fresh seeds. With one share it is saved as exactly the bytes it was loaded from. With more shares the polynomials are saved reduced modulo q, so they are kept exactly when every coefficient was below q; after one load and save they never change again.", "quantifier": "every parameter set, every byte string of the secret key length, every previous contents of the destination, every random tape, every hash function", "why_tests_cant": "Ranges over all byte strings, including those no key generation produces; tests serialize only generated keys and check only the keys, not the bytes.", "anchors": ["include/raccoon/internals/utility/serialization.hpp: mask_compress, mask_decompress", "include/raccoon/internals/secret_key.hpp: to_bytes, from_bytes"]}
{"id": "C76", "title": "Crash points of signing: what an interrupted call leaves in the caller's buffer", "statement": "sign writes its candidate signatures straight into the caller's buffer. If a call is interrupted after any number of byte stores (or never returns), the buffer holds the first j bytes of the encoding of one attempt, followed by what the earlier attempts left there; each attempt stores to the indices 0, 1, 2, ... in this order, at most once each, never past the end, and only bytes of its own encoding. A call that returns has stored every byte of the signature in its last pass.", "quantifier": "every interruption point, parameter set, hash function, key object, message, random tape, waiting bound and previous buffer contents; for the encoder alone every hash, hint, response and buffer length", "why_tests_cant": "Tests only look at the buffer after sign returned; interruption points and attempt histories are unbounded.", "anchors": ["include/raccoon/internals/secret_key.hpp: secret_key_t::sign", "include/raccoon/internals/utility/serialization.hpp: encode_sig"]}
{"id": "C77", "title": "Concurrent calls on one secret key object", "statement": "sign, as_bytes, get_pkey and verify of the obtained public key may be called by any number of threads on one secret key object at the same time: the object never changes, no two requests get the same word of the random device, every call returns exactly what it returns when it runs alone with the device words it got, and no call waits for another one. refresh is different: run alone it replaces the shares, but it can be interleaved with sign so that the signing thread works with shares of a different polynomial.", "quantifier": "every number of threads, every list of calls, every interleaving of their accesses to the key object and to the random device, every key object, every hash function; for the race every key with one or more shares and every refresh", "why_tests_cant": "The number of schedules is astronomical and tests of this project are single-threaded; a race shows up only on rare schedules.", "anchors": ["include/raccoon/raccoon128.hpp: raccoon128_skey_t::as_bytes, get_pkey, sign, refresh; raccoon128_pkey_t::verify", "include/raccoon/internals/secret_key.hpp: sign, to_bytes, refresh", "include/raccoon/internals/rng/prng.hpp: prng_t()"]}
{"id": "C78", "title": "Crash points of saving a key: what an interrupted save leaves, and what it loads as", "statement": "Saving a public or secret key stores every byte of the destination exactly once, in ascending order, and never past the end, so after m stores the destination holds m new bytes and its old rest (a secret-key save that is still sampling has stored at most the public key and the mask seeds). Whatever was in the buffer before, loading an interrupted save has no undefined behaviour and gives a well-formed key; with one share it always loads, so an interrupted save is never reported; whatever the loaded key signs verifies under the public key it loaded. If the buffer held the saved form of another key, the loaded key has the new public key as soon as that is written, new secret polynomials in the rows completely written and old ones in the rows not yet begun: it can pair the public key of one key with the secret of another. If the buffer held an earlier save of a key with the same public key and the same secret (before a refresh, or with other randomness), every interruption leaves a file that loads as that key.", "quantifier": "every parameter set, every key, every previous contents of the destination, every random tape, every hash, every number of byte stores after which the save is interrupted", "why_tests_cant": "Tests call to_bytes to the end; the crash point lies between any two of thousands of stores, and the old content and both keys are arbitrary.", "anchors": ["include/raccoon/internals/utility/serialization.hpp: encode_public_key, mask_compress, mask_decompress", "include/raccoon/internals/secret_key.hpp: to_bytes, from_bytes", "include/raccoon/internals/public_key.hpp: to_bytes"]}
{"id": "C79", "title": "The message may overlap the signature buffer", "statement": "The message handed to sign may lie anywhere in the memory that also holds the signature buffer, including partly or wholly inside that buffer. Signing returns in exactly the same cases as for a copy of the message held elsewhere, leaves the same signature in the buffer, and changes no other byte of the memory. The signature is valid for, and verifies with, the bytes the message span had when the call was made. If the two spans do not overlap, the message is unchanged afterwards and verifying the two spans of the resulting memory accepts.", "quantifier": "every memory, every position and length of the message span and every position of the signature span, every parameter set, every well-formed key, every random tape, every hash, every number of attempts", "why_tests_cant": "Tests keep the message and the signature in separate buffers; overlap positions, messages and numbers of retried attempts are unbounded, and a retry that read the message again would show only after a rejected attempt.", "anchors": ["include/raccoon/internals/secret_key.hpp: sign", "include/raccoon/internals/public_key.hpp: verify", "include/raccoon/internals/signature.hpp: to_bytes", "include/raccoon/raccoon128.hpp: raccoon128_skey_t::sign"]}
{"id": "C80", "title": "What the seed of key generation determines", "statement": "generate(seed) uses the seed only for the public matrix. The secret key does not depend on it: two generations whose random bytes agree on the part used for the secret have the same secret, whatever their seeds. The seed is published as the first bytes of the serialized public key, so different seeds give different public keys. And a seed is no backup of a key: generating twice from one seed can give keys with different secrets.", "quantifier": "every parameter set, every pair of seeds, every pair of random tapes, every hash, every mask generator; for the last clause every parameter set and every seed, with one concrete hash", "why_tests_cant": "Tests generate from a few seeds and never compare secrets of two generations; the absence of any dependence on the seed is a statement about all pairs of seeds and all random tapes.", "anchors": ["include/raccoon/internals/secret_key.hpp: generate", "include/raccoon/internals/public_key.hpp: to_bytes", "include/raccoon/raccoon128.hpp: raccoon128_skey_t::generate"]}
{"id": "C81", "title": "The arithmetic operators obey the laws of algebra", "statement": "On canonical field values +, - and * return canonical values and are the operations of a commutative ring with unit, also with a unary minus whose zero is not canonical (a + (-a) = 0 for every a); powers obey the laws of exponents within 64 bits; division undoes multiplication by every invertible value, and multiplying a reported quotient back gives the dividend. Polynomials with canonical coefficients form a commutative ring with unit under +, - and the product through the transform.", "quantifier": "all canonical field values, all 64-bit exponents, all polynomials with canonical coefficients", "why_tests_cant": "The laws are statements about all pairs and triples of 49-bit values and of 512-coefficient polynomials; random tests cover a vanishing part and miss the reduction boundaries.", "anchors": ["include/raccoon/internals/math/field.hpp: zq_t::operator+, -, *, /, ^", "include/raccoon/internals/polynomial/poly.hpp: poly_t::operator+, -, *, ntt, intt"]}
{"id": "C82", "title": "The __int128 build and the portable build compute the same results", "statement": "Compiled with PREFER_INT128_COMPILER_EXTENSION_TYPE, the reduction constant, the Barrett reduction, field multiplication, division, exponentiation, left shift and random sampling, the full 64x64 product, and 128-bit division, remainder, top-bit index and comparisons return exactly what the portable build returns, for every argument that fits its type (canonical or not, zero divisors included), and that build never performs an undefined 128-bit shift in them. Hence keys and signatures made by one build are those of the other: no other header mentions the 128-bit type.", "quantifier": "all 64-bit operands of the field functions, all 128-bit operands of reduction, division and comparison, all shift distances below 64", "why_tests_cant": "A build is tested in one configuration on sampled operands; agreement of two different carry and division implementations concerns all 2^128 (pairs of) operands.", "anchors": ["include/raccoon/internals/math/field.hpp: R, barrett_reduce, zq_t::operator*, /, ^, <<, random", "include/raccoon/internals/math/u128.hpp: u128_t (USE_INT128_TYPE branches), divmod, get_bit_index_of_set_msb", "include/raccoon/internals/math/u64.hpp: mul_full_u64 (USE_INT128_TYPE branch)"]}
