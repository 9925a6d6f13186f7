{"claims": [
{"property": "C01", "status": "proved", "theorems": ["C01_signatures_verify"], "note": "every hash function, waiting bound and retry count; key objects with 49-bit coefficients included"},
{"property": "C02", "status": "proved", "theorems": ["C02_key_histories"], "note": "any sequence of refresh, serialization round trips, get_pkey, sign and verify on the two objects"},
{"property": "C03", "status": "proved", "theorems": ["C03_verify_exact"], "note": "result true/false decides validity; valid signatures are accepted when one waits long enough; result exists when streams suffice and no code word overruns the window (C04, C53)"},
{"property": "C04", "status": "partial", "theorems": ["C04_verify_defined_refuted", "C04_verify_defined_partial", "C53_verify_undefined_exactly"], "note": "the property is false of the code: explicit 11524 bytes make verify shift by 64; proved for all signatures outside overrun_signature, and C53 shows this condition is exact"},
{"property": "C05", "status": "proved", "theorems": ["C05_not_malleable"], "note": ""},
{"property": "C06", "status": "proved", "theorems": ["C06_encode_decode"], "note": ""},
{"property": "C07", "status": "proved", "theorems": ["C07_encoding_exact"], "note": ""},
{"property": "C08", "status": "partial", "theorems": ["C08_every_response_encodes_refuted", "C08_every_response_encodes_partial"], "note": "The property is false of the code: a response within all norm bounds whose code word exceeds the 64-bit buffer is not encoded. Proved: exact condition (buffer_fits) under which encoding succeeds and is lossless."},
{"property": "C09", "status": "proved", "theorems": ["C09_public_key_bijection"], "note": "Every parameter set, every byte string of the public key length / every key with 7-bit coefficients."},
{"property": "C10", "status": "proved", "theorems": ["C10_secret_key_roundtrip"], "note": "Every parameter set, tape, SHAKE256 and destination contents; secrets with 49-bit share 0 and reduced other shares (all that generate, refresh, from_bytes produce)."},
{"property": "C11", "status": "partial", "theorems": ["C11_masked_serialization_refuted", "C11_masked_serialization_partial"], "note": "The English property is false of the code: the masks drawn by sampleQ are discarded (static member called on an object), so the serialized key holds the plain unmasked secret and deserialization re-creates all-zero extra shares. The theorem states exactly that, for all inputs. C11_..._partial: layout, fresh seeds and existence of the masks hold; the subtraction of the masks is missing."},
{"property": "C12", "status": "partial", "theorems": ["C12_mask_randomness_refuted", "C12_mask_randomness_partial"], "note": "The property is false of the code: mrng_t's constructor fills local copies, so all share generators start from the all-zero Ascon state; the refuted theorem shows it for every permutation and every d. What holds (partial): over every history of calls each share index walks through its own copy of that one stream without repetition, untouched by other indices. Missing: streams that differ between shares and are unpredictable."},
{"property": "C13", "status": "proved", "theorems": ["C13_refresh_preserves_secret"], "note": "For every oracle, every power-of-two share count and 49-bit shares."},
{"property": "C14", "status": "proved", "theorems": ["C14_zero_encoding"], "note": "For every oracle, generator state and power-of-two share count."},
{"property": "C15", "status": "proved", "theorems": ["C15_field_arithmetic", "C15_field_shifts"], "note": ""},
{"property": "C16", "status": "proved", "theorems": ["C16_inverse_and_division"], "note": ""},
{"property": "C17", "status": "partial", "theorems": ["C17_negation_refuted", "C17_negation_partial"], "note": "The property is false of the code: -0 is q. Proved right for every other element."},
{"property": "C18", "status": "proved", "theorems": ["C18_portable_128_bit_arithmetic"], "note": ""},
{"property": "C19", "status": "proved", "theorems": ["C19_division"], "note": ""},
{"property": "C20", "status": "partial", "theorems": ["C20_rotations_portable_partial", "C20_rotations_native_partial", "C20_rotations_native_refuted"], "note": "Holds in the portable build; the __int128 build is undefined for n = 0 and n = 128."},
{"property": "C21", "status": "proved", "theorems": ["C21_transforms_inverse"], "note": ""},
{"property": "C22", "status": "proved", "theorems": ["C22_transform_products"], "note": ""},
{"property": "C23", "status": "proved", "theorems": ["C23_transforms_in_bounds"], "note": ""},
{"property": "C24", "status": "proved", "theorems": ["C24_challenge_polynomial"], "note": ""},
{"property": "C25", "status": "proved", "theorems": ["C25_uniform_sampling"], "note": ""},
{"property": "C26", "status": "proved", "theorems": ["C26_noise"], "note": ""},
{"property": "C27", "status": "proved", "theorems": ["C27_generated_keys"], "note": "noise terms s, e are identified with the tape bytes that produce them"},
{"property": "C28", "status": "proved", "theorems": ["C28_signing_equations"], "note": "first acceptable attempt, with all earlier attempts unacceptable"},
{"property": "C29", "status": "proved", "theorems": ["C29_norm_check_exact"], "note": ""},
{"property": "C30", "status": "proved", "theorems": ["C30_centering"], "note": ""},
{"property": "C31", "status": "proved", "theorems": ["C31_rounding_shift"], "note": ""},
{"property": "C32", "status": "proved", "theorems": ["C32_challenge_binding"], "note": ""},
{"property": "C33", "status": "proved", "theorems": ["C33_no_reuse", "C33_commitment_unique"], "note": "collision on encoded keys, bound messages or the challenge inputs of the recomputed commitments"},
{"property": "C34", "status": "proved", "theorems": ["C34_parameter_sets"], "note": ""},
{"property": "C35", "status": "proved", "theorems": ["C35_byte_array_comparison"], "note": ""},
{"property": "C36", "status": "proved", "theorems": ["C36_little_endian"], "note": ""},
{"property": "C37", "status": "proved", "theorems": ["C37_left_shift"], "note": ""},
{"property": "C38", "status": "partial", "theorems": ["C38_canonical_secret_refuted", "C38_canonical_secret_partial"], "note": "False as stated: values in [q, 2^49) are accepted unreduced in share 0. Proved: no undefined behaviour, 49-bit range, other shares zero, bytes taken verbatim. Missing: canonicity of share 0, which the code does not provide."},
{"property": "C39", "status": "proved", "theorems": ["C39_masked_computation"], "note": ""},
{"property": "C40", "status": "proved", "theorems": ["C40_termination"], "note": "waiting bound (fuel) irrelevant, samplers stop exactly when enough accepted, verify/generate/sign finish"},
{"property": "C41", "status": "proved", "theorems": ["C41_signature_accesses", "C41_always_excludes_oob", "C41_models_agree", "C41_key_accesses"], "note": "Signature routines: model ModelMem.v, in which undefined operations other than accesses continue with arbitrary words; key routines: UB-free for arbitrary contents."},
{"property": "C42", "status": "proved", "theorems": ["C42_equality"], "note": ""},
{"property": "C43", "status": "not_applicable", "theorems": [], "note": "operator== of pkey_t and skey_t names members get_t_mut, get_pkey_mut, get_s_mut that do not exist, so no instantiation compiles: there is no behaviour to model"},
{"property": "C44", "status": "proved", "theorems": ["C44_comparison", "C44_field", "C44_masked_operations", "C44_masked_values", "C44_refresh_and_noise", "C44_key_generation", "C44_signing_attempt", "C44_signing", "C44_signing_sharing", "C44_key_refresh", "C44_key_packing", "C44_key_unpacking"], "note": "Leakage model with explicit traces (operations, branches, positions). Instruction timing, compiler and caches are outside the model and outside the statement."},
{"property": "C45", "status": "proved", "theorems": ["C45_signing_undefined_only_if_large"], "note": ""},
{"property": "C46", "status": "proved", "theorems": ["C46_refresh_program", "C46_refresh_hides_secret"], "note": "Uniformity is stated as a permutation of the mask tuples between any two views. The masks the code actually draws are predictable (C12); the theorem is about the refreshing network given ideal masks."},
{"property": "C47", "status": "partial", "theorems": ["C47_masked_product_refuted", "C47_masked_product_partial"], "note": "The property is false of the code for every d >= 2: the product is taken share by share. True for d = 1. The operator is public but unused by the scheme."},
{"property": "C48", "status": "partial", "theorems": ["C48_masked_sampleQ_refuted", "C48_masked_sampleQ_partial"], "note": "The property is false of the code: the static poly_t::sampleQ is called on the share and its result discarded, so the object never changes. The member is public but unused by the scheme. What holds: the static function returns the sampled polynomial and the call is defined."},
{"property": "C49", "status": "proved", "theorems": ["C49_random_polynomial"], "note": ""},
{"property": "C50", "status": "proved", "theorems": ["C50_uniform_sampling_unbiased"], "note": ""},
{"property": "C51", "status": "proved", "theorems": ["C51_challenge_unbiased"], "note": ""},
{"property": "C52", "status": "proved", "theorems": ["C52_noise_unbiased"], "note": ""},
{"property": "C53", "status": "proved", "theorems": ["C53_verify_undefined_exactly"], "note": "equivalence with overrun_signature (SpecSig.v), a condition on the bits of the signature only"},
{"property": "C54", "status": "proved", "theorems": ["C54_encoder_outcomes"], "note": "Exact characterisation, no range hypotheses on hints and responses. overrun_encoding (SpecEnc.v) is stated on the list of code words, without the model."},
{"property": "C55", "status": "proved", "theorems": ["C55_signing_outcomes"], "note": "Both directions for returned signatures and for undefined behaviour; the retry bound of the model is removed by the hypothesis that signing finishes, and a sufficient condition for finishing is part of the theorem."},
{"property": "C56", "status": "partial", "theorems": ["C56_generated_keys_sign_defined_refuted", "C56_generated_keys_sign_defined_partial"], "note": "The property is false of the code when the hash function is arbitrary: C56_..._refuted gives a hash function for which every generated Raccoon-128 key with 1, 2 or 4 shares makes sign undefined for every message (last response coefficient -2^43, within the norm bounds). The counterexample hash is not SHAKE256; for SHAKE256 such noise has negligible probability. What holds: with at most four shares undefined behaviour needs a last response coefficient of at least 2^43; C55 is the exact condition for all key objects."},
{"property": "C57", "status": "proved", "theorems": ["C57_masking_irrelevant", "C57_signing_masks_irrelevant", "C57_generation_masks_irrelevant"], "note": "Histories of the three API types; the statement concerns runs that finish (waiting bounds as in C40)."},
{"property": "C58", "status": "proved", "theorems": ["C58_distinct_inputs", "C58_verify_inputs", "C58_C59_sign_inputs", "C58_C59_generate_inputs"], "note": "Statements about runs that finish (waiting bounds as in C40); the two unprefixed inputs (public key bytes, digest and message) are not separated from the prefixed ones by the code."},
{"property": "C59", "status": "proved", "theorems": ["C59_fresh_seeds", "C59_noise_from_seeds", "C58_C59_sign_inputs", "C58_C59_generate_inputs"], "note": ""},
{"property": "C60", "status": "proved", "theorems": ["C60_device_seed", "C60_reads"], "note": "SHAKE128 is an arbitrary function; memcpy of a device word is little-endian."},
{"property": "C61", "status": "proved", "theorems": ["C61_accepted_opens", "C61_two_answers"], "note": "Relation of one accepted signature, and of two accepted signatures with the same commitment under two hash functions that agree on the public matrix."},
{"property": "C62", "status": "proved", "theorems": ["C62_hints_small"], "note": "Bound for every attempt described by the signing equations (C28 shows that sign runs exactly these attempts)."},
{"property": "C63", "status": "proved", "theorems": ["C63_refresh_values", "C63_refresh_probing", "C63_secret_independent"], "note": "Ideal uniform masks: the translations of mask tuples are permutations of all mask tuples. The masks the code really draws are predictable (C12_*_refuted)."},
{"property": "C64", "status": "proved", "theorems": ["C64_noise_values", "C64_noise_probing"], "note": "Ideal uniform masks as in C63; the real masks are predictable (C12)."},
{"property": "C65", "status": "proved", "theorems": ["C65_keygen_values", "C65_keygen_probing"], "note": "ideal (uniform) masks; probes of one value at a time in the ring representation; transformed and untransformed values determine each other"},
{"property": "C66", "status": "proved", "theorems": ["C66_signing_values", "C66_signing_probing", "C66_transformed_values"], "note": "Masks are ideal in the probing theorem (all mask tuples equally likely; the code's generators are unseeded, C12). Probed values are ring elements held between and inside the vector operations, not machine words. Keys with canonical coefficients (C38)."},
{"property": "C67", "status": "proved", "theorems": ["C67_honest_responses"], "note": "For every attempt described by the signing equations (C28 shows that sign runs exactly these attempts)."},
{"property": "C68", "status": "proved", "theorems": ["C68_same_challenge"], "note": "A reduction: no assumption about the hash function or the lattice problem is made."},
{"property": "C69", "status": "partial", "theorems": ["C69_power_of_two_refuted", "C69_power_of_two_partial"], "note": "False of the code for the argument 0 only (documented as TRUE only for powers of two); every use of the library excludes 0. Exact for all other 64-bit numbers."},
{"property": "C70", "status": "proved", "theorems": ["C70_interoperability"], "note": "Lengths, encodings and verdicts for equal level; different lengths between levels; secret key length determines the parameter set."},
{"property": "C71", "status": "proved", "theorems": ["C71_repeated_randomness"], "note": "Exact difference of responses under the same tape and attempt number; recovery with an inverse of the challenge difference."},
{"property": "C72", "status": "proved", "theorems": ["C72_samplers_finish"], "note": "Explicit finite sets of windows with counted size; randomness of SHAKE256 is not an assumption of the theorem, only of its reading as a probability."},
{"property": "C73", "status": "proved", "theorems": ["C73_waiting", "C73_attempt_hash"], "note": "with two or more shares the never-seeded mask generator's words are assumed to contain enough values below q (hypothesis window_accepts); the rare fractions are those of C72"},
{"property": "C74", "status": "proved", "theorems": ["C74_masked_fill"], "note": ""},
{"property": "C75", "status": "proved", "theorems": ["C75_load_save", "C75_stable"], "note": "Termination of the save is a hypothesis for d >= 2 (it depends on the hash of the fresh seeds, see C73); with one share it is proved."},
{"property": "C76", "status": "proved", "theorems": ["C76_log_faithful", "C76_encoder_stores", "C76_crash_points"], "note": "Stores are logged by a variant of the model (ModelTrace.v) proved equal to it when the log is dropped; stores inside one std::copy or fill_n are taken in ascending order. Stores of an attempt that runs into undefined behaviour are not logged."},
{"property": "C77", "status": "proved", "theorems": ["C77_const_calls_do_not_interfere", "C77_concurrent_signatures_verify", "C77_refresh_alone", "C77_refresh_race"], "note": "Machine of interleaved single-word accesses (sequentially consistent; each call copies the words it needs in index order; destination buffers are distinct). C77_refresh_race shows the schedule on which a concurrent refresh breaks a signing call (a signature it returns is still valid). Non-vacuity: C77_nonvacuous (four threads on a key that signs), C77_race_nonvacuous."},
{"property": "C78", "status": "proved", "theorems": ["C78_log_faithful", "C78_public_stores", "C78_secret_stores", "C78_torn_load", "C78_torn_signs", "C78_torn_rows", "C78_torn_mixture"], "note": "Single-byte stores in program order; the stores inside one std::copy are taken to be ascending. C78_torn_mixture is the concrete case: new public key with old secret, loaded without error. C78_torn_rows assumes reduced shares in both keys (what generate, from_bytes of canonical bytes and refresh give)."},
{"property": "C79", "status": "proved", "theorems": ["C79_sign_overlap", "C79_overlap_verifies", "C79_disjoint_verifies"], "note": "sign and verify over one memory (ModelAlias.v)"},
{"property": "C80", "status": "proved", "theorems": ["C80_secret_ignores_seed", "C80_seed_is_public", "C80_seeds_separate_keys", "C80_seed_is_no_backup"], "note": "the last one with a concrete hash function whose noise streams begin with the first random byte"},
{"property": "C81", "status": "proved", "theorems": ["C81_field_ring_laws", "C81_power_and_division_laws", "C81_polynomial_ring_laws"], "note": "consequences of C15, C16, C21 and C22 for client code that computes with the operators"},
{"property": "C82", "status": "proved", "theorems": ["C82_field_same_in_both_builds", "C82_division_same_in_both_builds", "C82_native_build_is_correct"], "note": "the only functions whose text uses u128_t are those of field.hpp; that no other header does is read off the source. Rotations, where the builds differ, are C20."}
]}
