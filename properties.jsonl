{"id": "C01", "title": "Key aggregation is BIP327 KeyAgg", "statement": "KeyAggContext::new on a list of public keys returns Ok with an aggregated key equal to the BIP327 KeyAgg sum of a_i*P_i exactly when that sum is not the point at infinity, returns KeyAggError exactly when it is, and panics exactly when the list is empty or longer than u32::MAX. The stored key list is the given list in the given order, the parity accumulator is 'not negated' and the tweak accumulator is zero.", "quantifier": "for every list of curve points (any length, any duplicates) and every hash function with 32-byte output", "why_tests_cant": "Vectors cover a handful of key lists of size three or four; the all-equal case, duplicated second key and sums to infinity form an unbounded family.", "anchors": ["src/key_agg.rs: KeyAggContext::new, hash_pubkeys, compute_key_aggregation_coefficient", "reference.py: key_agg, get_second_key, key_agg_coeff_internal"]}
{"id": "C02", "title": "Member lookup returns a matching position, coefficients agree across copies", "statement": "For a context, pubkey_index(pk) is None exactly when pk is not one of pubkeys(); when it is Some(i), pubkeys()[i] = pk and i is the last such position. key_coefficient(pk) is the BIP327 coefficient of pk in the list (the same for all copies), effective_pubkey(pk) is pk multiplied by that coefficient, and neither lookup can panic.", "quantifier": "for every reachable context and every point pk, with arbitrary repetitions in the key list", "why_tests_cant": "Repeated keys and hash-map overwrite order are only sampled by tests.", "anchors": ["src/key_agg.rs: pubkey_index, key_coefficient, effective_pubkey, get_pubkey"]}
{"id": "C03", "title": "Any tweak sequence is BIP327 ApplyTweak", "statement": "with_tweaks/with_tweak/with_plain_tweak/with_xonly_tweak applied in any sequence produce the same aggregated key, parity accumulator and tweak accumulator as iterating the reference ApplyTweak, and fail with TweakError exactly when the reference reaches infinity at some step.", "quantifier": "for every context and every finite sequence of (non-zero scalar, is_xonly) tweaks", "why_tests_cant": "Sign bookkeeping interacts over the whole tweak history; tests try a few short sequences.", "anchors": ["src/key_agg.rs: with_tweak, with_tweaks, with_plain_tweak, with_xonly_tweak", "reference.py: apply_tweak"]}
{"id": "C04", "title": "Untweaked key recovery never fails and is exact", "statement": "aggregated_pubkey_untweaked never panics and returns the aggregated key of KeyAggContext::new(pubkeys()) for every context obtained by new, any tweaks (including taproot tweaks) and decoding; tweak_sum is None exactly when the accumulated tweak is zero, and in that case the aggregated key is plus or minus the untweaked key.", "quantifier": "for every context reachable by any history of API calls", "why_tests_cant": "The 'can never be infinity' unwrap is an invariant over all tweak histories.", "anchors": ["src/key_agg.rs: aggregated_pubkey_untweaked, tweak_sum"]}
{"id": "C05", "title": "Taproot tweaks commit to the current x-only key as in BIP341", "statement": "with_taproot_tweak(root) succeeds exactly when t = H_TapTweak(x(Q)||root) is in [1,n) and lift_x(x(Q)) + t*G is finite, and then the aggregated key is lift_x(x(Q)) + t*G; the unspendable variant is the same with an empty root. The result is a context for which all signing properties hold.", "quantifier": "for every reachable context, every merkle root and every hash function", "why_tests_cant": "Depends on the parity of arbitrary tweaked keys and on rare hash outputs that tests cannot hit.", "anchors": ["src/key_agg.rs: with_taproot_tweak_internal, with_taproot_tweak, with_unspendable_taproot_tweak"]}
{"id": "C06", "title": "Aggregated secret keys are correct", "statement": "aggregated_seckey returns Ok(x) only if x*G equals the aggregated (tweaked) public key; given the secret keys of pubkeys() in order it always returns Ok. The error is returned exactly when the weighted sum does not match. (The documented claim that misaligned keys are always rejected is examined separately.)", "quantifier": "for every reachable context and every list of secret keys", "why_tests_cant": "Correct signs for every tweak history and arbitrary wrong lists cannot be enumerated.", "anchors": ["src/key_agg.rs: aggregated_seckey"]}
{"id": "C07", "title": "KeyAggContext serialisation round-trips", "statement": "Decoding the encoding of a context yields an identical context: same keys, order, coefficients, aggregated key, parity and tweak accumulators, hence identical behaviour in every later call. The bytes have the documented layout: header byte with parity and tweak-present bits, the tweak in 32 bytes only when non-zero, a big-endian count in 4 bytes, the compressed keys in order, nothing else.", "quantifier": "for every reachable context (any keys, any tweak history)", "why_tests_cant": "The aggregated key is not serialised and is rebuilt from parity and tweak; equality must hold for every history.", "anchors": ["src/key_agg.rs: BinaryEncoding for KeyAggContext (to_bytes, from_bytes)"]}
{"id": "C08", "title": "KeyAggContext decoding is total, safe and canonical up to reserved header bits", "statement": "On a 64-bit target from_bytes never panics, for any byte string. Every accepted byte string yields a well-formed context, and re-encoding that context gives back the input except for the six unused header bits, which are cleared (so decoding is not canonical: headers with unused bits set are accepted).", "quantifier": "for every byte string", "why_tests_cant": "Adversarial byte strings are unbounded; slice indexing panics hide in rare lengths.", "anchors": ["src/key_agg.rs: from_bytes"]}
{"id": "C09", "title": "KeyAggContext decoding on 32-bit targets", "statement": "The length check multiplies a 32-bit count by 33 in usize. On a 32-bit target this product can overflow: with overflow checks the decoder panics on attacker-supplied bytes, and without them it accepts inputs whose declared key count differs from the number of keys present.", "quantifier": "for every byte string and both usize widths and overflow-check settings", "why_tests_cant": "CI runs on 64-bit hosts, and the failing counts are specific values of a 4-byte field.", "anchors": ["src/key_agg.rs: from_bytes lines 604-611"]}
{"id": "C10", "title": "Context equality means identical contexts", "statement": "If two reachable contexts compare equal (keys, parity and tweak accumulators) then their aggregated keys, coefficients and index maps are equal too, so every API call behaves the same on both.", "quantifier": "for every pair of reachable contexts", "why_tests_cant": "PartialEq ignores most fields; only an invariant over all histories justifies that.", "anchors": ["src/key_agg.rs: PartialEq for KeyAggContext"]}
{"id": "C11", "title": "Partial signing succeeds exactly for members and is BIP327 Sign", "statement": "sign_partial and sign_partial_adaptor return Ok exactly when the secret key's public key is in the group and UnknownKey otherwise; SelfVerifyFail is never returned. With no adaptor point the value equals the BIP327 Sign scalar.", "quantifier": "for every reachable context, secret key, secret nonce, aggregated nonce (including infinite components), adaptor point and message", "why_tests_cant": "The self-check passing for all nonces, parities, tweak histories and degenerate nonces is a universal algebraic fact.", "anchors": ["src/signing.rs: sign_partial, sign_partial_adaptor", "reference.py: sign"]}
{"id": "C12", "title": "Partial verification is BIP327 PartialSigVerify and accepts exactly one scalar", "statement": "verify_partial accepts exactly when the BIP327 equation holds, returns UnknownKey exactly when the key is not a member, and for a given session, signer and public nonce exactly one scalar is accepted.", "quantifier": "for every reachable context, scalar, aggregated nonce, adaptor point, key, public nonce and message", "why_tests_cant": "Acceptance set over the whole scalar field cannot be sampled.", "anchors": ["src/signing.rs: verify_partial, verify_partial_adaptor", "reference.py: partial_sig_verify_internal"]}
{"id": "C13", "title": "Valid partial signatures aggregate to a valid signature", "statement": "If the aggregated nonce is the sum of the signers' public nonces and every partial signature verifies, aggregation succeeds exactly when R1 + b*R2 is not infinity (or the adapted equation happens to hold for the substituted generator); the documented unconditional guarantee is refuted by the infinity case.", "quantifier": "for every reachable context, every assignment of public nonces and partial signatures (not necessarily honestly made), every adaptor point and message", "why_tests_cant": "Quantifies over all adversarial nonces and signatures accepted by the verifier.", "anchors": ["src/signing.rs: verify_partial (doc guarantee)", "src/sig_agg.rs: aggregate_partial_adaptor_signatures"]}
{"id": "C14", "title": "An aggregated signature that is returned is valid", "statement": "If aggregate_partial_signatures returns Ok(sig) then verify_single(aggregated key, sig, message) accepts; it never panics; it equals BIP327 PartialSigAgg; the order of the partial signatures does not matter.", "quantifier": "for every reachable context, aggregated nonce, list of scalars and message", "why_tests_cant": "Holds for arbitrary, possibly malicious inputs, not just for honest runs.", "anchors": ["src/sig_agg.rs: aggregate_partial_signatures", "src/bip340.rs: verify_single", "reference.py: partial_sig_agg"]}
{"id": "C15", "title": "An aggregated adaptor signature that is returned is valid and adaptable", "statement": "If adaptor::aggregate_partial_signatures returns Ok(sig) then adaptor::verify_single accepts it for the aggregated key and adaptor point, and adapting it with the discrete log of the adaptor point gives a signature accepted by verify_single whenever adapt returns Some.", "quantifier": "for every reachable context, aggregated nonce, adaptor secret, list of scalars and message", "why_tests_cant": "All parities of final and adapted nonces for arbitrary inputs.", "anchors": ["src/sig_agg.rs: aggregate_partial_adaptor_signatures", "src/signature.rs: AdaptorSignature::adapt"]}
{"id": "C16", "title": "Verified adaptor signatures adapt to valid signatures", "statement": "If adaptor::verify_single accepts (key, sig, message, t*G) then sig.adapt(t) is None exactly when R + t*G is infinity, and otherwise is a signature accepted by verify_single.", "quantifier": "for every key, adaptor signature, message and adaptor secret (including zero)", "why_tests_cant": "Sign conventions must agree for all parities.", "anchors": ["src/signature.rs: adapt", "src/bip340.rs: verify_single_adaptor, verify_single"]}
{"id": "C17", "title": "reveal_secret inverts adapt", "statement": "reveal_secret(final) returns Some(x) only if adapt(x) = Some(final), and returns None only if no secret adapts to final. If the adaptor nonce R is not infinity then adapt(t) = Some(final) implies reveal_secret(final) = Some(t). For an infinite R the returned secret can be -t instead of t.", "quantifier": "for every adaptor signature, every final signature with an even nonce and every secret", "why_tests_cant": "Uniqueness over the whole scalar field and degenerate nonces are out of reach of sampling.", "anchors": ["src/signature.rs: AdaptorSignature::reveal_secret"]}
{"id": "C18", "title": "Encrypting a signature and adapting it gives it back", "statement": "For a lifted signature (even nonce), encrypting with any list of secrets one after another and then adapting with their sum returns the original signature, and the encrypted signature verifies as an adaptor signature for the sum of the adaptor points.", "quantifier": "for every lifted signature and every list of non-zero secrets (any length)", "why_tests_cant": "Induction over the number of encryptions and all parities.", "anchors": ["src/signature.rs: LiftedSignature::encrypt, AdaptorSignature::encrypt, adapt"]}
{"id": "C19", "title": "Re-encrypting an existing adaptor signature", "statement": "The documentation says existing adaptor signatures can be encrypted again so that both secrets are needed. For an adaptor signature made by signing (not by encrypting a finished signature), encrypt(u) followed by adapt(t+u) gives the same signature as adapt(t) exactly when the adapted nonce has even parity; for odd parity the result is a different, invalid signature.", "quantifier": "for every valid adaptor signature, secrets t and u", "why_tests_cant": "The documentation example only uses an even nonce; the failure is a universally quantified parity condition.", "anchors": ["src/signature.rs: AdaptorSignature::encrypt", "doc/adaptor_signatures.md: Encrypting Signatures"]}
{"id": "C20", "title": "Single-signer signing always verifies and is BIP340 signing", "statement": "sign_solo never panics and its signature is always accepted by verify_single under the signer's key; it equals the BIP340 default signing algorithm except when the derived nonce reduces to zero, where the nonce 1 is used.", "quantifier": "for every secret key, message, seed and hash function", "why_tests_cant": "Every parity combination and degenerate hash outputs.", "anchors": ["src/bip340.rs: sign_solo, sign_solo_adaptor"]}
{"id": "C21", "title": "Single-signer adaptor signing verifies and adapts", "statement": "adaptor::sign_solo output is always accepted by adaptor::verify_single for the same adaptor point, and adapting with the discrete log yields a valid signature unless the adapted nonce is infinity, in which case adapt returns None.", "quantifier": "for every secret key, message, seed, adaptor point (including infinity)", "why_tests_cant": "Covers degenerate adaptor points chosen adversarially.", "anchors": ["src/bip340.rs: sign_solo_adaptor, verify_single_adaptor"]}
{"id": "C22", "title": "verify_single is BIP340 verification", "statement": "verify_single accepts a 64-byte signature under a key exactly when the BIP340 Verify algorithm accepts the bytes with the x-only key; the parity of the given key is irrelevant; malformed signatures are rejected.", "quantifier": "for every key, every byte string as signature and every message", "why_tests_cant": "Equivalence on all byte strings, including s >= n and r not on the curve.", "anchors": ["src/bip340.rs: verify_single", "reference.py: schnorr_verify"]}
{"id": "C23", "title": "Batch verification accepts every valid batch", "statement": "verify_batch returns Ok on every list of rows whose signatures are individually valid (normal or adaptor), for every seedable RNG; the empty batch is accepted.", "quantifier": "for every list of rows, any length, every RNG stream and hash", "why_tests_cant": "Unbounded batches and all RNG streams.", "anchors": ["src/bip340.rs: verify_batch, BatchVerificationRow"]}
{"id": "C24", "title": "Batch verification soundness per coefficient", "statement": "A batch in which exactly one row is invalid is always rejected. In general, for fixed other coefficients, at most one value of the coefficient of an invalid row makes the batch equation hold. verify_batch accepts exactly when the equation holds for the coefficients 1 and then the RNG scalars seeded with the BIP0340/batch tagged hash of all challenges followed by all s values; a single-row batch is accepted exactly when that row is valid.", "quantifier": "for every list of rows and every RNG stream", "why_tests_cant": "Statement about all coefficient vectors.", "anchors": ["src/bip340.rs: verify_batch"]}
{"id": "C25", "title": "Batch seed does not commit to adaptor nonces", "statement": "The batch RNG seed hashes only challenges and s values. For adaptor rows the challenge commits to R+T, not to R, so for every hash and RNG one can build a batch of two individually invalid adaptor rows that verify_batch accepts; the documented claim that an error is returned if any signature is invalid is refuted for adaptor rows.", "quantifier": "for every hash function and every RNG there exist rows", "why_tests_cant": "A forged batch has to be constructed against the seed; random tests never find it.", "anchors": ["src/bip340.rs: verify_batch, from_adaptor_signature"]}
{"id": "C26", "title": "Holdouts are exactly the missing signers", "statement": "In both rounds holdouts() is at every moment the strictly increasing list of signer indexes for which no contribution has been accepted; it never contains our own index, and is_complete() is true exactly when it is empty. No sequence of calls can panic.", "quantifier": "for every sequence of receive calls with arbitrary indexes and values", "why_tests_cant": "Invariant over all histories, including out-of-range and repeated deliveries.", "anchors": ["src/rounds.rs: Slots, FirstRound::holdouts, SecondRound::holdouts, is_complete"]}
{"id": "C27", "title": "First contribution wins, rejections change nothing", "statement": "Receiving a contribution for an index in range succeeds when the slot is empty or holds the same value, fails with InconsistentContribution(index) when it holds another, and with OutOfRange(n) when the index is out of range; a failing or repeated call leaves the whole observable state unchanged and an accepted value is never replaced.", "quantifier": "for every reachable round state and every call", "why_tests_cant": "History-dependent behaviour under adversarial deliveries.", "anchors": ["src/rounds.rs: Slots::place, receive_nonce"]}
{"id": "C28", "title": "Delivery order does not matter", "statement": "If two schedules deliver the same set of mutually consistent contributions, in any order and with any repetitions, the resulting round states are identical.", "quantifier": "for every pair of delivery schedules", "why_tests_cant": "Factorially many schedules.", "anchors": ["src/rounds.rs: receive_nonce, receive_signature"]}
{"id": "C29", "title": "The second round only accepts valid signatures", "statement": "receive_signature accepts exactly when the index is in range, the partial signature verifies against that signer's key and the nonce recorded in the first round, and no different signature is on file; it reports OutOfRange, InvalidSignature or InconsistentContribution with the offending index otherwise. Because verification pins down one scalar, InconsistentContribution can only arise at our own index after signing with another member's key.", "quantifier": "for every reachable second round, index and scalar", "why_tests_cant": "All scalars and all histories.", "anchors": ["src/rounds.rs: receive_signature"]}
{"id": "C30", "title": "Rounds finalize exactly when complete", "statement": "FirstRound::finalize returns Incomplete exactly when holdouts() is non-empty and otherwise a SecondRound or UnknownKey; SecondRound::finalize_adaptor returns Incomplete exactly when holdouts() is non-empty; when complete and our own key was the right one it succeeds exactly when the aggregate nonce is not degenerate, and the result verifies. No finalizer panics.", "quantifier": "for every reachable round state", "why_tests_cant": "All histories and adversarial contributions.", "anchors": ["src/rounds.rs: FirstRound::finalize, finalize_adaptor, SecondRound::finalize, finalize_adaptor"]}
{"id": "C31", "title": "End-to-end: honest signers always agree on one valid signature", "statement": "When every signer runs FirstRound/SecondRound honestly with its own key on the same context, message and adaptor point, then whatever the order, repetition and interleaving of deliveries (and any rejected garbage in between), every signer who completes finalizes to the same signature, valid under the tweaked aggregated key, provided R1 + b*R2 is not infinity.", "quantifier": "for every number of signers, key list (duplicates allowed), tweak history, seeds, message and every delivery schedule", "why_tests_cant": "Unbounded signers and schedules.", "anchors": ["src/rounds.rs", "src/signing.rs", "src/sig_agg.rs"]}
{"id": "C32", "title": "Finishing an adaptor session with SecondRound::finalize", "statement": "The documentation says that calling SecondRound::finalize after FirstRound::finalize_adaptor returns InvalidAggregatedSignature. In the code it returns Ok with a signature that verify_single rejects.", "quantifier": "exists a session (shown for a concrete one) and, in general, for every completed adaptor session", "why_tests_cant": "Tests never call the mismatched finalizer.", "anchors": ["src/rounds.rs: SecondRound::finalize (doc lines 420-422)"]}
{"id": "C33", "title": "Finalizing the first round with another member's key", "statement": "FirstRound::finalize accepts any group member's secret key, not only that of our signer index. Our stored partial signature is valid for our index exactly when the key's coefficient-weighted public key is ours (or the challenge vanishes); otherwise every later finalize of this round fails although all peers were honest.", "quantifier": "for every reachable first round and every secret key", "why_tests_cant": "Mistaken key among group members is a corner no test exercises.", "anchors": ["src/rounds.rs: FirstRound::finalize_adaptor"]}
{"id": "C34", "title": "Aggregator mode gives the same partial signatures", "statement": "sign_for_aggregator(seckey, message, aggnonce) returns the same partial signature as finalize(...).our_signature() when the aggregator's nonce is the sum of the same public nonces, and the adaptor variants agree likewise.", "quantifier": "for every completed first round", "why_tests_cant": "Two code paths for all inputs.", "anchors": ["src/rounds.rs: sign_for_aggregator, sign_for_aggregator_adaptor"]}
{"id": "C35", "title": "SecNonce::generate is BIP327 NonceGen", "statement": "SecNonce::generate(seed, sk, aggpk, msg, extra) equals BIP327 NonceGen with rand'=seed, pk = sk*G, except that a zero scalar is replaced by one; it panics exactly when the extra input is longer than u32::MAX bytes.", "quantifier": "for every seed, key, aggregated key, message and extra input, every hash", "why_tests_cant": "Byte-level equality of preimages for all lengths.", "anchors": ["src/nonces.rs: SecNonce::generate, SecNonceBuilder::build", "reference.py: nonce_gen_internal"]}
{"id": "C36", "title": "When SecNonceBuilder matches BIP327", "statement": "SecNonceBuilder::build hashes the same preimage as BIP327 NonceGen exactly when a secret key was given and at least one extra input was given (and a public key is set). Without a secret key, or without extra input, the preimage differs from BIP327, contrary to the documentation.", "quantifier": "for every builder state", "why_tests_cant": "The vectors in the repository were restricted to the cases that match.", "anchors": ["src/nonces.rs: SecNonceBuilder::build (doc lines 330-332)", "reference.py: nonce_gen_internal"]}
{"id": "C37", "title": "Nonce preimages separate all inputs", "statement": "Two builder states hash the same preimage for a nonce only if they agree on the masked seed, on presence and value of public key, x-only aggregated key and message, and on presence and concatenation of extra inputs; and the two nonces of one builder never share a preimage. Splitting extra input into chunks differently does not change the nonce.", "quantifier": "for every pair of builder states with messages shorter than 2^64 bytes", "why_tests_cant": "Injectivity of a variable-length encoding over all inputs.", "anchors": ["src/nonces.rs: SecNonceBuilder::build"]}
{"id": "C38", "title": "Rounds of different signers never share a nonce preimage", "statement": "Two FirstRounds created for different signer indexes, or for contexts whose aggregated x-only keys differ, or for different signer keys, hash different nonce preimages even with the same seed and spices.", "quantifier": "for every pair of calls to FirstRound::new", "why_tests_cant": "Collision freedom of inputs for arbitrary indexes and spices.", "anchors": ["src/rounds.rs: FirstRound::new", "src/nonces.rs: with_spices"]}
{"id": "C39", "title": "Nonces are never zero or infinite", "statement": "Both scalars of every built or decoded SecNonce are in [1,n), both public nonce points are finite, and AggNonce::final_nonce is finite for every aggregated nonce and coefficient, being R1+b*R2 unless that is infinity and the generator then.", "quantifier": "for every builder, byte string, aggregated nonce and coefficient", "why_tests_cant": "Degenerate hash outputs and cancelling nonces are unreachable for tests.", "anchors": ["src/nonces.rs: build, public_nonce, final_nonce"]}
{"id": "C40", "title": "Fixed-size encodings round-trip", "statement": "For SecNonce, PubNonce, AggNonce, CompactSignature, LiftedSignature (even nonce) and AdaptorSignature, from_bytes(to_bytes(x)) = Ok(x), and the encodings have exactly 64, 66, 66, 64, 64 and 65 bytes.", "quantifier": "for every value of each type", "why_tests_cant": "All 512-bit values.", "anchors": ["src/nonces.rs: encodings", "src/signature.rs: encodings"]}
{"id": "C41", "title": "Fixed-size decoders accept only canonical bytes", "statement": "Decoding succeeds exactly on the byte strings of the right length whose parts are in-range scalars and valid compressed points (33 zero bytes for infinity where allowed), reports the right failure reason otherwise, never panics, and re-encoding an accepted string returns it unchanged; the one exception is the 97-byte SecNonce form, whose last 33 bytes are ignored.", "quantifier": "for every byte string", "why_tests_cant": "All byte strings of all lengths.", "anchors": ["src/nonces.rs: encodings", "src/signature.rs: encodings"]}
{"id": "C42", "title": "Hex parsing", "statement": "Parsing the lower-case or upper-case (or any mixed-case) hex of a value returns the value; strings of odd length, with a non-hex character or of the wrong length are rejected; two strings parse to the same value only if they differ in letter case. A 97-byte SecNonce is accepted as bytes but rejected as hex.", "quantifier": "for every string and every value", "why_tests_cant": "All strings.", "anchors": ["src/binary_encoding.rs: FromStr, LowerHex, UpperHex"]}
{"id": "C43", "title": "Nonce aggregation is an order-independent sum", "statement": "AggNonce::sum is BIP327 NonceAgg, does not depend on the order of the public nonces, equals the component-wise sum of the aggregates of any partition, and its encoding equals the reference bytes.", "quantifier": "for every list of public nonces", "why_tests_cant": "Unbounded lists and permutations.", "anchors": ["src/nonces.rs: AggNonce::sum", "reference.py: nonce_agg"]}
{"id": "C44", "title": "Compact and lifted signatures correspond", "statement": "compact() followed by lift_nonce() gives back the lifted signature; lift_nonce fails exactly when rx is not the x coordinate of a curve point; a compact signature that verifies always lifts, and verification is unaffected by the form.", "quantifier": "for every signature value", "why_tests_cant": "All x coordinates.", "anchors": ["src/signature.rs: compact, lift_nonce, LiftedSignature::new"]}
{"id": "C45", "title": "Deterministic nonces follow RFC6979", "statement": "derive_nonce_rfc6979 returns a scalar in [1,n), the first candidate of the HMAC-DRBG sequence that is in range, as a function of key and message only, and equals RFC6979 whenever the message digest as an integer is below n; for digests at or above n it differs because bits2octets is not reduced. Deterministic signatures verify.", "quantifier": "for every secret key, message and hash function for which the loop ends", "why_tests_cant": "The unreduced digest case has probability about 2^-128.", "anchors": ["src/deterministic.rs: derive_nonce_rfc6979, sign_solo, adaptor::sign_solo"]}
{"id": "C46", "title": "Using a secret nonce twice reveals the secret key", "statement": "If one secret nonce is used by sign_partial in three sessions of one context whose public coefficient vectors are linearly independent, the secret key is a fixed rational function of the three partial signatures and public data. Two sessions suffice when they share message and aggregated nonce but use different adaptor points with different challenges.", "quantifier": "for every context, key, nonce, aggregated nonces, adaptor points and messages", "why_tests_cant": "Universal algebraic identity.", "anchors": ["src/signing.rs: sign_partial", "src/rounds.rs: FirstRound"]}
{"id": "C47", "title": "Reference equivalence of the whole pipeline", "statement": "For every set of keys, tweaks, nonces and message, running the API on parsed values and serialising the result gives the same bytes as the BIP327 reference functions (key_agg, apply_tweak, nonce_agg, sign, partial_sig_verify, partial_sig_agg) run on the serialised inputs.", "quantifier": "for every list of keys, tweaks, nonces and message", "why_tests_cant": "Vectors fix a few dozen inputs.", "anchors": ["reference.py", "src/key_agg.rs", "src/nonces.rs", "src/signing.rs", "src/sig_agg.rs"]}
{"id": "C48", "title": "Builder calls override and accumulate as documented", "statement": "In a SecNonceBuilder the last with_seckey wins, the public key is that of the last with_pubkey or with_seckey call, spices override secret key and message only where present and never change the public key, extra inputs accumulate in call order; a call panics exactly when the accumulated extra input exceeds u32::MAX bytes.", "quantifier": "for every sequence of builder calls", "why_tests_cant": "All call sequences.", "anchors": ["src/nonces.rs: SecNonceBuilder, SecNonceSpices"]}
{"id": "C49", "title": "Seed reuse across adaptor points reveals the key", "statement": "The nonce of sign_solo and adaptor::sign_solo depends on key, message and seed but not on the adaptor point. Two signatures by one key on one message with one seed and different adaptor points (including none) share the nonce point, and their s values determine the secret key. With the deterministic module the seed is always shared, so deterministic::sign_solo and deterministic::adaptor::sign_solo on the same key and message reveal the key.", "quantifier": "for every key, message, seed and pair of adaptor points", "why_tests_cant": "Universal algebraic identity.", "anchors": ["src/bip340.rs: sign_solo_adaptor", "src/deterministic.rs: sign_solo, adaptor::sign_solo"]}
{"id": "C50", "title": "Precomputed tag digests are the hashes of their tags", "statement": "For every message, hashing with each of the ten digest constants of tagged_hashes.rs gives SHA256(SHA256(tag) || SHA256(tag) || message) for the documented tag string, with SHA-256 as in FIPS 180-4; the constants are pairwise different.", "quantifier": "for every message and each of the ten hashers", "why_tests_cant": "The unit test fixes one tag and one message.", "anchors": ["src/tagged_hashes.rs: with_tag_hash_prefix and the ten statics"]}
{"id": "C51", "title": "The laws assumed of the curve hold for secp256k1", "statement": "With the integer formulas of reference.py, the points of y^2 = x^3 + 7 mod p are a cyclic group of prime order n generated by G; point_mul and lift_x have their intended meaning; the model instantiated with these operations and SHA-256 satisfies every law that the other theorems assume.", "quantifier": "for every point, scalar and byte string", "why_tests_cant": "Associativity and the order of the group concern about 2^256 points.", "anchors": ["reference.py: point_add, point_mul, lift_x", "Cargo.toml: secp, sha2"]}
{"id": "C52", "title": "Signatures on secp256k1 pass the reference verifier", "statement": "With secp256k1 and SHA-256: verify_single accepts exactly what the reference's schnorr_verify accepts; every signature returned by aggregate_partial_signatures, by adapt on an aggregated adaptor signature, by sign_solo, and by a finished two-round session is accepted by it.", "quantifier": "for every key set, tweak, nonce, message and schedule of messages", "why_tests_cant": "Vectors fix a few dozen inputs.", "anchors": ["src/bip340.rs: verify_single, sign_solo", "src/sig_agg.rs", "src/rounds.rs", "reference.py: schnorr_verify"]}
{"id": "C53", "title": "Hash inputs are unambiguous and domain separated", "statement": "Every hash the crate computes is a tagged hash of the data it is documented to bind. Two uses of the hash have the same input only if they have the same purpose and the same data. Hence a hashed key coefficient determines the whole key list, the nonce coefficient determines aggregated nonce, x-only key and message, the challenge determines nonce, x-only key and message, and a secret nonce determines the inputs of its builder, unless the two hashed strings differ and their SHA-256 digests agree modulo the group order.", "quantifier": "for every two uses of any of the ten tagged hashes, on all inputs", "why_tests_cant": "Injectivity of encodings of unbounded inputs.", "anchors": ["src/tagged_hashes.rs", "src/key_agg.rs: hash_pubkeys, compute_key_aggregation_coefficient", "src/nonces.rs: SecNonceBuilder::build, nonce_coefficient", "src/signing.rs: compute_challenge_hash_tweak", "src/bip340.rs: sign_solo_adaptor, verify_batch"]}
{"id": "C54", "title": "Sequences of tweaks compose", "statement": "Plain tweaks applied one after the other equal one tweak by their sum modulo n, in every component of the context, in any order, and tweaks that add up to zero give back the context; the sequence fails exactly if some intermediate key would be infinite. An x-only tweak yields lift_x(x(Q)) + t*G whatever the parity of Q and is undone, up to the sign of the key, by a plain tweak by -t.", "quantifier": "for every context and every sequence of tweaks", "why_tests_cant": "All sequences and scalars.", "anchors": ["src/key_agg.rs: with_plain_tweak, with_xonly_tweak, with_tweaks"]}
{"id": "C55", "title": "A repeated seed repeats the nonce", "statement": "FirstRound::new is a function of seed, context, index and spices: a signer restarted with the same inputs repeats its public nonce, and whatever the histories of three such lives, three released partial signatures satisfy a public linear equation for the secret key that determines it unless a determinant vanishes. Two first rounds share a nonce point only if they agree on key, index, x-only aggregated key, message and extra inputs of the spices and masked seed, or the strings they hash differ and collide; so putting the message into the spices prevents the leak.", "quantifier": "for every context, seed, spices, and every three histories of calls", "why_tests_cant": "All histories of restarted signers.", "anchors": ["src/rounds.rs: FirstRound::new, finalize_adaptor, sign_for_aggregator_adaptor", "src/nonces.rs: SecNonceBuilder::build"]}
{"id": "C56", "title": "Every history of a signer", "statement": "Model a signer as a machine that takes any sequence of the calls the types allow (nonces, finalize or sign_for_aggregator, signatures, finalize). No history panics; nonce deliveries come first, then at most one call that uses the secrets, then signatures, then one finalize; the released partial signature is BIP327's for the nonces first received. A final signature implies that a valid partial signature of every other signer arrived and is valid under the aggregated key; two signers with the same nonces on file, message and adaptor point end with the same signature.", "quantifier": "for every first round that can be constructed and every finite sequence of calls", "why_tests_cant": "Unbounded interleavings of calls by callers and the network.", "anchors": ["src/rounds.rs: FirstRound, SecondRound"]}
{"id": "C57", "title": "Aggregation sees only the sum; partial verification identifies culprits", "statement": "With a finite final nonce, aggregation succeeds exactly if the partial signatures have the same sum as valid ones. So one invalid partial signature among valid ones always makes it fail, a failure always means that partial verification rejects some contribution, and two invalid contributions can cancel and give a valid signature.", "quantifier": "for every context, set of nonces, adaptor point, message and list of partial signatures", "why_tests_cant": "Universal algebraic statement.", "anchors": ["src/sig_agg.rs: aggregate_partial_adaptor_signatures", "src/signing.rs: verify_partial_adaptor"]}
{"id": "C58", "title": "Publishing one signature completes all pre-signatures for the same point", "statement": "If a pre-signature verifies for an adaptor point T and any BIP340-valid signature for the same key and message with the nonce R + T becomes known, reveal_secret yields the discrete logarithm of T, and it completes every other pre-signature that verifies for T to a valid signature.", "quantifier": "for every pair of pre-signatures, keys and messages, and every valid signature with that nonce, however produced", "why_tests_cant": "Universal statement over all signatures.", "anchors": ["src/signature.rs: reveal_secret, adapt", "src/bip340.rs: verify_single"]}
{"id": "C59", "title": "Exactly which calls can panic", "statement": "KeyAggContext::new panics exactly for no keys or more than 2^32 - 1 keys, FirstRound::new exactly when the index is in range and the extra inputs have 2^32 - 4 bytes or more (and the nonce builder, C35 and C48, when its extra inputs exceed 2^32 - 1 bytes). No other operation on a context, no signing, verifying, aggregating or batch function, no method of a round in any state, and no decoder panics: every unwrap, expect, index and overflow check in them is unreachable.", "quantifier": "for every reachable context, every round after any calls, and all arguments (64-bit usize for the decoder of contexts)", "why_tests_cant": "Unreachability of panics is a statement about all inputs and all call sequences.", "anchors": ["src/key_agg.rs", "src/signing.rs", "src/sig_agg.rs", "src/bip340.rs", "src/rounds.rs", "src/nonces.rs", "src/signature.rs", "src/binary_encoding.rs"]}
{"id": "C60", "title": "Signature conversions and serde preserve the value", "statement": "Every LiftedSignature the crate produces has an even nonce point. Requested as any supported type (LiftedSignature, CompactSignature, 64 bytes, secp256k1 schnorr::Signature, k256 WideBytes, (PublicKey, Scalar) pair) it converts back to the same signature, the byte forms are x(R) || s, and verification does not depend on the form; the sign of R in a pair is ignored. Every encodable type deserialises through serde exactly from its encoding (hex of either case in human-readable formats, a byte string otherwise) and round trips, except that if the serdect crate writes arrays as tuples the fixed-size types do not round trip in binary formats that tell tuples from byte strings.", "quantifier": "for every signature, value, wire form, format kind and both array encodings of serdect", "why_tests_cant": "Universal round-trip and exact-acceptance statements; no test serialises to a binary serde format.", "anchors": ["src/signature.rs: unzip, internal_conversions, secp256k1_conversions, k256_conversions", "src/binary_encoding.rs: Serialize, Deserialize, From, TryFrom impls"]}
{"id": "C61", "title": "Error messages identify the error", "statement": "The Display texts of KeyAggError, InvalidSecretKeysError, TweakError, SignerIndexError, SigningError, VerifyError, RoundContributionError and RoundFinalizeError determine the error type, variant and every index and count in it. The text of a DecodeError determines its reason among the reasons the crate produces, given that the texts taken from other crates are distinct from each other and from the crate's own; a caller's custom reason can copy any text.", "quantifier": "for every pair of errors of these types with arbitrary indices and counts", "why_tests_cant": "Injectivity over unbounded numbers.", "anchors": ["src/errors.rs: Display impls"]}
{"id": "C62", "title": "One s per nonce", "statement": "For one key, message and 32-byte R, verify_single accepts at most one completion to a 64-byte signature, with s below n, and accepts one exactly when R is the x coordinate of a curve point. For every key, message, R and adaptor point exactly one s makes a pre-signature verify.", "quantifier": "for every key, message, R, adaptor point and candidate byte string", "why_tests_cant": "Non-malleability quantifies over all byte strings.", "anchors": ["src/bip340.rs: verify_single, verify_single_adaptor", "src/signature.rs: CompactSignature::from_bytes"]}
{"id": "C63", "title": "A valid signature transfers only through a challenge collision", "statement": "A signature valid for one message is valid for another under the same key exactly when the two challenge hashes agree modulo n, and for another key exactly when e*P agrees; likewise for pre-signatures and messages.", "quantifier": "for every signature, pair of messages and pair of keys", "why_tests_cant": "Universal statement relating verification to hash values.", "anchors": ["src/bip340.rs: verify_single, verify_single_adaptor", "src/signing.rs: compute_challenge_hash_tweak"]}
{"id": "C64", "title": "Two valid signatures with one nonce reveal the key", "statement": "If two signatures with the same R verify under one key with different challenges, (s - s') / (e - e') is the secret key of the even public key, however they were made; for two aggregated signatures it is the aggregated secret key of the group, up to the parity of the aggregated key.", "quantifier": "for every key, pair of messages and pair of valid signatures; for every two aggregations with one aggregated key", "why_tests_cant": "Universal algebraic statement.", "anchors": ["src/bip340.rs: verify_single", "src/sig_agg.rs: aggregate_partial_signatures", "src/key_agg.rs: aggregated_seckey"]}
{"id": "C65", "title": "Error rate of batch verification", "statement": "If some row of a batch of m rows is invalid, at most one in n-1 of the (n-1)^(m-1) coefficient vectors (1, a_2, ..., a_m) with non-zero a_i satisfies the batch equation; verify_batch draws a vector of this form and accepts exactly when it satisfies the equation.", "quantifier": "for every number of rows, every choice of valid and invalid rows and every set of coefficient vectors", "why_tests_cant": "A counting bound over about 2^(256(m-1)) vectors.", "anchors": ["src/bip340.rs: verify_batch, BatchVerificationRow"]}
{"id": "C66", "title": "The aggregated secret key follows tweaks; taproot end to end", "statement": "A tweak changes the aggregated secret key to plus or minus the old one plus the tweak (minus for an x-only tweak of an odd key) and the lists of secret keys accepted stay the same. For a taproot tweak the new key is BIP341's output key, the new secret key is BIP341's taproot_tweak_seckey of the old one, and aggregated and solo signatures verify under the output key by BIP340. Aggregated keys can themselves be members of a group, with the aggregated secret keys as their secret keys.", "quantifier": "for every context, tweak, root, list of secret keys, message and list of inner groups", "why_tests_cant": "Universal statement linking three BIPs.", "anchors": ["src/key_agg.rs: with_tweak, with_taproot_tweak, aggregated_seckey", "src/sig_agg.rs: aggregate_partial_signatures", "src/bip340.rs: sign_solo"]}
{"id": "C67", "title": "Signers among dishonest peers agree", "statement": "A session, given by aggregated key, aggregated nonce, adaptor point and message, has at most one aggregated signature whatever partial signatures go in. Two signers whose second rounds agree on these finalize to the same signature even if different nonces and partial signatures were delivered to them, and complete rounds with valid own signatures return equal results, errors included.", "quantifier": "for every pair of started second rounds and every two sequences of deliveries, from any number of dishonest peers", "why_tests_cant": "Universal over the behaviour of dishonest peers and the network.", "anchors": ["src/rounds.rs: SecondRound", "src/sig_agg.rs: aggregate_partial_adaptor_signatures, aggregate_partial_signatures"]}
{"id": "C68", "title": "How many adaptor points a pre-signature is encrypted under", "statement": "A pre-signature valid for adaptor point T is also valid for T' exactly when, with the adapted nonces of equal parity, the two challenges agree modulo n, and otherwise when (e'-e)*P is plus or minus 2R. A signature verifies if and only if its lifted form verifies as a pre-signature for the point at infinity. The holder of the secret key can make one pre-signature valid for two adaptor points that adapts to two signatures with different nonces. So the documented 'will verify only if it is encrypted under the given adaptor point' is not a property of the code against a key holder.", "quantifier": "for every key, message, pre-signature and pair of adaptor points; for every secret key in groups of order above 3", "why_tests_cant": "Universal statement about all pairs of adaptor points; the two-point pre-signature is adversarially made.", "anchors": ["src/bip340.rs: verify_single_adaptor", "src/signature.rs: LiftedSignature, AdaptorSignature"]}
{"id": "C69", "title": "When the order of keys does not matter", "statement": "Contexts over the same keys in two orders have the same aggregated key exactly when the sum of (a - a')*P over the keys, of the coefficient differences, is the point at infinity. The documented claim that another order always gives another key is false in a small group.", "quantifier": "for every list of keys and every permutation of it", "why_tests_cant": "Universal over lists and permutations.", "anchors": ["src/key_agg.rs: KeyAggContext::new"]}
{"id": "C70", "title": "Seeds drawn from a generator", "statement": "Calls of FirstRound::new, SecNonceBuilder::new, SecNonce::generate, sign_solo and adaptor::sign_solo with one random number generator give what they give for its successive 32-byte draws passed as arrays or by reference, one draw per call, except that FirstRound::new with an index out of range draws nothing. On a byte stream no byte is used twice. Two rounds of one signer with equal spices hash equal strings exactly when the aux hashes of the two draws agree; equal generator states give equal rounds. A panic of the generator is a panic of the call. SecNonce::random takes the first two in-range 32-byte blocks.", "quantifier": "for every generator, state and sequence of calls; for every byte stream", "why_tests_cant": "Universal over generators and call sequences; tests use one generator.", "anchors": ["src/nonces.rs: NonceSeed, SecNonceBuilder::new, SecNonce::generate, SecNonce::random", "src/rounds.rs: FirstRound::new", "src/bip340.rs: sign_solo, sign_solo_adaptor"]}
{"id": "C71", "title": "The crate and the Python reference agree on bytes, apart from three named cases", "statement": "On secp256k1 with SHA-256, the crate's results for any byte strings of the documented lengths are those of /repo/reference.py on integers: keys, tweaks, nonce generation, nonce aggregation, signing, partial verification and signature aggregation. Where a string does not decode in the crate, the reference blames the first such signer, the aggregator, or raises ValueError. The exceptions: the crate cannot express the tweak 0, it ignores the public key at the end of a 97-byte secret nonce and so signs where the reference raises, and it replaces a zero nonce scalar by 1 where the reference fails an assertion.", "quantifier": "for all byte strings of the documented lengths, all key lists, tweak lists and messages", "why_tests_cant": "The vectors cover about a hundred inputs; agreement of two programs on every byte string is universal.", "anchors": ["reference.py: key_agg, apply_tweak, nonce_gen_internal, nonce_agg, sign, partial_sig_verify_internal, partial_sig_agg", "src/key_agg.rs: KeyAggContext::new, with_tweaks", "src/nonces.rs: SecNonce::generate, SecNonce::from_bytes, AggNonce::from_bytes, AggNonce::sum", "src/signing.rs: sign_partial, verify_partial", "src/sig_agg.rs: aggregate_partial_signatures"]}
{"id": "C72", "title": "Orders and sorted keys", "statement": "The derived orders of PubNonce and AggNonce are the lexicographic orders of their encodings and compare as equal exactly equal values. Sorting keys gives the reference's key_sort, so signers who hold the same keys in any order and sort them get the same result from KeyAggContext::new, which is the reference's key_agg of the sorted keys.", "quantifier": "for all nonces, points, key lists and permutations of them", "why_tests_cant": "Universal over key lists and permutations; the crate has one sorting vector and no test of the derived orders.", "anchors": ["src/nonces.rs: PubNonce, AggNonce (derived Ord)", "src/key_sort.rs: test_sort_public_keys", "src/key_agg.rs: KeyAggContext::new documentation", "reference.py: key_sort"]}
{"id": "C73", "title": "Extraction of a member's key", "statement": "A member's secret key is determined by the aggregated secret key and the keys of the other members; by two valid signatures under the aggregated key with one nonce and the keys of the other members; and, as in MuSig's security proof, by four valid signatures in runs with different hash functions (two values of that member's coefficient relative to the others', two challenges each with one nonce), with no key of anyone; this includes the second key, whose coefficient is always 1. Each time a linear equation modulo the order is given whose only solution is the key when its factor is not zero.", "quantifier": "for all groups of keys, repeated keys, tweaks, messages, signatures and hash functions", "why_tests_cant": "The claim is about all forgeries and relates runs with different hash functions; a test runs with one hash function.", "anchors": ["src/key_agg.rs: KeyAggContext::new, with_tweak, compute_key_aggregation_coefficient, aggregated_seckey", "src/bip340.rs: verify_single", "src/signing.rs: compute_challenge_hash_tweak"]}
{"id": "C74", "title": "Valid partial signatures are honest and can be simulated", "statement": "A public nonce and a partial signature verify exactly when sign_partial gives that signature with the secret nonce of that public nonce, of which there is one. Given the nonce coefficient, the challenge and the parity of the final nonce, every choice of the signature and the second nonce fits exactly one first nonce, computed without the secret key, unless that nonce would be infinite: a partial signature says nothing about the key that its public nonce and the hash values do not say.", "quantifier": "for all contexts, members, sessions, adaptor points, signatures and nonces", "why_tests_cant": "A statement about all nonces and signatures of a session at once, and about computing without the key; tests only see signatures made with it.", "anchors": ["src/signing.rs: sign_partial, adaptor::sign_partial, verify_partial, adaptor::verify_partial", "src/nonces.rs: SecNonce::public_nonce"]}
{"id": "C75", "title": "A group signs exactly what a single signer signs", "statement": "A signature verifies under a key exactly when BIP340 signing gives it with the secret key and some nonce k between 1 and n - 1, and only n - k gives it as well. Two or more signers with any aggregated key, tweaked or not, can make exactly these signatures: every run that returns a signature returns one of them, and for each of them there are nonces for which the run returns it. The same for pre-signatures with a finite nonce. So a signature does not tell whether a group made it, of what size, or how the key was tweaked.", "quantifier": "for all contexts of two or more keys, secret keys, messages, adaptor points and byte strings", "why_tests_cant": "That every valid signature can arise is a statement about all signatures and all choices of nonces; README.md claims that aggregated signatures are indistinguishable from those of a single key, and no test can show it.", "anchors": ["README.md", "src/sig_agg.rs: aggregate_partial_signatures, adaptor::aggregate_partial_signatures", "src/signing.rs: sign_partial", "src/bip340.rs: verify_single, sign_solo"]}
{"id": "C76", "title": "Whole sessions under any schedule", "statement": "Model a session as an asynchronous system: every signer runs its rounds with its own key, nonces arrive from their signers in any order and any number of times, any number may arrive as anyone's signature, and a signer finalizes a round once is_complete holds. In every execution no call panics or is refused except numbers that are not the named signer's signature; all signers that finish, in whatever execution, get one signature, valid under the aggregated key, unless the final nonce is infinite, and then none gets one; and there is no deadlock: of 2n^2 things to do at the start each event does one or changes nothing, and as long as one is left some signer can do one with what the signers have sent.", "quantifier": "for all contexts, numbers of signers, seeds, keys, messages, adaptor points and schedules", "why_tests_cant": "Safety and liveness over all interleavings of any number of signers; tests run one schedule.", "anchors": ["src/rounds.rs: FirstRound, SecondRound", "README.md"]}
{"id": "C77", "title": "Scalars made from digests are almost uniform", "statement": "Challenges and coefficients are digests reduced modulo n, and secret nonces are reduced digests with zero replaced by one. Every value comes from exactly floor(2^256/n) digests, plus one if it is below 2^256 mod n; the nonce 1 also gets the digests of zero. On secp256k1 the number of digests that give a nonce in any set A is at least the size of A and exceeds it by at most 2^256 - n + 1 < 2^129, so a random digest lands in A with a probability within 2^-127 of size(A)/2^256.", "quantifier": "for all scalars and all sets of nonces", "why_tests_cant": "Counts over all 2^256 digests; a sample of nonces cannot show a bias of this size or its absence.", "anchors": ["src/nonces.rs: SecNonceBuilder::build", "src/signing.rs: compute_challenge_hash_tweak", "src/nonces.rs: nonce_coefficient"]}
{"id": "C78", "title": "What a refused partial signature proves, and what an infinite nonce reveals", "statement": "Honest signers run their rounds among signers who send anything, different things to different signers. A partial signature of an honest signer i is accepted by an honest signer j exactly if i would have made the same one from what j knows, so in particular if both have the same aggregated nonce, message and adaptor point. If it is refused although message and adaptor point are the same, some dishonest signer has sent i and j different nonces; so blaming the sender, as the documentation advises, is wrong in general, and a witness session shows it. If R1 + b*R2 is infinite and all partial signatures verify nevertheless, they add up to the challenge times the aggregated secret key, which everybody can then compute.", "quantifier": "for all contexts, honest subsets, deliveries, messages and adaptor points; for all nonces and partial signatures", "why_tests_cant": "Behaviour of the honest signers against every adversary; tests do not equivocate.", "anchors": ["src/rounds.rs: SecondRound::receive_signature", "src/nonces.rs: AggNonce", "README.md", "doc/API.md", "src/signing.rs: verify_partial_adaptor"]}
{"id": "C79", "title": "How many values make a step fail", "statement": "KeyAggContext::with_plain_tweak and with_xonly_tweak each refuse exactly one scalar for a given context, the negation of the secret key of the aggregated key (of its even form for x-only tweaks); a taproot tweak is refused exactly when its digest is zero, not below the group order, or that scalar. AdaptorSignature::adapt returns None for exactly one secret. AggNonce::final_nonce replaces an infinite nonce for exactly one nonce coefficient when R2 is finite, and returns the generator for exactly one other. KeyAggContext::new fails exactly for the digests of one residue class modulo n of the hash that makes the coefficient of any member other than the second key, everything else about the hash being fixed.", "quantifier": "all contexts, tweaks, merkle roots, adaptor signatures, aggregated nonces, coefficients, key lists with repetitions and members other than the second key, all hash functions and all values of the one digest", "why_tests_cant": "The failing values cannot be found by anyone who does not know the secret key, so no test can hit them on secp256k1, and tests cannot show that no second one exists.", "anchors": ["src/key_agg.rs:93-143", "src/key_agg.rs:221-278", "src/signature.rs:185-193", "src/nonces.rs:633-643"]}
{"id": "C80", "title": "Sessions with an untrusted aggregator", "statement": "Every signer uses its round object in any way and ends by signing for an aggregator or with its peers, all with the same aggregated nonce, adaptor point and message; the nonce is whatever the aggregator says. Every released partial signature passes partial verification for it. They aggregate exactly if R1 + b*R2 of the true nonces, b being that of the claimed nonce, is the final nonce of the claimed one, and otherwise BadSignature is returned; with the true sum and R1 + b*R2 finite the result is a valid signature and is what every signer that worked with its peers and finished returned. What a signer released for one aggregated nonce verifies for another one, or for another adaptor point or message, exactly if it would have released the same for that; a signer releases for one session only. So, refuting that a signature that fails verification shows a dishonest signer, an aggregator that tells one signer another nonce makes that honest signer's signature fail.", "quantifier": "for all contexts, uses of the round objects, aggregated nonces, adaptor points and messages", "why_tests_cant": "Behaviour against every aggregator and every mixture of the two topologies; the documented example runs one honest aggregator.", "anchors": ["src/rounds.rs: FirstRound::sign_for_aggregator, sign_for_aggregator_adaptor, finalize, SecondRound::finalize", "src/sig_agg.rs: adaptor::aggregate_partial_signatures", "doc/API.md: Single Aggregator"]}
{"id": "C81", "title": "Values chosen before one digest is known", "statement": "Let everything about the hash function be given except the digest at one input. For the digest behind the coefficient of a member other than the second key, every point is the aggregated key for exactly one residue class of the digest modulo n. For the digest of the challenge, every well-formed 64-byte signature (an x coordinate and an integer below n) verifies under a given key and message for exactly one residue class and every other byte string for none, and every adaptor signature verifies for a given adaptor point for exactly one residue class. With the counts of C77, on secp256k1 each of these happens for one or two of the 2^256 digests.", "quantifier": "for all key lists with repetitions, members, target keys, messages, signatures, adaptor points and hash functions, and all values of the one digest", "why_tests_cant": "A statement about all hash functions at once; a test runs with SHA-256 and never sees the digest that would make a chosen signature valid.", "anchors": ["src/key_agg.rs: KeyAggContext::new, compute_key_aggregation_coefficient", "src/bip340.rs: verify_single, verify_single_adaptor", "src/signing.rs: compute_challenge_hash_tweak"]}
{"id": "C82", "title": "Exactly when reusing a secret nonce reveals the key", "statement": "One secret key and one secret nonce used by sign_partial in any list of sessions (any contexts, tweaks, aggregated nonces, adaptor points, messages): the equations that the partial signatures state about key and nonces leave only one secret key possible exactly when the public points (b, +-e*a*g*gacc) of the sessions are not all on one line over the scalars; otherwise for every key there are nonces explaining every signature. Two sessions reveal the key exactly when their nonce coefficients b agree and their weights differ, and one session never does. So the two equations of the attack in doc/API.md (one message, different co-signer nonces, two sessions) do not determine the key unless the nonce coefficients collide (a third session is needed), and the formula printed there is wrong even where its premises hold.", "quantifier": "for every list of sessions, key and nonce; for every context in the documented attack", "why_tests_cant": "An exact criterion over all lists of sessions, with an existence claim for every alternative key.", "anchors": ["src/signing.rs: sign_partial", "doc/API.md: Nonce Reuse"]}
{"id": "C83", "title": "Control flow of the functions that handle secrets", "statement": "Record every branch taken, table position read and length hashed by the crate's own code. In sign_partial (adaptor or not) these are an explicit list made from the position of the signer's public key, the length of the message, whether R1 + b*R2 is infinite and the parity of R + T, and for a stranger's key only the early returns: neither the secret key nor the secret nonce shows. Building a nonce shows which inputs were given, the lengths of the message and extra inputs, and whether each of the two hashes is zero modulo n, and two builders are told apart exactly by these. Signing alone shows the length of the message and whether BIP340 signing fails; the deterministic flavour also the number of RFC 6979 candidates refused. aggregated_seckey branches on values determined by the public keys of the secrets; adapt and reveal_secret on the adaptor point. That control flow is independent of secrets is therefore false only in the zero-hash branches (refuted with witnesses on the small curve) and the RFC 6979 retries. The recording changes no result.", "quantifier": "for all contexts, keys, nonces, seeds, adaptor points, messages and hash functions", "why_tests_cant": "A relation between executions with different secrets; tests look at results, and the documentation says that no independent testing has confirmed the claim.", "anchors": ["src/signing.rs: sign_partial_adaptor, verify_partial_adaptor", "src/nonces.rs: SecNonceBuilder::build, AggNonce::final_nonce", "src/bip340.rs: sign_solo, sign_solo_adaptor", "src/deterministic.rs", "src/key_agg.rs: aggregated_seckey, key_coefficient", "src/signature.rs: adapt, reveal_secret", "doc/API.md: Constant Time Operations"]}
{"id": "C84", "title": "Control flow of the round objects over a whole session", "statement": "Record every branch taken and table position used by a FirstRound or SecondRound and the functions they call. Over any list of calls (nonces and signatures at any position, early or repeated finalization, signing with any key and adaptor point, in any order) the record is computed by a separate watcher program from the transcript alone: the key aggregation context, the signer's position and public nonce, the calls with the public key in place of the secret key, and the replies. Creating a round shows which inputs of the nonce builder were given and two zero-hash bits, which are false unless a published nonce point is the generator. The recording changes no result.", "quantifier": "for all started rounds, lists of calls, contexts, seeds, spices and hash functions", "why_tests_cant": "Says that nothing else about the secret key and nonce shows in any history of calls; tests look at results of single histories.", "anchors": ["src/rounds.rs: Slots, FirstRound, SecondRound", "src/signing.rs: sign_partial_adaptor, verify_partial_adaptor", "src/sig_agg.rs: aggregate_partial_adaptor_signatures", "doc/API.md: Constant Time Operations"]}
{"id": "C85", "title": "Exact decoding of contexts, and which types can be confused", "statement": "On 64-bit targets, decoding any byte string as a KeyAggContext gives exactly what a reader of the documented layout gives using the reference's key_agg and apply_tweak: the same keys and (Q, gacc, tacc), or the same error (length, scalar, point, infinite aggregate, invalid tweak) and never a panic. If one byte string, or one hex text, is taken by the decoders of two types, these are SecNonce, CompactSignature and LiftedSignature, or PubNonce and AggNonce. A PubNonce encoding always decodes to the same AggNonce, and back exactly when both points are finite; a compact signature decodes as a lifted one exactly when some point has that x; 64 bytes of a secret nonce always decode as a compact signature.", "quantifier": "for all byte strings and texts, all curves and hash functions", "why_tests_cant": "A total characterisation over all byte strings, including the order in which errors are found.", "anchors": ["src/key_agg.rs: KeyAggContext::from_bytes", "src/nonces.rs: from_bytes", "src/signature.rs: from_bytes", "src/binary_encoding.rs", "src/errors.rs: DecodeError"]}
{"id": "C86", "title": "A forger that is given the digests can be forked, and a fork gives the secret key", "statement": "Take any program that asks for digests and ends with a signature and a message for a given key. Over all assignments of N digests to k inputs, with at most q questions and at most c digests per residue class modulo n: if the signature verifies in acc assignments, then the number of assignments with one further digest in which it verifies, and verifies again with the digest of its challenge replaced (same question as challenge, another residue), is F with N * acc^2 <= (q+1) * N^k * (F + acc * c). Each such fork determines the secret key of the given public key by one linear equation modulo n that has exactly one solution.", "quantifier": "for all programs, all sets of digests and inputs, all keys, all curves and hash functions", "why_tests_cant": "A statement about every possible forger and about counts over exponentially many hash functions.", "anchors": ["src/bip340.rs: verify_single", "src/signing.rs: compute_challenge_hash_tweak", "README.md: signatures need the secret keys"]}
{"id": "C87", "title": "A forger that chooses the other members of a group gives the honest member's secret key", "statement": "Take any program that asks for digests and ends with a list of keys, tweaks, a signature and a message, and succeeds when a given point P is in the list (not as its second key), the signature verifies for the tweaked aggregated key and it asked for P's coefficient and the challenge. With N, k, q, c as in C86: acc successes give B forks at the challenge with N * acc^2 <= q * N^k * (B + acc * c), and C double forks at P's coefficient with N * B^2 <= q * N^(k+1) * (C + B * c). After a double fork the two key lists have the same list digest, and if they are equal the secret key of P is the only solution of a linear equation in the four signatures, the digests and the tweaks, whatever the other keys are.", "quantifier": "for all programs (so all rogue keys and tweaks), all sets of digests and inputs, all points P, all curves and hash functions", "why_tests_cant": "Rogue-key security quantifies over adversaries and over random hash functions.", "anchors": ["src/key_agg.rs: KeyAggContext::new, compute_key_aggregation_coefficient, with_tweaks", "src/bip340.rs: verify_single"]}
{"id": "C88", "title": "The same for the second key of the list, whose coefficient is 1", "statement": "Take a program as in C87 that succeeds when a given point P is the second key of its list, the signature verifies for the tweaked aggregated key and it asked for the coefficients of all the other keys and for the challenge. Let the digests be the encodings of the integers below n. acc successes among n^k worlds give B forks at the challenge with n * acc^2 <= q * n^k * (B + acc), and C double forks in which all the coefficients of its list are multiplied by a factor other than 1, with (n - 1) * B^2 <= q * n^(k+1) * (C + B). After a double fork the two key lists have the same list digest, and if they are equal the secret key of P is the only solution of a linear equation in the four signatures, the digests, the tweaks and the factor.", "quantifier": "for all programs (so all rogue keys and tweaks), all sets of inputs, all points P, all curves and hash functions", "why_tests_cant": "The optimisation that gives the second key the coefficient 1 is safe only if no adversary can use it; no test covers all adversaries.", "anchors": ["src/key_agg.rs: KeyAggContext::new, compute_key_aggregation_coefficient, with_tweaks", "src/bip340.rs: verify_single"]}
{"id": "C89", "title": "Concurrent sessions: what a forger must give away", "statement": "Take any number of finished sessions with the signer of a key P (any groups, adaptor points and messages, answered with partial signatures that verify), and a signature that verifies for any group, whose nonce and member keys are written as combinations of the generator, P and the public nonces of the sessions. Its s is a known number plus a known multiple of the secret of P plus known multiples of the secrets of the sessions' second nonces. If the multiple of the secret of P is not 0 modulo n, the secret of P is the only solution, given the second nonces; if the multiple of a second nonce is not 0, that nonce's secret is the only solution, given the rest; otherwise the signature is the known combination of the partial signatures that were given. The last case needs a coincidence: with all else fixed, two residues of the forgery's challenge lead to it only if the member keys leave nothing by themselves (which they do not when the other members' secrets are known and P's coefficients are not 0), and two residues of a session's nonce coefficient or challenge only if its first nonce is not used.", "quantifier": "for all numbers of sessions and all ways they are interleaved, all groups, all combinations, all curves and hash functions", "why_tests_cant": "Attacks with concurrent sessions (Wagner, Drijvers et al.) pass every test of single sessions; the statement covers every way to combine the nonces.", "anchors": ["src/signing.rs: sign_partial_adaptor, verify_partial_adaptor, compute_nonce_coefficient", "src/nonces.rs: AggNonce::final_nonce", "src/bip340.rs: verify_single", "src/key_agg.rs"]}
{"id": "C90", "title": "The errors of every function", "statement": "Every fallible public function returns exactly the error variants of a table: whatever the curve, the arguments, the (reachable) context and the calls made before, no function returns a variant outside its row, and each variant in its row is returned for some arguments. SigningError::SelfVerifyFail (alone or inside RoundFinalizeError) and RoundFinalizeError::InvalidAggregatedSignature(UnknownKey) are returned by no function; every other variant by some. The documentation of RoundFinalizeError, that SigningError is only returned by FirstRound::finalize and InvalidAggregatedSignature only by SecondRound::finalize, is false: the adaptor methods return them too.", "quantifier": "for all curves, hash functions, contexts, arguments and histories of calls; all functions and variants", "why_tests_cant": "A test shows that an error occurs; that an error never occurs needs all inputs.", "anchors": ["src/errors.rs", "src/signing.rs", "src/sig_agg.rs", "src/rounds.rs", "src/key_agg.rs", "src/nonces.rs", "src/signature.rs", "src/bip340.rs"]}
{"id": "C91", "title": "Adaptor points chosen after the nonces give a forgery", "statement": "The nonce coefficient of a session does not depend on the adaptor point. If a signer has as many sessions open as n has bits (256 on secp256k1), with all nonces exchanged, and answers each of them for one of two adaptor points named by the other side, then there is an explicit way, computed from public values before any answer, to choose the points, and an explicit combination of the answers, that is a valid BIP340 signature on any message for any key that is a known multiple of the signer's key plus a known point (its own key, or the aggregated key of a group whose other keys are the forger's). Only the two challenges of each session must differ and the forged nonce be finite. This holds for sign_partial_adaptor and for FirstRound::finalize_adaptor.", "quantifier": "for all curves, hash functions, signers, groups, messages and sessions", "why_tests_cant": "It needs hundreds of sessions and an adversary that computes across them; each session by itself is correct and passes every test.", "anchors": ["src/signing.rs:49-102 sign_partial_adaptor", "src/rounds.rs: FirstRound::finalize_adaptor", "src/nonces.rs: AggNonce::nonce_coefficient, final_nonce", "src/bip340.rs: verify_single"]}
{"id": "C92", "title": "Sessions whose messages are bytes, and signers that stop and start again", "statement": "A group decodes its context from bytes and exchanges nonces and partial signatures as bytes. Whatever else arrives at each signer, in any order, under any name, readable or not: if the first readable nonce under each other signer's name is what that signer sent, every signer sends a partial signature, a second round is complete exactly when the bytes each other signer sent have arrived, and all complete rounds give the same 64 bytes (65 with an adaptor point), which verify, unless R1 + b*R2 is infinite. A signer that stops at any point of either round, with its context, the arguments of FirstRound::new and a journal of the first readable nonces and of the valid signatures stored, and then makes and replays its round, is in the same state as if it had not stopped.", "quantifier": "for all groups, contexts, schedules of arriving bytes, crash points, journals and curves", "why_tests_cant": "The arriving byte strings, their orders and the points at which a signer can stop are unboundedly many.", "anchors": ["src/rounds.rs: FirstRound, SecondRound", "src/nonces.rs: PubNonce::from_bytes", "src/key_agg.rs: KeyAggContext::from_bytes", "src/signature.rs: LiftedSignature::serialize"]}
{"id": "C93", "title": "What a pre-signature that verifies is worth", "statement": "Whoever may choose the adaptor point needs no secret: for every key, message, s and adapted nonce A there is exactly one R, made of public values, with which (R, s) passes verify_single_adaptor for the adaptor point A - R. When the adaptor point T is fixed beforehand a forger can be forked: N * acc^2 <= (q+1) * N^k * (forks + acc*c) over all hash functions, and each fork gives an equation D*x = Y + (difference of signs)*t mod n with D not 0 whose one solution is the secret x of the key, t being the secret of T; it contains t only if the two adapted nonces have opposite parities. A verified pre-signature whose adapted nonce is infinite gives x from t without a fork.", "quantifier": "for all curves, keys, messages, adaptor points, programs, and all hash functions over given inputs", "why_tests_cant": "The forgers are arbitrary programs and the count is over all hash functions; tests only show that honest pre-signatures verify.", "anchors": ["src/bip340.rs:117-148 verify_single_adaptor", "src/signature.rs: AdaptorSignature"]}
{"id": "C94", "title": "How rarely a forgery with concurrent sessions is made of the answers alone", "statement": "A forger with k sessions whose groups, public nonces and adaptor points are fixed beforehand asks for at most q digests, ends each session whenever it likes with any aggregated nonce and message, and names with each question how the nonce in it is made of the generator, the signer's key and the nonces. Over all functions from the inputs to the digests, the share of those with which its forgery is in order and yet leaves nothing of the signer's key and nonces (the exceptional case of C89) is at most (q + (k+1)q(q-1)/2)*c/|digests|, c being the most digests with one residue. With every other hash function a signature that verifies is an equation whose only solution is the secret key or the second nonce of one session.", "quantifier": "for all curves, numbers of sessions, programs, ways of naming combinations, and all hash functions over given inputs", "why_tests_cant": "The claim is about all programs and counts hash functions; no test can enumerate either, and the attack that it excludes (with one nonce instead of two) passes every test of the crate.", "anchors": ["src/signing.rs: sign_partial, sign_partial_adaptor", "src/nonces.rs: AggNonce::nonce_coefficient, AggNonce::final_nonce", "src/bip340.rs: verify_single"]}
{"id": "C95", "title": "Forked twice, a forger rarely ends with two different key lists", "statement": "The double forks of C87 and C88 give the secret key of P if the program ends with the same key list in both worlds. When every list it can end with is among the inputs, N*C <= N*S + (q+1)(2q+1)*N^(k+2)*c, where C counts the double forks and S those whose lists agree (for P as the second key: N*C <= N*S + (q+1)(2q+1)*N^(k+1)*(N-1)); and each fork counted by S gives a linear equation modulo n whose one solution is the secret of P. So colliding list digests need no separate assumption.", "quantifier": "for all curves, keys, programs, inputs, digests and all hash functions over them", "why_tests_cant": "The claim bounds collisions of the list hash over all hash functions and all programs; tests use one hash function in which nobody knows a collision.", "anchors": ["src/key_agg.rs: hash_pubkeys, compute_key_aggregation_coefficient", "src/bip340.rs: verify_single"]}
{"id": "C96", "title": "A program that chooses its batch after asking for digests rarely fools batch verification", "statement": "A program asks for at most q of k inputs of the hash and ends with at most M signatures with keys and messages, its choice depending on the digests, the batch seed among them. If at most r of the N digests, as seeds of the generator, make the batch equation hold for rows fixed beforehand that are not all valid, and at most c digests share a residue, then of the N^k hash functions those with which verify_batch accepts although some signature does not verify on its own number at most (2q'r + (M+1)q'(q'-1)c)*N^k/(2N), with q' = q if the program itself asked for the challenges and the seed, and q' = q+M+1 otherwise. For two signatures the condition on the generator is that at most r digests have the same first draw.", "quantifier": "for all curves, generators, programs, batch sizes, inputs, digests and all hash functions over them", "why_tests_cant": "Tests verify one batch with one seed. Whether a seed made of the challenges and s values, without nonces, keys and messages, suffices against someone who picks the rows after seeing digests is a claim about all programs and hash functions.", "anchors": ["src/bip340.rs: verify_batch, BatchVerificationRow::from_signature", "src/bip340.rs: verify_single"]}
{"id": "C97", "title": "Builders given different things rarely make the same nonce twice", "statement": "A program asks for at most q of k inputs of the hash and then chooses what is given to at most M secret nonce builders: seeds, public keys, aggregated keys, messages and extra inputs, no two builders being given the same (seed, public key, x coordinate of the aggregated key, message, joined extra inputs), the secret key being one for all or absent. If at most c of the N digests give the same nonce, then of the N^k hash functions those with which two of the 2M secret scalars are equal number at most q'(q'-1)c*N^k/(2N), with q' = q+3M. The seed may be the same for all builders.", "quantifier": "for all curves, programs, secret keys, numbers of builders, inputs, digests and all hash functions over them", "why_tests_cant": "Tests make a few nonces with one hash function. That separation by message or key alone prevents a repeated nonce, for inputs chosen after seeing digests, is a claim about all programs and hash functions.", "anchors": ["src/nonces.rs: SecNonceBuilder::build, SecNonceBuilder::with_spices"]}
{"id": "C98", "title": "A taproot output key commits to one internal key and one merkle root", "statement": "A program asks for at most q of k inputs of the hash and ends with two openings, each a key aggregation context, however it was made, and a merkle root or none. Of the N^k hash functions, those with which with_taproot_tweak gives both contexts the same x-only output key although the x coordinates of their aggregated keys or the roots differ number at most (q+2)(q+1)*N^k/N; when the first opening is fixed beforehand, at most 2(q+1)*N^k/N.", "quantifier": "for all curves, contexts, roots, programs, inputs, digests and all hash functions over them", "why_tests_cant": "Tests compare output keys of a few contexts. That nobody can open an output key in two ways, even choosing internal keys and roots after seeing digests, is a claim about all programs and hash functions.", "anchors": ["src/key_agg.rs: with_taproot_tweak, with_unspendable_taproot_tweak, with_taproot_tweak_internal, with_xonly_tweak"]}
{"id": "C99", "title": "Signatures of a single signer rarely share a nonce", "statement": "A program that may know the secret key asks for at most q of k inputs of the hash and then orders at most M signatures from sign_solo or sign_solo_adaptor, no two with the same seed and the same message. If at most c of the N digests give the same nonce up to its sign, then of the N^k hash functions those with which two of the signatures have nonces with one x coordinate number at most q'(q'-1)c*N^k/(2N), with q' = q+2M. All seeds may be equal.", "quantifier": "for all curves, secret keys, programs, numbers of signatures, inputs, digests and all hash functions over them", "why_tests_cant": "Tests sign a few messages with one hash function. That a constant seed is harmless as long as messages differ, for messages chosen after seeing digests, is a claim about all programs and hash functions.", "anchors": ["src/bip340.rs: sign_solo, sign_solo_adaptor"]}
{"id": "C100", "title": "Deterministic signatures of different messages rarely share a nonce", "statement": "A program that may know the secret key asks for at most q of k inputs of the hash and then orders at most M signatures of different messages from deterministic::sign_solo or deterministic::adaptor::sign_solo, whose seeds are RFC 6979 nonces computed with the same hash function, with at most f candidates each. If at most c of the N digests give the same nonce up to its sign, then of the N^k hash functions those with which two of the signatures have nonces with one x coordinate number at most q'(q'-1)c*N^k/(2N), with q' = q+(11+6f)M.", "quantifier": "for all curves, secret keys, programs, numbers of signatures and of candidates, inputs, digests and all hash functions over them", "why_tests_cant": "Tests sign a few messages with one hash function. RFC 6979 and the BIP340 nonce use the same hash, so that their composition does not collide, for messages chosen after seeing digests, is a claim about all programs and hash functions.", "anchors": ["src/deterministic.rs: derive_nonce_rfc6979, sign_solo, adaptor::sign_solo", "src/bip340.rs: sign_solo, sign_solo_adaptor"]}
{"id": "C101", "title": "A signature rarely verifies for two messages or two keys, even for its maker", "statement": "A program, which may know all secret keys, asks for at most q of k inputs of the hash and ends with a signature and two public keys with messages. If at most c of the N digests share a residue, then of the N^k hash functions those with which verify_single accepts the signature for both, although the x coordinates of the keys or the messages differ, number at most (q+2)(q+1)c*N^k/(2N); when the signature, the first key and the first message are fixed beforehand, at most (q+1)c*N^k/N.", "quantifier": "for all curves, signatures, keys, messages, programs, inputs, digests and all hash functions over them", "why_tests_cant": "Tests check a few wrong keys and messages. That even whoever makes keys and signature for the purpose cannot have one signature accepted twice (the challenge hashes key and message) is a claim about all programs and hash functions.", "anchors": ["src/bip340.rs: verify_single", "src/signing.rs: compute_challenge_hash_tweak"]}
{"id": "C102", "title": "An adaptor signature commits its maker to one message under one adaptor point, but not under two", "statement": "A program, which may know all secret keys, asks for at most q of k inputs of the hash and ends with an adaptor signature, an adaptor point and two public keys with messages. If at most c of the N digests share a residue, then of the N^k hash functions those with which verify_single_adaptor accepts it under that point for both, although the x coordinates of the keys or the messages differ, number at most (q+2)(q+1)c*N^k/(2N). The same with two adaptor points is false for every hash function: for every secret key, any two messages and adapted nonces x*G (even) and x'*G (odd), some adaptor signature verifies for the first message under t*G and for the second under t'*G, with R+t*G = x*G and R+t'*G = x'*G.", "quantifier": "for all curves, keys, messages, adaptor points, programs, inputs, digests and all hash functions over them; for the refutation, for all secret keys, messages and adapted nonces of different parity", "why_tests_cant": "Tests verify adaptor signatures made by sign_solo_adaptor only. The double one comes from choosing the nonce after the challenges, using that verification negates the nonce when the adapted one is odd.", "anchors": ["src/bip340.rs: verify_single_adaptor"]}
{"id": "C103", "title": "Different sessions rarely have one nonce, unless the second aggregated nonce is infinite", "statement": "A program, which may know all secret keys and nonces, asks for at most q of k inputs of the hash and ends with two sessions: aggregated nonces (R1, R2), aggregated keys and messages. If at most c of the N digests share a residue, then of the N^k hash functions those with which the final nonces R1 + b*R2 (or G in place of an infinite sum) agree up to sign, although nonces, x coordinates of the keys or messages differ and neither R2 is infinite, number at most 3(q+2)(q+1)c*N^k/(2N). With an infinite R2, which the code accepts, it is otherwise for every hash function: for every session and every other key and message there are aggregated nonces with the same final nonce.", "quantifier": "for all curves, aggregated nonces, keys, messages, programs, inputs, digests and all hash functions over them", "why_tests_cant": "Tests compute the nonces of a few sessions. That whoever picks the aggregated nonces after seeing digests cannot have two sessions share a nonce, and that this needs a finite R2, are claims about all programs and hash functions.", "anchors": ["src/nonces.rs: AggNonce::nonce_coefficient, AggNonce::final_nonce"]}
{"id": "C104", "title": "An aggregated key commits to its members and their order", "statement": "A program, which may know all secret keys, asks for at most q of k inputs of the hash and ends with two lists of at most u public keys, u below the order of the group. If at most c of the N digests share a residue, then of the N^k hash functions those with which KeyAggContext::new gives both lists an aggregated key with the same x coordinate, although the lists differ (be it only in the order of the keys), number at most (q+2u+2)(q+2u+1)(1+c)*N^k/N.", "quantifier": "for all curves, lists of keys, programs, inputs, digests and all hash functions over them", "why_tests_cant": "Tests aggregate a few lists. That nobody finds two groups with one key, even choosing keys with known secrets after seeing digests of lists and coefficients, is a claim about all programs and hash functions.", "anchors": ["src/key_agg.rs: KeyAggContext::new, hash_pubkeys, compute_key_aggregation_coefficient"]}
{"id": "C105", "title": "A taproot output key commits to the group, the order of its members and the scripts", "statement": "A program, which may know all secret keys, asks for at most q of k inputs of the hash and ends with two groups, each a list of at most u public keys, u below the order of the group, and a merkle root or none. Let at most c of the N digests share a residue and Q = q+2u+2. Of the N^k hash functions, those with which KeyAggContext::new and with_taproot_tweak give both groups an output key with the same x coordinate, although the lists (be it only in the order of the keys) or the roots differ, number at most ((Q+2)(Q+1) + Q(Q-1)(1+c))*N^k/N.", "quantifier": "for all curves, lists of keys, roots, programs, inputs, digests and all hash functions over them", "why_tests_cant": "Tests compare a few output keys with vectors. That nobody finds two groups or script trees with one output, choosing keys and roots after seeing digests, is a claim about all programs and hash functions.", "anchors": ["src/key_agg.rs: KeyAggContext::new, with_taproot_tweak, with_tweak"]}
{"id": "C106", "title": "Nobody aims at an aggregated key, and nobody makes aggregation fail", "statement": "A program, which may know all secret keys, asks for at most q of k inputs of the hash and ends with a list of at most u public keys, u below the order of the group. Let at most c of the N digests share a residue and Q = q+u+1. Of the N^k hash functions, those with which the aggregated key of KeyAggContext::new has a given x coordinate number at most (Q(Q-1) + 2cQ)*N^k/N, and those with which KeyAggContext::new returns its error (the sum is infinite) at most (Q(Q-1) + cQ)*N^k/N.", "quantifier": "for all curves, x coordinates, lists of keys, programs, inputs, digests and all hash functions over them", "why_tests_cant": "Tests aggregate fixed lists, for which the error never occurs. That no adaptive choice of keys cancels the others (the rogue key attack) or brings the error about is a claim about all programs and hash functions.", "anchors": ["src/key_agg.rs: KeyAggContext::new, compute_key_aggregation_coefficient", "src/errors.rs: KeyAggError"]}
{"id": "C107", "title": "Nobody aims at a taproot output key, and nobody makes the tweak fail", "statement": "A program, which may know all secret keys, asks for at most q of k inputs of the hash and ends with a list of at most u public keys and a merkle root or none. Of the N^k hash functions over N digests, those with which KeyAggContext::new and with_taproot_tweak give an output key with a given x coordinate number at most 2(q+u+2)*N^k/N. If b of the digests are no secret keys, those with which the list has an aggregated key but with_taproot_tweak returns its error number at most (q+u+2)(b+1)*N^k/N.", "quantifier": "for all curves, x coordinates, lists of keys, roots, programs, inputs, digests and all hash functions over them", "why_tests_cant": "Tests tweak a few keys and never see the error. That no adaptive choice of members and scripts hits an output key fixed beforehand, or brings the error about, is a claim about all programs and hash functions.", "anchors": ["src/key_agg.rs: KeyAggContext::new, with_taproot_tweak, with_taproot_tweak_internal", "src/errors.rs: TweakError"]}
{"id": "C108", "title": "A tweak binds a key to its value only within one context", "statement": "From every context, with_tweak reaches every key Q except the one it starts from (the aggregated key, or its even representative for x-only tweaks) with exactly one tweak, which is the difference of the logarithms of Q and of the start. So different groups with different tweaks can have one tweaked key, and signatures are not bound to the tweak value unless it is made of the key.", "quantifier": "for all curves, contexts, keys and kinds of tweak; a witness for the refutation", "why_tests_cant": "Tests compare tweaked keys with vectors. That all keys are reached, each once, and that the sentence on binding fails, takes a proof over all scalars and points.", "anchors": ["src/key_agg.rs: with_tweak, with_plain_tweak, with_xonly_tweak"]}
{"id": "C109", "title": "The last signer to send its nonce decides the aggregated nonce", "statement": "Given the nonces of all others, every pair of points (infinite ones included) that differs in both components from their sum is the aggregated nonce for exactly one further public nonce, at whatever position, and no other pair is reached. If the second points of the others do not cancel, one further nonce makes any given point R, other than the sum of the first points, the final nonce for every key and message.", "quantifier": "for all curves, hash functions, lists of nonces, targets, keys and messages", "why_tests_cant": "Tests sum fixed nonces. That all pairs are reached, each once, and that one nonce fixes the final nonce for all messages takes a proof over all points.", "anchors": ["src/nonces.rs: AggNonce::sum, AggNonce::nonce_coefficient, AggNonce::final_nonce"]}
