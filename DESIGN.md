# Formal model of the `musig2` crate

The code under study is in `/repo` (crate `musig2` 0.3.1).  It was only read,
never built or run.  This directory holds a Rocq/Coq 8.16.1 model of it and
machine-checked theorems about the model.

## Layout

* `properties.jsonl` - the properties, in terms of the public API.
* `MANIFEST.json` - property -> status and theorem names.
* `seeded/LOG.jsonl` - record of mutation tests of the theorems.
* `vectors/run_vectors.py` - runs the extracted model on the 103 BIP327/BIP340
  test vector cases in `/repo/src/test_vectors` and on 61 cases from the documentation
  examples and unit tests of the crate (not part of the proof build; see
  "Checks of the model" below).
* `vectors/adaptor_forgery.py` - runs the forgery of C91 on secp256k1 against the extracted model.
* `rocq/theories/` - the development.  A file never mixes roles:

| role | files |
|------|-------|
| byte strings, primitives record | `Bytes`, `Prims` |
| model of the code, one file per source file | `TaggedHashes`, `Errors`, `KeyAgg`, `Nonces`, `Signature`, `Signing`, `SigAgg`, `Bip340`, `Rounds`, `Encoding`, `Conversions`, `Deterministic`, `Messages`, `ControlFlow` (the secret-handling functions again, recording branches, lookups and lengths), `ControlFlowRounds` (the same for the round objects), `Seeds` (functions called with a random number generator) and `Order` (derived orders, sorting) |
| independent specifications | `SpecTags` (tag strings), `SpecBIP327` (transcription of `/repo/reference.py` over the abstract curve), `SpecSecp` and `SpecReference` (transcription of all of `/repo/reference.py` that the crate implements, on integers, coordinates and byte strings, with its assertions; nothing abstract), `SpecSession` (BIP327 sign/verify/aggregate formulas on a context), `SpecView` (the key aggregation context as the reference sees it), `SpecTaproot` (BIP341's secret key tweak), `SpecCtx` (reachable contexts), `SpecRounds` (what is on file after a list of calls), `SpecNonces` (nonce requests, BIP327 hash inputs), `SpecBatch`, `SpecHex`, `SpecRfc6979`, `SpecHashing` (every use of the hash and its input), `SpecMachine` (a signer as a machine taking any calls), `SpecSeeds` (byte streams, successive draws), `SpecOrder` (lexicographic order, `key_sort`), `SpecExtract` (sums over members, a curve with another hash function), `SpecSimulate` (a nonce made without the key), `SpecSingle` (BIP340 signing with a given nonce), `SpecNetwork` (a session of machines under a scheduler), `SpecReuse` (the equations stated by uses of one nonce), `SpecFlow` (the events each secret-handling function may show), `SpecWatch` (the events of a session, computed from its transcript), `SpecDecode` (a reader of encoded contexts; types and what they take), `SpecFork` (forgers as programs asking for digests, and forks of them), `SpecAlgebra` (combinations of a key and the nonces of sessions), `SpecErrors` (the errors of each function), `SpecMixing` (a forger that chooses adaptor points), `SpecWire` (messages as bytes), `SpecPresign` (forgers of pre-signatures), `SpecConcurrent` (forgers with concurrent sessions as programs), `SpecCollision` (double forks with one list), `SpecBatchForger` (programs that choose a batch), `SpecFresh` (programs that choose what nonce builders are given), `SpecCommit` (openings of taproot output keys), `SpecSolo` (orders to a single signer), `SpecDet` (RFC 6979 as a program that asks for digests), `SpecBind`, `SpecPrebind` (one signature or adaptor signature for two purposes), `SpecFinal` (one nonce for two sessions), `SpecGroupKey` (one aggregated key for two lists), `SpecGroupTap` (one output key for two groups), `SpecAim`, `SpecTapAim` (lists aimed at a key, groups at an output key) |
| lemmas | `BytesFacts`, `PrimsFacts`, `CodecFacts`, `KeyAggFacts`, `KeyAggCodec`, `KeyAggNarrow`, `NoncesFacts`, `SigningFacts`, `SignatureFacts`, `SpecFacts`, `SpecSigning`, `SessionFacts`, `Bip340Facts`, `RoundsFacts`, `EncodingFacts`, `ForkFacts` (counting) |
| toy instance (31-element curve) and concrete sessions on it | `Toy`, `ToyData`, `ToyRounds`, `ToyNonces`, `ToyHistories`, `ToyExtract`, `ToyNetwork`, `ToyBlame`, `ToyAggregator`, `ToyReuse`, `ToyFlow`, `ToyWatch`, `ToyFork`, `ToyAlgebra`, `ToyErrors`, `ToyMixing`, `ToyWire`, `ToyPresign`, `ToyConcurrent`, `ToyCollision`, `ToyBatchForger`, `ToyFresh`, `ToyCommit`, `ToySolo`, `ToyDet`, `ToyBind`, `ToyPrebind`, `ToyFinal`, `ToyGroupKey`, `ToyGroupTap`, `ToyAim`, `ToyTapAim` |
| real instance | `Sha256` (FIPS 180-4), `Primality` (Pocklington), `SecpPrimes`, `Curve` (group law of short Weierstrass curves, associativity included), `Cyclic`, `Secp256k1` (the instance and its laws), `SecpFacts`, `ReferenceFacts` |
| property proofs | `Proofs*` |
| property theorems only, each `exact lemma`, with `Print Assumptions` and an example beside it | `Properties*` |

`Properties*` files: `KeyAgg` C01-C10, C69, `Signing` C11-C15, C46, C47, `Adaptor`
C16-C19, C44, `Bip340` C20-C25, C49, `Rounds` C26-C34, `Nonces` C35-C39, C43,
C48, `Codecs` C40-C42, `Deterministic` C45, C49, `Secp` C50-C52, `Hashing` C53, `Composition` C54, C57, C58, C66, `Histories` C55, C56, `Totality` C59, `Conversions` C60, `Messages` C61, `Soundness` C62-C65, C68, `Agreement` C67, `Seeds` C70, `Reference` C71, `Order` C72, `Extraction` C73, `Simulation` C74, `Single` C75, `Network` C76, `Bias` C77, `Blame` C78, `Rare` C79, `Aggregator` C80, `Guess` C81, `Reuse` C82, `Flow` C83, `Watch` C84, `Decode` C85, `Fork` C86, `GroupFork` C87, `SecondFork` C88, `Algebra` C89, `ErrorTable` C90, `Mixing` C91, `Wire` C92, `Presign` C93, `Concurrent` C94, `Collision` C95, `BatchForger` C96, `Fresh` C97, `Commit` C98, `Solo` C99, `Det` C100, `Bind` C101, `Prebind` C102, `Final` C103, `GroupKey` C104, `GroupTap` C105, `Aim` C106, `TapAim` C107, `TweakBind` C108, `LastNonce` C109, `Limits` (the
exceptions of C06-C09, C13, C17, C19, C32 for every context), `SecpLimits` (the
same on secp256k1).

## How the code is modelled

Every function is a total computable Gallina function with a comment citing the
file and lines it follows.

* `Result`/`Option` are data; panics (`assert!`, `unwrap`, `expect`, slice
  indexing, arithmetic overflow where it matters) are an explicit `Panic` value.
* `&mut self` methods return the new state.
* `[u8]` is `list byte` with Coq's 256-constructor `byte` type, so no
  well-formedness side conditions are needed.
* `usize` arithmetic on attacker-controlled numbers takes a `target`: the width
  of `usize` and whether overflow checks are on.
* `secp::MaybeScalar` is the type of integers in `[0,n)`; `secp::Scalar` is its
  non-zero subset.  `secp::MaybePoint` is the whole curve group including
  infinity; `secp::Point` its finite subset.  All are types with Leibniz
  equality.
* The dependencies (`secp`, `sha2`, `rand`) appear as one record `prims` of
  operations (group operations, parity, x-only bytes, `lift_x`, SHA-256, RNG
  draws) together with a record `prims_ok` of laws (abelian group of prime order
  generated by G, parity flips under negation, x coordinate determines a point
  up to sign, `lift_x` specification, hash output length 32) and `tags_ok` (the
  hard-coded tag digests of the crate are the hashes of the tag strings).  Most
  theorems quantify over all `prims` satisfying these, so they hold for every
  hash function and every random number generator.
* The laws are not left as assumptions: `C51_laws_hold` proves them for
  `Secp r`, the curve y^2 = x^3 + 7 over the secp256k1 prime with SHA-256 and an
  arbitrary generator `r`.  Primality of p and n, associativity of the addition
  law, the order of G and the tag digests are all proved.
* Parity and x-only bytes of the infinity point are whatever the record says:
  the theorems do not depend on the convention chosen by `secp`.
* Loops over data are structural recursion.  The only unbounded loop of the
  crate (`deterministic.rs`, candidates until one is in range) runs with fuel;
  its theorems hold for every fuel.
* Contexts in theorems are `ctx_reachable`: anything obtainable by `new`, tweaks
  and decoding.  Rounds are what `new`/`finalize` return followed by any calls.

## Trusted base

* The Coq 8.16.1 kernel (and its `vm_compute`, used for concrete evaluations).
* `Print Assumptions` under every property theorem prints "Closed under the
  global context": no axiom is used, not even of the standard library.
* That the model follows the code.  The code is not executed here.
* The assumed semantics of the dependencies' API: `secp` implements secp256k1
  with the operations above, `Point::sum`/`MaybePoint::sum`/`Sum` are group sums,
  `serialize` is SEC1 compressed with 33 zero bytes for infinity,
  `Scalar::from_slice` accepts exactly 32 bytes in `[1,n)`, `MaybeScalar` the same
  with 0, `reduce_from` is reduction modulo n, `lift_x` returns the even point,
  `Point::from_slice` on 33 bytes accepts exactly the prefixes 02 and 03 with the x of a
  point (a backend taking other SEC1 tags would break the canonicity in C08 and C41);
  `sha2`/`hmac` compute SHA-256/HMAC; `base16ct` encodes/decodes hex;
  `HashMap::from_iter` keeps the last value per key; `Choice` is a boolean;
  iterators yield elements in order.

Modelled: every function of `key_agg.rs`, `nonces.rs`, `signing.rs`,
`sig_agg.rs`, `bip340.rs`, `rounds.rs`, `deterministic.rs`, `tagged_hashes.rs`,
`signature.rs` with its conversions, `binary_encoding.rs` with its serde impls, the error
types of `errors.rs` and their texts, except those listed here.

Not modelled:

* timing inside the dependencies (`ControlFlow` records the branches and lookups of the crate's
  own secret-handling functions, C83, and of the round objects, C84), memory zeroisation,
  allocation failure;
* the texts that `DecodeError` takes from other crates and the Rust type name in it (parameters of `Messages`);
* the inside of the types of `secp256k1`/`k256`: a `schnorr::Signature` and `WideBytes`
  are 64 bytes, `PublicKey` a finite point, `Scalar` an integer below n;
* random number generators other than through `fill_bytes` (`Seeds`); how the `secp` crate's
  `Scalar::random` samples is assumed there, and the scalars it draws in `verify_batch` are arbitrary
  (C96 assumes of them that few seeds accept rows fixed beforehand);
* an `AsRef<[u8]>` argument whose bytes change between two calls of `as_ref`;
* the generic `T: From<..>` return conversions (identity here; for signatures see C60);
* serde's data formats: `Conversions.wire` only tells strings, byte strings and tuples
  apart, and how `serdect::array` writes an array in a binary format is a parameter of the
  model;
* how the `secp` crate orders points: `Order` assumes compressed encodings, infinity first;
* `testhex.rs` and `tests` modules (test-only code), except the sort of `key_sort.rs`;
* computational security: hardness of logarithms and collision resistance are no statements here.
  C86 to C88 reduce forging without help of the signers to finding a secret key, by counting over
  hash functions (collisions of the list hash are counted in C95).  C89 treats forging with the help of concurrent sessions by a forger that says how its
  points are made of those of the sessions; there the exceptional digests are shown to be unique, and
  C94 counts them for programs whose sessions and target group are fixed before the first question.  C96 counts for batch verification, C97, C99 and C100 for repeated
  nonces, C98 for second openings of an output key, C101 and C102 for second purposes of a signature or adaptor signature,
  C103 for sessions with one nonce, C104 for lists with one key,
  C105 for groups and roots with one output key, C106 and C107 for lists and groups aimed at a key or at an error.  All of these count hash functions over finitely many
  inputs; none is a statement about SHA-256.

## Checks of the model

* Examples beside the theorems evaluate the model on a 31-element curve.
* `vectors/run_vectors.py` extracts the model with the real curve and hash to
  OCaml in a scratch directory and runs all 103 BIP327/BIP340 vector cases of
  `/repo/src/test_vectors` (key aggregation, nonces, signing, tweaks, deterministic
  cases, signature aggregation, BIP340).  It then replays the documentation examples and unit
  tests that state concrete values: the round sessions of `doc/API.md` and `src/rounds.rs` with
  their nonces, partial signatures, holdouts and errors, the aggregator mode, tweaked, taproot
  and unspendable keys, the context encodings, adaptor sessions and re-encryption (61 cases).
  All 164 pass.  Extraction and OCaml are not trusted by any theorem.
* `vectors/adaptor_forgery.py` lets the extracted model answer in 256 round sessions on secp256k1 with
  the adaptor points of C91, and checks the forged signature with the model and with a separate
  check of BIP340.  Its arithmetic is its own.  Two runs of an uncommitted draft imported
  `/repo/reference.py`, which executed a file of `/repo` contrary to the rule that it is only read; the
  draft was discarded, nothing in `/repo` changed, and no result here comes from those runs.
* `seeded/LOG.jsonl`: more than three hundred wrong programs and wrong specifications, and which theorems caught
  each one.

## Documentation claims that are false of the code

Each is refuted by a theorem with a witness; `Limits` shows how general the failure
is and `SecpLimits` gives a witness on secp256k1.

| claim | theorems |
|-------|----------|
| `aggregated_seckey` rejects keys that do not align | `C06_misaligned_rejected_refuted`, `C06_every_context_accepts_misaligned` |
| context encoding is canonical (expected, not documented) | `C08_canonical_refuted`, `C08_every_context_has_other_encodings` |
| decoding cannot panic / checks the count on every target (expected) | `C09_*` |
| aggregate of verified partial signatures is guaranteed valid | `C13_guarantee_refuted`, `C13_every_context_can_fail` |
| `reveal_secret` returns the adaptor secret, for infinite R | `C17_infinite_nonce_refuted`, `C17_every_secret_or_its_negation` |
| adaptor signatures can be encrypted again | `C19_reencryption_refuted`, `C19_every_solo_adaptor_can_fail` |
| batch seed commits to everything (adaptor rows) | `C25_seed_ignores_adaptor_nonces_refuted` |
| plain `finalize` of an adaptor session returns an error | `C32_documented_error_refuted`, `C32_every_session_can_return_invalid` |
| the same keys in another order give another aggregated key | `C69_order_matters_refuted` (small group), exact condition in `C69_same_keys_in_another_order` |
| a pre-signature verifies only for the point it is encrypted under | `C68_two_points_for_one_presignature`, exact condition in `C68_second_adaptor_point` |
| an invalid partial signature is to be blamed on its sender | `C78_sender_is_culprit_refuted`, exact condition in `C78_blame`; with an untrusted aggregator `C80_refusal_blames_the_signer_refuted` |
| `build` matches BIP327 nonce generation | `C36_documented_match_refuted`, exact condition in `C36_input_matches_exactly_when` |
| two sessions on one message with a repeated nonce give d = (s - s') / a * (e + e') | `C82_documented_attack` (every key explains two such signatures), `C82_documented_formula_refuted`, exact condition in `C82_exactly_when_revealed` |
| sensitive operations are independent of secret input | `C83_nonces_independent_refuted` (zero-hash branches only); exact dependence in `C83_signing`, `C83_nonces`, `C83_solo`, `C83_deterministic` |
| `RoundFinalizeError::SigningError` and `InvalidAggregatedSignature` are only returned by `FirstRound::finalize` and `SecondRound::finalize` | `C90_only_returned_by_refuted`, exact table in `C90_possible_errors` and `C90_errors_occur` |
| sessions can be open at once (expected of MuSig2), also with adaptor points named at the end | `C91_forgery`, `C91_forgery_from_rounds`, `C91_forgery_on_secp256k1`: the nonce coefficient does not depend on the adaptor point, and as many open sessions as the order has bits give a forgery |
| deterministic nonces follow RFC 6979 | `C45_documented_rfc6979_refuted`, exact condition in `C45_is_rfc6979` |
| signatures made with a tweaked context are bound to the tweak value | `C108_bound_to_tweak_refuted`; true within one context (`C108_tweak_to_any_key`) and for tweaks made of the key up to collisions (C98, C105, C107) |

## Plan per property

| id | modelled in | proof idea |
|----|-------------|------------|
| C01 | KeyAgg | equality with a transcription of the reference; case split on sum = O |
| C02 | KeyAgg | invariant of the index map built by successive inserts |
| C03 | KeyAgg | refinement to reference `apply_tweak`, induction over the list |
| C04 | KeyAgg | invariant `Q = g*Q0 + tacc*G` over all histories |
| C05 | KeyAgg | unfolding against an independent BIP341 statement |
| C06 | KeyAgg | invariant of C04 plus linearity; two-unknown linear equation for the refutation |
| C07, C08, C10 | KeyAgg/Encoding | codec lemmas plus invariant |
| C09 | KeyAgg with a `usize` target | exact characterisation per target; 33 is invertible modulo 2^32 |
| C11-C15 | Signing, SigAgg | group algebra over the context invariant |
| C16-C19 | Signature | group algebra; refutations by parity |
| C20-C22 | Bip340 | equality with BIP340 transcription, algebra |
| C23-C25 | Bip340 | linearity of the batch equation; construction for C25 |
| C26-C30 | Rounds | invariant over operation lists, refinement to a map |
| C31 | Rounds | schedule-independent invariant plus C11-C14 |
| C32, C33 | Rounds | witness and general characterisation |
| C34 | Rounds | two paths equal |
| C35-C38, C48 | Nonces, Rounds | preimage equality/injectivity on bytes |
| C39 | Nonces | by typing and case analysis |
| C40-C42 | Encoding | codec lemmas |
| C43, C44 | Nonces, Signature | sums over permutations, lift_x spec |
| C45 | Deterministic | fuelled loop related to an independent stream spec |
| C46, C49 | Signing, Bip340 | linear algebra over the scalar field |
| C47 | Spec | composition of the equivalences with the reference run end to end |
| C50 | TaggedHashes, Sha256 | evaluation of SHA-256 on the tag strings |
| C51 | Curve, Secp256k1 | polynomial identities for the group law, Pocklington certificates, isomorphism with the integer reference |
| C52 | Secp256k1 | instantiation of C11-C31 with the proved laws |
| C53 | all ten tagged hashes | `SpecHashing` lists the uses of the hash; injectivity of the inputs by fixed widths, length prefixes and distinct tag digests; each model hash equals one of the uses; the colliding inputs are named in the statements |
| C54 | `with_plain_tweak`, `with_xonly_tweak`, `with_tweaks` | induction over the list of tweaks |
| C55 | `FirstRound::new`, rounds | C46 and C38 applied to the logs of C56 |
| C56 | `FirstRound`, `SecondRound` | shape of the log by induction over the calls, then C26-C34 on its parts |
| C57 | aggregation, partial verification | the aggregate equation is linear in the sum; uniqueness of valid partial signatures (C12) |
| C58 | `reveal_secret`, `adapt` | uniqueness of s for a given nonce, then C16 and C17 |
| C59 | every function that can return `Panic` | the no-panic parts of C01-C42, collected and completed |
| C60 | `Conversions`: signature forms, serde | C40-C44; exact acceptance through `spells` |
| C61 | `Messages` | splitting a text after its decimal digits |
| C62-C64 | `Bip340`, `SigAgg` | the verification equation as an equation of multiples of G |
| C65 | `Bip340` | deleting the coefficient of an invalid row is injective on accepted vectors |
| C66 | `KeyAgg`, `SpecTaproot` | the fields of a tweaked context; C05, C06 and C20 |
| C67 | `SigAgg`, `Rounds` | the verification equation has one solution s; C30 |
| C68 | `Bip340`, `Signature` | two instances of the verification equation with one s |
| C69 | `KeyAgg` | the aggregated key as a sum over keys, permuted |
| C70 | `Seeds` | induction on the calls; C38 |
| C71 | `Secp256k1`, `SpecReference` | the abstract transcription on secp256k1 equals the integer one; decoders against slices; C01, C11, C14, C35, C43 |
| C72 | `Order` | comparison of encodings; uniqueness of a sorted permutation |
| C73 | `KeyAgg`, `Bip340` | C02, C64; weighted sums split at one member; the same proofs over four hash functions on one curve |
| C74 | `Signing` | C11, C12; the signing equation solved for the first nonce |
| C75 | `Signing`, `SigAgg`, `Bip340` | C13, C14, C62; nonces whose second parts add up to zero make the final nonce independent of the nonce coefficient (needs two signers) |
| C76 | `Rounds` | invariant of all executions from C26-C31; the holdouts of all signers as a measure |
| C77 | `Nonces`, `Signing` | the digests of a value listed as v, v + n, v + 2n, ...; a pigeonhole count |
| C78 | `Rounds`, `SigAgg` | C29 and uniqueness of valid partial signatures for two sessions; the sum of the verification equations |
| C79 | `KeyAgg`, `Signature`, `Nonces` | a + k*P = b has one solution k for a finite P; C73 weights for one digest |
| C80 | `Rounds`, `SigAgg` | C55 (one release per round), uniqueness of valid partial signatures, the sum of the verification equations |
| C81 | `KeyAgg`, `Bip340` | the result is an affine function of the digest with finite slope, in the world where the hash differs at one input |
| C82 | `Signing` | the signing equations of one key and nonce are linear; an affine function of b through all weights is exactly a direction in which key and nonces can be shifted |
| C83 | `ControlFlow` | the recording versions erase to the functions; the recorded list is computed from C11 (self-verification never fails), C53 (what is hashed) and C45 (candidates) |
| C84 | `ControlFlowRounds` | one step of the recording machine shows what one step of the watcher computes, under an invariant linking the filed values of the two; then induction on the calls |
| C85 | `KeyAgg`, `Nonces`, `Signature`, `Encoding` | the decoder on an input cut into its fields (C08), then C01 and C03 for the last steps; lengths modulo 33 tell the families apart |
| C86 | `Bip340` | one digest of a world is replaced; redrawing is an involution on pairs of world and digest, then Cauchy-Schwarz twice |
| C87 | `KeyAgg`, `Bip340` | the counting of C86 for pairs of world and digest; the two sums of the group differ only in the coefficient of P |
| C88 | `KeyAgg`, `Bip340` | the group of factors modulo n acts on the worlds by multiplying all coefficients of one list; the counting of C86 for an action; the two sums differ by the factor outside P |
| C89 | `Signing`, `KeyAgg`, `Bip340` | a partial signature that verifies gives the logarithm of the first nonce in terms of those of the key and the second nonce (C74, C82); the logarithm of a combination is linear; a congruence with an invertible coefficient has one solution |
| C90 | `Signing`, `SigAgg`, `Rounds`, `KeyAgg`, the codecs | case analysis of each function; one witness for each entry of the table on the toy curve |
| C91 | `Signing`, `Rounds`, `Bip340` | the answers give the logarithms of the nonces (C89); the chosen points are the bits of the missing multiple of the secret; inverses by Fermat |
| C92 | `Rounds`, `Nonces`, `KeyAgg` | decoding is injective (C41), so arrivals become calls, and C31 and C28 apply |
| C93 | `Bip340`, `Signature` | the counting of C86 for any kind of result; the adaptor point is moved to the other side of the verification equation |
| C94 | `Signing`, `KeyAgg`, `Bip340` | the exceptional case needs one of the digests asked for to have one residue that is fixed by the digests before it, whichever of the challenge of the forgery, the nonce coefficients and the challenges of the sessions comes last; such an event is counted by changing one digest of a world |
| C95 | `KeyAgg`, `Bip340` | running the program, asking for its list, running it again with the changed answers and asking for that list is one program with 2q+2 questions; two of its questions have one digest rarely |
| C96 | `Bip340` | either every challenge was asked for before the seed, and the seed question then fixes the rows unless two residues collide, or a challenge asked for later must have the residue already in the seed question |
| C97 | `Nonces` | running the program and then asking what `build` hashes is one program with q+3M questions; two of its questions rarely have digests that give one nonce; equal questions have equal fields, and then different seeds have one digest |
| C98 | `KeyAgg` | the output key is a function of a question and its digest; for given values at the earlier of two questions at most two digests of the later one, one for each sign, give the same x coordinate |
| C99 | `Bip340` | as C97: the program followed by the two questions of each signature; two of these rarely have digests that give one nonce up to its sign |
| C100 | `Deterministic`, `Bip340` | corollary of C99: the program followed by RFC 6979, written as questions, is a program that ends with orders with seeds; its outcome is the model's derivation under the same hash function |
| C101 | `Bip340` | as C98, with the relation that the challenges times the even keys are equal (C63); the key is read off the question |
| C102 | `Bip340` | as C101 for one adaptor point; for two, the nonce is half the difference of the challenges times the key |
| C103 | `Nonces` | the relation "one x coordinate" of two sums R1 + b*R2, at most three digests each, in the count of C98; the refutation takes the nonce itself as R1 |
| C104 | `KeyAgg` | the last coefficient asked for leaves its digest two residues, given the other list; a list is asked before its coefficients unless a digest was guessed |
| C105 | `KeyAgg` | C104 bounds one aggregated key for two lists; otherwise the questions for the tweaks differ and one digest leaves the other two residues |
| C106 | `KeyAgg` | the last coefficient asked for leaves its digest one residue per point that is a bad sum; a list is asked before its coefficients unless a digest was guessed |
| C107 | `KeyAgg` | the question for the tweak names the internal key, so two digests give the given output and b+1 none |
| C108 | `KeyAgg` | the tweaked key is the start plus t*G, and multiplication of G is a bijection |
| C109 | `Nonces` | the gap to the target is a finite point unless a component is met already; with an infinite R2 the coefficient has no effect |
