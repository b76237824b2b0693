{
 "claims": [
  {
   "property": "C01",
   "status": "proved",
   "theorems": [
    "C01_new_is_bip327_keyagg"
   ],
   "note": ""
  },
  {
   "property": "C02",
   "status": "proved",
   "theorems": [
    "C02_member_lookup"
   ],
   "note": ""
  },
  {
   "property": "C03",
   "status": "proved",
   "theorems": [
    "C03_tweaks_are_apply_tweak"
   ],
   "note": ""
  },
  {
   "property": "C04",
   "status": "proved",
   "theorems": [
    "C04_untweaked_key"
   ],
   "note": ""
  },
  {
   "property": "C05",
   "status": "proved",
   "theorems": [
    "C05_taproot_tweak_is_bip341"
   ],
   "note": "BIP341 also accepts t = 0, which the code rejects; the statement says so."
  },
  {
   "property": "C06",
   "status": "proved",
   "theorems": [
    "C06_aggregated_seckey",
    "C06_misaligned_rejected_refuted",
    "C06_every_context_accepts_misaligned",
    "C06_misaligned_rejected_secp256k1_refuted"
   ],
   "note": "The documented claim that misaligned secret keys are rejected is refuted (C06_misaligned_rejected_refuted), for every context of two or more keys (C06_every_context_accepts_misaligned) and on secp256k1."
  },
  {
   "property": "C07",
   "status": "proved",
   "theorems": [
    "C07_context_roundtrip",
    "C07_documented_layout",
    "C07_roundtrip_on_any_target"
   ],
   "note": ""
  },
  {
   "property": "C08",
   "status": "proved",
   "theorems": [
    "C08_decoding_total_and_almost_canonical",
    "C08_canonical_refuted",
    "C08_every_context_has_other_encodings",
    "C08_canonical_secp256k1_refuted"
   ],
   "note": "Unused header bits make decoding non-canonical: C08_canonical_refuted, for every context C08_every_context_has_other_encodings."
  },
  {
   "property": "C09",
   "status": "proved",
   "theorems": [
    "C09_overflow_check_panics",
    "C09_wrapping_panics",
    "C09_wrapping_accepts_wrong_count",
    "C09_decoding_on_any_target",
    "C09_every_context_wrong_count",
    "C09_wrong_count_secp256k1_refuted"
   ],
   "note": "Exact behaviour on targets of every width: C09_decoding_on_any_target; witnesses for panics and for acceptance of a wrong key count on 32-bit targets, for every context and on secp256k1."
  },
  {
   "property": "C10",
   "status": "proved",
   "theorems": [
    "C10_equality_is_identity"
   ],
   "note": ""
  },
  {
   "property": "C11",
   "status": "proved",
   "theorems": [
    "C11_sign_is_bip327_sign",
    "C11_sign_reference_bytes"
   ],
   "note": ""
  },
  {
   "property": "C12",
   "status": "proved",
   "theorems": [
    "C12_verify_is_bip327_verify",
    "C12_verify_reference_bytes"
   ],
   "note": ""
  },
  {
   "property": "C13",
   "status": "proved",
   "theorems": [
    "C13_every_context_can_fail",
    "C13_guarantee_secp256k1_refuted",
    "C13_valid_partials_aggregate",
    "C13_guarantee_refuted"
   ],
   "note": "The documented guarantee is refuted when the nonces cancel: C13_guarantee_refuted, for every context C13_every_context_can_fail."
  },
  {
   "property": "C14",
   "status": "proved",
   "theorems": [
    "C14_aggregate_valid",
    "C14_aggregate_reference_bytes"
   ],
   "note": ""
  },
  {
   "property": "C15",
   "status": "proved",
   "theorems": [
    "C15_adaptor_aggregate_valid"
   ],
   "note": ""
  },
  {
   "property": "C16",
   "status": "proved",
   "theorems": [
    "C16_verified_adaptor_adapts"
   ],
   "note": ""
  },
  {
   "property": "C17",
   "status": "proved",
   "theorems": [
    "C17_reveal_inverts_adapt",
    "C17_infinite_nonce_refuted",
    "C17_every_secret_or_its_negation",
    "C17_infinite_nonce_secp256k1_refuted"
   ],
   "note": "For an infinite nonce the sign of the secret is lost: C17_infinite_nonce_refuted; of every secret and its negation one is affected: C17_every_secret_or_its_negation."
  },
  {
   "property": "C18",
   "status": "proved",
   "theorems": [
    "C18_encrypt_then_adapt"
   ],
   "note": ""
  },
  {
   "property": "C19",
   "status": "proved",
   "theorems": [
    "C19_reencryption",
    "C19_reencryption_refuted",
    "C19_every_solo_adaptor_can_fail",
    "C19_reencryption_secp256k1_refuted"
   ],
   "note": "The documented re-encryption of adaptor signatures is refuted for odd adapted nonces: C19_reencryption_refuted; C19_every_solo_adaptor_can_fail shows it for every key, message and seed."
  },
  {
   "property": "C20",
   "status": "proved",
   "theorems": [
    "C20_sign_solo_is_bip340"
   ],
   "note": ""
  },
  {
   "property": "C21",
   "status": "proved",
   "theorems": [
    "C21_solo_adaptor_verifies_and_adapts"
   ],
   "note": ""
  },
  {
   "property": "C22",
   "status": "proved",
   "theorems": [
    "C22_verify_single_is_bip340"
   ],
   "note": ""
  },
  {
   "property": "C23",
   "status": "proved",
   "theorems": [
    "C23_valid_batch_accepted"
   ],
   "note": ""
  },
  {
   "property": "C24",
   "status": "proved",
   "theorems": [
    "C24_batch_soundness"
   ],
   "note": ""
  },
  {
   "property": "C25",
   "status": "proved",
   "theorems": [
    "C25_seed_ignores_adaptor_nonces_refuted"
   ],
   "note": "The documented claim is refuted for adaptor rows, for every instance."
  },
  {
   "property": "C26",
   "status": "proved",
   "theorems": [
    "C26_new",
    "C26_first_round_holdouts",
    "C26_second_round_holdouts"
   ],
   "note": ""
  },
  {
   "property": "C27",
   "status": "proved",
   "theorems": [
    "C27_first_contribution_wins"
   ],
   "note": ""
  },
  {
   "property": "C28",
   "status": "proved",
   "theorems": [
    "C28_first_round_order",
    "C28_second_round_order"
   ],
   "note": ""
  },
  {
   "property": "C29",
   "status": "proved",
   "theorems": [
    "C29_receive_signature"
   ],
   "note": ""
  },
  {
   "property": "C30",
   "status": "proved",
   "theorems": [
    "C30_first_finalize",
    "C30_second_finalize"
   ],
   "note": "Success of the second finalize is characterised when our own stored signature is valid; C33 covers the other case."
  },
  {
   "property": "C31",
   "status": "proved",
   "theorems": [
    "C31_honest_sessions_agree"
   ],
   "note": ""
  },
  {
   "property": "C32",
   "status": "proved",
   "theorems": [
    "C32_every_session_can_return_invalid",
    "C32_adaptor_session_plain_finalize",
    "C32_documented_error_refuted"
   ],
   "note": "The documented error is refuted by C32_documented_error_refuted; every honest session has such an adaptor point (C32_every_session_can_return_invalid); the general behaviour is C32_adaptor_session_plain_finalize."
  },
  {
   "property": "C33",
   "status": "proved",
   "theorems": [
    "C33_wrong_member_key"
   ],
   "note": ""
  },
  {
   "property": "C34",
   "status": "proved",
   "theorems": [
    "C34_aggregator_mode"
   ],
   "note": ""
  },
  {
   "property": "C35",
   "status": "proved",
   "theorems": [
    "C35_generate_is_bip327"
   ],
   "note": ""
  },
  {
   "property": "C36",
   "status": "proved",
   "theorems": [
    "C36_input_matches_exactly_when",
    "C36_build_is_bip327",
    "C36_documented_match_refuted",
    "C36_documented_match_secp256k1_refuted"
   ],
   "note": "The code equals BIP327's NonceGen exactly when a secret key and at least one extra input are given (C36_build_is_bip327, C36_input_matches_exactly_when). The documentation's unconditional claim is refuted by C36_documented_match_refuted."
  },
  {
   "property": "C37",
   "status": "proved",
   "theorems": [
    "C37_hash_input_injective",
    "C37_build_depends_on_request_only"
   ],
   "note": ""
  },
  {
   "property": "C38",
   "status": "proved",
   "theorems": [
    "C38_round_nonce_source",
    "C38_rounds_separate"
   ],
   "note": ""
  },
  {
   "property": "C39",
   "status": "proved",
   "theorems": [
    "C39_secret_nonces_in_range",
    "C39_degenerate_hash",
    "C39_final_nonce"
   ],
   "note": ""
  },
  {
   "property": "C40",
   "status": "proved",
   "theorems": [
    "C40_round_trips"
   ],
   "note": ""
  },
  {
   "property": "C41",
   "status": "proved",
   "theorems": [
    "C41_secnonce_decoding",
    "C41_pubnonce_decoding",
    "C41_aggnonce_decoding",
    "C41_compact_decoding",
    "C41_lifted_decoding",
    "C41_adaptor_decoding"
   ],
   "note": ""
  },
  {
   "property": "C42",
   "status": "proved",
   "theorems": [
    "C42_hex_parsing",
    "C42_hex_errors",
    "C42_hex_formatting",
    "C42_long_secnonce"
   ],
   "note": ""
  },
  {
   "property": "C43",
   "status": "proved",
   "theorems": [
    "C43_sum_is_nonce_agg",
    "C43_received_nonces"
   ],
   "note": ""
  },
  {
   "property": "C44",
   "status": "proved",
   "theorems": [
    "C44_compact_lifted"
   ],
   "note": ""
  },
  {
   "property": "C45",
   "status": "proved",
   "theorems": [
    "C45_first_candidate",
    "C45_is_rfc6979",
    "C45_documented_rfc6979_refuted",
    "C45_signatures"
   ],
   "note": "The code's loop is unbounded; the model runs it with fuel and the theorems hold for every fuel. The documentation's unconditional claim of following RFC 6979 is refuted by C45_documented_rfc6979_refuted (toy hash; on secp256k1 a witness has probability about 2^-128)."
  },
  {
   "property": "C46",
   "status": "proved",
   "theorems": [
    "C46_nonce_reuse_two_sessions",
    "C46_nonce_reuse_three_sessions"
   ],
   "note": ""
  },
  {
   "property": "C47",
   "status": "proved",
   "theorems": [
    "C47_pipeline_reference"
   ],
   "note": ""
  },
  {
   "property": "C48",
   "status": "proved",
   "theorems": [
    "C48_builder_calls",
    "C48_spices_calls"
   ],
   "note": ""
  },
  {
   "property": "C49",
   "status": "proved",
   "theorems": [
    "C49_seed_reuse_across_adaptors",
    "C49_deterministic_pair_reveals_key"
   ],
   "note": ""
  },
  {
   "property": "C50",
   "status": "proved",
   "theorems": [
    "C50_tag_digests"
   ],
   "note": ""
  },
  {
   "property": "C51",
   "status": "proved",
   "theorems": [
    "C51_reference_curve_group",
    "C51_model_is_reference_curve",
    "C51_laws_hold"
   ],
   "note": ""
  },
  {
   "property": "C52",
   "status": "proved",
   "theorems": [
    "C52_secp256k1_signatures",
    "C52_secp256k1_sessions"
   ],
   "note": ""
  },
  {
   "property": "C53",
   "status": "proved",
   "theorems": [
    "C53_inputs_unambiguous",
    "C53_hashes_of_the_code",
    "C53_key_lists_bound",
    "C53_sessions_bound",
    "C53_secret_nonces_bound"
   ],
   "note": ""
  },
  {
   "property": "C54",
   "status": "proved",
   "theorems": [
    "C54_plain_tweaks_add_up",
    "C54_xonly_tweaks"
   ],
   "note": ""
  },
  {
   "property": "C55",
   "status": "proved",
   "theorems": [
    "C55_same_seed_same_nonce",
    "C55_fresh_message_fresh_nonce"
   ],
   "note": ""
  },
  {
   "property": "C56",
   "status": "proved",
   "theorems": [
    "C56_every_history",
    "C56_final_signatures",
    "C56_agreement"
   ],
   "note": ""
  },
  {
   "property": "C57",
   "status": "proved",
   "theorems": [
    "C57_aggregation_sees_only_the_sum",
    "C57_one_bad_signature",
    "C57_bad_signatures_can_cancel"
   ],
   "note": ""
  },
  {
   "property": "C58",
   "status": "proved",
   "theorems": [
    "C58_published_signature_reveals"
   ],
   "note": ""
  },
  {
   "property": "C59",
   "status": "proved",
   "theorems": [
    "C59_key_contexts",
    "C59_signing",
    "C59_rounds",
    "C59_decoders"
   ],
   "note": ""
  },
  {
   "property": "C60",
   "status": "proved",
   "theorems": [
    "C60_lifted_signatures_even",
    "C60_signature_forms",
    "C60_compact_forms",
    "C60_pairs",
    "C60_serde",
    "C60_serde_round_trip"
   ],
   "note": ""
  },
  {
   "property": "C61",
   "status": "proved",
   "theorems": [
    "C61_messages_identify_errors",
    "C61_decode_messages"
   ],
   "note": ""
  },
  {
   "property": "C62",
   "status": "proved",
   "theorems": [
    "C62_one_s_per_nonce",
    "C62_one_s_per_presignature"
   ],
   "note": ""
  },
  {
   "property": "C63",
   "status": "proved",
   "theorems": [
    "C63_other_message_or_key",
    "C63_presignatures"
   ],
   "note": ""
  },
  {
   "property": "C64",
   "status": "proved",
   "theorems": [
    "C64_two_signatures_reveal_key",
    "C64_two_sessions_reveal_group_key"
   ],
   "note": ""
  },
  {
   "property": "C65",
   "status": "proved",
   "theorems": [
    "C65_batch_error_rate"
   ],
   "note": ""
  },
  {
   "property": "C66",
   "status": "proved",
   "theorems": [
    "C66_seckey_follows_tweaks",
    "C66_taproot_output_key",
    "C66_nested_groups"
   ],
   "note": ""
  },
  {
   "property": "C67",
   "status": "proved",
   "theorems": [
    "C67_one_signature_per_session",
    "C67_signers_agree"
   ],
   "note": ""
  },
  {
   "property": "C68",
   "status": "proved",
   "theorems": [
    "C68_second_adaptor_point",
    "C68_decrypted_signature",
    "C68_two_points_for_one_presignature"
   ],
   "note": ""
  },
  {
   "property": "C69",
   "status": "proved",
   "theorems": [
    "C69_same_keys_in_another_order",
    "C69_order_matters_refuted"
   ],
   "note": ""
  },
  {
   "property": "C70",
   "status": "proved",
   "theorems": [
    "C70_successive_draws",
    "C70_no_byte_twice",
    "C70_nonce_reuse",
    "C70_generator_panics",
    "C70_random_secnonce"
   ],
   "note": ""
  },
  {
   "property": "C71",
   "status": "proved",
   "theorems": [
    "C71_bytes_keys",
    "C71_bytes_tweaks",
    "C71_bytes_sign",
    "C71_bytes_verify",
    "C71_bytes_aggregate",
    "C71_bytes_nonces",
    "C71_reference_functions"
   ],
   "note": "Byte strings of other lengths than the documented ones are left to the decoders (C40, C41): the crate rejects them, the reference slices them. The differences are stated inside C71_bytes_tweaks, C71_bytes_sign and C71_bytes_nonces."
  },
  {
   "property": "C72",
   "status": "proved",
   "theorems": [
    "C72_order_of_encodings",
    "C72_sort_is_key_sort",
    "C72_sorted_contexts_agree"
   ],
   "note": ""
  },
  {
   "property": "C73",
   "status": "proved",
   "theorems": [
    "C73_missing_key",
    "C73_two_signatures",
    "C73_rewinding"
   ],
   "note": ""
  },
  {
   "property": "C74",
   "status": "proved",
   "theorems": [
    "C74_valid_is_honest",
    "C74_simulation"
   ],
   "note": ""
  },
  {
   "property": "C75",
   "status": "proved",
   "theorems": [
    "C75_single_signer",
    "C75_group",
    "C75_presignatures"
   ],
   "note": "Contexts of one key are left out of the second half: their final nonce is tied to the nonce coefficient, a hash value, so which signatures arise depends on the hash."
  },
  {
   "property": "C76",
   "status": "proved",
   "theorems": [
    "C76_replies",
    "C76_agreement",
    "C76_progress"
   ],
   "note": ""
  },
  {
   "property": "C77",
   "status": "proved",
   "theorems": [
    "C77_reduction",
    "C77_nonces",
    "C77_secp_bias"
   ],
   "note": ""
  },
  {
   "property": "C78",
   "status": "proved",
   "theorems": [
    "C78_blame",
    "C78_sender_is_culprit_refuted",
    "C78_infinite_nonce"
   ],
   "note": ""
  },
  {
   "property": "C79",
   "status": "proved",
   "theorems": [
    "C79_tweaks",
    "C79_adapt",
    "C79_final_nonce",
    "C79_key_aggregation"
   ],
   "note": ""
  },
  {
   "property": "C80",
   "status": "proved",
   "theorems": [
    "C80_any_mixture_of_modes",
    "C80_answers_to_different_nonces",
    "C80_refusal_blames_the_signer_refuted"
   ],
   "note": "The claim that a failed partial signature shows a dishonest signer is refuted: an aggregator can cause it."
  },
  {
   "property": "C81",
   "status": "proved",
   "theorems": [
    "C81_aggregated_key",
    "C81_signature",
    "C81_adaptor_signature"
   ],
   "note": ""
  },
  {
   "property": "C82",
   "status": "proved",
   "theorems": [
    "C82_exactly_when_revealed",
    "C82_two_uses",
    "C82_documented_attack",
    "C82_documented_formula_refuted"
   ],
   "note": ""
  },
  {
   "property": "C83",
   "status": "proved",
   "theorems": [
    "C83_signing",
    "C83_nonces",
    "C83_nonces_independent_refuted",
    "C83_solo",
    "C83_deterministic",
    "C83_seckey",
    "C83_adaptors"
   ],
   "note": "Covers the branches, lookups and lengths of the crate's own code. Timing inside the curve and hash crates is not modelled; the round objects are in C84. The zero-hash branches depend on secrets: C83_nonces_independent_refuted."
  },
  {
   "property": "C84",
   "status": "proved",
   "theorems": [
    "C84_session",
    "C84_start"
   ],
   "note": "As C83, for sessions of calls on round objects. The replies are part of what the watcher sees."
  },
  {
   "property": "C85",
   "status": "proved",
   "theorems": [
    "C85_context_decoding",
    "C85_types_confused"
   ],
   "note": ""
  },
  {
   "property": "C86",
   "status": "proved",
   "theorems": [
    "C86_forking",
    "C86_fork_gives_secret"
   ],
   "note": "Forgers are arbitrary functions of the digests they ask for (SpecFork.asker); the forger that never asks for its challenge is included, as the verifier's question counts. It gets no signatures from signers."
  },
  {
   "property": "C87",
   "status": "proved",
   "theorems": [
    "C87_double_forking",
    "C87_double_fork_gives_secret"
   ],
   "note": "P must not be the second key of the list, whose coefficient is the constant 1; that case is C88. The forger gets no partial signatures from signers. Two different key lists with the same list digest are left over here and counted in C95."
  },
  {
   "property": "C88",
   "status": "proved",
   "theorems": [
    "C88_second_key_forking",
    "C88_second_fork_gives_secret"
   ],
   "note": "Success needs the coefficients of all other members to have been asked; the digests are exactly the encodings of the residues. The forger gets no partial signatures. Lists that collide in the list digest are left over here, as in C87, and counted in C95."
  },
  {
   "property": "C89",
   "status": "proved",
   "theorems": [
    "C89_signature_of_parts",
    "C89_forger_solves",
    "C89_exception_rare",
    "C89_known_members"
   ],
   "note": "The combinations are given by the forger (the algebraic group model of the MuSig2 paper); sessions that were opened and never answered must be finished by the reduction, which is allowed as many answers as there are nonces. How rarely the exceptional case occurs is stated here by uniqueness of the exceptional residue; C94 counts it over hash functions."
  },
  {
   "property": "C90",
   "status": "proved",
   "theorems": [
    "C90_possible_errors",
    "C90_never_returned",
    "C90_only_returned_by_refuted",
    "C90_errors_occur"
   ],
   "note": "Variants are compared without the numbers and texts they carry (those are C27, C29, C41, C85). Decoding of contexts is on a 64-bit target; with 32-bit usize and overflow checks it can panic instead (C09)."
  },
  {
   "property": "C91",
   "status": "proved",
   "theorems": [
    "C91_forgery",
    "C91_forgery_from_signer",
    "C91_forgery_from_rounds",
    "C91_forgery_on_secp256k1"
   ],
   "note": "An attack on the design of the modelled code, proved to work for all inputs that meet its hypotheses (the algorithm of Benhamouda, Lepoint, Loss, Orru and Raykova against the ROS problem). Signers that fix the adaptor point before they send their nonces are not affected. Neither are plain sessions, where the message is part of the nonce coefficient (C89)."
  },
  {
   "property": "C92",
   "status": "proved",
   "theorems": [
    "C92_sessions_in_bytes",
    "C92_restart_first_round",
    "C92_restart_second_round"
   ],
   "note": "Partial signatures travel as the 32-byte scalars of the secp crate. A signer that starts again must replay the same nonces: with the same seed and other nonces it would use its nonce twice (C46, C55)."
  },
  {
   "property": "C93",
   "status": "proved",
   "theorems": [
    "C93_presignatures_without_key",
    "C93_forking",
    "C93_fork_gives_secret",
    "C93_infinite_nonce"
   ],
   "note": "The forging program gets no signatures or pre-signatures from the owner of the key. It may depend on T in any way; the theorems hold for each T, and the first shows why T must not depend on the pre-signature."
  },
  {
   "property": "C94",
   "status": "proved",
   "theorems": [
    "C94_lucky_rare",
    "C94_unlucky_forger_solves"
   ],
   "note": "The sessions (groups, the signer's public nonces, adaptor points) and the group to forge for are fixed before the first question, and its keys are known combinations of the generator and the signer's key. Adaptor points named later allow the forgery of C91. The digests of the key aggregation hash are not counted."
  },
  {
   "property": "C95",
   "status": "proved",
   "theorems": [
    "C95_lists_agree",
    "C95_second_lists_agree"
   ],
   "note": "Adds to C87 and C88 the count of double forks with two different lists of one digest. The lists the program can end with must be among the inputs that the hash functions are counted over. As there, the forger gets no partial signatures and the number of copies of P must not be 0 modulo the order."
  },
  {
   "property": "C96",
   "status": "proved",
   "theorems": [
    "C96_batch_forger_asking_rare",
    "C96_batch_forger_rare",
    "C96_two_signatures"
   ],
   "note": "Finished signatures with even nonces only: for pre-signatures the claim is false (C25). The generator is arbitrary but for the stated condition (C65 counts it for independent uniform draws); the condition is derived from the first draws for at most two signatures and is a hypothesis for more."
  },
  {
   "property": "C97",
   "status": "proved",
   "theorems": [
    "C97_nonces_fresh"
   ],
   "note": "One secret key for all builders, or none. Messages shorter than 2^64 bytes. With several secret keys chosen after the digests of the seeds are known, two masked seeds can be made equal, so the claim is not made for that (C55 describes when nonces agree)."
  },
  {
   "property": "C98",
   "status": "proved",
   "theorems": [
    "C98_taproot_one_opening",
    "C98_taproot_second_opening"
   ],
   "note": "Roots are byte strings of any length, so the code (32 bytes or empty) is covered. The internal key is counted up to sign, as BIP341 has it. The constant 2 for a fixed opening is reached in the example."
  },
  {
   "property": "C99",
   "status": "proved",
   "theorems": [
    "C99_solo_nonces_fresh"
   ],
   "note": "One secret key. Orders with the same seed and message but different adaptor points are excluded: they share the nonce always (C49)."
  },
  {
   "property": "C100",
   "status": "proved",
   "theorems": [
    "C100_det_nonces_fresh"
   ],
   "note": "Not the security of RFC 6979 in general: a count over the hash functions on the k inputs. The Rust loop is unbounded; signatures still without a seed after [fuel] candidates are not made. The messages are different: one message under two adaptor points shares its nonce always (C49). On the toy curve of the example the hypotheses hold but the bound says nothing; the example computes it for the size of secp256k1."
  },
  {
   "property": "C101",
   "status": "proved",
   "theorems": [
    "C101_signature_one_purpose",
    "C101_signature_second_purpose"
   ],
   "note": "C63 says exactly when one signature serves two purposes (equal multiples of the two even keys); C101 counts how often a program can bring that about. Keys are counted up to sign, as BIP340 has x-only keys. Signatures in bytes; aggregated keys are keys like others here."
  },
  {
   "property": "C102",
   "status": "proved",
   "theorems": [
    "C102_presignature_one_purpose",
    "C102_two_points_refuted"
   ],
   "note": "The refutation is of the claim with two adaptor points, which the project nowhere makes; it needs the secret key, so it is no forgery: its maker could sign both messages anyway. C63 says when an adaptor signature verifies for two messages under one point."
  },
  {
   "property": "C103",
   "status": "proved",
   "theorems": [
    "C103_sessions_apart",
    "C103_infinite_second_refuted"
   ],
   "note": "The refutation is of the claim without the condition on R2. An infinite R2 does not by itself reveal a key: the honest signers' second nonces are then cancelled by someone else's, and C94 covers forgers that use such sessions."
  },
  {
   "property": "C104",
   "status": "proved",
   "theorems": [
    "C104_lists_one_key"
   ],
   "note": "Untweaked keys. The sum over the pairs (last coefficient asked, other list) uses that the digest of a list is rarely an earlier digest or named in an earlier question, which is part of the bound."
  },
  {
   "property": "C105",
   "status": "proved",
   "theorems": [
    "C105_output_commits_to_group"
   ],
   "note": "Joins C104 (one aggregated key for two lists) and the collision of two taproot tweaks (as in C98, here with the internal key being an aggregated key, known only after the lists are hashed). Output keys are compared up to their sign, as BIP341 does. One taproot tweak and no other."
  },
  {
   "property": "C106",
   "status": "proved",
   "theorems": [
    "C106_key_not_aimed",
    "C106_aggregation_refused"
   ],
   "note": "The coordinate is fixed before the first question. The quadratic term of the bounds is for digests of lists that collide or were guessed; it is not claimed to be sharp. The panics of KeyAggContext::new (empty or very long lists) are not counted as errors, see C59."
  },
  {
   "property": "C107",
   "status": "proved",
   "theorems": [
    "C107_output_not_aimed",
    "C107_tweak_refused"
   ],
   "note": "The coordinate is fixed before the first question. Unlike C106 the bounds are linear in the number of questions, since the question for the tweak names the internal key. One taproot tweak and no other."
  },
  {
   "property": "C108",
   "status": "proved",
   "theorems": [
    "C108_tweak_to_any_key",
    "C108_bound_to_tweak_refuted"
   ],
   "note": "C108_bound_to_tweak_refuted refutes the sentence \"Signatures created using the resulting tweaked key aggregation context will be bound to this tweak value\" (src/key_agg.rs:153-154) read as a statement about the tweak alone; the next sentence of the documentation names the condition, a tweak made by committing to the key, for which C98, C105 and C107 count hash functions."
  },
  {
   "property": "C109",
   "status": "proved",
   "theorems": [
    "C109_last_chooses",
    "C109_last_fixes_nonce"
   ],
   "note": "What the sender of such a nonce cannot do: it need not know the logarithms of its points and then has no valid partial signature (C12); the theorem is about the public values only."
  }
 ]
}