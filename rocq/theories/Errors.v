(** src/errors.rs: error types. *)
From Coq Require Import String.
From Verif Require Import Bytes.

(** src/errors.rs:11 [KeyAggError]. *)
Inductive key_agg_error := KeyAggError.
(** src/errors.rs:28 [InvalidSecretKeysError]. *)
Inductive seckeys_error := InvalidSecretKeysError.
(** src/errors.rs:46 [TweakError]. *)
Inductive tweak_error := TweakError.
(** src/errors.rs:62-68 [SignerIndexError]. *)
Inductive signer_index_error := SignerIndexError (index n_signers : nat).
(** src/errors.rs:90-100 [SigningError]. *)
Inductive signing_error := SE_UnknownKey | SE_SelfVerifyFail.
(** src/errors.rs:118-126 [VerifyError]. *)
Inductive verify_error := VE_UnknownKey | VE_BadSignature.
(** src/errors.rs:141-145 [From<VerifyError> for SigningError]. *)
Definition signing_of_verify (e : verify_error) : signing_error := SE_SelfVerifyFail.
(** src/errors.rs:150-165 [ContributionFaultReason]. *)
Inductive fault_reason := OutOfRange (n : nat) | InconsistentContribution | InvalidSignature.
(** src/errors.rs:175-181 [RoundContributionError]. *)
Inductive contribution_error := RoundContributionError (index : nat) (reason : fault_reason).
(** src/errors.rs:231-243 [RoundFinalizeError]; conversions at 264-275. *)
Inductive finalize_error :=
| FE_Incomplete
| FE_SigningError (e : signing_error)
| FE_InvalidAggregatedSignature (e : verify_error).
(** base16ct::Error. (src/errors.rs, in [DecodeFailureReason].) *)
Inductive hex_error := InvalidEncoding | InvalidLength.
(** src/errors.rs:279-308 [DecodeFailureReason] / [DecodeError]. *)
Inductive decode_error :=
| BadHexFormat (e : hex_error)
| BadLength (size : nat)
| InvalidPoint
| InvalidScalar
| Custom (s : string).
(** src/errors.rs:378-382 [From<KeyAggError> for DecodeError<KeyAggContext>]. *)
Definition decode_of_key_agg (e : key_agg_error) : decode_error :=
  Custom "computed an invalid aggregated key from a collection of public keys".
(** src/errors.rs:384-388 [From<TweakError> for DecodeError<KeyAggContext>]. *)
Definition decode_of_tweak (e : tweak_error) : decode_error :=
  Custom "serialized KeyAggContext contains an invalid tweak".
