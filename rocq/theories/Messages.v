(** src/errors.rs: the [Display] texts of the error types.  The text of [DecodeError] contains
    the Rust type name and texts of other crates, which are parameters here. *)
From Coq Require Import String DecimalString.
From Verif Require Import Bytes Errors.
Open Scope string_scope.

(** Rust's [{}] for [usize]: decimal without leading zeros. (Format strings of src/errors.rs.) *)
Definition dec (n : nat) : string := NilEmpty.string_of_uint (Nat.to_uint n).

(** src/errors.rs:12-16. *)
Definition show_key_agg (e : key_agg_error) : string :=
  "computed an invalid aggregated key from a collection of public keys".
(** src/errors.rs:29-33. *)
Definition show_seckeys (e : seckeys_error) : string :=
  "missing or invalid secret keys provided for aggregation".
(** src/errors.rs:47-51. *)
Definition show_tweak (e : tweak_error) : string := "tweak value is invalid".
(** src/errors.rs:69-77. *)
Definition show_signer_index (e : signer_index_error) : string :=
  match e with SignerIndexError i n =>
    "signer index " ++ dec i ++ " is out of range for group of " ++ dec n ++ " signers" end.
(** src/errors.rs:102-113. *)
Definition show_signing (e : signing_error) : string :=
  "failed to create signature: " ++
  match e with
  | SE_UnknownKey => "signing key is not a member of the group"
  | SE_SelfVerifyFail => "failed to verify our own signature; something is wrong"
  end.
(** src/errors.rs:127-138. *)
Definition show_verify (e : verify_error) : string :=
  "failed to verify signature: " ++
  match e with
  | VE_UnknownKey => "public key is not a member of the group"
  | VE_BadSignature => "signature is invalid"
  end.
(** src/errors.rs:209-224. *)
Definition show_contribution (e : contribution_error) : string :=
  match e with RoundContributionError i reason =>
    "invalid signer index " ++ dec i ++ ": " ++
    match reason with
    | OutOfRange n => "exceeds max index for " ++ dec n ++ " signers"
    | InconsistentContribution => "received inconsistent contributions from same signer"
    | InvalidSignature => "received invalid partial signature from peer"
    end
  end.
(** src/errors.rs:247-260. *)
Definition show_finalize (e : finalize_error) : string :=
  "cannot finalize round: " ++
  match e with
  | FE_Incomplete => "not all signers have contributed"
  | FE_SigningError e' => "signing failed, " ++ show_signing e'
  | FE_InvalidAggregatedSignature e' => "could not verify aggregated signature: " ++ show_verify e'
  end.

(** An error of any of these types. (src/errors.rs.) *)
Inductive any_error : Type :=
| AKeyAgg (e : key_agg_error)
| ASeckeys (e : seckeys_error)
| ATweak (e : tweak_error)
| ASignerIndex (e : signer_index_error)
| ASigning (e : signing_error)
| AVerify (e : verify_error)
| AContribution (e : contribution_error)
| AFinalize (e : finalize_error).
(** [Display] of an error of any of these types (src/errors.rs). *)
Definition show (e : any_error) : string :=
  match e with
  | AKeyAgg e => show_key_agg e
  | ASeckeys e => show_seckeys e
  | ATweak e => show_tweak e
  | ASignerIndex e => show_signer_index e
  | ASigning e => show_signing e
  | AVerify e => show_verify e
  | AContribution e => show_contribution e
  | AFinalize e => show_finalize e
  end.

(** What [DecodeError]'s text takes from elsewhere: [std::any::type_name] and the texts of
    base16ct::Error, secp's InvalidPointBytes and InvalidScalarBytes (src/errors.rs:345-351). *)
Record foreign_texts : Type := {
  type_name : string;
  hex_text : hex_error -> string;
  point_text : string;
  scalar_text : string
}.
(** src/errors.rs:338-356, the reason without the leading "error decoding T: ". *)
Definition show_reason (x : foreign_texts) (e : decode_error) : string :=
  match e with
  | BadHexFormat h => "hex decoding error: " ++ hex_text x h
  | BadLength size => "unexpected length " ++ dec size
  | InvalidPoint => point_text x
  | InvalidScalar => scalar_text x
  | Custom s => s
  end.
(** src/errors.rs:338-356. *)
Definition show_decode (x : foreign_texts) (e : decode_error) : string :=
  "error decoding " ++ type_name x ++ ": " ++ show_reason x e.
