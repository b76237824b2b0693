(** Which errors each fallible function may return. *)
From Coq Require Import String List.
From Verif Require Import Bytes Prims Errors KeyAgg Nonces Signature Encoding Signing SigAgg Bip340 Rounds SpecCtx SpecRounds SpecDecode.
Import ListNotations.
Local Open Scope list_scope.

(** The variants of the error types (errors.rs), without the numbers and texts in them. *)
Inductive variant : Type :=
| V_KeyAgg | V_SecretKeys | V_Tweak | V_SignerIndex
| V_SignUnknownKey | V_SignSelfVerify
| V_VerifyUnknownKey | V_VerifyBad
| V_OutOfRange | V_Inconsistent | V_InvalidSignature
| V_Incomplete | V_FinalUnknownKey | V_FinalSelfVerify | V_FinalAggregatedUnknownKey | V_FinalAggregatedBad
| V_Hex | V_Length | V_Point | V_Scalar | V_Custom.
(** All of them. *)
Definition variants : list variant :=
  [V_KeyAgg; V_SecretKeys; V_Tweak; V_SignerIndex; V_SignUnknownKey; V_SignSelfVerify; V_VerifyUnknownKey; V_VerifyBad;
   V_OutOfRange; V_Inconsistent; V_InvalidSignature; V_Incomplete; V_FinalUnknownKey; V_FinalSelfVerify;
   V_FinalAggregatedUnknownKey; V_FinalAggregatedBad; V_Hex; V_Length; V_Point; V_Scalar; V_Custom].

(** The fallible functions. *)
Inductive api : Type :=
| F_new | F_with_tweaks | F_with_taproot_tweak | F_aggregated_seckey
| F_sign_partial | F_sign_partial_adaptor | F_verify_partial | F_verify_partial_adaptor | F_aggregate | F_aggregate_adaptor
| F_verify_single | F_verify_single_adaptor | F_verify_batch
| F_first_new | F_receive_nonce | F_first_finalize | F_first_finalize_adaptor
| F_sign_for_aggregator | F_sign_for_aggregator_adaptor
| F_receive_signature | F_second_finalize | F_second_finalize_adaptor
| F_from_bytes (k : kind) | F_from_hex (k : kind).

(** The errors of a type's decoder. *)
Definition decode_table (k : kind) : list variant :=
  match k with
  | SecretNonce | Compact => [V_Length; V_Scalar]
  | PublicNonce | AggregatedNonce => [V_Length; V_Point]
  | Lifted | Adaptor => [V_Length; V_Point; V_Scalar]
  | Context => [V_Length; V_Point; V_Scalar; V_Custom]
  end.
(** The errors of each function. *)
Definition table (f : api) : list variant :=
  match f with
  | F_new => [V_KeyAgg]
  | F_with_tweaks | F_with_taproot_tweak => [V_Tweak]
  | F_aggregated_seckey => [V_SecretKeys]
  | F_sign_partial | F_sign_partial_adaptor | F_sign_for_aggregator | F_sign_for_aggregator_adaptor => [V_SignUnknownKey]
  | F_verify_partial | F_verify_partial_adaptor => [V_VerifyUnknownKey; V_VerifyBad]
  | F_aggregate | F_aggregate_adaptor | F_verify_single | F_verify_single_adaptor | F_verify_batch => [V_VerifyBad]
  | F_first_new => [V_SignerIndex]
  | F_receive_nonce => [V_OutOfRange; V_Inconsistent]
  | F_receive_signature => [V_OutOfRange; V_Inconsistent; V_InvalidSignature]
  | F_first_finalize | F_first_finalize_adaptor => [V_Incomplete; V_FinalUnknownKey]
  | F_second_finalize | F_second_finalize_adaptor => [V_Incomplete; V_FinalAggregatedBad]
  | F_from_bytes k => decode_table k
  | F_from_hex k => V_Hex :: decode_table k
  end.

(** Names of errors. *)
Definition of_signing (e : signing_error) : variant := match e with SE_UnknownKey => V_SignUnknownKey | SE_SelfVerifyFail => V_SignSelfVerify end.
(** [VerifyError]. *)
Definition of_verify (e : verify_error) : variant := match e with VE_UnknownKey => V_VerifyUnknownKey | VE_BadSignature => V_VerifyBad end.
(** [RoundContributionError]. *)
Definition of_contribution (e : contribution_error) : variant :=
  match e with
  | RoundContributionError _ (OutOfRange _) => V_OutOfRange
  | RoundContributionError _ InconsistentContribution => V_Inconsistent
  | RoundContributionError _ InvalidSignature => V_InvalidSignature
  end.
(** [RoundFinalizeError]. *)
Definition of_finalize (e : finalize_error) : variant :=
  match e with
  | FE_Incomplete => V_Incomplete
  | FE_SigningError SE_UnknownKey => V_FinalUnknownKey
  | FE_SigningError SE_SelfVerifyFail => V_FinalSelfVerify
  | FE_InvalidAggregatedSignature VE_UnknownKey => V_FinalAggregatedUnknownKey
  | FE_InvalidAggregatedSignature VE_BadSignature => V_FinalAggregatedBad
  end.
(** [DecodeError]. *)
Definition of_decode (e : decode_error) : variant :=
  match e with
  | BadHexFormat _ => V_Hex
  | BadLength _ => V_Length
  | InvalidPoint => V_Point
  | InvalidScalar => V_Scalar
  | Custom _ => V_Custom
  end.

(** A result is an error with that name. *)
Definition fails {E A} (name : E -> variant) (r : res E A) (v : variant) : Prop := exists e, r = Err e /\ name e = v.

Section Gives.
Context (Pr : prims).

(** Decoding some bytes as type [k] gives that error. *)
Definition decode_gives (k : kind) (b : bytes) : variant -> Prop :=
  match k with
  | SecretNonce => fails of_decode (secnonce_from_bytes (Pr := Pr) b)
  | PublicNonce => fails of_decode (pubnonce_from_bytes (Pr := Pr) b)
  | AggregatedNonce => fails of_decode (aggnonce_from_bytes (Pr := Pr) b)
  | Compact => fails of_decode (compact_from_bytes (Pr := Pr) b)
  | Lifted => fails of_decode (lifted_from_bytes (Pr := Pr) b)
  | Adaptor => fails of_decode (adaptor_from_bytes (Pr := Pr) b)
  | Context => fails of_decode (ctx_from_bytes (Pr := Pr) target64 b)
  end.
(** Decoding some text. *)
Definition hex_gives (k : kind) (s : bytes) : variant -> Prop :=
  match k with
  | SecretNonce => fails of_decode (secnonce_from_hex (Pr := Pr) s)
  | PublicNonce => fails of_decode (pubnonce_from_hex (Pr := Pr) s)
  | AggregatedNonce => fails of_decode (aggnonce_from_hex (Pr := Pr) s)
  | Compact => fails of_decode (compact_from_hex (Pr := Pr) s)
  | Lifted => fails of_decode (lifted_from_hex (Pr := Pr) s)
  | Adaptor => fails of_decode (adaptor_from_hex (Pr := Pr) s)
  | Context => fails of_decode (ctx_from_hex (Pr := Pr) target64 s)
  end.

(** With some arguments, on a context that can be made and in a state that can be reached, the function
    returns that error. *)
Definition gives (f : api) (v : variant) : Prop :=
  match f with
  | F_new => exists pks : list (point Pr), fails (fun _ => V_KeyAgg) (key_agg_new pks) v
  | F_with_tweaks => exists (c : key_agg_ctx Pr) ts, ctx_reachable c /\ fails (fun _ => V_Tweak) (with_tweaks c ts) v
  | F_with_taproot_tweak => exists (c : key_agg_ctx Pr) root, ctx_reachable c /\ length root = 32 /\ fails (fun _ => V_Tweak) (with_taproot_tweak c root) v
  | F_aggregated_seckey => exists (c : key_agg_ctx Pr) sks, ctx_reachable c /\ fails (fun _ => V_SecretKeys) (aggregated_seckey c sks) v
  | F_sign_partial => exists (c : key_agg_ctx Pr) sk sn an msg, ctx_reachable c /\ fails of_signing (sign_partial c sk sn an msg) v
  | F_sign_partial_adaptor => exists (c : key_agg_ctx Pr) sk sn an T msg, ctx_reachable c /\ fails of_signing (sign_partial_adaptor c sk sn an T msg) v
  | F_verify_partial => exists (c : key_agg_ctx Pr) s an pk pn msg, ctx_reachable c /\ fails of_verify (verify_partial c s an pk pn msg) v
  | F_verify_partial_adaptor => exists (c : key_agg_ctx Pr) s an T pk pn msg, ctx_reachable c /\ fails of_verify (verify_partial_adaptor c s an T pk pn msg) v
  | F_aggregate => exists (c : key_agg_ctx Pr) an sigs msg, ctx_reachable c /\ fails of_verify (aggregate_partial_signatures c an sigs msg) v
  | F_aggregate_adaptor => exists (c : key_agg_ctx Pr) an T sigs msg, ctx_reachable c /\ fails of_verify (aggregate_partial_adaptor_signatures c an T sigs msg) v
  | F_verify_single => exists (pk : point Pr) sg msg, fails of_verify (verify_single pk sg msg) v
  | F_verify_single_adaptor => exists (pk : point Pr) sg msg T, fails of_verify (verify_single_adaptor pk sg msg T) v
  | F_verify_batch => exists rows : list (batch_row Pr), fails of_verify (verify_batch rows) v
  | F_first_new => exists (c : key_agg_ctx Pr) seed i sp, ctx_reachable c /\ fails (fun _ => V_SignerIndex) (first_round_new c seed i sp) v
  | F_receive_nonce => exists (r : first_round Pr) calls i pn, fr_started r /\ fails of_contribution (snd (receive_nonce (fst (fr_run r calls)) i pn)) v
  | F_first_finalize => exists (r : first_round Pr) calls sk msg, fr_started r /\ fails of_finalize (fr_finalize (fst (fr_run r calls)) sk msg) v
  | F_first_finalize_adaptor => exists (r : first_round Pr) calls sk T msg, fr_started r /\ fails of_finalize (fr_finalize_adaptor (fst (fr_run r calls)) sk T msg) v
  | F_sign_for_aggregator => exists (r : first_round Pr) calls sk msg an, fr_started r /\ fails of_signing (sign_for_aggregator (fst (fr_run r calls)) sk msg an) v
  | F_sign_for_aggregator_adaptor => exists (r : first_round Pr) calls sk T msg an, fr_started r /\ fails of_signing (sign_for_aggregator_adaptor (fst (fr_run r calls)) sk T msg an) v
  | F_receive_signature => exists (r : second_round Pr) calls i s, sr_started r /\ fails of_contribution (snd (receive_signature (fst (sr_run r calls)) i s)) v
  | F_second_finalize => exists (r : second_round Pr) calls, sr_started r /\ fails of_finalize (sr_finalize (fst (sr_run r calls))) v
  | F_second_finalize_adaptor => exists (r : second_round Pr) calls, sr_started r /\ fails of_finalize (sr_finalize_adaptor (fst (sr_run r calls))) v
  | F_from_bytes k => exists b, decode_gives k b v
  | F_from_hex k => exists s, hex_gives k s v
  end.
End Gives.
