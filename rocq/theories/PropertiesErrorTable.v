(** Which errors each function can return: C90. *)
From Coq Require Import String List.
From Verif Require Import Bytes BytesFacts Prims PrimsFacts TaggedHashes Errors SpecTags SpecBIP327
  KeyAgg Nonces Signature Encoding Signing SigAgg Bip340 Rounds SpecCtx SpecView SpecRounds SpecDecode SpecErrors Toy ToyData ToyRounds ToyErrors.
Import ListNotations.
Open Scope list_scope.
Open Scope Z_scope.
From Verif Require Import ProofsErrorTable.

(** C90.  The errors that a function can return are those of [table], on any curve and whatever the arguments, the
    context and the calls made before.  So signing never reports that it could not verify its own signature, a
    public key can be unknown only to the partial verifiers, and finalizing never reports an unknown key
    in the aggregated signature. *)
Theorem C90_possible_errors {Pr : prims} {Laws : prims_ok Pr} {Tags : tags_ok Pr} (f : api) (v : variant) :
  gives Pr f v -> In v (table f).
Proof. exact (@C90_possible_errors_proof Pr Laws Tags f v). Qed.
Print Assumptions C90_possible_errors.

(** A first round object that has all its nonces, finalized with a secret key of nobody: an error that [table] lists. *)
Example C90_possible_errors_ex : gives Toy F_first_finalize V_FinalUnknownKey /\ table F_first_finalize = [V_Incomplete; V_FinalUnknownKey].
Proof.
  split; [|reflexivity]. exists (toy_r0 0), toy_ncalls, (tsc 4), toy_msg. split; [apply toy_r0_started; auto|]. apply failsb_ok. vm_compute. reflexivity.
Qed.

(** Three of the twenty-one variants are never returned at all: [SigningError::SelfVerifyFail], alone or within
    [RoundFinalizeError], and [RoundFinalizeError::InvalidAggregatedSignature(VerifyError::UnknownKey)].  Every other
    variant is returned by some function, here on the toy curve. *)
Theorem C90_never_returned (v : variant) :
  (In v [V_SignSelfVerify; V_FinalSelfVerify; V_FinalAggregatedUnknownKey] ->
     forall (Pr : prims) (Laws : prims_ok Pr) (Tags : tags_ok Pr) f, ~ gives Pr f v) /\
  (~ In v [V_SignSelfVerify; V_FinalSelfVerify; V_FinalAggregatedUnknownKey] -> exists f, gives Toy f v).
Proof. exact (@C90_never_returned_proof v). Qed.
Print Assumptions C90_never_returned.

(** The same round object shows an error of the second kind; signing with a member's key, none. *)
Example C90_never_returned_ex :
  In V_SignSelfVerify [V_SignSelfVerify; V_FinalSelfVerify; V_FinalAggregatedUnknownKey] /\
  is_ok (sign_partial toy_c sk_a (mk_sn 7 11) toy_an toy_msg) = true /\
  ~ In V_FinalUnknownKey [V_SignSelfVerify; V_FinalSelfVerify; V_FinalAggregatedUnknownKey] /\
  gives Toy F_first_finalize V_FinalUnknownKey.
Proof.
  split; [left; reflexivity|]. split; [vm_compute; reflexivity|]. split; [cbn; intuition discriminate | exact (proj1 C90_possible_errors_ex)].
Qed.

(** The documentation of [RoundFinalizeError] (errors.rs:236-244) says of [SigningError] that it is only returned by
    [FirstRound::finalize], and of [InvalidAggregatedSignature] that it is only returned by [SecondRound::finalize].
    The methods with an adaptor return them as well. *)

Theorem C90_only_returned_by_refuted :
  ~ (forall f, gives Toy f V_FinalUnknownKey -> f = F_first_finalize) /\
  ~ (forall f, gives Toy f V_FinalAggregatedBad -> f = F_second_finalize).
Proof. exact C90_only_returned_by_refuted_proof. Qed.
Print Assumptions C90_only_returned_by_refuted.

(** The witnesses: all nonces received and nobody's key; the partial signatures of a session that another member's
    key was used in. *)
Example C90_only_returned_by_ex :
  gives Toy F_first_finalize_adaptor V_FinalUnknownKey /\ gives Toy F_second_finalize_adaptor V_FinalAggregatedBad.
Proof.
  split.
  - exists (toy_r0 0), toy_ncalls, (tsc 4), toy_T, toy_msg. split; [apply toy_r0_started; auto|]. apply failsb_ok. vm_compute. reflexivity.
  - exists toy_spoilt, toy_scalls. split; [exact toy_spoilt_started|]. apply failsb_ok. vm_compute. reflexivity.
Qed.

(** And each of them is returned for some arguments, here on the toy curve. *)
Theorem C90_errors_occur (f : api) (v : variant) :
  In v (table f) -> gives Toy f v.
Proof. exact (@C90_errors_occur_proof f v). Qed.
Print Assumptions C90_errors_occur.

(** Two of the entries of the table: bytes of a context of two opposite keys, and hexadecimal digits that are none. *)
Example C90_errors_occur_ex :
  In V_Custom (table (F_from_bytes Context)) /\
  decode_gives Toy Context (x00 :: be_enc 4 2 ++ ser_point (tpt 3) ++ ser_point (tpt 18)) V_Custom /\
  In V_Hex (table (F_from_hex Lifted)) /\ hex_gives Toy Lifted [x67; x67] V_Hex.
Proof.
  split; [cbn; tauto|]. split; [|split; [cbn; tauto|]]; cbn [decode_gives hex_gives]; apply failsb_ok; vm_compute; reflexivity.
Qed.
