(** The refuted claims on secp256k1 with SHA-256: witnesses on the real curve. *)
From Coq Require Import String List.
From Verif Require Import Bytes BytesFacts Prims PrimsFacts Errors TaggedHashes Sha256 SpecTags SpecBIP327
  KeyAgg Nonces Signature Signing SigAgg Bip340 SpecCtx SpecSecp SpecNonces Secp256k1.
Import ListNotations.
Open Scope list_scope.
Open Scope Z_scope.
From Verif Require Import ProofsSecpLimits.

(** On secp256k1, [aggregated_seckey] accepts secret keys that do not align with the public
    keys. *)
Theorem C06_misaligned_rejected_secp256k1_refuted (r : bytes -> nat -> positive) :
  exists (c : key_agg_ctx (Secp r)) (sks : list (scalar (Secp r))) (x : scalar (Secp r)),
    ctx_reachable c /\ map base_mul sks <> pubkeys c /\ aggregated_seckey c sks = Ok x.
Proof. exact (@C06_misaligned_rejected_secp256k1_refuted_proof r). Qed.
Print Assumptions C06_misaligned_rejected_secp256k1_refuted.

(** On secp256k1, a string that is not the encoding of any context is decoded. *)
Theorem C08_canonical_secp256k1_refuted (r : bytes -> nat -> positive) :
  exists (b : bytes) (c : key_agg_ctx (Secp r)), ctx_from_bytes target64 b = Ok c /\ ctx_to_bytes c <> b.
Proof. exact (@C08_canonical_secp256k1_refuted_proof r). Qed.
Print Assumptions C08_canonical_secp256k1_refuted.

(** On secp256k1 and a wrapping 32-bit target, a string whose declared count is not its number
    of keys is decoded; a 64-bit target rejects it. *)
Theorem C09_wrong_count_secp256k1_refuted (r : bytes -> nat -> positive) :
  exists (b : bytes) (c : key_agg_ctx (Secp r)),
    ctx_from_bytes (Target 32 false) b = Ok c /\ ctx_from_bytes (Pr := Secp r) target64 b = Err (BadLength (length b)).
Proof. exact (@C09_wrong_count_secp256k1_refuted_proof r). Qed.
Print Assumptions C09_wrong_count_secp256k1_refuted.

(** On secp256k1, verified partial signatures of all members can fail to aggregate, for
    every message. *)
Theorem C13_guarantee_secp256k1_refuted (r : bytes -> nat -> positive) (msg : bytes) :
  exists (c : key_agg_ctx (Secp r)) (sks : list (scalar (Secp r))) (sns : list (sec_nonce (Secp r))) (sigs : list (mscalar (Secp r))),
    ctx_reachable c /\ map base_mul sks = pubkeys c /\
    length sns = length (pubkeys c) /\ length sigs = length (pubkeys c) /\
    (forall i sk sn s, nth_error sks i = Some sk -> nth_error sns i = Some sn -> nth_error sigs i = Some s ->
       sign_partial c sk sn (agg_sum (map public_nonce sns)) msg = Ok s /\
       verify_partial c s (agg_sum (map public_nonce sns)) (base_mul sk) (public_nonce sn) msg = Ok tt) /\
    aggregate_partial_adaptor_signatures c (agg_sum (map public_nonce sns)) pt_O sigs msg = Err VE_BadSignature.
Proof. exact (@C13_guarantee_secp256k1_refuted_proof r msg). Qed.
Print Assumptions C13_guarantee_secp256k1_refuted.

(** On secp256k1, [reveal_secret] can return the negation of the secret when R is infinite. *)
Theorem C17_infinite_nonce_secp256k1_refuted (r : bytes -> nat -> positive) :
  exists (sg : adaptor_sig (Secp r)) (t : scalar (Secp r)) (final : lifted_sig (Secp r)),
    a_R sg = pt_O /\ adapt sg t = Some final /\ has_even_y (l_R final) = true /\
    reveal_secret sg final <> Some (sval t).
Proof. exact (@C17_infinite_nonce_secp256k1_refuted_proof r). Qed.
Print Assumptions C17_infinite_nonce_secp256k1_refuted.

(** On secp256k1, for every key, message, seed and second secret, some twice-encrypted
    pre-signature does not decrypt to a valid signature. *)
Theorem C19_reencryption_secp256k1_refuted (r : bytes -> nat -> positive) (sk : scalar (Secp r)) (msg : bytes) (seed : bytes) (u : scalar (Secp r)) :
  exists (t : scalar (Secp r)) (l' : lifted_sig (Secp r)),
    let sg := sign_solo_adaptor sk msg seed (gmul t) in
    verify_single_adaptor (base_mul sk) sg msg (gmul t) = Ok tt /\
    adapt (adaptor_encrypt sg u) (fadd (sval t) u) = Some l' /\
    verify_single_lifted (base_mul sk) l' msg = Err VE_BadSignature.
Proof. exact (@C19_reencryption_secp256k1_refuted_proof r sk msg seed u). Qed.
Print Assumptions C19_reencryption_secp256k1_refuted.

(** On secp256k1 with SHA-256, [build] does not return BIP327's nonces when no secret key is
    given, nor when no extra input is given. *)
Theorem C36_documented_match_secp256k1_refuted (r : bytes -> nat -> positive) :
  exists b1 b2 : builder (Secp r), exists pk,
  b_pubkey b1 = Some pk /\ b_seckey b1 = None /\ b_extra_inputs b1 <> [] /\
  b_pubkey b2 = Some pk /\ b_seckey b2 <> None /\ b_extra_inputs b2 = [] /\
  (exists sn pn, bip327_gen_of b1 pk = Ret (sn, pn) /\ sn <> secnonce_to_bytes (build b1) ++ cbytes pk) /\
  (exists sn pn, bip327_gen_of b2 pk = Ret (sn, pn) /\ sn <> secnonce_to_bytes (build b2) ++ cbytes pk).
Proof. exact (@C36_documented_match_secp256k1_refuted_proof r). Qed.
Print Assumptions C36_documented_match_secp256k1_refuted.
