(** Properties of the real curve and hash: C50 - C52. *)
From Coq Require Import String List Znumtheory.
From Verif Require Import Bytes BytesFacts Prims PrimsFacts Errors TaggedHashes Sha256 SpecTags SpecBIP327
  KeyAgg Nonces Signature Signing SigAgg Bip340 Rounds SpecCtx SpecSecp SpecSession SpecRounds Secp256k1 SecpFacts ProofsKeyAgg.
Import ListNotations.
Open Scope list_scope.
Open Scope Z_scope.
From Verif Require Import ProofsSecp.

(** C50.  Each digest constant of tagged_hashes.rs, used as the code uses it, gives the
    BIP340 tagged hash of its tag: SHA-256 of SHA-256(tag) twice followed by the message.
    The ten constants are different. *)
Theorem C50_tag_digests (r : bytes -> nat -> positive) (m : bytes) :
  let H := fun D => @tagged (Secp r) D m in
  H KEYAGG_LIST_TAG_DIGEST = py_tagged_hash "KeyAgg list" m /\
  H KEYAGG_COEFF_TAG_DIGEST = py_tagged_hash "KeyAgg coefficient" m /\
  H MUSIG_AUX_TAG_DIGEST = py_tagged_hash "MuSig/aux" m /\
  H MUSIG_NONCE_TAG_DIGEST = py_tagged_hash "MuSig/nonce" m /\
  H MUSIG_NONCECOEF_TAG_DIGEST = py_tagged_hash "MuSig/noncecoef" m /\
  H BIP0340_AUX_TAG_DIGEST = py_tagged_hash "BIP0340/aux" m /\
  H BIP0340_NONCE_TAG_DIGEST = py_tagged_hash "BIP0340/nonce" m /\
  H BIP0340_CHALLENGE_TAG_DIGEST = py_tagged_hash "BIP0340/challenge" m /\
  H BIP0340_BATCH_TAG_DIGEST = py_tagged_hash "BIP0340/batch" m /\
  H TAPROOT_TWEAK_TAG_DIGEST = py_tagged_hash "TapTweak" m /\
  NoDup [KEYAGG_LIST_TAG_DIGEST; KEYAGG_COEFF_TAG_DIGEST; MUSIG_AUX_TAG_DIGEST; MUSIG_NONCE_TAG_DIGEST;
    MUSIG_NONCECOEF_TAG_DIGEST; BIP0340_AUX_TAG_DIGEST; BIP0340_NONCE_TAG_DIGEST; BIP0340_CHALLENGE_TAG_DIGEST;
    BIP0340_BATCH_TAG_DIGEST; TAPROOT_TWEAK_TAG_DIGEST].
Proof. exact (@C50_tag_digests_proof r m). Qed.
Print Assumptions C50_tag_digests.

(** The hash function is the one of FIPS 180-4: its value on the empty string and on "abc". *)
Example C50_case :
  sha256_fips [] = be_enc 32 0xe3b0c44298fc1c149afbf4c8996fb92427ae41e4649b934ca495991b7852b855 /\
  sha256_fips (ascii_bytes "abc") = be_enc 32 0xba7816bf8f01cfea414140de5dae2223b00361a396177a9cb410ff61f20015ad.
Proof. split; apply bytes_eqb_eq; vm_compute; reflexivity. Qed.

(** C51.  The integer formulas of /repo/reference.py make the points of y^2 = x^3 + 7 modulo p
    a cyclic group of prime order n generated by G, with [point_mul] multiplying by integers. *)

Theorem C51_reference_curve_group :
  prime py_p /\ prime py_n /\ py_on py_G /\
  (forall P Q, py_on P -> py_on Q -> py_on (py_point_add P Q)) /\
  (forall P Q R, py_on P -> py_on Q -> py_on R ->
     py_point_add (py_point_add P Q) R = py_point_add P (py_point_add Q R)) /\
  (forall P Q, py_on P -> py_on Q -> py_point_add P Q = py_point_add Q P) /\
  (forall P, py_point_add None P = P) /\
  (forall P, py_on P -> py_on (py_neg P) /\ py_point_add P (py_neg P) = None) /\
  (forall P, py_on P -> py_point_mul P 0 = None /\ py_point_mul P 1 = P /\ py_point_mul P py_n = None) /\
  (forall P j k, py_on P -> 0 <= j < py_n -> 0 <= k < py_n ->
     py_point_add (py_point_mul P j) (py_point_mul P k) = py_point_mul P ((j + k) mod py_n)) /\
  (forall P, py_on P -> exists k, 0 <= k < py_n /\ P = py_point_mul py_G k /\
     forall k', 0 <= k' < py_n -> P = py_point_mul py_G k' -> k' = k) /\
  (forall b, length b = 32%nat -> forall P, P <> None ->
     (py_lift_x b = P <-> py_on P /\ exists x y, P = Some (x, y) /\ be_enc 32 x = b /\ Z.even y = true)).
Proof. exact C51_reference_curve_group_proof. Qed.
Print Assumptions C51_reference_curve_group.

(** 2G, and the lift of the x coordinate of G. *)
Example C51_group_case :
  py_point_add py_G py_G = Some (0xC6047F9441ED7D6D3045406E95C07CD85C778E4B8CEF3CA7ABAC09B95C709EE5,
                                 0x1AE168FEA63DC339A3C58419466CEAEEF7F632653266D0E1236431A950CFE52A) /\
  py_lift_x (be_enc 32 0x79BE667EF9DCBBAC55A06295CE870B07029BFCDB2DCE28D959F2815B16F81798) = py_G.
Proof.
  split; [rewrite <- enc_G, <- enc_add; vm_compute; reflexivity|].
  apply C51_reference_curve_group; [reflexivity | discriminate |]. split; [rewrite <- enc_G; apply enc_on|].
  eexists _, _. split; [reflexivity|]. split; reflexivity.
Qed.

(** The curve of the model's instance [Secp] is this group: coordinates are a bijection with
    the points on the curve, and respect every operation. *)
Theorem C51_model_is_reference_curve (r : bytes -> nat -> positive) :
  (forall P Q : @pt (Secp r), enc P = enc Q -> P = Q) /\
  (forall P, py_on P <-> exists Q : @pt (Secp r), enc Q = P) /\
  enc (@pt_O (Secp r)) = None /\ enc (@pt_G (Secp r)) = py_G /\ Zpos (@ord (Secp r)) = py_n /\
  (forall P Q, enc (@pt_add (Secp r) P Q) = py_point_add (enc P) (enc Q)) /\
  (forall P, enc (@pt_neg (Secp r) P) = py_neg (enc P)) /\
  (forall P k, 0 <= k < 2 ^ 256 -> enc (@smul (Secp r) k P) = py_point_mul (enc P) k) /\
  (forall P x y, enc P = Some (x, y) -> @pt_x (Secp r) P = be_enc 32 x /\ @pt_odd (Secp r) P = Z.odd y) /\
  (forall b, @pt_lift (Secp r) b = None <-> length b <> 32%nat \/ py_lift_x b = None) /\
  (forall b P, @pt_lift (Secp r) b = Some P -> py_lift_x b = enc P) /\
  @sha256 (Secp r) = sha256_fips.
Proof. exact (@C51_model_is_reference_curve_proof r). Qed.
Print Assumptions C51_model_is_reference_curve.

(** Every law that the other theorems assume of the curve, the scalars and the hash is
    true of secp256k1 with SHA-256, whatever the random number generator. *)
Theorem C51_laws_hold (r : bytes -> nat -> positive) :
  prims_ok (Secp r) /\ tags_ok (Secp r).
Proof. exact (@C51_laws_hold_proof r). Qed.
Print Assumptions C51_laws_hold.

(** C52.  On secp256k1 with SHA-256, without further assumptions: [verify_single] accepts exactly
    what reference.py's [schnorr_verify] accepts; every aggregated signature, adapted aggregated
    signature, and solo signature is accepted by it. *)
Theorem C52_secp256k1_signatures (r : bytes -> nat -> positive) :
  (forall (pk : point (Secp r)) sig msg,
     verify_single_bytes pk sig msg = Ok tt <-> py_schnorr_verify msg (pt_x pk) sig = true) /\
  (forall (c : key_agg_ctx (Secp r)) an sigs msg sg,
     aggregate_partial_signatures c an sigs msg = Ok sg ->
     py_schnorr_verify msg (pt_x (aggregated_pubkey c)) (lifted_to_bytes sg) = true) /\
  (forall (c : key_agg_ctx (Secp r)) an t sigs msg sg l,
     aggregate_partial_adaptor_signatures c an (gmul t) sigs msg = Ok sg -> adapt sg t = Some l ->
     py_schnorr_verify msg (pt_x (aggregated_pubkey c)) (lifted_to_bytes l) = true) /\
  (forall (sk : scalar (Secp r)) msg seed,
     exists sg, sign_solo sk msg seed = Ok sg /\
       py_schnorr_verify msg (pt_x (base_mul sk)) (lifted_to_bytes sg) = true).
Proof. exact (@C52_secp256k1_signatures_proof r). Qed.
Print Assumptions C52_secp256k1_signatures.

(** A context for the key G, which can sign alone. *)
Example C52_case : exists c : key_agg_ctx (Secp (fun _ _ => 1%positive)),
  key_agg_new [gen_point] = Ok c /\ ctx_reachable c /\ pubkeys c = [gen_point].
Proof.
  destruct (one_key (fun _ _ => 1%positive)) as [c Hc]. exists c. split; [exact Hc|].
  split; [exact (reach_new _ _ Hc)|].
  exact (proj1 (proj2 (proj1 (@C01_new_is_bip327_keyagg_proof (Secp (fun _ _ => 1%positive)) (Secp_ok _) (Secp_tags _) [gen_point]) c Hc))).
Qed.

(** A whole session on secp256k1: every signer runs the two rounds on one context, each
    receives the others' nonces and partial signatures in any order among anything else.
    Unless R1 + b*R2 is infinite, all finished rounds return one signature, and reference.py
    accepts it for the aggregated key. *)
Theorem C52_secp256k1_sessions (r : bytes -> nat -> positive) (c : key_agg_ctx (Secp r)) (r0 : nat -> first_round (Secp r)) (seed : nat -> bytes) (sp : nat -> spices (Secp r)) (sk : nat -> scalar (Secp r)) (calls1 : nat -> list (nat * pub_nonce (Secp r))) (msg : bytes) (Hc : ctx_reachable c) (Hnew : forall j, (j < length (pubkeys c))%nat -> first_round_new c (seed j) j (sp j) = Ok (r0 j)) (Hsk : forall j pk, nth_error (pubkeys c) j = Some pk -> base_mul (sk j) = pk) (Hfirst : forall j i, (j < length (pubkeys c))%nat -> (i < length (pubkeys c))%nat -> on_file ((j, our_public_nonce (r0 j)) :: calls1 j) i = Some (our_public_nonce (r0 i))) (HR : spec_R_raw c (agg_sum (map (fun j => our_public_nonce (r0 j)) (seq 0 (length (pubkeys c))))) msg <> pt_O) :
  exists l : lifted_sig (Secp r),
    py_schnorr_verify msg (pt_x (aggregated_pubkey c)) (lifted_to_bytes l) = true /\
    forall j, (j < length (pubkeys c))%nat ->
      exists sr, fr_finalize (fst (fr_run (r0 j) (calls1 j))) (sk j) msg = Ok sr /\
        forall calls2, sr_is_complete (fst (sr_run sr calls2)) = true ->
          sr_finalize (fst (sr_run sr calls2)) = Ok l.
Proof. exact (@C52_secp256k1_sessions_proof r c r0 seed sp sk calls1 msg Hc Hnew Hsk Hfirst HR). Qed.
Print Assumptions C52_secp256k1_sessions.

(** One signer with secret key 1 and seed 0 meets the hypotheses: for every message for which
    R1 + b*R2 is finite it finishes with a signature that reference.py accepts. *)
Example C52_sessions_case : exists (c : key_agg_ctx (Secp (fun _ _ => 1%positive))) r0,
  key_agg_new [gen_point] = Ok c /\ first_round_new c (zeros 32) 0 spices_new = Ok r0 /\
  forall msg, spec_R_raw c (agg_sum [our_public_nonce r0]) msg <> pt_O ->
    exists l sr, fr_finalize r0 scalar_one msg = Ok sr /\
      py_schnorr_verify msg (pt_x (aggregated_pubkey c)) (lifted_to_bytes l) = true /\
      (sr_is_complete sr = true -> sr_finalize sr = Ok l).
Proof.
  set (r := fun (_ : bytes) (_ : nat) => 1%positive). pose proof (Secp_ok r) as L. pose proof (Secp_tags r) as Tg.
  destruct (one_key r) as [c Hc].
  assert (Hp : pubkeys c = [gen_point]) by exact (proj1 (proj2 (proj1 (@C01_new_is_bip327_keyagg_proof (Secp r) L Tg [gen_point]) c Hc))).
  destruct (one_signer c (zeros 32) Hp) as (r0 & H0 & H1 & H2 & H3).
  exists c, r0. split; [exact Hc|]. split; [exact H0|]. intros msg HR.
  destruct (C52_secp256k1_sessions r c (fun _ => r0) (fun _ => zeros 32) (fun _ => spices_new) (fun _ => scalar_one) (fun _ => []) msg
              (reach_new _ _ Hc) H1 H2 H3) as (l & V & K); [rewrite Hp; exact HR|].
  destruct (K 0%nat) as (sr & E & F); [rewrite Hp; cbn [length]; apply le_n|].
  exists l, sr. split; [exact E|]. split; [exact V|]. exact (F []).
Qed.
