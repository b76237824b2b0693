(** Properties of the deterministic module: C45, and C49 for deterministic signatures. *)
From Coq Require Import String List.
From Verif Require Import Bytes BytesFacts Prims PrimsFacts Errors SpecBIP327
  Nonces Signature Signing Bip340 Deterministic SpecTags SpecSession SpecRfc6979 Toy ToyData.
Import ListNotations.
Open Scope list_scope.
Open Scope Z_scope.
From Verif Require Import ProofsDeterministic.

(** C45.  [derive_nonce_rfc6979] returns the first candidate in [1, n) of the HMAC sequence
    started with key and unreduced message digest.  [fuel] counts iterations of the code's
    unbounded loop; the loop is still running after [fuel] iterations exactly when none of
    these candidates is in range.  The result depends only on key and digest. *)
Theorem C45_first_candidate {Pr : prims} {Laws : prims_ok Pr} (sk : scalar Pr) (msg : bytes) :
  (forall fuel k, derive_nonce_rfc6979 fuel sk msg = Some k <->
     exists i, (i < fuel)%nat /\ rfc_first (fz sk) (sha256 msg) i (fz k)) /\
  (forall fuel, derive_nonce_rfc6979 fuel sk msg = None <->
     forall i, (i < fuel)%nat -> ~ 1 <= rfc_candidate (fz sk) (sha256 msg) i < n_) /\
  (forall f1 f2 k1 k2, derive_nonce_rfc6979 f1 sk msg = Some k1 -> derive_nonce_rfc6979 f2 sk msg = Some k2 -> k1 = k2) /\
  (forall fuel msg', sha256 msg' = sha256 msg -> derive_nonce_rfc6979 fuel sk msg' = derive_nonce_rfc6979 fuel sk msg).
Proof. exact (@C45_first_candidate_proof Pr Laws sk msg). Qed.
Print Assumptions C45_first_candidate.

(** On the toy curve with small hashes: the loop ends, and not always at the first candidate. *)
Example C45_case :
  forallb (fun m => match derive_nonce_rfc6979 4 (lsc 3) [z2b m] with Some _ => true | None => false end) (map Z.of_nat (seq 0 64)) = true /\
  existsb (fun m => match derive_nonce_rfc6979 1 (lsc 3) [z2b m] with Some _ => false | None => true end) (map Z.of_nat (seq 0 64)) = true.
Proof. vm_compute. auto. Qed.

(** C45.  When the message digest, as an integer, is below n the result is RFC 6979's. *)
Theorem C45_is_rfc6979 {Pr : prims} {Laws : prims_ok Pr} (sk : scalar Pr) (msg : bytes) (Hd : int_from_bytes (sha256 msg) < n_) :
  (forall k, (exists fuel, derive_nonce_rfc6979 fuel sk msg = Some k) <-> rfc6979_nonce (fz sk) msg (fz k)) /\
  (forall z, rfc6979_nonce (fz sk) msg z -> exists fuel k, derive_nonce_rfc6979 fuel sk msg = Some k /\ fz k = z).
Proof. exact (@C45_is_rfc6979_proof Pr Laws sk msg Hd). Qed.
Print Assumptions C45_is_rfc6979.

(** A long message on the small-hash toy curve has a digest below 31. *)
Example C45_rfc_case : let msg := repeat x07 70 in
  (int_from_bytes (@sha256 ToyLow msg) <? 31) = true /\
  match derive_nonce_rfc6979 4 (lsc 3) msg with Some _ => true | None => false end = true.
Proof. vm_compute. auto. Qed.

(** C45.  The documentation ("Follows the procedure laid out in this section of the RFC",
    src/deterministic.rs:32-33) does not hold in general: step d of the RFC reduces the digest
    modulo n (bits2octets) and the code does not, so for a digest of n or more the result can
    differ.  The witness is on the toy curve; for secp256k1 such a message has probability
    about 2^-128 and none is known. *)

Theorem C45_documented_rfc6979_refuted :
  exists (sk k : scalar ToyLow) (msg : bytes) (z : Z),
    derive_nonce_rfc6979 4 sk msg = Some k /\ rfc6979_nonce (Pr := ToyLow) (fz sk) msg z /\ z <> fz k.
Proof. exact C45_documented_rfc6979_refuted_proof. Qed.
Print Assumptions C45_documented_rfc6979_refuted.

(** C45.  When the loop ends, [sign_solo] gives BIP340's signature with the derived nonce as
    auxiliary randomness (where BIP340's signing fails, k' = 1 was used), and it verifies;
    [adaptor::sign_solo] gives a pre-signature valid for its adaptor point. *)
Theorem C45_signatures {Pr : prims} {Laws : prims_ok Pr} {Tags : tags_ok Pr} (fuel : nat) (sk : scalar Pr) (msg : bytes) (k : scalar Pr) (Hk : derive_nonce_rfc6979 fuel sk msg = Some k) :
  let aux := bytes_from_int (fz k) in
  let pkx := xbytes (point_mul pt_G (fz sk)) in
  (exists sg, det_sign_solo fuel sk msg = Some (Ok sg) /\
     schnorr_verify msg pkx (lifted_to_bytes sg) = Ret true /\
     (schnorr_sign (bytes_from_int (fz sk)) aux msg = Ret (lifted_to_bytes sg) \/
      (schnorr_sign (bytes_from_int (fz sk)) aux msg = ValueError /\ xbytes (l_R sg) = xbytes pt_G))) /\
  (forall T, exists sg, det_sign_solo_adaptor fuel sk msg T = Some sg /\
     verify_single_adaptor (base_mul sk) sg msg T = Ok tt /\ presig_valid (base_mul sk) msg T (a_R sg) (a_s sg)).
Proof. exact (@C45_signatures_proof Pr Laws Tags fuel sk msg k Hk). Qed.
Print Assumptions C45_signatures.

Example C45_signatures_case :
  match derive_nonce_rfc6979 4 (lsc 3) toy_msg with Some _ => true | None => false end = true.
Proof. vm_compute. reflexivity. Qed.

(** C49.  The deterministic module always reuses the seed: a deterministic signature and a
    deterministic pre-signature on one message under one key have the same nonce, so together
    they give the secret key up to sign whenever the two signed challenges differ. *)
Theorem C49_deterministic_pair_reveals_key {Pr : prims} {Laws : prims_ok Pr} {Tags : tags_ok Pr} (f1 f2 : nat) (sk : scalar Pr) (msg : bytes) (T : pt) (l : lifted_sig Pr) (sg : adaptor_sig Pr) (H1 : det_sign_solo f1 sk msg = Some (Ok l)) (H2 : det_sign_solo_adaptor f2 sk msg T = Some sg) :
  let P := base_mul sk in
  let R := a_R sg in
  let sigma := fun T => if has_even_y (pt_add R T) then 1 else -1 in
  let e := fun T => int_from_bytes (tagged_hash "BIP0340/challenge"%string
                      (xbytes (pt_add R T) ++ xbytes P ++ msg)) mod n_ in
  let d := if has_even_y P then fz sk else n_ - fz sk in
  let D := sigma T * e T - sigma pt_O * e pt_O in
  let s := sigma T * fz (a_s sg) - sigma pt_O * fz (l_s l) in
  xbytes (l_R l) = xbytes R /\
  (D * d) mod n_ = s mod n_ /\
  (D mod n_ <> 0 -> forall x : scalar Pr, (D * fz x) mod n_ = s mod n_ -> x = sk \/ sval x = fneg sk).
Proof. exact (@C49_deterministic_pair_reveals_key_proof Pr Laws Tags f1 f2 sk msg T l sg H1 H2). Qed.
Print Assumptions C49_deterministic_pair_reveals_key.

(** A pair on the toy curve. *)
Example C49_deterministic_case : match det_sign_solo 4 (lsc 3) toy_msg with Some (Ok _) => true | _ => false end = true /\
  match det_sign_solo_adaptor 4 (lsc 3) toy_msg (@gmul ToyLow (of_Z _ 5)) with Some _ => true | _ => false end = true.
Proof. vm_compute. auto. Qed.
