(** The control flow of the functions that handle secrets: C83. *)
From Coq Require Import String List.
From Verif Require Import Bytes BytesFacts Prims PrimsFacts TaggedHashes Errors SpecTags SpecBIP327
  KeyAgg Nonces Signature Signing Bip340 Deterministic SpecCtx SpecView SpecSession SpecNonces SpecHashing SpecRfc6979
  ControlFlow SpecFlow Toy ToyData ToyNonces ToyFlow.
Import ListNotations.
Open Scope string_scope.
Open Scope list_scope.
Open Scope Z_scope.
From Verif Require Import ProofsFlow.

(** C83.  src/signing.rs:49-102.  With a member's key, the branches and table positions of signing are
    those of [signing_flow]: they depend on the position of the public key, the length of the message, whether
    R1 + b*R2 is infinite and the parity of R + T, all public; not on the secret key or the secret
    nonce.  With another key only the two early returns are taken.  The recording
    changes no result. *)
Theorem C83_signing {Pr : prims} {Laws : prims_ok Pr} {Tags : tags_ok Pr} (c : key_agg_ctx Pr) (sk : scalar Pr) (sn : sec_nonce Pr) (an : agg_nonce Pr) (T : pt) (msg : bytes) (Hc : ctx_reachable c) :
  value (sign_partial_adaptor_t c sk sn an T msg) = sign_partial_adaptor c sk sn an T msg /\
  (forall i, nth_error (pubkeys c) i = Some (base_mul sk) ->
     (forall j, (i < j)%nat -> nth_error (pubkeys c) j <> Some (base_mul sk)) ->
     trace (sign_partial_adaptor_t c sk sn an T msg) = signing_flow c i an T msg) /\
  (~ In (base_mul sk) (pubkeys c) -> trace (sign_partial_adaptor_t c sk sn an T msg) = stranger_flow).
Proof. exact (@C83_signing_proof Pr Laws Tags c sk sn an T msg Hc). Qed.
Print Assumptions C83_signing.

(** The repeated key of [toy_c] is read at its last position; R + T is odd with [toy_T].  The
    second nonces sum to infinity with [toy_bad_an]. *)
Example C83_signing_case : ctx_reachable toy_c /\ nth_error (pubkeys toy_c) 2 = Some (base_mul sk_a) /\
  trace (sign_partial_adaptor_t toy_c sk_a (mk_sn 7 11) toy_an toy_T toy_msg)
  = trace (sign_partial_adaptor_t toy_c sk_a (mk_sn 20 2) toy_an toy_T toy_msg) /\
  firstn 6 (trace (sign_partial_adaptor_t toy_c sk_a (mk_sn 7 11) toy_an toy_T toy_msg)) =
  [ Branch "key_agg.rs:452" false; Index "key_agg.rs:453" 2; Branch "signing.rs:65" false;
    Size "nonces.rs:619" 3; Branch "nonces.rs:639" false; Size "signing.rs:30" 3 ] /\
  trace (sign_partial_adaptor_t toy_c (tsc 4) (mk_sn 7 11) toy_an toy_T toy_msg) = stranger_flow.
Proof.
  split; [exact toy_c_reach|]. split; [apply toy_third_key|]. repeat split; vm_compute; reflexivity.
Qed.

(** C83.  src/nonces.rs:333-405.  Building a nonce takes the branches of [nonce_flow]: which fields were given, the
    lengths of the message and the extra inputs, and whether each of the two hashes is zero modulo the order.
    Two builders are told apart exactly by these. *)
Theorem C83_nonces {Pr : prims} {Laws : prims_ok Pr} {Tags : tags_ok Pr} (b : builder Pr) (b' : builder Pr) :
  value (build_t b) = build b /\
  trace (build_t b) = nonce_flow (shape_of b) (zero_nonce b x00) (zero_nonce b x01) /\
  (trace (build_t b) = trace (build_t b') <->
     shape_of b = shape_of b' /\ zero_nonce b x00 = zero_nonce b' x00 /\ zero_nonce b x01 = zero_nonce b' x01).
Proof. exact (@C83_nonces_proof Pr Laws Tags b b'). Qed.
Print Assumptions C83_nonces.

(** Two builders with different secret keys and seeds but the same shape. *)
Example C83_nonces_case :
  trace (build_t (toy_builder (Some sk_a) [[x01; x02]; []]))
  = trace (build_t (reseeded (toy_builder (Some sk_b) [[x03; x02]; []]))) /\
  map (fun e => match e with Size _ n => n | _ => -1 end) (trace (build_t (toy_builder (Some sk_a) [[x01; x02]; []])))
  = [-1; -1; -1; -1; 3; -1; 2; 0; -1; -1].
Proof. split; vm_compute; reflexivity. Qed.

(** C83.  doc/API.md ("All sensitive operations in this library endeavor to act in constant-time, independent of
    secret input"): the two branches at src/nonces.rs:396 and 400 and the one at src/bip340.rs:61 depend on the secret inputs
    alone.  Two builders that differ in the seed only, and two single signers that differ in the secret key only. *)

Theorem C83_nonces_independent_refuted :
  (exists (b b' : builder Toy),
     nonce_seed_bytes b <> nonce_seed_bytes b' /\ b_seckey b = b_seckey b' /\ b_pubkey b = b_pubkey b' /\
     b_aggregated_pubkey b = b_aggregated_pubkey b' /\ b_message b = b_message b' /\
     b_extra_inputs b = b_extra_inputs b' /\
     trace (build_t b) <> trace (build_t b')) /\
  (exists (sk sk' : scalar Toy) msg seed,
     trace (sign_solo_t sk msg seed) <> trace (sign_solo_t sk' msg seed)).
Proof. exact C83_nonces_independent_refuted_proof. Qed.
Print Assumptions C83_nonces_independent_refuted.

(** C83.  src/bip340.rs:31-104.  Signing alone takes the branches of [solo_flow]: the length of the message
    and whether the BIP340 nonce hash is zero modulo the order, which is when BIP340 signing
    fails.  The secret key, the seed and the adaptor point show in nothing else. *)
Theorem C83_solo {Pr : prims} {Laws : prims_ok Pr} {Tags : tags_ok Pr} (sk : scalar Pr) (msg : bytes) (seed : bytes) (T : pt) :
  value (sign_solo_adaptor_t sk msg seed T) = sign_solo_adaptor sk msg seed T /\
  value (sign_solo_t sk msg seed) = sign_solo sk msg seed /\
  trace (sign_solo_adaptor_t sk msg seed T) = solo_adaptor_flow (zlen msg) (zero_solo sk msg seed) /\
  trace (sign_solo_t sk msg seed) = solo_flow (zlen msg) (zero_solo sk msg seed) /\
  (zero_solo sk msg seed = true <-> schnorr_sign (bytes_from_int (fz sk)) seed msg = ValueError).
Proof. exact (@C83_solo_proof Pr Laws Tags sk msg seed T). Qed.
Print Assumptions C83_solo.

(** A key with an odd public key, with an adaptor point. *)
Example C83_solo_case :
  trace (sign_solo_adaptor_t sk_a toy_msg toy_flow_seed toy_T) = solo_adaptor_flow 3 false /\
  trace (sign_solo_t flow_sk toy_msg toy_flow_seed) = solo_flow 3 true.
Proof. split; vm_compute; reflexivity. Qed.

(** C83.  src/deterministic.rs:34-110.  Deterministic nonces and signatures take one more turn of the loop
    for each candidate of RFC 6979 refused; after it, a signature takes the branches of [solo_flow].
    Without a candidate in range the loop takes the same branch on every turn. *)
Theorem C83_deterministic {Pr : prims} {Laws : prims_ok Pr} {Tags : tags_ok Pr} (fuel : nat) (sk : scalar Pr) (msg : bytes) (T : pt) :
  value (derive_nonce_rfc6979_t fuel sk msg) = derive_nonce_rfc6979 fuel sk msg /\
  value (det_sign_solo_adaptor_t fuel sk msg T) = det_sign_solo_adaptor fuel sk msg T /\
  value (det_sign_solo_t fuel sk msg) = det_sign_solo fuel sk msg /\
  (forall i k, (i < fuel)%nat -> rfc_first (fz sk) (sha256 msg) i k ->
     let zero := zero_solo sk msg (bytes_from_int k) in
     trace (derive_nonce_rfc6979_t fuel sk msg) = rfc6979_flow (zlen msg) i /\
     trace (det_sign_solo_adaptor_t fuel sk msg T) = rfc6979_flow (zlen msg) i ++ solo_adaptor_flow (zlen msg) zero /\
     trace (det_sign_solo_t fuel sk msg) = rfc6979_flow (zlen msg) i ++ solo_flow (zlen msg) zero) /\
  ((forall i, (i < fuel)%nat -> ~ 1 <= rfc_candidate (fz sk) (sha256 msg) i < n_) ->
     trace (derive_nonce_rfc6979_t fuel sk msg)
     = Size "deterministic.rs:38" (zlen msg) :: repeat (Branch "deterministic.rs:74" false) fuel).
Proof. exact (@C83_deterministic_proof Pr Laws Tags fuel sk msg T). Qed.
Print Assumptions C83_deterministic.

(** On [ToyLow], whose digests are often below the order: candidates are refused and
    the next one taken, and a signature is made. *)
Example C83_deterministic_case :
  existsb (fun m => Nat.eqb 3 (List.length (trace (derive_nonce_rfc6979_t 4 (lsc 3) [z2b m])))) (map Z.of_nat (seq 0 64)) = true /\
  Nat.eqb 6 (List.length (trace (det_sign_solo_t 4 (lsc 3) toy_msg))) = true.
Proof. vm_compute. auto. Qed.

(** C83.  src/key_agg.rs:471-489.  Aggregating secret keys takes branches that are determined by the public keys of the
    secrets given: their number, whether gacc * sum a_i*P_i + tacc*G is infinite and whether it is
    the aggregated key. *)
Theorem C83_seckey {Pr : prims} {Laws : prims_ok Pr} {Tags : tags_ok Pr} (c : key_agg_ctx Pr) (sks : list (scalar Pr)) (Hc : ctx_reachable c) :
  value (aggregated_seckey_t c sks) = aggregated_seckey c sks /\
  trace (aggregated_seckey_t c sks) = seckey_flow c (map base_mul sks).
Proof. exact (@C83_seckey_proof Pr Laws Tags c sks Hc). Qed.
Print Assumptions C83_seckey.

(** All the secret keys of [toy_c], too many of them, too few of them. *)
Example C83_seckey_case : ctx_reachable toy_c /\
  trace (aggregated_seckey_t toy_c toy_sks)
  = repeat (Branch "key_agg.rs:477" false) 3 ++ [Branch "key_agg.rs:482" false; Branch "key_agg.rs:484" false] /\
  trace (aggregated_seckey_t toy_c (sk_a :: toy_sks)) = repeat (Branch "key_agg.rs:477" false) 3 ++ [Branch "key_agg.rs:477" true] /\
  trace (aggregated_seckey_t toy_c [sk_b])
  = [Branch "key_agg.rs:477" false; Branch "key_agg.rs:482" false; Branch "key_agg.rs:484" true].
Proof. split; [exact toy_c_reach|]. repeat split; vm_compute; reflexivity. Qed.

(** C83.  src/signature.rs:185-222.  Adapting a signature with the secret t branches on whether R + T is infinite, and
    revealing the secret from the adapted signature on the parity of R + T (or R infinite), where T = t*G is
    the adaptor point. *)
Theorem C83_adaptors {Pr : prims} {Laws : prims_ok Pr} (sg : adaptor_sig Pr) (t : mscalar Pr) :
  let A := pt_add (a_R sg) (point_mul pt_G (fz t)) in
  value (adapt_t sg t) = adapt sg t /\
  trace (adapt_t sg t) = [ Branch "signature.rs:190" (is_infinite A) ] /\
  (forall final, value (reveal_secret_t sg final) = reveal_secret sg final) /\
  (forall final, adapt sg t = Some final ->
     trace (reveal_secret_t sg final) =
     if has_even_y A || is_infinite (a_R sg) then [ Branch "signature.rs:215" true ]
     else [ Branch "signature.rs:215" false; Branch "signature.rs:217" true ]).
Proof. exact (@C83_adaptors_proof Pr Laws sg t). Qed.
Print Assumptions C83_adaptors.

(** An adaptor signature whose adapted nonce is odd, one whose nonce is infinite, one that cannot be adapted. *)
Example C83_adaptors_case :
  map (fun r => match adapt (adaptor_new r (tsc 2 : mscalar Toy)) (tsc 3 : mscalar Toy) with
                | Some f => trace (reveal_secret_t (adaptor_new r (tsc 2 : mscalar Toy)) f)
                | None => trace (adapt_t (adaptor_new r (tsc 2 : mscalar Toy)) (tsc 3 : mscalar Toy))
                end)
      [gmul (tsc 1 : mscalar Toy); gmul (tsc 30 : mscalar Toy); pt_O; gmul (tsc 28 : mscalar Toy)] =
  [[Branch "signature.rs:215" true]; [Branch "signature.rs:215" false; Branch "signature.rs:217" true];
   [Branch "signature.rs:215" true]; [Branch "signature.rs:190" true]].
Proof. vm_compute. reflexivity. Qed.
