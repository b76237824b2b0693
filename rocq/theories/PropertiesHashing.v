(** C53: what each hash commits to. *)
From Coq Require Import String List.
From Verif Require Import Bytes BytesFacts Prims PrimsFacts TaggedHashes Errors SpecTags SpecBIP327
  KeyAgg Nonces Signature Signing SigAgg Bip340 SpecCtx SpecView SpecNonces SpecHashing Toy ToyData ToyNonces.
Import ListNotations.
Open Scope list_scope.
Open Scope Z_scope.
From Verif Require Import ProofsHashing.

(** C53.  No two different uses of the hash have the same input: neither two uses of the same
    kind with different data, nor uses of different kinds. *)
Theorem C53_inputs_unambiguous {Pr : prims} {Laws : prims_ok Pr} {Tags : tags_ok Pr} (u v : hash_use) (Hu : well_formed u) (Hv : well_formed v) :
  hash_input u = hash_input v <-> u = v.
Proof. exact (@C53_inputs_unambiguous_proof Pr Laws Tags u v Hu Hv). Qed.
Print Assumptions C53_inputs_unambiguous.

Example C53_case : well_formed (UseChallenge (zeros 32) (zeros 32) [x01]) /\
  well_formed (UseSoloNonce (zeros 32) (zeros 32) [x01]) /\
  use_fields (UseChallenge (zeros 32) (zeros 32) [x01]) = use_fields (UseSoloNonce (zeros 32) (zeros 32) [x01]) /\
  well_formed (UseBatch [(zeros 32, zeros 32); (zeros 32, repeat x01 32)]).
Proof. split; [split; reflexivity|]. split; [split; reflexivity|]. split; [reflexivity|]. repeat constructor. Qed.

(** C53.  Every hash the crate computes is one of these, applied to the data it is documented
    to bind: the coefficient of a key to the whole ordered key list and the key (unless the
    key is the second distinct one, with coefficient 1), the taproot tweak to the key and the
    script root, the nonce coefficient to both aggregated nonces, the x-only key and the
    message, the challenge to the nonce, the x-only key and the message, secret nonces to the
    builder's inputs and a counter, the nonce of a solo signature to seed, key and message, and the
    seed of the batch coefficients to the challenges and scalars of all rows.  All of them are well
    formed. *)
Theorem C53_hashes_of_the_code {Pr : prims} {Laws : prims_ok Pr} {Tags : tags_ok Pr} :
  (forall (c : key_agg_ctx Pr) (pk : point Pr), ctx_reachable c -> In pk (pubkeys c) ->
     let keys := map (fun P : point Pr => cbytes P) (pubkeys c) in
     let u := UseKeyCoefficient (hash_of (UseKeyList keys)) (cbytes pk) in
     exists a, key_coefficient c pk = Ok (Some a) /\
       fz a = (if bytes_eqb (cbytes pk) (get_second_key keys) then 1 else hash_int u) /\
       well_formed (UseKeyList keys) /\ well_formed u) /\
  (forall (c : key_agg_ctx Pr) root,
     let u := UseTapTweak (xbytes (aggregated_pubkey c)) root in
     with_taproot_tweak c root =
       match parse_scalar (hash_of u) with Some t => with_xonly_tweak c t | None => Err TweakError end /\
     well_formed u) /\
  (forall (an : agg_nonce Pr) (Q : point Pr) msg,
     let u := UseNonceCoefficient (cbytes_ext (aR1 an)) (cbytes_ext (aR2 an)) (xbytes Q) msg in
     fz (nonce_coefficient an Q msg) = hash_int u /\ well_formed u) /\
  (forall (R Q : point Pr) msg,
     let u := UseChallenge (xbytes R) (xbytes Q) msg in
     fz (compute_challenge_hash_tweak (pt_x R) Q msg) = hash_int u /\ well_formed u) /\
  (forall (b : builder Pr), (forall m, b_message b = Some m -> zlen m < 2 ^ 64) ->
     let u i := UseNonce (request_of b) i in
     let or_one k := if k =? 0 then 1 else k in
     fz (k1 (build b)) = or_one (hash_int (u x00)) /\ fz (k2 (build b)) = or_one (hash_int (u x01)) /\
     (forall i, well_formed (u i)) /\
     nr_rand (request_of b) =
       bytes_xor (match b_seckey b with Some k => bytes_from_int (fz (sval k)) | None => zeros 32 end)
                 (hash_of (UseNonceSeed (nonce_seed_bytes b)))) /\
  (forall (sk : scalar Pr) msg seed,
     let P := base_mul sk in
     let d := if pt_odd P then n_ - fz sk else fz sk in
     let u := UseSoloNonce (bytes_xor (bytes_from_int d) (hash_of (UseSoloSeed seed))) (xbytes P) msg in
     fz (solo_prenonce sk msg seed) = (if hash_int u =? 0 then 1 else hash_int u) /\ well_formed u) /\
  (forall rows : list (batch_row Pr),
     let u := UseBatch (map (fun r => (bytes_from_int (fz (row_challenge r)), bytes_from_int (fz (row_s r)))) rows) in
     batch_seed rows = hash_of u /\ well_formed u).
Proof. exact (@C53_hashes_of_the_code_proof Pr Laws Tags). Qed.
Print Assumptions C53_hashes_of_the_code.

Example C53_hashes_case : ctx_reachable toy_c /\ existsb (point_eqb (tpt 3)) (pubkeys toy_c) = true /\
  bytes_eqb (cbytes (tpt 3)) (get_second_key (map (fun P : point Toy => cbytes P) (pubkeys toy_c))) = false /\
  feqb (k1 (build (toy_builder (Some sk_a) [[x01]]))) (k2 (build (toy_builder (Some sk_a) [[x01]]))) = false.
Proof. split; [exact toy_c_reach|]. split; [vm_compute; reflexivity|]. split; vm_compute; reflexivity. Qed.

(** C53.  A hashed key coefficient binds the whole ordered key list: a key with the same
    coefficient in two contexts belongs to the same list, unless it is the second distinct key
    of one of them, or the two key lists have the same hash, or the two coefficient inputs have hashes
    that agree modulo the group order. *)
Theorem C53_key_lists_bound {Pr : prims} {Laws : prims_ok Pr} {Tags : tags_ok Pr} (c1 c2 : key_agg_ctx Pr) (pk : point Pr) (a : mscalar Pr) (H1 : ctx_reachable c1) (H2 : ctx_reachable c2) (E1 : key_coefficient c1 pk = Ok (Some a)) (E2 : key_coefficient c2 pk = Ok (Some a)) :
  let keys1 := map (fun P : point Pr => cbytes P) (pubkeys c1) in
  let keys2 := map (fun P : point Pr => cbytes P) (pubkeys c2) in
  pubkeys c1 = pubkeys c2 \/
  get_second_key keys1 = cbytes pk \/
  get_second_key keys2 = cbytes pk \/
  collide (UseKeyList keys1) (UseKeyList keys2) \/
  collide_mod_n (UseKeyCoefficient (hash_of (UseKeyList keys1)) (cbytes pk))
                (UseKeyCoefficient (hash_of (UseKeyList keys2)) (cbytes pk)).
Proof. exact (@C53_key_lists_bound_proof Pr Laws Tags c1 c2 pk a H1 H2 E1 E2). Qed.
Print Assumptions C53_key_lists_bound.

Example C53_key_lists_case : ctx_reachable toy_c /\
  match key_coefficient toy_c (tpt 3) with Ok (Some a) => fz a | _ => 0 end = 3.
Proof. split; [exact toy_c_reach|]. vm_compute. reflexivity. Qed.

(** C53.  The nonce coefficient binds the aggregated nonce, the x-only key and the message;
    the challenge binds the x coordinate of the nonce, the x-only key and the message.  Equal
    values for different data mean that the two hashed strings, which differ, have digests that
    agree modulo the order. *)
Theorem C53_sessions_bound {Pr : prims} {Laws : prims_ok Pr} {Tags : tags_ok Pr} (Q Q' : point Pr) (msg msg' : bytes) :
  (forall an an' : agg_nonce Pr, nonce_coefficient an Q msg = nonce_coefficient an' Q' msg' ->
     (an = an' /\ xbytes Q = xbytes Q' /\ msg = msg') \/
     collide_mod_n (UseNonceCoefficient (cbytes_ext (aR1 an)) (cbytes_ext (aR2 an)) (xbytes Q) msg)
                   (UseNonceCoefficient (cbytes_ext (aR1 an')) (cbytes_ext (aR2 an')) (xbytes Q') msg')) /\
  (forall R R' : point Pr, compute_challenge_hash_tweak (pt_x R) Q msg = compute_challenge_hash_tweak (pt_x R') Q' msg' ->
     (xbytes R = xbytes R' /\ xbytes Q = xbytes Q' /\ msg = msg') \/
     collide_mod_n (UseChallenge (xbytes R) (xbytes Q) msg) (UseChallenge (xbytes R') (xbytes Q') msg')).
Proof. exact (@C53_sessions_bound_proof Pr Laws Tags Q Q' msg msg'). Qed.
Print Assumptions C53_sessions_bound.

Example C53_sessions_case : feqb (compute_challenge_hash_tweak (pt_x (tpt 3)) (tpt 5) [x01]) (compute_challenge_hash_tweak (pt_x (tpt 3)) (tpt 5) [x02]) = false.
Proof. vm_compute. reflexivity. Qed.

(** C53.  Two builders with the same first (or second) secret nonce agree on every input, a
    builder's first nonce is never another's second, and the two nonces of one builder differ,
    unless the two hashed strings, which differ, have digests that agree modulo the order after
    replacing 0 by 1. *)
Theorem C53_secret_nonces_bound {Pr : prims} {Laws : prims_ok Pr} {Tags : tags_ok Pr} (b b' : builder Pr) (H : forall m, b_message b = Some m -> zlen m < 2 ^ 64) (H' : forall m, b_message b' = Some m -> zlen m < 2 ^ 64) :
  let use := fun (x : builder Pr) (i : byte) => UseNonce (request_of x) i in
  (sval (k1 (build b)) = sval (k1 (build b')) -> request_of b = request_of b' \/ collide_nonzero (use b x00) (use b' x00)) /\
  (sval (k2 (build b)) = sval (k2 (build b')) -> request_of b = request_of b' \/ collide_nonzero (use b x01) (use b' x01)) /\
  (sval (k1 (build b)) = sval (k2 (build b')) -> collide_nonzero (use b x00) (use b' x01)).
Proof. exact (@C53_secret_nonces_bound_proof Pr Laws Tags b b' H H'). Qed.
Print Assumptions C53_secret_nonces_bound.

Example C53_nonces_case : (forall m, b_message (toy_builder (Some sk_a) [[x01]]) = Some m -> zlen m < 2 ^ 64) /\
  request_of (toy_builder (Some sk_a) [[x01]]) <> request_of (toy_builder None [[x01]]).
Proof. split; [intros m E; injection E as <-; reflexivity|]. intro E. apply (f_equal nr_rand) in E. apply bytes_eqb_eq in E. vm_compute in E. discriminate. Qed.
