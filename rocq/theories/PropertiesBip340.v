(** Properties of single-signer signing and verification: C20 - C25, C49. *)
From Coq Require Import String List Permutation.
From Verif Require Import Bytes BytesFacts Prims PrimsFacts TaggedHashes Errors SpecTags SpecBIP327
  KeyAgg Nonces Signature Signing SigAgg Bip340 SpecCtx SpecView SpecSession SpecBatch Toy ToyData.
Import ListNotations.
Open Scope list_scope.
Open Scope Z_scope.
From Verif Require Import ProofsBip340.

(** C20.  [sign_solo] never panics, its signature is accepted, and it is the signature of
    the BIP340 default signing algorithm, except when that algorithm fails because the nonce
    is zero: then the nonce 1 is used. *)
Theorem C20_sign_solo_is_bip340 {Pr : prims} {Laws : prims_ok Pr} {Tags : tags_ok Pr} (sk : scalar Pr) (msg : bytes) (seed : bytes) :
  exists sg, sign_solo sk msg seed = Ok sg /\
    verify_single_lifted (base_mul sk) sg msg = Ok tt /\
    schnorr_verify msg (pt_x (base_mul sk)) (lifted_to_bytes sg) = Ret true /\
    (schnorr_sign (ser_scalar sk) seed msg = Ret (lifted_to_bytes sg) \/
     (schnorr_sign (ser_scalar sk) seed msg = ValueError /\ pt_x (l_R sg) = pt_x pt_G)).
Proof. exact (@C20_sign_solo_is_bip340_proof Pr Laws Tags sk msg seed). Qed.
Print Assumptions C20_sign_solo_is_bip340.

(** A signature on the toy curve that equals BIP340's, and a message for which the nonce
    hash is zero modulo 31. *)
Example C20_case :
  is_ok (sign_solo (tsc 3) toy_msg (repeat x07 32)) = true /\
  match schnorr_sign (ser_scalar (tsc 3)) (repeat x07 32) toy_msg with Ret _ => true | _ => false end = true /\
  existsb (fun k => match schnorr_sign (ser_scalar (tsc 3)) (repeat x07 32) [z2b k] with ValueError => true | _ => false end)
    (map Z.of_nat (seq 0 100)) = true.
Proof. vm_compute. auto. Qed.

(** C21.  [adaptor::sign_solo] gives a pre-signature that is valid for its adaptor point;
    adapting it with the discrete log of the point gives a valid signature unless the
    adapted nonce is infinity, in which case [adapt] returns [None]. *)
Theorem C21_solo_adaptor_verifies_and_adapts {Pr : prims} {Laws : prims_ok Pr} {Tags : tags_ok Pr} (sk : scalar Pr) (msg : bytes) (seed : bytes) (T : pt) :
  let sg := sign_solo_adaptor sk msg seed T in
  verify_single_adaptor (base_mul sk) sg msg T = Ok tt /\
  presig_valid (base_mul sk) msg T (a_R sg) (a_s sg) /\
  a_R sg <> pt_O /\
  (forall t, point_mul pt_G (fz t) = T ->
     (pt_add (a_R sg) T = pt_O -> adapt sg t = None) /\
     (pt_add (a_R sg) T <> pt_O -> exists l, adapt sg t = Some l /\ verify_single_lifted (base_mul sk) l msg = Ok tt /\
        reveal_secret sg l = Some t)).
Proof. exact (@C21_solo_adaptor_verifies_and_adapts_proof Pr Laws Tags sk msg seed T). Qed.
Print Assumptions C21_solo_adaptor_verifies_and_adapts.

(** Both parities and an adaptor point cancelling the nonce, on the toy curve. *)
Example C21_case :
  let run := fun T => match adapt (sign_solo_adaptor (tsc 3) toy_msg (repeat x07 32) (gmul T)) T with
      Some l => is_ok (verify_single_lifted (tpt 3) l toy_msg) | None => false end in
  let k := sval (solo_prenonce (tsc 3) toy_msg (repeat x07 32)) in
  map (fun i => run (sval (tsc i))) [1%positive; 2%positive; 3%positive; 4%positive] = [true; true; true; true] /\
  run (fneg k) = false /\ run fzero = true /\
  existsb (fun i => pt_odd (pt_add (gmul k) (gmul (sval (tsc i))))) [1%positive; 2%positive; 3%positive; 4%positive] = true /\
  forallb (fun i => pt_odd (pt_add (gmul k) (gmul (sval (tsc i))))) [1%positive; 2%positive; 3%positive; 4%positive] = false.
Proof. vm_compute. auto. Qed.

(** C22.  [verify_single] on a byte string accepts exactly what BIP340 verification of the
    x-only key accepts; everything else, malformed strings included, is a [BadSignature]; it
    never panics; only the x coordinate of the key matters. *)
Theorem C22_verify_single_is_bip340 {Pr : prims} {Laws : prims_ok Pr} {Tags : tags_ok Pr} (pk : point Pr) (sig : bytes) (msg : bytes) :
  (verify_single_bytes pk sig msg = Ok tt <-> schnorr_verify msg (pt_x pk) sig = Ret true) /\
  (verify_single_bytes pk sig msg = Ok tt \/ verify_single_bytes pk sig msg = Err VE_BadSignature) /\
  (schnorr_verify msg (pt_x pk) sig = ValueError <-> length sig <> 64%nat) /\
  (forall pk' : point Pr, pt_x pk' = pt_x pk -> verify_single_bytes pk' sig msg = verify_single_bytes pk sig msg).
Proof. exact (@C22_verify_single_is_bip340_proof Pr Laws Tags pk sig msg). Qed.
Print Assumptions C22_verify_single_is_bip340.

(** A valid signature, a changed one and one with s = n, too short and too long strings. *)
Example C22_case :
  let sig := match sign_solo (tsc 3) toy_msg (repeat x09 32) with Ok l => lifted_to_bytes l | _ => [] end in
  map (fun s => is_ok (verify_single_bytes (tpt 3) s toy_msg))
    [sig; firstn 63 sig ++ [x00]; firstn 63 sig ++ [x1f]; firstn 63 sig; sig ++ [x00]; repeat x00 64]
  = [true; false; false; false; false; false] /\
  is_ok (verify_single_bytes (tpt 28) sig toy_msg) = true.
Proof. vm_compute. auto. Qed.

(** C23.  Every list of individually valid finished or encrypted signatures is accepted,
    whatever the hash and the random number generator. *)
Theorem C23_valid_batch_accepted {Pr : prims} {Laws : prims_ok Pr} (items : list (batch_item Pr)) (Hwf : Forall item_wf items) (Hvalid : Forall (fun it => item_verdict it = Ok tt) items) :
  verify_batch (map item_row items) = Ok tt.
Proof. exact (@C23_valid_batch_accepted_proof Pr Laws items Hwf Hvalid). Qed.
Print Assumptions C23_valid_batch_accepted.

Example C23_case :
  let fin := fun k m => match sign_solo (tsc k) [m] (repeat x07 32) with Ok l => Finished (tpt k) [m] l
                        | _ => Encrypted (tpt k) [m] {| a_R := pt_O; a_s := fzero |} pt_O end in
  let items := [fin 3%positive x00; Encrypted (tpt 5) toy_msg (sign_solo_adaptor (tsc 5) toy_msg (repeat x09 32) toy_T) toy_T;
                fin 4%positive x01; fin 3%positive x00] in
  forallb (fun it => is_ok (item_verdict it)) items = true /\
  forallb (fun it => match it with Finished _ _ sg => has_even_y (l_R sg) | _ => true end) items = true /\
  is_ok (verify_batch (map item_row items)) = true.
Proof. vm_compute. auto. Qed.

(** C24.  [verify_batch] decides the BIP340 batch equation with the coefficients
    [batch_coefficients]: non-zero, the first one 1, the others drawn from a generator seeded
    with a hash of all challenges and s values.  A batch with exactly one invalid row is always rejected; a
    single-row batch is accepted exactly when the row is valid; and for given coefficients of
    the other rows at most one coefficient of an invalid row satisfies the equation. *)
Theorem C24_batch_soundness {Pr : prims} {Laws : prims_ok Pr} {Tags : tags_ok Pr} :
  (forall rows : list (batch_row Pr),
     let cs := batch_coefficients rows in
     length cs = length rows /\ Forall (fun a => a <> fzero) cs /\
     (verify_batch rows = Ok tt <-> batch_equation cs rows)) /\
  (forall rows : list (batch_row Pr), verify_batch rows <> Ok tt -> verify_batch rows = Err VE_BadSignature) /\
  (forall (rows1 : list (batch_row Pr)) r rows2,
     Forall row_valid rows1 -> Forall row_valid rows2 -> ~ row_valid r ->
     verify_batch (rows1 ++ r :: rows2) = Err VE_BadSignature) /\
  (forall it : batch_item Pr, item_wf it -> verify_batch [item_row it] = item_verdict it) /\
  (forall it : batch_item Pr, item_wf it -> (row_valid (item_row it) <-> item_verdict it = Ok tt)) /\
  (forall cs1 a b cs2 (rows1 : list (batch_row Pr)) r rows2, length cs1 = length rows1 -> ~ row_valid r ->
     batch_equation (cs1 ++ a :: cs2) (rows1 ++ r :: rows2) ->
     batch_equation (cs1 ++ b :: cs2) (rows1 ++ r :: rows2) -> a = b).
Proof. exact (@C24_batch_soundness_proof Pr Laws Tags). Qed.
Print Assumptions C24_batch_soundness.

(** Three rows, the second with a changed s. *)
Example C24_case :
  let fin := fun k m => match sign_solo (tsc k) [m] (repeat x07 32) with Ok l => row_from_signature (tpt k) [m] l
                        | _ => row_from_adaptor (tpt k) [m] {| a_R := pt_O; a_s := fzero |} pt_O end in
  let bad := let r := fin 5%positive x02 in
     {| row_pubkey := row_pubkey r; row_challenge := row_challenge r; row_R := row_R r; row_s := fadd (row_s r) (tsc 1) |} in
  is_ok (verify_batch [fin 3%positive x00; fin 5%positive x02; fin 4%positive x01]) = true /\
  is_ok (verify_batch [fin 3%positive x00; bad; fin 4%positive x01]) = false /\
  is_ok (verify_batch [bad]) = false /\ is_ok (verify_batch ([] : list (batch_row Toy))) = true.
Proof. vm_compute. auto. Qed.

(** C25.  The claim that [verify_batch] returns an error if any signature is invalid is
    false for adaptor rows, without solving anything about the hash or the generator: for
    every instance, keys, messages, s values and even points A1, A2 there are nonces R_i and
    adaptor points T_i = A_i - R_i making two invalid pre-signatures that are accepted
    together. *)
Theorem C25_seed_ignores_adaptor_nonces_refuted {Pr : prims} {Laws : prims_ok Pr} (pk1 : point Pr) (pk2 : point Pr) (msg1 : bytes) (msg2 : bytes) (s1 : mscalar Pr) (s2 : mscalar Pr) (A1 : pt) (A2 : pt) (H1 : has_even_y A1 = true) (H2 : has_even_y A2 = true) :
  exists R1 R2 T1 T2 : pt,
    let sg1 := {| a_R := R1; a_s := s1 |} in
    let sg2 := {| a_R := R2; a_s := s2 |} in
    pt_add R1 T1 = A1 /\ pt_add R2 T2 = A2 /\
    verify_single_adaptor pk1 sg1 msg1 T1 = Err VE_BadSignature /\
    verify_single_adaptor pk2 sg2 msg2 T2 = Err VE_BadSignature /\
    verify_batch [row_from_adaptor pk1 msg1 sg1 T1; row_from_adaptor pk2 msg2 sg2 T2] = Ok tt.
Proof. exact (@C25_seed_ignores_adaptor_nonces_refuted_proof Pr Laws pk1 pk2 msg1 msg2 s1 s2 A1 A2 H1 H2). Qed.
Print Assumptions C25_seed_ignores_adaptor_nonces_refuted.

(** Even points exist: the generator or its negation. *)
Example C25_case : has_even_y (gmul (sval (tsc 1))) = true /\ has_even_y (gmul (sval (tsc 4))) = true /\
  pt_eqb (gmul (sval (tsc 1))) (gmul (sval (tsc 4))) = false.
Proof. vm_compute. auto. Qed.

(** C49.  The nonce of [sign_solo] and [adaptor::sign_solo] does not depend on the adaptor
    point.  Two signatures by one key on one message with the same seed and different adaptor
    points (infinity being a plain signature) have the same R, and their s values give the
    secret key: with sigma_i the parity sign of R + T_i and d = +-sk the BIP340 key,
    (sigma_1 e_1 - sigma_2 e_2) d = sigma_1 s_1 - sigma_2 s_2 (mod n). *)
Theorem C49_seed_reuse_across_adaptors {Pr : prims} {Laws : prims_ok Pr} {Tags : tags_ok Pr} (sk : scalar Pr) (msg : bytes) (seed : bytes) (T1 : pt) (T2 : pt) :
  let P := base_mul sk in
  let sg1 := sign_solo_adaptor sk msg seed T1 in
  let sg2 := sign_solo_adaptor sk msg seed T2 in
  let sigma := fun T => if has_even_y (pt_add (a_R sg1) T) then 1 else -1 in
  let e := fun T => int_from_bytes (tagged_hash "BIP0340/challenge"%string
                      (xbytes (pt_add (a_R sg1) T) ++ xbytes P ++ msg)) mod n_ in
  let d := if has_even_y P then fz sk else n_ - fz sk in
  let D := sigma T1 * e T1 - sigma T2 * e T2 in
  let s := sigma T1 * fz (a_s sg1) - sigma T2 * fz (a_s sg2) in
  a_R sg2 = a_R sg1 /\
  (D * d) mod n_ = s mod n_ /\
  (D mod n_ <> 0 -> forall x : scalar Pr, (D * fz x) mod n_ = s mod n_ -> x = sk \/ sval x = fneg sk) /\
  (forall l, T2 = pt_O -> sign_solo sk msg seed = Ok l -> pt_x (l_R l) = pt_x (a_R sg1) /\ l_s l = a_s sg2).
Proof. exact (@C49_seed_reuse_across_adaptors_proof Pr Laws Tags sk msg seed T1 T2). Qed.
Print Assumptions C49_seed_reuse_across_adaptors.

(** A plain and an adaptor signature with the same seed and an invertible D. *)
Example C49_case :
  let R := a_R (sign_solo_adaptor (tsc 3) toy_msg (repeat x07 32) pt_O) in
  let sigma := fun T => if has_even_y (pt_add R T) then 1 else -1 in
  let e := fun T => int_from_bytes (tagged_hash "BIP0340/challenge"%string
                      (xbytes (pt_add R T) ++ xbytes (tpt 3) ++ toy_msg)) mod 31 in
  is_ok (sign_solo (tsc 3) toy_msg (repeat x07 32)) = true /\
  (sigma toy_T * e toy_T - sigma pt_O * e pt_O) mod 31 <> 0.
Proof. split; [vm_compute; reflexivity | vm_compute; discriminate]. Qed.
