(** Forgers that know how their points are made, with concurrent sessions: C89. *)
From Coq Require Import String List.
From Verif Require Import Bytes BytesFacts Prims PrimsFacts TaggedHashes Errors SpecTags SpecBIP327
  KeyAgg Nonces Signature Signing SigAgg Bip340 SpecCtx SpecView SpecSession SpecExtract SpecReuse SpecAlgebra Toy ToyData ToyReuse ToyAlgebra.
Import ListNotations.
Open Scope list_scope.
Open Scope Z_scope.
From Verif Require Import ProofsAlgebra.

(** C89: a signature as a combination of what signers gave.  A forger with whatever number of finished
    sessions with the signer of the key P, in whatever order and in whatever groups and with whatever
    adaptor points, brings a signature that verifies for any group (P may be a member or not), and says
    how its nonce and each of the group's keys are made of the generator, P and the public nonces of the
    sessions.  Then the s of the signature is a known number, plus a known multiple of the secret
    of P, plus for each session a known multiple of the secret of its second nonce. *)
Theorem C89_signature_of_parts {Pr : prims} {Laws : prims_ok Pr} {Tags : tags_ok Pr} (P : point Pr) (S : list (closed Pr)) (c : key_agg_ctx Pr) (sig msg : bytes) (rR : rep) (rK : point Pr -> rep) (Hc : ctx_reachable c) (H : verify_single_bytes (aggregated_pubkey c) sig msg = Ok tt) (HS : forall z, In z S -> session_of P z) (HR : forall R, pt_lift (firstn 32 sig) = Some R -> stands P S rR R) (HK : forall K, In K (pubkeys c) -> stands P S (rK K) (pval K)) :
  let m := plus rR (forged_E c sig msg) (sum_rep (pubkeys c) rK) in
  forall x y, point_mul pt_G x = pval P -> (forall j z, nth_error S j = Some z -> point_mul pt_G (y j) = pval (pR2 (z_nonce z))) ->
  int_from_bytes (skipn 32 sig) mod n_ = whole P S c sig msg m x y mod n_.
Proof. exact (@C89_signature_of_parts_proof Pr Laws Tags P S c sig msg rR rK Hc H HS HR HK). Qed.
Print Assumptions C89_signature_of_parts.

(** The signature that came out of a session of 3*G with 13*G meets the hypotheses, and so does another one that
    was made with both secret keys. *)
Example C89_case : ctx_reachable reuse_c /\ session_of (base_mul (tsc 3)) alg_session /\
  verify_single_bytes (aggregated_pubkey reuse_c) alg_honest toy_msg = Ok tt /\
  verify_single_bytes (aggregated_pubkey reuse_c) alg_other toy_msg = Ok tt /\
  (forall R, pt_lift (firstn 32 alg_honest) = Some R -> stands (base_mul (tsc 3)) [alg_session] alg_nonce R) /\
  (forall R, pt_lift (firstn 32 alg_other) = Some R -> stands (base_mul (tsc 3)) [alg_session] (alg_plain 9 0) R) /\
  (forall K, In K (pubkeys reuse_c) -> stands (base_mul (tsc 3)) [alg_session] (alg_keys K) (pval K)).
Proof.
  split; [exact reuse_c_reach|]. split; [exact alg_session_ok|]. split; [vm_compute; reflexivity|]. split; [vm_compute; reflexivity|].
  split; [intros R H; vm_compute in H; injection H as <-; apply alg_stands; vm_compute; reflexivity|].
  split; [intros R H; vm_compute in H; injection H as <-; apply alg_stands; vm_compute; reflexivity|].
  exact alg_keys_stand.
Qed.

(** So there are three cases.  When the multiple of the secret of P is not 0, the secret of P is the only solution
    of that equation, once the secrets of the second nonces are given.  When the multiple of a session's second nonce is not 0, its secret
    is the only solution, once the others are given.  In both cases the forger gives one linear equation more
    than the partial signatures do: with n sessions, 2n+1 secrets follow from 2n given ones (a partial
    signature for each session, and for instance the n second nonces).  Otherwise the signature is a known
    number: it is put together of the partial signatures the signer gave. *)
Theorem C89_forger_solves {Pr : prims} {Laws : prims_ok Pr} {Tags : tags_ok Pr} (P : point Pr) (S : list (closed Pr)) (c : key_agg_ctx Pr) (sig msg : bytes) (rR : rep) (rK : point Pr -> rep) (Hc : ctx_reachable c) (H : verify_single_bytes (aggregated_pubkey c) sig msg = Ok tt) (HS : forall z, In z S -> session_of P z) (HR : forall R, pt_lift (firstn 32 sig) = Some R -> stands P S rR R) (HK : forall K, In K (pubkeys c) -> stands P S (rK K) (pval K)) :
  let m := plus rR (forged_E c sig msg) (sum_rep (pubkeys c) rK) in
  let s := int_from_bytes (skipn 32 sig) in
  let second j := fun y : Z => forall z, nth_error S j = Some z -> point_mul pt_G y = pval (pR2 (z_nonce z)) in
  (left_P m (weights P S) mod n_ <> 0 ->
   forall y, (forall j, second j (y j)) ->
   forall x, s mod n_ = whole P S c sig msg m x y mod n_ <-> point_mul pt_G x = pval P) /\
  (forall j, (j < length S)%nat -> left_R2 m (coefs S) j mod n_ <> 0 ->
   forall x y, point_mul pt_G x = pval P -> (forall i, i <> j -> second i (y i)) ->
   (s mod n_ = whole P S c sig msg m x y mod n_ <-> second j (y j))) /\
  (nothing_left m (weights P S) (coefs S) -> s mod n_ = known S c sig msg m mod n_).
Proof. exact (@C89_forger_solves_proof Pr Laws Tags P S c sig msg rR rK Hc H HS HR HK). Qed.
Print Assumptions C89_forger_solves.

(** For the second signature the multiple of the secret key is not 0, and 3 solves the equation and 4 does not.
    For the signature of the session nothing is left.  When the nonce of the second signature is written with
    the nonces of the session, 11 solves it for the second of them and 12 does not. *)
Example C89_solve_case :
  let P := base_mul (tsc 3) in let S := [alg_session] in
  let m := alg_mix alg_other (alg_plain 9 0) in let m' := alg_mix alg_honest alg_nonce in
  left_P m (weights P S) mod 31 = 16 /\
  whole P S reuse_c alg_other toy_msg m 3 (fun _ => 11) mod 31 = 18 /\ whole P S reuse_c alg_other toy_msg m 4 (fun _ => 11) mod 31 = 3 /\
  left_P m' (weights P S) mod 31 = 0 /\ left_R2 m' (coefs S) 0 mod 31 = 0 /\
  known S reuse_c alg_honest toy_msg m' mod 31 = 30 /\
  let m2 := alg_mix alg_other alg_mixed in
  stands P S alg_mixed (pval (tpt 9)) /\ left_R2 m2 (coefs S) 0 mod 31 = 1 /\
  whole P S reuse_c alg_other toy_msg m2 3 (fun _ => 11) mod 31 = 18 /\ whole P S reuse_c alg_other toy_msg m2 3 (fun _ => 12) mod 31 = 19.
Proof.
  cbv zeta. do 6 (split; [vm_compute; reflexivity|]). split; [apply alg_stands; vm_compute; reflexivity|]. repeat split; vm_compute; reflexivity.
Qed.

(** The third case needs a coincidence in what the hash function gives.  With all else given, two challenges
    of the forgery lead to it only if already the group's keys leave nothing; two nonce coefficients
    of a session, or two challenges of a session (which multiply its w), lead to it only if the session's first nonce is not used. *)
Theorem C89_exception_rare {Pr : prims} {Laws : prims_ok Pr} :
  (forall (r k : rep) (E E' : Z) (ws bs : list Z), nothing_left (plus r E k) ws bs -> nothing_left (plus r E' k) ws bs ->
    E mod n_ <> E' mod n_ -> nothing_left k ws bs) /\
  (forall (m : rep) (ws bs bs' : list Z) (b b' j : _), nothing_left m ws bs -> nothing_left m ws bs' ->
    nth_error bs j = Some b -> nth_error bs' j = Some b' -> b mod n_ <> b' mod n_ -> on_R1 m j mod n_ = 0) /\
  (forall (m : rep) (l r : list Z) (w w' : Z) (bs bs' : list Z), nothing_left m (l ++ w :: r) bs -> nothing_left m (l ++ w' :: r) bs' ->
    w mod n_ <> w' mod n_ -> on_R1 m (length l) mod n_ = 0).
Proof. exact (@C89_exception_rare_proof Pr Laws). Qed.
Print Assumptions C89_exception_rare.

(** In particular, when the other members' secrets are known to the forger (its own keys), there is at most one challenge, for each
    nonce and all else given, with which a forgery gives away neither the secret of P nor that of a nonce, unless the coefficients of P
    in the group are 0 together. *)
Theorem C89_known_members {Pr : prims} {Laws : prims_ok Pr} (P : point Pr) (pks : list (point Pr)) (sk : point Pr -> Z) (ws bs : list Z) (r : rep) (E E' : Z) (Ha : (copies P pks * coeff_in pks P) mod n_ <> 0) :
  let rK K := if same P K then Rep 0 1 (fun _ => 0) (fun _ => 0) else Rep (sk K) 0 (fun _ => 0) (fun _ => 0) in
  nothing_left (plus r E (sum_rep pks rK)) ws bs -> nothing_left (plus r E' (sum_rep pks rK)) ws bs -> E mod n_ = E' mod n_.
Proof. exact (@C89_known_members_proof Pr Laws P pks sk ws bs r E E' Ha). Qed.
Print Assumptions C89_known_members.

(** With the nonce of the session, the challenge of the session itself (16 modulo 31) leaves nothing, and 17 leaves 5. *)
Example C89_one_challenge :
  (copies (base_mul (tsc 3)) (pubkeys reuse_c) * coeff_in (pubkeys reuse_c) (base_mul (tsc 3))) mod 31 = 5 /\
  (let left E := left_P (plus alg_nonce E (sum_rep (pubkeys reuse_c) alg_keys)) (weights (base_mul (tsc 3)) [alg_session]) mod 31 in
   left 16 = 0 /\ left 17 = 5).
Proof. split; [vm_compute; reflexivity|]. split; vm_compute; reflexivity. Qed.
