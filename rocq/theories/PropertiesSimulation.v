(** Partial signatures that verify are those an honest signer could have made, and they can be
    made without the secret key when the hash values are known first: C74. *)
From Coq Require Import String List.
From Verif Require Import Bytes BytesFacts Prims PrimsFacts TaggedHashes Errors SpecTags SpecBIP327
  KeyAgg Nonces Signature Signing SigAgg SpecCtx SpecView SpecSession SpecSimulate Toy ToyData.
Import ListNotations.
Open Scope list_scope.
Open Scope Z_scope.
From Verif Require Import ProofsSimulation.

(** C74.  A pair of a public nonce and a partial signature verifies exactly when it is what
    [sign_partial] gives with the secret nonce of that public nonce, of which there is one. *)
Theorem C74_valid_is_honest {Pr : prims} {Laws : prims_ok Pr} {Tags : tags_ok Pr} (c : key_agg_ctx Pr) (sk : scalar Pr) (an : agg_nonce Pr) (T : pt) (msg : bytes) (pn : pub_nonce Pr) (Hc : ctx_reachable c) (Hm : In (base_mul sk) (pubkeys c)) :
  exists sn, public_nonce sn = pn /\ (forall sn', public_nonce sn' = pn -> sn' = sn) /\
    forall s, verify_partial_adaptor c s an T (base_mul sk) pn msg = Ok tt <-> sign_partial_adaptor c sk sn an T msg = Ok s.
Proof. exact (@C74_valid_is_honest_proof Pr Laws Tags c sk an T msg pn Hc Hm). Qed.
Print Assumptions C74_valid_is_honest.

(** Here the one signature that verifies is 23, and so is what [sign_partial] gives. *)
Example C74_case : ctx_reachable toy_c /\ In (base_mul sk_a) (pubkeys toy_c) /\
  filter (fun z => is_ok (verify_partial_adaptor toy_c (of_Z _ z) toy_an toy_T (base_mul sk_a) (public_nonce (mk_sn 7 11)) toy_msg))
         (map Z.of_nat (seq 0 31)) = [23] /\
  match sign_partial_adaptor toy_c sk_a (mk_sn 7 11) toy_an toy_T toy_msg with Ok s => fz s | _ => 0 end = 23.
Proof. split; [exact toy_c_reach|]. split; [apply in_toy; vm_compute; reflexivity|]. split; vm_compute; reflexivity. Qed.

(** The simulator.  Given the nonce coefficient, the challenge and the parity of the final
    nonce, and whatever s and second secret nonce, [sim_nonce] gives without the secret key the
    first public nonce with which a signer having this key would have answered s; there is
    exactly one such signer's nonce unless the simulated point is infinite, which no signer can
    have.  So choosing s and the second nonce at random, or choosing both nonces at random and
    signing, gives the same pairs of public nonce and signature equally often. *)
Theorem C74_simulation {Pr : prims} {Laws : prims_ok Pr} {Tags : tags_ok Pr} (c : key_agg_ctx Pr) (sk : scalar Pr) (an : agg_nonce Pr) (T : pt) (msg : bytes) (b e : Z) (even : bool) (Hc : ctx_reachable c) (Hm : In (base_mul sk) (pubkeys c)) (Hb : spec_b c an msg = b) (He : v_e (spec_values c an T msg) = e) (Heven : has_even_y (pt_add (v_R (spec_values c an T msg)) T) = even) (s : mscalar Pr) (k : scalar Pr) :
  let R := sim_nonce c (base_mul sk) b e even (fz s) (fz k) in
  (R <> pt_O <-> exists sn, k2 sn = k /\ sign_partial_adaptor c sk sn an T msg = Ok s) /\
  (forall sn, k2 sn = k -> (sign_partial_adaptor c sk sn an T msg = Ok s <-> pval (pR1 (public_nonce sn)) = R)) /\
  (forall sn sn', k2 sn = k -> k2 sn' = k -> sign_partial_adaptor c sk sn an T msg = Ok s ->
     sign_partial_adaptor c sk sn' an T msg = Ok s -> sn = sn') /\
  (forall P : point Pr, verify_partial_adaptor c s an T (base_mul sk) {| pR1 := P; pR2 := base_mul k |} msg = Ok tt <-> pval P = R).
Proof. exact (@C74_simulation_proof Pr Laws Tags c sk an T msg b e even Hc Hm Hb He Heven s k). Qed.
Print Assumptions C74_simulation.

(** In this session every answer but one can be given with the second nonce 11, and 23 is
    answered by the first nonce 7. *)
Example C74_simulated :
  let v := spec_values toy_c toy_an toy_T toy_msg in
  let R := fun s => sim_nonce toy_c (base_mul sk_a) (v_b v) (v_e v) (has_even_y (pt_add (v_R v) toy_T)) s 11 in
  pt_eqb (R 23) (tpt 7) = true /\ length (filter (fun z => is_infinite (R (Z.of_nat z))) (seq 0 31)) = 1%nat.
Proof. cbv zeta. split; vm_compute; reflexivity. Qed.
