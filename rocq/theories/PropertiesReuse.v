(** What partial signatures made with one secret nonce reveal: C82. *)
From Coq Require Import String List.
From Verif Require Import Bytes BytesFacts Prims PrimsFacts TaggedHashes Errors SpecTags SpecBIP327
  KeyAgg Nonces Signing SpecCtx SpecView SpecSession SpecReuse Toy ToyData ToyReuse.
Import ListNotations.
Open Scope list_scope.
Open Scope Z_scope.
From Verif Require Import ProofsReuse.

(** C82.  src/signing.rs:57-96.  One secret key and one secret nonce were used in any number of
    sessions, with any contexts, aggregated nonces, adaptor points and messages.  The equations
    of the partial signatures leave a single key possible exactly when the points (b, +-e*a*g*gacc) of the
    sessions are not on one line; if they are on a line, then for every key x there are nonces
    that explain all the signatures. *)
Theorem C82_exactly_when_revealed {Pr : prims} {Laws : prims_ok Pr} {Tags : tags_ok Pr} (uses : list (use Pr)) (sk : scalar Pr) (sn : sec_nonce Pr) (Hu : forall u, In u uses -> ctx_reachable (use_ctx u) /\ sign_partial_adaptor (use_ctx u) sk sn (use_aggnonce u) (use_adaptor u) (use_message u) = Ok (use_signature u)) :
  let pk := base_mul sk in
  (forall u, In u uses -> explains pk u (fz (k1 sn)) (fz (k2 sn)) (fz sk)) /\
  ((exists p q, forall u, In u uses -> on_line pk p q u) ->
     forall x : mscalar Pr, exists k_1 k_2 : mscalar Pr, forall u, In u uses -> explains pk u (fz k_1) (fz k_2) (fz x)) /\
  (~ (exists p q, forall u, In u uses -> on_line pk p q u) ->
     forall k_1 k_2 x : mscalar Pr, (forall u, In u uses -> explains pk u (fz k_1) (fz k_2) (fz x)) -> fz x = fz sk).
Proof. exact (@C82_exactly_when_revealed_proof Pr Laws Tags uses sk sn Hu). Qed.
Print Assumptions C82_exactly_when_revealed.

(** Three sessions of [toy_c0] that are not on a line.  The first two are on one: the key 20
    with the nonces 25 and 18 explains the same two signatures as the key 3 with 7 and 11. *)
Example C82_exactly_case :
  (forall u, In u reuse_uses -> ctx_reachable (use_ctx u) /\ sign_partial_adaptor (use_ctx u) sk_a (mk_sn 7 11) (use_aggnonce u) (use_adaptor u) (use_message u) = Ok (use_signature u)) /\
  ~ (exists p q, forall u, In u reuse_uses -> on_line (base_mul sk_a) p q u) /\
  (forall u, In u (firstn 2 reuse_uses) -> on_line (base_mul sk_a) 19 16 u /\ explains (base_mul sk_a) u 25 18 20).
Proof.
  split; [exact reuse_uses_ok|]. split; [exact reuse_not_on_line|].
  intros u [<- | [<- | []]]; split; vm_compute; reflexivity.
Qed.

(** Two sessions reveal the key exactly when they have the same nonce coefficient b and
    different weights; one session never does.  In the remaining cases every key is possible. *)
Theorem C82_two_uses {Pr : prims} {Laws : prims_ok Pr} {Tags : tags_ok Pr} (u : use Pr) (v : use Pr) (sk : scalar Pr) (sn : sec_nonce Pr) (Hu : forall w, In w [u; v] -> ctx_reachable (use_ctx w) /\ sign_partial_adaptor (use_ctx w) sk sn (use_aggnonce w) (use_adaptor w) (use_message w) = Ok (use_signature w)) :
  let pk := base_mul sk in
  let revealed := v_b (use_values u) = v_b (use_values v) /\
                  (use_sign u * use_weight pk u) mod n_ <> (use_sign v * use_weight pk v) mod n_ in
  (revealed -> forall k_1 k_2 x : mscalar Pr,
     explains pk u (fz k_1) (fz k_2) (fz x) -> explains pk v (fz k_1) (fz k_2) (fz x) -> fz x = fz sk) /\
  (~ revealed -> forall x : mscalar Pr, exists k_1 k_2 : mscalar Pr,
     explains pk u (fz k_1) (fz k_2) (fz x) /\ explains pk v (fz k_1) (fz k_2) (fz x)) /\
  (forall k_2 x : mscalar Pr, exists k_1 : mscalar Pr, explains pk u (fz k_1) (fz k_2) (fz x)).
Proof. exact (@C82_two_uses_proof Pr Laws Tags u v sk sn Hu). Qed.
Print Assumptions C82_two_uses.

(** The sessions of [C82_documented_formula_refuted] have one coefficient, 7; those of
    [reuse_uses] have different ones. *)
Example C82_two_case :
  v_b (use_values (Use reuse_c (reuse_an 2 2) pt_O toy_msg (of_Z 31 14))) = 7 /\
  v_b (use_values (Use reuse_c (reuse_an 8 5) pt_O toy_msg (of_Z 31 7))) = 7 /\
  map (fun u => v_b (use_values u)) reuse_uses = [3; 1; 29].
Proof. vm_compute. auto. Qed.

(** doc/API.md:655-685 says that two sessions on one message with different co-signer nonces
    reveal the key of a signer who repeats a nonce.  In every context, two such sessions have
    different inputs of the nonce coefficient; unless the coefficients collide all the same,
    the two partial signatures are explained by every key. *)
Theorem C82_documented_attack {Pr : prims} {Laws : prims_ok Pr} {Tags : tags_ok Pr} (c : key_agg_ctx Pr) (sk : scalar Pr) (sn : sec_nonce Pr) (an : agg_nonce Pr) (an' : agg_nonce Pr) (msg : bytes) (s : mscalar Pr) (s' : mscalar Pr) (Hc : ctx_reachable c) (Hs : sign_partial c sk sn an msg = Ok s) (Hs' : sign_partial c sk sn an' msg = Ok s') (Hne : an <> an') :
  let pk := base_mul sk in
  let input := fun a => aggnonce_to_bytes a ++ xbytes (aggregated_pubkey c) ++ msg in
  let b := fun a => int_from_bytes (tagged_hash "MuSig/noncecoef" (input a)) mod n_ in
  input an <> input an' /\
  (b an <> b an' -> forall x : mscalar Pr, exists k_1 k_2 : mscalar Pr,
     explains pk (Use c an pt_O msg s) (fz k_1) (fz k_2) (fz x) /\
     explains pk (Use c an' pt_O msg s') (fz k_1) (fz k_2) (fz x)).
Proof. exact (@C82_documented_attack_proof Pr Laws Tags c sk sn an an' msg s s' Hc Hs Hs' Hne). Qed.
Print Assumptions C82_documented_attack.

Example C82_documented_case :
  is_ok (sign_partial toy_c0 sk_a (mk_sn 7 11) (reuse_an 1 5) toy_msg) = true /\
  is_ok (sign_partial toy_c0 sk_a (mk_sn 7 11) (reuse_an 4 5) toy_msg) = true /\
  (spec_b toy_c0 (reuse_an 1 5) toy_msg =? spec_b toy_c0 (reuse_an 4 5) toy_msg) = false.
Proof. vm_compute. auto. Qed.

(** doc/API.md:670-683 derives d = (s - s') / a * (e + e') from s = k + e*a*d and
    s' = k + e'*a*d.  In two sessions of an untweaked context on one message where these two
    equations hold, neither reading of the formula gives the key; with e - e' it does. *)

Theorem C82_documented_formula_refuted :
  exists (c : key_agg_ctx Toy) (sk : scalar Toy) (sn : sec_nonce Toy) (an an' : agg_nonce Toy) (msg : bytes) (s s' : mscalar Toy),
    ctx_reachable c /\ tweak_acc c = fzero /\ an <> an' /\
    sign_partial c sk sn an msg = Ok s /\ sign_partial c sk sn an' msg = Ok s' /\
    let e := v_e (spec_values c an pt_O msg) in
    let e' := v_e (spec_values c an' pt_O msg) in
    let a := spec_a c (base_mul sk) in
    (exists k, fz s = (k + e * a * fz sk) mod n_ /\ fz s' = (k + e' * a * fz sk) mod n_) /\
    (fz sk * (a * (e + e'))) mod n_ <> (fz s - fz s') mod n_ /\
    (fz sk * a) mod n_ <> ((fz s - fz s') * (e + e')) mod n_ /\
    (fz sk * (a * (e - e'))) mod n_ = (fz s - fz s') mod n_.
Proof. exact C82_documented_formula_refuted_proof. Qed.
Print Assumptions C82_documented_formula_refuted.
