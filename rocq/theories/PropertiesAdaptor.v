(** Properties of adaptor signatures and signature values: C16 - C19, C44. *)
From Coq Require Import String List Permutation.
From Verif Require Import Bytes BytesFacts Prims PrimsFacts TaggedHashes Errors SpecTags SpecBIP327
  KeyAgg Nonces Signature Signing SigAgg Bip340 SpecCtx SpecView SpecSession Toy ToyData.
Import ListNotations.
Open Scope list_scope.
Open Scope Z_scope.
From Verif Require Import ProofsAdaptor.

(** C16.  Adaptor verification is the Schnorr equation of the pre-signature.  A
    pre-signature that verifies for t*G adapts with t to a signature BIP340 accepts, unless
    R + t*G is infinity, the only case where [adapt] returns [None].  Conversely a
    pre-signature that adapts to a valid signature verifies. *)
Theorem C16_verified_adaptor_adapts {Pr : prims} {Laws : prims_ok Pr} {Tags : tags_ok Pr} (pk : point Pr) (sg : adaptor_sig Pr) (msg : bytes) (t : mscalar Pr) :
  (forall T, verify_single_adaptor pk sg msg T = Ok tt <-> presig_valid pk msg T (a_R sg) (a_s sg)) /\
  (forall T, verify_single_adaptor pk sg msg T <> Ok tt -> verify_single_adaptor pk sg msg T = Err VE_BadSignature) /\
  (adapt sg t = None <-> pt_add (a_R sg) (point_mul pt_G (fz t)) = pt_O) /\
  (forall l, adapt sg t = Some l ->
     has_even_y (l_R l) = true /\
     (verify_single_adaptor pk sg msg (point_mul pt_G (fz t)) = Ok tt <-> verify_single_lifted pk l msg = Ok tt) /\
     (verify_single_adaptor pk sg msg (point_mul pt_G (fz t)) = Ok tt <->
      schnorr_verify msg (pt_x pk) (lifted_to_bytes l) = Ret true)).
Proof. exact (@C16_verified_adaptor_adapts_proof Pr Laws Tags pk sg msg t). Qed.
Print Assumptions C16_verified_adaptor_adapts.

(** An aggregated pre-signature of the toy session, adapted; and a pre-signature under key 3
    with R = -T that verifies but cannot be adapted. *)
Example C16_case :
  let sg := {| a_R := pt_neg toy_T; a_s := match find (fun s => is_ok (verify_single_adaptor (tpt 3)
                 {| a_R := pt_neg toy_T; a_s := s |} toy_msg toy_T)) (map (fun k => sval (tsc (Pos.of_nat k))) (seq 1 30))
                 with Some s => s | None => fzero end |} in
  is_ok (verify_single_adaptor (tpt 3) sg toy_msg toy_T) = true /\
  match adapt sg (tsc 5) with None => true | Some _ => false end = true /\
  ok_and (aggregate_partial_adaptor_signatures toy_c toy_an toy_T (toy_sigs toy_T) toy_msg)
    (fun g => is_ok (verify_single_adaptor (pubkey toy_c) g toy_msg toy_T)
              && match adapt g (tsc 5) with Some l => is_ok (verify_single_lifted (pubkey toy_c) l toy_msg) | None => false end) = true.
Proof. vm_compute. auto. Qed.

(** C17.  [reveal_secret] returns a secret that adapts to the final signature, fails only if
    no secret does, and for a finite nonce R returns the very secret used. *)
Theorem C17_reveal_inverts_adapt {Pr : prims} {Laws : prims_ok Pr} (sg : adaptor_sig Pr) (final : lifted_sig Pr) (Heven : has_even_y (l_R final) = true) :
  (forall x, reveal_secret sg final = Some x -> adapt sg x = Some final) /\
  (reveal_secret sg final = None <-> forall t, adapt sg t <> Some final) /\
  (forall t, a_R sg <> pt_O -> (adapt sg t = Some final <-> reveal_secret sg final = Some t)) /\
  (forall t, a_R sg = pt_O -> adapt sg t = Some final ->
     reveal_secret sg final = Some t \/ reveal_secret sg final = Some (fneg t)).
Proof. exact (@C17_reveal_inverts_adapt_proof Pr Laws sg final Heven). Qed.
Print Assumptions C17_reveal_inverts_adapt.

(** Both parities of the adapted nonce, and an unrelated signature. *)
Example C17_case :
  let show := fun (o : option (mscalar Toy)) => match o with Some x => fz x | None => -1 end in
  let run := fun k t => let sg := {| a_R := gmul (tsc k : mscalar Toy); a_s := tsc 9 |} in
     match adapt sg (tsc t) with
     | Some l => (pt_odd (pt_add (a_R sg) (gmul (tsc t : mscalar Toy))), show (reveal_secret sg l))
     | None => (false, -2) end in
  run 4%positive 6%positive = (true, 6) /\ run 4%positive 8%positive = (false, 8) /\
  show (reveal_secret {| a_R := gmul (tsc 4 : mscalar Toy); a_s := tsc 9 |}
          {| l_R := even_point (tpt 8); l_s := tsc 20 |}) = -1.
Proof. vm_compute. auto. Qed.

(** For an infinite R the secret returned can be the negation of the one used. *)
Theorem C17_infinite_nonce_refuted :
  exists (sg : adaptor_sig Toy) (t : scalar Toy) (final : lifted_sig Toy),
    a_R sg = pt_O /\ adapt sg t = Some final /\ has_even_y (l_R final) = true /\
    reveal_secret sg final = Some (fneg (sval t)) /\ reveal_secret sg final <> Some (sval t).
Proof. exact C17_infinite_nonce_refuted_proof. Qed.
Print Assumptions C17_infinite_nonce_refuted.

(** C18.  Encrypting a finished signature under any secrets, one after the other, and
    adapting with their sum gives it back.  The encrypted signature verifies for the sum of
    the adaptor points exactly when the signature verifies, and the order of the secrets is
    irrelevant. *)
Theorem C18_encrypt_then_adapt {Pr : prims} {Laws : prims_ok Pr} {Tags : tags_ok Pr} (pk : point Pr) (sg : lifted_sig Pr) (msg : bytes) (t : scalar Pr) (ts : list (scalar Pr)) (Heven : has_even_y (l_R sg) = true) :
  let enc := fold_left adaptor_encrypt ts (lifted_encrypt sg t) in
  let points := map (fun u : scalar Pr => point_mul pt_G (fz u)) (t :: ts) in
  adapt enc (fsum (map sval (t :: ts))) = Some sg /\
  (verify_single_adaptor pk enc msg (fold_right pt_add pt_O points) = Ok tt <-> verify_single_lifted pk sg msg = Ok tt) /\
  (forall t' ts', Permutation (t :: ts) (t' :: ts') ->
     fold_left adaptor_encrypt ts' (lifted_encrypt sg t') = enc).
Proof. exact (@C18_encrypt_then_adapt_proof Pr Laws Tags pk sg msg t ts Heven). Qed.
Print Assumptions C18_encrypt_then_adapt.

(** The toy session's signature encrypted under three secrets. *)
Example C18_case : ok_and (aggregate_partial_signatures toy_c toy_an (toy_sigs pt_O) toy_msg)
  (fun sg => has_even_y (l_R sg) && is_ok (verify_single_lifted (pubkey toy_c) sg toy_msg) &&
     let enc := fold_left adaptor_encrypt [tsc 8; tsc 25] (lifted_encrypt sg (tsc 6)) in
     is_ok (verify_single_adaptor (pubkey toy_c) enc toy_msg (gmul (tsc 39 : mscalar Toy))) &&
     negb (is_ok (verify_single_adaptor (pubkey toy_c) enc toy_msg toy_T))) = true.
Proof. vm_compute. reflexivity. Qed.

(** C19.  Encrypting an existing pre-signature again with u and adapting with t + u gives
    the signature obtained with t exactly when the adapted nonce is even.  When it is odd
    and the pre-signature is valid for t*G, the result is not a valid signature and the
    twice-encrypted pre-signature does not verify for t*G + u*G. *)
Theorem C19_reencryption {Pr : prims} {Laws : prims_ok Pr} {Tags : tags_ok Pr} (pk : point Pr) (sg : adaptor_sig Pr) (msg : bytes) (t : mscalar Pr) (u : scalar Pr) (l : lifted_sig Pr) (Hl : adapt sg t = Some l) :
  let A := pt_add (a_R sg) (point_mul pt_G (fz t)) in
  let T' := pt_add (point_mul pt_G (fz t)) (point_mul pt_G (fz u)) in
  exists l', adapt (adaptor_encrypt sg u) (fadd t u) = Some l' /\ l_R l' = l_R l /\
    (l' = l <-> has_even_y A = true) /\
    (has_even_y A = false -> verify_single_adaptor pk sg msg (point_mul pt_G (fz t)) = Ok tt ->
       schnorr_verify msg (pt_x pk) (lifted_to_bytes l') = Ret false /\
       verify_single_adaptor pk (adaptor_encrypt sg u) msg T' = Err VE_BadSignature).
Proof. exact (@C19_reencryption_proof Pr Laws Tags pk sg msg t u l Hl). Qed.
Print Assumptions C19_reencryption.

(** Valid pre-signatures with an even (u accepted) and an odd (rejected) adapted nonce: the
    toy session is odd for toy_T = 5*G. *)
Example C19_case :
  ok_and (aggregate_partial_adaptor_signatures toy_c toy_an toy_T (toy_sigs toy_T) toy_msg)
    (fun g => pt_odd (pt_add (a_R g) toy_T) && match adapt g (tsc 5) with Some _ => true | None => false end
       && negb (is_ok (verify_single_adaptor (pubkey toy_c) (adaptor_encrypt g (tsc 7)) toy_msg (gmul (tsc 12 : mscalar Toy))))) = true /\
  (let T := gmul (tsc 10 : mscalar Toy) in
   ok_and (aggregate_partial_adaptor_signatures toy_c toy_an T (toy_sigs T) toy_msg)
    (fun g => negb (pt_odd (pt_add (a_R g) T))
       && is_ok (verify_single_adaptor (pubkey toy_c) (adaptor_encrypt g (tsc 7)) toy_msg (gmul (tsc 17 : mscalar Toy))))) = true.
Proof. vm_compute. auto. Qed.

(** So the documented use of [encrypt] on existing adaptor signatures fails: a
    pre-signature made by [adaptor::sign_solo], encrypted again, does not decrypt to a valid
    signature with both secrets. *)
Theorem C19_reencryption_refuted :
  exists (sk : scalar Toy) (msg seed : bytes) (t u : scalar Toy) (l' : lifted_sig Toy),
    let sg := sign_solo_adaptor sk msg seed (gmul t) in
    verify_single_adaptor (base_mul sk) sg msg (gmul t) = Ok tt /\
    adapt (adaptor_encrypt sg u) (fadd (sval t) u) = Some l' /\
    verify_single_lifted (base_mul sk) l' msg = Err VE_BadSignature.
Proof. exact C19_reencryption_refuted_proof. Qed.
Print Assumptions C19_reencryption_refuted.

(** C44.  Compacting and lifting are inverse on even nonces; lifting fails exactly when the
    32 bytes are not the x coordinate of a curve point; what verifies, lifts; and the form
    (compact, lifted, bytes) is irrelevant to verification. *)
Theorem C44_compact_lifted {Pr : prims} {Laws : prims_ok Pr} (cs : compact_sig Pr) (sg : lifted_sig Pr) (pk : point Pr) (msg : bytes) :
  (has_even_y (l_R sg) = true -> lift_nonce (compact sg) = Some sg) /\
  (lift_nonce cs = Some sg -> compact sg = cs /\ has_even_y (l_R sg) = true) /\
  (lift_nonce cs = None <-> ~ exists R : point Pr, pt_x R = c_rx cs) /\
  (verify_single pk cs msg = Ok tt -> exists l, lift_nonce cs = Some l /\ verify_single_lifted pk l msg = Ok tt) /\
  (length (c_rx cs) = 32%nat -> verify_single pk cs msg = verify_single_bytes pk (compact_to_bytes cs) msg) /\
  verify_single_lifted pk sg msg = verify_single_bytes pk (lifted_to_bytes sg) msg.
Proof. exact (@C44_compact_lifted_proof Pr Laws cs sg pk msg). Qed.
Print Assumptions C44_compact_lifted.

(** A valid compact signature, and 32 bytes that are no x coordinate (0 on the toy curve:
    7 is not a square modulo 43). *)
Example C44_case :
  ok_and (aggregate_partial_signatures toy_c toy_an (toy_sigs pt_O) toy_msg)
    (fun sg => is_ok (verify_single (pubkey toy_c) (compact sg) toy_msg) &&
               match lift_nonce (compact sg) with Some _ => true | None => false end) = true /\
  match lift_nonce ({| c_rx := repeat x00 32; c_s := tsc 5 |} : compact_sig Toy) with Some _ => false | None => true end = true.
Proof. vm_compute. auto. Qed.
