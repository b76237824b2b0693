(** Sessions with an untrusted aggregator, alone or mixed with rounds between peers: C80. *)
From Coq Require Import String List Arith.
From Verif Require Import Bytes BytesFacts Prims PrimsFacts TaggedHashes Errors SpecTags SpecBIP327
  KeyAgg Nonces Signature Signing SigAgg Bip340 Rounds SpecCtx SpecView SpecSession SpecRounds SpecMachine
  Toy ToyData ToyRounds ToyAggregator.
Import ListNotations.
Open Scope list_scope.
Open Scope nat_scope.
From Verif Require Import ProofsAggregator.

(** C80.  Every signer of a context uses its round object in any way, ends by signing either for an
    aggregator ([sign_for_aggregator]) or with its peers ([finalize]), and releases a partial
    signature made with the same aggregated nonce [an], adaptor point and message; [an] is
    whatever the aggregator says.  Then every released signature passes partial verification for
    [an].  They aggregate exactly if R1 + b*R2 for the true nonces, b being that of [an], is
    the final nonce of [an]: an aggregator that lies about the sum of the nonces gets a
    signature only if this equation holds.  If [an] is the sum and R1 + b*R2 is finite, the
    result is valid, and it is what every signer that worked with its peers and finished
    returned. *)
Theorem C80_any_mixture_of_modes {Pr : prims} {Laws : prims_ok Pr} {Tags : tags_ok Pr} (c : key_agg_ctx Pr) (r0 : nat -> first_round Pr) (calls : nat -> list (mcall Pr)) (sk : nat -> scalar Pr) (s : nat -> mscalar Pr) (an : agg_nonce Pr) (T : pt) (msg : bytes) (Hc : ctx_reachable c) (Hr : forall j, j < length (pubkeys c) -> fr_started (r0 j) /\ fr_ctx (r0 j) = c) (Hsk : forall j, j < length (pubkeys c) -> nth_error (pubkeys c) j = Some (base_mul (sk j))) (Hrel : forall j, j < length (pubkeys c) -> released (r0 j) (snd (mrun (Collecting (r0 j)) (calls j))) (sk j) T msg an (s j)) :
let signers := seq 0 (length (pubkeys c)) in
  let total := agg_sum (map (fun j => our_public_nonce (r0 j)) signers) in
  let Q := aggregated_pubkey c in
  let result := aggregate_partial_adaptor_signatures c an T (map s signers) msg in
  (forall j, j < length (pubkeys c) ->
     verify_partial_adaptor c (s j) an T (base_mul (sk j)) (our_public_nonce (r0 j)) msg = Ok tt) /\
  ((exists sg, result = Ok sg) <->
     pt_add (aR1 total) (point_mul (aR2 total) (spec_b c an msg)) = v_R (spec_values c an T msg)) /\
  ((forall sg, result <> Ok sg) -> result = Err VE_BadSignature) /\
  (an = total -> spec_R_raw c an msg <> pt_O -> exists sg, result = Ok sg /\
     a_R sg = spec_R_raw c an msg /\ verify_single_adaptor Q sg msg T = Ok tt /\
     (forall t l, T = gmul t -> adapt sg t = Some l -> schnorr_verify msg (xbytes Q) (lifted_to_bytes l) = Ret true) /\
     (T = pt_O -> exists l, aggregate_partial_signatures c an (map s signers) msg = Ok l /\
        schnorr_verify msg (xbytes Q) (lifted_to_bytes l) = Ret true)) /\
  (forall j sg sg', j < length (pubkeys c) -> result = Ok sg ->
     In (CFinishAdaptor, RFinalAdaptor (Ok sg')) (snd (mrun (Collecting (r0 j)) (calls j))) -> sg' = sg) /\
  (forall j l l', j < length (pubkeys c) -> T = pt_O -> aggregate_partial_signatures c an (map s signers) msg = Ok l ->
     In (CFinish, RFinal (Ok l')) (snd (mrun (Collecting (r0 j)) (calls j))) -> l' = l).
Proof. exact (@C80_any_mixture_of_modes_proof Pr Laws Tags c r0 calls sk s an T msg Hc Hr Hsk Hrel). Qed.
Print Assumptions C80_any_mixture_of_modes.

(** Signers 0 and 1 sign for an aggregator, 1 after receiving other nonces; signer 2 works with
    its peers and finishes ([toy_mixed]). *)
Example C80_mixture_case : ctx_reachable toy_c /\
  (forall j, j < 3 -> fr_started (toy_r0 j) /\ fr_ctx (toy_r0 j) = toy_c) /\
  (forall j, j < 3 -> nth_error (pubkeys toy_c) j = Some (base_mul (toy_sk j))) /\
  (forall j, j < 3 -> released (toy_r0 j) (snd (mrun (Collecting (toy_r0 j)) (toy_mixed j))) (toy_sk j) pt_O toy_msg
     (agg_sum toy_three) (toy_s j)) /\
  existsb (fun e => match e with (CFinish, RFinal (Ok l)) => true | _ => false end) (snd (mrun (Collecting (toy_r0 2)) (toy_mixed 2))) = true /\
  negb (pt_eqb (spec_R_raw toy_c (agg_sum toy_three) toy_msg) pt_O) = true.
Proof.
  split; [exact toy_c_reach|]. split; [intros j Hj; split; [apply toy_r0_started | apply toy_round_ctx]; exact Hj|].
  split; [exact toy_keys_nth|]. split; [exact toy_mixed_released|]. split; vm_compute; reflexivity.
Qed.

(** C80.  An aggregator may also tell the signers different things.  What an honest signer
    released for [an] passes partial verification for another aggregated nonce, adaptor point or
    message exactly if it would have released the same for those; and signing calls that
    released nothing leave nothing to verify. *)
Theorem C80_answers_to_different_nonces {Pr : prims} {Laws : prims_ok Pr} {Tags : tags_ok Pr} (c : key_agg_ctx Pr) (r0 : first_round Pr) (calls : list (mcall Pr)) (sk : scalar Pr) (s : mscalar Pr) (an an' : agg_nonce Pr) (T T' : pt) (msg msg' : bytes) (Hc : ctx_reachable c) (Hr : fr_started r0) (Hctx : fr_ctx r0 = c) (Hrel : released r0 (snd (mrun (Collecting r0) calls)) sk T msg an s) :
(verify_partial_adaptor c s an' T' (base_mul sk) (our_public_nonce r0) msg' = Ok tt <->
     fz s = spec_psig c sk (fr_secnonce r0) an' T' msg') /\
  (forall sk2 T2 msg2 an2 s2, released r0 (snd (mrun (Collecting r0) calls)) sk2 T2 msg2 an2 s2 ->
     sk2 = sk /\ T2 = T /\ msg2 = msg /\ an2 = an /\ s2 = s).
Proof. exact (@C80_answers_to_different_nonces_proof Pr Laws Tags c r0 calls sk s an an' T T' msg msg' Hc Hr Hctx Hrel). Qed.
Print Assumptions C80_answers_to_different_nonces.

Example C80_different_case : fr_started (toy_r0 1) /\ fr_ctx (toy_r0 1) = toy_c /\
  released (toy_r0 1) (snd (mrun (Collecting (toy_r0 1)) (toy_mixed 1))) (toy_sk 1) pt_O toy_msg
     (agg_sum toy_three) (toy_s 1).
Proof. split; [apply toy_r0_started; auto|]. split; [apply toy_round_ctx; auto|]. apply toy_mixed_released; auto. Qed.

(** So an aggregator can make honest signers look dishonest: here all three signers release a
    partial signature for the same message, signer 1 having been told an aggregated nonce
    other than the sum.  Its signature fails partial verification in the session of the others,
    and aggregation fails. *)

Theorem C80_refusal_blames_the_signer_refuted :
exists (c : key_agg_ctx Toy) (r0 : nat -> first_round Toy) (calls : nat -> list (mcall Toy)) (sk : nat -> scalar Toy) (s : nat -> mscalar Toy) (an : nat -> agg_nonce Toy) (msg : bytes),
    let total := agg_sum (map (fun j => our_public_nonce (r0 j)) (seq 0 (length (pubkeys c)))) in
    ctx_reachable c /\
    (forall j, j < length (pubkeys c) -> fr_started (r0 j) /\ fr_ctx (r0 j) = c /\ fr_index (r0 j) = j) /\
    (forall j, j < length (pubkeys c) -> nth_error (pubkeys c) j = Some (base_mul (sk j))) /\
    (forall j, j < length (pubkeys c) -> released (r0 j) (snd (mrun (Collecting (r0 j)) (calls j))) (sk j) pt_O msg (an j) (s j)) /\
    (forall j, j < length (pubkeys c) -> j <> 1 -> an j = total) /\
    verify_partial c (s 1) total (base_mul (sk 1)) (our_public_nonce (r0 1)) msg = Err VE_BadSignature /\
    aggregate_partial_signatures c total (map s (seq 0 (length (pubkeys c)))) msg = Err VE_BadSignature.
Proof. exact C80_refusal_blames_the_signer_refuted_proof. Qed.
Print Assumptions C80_refusal_blames_the_signer_refuted.
