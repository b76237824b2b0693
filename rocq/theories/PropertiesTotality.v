(** C59: which calls can panic.  [Panic] stands for every failed assertion, [unwrap],
    [expect], out-of-range index and arithmetic overflow of the code. *)
From Coq Require Import String List.
From Verif Require Import Bytes BytesFacts Prims PrimsFacts TaggedHashes Errors SpecTags SpecBIP327
  KeyAgg Nonces Signature Signing SigAgg Bip340 Rounds Deterministic Encoding SpecCtx SpecView SpecSession SpecRounds
  Toy ToyData ToyRounds.
Import ListNotations.
Open Scope list_scope.
Open Scope Z_scope.
From Verif Require Import ProofsTotality.

(** C59, contexts.  [KeyAggContext::new] panics exactly for no keys and for more than
    2^32 - 1 keys; nothing one can do with a context panics. *)
Theorem C59_key_contexts {Pr : prims} {Laws : prims_ok Pr} :
  (forall pks : list (point Pr), key_agg_new pks = Panic <-> pks = [] \/ 2 ^ 32 - 1 < zlen pks) /\
  (forall (c : key_agg_ctx Pr), ctx_reachable c ->
     (forall t, with_plain_tweak c t <> Panic) /\ (forall t, with_xonly_tweak c t <> Panic) /\
     (forall t x, with_tweak c t x <> Panic) /\ (forall ts, with_tweaks c ts <> Panic) /\
     (forall root, with_taproot_tweak c root <> Panic) /\ with_unspendable_taproot_tweak c <> Panic /\
     aggregated_pubkey_untweaked c <> Panic /\
     (forall pk, key_coefficient c pk <> Panic) /\ (forall pk, effective_pubkey c pk <> Panic) /\
     (forall sks, aggregated_seckey c sks <> Panic)).
Proof. exact (@C59_key_contexts_proof Pr Laws). Qed.
Print Assumptions C59_key_contexts.

Example C59_contexts_case : ctx_reachable toy_c /\ is_ok (aggregated_pubkey_untweaked toy_c) = true /\
  key_agg_new (@nil (point Toy)) = Panic.
Proof. split; [exact toy_c_reach|]. split; [vm_compute; reflexivity|]. apply (proj1 (C59_key_contexts (Pr := Toy))). left. reflexivity. Qed.

(** C59, signing and verifying.  On every context of the API and all other arguments, none of
    the functions that sign, verify or aggregate panics: the [expect]s in them are never hit,
    nor those of [sign_solo] and the deterministic [sign_solo]. *)
Theorem C59_signing {Pr : prims} {Laws : prims_ok Pr} {Tags : tags_ok Pr} :
  (forall (c : key_agg_ctx Pr) an T msg, ctx_reachable c ->
     (forall sk sn, sign_partial_adaptor c sk sn an T msg <> Panic /\ sign_partial c sk sn an msg <> Panic) /\
     (forall s pk pn, verify_partial_adaptor c s an T pk pn msg <> Panic /\ verify_partial c s an pk pn msg <> Panic) /\
     (forall sigs, aggregate_partial_adaptor_signatures c an T sigs msg <> Panic /\
        aggregate_partial_signatures c an sigs msg <> Panic)) /\
  (forall (sk : scalar Pr) msg seed, sign_solo sk msg seed <> Panic) /\
  (forall fuel (sk : scalar Pr) msg, det_sign_solo fuel sk msg <> Some Panic) /\
  (forall (pk : point Pr) msg, (forall sg, verify_single pk sg msg <> Panic) /\
     (forall sg, verify_single_lifted pk sg msg <> Panic) /\ (forall b, verify_single_bytes pk b msg <> Panic) /\
     (forall sg T, verify_single_adaptor pk sg msg T <> Panic)) /\
  (forall rows : list (batch_row Pr), verify_batch rows <> Panic).
Proof. exact (@C59_signing_proof Pr Laws Tags). Qed.
Print Assumptions C59_signing.

Example C59_signing_case : ctx_reachable toy_c /\
  is_ok (aggregate_partial_signatures toy_c toy_an (toy_sigs pt_O) toy_msg) = true /\
  is_ok (aggregate_partial_signatures toy_c toy_an [] toy_msg) = false /\ is_ok (sign_solo sk_a toy_msg (zeros 32)) = true.
Proof. split; [exact toy_c_reach|]. vm_compute. auto. Qed.

(** C59, rounds.  [FirstRound::new] panics exactly when the signer index is in range and the
    extra inputs of the spices have 2^32 - 4 bytes or more in total.  No method of a round
    panics, whatever was received before. *)
Theorem C59_rounds {Pr : prims} {Laws : prims_ok Pr} {Tags : tags_ok Pr} :
  (forall (c : key_agg_ctx Pr) seed i sp, first_round_new c seed i sp = Panic <->
     (i < length (pubkeys c))%nat /\ 2 ^ 32 - 4 <= zlen (concat (sp_extra_inputs sp))) /\
  (forall (r0 : first_round Pr) calls, fr_started r0 ->
     let r := fst (fr_run r0 calls) in
     (forall i n, snd (receive_nonce r i n) <> Panic) /\
     (forall sk msg, fr_finalize r sk msg <> Panic) /\ (forall sk T msg, fr_finalize_adaptor r sk T msg <> Panic) /\
     (forall sk msg an, sign_for_aggregator r sk msg an <> Panic) /\
     (forall sk T msg an, sign_for_aggregator_adaptor r sk T msg an <> Panic)) /\
  (forall (r0 : second_round Pr) calls, sr_started r0 ->
     let r := fst (sr_run r0 calls) in
     our_signature r <> Panic /\ (forall i s, snd (receive_signature r i s) <> Panic) /\
     sr_finalize r <> Panic /\ sr_finalize_adaptor r <> Panic).
Proof. exact (@C59_rounds_proof Pr Laws Tags). Qed.
Print Assumptions C59_rounds.

Example C59_rounds_case : fr_started (toy_r0 0%nat) /\ sr_started (toy_sr0 0%nat) /\
  is_ok (sign_for_aggregator (toy_r0 0%nat) sk_a toy_msg toy_an) = true /\ is_ok (our_signature (toy_sr0 0%nat)) = true.
Proof. split; [apply toy_r0_started; auto|]. split; [apply toy_sr0_started; auto|]. vm_compute. auto. Qed.

(** C59, decoding.  No decoder panics, on any bytes or string, nor when it is called by serde
    with any bytes or string ([max] and [n] being the sizes of its buffers), where [usize] has 64 bits
    (for other targets see C08). *)
Theorem C59_decoders {Pr : prims} {Laws : prims_ok Pr} (tg : target) (Htg : 64 <= usize_bits tg) :
  let total := fun (A : Type) (d : bytes -> res decode_error A) =>
    (forall b, d b <> Panic) /\ (forall n s, from_hex_fixed n d s <> Panic) /\ (forall s, from_hex_var d s <> Panic) /\
    (forall max s, serde_hex_fixed max d s <> Panic) /\ (forall max b, serde_bin_fixed max d b <> Panic) in
  total _ (secnonce_from_bytes (Pr := Pr)) /\ total _ (pubnonce_from_bytes (Pr := Pr)) /\ total _ (aggnonce_from_bytes (Pr := Pr)) /\
  total _ (compact_from_bytes (Pr := Pr)) /\ total _ (lifted_from_bytes (Pr := Pr)) /\ total _ (adaptor_from_bytes (Pr := Pr)) /\
  total _ (ctx_from_bytes (Pr := Pr) tg).
Proof. exact (@C59_decoders_proof Pr Laws tg Htg). Qed.
Print Assumptions C59_decoders.

Example C59_decoders_case : 64 <= usize_bits target64 /\ is_ok (secnonce_from_bytes (Pr := Toy) (zeros 31 ++ [x01] ++ zeros 31 ++ [x02] ++ zeros 33)) = true /\
  is_ok (secnonce_from_bytes (Pr := Toy) []) = false /\ is_ok (ctx_from_bytes target64 (ctx_to_bytes toy_c)) = true.
Proof. split; [vm_compute; discriminate|]. repeat split; vm_compute; reflexivity. Qed.
