(** Signers among dishonest peers agree (C67). *)
From Coq Require Import String List.
From Verif Require Import Bytes BytesFacts Prims PrimsFacts TaggedHashes Errors SpecTags SpecBIP327
  KeyAgg Nonces Signature Signing SigAgg Bip340 Rounds SpecCtx SpecView SpecSession SpecRounds
  Toy ToyData ToyRounds.
Import ListNotations.
Open Scope list_scope.
Open Scope nat_scope.
From Verif Require Import ProofsAgreement.

(** C67.  Whatever partial signatures are aggregated, and in whatever context with the same
    aggregated key, a session (aggregated nonce, adaptor point and message) has at most one
    result. *)
Theorem C67_one_signature_per_session {Pr : prims} {Laws : prims_ok Pr} {Tags : tags_ok Pr} (c c' : key_agg_ctx Pr) (an : agg_nonce Pr) (T : pt) (sigs sigs' : list (mscalar Pr)) (msg : bytes) (Hkey : aggregated_pubkey c' = aggregated_pubkey c) :
  (forall g g', aggregate_partial_adaptor_signatures c an T sigs msg = Ok g ->
     aggregate_partial_adaptor_signatures c' an T sigs' msg = Ok g' -> g' = g) /\
  (forall l l', aggregate_partial_signatures c an sigs msg = Ok l ->
     aggregate_partial_signatures c' an sigs' msg = Ok l' -> l' = l).
Proof. exact (@C67_one_signature_per_session_proof Pr Laws Tags c c' an T sigs sigs' msg Hkey). Qed.
Print Assumptions C67_one_signature_per_session.

(** Two different lists for the toy session, of different lengths. *)
Example C67_session_case :
  match toy_sigs toy_T with
  | [a; b; d] =>
      ok_and (aggregate_partial_adaptor_signatures toy_c toy_an toy_T [a; b; d] toy_msg) (fun g =>
      ok_and (aggregate_partial_adaptor_signatures toy_c toy_an toy_T [fadd (fadd a b) d] toy_msg) (fun g' =>
        pt_eqb (a_R g) (a_R g') && feqb (a_s g) (a_s g')))
  | _ => false end = true.
Proof. vm_compute. reflexivity. Qed.

(** Two second rounds with the same aggregated key, aggregated nonce, adaptor point and message,
    reached by any calls; the nonces and signatures delivered to the two signers may differ and
    come from anyone.  The signatures they finalize are the same, and if both are complete and
    each signer's own signature is valid their results are the same, errors included. *)
Theorem C67_signers_agree {Pr : prims} {Laws : prims_ok Pr} {Tags : tags_ok Pr} (r0 r0' : second_round Pr) (calls calls' : list (nat * mscalar Pr)) (Hr : sr_started r0) (Hr' : sr_started r0') (Hkey : aggregated_pubkey (sr_ctx r0') = aggregated_pubkey (sr_ctx r0)) (Han : aggregated_nonce r0' = aggregated_nonce r0) (HT : sr_adaptor r0' = sr_adaptor r0) (Hm : sr_message r0' = sr_message r0) :
  let r := fst (sr_run r0 calls) in
  let r' := fst (sr_run r0' calls') in
  (forall g g', sr_finalize_adaptor r = Ok g -> sr_finalize_adaptor r' = Ok g' -> g' = g) /\
  (forall l l', sr_finalize r = Ok l -> sr_finalize r' = Ok l' -> l' = l) /\
  (sr_holdouts r = [] -> sr_holdouts r' = [] ->
     (forall ours, our_signature r0 = Ok ours -> sr_valid r0 (sr_index r0) ours) ->
     (forall ours, our_signature r0' = Ok ours -> sr_valid r0' (sr_index r0') ours) ->
     sr_finalize_adaptor r' = sr_finalize_adaptor r /\ sr_finalize r' = sr_finalize r).
Proof. exact (@C67_signers_agree_proof Pr Laws Tags r0 r0' calls calls' Hr Hr' Hkey Han HT Hm). Qed.
Print Assumptions C67_signers_agree.

(** The nonces of signers 0 and 2 are exchanged on their way to signer 1.  It accepts other
    signatures than signer 0 does, and both finalize to the same one. *)
Example C67_signers_case :
  ok_and (split_view 0) (fun r => ok_and (split_view 1) (fun r' =>
    let f := complete_by_search r in let f' := complete_by_search r' in
    pt_eqb (aR1 (aggregated_nonce r)) (aR1 (aggregated_nonce r')) && pt_eqb (aR2 (aggregated_nonce r)) (aR2 (aggregated_nonce r'))
    && sr_is_complete f && sr_is_complete f'
    && negb (forallb (fun p => match p with (Some a, Some b) => feqb a b | _ => false end) (combine (slot_vec (sr_slots f)) (slot_vec (sr_slots f'))))
    && ok_and (sr_finalize f) (fun l => ok_and (sr_finalize f') (fun l' => pt_eqb (l_R l) (l_R l') && feqb (l_s l) (l_s l'))))) = true.
Proof. vm_compute. reflexivity. Qed.
