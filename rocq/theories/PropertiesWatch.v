(** The control flow of the round objects over a whole session: C84. *)
From Coq Require Import String List.
From Verif Require Import Bytes BytesFacts Prims PrimsFacts TaggedHashes Errors SpecTags SpecBIP327
  KeyAgg Nonces Signature Signing SigAgg Rounds SpecCtx SpecView SpecSession SpecRounds SpecMachine
  SpecNonces ControlFlow SpecFlow ControlFlowRounds SpecWatch Toy ToyData ToyRounds ToyHistories ToyWatch.
Import ListNotations.
Open Scope string_scope.
Open Scope list_scope.
Open Scope nat_scope.
From Verif Require Import ProofsWatch.

(** C84.  src/rounds.rs.  Whatever a caller does with a round object, the branches and table positions of
    the signer are what [watch_all] computes from the transcript: the context, the signer's position and
    public nonce, the calls with the public key in the place of the secret key, and the replies.  The secret nonce and
    the secret key show in nothing else.  The recording changes no result. *)
Theorem C84_session {Pr : prims} {Laws : prims_ok Pr} {Tags : tags_ok Pr} (r0 : first_round Pr) (calls : list (mcall Pr)) (Hr : fr_started r0) :
  value (mrun_t (Collecting r0) calls) = mrun (Collecting r0) calls /\
  trace (mrun_t (Collecting r0) calls) =
  watch_all (WNonces (fr_ctx r0) (fr_index r0) [(fr_index r0, our_public_nonce r0)])
            (map public_entry (snd (mrun (Collecting r0) calls))).
Proof. exact (@C84_session_proof Pr Laws Tags r0 calls Hr). Qed.
Print Assumptions C84_session.

(** The session of [toy_calls] with wrong positions, early calls and a wrong signature; and a session in which a
    signer uses another member's key. *)
Example C84_session_case : fr_started (toy_r0 0) /\ fr_started (toy_r0 1) /\
  List.length (trace (mrun_t (Collecting (toy_r0 0)) toy_calls)) = 94 /\
  firstn 6 (trace (mrun_t (Collecting (toy_r0 0)) toy_calls)) =
  [ Branch "rounds.rs:29" true; Branch "rounds.rs:29" false; Index "rounds.rs:38" 2; Branch "rounds.rs:38" false;
    Index "rounds.rs:46" 2; Index "rounds.rs:48" 1 ] /\
  taken (trace (mrun_t (Collecting (toy_r0 1)) watch_calls)) =
  [ "signing.rs:173"; "signing.rs:173"; "rounds.rs:38"; "rounds.rs:401"; "signing.rs:173"; "rounds.rs:62"; "rounds.rs:450"; "rounds.rs:428" ].
Proof.
  split; [apply toy_r0_started; repeat constructor|]. split; [apply toy_r0_started; repeat constructor|].
  repeat split; vm_compute; reflexivity.
Qed.

(** C84.  src/rounds.rs:98-127.  Creating a round takes the branches of the nonce builder, in which the
    public key, the aggregated key and the four bytes of the index are always there, and files the own
    nonce.  The two bits for zero hashes are all that comes from the seed and the key in the
    spices; they show that a published nonce point is G, so with other points there is nothing
    to see. *)
Theorem C84_start {Pr : prims} {Laws : prims_ok Pr} {Tags : tags_ok Pr} (c : key_agg_ctx Pr) (seed : bytes) (i : nat) (sp : spices Pr) :
  value (first_round_new_t c seed i sp) = first_round_new c seed i sp /\
  (List.length (pubkeys c) <= i -> trace (first_round_new_t c seed i sp) = [ Branch "rounds.rs:106" true ]) /\
  (forall r, first_round_new c seed i sp = Ok r ->
     exists zero1 zero2,
       trace (first_round_new_t c seed i sp) =
       Branch "rounds.rs:106" false :: nonce_flow (round_shape sp) zero1 zero2
       ++ slot_flow pubnonce_eqb (List.length (pubkeys c)) [] i (our_public_nonce r) /\
       (forall pk b, nth_error (pubkeys c) i = Some pk -> round_builder c seed i pk sp = Ok b ->
          zero1 = zero_nonce b x00 /\ zero2 = zero_nonce b x01) /\
       (pR1 (our_public_nonce r) <> gen_point -> zero1 = false) /\
       (pR2 (our_public_nonce r) <> gen_point -> zero2 = false)).
Proof. exact (@C84_start_proof Pr Laws Tags c seed i sp). Qed.
Print Assumptions C84_start.

(** Signer 1 of [toy_c], and a position that is out of range. *)
Example C84_start_case :
  first_round_new toy_c toy_seed 1 spices_new = Ok (toy_r0 1) /\
  pt_eqb (pR1 (our_public_nonce (toy_r0 1))) (gen_point (Pr := Toy)) = false /\
  trace (first_round_new_t toy_c toy_seed 1 spices_new) =
  [ Branch "rounds.rs:106" false; Branch "nonces.rs:334" false; Branch "nonces.rs:353" true; Branch "nonces.rs:361" true;
    Branch "nonces.rs:369" false; Branch "nonces.rs:379" true; Size "nonces.rs:388" 4; Branch "nonces.rs:396" false;
    Branch "nonces.rs:400" false; Branch "rounds.rs:29" false; Index "rounds.rs:38" 1; Branch "rounds.rs:38" false;
    Index "rounds.rs:46" 1; Index "rounds.rs:48" 1 ] /\
  trace (first_round_new_t toy_c toy_seed 3 spices_new) = [ Branch "rounds.rs:106" true ].
Proof. split; [apply toy_r0_eq; repeat constructor|]. repeat split; vm_compute; reflexivity. Qed.
