(** Sessions in which everything that travels or is stored is bytes: C92. *)
From Coq Require Import String List Arith.
From Verif Require Import Bytes BytesFacts Prims PrimsFacts TaggedHashes Errors SpecTags SpecBIP327
  KeyAgg Nonces Signature Signing SigAgg Bip340 Rounds SpecCtx SpecView SpecSession SpecRounds SpecWire Toy ToyData ToyRounds ToyWire.
Import ListNotations.
Open Scope list_scope.
Open Scope nat_scope.
From Verif Require Import ProofsWire.

(** C92.  The context is made from bytes, and every signer sends its nonce and its partial signature as bytes.  At each signer
    anything may arrive, in any order and under any name; what cannot be decoded is dropped.  If the first
    readable nonce that arrives under each other signer's name is the one that this signer sent, then every signer
    sends a partial signature; a second round is complete exactly when the very bytes that each other signer
    sent have arrived, whatever else has; and all complete rounds give the same 64 bytes (65 with an adaptor
    point), which verify, unless R1 + b*R2 is infinite, and then none gives any. *)
Theorem C92_sessions_in_bytes {Pr : prims} {Laws : prims_ok Pr} {Tags : tags_ok Pr} (tg : target) (B : bytes) (c : key_agg_ctx Pr) (r0 : nat -> first_round Pr) (seed : nat -> bytes) (sp : nat -> spices Pr) (sk : nat -> scalar Pr) (arrived : nat -> list (nat * bytes)) (T : pt) (msg : bytes) (Htg : (64 <= usize_bits tg)%Z) (HB : ctx_from_bytes tg B = Ok c) (Hnew : forall j, j < length (pubkeys c) -> first_round_new c (seed j) j (sp j) = Ok (r0 j)) (Hsk : forall j pk, nth_error (pubkeys c) j = Some pk -> base_mul (sk j) = pk) (Hfirst : forall j i, j < length (pubkeys c) -> i < length (pubkeys c) -> i <> j -> @first_readable Pr (arrived j) i = Some (pubnonce_to_bytes (our_public_nonce (r0 i)))) :
  let n := length (pubkeys c) in
  let Q := aggregated_pubkey c in
  let R' := spec_R_raw c (agg_sum (map (fun j => our_public_nonce (r0 j)) (seq 0 n))) msg in
  let fin := fun j => fr_finalize_adaptor (fold_left nonce_arrives (arrived j) (r0 j)) (sk j) T msg in
  (forall j, j < n -> exists b, sends (fin j) b) /\
  (forall j sr l, j < n -> fin j = Ok sr ->
     (sr_is_complete (fold_left signature_arrives l sr) = true <->
      forall i b, i < n -> i <> j -> sends (fin i) b -> In (i, b) l)) /\
  (R' <> pt_O -> exists sig pre,
     length sig = 64 /\ length pre = 65 /\
     (T = pt_O -> verify_single_bytes Q sig msg = Ok tt /\ schnorr_verify msg (xbytes Q) sig = Ret true) /\
     (exists sg, adaptor_from_bytes pre = Ok sg /\ verify_single_adaptor Q sg msg T = Ok tt) /\
     forall j sr l, j < n -> fin j = Ok sr ->
       let r := fold_left signature_arrives l sr in
       sr_is_complete r = true ->
       exists sg s, sr_finalize_adaptor r = Ok sg /\ adaptor_to_bytes sg = pre /\ sr_finalize r = Ok s /\ lifted_to_bytes s = sig) /\
  (R' = pt_O -> forall j sr l, j < n -> fin j = Ok sr ->
     let r := fold_left signature_arrives l sr in
     sr_is_complete r = true ->
     sr_finalize_adaptor r = Err (FE_InvalidAggregatedSignature VE_BadSignature)).
Proof. exact (@C92_sessions_in_bytes_proof Pr Laws Tags tg B c r0 seed sp sk arrived T msg Htg HB Hnew Hsk Hfirst). Qed.
Print Assumptions C92_sessions_in_bytes.

(** Three signers; at each of them garbage and misnamed messages arrive among the true ones.  The rounds are complete and give 64 bytes
    that verify. *)
Example C92_case : is_ok (ctx_from_bytes (Pr := Toy) target64 (ctx_to_bytes toy_c)) = true /\
  map base_mul toy_sks = pubkeys toy_c /\
  forallb (fun j => forallb (fun i => (i =? j) || match @first_readable Toy wire_first i with Some b => bytes_eqb b (wire_nonce i) | None => false end) [0; 1; 2]) [0; 1; 2] = true /\
  forallb (fun j =>
    ok_and (fr_finalize_adaptor (fold_left nonce_arrives wire_first (toy_r0 j)) (toy_sk j) pt_O toy_msg) (fun sr =>
    sr_is_complete (fold_left signature_arrives wire_second sr) && negb (sr_is_complete (fold_left signature_arrives (firstn 4 wire_second) sr)) &&
    ok_and (sr_finalize (fold_left signature_arrives wire_second sr)) (fun l =>
      is_ok (verify_single_bytes (aggregated_pubkey toy_c) (lifted_to_bytes l) toy_msg)))) [0; 1; 2] = true.
Proof. split; [vm_compute; reflexivity|]. split; [reflexivity|]. split; vm_compute; reflexivity. Qed.

(** A signer stops at any point of its first round.  It has stored its context as bytes, the arguments of
    [FirstRound::new], and in a journal the first readable message under each other signer's name.  It makes the
    round again and replays the journal, in any order and with anything else in it that does not come first.  Then
    it is where it was, and whatever arrives afterwards, it goes on as if it had not stopped. *)
Theorem C92_restart_first_round {Pr : prims} {Laws : prims_ok Pr} {Tags : tags_ok Pr} (tg : target) (c : key_agg_ctx Pr) (seed : bytes) (k : nat) (sp : spices Pr) (r0 : first_round Pr) (before journal : list (nat * bytes)) (Htg : (64 <= usize_bits tg)%Z) (Hc : ctx_reachable c) (Hnew : first_round_new c seed k sp = Ok r0) (Hj : forall i, i < length (pubkeys c) -> i <> k -> @first_readable Pr journal i = @first_readable Pr before i) :
  exists c' r0', ctx_from_bytes tg (ctx_to_bytes c) = Ok c' /\ first_round_new c' seed k sp = Ok r0' /\
  forall later, fold_left nonce_arrives (journal ++ later) r0' = fold_left nonce_arrives (before ++ later) r0.
Proof. exact (@C92_restart_first_round_proof Pr Laws Tags tg c seed k sp r0 before journal Htg Hc Hnew Hj). Qed.
Print Assumptions C92_restart_first_round.

(** Signer 1 stops after six messages; its journal holds two of them, in another order. *)
Example C92_restart_case : (64 <= usize_bits target64)%Z /\ ctx_reachable toy_c /\ first_round_new toy_c toy_seed 1 spices_new = Ok (toy_r0 1) /\
  forallb (fun i => match @first_readable Toy [(2, wire_nonce 2); (0, wire_nonce 0)] i, @first_readable Toy (firstn 6 wire_first) i with
    | Some b, Some b' => bytes_eqb b b' | _, _ => false end) [0; 2] = true.
Proof. split; [vm_compute; discriminate|]. split; [exact toy_c_reach|]. split; [apply toy_r0_eq; auto|]. vm_compute. reflexivity. Qed.

(** The same for a stop in the second round: after a restart of the first round as above, signing again gives the same
    second round, with the same partial signature; and with a journal that has the valid signatures that had arrived, it goes on
    as if it had not stopped. *)
Theorem C92_restart_second_round {Pr : prims} {Laws : prims_ok Pr} {Tags : tags_ok Pr} (r0 : first_round Pr) (sk : scalar Pr) (T : pt) (msg : bytes) (first journal1 second journal2 : list (nat * bytes)) (sr : second_round Pr) (Hr : fr_started r0) (Hj1 : forall i, i < length (pubkeys (fr_ctx r0)) -> i <> fr_index r0 -> @first_readable Pr journal1 i = @first_readable Pr first i) (Hfin : fr_finalize_adaptor (fold_left nonce_arrives first r0) sk T msg = Ok sr) (Hj2 : forall i s, sr_valid sr i s -> (In (i, ser_scalar s) journal2 <-> In (i, ser_scalar s) second)) :
  exists sr', fr_finalize_adaptor (fold_left nonce_arrives journal1 r0) sk T msg = Ok sr' /\ our_signature sr' = our_signature sr /\
  forall later, fold_left signature_arrives (journal2 ++ later) sr' = fold_left signature_arrives (second ++ later) sr.
Proof. exact (@C92_restart_second_round_proof Pr Laws Tags r0 sk T msg first journal1 second journal2 sr Hr Hj1 Hfin Hj2). Qed.
Print Assumptions C92_restart_second_round.

(** Signer 1 stops after five signatures had arrived, of which its journal holds the valid one it misses and the other one again. *)
Example C92_restart_second_case : fr_started (toy_r0 1) /\
  is_ok (fr_finalize_adaptor (fold_left nonce_arrives wire_first (toy_r0 1)) (toy_sk 1) pt_O toy_msg) = true /\
  ok_and (fr_finalize_adaptor (fold_left nonce_arrives [(2, wire_nonce 2); (0, wire_nonce 0)] (toy_r0 1)) (toy_sk 1) pt_O toy_msg) (fun sr =>
    negb (sr_is_complete (fold_left signature_arrives (firstn 5 wire_second) sr)) &&
    negb (sr_is_complete (fold_left signature_arrives [(2, ser_scalar (toy_s 2)); (1, ser_scalar (toy_s 1))] sr)) &&
    sr_is_complete (fold_left signature_arrives ([(2, ser_scalar (toy_s 2)); (1, ser_scalar (toy_s 1))] ++ skipn 5 wire_second) sr)) = true.
Proof. split; [apply toy_r0_started; auto|]. split; vm_compute; reflexivity. Qed.
