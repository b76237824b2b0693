(** Whole sessions under any schedule: C76. *)
From Coq Require Import String List Arith Lia.
From Verif Require Import Bytes BytesFacts Prims PrimsFacts TaggedHashes Errors SpecTags SpecBIP327
  KeyAgg Nonces Signature Signing SigAgg Bip340 Rounds SpecCtx SpecView SpecSession SpecRounds SpecMachine SpecNetwork Toy ToyData ToyRounds ToyNetwork.
Import ListNotations.
Open Scope list_scope.
Open Scope nat_scope.
From Verif Require Import ProofsNetwork.

(** C76.  Under any schedule, with any numbers arriving as signatures: no call panics; every
    delivery of a nonce and every attempt to sign with a complete first round succeeds; a number
    arriving as a signature is accepted if it is what that signer sends, before or after it
    arrives, and otherwise refused with an error that names the signer. *)
Theorem C76_replies {Pr : prims} {Laws : prims_ok Pr} {Tags : tags_ok Pr} (c : key_agg_ctx Pr) (r0 : nat -> first_round Pr) (seed : nat -> bytes) (sp : nat -> spices Pr) (sk : nat -> scalar Pr) (T : pt) (msg : bytes) (evs : list (nat * event Pr)) (Hc : ctx_reachable c) (Hnew : forall j, j < length (pubkeys c) -> first_round_new c (seed j) j (sp j) = Ok (r0 j)) (Hsk : forall j pk, nth_error (pubkeys c) j = Some pk -> base_mul (sk j) = pk) :
  let n := length (pubkeys c) in
  let log := net_log (net_run n r0 sk T msg (net_start n r0) evs) in
  forall j e o, In (j, e, o) log -> ~ panicked o /\
    match e with
    | EvNonce _ => o = RReceived (Ok tt)
    | EvSign => exists s, o = RPartial (Ok s)
    | EvSignature i s => (n <= i /\ o = RReceived (Err (RoundContributionError i (OutOfRange n)))) \/
        (i < n /\ (o = RReceived (Ok tt) \/ o = RReceived (Err (RoundContributionError i InvalidSignature))) /\
         forall s', In (i, EvSign, RPartial (Ok s')) log -> (o = RReceived (Ok tt) <-> s = s'))
    | EvFinish => exists o', o = RFinal o'
    | EvFinishAdaptor => exists o', o = RFinalAdaptor o'
    end.
Proof. exact (@C76_replies_proof Pr Laws Tags c r0 seed sp sk T msg evs Hc Hnew Hsk). Qed.
Print Assumptions C76_replies.

(** [toy_schedule] has 24 events of which 21 can happen; the two refused signatures are the two
    wrong ones. *)
Example C76_case : ctx_reachable toy_c /\ (forall j, j < length (pubkeys toy_c) -> first_round_new toy_c toy_seed j spices_new = Ok (toy_r0 j)) /\
  map base_mul (map toy_sk [0; 1; 2]) = pubkeys toy_c /\ length (net_log (toy_net 24)) = 21 /\
  map (fun x => fst (fst x)) (filter (fun x => match snd x with RReceived (Err _) => true | _ => false end) (net_log (toy_net 24))) = [0; 0].
Proof.
  split; [exact toy_c_reach|]. split; [exact toy_r0_eq|]. split; [reflexivity|]. split; vm_compute; reflexivity.
Qed.

(** All signers who finish, in whatever execution, get the same signature, valid under the
    aggregated key, unless R1 + b*R2 is infinite, and then none gets any. *)
Theorem C76_agreement {Pr : prims} {Laws : prims_ok Pr} {Tags : tags_ok Pr} (c : key_agg_ctx Pr) (r0 : nat -> first_round Pr) (seed : nat -> bytes) (sp : nat -> spices Pr) (sk : nat -> scalar Pr) (T : pt) (msg : bytes) (Hc : ctx_reachable c) (Hnew : forall j, j < length (pubkeys c) -> first_round_new c (seed j) j (sp j) = Ok (r0 j)) (Hsk : forall j pk, nth_error (pubkeys c) j = Some pk -> base_mul (sk j) = pk) :
  let n := length (pubkeys c) in
  let Q := aggregated_pubkey c in
  let R' := spec_R_raw c (agg_sum (map (fun j => our_public_nonce (r0 j)) (seq 0 n))) msg in
  let log := fun evs => net_log (net_run n r0 sk T msg (net_start n r0) evs) in
  (R' <> pt_O -> exists sg l,
     verify_single_adaptor Q sg msg T = Ok tt /\
     (forall t l', T = gmul t -> adapt sg t = Some l' -> verify_single_lifted Q l' msg = Ok tt) /\
     (T = pt_O -> verify_single_lifted Q l msg = Ok tt /\
                  schnorr_verify msg (xbytes Q) (lifted_to_bytes l) = Ret true) /\
     (forall evs j o, In (j, EvFinish, o) (log evs) -> o = RFinal (Ok l)) /\
     (forall evs j o, In (j, EvFinishAdaptor, o) (log evs) -> o = RFinalAdaptor (Ok sg))) /\
  (R' = pt_O -> forall evs j o,
     (In (j, EvFinish, o) (log evs) -> o = RFinal (Err (FE_InvalidAggregatedSignature VE_BadSignature))) /\
     (In (j, EvFinishAdaptor, o) (log evs) -> o = RFinalAdaptor (Err (FE_InvalidAggregatedSignature VE_BadSignature)))).
Proof. exact (@C76_agreement_proof Pr Laws Tags c r0 seed sp sk T msg Hc Hnew Hsk). Qed.
Print Assumptions C76_agreement.

(** In [toy_schedule] all three finish, signer 0 with [finalize_adaptor]. *)
Example C76_agreement_case :
  map (fun x => match x with (j, _, RFinal (Ok l)) => Some (j, fz (l_s l)) | (j, _, RFinalAdaptor (Ok g)) => Some (j, fz (a_s g)) | _ => None end)
    (filter (fun x => match snd x with RFinal _ | RFinalAdaptor _ => true | _ => false end) (net_log (toy_net 24)))
  = [Some (2, 15%Z); Some (0, 15%Z); Some (1, 15%Z)].
Proof. vm_compute. reflexivity. Qed.

(** There are 2*n*n things to do at the start.  Whatever happens changes no signer or does one
    of them; while something is left, one of the signers can do it with what the signers have
    sent; and when nothing is left all have finished.  So there is no deadlock and no infinite
    execution in which every event changes something, and whatever happened so far, exactly
    the remaining number of events can bring everyone to the end. *)
Theorem C76_progress {Pr : prims} {Laws : prims_ok Pr} {Tags : tags_ok Pr} (c : key_agg_ctx Pr) (r0 : nat -> first_round Pr) (seed : nat -> bytes) (sp : nat -> spices Pr) (sk : nat -> scalar Pr) (T : pt) (msg : bytes) (evs : list (nat * event Pr)) (Hc : ctx_reachable c) (Hnew : forall j, j < length (pubkeys c) -> first_round_new c (seed j) j (sp j) = Ok (r0 j)) (Hsk : forall j pk, nth_error (pubkeys c) j = Some pk -> base_mul (sk j) = pk) :
  let n := length (pubkeys c) in
  let N0 := net_start n r0 in
  let N := net_run n r0 sk T msg N0 evs in
  net_todo n N0 = 2 * n * n /\
  (forall j e N', net_step n r0 sk T msg N j e = Some N' -> phases N' = phases N \/ net_todo n N = S (net_todo n N')) /\
  (net_todo n N <> 0 -> exists j e N', genuine N e /\ net_step n r0 sk T msg N j e = Some N' /\ net_todo n N = S (net_todo n N')) /\
  (net_todo n N = 0 <-> forall j, j < n -> nth_error (phases N) j = Some Consumed) /\
  (forall j, nth_error (phases N) j = Some Consumed -> exists o, In (j, EvFinish, o) (net_log N) \/ In (j, EvFinishAdaptor, o) (net_log N)) /\
  (exists evs', length evs' = net_todo n N /\ net_todo n (net_run n r0 sk T msg N evs') = 0).
Proof. exact (@C76_progress_proof Pr Laws Tags c r0 seed sp sk T msg evs Hc Hnew Hsk). Qed.
Print Assumptions C76_progress.

(** The number of things left along [toy_schedule]. *)
Example C76_progress_case :
  map (fun k => net_todo 3 (toy_net k)) [0; 1; 2; 3; 4; 5; 6; 9; 12; 18; 19; 24] = [18; 17; 17; 16; 15; 15; 14; 12; 11; 5; 5; 0].
Proof. vm_compute. reflexivity. Qed.
