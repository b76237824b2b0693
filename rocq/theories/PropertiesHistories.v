(** Whole lives of a signer: every sequence of calls on a round object (C56), and signers that
    are restarted (C55). *)
From Coq Require Import String List.
From Verif Require Import Bytes BytesFacts Prims PrimsFacts TaggedHashes Errors SpecTags SpecBIP327
  KeyAgg Nonces Signature Signing SigAgg Bip340 Rounds SpecCtx SpecView SpecSession SpecRounds SpecMachine SpecNonces Sha256
  Toy ToyData ToyRounds ToyHistories.
Import ListNotations.
Open Scope list_scope.
Open Scope nat_scope.
From Verif Require Import ProofsHistories.

(** C56.  Whatever a caller does with a round object: no call panics; the log consists of
    deliveries of nonces, then at most one call that uses the secrets, then deliveries of
    signatures and at most one finishing call.  A partial signature is that of the session
    given to the call (for [finalize], the session of the nonces on file) with the secret nonce made
    by [new]. *)
Theorem C56_every_history {Pr : prims} {Laws : prims_ok Pr} {Tags : tags_ok Pr} (r0 : first_round Pr) (calls : list (mcall Pr)) (Hr : fr_started r0) :
  let log := snd (mrun (Collecting r0) calls) in
  let c := fr_ctx r0 in
  (forall k o, In (k, o) log -> ~ panicked o) /\
  (exists ns tl, log = ns ++ tl /\
     (forall k o, In (k, o) ns -> exists i n, k = CNonce i n) /\
     (tl = [] \/ exists k o ss fin, tl = (k, o) :: ss ++ fin /\ uses_secrets k = true /\
        (forall k' o', In (k', o') ss -> exists i s, k' = CSignature i s) /\
        (fin = [] \/ exists o', fin = [(CFinish, o')] \/ fin = [(CFinishAdaptor, o')]))) /\
  length (filter (fun e => uses_secrets (fst e)) log) <= 1 /\
  (forall sk T msg an s, released r0 log sk T msg an s ->
     In (base_mul sk) (pubkeys c) /\ fz s = spec_psig c sk (fr_secnonce r0) an T msg).
Proof. exact (@C56_every_history_proof Pr Laws Tags r0 calls Hr). Qed.
Print Assumptions C56_every_history.

(** Signer 0 receives garbage and the other nonces, signs, tries to sign again, receives garbage and the
    signatures and finishes twice ([toy_calls]): eight of the eleven calls take place. *)
Example C56_history_case : fr_started (toy_r0 0) /\
  map (fun e => uses_secrets (fst e)) (snd (mrun (Collecting (toy_r0 0)) toy_calls))
  = [false; false; false; true; false; false; false; false].
Proof. split; [apply toy_r0_started; auto|]. vm_compute. reflexivity. Qed.

(** C56.  A final signature that any history yields belongs to the one signing call of the log:
    each other signer's partial signature, valid for the nonces on file, was delivered before, and
    the signature is valid under the aggregated key for the message (for the adaptor point) of
    that call. *)
Theorem C56_final_signatures {Pr : prims} {Laws : prims_ok Pr} {Tags : tags_ok Pr} (r0 : first_round Pr) (calls : list (mcall Pr)) (Hr : fr_started r0) :
  let log := snd (mrun (Collecting r0) calls) in
  let c := fr_ctx r0 in
  let Q := aggregated_pubkey c in
  let all_signed := fun (T : pt) (msg : bytes) => exists sk s pns,
     In (CSign sk T msg, RPartial (Ok s)) log /\ nonces_on_file r0 log pns /\
     forall j, j < length (pubkeys c) -> j <> fr_index r0 -> exists sj,
       In (CSignature j sj, RReceived (Ok tt)) log /\ session_valid c pns T msg j sj in
  (forall l, In (CFinish, RFinal (Ok l)) log -> exists T msg, all_signed T msg /\
     (T = pt_O -> verify_single_lifted Q l msg = Ok tt /\
                  schnorr_verify msg (xbytes Q) (lifted_to_bytes l) = Ret true)) /\
  (forall sg, In (CFinishAdaptor, RFinalAdaptor (Ok sg)) log -> exists T msg, all_signed T msg /\
     verify_single_adaptor Q sg msg T = Ok tt /\
     forall t l, T = gmul t -> adapt sg t = Some l -> verify_single_lifted Q l msg = Ok tt).
Proof. exact (@C56_final_signatures_proof Pr Laws Tags r0 calls Hr). Qed.
Print Assumptions C56_final_signatures.

Example C56_final_case : fr_started (toy_r0 0) /\
  existsb (fun e => match e with (CFinish, RFinal (Ok l)) => is_ok (verify_single_lifted (aggregated_pubkey toy_c) l toy_msg) | _ => false end)
    (snd (mrun (Collecting (toy_r0 0)) toy_calls)) = true.
Proof. split; [apply toy_r0_started; auto|]. vm_compute. reflexivity. Qed.

(** C56.  Two signers of one context, each with any history, that have the same nonces on file and
    signed the same message for the same adaptor point end with the same signature, whatever
    the network and the other signers do. *)
Theorem C56_agreement {Pr : prims} {Laws : prims_ok Pr} {Tags : tags_ok Pr} (r1 : first_round Pr) (r2 : first_round Pr) (calls1 : list (mcall Pr)) (calls2 : list (mcall Pr)) (pns : list (pub_nonce Pr)) (T : pt) (msg : bytes) (Hr1 : fr_started r1) (Hr2 : fr_started r2) (Hc : fr_ctx r1 = fr_ctx r2) :
  let log1 := snd (mrun (Collecting r1) calls1) in
  let log2 := snd (mrun (Collecting r2) calls2) in
  (exists sk s, In (CSign sk T msg, RPartial (Ok s)) log1) -> nonces_on_file r1 log1 pns ->
  (exists sk s, In (CSign sk T msg, RPartial (Ok s)) log2) -> nonces_on_file r2 log2 pns ->
  (forall l1 l2, In (CFinish, RFinal (Ok l1)) log1 -> In (CFinish, RFinal (Ok l2)) log2 -> l1 = l2) /\
  (forall a1 a2, In (CFinishAdaptor, RFinalAdaptor (Ok a1)) log1 -> In (CFinishAdaptor, RFinalAdaptor (Ok a2)) log2 -> a1 = a2).
Proof. exact (@C56_agreement_proof Pr Laws Tags r1 r2 calls1 calls2 pns T msg Hr1 Hr2 Hc). Qed.
Print Assumptions C56_agreement.

(** Signers 0 ([toy_calls]) and 2 ([toy_calls2]) with different deliveries; the nonces on file
    agree. *)
Example C56_agreement_case : fr_started (toy_r0 0) /\ fr_started (toy_r0 2) /\ fr_ctx (toy_r0 0) = fr_ctx (toy_r0 2) /\
  existsb (fun e => match e with (CFinish, RFinal (Ok l)) => true | _ => false end) (snd (mrun (Collecting (toy_r0 2)) toy_calls2)) = true /\
  forallb (fun j => match on_file ((0, toy_pn 0) :: nonces_of (snd (mrun (Collecting (toy_r0 0)) toy_calls))) j,
                          on_file ((2, toy_pn 2) :: nonces_of (snd (mrun (Collecting (toy_r0 2)) toy_calls2))) j with
                    | Some a, Some b => pubnonce_eqb a b | _, _ => false end) [0; 1; 2] = true.
Proof.
  split; [apply toy_r0_started; auto|]. split; [apply toy_r0_started; auto|].
  split; [transitivity toy_c; [|symmetry]; apply toy_r0_ctx; auto|]. split; vm_compute; reflexivity.
Qed.

(** C55.  A signer restarted with the same seed, index, context and spices repeats the public
    nonce.  Whatever the histories of three such lives, three released partial signatures satisfy a
    linear equation for the secret key, in which all else is public; it determines the key unless
    its coefficient (a determinant) vanishes. *)
Theorem C55_same_seed_same_nonce {Pr : prims} {Laws : prims_ok Pr} {Tags : tags_ok Pr} (c : key_agg_ctx Pr) (seed : bytes) (i : nat) (sp : spices Pr) (r : nat -> first_round Pr) (calls : nat -> list (mcall Pr)) (sk : scalar Pr) (an : nat -> agg_nonce Pr) (T : nat -> pt) (msg : nat -> bytes) (s : nat -> mscalar Pr) (Hc : ctx_reachable c) (Hr : forall l, l < 3 -> first_round_new c seed i sp = Ok (r l)) (Hs : forall l, l < 3 -> released (r l) (snd (mrun (Collecting (r l)) (calls l))) sk (T l) (msg l) (an l) (s l)) :
  let v := fun l => spec_values c (an l) (T l) (msg l) in
  let sigma := fun l => (if has_even_y (pt_add (v_R (v l)) (T l)) then 1 else -1)%Z in
  let b := fun l => (sigma l * v_b (v l))%Z in
  let w := fun l => (v_e (v l) * spec_a c (base_mul sk) * (spec_g (v l) * v_gacc (v l)))%Z in
  let det := fun col : nat -> Z =>
      (sigma 0%nat * (b 1%nat * col 2%nat - b 2%nat * col 1%nat)
     - sigma 1%nat * (b 0%nat * col 2%nat - b 2%nat * col 0%nat)
     + sigma 2%nat * (b 0%nat * col 1%nat - b 1%nat * col 0%nat))%Z in
  (forall l, l < 3 -> our_public_nonce (r l) = our_public_nonce (r 0)) /\
  ((det w * fz sk) mod n_ = det (fun l => fz (s l)) mod n_)%Z /\
  ((det w mod n_ <> 0)%Z -> forall x : scalar Pr, ((det w * fz x) mod n_ = det (fun l => fz (s l)) mod n_)%Z -> x = sk).
Proof. exact (@C55_same_seed_same_nonce_proof Pr Laws Tags c seed i sp r calls sk an T msg s Hc Hr Hs). Qed.
Print Assumptions C55_same_seed_same_nonce.

(** Signer 0 is restarted twice with the seed of the first life and signs three messages
    ([toy_life]). *)
Example C55_case : ctx_reachable toy_c /\ first_round_new toy_c toy_seed 0 spices_new = Ok (toy_r0 0) /\
  forallb (fun m => existsb (fun e => match e with (CSign _ _ _, RPartial (Ok _)) => true | _ => false end)
                      (snd (mrun (Collecting (toy_r0 0)) (toy_life m)))) [[x01]; [x02]; [x04]] = true /\
  let an := agg_sum [toy_pn 0; toy_pn 1; toy_pn 2] in
  let v := fun m => spec_values toy_c an pt_O m in
  let sg := fun m => (if has_even_y (pt_add (v_R (v m)) pt_O) then 1 else -1)%Z in
  let b := fun m => (sg m * v_b (v m))%Z in
  let w := fun m => (v_e (v m) * spec_a toy_c (base_mul sk_a) * (spec_g (v m) * v_gacc (v m)))%Z in
  let m0 := [x01] in let m1 := [x02] in let m2 := [x04] in
  ((sg m0 * (b m1 * w m2 - b m2 * w m1) - sg m1 * (b m0 * w m2 - b m2 * w m0)
     + sg m2 * (b m0 * w m1 - b m1 * w m0)) mod 31 =? 0)%Z = false.
Proof. split; [exact toy_c_reach|]. split; [apply toy_r0_eq; auto|]. split; vm_compute; reflexivity. Qed.

(** C55.  Two first rounds that share one of the points of their public nonces agree on the
    signer's key and index, the x-only aggregated key, the message and the extra inputs of the
    spices and on the masked seed (hence, for equal seeds, on the secret key of the spices);
    otherwise the two strings they hash, which then differ, have digests that agree modulo the
    order (with 0 replaced by 1).  So a restarted signer that passes the message to be signed in the spices
    is safe even if the seed repeats. *)
Theorem C55_fresh_message_fresh_nonce {Pr : prims} {Laws : prims_ok Pr} {Tags : tags_ok Pr} (c1 : key_agg_ctx Pr) (c2 : key_agg_ctx Pr) (seed1 : bytes) (seed2 : bytes) (i1 : nat) (i2 : nat) (sp1 : spices Pr) (sp2 : spices Pr) (r1 : first_round Pr) (r2 : first_round Pr) (pk1 : point Pr) (pk2 : point Pr) (H1 : first_round_new c1 seed1 i1 sp1 = Ok r1) (H2 : first_round_new c2 seed2 i2 sp2 = Ok r2) (P1 : get_pubkey c1 i1 = Some pk1) (P2 : get_pubkey c2 i2 = Some pk2) (L1 : forall m, sp_message sp1 = Some m -> (zlen m < 2 ^ 64)%Z) (L2 : forall m, sp_message sp2 = Some m -> (zlen m < 2 ^ 64)%Z) :
  let hashed1 := round_nonce_input seed1 i1 pk1 (aggregated_pubkey c1) sp1 in
  let hashed2 := round_nonce_input seed2 i2 pk2 (aggregated_pubkey c2) sp2 in
  let collide := fun n1 n2 : byte => hashed1 n1 <> hashed2 n2 /\
    Z.max 1 (nonce_int (Pr := Pr) (hashed1 n1)) = Z.max 1 (nonce_int (Pr := Pr) (hashed2 n2)) in
  let agree := (Z.of_nat i1 mod 2 ^ 32 = Z.of_nat i2 mod 2 ^ 32)%Z /\ pk1 = pk2 /\
     xbytes (aggregated_pubkey c1) = xbytes (aggregated_pubkey c2) /\
     sp_message sp1 = sp_message sp2 /\ concat (sp_extra_inputs sp1) = concat (sp_extra_inputs sp2) /\
     masked_seed seed1 (sp_seckey sp1) = masked_seed seed2 (sp_seckey sp2) /\
     (seed1 = seed2 -> sp_seckey sp1 = sp_seckey sp2) in
  (pR1 (our_public_nonce r1) = pR1 (our_public_nonce r2) -> collide x00 x00 \/ agree) /\
  (pR2 (our_public_nonce r1) = pR2 (our_public_nonce r2) -> collide x01 x01 \/ agree) /\
  (pR1 (our_public_nonce r1) = pR2 (our_public_nonce r2) -> collide x00 x01) /\
  (pR1 (our_public_nonce r1) = pR2 (our_public_nonce r1) ->
     hashed1 x00 <> hashed1 x01 /\ Z.max 1 (nonce_int (Pr := Pr) (hashed1 x00)) = Z.max 1 (nonce_int (Pr := Pr) (hashed1 x01))).
Proof. exact (@C55_fresh_message_fresh_nonce_proof Pr Laws Tags c1 c2 seed1 seed2 i1 i2 sp1 sp2 r1 r2 pk1 pk2 H1 H2 P1 P2 L1 L2). Qed.
Print Assumptions C55_fresh_message_fresh_nonce.

(** The same seed, the message in the spices. *)
Example C55_fresh_case :
  is_ok (first_round_new toy_c toy_seed 0 (sp_with_message spices_new toy_msg)) = true /\
  is_ok (first_round_new toy_c toy_seed 0 (sp_with_message spices_new [x09])) = true /\
  (forall m, sp_message (Pr := Toy) (sp_with_message spices_new toy_msg) = Some m -> (zlen m < 2 ^ 64)%Z).
Proof. split; [vm_compute; reflexivity|]. split; [vm_compute; reflexivity|]. intros m E; injection E as <-; reflexivity. Qed.
