(** What a refused partial signature says about its sender, and what an infinite nonce reveals:
    C78. *)
From Coq Require Import String List Arith Lia.
From Verif Require Import Bytes BytesFacts Prims PrimsFacts TaggedHashes Errors SpecTags SpecBIP327
  KeyAgg Nonces Signature Signing SigAgg Bip340 Rounds SpecCtx SpecView SpecSession SpecRounds Toy ToyData ToyRounds ToyBlame.
Import ListNotations.
Open Scope list_scope.
Open Scope nat_scope.
From Verif Require Import ProofsBlame.

(** C78.  Some signers follow the protocol on a common context, each with its own key, and what
    the first nonce delivered from one of them to another is, is its own; everybody else sends
    whatever they like, different things to different signers.  Let i and j be two of the
    honest signers and s the signature of i, delivered to j after anything else.  It is accepted
    exactly if i would have made the same signature from what j knows.  So it is accepted when
    both have the same aggregated nonce (the single nonces need not be the same), message and
    adaptor point.  When it is refused, the error names i, and yet i is honest: then they have
    different messages or adaptor points, or another signer, not one of the honest, has sent
    i and j different nonces. *)
Theorem C78_blame {Pr : prims} {Laws : prims_ok Pr} {Tags : tags_ok Pr} (c : key_agg_ctx Pr) (honest : nat -> Prop) (r0 : nat -> first_round Pr) (seed : nat -> bytes) (sp : nat -> spices Pr) (sk : nat -> scalar Pr) (calls1 : nat -> list (nat * pub_nonce Pr)) (T : nat -> pt) (msg : nat -> bytes) (sr : nat -> second_round Pr) (Hc : ctx_reachable c) (Hnew : forall j, honest j -> first_round_new c (seed j) j (sp j) = Ok (r0 j)) (Hsk : forall j, honest j -> nth_error (pubkeys c) j = Some (base_mul (sk j))) (Hfirst : forall j i, honest j -> honest i -> on_file ((j, our_public_nonce (r0 j)) :: calls1 j) i = Some (our_public_nonce (r0 i))) (Hfin : forall j, honest j -> fr_finalize_adaptor (fst (fr_run (r0 j) (calls1 j))) (sk j) (T j) (msg j) = Ok (sr j)) :
let filed := fun j => on_file ((j, our_public_nonce (r0 j)) :: calls1 j) in
  forall i j s calls2, honest i -> honest j -> our_signature (sr i) = Ok s ->
  let o := snd (receive_signature (fst (sr_run (sr j) calls2)) i s) in
  (o = Ok tt <-> fz s = spec_psig c (sk i) (fr_secnonce (r0 i)) (aggregated_nonce (sr j)) (T j) (msg j)) /\
  (aggregated_nonce (sr i) = aggregated_nonce (sr j) -> T i = T j -> msg i = msg j -> o = Ok tt) /\
  (o <> Ok tt ->
     o = Err (RoundContributionError i InvalidSignature) /\
     (T i = T j -> msg i = msg j ->
        exists k, k < length (pubkeys c) /\ ~ honest k /\ filed i k <> filed j k)).
Proof. exact (@C78_blame_proof Pr Laws Tags c honest r0 seed sp sk calls1 T msg sr Hc Hnew Hsk Hfirst Hfin). Qed.
Print Assumptions C78_blame.

Example C78_blame_case : ctx_reachable toy_c /\ (forall j, j < 3 -> first_round_new toy_c toy_seed j spices_new = Ok (toy_r0 j)) /\
  (forall j, j < 3 -> fr_finalize_adaptor (fst (fr_run (toy_r0 j) toy_ncalls)) (toy_sk j) pt_O toy_msg = Ok (toy_sr0 j)) /\
  is_ok (snd (receive_signature (toy_sr0 0) 1 (toy_s 1))) = true /\
  (forall j, j < 2 -> fr_finalize_adaptor (fst (fr_run (toy_r0 j) (toy_two_faced j))) (toy_sk j) pt_O toy_msg = Ok (toy_sr2 j)) /\
  is_ok (snd (receive_signature (toy_sr2 0) 1 (toy_sig_of (toy_sr2 1)))) = false.
Proof.
  split; [exact toy_c_reach|]. split; [exact toy_r0_eq|]. split; [exact toy_sr0_eq|]. split; [vm_compute; reflexivity|].
  split; [exact toy_sr2_eq | vm_compute; reflexivity].
Qed.

(** README.md and doc/API.md say that an invalid partial signature is to be blamed on its
    sender.  Here signers 0 and 1 follow the protocol and receive each other's nonces and
    signatures as sent; signer 2 has sent them different nonces.  Signer 1's signature is refused
    by signer 0 with an error naming signer 1. *)

Theorem C78_sender_is_culprit_refuted :
exists (c : key_agg_ctx Toy) (r0 : nat -> first_round Toy) (seed : nat -> bytes) (sp : nat -> spices Toy) (sk : nat -> scalar Toy) (calls1 : nat -> list (nat * pub_nonce Toy)) (T : pt) (msg : bytes) (sr : nat -> second_round Toy) (s : mscalar Toy),
    let honest := fun j => j = 0 \/ j = 1 in
    ctx_reachable c /\
    (forall j, honest j -> first_round_new c (seed j) j (sp j) = Ok (r0 j)) /\
    (forall j, honest j -> nth_error (pubkeys c) j = Some (base_mul (sk j))) /\
    (forall j i, honest j -> honest i -> on_file ((j, our_public_nonce (r0 j)) :: calls1 j) i = Some (our_public_nonce (r0 i))) /\
    (forall j, honest j -> fr_finalize_adaptor (fst (fr_run (r0 j) (calls1 j))) (sk j) T msg = Ok (sr j)) /\
    our_signature (sr 1) = Ok s /\
    snd (receive_signature (sr 0) 1 s) = Err (RoundContributionError 1 InvalidSignature).
Proof. exact C78_sender_is_culprit_refuted_proof. Qed.
Print Assumptions C78_sender_is_culprit_refuted.

(** src/nonces.rs:536-542: signing continues with an infinite nonce so that "dishonest signers
    will reveal themselves once they are required to provide their partial signatures".  This is
    right in the following sense: if R1 + b*R2 is infinite and all partial signatures verify
    nevertheless, they add up to the challenge times the aggregated secret key (that of the even
    form of the key).  Everybody can then compute this key, so nobody who does not know it can
    have supplied the last of these signatures. *)
Theorem C78_infinite_nonce {Pr : prims} {Laws : prims_ok Pr} {Tags : tags_ok Pr} (c : key_agg_ctx Pr) (pns : list (pub_nonce Pr)) (T : pt) (sigs : list (mscalar Pr)) (msg : bytes) (Hc : ctx_reachable c) (Hpn : length pns = length (pubkeys c)) (Hs : length sigs = length (pubkeys c)) (Hv : forall i pk pn s, nth_error (pubkeys c) i = Some pk -> nth_error pns i = Some pn -> nth_error sigs i = Some s -> verify_partial_adaptor c s (agg_sum pns) T pk pn msg = Ok tt) (HR : spec_R_raw c (agg_sum pns) msg = pt_O) :
let Q := aggregated_pubkey c in
  let e := v_e (spec_values c (agg_sum pns) T msg) in
  let s := spec_agg_s c (agg_sum pns) T sigs msg in
  (exists d : scalar Pr, base_mul d = Q /\ (e * (if has_even_y Q then fz d else n_ - fz d) mod n_)%Z = s) /\
  (e <> 0%Z -> forall d : scalar Pr,
     base_mul d = Q <-> (e * (if has_even_y Q then fz d else n_ - fz d) mod n_)%Z = s).
Proof. exact (@C78_infinite_nonce_proof Pr Laws Tags c pns T sigs msg Hc Hpn Hs Hv HR). Qed.
Print Assumptions C78_infinite_nonce.

(** Nonces of the three toy signers that cancel; the aggregated key is 19*G, odd. *)
Example C78_infinite_case : ctx_reachable toy_c /\
  forallb (fun p : (point Toy * pub_nonce Toy) * mscalar Toy =>
     is_ok (verify_partial_adaptor toy_c (snd p) (agg_sum (map public_nonce toy_bad_sns)) pt_O (fst (fst p)) (snd (fst p)) toy_msg))
   (combine (combine (pubkeys toy_c) (map public_nonce toy_bad_sns)) (sign_all toy_c toy_bad_sns pt_O toy_msg)) = true /\
  pt_eqb (spec_R_raw toy_c (agg_sum (map public_nonce toy_bad_sns)) toy_msg) pt_O = true /\
  v_e (spec_values toy_c (agg_sum (map public_nonce toy_bad_sns)) pt_O toy_msg) = 5%Z /\ has_even_y (aggregated_pubkey toy_c) = false /\
  spec_agg_s toy_c (agg_sum (map public_nonce toy_bad_sns)) pt_O (sign_all toy_c toy_bad_sns pt_O toy_msg) toy_msg = 29%Z /\
  pt_eqb (base_mul (tsc 19)) (aggregated_pubkey toy_c) = true /\ (5 * (31 - 19) mod 31)%Z = 29%Z.
Proof. split; [exact toy_c_reach|]. vm_compute. repeat split. Qed.
