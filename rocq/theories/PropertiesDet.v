(** Deterministic signatures of different messages rarely share a nonce: C100. *)
From Coq Require Import String List NArith.
From Verif Require Import Bytes BytesFacts Prims PrimsFacts TaggedHashes Errors SpecTags SpecBIP327 SpecRfc6979
  Nonces Signature Bip340 Deterministic SpecExtract SpecFork SpecSolo SpecDet Toy ToyData ToyFork ToySolo ToyDet.
Import ListNotations.
Open Scope list_scope.
Open Scope Z_scope.
From Verif Require Import ProofsDet.

(** C100.  A program, which may know the secret key, asks for at most q of k inputs, then orders at most M deterministic signatures of different messages, plain ones or under adaptor points;
    the seeds come from RFC 6979, with at most [fuel] candidates, each tried with the same hash function.  Let at most c of the N digests give the same nonce up to its sign.  Of the N^k hash functions, those with which two
    of the signatures share a nonce up to its sign are at most the part q'(q'-1)c/2N, where q' = q + (11 + 6 fuel)M counts what signing hashes.
    One message under two adaptor points is another matter: its nonces are always the same (C49). *)
Theorem C100_det_nonces_fresh {Pr : prims} {Laws : prims_ok Pr} {Tags : tags_ok Pr} (fuel M : nat) (sk : scalar Pr) (F : asker (list (det_order Pr))) (inputs digests : list bytes) (q c : nat) (HS : NoDup digests) (HS32 : forall d, In d digests -> length d = 32%nat) (Hc : forall d, In d digests -> (count (@same_up_to_sign Pr d) digests <= c)%nat) (HF : det_within fuel M sk inputs digests q F) :
  let N := length digests in
  let q' := (q + (11 + 6 * fuel) * M)%nat in
  (2 * (N * count (det_shared fuel M sk F) (worlds inputs digests)) <= q' * (q' - 1) * (N ^ length inputs * c))%nat.
Proof. exact (@C100_det_nonces_fresh_proof Pr Laws Tags fuel M sk F inputs digests q c HS HS32 Hc HF). Qed.
Print Assumptions C100_det_nonces_fresh.

(** A plain signature of one message and an adaptor signature of another, with nothing asked for and up to two candidates.  They share a nonce if the digests for the nonces are equal or add up to the order.
    On a curve with 31 points the bound says nothing.  On secp256k1 at most 8 strings of 32 bytes give the same nonce up to its sign; then for 2^64 questions and 2^40 signatures, with up to 1000 candidates each, the bound is below 2^-120. *)
Example C100_case :
  let digests := @residues Toy in
  det_within 2 2 sk_a (det_inputs 2) digests 0 det_program /\ (forall d, In d digests -> (count (@same_up_to_sign Toy d) digests <= 3)%nat) /\
  det_shared 2 2 sk_a det_program (det_world 5 5) = true /\ det_shared 2 2 sk_a det_program (det_world 5 26) = true /\ det_shared 2 2 sk_a det_program (det_world 5 6) = false /\
  (let q' := 2 ^ 64 + (11 + 6 * 1000) * 2 ^ 40 in q' * (q' - 1) * 8 * 2 ^ 120 <? 2 * 2 ^ 256)%N = true.
Proof. cbv zeta. split; [apply det_within_case|]. split; [exact solo_few|]. repeat split; vm_compute; reflexivity. Qed.
