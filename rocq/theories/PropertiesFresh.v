(** Nonces made from different inputs rarely come up twice: C97. *)
From Coq Require Import String List.
From Verif Require Import Bytes BytesFacts Prims PrimsFacts TaggedHashes Errors SpecTags SpecBIP327
  KeyAgg Nonces Signature Signing SigAgg Bip340 SpecExtract SpecFork SpecFresh Toy ToyData ToyFork ToyFresh.
Import ListNotations.
Open Scope list_scope.
Open Scope Z_scope.
From Verif Require Import ProofsFresh.

(** C97.  A program asks for at most q of k inputs, then chooses what is given to at most M builders: seeds, public keys, aggregated keys, messages and extra inputs,
    no two alike, perhaps with one seed for all of them.  The secret key is the same for all, or
    absent for all.  Let at most c of the N digests give the same nonce.  Of the N^k hash functions, those with which two of the 2M secret scalars
    made by [build] are equal are at most the part (q+3M)(q+3M-1)c/2N.  So the reuse of nonces that gives
    the secret key away (C46, C82) does not come about unless a caller repeats everything it gives. *)
Theorem C97_nonces_fresh {Pr : prims} {Laws : prims_ok Pr} {Tags : tags_ok Pr} (M : nat) (sk : option (scalar Pr)) (F : asker (list (builder Pr))) (inputs digests : list bytes) (q c : nat) (HS : NoDup digests) (HS32 : forall d, In d digests -> length d = 32%nat) (Hc : forall d, In d digests -> (count (@same_nonce Pr d) digests <= c)%nat) (HF : nonces_within M sk inputs digests q F) :
  let N := length digests in
  let q' := (q + 3 * M)%nat in
  (2 * (N * count (nonce_repeats M sk F) (worlds inputs digests)) <= q' * (q' - 1) * (N ^ length inputs * c))%nat.
Proof. exact (@C97_nonces_fresh_proof Pr Laws Tags M sk F inputs digests q c HS HS32 Hc HF). Qed.
Print Assumptions C97_nonces_fresh.

(** Two builders with one seed, one key and two messages, given without asking for anything.  With a hash function that is constant the four nonces are equal; with another they
    are not; and the bound for the part of the hash functions with which one comes up twice is 30/31. *)
Example C97_case :
  let digests := @residues Toy in
  nonces_within 2 (Some sk_a) fresh_inputs digests 0 fresh_program /\ (forall d, In d digests -> (count (@same_nonce Toy d) digests <= 2)%nat) /\
  nonce_repeats 2 (Some sk_a) fresh_program fresh_constant = true /\ nonce_repeats 2 (Some sk_a) fresh_program fresh_varied = false /\
  Nat.ltb (6 * (6 - 1) * 2) (2 * 31) = true.
Proof. cbv zeta. split; [exact fresh_within|]. split; [exact fresh_few|]. repeat split; vm_compute; reflexivity. Qed.
