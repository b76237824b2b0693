(** Signatures of a single signer rarely share a nonce: C99. *)
From Coq Require Import String List.
From Verif Require Import Bytes BytesFacts Prims PrimsFacts TaggedHashes Errors SpecTags SpecBIP327
  Nonces Signature Bip340 SpecExtract SpecFork SpecSolo Toy ToyData ToyFork ToySolo.
Import ListNotations.
Open Scope list_scope.
Open Scope Z_scope.
From Verif Require Import ProofsSolo.

(** C99.  A program, which may know the secret key and so make signatures itself, asks for at most q of k inputs, then orders at most M signatures from a single signer, plain ones or under adaptor points,
    no two with the same seed and the same message; all seeds may be the same.  Let at most c of the N digests give the same nonce up to its sign.  Of the N^k hash functions, those with which two
    of the signatures share a nonce up to its sign are at most the part (q+2M)(q+2M-1)c/2N.  So the pairs of signatures that give the secret key away (C64) come about only if one message is signed twice
    with one seed, under different adaptor points (C49). *)
Theorem C99_solo_nonces_fresh {Pr : prims} {Laws : prims_ok Pr} {Tags : tags_ok Pr} (M : nat) (sk : scalar Pr) (F : asker (list (order_ Pr))) (inputs digests : list bytes) (q c : nat) (HS : NoDup digests) (HS32 : forall d, In d digests -> length d = 32%nat) (Hc : forall d, In d digests -> (count (@same_up_to_sign Pr d) digests <= c)%nat) (HF : orders_within M sk inputs digests q F) :
  let N := length digests in
  let q' := (q + 2 * M)%nat in
  (2 * (N * count (nonce_shared M sk F) (worlds inputs digests)) <= q' * (q' - 1) * (N ^ length inputs * c))%nat.
Proof. exact (@C99_solo_nonces_fresh_proof Pr Laws Tags M sk F inputs digests q c HS HS32 Hc HF). Qed.
Print Assumptions C99_solo_nonces_fresh.

(** One seed, a plain signature of one message and an adaptor signature of another, with nothing asked for.  They share a nonce if the digests are equal or add up to the order; the bound is 36/62. *)
Example C99_case :
  let digests := @residues Toy in
  orders_within 2 sk_a solo_inputs digests 0 solo_program /\ (forall d, In d digests -> (count (@same_up_to_sign Toy d) digests <= 3)%nat) /\
  nonce_shared 2 sk_a solo_program (solo_world 5 5) = true /\ nonce_shared 2 sk_a solo_program (solo_world 5 26) = true /\ nonce_shared 2 sk_a solo_program (solo_world 5 6) = false /\
  Nat.ltb (4 * (4 - 1) * 3) (2 * 31) = true.
Proof. cbv zeta. split; [exact solo_within|]. split; [exact solo_few|]. repeat split; vm_compute; reflexivity. Qed.
