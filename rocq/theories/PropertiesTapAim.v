(** Nobody aims at a taproot output key, and the tweak is rarely refused: C107. *)
From Coq Require Import String List.
From Verif Require Import Bytes BytesFacts Prims PrimsFacts TaggedHashes Errors SpecTags SpecBIP327
  KeyAgg SpecExtract SpecFork SpecCollision SpecCommit SpecGroupKey SpecGroupTap SpecTapAim Toy ToyData ToyFork ToyGroupKey ToyGroupTap ToyTapAim.
Import ListNotations.
Open Scope list_scope.
Open Scope Z_scope.
From Verif Require Import ProofsTapAim.

(** C107.  A program, which may know all secret keys, asks for at most q of k inputs and then ends with a list of at most u public keys and a merkle root or none.
    Of the N^k hash functions over N digests, those with which aggregation and taproot tweak give an output key with a given x coordinate are at most the part 2(q+u+2)/N:
    no choice of members and scripts, made with whatever knowledge, aims at an output key fixed beforehand, such as one that holds coins of others. *)
Theorem C107_output_not_aimed {Pr : prims} {Laws : prims_ok Pr} {Tags : tags_ok Pr} (x : bytes) (F : asker (funded Pr)) (inputs digests : list bytes) (q u : nat) (HS : NoDup digests) (HS32 : forall d, In d digests -> length d = 32%nat) (HF : one_funded_within inputs digests q u F) :
  let N := length digests in
  (N * count (tap_aimed x F) (worlds inputs digests) <= (q + u + 2) * 2 * N ^ length inputs)%nat.
Proof. exact (@C107_output_not_aimed_proof Pr Laws Tags x F inputs digests q u HS HS32 HF). Qed.
Print Assumptions C107_output_not_aimed.

(** A program that asks for the digest of the list of 3*G and 5*G and ends, by the digest, with 4*G and 3*G or with 5*G and 3*G, and a root.  The former have the key 7*G, and with the tweak 1 the output 8*G. *)
Example C107_aimed_case :
  one_funded_within ta_inputs ta_digests 1 2 ta_program /\ NoDup ta_digests /\ (forall d, In d ta_digests -> length d = 32%nat) /\
  tap_aimed ta_x ta_program (ta_world 2 1) = true /\ tap_aimed ta_x ta_program (ta_world 2 2) = false /\ tap_aimed ta_x ta_program (ta_world 1 1) = false.
Proof. split; [exact ta_within|]. split; [apply ta_distinct|]. split; [apply ta_distinct|]. repeat split; vm_compute; reflexivity. Qed.

(** C107, the error.  With the same notation, let b of the N digests be no secret keys (zero, or not below the order).  Those hash functions with which the group has a key but [with_taproot_tweak] refuses the root are at most the part (q+u+2)(b+1)/N. *)
Theorem C107_tweak_refused {Pr : prims} {Laws : prims_ok Pr} {Tags : tags_ok Pr} (F : asker (funded Pr)) (inputs digests : list bytes) (q u : nat) (HS : NoDup digests) (HS32 : forall d, In d digests -> length d = 32%nat) (HF : one_funded_within inputs digests q u F) :
  let N := length digests in let b := count (@no_scalar Pr) digests in
  (N * count (tap_refused F) (worlds inputs digests) <= (q + u + 2) * (b + 1) * N ^ length inputs)%nat.
Proof. exact (@C107_tweak_refused_proof Pr Laws Tags F inputs digests q u HS HS32 HF). Qed.
Print Assumptions C107_tweak_refused.

(** The same program: the tweak is refused if it is 40, not below the order, or 24, which cancels 7*G. *)
Example C107_refused_case : tap_refused ta_program (ta_world 2 24) = true /\ tap_refused ta_program (ta_world 2 40) = true /\ tap_refused ta_program (ta_world 1 40) = true /\ tap_refused ta_program (ta_world 1 24) = false /\ count (@no_scalar Toy) ta_digests = 1%nat.
Proof. repeat split; vm_compute; reflexivity. Qed.
(** On secp256k1 fewer than 2^129 of all 256-bit digests are no secret keys: with 2^64 questions and a thousand keys the part is below 2^-62. *)
Example C107_size : 2 ^ 256 - 0xFFFFFFFFFFFFFFFFFFFFFFFFFFFFFFFEBAAEDCE6AF48A03BBFD25E8CD0364141 + 1 < 2 ^ 129 /\ (2 ^ 64 + 1000 + 2) * (2 ^ 129 + 1) * 2 ^ 62 < 2 ^ 256.
Proof. split; reflexivity. Qed.
