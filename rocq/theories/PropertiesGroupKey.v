(** Different lists of keys rarely have one aggregated key: C104. *)
From Coq Require Import String List.
From Verif Require Import Bytes BytesFacts Prims PrimsFacts TaggedHashes Errors SpecTags SpecBIP327
  KeyAgg SpecExtract SpecFork SpecCollision SpecGroupKey Toy ToyData ToyFork ToyBind ToyGroupKey.
Import ListNotations.
Open Scope list_scope.
Open Scope Z_scope.
From Verif Require Import ProofsGroupKey.

(** C104.  A program, which may know all secret keys, asks for at most q of k inputs and then ends with two lists of at most u public keys, u below the order of the group.  Let at most c of the N digests share a residue.
    Of the N^k hash functions, those with which the two lists differ, if only in the order of the keys, and yet have one aggregated key up to its sign,
    are at most the part (q+2u+2)(q+2u+1)(1+c)/N: an aggregated key commits to its members and their order. *)
Theorem C104_lists_one_key {Pr : prims} {Laws : prims_ok Pr} {Tags : tags_ok Pr} (F : asker (list (point Pr) * list (point Pr))) (inputs digests : list bytes) (q u c : nat) (Hu : Z.of_nat u < n_) (HS : NoDup digests) (HS32 : forall d, In d digests -> length d = 32%nat) (Hc : forall d, In d digests -> (count (@same_residue Pr d) digests <= c)%nat) (HF : key_lists_within inputs digests q u F) :
  let N := length digests in
  (N * count (one_group_key F) (worlds inputs digests) <= (q + 2 * u + 2) * (q + 2 * u + 1) * (N ^ length inputs * (1 + c)))%nat.
Proof. exact (@C104_lists_one_key_proof Pr Laws Tags F inputs digests q u c Hu HS HS32 Hc HF). Qed.
Print Assumptions C104_lists_one_key.

(** A program that asks for the digest of the list of 3*G and 5*G and chooses the other list by it.  With the coefficients 1 and 1 both orders of 3*G and 5*G give 8*G, with 1 and 4 they give 8*G and -8*G. *)
Example C104_case :
  key_lists_within gk_inputs gk_digests 1 2 gk_program /\ Z.of_nat 2 < @n_ Toy /\
  NoDup gk_digests /\ (forall d, In d gk_digests -> (count (@same_residue Toy d) gk_digests <= 1)%nat) /\
  one_group_key gk_program (gk_world 1 1 1) = true /\ one_group_key gk_program (gk_world 1 1 4) = true /\
  one_group_key gk_program (gk_world 1 1 2) = false /\ one_group_key gk_program (gk_world 2 1 1) = false.
Proof. split; [exact gk_within|]. split; [reflexivity|]. split; [apply gk_distinct|]. split; [apply gk_distinct|]. repeat split; vm_compute; reflexivity. Qed.
(** With 256-bit digests, of which at most two share a residue, 2^64 questions and lists of a thousand keys the part is below 2^-126. *)
Example C104_size : (2 ^ 64 + 2 * 1000 + 2) * (2 ^ 64 + 2 * 1000 + 1) * (1 + 2) * 2 ^ 126 < 2 ^ 256.
Proof. reflexivity. Qed.
