(** An output key commits to the group and its merkle root: C105. *)
From Coq Require Import String List.
From Verif Require Import Bytes BytesFacts Prims PrimsFacts TaggedHashes Errors SpecTags SpecBIP327
  KeyAgg SpecExtract SpecFork SpecCollision SpecCommit SpecGroupKey SpecGroupTap Toy ToyData ToyFork ToyGroupKey ToyGroupTap.
Import ListNotations.
Open Scope list_scope.
Open Scope Z_scope.
From Verif Require Import ProofsGroupTap.

(** C105.  A program, which may know all secret keys, asks for at most q of k inputs and then ends with two groups, each a list of at most u public keys, u below the order of the group, and a merkle root or none.
    Let at most c of the N digests share a residue.  Of the N^k hash functions, those with which aggregation and taproot tweak give both groups one output key up to its sign, although the lists, if only in their order, or the roots differ,
    are at most the part ((Q+2)(Q+1) + Q(Q-1)(1+c))/N, where Q = q+2u+2: an output key commits to the members of the group, their order and the scripts. *)
Theorem C105_output_commits_to_group {Pr : prims} {Laws : prims_ok Pr} {Tags : tags_ok Pr} (F : asker (funded Pr * funded Pr)) (inputs digests : list bytes) (q u c : nat) (Hu : Z.of_nat u < n_) (HS : NoDup digests) (HS32 : forall d, In d digests -> length d = 32%nat) (Hc : forall d, In d digests -> (count (@same_residue Pr d) digests <= c)%nat) (HF : funded_within inputs digests q u F) :
  let N := length digests in let Q := (q + 2 * u + 2)%nat in
  (N * count (one_output F) (worlds inputs digests) <= ((Q + 2) * (Q + 1) + Q * (Q - 1) * (1 + c)) * N ^ length inputs)%nat.
Proof. exact (@C105_output_commits_to_group_proof Pr Laws Tags F inputs digests q u c Hu HS HS32 Hc HF). Qed.
Print Assumptions C105_output_commits_to_group.

(** A program that asks for the digest of the list of 3*G and 5*G and ends with this list and a root, and either the other order or the same list, without a root.  All coefficients are 1, so both lists give 8*G:
    the output keys are one when the tweaks with and without a root are equal. *)
Example C105_case :
  funded_within gt_inputs gk_digests 1 2 gt_program /\ Z.of_nat 2 < @n_ Toy /\
  NoDup gk_digests /\ (forall d, In d gk_digests -> (count (@same_residue Toy d) gk_digests <= 1)%nat) /\
  one_output gt_program (gt_world 1 4 4) = true /\ one_output gt_program (gt_world 2 7 7) = true /\ one_output gt_program (gt_world 1 4 7) = false.
Proof. split; [exact gt_within|]. split; [reflexivity|]. split; [apply gk_distinct|]. split; [apply gk_distinct|]. repeat split; vm_compute; reflexivity. Qed.
