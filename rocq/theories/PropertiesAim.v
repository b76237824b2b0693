(** Nobody aims at an aggregated key, and aggregation rarely fails: C106. *)
From Coq Require Import String List.
From Verif Require Import Bytes BytesFacts Prims PrimsFacts TaggedHashes Errors SpecTags SpecBIP327
  KeyAgg SpecExtract SpecFork SpecCollision SpecGroupKey SpecAim Toy ToyData ToyFork ToyGroupKey ToyAim.
Import ListNotations.
Open Scope list_scope.
Open Scope Z_scope.
From Verif Require Import ProofsAim.

(** C106.  A program, which may know all secret keys, asks for at most q of k inputs and then ends with a list of at most u public keys, u below the order of the group.  Let at most c of the N digests share a residue and Q = q+u+1.
    Of the N^k hash functions, those with which the aggregated key of the list has a given x coordinate are at most the part (Q(Q-1) + 2cQ)/N:
    no choice of members' keys, made with whatever knowledge, aims at a key fixed beforehand. *)
Theorem C106_key_not_aimed {Pr : prims} {Laws : prims_ok Pr} {Tags : tags_ok Pr} (x : bytes) (F : asker (list (point Pr))) (inputs digests : list bytes) (q u c : nat) (Hu : Z.of_nat u < n_) (HS : NoDup digests) (HS32 : forall d, In d digests -> length d = 32%nat) (Hc : forall d, In d digests -> (count (@same_residue Pr d) digests <= c)%nat) (HF : key_list_within inputs digests q u F) :
  let N := length digests in let Q := (q + u + 1)%nat in
  (N * count (aimed x F) (worlds inputs digests) <= (Q * (Q - 1) + Q * (2 * c)) * N ^ length inputs)%nat.
Proof. exact (@C106_key_not_aimed_proof Pr Laws Tags x F inputs digests q u c Hu HS HS32 Hc HF). Qed.
Print Assumptions C106_key_not_aimed.

(** A program that asks for the digest of the list of 3*G and 5*G and ends, by the digest, with 4*G and 3*G or with 5*G and 3*G.  With the coefficient 1 for 5*G the latter gives 8*G; the coefficient of the second key is always 1. *)
Example C106_aimed_case :
  key_list_within gk_inputs gk_digests 1 2 aim_program /\ Z.of_nat 2 < @n_ Toy /\
  NoDup gk_digests /\ (forall d, In d gk_digests -> (count (@same_residue Toy d) gk_digests <= 1)%nat) /\
  aimed aim_x aim_program (gk_world 1 4 1) = true /\ aimed aim_x aim_program (gk_world 1 1 2) = false /\ aimed aim_x aim_program (gk_world 2 1 1) = false.
Proof. split; [exact aim_within|]. split; [reflexivity|]. split; [apply gk_distinct|]. split; [apply gk_distinct|]. repeat split; vm_compute; reflexivity. Qed.

(** C106, the error.  With the same notation, those hash functions with which [KeyAggContext::new] refuses the list with its error are at most the part (Q(Q-1) + cQ)/N, even if the program wants them to: nobody keeps a group from having a key. *)
Theorem C106_aggregation_refused {Pr : prims} {Laws : prims_ok Pr} {Tags : tags_ok Pr} (F : asker (list (point Pr))) (inputs digests : list bytes) (q u c : nat) (Hu : Z.of_nat u < n_) (HS : NoDup digests) (HS32 : forall d, In d digests -> length d = 32%nat) (Hc : forall d, In d digests -> (count (@same_residue Pr d) digests <= c)%nat) (HF : key_list_within inputs digests q u F) :
  let N := length digests in let Q := (q + u + 1)%nat in
  (N * count (refused F) (worlds inputs digests) <= (Q * (Q - 1) + Q * c) * N ^ length inputs)%nat.
Proof. exact (@C106_aggregation_refused_proof Pr Laws Tags F inputs digests q u c Hu HS HS32 Hc HF). Qed.
Print Assumptions C106_aggregation_refused.

(** The same program: the list of 4*G and 3*G, with the coefficient 7 for 4*G, has no key on the curve of order 31. *)
Example C106_refused_case : refused aim_program (gk_world 2 1 7) = true /\ refused aim_program (gk_world 2 1 1) = false /\ refused aim_program (gk_world 1 1 7) = false.
Proof. repeat split; vm_compute; reflexivity. Qed.
(** With 256-bit digests, of which at most two share a residue, 2^64 questions and lists of a thousand keys both parts are below 2^-127. *)
Example C106_size : let Q := 2 ^ 64 + 1000 + 1 in (Q * (Q - 1) + Q * (2 * 2)) * 2 ^ 127 < 2 ^ 256.
Proof. reflexivity. Qed.
