(** A taproot output key commits to one internal key and one merkle root: C98. *)
From Coq Require Import String List.
From Verif Require Import Bytes BytesFacts Prims PrimsFacts TaggedHashes Errors SpecTags SpecBIP327
  KeyAgg SpecExtract SpecFork SpecCommit Toy ToyData ToyFork ToyCommit.
Import ListNotations.
Open Scope list_scope.
Open Scope Z_scope.
From Verif Require Import ProofsCommit.

(** C98.  A program asks for at most q of k inputs and ends with two openings of a taproot output key: an internal key, which is the aggregated key of any context however it was made
    and whatever tweaks it had, and a merkle root or none.  Of the N^k hash functions, those with which [with_taproot_tweak] gives both the same
    output key, up to its sign, although the x coordinates of the internal keys or the roots differ, are at most the part
    (q+2)(q+1)/N.  No bound on residues is needed, because digests that are not scalars are refused. *)
Theorem C98_taproot_one_opening {Pr : prims} {Laws : prims_ok Pr} {Tags : tags_ok Pr} (F : asker (opening Pr * opening Pr)) (inputs digests : list bytes) (q : nat) (HS : NoDup digests) (HS32 : forall d, In d digests -> length d = 32%nat) (HF : asks_within inputs digests (fun r => In (tap_question (fst r)) inputs /\ In (tap_question (snd r)) inputs) q F) :
  let N := length digests in
  (N * count (two_openings F) (worlds inputs digests) <= (q + 2) * (q + 1) * N ^ length inputs)%nat.
Proof. exact (@C98_taproot_one_opening_proof Pr Laws Tags F inputs digests q HS HS32 HF). Qed.
Print Assumptions C98_taproot_one_opening.

(** A program that asks about the group with a script tree and, depending on the digest, opens its output key as that group without scripts or as another group.
    When the first digest is 5, it succeeds with two of the 31 digests of the last question, 1 and 6: one for each sign of the output key.  The bound is 6/31. *)
Example C98_case :
  let digests := @residues Toy in
  asks_within tap_inputs digests (fun r => In (tap_question (fst r)) tap_inputs /\ In (tap_question (snd r)) tap_inputs) 1 tap_program /\
  NoDup digests /\ Nat.ltb ((1 + 2) * (1 + 1)) 31 = true /\
  filter (fun c => two_openings tap_program (tap_world 5 1 (Z.of_nat c))) (seq 0 31) = [1%nat; 6%nat] /\
  filter (fun b => two_openings tap_program (tap_world 4 (Z.of_nat b) 1)) (seq 0 31) = [4%nat; 11%nat].
Proof. cbv zeta. split; [apply tap_within|]. split; [apply (ProofsSecondFork.nodup_residues (Pr := Toy))|]. repeat split; vm_compute; reflexivity. Qed.

(** For an output key made beforehand the part is 2(q+1)/N: looking for another internal key or script
    takes as many questions as there are digests, not their square root. *)
Theorem C98_taproot_second_opening {Pr : prims} {Laws : prims_ok Pr} {Tags : tags_ok Pr} (o : opening Pr) (F : asker (opening Pr)) (inputs digests : list bytes) (q : nat) (HS : NoDup digests) (HS32 : forall d, In d digests -> length d = 32%nat) (Ho : In (tap_question o) inputs) (HF : asks_within inputs digests (fun r => In (tap_question r) inputs) q F) :
  let N := length digests in
  (N * count (other_opening o F) (worlds inputs digests) <= 2 * (q + 1) * N ^ length inputs)%nat.
Proof. exact (@C98_taproot_second_opening_proof Pr Laws Tags o F inputs digests q HS HS32 Ho HF). Qed.
Print Assumptions C98_taproot_second_opening.

(** The same program, looking for another opening of the output key of the group with the script tree. *)
Example C98_second_case :
  In (tap_question tap_script) tap_inputs /\ asks_within tap_inputs (@residues Toy) (fun r => In (tap_question r) tap_inputs) 1 tap_second /\
  other_opening tap_script tap_second (tap_world 5 1 6) = true /\ other_opening tap_script tap_second (tap_world 5 1 7) = false.
Proof. split; [apply tap_in; left; reflexivity|]. split; [apply tap_second_within|]. split; vm_compute; reflexivity. Qed.
