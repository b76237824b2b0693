(** Programs that choose their batch after asking for digests rarely fool batch verification: C96. *)
From Coq Require Import String List.
From Verif Require Import Bytes BytesFacts Prims PrimsFacts TaggedHashes Errors SpecTags SpecBIP327
  KeyAgg Nonces Signature Signing SigAgg Bip340 SpecBatch SpecExtract SpecFork SpecBatchForger Toy ToyData ToyFork ToyBatchForger.
Import ListNotations.
Open Scope list_scope.
Open Scope Z_scope.
From Verif Require Import ProofsBatchForger.

(** C96.  A program asks for at most q of k inputs and ends with at most M signatures, their keys and messages.  C65 counts the coefficients that
    accept rows fixed beforehand; this program may choose its rows from the digests it got, the seed among
    them.  Let at most r of the N digests, as seeds, accept fixed rows that are not all valid, and let at most c have the same residue.
    Of the N^k hash functions, those with which batch verification accepts and some signature does
    not verify on its own, the program having asked for the challenges and the seed, are at most the part (2qr + (M+1)q(q-1)c)/2N.  So the seed need not contain the nonces, the keys and the messages: the
    challenges stand for them.  Pre-signatures are left out, for their nonces are not in
    the challenges and the claim is false of them (C25). *)
Theorem C96_batch_forger_asking_rare {Pr : prims} {Laws : prims_ok Pr} {Tags : tags_ok Pr} (M : nat) (F : asker (list (entry Pr))) (inputs digests : list bytes) (q c r : nat) (HS : NoDup digests) (HS32 : forall d, In d digests -> length d = 32%nat) (Hc : forall d, In d digests -> (count (same_residue d) digests <= c)%nat) (Hr : @generator_good Pr M r digests) (HF : asks_within inputs digests (fun _ => True) q F) :
  let N := length digests in
  (2 * (N * count (batch_fooled_asking M F) (worlds inputs digests)) <= (2 * q * r + (M + 1) * (q * (q - 1)) * c) * N ^ length inputs)%nat.
Proof. exact (@C96_batch_forger_asking_rare_proof Pr Laws Tags M F inputs digests q c r HS HS32 Hc Hr HF). Qed.
Print Assumptions C96_batch_forger_asking_rare.

(** On the toy curve, with the 31 residues as digests: a program that asks for a challenge and for the seed of two
    wrong signatures with that challenge.  It succeeds when the seed is 7, not when it is 8, and at most with 9 of 31 hash functions. *)
Example C96_asking_case :
  let digests := @residues Toy in
  asks_within bat_inputs digests (fun _ => True) 2 bat_forger /\
  forallb (fun d => Nat.eqb (count (@same_residue Toy d) digests) 1) digests = true /\
  forallb (fun d => Nat.leb (count (@same_draw Toy d) digests) 3) digests = true /\
  batch_fooled_asking 2 bat_forger (bat_world 7) = true /\ batch_fooled_asking 2 bat_forger (bat_world 8) = false /\
  Nat.ltb (2 * 2 * 3 + (2 + 1) * (2 * (2 - 1)) * 1) (2 * 31) = true.
Proof. cbv zeta. split; [exact bat_within|]. repeat split; vm_compute; reflexivity. Qed.

(** The same without the condition that the program asked: whoever verifies asks for at most M challenges and the seed. *)
Theorem C96_batch_forger_rare {Pr : prims} {Laws : prims_ok Pr} {Tags : tags_ok Pr} (M : nat) (F : asker (list (entry Pr))) (inputs digests : list bytes) (q c r : nat) (HS : NoDup digests) (HS32 : forall d, In d digests -> length d = 32%nat) (Hc : forall d, In d digests -> (count (same_residue d) digests <= c)%nat) (Hr : @generator_good Pr M r digests) (HF : batch_within M inputs digests q F) :
  let N := length digests in
  let q' := (q + M + 1)%nat in
  (2 * (N * count (batch_fooled M F) (worlds inputs digests)) <= (2 * q' * r + (M + 1) * (q' * (q' - 1)) * c) * N ^ length inputs)%nat.
Proof. exact (@C96_batch_forger_rare_proof Pr Laws Tags M F inputs digests q c r HS HS32 Hc Hr HF). Qed.
Print Assumptions C96_batch_forger_rare.

(** The same two signatures made without asking for anything, in the hope that the challenge will be 4 and the seed 7. *)
Example C96_guessing_case :
  let digests := @residues Toy in let blind := Give (bat_batch (be_enc 32 4)) in
  batch_within 2 bat_blind_inputs digests 0 blind /\
  batch_fooled 2 blind (bat_blind_world 4 7) = true /\ batch_fooled 2 blind (bat_blind_world 4 8) = false /\ batch_fooled 2 blind (bat_blind_world 5 7) = false /\
  Nat.ltb (2 * 3 * 3 + (2 + 1) * (3 * (3 - 1)) * 1) (2 * 31) = true.
Proof. cbv zeta. split; [exact bat_blind_within|]. repeat split; vm_compute; reflexivity. Qed.

(** With at most two signatures the condition on the generator is that at most r of the digests have the same first draw. *)
Theorem C96_two_signatures {Pr : prims} {Laws : prims_ok Pr} {Tags : tags_ok Pr} (digests : list bytes) (r : nat) (H : forall d, In d digests -> (count (@same_draw Pr d) digests <= r)%nat) :
  @generator_good Pr 2 r digests.
Proof. exact (@C96_two_signatures_proof Pr Laws Tags digests r H). Qed.
Print Assumptions C96_two_signatures.

(** The 31 residues on the toy curve: no first draw comes up more than three times. *)
Example C96_two_case : forall d, In d (@residues Toy) -> (count (@same_draw Toy d) (@residues Toy) <= 3)%nat.
Proof.
  assert (E : forallb (fun d => Nat.leb (count (@same_draw Toy d) (@residues Toy)) 3) (@residues Toy) = true) by (vm_compute; reflexivity).
  rewrite forallb_forall in E. intros d Hd. apply PeanoNat.Nat.leb_le, E, Hd.
Qed.
