(** A signature rarely verifies for two messages or two keys: C101. *)
From Coq Require Import String List.
From Verif Require Import Bytes BytesFacts Prims PrimsFacts TaggedHashes Errors SpecTags SpecBIP327
  Bip340 SpecExtract SpecFork SpecBind Toy ToyData ToyFork ToyBind.
Import ListNotations.
Open Scope list_scope.
Open Scope Z_scope.
From Verif Require Import ProofsBind.

(** C101.  A program, which may know all the secret keys, asks for at most q of k inputs and then ends with a signature and two keys with messages.  Let at most c of the N digests share a residue.
    Of the N^k hash functions, those with which the signature verifies for both, although the x coordinates of the keys or the messages differ, are at most the part (q+2)(q+1)c/2N.  So a signature commits to its message
    and to its key, even for whoever made it, with keys made for the purpose. *)
Theorem C101_signature_one_purpose {Pr : prims} {Laws : prims_ok Pr} {Tags : tags_ok Pr} (F : asker (bytes * (purpose Pr * purpose Pr))) (inputs digests : list bytes) (q c : nat) (HS : NoDup digests) (HS32 : forall d, In d digests -> length d = 32%nat) (Hc : forall d, In d digests -> (count (@same_residue Pr d) digests <= c)%nat) (HF : asks_within inputs digests (fun r => In (purpose_question (fst r) (fst (snd r))) inputs /\ In (purpose_question (fst r) (snd (snd r))) inputs) q F) :
  let N := length digests in
  (2 * (N * count (two_purposes F) (worlds inputs digests)) <= (q + 2) * (q + 1) * (N ^ length inputs * c))%nat.
Proof. exact (@C101_signature_one_purpose_proof Pr Laws Tags F inputs digests q c HS HS32 Hc HF). Qed.
Print Assumptions C101_signature_one_purpose.

(** The program knows the secret of 5*G, signs one message with it, and names by the parity of the digest another message of that key or of 3*G.  The signature serves for both if the challenges are equal, or if they make equal
    multiples of the keys: 7*(5*G) = 4*G = 9*(-3*G), where -3*G is the even one of 3*G and its opposite. *)
Example C101_case :
  let digests := @residues Toy in
  asks_within bind_inputs digests (fun r => In (purpose_question (fst r) (fst (snd r))) bind_inputs /\ In (purpose_question (fst r) (snd (snd r))) bind_inputs) 1 bind_program /\
  (forall d, In d digests -> (count (@same_residue Toy d) digests <= 1)%nat) /\
  two_purposes bind_program (bind_world 7 3 9) = true /\ two_purposes bind_program (bind_world 8 8 3) = true /\ two_purposes bind_program (bind_world 7 3 8) = false /\
  Nat.ltb ((1 + 2) * (1 + 1)) (2 * 31) = true.
Proof. cbv zeta. split; [apply bind_within|]. split; [exact bind_few|]. repeat split; vm_compute; reflexivity. Qed.

(** The same for a signature with a key and a message that are given: a second message or key is found at most with the part (q+1)c/N. *)
Theorem C101_signature_second_purpose {Pr : prims} {Laws : prims_ok Pr} {Tags : tags_ok Pr} (sig : bytes) (p : purpose Pr) (F : asker (purpose Pr)) (inputs digests : list bytes) (q c : nat) (HS : NoDup digests) (HS32 : forall d, In d digests -> length d = 32%nat) (Hc : forall d, In d digests -> (count (@same_residue Pr d) digests <= c)%nat) (Hp : In (purpose_question sig p) inputs) (HF : asks_within inputs digests (fun p' => In (purpose_question sig p') inputs) q F) :
  let N := length digests in
  (N * count (other_purpose sig p F) (worlds inputs digests) <= (q + 1) * (N ^ length inputs * c))%nat.
Proof. exact (@C101_signature_second_purpose_proof Pr Laws Tags sig p F inputs digests q c HS HS32 Hc Hp HF). Qed.
Print Assumptions C101_signature_second_purpose.

(** The signature made for the digest 7 of its challenge, and a program that asks for that challenge and then names another purpose. *)
Example C101_second_case :
  let digests := @residues Toy in
  In (purpose_question bind_sig bind_a) bind_inputs /\ asks_within bind_inputs digests (fun p' => In (purpose_question bind_sig p') bind_inputs) 1 bind_second /\
  other_purpose bind_sig bind_a bind_second (bind_world 7 3 9) = true /\ other_purpose bind_sig bind_a bind_second (bind_world 7 3 8) = false /\ Nat.ltb ((1 + 1) * 1) 31 = true.
Proof. cbv zeta. split; [apply bind_in; [reflexivity | left; reflexivity]|]. split; [apply bind_second_within|]. repeat split; vm_compute; reflexivity. Qed.
