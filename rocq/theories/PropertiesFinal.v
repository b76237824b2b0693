(** Different sessions rarely have one nonce: C103. *)
From Coq Require Import String List.
From Verif Require Import Bytes BytesFacts Prims PrimsFacts TaggedHashes Errors SpecTags SpecBIP327
  Nonces SpecExtract SpecFork SpecFinal Toy ToyData ToyFork ToyBind ToyFinal.
Import ListNotations.
Open Scope list_scope.
Open Scope Z_scope.
From Verif Require Import ProofsFinal.

(** C103.  A program, which may know all secret nonces and keys, asks for at most q of k inputs and then ends with two sessions: aggregated nonces, aggregated keys and messages.  Let at most c of the N digests share a residue.
    Of the N^k hash functions, those with which the nonces R1 + b*R2 of the two sessions (or G in place of an infinite one) are the same up to sign, although the sessions differ and neither R2 is infinite,
    are at most the part 3(q+2)(q+1)c/2N.  The nonce coefficient hashes everything the session is about, so whoever picks the aggregated nonces does not get one nonce for two messages. *)
Theorem C103_sessions_apart {Pr : prims} {Laws : prims_ok Pr} {Tags : tags_ok Pr} (F : asker (sitting Pr * sitting Pr)) (inputs digests : list bytes) (q c : nat) (HS : NoDup digests) (HS32 : forall d, In d digests -> length d = 32%nat) (Hc : forall d, In d digests -> (count (@same_residue Pr d) digests <= c)%nat) (HF : sittings_within inputs digests q F) :
  let N := length digests in
  (2 * (N * count (two_sittings F) (worlds inputs digests)) <= (q + 2) * (q + 1) * (N ^ length inputs * (3 * c)))%nat.
Proof. exact (@C103_sessions_apart_proof Pr Laws Tags F inputs digests q c HS HS32 Hc HF). Qed.
Print Assumptions C103_sessions_apart.

(** A program that asks for the coefficient of one session, with the nonces 2*G and 3*G, and chooses the other session by the digest.  The digest 10 gives 2*G + 30*G = G; then three digests give the second session
    the same nonce up to sign, 10, 20 (2*G + 60*G is infinite) and 30 (2*G + 90*G = -G): the constant 3 is reached. *)
Example C103_case :
  let digests := @residues Toy in
  sittings_within sit_inputs digests 1 sit_program /\ (forall d, In d digests -> (count (@same_residue Toy d) digests <= 1)%nat) /\
  two_sittings sit_program (sit_world 10 10 3) = true /\ two_sittings sit_program (sit_world 10 20 3) = true /\ two_sittings sit_program (sit_world 10 30 3) = true /\
  two_sittings sit_program (sit_world 10 11 3) = false /\
  Nat.ltb ((1 + 2) * (1 + 1) * 3) (2 * 31) = true.
Proof. cbv zeta. split; [apply sit_within|]. split; [exact bind_few|]. repeat split; vm_compute; reflexivity. Qed.

(** With an infinite R2 it is otherwise, for every hash function: whatever a session is, there are for every key and message aggregated nonces, which the code accepts, that give the same nonce. *)
Theorem C103_infinite_second_refuted {Pr : prims} {Laws : prims_ok Pr} (an : agg_nonce Pr) (Q Q' : point Pr) (msg msg' : bytes) :
  exists an' : agg_nonce Pr, aggnonce_from_bytes (aggnonce_to_bytes an') = Ok an' /\
    final_nonce an' (nonce_coefficient an' Q' msg') = final_nonce an (nonce_coefficient an Q msg).
Proof. exact (@C103_infinite_second_refuted_proof Pr Laws an Q Q' msg msg'). Qed.
Print Assumptions C103_infinite_second_refuted.

(** The nonce of the session with 2*G and 3*G, for another message. *)
Example C103_infinite_case :
  let an := @AggNonce Toy (pval (tpt 2)) (pval (tpt 3)) in
  let R := final_nonce an (nonce_coefficient an (tpt 5) [x01]) in
  let an' := @AggNonce Toy (pval R) pt_O in
  pt_eqb (final_nonce an' (nonce_coefficient an' (tpt 5) [x02])) R = true.
Proof. vm_compute. reflexivity. Qed.
