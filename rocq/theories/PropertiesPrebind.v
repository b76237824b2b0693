(** What an adaptor signature commits its maker to: C102. *)
From Coq Require Import String List.
From Verif Require Import Bytes BytesFacts Prims PrimsFacts TaggedHashes Errors SpecTags SpecBIP327
  Signature Signing Bip340 SpecExtract SpecFork SpecBind SpecPrebind Toy ToyData ToyFork ToyBind ToyPrebind.
Import ListNotations.
Open Scope list_scope.
Open Scope Z_scope.
From Verif Require Import ProofsPrebind.

(** C102.  A program, which may know all the secret keys, asks for at most q of k inputs and then ends with an adaptor signature, an adaptor point and two keys with messages.  Let at most c of the N digests share a residue.
    Of the N^k hash functions, those with which the adaptor signature verifies under that point for both, although the x coordinates of the keys or the messages differ, are at most the part (q+2)(q+1)c/2N.
    With one adaptor point an adaptor signature commits its maker as a signature does (C101). *)
Theorem C102_presignature_one_purpose {Pr : prims} {Laws : prims_ok Pr} {Tags : tags_ok Pr} (F : asker (pre_claim Pr)) (inputs digests : list bytes) (q c : nat) (HS : NoDup digests) (HS32 : forall d, In d digests -> length d = 32%nat) (Hc : forall d, In d digests -> (count (@same_residue Pr d) digests <= c)%nat) (HF : pre_within inputs digests q F) :
  let N := length digests in
  (2 * (N * count (two_pre_purposes F) (worlds inputs digests)) <= (q + 2) * (q + 1) * (N ^ length inputs * c))%nat.
Proof. exact (@C102_presignature_one_purpose_proof Pr Laws Tags F inputs digests q c HS HS32 Hc HF). Qed.
Print Assumptions C102_presignature_one_purpose.

(** The program knows the secret of 5*G and that of the nonce 4*G, signs one message with it under the adaptor point 5*G, and names by the parity of the digest another message of that key or of 3*G. *)
Example C102_case :
  let digests := @residues Toy in
  pre_within bind_inputs digests 1 pre_program /\ (forall d, In d digests -> (count (@same_residue Toy d) digests <= 1)%nat) /\
  two_pre_purposes pre_program (bind_world 7 3 9) = true /\ two_pre_purposes pre_program (bind_world 8 8 3) = true /\ two_pre_purposes pre_program (bind_world 7 3 8) = false /\
  Nat.ltb ((1 + 2) * (1 + 1)) (2 * 31) = true.
Proof. cbv zeta. split; [apply pre_within_case|]. split; [exact bind_few|]. repeat split; vm_compute; reflexivity. Qed.

(** With two adaptor points it does not: whoever has the secret key makes, for any two messages, one adaptor signature that verifies for the first message under one adaptor point and for the second message
    under another, and knows the secrets of both points.  All that is needed is an adapted nonce x*G with an even y and one x'*G with an odd y; there is no condition on the hash function.  So whoever accepts an adaptor signature
    is not assured that it was made for the message and the point they were shown only. *)
Theorem C102_two_points_refuted {Pr : prims} {Laws : prims_ok Pr} (sk : scalar Pr) (msg msg' : bytes) (x x' : mscalar Pr) (Hx : pt_odd (gmul x) = false) (Hx' : pt_odd (gmul x') = true) :
  exists (sg : adaptor_sig Pr) (t t' : mscalar Pr),
    verify_single_adaptor (base_mul sk) sg msg (gmul t) = Ok tt /\ verify_single_adaptor (base_mul sk) sg msg' (gmul t') = Ok tt /\
    pt_add (a_R sg) (gmul t) = gmul x /\ pt_add (a_R sg) (gmul t') = gmul x'.
Proof. exact (@C102_two_points_refuted_proof Pr Laws sk msg msg' x x' Hx Hx'). Qed.
Print Assumptions C102_two_points_refuted.

(** On the toy curve, with the key 5*G and two messages. *)
Example C102_two_points_case :
  verify_single_adaptor (tpt 5) pre_double [x01] (gmul pre_t) = Ok tt /\ verify_single_adaptor (tpt 5) pre_double [x02] (gmul pre_t') = Ok tt /\ fz pre_t <> fz pre_t'.
Proof. vm_compute. repeat split; discriminate. Qed.
