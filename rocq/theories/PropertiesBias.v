(** How far scalars made by reducing a digest modulo n are from uniform: C77. *)
From Coq Require Import String List Lia.
From Verif Require Import Bytes BytesFacts Prims PrimsFacts TaggedHashes Errors SpecTags SpecBIP327
  KeyAgg Nonces Signature Signing SpecSecp Secp256k1 SecpFacts Toy ToyData.
Import ListNotations.
Open Scope list_scope.
Open Scope Z_scope.
From Verif Require Import ProofsBias.

(** C77: reducing a 32-byte digest modulo n, as is done for challenges and coefficients, takes each
    value from a known number of digests: 2^256 / n rounded down, plus one for the values below
    2^256 mod n. *)
Theorem C77_reduction {Pr : prims} {Laws : prims_ok Pr} (v : mscalar Pr) :
exists D : list bytes, NoDup D /\
    (forall d, In d D <-> length d = 32%nat /\ reduce_from d = v) /\
    Z.of_nat (length D) = 2 ^ 256 / Zpos (@ord Pr) + (if fz v <? 2 ^ 256 mod Zpos (@ord Pr) then 1 else 0).
Proof. exact (@C77_reduction_proof Pr Laws v). Qed.
Print Assumptions C77_reduction.

Example C77_reduction_example :
  (** On the toy curve (n = 31) the value 3 comes from the digests encoding 3, 34, 65, ... *)
  fz (reduce_from (Pr := Toy) (be_enc 32 3)) = 3 /\ fz (reduce_from (Pr := Toy) (be_enc 32 34)) = 3 /\
  fz (reduce_from (Pr := Toy) (be_enc 32 35)) = 4 /\ 2 ^ 256 mod 31 = 2.
Proof. vm_compute. repeat split. Qed.

(** C77: the two secret nonces are made from digests by [nonce_scalar], which replaces zero by one.
    So the nonce 1 comes, besides from its own digests, from those of zero, and every other nonce
    exactly from its own. *)
Theorem C77_nonces {Pr : prims} {Laws : prims_ok Pr} (k : scalar Pr) :
exists D : list bytes, NoDup D /\
    (forall d, In d D <-> length d = 32%nat /\ nonce_scalar d = k) /\
    Z.of_nat (length D) =
      2 ^ 256 / Zpos (@ord Pr) + (if fz k <? 2 ^ 256 mod Zpos (@ord Pr) then 1 else 0)
      + (if fz k =? 1 then 2 ^ 256 / Zpos (@ord Pr) + (if 0 <? 2 ^ 256 mod Zpos (@ord Pr) then 1 else 0) else 0).
Proof. exact (@C77_nonces_proof Pr Laws k). Qed.
Print Assumptions C77_nonces.

Example C77_nonces_example :
  (** Digests of 0, 1 and 31 all give the toy nonce 1; that of 2 gives 2. *)
  map (fun z => fz (sval (nonce_scalar (Pr := Toy) (be_enc 32 z)))) [0; 1; 31; 32; 2] = [1; 1; 1; 1; 2].
Proof. vm_compute. reflexivity. Qed.

(** C77 on secp256k1: whatever set A of nonces one asks about, the number of digests giving a nonce
    in A exceeds the size of A by at most 2^256 - n + 1, which is below 2^129.  A uniformly random
    digest therefore lands in A with a probability that differs from (size of A) / 2^256 by less
    than 2^-127. *)
Theorem C77_secp_bias (r : bytes -> nat -> positive) (A : list (scalar (Secp r))) (HA : NoDup A) :
2 ^ 256 - py_n + 1 < 2 ^ 129 /\
  exists D : list bytes, NoDup D /\
    (forall d, In d D <-> length d = 32%nat /\ In (nonce_scalar d) A) /\
    Z.of_nat (length A) <= Z.of_nat (length D) <= Z.of_nat (length A) + (2 ^ 256 - py_n + 1).
Proof. exact (@C77_secp_bias_proof r A HA). Qed.
Print Assumptions C77_secp_bias.

Example C77_secp_bias_example (r : bytes -> nat -> positive) :
  (** The set holding only the nonce 1 has four digests: those of 0, n, 1 and n + 1. *)
  NoDup [@scalar_one (Secp r)] /\
  map (fun z => fz (sval (nonce_scalar (Pr := Secp r) (be_enc 32 z))) =? 1) [0; py_n; 1; py_n + 1; 2] = [true; true; true; true; false].
Proof. split; [repeat constructor; intros [] | vm_compute; reflexivity]. Qed.
