(** The signatures a group can make are exactly the signatures a single signer with the
    aggregated key can make: C75. *)
From Coq Require Import String List Lia.
From Verif Require Import Bytes BytesFacts Prims PrimsFacts TaggedHashes Errors SpecTags SpecBIP327
  KeyAgg Nonces Signature Signing SigAgg Bip340 SpecCtx SpecView SpecSession SpecSingle Toy ToyData.
Import ListNotations.
Open Scope list_scope.
Open Scope Z_scope.
From Verif Require Import ProofsSingle.

(** C75.  A signature verifies exactly when it is what BIP340 signing gives with the secret key
    and one of the secret nonces between 1 and n - 1, and then there are two such nonces: k and
    n - k. *)
Theorem C75_single_signer {Pr : prims} {Laws : prims_ok Pr} {Tags : tags_ok Pr} (d : scalar Pr) (sig msg : bytes) :
  (verify_single_bytes (base_mul d) sig msg = Ok tt <-> exists k, 0 < k < n_ /\ sig = sig_with_nonce (fz d) k msg) /\
  (forall k k', 0 < k < n_ -> 0 < k' < n_ ->
     (sig_with_nonce (fz d) k msg = sig_with_nonce (fz d) k' msg <-> k' = k \/ k' = n_ - k)).
Proof. exact (@C75_single_signer_proof Pr Laws Tags d sig msg). Qed.
Print Assumptions C75_single_signer.

(** The 30 nonces give 15 signatures of one message under the key 3, and 15 of the pairs of one
    of the 15 x coordinates and an s verify. *)
Example C75_single_case :
  length (nodup (list_eq_dec Byte.byte_eq_dec) (map (fun k => sig_with_nonce (Pr := Toy) 3 (Z.of_nat k) toy_msg) (seq 1 30))) = 15%nat /\
  length (filter (fun p => is_ok (verify_single_bytes (tpt 3) (pt_x (tpt (Pos.of_nat (fst p))) ++ be_enc 32 (Z.of_nat (snd p))) toy_msg))
            (list_prod (seq 1 15) (seq 0 31))) = 15%nat.
Proof. split; vm_compute; reflexivity. Qed.

(** Two or more signers together can make exactly these signatures: whatever signature
    verifies under the aggregated key, tweaked or not, some run of the signers gives it, and no
    run gives another.  So nothing in a signature tells that it was made by a group, how large
    the group is, or how the key was tweaked. *)
Theorem C75_group {Pr : prims} {Laws : prims_ok Pr} {Tags : tags_ok Pr} (c : key_agg_ctx Pr) (sks : list (scalar Pr)) (d : scalar Pr) (sig msg : bytes) (Hc : ctx_reachable c) (Hk : map base_mul sks = pubkeys c) (Hd : base_mul d = aggregated_pubkey c) (Hn : (2 <= length sks)%nat) :
  (exists k, 0 < k < n_ /\ sig = sig_with_nonce (fz d) k msg) <->
  (exists (sns : list (sec_nonce Pr)) (sigs : list (mscalar Pr)) (sg : lifted_sig Pr),
     length sns = length sks /\ length sigs = length sks /\
     (forall i sk sn s, nth_error sks i = Some sk -> nth_error sns i = Some sn -> nth_error sigs i = Some s ->
        sign_partial c sk sn (agg_sum (map public_nonce sns)) msg = Ok s) /\
     aggregate_partial_signatures c (agg_sum (map public_nonce sns)) sigs msg = Ok sg /\
     lifted_to_bytes sg = sig).
Proof. exact (@C75_group_proof Pr Laws Tags c sks d sig msg Hc Hk Hd Hn). Qed.
Print Assumptions C75_group.

(** For [toy_c], whose key is d*G. *)
Example C75_group_case : ctx_reachable toy_c /\ map base_mul toy_sks = pubkeys toy_c /\ (2 <= length toy_sks)%nat /\
  point_eqb (base_mul (tsc 19)) (aggregated_pubkey toy_c) = true /\
  match aggregate_partial_signatures toy_c toy_an (toy_sigs pt_O) toy_msg with
  | Ok sg => existsb (fun k => if list_eq_dec Byte.byte_eq_dec (lifted_to_bytes sg) (sig_with_nonce (Pr := Toy) (fz (tsc 19)) (Z.of_nat k) toy_msg) then true else false) (seq 1 30)
  | _ => false
  end = true.
Proof. split; [exact toy_c_reach|]. split; [reflexivity|]. split; [cbn; lia|]. split; vm_compute; reflexivity. Qed.

(** The same for pre-signatures: every valid one with a finite nonce can come from the group. *)
Theorem C75_presignatures {Pr : prims} {Laws : prims_ok Pr} {Tags : tags_ok Pr} (c : key_agg_ctx Pr) (sks : list (scalar Pr)) (T : pt) (sg : adaptor_sig Pr) (msg : bytes) (Hc : ctx_reachable c) (Hk : map base_mul sks = pubkeys c) (Hn : (2 <= length sks)%nat) :
  (a_R sg <> pt_O /\ verify_single_adaptor (aggregated_pubkey c) sg msg T = Ok tt) <->
  (exists (sns : list (sec_nonce Pr)) (sigs : list (mscalar Pr)),
     length sns = length sks /\ length sigs = length sks /\
     (forall i sk sn s, nth_error sks i = Some sk -> nth_error sns i = Some sn -> nth_error sigs i = Some s ->
        sign_partial_adaptor c sk sn (agg_sum (map public_nonce sns)) T msg = Ok s) /\
     aggregate_partial_adaptor_signatures c (agg_sum (map public_nonce sns)) T sigs msg = Ok sg).
Proof. exact (@C75_presignatures_proof Pr Laws Tags c sks T sg msg Hc Hk Hn). Qed.
Print Assumptions C75_presignatures.

(** The pre-signature of the toy session. *)
Example C75_presignature_case : ctx_reachable toy_c /\ map base_mul toy_sks = pubkeys toy_c /\ (2 <= length toy_sks)%nat /\
  ok_and (aggregate_partial_adaptor_signatures toy_c toy_an toy_T (toy_sigs toy_T) toy_msg)
    (fun sg => negb (is_infinite (a_R sg)) && is_ok (verify_single_adaptor (aggregated_pubkey toy_c) sg toy_msg toy_T)) = true.
Proof. split; [exact toy_c_reach|]. split; [reflexivity|]. split; [cbn; lia|]. vm_compute; reflexivity. Qed.
