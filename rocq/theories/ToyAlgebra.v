(** A finished session on the toy curve, the signature that came out of it, and another one. *)
From Coq Require Import List.
From Verif Require Import Bytes Prims PrimsFacts KeyAgg KeyAggFacts Nonces Errors Signature Signing SpecBIP327 SpecSession SpecCtx SpecReuse SpecAlgebra Toy ToyData ToyReuse.
Import ListNotations.
Local Open Scope Z_scope.

(** The signer of 3*G has answered 14 in a session with 13*G, with the nonces 7 and 11. *)
Definition alg_session : closed Toy :=
  Closed (public_nonce (mk_sn 7 11)) (Use reuse_c (reuse_an 2 2) pt_O toy_msg (of_Z 31 14)).
Lemma alg_session_ok : session_of (base_mul (tsc 3)) alg_session.
Proof. split; [exact reuse_c_reach|]. split; [apply in_toy; vm_compute; reflexivity | vm_compute; reflexivity]. Qed.
(** The signature that came out of the session: its nonce is 16*G. *)
Definition alg_honest : bytes := (@pt_x Toy (pval (tpt 16)) ++ be_enc 32 30)%list.
(** Another one of both signers, with the nonce 9*G. *)
Definition alg_other : bytes := (@pt_x Toy (pval (tpt 9)) ++ be_enc 32 18)%list.
(** A combination without nonces. *)
Definition alg_plain (g p : Z) : rep := Rep g p (fun _ => 0) (fun _ => 0).
(** The other signer's nonces are 26 and 22, and the nonce coefficient is 7. *)
Definition alg_nonce : rep := Rep (26 + 7 * 22) 0 (fun _ => 1) (fun _ => 7).
(** 9*G as another combination of the nonces. *)
Definition alg_mixed : rep := Rep 7 0 (fun _ => 1) (fun _ => 8).
(** The other signer's key is known. *)
Definition alg_keys (K : point Toy) : rep := if pt_eqb (pval K) (pval (base_mul (tsc 3))) then alg_plain 0 1 else alg_plain 13 0.
(** The combinations for both signatures. *)
Definition alg_mix (sig : bytes) (r : rep) : rep := plus r (forged_E reuse_c sig toy_msg) (sum_rep (pubkeys reuse_c) alg_keys).
Lemma alg_stands r (X : @pt Toy) : 
  fz (X : mscalar Toy) =? fz (pt_add (pt_add (point_mul pt_G (on_G r)) (point_mul (pval (base_mul (tsc 3))) (on_P r)))
    (over_points [alg_session] (fun j z => pt_add (point_mul (pval (pR1 (z_nonce z))) (on_R1 r j)) (point_mul (pval (pR2 (z_nonce z))) (on_R2 r j)))) : mscalar Toy) = true ->
  stands (base_mul (tsc 3)) [alg_session] r X.
Proof. intro H. apply Z.eqb_eq in H. unfold stands. apply fe_ext. exact H. Qed.
Lemma alg_keys_stand K : In K (pubkeys reuse_c) -> stands (base_mul (tsc 3)) [alg_session] (alg_keys K) (pval K).
Proof.
  intro H. change (In K (ordered_pubkeys reuse_c)) in H.
  assert (N : key_agg_new reuse_keys = Ok reuse_c) by apply ok_val_eq.
  apply key_agg_new_Ok in N as (_ & _ & _ & N & _). rewrite N in H.
  destruct H as [<- | [<- | []]]; apply alg_stands; vm_compute; reflexivity.
Qed.
