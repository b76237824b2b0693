(** Small specification of BIP340 batch verification (bip-0340, "Batch Verification"),
    for any list of coefficients, extended with adaptor pre-signatures. *)
From Coq Require Import String List.
From Verif Require Import Bytes Prims Errors SpecBIP327 Signature Bip340.
Import ListNotations.
Open Scope list_scope.
Open Scope Z_scope.

Section SpecBatch.
Context {Pr : prims}.

(** What a batch is made of: finished signatures or pre-signatures with their adaptor point. *)
Inductive batch_item : Type :=
| Finished (pk : point Pr) (msg : bytes) (sg : lifted_sig Pr)
| Encrypted (pk : point Pr) (msg : bytes) (sg : adaptor_sig Pr) (T : pt).

(** The row the code builds for an item (src/bip340.rs:199-246). *)
Definition item_row (it : batch_item) : batch_row Pr :=
  match it with
  | Finished pk msg sg => row_from_signature pk msg sg
  | Encrypted pk msg sg T => row_from_adaptor pk msg sg T
  end.

(** The verdict of the one-by-one verifier on an item (src/bip340.rs:117-180). *)
Definition item_verdict (it : batch_item) : res verify_error unit :=
  match it with
  | Finished pk msg sg => verify_single_lifted pk sg msg
  | Encrypted pk msg sg T => verify_single_adaptor pk sg msg T
  end.

(** Every [LiftedSignature] of the crate has an even nonce (src/signature.rs:49-95). *)
Definition item_wf (it : batch_item) : Prop :=
  match it with Finished _ _ sg => has_even_y (l_R sg) = true | Encrypted _ _ _ _ => True end.

(** The Schnorr equation of one row: s*G = R + e*P with P of even parity. *)
Definition row_valid (r : batch_row Pr) : Prop :=
  let P := if has_even_y (row_pubkey r) then pval (row_pubkey r) else pt_neg (row_pubkey r) in
  point_mul pt_G (fz (row_s r)) = pt_add (row_R r) (point_mul P (fz (row_challenge r))).

(** The two sides of the batch equation for given coefficients: the sum of a_i*s_i, and the
    sum of a_i*R_i + (a_i*e_i)*P_i. *)
Fixpoint batch_lhs (cs : list (mscalar Pr)) (rows : list (batch_row Pr)) : Z :=
  match cs, rows with
  | a :: cs', r :: rows' => fz a * fz (row_s r) + batch_lhs cs' rows'
  | _, _ => 0
  end.
(** The right hand side: the sum of a_i*R_i + (a_i*e_i)*P_i. *)
Fixpoint batch_rhs (cs : list (mscalar Pr)) (rows : list (batch_row Pr)) : pt :=
  match cs, rows with
  | a :: cs', r :: rows' =>
      let P := if has_even_y (row_pubkey r) then pval (row_pubkey r) else pt_neg (row_pubkey r) in
      pt_add (pt_add (point_mul (row_R r) (fz a)) (point_mul P (fz a * fz (row_challenge r) mod n_)))
             (batch_rhs cs' rows')
  | _, _ => pt_O
  end.
(** The two sides agree. *)
Definition batch_equation (cs : list (mscalar Pr)) (rows : list (batch_row Pr)) : Prop :=
  point_mul pt_G (batch_lhs cs rows mod n_) = batch_rhs cs rows.

(** The coefficients of a batch: 1, then the scalars drawn from a generator seeded with the
    tagged hash of all challenges followed by all s values, as BIP340 recommends. *)
Definition batch_coefficients (rows : list (batch_row Pr)) : list (mscalar Pr) :=
  let seed := tagged_hash "BIP0340/batch"
    (concat (map (fun r => bytes_from_int (fz (row_challenge r))) rows)
     ++ concat (map (fun r => bytes_from_int (fz (row_s r))) rows)) in
  match rows with
  | [] => []
  | _ :: others => fone :: map (rng_scalar seed) (seq 0 (length others))
  end.

End SpecBatch.
Arguments batch_item Pr : clear implicits.
