(** src/sig_agg.rs: aggregation of partial signatures. *)
From Verif Require Import Bytes Prims TaggedHashes Errors KeyAgg Nonces Signature Signing.
Open Scope Z_scope.

Section SigAgg.
Context {Pr : prims}.

(** src/sig_agg.rs:17-55 [aggregate_partial_adaptor_signatures]. *)
Definition aggregate_partial_adaptor_signatures (c : key_agg_ctx Pr) (an : agg_nonce Pr)
    (T : pt) (sigs : list (mscalar Pr)) (msg : bytes) : res verify_error (adaptor_sig Pr) :=
  let Q := pubkey c in
  let b := nonce_coefficient an Q msg in
  let final := final_nonce an b in
  let adapted := pt_add final T in
  let e := compute_challenge_hash_tweak (pt_x adapted) Q msg in
  let s := fadd (fsum sigs) (fneg_if (pt_odd Q) (fmul e (tweak_acc c))) in
  let en := if negb (pt_odd adapted) then final else neg_point final in
  if negb (pt_eqb (gmul s) (pt_add en (pmul e (even_point Q)))) then Err VE_BadSignature
  else Ok {| a_R := final; a_s := s |}.

(** src/sig_agg.rs:62-84 [aggregate_partial_signatures]; the [expect] is a
    possible panic. *)
Definition aggregate_partial_signatures (c : key_agg_ctx Pr) (an : agg_nonce Pr)
    (sigs : list (mscalar Pr)) (msg : bytes) : res verify_error (lifted_sig Pr) :=
  bind (aggregate_partial_adaptor_signatures c an pt_O sigs msg) (fun sg =>
  unwrap (adapt sg fzero)).

End SigAgg.
