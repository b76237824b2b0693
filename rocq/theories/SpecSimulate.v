(** The simulator of a signer: a first public nonce that fits a given partial signature, made
    without the secret key. *)
From Coq Require Import String.
From Verif Require Import Bytes Prims SpecTags SpecBIP327 KeyAgg Nonces SpecView SpecSession.
Local Open Scope Z_scope.

Section Simulate.
Context {Pr : prims}.

(** [b] and [e] are the nonce coefficient and the challenge, [even] is whether the final nonce
    has even y; [s] and [k2] are chosen freely. *)
Definition sim_nonce (c : key_agg_ctx Pr) (pk : point Pr) (b e : Z) (even : bool) (s k2 : Z) : pt :=
  let g := (if has_even_y (aggregated_pubkey c) then 1 else -1) * gacc_of (parity_acc c) in
  let X := pt_add (point_mul pt_G s) (pt_neg (point_mul pk (e * spec_a c pk * g))) in
  pt_add (if even then X else pt_neg X) (pt_neg (point_mul pt_G (b * k2))).

End Simulate.
