(** BIP340 signatures with the nonce given: the last steps of "Default Signing" of the BIP text
    (see [SpecBIP327.schnorr_sign]), where the secret nonce is not derived but chosen. *)
From Coq Require Import String List.
From Verif Require Import Bytes Prims SpecTags SpecBIP327.
Import ListNotations.
Local Open Scope Z_scope.

Section Single.
Context {Pr : prims}.

(** [d_] is the secret key and [k_] the secret nonce, both between 1 and n - 1. *)
Definition sig_with_nonce (d_ k_ : Z) (msg : bytes) : bytes :=
  let P := point_mul pt_G d_ in
  let d := if has_even_y P then d_ else n_ - d_ in
  let R := point_mul pt_G k_ in
  let k := if has_even_y R then k_ else n_ - k_ in
  let e := int_from_bytes (tagged_hash "BIP0340/challenge" (xbytes R ++ xbytes P ++ msg)) mod n_ in
  xbytes R ++ bytes_from_int ((k + e * d) mod n_).

End Single.
