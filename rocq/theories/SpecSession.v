(** Small specification of a signing session on any context, in the vocabulary of the
    BIP327 reference (SpecBIP327.v) plus an optional adaptor point T added to the final
    nonce.  With T = infinity these are the equations of reference.py:331-463. *)
From Coq Require Import String.
From Coq Require Import List.
From Verif Require Import Bytes Prims SpecTags SpecBIP327 KeyAgg Nonces SpecView.
Import ListNotations.
Open Scope list_scope.
Open Scope Z_scope.

Section Session.
Context {Pr : prims}.

(** b, the nonce coefficient (reference.py:333). *)
Definition spec_b (c : key_agg_ctx Pr) (an : agg_nonce Pr) (msg : bytes) : Z :=
  int_from_bytes (tagged_hash "MuSig/noncecoef"
    (aggnonce_to_bytes an ++ xbytes (aggregated_pubkey c) ++ msg)) mod n_.

(** R1 + b*R2, before the replacement of infinity (reference.py:339). *)
Definition spec_R_raw (c : key_agg_ctx Pr) (an : agg_nonce Pr) (msg : bytes) : pt :=
  pt_add (aR1 an) (point_mul (aR2 an) (spec_b c an msg)).

(** The tuple of [get_session_values], the challenge being that of R + T. *)
Definition spec_values (c : key_agg_ctx Pr) (an : agg_nonce Pr) (T : pt) (msg : bytes) : values :=
  let Q := pval (aggregated_pubkey c) in
  let R' := spec_R_raw c an msg in
  let R := if negb (is_infinite R') then R' else pt_G in
  let e := int_from_bytes (tagged_hash "BIP0340/challenge"
             (xbytes (pt_add R T) ++ xbytes Q ++ msg)) mod n_ in
  Values Q (gacc_of (parity_acc c)) (fz (tweak_acc c)) (spec_b c an msg) R e.

(** g of the reference: 1 or -1 by the parity of Q. *)
Definition spec_g (v : values) : Z := if has_even_y (v_Q v) then 1 else n_ - 1.

(** The coefficient of a key. *)
Definition spec_a (c : key_agg_ctx Pr) (pk : point Pr) : Z :=
  key_agg_coeff (map ser_point (pubkeys c)) (ser_point pk).

(** The equation of [partial_sig_verify_internal]. *)
Definition psig_valid (c : key_agg_ctx Pr) (an : agg_nonce Pr) (T : pt) (msg : bytes)
    (pk : point Pr) (pn : pub_nonce Pr) (s : mscalar Pr) : Prop :=
  let v := spec_values c an T msg in
  let Re_ := pt_add (pR1 pn) (point_mul (pR2 pn) (v_b v)) in
  let Re := if has_even_y (pt_add (v_R v) T) then Re_ else pt_neg Re_ in
  let g' := spec_g v * v_gacc v mod n_ in
  point_mul pt_G (fz s) = pt_add Re (point_mul pk (v_e v * spec_a c pk * g' mod n_)).

(** The value computed by [sign]. *)
Definition spec_psig (c : key_agg_ctx Pr) (sk : scalar Pr) (sn : sec_nonce Pr)
    (an : agg_nonce Pr) (T : pt) (msg : bytes) : Z :=
  let v := spec_values c an T msg in
  let ev := has_even_y (pt_add (v_R v) T) in
  let k_1 := if ev then fz (k1 sn) else n_ - fz (k1 sn) in
  let k_2 := if ev then fz (k2 sn) else n_ - fz (k2 sn) in
  let d := spec_g v * v_gacc v * fz sk mod n_ in
  (k_1 + v_b v * k_2 + v_e v * spec_a c (base_mul sk) * d) mod n_.

(** The s value computed by [partial_sig_agg]. *)
Definition spec_agg_s (c : key_agg_ctx Pr) (an : agg_nonce Pr) (T : pt)
    (sigs : list (mscalar Pr)) (msg : bytes) : Z :=
  let v := spec_values c an T msg in
  (fold_right Z.add 0 (map fz sigs) + v_e v * spec_g v * v_tacc v) mod n_.

(** A Schnorr equation on the pre-signature (R, s) under key pk with adaptor T: the
    challenge commits to R + T, and R is negated when R + T is odd. *)
Definition presig_valid (pk : point Pr) (msg : bytes) (T R : pt) (s : mscalar Pr) : Prop :=
  let A := pt_add R T in
  let P := if has_even_y pk then pval pk else pt_neg pk in
  let e := int_from_bytes (tagged_hash "BIP0340/challenge" (xbytes A ++ xbytes pk ++ msg)) mod n_ in
  point_mul pt_G (fz s) = pt_add (if has_even_y A then R else pt_neg R) (point_mul P e).

End Session.
