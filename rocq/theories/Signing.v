(** src/signing.rs: partial signatures. *)
From Verif Require Import Bytes Prims TaggedHashes Errors KeyAgg Nonces.
Open Scope Z_scope.

Section Signing.
Context {Pr : prims}.

(** src/signing.rs:21-35 [compute_challenge_hash_tweak]. *)
Definition compute_challenge_hash_tweak (nonce_x : bytes) (Q : point Pr) (msg : bytes)
  : mscalar Pr :=
  reduce_from (tagged BIP0340_CHALLENGE_TAG_DIGEST (nonce_x ++ pt_x Q ++ msg)).

(** [r.ok_or(e)?] on a lookup that may panic. (src/signing.rs:63-65.) *)
Definition lookup_or {E A} (r : res Empty_set (option A)) (e : E) : res E A :=
  match r with
  | Ok (Some a) => Ok a
  | Ok None => Err e
  | Err x => match x with end
  | Panic => Panic
  end.

(** src/signing.rs:147-189 [verify_partial_adaptor]. *)
Definition verify_partial_adaptor (c : key_agg_ctx Pr) (s : mscalar Pr) (an : agg_nonce Pr)
    (T : pt) (pk : point Pr) (pn : pub_nonce Pr) (msg : bytes) : res verify_error unit :=
  bind (lookup_or (effective_pubkey c pk) VE_UnknownKey) (fun eff =>
  let Q := pubkey c in
  let b := nonce_coefficient an Q msg in
  let final := final_nonce an b in
  let adapted := pt_add final T in
  let en := pt_add (pR1 pn) (pmul b (pR2 pn)) in
  let en := if pt_odd adapted then pt_neg en else en in
  let e := compute_challenge_hash_tweak (pt_x adapted) Q msg in
  let par := xorb (pt_odd Q) (parity_acc c) in
  let cp := pneg_if par (pmul e eff) in
  if negb (pt_eqb (gmul s) (pt_add en cp)) then Err VE_BadSignature else Ok tt).

(** src/signing.rs:206-223 [verify_partial]. *)
Definition verify_partial (c : key_agg_ctx Pr) (s : mscalar Pr) (an : agg_nonce Pr)
    (pk : point Pr) (pn : pub_nonce Pr) (msg : bytes) : res verify_error unit :=
  verify_partial_adaptor c s an pt_O pk pn msg.

(** src/signing.rs:49-102 [sign_partial_adaptor]. *)
Definition sign_partial_adaptor (c : key_agg_ctx Pr) (sk : scalar Pr) (sn : sec_nonce Pr)
    (an : agg_nonce Pr) (T : pt) (msg : bytes) : res signing_error (mscalar Pr) :=
  let pk := base_mul sk in
  bind (lookup_or (key_coefficient c pk) SE_UnknownKey) (fun a =>
  let Q := pubkey c in
  let pn := public_nonce sn in
  let b := nonce_coefficient an Q msg in
  let final := final_nonce an b in
  let adapted := pt_add final T in
  let d := fneg_if (xorb (pt_odd Q) (parity_acc c)) sk in
  let e := compute_challenge_hash_tweak (pt_x adapted) Q msg in
  let k := fneg_if (pt_odd adapted) (fadd (k1 sn) (fmul b (k2 sn))) in
  let s := fadd k (fmul (fmul e a) d) in
  bind (map_err signing_of_verify (verify_partial_adaptor c s an T pk pn msg)) (fun _ =>
  Ok s)).

(** src/signing.rs:116-131 [sign_partial]. *)
Definition sign_partial (c : key_agg_ctx Pr) (sk : scalar Pr) (sn : sec_nonce Pr)
    (an : agg_nonce Pr) (msg : bytes) : res signing_error (mscalar Pr) :=
  sign_partial_adaptor c sk sn an pt_O msg.

End Signing.
