(** src/deterministic.rs: RFC6979 nonces. *)
From Verif Require Import Bytes Prims Errors Nonces Signature Signing Bip340.
Open Scope Z_scope.

Section Deterministic.
Context {Pr : prims}.

(** src/deterministic.rs:24-30 [hmac_sha256], by the definition of HMAC (RFC 2104)
    for a 32-byte key and a 64-byte block. *)
Definition hmac_sha256 (key msg : bytes) : bytes :=
  let k := key ++ zeros 32 in
  let ipad := map (xor_byte x36) k in
  let opad := map (xor_byte x5c) k in
  sha256 (opad ++ sha256 (ipad ++ msg)).

(** src/deterministic.rs:67-82: the loop from state [(K, V)].  The Rust loop is
    unbounded; here it takes fuel and [None] means that it is still running. *)
Fixpoint rfc6979_loop (fuel : nat) (K V : bytes) : option (scalar Pr) :=
  match fuel with
  | O => None
  | S f =>
      let V := hmac_sha256 K V in
      match parse_scalar V with
      | Some k => Some k
      | None =>
          let K := hmac_sha256 K (V ++ [x00]) in
          let V := hmac_sha256 K V in
          rfc6979_loop f K V
      end
  end.

(** src/deterministic.rs:35-65: the state before the loop. *)
Definition rfc6979_init (sk : scalar Pr) (msg : bytes) : bytes * bytes :=
  let h1 := sha256 msg in
  let V := repeat x01 32 in
  let K := zeros 32 in
  let K := hmac_sha256 K (V ++ [x00] ++ ser_scalar sk ++ h1) in
  let V := hmac_sha256 K V in
  let K := hmac_sha256 K (V ++ [x01] ++ ser_scalar sk ++ h1) in
  let V := hmac_sha256 K V in
  (K, V).

(** src/deterministic.rs:34-83 [derive_nonce_rfc6979]. *)
Definition derive_nonce_rfc6979 (fuel : nat) (sk : scalar Pr) (msg : bytes)
  : option (scalar Pr) :=
  let (K, V) := rfc6979_init sk msg in rfc6979_loop fuel K V.

(** src/deterministic.rs:91-99 [adaptor::sign_solo]. *)
Definition det_sign_solo_adaptor (fuel : nat) (sk : scalar Pr) (msg : bytes) (T : pt)
  : option (adaptor_sig Pr) :=
  match derive_nonce_rfc6979 fuel sk msg with
  | None => None
  | Some aux => Some (sign_solo_adaptor sk msg (ser_scalar aux) T)
  end.

(** src/deterministic.rs:103-110 [sign_solo]. *)
Definition det_sign_solo (fuel : nat) (sk : scalar Pr) (msg : bytes)
  : option (res Empty_set (lifted_sig Pr)) :=
  match derive_nonce_rfc6979 fuel sk msg with
  | None => None
  | Some aux => Some (sign_solo sk msg (ser_scalar aux))
  end.

End Deterministic.
