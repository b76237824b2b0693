(** RFC 6979, section 3.2, for a group order of 256 bits and a hash of 32 bytes, and HMAC as
    in RFC 2104.  Independent of the model: only the hash and the reference's integer
    conversions are used. *)
From Coq Require Import List.
From Verif Require Import Bytes Prims SpecBIP327.
Import ListNotations.
Open Scope list_scope.
Open Scope Z_scope.

Section Rfc6979.
Context {Pr : prims}.

(** RFC 2104, section 2, with B = 64: keys longer than a block are hashed, shorter ones are
    padded with zeros. *)
Definition rfc_block_key (key : bytes) : bytes :=
  let k := if (64 <? length key)%nat then sha256 key else key in
  k ++ zeros (64 - length k).
(** Every byte of a string XORed with one byte. *)
Definition rfc_xor (b : bytes) (c : Z) : bytes := map (fun x => z2b (Z.lxor (b2z x) c)) b.
(** RFC 2104, section 2, with opad 0x5c and ipad 0x36. *)
Definition rfc_hmac (key text : bytes) : bytes :=
  let k := rfc_block_key key in
  sha256 (rfc_xor k 92 ++ sha256 (rfc_xor k 54 ++ text)).

(** Section 2.3.2 - 2.3.4 with qlen = hlen = 256: [bits2int] is the big-endian integer,
    [bits2octets] reduces it modulo the order. *)
Definition bits2octets (h1 : bytes) : bytes := bytes_from_int (int_from_bytes h1 mod n_).

(** Section 3.2, steps b - g, on the octets [z] that step d calls bits2octets(h1). *)
Definition rfc_start (x : Z) (z : bytes) : bytes * bytes :=
  let V0 := repeat x01 32 in
  let K0 := repeat x00 32 in
  let K1 := rfc_hmac K0 (V0 ++ [x00] ++ bytes_from_int x ++ z) in
  let V1 := rfc_hmac K1 V0 in
  let K2 := rfc_hmac K1 (V1 ++ [x01] ++ bytes_from_int x ++ z) in
  (K2, rfc_hmac K2 V1).
(** Step h: the octets T of one iteration, and the state for the next one. *)
Definition rfc_T (KV : bytes * bytes) : bytes := rfc_hmac (fst KV) (snd KV).
(** Step h.3: the state after a candidate that was refused. *)
Definition rfc_retry (KV : bytes * bytes) : bytes * bytes :=
  let T := rfc_T KV in
  let K := rfc_hmac (fst KV) (T ++ [x00]) in
  (K, rfc_hmac K T).
(** The state before candidate number [i]. *)
Fixpoint rfc_state (x : Z) (z : bytes) (i : nat) : bytes * bytes :=
  match i with O => rfc_start x z | S i => rfc_retry (rfc_state x z i) end.
(** Candidate number [i], as an integer. *)
Definition rfc_candidate (x : Z) (z : bytes) (i : nat) : Z := int_from_bytes (rfc_T (rfc_state x z i)).

(** [k] is the first candidate in [1, n), at iteration [i]. *)
Definition rfc_first (x : Z) (z : bytes) (i : nat) (k : Z) : Prop :=
  rfc_candidate x z i = k /\ 1 <= k < n_ /\
  forall j, (j < i)%nat -> ~ 1 <= rfc_candidate x z j < n_.
(** The nonce RFC 6979 gives for the secret key [x] and the message. *)
Definition rfc6979_nonce (x : Z) (msg : bytes) (k : Z) : Prop :=
  exists i, rfc_first x (bits2octets (sha256 msg)) i k.

End Rfc6979.
