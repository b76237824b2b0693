(** What arrives in a toy session whose messages are bytes. *)
From Coq Require Import List.
From Verif Require Import Bytes Prims Errors KeyAgg Nonces Signature Rounds SpecRounds SpecWire Toy ToyData ToyRounds.
Import ListNotations.
Local Open Scope nat_scope.

(** The bytes signer [i] sends in the first round. *)
Definition wire_nonce (i : nat) : bytes := pubnonce_to_bytes (toy_pn i).
(** Unreadable bytes arrive before the nonces of all three signers, under their names, and after them the nonces again under other names. *)
Definition wire_first : list (nat * bytes) :=
  [(1, zeros 66); (0, wire_nonce 0); (2, firstn 65 (wire_nonce 2)); (2, wire_nonce 2); (9, wire_nonce 1); (1, wire_nonce 1); (1, wire_nonce 2); (0, wire_nonce 1)].
(** The same for the partial signatures: too short, not below the order, somebody else's. *)
Definition wire_second : list (nat * bytes) :=
  [(0, ser_scalar (toy_s 2)); (2, zeros 31); (1, repeat xff 32); (1, ser_scalar (toy_s 1)); (2, ser_scalar (toy_s 2)); (0, ser_scalar (toy_s 0)); (7, ser_scalar (toy_s 0))].
