(** Concrete nonce builders on the toy curve, used by the examples. *)
From Coq Require Import List.
From Verif Require Import Bytes Prims Toy Nonces ToyData ToyRounds.
Import ListNotations.
Open Scope list_scope.

(** A builder with every field set but perhaps the secret key. *)
Definition toy_builder (sk : option (scalar Toy)) (extra : list bytes) : builder Toy :=
  {| nonce_seed_bytes := toy_seed; b_seckey := sk; b_pubkey := Some (base_mul sk_a);
     b_aggregated_pubkey := Some (tpt 5); b_message := Some toy_msg; b_extra_inputs := extra |}.
(** A one-byte message for which one of the nonce hashes is 0 modulo the group order. *)
Definition zero_msg : byte := x08.
