(** Secrets on the toy curve that show in the control flow. *)
From Coq Require Import String List.
From Verif Require Import Bytes Prims PrimsFacts KeyAgg Nonces ControlFlow Toy ToyData ToyNonces.
Import ListNotations.
Local Open Scope list_scope.

(** A builder one of whose hashes is 0 modulo the group order. *)
Definition flow_builder : builder Toy := with_message (toy_builder (Some sk_a) [[x01; x02]]) [zero_msg].
(** A seed. *)
Definition toy_flow_seed : bytes := repeat x05 32.
(** The same builder with another seed. *)
Definition reseeded (b : builder Toy) : builder Toy :=
  {| nonce_seed_bytes := toy_flow_seed; b_seckey := b_seckey b; b_pubkey := b_pubkey b;
     b_aggregated_pubkey := b_aggregated_pubkey b; b_message := b_message b; b_extra_inputs := b_extra_inputs b |}.
(** Whether an event is one of the branches for a zero hash, taken. *)
Definition zero_taken (e : event) : bool :=
  match e with
  | Branch p t => t && (String.eqb p "nonces.rs:396" || String.eqb p "nonces.rs:400" || String.eqb p "bip340.rs:61")
  | _ => false
  end.
(** A secret key whose BIP340 nonce hash is 0 modulo the group order, with [toy_flow_seed] and [toy_msg]. *)
Definition flow_sk : scalar Toy := tsc 13.
Lemma toy_third_key : nth_error (pubkeys toy_c) 2 = Some (base_mul sk_a).
Proof. reflexivity. Qed.
